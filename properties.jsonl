{"id": "C01", "title": "Growing a box yields the least box around old contents and the new point", "statement": "After Aabb::grow(p) (or grow_bb(b), grow_bbs(bs)) the box contains everything it contained before and p (resp. every point of b / of each box in bs), and any other box with that property contains the result; the extra fields are unchanged. union_of gives the same box without mutating its arguments and with default extras.", "quantifier": "all f32 boxes and points without NaN coordinates, including infinities, inverted (empty) boxes and any length of list", "why_tests_cant": "f32 has 2^32 values per coordinate and the claim is a lattice law over arbitrary lists; tests sample a few boxes.", "anchors": ["src/aabb.rs:Aabb::grow", "src/aabb.rs:Aabb::grow_bb", "src/aabb.rs:Aabb::grow_bbs", "src/aabb.rs:Aabb::union_of"]}
{"id": "C02", "title": "intersection and shrink yield the greatest common box", "statement": "Aabb::intersection(a,b) and shrink produce a box that contains exactly the points contained in both a and b; intersection has default extras, shrink keeps them.", "quantifier": "all f32 boxes without NaN coordinates, all points", "why_tests_cant": "Universal set-theoretic claim over all floats.", "anchors": ["src/aabb.rs:Aabb::intersection", "src/aabb.rs:Aabb::shrink"]}
{"id": "C03", "title": "union_of_list covers every listed box", "statement": "Aabb::union_of_list(list) contains every box of the list (and its padding never makes it smaller); for the empty list it is an empty box.", "quantifier": "all lists of boxes (any length) whose coordinates are not NaN and lie within +-1e34", "why_tests_cant": "Any length of list and rounding of the padding at any magnitude.", "anchors": ["src/aabb.rs:Aabb::union_of_list", "src/aabb.rs:Aabb::with_offset"]}
{"id": "C04", "title": "Padding never shrinks a box", "statement": "with_offset(d)/offset_by(d) with finite d>=0 return a box that contains the original box, whatever rounding happens; the extra fields are kept.", "quantifier": "all boxes without NaN, all non-negative finite f32 offsets", "why_tests_cant": "Depends on rounding of every f32 addition, at every magnitude, including overflow to infinity.", "anchors": ["src/aabb.rs:Aabb::with_offset", "src/aabb.rs:Aabb::offset_by"]}
{"id": "C05", "title": "from_points contains all of its points", "statement": "Aabb::from_points(ps) (and aabb! and From<[Vec3;N]>) covers each point of ps between min and max inclusively. The strict Aabb::contains is true of each of them when the coordinates are at most 128 in absolute value (thanks to the 1e-5 padding); for larger coordinates it can be false, so a caller must not rely on it there.", "quantifier": "all lists of points without NaN coordinates (within +-128 for the strict form)", "why_tests_cant": "The padding is absorbed by rounding only at particular magnitudes; tests with small coordinates never see it.", "anchors": ["src/aabb.rs:Aabb::from_points", "src/aabb.rs:Aabb::contains", "src/aabb.rs:aabb!"]}
{"id": "C06", "title": "Box measures are well behaved", "statement": "center() of a valid box lies inside it; half_area(), area() are never negative on a valid box and half_area does not decrease when the box grows; longest_axis() returns the axis whose extent is not exceeded by any other axis, and longest_extent is its extent; is_valid() holds exactly of boxes that contain a point, contains() exactly of interior points; extend/lengths/diagonal, half_area, area and volume are the exact values up to stated rounding bounds.", "quantifier": "all valid boxes with finite coordinates such that the sums do not overflow (|x| <= 1e34)", "why_tests_cant": "Rounding monotonicity for all floats.", "anchors": ["src/aabb.rs:Aabb::area", "src/aabb.rs:Aabb::center", "src/aabb.rs:Aabb::contains", "src/aabb.rs:Aabb::extend", "src/aabb.rs:Aabb::half_area", "src/aabb.rs:Aabb::is_valid", "src/aabb.rs:Aabb::longest_axis", "src/aabb.rs:Aabb::longest_extent", "src/aabb.rs:Aabb::volume"]}
{"id": "C07", "title": "A ray that passes through a box is never rejected by the scalar test", "statement": "If the exact ray passes through a box - it is inside at a parameter t1 >= t_min and still at t1 (1 + 2^-21) or later - Aabb::intersect returns Some(x) with x > t_min and x >= t1, and x is the exact exit distance up to rounding; a ray parallel to an axis is accepted as well if it runs strictly inside the slab and the zero of its direction is +0.0. (With a direction component -0.0 such a ray is rejected: callers must not pass one.)", "quantifier": "all boxes and origins within +-1e34, all directions whose components are of normal range or +0.0 (strictly inside the slab), all current t", "why_tests_cant": "The claim is about every float rounding combination, zero directions, both signs of zero, and origins on the faces.", "anchors": ["src/aabb.rs:Aabb::intersect", "src/ray.rs:Ray::new"]}
{"id": "C08", "title": "The packet box test agrees with the scalar one", "statement": "Aabb::intersect4 returns Some as soon as one of the four rays passes through the box over a parameter interval of relative length 2^-20 or more that ends before its current t; every finite lane of the answer is the exact entry distance of that lane's ray up to rounding; and if it returns Some, some lane's rounded slab interval is non-empty, ends after 0 and starts before that lane's t. A box of zero thickness is rejected even if all four rays hit it head on, although Aabb::intersect accepts it.", "quantifier": "all packets and boxes within +-1e34 with directions of normal range", "why_tests_cant": "NaN lanes, flat boxes and per-lane masks are combinatorially many.", "anchors": ["src/aabb.rs:Aabb::intersect4"]}
{"id": "C09", "title": "Ray constructors establish the derived fields", "statement": "Ray::new / From<(Vec3,Vec3)> give a ray with inv_direction = 1/direction per component, signs = (direction<0), t_min=1e-4 and t=1e34, reset sets t to 1e34; RayPacket4::new/ray(i) is the same for every lane i<4.", "quantifier": "all origins and directions (including zeros, NaN and infinities), all lanes", "why_tests_cant": "The consistency of derived fields must hold for every value; packet lane extraction for every lane.", "anchors": ["src/ray.rs:Ray::new", "src/ray.rs:RayPacket4::new", "src/ray.rs:RayPacket4::ray"]}
{"id": "C10", "title": "Node encoding round trips", "statement": "BvhNode::set_count/set_left_first followed by get_count/get_left_first return what was stored; is_leaf, has_children and is_valid are determined by what was stored, is_leaf and has_children exclude each other, and setting one field changes neither the box nor the other field.", "quantifier": "all optional counts/indices representable in i32 (values >= 2^31 are a separate case)", "why_tests_cant": "Range of u32/i32 casts is too large to enumerate.", "anchors": ["src/bvh_node.rs:BvhNode"]}
{"id": "C11", "title": "Building reports exactly the documented errors", "statement": "Each construct_* method of Builder returns Err(NoPrimitives) exactly for an empty primitive list, Err(InequalAabbsAndPrimitives(aabbs,primitives)) exactly when AABBs are given in a different number, and otherwise does not return an error; the emptiness error wins.", "quantifier": "all builders, all primitive and AABB lists", "why_tests_cant": "All combinations of lengths.", "anchors": ["src/bvh.rs:Builder"]}
{"id": "C12", "title": "A binned-SAH BVH contains every primitive exactly once", "statement": "construct_binned_sah returns a BVH whose node array is a binary tree rooted at node 0 using each node exactly once, whose leaves are the disjoint prim_indices ranges of a permutation of 0..n.", "quantifier": "all primitive lists and all AABBs/centres (even NaN), all primitives_per_leaf, and all schedules of the parallel subdivision", "why_tests_cant": "Parallel subdivision with an atomic node counter: node numbering depends on the schedule; inputs are unbounded.", "anchors": ["src/builders/binned_sah.rs:BinnedSahBuilder::build", "src/builders/binned_sah.rs:BinnedSahBuildTask::run", "src/builders/mod.rs:AtomicNodeStack"]}
{"id": "C13", "title": "The binned-SAH tree does not depend on the schedule", "statement": "Two builds of the same input yield the same prim_indices and the same tree (up to the numbering of nodes), whatever the thread schedule.", "quantifier": "all inputs, all pairs of schedules", "why_tests_cant": "Tests observe one schedule per run.", "anchors": ["src/builders/binned_sah.rs", "src/utils.rs:TaskSpawner"]}
{"id": "C14", "title": "Node allocation never overlaps and never runs out", "statement": "In a binned-SAH build with 2n-1 preallocated nodes every allocation of two children succeeds, no two tasks ever receive the same nodes, and the number of nodes used is twice the number of leaves minus one.", "quantifier": "all interleavings of allocating tasks, all inputs", "why_tests_cant": "A data race on the counter would appear only under particular schedules.", "anchors": ["src/builders/mod.rs:AtomicNodeStack::allocate", "src/builders/binned_sah.rs"]}
{"id": "C15", "title": "Binned-SAH depth and leaf-size limits", "statement": "No leaf of a binned-SAH BVH is deeper than 64, and a leaf with more than max(1, primitives_per_leaf) primitives is at depth 64 or has at least three fifths of its primitives' centres in the same sixteenth of its (unpadded) box along the longest axis. (So primitives_per_leaf is not a strict limit: two primitives with equal centres share a leaf.)", "quantifier": "all inputs, schedules and settings, every leaf", "why_tests_cant": "Needs worst-case inputs (coincident centroids, exponentially spaced ones).", "anchors": ["src/builders/binned_sah.rs:BinnedSahBuildTask::run", "src/bvh.rs:Builder::primitives_per_leaf"]}
{"id": "C16", "title": "Binned-SAH bounds enclose their primitives", "statement": "In a BVH from construct_binned_sah every node's box contains the AABBs of all primitives below it, except possibly the box of a left child whose parent holds more than primitives_per_leaf primitives and has no separation that the surface area heuristic prefers to a leaf (the parent is then split near the median). The exception is real: there a left child's box can miss a primitive, and a ray that hits the primitive's AABB does not find it.", "quantifier": "all AABB lists without NaN coordinates, all settings and all schedules, every node", "why_tests_cant": "Depends on which split path each node takes.", "anchors": ["src/builders/binned_sah.rs:BinnedSahBuildTask::run"]}
{"id": "C17", "title": "The parallel task runner runs each spawned task exactly once and terminates", "statement": "TaskSpawner::run executes the initial task and every task returned by an executed task exactly once, in an order in which a task runs after the one that created it, and returns only when all have finished, for every distribution over threads.", "quantifier": "all task trees of finite depth, all work sizes and thread schedules", "why_tests_cant": "Schedules cannot be enumerated.", "anchors": ["src/utils.rs:TaskSpawner"]}
{"id": "C18", "title": "A locally-ordered-clustering BVH contains every primitive exactly once", "statement": "Whenever construct_locally_ordered_clustered returns, whatever the boxes, the BVH has exactly 2n-1 nodes (one for n<=2) forming a binary tree rooted at node 0 whose leaves hold each primitive exactly once (one per leaf for n>=3); and it does return when all coordinates are within +-2^60.", "quantifier": "all n below about 7*10^8, all AABBs (also NaN, infinite or inverted ones), any number of worker chunks", "why_tests_cant": "Arbitrary distance landscapes incl. ties; number of clustering rounds is data dependent.", "anchors": ["src/builders/locb.rs:LocallyOrderedClusteringBuilder"]}
{"id": "C19", "title": "Clustering always makes progress and terminates without panicking", "statement": "Every clustering round over two or more clusters merges at least one pair, so construction returns after at most n rounds, without panic or out-of-range access, for every AABB set with coordinates within +-2^60 and any number of threads. (Not beyond: three AABBs of huge extent make the builder panic.)", "quantifier": "all AABB sets within +-2^60, in particular ties and inverted boxes, all thread counts", "why_tests_cant": "Livelock under ties or special float values.", "anchors": ["src/builders/locb.rs:cluster"]}
{"id": "C20", "title": "LOC result does not depend on the number of threads", "statement": "The BVH returned by construct_locally_ordered_clustered is the same whatever number of CPUs/chunks is used.", "quantifier": "all chunk counts >= 1, all inputs", "why_tests_cant": "Machine dependent; a test box has one CPU count.", "anchors": ["src/builders/locb.rs:cluster"]}
{"id": "C21", "title": "LOC bounds enclose their primitives", "statement": "Every node box of a locally-ordered-clustering BVH contains the AABBs of all primitives below it.", "quantifier": "all inputs with AABB coordinates not NaN, all merge orders, any number of worker chunks", "why_tests_cant": "Arbitrary merge orders.", "anchors": ["src/builders/locb.rs"]}
{"id": "C22", "title": "Shape of a spatial-split BVH", "statement": "In a BVH returned by construct_spatial_sah the nodes form a binary tree of depth at most 64 over all node slots, the leaf ranges are disjoint, fill the front of prim_indices (which has n + floor(3n/4) entries) and hold numbers below n; every execution of the parallel build ends (it returns or crashes), under every schedule; without primitives or with a different number of AABBs the result is the empty BVH.", "quantifier": "all inputs with splittable primitives and all settings/schedules", "why_tests_cant": "Reference movement in the shared array depends on sizes and split decisions.", "anchors": ["src/builders/spatial_sah.rs"]}
{"id": "C23", "title": "Single-ray BVH traversal visits exactly the leaves whose ancestors' boxes are hit", "statement": "The iterator over a BVH for a ray yields exactly the primitives of those leaves all of whose non-root ancestor-or-self boxes are hit by the ray, each leaf's primitives consecutively and once, no matter how the client changes ray.t between steps.", "quantifier": "all valid BVHs of depth at most 31, all rays and all histories of updates of ray.t", "why_tests_cant": "All trees, all rays and all client histories.", "anchors": ["src/iter.rs:BvhIterator", "src/iter_indices.rs:BvhIndexIterator", "src/bvh_node.rs:BvhNode::sort_nodes"]}
{"id": "C24", "title": "Traversal terminates and does not panic", "statement": "Iterating a valid BVH of depth at most 31 - in particular any with at most 32 leaves, hence every output of the clustering and binned builders for at most 32 primitives - ends after finitely many steps and does not panic or touch memory outside the tree, whatever the ray and the client do; a NaN ray or an empty BVH yields nothing. The bound is sharp: a clustering BVH of 33 primitives and a binned BVH exist whose iteration overflows the 32-entry stack and panics.", "quantifier": "all valid BVHs of depth <= 31, all rays/packets and client behaviours", "why_tests_cant": "The fixed 32-entry stack overflows only for trees deeper than tests build.", "anchors": ["src/iter.rs", "src/iter_indices.rs", "src/bvh_node.rs:BvhNode::sort_nodes"]}
{"id": "C25", "title": "Closest-hit search with the iterator equals brute force", "statement": "Looping over the iterator and intersecting each yielded primitive (which lowers ray.t on an accepted hit) ends with the same ray.t as testing all primitives one by one, provided each primitive that would be accepted is only accepted when its box and its ancestors' boxes are hit.", "quantifier": "all valid BVHs, rays and primitive hit functions", "why_tests_cant": "All scenes and all visiting orders.", "anchors": ["src/iter.rs:BvhIterator", "src/lib.rs:Primitive"]}
{"id": "C26", "title": "4-wide collapse preserves the leaves and their order", "statement": "Mbvh::construct / From<Bvh> yields a 4-wide tree with the same multiset of leaves (same prim index ranges) as the binary BVH, in the same left-to-right order, without out-of-range node accesses, and every child slot's box is that of a binary node on the path to its leaves.", "quantifier": "all valid binary BVHs", "why_tests_cant": "Tree shape combinatorics.", "anchors": ["src/bvh.rs:Mbvh::construct", "src/mbvh_node.rs:MbvhNode::merge_nodes"]}
{"id": "C27", "title": "Mbvh traversal visits the leaves whose slot boxes are hit", "statement": "The Mbvh iterators over an Mbvh made from a valid BVH of depth at most 22 yield every primitive of each leaf whose slot box and whose ancestors' slot boxes are hit and are not farther than the final ray.t, yield only primitives of leaves reached by the ray as given, each leaf at most once, and terminate without writing outside the 32-entry stack. The depth bound is sharp: an Mbvh made from a BVH of depth 23 exists whose iteration writes outside the stack; and iterating an Mbvh without nodes reads out of bounds.", "quantifier": "all Mbvhs produced from valid BVHs of depth <= 22, all rays, packets and t-lowering clients", "why_tests_cant": "The stack writes are unchecked; the overflow needs a tree of more than ten full levels.", "anchors": ["src/iter.rs:MbvhIterator", "src/iter_indices.rs:MbvhIndexIterator", "src/mbvh_node.rs:MbvhNode::intersect"]}
{"id": "C28", "title": "The 4-wide node test reports each slot once, nearest first and farthest last", "statement": "MbvhNode::intersect reports each of the four slots exactly once in ids, the first one with the smallest and the last one with the largest entry distance (the middle two may be in either order), and result flags exactly the slots whose slab interval is non-empty and starts before ray.t; the packet version flags exactly the slots hit by some lane.", "quantifier": "all node boxes, all rays (for the order: rays without NaN entry distances)", "why_tests_cant": "24 orderings x ties x NaN.", "anchors": ["src/mbvh_node.rs:MbvhNode::intersect"]}
{"id": "C29", "title": "Packet traversal covers each of its rays", "statement": "The packet iterators over a BVH yield (at least) each primitive of every leaf that some lane's ray reaches through hit boxes, each leaf at most once; a packet with a NaN lane yields nothing.", "quantifier": "all valid BVHs of depth <= 31, packets and t histories", "why_tests_cant": "Lane mask combinations and all trees.", "anchors": ["src/iter.rs:BvhPacketIterator", "src/iter_indices.rs:BvhPacketIndexIterator", "src/bvh_node.rs:BvhNode::sort_nodes4"]}
{"id": "C30", "title": "What a short primitive slice does", "statement": "If the primitive slice passed to an iterator of a Bvh is shorter than the primitive count, then the iterator behaves as with the full slice as long as no primitive that would be yielded is missing, yields nothing for an empty slice, and otherwise never ends (it restarts the leaf of the missing primitive for ever, without leaving its arrays). The Mbvh iterators end in every case and yield, of each visited leaf, the primitives before the first missing one.", "quantifier": "all valid BVHs of depth <= 31 (Mbvh: <= 22), all slice lengths, rays, packets and (t-lowering) clients", "why_tests_cant": "Only a non-termination argument reveals the loop.", "anchors": ["src/iter.rs:BvhIterator", "src/iter.rs:MbvhIterator"]}
{"id": "C31", "title": "refit encloses the moved primitives but destroys the tree", "statement": "Bvh::refit(aabbs) with an AABB for every primitive returns, keeps prim_indices and the number of nodes, and afterwards the box stored at every node contains the new AABBs of the primitives that were below it; but it turns every node into a leaf without primitives, so that iterating the refitted BVH yields nothing to any ray. (A caller may expect the topology to be kept: it is not.)", "quantifier": "all valid BVHs with children stored after parents (all outputs of the clustering and binned builders) and all new AABB lists without NaN", "why_tests_cant": "All topologies and new positions.", "anchors": ["src/bvh.rs:Bvh::refit"]}
{"id": "C32", "title": "validate decides whether each primitive is referenced", "statement": "Bvh::validate(n) returns true exactly if every id below n occurs in some reachable leaf, for BVHs whose leaf ids are below n; it does not modify the BVH; it panics exactly on an empty BVH or out-of-range ids.", "quantifier": "all BVHs whose reachable nodes form a tree", "why_tests_cant": "All trees.", "anchors": ["src/bvh.rs:Bvh::validate", "src/bvh.rs:Bvh::traverse_check"]}
{"id": "C33", "title": "prefix_sum computes running sums", "statement": "utils::prefix_sum over k >= 1 values v_0..v_{k-1} stores v_0+...+v_i at position i, returns the total and writes nothing else, also in place. (For k = 0 it returns the first element instead of 0, or panics if there is none.)", "quantifier": "all value lists (sums within u32) and all k >= 1 within the slices", "why_tests_cant": "All lengths.", "anchors": ["src/utils.rs:prefix_sum"]}
{"id": "C34", "title": "partition and move_backward rearrange without loss", "statement": "utils::partition over a prefix 0..m of a slice returns the number of its elements satisfying the predicate, puts those first and the others after, as a permutation that leaves everything outside the prefix untouched (a range that does not start at 0 also moves elements before it); move_backward(slice,f,m,l) with l >= m shifts the range f..m so that it ends at l and changes nothing else; shuffle picks the listed elements in order.", "quantifier": "all slices, prefixes/ranges and predicates", "why_tests_cant": "All slices and in-place overlap patterns.", "anchors": ["src/utils.rs:partition", "src/utils.rs:move_backward"]}
{"id": "C35", "title": "Morton codes interleave the grid coordinates", "statement": "morton_encode of grid coordinates below 2^10 (indeed 2^11 for the split) has bit 3k+a equal to bit k of coordinate a, hence is injective and monotone in each coordinate.", "quantifier": "all coordinates in range", "why_tests_cant": "10^9 combinations of 3 coordinates.", "anchors": ["src/morton.rs:morton_split", "src/morton.rs:morton_encode"]}
{"id": "C36", "title": "Morton sort returns a sorted permutation of all primitives", "statement": "get_sorted_indices returns a permutation of 0..n sorted by Morton code of the box centre, equal codes keeping their order, for every input incl. NaN and points outside the world box.", "quantifier": "all AABB lists/world boxes", "why_tests_cant": "All inputs.", "anchors": ["src/morton.rs:MortonEncoder::get_sorted_indices"]}
{"id": "C37", "title": "Triangle intersection only shortens the ray", "statement": "SpatialTriangle::intersect returns true exactly when it set ray.t to a value in (t_min, old t); otherwise the ray is unchanged; no other field ever changes. intersect4 does the same per lane: hit lanes get a smaller-or-equal t, others keep theirs.", "quantifier": "all triangles and rays (including NaN and degenerate)", "why_tests_cant": "All floats.", "anchors": ["src/builders/spatial_sah.rs:SpatialTriangle::intersect", "src/builders/spatial_sah.rs:SpatialTriangle::intersect4"]}
{"id": "C38", "title": "Triangle intersection is geometrically right", "statement": "Over exact arithmetic the triangle test succeeds exactly if the ray's point at distance t in (t_min,t_old) is a convex combination of the vertices, and t is that distance, for triangles not (nearly) parallel to the ray. In f32, with coordinates of at most 2^20, the scalar test and every lane of the packet test obey explicit error bounds: a reported hit belongs to a plane crossing whose barycentric coordinates are above minus a bounded number of half-ulps and whose distance is off by a bounded number of half-ulps, and a crossing that is inside the triangle and the interval by such a margin is always reported.", "quantifier": "all real triangles and rays; all f32 triangles, rays and packets with coordinates up to 2^20", "why_tests_cant": "An algebraic identity over all reals and a rounding-error bound over all floats.", "anchors": ["src/builders/spatial_sah.rs:SpatialTriangle::intersect"]}
{"id": "C39", "title": "FFI handle manager behaves like a map", "statement": "store returns a fresh id never handed out before; get returns what was stored until free; free of an unknown id is an error and changes nothing; operations on one id never affect another.", "quantifier": "all histories of store/get/get_mut/free", "why_tests_cant": "All histories.", "anchors": ["rtbvh_ffi/src/lib.rs:StructureManager"]}
{"id": "C40", "title": "FFI box and node conversions are lossless", "statement": "Converting Aabb <-> RTAabb and BvhNode/MbvhNode <-> RT nodes and back gives the same value.", "quantifier": "all values", "why_tests_cant": "All values.", "anchors": ["rtbvh_ffi/src/lib.rs:RTAabb", "rtbvh_ffi/src/lib.rs:RTBvhNode"]}
{"id": "C41", "title": "What the FFI makes of the caller's triangles and centres", "statement": "For create_spatial_Bvh the vertices and the centre of triangle i seen by the splitter are those at the caller's byte strides; for create_bvh without AABBs the builder gets the caller's centres and for each the box that is exactly that point. But when create_spatial_Bvh has to compute AABBs, the one of triangle i is computed from wrong offsets: for tightly packed vertices the first triangle's box is its first vertex only, and it need not contain the triangle's other vertices.", "quantifier": "all vertex/centre buffers and all strides that pass the assertion, with byte offsets below 2^32", "why_tests_cant": "Stride arithmetic over all layouts.", "anchors": ["rtbvh_ffi/src/lib.rs:RTTriangleWrapper"]}
{"id": "C42", "title": "FFI result codes tell success from failure", "statement": "create_bvh and create_spatial_Bvh return Ok and store a structure exactly if the build succeeded; each BuildError is mapped to a distinct non-Ok code; create_Mbvh and refit calls that return give Ok exactly if all pointers are non-null and the handle names a stored structure; a call that returns another code changes and stores nothing.", "quantifier": "all argument combinations", "why_tests_cant": "All combinations.", "anchors": ["rtbvh_ffi/src/lib.rs:create_bvh,create_spatial_Bvh,create_Mbvh,refit"]}
{"id": "C43", "title": "Automatically computed AABBs", "statement": "When Builder.aabbs is None the builder uses the AABBs of the primitives, each once, in an order chosen by the scheduler (par_bridge): whatever the order, the result is a valid BVH over all primitives, its root box contains every primitive's AABB, and (clustering) every box encloses the AABBs handed to the builder for the primitives below it; if the order is kept, the AABB at position i is primitives[i].aabb(). If it is not kept, a leaf's box can miss its primitive.", "quantifier": "all primitive lists with AABBs without NaN and all schedules of the parallel map", "why_tests_cant": "rayon's par_bridge gives no order guarantee; only particular schedules reorder.", "anchors": ["src/bvh.rs:Builder::construct_binned_sah"]}
{"id": "C44", "title": "AABB transform encloses the transformed corners", "statement": "Aabb::transformed(m) contains the image of each of the box corners as computed by the library.", "quantifier": "all boxes and matrices yielding non-NaN images within +-1e34", "why_tests_cant": "All matrices.", "anchors": ["src/aabb.rs:Aabb::transformed", "src/aabb.rs:Aabb::all_corners"]}
{"id": "C45", "title": "No primitive whose box is hit is missed by a LOC BVH", "statement": "For a BVH built by locally ordered clustering from AABBs of moderate size, if the exact ray passes through primitive i's AABB after t_min then the iterator yields i.", "quantifier": "all AABB sets with coordinates within +-128, all rays with origin within +-128 and normal-range directions, depth at most 31", "why_tests_cant": "End-to-end over rounding and all trees.", "anchors": ["src/builders/locb.rs", "src/iter_indices.rs", "src/aabb.rs:Aabb::intersect"]}
{"id": "C46", "title": "The packet triangle test agrees with the scalar one", "statement": "For each of the four rays of a packet: if SpatialTriangle::intersect accepts that ray then intersect4 flags its lane and stores bit for bit the same t; if intersect4 flags the lane then intersect accepts with the same t unless t equals t_min or the determinant lies between the two epsilons.", "quantifier": "all triangles and packets with coordinates within +-2^20, all t and t_min", "why_tests_cant": "Floating-point agreement must hold for every bit pattern of the inputs, including cancellation and near-parallel cases.", "anchors": ["src/builders/spatial_sah.rs: SpatialTriangle::intersect, SpatialTriangle::intersect4", "src/ray.rs: RayPacket4::ray"]}
{"id": "C47", "title": "Splitting a triangle loses nothing", "statement": "SpatialTriangle::split(axis, position) returns two boxes that together cover the triangle: the part on the lower side is inside the left box and the rest inside the right box.", "quantifier": "all triangles, axes and positions", "why_tests_cant": "Must hold for every triangle and plane; a test sees finitely many.", "anchors": ["src/builders/spatial_sah.rs: SpatialTriangle::split"]}
{"id": "C48", "title": "FFI handles stay usable until freed", "statement": "The node and index pointers inside an RTBvh/RTMbvh returned by create_bvh/create_mbvh stay valid and show the current contents of that structure (including after refit) whatever other structures are created, refitted or freed, until that structure itself is freed. A handle that was never filled in (the default) is refused by create_mbvh and refit and ignored by the free functions at any time.", "quantifier": "all histories of create/refit/free calls", "why_tests_cant": "Ranges over all call histories; dangling pointers often go unnoticed in tests.", "anchors": ["rtbvh_ffi/src/lib.rs: StructureManager::store, StructureManager::free, create_bvh, create_mbvh, refit, free_bvh"]}
{"id": "C49", "title": "FFI intersect is the library traversal", "statement": "intersect/intersect_packet/intersect_mbvh/intersect_mbvh_packet return Nan and touch nothing when an origin or direction component is NaN; otherwise they call the callback for exactly the primitives the library iterator yields, in that order, stop right after the first call that returns true, and write back the t the callbacks left; with a closest-hit callback *t ends as the brute-force minimum.", "quantifier": "all structures, rays, t and callbacks", "why_tests_cant": "Quantifies over arbitrary callbacks and trees.", "anchors": ["rtbvh_ffi/src/lib.rs: intersect, intersect_packet, intersect_mbvh, intersect_mbvh_packet", "src/iter_indices.rs"]}
{"id": "C50", "title": "Which buffers make the FFI calls undefined behaviour", "statement": "create_bvh and refit on non-null arguments are undefined behaviour exactly if the RTAabb array is not aligned to 16 bytes or a buffer is too short (although RTAabb itself needs 4-byte alignment only), and intersect_packet/intersect_mbvh_packet on a live handle exactly if the t array is not aligned to 16 bytes; create_spatial_Bvh is undefined behaviour for a null result pointer when the build succeeds, and for null vertices when it has to compute AABBs.", "quantifier": "all caller buffers, addresses, handles and rays without NaN", "why_tests_cant": "a misaligned cast works on most machines and inputs; only a statement over all addresses shows it", "anchors": ["rtbvh_ffi/src/lib.rs: create_bvh", "rtbvh_ffi/src/lib.rs: refit", "rtbvh_ffi/src/lib.rs: intersect_packet", "rtbvh_ffi/src/lib.rs: intersect_mbvh_packet", "src/aabb.rs: Aabb"]}
{"id": "C51", "title": "The parallel spatial-split build has no data races", "statement": "While construct_spatial_sah runs, the tasks that are live at the same time own disjoint ranges of the shared reference arrays, inside them, and different nodes; every step of a task that does not crash reads and writes only what the task owns, inside the arrays, and depends on nothing else but the atomic counters, so two tasks never race.", "quantifier": "all triangle sets (coordinates arbitrary), all settings, all schedules, all moments of the build", "why_tests_cant": "The arrays are shared without locks and accessed unchecked; whether ranges overlap depends on the whole history of splits and on the schedule.", "anchors": ["src/builders/spatial_sah.rs:SpatialSahBuildTask::allocate_children", "src/builders/spatial_sah.rs:SpatialSahBuildTask::run", "src/utils.rs:UnsafeSliceWrapper"]}
{"id": "C52", "title": "The outcome of a spatial-split build does not depend on the schedule", "statement": "Two runs of construct_spatial_sah on the same input give the same tree up to the numbering of nodes and index positions (same shape, same boxes, each leaf lists the same primitives in the same order), and if one run returns then no run crashes.", "quantifier": "all triangle sets, settings and pairs of schedules", "why_tests_cant": "Ranges over all interleavings of the worker threads.", "anchors": ["src/builders/spatial_sah.rs", "src/utils.rs:TaskSpawner"]}
{"id": "C53", "title": "Binned-SAH takes a cheapest surface-area split", "statement": "In a BVH from construct_binned_sah, every inner node that has a separation of its primitives (by centre, at one of the 15 slab boundaries of its box per axis) whose surface-area cost is below the cost of a leaf (and below f32::MAX) is separated at such a boundary of least cost: its left child holds exactly the primitives whose centres fall below it, its right child the others. Conversely a leaf with several primitives above the depth limit has no such worthwhile separation.", "quantifier": "all AABB lists without NaN coordinates (with their centres), all primitives_per_leaf settings, all schedules, every node of the result", "why_tests_cant": "the costs are f32 sums over hulls of arbitrary subsets and the comparison is against all 45 candidates at every node, for every input and every schedule", "anchors": ["src/builders/binned_sah.rs: find_split, BinnedSahBuildTask::run"]}
{"id": "C54", "title": "Boxes of a spatial-split BVH cover its triangles", "statement": "In a BVH returned by construct_spatial_sah every node's box contains the boxes of its children, every point of a triangle that lies in its AABB is inside the box of some leaf that lists the triangle and inside all boxes above that leaf, and if no reference was duplicated (as many leaf entries as triangles) each triangle is in exactly one leaf and every box encloses the AABBs of the triangles below it.", "quantifier": "all triangle sets with AABBs without NaN coordinates, all settings, all schedules, every node, triangle and point", "why_tests_cant": "Depends on f32 clipping at every split position and on the whole history of splits and reference moves, for every input and schedule.", "anchors": ["src/builders/spatial_sah.rs:SpatialSahBuildTask::apply_spatial_split", "src/builders/spatial_sah.rs:SpatialSahBuildTask::apply_object_split", "src/builders/spatial_sah.rs:SpatialTriangle::split"]}
{"id": "C55", "title": "Leaf size of a spatial-split BVH", "statement": "Every leaf of a BVH returned by construct_spatial_sah that is above the depth limit of 64 holds at most max(1, primitives_per_leaf) references, unless the surface-area cost of that leaf overflows f32 (it cannot if the leaf's box lies within -2^40..2^40).", "quantifier": "all triangle sets (coordinates arbitrary), all settings, all schedules, every leaf", "why_tests_cant": "Ranges over all inputs including those for which no split is ever accepted.", "anchors": ["src/builders/spatial_sah.rs:SpatialSahBuildTask::run"]}
{"id": "C56", "title": "A spatial-split BVH is divided by cheapest cuts", "statement": "A build of construct_spatial_sah starts with all triangles at the root, each with its AABB and centre as its part and centre, and with room for floor(3n/4) more parts. Every inner node is divided in one of three ways. (a) By a cut: the parts are separated along one axis by their centres, no cut along any axis has a smaller surface-area cost, and it costs less than not dividing the node. (b) Into the lower and the upper half of the parts along the longest axis of the box, only when no cut beats not dividing and the leaf size is exceeded. (c) At an axis-aligned plane, only when there is room and the boxes of the two sides of a cheapest cut overlap by more than the builder's threshold; the plane is one of the borders of 16 slabs of the node's box (or of 16 finer slabs around such a border), no border along any axis has a lower estimated cost, and the estimate is below the cost of every cut and of not dividing. Parts on one side of the plane go to that side; of the straddling parts, as many as there is room for are clipped and go to both sides, with the clipped boxes as their parts, and the others go to the smaller side as they are (or, if no part straddles and all are on one side, they are halved). The left child has no room, the right child what is left. In cases (a) and (b) and in leaves no plane was cheaper, or there was no room, or too little overlap. A node is a leaf only if it has one part, or is at depth 64, or neither a cut nor a plane beats not dividing it and the leaf size is not exceeded, or there is neither a cut nor a plane at all. Boxes of inner nodes are padded by 1e-4, those of leaves are the union of their parts.", "quantifier": "all triangle sets with finite AABBs and centres without NaN, all settings, all sorts, all schedules; builds in which no reference was overwritten by the move of a right child's references (otherwise the nodes hold repeated parts: see C65)", "why_tests_cant": "Optimality over all cuts of every node for all inputs; f32 rounding makes incremental and direct costs differ unless proved equal.", "anchors": ["src/builders/spatial_sah.rs:SpatialSahBuildTask::find_object_split", "src/builders/spatial_sah.rs:SpatialSahBuildTask::apply_object_split", "src/builders/spatial_sah.rs:SpatialSahBuildTask::run", "src/builders/spatial_sah.rs:ObjectSplit", "src/builders/spatial_sah.rs:SpatialSahBuildTask::find_spatial_split", "src/builders/spatial_sah.rs:SpatialSahBuildTask::run_binning_pass", "src/builders/spatial_sah.rs:SpatialSahBuildTask::apply_spatial_split"]}
{"id": "C57", "title": "4-wide nodes must sit on 16-byte boundaries", "statement": "On x86, traversing an Mbvh (indices or primitives, ray or packet) whose node slice starts at an address that is a multiple of 16 performs only aligned vector loads and behaves like the traversal without addresses; if the slice starts at any other address, making an iterator over a non-empty tree is undefined behaviour. The node type only guarantees alignment 4, so a slice the type system accepts can be misaligned.", "quantifier": "all node slices and base addresses, indices, rays, packets, loop bodies", "why_tests_cant": "Allocators happen to return 16-byte aligned memory on common platforms; only the address arithmetic shows what the type guarantees.", "anchors": ["src/mbvh_node.rs:MbvhNode::points", "src/mbvh_node.rs:MbvhNode", "src/iter.rs:MbvhIterator", "src/iter_indices.rs:MbvhIndexIterator"]}
{"id": "C58", "title": "4-wide and packet traversals miss nothing", "statement": "If every node box of a BVH contains the AABBs below it enlarged by 1e-4 (as locally ordered clustering guarantees), then the BVH and the 4-wide BVH made of it, traversed by a ray or by a 4-ray packet, yield every primitive i whose AABB the exact ray (of any lane) meets between t_min and the final ray.t of that ray (lane). A closest-hit loop over either ends with the same ray as brute force over all primitives. For LOC builds of 3 to 23 AABBs nothing is assumed about the tree.", "quantifier": "all AABB sets and origins with coordinates within +-128 (single rays) or +-32 (packets), normal-range directions, loop bodies that only lower distances, trees of depth at most 22 (4-wide) or 31 (binary)", "why_tests_cant": "End-to-end over rounding of four-lane arithmetic, all trees, all loop bodies; a missed grazing hit depends on the last bit.", "anchors": ["src/mbvh_node.rs:MbvhNode::intersect", "src/mbvh_node.rs:MbvhNode::intersect4", "src/iter_indices.rs:MbvhIndexIterator", "src/iter_indices.rs:BvhPacketIndexIterator", "src/iter.rs:MbvhIterator", "src/bvh.rs:Mbvh::construct", "src/builders/locb.rs"]}
{"id": "C59", "title": "BVHs of the binned builder miss nothing unless the median fallback cut them", "statement": "For a BVH returned by any schedule of the parallel binned-SAH build in which every inner node holds at most primitives_per_leaf primitives or has a separation the surface area heuristic prefers to a leaf: the ray and packet iterators of the BVH and of the 4-wide BVH made of it yield every primitive whose AABB the exact ray meets (up to the final distance for packets and 4-wide BVHs), and closest-hit loops end with the brute-force result. With at most primitives_per_leaf (and 32, or 23 for 4-wide) primitives nothing is assumed about the tree. (A median-fallback cut can lose hits: see C16.)", "quantifier": "all AABB sets with coordinates within +-128 (packets +-32), all schedules, all rays with normal-range directions, all loop bodies that only change (lower) ray.t, trees of depth at most 31 (22 for 4-wide)", "why_tests_cant": "End-to-end over schedules, rounding and all trees.", "anchors": ["src/builders/binned_sah.rs", "src/iter_indices.rs", "src/iter.rs", "src/mbvh_node.rs", "src/bvh.rs:Mbvh::construct", "src/aabb.rs:Aabb::intersect"]}
{"id": "C60", "title": "Tracing a triangle mesh through a BVH finds what trying every triangle finds", "statement": "Take triangles and boxes that contain them, build a BVH (locally ordered clustering, or binned SAH where it cuts by the heuristic), and loop over its ray or packet iterator (binary or 4-wide) with triangles[i].intersect(ray) resp. intersect4(packet, t_min) as the body. If the scene is such that the rounding errors of the triangle test and of the box test fit into the builders' padding of 1e-4 (an explicit inequality between coordinate size, direction size and the area of each reported triangle seen along the ray), the loop ends with exactly the ray (bit for bit), and with exactly the distance in each such lane, that trying every triangle in order ends with. And what trying every triangle ends with is a true nearest hit up to an explicit error: the final distance is the initial one or within the error of an exact hit of some triangle, and at most the error beyond the exact hit of any triangle hit well inside.", "quantifier": "all meshes, boxes, rays and packet lanes satisfying the inequality with coordinates within +-128 (the packet inequality implies about 47), all initial distances > 0, all builder inputs and schedules, trees of depth at most 31 (22 for 4-wide)", "why_tests_cant": "Two different rounded computations (triangle and box) must agree for every mesh, ray, tree and order; failures are one-ulp grazing cases.", "anchors": ["src/builders/spatial_sah.rs:SpatialTriangle::intersect", "src/builders/spatial_sah.rs:SpatialTriangle::intersect4", "src/aabb.rs:Aabb::intersect", "src/aabb.rs:Aabb::intersect4", "src/mbvh_node.rs", "src/iter.rs", "src/builders/locb.rs", "src/builders/binned_sah.rs"]}
{"id": "C61", "title": "A traversal never loses a primitive whose own AABB passes the box test", "statement": "The box tests are monotone in floating point: if a ray (a lane of a packet) passes the library's test of a box, it passes the test of every box around it, at any scale of the coordinates and without any padding, for AABB::intersect, AABB::intersects, AABB::intersect4 and the two 4-wide node tests. Hence, for every BVH whose node boxes contain the AABBs below them, the ray iterator yields every primitive whose own AABB passes AABB::intersect, and packet and 4-wide iterators every primitive whose AABB passes their test with the final distances; closest-hit loops over primitives that are only hit if their AABB passes the test end with the brute-force ray. This holds for locally-ordered-clustering builds of any AABBs, binned builds cut by the heuristic, and spatial builds that neither lost nor duplicated references.", "quantifier": "all boxes without NaN (ordered boxes for the branch-free tests), all rays with finite origin whose direction components are normal-range, or +0 with the origin strictly inside the box's slab, all trees of depth at most 31 (22 for 4-wide), all loop bodies that only change (lower) distances", "why_tests_cant": "Monotonicity is a statement about all pairs of boxes and all roundings; a failure shows for single last-bit configurations.", "anchors": ["src/aabb.rs:Aabb::intersect", "src/aabb.rs:Aabb::intersects", "src/aabb.rs:Aabb::intersect4", "src/mbvh_node.rs:MbvhNode::intersect", "src/mbvh_node.rs:MbvhNode::intersect4", "src/iter_indices.rs", "src/iter.rs", "src/builders/locb.rs", "src/builders/binned_sah.rs", "src/builders/spatial_sah.rs"]}
{"id": "C62", "title": "The SAH builders' bins are ordered sixteenths of the node's box, and every inner node separates the centres by one of their borders", "statement": "The bin number of a centre never falls along an axis of the node's box (never rises, for a box turned inside out), whatever the box contains, and for boxes of moderate size it is the number of the sixteenth of the box in which the centre exactly lies, unless the centre is within an explicit rounding error of a border. Hence every inner node of a binned-SAH BVH, under every schedule, has primitives on both sides, and there is an axis along which all centres on one side are strictly below all centres on the other side; if the node's box is of moderate size they lie on the two sides of the plane at k sixteenths of the box, 1 <= k <= 15, up to the rounding error. The spatial builder's bins and cutting planes are the same sixteenths, up to the rounding error.", "quantifier": "all inputs with one centre per AABB, finite centres for the order, all primitives_per_leaf, all schedules of the parallel build, all inner nodes; for the sixteenths, boxes of width 2^-100 to 2^100 whose coordinates are at most 2^20 widths", "why_tests_cant": "Order and placement must survive every rounding, overflow and division by zero in the bin computation, at every node and for every interleaving of the tasks.", "anchors": ["src/builders/binned_sah.rs:BinnedSahBuildTask::run", "src/builders/binned_sah.rs:compute_bin_index", "src/builders/spatial_sah.rs:run_binning_pass", "src/utils.rs:partition"]}
{"id": "C63", "title": "The LOC builder is locally ordered clustering", "statement": "The tree stored by construct_locally_ordered_clustered for three or more primitives is the one the textbook algorithm ends with: the primitives stand in a row in Morton order of their centres (1024 cells per axis of the box of all AABBs, ties by number); in each round every cluster picks, among the 14 before and the 14 after it, the one whose common box with it has the smallest half area (the earliest of equals), and every two clusters that picked each other are replaced, at the place of the later, by a node with both as children; all others stay; until one is left. Leaf boxes are the AABBs padded by 1e-4 and inner boxes are exactly the union of the two boxes below. The row determines the tree.", "quantifier": "all inputs (NaN and infinite coordinates included) for which the build returns, all thread counts, all node arrays", "why_tests_cant": "Which clusters merge depends on every distance in every round; a wrong window border, a stale distance-matrix row or a misplaced chunk border changes the tree only for particular cluster counts and positions and still gives a valid BVH.", "anchors": ["src/builders/locb.rs:LocallyOrderedClusteringBuilder::build", "src/builders/locb.rs:cluster", "src/builders/locb.rs:search_range", "src/morton.rs:MortonEncoder::get_sorted_indices"]}
{"id": "C64", "title": "Traversals can be stopped, resumed and polled", "statement": "Whatever a full for loop over one of the eight traversal iterators would yield, calling next() by hand k times returns exactly its first k primitives in the same order, with the ray in the state the loop had there; once next() has returned None it returns None for every further call and leaves the ray alone (the iterators are lazy and fused).", "quantifier": "all BVHs and 4-wide BVHs, rays and packets, all clients that change the ray between calls, all numbers of calls, all traversals that end", "why_tests_cant": "It relates every prefix of every traversal, with every client behaviour, to the full traversal, and says something about unboundedly many calls after the end.", "anchors": ["src/iter.rs:Iterator::next of BvhIterator, BvhPacketIterator, MbvhIterator, MbvhPacketIterator", "src/iter_indices.rs:Iterator::next of the four index iterators"]}
{"id": "C65", "title": "A spatial-split BVH references every primitive", "statement": "In a BVH returned by construct_spatial_sah each primitive occurs in at least one leaf.", "quantifier": "all inputs with splittable primitives and all settings/schedules", "why_tests_cant": "Reference movement in the shared array depends on sizes and split decisions of the whole history.", "anchors": ["src/builders/spatial_sah.rs:SpatialSahBuildTask::allocate_children"]}
{"id": "C66", "title": "The parallel spatial-split build neither crashes nor leaves its arrays", "statement": "construct_spatial_sah returns for every non-empty input: no task panics, and no task reads or writes outside the reference, node or index arrays.", "quantifier": "all triangle sets (coordinates arbitrary), all settings, all schedules, all moments of the build", "why_tests_cant": "The arrays are accessed unchecked; whether an index is in range depends on the whole history of splits.", "anchors": ["src/builders/spatial_sah.rs:SpatialSahBuildTask::allocate_children", "src/builders/spatial_sah.rs:SpatialSahBuildTask::apply_spatial_split", "src/builders/spatial_sah.rs:SpatialSahBuildTask::run_binning_pass"]}
{"id": "C67", "title": "The demo camera generates the ray through the requested pixel, singly and in packets", "statement": "generate_ray(x, y) starts at the camera position with the default parameter range and its direction is, up to a stated rounding bound, the exact unit vector from the position to p1 + x*inv_width*right + y*inv_height*up; lane k of generate_ray4 is bit for bit the ray of pixel k, reciprocal direction included.", "quantifier": "all cameras with finite coordinates up to m (1 <= m <= 2^40), all pixels on the screen (u32), pixels not closer than m/1024; the lane equality for all cameras and pixels", "why_tests_cant": "Rounding errors of the whole chain (conversion, scaling, sums with cancellation, square root, division) must be bounded for every camera.", "anchors": ["shared/src/lib.rs:CameraView3D::generate_ray", "shared/src/lib.rs:CameraView3D::generate_ray4", "src/ray.rs:RayPacket4::ray"]}
{"id": "C68", "title": "The demo triangle's box is the least box of its vertices and its centre the centroid", "statement": "Triangle::aabb() of the shared crate contains the three vertices and every box containing them contains it; center() is the exact centroid up to 4 m 2^-24 for coordinates up to m.", "quantifier": "all triangles with coordinates in [-1e34, 1e34] (box), up to m <= 2^60 (centre)", "why_tests_cant": "Rounding and signed zeros for arbitrary coordinates.", "anchors": ["shared/src/lib.rs:Triangle::aabb", "shared/src/lib.rs:Triangle::center"]}
{"id": "C69", "title": "Reflected rays and points on rays are geometrically right up to rounding", "statement": "ray.get_point_at(t) is origin + t*direction up to rounding; ray.reflect(hit, n, eps) is a new ray whose direction is the mirror image of the old one at the plane with normal n and whose origin is hit + eps*direction, up to stated bounds; ray.is_valid() holds exactly when t < 1e33, in particular not for a new or reset ray.", "quantifier": "all rays, normals with components in [-1,1], offsets in [-1,1], coordinates up to m <= 2^60", "why_tests_cant": "The rounding errors must be bounded for every direction, normal and distance.", "anchors": ["src/ray.rs:Ray::reflect", "src/ray.rs:Ray::get_point_at", "src/ray.rs:Ray::is_valid"]}
{"id": "C70", "title": "Causes of a crash of the spatial-split build", "statement": "construct_spatial_sah can crash only in three situations, which do not depend on the schedule. It reads or writes out of range only after a task has divided its references into two children one of whose boxes has a negative half area. It panics only if a task whose references do not start the array found a split plane with all of its references on the left, or if a task holds a reference with a valid box that is not inside the box of its node.", "quantifier": "all triangle sets (for out-of-range accesses: up to about 9.5 million triangles), all settings, all schedules, all moments of the build", "why_tests_cant": "A crash is rare and depends on the rounding of split planes and clipped boxes deep in the tree; tests can show one cause but not exclude others.", "anchors": ["src/builders/spatial_sah.rs:SpatialSahBuildTask::run", "src/builders/spatial_sah.rs:SpatialSahBuildTask::allocate_children", "src/builders/spatial_sah.rs:SpatialSahBuildTask::find_spatial_split"]}
{"id": "C71", "title": "When the spatial-split builder keeps its references", "statement": "As long as no task of a construct_spatial_sah build moves the references of its right child by fewer positions than there are of them (overwriting some in place), the BVH it returns references every triangle, every node's box contains its children's boxes, and a traversal towards a vertex of a triangle (a vertex inside its AABB) reaches a leaf that lists the triangle.", "quantifier": "all triangle sets with AABBs containing no NaN, all settings, all schedules", "why_tests_cant": "Whether references are overwritten depends on the areas of all boxes of the tree; a test sees one scene.", "anchors": ["src/builders/spatial_sah.rs:SpatialSahBuildTask::allocate_children", "src/utils.rs:move_backward"]}
{"id": "C72", "title": "A transformed box encloses the image of the whole box", "statement": "Aabb::transformed(m) (and transform) of a box with finite coordinates contains the exact image, under the affine part of m, of every point of the box - not only of the eight corners - up to 48 rounding units (2^-24) of the largest product of a matrix entry and a coordinate; for entries and coordinates whose products are at most 3 the 1e-5 padding makes the containment strict without allowance. It is not larger than that: every face is within the padding and the same rounding bound of the image of a corner.", "quantifier": "all boxes and matrices with finite entries up to 2^20, all real points of the box", "why_tests_cant": "There are uncountably many points in a box and 2^500 matrices; a missing corner only shows for particular rotations, and rounding only at particular magnitudes.", "anchors": ["src/aabb.rs:Aabb::transformed", "src/aabb.rs:Aabb::transform", "src/aabb.rs:Aabb::all_corners", "src/aabb.rs:Aabb::from_points"]}
{"id": "C73", "title": "Moving and turning the demo camera", "statement": "CameraView3D::translate moves the position by the offset along the camera's left, the y axis and the view direction and keeps the direction; translate_target turns the direction to the exact unit vector of direction - x*right - y*up and keeps the position. After either, the corner and edges stored in the camera, from which rays are generated, describe the screen at distance one in front of the new position in the new direction, 2*tan(fov/2)*aspect wide and 2*tan(fov/2) high. All up to stated rounding bounds and for whatever value the platform's tan returns.", "quantifier": "all cameras, offsets, screen fractions and tan functions (sizes up to 2^20)", "why_tests_cant": "The screen must follow the position and direction for every sequence of moves; a test checks a few poses, where an error in one of the three corners can cancel.", "anchors": ["shared/src/lib.rs:CameraView3D::translate", "shared/src/lib.rs:CameraView3D::translate_target"]}
{"id": "C74", "title": "Order in which traversals hand out primitives", "statement": "A ray or packet traversal of a binary BVH hands out exactly the sequence of a recursive walk: the boxes of both children are tested once, when their parent is visited, with the ray as the loop body has left it then; a child that is hit is walked entirely; of two children that are hit the one entered later comes first (left first on a tie). So the order is back to front: a caller that shortens the ray at each hit still gets the far subtree first. A 4-wide BVH hands out, at each node, the primitives of the leaves hit, farthest first, then descends into the inner nodes hit, nearest first (packets: storage order). It is false that traversal is front to back.", "quantifier": "all valid BVHs, rays, packets and loop bodies (depth up to 31, 22 for 4-wide trees)", "why_tests_cant": "The order depends on the distances of all boxes along a path and on when the loop body shortens the ray; a test of result sets cannot see the order, and one of a few orders cannot cover the interplay.", "anchors": ["src/bvh_node.rs:sort_nodes", "src/bvh_node.rs:sort_nodes4", "src/iter.rs", "src/iter_indices.rs", "src/mbvh_node.rs:MbvhNode::intersect", "src/mbvh_node.rs:MbvhNode::intersect4"]}
{"id": "C75", "title": "Cells of the Morton grid", "statement": "MortonEncoder::new(box, dim).encode(point) is the Morton code of the cells in which the point's coordinates lie when each side of the box is cut into dim equal cells, points outside counting as in the first or last cell: exactly, whenever each coordinate is further from the cell's borders than a stated rounding error. For every upright finite box, however small, codes respect the order of points: a point with no larger coordinate never gets a larger code, so get_sorted_indices puts it first unless both have the same code.", "quantifier": "all boxes, grid dimensions 1..1024, points and centre lists (cells: sides between 2^-100 and 2^100)", "why_tests_cant": "The cell is a truncated affine float expression; its order and its borders must hold for all boxes including nearly flat ones, where one over the side overflows.", "anchors": ["src/morton.rs:MortonEncoder::new", "src/morton.rs:MortonEncoder::encode", "src/morton.rs:MortonEncoder::get_sorted_indices"]}
{"id": "C76", "title": "Binned-SAH builds make exactly the tree of the surface area heuristic", "statement": "For any finite or infinite, non-NaN AABBs, every schedule of the binned-SAH builder stores the tree that the heuristic prescribes: from the union of all AABBs padded by 1e-4, every node is divided at the first cheapest of the 45 bin boundaries if that costs less than a leaf; otherwise it becomes a leaf if it holds at most primitives_per_leaf primitives, and else is divided along its longest axis where two fifths of the primitives are first exceeded (a leaf if that leaves a side empty, or at depth 64). Node boxes are padded once, leaf boxes twice; a right child's box is the padded union of exactly the AABBs below it, a left child's box too if the cut pays, and otherwise the padded union of the AABBs below the best cut. The prescription determines the stored boxes, the nesting and the primitives of every leaf.", "quantifier": "all inputs (any number of primitives up to 2^30, any non-NaN boxes), leaf sizes, schedules of the task runner", "why_tests_cant": "tests compare a few trees; that no box is larger than needed and no tie is broken differently must hold for every node of every build under every schedule", "anchors": ["src/builders/binned_sah.rs:BinnedSahBuildTask::run", "src/builders/binned_sah.rs:find_split", "src/builders/binned_sah.rs:compute_bin_index", "src/aabb.rs:union_of_list", "src/aabb.rs:offset_by"]}
{"id": "C77", "title": "The 4-wide tree is exactly the binary tree with every other level removed", "statement": "Mbvh::construct / From<Bvh> of a valid binary BVH yields a node array that holds, numbered depth first from 0 and with nothing else in the array, the following tree: the root of the binary BVH becomes node 0; an inner binary node that is kept becomes a 4-wide node whose slots 0,1 are the two children of its left child and slots 2,3 those of its right child, each with its own box; a child that is itself a leaf takes the first of its two slots, with its parent's box, and leaves the second empty. The number of 4-wide nodes is the number of inner binary nodes at even depth (1 for a lone leaf). construct_from_raw gives the same tree for more than 4 nodes and copies the nodes into the slots of node 0 for up to 4.", "quantifier": "all valid binary BVHs (any shape, any depth, any boxes)", "why_tests_cant": "the recursion pairs levels, and whether a leaf sits at an odd or even depth changes which slots are used; a test covers only a few shapes", "anchors": ["src/mbvh_node.rs:MbvhNode::merge_nodes", "src/bvh.rs:Mbvh::construct", "src/bvh.rs:Mbvh::construct_from_raw"]}
{"id": "C78", "title": "Shadow-ray queries answer correctly", "statement": "In a scene within the limits of C60, the loop `for tri in bvh.iter_ray(&mut ray, &tris) { if tri.intersect(ray) { return true } } false` - which stops at the first triangle that reports a hit - terminates and returns true exactly if some triangle of the mesh reports a hit for that ray; over a binary BVH, over the 4-wide BVH made of it, and for BVHs of the locally-ordered-clustering and binned-SAH builders under every schedule.", "quantifier": "all meshes, rays with any initial t > 0, and trees within the limits of C60", "why_tests_cant": "a missed occluder shows up only for particular rays and trees; the loop stops early, so it visits different parts of the tree depending on the order of the leaves", "anchors": ["src/iter.rs:BvhIterator::next", "src/iter.rs:MbvhIterator::next", "src/builders/spatial_sah.rs:SpatialTriangle::intersect"]}
{"id": "C79", "title": "bounds() of a BVH encloses every primitive", "statement": "`bounds()` of a BVH without nodes is the empty box, which contains no point; otherwise it is the box of the root node. For a BVH built by any of the three builders, under every schedule, it encloses the AABB of every primitive given to the builder (for the spatial-splits builder even in the builds in which triangles get lost from the leaves), and `bounds()` of a 4-wide BVH made from a binary one is the same box.", "quantifier": "all inputs of the builders with ordered, non-NaN AABBs, all thread counts and schedules", "why_tests_cant": "a box that is too small shows up only for particular inputs; a BVH nested in another is entered only through this box, so everything outside it is invisible", "anchors": ["src/bvh.rs:Bounds for Bvh", "src/bvh.rs:Bounds for Mbvh", "src/aabb.rs:union_of_list"]}
{"id": "C80", "title": "The C interface is thread-safe: concurrent calls behave as if made one at a time, and never deadlock", "statement": "Any number of threads may call create_bvh, create_spatial_Bvh, create_mbvh, refit, free_bvh and free_mbvh at the same time, also on the same handles. Whatever the interleaving of their lock operations and memory accesses, what the callers see (return codes, handles, a crash) is what they would see if every call took effect in one indivisible moment between its start and its return, and when no call is in progress the library's memory is what the same calls leave when made one after the other in some order. No interleaving deadlocks, even if readers wait behind waiting writers, and without new calls everything returns after finitely many steps. There is no data race between these calls: of two threads about to access the library's memory, neither access can tell whether the other has happened, and their order does not matter. A handle that was returned can be read without a lock (as the traversal functions do) at any moment, in the middle of other threads' calls, and shows the complete, unchanged structure as long as no call frees or refits it. (Reading through a handle during a refit of it is not protected: a torn tree can be seen.)", "quantifier": "all numbers of threads, all call sequences with any arguments, all interleavings of single lock operations and single memory accesses", "why_tests_cant": "wrong or missing locks show up only in particular interleavings, deadlocks only in particular lock orders; no test enumerates them for arbitrary thread counts and arguments", "anchors": ["rtbvh_ffi/src/lib.rs:StructureManager", "rtbvh_ffi/src/lib.rs:StructureManager::store", "rtbvh_ffi/src/lib.rs:StructureManager::store_mbvh", "rtbvh_ffi/src/lib.rs:StructureManager::get", "rtbvh_ffi/src/lib.rs:StructureManager::get_mut", "rtbvh_ffi/src/lib.rs:StructureManager::free", "rtbvh_ffi/src/lib.rs:create_bvh", "rtbvh_ffi/src/lib.rs:create_mbvh", "rtbvh_ffi/src/lib.rs:refit", "rtbvh_ffi/src/lib.rs:free_bvh", "rtbvh_ffi/src/lib.rs:free_mbvh"]}
{"id": "C81", "title": "The triangle a renderer remembers is the nearest one", "statement": "The loop `let mut t = None; for (triangle, ray) in bvh.traverse_iter(&mut ray, &tris) { if triangle.intersect(ray) { t = Some(triangle) } }` over a Bvh or the Mbvh made of it ends with t = Some(tr) where tr itself, tested against the initial ray, reports a hit at exactly the distance the ray ends with and no triangle of the slice reports a nearer one; it ends with None only if no triangle at all reports a hit against the initial ray. The packet loop, keeping one triangle per lane, does so for each lane. If no two triangles are hit at the same distance, all these loops remember the same triangle.", "quantifier": "all triangle meshes, origins, directions and initial t that satisfy the rounding conditions of C60; every binary tree with padded boxes, in particular all trees of the locally-ordered builder and of the binned builder under every schedule; and the 4-wide BVHs made of them", "why_tests_cant": "A traversal that culls a node wrongly or yields leaves in an unlucky order remembers the wrong triangle only for particular trees and rays; a rendered image looks right except for isolated pixels.", "anchors": ["src/bvh.rs:Bvh::traverse_iter", "src/bvh.rs:Mbvh::traverse_iter", "src/iter.rs:BvhIterator", "src/iter.rs:MbvhIterator", "src/builders/spatial_sah.rs:SpatialTriangle::intersect", "examples/visualizer.rs:main"]}
{"id": "C82", "title": "Every pixel of a frame shows what its own ray found", "statement": "Drawing a w x h RGBA frame in parallel, one chunk of 4 bytes per pixel, leaves at byte 4*(y*w+x)+b, for every pixel (x, y), the byte b of the colour of what the camera's ray for pixel (x, y) found, whatever the order in which the chunks are finished; drawn four pixels at a time (chunks of 16 bytes, w a multiple of 4) the pixel's bytes come from one lane of one packet and that lane is exactly the ray of pixel (x, y). With the traversal loops over BVHs of the two builders (or the 4-wide BVHs made of them) every pixel shows a triangle nearest along its ray, or transparent black where its ray meets none. Colours are bytes, opaque exactly where a triangle was found; the three colour bytes are 255 times the components of the triangle's unit normal, (v1-v0) x (v2-v0) over its length, with negative components drawn as 0, rounded down (within one more byte of the exact value, for edges of magnitude at most e <= 2^20 and a cross product no shorter than e^2/1024).", "quantifier": "all cameras, all frame sizes with w*h <= 2^32, all completion orders of the chunks, all triangle meshes and trees satisfying the conditions of C60 for each pixel's ray", "why_tests_cant": "An index or row error shows only for particular widths; completion orders are chosen by the scheduler; a wrong pixel is one in a million.", "anchors": ["examples/visualizer.rs:main", "shared/src/lib.rs:CameraView3D::generate_ray", "shared/src/lib.rs:CameraView3D::generate_ray4", "src/bvh.rs:Bvh::traverse_iter", "shared/src/lib.rs:Triangle::new"]}
{"id": "C83", "title": "The averager reports the mean of the latest samples", "statement": "After any history of add_sample calls on an Averager of capacity c >= 1, none of which panics, data() is the last min(n, c) samples, oldest first, and get_average() is their f32 sum in that order times the reciprocal of their number, which differs from their exact mean by at most (number + 7) * 2^-24 times the largest magnitude (capacity up to 1000, finite samples). Before the first sample the average is NaN; with capacity 0 the first sample panics.", "quantifier": "all capacities, all sample histories of any length", "why_tests_cant": "The switch from filling to shifting happens once per history at a capacity-dependent point, and the rounding error must be bounded for every sequence of values.", "anchors": ["examples/visualizer.rs:Averager::add_sample", "examples/visualizer.rs:Averager::get_average", "examples/visualizer.rs:Averager::data"]}
{"id": "C84", "title": "The multi-threaded benchmark traces what the single-threaded one traces", "statement": "The benchmark's slices hold one ray per pixel of every frame in reading order, and if the width is a multiple of four lane j of packet k is ray 4k+j. Tracing a slice in parallel (chunks of any size, one loop per chunk) visits every ray exactly once, never gets stuck, ends after as many ray traversals as there are rays, and leaves the slice exactly as the single-threaded loop does; over BVHs of the binned-SAH and locally-ordered-clustering builders and the 4-wide BVHs made of them every ray, and every lane of every packet, ends cut off at its nearest triangle (unchanged if it meets none).", "quantifier": "all cameras, frame counts and sizes, chunk sizes, all interleavings of the chunks' loops, all meshes and trees satisfying the conditions of C60 for each ray", "why_tests_cant": "Interleavings are chosen by the scheduler; a chunk boundary error shows only for particular lengths.", "anchors": ["examples/benchmark.rs:intersect_rays", "examples/benchmark.rs:intersect_packets", "examples/benchmark.rs:main", "shared/src/lib.rs:CameraView3D::generate_ray4"]}
{"id": "C85", "title": "The timer shows the elapsed milliseconds", "statement": "Timer::elapsed_in_millis returns the elapsed time in milliseconds up to four roundings, for every elapsed time below 4294968 seconds (49 days); from then on (until 2^32 seconds) it panics when overflow checks are on; without them the milliseconds of the whole seconds are shown modulo 2^32.", "quantifier": "all elapsed times", "why_tests_cant": "No test waits 49 days, and the rounding differs for every value.", "anchors": ["shared/src/lib.rs:Timer::elapsed_in_millis"]}
{"id": "C86", "title": "Iterating over primitives and over ids visits the same things", "statement": "With a primitive slice long enough for every id a structure holds (such as the one it was built from), the iterators that yield primitives and the iterators that yield ids yield the same primitives in the same order, hand out the same rays (or packets) and leave the client in the same state, for rays and packets, over BVHs and 4-wide BVHs; so looking up the yielded ids without bounds checks is safe. With a missing id they differ.", "quantifier": "all node arrays, id lists and slices covering them, all clients (which may change the ray between two yields), all rays and packets; all builds of the binned-SAH and locally-ordered-clustering builders", "why_tests_cant": "The client can change the ray arbitrarily between yields and node arrays are unbounded.", "anchors": ["src/iter.rs:BvhIterator", "src/iter.rs:MbvhIterator", "src/iter_indices.rs:BvhIndexIterator", "src/iter_indices.rs:MbvhIndexIterator", "examples/visualizer.rs:main"]}
{"id": "C87", "title": "The demo's controls follow the keys held", "statement": "After any history of window events a key counts as held exactly if its last change was a press (changes without a key code are ignored). When the event queue runs empty, holding Escape leaves the loop without moving the camera or changing the traversal method; otherwise the held digit key with the highest number picks the method (none held: unchanged), and the camera is moved left/up/ahead and turned left/up by exactly one unit per key pair and 100 ms (opposite keys cancel; left Shift makes it ten units and two), the turn at a tenth of that; the new position is the exact one up to a rounding bound. No other event moves the camera or changes the method, and only closing the window, Escape or a frame that cannot be shown leaves the loop.", "quantifier": "all histories of events, all cameras, elapsed times and tan functions", "why_tests_cant": "Event histories are unbounded; presses and releases interleave arbitrarily.", "anchors": ["examples/visualizer.rs:main"]}
{"id": "C88", "title": "The camera the demos start with", "statement": "The corner and edges stored in the start camera describe the screen at distance one in front of (0, 1.5, -100) along z, 2*t*aspect wide and 2*t high with t what tan returns, up to a stated rounding bound. The stored aspect ratio is width / height and the stored pixel steps are 1/width and 1/height, up to rounding. As long as no key is pressed, whatever other events arrive and however much time passes, the camera stays bit for bit the same and the binary BVH is drawn. Limit of the code: the 90 degrees of the field of view are converted to radians twice, so the angle handed to tan is pi/4 * pi/180, not pi/4, for every window size.", "quantifier": "all window sizes, tan functions with finite results, all points of the screen, all event histories without a key press", "why_tests_cant": "Every point of the screen and every history counts; signed zeros and rounding of repeated no-op moves would have to cancel for each.", "anchors": ["examples/visualizer.rs:main", "examples/benchmark.rs:main", "shared/src/lib.rs:CameraView3D"]}
