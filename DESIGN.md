# Formal model of MeirBon/rtbvh in Coq 8.16.1

`rocq/theories` holds an executable Gallina model of `/repo/src` and of
`/repo/rtbvh_ffi/src/lib.rs` plus proofs.  The code itself was only read, never
built or run: the tie between model and code is the citation `(* file:lines *)`
on every definition, and the refutations (`_refuted` theorems) are model
computations that can be replayed on the crate.

## How the code is modelled

* **f32** is Flocq's `binary_float 24 128` (`BinarySingleNaN`: IEEE binary32
  with one NaN), round to nearest even; so all model functions compute and the
  theorems about boxes speak about the real rounding behaviour.
  `f32::min/max` are minNum/maxNum (NaN ignored; on a tie of zeros of opposite
  sign the first operand, which Rust leaves open), SSE lane `min/max` are the
  `minps/maxps` rule (second operand unless strictly smaller/greater).
  Casts `as usize/i32/u32` truncate and saturate (NaN -> 0), `as f32` rounds.
* **usize** is `nat` (unbounded), `i32/u32` node fields are `Z` with explicit
  wrap-around in the casts.  Theorems that need it assume sizes for which
  nothing wraps (node array below 2^31; binned: n <= 2^30; clustering:
  3(2n-1) < 2^32-1; spatial: n + 0.75n <= 2^29).
* **Slices/Vecs** are lists.  Indexing outside is an explicit outcome:
  `Panic` for checked accesses, `UB` for `get_unchecked`/raw pointers.
* **Loops** are structural recursion, folds, or recursion on fuel with an
  explicit `OutOfFuel` outcome that every theorem excludes.
* **Parallelism** (rayon scopes, `TaskSpawner`, the atomic node counter) is a
  small-step relation in which any runnable task performs its next atomic action;
  theorems about builders quantify over every execution.
  A task is split into the phases between which other tasks can interfere.
  For the spatial-split builder a phase (all of what one item does between
  two interactions with the runner or the node counter) is one step; this is
  justified in the model itself by `C51_private` and `C51_race_free`: at every
  moment of every execution a phase writes only its footprint (own references,
  own node, the pair/positions the atomic counter gave it), what it does depends
  only on that footprint and the atomic counters, and the footprints of any
  two live items are disjoint, so no finer interleaving can be told apart.  Its
  `sort_by` is a parameter (`sorter`): theorems hold for every permutation-valued
  sorter, C56 for every sorter that sorts.  `par_bridge().collect()` is any
  permutation.
* **User code**: `Primitive::center()`/`aabb()` and the client of an iterator are
  pure functions (a builder calls `center()` several times); `SpatialTriangle`
  accessors likewise.
* **Iterators** are state machines (`next` in Gallina); the client may change
  `ray.t` between two `next` calls.
* **Alignment** (C57): an address is added to the 4-wide node and each of the
  six 16-byte loads checks it.
* **C callers** (FFI): a buffer is a list plus what is missing from it; reading
  past it is `UB`; the handle table is a state.

## What is and what is not modelled

| code | model | proofs / theorems |
|------|-------|-------------------|
| src/aabb.rs (all but Display, serde, Index) | AabbModel | AabbProofs, MeasureProofs, PropBox, PropMeasure, PropTransform (C01-C06, C44, C72) |
| src/ray.rs | RayModel | PropNode (C09) |
| slab tests (aabb.rs) | AabbModel | SlabProofs, Slab4Proofs, PropNode/PropSlab (C07, C08) |
| src/bvh_node.rs | NodeModel | PropNode (C10), IterProofs |
| src/iter.rs, src/iter_indices.rs | IterModel, MbvhModel | IterProofs, TraverseProofs, ClosestProofs, ShortProofs, PropTraverse (C23-C25, C29, C30), MbvhProofs, MbvhClient |
| src/mbvh_node.rs, Mbvh in src/bvh.rs | MbvhModel, AlignModel | MbvhMerge, MbvhClient, PropMbvh (C26-C28), PropAlign (C57) |
| src/bvh.rs: Builder, Bvh (refit, validate, bounds) | BvhModel | BvhProofs, PropBvh (C11, C31, C32, C43) |
| src/utils.rs (prefix_sum, partition, move_backward, round_up_log2), src/morton.rs | UtilsModel | UtilsProofs, MortonProofs, PropUtils (C33-C36) |
| src/utils.rs TaskSpawner | SpawnModel | SpawnProofs, PropSpawn (C17) |
| src/builders/locb.rs | LocbModel | LocbNN, LocbMerge, LocbForest, LocbProofs, PropLocb (C18-C21) |
| src/builders/binned_sah.rs, builders/mod.rs | BinnedModel | BinnedProofs, BinnedFacts, BinnedLeaf, BinnedCost, PropBinned (C12-C16, C53) |
| src/builders/spatial_sah.rs: SpatialTriangle | TriModel | TriProofs, TriError, PropTri, PropTriError, PropSplit (C37, C38, C46, C47) |
| src/builders/spatial_sah.rs: builder | SpatialModel | SpatialPlan, SpatialProofs, SpatialComplete, SpatialShare, SpatialBoxes, SpatialLeaf, PlaneProofs, SpatialCost, SpatialDivide, SpecPanic, SpatialPanic, PropSpatial*, PropPanic (C22, C51, C52, C54-C56, C65, C66, C70, C71) |
| end to end: builder + box test + iterator | the above | PropNoMiss (C45), PropNoMiss4 (C58), BinnedRoom, PropNoMissBinned (C59), SpecMesh, NearProofs, MeshProofs, PropMesh (C60), MonoProofs, PropMono (C61) |
| bins of the two SAH builders against exact sixteenths | the above, SpecBins | BinOrder, PropBins (C62) |
| LOC rounds against the list algorithm | the above, SpecLoc | LocbRounds, PropLoc (C63) |
| rtbvh_ffi/src/lib.rs | FfiModel; LockModel (the locks) | FfiProofs, PropFfi (C39-C42, C48-C50); LockProofs, LockCalls, LockTrace, PropLock (C80) |

Specifications are separate files that do not model code: SpecGeom (points and
boxes), SpecSlab (exact ray/box passage), SpecTree (a node array stores a tree),
SpecTraverse, SpecMbvh, SpecBinned and SpecCut (surface-area cost of a cut), SpecPlane (slabs,
slices and the estimated cost of a plane),
SpecTri (exact triangles), SpecFfi (handle table as a list), SpecSpatial (the
spatial builder read sequentially; used in proofs and in the statement of which
builds have harmless reference moves).

Not modelled: Rust's aliasing rules (the iterators extend lifetimes of `&mut Ray`
by transmute, tasks share `UnsafeSliceWrapper`s: only the index ranges are
modelled), memory ordering weaker than sequential consistency (the only shared
atomics are counters changed by `fetch_add`/`fetch_sub`), allocation failure, stack overflow, time
and memory cost, `Display`/serde/bytemuck derives, NaN payloads, non-x86 code
paths (`wasm_support`), the `Default` impls' use outside the crate,
`UnsafeSliceWrapper`'s one-line accessors (folded into the list operations),
rtbvh_ffi/build.rs, of /repo/examples the window and the other crate's BVH
(the event loop, frame loops, colours, the averager and the benchmark's loops are modelled, C81-C84, C87), and of the demo crate /repo/shared the
camera's private `calculate_matrix` (never called) and
the triangle's adapters to the `bvh` crate (ray generation, the camera's moves and the triangle's box, centre and normal are modelled, C67, C68, C73, C82; the timer's milliseconds are C85).
The value of `f32::tan` is a parameter of the camera model: nothing is assumed about it.

## Properties and how each is proved

(IDs as in properties.jsonl; theorem names begin with the ID.  `_refuted`
theorems show a limit of the code; the English property says what remains.)

| ID | modelled by | proof |
|----|-------------|-------|
| C01-C06, C44 | `Aabb` functions over binary32 | order lemmas for binary32 comparison, monotonicity of rounding (Flocq) |
| C07, C08 | slab tests over binary32 | monotone rounding gives "entry <= RN t <= exit"; error bounds; refutations by computation |
| C09 | ray constructors | computation/by cases |
| C10 | node fields with i32 wrap | arithmetic |
| C11, C43 | `Builder` front end, with `par_bridge` as any permutation | case analysis; refutation for ordering |
| C12-C16 | binned SAH builder as concurrent pool | ownership invariant over all interleavings; schedule independence by a determinism/tree-refinement argument; refutation for leaf size and for the fallback bounds |
| C17 | `TaskSpawner` threads with stacks | invariant: multiset of pending+done tasks |
| C18-C21 | LOC builder with chunk parameter | invariant over rounds; minimal pair argument for progress; refutation for huge boxes |
| C22 | spatial-split builder | item invariant over all interleavings |
| C23-C25, C29, C30 | traversal iterators | induction over the abstract tree with a stack invariant; refutations (stack depth, short slice) |
| C26-C28 | Mbvh collapse, 4-wide node test, traversal | induction over the tree; refutation of sort order and stack bound |
| C31, C32 | refit, validate | induction over index/tree; refit structure refuted |
| C33-C36 | utils and Morton code | list induction, bit lemmas |
| C37, C46 | triangle tests over binary32 | case analysis; lane by lane agreement |
| C38 | the same over R and over binary32 | `field`/`nra`; standard-model error analysis of Moeller-Trumbore |
| C47 | split of a triangle | exact contents of both boxes, uncut triangles covered; covering of cut ones refuted (partial) |
| C39, C48 | FFI handle manager as state machine | refinement to a growing list; histories by induction |
| C40-C42 | FFI conversions, stride arithmetic, result codes (create_bvh, create_spatial_Bvh, create_Mbvh, refit) | computation; refutation for the AABB strides |
| C49, C50 | FFI intersect functions, buffers | equality with the library traversal; which buffer lengths suffice, refutations |
| C45 | composition of C07, C18, C21, C23 | |
| C51 | spatial build | ownership invariant, footprints (frame and locality of each phase, race freedom) |
| C52 | spatial build | every execution computes the same abstract tree (SpecSpatial) |
| C53 | binned SAH | the scan equals the specification's minimum over all bin boundaries |
| C54, C55 | spatial build | box invariant along the abstract tree (C54 partial); finite-cost analysis |
| C56 | spatial build | sorted sweep = minimum over all cuts; slab sweep = minimum over all candidate planes; induction over the tree with the clipped parts each node holds (inductive specification `divides` in SpecCut.v); for loss-free builds. Refuted that the plane minimises area times number (the left side is charged the whole union) |
| C57 | addresses of 4-wide nodes | arithmetic; refutation for an allocation at 4 mod 16 |
| C58 | Mbvh and packet traversal of a tree whose boxes contain enlarged AABBs | the 4-lane slab error bound shows every box on the path accepted; then C27/C29 |
| C59 | binned build + box test + iterators | node box = task box enlarged, so C58 applies where the task box encloses (SAH cuts) |
| C60 | the above + triangle tests | a reported hit is near the triangle (C38), so the ray's point near the reported distance is within `clearance` of the box; what is left of the 1e-4 padding covers the box test's error; then closest hit = brute force lane by lane |
| C61 | box tests, iterators, builders | subtraction, multiplication by a fixed reciprocal, min and max are monotone under rounding (infinities included), so near planes come earlier and far planes later for an outer box; then `encloses` carries the hit up every path. +0 directions with the origin on a plane are excluded: `C61_axes_refuted` |
| C62 | `compute_bin_index`, `run`, `run_binning_pass` | the bin is the clamped truncation of c*s+q; monotone in c for every s, q by case analysis over signs, infinities and NaN; against exact sixteenths by relative error bounds; separation of the centres by induction over the sequential tree (`sah`) that every schedule produces |
| C63 | LOC builder against the list algorithm of SpecLoc | the scan returns the first least distance (NaN included); each array round maps the row of subtrees to the specification's next row; induction over rounds; `rounds` is shown deterministic |
| C64 | the eight iterators | `next` as its own function; a loop is a sequence of turns, so every prefix of calls is a prefix of the loop; the end state is a fixed point of `next` for every ray |
| C65 | spatial build | every primitive referenced when no reference move overlaps (partial); refuted in general by computation |
| C67 | `generate_ray`, `generate_ray4` | lanes by rewriting; direction by chained rounding bounds (conversion, products, sums, square root by Flocq's `Bsqrt_correct`, reciprocal) and the distance between two normalised vectors |
| C69 | `reflect`, `get_point_at`, `Ray::is_valid` | chained rounding bounds against the exact mirror image (SpecMeasure) |
| C68 | demo `Triangle` | least upper bound of three points; chained rounding bounds |
| C66 | spatial build | returns when no task meets a situation of C70 (partial); refuted in general by computation |
| C70 | spatial build | every task of every schedule is a task of the sequential reading (carried in the invariant of SpatialProofs); monotony of the bin of a coordinate and of the next plane upwards exclude every other panic of a task; a weight argument on live tasks excludes running out of node slots; `left_split_count` is at most the free space unless a half area is negative (SpatialShare) |
| C71 | spatial build | a tree made without overwriting tasks is `harmless` (and conversely), so the conditional theorems of C54 and C65 apply |
| C72 | box transform | rounding-error bound for each corner and each row of the matrix product (approx toolkit of TriError), linearity of the exact map over the box, min/max of from_points attained |
| C73 | demo camera | `translate`, `translate_target` with `tan` as an arbitrary function; chained rounding bounds for the screen's corner and edges, normalisation as in C67 |
| C74 | iterators, `sort_nodes`, `MbvhNode::intersect`/`intersect4` | recursive `walk` in SpecOrder.v; the iterator's stack is the list of subtrees still to be walked, induction over the loop. Front-to-back order refuted by computation |
| C75 | `MortonEncoder` | relative-error bound of c*s+q against the exact position in cells; the positive part of c*s+q is monotone for every s, q (infinities and NaN included); codes monotone in the cells (C35) |
| C76 | binned-SAH builder, whole tree | The tree is described by a small inductive relation (`SpecCarve.v`): `carved` says which cut a node gets (`best_axis`, `pays`, `middle`, `chosen`), when it stays a leaf (`uncut`) and which boxes the children get (`union_box`). `C76_made`: every schedule's result satisfies it (induction over the sequential function `sah` the schedules were proved to compute; `find_split` finds the *first* cheapest cut). `C76_determined`: the relation leaves no choice – any stored tree satisfying it has the same boxes, nesting and leaf contents. `C76_tight`: upper bounds of all boxes. |
| C77 | `MbvhNode::merge_nodes`, `Mbvh::construct`, `construct_from_raw` (MbvhModel) | `SpecQuad.quartered`, an inductive relation between binary and 4-wide trees that skips every other level; induction on depth in `MbvhMerge.merge_ok` gives the shape and the exact preorder numbering; `C77_determined` shows that the relation plus the numbering leave one tree only; `C77_size` counts the nodes |
| C78 | `next` of the iterators, `Triangle::intersect` (IterModel, MbvhModel, TriModel) | `SpecShadow.any_hit` is the early-stopping loop as calls of `next`; until the first hit the ray is unchanged, so the loop walks a prefix of the full loop of C60 (C64's decomposition into `next` calls); the full loop ends with an unchanged ray iff no triangle reports a hit (C37, C60) |
| C79 | `bounds` of `Bvh`/`Mbvh` (`nodes_bounds`), the builders | the root record of the represented tree; C21 (locb), C16 (binned) and, for the spatial builder, the root task's box `union_of_list` which the stored root keeps or pads |
| C80 | LockModel.v: every call of the C interface as a program of lock operations (`RwLock` read/write around the list and around each structure, guards dropped in reverse order) and single memory accesses (refit writes node by node, create_mbvh reads element by element, free drops `Vec`s one by one); any number of threads, any interleaving; a panic or undefined behaviour ends the process | reference in SpecLock.v: calls atomic (`SpecFfi.api_step`). Forward simulation with ghost state per thread: the cells it knows (protected by a read lock) and the cells it is in the middle of changing (protected by a write lock), over a per-cell view of memory; a weakest-precondition predicate on programs, checked for each call (LockCalls.v). Deadlock freedom from a lock order, in the stronger form with readers waiting for waiting writers; termination by well-foundedness of "rest of the program". Locks are sequentially consistent; The write of create_spatial_Bvh through a null `result` ends the process before `store` instead of after it. Not modelled: the traversal functions, which take no lock; C80_handle says what they can rely on, C80_race_refuted what they cannot Data races (`C80_race_free`): the same predicate asks of every access that it depends only on cells its locks protect and that only a write lock lets it lengthen a list; two pending accesses of different threads then commute (addresses of new vectors excepted). |
| C81 | The renderer's loop over rays and packets (examples/visualizer.rs), as loop bodies with the remembered triangle as state (`SpecShade.v`) | Keeping a state beside the ray does not change the traversal (`keep_run`); the state then is a triangle met at the final distance (`shade_kept`, `shade4_kept`), which C60 says is the brute-force minimum. `PropShade.v` |
| C82 | The frame loops of examples/visualizer.rs as chunk writes in any completion order, pixel colours, the triangle's normal (`VisualModel.v`) | Byte-level invariant of the chunk writes (`for_chunks_spec`); division and remainder by the width; lanes by C67, nearest triangles by C81; the colours by rounding-error analysis of cross product and normalisation against the exact normal of `SpecNormal.v`. `PropVisual.v`, `PropNormal.v`; frames drawn four rays at a time `PropVisual4.v` |
| C83 | `Averager<f32>` statement by statement (`VisualModel.v`) | Invariant over the history, by induction from the right (`history_holds`); rounding errors with the calculus of C38's error bounds. `PropVisual.v`, `PropAverage.v` |
| C84 | The benchmark's slices of rays and packets and its sequential and chunked parallel loops, as interleavings with one ray per step (`BenchModel.v`) | Invariant on every chunk's progress; the number of steps equals the work done; quotient/remainder arithmetic for positions; C67 and C60 per ray. `PropBench.v`; per packet lane `PropBench4.v` |
| C85 | `Timer::elapsed_in_millis` with and without overflow checks (`BenchModel.v`) | Rounding errors of two conversions, a division and a sum. `PropBench.v` |
| C86 | The eight iterator loops (`IterModel.v`, `MbvhModel.v`) | Congruence of a turn in the bound test on ids that occur (`SameIter.v`), induction on turns; permutation results of the builders. `PropSame.v` |
| C87 | The event loop of examples/visualizer.rs as a state machine over event histories (`ControlModel.v`) | Induction on histories from the right; case analysis over the keys with exact float evaluation; position by C73. `PropControl.v`, `PropControlMove.v` |
| C88 | The construction of the demo's camera (`StartModel.v`), with the event loop of C87 | Rounding analysis of C73; exact evaluation with signed zeros and induction on histories; the doubled conversion by computation and bounds on pi. `PropStart.v` |

## Trusted base

Coq's kernel (8.16.1) with `vm_compute`, the reading of the Rust code, and the semantics of glam /
rayon / Rust casts stated above.  No axioms are declared in `/verif`.
What `Print Assumptions` lists:

* 69 theorems: nothing ("Closed under the global context"); the list, and that of the
  other two groups, theorem by theorem, is in ASSUMPTIONS.md.
* C38_exact, C38_parallel, C38_unique: `ClassicalDedekindReals.sig_forall_dec`,
  `FunctionalExtensionality.functional_extensionality_dep`.
* all other theorems: at most these four axioms of Coq's standard library, which
  its real numbers (used by Flocq) rest on:
  `ClassicalDedekindReals.sig_forall_dec`, `ClassicalDedekindReals.sig_not_dec`,
  `Classical_Prop.classic`, `FunctionalExtensionality.functional_extensionality_dep`.
