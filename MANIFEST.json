{
 "claims": [
  {
   "property": "C01",
   "status": "proved",
   "theorems": [
    "C01_grow",
    "C01_grow_bb",
    "C01_grow_bbs",
    "C01_union_of",
    "C01_keeps_points",
    "C01_grow_from_empty",
    "C01_full_empty"
   ],
   "note": ""
  },
  {
   "property": "C02",
   "status": "proved",
   "theorems": [
    "C02_intersection",
    "C02_intersection_extras",
    "C02_shrink"
   ],
   "note": ""
  },
  {
   "property": "C03",
   "status": "proved",
   "theorems": [
    "C03_union_of_list_covers",
    "C03_empty_list",
    "C03_union_of_list_tight"
   ],
   "note": ""
  },
  {
   "property": "C04",
   "status": "proved",
   "theorems": [
    "C04_offset",
    "C04_offset_mono"
   ],
   "note": ""
  },
  {
   "property": "C05",
   "status": "proved",
   "theorems": [
    "C05_from_points",
    "C05_aabb_macro",
    "C05_from_points_contains",
    "C05_contains_refuted"
   ],
   "note": "The theorems ending in _refuted show the stated limit: they exhibit an input beyond the proved guarantee."
  },
  {
   "property": "C06",
   "status": "proved",
   "theorems": [
    "C06_center",
    "C06_longest_axis",
    "C06_longest_extent",
    "C06_half_area_nonneg",
    "C06_half_area_mono",
    "C06_area_nonneg",
    "C06_is_valid",
    "C06_contains",
    "C06_extents",
    "C06_half_area_value",
    "C06_area_value",
    "C06_volume_value"
   ],
   "note": ""
  },
  {
   "property": "C07",
   "status": "proved",
   "theorems": [
    "C07_intersect_complete",
    "C07_intersects",
    "C07_above_tmin",
    "C07_negative_zero_refuted",
    "C07_value"
   ],
   "note": "The theorems ending in _refuted show the stated limit: they exhibit an input beyond the proved guarantee."
  },
  {
   "property": "C08",
   "status": "proved",
   "theorems": [
    "C08_exact",
    "C08_packet_lanes",
    "C08_complete",
    "C08_entry",
    "C08_sound",
    "C08_flat_refuted"
   ],
   "note": "The theorems ending in _refuted show the stated limit: they exhibit an input beyond the proved guarantee."
  },
  {
   "property": "C09",
   "status": "proved",
   "theorems": [
    "C09_ray_new",
    "C09_ray_from",
    "C09_reset",
    "C09_packet_ray",
    "C09_packet_inv",
    "C09_packet_ray_range"
   ],
   "note": ""
  },
  {
   "property": "C10",
   "status": "proved",
   "theorems": [
    "C10_count",
    "C10_left_first",
    "C10_frame",
    "C10_new",
    "C10_predicates",
    "C10_large_count_lost"
   ],
   "note": ""
  },
  {
   "property": "C11",
   "status": "proved",
   "theorems": [
    "C11_binned",
    "C11_no_primitives",
    "C11_inequal",
    "C11_otherwise",
    "C11_locb"
   ],
   "note": ""
  },
  {
   "property": "C12",
   "status": "proved",
   "theorems": [
    "C12_valid",
    "C12_no_crash",
    "C12_terminates",
    "C12_rejects"
   ],
   "note": ""
  },
  {
   "property": "C13",
   "status": "proved",
   "theorems": [
    "C13_deterministic"
   ],
   "note": ""
  },
  {
   "property": "C14",
   "status": "proved",
   "theorems": [
    "C14_allocation",
    "C14_distinct",
    "C14_no_race",
    "C14_node_count"
   ],
   "note": ""
  },
  {
   "property": "C15",
   "status": "proved",
   "theorems": [
    "C15_depth",
    "C15_leaf_size",
    "C15_leaf_size_refuted"
   ],
   "note": "The theorems ending in _refuted show the stated limit: they exhibit an input beyond the proved guarantee."
  },
  {
   "property": "C16",
   "status": "proved",
   "theorems": [
    "C16_boxes",
    "C16_left_child",
    "C16_few_primitives",
    "C16_refuted",
    "C16_missed_refuted"
   ],
   "note": "The theorems ending in _refuted show the stated limit: they exhibit an input beyond the proved guarantee."
  },
  {
   "property": "C17",
   "status": "proved",
   "theorems": [
    "C17_each_task_once",
    "C17_in_order",
    "C17_no_deadlock",
    "C17_terminates"
   ],
   "note": ""
  },
  {
   "property": "C18",
   "status": "proved",
   "theorems": [
    "C18_valid",
    "C18_node_count",
    "C18_returns"
   ],
   "note": ""
  },
  {
   "property": "C19",
   "status": "proved",
   "theorems": [
    "C19_terminates",
    "C19_huge_extents_refuted"
   ],
   "note": "The theorems ending in _refuted show the stated limit: they exhibit an input beyond the proved guarantee."
  },
  {
   "property": "C20",
   "status": "proved",
   "theorems": [
    "C20_threads"
   ],
   "note": ""
  },
  {
   "property": "C21",
   "status": "proved",
   "theorems": [
    "C21_encloses"
   ],
   "note": ""
  },
  {
   "property": "C22",
   "status": "proved",
   "theorems": [
    "C22_tree",
    "C22_capacity",
    "C22_terminates",
    "C22_rejects"
   ],
   "note": ""
  },
  {
   "property": "C23",
   "status": "proved",
   "theorems": [
    "C23_ray_indices",
    "C23_ray_prims",
    "C23_any_client",
    "C23_all_hit"
   ],
   "note": ""
  },
  {
   "property": "C24",
   "status": "proved",
   "theorems": [
    "C24_binned_up_to_32",
    "C24_binned_chain_refuted",
    "C24_locb_up_to_32",
    "C24_deep_tree_refuted",
    "C24_ray_terminates",
    "C24_packet_terminates",
    "C24_up_to_32_leaves",
    "C24_dead"
   ],
   "note": "The theorems ending in _refuted show the stated limit: they exhibit an input beyond the proved guarantee."
  },
  {
   "property": "C25",
   "status": "proved",
   "theorems": [
    "C25_closest_hit",
    "C25_brute_force_is_min"
   ],
   "note": ""
  },
  {
   "property": "C26",
   "status": "proved",
   "theorems": [
    "C26_construct",
    "C26_construct_from_raw",
    "C26_leaf_ranges",
    "C26_bounds"
   ],
   "note": ""
  },
  {
   "property": "C27",
   "status": "proved",
   "theorems": [
    "C27_ray_indices",
    "C27_ray_prims",
    "C27_packet_indices",
    "C27_packet_prims",
    "C27_terminates",
    "C27_packet_terminates",
    "C27_closest_hit",
    "C27_deep_refuted",
    "C27_empty_refuted"
   ],
   "note": "The theorems ending in _refuted show the stated limit: they exhibit an input beyond the proved guarantee."
  },
  {
   "property": "C28",
   "status": "proved",
   "theorems": [
    "C28_ids",
    "C28_result",
    "C28_packet_result",
    "C28_first_last",
    "C28_sorted_refuted"
   ],
   "note": "The theorems ending in _refuted show the stated limit: they exhibit an input beyond the proved guarantee."
  },
  {
   "property": "C29",
   "status": "proved",
   "theorems": [
    "C29_packet",
    "C29_nan_packet"
   ],
   "note": ""
  },
  {
   "property": "C30",
   "status": "proved",
   "theorems": [
    "C30_mbvh_ray",
    "C30_mbvh_packet",
    "C30_short_slice_refuted",
    "C30_empty_slice",
    "C30_ray",
    "C30_packet"
   ],
   "note": "The theorems ending in _refuted show the stated limit: they exhibit an input beyond the proved guarantee."
  },
  {
   "property": "C31",
   "status": "proved",
   "theorems": [
    "C31_binned",
    "C31_boxes",
    "C31_topology_refuted",
    "C31_locb",
    "C31_locb_refit_refuted"
   ],
   "note": "The theorems ending in _refuted show the stated limit: they exhibit an input beyond the proved guarantee."
  },
  {
   "property": "C32",
   "status": "proved",
   "theorems": [
    "C32_binned",
    "C32_decides",
    "C32_empty",
    "C32_panics",
    "C32_valid",
    "C32_locb"
   ],
   "note": ""
  },
  {
   "property": "C33",
   "status": "proved",
   "theorems": [
    "C33_running_sums",
    "C33_in_place",
    "C33_zero_refuted"
   ],
   "note": "The theorems ending in _refuted show the stated limit: they exhibit an input beyond the proved guarantee."
  },
  {
   "property": "C34",
   "status": "proved",
   "theorems": [
    "C34_partition",
    "C34_partition_offset_refuted",
    "C34_move_backward",
    "C34_shuffle"
   ],
   "note": "The theorems ending in _refuted show the stated limit: they exhibit an input beyond the proved guarantee."
  },
  {
   "property": "C35",
   "status": "proved",
   "theorems": [
    "C35_interleaved",
    "C35_injective",
    "C35_monotone",
    "C35_round_up_log2"
   ],
   "note": ""
  },
  {
   "property": "C36",
   "status": "proved",
   "theorems": [
    "C36_codes_in_grid",
    "C36_sorted_permutation"
   ],
   "note": ""
  },
  {
   "property": "C37",
   "status": "proved",
   "theorems": [
    "C37_scalar",
    "C37_scalar_iff",
    "C37_source",
    "C37_packet"
   ],
   "note": ""
  },
  {
   "property": "C38",
   "status": "proved",
   "theorems": [
    "C38_exact",
    "C38_parallel",
    "C38_unique",
    "C38_f32_sound",
    "C38_f32_packet_sound",
    "C38_f32_complete",
    "C38_f32_packet_complete"
   ],
   "note": ""
  },
  {
   "property": "C39",
   "status": "proved",
   "theorems": [
    "C39_map",
    "C39_store",
    "C39_fresh",
    "C39_frame",
    "C39_frame_all",
    "C39_free",
    "C39_get_mut"
   ],
   "note": ""
  },
  {
   "property": "C40",
   "status": "proved",
   "theorems": [
    "C40_aabb",
    "C40_rtaabb",
    "C40_node",
    "C40_rtnode",
    "C40_node_layout",
    "C40_mnode_layout",
    "C40_node_words",
    "C40_mnode_words",
    "C40_mnode_lossless",
    "C40_node_lossless"
   ],
   "note": ""
  },
  {
   "property": "C41",
   "status": "proved",
   "theorems": [
    "C41_vertices",
    "C41_center",
    "C41_centers",
    "C41_create",
    "C41_point_box",
    "C41_first_box",
    "C41_aabb_refuted",
    "C41_out_of_buffer_refuted"
   ],
   "note": "The theorems ending in _refuted show the stated limit: they exhibit an input beyond the proved guarantee."
  },
  {
   "property": "C42",
   "status": "proved",
   "theorems": [
    "C42_codes_distinct",
    "C42_errors",
    "C42_create",
    "C42_which",
    "C42_stride",
    "C42_create_mbvh",
    "C42_refit",
    "C42_locb",
    "C42_spatial",
    "C42_spatial_stride"
   ],
   "note": ""
  },
  {
   "property": "C43",
   "status": "proved",
   "theorems": [
    "C43_any_order_binned",
    "C43_ordered",
    "C43_any_order_locb",
    "C43_reordered_refuted"
   ],
   "note": "The theorems ending in _refuted show the stated limit: they exhibit an input beyond the proved guarantee."
  },
  {
   "property": "C44",
   "status": "proved",
   "theorems": [
    "C44_transformed",
    "C44_corners"
   ],
   "note": ""
  },
  {
   "property": "C45",
   "status": "proved",
   "theorems": [
    "C45_no_miss",
    "C45_no_miss_32",
    "C45_closest"
   ],
   "note": ""
  },
  {
   "property": "C46",
   "status": "proved",
   "theorems": [
    "C46_scalar_to_packet",
    "C46_packet_to_scalar"
   ],
   "note": ""
  },
  {
   "property": "C47",
   "status": "partial",
   "theorems": [
    "C47_boxes_partial",
    "C47_between_partial",
    "C47_uncut_partial",
    "C47_vertices_partial",
    "C47_edges_partial",
    "C47_covers_refuted"
   ],
   "note": "Proved: each box is the least box around the vertices on its side and the points computed for the crossing edges, and covers the exact triangles between them; a triangle the plane does not cross is covered as a whole. That a triangle the plane crosses is covered is false of the code (C47_covers_refuted: split_edge does not compute points of the edge)."
  },
  {
   "property": "C48",
   "status": "proved",
   "theorems": [
    "C48_bvh",
    "C48_spatial",
    "C48_mbvh",
    "C48_default",
    "C48_default_refuted",
    "C48_freed",
    "C48_freed_spatial"
   ],
   "note": "C48_default_refuted delimits the claim: the traversal functions read through the null pointers of a handle that was never filled in."
  },
  {
   "property": "C49",
   "status": "proved",
   "theorems": [
    "C49_nan",
    "C49_nan_packet",
    "C49_ray",
    "C49_mbvh",
    "C49_packet_lanes",
    "C49_packet",
    "C49_mbvh_packet",
    "C49_returns",
    "C49_closest"
   ],
   "note": ""
  },
  {
   "property": "C50",
   "status": "proved",
   "theorems": [
    "C50_aabbs_refuted",
    "C50_refit_refuted",
    "C50_packet_t_refuted",
    "C50_create",
    "C50_refit",
    "C50_spatial_null_refuted",
    "C50_spatial_vertices_refuted",
    "C50_packet",
    "C50_mbvh_packet"
   ],
   "note": "The theorems ending in _refuted show the stated limit: they exhibit an input beyond the proved guarantee."
  },
  {
   "property": "C51",
   "status": "proved",
   "theorems": [
    "C51_disjoint",
    "C51_private",
    "C51_race_free"
   ],
   "note": ""
  },
  {
   "property": "C52",
   "status": "proved",
   "theorems": [
    "C52_tasks",
    "C52_same_tree",
    "C52_crash",
    "C52_returns"
   ],
   "note": ""
  },
  {
   "property": "C53",
   "status": "proved",
   "theorems": [
    "C53_node",
    "C53_leaf"
   ],
   "note": ""
  },
  {
   "property": "C54",
   "status": "partial",
   "theorems": [
    "C54_nested_partial",
    "C54_vertices_partial",
    "C54_whole_partial",
    "C54_nested_refuted",
    "C54_points_refuted"
   ],
   "note": "Proved for builds whose reference moves are harmless and for the vertices of the triangles; false for other builds (C54_nested_refuted) and other points (C54_points_refuted)."
  },
  {
   "property": "C55",
   "status": "proved",
   "theorems": [
    "C55_leaf_size",
    "C55_leaf_size_40",
    "C55_leaf_size_refuted"
   ],
   "note": "The theorems ending in _refuted show the stated limit: they exhibit an input beyond the proved guarantee."
  },
  {
   "property": "C56",
   "status": "proved",
   "theorems": [
    "C56_node",
    "C56_leaf",
    "C56_tree",
    "C56_plane_refuted"
   ],
   "note": "C56_tree is the property. C56_node and C56_leaf are the special case without duplicated references (and without finiteness), in terms of the input alone. C56_plane_refuted: the plane minimises the builder's estimate, which charges the side before the plane the union of all slices, not the true area times number."
  },
  {
   "property": "C57",
   "status": "proved",
   "theorems": [
    "C57_aligned",
    "C57_misaligned",
    "C57_type_refuted"
   ],
   "note": "The theorems ending in _refuted show the stated limit: they exhibit an input beyond the proved guarantee."
  },
  {
   "property": "C58",
   "status": "proved",
   "theorems": [
    "C58_ray",
    "C58_closest",
    "C58_quad_ray",
    "C58_quad_packet",
    "C58_packet",
    "C58_quad_closest",
    "C58_locb_quad_ray",
    "C58_locb_quad_packet",
    "C58_locb_packet",
    "C58_locb_quad_closest",
    "C58_locb_small"
   ],
   "note": ""
  },
  {
   "property": "C59",
   "status": "proved",
   "theorems": [
    "C59_ray",
    "C59_packet",
    "C59_quad_ray",
    "C59_quad_packet",
    "C59_closest",
    "C59_quad_closest",
    "C59_few",
    "C59_few_quad"
   ],
   "note": ""
  },
  {
   "property": "C60",
   "status": "proved",
   "theorems": [
    "C60_ray",
    "C60_quad",
    "C60_locb",
    "C60_locb_quad",
    "C60_binned",
    "C60_binned_quad",
    "C60_packet",
    "C60_quad_packet",
    "C60_locb_packet",
    "C60_locb_quad_packet",
    "C60_binned_packet",
    "C60_binned_quad_packet",
    "C60_found"
   ],
   "note": ""
  },
  {
   "property": "C61",
   "status": "proved",
   "theorems": [
    "C61_lanes",
    "C61_intersect",
    "C61_intersects",
    "C61_lane",
    "C61_intersect4",
    "C61_quad",
    "C61_quad_lane",
    "C61_ray",
    "C61_closest",
    "C61_packet",
    "C61_quad_ray",
    "C61_quad_packet",
    "C61_quad_closest",
    "C61_locb",
    "C61_locb_closest",
    "C61_locb_packet",
    "C61_locb_quad",
    "C61_locb_quad_packet",
    "C61_binned",
    "C61_binned_closest",
    "C61_binned_quad",
    "C61_spatial_whole",
    "C61_axes_refuted"
   ],
   "note": "The theorems ending in _refuted show the stated limit: they exhibit an input beyond the proved guarantee."
  },
  {
   "property": "C62",
   "status": "proved",
   "theorems": [
    "C62_order",
    "C62_order_spatial",
    "C62_upright",
    "C62_upright_spatial",
    "C62_sixteenth",
    "C62_sixteenth_spatial",
    "C62_border",
    "C62_separated",
    "C62_ordered",
    "C62_plane"
   ],
   "note": ""
  },
  {
   "property": "C63",
   "status": "proved",
   "theorems": [
    "C63_clustering",
    "C63_order",
    "C63_determined",
    "C63_boxes"
   ],
   "note": ""
  },
  {
   "property": "C64",
   "status": "proved",
   "theorems": [
    "C64_ray_indices",
    "C64_ray_prims",
    "C64_packet_indices",
    "C64_packet_prims",
    "C64_quad_ray_indices",
    "C64_quad_ray_prims",
    "C64_quad_packet_indices",
    "C64_quad_packet_prims"
   ],
   "note": ""
  },
  {
   "property": "C65",
   "status": "partial",
   "theorems": [
    "C65_complete_partial",
    "C65_two_partial",
    "C65_lost_refuted"
   ],
   "note": "Proved for builds whose reference moves are harmless (a right child's references are moved by zero or by at least their number) and for all builds of at most two triangles; false in general, already with three (C65_lost_refuted)."
  },
  {
   "property": "C66",
   "status": "partial",
   "theorems": [
    "C66_safe_partial",
    "C66_crash_kind_partial",
    "C66_panic_refuted",
    "C66_ub_refuted"
   ],
   "note": "The build returns under every schedule, with no access out of range, if no task of its sequential reading meets one of the three situations of C70 (scenes up to 9.5 million triangles). They do occur (C66_panic_refuted, C66_ub_refuted), so the property is false in general."
  },
  {
   "property": "C67",
   "status": "proved",
   "theorems": [
    "C67_lanes",
    "C67_start",
    "C67_aim",
    "C67_unit"
   ],
   "note": ""
  },
  {
   "property": "C68",
   "status": "proved",
   "theorems": [
    "C68_box",
    "C68_inside",
    "C68_center"
   ],
   "note": ""
  },
  {
   "property": "C69",
   "status": "proved",
   "theorems": [
    "C69_point_at",
    "C69_reflect",
    "C69_is_valid"
   ],
   "note": ""
  },
  {
   "property": "C70",
   "status": "proved",
   "theorems": [
    "C70_ub_cause",
    "C70_panic_cause"
   ],
   "note": "Tasks are those of the sequential reading of the build (task_of in SpecSpatial); C52_tasks says every schedule runs exactly such tasks. The out-of-range case is for scenes up to 9.5 million triangles."
  },
  {
   "property": "C71",
   "status": "proved",
   "theorems": [
    "C71_kept"
   ],
   "note": "overwrites (SpecPanic) is stated about the tasks of the sequential reading; every schedule runs these tasks (C52_tasks). Tasks that overwrite exist (C71_overwrites), and lose triangles (C65_lost_refuted)."
  },
  {
   "property": "C72",
   "status": "proved",
   "theorems": [
    "C72_encloses",
    "C72_strictly",
    "C72_tight"
   ],
   "note": ""
  },
  {
   "property": "C73",
   "status": "proved",
   "theorems": [
    "C73_screen",
    "C73_moves",
    "C73_turns",
    "C73_angle"
   ],
   "note": ""
  },
  {
   "property": "C74",
   "status": "proved",
   "theorems": [
    "C74_ray_indices",
    "C74_ray_prims",
    "C74_packet_indices",
    "C74_packet_prims",
    "C74_quad_ray_indices",
    "C74_quad_ray_prims",
    "C74_quad_packet_indices",
    "C74_quad_packet_prims",
    "C74_front_to_back_refuted"
   ],
   "note": "The order actually produced is proved for all eight iterators; C74_front_to_back_refuted shows that the expected front-to-back order does not hold."
  },
  {
   "property": "C75",
   "status": "proved",
   "theorems": [
    "C75_cell",
    "C75_order",
    "C75_sorted"
   ],
   "note": ""
  },
  {
   "property": "C76",
   "status": "proved",
   "theorems": [
    "C76_made",
    "C76_determined",
    "C76_tight"
   ],
   "note": ""
  },
  {
   "property": "C77",
   "status": "proved",
   "theorems": [
    "C77_construct",
    "C77_construct_from_raw",
    "C77_size",
    "C77_determined"
   ],
   "note": ""
  },
  {
   "property": "C78",
   "status": "proved",
   "theorems": [
    "C78_ray",
    "C78_quad",
    "C78_locb",
    "C78_locb_quad",
    "C78_binned",
    "C78_binned_quad"
   ],
   "note": ""
  },
  {
   "property": "C79",
   "status": "proved",
   "theorems": [
    "C79_empty",
    "C79_root",
    "C79_quad",
    "C79_locb",
    "C79_binned",
    "C79_spatial"
   ],
   "note": ""
  },
  {
   "property": "C80",
   "status": "proved",
   "theorems": [
    "C80_linearizable",
    "C80_history",
    "C80_no_deadlock",
    "C80_bounded",
    "C80_finishes",
    "C80_handle",
    "C80_handle_spatial",
    "C80_handle_mbvh",
    "C80_race_free",
    "C80_race_refuted"
   ],
   "note": "C80_race_refuted shows the limit stated in the property: a traversal through a handle during a refit of the same structure can see a half-written tree."
  },
  {
   "property": "C81",
   "status": "proved",
   "theorems": [
    "C81_ray",
    "C81_quad",
    "C81_locb",
    "C81_locb_quad",
    "C81_binned",
    "C81_binned_quad",
    "C81_packet",
    "C81_quad_packet",
    "C81_locb_packet",
    "C81_locb_quad_packet",
    "C81_binned_packet",
    "C81_binned_quad_packet",
    "C81_same"
   ],
   "note": ""
  },
  {
   "property": "C82",
   "status": "proved",
   "theorems": [
    "C82_channel",
    "C82_normal",
    "C82_shade",
    "C82_rays",
    "C82_packets",
    "C82_colour",
    "C82_image_locb",
    "C82_image_locb_quad",
    "C82_image_binned",
    "C82_image_binned_quad",
    "C82_image4_locb",
    "C82_image4_locb_quad",
    "C82_image4_binned",
    "C82_image4_binned_quad"
   ],
   "note": ""
  },
  {
   "property": "C83",
   "status": "proved",
   "theorems": [
    "C83_mean",
    "C83_window",
    "C83_empty",
    "C83_no_capacity"
   ],
   "note": ""
  },
  {
   "property": "C84",
   "status": "proved",
   "theorems": [
    "C84_rays",
    "C84_packets",
    "C84_parallel",
    "C84_binned",
    "C84_binned_quad",
    "C84_locb",
    "C84_locb_quad",
    "C84_locb_packets",
    "C84_locb_quad_packets",
    "C84_binned_packets",
    "C84_binned_quad_packets"
   ],
   "note": ""
  },
  {
   "property": "C85",
   "status": "proved",
   "theorems": [
    "C85_millis",
    "C85_wraps",
    "C85_panics"
   ],
   "note": ""
  },
  {
   "property": "C86",
   "status": "proved",
   "theorems": [
    "C86_ray",
    "C86_packet",
    "C86_quad_ray",
    "C86_quad_packet",
    "C86_locb",
    "C86_binned"
   ],
   "note": ""
  },
  {
   "property": "C87",
   "status": "proved",
   "theorems": [
    "C87_held",
    "C87_offsets",
    "C87_method",
    "C87_tick",
    "C87_still",
    "C87_position"
   ],
   "note": ""
  },
  {
   "property": "C88",
   "status": "proved",
   "theorems": [
    "C88_screen",
    "C88_angle",
    "C88_pixels",
    "C88_idle"
   ],
   "note": ""
  }
 ]
}