# What `Print Assumptions` lists for each theorem

Generated by running `Print Assumptions` on every theorem of the Prop*.v files (all named in MANIFEST.json).
All axioms are Coq's standard library's (its classical real numbers, on which Flocq's floats rest).

## Closed under the global context

C02_intersection_extras, C06_contains, C10_count, C10_frame, C10_large_count_lost, C10_left_first, C10_predicates, C11_inequal, C11_no_primitives, C11_otherwise, C17_each_task_once, C17_in_order, C17_no_deadlock, C17_terminates, C26_bounds, C26_construct, C26_construct_from_raw, C26_leaf_ranges, C32_decides, C32_empty, C32_panics, C32_valid, C33_in_place, C33_running_sums, C33_zero_refuted, C34_move_backward, C34_partition, C34_partition_offset_refuted, C34_shuffle, C35_injective, C35_interleaved, C35_monotone, C35_round_up_log2, C40_aabb, C40_mnode_layout, C40_mnode_lossless, C40_mnode_words, C40_node, C40_node_layout, C40_node_lossless, C40_node_words, C40_rtaabb, C40_rtnode, C41_aabb_refuted, C41_center, C41_centers, C41_create, C41_first_box, C41_out_of_buffer_refuted, C41_vertices, C42_codes_distinct, C42_create, C42_create_mbvh, C42_errors, C42_spatial, C42_spatial_stride, C42_stride, C42_which, C43_ordered, C50_aabbs_refuted, C50_create, C50_spatial_null_refuted, C50_spatial_vertices_refuted, C77_construct, C77_construct_from_raw, C77_determined, C77_size, C79_quad, C79_root, C83_no_capacity, C84_parallel

## `ClassicalDedekindReals.sig_forall_dec`, `FunctionalExtensionality.functional_extensionality_dep`

C38_exact, C38_parallel, C38_unique

## `ClassicalDedekindReals.sig_forall_dec`, `ClassicalDedekindReals.sig_not_dec`, `Classical_Prop.classic`, `FunctionalExtensionality.functional_extensionality_dep`

C01_full_empty, C01_grow, C01_grow_bb, C01_grow_bbs, C01_grow_from_empty, C01_keeps_points, C01_union_of, C02_intersection, C02_shrink, C03_empty_list, C03_union_of_list_covers, C03_union_of_list_tight, C04_offset, C04_offset_mono, C05_aabb_macro, C05_contains_refuted, C05_from_points, C05_from_points_contains, C06_area_nonneg, C06_area_value, C06_center, C06_extents, C06_half_area_mono, C06_half_area_nonneg, C06_half_area_value, C06_is_valid, C06_longest_axis, C06_longest_extent, C06_volume_value, C07_above_tmin, C07_intersect_complete, C07_intersects, C07_negative_zero_refuted, C07_value, C08_complete, C08_entry, C08_exact, C08_flat_refuted, C08_packet_lanes, C08_sound, C09_packet_inv, C09_packet_ray, C09_packet_ray_range, C09_ray_from, C09_ray_new, C09_reset, C10_new, C11_binned, C11_locb, C12_no_crash, C12_rejects, C12_terminates, C12_valid, C13_deterministic, C14_allocation, C14_distinct, C14_no_race, C14_node_count, C15_depth, C15_leaf_size, C15_leaf_size_refuted, C16_boxes, C16_few_primitives, C16_left_child, C16_missed_refuted, C16_refuted, C18_node_count, C18_returns, C18_valid, C19_huge_extents_refuted, C19_terminates, C20_threads, C21_encloses, C22_capacity, C22_rejects, C22_terminates, C22_tree, C23_all_hit, C23_any_client, C23_ray_indices, C23_ray_prims, C24_binned_chain_refuted, C24_binned_up_to_32, C24_dead, C24_deep_tree_refuted, C24_locb_up_to_32, C24_packet_terminates, C24_ray_terminates, C24_up_to_32_leaves, C25_brute_force_is_min, C25_closest_hit, C27_closest_hit, C27_deep_refuted, C27_empty_refuted, C27_packet_indices, C27_packet_prims, C27_packet_terminates, C27_ray_indices, C27_ray_prims, C27_terminates, C28_first_last, C28_ids, C28_packet_result, C28_result, C28_sorted_refuted, C29_nan_packet, C29_packet, C30_empty_slice, C30_mbvh_packet, C30_mbvh_ray, C30_packet, C30_ray, C30_short_slice_refuted, C31_binned, C31_boxes, C31_locb, C31_locb_refit_refuted, C31_topology_refuted, C32_binned, C32_locb, C36_codes_in_grid, C36_sorted_permutation, C37_packet, C37_scalar, C37_scalar_iff, C37_source, C38_f32_complete, C38_f32_packet_complete, C38_f32_packet_sound, C38_f32_sound, C39_frame, C39_frame_all, C39_free, C39_fresh, C39_get_mut, C39_map, C39_store, C41_point_box, C42_locb, C42_refit, C43_any_order_binned, C43_any_order_locb, C43_reordered_refuted, C44_corners, C44_transformed, C45_closest, C45_no_miss, C45_no_miss_32, C46_packet_to_scalar, C46_scalar_to_packet, C47_between_partial, C47_boxes_partial, C47_covers_refuted, C47_edges_partial, C47_uncut_partial, C47_vertices_partial, C48_bvh, C48_default, C48_default_refuted, C48_freed, C48_freed_spatial, C48_mbvh, C48_spatial, C49_closest, C49_mbvh, C49_mbvh_packet, C49_nan, C49_nan_packet, C49_packet, C49_packet_lanes, C49_ray, C49_returns, C50_mbvh_packet, C50_packet, C50_packet_t_refuted, C50_refit, C50_refit_refuted, C51_disjoint, C51_private, C51_race_free, C52_crash, C52_returns, C52_same_tree, C52_tasks, C53_leaf, C53_node, C54_nested_partial, C54_nested_refuted, C54_points_refuted, C54_vertices_partial, C54_whole_partial, C55_leaf_size, C55_leaf_size_40, C55_leaf_size_refuted, C56_leaf, C56_node, C56_plane_refuted, C56_tree, C57_aligned, C57_misaligned, C57_type_refuted, C58_closest, C58_locb_packet, C58_locb_quad_closest, C58_locb_quad_packet, C58_locb_quad_ray, C58_locb_small, C58_packet, C58_quad_closest, C58_quad_packet, C58_quad_ray, C58_ray, C59_closest, C59_few, C59_few_quad, C59_packet, C59_quad_closest, C59_quad_packet, C59_quad_ray, C59_ray, C60_binned, C60_binned_packet, C60_binned_quad, C60_binned_quad_packet, C60_found, C60_locb, C60_locb_packet, C60_locb_quad, C60_locb_quad_packet, C60_packet, C60_quad, C60_quad_packet, C60_ray, C61_axes_refuted, C61_binned, C61_binned_closest, C61_binned_quad, C61_closest, C61_intersect, C61_intersect4, C61_intersects, C61_lane, C61_lanes, C61_locb, C61_locb_closest, C61_locb_packet, C61_locb_quad, C61_locb_quad_packet, C61_packet, C61_quad, C61_quad_closest, C61_quad_lane, C61_quad_packet, C61_quad_ray, C61_ray, C61_spatial_whole, C62_border, C62_order, C62_order_spatial, C62_ordered, C62_plane, C62_separated, C62_sixteenth, C62_sixteenth_spatial, C62_upright, C62_upright_spatial, C63_boxes, C63_clustering, C63_determined, C63_order, C64_packet_indices, C64_packet_prims, C64_quad_packet_indices, C64_quad_packet_prims, C64_quad_ray_indices, C64_quad_ray_prims, C64_ray_indices, C64_ray_prims, C65_complete_partial, C65_lost_refuted, C65_two_partial, C66_crash_kind_partial, C66_panic_refuted, C66_safe_partial, C66_ub_refuted, C67_aim, C67_lanes, C67_start, C67_unit, C68_box, C68_center, C68_inside, C69_is_valid, C69_point_at, C69_reflect, C70_panic_cause, C70_ub_cause, C71_kept, C72_encloses, C72_strictly, C72_tight, C73_angle, C73_moves, C73_screen, C73_turns, C74_front_to_back_refuted, C74_packet_indices, C74_packet_prims, C74_quad_packet_indices, C74_quad_packet_prims, C74_quad_ray_indices, C74_quad_ray_prims, C74_ray_indices, C74_ray_prims, C75_cell, C75_order, C75_sorted, C76_determined, C76_made, C76_tight, C78_binned, C78_binned_quad, C78_locb, C78_locb_quad, C78_quad, C78_ray, C79_binned, C79_empty, C79_locb, C79_spatial, C80_bounded, C80_finishes, C80_handle, C80_handle_mbvh, C80_handle_spatial, C80_history, C80_linearizable, C80_no_deadlock, C80_race_free, C80_race_refuted, C81_binned, C81_binned_packet, C81_binned_quad, C81_binned_quad_packet, C81_locb, C81_locb_packet, C81_locb_quad, C81_locb_quad_packet, C81_packet, C81_quad, C81_quad_packet, C81_ray, C81_same, C82_channel, C82_colour, C82_image4_binned, C82_image4_binned_quad, C82_image4_locb, C82_image4_locb_quad, C82_image_binned, C82_image_binned_quad, C82_image_locb, C82_image_locb_quad, C82_normal, C82_packets, C82_rays, C82_shade, C83_empty, C83_mean, C83_window, C84_binned, C84_binned_packets, C84_binned_quad, C84_binned_quad_packets, C84_locb, C84_locb_packets, C84_locb_quad, C84_locb_quad_packets, C84_packets, C84_rays, C85_millis, C85_panics, C85_wraps, C86_binned, C86_locb, C86_packet, C86_quad_packet, C86_quad_ray, C86_ray, C87_held, C87_method, C87_offsets, C87_position, C87_still, C87_tick, C88_angle, C88_idle, C88_pixels, C88_screen
