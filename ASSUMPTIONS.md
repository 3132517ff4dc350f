# Print Assumptions of every theorem in MANIFEST.json

Generated by tools/assumptions.py; all of these are standard library axioms.

## Closed under the global context (no axiom)

96 theorems: C19_empty_contains_nothing, C19_infinite_contains_everything, C26_transpose_involution, C34_float_round_trip, C38_equal_fast_is_identity, C58_points_round_trip, C60_aligned_alloc, C60_aligned_alloc0, C60_malloc_alignment_refuted, C60_overflow_detected, C60_wrap_refuted, C61_calls_return, C61_constant_values, C61_flag_race_refuted, C61_flag_single_thread, C61_initialised_once, C61_model_constants, C61_no_data_race, C62_box2d_expand, C62_box2d_expand_scalar, C62_box2d_expand_vec2, C62_box2d_intersection, C62_box2d_union, C62_box_expand, C62_box_expand_scalar, C62_box_expand_vec3, C62_box_init_from_vec3, C62_box_intersection, C62_box_swap_refuted, C62_box_union, C62_matrix_interpolate_apart, C62_matrix_inverse, C62_matrix_multiply, C62_matrix_normalize, C62_matrix_perspective, C62_matrix_project_point, C62_matrix_skew_xy, C62_matrix_transform_bounds, C62_matrix_transform_box, C62_matrix_transform_point, C62_matrix_transform_point3d, C62_matrix_transform_ray, C62_matrix_transform_sphere, C62_matrix_transform_vec3, C62_matrix_transform_vec4, C62_matrix_translate, C62_matrix_transpose, C62_matrix_unproject_point3d, C62_matrix_untransform_point, C62_plane_negate, C62_plane_normalize, C62_point3d_cross, C62_point3d_interpolate, C62_point3d_normalize, C62_point3d_normalize_viewport, C62_point3d_scale, C62_point_interpolate, C62_quad_init, C62_quad_rotate_refuted, C62_quaternion_add, C62_quaternion_invert, C62_quaternion_multiply, C62_quaternion_normalize, C62_quaternion_scale, C62_quaternion_slerp, C62_ray_get_closest_point_to_point, C62_ray_init_from_vec3, C62_ray_swap_refuted, C62_rect_expand, C62_rect_get_center, C62_rect_get_corner, C62_rect_init_from_rect, C62_rect_inset, C62_rect_interpolate, C62_rect_intersection, C62_rect_normalize, C62_rect_offset, C62_rect_round, C62_rect_round_extents, C62_rect_scale, C62_rect_union, C62_size_interpolate, C62_size_scale, C62_sphere_translate, C62_triangle_get_uv, C62_vec3_normalize, C62_vector_binary, C62_vector_unary, C65_distance_same_pointer_refuted, C69_bytes_stable, C69_foreign_untouched, C69_free_matches_alloc, C69_free_null, C69_objects_aligned, C69_objects_disjoint, C69_zeroed

## `ClassicalDedekindReals.sig_forall_dec`, `FunctionalExtensionality.functional_extensionality_dep`

1 theorems: C36_hypotheses_met

## `ClassicalDedekindReals.sig_forall_dec`, `ClassicalDedekindReals.sig_not_dec`, `FunctionalExtensionality.functional_extensionality_dep`

208 theorems: C04_scalar_cutoff_refuted, C04_tiny_is_zero, C04_vec2_normalize, C04_vec3_normalize, C04_vec4_normalize, C06_anticommutative, C06_cross_formula, C06_lagrange, C06_orthogonal, C07_cauchy_schwarz, C07_dot, C07_length, C07_triangle_inequality, C08_between, C08_rect_between, C10_corner_choice, C10_normalize_exact, C11_contains_point_exact, C11_corners_exact, C12_union_algebra, C12_union_contains, C13_intersection_commutes, C13_intersection_exact, C14_round_exact, C14_round_extents_exact, C14_round_refuted, C15_expand_exact, C15_inset_exact, C15_inset_inverse, C15_offset_exact, C15_scale_exact, C16_contains_rect_complete, C16_contains_rect_reflexive, C16_contains_rect_sound, C16_contains_rect_tolerance_refuted, C20_bounding_sphere, C21_expand_scalar_exact, C22_contains_point_exact, C22_contains_rect_exact, C22_dimensions, C22_expand_scalar_exact, C22_init_from_rect_exact, C22_rect_round_trip, C22_scale_offset, C24_transform_bounds_exact, C24_transform_rect_exact, C25_associative, C25_compose_point3d, C25_compose_vec3, C25_compose_vec4, C25_identity_neutral, C25_multiply_exact, C25_projective_refuted, C25_transform_point3d_exact, C25_transform_point_is_point3d, C25_transform_vec3_exact, C25_transform_vec4_exact, C26_transpose_multiply, C27_determinant_laws, C27_determinant_negated, C27_determinant_refuted, C27_is_singular_exact, C28_inverse_answer, C28_inverse_exact, C28_inverse_points, C28_nonsingular_inverted, C28_scalar_boundary_refuted, C29_append_vec4, C29_getters, C29_scale_exact, C29_scales_multiply, C29_skew_exact, C29_translate_exact, C29_translations_add, C30_rotation_properties, C31_apply_perspective_exact, C31_apply_perspective_refuted, C31_frustum_exact, C31_ortho_exact, C32_eye_not_origin_refuted, C32_look_at_orthonormal, C35_shear_refuted, C35_transform_sphere_contains, C36_fails_iff, C36_non_2d_refuted, C36_round_trip, C37_fails_iff, C37_modelview_refuted, C37_unproject_exact, C40_backface_exact, C40_backface_singular, C40_is_2d_exact, C40_is_2d_refuted, C40_is_identity_exact, C40_is_identity_scalar, C41_algebra, C41_matrix_homomorphism, C41_matrix_is_rotation, C41_normalize, C41_operations_exact, C41_rotate_quaternion_appends, C41_to_matrix_rotates, C42_half_turn, C42_half_turn_refuted, C42_matrix_round_trip, C42_quaternion_round_trip, C42_rotation_round_trip, C50_collinear_refuted, C50_distance, C50_init_from_point, C50_init_from_points, C50_negate, C50_normalize, C50_normalize_tiny_refuted, C50_transform, C50_transform_non_unit_refuted, C51_bounding_box, C51_bounding_box_containment_refuted, C51_contains_point, C51_distance, C51_distance_sign, C51_init, C51_init_from_points, C51_init_from_vectors, C51_is_empty, C51_negative_radius_refuted, C51_transformed_bounding_box_refuted, C51_translate, C51_translate_radius_refuted, C52_area, C52_barycoords_none, C52_barycoords_of_point, C52_barycoords_projection, C52_barycoords_reproduce, C52_contains_coplanar, C52_contains_point, C52_contains_vertices_refuted, C52_midpoint, C52_normal, C52_plane, C52_uv, C52_uv_degenerate, C53_closest_point, C53_distance_to_plane, C53_distance_to_plane_parallel, C53_distance_to_point, C53_init, C53_position_at, C54_intersect_sphere, C55_intersect_box, C55_tiny_component_refuted, C56_intersect_triangle, C56_parallel_misses, C57_contains_point, C57_init_from_matrix, C57_sphere_conservative, C57_sphere_unnormalized_refuted, C58_bounds_exact, C58_concave_refuted, C58_contains_convex, C58_from_empty_rect_refuted, C58_from_rect, C64_box, C64_box2d, C64_box_points, C64_cross, C64_determinant, C64_divide, C64_divide_vec3, C64_dot, C64_equality_refuted, C64_frustum, C64_inverse, C64_inverse_answer, C64_length, C64_look_at, C64_min_max, C64_near, C64_negate, C64_normalize, C64_normalize_refuted, C64_plane, C64_plane_normalize, C64_point3d_cross, C64_point3d_distance, C64_quad_bounds, C64_ray_box, C64_ray_plane, C64_ray_sphere, C64_ray_triangle, C64_scale_offset, C64_skew, C64_sphere, C64_sphere_from_points, C64_through_inverse, C64_transform_bounds, C64_transform_box, C64_transform_sphere, C64_triangle, C64_triangle_normal, C64_untransform, C65_distance, C65_near_exact, C65_point3d_distance, C65_scale, C66_affine_inside, C67_project_point_exact, C67_translation_ignored_refuted

## `ClassicalDedekindReals.sig_forall_dec`, `ClassicalDedekindReals.sig_not_dec`, `Classical_Prop.classic`, `FunctionalExtensionality.functional_extensionality_dep`

182 theorems: C01_conversions, C01_float_bounds, C01_float_roundtrip, C01_get_init, C01_xyzw_values, C02_nan_refuted, C02_vec2_minmax, C02_vec3_minmax, C02_vec4_minmax, C03_box_unused_lanes, C03_divide_refuted, C03_vec2_unused_lanes, C03_vec3_unused_lane, C05_equal_sound, C05_equal_symmetric, C05_nan_refuted, C05_near_sound, C05_near_symmetric, C05_reflexive_finite, C05_reflexive_nonnan, C07_backends_differ_refuted, C07_dot_symmetric, C08_endpoints, C08_vec_endpoints, C10_init_normalizes, C10_normalize_idempotent, C10_normalize_nonnegative, C10_pairs_invariant, C10_queries_invariant, C11_corners_contained, C12_union_commutes, C12_union_far_edge_refuted, C12_union_near_edges, C13_intersection_false, C13_intersection_true, C14_round_extents_covers, C14_round_extents_refuted, C16_not_reflexive_refuted, C17_expand, C17_nan_point_refuted, C17_points_contained, C17_points_least, C17_points_order_irrelevant, C17_vectors_contained, C17_vectors_least, C18_contains_box_complete, C18_contains_box_reflexive, C18_contains_box_sound, C18_contains_box_transitive, C18_contains_point_meaning, C18_intersection, C18_union_least, C18_union_upper, C19_empty_contained, C19_intersection_infinite, C19_self_containment_refuted, C19_union_empty, C20_box_of_vertices, C20_center_inside, C20_center_overflow_refuted, C20_empty_size_refuted, C20_vertices_contained, C21_expand_scalar_keeps_points, C21_shrink_refuted, C22_center_contained, C22_contains_box, C22_contains_point_meaning, C22_contains_rect, C22_equal, C22_expand, C22_expand_scalar, C22_extremes, C22_init, C22_init_from_rect, C22_init_from_rect_negative_refuted, C22_intersection, C22_intersects_is_intersection, C22_no_points, C22_points_contained, C22_points_least, C22_points_order_irrelevant, C22_scale_negative_refuted, C22_self_containment_refuted, C22_to_rect, C22_union, C22_vectors_as_points, C22_vertices, C23_identity_box_refuted, C23_transform_box_conservative, C24_far_edge_refuted, C24_transform_bounds_near_edges, C26_transpose_moves_entries, C27_identity_b32_refuted, C29_init_skew_exact, C30_degenerate_axis_refuted, C30_handedness, C30_rotate_appends, C30_rotate_is_rodrigues, C30_rotate_xyz, C30_rotation_orthogonal, C31_perspective_exact, C32_degenerate_up_refuted, C33_2d_round_trip, C33_conversion, C34_init_from_float, C34_init_from_short, C34_out_of_range, C34_rows, C34_to_float, C38_equal_fast_implies_equal, C38_near_sound, C38_reflexive_finite, C38_refuted, C38_symmetric, C39_2d_refuted, C39_affine, C39_answer, C39_half_turn_refuted, C39_identity, C39_perspective, C39_perspective_refuted, C39_recompose, C39_rigid, C39_similarity_2d, C39_unique, C40_accepted, C40_backface_turn, C43_close, C43_endpoints, C43_slerp, C44_from_angles, C44_from_radians, C44_round_trip, C44_round_trip_degrees, C44_to_radians, C45_from_angle_vec3, C45_round_trip, C45_to_angle_vec3, C46_opposite_refuted, C46_reflexive, C46_symmetric, C46_tolerance, C47_degrees, C47_is_rotation, C47_product, C47_turns_points, C48_angles, C48_other_orders_refuted, C48_quaternion_round_trip, C48_round_trip, C49_other_orders_refuted, C49_quaternion, C49_reorder, C49_reorder_refuted, C52_bounding_box_contains, C52_bounding_box_least, C57_box_conservative, C58_bounds_far_refuted, C58_bounds_near, C58_get_point, C58_rect_points_in_quad, C62_matrix_interpolate_in_place_refuted, C62_triangle_get_uv_refuted, C63_null_and_same_pointer, C64_decompose_affine, C64_interpolate_2d, C64_quaternion_normalize, C64_rotate, C64_rotate_axes, C65_infinite_refuted, C65_near_sound, C65_near_symmetric, C65_reflexive_finite, C66_clamped, C68_answer, C68_endpoints_2d, C68_interpolate_3d, C68_rotations_2d, C68_self_2d_refuted, C68_self_refuted, C68_translations, C68_uniform_endpoints
