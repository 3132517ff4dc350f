{
 "claims": [
  {
   "property": "C01",
   "status": "proved",
   "theorems": [
    "C01_get_init",
    "C01_float_roundtrip",
    "C01_float_bounds",
    "C01_conversions",
    "C01_xyzw_values"
   ],
   "note": "binary32, every back end"
  },
  {
   "property": "C02",
   "status": "proved",
   "theorems": [
    "C02_vec2_minmax",
    "C02_vec3_minmax",
    "C02_vec4_minmax",
    "C02_nan_refuted"
   ],
   "note": "binary32, every back end, NaN-free operands; C02_nan_refuted shows why"
  },
  {
   "property": "C03",
   "status": "proved",
   "theorems": [
    "C03_vec3_unused_lane",
    "C03_vec2_unused_lanes",
    "C03_box_unused_lanes",
    "C03_divide_refuted"
   ],
   "note": "binary32, every back end, histories of any length; the division counterexample is C03_divide_refuted"
  },
  {
   "property": "C04",
   "status": "proved",
   "theorems": [
    "C04_vec3_normalize",
    "C04_vec2_normalize",
    "C04_vec4_normalize",
    "C04_tiny_is_zero",
    "C04_scalar_cutoff_refuted"
   ],
   "note": "exact arithmetic; back ends with exact estimates"
  },
  {
   "property": "C05",
   "status": "proved",
   "theorems": [
    "C05_near_symmetric",
    "C05_equal_symmetric",
    "C05_reflexive_finite",
    "C05_reflexive_nonnan",
    "C05_nan_refuted",
    "C05_near_sound",
    "C05_equal_sound"
   ],
   "note": "binary32, every back end; C05_nan_refuted shows NaN vectors differ from themselves (and the scalar back end accepts any two NaNs)"
  },
  {
   "property": "C06",
   "status": "proved",
   "theorems": [
    "C06_cross_formula",
    "C06_orthogonal",
    "C06_lagrange",
    "C06_anticommutative"
   ],
   "note": "exact arithmetic, every back end"
  },
  {
   "property": "C07",
   "status": "proved",
   "theorems": [
    "C07_dot_symmetric",
    "C07_backends_differ_refuted",
    "C07_length",
    "C07_dot",
    "C07_cauchy_schwarz",
    "C07_triangle_inequality"
   ],
   "note": "symmetry bit for bit in binary32; Euclidean facts in exact arithmetic; C07_backends_differ_refuted: the value depends on the back end"
  },
  {
   "property": "C08",
   "status": "proved",
   "theorems": [
    "C08_endpoints",
    "C08_vec_endpoints",
    "C08_between",
    "C08_rect_between"
   ],
   "note": "end points in binary32 (value-wise), betweenness in exact arithmetic"
  },
  {
   "property": "C09",
   "status": "proved",
   "theorems": [
    "C09_vec2_arithmetic",
    "C09_vec3_arithmetic",
    "C09_vec4_arithmetic",
    "C09_scale_negate",
    "C09_point_size_scale",
    "C09_divide",
    "C09_scalar_divide_refuted",
    "C09_swizzles",
    "C09_getters",
    "C09_vec4_from_vec2",
    "C09_constants",
    "C09_float_arrays",
    "C09_float_arrays_bounds"
   ],
   "note": "bit-accurate model, all back ends; the divide exceptions are stated in the theorem and witnessed"
  },
  {
   "property": "C10",
   "status": "proved",
   "theorems": [
    "C10_normalize_idempotent",
    "C10_normalize_nonnegative",
    "C10_init_normalizes",
    "C10_queries_invariant",
    "C10_pairs_invariant",
    "C10_normalize_exact",
    "C10_corner_choice"
   ],
   "note": "bit-for-bit invariance in binary32; point-set meaning in exact arithmetic"
  },
  {
   "property": "C100",
   "status": "proved",
   "theorems": [
    "C100_euler_to_matrix",
    "C100_euler_degrees",
    "C100_euler_rigid",
    "C100_euler_to_quaternion",
    "C100_quaternion_matrix",
    "C100_rotate_euler_history"
   ],
   "note": "Bit-accurate model; C47 and C49 are the exact-arithmetic counterparts. sinf and cosf are parameters, assumed to be within 2^-23; Props_Rot.libm23_ok exhibits such functions."
  },
  {
   "property": "C101",
   "status": "proved",
   "theorems": [
    "C101_barycoords",
    "C101_degenerate",
    "C101_contains_point",
    "C101_uv"
   ],
   "note": "Bit-accurate model; C52 is the exact-arithmetic counterpart. Triangles whose squared area is between the two thresholds are not decided."
  },
  {
   "property": "C102",
   "status": "proved",
   "theorems": [
    "C102_slerp",
    "C102_slerp_near",
    "C102_slerp_unit"
   ],
   "note": "Bit-accurate model; accuracy of sinf, cosf and acosf is a hypothesis. C43 is the exact-arithmetic counterpart. Which of A and -A is taken when they are equally near up to 2^-19 is not decided."
  },
  {
   "property": "C103",
   "status": "proved",
   "theorems": [
    "C103_distance_to_point",
    "C103_bounding_sphere"
   ],
   "note": "Bit-accurate model; C20 is the exact-arithmetic counterpart of the bounding sphere."
  },
  {
   "property": "C104",
   "status": "proved",
   "theorems": [
    "C104_inverse_product",
    "C104_untransform_point",
    "C104_round_trip",
    "C104_backface"
   ],
   "note": "Bit-accurate model. The exact inverse is described by its defining property (both products with the matrix are the identity). Excludes NEON's estimated division."
  },
  {
   "property": "C105",
   "status": "proved",
   "theorems": [
    "C105_from_matrix",
    "C105_round_trip"
   ],
   "note": "Bit-accurate model. Half turns (w = 0) are outside: there the three sign tests compare equal entries and rounding decides."
  },
  {
   "property": "C106",
   "status": "proved",
   "theorems": [
    "C106_transform_ray",
    "C106_ray_image",
    "C106_transform_plane",
    "C106_plane_points",
    "C106_normal_matrix"
   ],
   "note": "Bit-accurate model. Exact counterpart of the plane part: C50 (Props_PlaneX)."
  },
  {
   "property": "C107",
   "status": "proved",
   "theorems": [
    "C107_from_radians",
    "C107_from_angles"
   ],
   "note": "Bit-accurate model. Exact counterpart: C44 (Props_QuatX2)."
  },
  {
   "property": "C108",
   "status": "proved",
   "theorems": [
    "C108_normalize",
    "C108_to_angle_vec3",
    "C108_round_trip"
   ],
   "note": "Bit-accurate model. Exact counterpart: C45 (Props_QuatX2)."
  },
  {
   "property": "C109",
   "status": "proved",
   "theorems": [
    "C109_normalize_in_range",
    "C109_angle_is_a_number",
    "C109_sse_nan_refuted"
   ],
   "note": "Bit-accurate model. The failing case is proved as C109_sse_nan_refuted; the estimate used there at that point is the one an Intel Xeon returns."
  },
  {
   "property": "C11",
   "status": "proved",
   "theorems": [
    "C11_corners_contained",
    "C11_contains_point_exact",
    "C11_corners_exact"
   ],
   "note": "exact point-set characterisation; in binary32 the reported corners and centre of every finite rectangle are contained"
  },
  {
   "property": "C110",
   "status": "proved",
   "theorems": [
    "C110_vec2_normalize",
    "C110_vec3_normalize",
    "C110_vec4_normalize",
    "C110_sse_above_one_refuted"
   ],
   "note": "Bit-accurate model, no hypothesis on the size of the vector. The failing case is proved as C110_sse_above_one_refuted."
  },
  {
   "property": "C111",
   "status": "proved",
   "theorems": [
    "C111_to_radians",
    "C111_to_angles",
    "C111_round_trip"
   ],
   "note": "Bit-accurate model; the accuracy of asinf, atan2f (up to the sign of zero on its cut), sinf and cosf are hypotheses on the library, met by an explicit one in libm_eul_ok."
  },
  {
   "property": "C112",
   "status": "proved",
   "theorems": [
    "C112_from_matrix",
    "C112_round_trip"
   ],
   "note": "Bit-accurate model; the accuracy of atan2f (and of sinf and cosf for the round trip) is a hypothesis on the library, met by libm_eul_ok. The orders for which the angles are stored where euler_to_matrix does not look are refuted in C48."
  },
  {
   "property": "C113",
   "status": "proved",
   "theorems": [
    "C113_from_quaternion"
   ],
   "note": "Bit-accurate model; the accuracy of atan2f is a hypothesis on the library, met by libm_eul_ok. The composed turn is stated for every vector, in exact arithmetic (turn_by, Rodrigues' formula)."
  },
  {
   "property": "C114",
   "status": "proved",
   "theorems": [
    "C114_spin",
    "C114_points"
   ],
   "note": "Bit-accurate model; induction over the list of steps with the length as the invariant. Unlike C82 there is no condition tying n to the precision. Estimate instructions enter through estimates_ok."
  },
  {
   "property": "C115",
   "status": "proved",
   "theorems": [
    "C115_walk",
    "C115_any_order",
    "C115_out_and_back",
    "C115_scroll",
    "C115_drift_is_linear"
   ],
   "note": "Bit-accurate model; no back-end hypothesis. Float addition has no underflow error, so the bound has no absolute term."
  },
  {
   "property": "C116",
   "status": "proved",
   "theorems": [
    "C116_no_overshoot",
    "C116_arrives"
   ],
   "note": "Bit-accurate model, double precision intermediate included; both parts by induction over the list of factors from the one-step facts of C86. The same does not hold for vecN_interpolate, which computes in single precision (C86_vec_refuted)."
  },
  {
   "property": "C117",
   "status": "proved",
   "theorems": [
    "C117_damage",
    "C117_covers"
   ],
   "note": "Bit-accurate model; induction over the list from the one-step bound of C77_rect_union, with the running union's size as the invariant."
  },
  {
   "property": "C12",
   "status": "proved",
   "theorems": [
    "C12_union_near_edges",
    "C12_union_far_edge_refuted",
    "C12_union_commutes",
    "C12_union_contains",
    "C12_union_algebra"
   ],
   "note": "least upper bound, commutative/idempotent/associative exactly; near edges and commutativity in binary32; far-edge loss is C12_union_far_edge_refuted"
  },
  {
   "property": "C13",
   "status": "proved",
   "theorems": [
    "C13_intersection_false",
    "C13_intersection_true",
    "C13_intersection_exact",
    "C13_intersection_commutes"
   ],
   "note": "exact characterisation; in binary32 a false answer excludes common interior points and a true answer's origin lies in both"
  },
  {
   "property": "C14",
   "status": "proved",
   "theorems": [
    "C14_round_extents_covers",
    "C14_round_extents_refuted",
    "C14_round_extents_exact",
    "C14_round_exact",
    "C14_round_refuted"
   ],
   "note": "least integral cover exactly; binary32 cover with edges up to 2^23; C14_round_extents_refuted beyond; C14_round_refuted for rect_round"
  },
  {
   "property": "C15",
   "status": "proved",
   "theorems": [
    "C15_offset_exact",
    "C15_inset_exact",
    "C15_inset_inverse",
    "C15_expand_exact",
    "C15_scale_exact"
   ],
   "note": "exact arithmetic"
  },
  {
   "property": "C16",
   "status": "proved",
   "theorems": [
    "C16_not_reflexive_refuted",
    "C16_contains_rect_complete",
    "C16_contains_rect_sound",
    "C16_contains_rect_reflexive",
    "C16_contains_rect_tolerance_refuted"
   ],
   "note": "exact arithmetic; binary32 non-reflexivity is C16_not_reflexive_refuted"
  },
  {
   "property": "C17",
   "status": "proved",
   "theorems": [
    "C17_points_contained",
    "C17_points_least",
    "C17_points_order_irrelevant",
    "C17_vectors_contained",
    "C17_vectors_least",
    "C17_expand",
    "C17_nan_point_refuted"
   ],
   "note": "binary32, every back end, lists of any length"
  },
  {
   "property": "C18",
   "status": "proved",
   "theorems": [
    "C18_contains_point_meaning",
    "C18_intersection",
    "C18_union_upper",
    "C18_union_least",
    "C18_contains_box_sound",
    "C18_contains_box_complete",
    "C18_contains_box_transitive",
    "C18_contains_box_reflexive"
   ],
   "note": "binary32, every back end"
  },
  {
   "property": "C19",
   "status": "proved",
   "theorems": [
    "C19_empty_contains_nothing",
    "C19_infinite_contains_everything",
    "C19_union_empty",
    "C19_intersection_infinite",
    "C19_empty_contained",
    "C19_self_containment_refuted"
   ],
   "note": "binary32, every back end; the self-containment defect is C19_self_containment_refuted"
  },
  {
   "property": "C20",
   "status": "proved",
   "theorems": [
    "C20_vertices_contained",
    "C20_box_of_vertices",
    "C20_center_inside",
    "C20_center_overflow_refuted",
    "C20_empty_size_refuted",
    "C20_bounding_sphere"
   ],
   "note": "vertices and centre in binary32 on every back end; the bounding sphere in exact arithmetic"
  },
  {
   "property": "C21",
   "status": "proved",
   "theorems": [
    "C21_expand_scalar_keeps_points",
    "C21_shrink_refuted",
    "C21_expand_scalar_exact"
   ],
   "note": "binary32 monotonicity and the negative-scalar defect on every back end; exact characterisation in exact arithmetic"
  },
  {
   "property": "C22",
   "status": "proved",
   "theorems": [
    "C22_contains_point_meaning",
    "C22_init",
    "C22_points_contained",
    "C22_points_least",
    "C22_points_order_irrelevant",
    "C22_no_points",
    "C22_vectors_as_points",
    "C22_expand",
    "C22_intersection",
    "C22_intersects_is_intersection",
    "C22_union",
    "C22_contains_box",
    "C22_extremes",
    "C22_expand_scalar",
    "C22_vertices",
    "C22_center_contained",
    "C22_init_from_rect",
    "C22_init_from_rect_negative_refuted",
    "C22_contains_rect",
    "C22_to_rect",
    "C22_self_containment_refuted",
    "C22_scale_negative_refuted",
    "C22_equal",
    "C22_contains_point_exact",
    "C22_rect_round_trip",
    "C22_init_from_rect_exact",
    "C22_contains_rect_exact",
    "C22_scale_offset",
    "C22_expand_scalar_exact",
    "C22_dimensions"
   ],
   "note": "binary32 for every back end (Props_Box2d) and exact arithmetic (Props_Box2dX); the _refuted theorems record the cases where the natural claim fails: self-containment of the empty and infinite box, negative scale, rectangles of negative size"
  },
  {
   "property": "C23",
   "status": "proved",
   "theorems": [
    "C23_transform_box_conservative",
    "C23_identity_box_refuted"
   ],
   "note": "binary32, every back end"
  },
  {
   "property": "C24",
   "status": "proved",
   "theorems": [
    "C24_transform_bounds_near_edges",
    "C24_far_edge_refuted",
    "C24_transform_bounds_exact",
    "C24_transform_rect_exact"
   ],
   "note": "exact arithmetic for all edges; binary32 near edges; far-edge loss is a witness"
  },
  {
   "property": "C25",
   "status": "proved",
   "theorems": [
    "C25_multiply_exact",
    "C25_identity_neutral",
    "C25_associative",
    "C25_transform_vec4_exact",
    "C25_compose_vec4",
    "C25_transform_vec3_exact",
    "C25_compose_vec3",
    "C25_transform_point3d_exact",
    "C25_compose_point3d",
    "C25_transform_point_is_point3d",
    "C25_projective_refuted"
   ],
   "note": "exact arithmetic, every back end; C25_projective_refuted shows why points need an affine first factor"
  },
  {
   "property": "C26",
   "status": "proved",
   "theorems": [
    "C26_transpose_involution",
    "C26_transpose_moves_entries",
    "C26_transpose_multiply"
   ],
   "note": "bit for bit in binary32; the product rule in exact arithmetic"
  },
  {
   "property": "C27",
   "status": "proved",
   "theorems": [
    "C27_identity_b32_refuted",
    "C27_determinant_negated",
    "C27_determinant_refuted",
    "C27_determinant_laws",
    "C27_is_singular_exact"
   ],
   "note": "exact arithmetic, every back end; the documented value is refuted: the sign is wrong"
  },
  {
   "property": "C28",
   "status": "proved",
   "theorems": [
    "C28_inverse_answer",
    "C28_inverse_exact",
    "C28_nonsingular_inverted",
    "C28_inverse_points",
    "C28_scalar_boundary_refuted"
   ],
   "note": "exact arithmetic; back ends with exact reciprocal; scalar boundary case refuted"
  },
  {
   "property": "C29",
   "status": "proved",
   "theorems": [
    "C29_translate_exact",
    "C29_scale_exact",
    "C29_append_vec4",
    "C29_translations_add",
    "C29_scales_multiply",
    "C29_getters",
    "C29_skew_exact",
    "C29_init_skew_exact"
   ],
   "note": "exact arithmetic, every back end"
  },
  {
   "property": "C30",
   "status": "proved",
   "theorems": [
    "C30_degenerate_axis_refuted",
    "C30_rotate_is_rodrigues",
    "C30_rotation_properties",
    "C30_rotation_orthogonal",
    "C30_rotate_appends",
    "C30_rotate_xyz",
    "C30_handedness"
   ],
   "note": "exact arithmetic; back ends with exact estimates; axis above the scalar cut-off; C30_degenerate_axis_refuted below it"
  },
  {
   "property": "C31",
   "status": "proved",
   "theorems": [
    "C31_frustum_exact",
    "C31_perspective_exact",
    "C31_ortho_exact",
    "C31_apply_perspective_exact",
    "C31_apply_perspective_refuted"
   ],
   "note": "exact arithmetic; C31_apply_perspective_refuted: matrix_perspective adds the z column to w"
  },
  {
   "property": "C32",
   "status": "proved",
   "theorems": [
    "C32_degenerate_up_refuted",
    "C32_look_at_orthonormal",
    "C32_eye_not_origin_refuted"
   ],
   "note": "exact arithmetic, general position; C32_degenerate_up_refuted: looking along up is singular on the scalar back end"
  },
  {
   "property": "C33",
   "status": "proved",
   "theorems": [
    "C33_2d_round_trip",
    "C33_conversion"
   ],
   "note": "binary32 with binary64 arguments, all six doubles"
  },
  {
   "property": "C34",
   "status": "proved",
   "theorems": [
    "C34_init_from_float",
    "C34_init_from_short",
    "C34_to_float",
    "C34_float_round_trip",
    "C34_rows",
    "C34_out_of_range"
   ],
   "note": "binary32; arrays are lists, a short array is out of bounds"
  },
  {
   "property": "C35",
   "status": "proved",
   "theorems": [
    "C35_transform_sphere_contains",
    "C35_shear_refuted"
   ],
   "note": "exact arithmetic, every back end; shear witness"
  },
  {
   "property": "C36",
   "status": "proved",
   "theorems": [
    "C36_round_trip",
    "C36_fails_iff",
    "C36_hypotheses_met",
    "C36_non_2d_refuted"
   ],
   "note": "exact arithmetic, back ends with exact estimates; C36_non_2d_refuted: for non-2D matrices the function does not invert"
  },
  {
   "property": "C37",
   "status": "proved",
   "theorems": [
    "C37_unproject_exact",
    "C37_fails_iff",
    "C37_modelview_refuted"
   ],
   "note": "exact arithmetic; the modelview is multiplied, not inverted: C37_modelview_refuted"
  },
  {
   "property": "C38",
   "status": "proved",
   "theorems": [
    "C38_symmetric",
    "C38_reflexive_finite",
    "C38_equal_fast_is_identity",
    "C38_equal_fast_implies_equal",
    "C38_near_sound",
    "C38_refuted"
   ],
   "note": "binary32, every back end"
  },
  {
   "property": "C39",
   "status": "proved",
   "theorems": [
    "C39_answer",
    "C39_affine",
    "C39_recompose",
    "C39_unique",
    "C39_rigid",
    "C39_half_turn_refuted",
    "C39_perspective",
    "C39_perspective_refuted",
    "C39_similarity_2d",
    "C39_2d_refuted",
    "C39_identity"
   ],
   "note": "3D affine matrices recompose (exact arithmetic, estimates exact, Gram-Schmidt norms above the scalar back end's cut-off), uniqueness, exact answer condition; _refuted theorems show the half-turn, 2D and perspective cases where the natural claim is false of the code."
  },
  {
   "property": "C40",
   "status": "proved",
   "theorems": [
    "C40_accepted",
    "C40_is_2d_exact",
    "C40_is_2d_refuted",
    "C40_is_identity_exact",
    "C40_is_identity_scalar",
    "C40_backface_exact",
    "C40_backface_singular",
    "C40_backface_turn"
   ],
   "note": "exact arithmetic characterisations on every back end and binary32 acceptance"
  },
  {
   "property": "C41",
   "status": "proved",
   "theorems": [
    "C41_operations_exact",
    "C41_algebra",
    "C41_to_matrix_rotates",
    "C41_matrix_homomorphism",
    "C41_matrix_is_rotation",
    "C41_rotate_quaternion_appends",
    "C41_normalize"
   ],
   "note": "Exact arithmetic."
  },
  {
   "property": "C42",
   "status": "proved",
   "theorems": [
    "C42_quaternion_round_trip",
    "C42_rotation_round_trip",
    "C42_half_turn",
    "C42_half_turn_refuted",
    "C42_matrix_round_trip"
   ],
   "note": "Exact arithmetic; counterexample for half turns with axes of mixed signs."
  },
  {
   "property": "C43",
   "status": "proved",
   "theorems": [
    "C43_slerp",
    "C43_endpoints",
    "C43_close"
   ],
   "note": "Exact arithmetic."
  },
  {
   "property": "C44",
   "status": "proved",
   "theorems": [
    "C44_from_radians",
    "C44_from_angles",
    "C44_round_trip",
    "C44_round_trip_degrees",
    "C44_to_radians"
   ],
   "note": "Exact arithmetic."
  },
  {
   "property": "C45",
   "status": "proved",
   "theorems": [
    "C45_from_angle_vec3",
    "C45_to_angle_vec3",
    "C45_round_trip"
   ],
   "note": "Exact arithmetic."
  },
  {
   "property": "C46",
   "status": "proved",
   "theorems": [
    "C46_symmetric",
    "C46_reflexive",
    "C46_tolerance",
    "C46_opposite_refuted"
   ],
   "note": "binary32, all back ends."
  },
  {
   "property": "C47",
   "status": "proved",
   "theorems": [
    "C47_product",
    "C47_turns_points",
    "C47_is_rotation",
    "C47_degrees"
   ],
   "note": "Exact arithmetic."
  },
  {
   "property": "C48",
   "status": "proved",
   "theorems": [
    "C48_angles",
    "C48_round_trip",
    "C48_other_orders_refuted",
    "C48_quaternion_round_trip"
   ],
   "note": "Exact arithmetic; counterexamples for all other orders."
  },
  {
   "property": "C49",
   "status": "proved",
   "theorems": [
    "C49_quaternion",
    "C49_other_orders_refuted",
    "C49_reorder",
    "C49_reorder_refuted",
    "C49_rotate_euler_appends",
    "C49_rotate_euler_refuted"
   ],
   "note": "Exact arithmetic; counterexamples for all other orders."
  },
  {
   "property": "C50",
   "status": "proved",
   "theorems": [
    "C50_distance",
    "C50_init_from_point",
    "C50_init_from_points",
    "C50_collinear_refuted",
    "C50_normalize",
    "C50_normalize_tiny_refuted",
    "C50_negate",
    "C50_transform",
    "C50_transform_non_unit_refuted"
   ],
   "note": "Exact arithmetic over the same model functions; refutations for collinear points, tiny normals and non-unit transform."
  },
  {
   "property": "C51",
   "status": "proved",
   "theorems": [
    "C51_init",
    "C51_contains_point",
    "C51_negative_radius_refuted",
    "C51_is_empty",
    "C51_distance",
    "C51_distance_sign",
    "C51_init_from_vectors",
    "C51_init_from_points",
    "C51_bounding_box",
    "C51_bounding_box_containment_refuted",
    "C51_transformed_bounding_box_refuted",
    "C51_translate",
    "C51_translate_radius_refuted"
   ],
   "note": "Exact arithmetic; lists of any length."
  },
  {
   "property": "C52",
   "status": "proved",
   "theorems": [
    "C52_bounding_box_contains",
    "C52_bounding_box_least",
    "C52_area",
    "C52_normal",
    "C52_barycoords_none",
    "C52_barycoords_projection",
    "C52_barycoords_of_point",
    "C52_barycoords_reproduce",
    "C52_contains_point",
    "C52_contains_coplanar",
    "C52_contains_vertices_refuted",
    "C52_midpoint",
    "C52_uv",
    "C52_uv_degenerate",
    "C52_plane"
   ],
   "note": "Exact arithmetic; bounding box is bit-accurate."
  },
  {
   "property": "C53",
   "status": "proved",
   "theorems": [
    "C53_init",
    "C53_position_at",
    "C53_closest_point",
    "C53_distance_to_point",
    "C53_distance_to_plane",
    "C53_distance_to_plane_parallel"
   ],
   "note": "Exact arithmetic, unit direction."
  },
  {
   "property": "C54",
   "status": "proved",
   "theorems": [
    "C54_intersect_sphere"
   ],
   "note": "Exact arithmetic."
  },
  {
   "property": "C55",
   "status": "proved",
   "theorems": [
    "C55_intersect_box",
    "C55_tiny_component_refuted"
   ],
   "note": "Exact arithmetic; zero components handled through the infinities of the model."
  },
  {
   "property": "C56",
   "status": "proved",
   "theorems": [
    "C56_intersect_triangle",
    "C56_parallel_misses"
   ],
   "note": "Exact arithmetic."
  },
  {
   "property": "C57",
   "status": "proved",
   "theorems": [
    "C57_box_conservative",
    "C57_contains_point",
    "C57_sphere_conservative",
    "C57_sphere_unnormalized_refuted",
    "C57_init_from_matrix"
   ],
   "note": "Boxes in binary32 (all back ends); spheres and matrices in exact arithmetic; counterexample for normals that are not unit vectors."
  },
  {
   "property": "C58",
   "status": "proved",
   "theorems": [
    "C58_rect_points_in_quad",
    "C58_get_point",
    "C58_points_round_trip",
    "C58_bounds_near",
    "C58_bounds_far_refuted",
    "C58_contains_convex",
    "C58_from_rect",
    "C58_from_empty_rect_refuted",
    "C58_concave_refuted",
    "C58_bounds_exact"
   ],
   "note": "Containment exact; rect points and bounds also in binary32; counterexamples for empty rectangles, concave quads and the far edges of bounds."
  },
  {
   "property": "C59",
   "status": "proved",
   "theorems": [
    "C59_rearrange",
    "C59_get_out_of_range",
    "C59_signs",
    "C59_compare",
    "C59_compare_eq",
    "C59_scalar_equality_refuted",
    "C59_min_max_val",
    "C59_clamp",
    "C59_clamp_scalar",
    "C59_arithmetic",
    "C59_madd",
    "C59_sum",
    "C59_sqrt",
    "C59_is_zero"
   ],
   "note": "bit-accurate model, all back ends; NEON sqrt excluded (estimate), scalar cmp_eq refuted with witness"
  },
  {
   "property": "C60",
   "status": "proved",
   "theorems": [
    "C60_aligned_alloc",
    "C60_aligned_alloc0",
    "C60_overflow_detected",
    "C60_wrap_refuted",
    "C60_malloc_alignment_refuted"
   ],
   "note": "one call of graphene_aligned_alloc/alloc0 in every configuration; the two exceptions are refuted witnesses"
  },
  {
   "property": "C61",
   "status": "proved",
   "theorems": [
    "C61_model_constants",
    "C61_constant_values",
    "C61_initialised_once",
    "C61_no_data_race",
    "C61_calls_return",
    "C61_flag_single_thread",
    "C61_flag_race_refuted"
   ],
   "note": "sequentially consistent memory, justified by the race-freedom theorem; pthread_once/InitOnceExecuteOnce taken at their specification, failure of pthread_once not modelled"
  },
  {
   "property": "C62",
   "status": "proved",
   "theorems": [
    "C62_vector_unary",
    "C62_vector_binary",
    "C62_vec3_normalize",
    "C62_point_interpolate",
    "C62_size_interpolate",
    "C62_size_scale",
    "C62_point3d_scale",
    "C62_point3d_cross",
    "C62_point3d_normalize",
    "C62_point3d_interpolate",
    "C62_point3d_normalize_viewport",
    "C62_rect_init_from_rect",
    "C62_rect_normalize",
    "C62_rect_get_center",
    "C62_rect_get_corner",
    "C62_rect_union",
    "C62_rect_intersection",
    "C62_rect_offset",
    "C62_rect_inset",
    "C62_rect_round",
    "C62_rect_round_extents",
    "C62_rect_expand",
    "C62_rect_interpolate",
    "C62_rect_scale",
    "C62_box_expand_vec3",
    "C62_box_expand",
    "C62_box_expand_scalar",
    "C62_box_union",
    "C62_box_intersection",
    "C62_box_init_from_vec3",
    "C62_box2d_expand_vec2",
    "C62_box2d_expand",
    "C62_box2d_expand_scalar",
    "C62_box2d_union",
    "C62_box2d_intersection",
    "C62_quaternion_multiply",
    "C62_quaternion_invert",
    "C62_quaternion_normalize",
    "C62_quaternion_scale",
    "C62_quaternion_add",
    "C62_quaternion_slerp",
    "C62_matrix_multiply",
    "C62_matrix_transpose",
    "C62_matrix_inverse",
    "C62_matrix_perspective",
    "C62_matrix_normalize",
    "C62_matrix_translate",
    "C62_matrix_skew_xy",
    "C62_matrix_transform_vec3",
    "C62_matrix_transform_vec4",
    "C62_matrix_transform_point",
    "C62_matrix_transform_point3d",
    "C62_matrix_transform_sphere",
    "C62_matrix_transform_ray",
    "C62_matrix_transform_box",
    "C62_matrix_transform_bounds",
    "C62_matrix_project_point",
    "C62_matrix_untransform_point",
    "C62_matrix_unproject_point3d",
    "C62_matrix_interpolate_apart",
    "C62_plane_normalize",
    "C62_plane_negate",
    "C62_sphere_translate",
    "C62_ray_get_closest_point_to_point",
    "C62_ray_init_from_vec3",
    "C62_quad_init",
    "C62_triangle_get_uv",
    "C62_quad_rotate_refuted",
    "C62_box_swap_refuted",
    "C62_ray_swap_refuted",
    "C62_triangle_get_uv_refuted",
    "C62_matrix_interpolate_in_place_refuted"
   ],
   "note": "Alias.v models each function as a sequence of loads and stores on a flat float memory; [computes] = result of old contents + frame. Hypotheses [same_or_apart] appear only for functions that write part of the result before reading the rest. Exceptions proved as C62_*_refuted."
  },
  {
   "property": "C63",
   "status": "proved",
   "theorems": [
    "C63_null_and_same_pointer"
   ],
   "note": "every *_equal function, binary32, every back end"
  },
  {
   "property": "C64",
   "status": "proved",
   "theorems": [
    "C64_negate",
    "C64_dot",
    "C64_near",
    "C64_cross",
    "C64_point3d_cross",
    "C64_scale_offset",
    "C64_skew",
    "C64_determinant",
    "C64_inverse_answer",
    "C64_transform_sphere",
    "C64_plane",
    "C64_sphere",
    "C64_sphere_from_points",
    "C64_triangle",
    "C64_ray_plane",
    "C64_ray_sphere",
    "C64_ray_triangle",
    "C64_frustum",
    "C64_triangle_normal",
    "C64_interpolate_2d",
    "C64_min_max",
    "C64_box",
    "C64_box_points",
    "C64_box2d",
    "C64_quad_bounds",
    "C64_transform_bounds",
    "C64_transform_box",
    "C64_length",
    "C64_point3d_distance",
    "C64_normalize",
    "C64_divide",
    "C64_divide_vec3",
    "C64_inverse",
    "C64_through_inverse",
    "C64_untransform",
    "C64_rotate",
    "C64_rotate_axes",
    "C64_quaternion_normalize",
    "C64_look_at",
    "C64_ray_box",
    "C64_plane_normalize",
    "C64_decompose_affine",
    "C64_equality_refuted",
    "C64_normalize_refuted"
   ],
   "note": "Exact arithmetic. Group 1 holds without hypotheses on operands, group 2 for operands that are values, group 3 for real operands and exact estimates; the two refuted theorems show the differences that exist."
  },
  {
   "property": "C65",
   "status": "proved",
   "theorems": [
    "C65_near_symmetric",
    "C65_reflexive_finite",
    "C65_near_sound",
    "C65_infinite_refuted",
    "C65_distance_same_pointer_refuted",
    "C65_distance",
    "C65_near_exact",
    "C65_point3d_distance",
    "C65_scale"
   ],
   "note": ""
  },
  {
   "property": "C66",
   "status": "proved",
   "theorems": [
    "C66_clamped",
    "C66_affine_inside"
   ],
   "note": ""
  },
  {
   "property": "C67",
   "status": "proved",
   "theorems": [
    "C67_project_point_exact",
    "C67_translation_ignored_refuted"
   ],
   "note": "exact arithmetic, every back end"
  },
  {
   "property": "C68",
   "status": "proved",
   "theorems": [
    "C68_answer",
    "C68_interpolate_3d",
    "C68_translations",
    "C68_self_refuted",
    "C68_uniform_endpoints",
    "C68_rotations_2d",
    "C68_endpoints_2d",
    "C68_self_2d_refuted"
   ],
   "note": "Endpoints and interpolation for translations and uniformly scaled rotations; general 3D result stated as translate*rotate*scale; refuted for matrices with translation and scale/rotation; failure behaviour."
  },
  {
   "property": "C69",
   "status": "proved",
   "theorems": [
    "C69_free_matches_alloc",
    "C69_free_null",
    "C69_objects_disjoint",
    "C69_objects_aligned",
    "C69_foreign_untouched",
    "C69_bytes_stable",
    "C69_zeroed"
   ],
   "note": "invariant over all histories; alignment needs an aligned allocator (not plain malloc)"
  },
  {
   "property": "C70",
   "status": "proved",
   "theorems": [
    "C70_dot2",
    "C70_dot3",
    "C70_dot4",
    "C70_transform_vec4",
    "C70_multiply",
    "C70_transform_point3d",
    "C70_transform_point",
    "C70_transform_vec3",
    "C70_length2",
    "C70_length3",
    "C70_length4",
    "C70_sqrt",
    "C70_rsqrt",
    "C70_reciprocal",
    "C70_normalize2",
    "C70_normalize3",
    "C70_normalize4",
    "C70_normalize_unit",
    "C70_length",
    "C70_cross",
    "C70_distance",
    "C70_point3d_distance",
    "C70_plane_distance",
    "C70_box_center",
    "C70_box2d_center"
   ],
   "note": "standard model of rounding errors on the bit-accurate model; NEON's instruction sequences are in Neon.v"
  },
  {
   "property": "C71",
   "status": "proved",
   "theorems": [
    "C71_equality",
    "C71_equality_euler",
    "C71_euler_orders"
   ],
   "note": "by reduction to the vector comparisons of C05; the pointer-identity shortcut is the boolean argument"
  },
  {
   "property": "C72",
   "status": "proved",
   "theorems": [
    "C72_vector_constants",
    "C72_constants",
    "C72_init_get",
    "C72_null_queries",
    "C72_from_float",
    "C72_matrix_from_float",
    "C72_copies",
    "C72_more_copies",
    "C72_minmax",
    "C72_ray_copy",
    "C72_ray_copy_refuted"
   ],
   "note": "the exact copy claim for rays is refuted (C72_ray_copy_refuted) and replaced by the bound C72_ray_copy"
  },
  {
   "property": "C73",
   "status": "proved",
   "theorems": [
    "C73_letters",
    "C73_order",
    "C73_degrees",
    "C73_radians",
    "C73_vec3",
    "C73_null",
    "C73_degrees_exact"
   ],
   "note": "also extends C49: matrix_rotate_euler appends the rotation for the orders euler_to_quaternion handles, and not for the others"
  },
  {
   "property": "C74",
   "status": "proved",
   "theorems": [
    "C74_entrywise",
    "C74_sum",
    "C74_transpose",
    "C74_init",
    "C74_load",
    "C74_store",
    "C74_identity",
    "C74_vec4_mul",
    "C74_vec3_mul",
    "C74_point3_mul",
    "C74_matrix_mul",
    "C74_sum_exact",
    "C74_inv_ortho_value",
    "C74_inv_ortho_vec3",
    "C74_inv_ortho_point3",
    "C74_determinant"
   ],
   "note": "rounded entrywise operations in Props_Simd4x4, products and inverse products in Props_Simd4x4X"
  },
  {
   "property": "C75",
   "status": "proved",
   "theorems": [
    "C75_project_rect_corners",
    "C75_project_rect_bounds",
    "C75_project_rect_order_refuted",
    "C75_untransform_bounds_2d",
    "C75_untransform_bounds_fails",
    "C75_untransform_point_linear",
    "C75_untransform_bounds_linear",
    "C75_untransform_bounds_fails_iff"
   ],
   "note": "the corner order of project_rect is refuted as a quad (C75_project_rect_order_refuted)"
  },
  {
   "property": "C76",
   "status": "proved",
   "theorems": [
    "C76_box_dimensions",
    "C76_box2d_dimensions",
    "C76_box_size",
    "C76_box2d_size",
    "C76_box_center",
    "C76_box2d_center",
    "C76_same_point"
   ],
   "note": "exact characterisation by correctly rounded operations"
  },
  {
   "property": "C77",
   "status": "proved",
   "theorems": [
    "C77_plane_side",
    "C77_frustum_contains_point",
    "C77_frustum_sphere",
    "C77_frustum_box",
    "C77_sphere_contains_point",
    "C77_quad_contains",
    "C77_rect_contains_point_exact",
    "C77_rect_contains_point",
    "C77_rect_union",
    "C77_rect_intersection"
   ],
   "note": "binary32, every back end; bounds relative to the exact real geometry of the stored floats. Overflow is excluded by magnitude hypotheses; the examples exhibit inputs meeting every hypothesis."
  },
  {
   "property": "C78",
   "status": "proved",
   "theorems": [
    "C78_every_float",
    "C78_sse_moves",
    "C78_sse_lanes",
    "C78_sse_memory",
    "C78_sse_arith",
    "C78_sse_estimates",
    "C78_sse_cross3",
    "C78_sse_dot3",
    "C78_sse_minmax",
    "C78_sse_signs",
    "C78_sse_compare",
    "C78_sse_round_madd",
    "C78_transpose",
    "C78_neon_moves",
    "C78_neon_lanes",
    "C78_neon_memory",
    "C78_neon_arith",
    "C78_neon_estimates",
    "C78_neon_cross3",
    "C78_neon_dot3",
    "C78_neon_minmax",
    "C78_neon_signs",
    "C78_neon_compare",
    "C78_neon_round_madd",
    "C78_gcc_lanes",
    "C78_gcc_arith",
    "C78_gcc_compare",
    "C78_gcc_transpose",
    "C78_sse_machine",
    "C78_neon_machine"
   ],
   "note": "Intrinsics are modelled on 32-bit words from the vendor descriptions (trusted); arithmetic units are arbitrary functions that round to nearest even (sse_ok, neon_ok; C78_sse_machine and C78_neon_machine show such machines exist). Visual Studio variants use the same intrinsic sequences. NEON flush-to-zero is not modelled."
  },
  {
   "property": "C79",
   "status": "proved",
   "theorems": [
    "C79_copy",
    "C79_outcomes",
    "C79_oom_refuted"
   ],
   "note": "Any heap, any allocator answer. Padding bytes of a copied structure are left unspecified, as in C. C79_oom_refuted: the copy function does not survive a failed allocation."
  },
  {
   "property": "C80",
   "status": "proved",
   "theorems": [
    "C80_same_id",
    "C80_distinct",
    "C80_registered_once",
    "C80_identifies",
    "C80_completes",
    "C80_name_clash_refuted"
   ],
   "note": "GLib's g_once_init_enter/leave and type registry are taken at their documented behaviour. C80_name_clash_refuted shows what happens if a name is taken by someone else."
  },
  {
   "property": "C81",
   "status": "proved",
   "theorems": [
    "C81_vec_interpolate",
    "C81_ray_position",
    "C81_quaternion_multiply"
   ],
   "note": "Bit-accurate model, all back ends."
  },
  {
   "property": "C82",
   "status": "proved",
   "theorems": [
    "C82_product",
    "C82_chain"
   ],
   "note": "Induction over the sequence; quaternion_multiply is scalar code, the same on every back end."
  },
  {
   "property": "C83",
   "status": "proved",
   "theorems": [
    "C83_determinant",
    "C83_is_singular",
    "C83_inverse",
    "C83_quaternion_to_matrix"
   ],
   "note": "Determinant, singularity test and quaternion matrices on all back ends; inverse on all but NEON, whose division multiplies by a hardware estimate."
  },
  {
   "property": "C84",
   "status": "proved",
   "theorems": [
    "C84_transform_box",
    "C84_transform_bounds"
   ],
   "note": "Bit-accurate model, all back ends; composes the per-vertex error bound of C70 with the exact min/max of the box code and convexity."
  },
  {
   "property": "C85",
   "status": "proved",
   "theorems": [
    "C85_running_bound",
    "C85_row_sums",
    "C85_rigid_chain",
    "C85_quaternion_rigid"
   ],
   "note": "Bit-accurate model, all back ends; induction over the sequence of factors."
  },
  {
   "property": "C86",
   "status": "proved",
   "theorems": [
    "C86_between",
    "C86_accuracy",
    "C86_vec_refuted"
   ],
   "note": "Bit-accurate model including the double-precision intermediates."
  },
  {
   "property": "C87",
   "status": "proved",
   "theorems": [
    "C87_history_exact",
    "C87_getters_exact",
    "C87_contains_point_exact",
    "C87_intersects_exact",
    "C87_equal_exact",
    "C87_contains_rect_exact",
    "C87_reach_needed_refuted"
   ],
   "note": "Bit-accurate model; the exact operations on edges (uni, int, off, ins, grow, outward, rnd_old, mul) are the specification."
  },
  {
   "property": "C88",
   "status": "proved",
   "theorems": [
    "C88_history_exact",
    "C88_transform_point_exact",
    "C88_transform_point3d_exact",
    "C88_transform_bounds_exact",
    "C88_transform_rect_exact"
   ],
   "note": "Bit-accurate model, every back end; the specification is real matrix multiplication (rmul), the affine map aff and is_bbox."
  },
  {
   "property": "C89",
   "status": "proved",
   "theorems": [
    "C89_ray_nested_boxes",
    "C89_ray_hits_larger_box",
    "C89_ray_from_inside",
    "C89_ray_box_distance",
    "C89_finite_directions",
    "C89_ray_larger_sphere",
    "C89_ray_from_sphere_refuted",
    "C89_frustum_nested_boxes",
    "C89_frustum_larger_sphere",
    "C89_larger_sphere_contains"
   ],
   "note": "Bit-accurate model, every back end; proofs by monotonicity of rounding, NaN bounds treated as no constraint. The missed origin on a sphere is a witness on the scalar and GCC back ends."
  },
  {
   "property": "C90",
   "status": "proved",
   "theorems": [
    "C90_rotation_accurate",
    "C90_rotation_rigid",
    "C90_rotation_history",
    "C90_rotate_axes",
    "C90_quaternion_from_axis"
   ],
   "note": "Bit-accurate model; sinf/cosf are arbitrary functions assumed accurate to 2^-23 on finite arguments (libm_accurate; an instance is proved to meet it). The specification is Rodrigues' formula over the reals."
  },
  {
   "property": "C91",
   "status": "proved",
   "theorems": [
    "C91_ray_box",
    "C91_sure_hit",
    "C91_sure_miss",
    "C91_zero_regular"
   ],
   "note": "Bit-accurate model; backward error theorem (C91_ray_box) and its two forward corollaries. Complements C55, which is about exact arithmetic."
  },
  {
   "property": "C92",
   "status": "proved",
   "theorems": [
    "C92_ortho",
    "C92_frustum",
    "C92_ortho_maps",
    "C92_frustum_maps",
    "C92_perspective"
   ],
   "note": "Bit-accurate model. Complements C31, which is about exact arithmetic; composing with C70 gives the mapping theorems."
  },
  {
   "property": "C93",
   "status": "proved",
   "theorems": [
    "C93_ray_sphere",
    "C93_sure_hit",
    "C93_sure_miss",
    "C93_ray_init"
   ],
   "note": "Bit-accurate model; complements the exact-arithmetic theorems on ray-sphere intersection."
  },
  {
   "property": "C94",
   "status": "proved",
   "theorems": [
    "C94_closest_point",
    "C94_distance_to_plane"
   ],
   "note": "Bit-accurate model."
  },
  {
   "property": "C95",
   "status": "proved",
   "theorems": [
    "C95_look_at",
    "C95_look_at_rigid",
    "C95_look_at_position",
    "C95_look_at_affine"
   ],
   "note": "Bit-accurate model; C32 is the exact-arithmetic counterpart."
  },
  {
   "property": "C96",
   "status": "proved",
   "theorems": [
    "C96_ray_triangle",
    "C96_meets_once",
    "C96_sure_hit",
    "C96_sure_miss"
   ],
   "note": "Bit-accurate model of the picking routine, with the margin as an explicit function of the geometry."
  },
  {
   "property": "C97",
   "status": "proved",
   "theorems": [
    "C97_triangle_area",
    "C97_triangle_normal",
    "C97_triangle_midpoint",
    "C97_plane_from_points",
    "C97_plane_normalize"
   ],
   "note": "Bit-accurate model; the exact-arithmetic counterparts are among the triangle and plane properties above."
  },
  {
   "property": "C98",
   "status": "proved",
   "theorems": [
    "C98_sphere_from_points",
    "C98_sphere_from_vectors",
    "C98_bounding_box",
    "C98_bounding_box_covers",
    "C98_sphere_distance",
    "C98_transform_sphere",
    "C98_transform_sphere_covers"
   ],
   "note": "Bit-accurate model; C51 and C35 are the exact-arithmetic counterparts."
  },
  {
   "property": "C99",
   "status": "proved",
   "theorems": [
    "C99_frustum_planes",
    "C99_frustum_contains_point",
    "C99_frustum_intersects_sphere",
    "C99_frustum_intersects_box"
   ],
   "note": "Bit-accurate model; C57 is the exact-arithmetic counterpart, C77 the decisions for given planes."
  }
 ]
}