{"id": "C01", "title": "Vectors store and return what they are given", "statement": "A vec2/vec3/vec4 initialised from components returns exactly those components from its getters; init_from_float followed by to_float copies exactly 2, 3 or 4 floats and leaves the rest of the destination array alone, and neither touches memory beyond them.", "quantifier": "every IEEE binary32 bit pattern of every argument, on every SIMD back end (scalar, GCC vector, SSE with any rcp/rsqrt estimate, NEON) and every source/destination array long enough", "why_tests_cant": "a test copies a few vectors; an off-by-one or lane swap can be confined to one back end, one lane or one array length", "anchors": ["src/graphene-vectors.c:graphene_vec2_init", "src/graphene-vectors.c:graphene_vec3_init_from_float", "src/graphene-vectors.c:graphene_vec4_to_float", "src/graphene-simd4f.c:graphene_simd4f_dup_3f"]}
{"id": "C02", "title": "min and max are component-wise extrema", "statement": "For vectors without NaN, each visible component of vecN_min is one of the two inputs' components and is <= both (for max: >= both).", "quantifier": "every IEEE binary32 bit pattern of every argument, on every SIMD back end (scalar, GCC vector, SSE with any rcp/rsqrt estimate, NEON)", "why_tests_cant": "infinities, signed zeros and denormals times four back ends cannot be enumerated by a test", "anchors": ["src/graphene-vectors.c:graphene_vec3_min", "src/graphene-vectors.c:graphene_vec4_max", "include/graphene-simd4f.h:graphene_simd4f_min"]}
{"id": "C03", "title": "No history of vec2/vec3 operations pollutes the unused lanes", "statement": "Any vec2 (vec3) built with the vec2 (vec3) constructors and any finite sequence of add, subtract, multiply, scale and interpolate (finite factors), min, max, negate, normalize, cross and constants keeps its unused SIMD lanes at zero, so the functions that look at all four lanes (box containment, comparison) see only the components the user set. Division is the one operation that breaks it (0/0) and is shown to.", "quantifier": "every finite sequence of vector API calls with arbitrary binary32 arguments, on every back end whose estimates map 0 to a finite value", "why_tests_cant": "the property is an invariant of unbounded call histories; a test runs one", "anchors": ["src/graphene-vectors.c:graphene_vec3_add", "src/graphene-vectors.c:graphene_vec3_divide", "src/graphene-box.c:graphene_box_contains_point"]}
{"id": "C04", "title": "normalize returns a unit vector in the same direction", "statement": "In exact arithmetic, normalizing a vec2/vec3/vec4 whose length exceeds FLT_EPSILON (and, on the scalar back end, whose squared length does) yields a vector of length one that is a positive multiple of the input; a shorter vector yields zero. The scalar back end returns zero for lengths between 2^-23 and 2^-11.5.", "quantifier": "all real vectors, all back ends whose reciprocal-square-root estimate is exact", "why_tests_cant": "a law over a continuum of inputs and a threshold", "anchors": ["src/graphene-vectors.c:graphene_vec2_normalize", "src/graphene-vectors.c:graphene_vec3_normalize", "src/graphene-vectors.c:graphene_vec4_normalize"]}
{"id": "C05", "title": "Vector equality is reflexive on finite values and symmetric", "statement": "vecN_equal and vecN_near are symmetric for all inputs; they accept a vector compared with a copy of itself whenever its components are finite; NULL equals only NULL; the same pointer is always equal.", "quantifier": "every IEEE binary32 bit pattern of every argument, on every SIMD back end (scalar, GCC vector, SSE with any rcp/rsqrt estimate, NEON)", "why_tests_cant": "symmetry of a fuzzy relation over 2^256 pairs", "anchors": ["src/graphene-vectors.c:graphene_vec2_equal", "src/graphene-vectors.c:graphene_vec3_near", "src/graphene-vectors.c:graphene_vec4_equal"]}
{"id": "C06", "title": "The cross product is orthogonal to its arguments and satisfies Lagrange's identity", "statement": "In exact arithmetic a x b is orthogonal to a and b, is anti-commutative, and |a x b|^2 = |a|^2|b|^2 - (a.b)^2.", "quantifier": "all real vec3 pairs, all back ends", "why_tests_cant": "algebraic identity over all reals", "anchors": ["src/graphene-vectors.c:graphene_vec3_cross", "src/graphene-point3d.c:graphene_point3d_cross"]}
{"id": "C07", "title": "Dot products are symmetric and lengths are Euclidean", "statement": "vecN_dot(a,b) equals vecN_dot(b,a) bit for bit; in exact arithmetic vecN_length is the square root of the sum of squares and the Cauchy-Schwarz and triangle inequalities hold for it.", "quantifier": "all binary32 (symmetry) or all real vectors (length)", "why_tests_cant": "inequalities over all reals; bit-for-bit symmetry over all floats", "anchors": ["src/graphene-vectors.c:graphene_vec3_dot", "src/graphene-vectors.c:graphene_vec4_length"]}
{"id": "C08", "title": "Interpolation hits its end points and stays between them", "statement": "Interpolating points, sizes, point3ds and rects with factor 0 gives the first operand and with factor 1 the second (value-wise, for finite operands); in exact arithmetic any factor in [0,1] gives a value between the two.", "quantifier": "all finite binary32 operands (end points); all reals and factors in [0,1] (betweenness)", "why_tests_cant": "depends on rounding of every operand pair", "anchors": ["src/graphene-point.c:graphene_point_interpolate", "src/graphene-rect.c:graphene_rect_interpolate", "src/graphene-vectors.c:graphene_vec3_interpolate", "src/graphene-private.h:graphene_flerpf"]}
{"id": "C09", "title": "Vector arithmetic is component-wise and correctly rounded", "statement": "vec2/vec3/vec4 add, subtract, multiply and scale return, in every component and on every back end, the correctly rounded single-precision result of the exact operation on that component of the arguments, including overflow to infinity and NaN; negate is exact; point3d and size scale likewise. divide is the correctly rounded quotient on every back end but two: the scalar back end returns 0 when the divisor is within 2^-23 of zero (witness: 1/2^-30 gives 0 there and 2^30 elsewhere), and NEON multiplies by an estimated reciprocal. Getters return what the initialisers stored, the swizzles and conversions keep exactly the named components, the constant vectors are what their names say, and reading from or writing to an array of floats touches exactly the first 2, 3 or 4 entries.", "quantifier": "all vectors of all 2^32 bit patterns per component, all back ends", "why_tests_cant": "2^64 pairs per component and five instruction-set back ends; a test samples literals on the build machine's back end", "anchors": ["src/graphene-vectors.c:graphene_vec2_add", "src/graphene-vectors.c:graphene_vec3_subtract", "src/graphene-vectors.c:graphene_vec4_divide", "src/graphene-vectors.c:graphene_vec4_init_from_vec2", "include/graphene-simd4f.h:graphene_simd4f_div"]}
{"id": "C10", "title": "Rectangle queries do not depend on the sign convention", "statement": "rect_init and every rect query first normalise: for every rect r, normalize is idempotent, yields non-negative width and height (NaN excepted), and every query, union, intersection, containment, offset, inset, round, expand, interpolate, scale of r gives bit for bit the answer for normalize(r).", "quantifier": "every IEEE binary32 bit pattern of every field, on every SIMD back end (scalar, GCC vector, SSE with any rcp/rsqrt estimate, NEON)", "why_tests_cant": "each of ~20 functions times each sign combination times each float", "anchors": ["src/graphene-rect.c:graphene_rect_normalize_in_place", "src/graphene-rect.c:graphene_rect_init"]}
{"id": "C100", "title": "Euler angles give accurate rotations in float arithmetic, over any history", "statement": "In binary32, for any sine and cosine that are within 2^-23 of the true values: for every order (all enumerators, static and relative, repeated or not, with or without odd parity) and all finite angles in radians, every entry of graphene_euler_to_matrix is finite and within 2^-20 of the matrix of the three turns the order's name promises, so the matrix keeps every vector's length up to 2^-18 relative; with angles in degrees of at most T <= 2000 radians the entries are within 2^-20 (1 + T). For the orders in which the code's quaternion formula is right (SXYZ and its aliases; the others are refuted in C49), the components of the quaternion made from the angles are within 2^-19 of the exact product quaternion, the rotation matrix made from it is within 2^-15 of the exact turn, and after any sequence of n <= 1024 calls of graphene_matrix_rotate_euler starting from any finite matrix of Frobenius norm K, the result is within n 2^-12 K (Frobenius) of the exact product of the turns, whose norm is still K.", "quantifier": "all orders, all finite binary32 angles, all sequences of up to 1024 rotations, every back end, every sine and cosine of that accuracy", "why_tests_cant": "angles are 2^32 values each, orders multiply the cases and the accuracy must hold for every libm and every history", "anchors": ["src/graphene-euler.c: graphene_euler_to_matrix, graphene_euler_init_with_order, graphene_euler_init_from_radians, graphene_euler_to_quaternion, euler_to_matrix", "src/graphene-quaternion.c: graphene_quaternion_init_from_euler, graphene_quaternion_to_matrix", "src/graphene-matrix.c: graphene_matrix_rotate_euler"]}
{"id": "C101", "title": "Barycentric coordinates, interpolated texture coordinates and containment in a triangle are accurate in float arithmetic", "statement": "In binary32, for every triangle with edges from its first vertex of at most 2^25, four times the squared area at least 2^-22 and flatness k = 1/sin^2 of the angle at that vertex at most 2^14, and every point within 2^25 of that vertex: graphene_triangle_get_barycoords succeeds and its two coordinates are within e = 2^-18 k (d / edge + |coordinate|) of the exact coordinates of the point's orthogonal projection on the plane, d being the distance of the point from the vertex; graphene_triangle_contains_point returns true whenever the exact coordinates are inside the triangle by more than those errors and only if they are not outside by more; graphene_triangle_get_uv returns true and the combination of the given texture coordinates with the exact weights, up to 2 (e + f) plus 12 units of rounding relative to their size. If four times the squared area plus 30 units of rounding of the product of the squared edges is at most 2^-23, there are no coordinates: get_barycoords and get_uv return false and contains_point is false for every point.", "quantifier": "all finite binary32 triangles and points in those ranges, all texture coordinates up to 2^30, every back end", "why_tests_cant": "twelve free binary32 coordinates; the error depends on the shape of the triangle", "anchors": ["src/graphene-triangle.c: graphene_triangle_get_barycoords, graphene_triangle_get_uv, graphene_triangle_contains_point"]}
{"id": "C102", "title": "Spherical interpolation of quaternions is accurate in float arithmetic", "statement": "In binary32, for every two quaternions a, b that are unit quaternions A, B up to 2^-22 in each component, every factor t in [0, 1], and a math library whose sinf and cosf are within 2^-23 and acosf within 2^-22 on [0, 1]: if (A.B)^2 <= 1 - 2^-16, every component of graphene_quaternion_slerp (a, b, t) is finite and within 2^-16 + 2^-22 / sin theta of the point at fraction t of the shorter great arc from A or -A, whichever is nearer to B, to B, theta being the angle between them, and the squared length of the result is 1 up to 2^-11 (2^-13 if (A.B)^2 <= 1/2); if A and B are nearer than that, the result is A or -A up to 2^-7 in each component.", "quantifier": "all pairs of binary32 quaternions near unit quaternions, all factors in [0, 1], every accurate math library, every back end", "why_tests_cant": "nine free binary32 parameters; the division by sin theta amplifies errors as the quaternions approach each other", "anchors": ["src/graphene-quaternion.c: graphene_quaternion_slerp"]}
{"id": "C103", "title": "Distance from a point to a ray and bounding sphere of a box are accurate in float arithmetic", "statement": "In binary32: for a ray with unit direction up to 2^-18, origin up to 2^55 and a point at squared distance at most 2^100 from it, graphene_ray_get_distance_to_point is the distance of the point to the nearest point of the ray up to 2^-17 of the point's distance from the origin, 2^-21 of the sum of the moduli of the origin's coordinates and 2^-48. For a box with finite ordered corners of size at most 2^55, the sphere of graphene_box_get_bounding_sphere has its centre within 2^-24 (relative to the centre's distance from the origin) of the middle of the box, its radius within 2^-19 (relative) plus 2^-49 of half the diagonal, and every real point of the box is in the sphere up to the sum of these errors. Where the square root is NEON's estimate, the distance and the diagonal must not be below 2^-22.", "quantifier": "all binary32 rays, points and boxes in those ranges, all real points of the box and of the ray, every back end", "why_tests_cant": "it bounds the error over all inputs, and containment quantifies over every real point of the box", "anchors": ["src/graphene-ray.c: graphene_ray_get_distance_to_point", "src/graphene-box.c: graphene_box_get_bounding_sphere, graphene_box_get_center, graphene_box_get_size"]}
{"id": "C104", "title": "Inverses undo their matrix, and points come back, in float arithmetic", "statement": "In binary32, for every matrix with entries up to 2^30 whose determinant is clear of FLT_EPSILON and of twice its own rounding error, on back ends that divide in IEEE arithmetic, with e_ij the bound of C83 on the error of entry (i, j) of the inverse: graphene_matrix_inverse succeeds and both products of the matrix with the result differ from the identity by at most the sum of |m_ik| e_kj (or e_ik |m_kj|) plus the rounding of the product; for a matrix that acts on the plane only, graphene_matrix_untransform_point succeeds whatever the bounds and returns, up to the sum of e_ic times the coordinates plus rounding, the real point that the matrix sends exactly to the given one, and transforming a point and then untransforming it gives it back up to that error plus the rounding of the forward transformation times the entries of the inverse; graphene_matrix_is_backface_visible is true when the (2,2) entry of the exact inverse is below -e_22 and false when it is at least e_22.", "quantifier": "all binary32 matrices in that range, all finite points whose terms do not overflow, all bounds rectangles, every IEEE-dividing back end", "why_tests_cant": "it bounds the error over all matrices and points, including ill-conditioned ones", "anchors": ["src/graphene-matrix.c: graphene_matrix_inverse, graphene_matrix_multiply, graphene_matrix_untransform_point, graphene_matrix_transform_point, graphene_matrix_is_backface_visible", "include/graphene-simd4x4f.h: graphene_simd4x4f_inverse, graphene_simd4x4f_is_2d"]}
{"id": "C105", "title": "The quaternion read from a rotation matrix, in float arithmetic", "statement": "In binary32, for a matrix whose rotation part is that of a unit quaternion Q up to d <= 2^-10 in each entry, and Q's scalar part w not zero: every component of graphene_quaternion_init_from_matrix is finite and differs from that of Q (or of -Q when w is negative) by at most sqrt(d + 5.5 2^-24) + d/|w|; and by at most (d + 5.5 2^-24 + d^2/(2 w^2)) / |Q_k| relative to the size of the component, so a component that is not small is accurate to rounding while one that should be zero may be off by a square root. In particular, for a float quaternion within 2^-22 of Q, reading the quaternion back from graphene_quaternion_to_matrix gives every component within 0.0017 + 38 2^-24/|w| of that of Q or -Q, and within (44 2^-24 + (38 2^-24)^2/(2 w^2)) / |Q_k|.", "quantifier": "all binary32 matrices near a rotation, all unit quaternions with non-zero scalar part, all back ends", "why_tests_cant": "it bounds the error over all rotations, including the cancellation in the square roots and the sign tests near zero", "anchors": ["src/graphene-quaternion.c: graphene_quaternion_init_from_matrix, graphene_quaternion_to_matrix"]}
{"id": "C106", "title": "Rays and planes under a matrix are accurate in float arithmetic", "statement": "In binary32, with |M| the root of the sum of the squares of the nine linear entries of the matrix: graphene_matrix_transform_ray gives a finite ray whose origin is within 2^-22 (|M| |o| + |translation|) + 2^-146 of the exact image of the origin, and whose direction is within 2^-21 |M||d| / |M d| + 2^-19 of the exact direction of M d, whenever |M d| is between 2^-10 and 2^50 and at least 2^-20 |M||d|; hence every point of the original ray is mapped by the exact matrix to within (origin error) + s (direction error) of the corresponding point of the new ray, s being its distance along it. graphene_plane_transform with a normal matrix gives, under the same condition on the normal matrix, a unit normal within that bound of the exact direction and a constant that puts the plane through the image of the foot of the original plane up to 1.5 (normal error) (|M||foot| + |translation|) + 2^-85; every point of the original plane is mapped to within an explicit distance of the new plane, made of these errors, the defect of the given normal matrix and the departure of the plane's normal from unit length; without a normal matrix the transposed computed inverse is used, whose defect is bounded by the entrywise error of the inverse (C83) for affine matrices, on back ends that divide in IEEE arithmetic.", "quantifier": "all finite matrices, rays and planes in that range, all points of the ray and of the plane, all back ends with accurate estimates", "why_tests_cant": "it bounds the error over all matrices, rays, planes and points, including strongly squeezing matrices", "anchors": ["src/graphene-matrix.c: graphene_matrix_transform_ray, graphene_matrix_transform_vec3, graphene_matrix_transform_vec4, graphene_matrix_inverse, graphene_matrix_transpose", "src/graphene-plane.c: graphene_plane_transform", "src/graphene-ray.c: graphene_ray_init_from_vec3"]}
{"id": "C107", "title": "Quaternions from angles are accurate in float arithmetic", "statement": "In binary32, with sinf and cosf within 2^-23: for all finite x, y, z graphene_quaternion_init_from_radians gives finite components within 2^-19 of the exact unit quaternion of the turns by x, y and z about the axes (the one of C44). graphene_quaternion_init_from_angles gives the unit quaternion of the same angles in degrees to within 2^-19 (1 + T), T <= 500 bounding the angles in radians, and the rotation matrix that graphene_quaternion_to_matrix makes of it is within 2^-16 (1 + T) of the exact rotation in every entry.", "quantifier": "all finite angles (for degrees: up to 500 radians), all sine and cosine functions that are accurate to 2^-23", "why_tests_cant": "it bounds the rounding error over all angles, not for some", "anchors": ["src/graphene-quaternion.c: graphene_quaternion_init_from_radians, graphene_quaternion_init_from_angles, graphene_quaternion_to_matrix"]}
{"id": "C108", "title": "Normalising a quaternion and reading off its angle and axis are accurate in float arithmetic", "statement": "In binary32, for a finite quaternion whose sum of squares S is in the normalisation range: every component of graphene_quaternion_normalize is finite and within 2^-20 |x|/sqrt S + 2^-150 of x/sqrt S. For a quaternion within e <= 2^-18 of a unit quaternion Q whose vector part has length s >= 2^-6, with acosf within 2^-22 on [-1, 1], graphene_quaternion_to_angle_vec3 gives a finite angle within (7 e + 2^-18)/s (radians) of the exact 2 acos w, and an axis whose components are finite and within (7 e + 40/2^24)/s^2 of the exact unit axis. Hence converting an angle between 0 and 360 degrees and an axis to a quaternion and back gives the angle to within 2^-15/s radians and the unit axis to within 2^-15/s^2, s = sin (angle/2) >= 2^-6.", "quantifier": "all finite quaternions in range, all angles and axes, all back ends with accurate estimates, all accurate sine, cosine and arc cosine functions", "why_tests_cant": "it bounds the rounding error over all quaternions, angles and axes and over every admissible estimate instruction and math library", "anchors": ["src/graphene-quaternion.c: graphene_quaternion_normalize, graphene_quaternion_to_angle_vec3, graphene_quaternion_init_from_angle_vec3"]}
{"id": "C109", "title": "The angle of a quaternion is a number on the dividing back ends, and need not be on SSE", "statement": "On the back ends that compute a reciprocal square root as 1/sqrtf (x) (portable and GCC vectors), normalising any finite quaternion whose sum of squares is at least 2^-44 (even one whose squares overflow) gives components in [-1, 1] exactly, never one ulp above; so graphene_quaternion_to_angle_vec3 takes acosf of a number in its domain and, if acosf is within 2^-22 there, the angle is finite and between -0.001 and 360.001 degrees. On the SSE back end this fails for an estimate instruction within its documented error: the quaternion (0, 0, 0, 8389633/2^24) normalises to w = 1 + 2^-23, whose acosf is NaN, and so is the angle.", "quantifier": "all finite quaternions in range, all math libraries; on SSE one admissible estimate function and one quaternion", "why_tests_cant": "a result one ulp above 1 occurs only for particular quaternions, so its absence must hold for all of them", "anchors": ["src/graphene-quaternion.c: graphene_quaternion_to_angle_vec3, graphene_quaternion_normalize", "src/graphene-simd4f.c: graphene_simd4f_rsqrt", "include/graphene-simd4f.h: graphene_simd4f_rsqrt"]}
{"id": "C11", "title": "Rectangle containment means the closed rectangle", "statement": "In exact arithmetic rect_contains_point(r,p) iff p lies in the closed rectangle spanned by (x,y) and (x+w,y+h), whatever the signs of w and h; in binary32 the four corners reported by the getters and the origin are contained for finite rects.", "quantifier": "all real rects and points; all finite binary32 rects", "why_tests_cant": "boundary points and negative sizes for every rect", "anchors": ["src/graphene-rect.c:graphene_rect_contains_point", "src/graphene-rect.c:graphene_rect_get_top_right"]}
{"id": "C110", "title": "Components of a normalised vector never exceed 1 on the dividing back ends", "statement": "On the back ends that compute a reciprocal square root as 1/sqrtf (x) (portable and GCC vectors), graphene_vec2_normalize, graphene_vec3_normalize and graphene_vec4_normalize give, for every finite vector of any size (zero, subnormal, or so large that its squares overflow), finite components that are exactly in [-1, 1], so that acosf and asinf of them are defined. On the SSE back end this fails for an estimate instruction within its documented error: (8389633/2^24, 0, 0) normalises to 1 + 2^-23.", "quantifier": "all finite vectors of two, three and four components; on SSE one admissible estimate function and one vector", "why_tests_cant": "a result one ulp above 1 occurs only for particular vectors, so its absence must hold for all of them", "anchors": ["src/graphene-vectors.c: graphene_vec2_normalize, graphene_vec3_normalize, graphene_vec4_normalize", "src/graphene-simd4f.c: graphene_simd4f_rsqrt", "include/graphene-simd4f.h: graphene_simd4f_rsqrt"]}
{"id": "C111", "title": "The angles about the axes read off a quaternion are accurate in float arithmetic", "statement": "For a library whose asinf and atan2f are within 2^-22, and a quaternion whose components are within e <= 2^-16 of those of a unit quaternion Q whose pitch has cosine c >= 1/64, graphene_quaternion_to_radians gives three finite angles within (12 e + 20/2^24)/c of three exact angles that together describe the rotation of Q, with the pitch strictly between -90 and 90 degrees and the other two at most pi + 2^-22 in size; graphene_quaternion_to_angles gives them in degrees to within (12 e + 28/2^24)/c radians. Reading back angles put in with graphene_quaternion_init_from_angles (up to 177 degrees about x and z, and that far from gimbal lock about y) gives the same angles to within 2^-13/c radians.", "quantifier": "all quaternions near a unit quaternion away from gimbal lock, all library functions of the stated accuracy; for the round trip all triples of degrees in the stated range with accurate sinf and cosf too", "why_tests_cant": "the error depends on the distance from gimbal lock and from the cut of atan2f, so a bound must be shown for a continuum of rotations and every library", "anchors": ["src/graphene-quaternion.c: graphene_quaternion_to_radians, graphene_quaternion_to_angles, graphene_quaternion_init_from_angles", "src/graphene-private.h: CLAMP"]}
{"id": "C112", "title": "Euler angles read off a rotation matrix are accurate in float arithmetic", "statement": "For a library whose atan2f is within 2^-22, every order whose first and third axes differ, and a matrix whose upper-left entries are within e <= 2^-16 of those of an exact rotation whose middle turn has cosine w >= 1/64 (and that is not taken for the identity), graphene_euler_init_from_matrix gives angles within (10 e + 18/2^24)/w radians of three exact angles that compose, in that order, to the rotation. For the orders X, Y, Z (static), graphene_euler_to_matrix of the result is within (51 e + 72/2^24)/w of the rotation, entry by entry.", "quantifier": "all rotations away from gimbal lock, all float matrices near them, all orders without a repeated axis, all libraries of the stated accuracy", "why_tests_cant": "the bound must hold over a continuum of rotations, every rounding and every admissible library", "anchors": ["src/graphene-euler.c: graphene_euler_init_from_matrix, matrix_to_euler, graphene_euler_to_matrix, graphene_euler_get_x, graphene_euler_get_y, graphene_euler_get_z"]}
{"id": "C113", "title": "Euler angles of a quaternion are accurate in float arithmetic in every order", "statement": "For a library whose atan2f is within 2^-22, every order whose first and third axes differ, and a quaternion whose components are within e <= 2^-19 of those of a unit quaternion Q whose rotation's middle turn has cosine w >= 1/64 (and whose matrix is not taken for the identity), graphene_euler_init_from_quaternion gives angles within (60 e + 148/2^24)/w radians of three exact angles that, composed in that order, turn every vector as Q does.", "quantifier": "all unit quaternions away from gimbal lock, all float quaternions near them, all orders without a repeated axis, all libraries of the stated accuracy", "why_tests_cant": "the bound must hold over a continuum of rotations, every rounding and every admissible library", "anchors": ["src/graphene-euler.c: graphene_euler_init_from_quaternion, matrix_to_euler, graphene_euler_get_x, graphene_euler_get_y, graphene_euler_get_z", "src/graphene-quaternion.c: graphene_quaternion_to_matrix"]}
{"id": "C114", "title": "Accumulating rotations with renormalisation never loses the length, and drifts at most linearly", "statement": "Start from a quaternion of length between 1/16 and 16, and any number n >= 1 of times multiply it (graphene_quaternion_multiply) by a step of length between 1/16 and 16 and normalise the product (graphene_quaternion_normalize). After any number of steps, with no limit on n, every component is finite, the length is within 2^-19 of 1, and the quaternion is within (53 n + 17)/2^24 of the exact composition of the unit quaternions in the directions of the start and of the steps; so with d that bound every vector is turned to within (2 + d) d of its length of its exact image. On every back end, with the accuracy the Intel and ARM manuals give for the estimate instructions.", "quantifier": "all starting quaternions, all finite sequences of steps of any length, all back ends with estimates of the documented accuracy", "why_tests_cant": "the length bound is an invariant of unboundedly many steps; a test follows a few chains on one machine", "anchors": ["src/graphene-quaternion.c: graphene_quaternion_multiply, graphene_quaternion_normalize"]}
{"id": "C115", "title": "Adding up any number of moves drifts by at most the rounding of each, in any order, there and back", "statement": "Add and subtract any number n of vectors to a vec2, vec3 or vec4 one after the other (graphene_vecN_add, graphene_vecN_subtract). Component by component, the result is finite and within ((1 + 2^-24)^n - 1) S of the exact sum, where S is the sum of the absolute values of the start and of every move, as long as (1 + 2^-24)^n S <= 2^127; up to eight million moves that factor is at most 2 n 2^-24. So adding the moves in another order changes the result by at most twice as much, and after undoing every move, in any order, it is back within the bound for 2n moves. The origin of a rectangle with non-negative size, moved n times by graphene_rect_offset, obeys the same bound and its size keeps every bit.", "quantifier": "all starting points, all finite sequences of moves of any length and all their reorderings, on every back end", "why_tests_cant": "the claim is over all sequences of every length and all their permutations", "anchors": ["src/graphene-vectors.c: graphene_vec2_add, graphene_vec2_subtract, graphene_vec3_add, graphene_vec3_subtract, graphene_vec4_add, graphene_vec4_subtract", "src/graphene-rect.c: graphene_rect_offset"]}
{"id": "C116", "title": "Easing towards a target never overshoots, never turns back, and arrives", "statement": "Move a point, size or 3D point repeatedly part of the way to a fixed target with graphene_point_interpolate, graphene_size_interpolate or graphene_point3d_interpolate, with any sequence of factors in [0, 1]. Component by component: the result is always between the start and the target, and between any earlier state and the target, so the distance to the target never grows. If every factor is at least tau > 0, then after n steps, for components of size at most M <= 2^126, the distance to the target is at most (1 - tau)^n times the initial distance plus (2^-23 M + 2^-149)/tau.", "quantifier": "all finite starts and targets, all finite sequences of factors of any length", "why_tests_cant": "monotonicity and the rate of arrival are claims about every step of every sequence of factors, through every rounding", "anchors": ["src/graphene-point.c: graphene_point_interpolate", "src/graphene-size.c: graphene_size_interpolate", "src/graphene-point3d.c: graphene_point3d_interpolate", "src/graphene-private.h: graphene_flerpf"]}
{"id": "C117", "title": "Accumulating the union of any number of rectangles covers them all, up to a rounding each", "statement": "Take the union of a rectangle with n >= 1 others, one after the other (graphene_rect_union), as a toolkit accumulates damage; every rectangle may have either sign of width and height, with |x| + |w| and |y| + |h| at most M <= 2^121, and n <= 65536. Each edge of the result is within n 2^-19 M of the extreme edge of all the rectangles, its size is finite and not negative, and so it contains every one of them when widened by as much.", "quantifier": "all sequences of up to 65536 finite rectangles, in every sign convention", "why_tests_cant": "the claim is about every sequence of rectangles and every rounding along the way", "anchors": ["src/graphene-rect.c: graphene_rect_union, graphene_rect_normalize_in_place"]}
{"id": "C12", "title": "Union is the least rectangle containing both", "statement": "In exact arithmetic the union contains every point of either rect and is contained in every rect that contains both; union is commutative, idempotent and associative. In binary32 the union's origin is never right of or below a contained point's, but the far edge can exclude points (witness).", "quantifier": "all real rects and points", "why_tests_cant": "least upper bound over all rects", "anchors": ["src/graphene-rect.c:graphene_rect_union"]}
{"id": "C13", "title": "Intersection contains exactly the common points", "statement": "In exact arithmetic rect_intersection returns true iff the open interiors meet, then res contains exactly the points contained in both; when it returns false res is the zero rect.", "quantifier": "all real rects and points", "why_tests_cant": "set equality over all points", "anchors": ["src/graphene-rect.c:graphene_rect_intersection"]}
{"id": "C14", "title": "round_extents and round give integral rectangles; round_extents covers the original", "statement": "rect_round_extents has integer coordinates and contains every point of the original, and no smaller integral rect does (exact arithmetic); in binary32 it still covers the original when every edge is at most 2^23 in magnitude, and a witness shows it need not beyond 2^24.", "quantifier": "all real rects; all binary32 rects with moderate coordinates", "why_tests_cant": "pixel-boundary rounding for every rect", "anchors": ["src/graphene-rect.c:graphene_rect_round_extents", "src/graphene-rect.c:graphene_rect_round"]}
{"id": "C15", "title": "Inset, offset, expand and scale do what they say", "statement": "In exact arithmetic: offset moves every contained point by the delta and nothing else; inset by d shrinks each side by d (clamping at zero size); inset(-d) after inset(d) restores the rect when it did not clamp; expand is the least rect containing the rect and the point; scaling multiplies every contained point.", "quantifier": "all real rects, deltas and factors", "why_tests_cant": "laws over all reals", "anchors": ["src/graphene-rect.c:graphene_rect_inset", "src/graphene-rect.c:graphene_rect_offset", "src/graphene-rect.c:graphene_rect_expand", "src/graphene-rect.c:graphene_rect_scale"]}
{"id": "C16", "title": "rect_contains_rect agrees with point containment up to epsilon", "statement": "In exact arithmetic contains_rect(a,b) iff the union of a and b differs from a by less than FLT_EPSILON in each field; hence if every point of b is in a the answer is true, it is reflexive, and a true answer bounds how far b sticks out. In binary32 it is not reflexive (witness x=1e8, w=1).", "quantifier": "all real rect pairs", "why_tests_cant": "fuzzy set inclusion over all pairs", "anchors": ["src/graphene-rect.c:graphene_rect_contains_rect", "src/graphene-rect.c:graphene_rect_equal"]}
{"id": "C17", "title": "A box built from points is the least box containing them", "statement": "For any array of NaN-free points (any length, infinities allowed), box_init_from_points / init_from_vectors contains every one of them and is contained in every box that contains them all; the result does not depend on the order of the points.", "quantifier": "every list of binary32 points of any length, every back end", "why_tests_cant": "unbounded list length and all floats", "anchors": ["src/graphene-box.c:graphene_box_init_from_points", "src/graphene-box.c:graphene_box_init_from_vectors", "src/graphene-box.c:graphene_box_expand"]}
{"id": "C18", "title": "Box union, intersection and containment form a lattice of point sets", "statement": "For NaN-free boxes built by the API: a point is in intersection(a,b) iff it is in both; intersection returns false iff no point is in both; union contains the points of both and is the least such box; contains_box(a,b) with b non-degenerate iff every point of b is in a.", "quantifier": "all binary32 boxes and points without NaN, every back end", "why_tests_cant": "set-theoretic laws over all boxes and points", "anchors": ["src/graphene-box.c:graphene_box_union", "src/graphene-box.c:graphene_box_intersection", "src/graphene-box.c:graphene_box_contains_box", "src/graphene-box.c:graphene_box_contains_point"]}
{"id": "C19", "title": "Empty and infinite boxes are the lattice's extremes", "statement": "The empty box contains no point and the infinite box every point (NaN included); union with empty and intersection with infinite are identities; every non-infinite box contains the empty one. contains_box(infinite, infinite) and contains_box(empty, empty) are false although the boxes are equal.", "quantifier": "all points and boxes", "why_tests_cant": "all boxes and points", "anchors": ["src/graphene-box.c:graphene_box_empty", "src/graphene-box.c:graphene_box_infinite", "src/graphene-box.c:graphene_box_contains_box"]}
{"id": "C20", "title": "Centre, size and vertices of a box", "statement": "The eight vertices of a NaN-free non-empty box are contained in it and the box built from them is the same box; the centre is inside the box unless min+max overflows; bounding sphere of a box contains it (exact arithmetic).", "quantifier": "all binary32 boxes with min <= max", "why_tests_cant": "rounding of every box", "anchors": ["src/graphene-box.c:graphene_box_get_center", "src/graphene-box.c:graphene_box_get_vertices", "src/graphene-box.c:graphene_box_get_bounding_sphere"]}
{"id": "C21", "title": "Expanding a box by a scalar", "statement": "expand_scalar with a scalar >= 0 keeps every contained point contained (binary32), and in exact arithmetic contains exactly the points within that Chebyshev distance. With a negative scalar the result contains no point at all because the hidden fourth lane is shrunk too.", "quantifier": "all binary32 boxes and scalars", "why_tests_cant": "all boxes and scalars", "anchors": ["src/graphene-box.c:graphene_box_expand_scalar"]}
{"id": "C22", "title": "box2d mirrors the 3D box lattice", "statement": "For NaN-free 2D boxes: a box built from points or vectors is the least box containing them, in any order; intersection holds exactly the common points and reports whether there are any; intersects gives the same answer; union is the least box with both; contains_box and contains_rect (non-negative size) are point-set inclusion; empty and infinite are the extremes except that neither contains itself; expanding by a non-negative scalar never loses a point; the vertices and the centre are in the box; a box built from a finite rectangle of non-negative size has exactly its points (a negative width gives an empty box); equality is reflexive on finite boxes and symmetric. In exact arithmetic to_rect and init_from_rect are inverse, expand_scalar moves each edge by the scalar, and scale_offset with a positive scale maps the box's points (a negative scale gives an empty box).", "quantifier": "all binary32 box2d values and points without NaN, every back end", "why_tests_cant": "all floats times four back ends", "anchors": ["src/graphene-box2d.c:graphene_box2d_intersection", "include/graphene-box2d.h:graphene_box2d_intersects", "src/graphene-box2d.c:graphene_box2d_contains_box"]}
{"id": "C23", "title": "Transforming a box is conservative", "statement": "For any finite matrix and box whose corner images are NaN-free, the image under transform_point3d of every point of the box lies (bit-accurate rounding included) within the min/max of matrix_transform_box, and box_contains_point accepts it. The hidden fourth lane of the result is not zero, so contains_box rejects the transformed box even in the box it equals (witness).", "quantifier": "all finite binary32 matrices, boxes and points, every back end", "why_tests_cant": "rounding of every matrix/box/point triple; a culling decision based on it must never lose a point", "anchors": ["src/graphene-matrix.c:graphene_matrix_transform_box", "src/graphene-matrix.c:graphene_matrix_transform_point3d"]}
{"id": "C24", "title": "Transforming a rect's bounds is conservative", "statement": "For any affine matrix, transform_bounds contains the image of every point of the rect, and is the least rect that does, in exact arithmetic; transform_rect's quad has the corner images as vertices. In binary32, for finite matrices and corners whose images are not NaN, the left and top edges never cut off the image of a contained point; the right edge can (witness).", "quantifier": "all real matrices, rects and points; all finite binary32 for the near edges", "why_tests_cant": "all triples", "anchors": ["src/graphene-matrix.c:graphene_matrix_transform_bounds", "src/graphene-matrix.c:graphene_matrix_transform_rect", "src/graphene-matrix.c:graphene_matrix_transform_point"]}
{"id": "C25", "title": "Matrix multiplication composes transformations", "statement": "In exact arithmetic multiply is associative with the identity as neutral element, and transforming by multiply(a,b) equals transforming by a and then by b, for vec4, vec3 and (affine) points.", "quantifier": "all real 4x4 matrices and vectors, all back ends", "why_tests_cant": "algebraic law over 32+ reals", "anchors": ["src/graphene-matrix.c:graphene_matrix_multiply", "src/graphene-matrix.c:graphene_matrix_transform_vec4", "src/graphene-matrix.c:graphene_matrix_transform_point3d"]}
{"id": "C26", "title": "Transposition", "statement": "transpose is an involution moving entry (i,j) to (j,i) bit for bit; transpose(ab) = transpose(b)transpose(a) in exact arithmetic.", "quantifier": "all binary32 matrices; all real matrices", "why_tests_cant": "all matrices", "anchors": ["src/graphene-matrix.c:graphene_matrix_transpose", "include/graphene-simd4x4f.h:graphene_simd4x4f_transpose_in_place"]}
{"id": "C27", "title": "The determinant, up to its sign", "statement": "In exact arithmetic, on every back end, graphene_matrix_determinant returns MINUS the Leibniz determinant of the entries (so -1 for the identity: the documented value is refuted by a witness); hence up to that sign it is multiplicative and invariant under transposition, and is_singular answers |det| <= FLT_EPSILON.", "quantifier": "all real matrices", "why_tests_cant": "SIMD shuffles encode 24 signed products; a wrong lane hides from tests with many zeros", "anchors": ["src/graphene-matrix.c:graphene_matrix_determinant", "include/graphene-simd4x4f.h:graphene_simd4x4f_determinant"]}
{"id": "C28", "title": "The inverse is the inverse", "statement": "In exact arithmetic matrix_inverse succeeds iff |det| >= FLT_EPSILON and then (scalar back end: |det| > FLT_EPSILON) res is a two-sided inverse that undoes every transformation, so a matrix that is not singular is inverted; at |det| = FLT_EPSILON the scalar back end reports success and stores the zero matrix (witness).", "quantifier": "all real matrices", "why_tests_cant": "all matrices; one wrong cofactor lane breaks it for generic inputs only", "anchors": ["src/graphene-matrix.c:graphene_matrix_inverse", "include/graphene-simd4x4f.h:graphene_simd4x4f_inverse", "src/graphene-matrix.c:graphene_matrix_is_singular"]}
{"id": "C29", "title": "translate, scale, skew and rotate append to the matrix", "statement": "In exact arithmetic transforming a point by matrix_translate(m,d) (scale, rotate) is transforming by m and then translating (scaling, rotating); translations add, scales multiply; get_*_translation reads it back.", "quantifier": "all real affine matrices, points, deltas", "why_tests_cant": "all reals", "anchors": ["src/graphene-matrix.c:graphene_matrix_translate", "src/graphene-matrix.c:graphene_matrix_scale", "src/graphene-matrix.c:graphene_matrix_rotate", "src/graphene-matrix.c:graphene_matrix_skew_xy"]}
{"id": "C30", "title": "Rotations are rotations", "statement": "init_rotate by any angle about any axis longer than the normalisation threshold is orthogonal with determinant one, fixes the axis, preserves lengths and dot products, and equals Rodrigues' formula (right-hand rule); rotations about one axis add their angles.", "quantifier": "all real angles and axes", "why_tests_cant": "trigonometric identities over the continuum", "anchors": ["src/graphene-matrix.c:graphene_matrix_init_rotate", "src/graphene-matrix.c:graphene_matrix_rotate_x", "include/graphene-simd4x4f.h:graphene_simd4x4f_rotation"]}
{"id": "C31", "title": "Projection matrices map their view volume to the NDC cube", "statement": "In exact arithmetic the matrix of init_frustum / init_perspective maps a point inside its frustum (and only those) into clip space -w<=x,y,z<=w, and init_ortho maps its box onto [-1,1]^3 (with the arguments graphene_matrix_init_ortho names top and bottom exchanged: the documented top edge lands on y=-1).", "quantifier": "all real non-degenerate volumes and points", "why_tests_cant": "all volumes and points", "anchors": ["src/graphene-matrix.c:graphene_matrix_init_frustum", "src/graphene-matrix.c:graphene_matrix_init_perspective", "src/graphene-matrix.c:graphene_matrix_init_ortho"]}
{"id": "C32", "title": "look_at builds an orthonormal frame", "statement": "For eye, centre, up in general position (exact arithmetic) look_at's upper 3x3 block is a rotation whose third row points from centre to eye; the translation row is -eye, so the eye itself is not mapped to the origin unless the frame is axis aligned (witness).", "quantifier": "all real eye/center/up in general position", "why_tests_cant": "continuum with thresholds", "anchors": ["src/graphene-matrix.c:graphene_matrix_init_look_at", "include/graphene-simd4x4f.h:graphene_simd4x4f_init_look_at"]}
{"id": "C33", "title": "2D affine matrices round-trip", "statement": "to_2d(init_from_2d(xx,yx,xy,yy,x0,y0)) succeeds and returns each value rounded to float, for every six doubles; values already representable as float come back exactly.", "quantifier": "all binary64 sextuples, all back ends", "why_tests_cant": "all doubles", "anchors": ["src/graphene-matrix.c:graphene_matrix_init_from_2d", "src/graphene-matrix.c:graphene_matrix_to_2d"]}
{"id": "C34", "title": "Matrix entries are addressable", "statement": "init_from_float/to_float, init_from_vec4/get_row and get_value agree on the row-major layout for all entries; out-of-range indices yield zero, never an out-of-bounds read.", "quantifier": "all binary32 matrices and all unsigned indices", "why_tests_cant": "all indices and matrices", "anchors": ["src/graphene-matrix.c:graphene_matrix_get_value", "src/graphene-matrix.c:graphene_matrix_get_row", "src/graphene-matrix.c:graphene_matrix_init_from_float", "src/graphene-matrix.c:graphene_matrix_to_float"]}
{"id": "C35", "title": "Transforming a sphere", "statement": "When the matrix's upper 3x3 rows are mutually orthogonal, the transformed sphere contains the image of every point of the sphere (exact arithmetic); a witness shows a shear breaks it.", "quantifier": "all real matrices with orthogonal rows", "why_tests_cant": "all matrices and points", "anchors": ["src/graphene-matrix.c:graphene_matrix_transform_sphere"]}
{"id": "C36", "title": "untransform_point inverts transform_point for 2D matrices", "statement": "For an invertible (|det| >= FLT_EPSILON) matrix that is_2d with exact zero/one entries, untransform_point(transform_point(p)) = p in exact arithmetic; it fails exactly when the inverse does.", "quantifier": "all real 2D affine matrices and points", "why_tests_cant": "all reals", "anchors": ["src/graphene-matrix.c:graphene_matrix_untransform_point", "src/graphene-matrix.c:graphene_matrix_untransform_bounds"]}
{"id": "C37", "title": "unproject inverts the projection", "statement": "With an identity modelview, unproject_point3d(projection, I, p) maps the NDC point of any q with non-zero clip w back to q; with a non-identity modelview it multiplies by the modelview instead of its inverse (witness).", "quantifier": "all real invertible projections and points", "why_tests_cant": "all reals", "anchors": ["src/graphene-matrix.c:graphene_matrix_unproject_point3d"]}
{"id": "C38", "title": "Matrix equality", "statement": "matrix_equal_fast implies matrix_equal for finite matrices; equal and near are symmetric and, on finite matrices, reflexive; a positive near answer bounds the difference of every pair of entries by epsilon. Signed zeros separate equal_fast from equal, and a matrix holding an infinity is not equal to its copy (witnesses).", "quantifier": "all binary32 matrix pairs", "why_tests_cant": "2^1024 pairs", "anchors": ["src/graphene-matrix.c:graphene_matrix_equal", "src/graphene-matrix.c:graphene_matrix_equal_fast", "src/graphene-matrix.c:graphene_matrix_near"]}
{"id": "C39", "title": "Decomposition recomposes", "statement": "In exact arithmetic matrix_decompose answers false exactly when the 2D determinant (for a 2D matrix), or the homogeneous scale or the determinant of the normalised 3x3 part (otherwise), is below FLT_EPSILON. For a 3D affine matrix it returns scale, shear, rotation and translation such that scaling, shearing, rotating and translating by them gives the matrix back, unless the rotation is a half turn; they are the only such parts with positive scales, and mirrored matrices get three negative scales. Refuted parts: half turns (the rotation loses the signs of its axis), 2D matrices (the rotation returned is the opposite one, the z scale is 0) and projective matrices (the perspective vector solves the transposed system).", "quantifier": "all real matrices; all affine matrices with determinant above FLT_EPSILON; all back ends", "why_tests_cant": "Gram-Schmidt over the continuum", "anchors": ["src/graphene-matrix.c:graphene_matrix_decompose"]}
{"id": "C40", "title": "Matrix predicates", "statement": "is_identity accepts the identity and only matrices whose entries are within the documented tolerance of it; is_2d accepts every init_from_2d matrix; is_2d also accepts matrices with |z.z|>=1 or |w.w|>=1 (witness).", "quantifier": "all matrices", "why_tests_cant": "all entries", "anchors": ["src/graphene-matrix.c:graphene_matrix_is_identity", "src/graphene-matrix.c:graphene_matrix_is_2d", "src/graphene-matrix.c:graphene_matrix_is_backface_visible"]}
{"id": "C41", "title": "Quaternion product composes rotations", "statement": "In exact arithmetic quaternion multiplication is associative with identity neutral, multiplies norms, conjugate gives inverse; for unit quaternions to_matrix is a rotation and to_matrix(a*b) = to_matrix(b)*to_matrix(a) as graphene row-vector matrices.", "quantifier": "all real quaternions", "why_tests_cant": "all reals", "anchors": ["src/graphene-quaternion.c:graphene_quaternion_multiply", "src/graphene-quaternion.c:graphene_quaternion_to_matrix", "src/graphene-quaternion.c:graphene_quaternion_invert"]}
{"id": "C42", "title": "Quaternion to matrix and back", "statement": "For every unit quaternion with w != 0, init_from_matrix(to_matrix(q)) is q or -q (the one with positive w), and for every rotation matrix with trace > -1, to_matrix(init_from_matrix(m)) = m. For a half turn (w = 0) the result is the quaternion of the absolute values of the axis, which for an axis of mixed signs is a different rotation (witness).", "quantifier": "all real unit quaternions", "why_tests_cant": "all unit quaternions", "anchors": ["src/graphene-quaternion.c:graphene_quaternion_init_from_matrix", "src/graphene-quaternion.c:graphene_quaternion_to_matrix"]}
{"id": "C43", "title": "slerp", "statement": "In exact arithmetic, for unit quaternions a, b with |a.b| <= 1 - FLT_EPSILON, slerp has unit norm for every factor, returns a (up to sign) at factor 0 and b at 1, and the angle it has moved from a grows linearly with the factor along the short way round. Closer inputs return a.", "quantifier": "all real unit quaternion pairs and factors", "why_tests_cant": "continuum", "anchors": ["src/graphene-quaternion.c:graphene_quaternion_slerp"]}
{"id": "C44", "title": "Euler angles to quaternion and back", "statement": "init_from_radians gives a unit quaternion for every triple of angles, equal to the product of the three axis rotations; to_radians inverts it on the principal range.", "quantifier": "all real angle triples", "why_tests_cant": "trigonometric identities", "anchors": ["src/graphene-quaternion.c:graphene_quaternion_init_from_radians", "src/graphene-quaternion.c:graphene_quaternion_to_radians", "src/graphene-quaternion.c:graphene_quaternion_init_from_angles"]}
{"id": "C45", "title": "Axis-angle quaternions agree with rotation matrices", "statement": "to_matrix(init_from_angle_vec3(angle, axis)) = matrix_init_rotate(angle, axis) in exact arithmetic; to_angle_vec3 recovers angle and axis whenever the vector part is at least 1/19999 long.", "quantifier": "all real angles and axes", "why_tests_cant": "continuum", "anchors": ["src/graphene-quaternion.c:graphene_quaternion_init_from_angle_vec3", "src/graphene-quaternion.c:graphene_quaternion_to_angle_vec3", "src/graphene-matrix.c:graphene_matrix_init_rotate"]}
{"id": "C46", "title": "Quaternion equality", "statement": "In binary32 quaternion_equal is symmetric and reflexive on finite values; it accepts exactly (up to the neighbouring float of 0.00001) quaternions whose components are within 0.00001 of each other or of the conjugate. So it accepts a quaternion and its conjugate, which are opposite rotations (witness), and rejects q and -q, which are the same rotation (witness).", "quantifier": "all binary32 quaternion pairs", "why_tests_cant": "all pairs", "anchors": ["src/graphene-quaternion.c:graphene_quaternion_equal"]}
{"id": "C47", "title": "euler_to_matrix is the product of three axis rotations", "statement": "For each of the 24 real orders (and the default and deprecated names), in exact arithmetic euler_to_matrix is a rotation matrix, equal to the product of the axis rotations in the named order by the angle stored for each axis (an order that repeats an axis uses that axis's angle twice and ignores the third angle); the same from degrees.", "quantifier": "all real angles, all 24 orders", "why_tests_cant": "24 orders times a continuum of angles", "anchors": ["src/graphene-euler.c:graphene_euler_to_matrix", "src/graphene-euler.c:euler_to_matrix"]}
{"id": "C48", "title": "Matrix to Euler angles and back", "statement": "For every order without a repeated axis, the three angles euler_init_from_matrix stores, applied one after the other about the named axes, give the matrix back (every rotation matrix at least 16*FLT_EPSILON away from gimbal lock, or exactly in it). For orders SXYZ and RXYZ this makes euler_to_matrix(euler_init_from_matrix(m)) = m; for every other order one of two half turns is not recovered, because the angles are stored by position and read back by axis (witnesses).", "quantifier": "all real rotation matrices", "why_tests_cant": "continuum", "anchors": ["src/graphene-euler.c:graphene_euler_init_from_matrix", "src/graphene-euler.c:matrix_to_euler"]}
{"id": "C49", "title": "Euler angles to quaternion agrees with Euler angles to matrix", "statement": "For orders SXYZ and RZYX (and the default), euler_to_quaternion is the unit quaternion of the rotation euler_to_matrix gives, for all angles; for every other order the angles (90, 90, 180) give different rotations (witness). euler_reorder keeps the rotation from those orders to SXYZ and RXYZ, and loses it for every other target order (witnesses).", "quantifier": "all real angles", "why_tests_cant": "continuum", "anchors": ["src/graphene-euler.c:graphene_euler_to_quaternion", "src/graphene-euler.c:graphene_euler_reorder"]}
{"id": "C50", "title": "Planes", "statement": "In exact arithmetic: plane_distance(p) is n.p+c; plane_init_from_point contains the point and the plane through it orthogonal to the normal; plane_init_from_points has a unit normal and contains the three points (when their cross product is longer than FLT_EPSILON); plane_normalize keeps the zero set and makes |distance| the Euclidean distance; negate flips the sign of distance; transform of a unit-normal plane by an invertible affine matrix maps exactly the plane's points to the new plane's points. Shown false: collinear points (plane containing everything or nothing useful), normalize of a normal of length <= FLT_EPSILON, transform of a plane whose normal is not unit.", "quantifier": "all real planes, points, matrices", "why_tests_cant": "continuum", "anchors": ["src/graphene-plane.c:graphene_plane_init_from_points", "src/graphene-plane.c:graphene_plane_normalize", "src/graphene-plane.c:graphene_plane_distance", "src/graphene-plane.c:graphene_plane_transform"]}
{"id": "C51", "title": "Spheres", "statement": "In exact arithmetic: contains_point iff distance to the centre <= radius (radius >= 0); distance is |p-c|-r; a sphere built from any number of points contains them all and its radius is the distance of one of them; its bounding box is the smallest box containing the sphere; translate moves the centre. Shown false: a negative radius is treated like its absolute value by contains_point; box_contains_box rejects a sphere's bounding box inside an API-built box because expand_scalar widens the hidden lane; translate leaves the radius of *res as it was.", "quantifier": "all real spheres, points, lists of points of any length", "why_tests_cant": "unbounded lists", "anchors": ["src/graphene-sphere.c:graphene_sphere_init_from_points", "src/graphene-sphere.c:graphene_sphere_contains_point", "src/graphene-sphere.c:graphene_sphere_get_bounding_box", "src/graphene-sphere.c:graphene_sphere_translate"]}
{"id": "C52", "title": "Triangles", "statement": "In exact arithmetic: area is half the parallelogram's; the normal is the unit cross product; barycentric coordinates are those of the orthogonal projection, reproduce every coplanar point and are refused exactly for degenerate triangles; contains_point accepts exactly the points whose projection has u,v >= 0, u+v < 1 (so vertices b and c are not contained); midpoint is the centroid and is contained; get_uv interpolates the vertex UVs affinely; get_plane contains the vertices. Bit-accurate: get_bounding_box contains the three vertices and is contained in every box that does.", "quantifier": "all real triangles and points", "why_tests_cant": "continuum", "anchors": ["src/graphene-triangle.c:graphene_triangle_get_barycoords", "src/graphene-triangle.c:graphene_triangle_contains_point", "src/graphene-triangle.c:graphene_triangle_get_uv", "src/graphene-triangle.c:graphene_triangle_get_bounding_box"]}
{"id": "C53", "title": "Rays: nearest point and distances", "statement": "In exact arithmetic, for a unit direction: get_position_at(t) is on the ray; closest_point_to_point is on the ray and no point of the ray is nearer; distance_to_point is its distance; distance_to_plane is the parameter of the intersection, or infinity when there is none.", "quantifier": "all real rays, points, planes", "why_tests_cant": "optimisation over a continuum", "anchors": ["src/graphene-ray.c:graphene_ray_get_closest_point_to_point", "src/graphene-ray.c:graphene_ray_get_distance_to_point", "src/graphene-ray.c:graphene_ray_get_distance_to_plane"]}
{"id": "C54", "title": "Ray-sphere intersection is sound and complete", "statement": "In exact arithmetic, for a unit direction and radius >= 0: a hit is reported iff some t >= 0 puts the ray on the sphere's boundary; ENTER: the origin is not strictly inside and t_out is the least such t; LEAVE: the origin is in the ball and t_out is the only such t; NONE: t_out is 0.", "quantifier": "all real rays and spheres", "why_tests_cant": "continuum", "anchors": ["src/graphene-ray.c:graphene_ray_intersect_sphere"]}
{"id": "C55", "title": "Ray-box intersection is sound and complete", "statement": "When every direction component is zero (with an infinite reciprocal) or larger than FLT_EPSILON in modulus, and lo <= hi: a hit is reported iff some t >= 0 puts the ray in the closed box; ENTER gives the least such t, LEAVE the greatest, and then the origin is in the box; NONE gives t_out = 0. Shown false for a tiny non-zero component.", "quantifier": "all real rays and boxes under those conditions", "why_tests_cant": "continuum", "anchors": ["src/graphene-ray.c:graphene_ray_intersect_box"]}
{"id": "C56", "title": "Ray-triangle intersection is sound and complete", "statement": "When |d.N| >= FLT_EPSILON (N the cross product of the edges): a hit is reported iff some t >= 0 puts the ray in the closed triangle, t_out is that t and the only one, LEAVE iff d.N > 0; NONE leaves *t_out unwritten. Below that bound the answer is always NONE.", "quantifier": "all real rays and triangles not nearly parallel", "why_tests_cant": "continuum", "anchors": ["src/graphene-ray.c:graphene_ray_intersect_triangle"]}
{"id": "C57", "title": "Frustum culling is conservative", "statement": "frustum_intersects_box never rejects a box containing a point the frustum contains, in binary32 with every rounding and back end included; contains_point holds exactly for the points on the non-negative side of the six planes; intersects_sphere never rejects a sphere containing a contained point, in exact arithmetic, when the plane normals are unit vectors, and does reject some when they are not; the frustum of a matrix has unit normals and contains exactly the points whose clip coordinates satisfy -w<=x,y,z<=w (exact arithmetic, clip planes with normals longer than FLT_EPSILON).", "quantifier": "all binary32 frusta, boxes and points; all real ones for spheres and matrices", "why_tests_cant": "culling must never drop a visible point for any input", "anchors": ["src/graphene-frustum.c:graphene_frustum_intersects_box", "src/graphene-frustum.c:graphene_frustum_contains_point", "src/graphene-frustum.c:graphene_frustum_intersects_sphere", "src/graphene-frustum.c:graphene_frustum_init_from_matrix"]}
{"id": "C58", "title": "Quads", "statement": "In exact arithmetic quad_contains answers whether the point is a weighted average of the vertices when the quad is strictly convex in either winding, so the quad of a rectangle with non-zero extents contains exactly the rectangle's points; the quad of an empty rectangle contains every point and a concave quad can miss its own inside points (both refuted claims); in binary32 every point the rect contains is in its quad; bounds is the smallest rectangle around the vertices (exact), and its near edges never exceed a vertex in binary32, while its far edges can fall short; get_point returns the stored vertices for indices 0..3.", "quantifier": "all rects, quads and points", "why_tests_cant": "continuum", "anchors": ["src/graphene-quad.c:graphene_quad_contains", "src/graphene-quad.c:graphene_quad_init_from_rect", "src/graphene-quad.c:graphene_quad_bounds"]}
{"id": "C59", "title": "The public simd4f operations do what their documentation says", "statement": "graphene_simd4f_* in every lane and on every back end: init, splat, merge, shuffle and zero operations move exactly the documented lanes; get of an index above 3 is 0; neg and the sign flips are exact; add, sub, mul, floor, ceil are correctly rounded; madd rounds twice, or once with FMA; sum adds pairs; sqrt is correctly rounded except on NEON; cmp_lt/le/gt/ge hold exactly when they hold in all four lanes (false on NaN) and cmp_neq is the negation of cmp_eq; cmp_eq holds exactly when all lanes are equal numbers, except on the scalar back end where it is an approximate comparison that also accepts NaN and opposite infinities (witness); min_val and max_val give the least and greatest lane in all lanes and clamp gives the value limited to the bounds, for lanes that are not NaN; is_zero2 and is_zero3 test absolute values against 2^-23, is_zero4 equality with zero.", "quantifier": "all lane values (all bit patterns), all back ends", "why_tests_cant": "all bit patterns of four lanes on every instruction set; a build has one back end", "anchors": ["include/graphene-simd4f.h:graphene_simd4f_cmp_eq", "include/graphene-simd4f.h:graphene_simd4f_madd", "include/graphene-simd4f.h:graphene_simd4f_min_val", "include/graphene-simd4f.h:graphene_simd4f_clamp", "src/graphene-simd4f.c:graphene_simd4f_get"]}
{"id": "C60", "title": "Allocation size arithmetic", "statement": "graphene_aligned_alloc(size, number, alignment) either returns no memory (NULL, or abort when assertions are on: zero size, product overflow, allocator failure) or a block with room for size*number bytes at a multiple of the alignment, disjoint from every other live block and leaving all other bytes unchanged; graphene_aligned_alloc0 also makes the whole array read 0; a product that overflows size_t is always detected. Two exceptions exhibited: with aligned_alloc/_aligned_malloc a total within `alignment` of SIZE_MAX wraps when rounded up and aligned_alloc0 then overwrites somebody else's block; with plain malloc the alignment is not met.", "quantifier": "all size_t triples", "why_tests_cant": "2^192 argument triples", "anchors": ["src/graphene-alloc.c:graphene_aligned_alloc"]}
{"id": "C61", "title": "Shared constants are initialised before anyone sees them", "statement": "For each of the 27 constant accessors (vec2/3/4, box, box2d): once a call has returned, reading through its pointer gives the documented constant for ever, in every interleaving of any number of threads. With pthread_once or InitOnceExecuteOnce the initialiser of each table is started at most once, there is never a data race on a table entry (no thread is about to write an entry that another thread can write or read), and every pending call can always be completed without new calls (no deadlock). With the plain-flag fallback this holds for a single thread; with two threads a data race and two initialiser runs are exhibited.", "quantifier": "all schedules of any number of threads and calls", "why_tests_cant": "unbounded interleavings", "anchors": ["src/graphene-vectors.c:init_static_vec3", "src/graphene-vectors.c:init_static_vec3_once", "src/graphene-box.c:init_static_box", "src/graphene-box2d.c:init_static_box"]}
{"id": "C62", "title": "Output arguments may alias inputs", "statement": "For every function with an output argument in the modelled API (vector operations, point/size/point3d arithmetic, rectangle normalize/union/intersection/offset/inset/round/expand/interpolate/scale/corners, box and box2d expand/union/intersection, quaternion arithmetic and slerp, matrix multiply/transpose/inverse/perspective/normalize/translate/skew/transform/project/unproject, plane normalize/negate, sphere translate, closest point on a ray, ray/box/quad initialisers, triangle texture coordinates), the object at the output address ends up holding the result computed from the arguments' contents before the call and no other memory changes - for every address when the code reads everything first, and otherwise whenever the output is exactly an argument or disjoint from it. The exceptions are exhibited: matrix_interpolate over its first operand, triangle_get_uv over uv_a, quad_init rotating its own points, box and ray initialised from their own swapped fields.", "quantifier": "all memory contents, all addresses (equal, disjoint or, where stated, overlapping), both number systems, every SIMD back end", "why_tests_cant": "aliasing patterns times all contents", "anchors": ["src/graphene-matrix.c:graphene_matrix_multiply", "src/graphene-rect.c:graphene_rect_union", "src/graphene-box.c:graphene_box_union", "src/graphene-matrix.c:graphene_matrix_interpolate", "src/graphene-quad.c:graphene_quad_init"]}
{"id": "C63", "title": "Equality functions treat NULL and identical pointers uniformly", "statement": "Every *_equal function returns true for identical pointers (NULL included) and false when exactly one is NULL, never dereferencing NULL, for all fourteen types.", "quantifier": "all pointer/content combinations", "why_tests_cant": "all contents", "anchors": ["src/graphene-private.h:graphene_pointer_equal"]}
{"id": "C64", "title": "All back ends compute the same exact function", "statement": "In exact arithmetic, two back ends whose reciprocal and reciprocal-square-root estimates are exact give the same answer for each vector, matrix, box, sphere, plane, triangle, frustum, ray and quaternion operation. Operations without division or square root agree for all operands; minima/maxima agree for operands that are values (not NaN); length-based operations agree on real operands; division, inversion and normalisation agree for operands the scalar back end does not treat as zero. Exact equality of a vector with a very close one and normalisation of a very short vector genuinely differ between back ends (witnesses).", "quantifier": "all operands (real or extended as stated per operation), all pairs of back ends with exact estimates", "why_tests_cant": "tests run one back end at a time", "anchors": ["include/graphene-simd4f.h:graphene_simd4f_dot3", "src/graphene-simd4f.c:graphene_simd4f_cross3"]}
{"id": "C65", "title": "Points and sizes", "statement": "point_distance, distance_squared, near and equal agree with Euclidean/Chebyshev distance in exact arithmetic; near is symmetric bit for bit; point_distance of a point with itself leaves the optional deltas unwritten; size equality and scaling are field-wise.", "quantifier": "all reals; all binary32 for symmetry", "why_tests_cant": "continuum", "anchors": ["src/graphene-point.c:graphene_point_distance", "src/graphene-point.c:graphene_point_near", "src/graphene-size.c:graphene_size_scale"]}
{"id": "C66", "title": "Normalising viewport coordinates clamps", "statement": "point3d_normalize_viewport returns coordinates in [-1,1] for every NaN-free quotient (binary32) and, inside the viewport, the affine map onto [-1,1]^3 (exact).", "quantifier": "all viewports and points", "why_tests_cant": "all floats", "anchors": ["src/graphene-point3d.c:graphene_point3d_normalize_viewport"]}
{"id": "C67", "title": "project_point projects along the transformed z axis", "statement": "In exact arithmetic, when entry (2,2) of the matrix is non-zero, matrix_project_point(m,p) is the point of the line through the images of (x,y,0) and (x,y,1) under the matrix's linear part that has z = 0; the matrix's translation row is ignored (witness: two affine matrices that differ in their translation project every point alike).", "quantifier": "all matrices with non-zero (2,2) entry, all points, all back ends", "why_tests_cant": "ranges over all real matrices and points; a test samples a few", "anchors": ["src/graphene-matrix.c:graphene_matrix_project_point"]}
{"id": "C68", "title": "Interpolation has the right endpoints only without translation", "statement": "In exact arithmetic matrix_interpolate interpolates pure translations component-wise, and for rotations with a uniform scale about the origin (2D and 3D) gives a at factor 0 and b at factor 1, turning at most half a turn. For every matrix made of scale, rotation and translation it puts the interpolated parts together in the opposite order, so interpolating a scaled or rotated and translated matrix with itself changes it (witnesses in 2D and 3D). If both decompositions fail the result is the identity; if exactly one fails the function reads uninitialised variables.", "quantifier": "all factors, translations, rotations, uniform scales; all back ends", "why_tests_cant": "ranges over all real matrices and factors", "anchors": ["src/graphene-matrix.c:graphene_matrix_interpolate", "src/graphene-matrix.c:matrix_decompose_2d", "src/graphene-matrix.c:matrix_decompose_3d"]}
{"id": "C69", "title": "Objects and their deallocators", "statement": "In any history of *_alloc, *_free and writes to live objects of all 18 object types: every live object can be released by its own *_free, which hands exactly its block to the deallocator matching its allocator (never free() on an _aligned_malloc block or vice versa); *_free(NULL) does nothing; live objects never overlap each other or memory owned by the rest of the program, which is never written or released; types with vector members are 16-byte aligned; an object's bytes change only by a write to that object; objects from zeroing constructors read 0.", "quantifier": "all histories from any initial heap, all allocator behaviours allowed by the C library specification, all five allocator configurations", "why_tests_cant": "unbounded histories and nondeterministic allocator addresses; a test run has one allocator", "anchors": ["src/graphene-alloc.c:graphene_aligned_free", "src/graphene-quaternion.c:graphene_quaternion_alloc", "src/graphene-quaternion.c:graphene_quaternion_free", "src/graphene-matrix.c:graphene_matrix_free", "src/graphene-quad.c:graphene_quad_free"]}
{"id": "C70", "title": "Rounding errors are bounded", "statement": "In single precision, on every back end and whatever order it adds in: the dot products, every component of matrix_transform_vec3/vec4/point/point3d and every entry of matrix_multiply are finite and within 2^-22 times the sum of the absolute values of the products (plus 2^-147) of the exact real result, if that sum is at most 2^126. The length is within a relative 2^-22 (2^-20 with NEON's estimated square root) of the exact length, every component of normalize within a relative 2^-20 (plus 2^-150) of the exact one, and the squared length of the result within 2^-18 of 1, for lengths in a medium range (on the scalar back end squared lengths from 2^-22 up), assuming of the hardware only what its manual promises: estimates with relative error 1.5*2^-12 (SSE rcpps/rsqrtps) or 2^-8 (NEON vrecpe/vrsqrte). simd4f sqrt, rsqrt and reciprocal are within a relative 2^-21. Components of the cross product and the distance of a point to a plane are within 2^-22 (2^-21) times the sum of the magnitudes of the products; distances between points within a relative 2^-19 and squared distances within 2^-21, for squared distances from 2^-43 (scalar: 2^-21) to 2^117; box centres within a relative 2^-22 of half the exact sum.", "quantifier": "all finite vectors and matrices in the stated ranges, all back ends, all estimate instructions meeting the manual's bound, fused or unfused", "why_tests_cant": "a bound over all pairs of 128-bit vectors; tests compare a few results with a tolerance of 0.0001", "anchors": ["include/graphene-simd4f.h:graphene_simd4f_rsqrt", "include/graphene-simd4f.h:graphene_simd4f_sqrt", "include/graphene-simd4f.h:graphene_simd4f_reciprocal", "include/graphene-simd4x4f.h:graphene_simd4x4f_vec4_mul", "src/graphene-vectors.c:graphene_vec3_normalize", "src/graphene-matrix.c:graphene_matrix_multiply", "src/graphene-vectors.c:graphene_vec3_cross", "src/graphene-point.c:graphene_point_distance", "src/graphene-point3d.c:graphene_point3d_distance", "src/graphene-plane.c:graphene_plane_distance", "src/graphene-box.c:graphene_box_get_center"]}
{"id": "C71", "title": "Equality functions compare every component within a tolerance", "statement": "In single precision, on every back end, each equality function (vec2, vec3, vec4, point, point3d, size, rect, box, box2d, plane, sphere, triangle, ray, frustum, matrix, euler) does not depend on the order of its arguments; on finite values it answers true only if every pair of corresponding floats differs by less than 2^-22 times the larger of 1 and their magnitudes (and, for Euler angles, the effective rotation orders agree), and it does answer true whenever no pair differs by more than 2^-25. Two Euler values created from the same angles compare equal exactly if their effective orders agree, whichever name of the order they were created with.", "quantifier": "all pairs of finite values of the sixteen types, both pointer-identity cases, all back ends", "why_tests_cant": "a wrong or missing component comparison is only visible on inputs that differ in just that component; the tests compare a few values", "anchors": ["src/graphene-sphere.c:graphene_sphere_equal", "src/graphene-triangle.c:graphene_triangle_equal", "src/graphene-frustum.c:graphene_frustum_equal", "src/graphene-euler.c:graphene_euler_equal", "src/graphene-matrix.c:graphene_matrix_equal", "src/graphene-private.h:graphene_pointer_equal"]}
{"id": "C72", "title": "Constants, constructors and copies hold what they say", "statement": "The constant accessors (graphene_*_zero, _one, _x_axis ..., _identity, box_minus_one, box_one_minus_one, box_infinite, box_empty, ...) return exactly the values their names say; every init function followed by the getters returns the floats passed in (NULL arguments meaning the origin); *_init_from_X copies equal the original bit for bit, except for rectangles, which are normalised, and rays, whose direction is normalised again: for a direction of unit length the copy is within 2^-18 of the original in every component, and it can differ from it.", "quantifier": "all back ends, all float arguments including NaN and infinities, all NULL patterns", "why_tests_cant": "for every constructor and every bit pattern; tests construct a handful of values", "anchors": ["src/graphene-box.c:graphene_box_one_minus_one", "src/graphene-box2d.c:graphene_box2d_one", "src/graphene-ray.c:graphene_ray_init_from_ray", "src/graphene-matrix.c:graphene_matrix_init_from_float", "src/graphene-triangle.c:graphene_triangle_init_from_float", "src/graphene-euler.c:graphene_euler_init_from_euler"]}
{"id": "C73", "title": "Euler angle accessors", "statement": "For all 31 rotation orders: euler_get_alpha/beta/gamma of a value created from radians (x, y, z) return bit for bit the angles named by the first, second and third letter of the order; euler_get_order never returns the default or a deprecated name, and always names the same axes and frame as the order the value was created with (from angles, a vector, a matrix, a quaternion or by reordering). Created from degrees, get_x/y/z return the angle within a relative 2^-21, alpha/beta/gamma the radians within a relative 2^-23; the vec3 forms agree with the scalar forms to the bit. In exact arithmetic the degrees come back unchanged.", "quantifier": "all orders, all angles up to 2^100 in magnitude, all back ends", "why_tests_cant": "31 orders times all float triples", "anchors": ["src/graphene-euler.c:graphene_euler_get_alpha", "src/graphene-euler.c:graphene_euler_get_beta", "src/graphene-euler.c:graphene_euler_get_gamma", "src/graphene-euler.c:graphene_euler_get_order", "src/graphene-euler.c:graphene_euler_to_vec3", "src/graphene-euler.c:graphene_euler_init_from_vec3"]}
{"id": "C74", "title": "simd4x4f operations", "statement": "In single precision, on every back end: simd4x4f add, sub and mul work entry by entry with one correct rounding, div entry by entry like the back end's simd4f division; sum adds the four rows; transposing moves entry (i,j) to (j,i) bit for bit; loading reads entry (i,j) from float 4i+j of the array and storing writes it there and touches no float beyond the sixteenth; the identity is the identity. In exact arithmetic vec4_mul, vec3_mul and point3_mul are the row vector times matrix products with w as given, 0 and 1; inv_ortho_vec3_mul undoes vec3_mul and is undone by it for every matrix with orthonormal upper rows, inv_ortho_point3_mul undoes point3_mul for every rigid motion; determinant gives minus the determinant, and its second result the reciprocal of that.", "quantifier": "all matrices and vectors, all back ends", "why_tests_cant": "for all 512-bit matrices; tests use a few", "anchors": ["include/graphene-simd4x4f.h:graphene_simd4x4f_add", "include/graphene-simd4x4f.h:graphene_simd4x4f_div", "include/graphene-simd4x4f.h:graphene_simd4x4f_sum", "include/graphene-simd4x4f.h:graphene_simd4x4f_inv_ortho_vec3_mul", "include/graphene-simd4x4f.h:graphene_simd4x4f_inv_ortho_point3_mul", "include/graphene-simd4x4f.h:graphene_simd4x4f_determinant", "include/graphene-simd4x4f.h:graphene_simd4x4f_transpose"]}
{"id": "C75", "title": "Projected and untransformed rectangles", "statement": "In exact arithmetic, matrix_project_rect_bounds is the smallest rectangle containing the projection of every point of the rectangle (when entry (2,2) is non-zero), and matrix_project_rect has the projections of the four corners as its vertices - but in the order top left, top right, bottom left, bottom right, so that (witness) even with the identity matrix graphene_quad_contains denies points inside the rectangle. For 2D matrices that are not singular, matrix_untransform_bounds is the smallest rectangle containing every point that the matrix sends into the given one; it leaves its result unwritten exactly if the determinant is below FLT_EPSILON.", "quantifier": "all real matrices and rectangles (also with negative sizes), all back ends", "why_tests_cant": "all points of all rectangles under all matrices", "anchors": ["src/graphene-matrix.c:graphene_matrix_project_rect", "src/graphene-matrix.c:graphene_matrix_project_rect_bounds", "src/graphene-matrix.c:graphene_matrix_untransform_bounds"]}
{"id": "C76", "title": "Dimensions and centre of a box", "statement": "In single precision, on every back end, for every box and 2D box (NaN included): width, height and depth are the magnitudes of the correctly rounded differences of the maximum and minimum; get_size gives the signed rounded differences, zero for the box without points and infinity for the infinite box; the centre is the rounded sum of minimum and maximum times one half, rounded, and the origin for those two boxes. The distance of a point to itself (same pointer) is 0.", "quantifier": "all bit patterns of boxes, all back ends", "why_tests_cant": "for all floats, including overflow and infinities", "anchors": ["src/graphene-box.c:graphene_box_get_width", "src/graphene-box.c:graphene_box_get_height", "src/graphene-box.c:graphene_box_get_depth", "src/graphene-box.c:graphene_box_get_size", "src/graphene-box.c:graphene_box_get_center", "src/graphene-box2d.c:graphene_box2d_get_size", "src/graphene-box2d.c:graphene_box2d_get_center"]}
{"id": "C77", "title": "Float decisions are right away from the boundary", "statement": "The library's yes/no answers computed in single precision agree with the exact real geometry of the stored floats except within an explicit rounding-sized band around the boundary. graphene_rect_contains_point accepts every float point of the exact rectangle (non-negative sizes) and accepts nothing further out than the far edge's own rounding error; with negative sizes the band is 2^-22 of the coordinates. graphene_rect_union and graphene_rect_intersection have edges within 2^-21 of the coordinates of the exact ones, and the intersection's boolean is right when the exact overlap exceeds that. graphene_sphere_contains_point is right when the real distance differs from the radius by a relative 2^-20. The side of a plane, graphene_frustum_contains_point, graphene_frustum_intersects_sphere are right when the exact plane equation exceeds 2^-21 of the sum of its terms; graphene_frustum_intersects_box returns false only if every real point of the box is (up to that band) outside one plane, and true only if each plane has a corner inside. graphene_quad_contains is right when every orientation exceeds 2^-21 of its terms.", "quantifier": "all finite inputs (magnitudes bounded so that no intermediate overflows), all back ends", "why_tests_cant": "the band must be wide enough for every combination of roundings; tests sample a few points far from any boundary", "anchors": ["src/graphene-rect.c: graphene_rect_contains_point, graphene_rect_union, graphene_rect_intersection", "src/graphene-sphere.c: graphene_sphere_contains_point", "src/graphene-plane.c: graphene_plane_distance", "src/graphene-frustum.c: graphene_frustum_contains_point, graphene_frustum_intersects_sphere, graphene_frustum_intersects_box", "src/graphene-quad.c: graphene_quad_contains", "src/graphene-line-segment-private.h"]}
{"id": "C78", "title": "Vector instruction sequences compute the documented lanes", "statement": "For every content of the vector registers, NaN payloads included, each graphene_simd4f_* operation compiled for SSE2, SSE4.1, AVX, NEON or GCC vector extensions, executed as its actual sequence of vector instructions (shuffles with immediates, half-register moves, masks, sign-bit xors, compare-and-movemask, pairwise adds, estimate-and-refine steps) yields lane by lane the floats of the lane-wise description of that back end, comparisons return the truth of the four lane comparisons, pure lane moves copy whole words unchanged, and both expansions of the 4x4 transpose transpose.", "quantifier": "all register contents (four 32-bit words each), all memory arrays, all builds (SSE4.1 or not, FMA or not, fused NEON steps or not), all hardware estimate functions and all choices of returned NaN", "why_tests_cant": "a register has 2^128 contents, a test run exercises one machine and one build, and wrong immediates or masks can agree on symmetric inputs", "anchors": ["include/graphene-simd4f.h (graphene_simd4f_* macros of the SSE, GCC vector and NEON sections)", "include/graphene-simd4x4f.h graphene_simd4x4f_transpose_in_place"]}
{"id": "C79", "title": "Boxed copies are faithful, separate and releasable", "statement": "The copy function registered for each of the 18 GObject boxed types returns NULL for NULL and only for NULL. For a non-NULL object anywhere in live memory (heap, stack or static) a copy that returns is a new object that shares no byte with the original, every member byte of which equals the original's; no live memory of the process, the original included, changes; the copy is indistinguishable from an object obtained from the type's *_alloc and filled by stores, and the registered free function releases it and nothing else. When memory is exhausted the call does not return: it aborts or stores through NULL.", "quantifier": "every boxed type, allocator and build configuration, heap contents, history of earlier allocations, releases and stores, and choice of the C allocator", "why_tests_cant": "separation and release must hold for every heap layout and allocator answer; a test sees the layouts of one malloc", "anchors": ["src/graphene-gobject.c: GRAPHENE_DEFINE_BOXED_TYPE, *_copy_internal", "src/graphene-alloc.c: graphene_aligned_alloc, graphene_aligned_alloc0"]}
{"id": "C80", "title": "GType registration is race-free and consistent", "statement": "However many threads call the graphene_*_get_type functions, in whatever interleaving, every call for one type returns the same non-zero identifier, different types return different identifiers, each type name is registered at most once, and from the first return on the identifier selects, for ever, the documented name, that type's copy function and that type's free function. No call can be left with no way to return. All this assumes that nothing else in the process registers one of Graphene's names; if something does, the first caller gets 0 and concurrent callers can block for ever.", "quantifier": "every number of threads, every interleaving, every sequence of registrations by the rest of the process, every choice of identifiers by GLib", "why_tests_cant": "the guarantee ranges over all schedules; a test runs a handful of them", "anchors": ["src/graphene-gobject.c: graphene_*_get_type (GRAPHENE_DEFINE_BOXED_TYPE)", "include/graphene-gobject.h: GRAPHENE_TYPE_*"]}
{"id": "C81", "title": "Interpolation, ray points and quaternion products are accurate", "statement": "For finite operands of moderate size (components up to 2^60), on every back end: each component of graphene_vec{2,3,4}_interpolate is within 5 units of 2^-24, relative to (1+|t|)|a| + |t||b|, of (1-t)a + tb, for any interpolation factor t, also outside [0,1]; each coordinate of graphene_ray_get_position_at is within 3 units, relative to |td| + |o|, of o + td; each component of graphene_quaternion_multiply is within 5 units, relative to the sum of the absolute values of its four products, of the exact Hamilton product. A tiny absolute term covers underflow. In particular none of the results overflows or is NaN.", "quantifier": "every operand with components up to 2^60 in absolute value, every back end", "why_tests_cant": "holds for every float in an unbounded-looking range and every back end; a test samples a handful of inputs on one back end", "anchors": ["src/graphene-vectors.c: graphene_vec2_interpolate, graphene_vec3_interpolate, graphene_vec4_interpolate", "src/graphene-ray.c: graphene_ray_get_position_at", "src/graphene-quaternion.c: graphene_quaternion_multiply"]}
{"id": "C82", "title": "Chains of quaternion products drift at most linearly", "statement": "Multiplying together any number n of quaternions whose lengths are within d of 1 with graphene_quaternion_multiply, one after the other, as long as (n+1)d <= 1/4 and 45 n 2^-24 <= 1: the result is finite, its distance to the exact product is at most 45 n 2^-24, and its length is within 2(n+1)d + 45 n 2^-24 of 1. A single product of any two quaternions of length up to 2^60 is within 10 units of 2^-24 of the product of the lengths.", "quantifier": "every sequence of quaternions of every length satisfying the two size conditions", "why_tests_cant": "the bound is over all sequences of up to 372 000 factors; a test follows a few chains", "anchors": ["src/graphene-quaternion.c: graphene_quaternion_multiply"]}
{"id": "C83", "title": "Determinants, the singularity test, inverses and rotation matrices are accurate up to conditioning", "statement": "For a matrix of finite entries up to 2^30, on every back end: graphene_matrix_determinant is within 8.25 units of 2^-24, relative to the permanent of the absolute values, of minus the determinant (see C27 for the sign). graphene_matrix_is_singular answers FALSE whenever the exact |det| exceeds FLT_EPSILON by more than that error and TRUE whenever it is below by as much. When |det| also exceeds twice the error, graphene_matrix_inverse succeeds and each entry x of the exact inverse is returned up to 3(err_cofactor + |x| err_det)/|det| (back ends that divide in IEEE arithmetic: all but NEON). Each entry of graphene_quaternion_to_matrix is within 4.25 units, relative to 1 + 2|q|^2, of the textbook rotation matrix, for quaternions with components up to 2^40.", "quantifier": "every matrix with entries up to 2^30, every quaternion with components up to 2^40, every back end (IEEE division for the inverse)", "why_tests_cant": "holds for every float in an unbounded-looking range and every back end; a test samples a handful of inputs on one back end", "anchors": ["include/graphene-simd4x4f.h: graphene_simd4x4f_inverse, graphene_simd4x4f_determinant", "src/graphene-matrix.c: graphene_matrix_determinant, graphene_matrix_is_singular, graphene_matrix_inverse", "src/graphene-quaternion.c: graphene_quaternion_to_matrix"]}
{"id": "C84", "title": "Transformed boxes and bounds cover the true image, and no more, up to rounding", "statement": "For a finite matrix and a box of finite corners min <= max, graphene_matrix_transform_box, on every back end: the exact affine image of every point of the box (not only its vertices) lies, coordinate by coordinate, in the resulting box widened by 2^-22 of the largest sum of products over the box plus 2^-147; and each face of the resulting box is within the same distance of the exact image of some point of the box, so the result is also tight. The same for graphene_matrix_transform_bounds and every point of the rectangle, where the far side is additionally off by at most 2^-23 of the extent, because width and height are themselves rounded.", "quantifier": "every finite matrix, every finite box or rectangle whose image stays below 2^126 (2^125 for rectangles), every point in it, every back end", "why_tests_cant": "the image of a box is infinite, and rounding may push any of the faces either way; a test samples some vertices of some boxes", "anchors": ["src/graphene-matrix.c: graphene_matrix_transform_box, graphene_matrix_transform_bounds", "src/graphene-box.c: graphene_box_get_vertices, graphene_box_init_from_vectors"]}
{"id": "C85", "title": "Long chains of matrix products drift predictably", "statement": "Multiplying finite matrices together one after the other with graphene_matrix_multiply, on every back end: (a) each entry of the result differs from the exact product of all of them by at most the excess of a rounded-up product of absolute values (each step times 1+2^-22 plus 2^-147) over the exact product of absolute values; (b) if the absolute row sums are all at most L >= 1, the absolute errors of each row add up to at most n 2^-20 L^(n+1) for n products; (c) if each matrix changes the length of every row vector by at most a factor 1 +- d (rotations up to rounding), (n+1)d <= 1/4 and n <= 2^22/14, then the result is within 14 n 2^-22 of the exact product in Frobenius norm and changes no length by more than a factor 1 +- (2(n+1)d + 14 n 2^-22). graphene_quaternion_to_matrix of a quaternion whose squared length is within e of 1 is such a matrix with d = 2e + 2^-18.", "quantifier": "every sequence of finite matrices of any length satisfying the size conditions, every back end", "why_tests_cant": "the bound is over all sequences of up to 300 000 factors and all their entries; a test follows a few chains", "anchors": ["src/graphene-matrix.c: graphene_matrix_multiply", "include/graphene-simd4x4f.h: graphene_simd4x4f_matrix_mul", "src/graphene-quaternion.c: graphene_quaternion_to_matrix"]}
{"id": "C86", "title": "Interpolated points, sizes and rectangles never leave the segment, in float arithmetic", "statement": "For every factor in [0,1] and all finite operands, each coordinate of graphene_point_interpolate, graphene_size_interpolate, graphene_point3d_interpolate and graphene_rect_interpolate, as actually computed (double arithmetic rounded to float), is finite and lies between the two operands' coordinates, ends included; in particular a coordinate that is equal in both operands is kept exactly. For any factor up to 2^800, also outside [0,1], the coordinate is within half a float unit (2^-24) of the exact (1-t)a + tb, plus 2^-50 of |(1-t)a| + |tb| and 2^-149. The vector types interpolate in single precision and do not have the first property: interpolating (3,3,3) with itself at 0.1 gives less than 3 on every back end.", "quantifier": "every pair of finite operands (no size restriction for the first part) and every double-precision factor", "why_tests_cant": "monotonicity of four roundings for all operands and all factors; random tests hit neither ties nor extreme exponents", "anchors": ["src/graphene-private.h: graphene_flerpf", "src/graphene-point.c: graphene_point_interpolate", "src/graphene-size.c: graphene_size_interpolate", "src/graphene-point3d.c: graphene_point3d_interpolate", "src/graphene-rect.c: graphene_rect_interpolate", "src/graphene-vectors.c: graphene_vec3_interpolate"]}
{"id": "C87", "title": "Rectangles aligned to a pixel or sub-pixel grid are handled exactly", "statement": "Take any history of rectangle operations (init, normalize, union, intersection, offset, inset, expand, round_extents, round, scale by whole factors) whose inputs are whole multiples of 2^k (k from -23 to 0: whole pixels, halves, ...), and whose exact edges stay within 2^23 steps of the origin at every stage. Then the float rectangle has exactly the edges real arithmetic gives, for any length and nesting of the history; its coordinates, sizes, corners, vertices and centre are exact (the area too if it is representable); contains_point, the result of intersection, contains_rect and rect_equal decide exactly, with no tolerance in either direction. Beyond the reach this fails: offsetting a rectangle at 2^24 by one pixel can leave it where it was.", "quantifier": "every history (tree) of the operations, every grid from 2^-23 to 1, all on-grid inputs within reach, every finite query point", "why_tests_cant": "histories of any length and shape over all grid coordinates; a test can only sample short ones", "anchors": ["src/graphene-rect.c: graphene_rect_init, graphene_rect_normalize, graphene_rect_union, graphene_rect_intersection, graphene_rect_offset, graphene_rect_inset, graphene_rect_expand, graphene_rect_round_extents, graphene_rect_round, graphene_rect_scale, graphene_rect_contains_point, graphene_rect_contains_rect, graphene_rect_equal, graphene_rect_get_center, graphene_rect_get_area, graphene_rect_get_vertices"]}
{"id": "C88", "title": "Whole-pixel scrolling, zooming and flipping through matrices is exact", "statement": "Take any history of matrix constructions and products (identity, translations by multiples of 2^k, scalings by whole factors of either sign, any affine matrix with whole factors and on-grid translation, translate, scale, multiply) in which the terms of each product sum to at most 2^24 (2^24 grid steps for translations). Then on every back end each entry of the float matrix is exactly what real arithmetic gives, and transforming an on-grid point or 3D point within reach is exact. Transforming the rectangle left by any on-grid rectangle history (C87) gives the exact images of its corners, and transform_bounds gives exactly the smallest upright rectangle around the image: nothing is cut off and nothing is added.", "quantifier": "every history (tree) of matrix operations, every grid, every back end, all on-grid points, every on-grid rectangle history", "why_tests_cant": "histories of any length and shape, on every back end", "anchors": ["src/graphene-matrix.c: graphene_matrix_init_identity, graphene_matrix_init_translate, graphene_matrix_init_scale, graphene_matrix_translate, graphene_matrix_scale, graphene_matrix_multiply, graphene_matrix_transform_point, graphene_matrix_transform_point3d, graphene_matrix_transform_rect, graphene_matrix_transform_bounds", "include/graphene-simd4x4f.h: graphene_simd4x4f_matrix_mul, graphene_simd4x4f_vec4_mul, graphene_simd4x4f_point3_mul"]}
{"id": "C89", "title": "Picking and culling through bounding volumes never lose a hit", "statement": "In binary32, with every rounding and on every back end: a ray that hits a box hits every larger box, enters the larger one no later and leaves it no earlier (directions with zero, infinite or NaN components included, provided either the coordinate differences do not overflow or no reciprocal of the direction is zero, which every finite direction guarantees on the scalar and GCC back ends); a ray that starts in a box hits it whatever its direction, and if it is reported to enter it does so at distance zero; the reported distance is never negative and is zero when nothing is hit. Growing a sphere about its centre never loses a ray hit, a frustum hit or a contained point, and a frustum that keeps a box keeps every larger box. A ray that starts on a sphere that contains its origin can miss it, though (witness).", "quantifier": "all binary32 rays, boxes, spheres, planes and frusta meeting those conditions, every back end", "why_tests_cant": "the claim ranges over all pairs of nested volumes and all rounding errors, including NaN and infinite intermediate values", "anchors": ["src/graphene-ray.c: graphene_ray_intersect_box, graphene_ray_intersects_box, graphene_ray_intersect_sphere, graphene_ray_intersects_sphere", "src/graphene-frustum.c: graphene_frustum_intersects_box, graphene_frustum_intersects_sphere", "src/graphene-sphere.c: graphene_sphere_contains_point", "src/graphene-box.c: graphene_box_contains_box"]}
{"id": "C90", "title": "Rotations by angle and axis are accurate and stay rigid over any history, for any accurate sine and cosine", "statement": "In binary32, on every back end whose estimate instructions meet their documented accuracy, and for any sinf and cosf that answer within 2^-23 of the true value: every entry of the matrix made by graphene_matrix_init_rotate for an angle a in degrees (at most 2^24) and an axis whose length is neither too small nor too large is within 2^-17 + 2^-22 |t| of Rodrigues' rotation matrix for the axis scaled to unit length and t = a pi/180; the matrix changes the length of no vector by more than a relative 4(2^-17 + 2^-22 |t|); after any number n of graphene_matrix_rotate calls (each within T radians) the matrix differs, in Frobenius norm, from the exact composition of those turns by at most a relative n(6(2^-17 + 2^-22 T) + 2^-20) as long as that is below 1/4; graphene_matrix_rotate_x, _y and _z are rotations about the axes; and graphene_quaternion_init_from_angle_vec3 is within 2^-19 + 2^-22 T of (sin(t/2) k, cos(t/2)).", "quantifier": "all angles, axes, start matrices and sequences of rotations of any length in that range, every back end, every sinf and cosf of that accuracy", "why_tests_cant": "the claim bounds an accumulated rounding error over all histories, all angles and axes and all mathematical libraries of the stated accuracy", "anchors": ["include/graphene-simd4x4f.h: graphene_simd4x4f_rotation", "src/graphene-matrix.c: graphene_matrix_init_rotate, graphene_matrix_rotate, graphene_matrix_rotate_x, graphene_matrix_rotate_y, graphene_matrix_rotate_z", "src/graphene-quaternion.c: graphene_quaternion_init_from_angle_vec3"]}
{"id": "C91", "title": "Ray-box intersection in float arithmetic is the exact answer for a box moved by less than one part in a million", "statement": "In binary32, with every rounding, on every back end whose reciprocal estimates meet their documented accuracy for both signs: for a finite ray and an ordered finite box no coordinate of which is further than 2^60 from the ray's origin, with every direction component either between 2^-22 and 2^62 in modulus or zero (with an infinite reciprocal, which holds whenever the hardware estimate of 1/0 is infinite) and not all zero, graphene_ray_intersect_box returns exactly the answer that real arithmetic gives for a box whose faces are moved by at most 2^-20 of their distance from the ray's origin (plus 2^-149 times the direction component): kind, first point on entering, last point on leaving. So a ray that passes through the box shrunk by those margins is always reported to hit, a reported hit always has a point in the box grown by them, and the reported distance is neither later than any point well inside nor outside the grown box.", "quantifier": "all binary32 rays and boxes in that range, all reciprocal estimates of the documented accuracy, every back end", "why_tests_cant": "it bounds the effect of rounding and of the hardware's estimate over all rays and boxes, including rays parallel to faces where intermediate values are infinite or NaN", "anchors": ["src/graphene-ray.c: graphene_ray_intersect_box, graphene_ray_intersects_box", "include/graphene-simd4f.h: graphene_simd4f_reciprocal"]}
{"id": "C92", "title": "Projection matrices are accurate in float arithmetic", "statement": "In binary32, with every rounding, on every back end: for finite clipping planes of modulus at most 2^40 whose opposite sides differ by at least 2^-40, every entry of the matrices of graphene_matrix_init_ortho and (for 2^-40 <= near < far) graphene_matrix_init_frustum is within four half-units in the last place (relative error 4*2^-24, plus at most 2^-149) of the true entry, and a homogeneous point (x, y, z, 1) sent through the matrix lands within 2^-20 of the sum of the moduli of the terms from its true clip coordinates. For graphene_matrix_init_perspective with any tanf accurate to 2^-22, a field of view of 1/64 to 179.999 degrees and an aspect ratio between 2^-40 and 2^40, the two scale entries are within 2^-20*(1 + cot^2) of cot(fovy/2) (divided by the aspect ratio for x) and every other entry is accurate to four half-units.", "quantifier": "all binary32 clipping planes, fields of view, aspect ratios and points in that range, every tanf of that accuracy, every back end", "why_tests_cant": "it is a bound over all parameters, including nearly equal clipping planes and very narrow or wide views, and over all admissible math libraries", "anchors": ["src/graphene-matrix.c: graphene_matrix_init_ortho, graphene_matrix_init_frustum, graphene_matrix_init_perspective, graphene_matrix_transform_vec4", "include/graphene-simd4x4f.h: graphene_simd4x4f_init_ortho, graphene_simd4x4f_init_frustum, graphene_simd4x4f_init_perspective"]}
{"id": "C93", "title": "Ray-sphere intersection is right up to rounding", "statement": "In binary32, with every rounding, on every back end: take a ray whose direction is a unit vector up to 2^-18 (which graphene_ray_init guarantees for a non-degenerate finite direction) and a sphere, with squared distance from the origin and squared radius at most 2^100, and let blur = 2^-14*(|centre - origin|^2 + radius^2 + 2^-80). If graphene_ray_intersect_sphere answers NONE, no point of the ray lies inside the sphere by more than blur in squared distance. If it answers ENTER at t, then t >= 0 is finite, the point at t is on the surface up to blur, the origin is not inside by more than blur and no earlier point is. If it answers LEAVE at t, then t >= 0 is finite, the point at t is on the surface up to blur, the origin is inside up to blur and no later point is inside by more than blur. So a clear hit is always reported and a clear miss never is.", "quantifier": "all binary32 rays and spheres in that range, every point of the ray, every back end", "why_tests_cant": "cancellation in the discriminant is worst for grazing rays and distant spheres, which sampled tests do not cover", "anchors": ["src/graphene-ray.c: graphene_ray_intersect_sphere, graphene_ray_init", "src/graphene-sphere.c"]}
{"id": "C94", "title": "Nearest point of a ray and distance to a plane are right up to rounding", "statement": "In binary32, with every rounding, on every back end: for a ray with unit direction up to 2^-18 and a point at squared distance at most 2^100, graphene_ray_get_closest_point_to_point returns, up to 2^-22*(|origin| + distance) per coordinate, the point of the ray at some parameter t >= 0, and no point of the ray is nearer by more than 2^-35*(distance^2) in squared distance. For a plane and ray of size at most 2^30 that are not nearly parallel, graphene_ray_get_distance_to_plane returns either a finite t >= 0 whose point satisfies the plane equation up to 2^-21 of the sum of the moduli of its terms, or infinity, and then the plane is behind the origin up to that margin.", "quantifier": "all binary32 rays, points and planes in that range, every point of the ray, every back end", "why_tests_cant": "it is a bound over all inputs including nearly parallel planes and distant points", "anchors": ["src/graphene-ray.c: graphene_ray_get_closest_point_to_point, graphene_ray_get_distance_to_plane", "src/graphene-plane.c"]}
{"id": "C95", "title": "look_at builds a viewing frame that is accurate and rigid in float arithmetic", "statement": "In binary32, with every rounding and with the hardware reciprocal square root estimates of every back end: let eye and center be finite points at a squared distance between 2^-20 and 2^100, and up a finite vector of length at most 2^40 whose angle with the true direction of view d has sine s >= 2^-12 (and |d x up|^2 >= 2^-20). Then the rows of graphene_matrix_init_look_at are finite and, as vectors, within 2^-17/s of the unit side vector x = (d x up)/|d x up|, within 2^-16/s of x x d, and within 2^-19 of -d. The rows are therefore orthogonal unit vectors up to 2^-14/s. For every input the last row is exactly the negated eye position followed by one, and for vectors built through the API the last column is zero above it.", "quantifier": "all binary32 eye and center points and up vectors in that range, every back end and every admissible estimate instruction", "why_tests_cant": "the error grows as up approaches the direction of view; it is a bound over all viewing geometries and all back ends", "anchors": ["src/graphene-matrix.c: graphene_matrix_init_look_at", "include/graphene-simd4x4f.h: graphene_simd4x4f_init_look_at"]}
{"id": "C96", "title": "ray-triangle picking never misses a clear hit or invents one in float arithmetic", "statement": "In binary32, with every rounding and on every back end: take a finite ray (origin o, direction d) and a finite triangle with corner a and edges e1, e2, where d, e1, e2 and o - a are at most 2^30 long. Let V = d . (e1 x e2); whenever V is not zero the line of the ray meets the plane of the triangle at exactly one place o + k d = a + p e1 + q e2. Put e = (2^-19 |d| (|o-a||e2| + |e1||o-a| + |e1||e2|) + 2^-90)/|V| and ek = (2^-19 |o-a||e1||e2| + 2^-90)/|V|, and suppose |V| is at least 2^-21 plus twice the first numerator. If graphene_ray_intersect_triangle reports no intersection, then k < ek or p < e or q < e or p + q > 1 - e. If it reports one, then the kind is LEAVE exactly when V > 0, the returned distance is finite, not negative and within ek + |k| e + 2^-149 of k, and k >= -ek, p >= -e, q >= -e, p + q <= 1 + e. So a ray through the inside of the triangle by more than the margin is always reported, and one passing outside by more than the margin never is.", "quantifier": "all binary32 rays and triangles in that range, every back end", "why_tests_cant": "the margin is a bound over all ray and triangle geometries; near-edge and grazing rays form a continuum no test set covers", "anchors": ["src/graphene-ray.c: graphene_ray_intersect_triangle, graphene_ray_intersects_triangle"]}
{"id": "C97", "title": "triangle normals, areas, midpoints and planes are accurate in float arithmetic", "statement": "In binary32, with every rounding and with the hardware estimates of every back end: for a finite triangle whose edges at the second corner are at most 2^25 long and meet at an angle with sine s >= 2^-12 (and whose cross product has squared length at least 2^-20), graphene_triangle_get_area is within 2^-20 times the product of the two edge lengths of the true area, and graphene_triangle_get_normal is within 2^-19/s of the true unit normal. graphene_triangle_get_midpoint is, in each coordinate, within 2^-22 times the sum of the absolute coordinates (plus 2^-149) of the true centroid, for all coordinates up to 2^60. graphene_plane_init_from_points returns a normal within 2^-18/s of the true unit normal, and every point P of the true plane through the three points (in particular the three points) satisfies the returned equation up to 2^-18/s |P - a| + 2^-21 |a| + 2^-140. graphene_plane_normalize returns a normal within 2^-19 of the unit vector in the direction of the given one, and a constant with relative error at most 2^-19 (plus 2^-150).", "quantifier": "all binary32 triangles, points and planes in that range, every back end and every admissible estimate instruction", "why_tests_cant": "the error grows as the triangle degenerates; it is a bound over all triangles and all back ends", "anchors": ["src/graphene-triangle.c: graphene_triangle_get_area, graphene_triangle_get_midpoint, graphene_triangle_get_normal", "src/graphene-plane.c: graphene_plane_init_from_points, graphene_plane_normalize"]}
{"id": "C98", "title": "bounding spheres cover what they bound in float arithmetic", "statement": "In binary32, with every rounding and on every back end, for coordinates and radii up to 2^50: a sphere built from any non-empty list of points (any length, with or without a given centre) has a finite radius r >= 0; every one of the points is at a true distance of at most (1 + 2^-20) r + 2^-72 from the centre, and for one of them the radius is that distance up to 2^-20 of it plus 2^-72; without a given centre, the centre lies in every box that contains the points. A sphere built from vectors is the one built from the points they stand for, for all inputs. The sides of graphene_sphere_get_bounding_box are the exact ones up to 2^-24 relative, so it covers every real point of the ball up to 2^-23 (|c| + r). graphene_sphere_distance is within 2^-20 (d + |r|) + 2^-71 of d - r. For matrices with entries and a radius up to 2^40, graphene_matrix_transform_sphere keeps the centre's image and returns a radius within 2^-21 relative (plus 2^-72 |r| + 2^-149) of r times the longest row of the matrix; and when the rows are orthogonal up to a relative e, the exact image of every real point of the ball is inside the returned sphere up to (e + 2^-21) r stretch + 2^-21 spread + 2^-72 r + 2^-145, where spread is the sum of the row lengths weighted by the centre.", "quantifier": "all lists of binary32 points, all spheres and matrices in that range, all real points of the ball, every back end", "why_tests_cant": "the lists have any length and the covered points form a continuum; the bounds hold for all back ends' summation orders", "anchors": ["src/graphene-sphere.c: graphene_sphere_init_from_points, graphene_sphere_init_from_vectors, graphene_sphere_get_bounding_box, graphene_sphere_distance", "src/graphene-matrix.c: graphene_matrix_transform_sphere"]}
{"id": "C99", "title": "culling against a view frustum in float arithmetic", "statement": "In binary32, with every rounding and on every back end whose estimate instructions have their documented accuracy: for every finite projection matrix whose six clip conditions (x <= w, -w <= x and so on, as linear forms of the point) have coefficient vectors of length between 2^-10 and 2^50 and constants up to 2^59, each plane of graphene_frustum_init_from_matrix has a normal within 2^-18 of the unit vector of the exact condition and a constant within 2^-18 relative. Consequently graphene_frustum_contains_point answers true for every point (up to 2^60) whose exact signed distance from each of the six exact planes is at least the margin 2^-17 (|p| + |plane offset|) + 2^-130, and answers true for no point that is outside one of them by more than the margin; graphene_frustum_intersects_sphere likewise with the radius taken off; and when graphene_frustum_intersects_box culls a box, the whole box (every real point of it) is on the outer side of one exact clip plane, up to the margin, while a box that is kept has for each plane a corner that is not outside by more than the margin.", "quantifier": "all finite binary32 matrices in that range, all points, spheres and boxes in range, all real points of the box, every back end", "why_tests_cant": "the matrices and points fill a continuum and the margin holds for the worst rounding of the whole chain (transpose, add, normalise, distance)", "anchors": ["src/graphene-frustum.c: graphene_frustum_init_from_matrix, graphene_frustum_contains_point, graphene_frustum_intersects_sphere, graphene_frustum_intersects_box", "src/graphene-plane.c: graphene_plane_init_from_vec4, graphene_plane_normalize, graphene_plane_distance"]}
