{
"C03": [
"proved",
"binary32, every back end, histories of any length; the division counterexample is C03_divide_refuted"
],
"C17": [
"proved",
"binary32, every back end, lists of any length"
],
"C18": [
"proved",
"binary32, every back end"
],
"C19": [
"proved",
"binary32, every back end; the self-containment defect is C19_self_containment_refuted"
],
"C20": [
"proved",
"vertices and centre in binary32 on every back end; the bounding sphere in exact arithmetic"
],
"C21": [
"proved",
"binary32 monotonicity and the negative-scalar defect on every back end; exact characterisation in exact arithmetic"
],
"C01": [
"proved",
"binary32, every back end"
],
"C02": [
"proved",
"binary32, every back end, NaN-free operands; C02_nan_refuted shows why"
],
"C04": [
"proved",
"exact arithmetic; back ends with exact estimates"
],
"C05": [
"proved",
"binary32, every back end; C05_nan_refuted shows NaN vectors differ from themselves (and the scalar back end accepts any two NaNs)"
],
"C06": [
"proved",
"exact arithmetic, every back end"
],
"C07": [
"proved",
"symmetry bit for bit in binary32; Euclidean facts in exact arithmetic; C07_backends_differ_refuted: the value depends on the back end"
],
"C08": [
"proved",
"end points in binary32 (value-wise), betweenness in exact arithmetic"
],
"C63": [
"proved",
"every *_equal function, binary32, every back end"
],
"C65": [
"proved",
""
],
"C66": [
"proved",
""
],
"C10": [
"proved",
"bit-for-bit invariance in binary32; point-set meaning in exact arithmetic"
],
"C11": [
"proved",
"exact point-set characterisation; in binary32 the reported corners and centre of every finite rectangle are contained"
],
"C12": [
"proved",
"least upper bound, commutative/idempotent/associative exactly; near edges and commutativity in binary32; far-edge loss is C12_union_far_edge_refuted"
],
"C13": [
"proved",
"exact characterisation; in binary32 a false answer excludes common interior points and a true answer's origin lies in both"
],
"C14": [
"proved",
"least integral cover exactly; binary32 cover with edges up to 2^23; C14_round_extents_refuted beyond; C14_round_refuted for rect_round"
],
"C15": [
"proved",
"exact arithmetic"
],
"C16": [
"proved",
"exact arithmetic; binary32 non-reflexivity is C16_not_reflexive_refuted"
],
"C25": [
"proved",
"exact arithmetic, every back end; C25_projective_refuted shows why points need an affine first factor"
],
"C27": [
"proved",
"exact arithmetic, every back end; the documented value is refuted: the sign is wrong"
],
"C28": [
"proved",
"exact arithmetic; back ends with exact reciprocal; scalar boundary case refuted"
],
"C29": [
"proved",
"exact arithmetic, every back end"
],
"C30": [
"proved",
"exact arithmetic; back ends with exact estimates; axis above the scalar cut-off; C30_degenerate_axis_refuted below it"
],
"C31": [
"proved",
"exact arithmetic; C31_apply_perspective_refuted: matrix_perspective adds the z column to w"
],
"C32": [
"proved",
"exact arithmetic, general position; C32_degenerate_up_refuted: looking along up is singular on the scalar back end"
],
"C35": [
"proved",
"exact arithmetic, every back end; shear witness"
],
"C23": [
"proved",
"binary32, every back end"
],
"C24": [
"proved",
"exact arithmetic for all edges; binary32 near edges; far-edge loss is a witness"
],
"C26": [
"proved",
"bit for bit in binary32; the product rule in exact arithmetic"
],
"C33": [
"proved",
"binary32 with binary64 arguments, all six doubles"
],
"C34": [
"proved",
"binary32; arrays are lists, a short array is out of bounds"
],
"C36": [
"proved",
"exact arithmetic, back ends with exact estimates; C36_non_2d_refuted: for non-2D matrices the function does not invert"
],
"C37": [
"proved",
"exact arithmetic; the modelview is multiplied, not inverted: C37_modelview_refuted"
],
"C38": [
"proved",
"binary32, every back end"
],
"C40": [
"proved",
"exact arithmetic characterisations on every back end and binary32 acceptance"
],
"C67": [
"proved",
"exact arithmetic, every back end"
],
"C22": [
"proved",
"binary32 for every back end (Props_Box2d) and exact arithmetic (Props_Box2dX); the _refuted theorems record the cases where the natural claim fails: self-containment of the empty and infinite box, negative scale, rectangles of negative size"
],
"C50": [
"proved",
"Exact arithmetic over the same model functions; refutations for collinear points, tiny normals and non-unit transform."
],
"C51": [
"proved",
"Exact arithmetic; lists of any length."
],
"C52": [
"proved",
"Exact arithmetic; bounding box is bit-accurate."
],
"C53": [
"proved",
"Exact arithmetic, unit direction."
],
"C54": [
"proved",
"Exact arithmetic."
],
"C55": [
"proved",
"Exact arithmetic; zero components handled through the infinities of the model."
],
"C56": [
"proved",
"Exact arithmetic."
],
"C57": [
"proved",
"Boxes in binary32 (all back ends); spheres and matrices in exact arithmetic; counterexample for normals that are not unit vectors."
],
"C58": [
"proved",
"Containment exact; rect points and bounds also in binary32; counterexamples for empty rectangles, concave quads and the far edges of bounds."
],
"C41": [
"proved",
"Exact arithmetic."
],
"C42": [
"proved",
"Exact arithmetic; counterexample for half turns with axes of mixed signs."
],
"C43": [
"proved",
"Exact arithmetic."
],
"C44": [
"proved",
"Exact arithmetic."
],
"C45": [
"proved",
"Exact arithmetic."
],
"C46": [
"proved",
"binary32, all back ends."
],
"C47": [
"proved",
"Exact arithmetic."
],
"C48": [
"proved",
"Exact arithmetic; counterexamples for all other orders."
],
"C49": [
"proved",
"Exact arithmetic; counterexamples for all other orders."
],
"C39": [
"proved",
"3D affine matrices recompose (exact arithmetic, estimates exact, Gram-Schmidt norms above the scalar back end's cut-off), uniqueness, exact answer condition; _refuted theorems show the half-turn, 2D and perspective cases where the natural claim is false of the code."
],
"C68": [
"proved",
"Endpoints and interpolation for translations and uniformly scaled rotations; general 3D result stated as translate*rotate*scale; refuted for matrices with translation and scale/rotation; failure behaviour."
],
"C60": [
"proved",
"one call of graphene_aligned_alloc/alloc0 in every configuration; the two exceptions are refuted witnesses"
],
"C69": [
"proved",
"invariant over all histories; alignment needs an aligned allocator (not plain malloc)"
],
"C61": [
"proved",
"sequentially consistent memory, justified by the race-freedom theorem; pthread_once/InitOnceExecuteOnce taken at their specification, failure of pthread_once not modelled"
],
"C62": [
"proved",
"Alias.v models each function as a sequence of loads and stores on a flat float memory; [computes] = result of old contents + frame. Hypotheses [same_or_apart] appear only for functions that write part of the result before reading the rest. Exceptions proved as C62_*_refuted."
],
"C64": [
"proved",
"Exact arithmetic. Group 1 holds without hypotheses on operands, group 2 for operands that are values, group 3 for real operands and exact estimates; the two refuted theorems show the differences that exist."
],
"C09": [
"proved",
"bit-accurate model, all back ends; the divide exceptions are stated in the theorem and witnessed"
],
"C59": [
"proved",
"bit-accurate model, all back ends; NEON sqrt excluded (estimate), scalar cmp_eq refuted with witness"
],
"C70": [
"proved",
"standard model of rounding errors on the bit-accurate model; NEON's instruction sequences are in Neon.v"
],
"C71": [
"proved",
"by reduction to the vector comparisons of C05; the pointer-identity shortcut is the boolean argument"
],
"C72": [
"proved",
"the exact copy claim for rays is refuted (C72_ray_copy_refuted) and replaced by the bound C72_ray_copy"
],
"C73": [
"proved",
"also extends C49: matrix_rotate_euler appends the rotation for the orders euler_to_quaternion handles, and not for the others"
],
"C74": [
"proved",
"rounded entrywise operations in Props_Simd4x4, products and inverse products in Props_Simd4x4X"
],
"C75": [
"proved",
"the corner order of project_rect is refuted as a quad (C75_project_rect_order_refuted)"
],
"C76": [
"proved",
"exact characterisation by correctly rounded operations"
],
"C77": [
"proved",
"binary32, every back end; bounds relative to the exact real geometry of the stored floats. Overflow is excluded by magnitude hypotheses; the examples exhibit inputs meeting every hypothesis."
],
"C78": [
"proved",
"Intrinsics are modelled on 32-bit words from the vendor descriptions (trusted); arithmetic units are arbitrary functions that round to nearest even (sse_ok, neon_ok; C78_sse_machine and C78_neon_machine show such machines exist). Visual Studio variants use the same intrinsic sequences. NEON flush-to-zero is not modelled."
],
"C79": [
"proved",
"Any heap, any allocator answer. Padding bytes of a copied structure are left unspecified, as in C. C79_oom_refuted: the copy function does not survive a failed allocation."
],
"C80": [
"proved",
"GLib's g_once_init_enter/leave and type registry are taken at their documented behaviour. C80_name_clash_refuted shows what happens if a name is taken by someone else."
],
"C81": [
"proved",
"Bit-accurate model, all back ends."
],
"C82": [
"proved",
"Induction over the sequence; quaternion_multiply is scalar code, the same on every back end."
],
"C83": [
"proved",
"Determinant, singularity test and quaternion matrices on all back ends; inverse on all but NEON, whose division multiplies by a hardware estimate."
],
"C84": [
"proved",
"Bit-accurate model, all back ends; composes the per-vertex error bound of C70 with the exact min/max of the box code and convexity."
],
"C85": [
"proved",
"Bit-accurate model, all back ends; induction over the sequence of factors."
],
"C86": [
"proved",
"Bit-accurate model including the double-precision intermediates."
],
"C87": [
"proved",
"Bit-accurate model; the exact operations on edges (uni, int, off, ins, grow, outward, rnd_old, mul) are the specification."
],
"C88": [
"proved",
"Bit-accurate model, every back end; the specification is real matrix multiplication (rmul), the affine map aff and is_bbox."
],
"C89": [
"proved",
"Bit-accurate model, every back end; proofs by monotonicity of rounding, NaN bounds treated as no constraint. The missed origin on a sphere is a witness on the scalar and GCC back ends."
],
"C90": [
"proved",
"Bit-accurate model; sinf/cosf are arbitrary functions assumed accurate to 2^-23 on finite arguments (libm_accurate; an instance is proved to meet it). The specification is Rodrigues' formula over the reals."
],
"C91": [
"proved",
"Bit-accurate model; backward error theorem (C91_ray_box) and its two forward corollaries. Complements C55, which is about exact arithmetic."
],
"C92": [
"proved",
"Bit-accurate model. Complements C31, which is about exact arithmetic; composing with C70 gives the mapping theorems."
],
"C93": [
"proved",
"Bit-accurate model; complements the exact-arithmetic theorems on ray-sphere intersection."
],
"C94": [
"proved",
"Bit-accurate model."
],
"C95": [
"proved",
"Bit-accurate model; C32 is the exact-arithmetic counterpart."
],
"C96": [
"proved",
"Bit-accurate model of the picking routine, with the margin as an explicit function of the geometry."
],
"C97": [
"proved",
"Bit-accurate model; the exact-arithmetic counterparts are among the triangle and plane properties above."
],
"C98": [
"proved",
"Bit-accurate model; C51 and C35 are the exact-arithmetic counterparts."
],
"C99": [
"proved",
"Bit-accurate model; C57 is the exact-arithmetic counterpart, C77 the decisions for given planes."
],
"C100": [
"proved",
"Bit-accurate model; C47 and C49 are the exact-arithmetic counterparts. sinf and cosf are parameters, assumed to be within 2^-23; Props_Rot.libm23_ok exhibits such functions."
],
"C101": [
"proved",
"Bit-accurate model; C52 is the exact-arithmetic counterpart. Triangles whose squared area is between the two thresholds are not decided."
],
"C102": [
"proved",
"Bit-accurate model; accuracy of sinf, cosf and acosf is a hypothesis. C43 is the exact-arithmetic counterpart. Which of A and -A is taken when they are equally near up to 2^-19 is not decided."
],
"C103": [
"proved",
"Bit-accurate model; C20 is the exact-arithmetic counterpart of the bounding sphere."
],
"C104": [
"proved",
"Bit-accurate model. The exact inverse is described by its defining property (both products with the matrix are the identity). Excludes NEON's estimated division."
],
"C105": [
"proved",
"Bit-accurate model. Half turns (w = 0) are outside: there the three sign tests compare equal entries and rounding decides."
],
"C106": [
"proved",
"Bit-accurate model. Exact counterpart of the plane part: C50 (Props_PlaneX)."
],
"C107": [
"proved",
"Bit-accurate model. Exact counterpart: C44 (Props_QuatX2)."
],
"C108": [
"proved",
"Bit-accurate model. Exact counterpart: C45 (Props_QuatX2)."
],
"C109": [
"proved",
"Bit-accurate model. The failing case is proved as C109_sse_nan_refuted; the estimate used there at that point is the one an Intel Xeon returns."
],
"C110": [
"proved",
"Bit-accurate model, no hypothesis on the size of the vector. The failing case is proved as C110_sse_above_one_refuted."
],
"C111": [
"proved",
"Bit-accurate model; the accuracy of asinf, atan2f (up to the sign of zero on its cut), sinf and cosf are hypotheses on the library, met by an explicit one in libm_eul_ok."
],
"C112": [
"proved",
"Bit-accurate model; the accuracy of atan2f (and of sinf and cosf for the round trip) is a hypothesis on the library, met by libm_eul_ok. The orders for which the angles are stored where euler_to_matrix does not look are refuted in C48."
],
"C113": [
"proved",
"Bit-accurate model; the accuracy of atan2f is a hypothesis on the library, met by libm_eul_ok. The composed turn is stated for every vector, in exact arithmetic (turn_by, Rodrigues' formula)."
],
"C114": [
"proved",
"Bit-accurate model; induction over the list of steps with the length as the invariant. Unlike C82 there is no condition tying n to the precision. Estimate instructions enter through estimates_ok."
],
"C115": [
"proved",
"Bit-accurate model; no back-end hypothesis. Float addition has no underflow error, so the bound has no absolute term."
],
"C116": [
"proved",
"Bit-accurate model, double precision intermediate included; both parts by induction over the list of factors from the one-step facts of C86. The same does not hold for vecN_interpolate, which computes in single precision (C86_vec_refuted)."
],
"C117": [
"proved",
"Bit-accurate model; induction over the list from the one-step bound of C77_rect_union, with the running union's size as the invariant."
]
}