# Formal model of graphene in Rocq (Coq 8.16.1)

## 1. Shape of the development

The code is modelled once, function by function, over an abstract record of
floating point operations (`FOps`, rocq/theories/Num.v) and a build-time choice of
SIMD back end (`Backend`, Simd.v).  The same Gallina text is interpreted in two
number systems:

* `b32`: IEEE-754 binary32 as formalised by Flocq (`BinarySingleNaN`): rounding to
  nearest even, infinities, signed zeros, denormals, one NaN.  This is what the
  compiled C does.  Theorems about ordering, fuzz, NaN, overflow and "never loses a
  point" are proved here, for **all** bit patterns.
* `xreal`: exact reals with `PInf`, `NInf` and a separate `Undef` result (0/0, x/0,
  sqrt of a negative number, asin outside [-1,1]).  It is the code with rounding
  removed.  Algebraic laws that no floating point program satisfies exactly
  (associativity of matrix products, inverses, ...) are stated here; a theorem in
  `xreal` whose conclusion is an equation with a `Fin` value also says that the
  evaluation is defined (no division by zero on the way).

C output parameters become returned values; a boolean-returning function with an
output parameter becomes a pair or an `option`; reading past the end of a caller's
array, reading uninitialised memory and indexing out of bounds are `None`.  Pointer
identity, where a function tests it, is an explicit boolean argument.  In-place use
(`res == a`) is treated separately in Alias.v on a field-granular memory.

| File | Models |
|---|---|
| Num.v | C float/double operators, math.h, MIN/MAX/CLAMP/fuzzy macros of graphene-private.h |
| Simd.v | graphene-simd4f.h/.c: the scalar, GCC-vector, SSE (2, 4.1, FMA) and NEON back ends |
| Neon.v | graphene-simd4f.h, ARM NEON: the reciprocal, reciprocal-square-root and square-root sequences, step by step |
| Intrin.v | graphene-simd4f.h (SSE, NEON, GCC vector macros) and graphene-simd4x4f.h (transpose) as instruction sequences over registers of four 32-bit words |
| Vec.v | graphene-vectors.c |
| Rect.v | graphene-point.c, -size.c, -point3d.c, -rect.c |
| Box.v | graphene-box.c, graphene-box2d.c/.h |
| Mat.v | graphene-simd4x4f.h/.c, graphene-matrix.c without decomposition |
| Geo.v | graphene-plane.c, -sphere.c, -triangle.c, -ray.c, -frustum.c, -quad.c, line-segment-private.h |
| Quat.v | graphene-quaternion.c, -euler.c, matrix decomposition and interpolation |
| Alloc.v | graphene-alloc.c and every `*_alloc`/`*_free` pair, over a specification of the C allocator |
| Gobject.v | graphene-gobject.c: the boxed copy functions and the threads calling the `*_get_type` functions |
| Once.v | the lazily initialised constant tables and threads calling their accessors |
| Alias.v | the store-by-store order of functions whose output may alias an input |

Every definition of these files carries the file and lines it models (or says that it has
no C counterpart).  Specification vocabulary that mentions no model helper:

| File | Vocabulary |
|---|---|
| RMat.v | textbook 4x4 real matrices: product, determinant by cofactors, transpose |
| RGeo.v | real 3-vectors: dot, cross, length, planes |
| RQuat.v | Hamilton's quaternions over the reals |
| TrigThy.v | facts about the real atan2 and multiples of pi |
| BoxThy.v | axis-aligned boxes as sets of points |
| Hist.v | the vectors and boxes a program can obtain by any history of API calls |
| OrdThy.v, FloatThy.v, FloatLem.v, GeoBase.v, XSetup.v, B32Setup.v | order laws, rounding, exact evaluation: proof infrastructure, no specification |

The theorems named in MANIFEST.json are the `Theorem Cnn_...` of the Props_*.v files
(suffix X: exact arithmetic), next to examples that meet their hypotheses.  Names ending in
`_refuted` are machine-checked counterexamples to the part of an English claim that the
code does not satisfy; `_partial` marks a theorem that proves only part of its property.
tools/manifest.py regenerates MANIFEST.json, tools/assumptions.py regenerates
ASSUMPTIONS.md.  seeded/LOG.jsonl records the mutation tests (section 6).

## 2. Plan per property

`G` = proved generically for every number system with a total order on non-NaN
values and instantiated to `b32`; `B` = proved in `b32` with Flocq's correctness
theorems; `X` = proved in `xreal` by real algebra; `W` = a counterexample computed in
`b32` (or in `xreal`) for the part of the English claim the code does not satisfy.

| id | model | plan |
|---|---|---|
| C01 | Vec | unfolding over arbitrary lists; generic in F |
| C02 | Simd, Vec | G: case analysis on comparisons, per back end |
| C03 | Vec | induction over expression trees of API calls; B for the zero lane; W for divide |
| C04 | Vec | X with rsqrt = 1/sqrt; W scalar threshold |
| C05 | Vec | B: x-x = 0, Bminus antisymmetric, squares equal |
| C06, C07 | Vec | X ring identities, Cauchy-Schwarz; B commutativity of Bplus/Bmult |
| C08 | Rect, Vec | B: end points; X: convexity |
| C09 | Vec, Simd | B: every lane against exact arithmetic followed by one rounding; W for the scalar division |
| C10 | Rect | G: idempotence of normalisation, congruence of every query |
| C11-C16 | Rect | X: reals; B where rounding is monotone; W |
| C17-C22 | Box | G lattice theory of boxes, induction over lists; W for the special cases |
| C23, C24 | Mat | B: monotonicity of rounding in each coordinate; X for the rest |
| C25-C31 | Mat | X: ring/field, trigonometric identities |
| C32 | Mat | X under general position |
| C33, C34 | Mat | B: conversions; generic case analysis |
| C35-C37 | Mat | X |
| C38, C40 | Mat | B |
| C39 | Quat | X: Gram-Schmidt |
| C41-C49 | Quat | X: ring, trigonometry, atan2 |
| C50-C56 | Geo | X: real geometry |
| C57 | Geo | B monotone dot product; X for spheres and matrices |
| C58 | Geo | X, B |
| C59 | Simd | B: lane by lane, bit-accurate; W for the scalar equality |
| C60 | Alloc | arithmetic modulo SIZE_MAX+1; specification of the five system allocators |
| C61 | Once | small-step interleaving semantics, invariant, any number of threads |
| C62 | Alias | memory as a map from cells to values, equal-or-disjoint objects; W for the calls that break |
| C63 | Vec | case analysis |
| C64 | all | X: equal results for any two exact back ends; W for the differences |
| C65, C66 | Rect | X and B |
| C67 | Mat | X |
| C68 | Quat | X; W (interpolation ignores the blended translation) |
| C69 | Alloc | histories of alloc, store, free; invariant |
| C70 | Simd, Neon, Vec, Mat | B: standard model of rounding errors; Newton steps for the estimates |
| C71 | all types | B: soundness and completeness of each equality function from those of the vector comparisons |
| C72 | all types | B: evaluation; the ray copy from the C70 bounds |
| C73 | Quat | B: case analysis over the orders, rounding bounds; X: exact |
| C74 | Mat | B: lane operations; X: ring identities, left inverse of an orthonormal matrix |
| C75 | Mat, Geo | X: affine image of the corners, C24 and C36 |
| C76 | Box, Rect | B: correctly rounded lane operations |
| C77 | Rect, Geo | B: rounding-error analysis (ErrThy, ErrEx, C70) of each decision against the exact real geometry |
| C78 | Intrin, Simd, Neon | B: words decoded as binary32; each intrinsic sequence is shown equal, lane by lane, to the back end's branch of Simd |
| C79 | Gobject, Alloc | heap of Alloc.v; structure assignment with unspecified padding; the copy is shown to be a history of allocation and stores, so that C69 applies |
| C80 | Gobject | transition system of threads inside get_type, GLib's once and registry by specification; one inductive invariant; progress by running the initialising thread |
| C81 | Vec, Geo, Quat | ErrEx: expression trees with their float value, real value and a closed error bound; each result is the float value of a tree |
| C82 | Quat | C81's product bound in Euclidean norm; the norm is multiplicative; induction over the chain |
| C83 | Mat, Quat | the generic model is run on expression trees (ErrEx), which yields the tree of operations of every lane; real values compared with determinant and adjugate by ring; division error propagated by hand |
| C84 | Mat, Box, Rect | C70 for each vertex, the fold of exact lane minima and maxima, and an affine map of a box takes its extremes at vertices |
| C85 | Mat, Quat | C70's bound for one product as an invariant of the chain; row-sum and Frobenius norms; rotm of a near-unit quaternion is a rotation plus (1-N)I |
| C86 | Rect, Vec | binary64 error bounds; the double expression is monotone in both operands and within 2^-50 of a constant for equal operands, which therefore rounds back to it |
| C87 | Rect | a multiple of 2^k of at most 2^24 steps is a float, so each rounded operation returns its exact result; induction on the history |
| C88 | Mat, Rect | as C87: every product and partial sum is a multiple of the grid step below 2^24 steps, hence exact in any order; induction on the history |
| C89 | Geo | monotonicity of correctly rounded subtraction, product, sum and square root in the extended reals; slab accumulators as NaN-ignoring maxima and minima; the frustum case reduces to C57 plane by plane |
| C90 | Mat, Quat | normalisation accuracy (C70), Lipschitz sine and cosine, forward error of each entry against Rodrigues' formula, isometry of the exact turn; induction over the history in Frobenius norm |
| C91 | Geo, Simd, Neon | reciprocal accuracy extended to negative numbers by sign symmetry of the refinement steps; each face's parameter is the exact one of a nearby face; the slab test on extended reals is exact, with NaN bounds as no constraint |
| C92 | Mat, Simd | relative error of a quotient of sums; tangent of a perturbed angle by the addition formula, conditioning 1 + cot^2; mapping by C70 |
| C93 | Geo, Vec, Simd | real-arithmetic core on perturbed dot products (Cauchy-Schwarz), then rounding errors of the C code's steps |
| C94 | Geo, Vec, Simd | quadratic along the ray is minimal near the computed parameter; residual of the rounded quotient |
| C95 | Mat, Simd | norm bounds for subtraction, normalisation and cross product; perturbed directions turn by at most twice the relative error |
| C96 | Geo, Vec, Simd | norm bounds on the three float triple products; Cramer's rule for the exact crossing; each comparison then decides up to the margin |
| C97 | Geo, Vec, Simd | norm bound on the float cross product of the edges, then direction perturbation (as C95) and the length and normalisation bounds of C70 |
| C98 | Geo, Mat, Box | induction over the list for the running maximum; squared-distance bounds of C77, square roots halve the relative error; quadratic-form bound for nearly orthogonal rows |
| C99 | Geo, Mat, Vec | one rounding per coefficient, then the float normalisation of C97; the planes' errors composed with the decision theorems of C77 |
| C100 | Quat, Mat, Simd | the 30 orders' entries as one polynomial formula over any number type, instantiated at floats and reals; error calculus for products of numbers in [-1,1]; exact halving; generic induction for products of near-isometries |
| C101 | Geo, Vec, Simd | error of a dot product and of a 2x2 determinant of dot products relative to the norms, quotient of determinants; Lagrange's identity bounds the numerators; monotone rounding for the comparison with 1 |
| C102 | Quat, Simd | the weights are cos(t x) and sin(t x)/sin x: both are Lipschitz in cos x (monotonicity by derivatives), so the error of the dot product is not amplified; the error of the reciprocal square root multiplies b - (a.b) a, which is of size sin theta |
| C103 | Geo, Box, Vec, Simd | the distance is the length of the difference to the nearest point of C94, whose squared distance is minimal up to a second-order term; error of subtraction and length, with a separate case for lengths under 2^-50 where the squares underflow |
| C104 | Mat, Simd | entrywise error of the inverse (C83) carried through products and point transformations (C70); uniqueness of the inverse; rows of the identity give the exact preimage of a planar matrix |
| C105 | Quat, Mat | each diagonal sum is 4 v^2 up to 3d plus rounding; \|r - \|v\|\| (r + \|v\|) bounds the error of the root; a wrong sign test forces \|v\| <= d/(2\|w\|); Lipschitz bound of the rotation entries plus C83 for the round trip |
| C106 | Mat, Geo, Vec | the errors of C70 follow the vector of term sizes, whose length is at most \|M\|\|v\| (Cauchy); normalisation at most doubles a relative error (C95); the plane's error is split at the image of its foot; the transposed inverse is a normal matrix up to the errors of C83 |
| C107 | Quat | half angles are exact down to subnormals, sines and cosines are 1-Lipschitz, products of numbers near the unit interval add their errors; the matrix follows from C83 and a Lipschitz bound |
| C108 | Quat | the error bound of C70 for the rsqrt lane, a bound on the norm of a nearly unit quaternion; the arc cosine is 1/s-Lipschitz away from 1 (mean value); the guard on small sines is compared in binary64 and shown off; the round trip uses C90 |
| C109 | Quat, Simd | rounding is monotone, so the computed norm is not below the rounded square of any component; the root of a rounded square is not below the float (predecessor argument); w times a rounded 1/h is at most 1 + 2^-24, which rounds to 1; counterexample on SSE by computation |
| C110 | Vec, Simd | as C109; an infinite sum of squares gives zero components, and the guard on the length excludes sums below 2^-50 |
| C111 | Quat | the arguments of atan2f and asinf are entries of a rotation matrix with rounding errors; nearby vectors of length c have angles within their distance over c (arc tangent is 1-Lipschitz); rotations with equal entries are equal (C44) |
| C112 | Quat | as C111 with the entries of the matrix for the arguments; the nine entries of the product depend only on the sines and cosines of the angles, which C48 gives |
| C113 | Quat | the matrix of a quaternion near Q is near the rotation of Q (C107), so C112 applies; both sides are linear, so agreeing on the axes they agree on every vector |
| C114 | Quat | C82's product bound and C108's normalisation bound, as vectors, give a step that restores the length and moves the direction by 53 units; multiplication by a unit quaternion is an isometry, so the errors add up over the list |
| C115 | Vec, Rect | induction over the list of moves with the error of one addition (relative only, no underflow term); reorderings and undoing by permutation of the exact sums |
| C116 | Rect | one step stays between the current state and the target and is within one rounding of the exact step (C86); induction over the factors |
| C117 | Rect | invariant: the running union's edges are the extreme edges up to k roundings, hence its size is below 4M and C77_rect_union applies to the next step |

Nothing on the list is considered inexpressible.

## 3. Trusted base

* Coq's kernel (8.16.1), and coqchk as run by `vcheck`.
* Axioms, all of the standard library: `ClassicalDedekindReals.sig_forall_dec`,
  `ClassicalDedekindReals.sig_not_dec`,
  `FunctionalExtensionality.functional_extensionality_dep`, `Classical_Prop.classic` (the
  last only through Flocq's lemmas on rounding and through the classical part of Reals).
  ASSUMPTIONS.md gives the output of Print Assumptions for each theorem, in four groups.
  No axiom of our own, no plugin, no kernel check switched off.
* The reading of the C sources into Gallina.
* About the compiled code: binary32 float and binary64 double, no FMA contraction except
  where the code calls an FMA intrinsic, no excess precision, round to nearest; NaN
  payloads and signs are not observable.
* libm functions (sin, cos, tan, asin, acos, atan2) are an arbitrary oracle in `b32` and
  the real functions in `xreal`; `xreal` reads GRAPHENE_PI as pi and has no signed zero
  (x/0 is `Undef`).
* NEON's estimate-and-refine sequences are arbitrary lane functions, except in C70, where
  Neon.v models them step by step; the hardware's initial estimates are arbitrary functions,
  assumed in C70 to meet the relative error bounds the vendors' manuals give.  SSE's
  estimates are likewise arbitrary (C70: 1.5 * 2^-12, Intel's bound).  The exact theorems that need a reciprocal or a
  reciprocal square root assume `exact_backend` (the estimates are exact).
* C78: what each vector instruction does (Intrin.v, from Intel's and Arm's descriptions);
  its arithmetic units round to nearest even and may return any NaN.
* C61: pthread_once and InitOnceExecuteOnce behave as specified and do not fail; memory is
  sequentially consistent, which C11 grants to programs without data races
  (C61_no_data_race proves there are none in the once-builds).
* C60/C69: the system allocators behave as specified (fail, or return a fresh aligned block).
* C62: memory is a flat array of floats; objects are equal or disjoint, as C's effective
  type rules and the library's documentation require, or overlap where a theorem says so.

## 4. Not modelled

the enum-registration macro of graphene-gobject.c (it has no instance), version macros, the MSVC spellings
of the intrinsics (the same sequences as the GCC ones), debug printing (`graphene_matrix_print`),
the run-time representation of `bool`.  g_return_if_fail-style precondition checks on NULL
(graphene has none on these paths).

## 5. How statements relate to the English properties

A theorem about exact arithmetic says what the algorithm computes; it does not bound the
rounding error of the compiled code.  Claims about containment, ordering, symmetry,
idempotence, NaN and overflow are proved for all binary32 inputs instead, where the code
satisfies them; where rounding breaks the claim a `_refuted` theorem shows the input.

## 6. Mutation tests

seeded/LOG.jsonl has one line per edit of the model: the edited definition, the edit, the
claims it breaks and the theorems whose proof no longer goes through.  The edits are applied
to a scratch copy in which every unaffected proof is admitted and every proof that could see
the edited definition is replayed.  Survivors led to the tightened theorems named in the log.
