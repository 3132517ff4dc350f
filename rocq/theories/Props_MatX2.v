(** * Props_MatX2: building matrices in exact arithmetic (C29-C32, C40). *)

From Coq Require Import ZArith Reals Bool List Lra Lia Psatz.
From Flocq Require Import Core.
From Verif Require Import Num Simd Vec Rect Box Mat OrdThy XSetup RMat Props_VecX Props_MatX.
Import ListNotations.
Local Open Scope R_scope.

(** textbook matrices, row-vector convention *)
Definition of_rows (r0 r1 r2 r3 : RV) : RM := fun i => match i with 0 => r0 | 1 => r1 | 2 => r2 | _ => r3 end%nat.
Definition mtrans (x y z : R) : RM := of_rows (vec 1 0 0 0) (vec 0 1 0 0) (vec 0 0 1 0) (vec x y z 1).
Definition mscale (x y z : R) : RM := of_rows (vec x 0 0 0) (vec 0 y 0 0) (vec 0 0 z 0) (vec 0 0 0 1).

(** ** three-dimensional real vectors and Rodrigues' rotation formula *)
Record R3 := V3 { r3x : R; r3y : R; r3z : R }.
Definition dot (u v : R3) : R := r3x u * r3x v + r3y u * r3y v + r3z u * r3z v.
Definition cross (u v : R3) : R3 :=
  V3 (r3y u * r3z v - r3z u * r3y v) (r3z u * r3x v - r3x u * r3z v) (r3x u * r3y v - r3y u * r3x v).
Definition add3 (u v : R3) : R3 := V3 (r3x u + r3x v) (r3y u + r3y v) (r3z u + r3z v).
Definition sub3 (u v : R3) : R3 := V3 (r3x u - r3x v) (r3y u - r3y v) (r3z u - r3z v).
Definition scl3 (k : R) (v : R3) : R3 := V3 (k * r3x v) (k * r3y v) (k * r3z v).
(** v rotated by t radians about the unit vector k, counter-clockwise seen from its tip *)
Definition rodrigues (k : R3) (t : R) (v : R3) : R3 :=
  add3 (add3 (scl3 (cos t) v) (scl3 (sin t) (cross k v))) (scl3 ((1 - cos t) * dot k v) k).
(** the unit vector along v *)
Definition unit3 (v : R3) : R3 := scl3 (/ sqrt (dot v v)) v.
Definition vv3 (v : R3) (w : xreal) : V := v3 (r3x v) (r3y v) (r3z v) w.
Definition pp3 (v : R3) : point3d xreal := pt3 (r3x v) (r3y v) (r3z v).
Lemma V3_eq a b c a' b' c' : a = a' -> b = b' -> c = c' -> V3 a b c = V3 a' b' c'.
Proof. now intros -> -> ->. Qed.
Lemma pt3_eq a b c a' b' c' : a = a' -> b = b' -> c = c' -> pt3 a b c = pt3 a' b' c'.
Proof. now intros -> -> ->. Qed.
Lemma unit3_unit v : 0 < dot v v -> dot (unit3 v) (unit3 v) = 1.
Proof. intros H. rewrite <- (unit_scale (dot v v) H). unfold unit3, dot, scl3; simpl. ring. Qed.
Lemma dot_nonneg v : 0 <= dot v v.
Proof. unfold dot. nra. Qed.

(** facts about the formula itself *)
Lemma sc2 t : sin t * sin t = 1 - cos t * cos t.
Proof. pose proof (sin2_cos2 t). unfold Rsqr in H. lra. Qed.
Lemma rod_axis k t : dot k k = 1 -> rodrigues k t k = k.
Proof.
  destruct k as [x y z]. unfold rodrigues, dot, add3, scl3, cross; simpl. intros H. rewrite H.
  apply V3_eq; ring.
Qed.
Lemma rod_dot k t u v : dot k k = 1 -> dot (rodrigues k t u) (rodrigues k t v) = dot u v.
Proof.
  destruct k as [x y z], u as [a b c], v as [d e f]. unfold rodrigues, dot, add3, scl3, cross; cbn [r3x r3y r3z]. intros H.
  pose proof (sc2 t) as S. set (s := sin t) in * . set (q := cos t) in * . clearbody s q.
  assert (Z : z * z = 1 - x * x - y * y) by lra. 
  ring [Z S].
Qed.
Lemma rod_add k s t v : dot k k = 1 -> rodrigues k s (rodrigues k t v) = rodrigues k (t + s) v.
Proof.
  destruct k as [x y z], v as [a b c]. unfold rodrigues, dot, add3, scl3, cross; cbn [r3x r3y r3z]. intros H.
  rewrite cos_plus, sin_plus.
  assert (Z : z * z = 1 - x * x - y * y) by lra. apply V3_eq; ring [Z].
Qed.
Lemma rod_cross k t u v : dot k k = 1 -> cross (rodrigues k t u) (rodrigues k t v) = rodrigues k t (cross u v).
Proof.
  destruct k as [x y z], u as [a b c], v as [d e f]. unfold rodrigues, dot, add3, scl3, cross; cbn [r3x r3y r3z]. intros H.
  pose proof (sc2 t) as S. set (s := sin t) in * . set (q := cos t) in * . clearbody s q.
  assert (Z : z * z = 1 - x * x - y * y) by lra. apply V3_eq; ring [Z S].
Qed.

(** the matrix of [rodrigues k t], rows are the images of the axes *)
Definition mrot (k : R3) (t : R) : RM :=
  let row v := vec (r3x (rodrigues k t v)) (r3y (rodrigues k t v)) (r3z (rodrigues k t v)) 0 in
  of_rows (row (V3 1 0 0)) (row (V3 0 1 0)) (row (V3 0 0 1)) (vec 0 0 0 1).

Section S.
Context (BK : Backend xreal).

(** ** C29: translate, scale, skew append *)
Lemma mt_translation x y z : gm_translation (Fin x) (Fin y) (Fin z) = mt (mtrans x y z). Proof. reflexivity. Qed.
Lemma mt_scale x y z : gm_scale (Fin x) (Fin y) (Fin z) = mt (mscale x y z). Proof. reflexivity. Qed.
Theorem C29_translate_exact : forall A d p q, affine A ->
  matrix_transform_point3d (mt A) (pp3 p) = pp3 q ->
  matrix_transform_point3d (matrix_translate (mt A) (pp3 d)) (pp3 p) = pp3 (add3 q d).
Proof.
  intros A d p q Af E. unfold matrix_translate, pp3, pt3. cbn [p3x p3y p3z]. rewrite mt_translation.
  pose proof (C25_compose_point3d A (mtrans (r3x d) (r3y d) (r3z d)) (r3x p) (r3y p) (r3z p) Af) as C.
  unfold matrix_multiply in C. unfold pp3, pt3 in * . rewrite C, E. fold (pt3 (r3x q) (r3y q) (r3z q)). rewrite C25_transform_point3d_exact.
  unfold mtrans, of_rows, vec, pt3, add3; cbn [r3x r3y r3z]. xring.
Qed.
Theorem C29_scale_exact : forall A sx sy sz p q, affine A ->
  matrix_transform_point3d (mt A) (pp3 p) = pp3 q ->
  matrix_transform_point3d (matrix_scale (mt A) (Fin sx) (Fin sy) (Fin sz)) (pp3 p) = pt3 (r3x q * sx) (r3y q * sy) (r3z q * sz).
Proof.
  intros A sx sy sz p q Af E. unfold matrix_scale. rewrite mt_scale.
  pose proof (C25_compose_point3d A (mscale sx sy sz) (r3x p) (r3y p) (r3z p) Af) as C.
  unfold matrix_multiply in C. unfold pp3 in * . rewrite C, E, C25_transform_point3d_exact.
  unfold mscale, of_rows, vec, pt3, add3; cbn [r3x r3y r3z]. xring.
Qed.
(** the general form, with the homogeneous coordinate *)
Theorem C29_append_vec4 : forall A d sx sy sz v a b c w,
  matrix_transform_vec4 (mt A) (vv v) = rv a b c w ->
  matrix_transform_vec4 (matrix_translate (mt A) (pp3 d)) (vv v) = rv (a + w * r3x d) (b + w * r3y d) (c + w * r3z d) w /\
  matrix_transform_vec4 (matrix_scale (mt A) (Fin sx) (Fin sy) (Fin sz)) (vv v) = rv (a * sx) (b * sy) (c * sz) w.
Proof.
  intros A d sx sy sz v a b c w E. unfold matrix_translate, matrix_scale, pp3, pt3. cbn [p3x p3y p3z]. rewrite mt_translation, mt_scale.
  pose proof (C25_compose_vec4 A (mtrans (r3x d) (r3y d) (r3z d)) v) as C1. pose proof (C25_compose_vec4 A (mscale sx sy sz) v) as C2.
  unfold matrix_multiply in * . rewrite C1, C2, E. rewrite vv_vec. rewrite !C25_transform_vec4_exact. unfold vv, vmul, sum4, mtrans, mscale, of_rows, vec.
  split; apply rv_eq; ring.
Qed.
(** translations add, scales multiply, whatever the matrix *)
Theorem C29_translations_add : forall A d e,
  matrix_translate (matrix_translate (mt A) (pp3 d)) (pp3 e) = matrix_translate (mt A) (pp3 (add3 d e)) /\
  matrix_translate matrix_init_identity (pp3 d) = matrix_init_translate (pp3 d) /\
  matrix_translate (mt A) (pp3 (V3 0 0 0)) = mt A.
Proof.
  intros A d e. unfold matrix_translate, matrix_init_translate, matrix_init_identity, pp3, pt3. cbn [p3x p3y p3z]. rewrite mt_I, !mt_translation, !mt_mul.
  split; [|split]; apply mt_ext; intros i j Hi Hj; unfold mmul, sum4, mtrans, of_rows, vec, mI, add3; cbn [r3x r3y r3z]; idx4 i Hi; idx4 j Hj; simpl; ring.
Qed.
Theorem C29_scales_multiply : forall A a b c a' b' c',
  matrix_scale (matrix_scale (mt A) (Fin a) (Fin b) (Fin c)) (Fin a') (Fin b') (Fin c') = matrix_scale (mt A) (Fin (a * a')) (Fin (b * b')) (Fin (c * c')) /\
  matrix_scale matrix_init_identity (Fin a) (Fin b) (Fin c) = matrix_init_scale (Fin a) (Fin b) (Fin c) /\
  matrix_scale (mt A) (Fin 1) (Fin 1) (Fin 1) = mt A.
Proof.
  intros. unfold matrix_scale, matrix_init_scale, matrix_init_identity. rewrite mt_I, !mt_scale, !mt_mul.
  split; [|split]; apply mt_ext; intros i j Hi Hj; unfold mmul, sum4, mscale, of_rows, vec, mI; idx4 i Hi; idx4 j Hj; simpl; ring.
Qed.
(** the getters read back what was set *)
Theorem C29_getters : forall x y z a b c,
  let m := matrix_translate (matrix_init_scale (Fin a) (Fin b) (Fin c)) (pt3 x y z) in
  matrix_get_x_translation m = Fin x /\ matrix_get_y_translation m = Fin y /\ matrix_get_z_translation m = Fin z /\
  matrix_get_x_scale m = Fin a /\ matrix_get_y_scale m = Fin b /\ matrix_get_z_scale m = Fin c.
Proof.
  intros. unfold m, matrix_translate, matrix_init_scale, pt3. cbn [p3x p3y p3z]. rewrite mt_scale, mt_translation, mt_mul.
  unfold matrix_get_x_translation, matrix_get_y_translation, matrix_get_z_translation, matrix_get_x_scale, matrix_get_y_scale, matrix_get_z_scale, mt, vv.
  vs. unfold mmul, sum4, mtrans, mscale, of_rows, vec. repeat split; xring.
Qed.
(** skewing PREpends: the point is sheared before the matrix is applied *)
Theorem C29_skew_exact : forall A f x y z,
  matrix_transform_point3d (matrix_skew_xy (mt A) (Fin f)) (pt3 x y z) = matrix_transform_point3d (mt A) (pt3 (x + f * y) y z) /\
  matrix_transform_point3d (matrix_skew_xz (mt A) (Fin f)) (pt3 x y z) = matrix_transform_point3d (mt A) (pt3 (x + f * z) y z) /\
  matrix_transform_point3d (matrix_skew_yz (mt A) (Fin f)) (pt3 x y z) = matrix_transform_point3d (mt A) (pt3 x (y + f * z) z).
Proof.
  intros. set (S := fun g h k => fun i j : nat => if Nat.eqb i 1 then A 1%nat j + g * A 0%nat j else if Nat.eqb i 2 then A 2%nat j + h * A 0%nat j + k * A 1%nat j else A i j).
  assert (E1 : matrix_skew_xy (mt A) (Fin f) = mt (S f 0 0)) by (unfold matrix_skew_xy, mt, vv, S; vs; simpl Nat.eqb; cbv iota; veqs; ring).
  assert (E2 : matrix_skew_xz (mt A) (Fin f) = mt (S 0 f 0)) by (unfold matrix_skew_xz, mt, vv, S; vs; simpl Nat.eqb; cbv iota; veqs; ring).
  assert (E3 : matrix_skew_yz (mt A) (Fin f) = mt (S 0 0 f)) by (unfold matrix_skew_yz, mt, vv, S; vs; simpl Nat.eqb; cbv iota; veqs; ring).
  rewrite E1, E2, E3, !C25_transform_point3d_exact. unfold S, pt3; simpl Nat.eqb; cbv iota. repeat split; xring.
Qed.
Theorem C29_init_skew_exact : forall a b x y z, cos a <> 0 -> cos b <> 0 ->
  matrix_transform_point3d (matrix_init_skew (Fin a) (Fin b)) (pt3 x y z) = pt3 (x + tan a * y) (y + tan b * x) z.
Proof.
  intros a b x y z Ha Hb. unfold matrix_init_skew. rewrite !Xtan by auto.
  change (M4 _ _ _ _) with (mt (of_rows (vec 1 (tan b) 0 0) (vec (tan a) 1 0 0) (vec 0 0 1 0) (vec 0 0 0 1))).
  rewrite C25_transform_point3d_exact. unfold of_rows, vec, pt3. xring.
Qed.

(** ** C30: rotations *)
Lemma X_normalize3 (EB : exact_backend BK) v w : 0 < dot v v -> above_cutoff BK (dot v v) ->
  exists w', g_normalize3 (vv3 v w) = vv3 (unit3 v) w'.
Proof.
  intros P C. unfold g_normalize3, g_dot3, vv3. rewrite X_dot3. fold (dot v v). unfold g_rsqrt, g_splat, map1; cbn [vx vy vz vw].
  rewrite (X_rsqrt BK EB _ P C). eexists. unfold g_mul, map2, v3; cbn [vx vy vz vw]. rewrite !Xmul. unfold unit3, scl3; cbn [r3x r3y r3z].
  f_equal; try reflexivity; f_equal; ring.
Qed.
Lemma mt_rotation (EB : exact_backend BK) t v w : 0 < dot v v -> above_cutoff BK (dot v v) ->
  gm_rotation (Fin t) (vv3 v w) = mt (mrot (unit3 v) t).
Proof.
  intros P C. unfold gm_rotation. destruct (X_normalize3 EB v w P C) as (w' & ->). pose proof (unit3_unit v P) as U. destruct (unit3 v) as [x y z].
  unfold vv3, v3. cbn [vx vy vz vw r3x r3y r3z]. vs. cbn [vx vy vz]. rewrite Xsin, Xcos. vs. rewrite sin_neg, cos_neg.
  unfold mt, vv, mrot, rodrigues, add3, scl3, cross, dot, of_rows, vec; cbn [r3x r3y r3z]. unfold dot in U; cbn [r3x r3y r3z] in U.
  veqs; ring.
Qed.
Theorem C30_rotate_is_rodrigues : forall deg axis w p, exact_backend BK ->
  0 < dot axis axis -> above_cutoff BK (dot axis axis) ->
  let m := matrix_init_rotate (Fin deg) (vv3 axis w) in
  let q := rodrigues (unit3 axis) (deg * PI / 180) p in
  matrix_transform_point3d m (pp3 p) = pp3 q /\ matrix_transform_vec3 m (rv (r3x p) (r3y p) (r3z p) 0) = rv (r3x q) (r3y q) (r3z q) 0.
Proof.
  intros deg axis w p EB P C m q. unfold m, matrix_init_rotate. rewrite X_d2r, mt_rotation by auto.
  replace (deg * (PI / 180)) with (deg * PI / 180) by field.
  unfold pp3. rewrite C25_transform_point3d_exact, C25_transform_vec3_exact.
  unfold q. destruct (unit3 axis) as [x y z]. unfold mrot, rodrigues, add3, scl3, cross, dot, of_rows, vec; cbn [r3x r3y r3z].
  split; [apply pt3_eq; ring|apply rv_eq; ring].
Qed.
(** consequences: isometry, fixed axis, angles add, orientation preserved *)
Theorem C30_rotation_properties : forall axis t s u v, 0 < dot axis axis ->
  let r := rodrigues (unit3 axis) in
  dot (r t u) (r t v) = dot u v /\ r t axis = axis /\ r s (r t u) = r (t + s) u /\ r 0 u = u /\
  cross (r t u) (r t v) = r t (cross u v).
Proof.
  intros axis t s u v P r. unfold r. pose proof (unit3_unit axis P) as U. repeat split.
  - now apply rod_dot.
  - set (n := sqrt (dot axis axis)). assert (Hn : 0 < n) by now apply sqrt_lt_R0.
    assert (E : axis = scl3 n (unit3 axis)).
    { unfold unit3. fold n. destruct axis as [x y z]. unfold scl3; cbn [r3x r3y r3z]. apply V3_eq; field; lra. }
    rewrite E at 2 3. assert (L : forall k v, rodrigues (unit3 axis) t (scl3 k v) = scl3 k (rodrigues (unit3 axis) t v)).
    { intros k [a b c]. unfold rodrigues, add3, scl3, cross, dot; cbn [r3x r3y r3z]. apply V3_eq; ring. }
    rewrite L, rod_axis; auto.
  - now apply rod_add.
  - unfold rodrigues, add3, scl3. rewrite cos_0, sin_0. destruct u; cbn [r3x r3y r3z]. apply V3_eq; ring.
  - now apply rod_cross.
Qed.
Theorem C30_rotation_orthogonal : forall deg axis w, exact_backend BK ->
  0 < dot axis axis -> above_cutoff BK (dot axis axis) ->
  let m := matrix_init_rotate (Fin deg) (vv3 axis w) in
  matrix_multiply m (matrix_transpose m) = matrix_init_identity /\
  exists A, m = mt A /\ affine A /\ det 4 A = 1.
Proof.
  intros deg axis w EB P C m. unfold m, matrix_init_rotate. rewrite X_d2r, mt_rotation by auto.
  pose proof (unit3_unit axis P) as U. set (k := unit3 axis) in * . clearbody k. set (t := deg * (PI / 180)). clearbody t. split.
  - change (matrix_transpose (mt (mrot k t))) with (mt (mtr (mrot k t))). unfold matrix_multiply, matrix_init_identity. rewrite mt_mul, mt_I. apply mt_ext.
    assert (D : forall u v, dot (rodrigues k t u) (rodrigues k t v) = dot u v) by (intros; now apply rod_dot).
    intros i j Hi Hj. unfold mmul, sum4, mtr, mrot. unfold dot in D.
    idx4 i Hi; idx4 j Hj; unfold of_rows, vec, mI; simpl Nat.eqb; cbv iota zeta beta; rewrite ?Rmult_0_l, ?Rmult_0_r, ?Rplus_0_l, ?Rplus_0_r, ?D; cbn [r3x r3y r3z]; ring.
  - exists (mrot k t). split; auto. split; [repeat split|]. 
    assert (K : dot (cross (rodrigues k t (V3 1 0 0)) (rodrigues k t (V3 0 1 0))) (rodrigues k t (V3 0 0 1)) = 1).
    { rewrite rod_cross, rod_dot by auto. unfold dot, cross; cbn [r3x r3y r3z]. ring. }
    etransitivity; [|exact K]. rewrite det4. unfold mrot, of_rows, vec. cbv zeta. unfold dot, cross; cbn [r3x r3y r3z].
    generalize (rodrigues k t (V3 1 0 0)) (rodrigues k t (V3 0 1 0)) (rodrigues k t (V3 0 0 1)). intros. ring.
Qed.
(** rotating appends, and rotate_x/y/z turn about the coordinate axes *)
Theorem C30_rotate_appends : forall A deg axis w p q, exact_backend BK ->
  0 < dot axis axis -> above_cutoff BK (dot axis axis) -> affine A ->
  matrix_transform_point3d (mt A) (pp3 p) = pp3 q ->
  matrix_transform_point3d (matrix_rotate (mt A) (Fin deg) (vv3 axis w)) (pp3 p) = pp3 (rodrigues (unit3 axis) (deg * PI / 180) q).
Proof.
  intros A deg axis w p q EB P C Af E. unfold matrix_rotate, matrix_rotate_internal. rewrite X_d2r, mt_rotation by auto.
  replace (deg * (PI / 180)) with (deg * PI / 180) by field.
  pose proof (C25_compose_point3d A (mrot (unit3 axis) (deg * PI / 180)) (r3x p) (r3y p) (r3z p) Af) as C1.
  unfold matrix_multiply in C1. unfold pp3 in * . rewrite C1, E, C25_transform_point3d_exact.
  destruct (unit3 axis) as [x y z]. unfold mrot, rodrigues, add3, scl3, cross, dot, of_rows, vec; cbn [r3x r3y r3z]. apply pt3_eq; ring.
Qed.
Lemma unit3_id v : dot v v = 1 -> unit3 v = v.
Proof. intros H. unfold unit3. rewrite H, sqrt_1. destruct v; unfold scl3; cbn [r3x r3y r3z]. apply V3_eq; field. Qed.
Theorem C30_rotate_xyz : forall A deg, exact_backend BK ->
  matrix_rotate_x (mt A) (Fin deg) = matrix_rotate (mt A) (Fin deg) (vv3 (V3 1 0 0) (Fin 0)) /\
  matrix_rotate_y (mt A) (Fin deg) = matrix_rotate (mt A) (Fin deg) (vv3 (V3 0 1 0) (Fin 0)) /\
  matrix_rotate_z (mt A) (Fin deg) = matrix_rotate (mt A) (Fin deg) (vv3 (V3 0 0 1) (Fin 0)).
Proof. repeat split. Qed.
(** a quarter turn about z takes the x axis to the y axis *)
Theorem C30_handedness : exact_backend BK ->
  matrix_transform_point3d (matrix_init_rotate (Fin 90) (vv3 (V3 0 0 1) (Fin 0))) (pt3 1 0 0) = pt3 0 1 0.
Proof.
  intros EB. assert (D : dot (V3 0 0 1) (V3 0 0 1) = 1) by (unfold dot; cbn [r3x r3y r3z]; ring).
  change (pt3 1 0 0) with (pp3 (V3 1 0 0)).
  destruct (C30_rotate_is_rodrigues 90 (V3 0 0 1) (Fin 0) (V3 1 0 0) EB) as [E _].
  - rewrite D; lra.
  - intros _. rewrite D. unfold eps; lra.
  - rewrite E, unit3_id by auto. replace (90 * PI / 180) with (PI / 2) by field.
    unfold rodrigues, dot, cross, add3, scl3, pp3, pt3; cbn [r3x r3y r3z]. rewrite cos_PI2, sin_PI2. xring.
Qed.
End S.
