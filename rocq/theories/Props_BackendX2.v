(** * Props_BackendX2: the back ends compute the same exact functions, group 3 (C64).

    Operations that use the square root, division, reciprocal or reciprocal square root of
    the back end.  B1 and B2 are any two back ends with exact estimates; operands are real;
    [above_cutoff B n] excludes, for the scalar back end only, the operands it treats as
    zero. *)
From Coq Require Import ZArith Reals Bool List Lra Lia Psatz.
From Flocq Require Import Core.
From Verif Require Import Num Simd Vec Rect Box Mat Geo Quat OrdThy XSetup RMat Props_VecX Props_MatX Props_MatX2 Props_MatX3 Props_MatX4 RQuat TrigThy Props_QuatX Props_QuatX2 Props_DecompX Props_BackendX.
Import ListNotations.
Local Open Scope R_scope.

(** a squared length both back ends treat alike: not between the square of the
    normalisation threshold and the scalar back end's cut-off *)
Definition regular (B1 B2 : Backend xreal) (n : R) : Prop := sqrt n <= eps \/ above_cutoff B1 n /\ above_cutoff B2 n.

Section Same3.
Context (B1 B2 : Backend xreal) (E1 : exact_backend B1) (E2 : exact_backend B2).

Lemma sqrt_same n : 0 <= n -> lane_sqrt (B:=B1) (Fin n) = lane_sqrt (B:=B2) (Fin n).
Proof. intros H. now rewrite (X_lane_sqrt B1 E1), (X_lane_sqrt B2 E2). Qed.
Lemma rsqrt_same n : 0 < n -> above_cutoff B1 n -> above_cutoff B2 n -> lane_rsqrt (B:=B1) (Fin n) = lane_rsqrt (B:=B2) (Fin n).
Proof. intros H C1 C2. now rewrite (X_rsqrt B1 E1), (X_rsqrt B2 E2). Qed.
Lemma norm3_same x y z w : 0 < x * x + y * y + z * z -> above_cutoff B1 (x * x + y * y + z * z) -> above_cutoff B2 (x * x + y * y + z * z) ->
  g_normalize3 (B:=B1) (v3 x y z w) = g_normalize3 (B:=B2) (v3 x y z w).
Proof.
  intros P C1 C2. unfold g_normalize3, g_dot3. rewrite !X_dot3. unfold g_rsqrt, map1, g_splat; cbn [vx vy vz vw].
  now rewrite rsqrt_same.
Qed.
Lemma norm4_same x y z w : let n := x * x + y * y + (z * z + w * w) in 0 < n -> above_cutoff B1 n -> above_cutoff B2 n ->
  g_normalize4 (B:=B1) (rv x y z w) = g_normalize4 (B:=B2) (rv x y z w).
Proof.
  intros n P C1 C2. unfold g_normalize4. rewrite !X_dot4. unfold g_rsqrt, map1, g_splat; cbn [vx vy vz vw]. fold n.
  now rewrite rsqrt_same.
Qed.
Lemma len3_same x y z w : vec3_length (B:=B1) (v3 x y z w) = vec3_length (B:=B2) (v3 x y z w).
Proof. now rewrite !X_len3. Qed.
Lemma len2_same x y z w : vec2_length (B:=B1) (v2 x y z w) = vec2_length (B:=B2) (v2 x y z w).
Proof. now rewrite !X_len2. Qed.

Theorem C64_length : forall x y z w hz hw p q,
  vec2_length (B:=B1) (V4 (Fin x) (Fin y) hz hw) = vec2_length (B:=B2) (V4 (Fin x) (Fin y) hz hw) /\
  vec3_length (B:=B1) (V4 (Fin x) (Fin y) (Fin z) hw) = vec3_length (B:=B2) (V4 (Fin x) (Fin y) (Fin z) hw) /\
  vec4_length (B:=B1) (rv x y z w) = vec4_length (B:=B2) (rv x y z w) /\
  point3d_length (B:=B1) (pt3 x y z) = point3d_length (B:=B2) (pt3 x y z) /\
  point_distance (B:=B1) false (Pt (Fin x) (Fin y)) (Pt (Fin z) (Fin w)) p q =
  point_distance (B:=B2) false (Pt (Fin x) (Fin y)) (Pt (Fin z) (Fin w)) p q.
Proof.
  intros. repeat split.
  - apply (len2_same x y hz hw).
  - apply (len3_same x y z hw).
  - change rv with v4. now rewrite !X_len4.
  - apply (len3_same x y z (Fin 0)).
  - unfold point_distance. change (point_diff _ _) with (v2 (x - z) (y - w) (Fin (0 - 0)) (Fin (0 - 0))). f_equal. f_equal.
    apply (len2_same (x - z) (y - w)).
Qed.
Theorem C64_point3d_distance : forall x y z x' y' z',
  point3d_distance (B:=B1) (pt3 x y z) (pt3 x' y' z') = point3d_distance (B:=B2) (pt3 x y z) (pt3 x' y' z').
Proof.
  intros. unfold point3d_distance. change (vec3_subtract _ _) with (v3 (x - x') (y - y') (z - z') (Fin (0 - 0))).
  cbv zeta. now rewrite len3_same.
Qed.
Lemma reg_cases n : 0 <= n -> regular B1 B2 n -> sqrt n <= eps \/ (eps < sqrt n /\ 0 < n /\ above_cutoff B1 n /\ above_cutoff B2 n).
Proof.
  intros H0 [H|[H H']]; auto. destruct (Rle_lt_dec (sqrt n) eps) as [L|L]; auto. right. repeat split; auto. now apply sqrt_gt_eps.
Qed.
Theorem C64_normalize : forall x y z w hz hw,
  (regular B1 B2 (x * x + y * y) ->
   vec2_normalize (B:=B1) (V4 (Fin x) (Fin y) hz hw) = vec2_normalize (B:=B2) (V4 (Fin x) (Fin y) hz hw)) /\
  (regular B1 B2 (x * x + y * y + z * z) ->
   vec3_normalize (B:=B1) (V4 (Fin x) (Fin y) (Fin z) hw) = vec3_normalize (B:=B2) (V4 (Fin x) (Fin y) (Fin z) hw)) /\
  (regular B1 B2 (x * x + y * y + (z * z + w * w)) ->
   vec4_normalize (B:=B1) (rv x y z w) = vec4_normalize (B:=B2) (rv x y z w)).
Proof.
  intros. repeat split; intros R; apply reg_cases in R; try nra.
  - change (V4 (Fin x) (Fin y) hz hw) with (v2 x y hz hw). unfold vec2_normalize. rewrite !X_len2, Xabs, xeps by auto. rewrite Rabs_pos_eq by apply sqrt_pos.
    destruct R as [L|(L & P & C1 & C2)]; [now rewrite Xlt_f|]. rewrite Xlt_t by auto.
    unfold g_normalize2, g_dot2, g_mul at 1 3, g_rsqrt, map1, map2, g_add, g_splat_x, g_splat_y, g_splat, v2; cbn [vx vy vz vw g_mul map2]. rewrite !Xmul, !Xadd.
    now rewrite rsqrt_same.
  - change (V4 (Fin x) (Fin y) (Fin z) hw) with (v3 x y z hw). unfold vec3_normalize. rewrite !X_len3, Xabs, xeps by auto. rewrite Rabs_pos_eq by apply sqrt_pos.
    destruct R as [L|(L & P & C1 & C2)]; [now rewrite Xlt_f|]. rewrite Xlt_t by auto. now apply norm3_same.
  - change rv with v4. unfold vec4_normalize. rewrite !X_len4, Xabs, xeps by auto. rewrite Rabs_pos_eq by apply sqrt_pos.
    destruct R as [L|(L & P & C1 & C2)]; [now rewrite Xlt_f|]. rewrite Xlt_t by auto. now apply norm4_same.
Qed.
(** the scalar back end's cut-off applies to each divisor *)
Definition big (B : Backend xreal) (d : R) : Prop := d <> 0 /\ above_cutoff B (Rabs d).
Theorem C64_divide : forall x y z w x' y' z' w',
  big B1 x' -> big B2 x' -> big B1 y' -> big B2 y' -> big B1 z' -> big B2 z' -> big B1 w' -> big B2 w' ->
  vec4_divide (B:=B1) (rv x y z w) (rv x' y' z' w') = vec4_divide (B:=B2) (rv x y z w) (rv x' y' z' w').
Proof.
  intros x y z w x' y' z' w' [X C1] [_ C2] [Y D1] [_ D2] [Z F1] [_ F2] [W G1] [_ G2].
  unfold vec4_divide, g_div, map2. rewrite !rv_x, !rv_y, !rv_z, !rv_w.
  now rewrite !(X_div B1 E1), !(X_div B2 E2) by assumption.
Qed.
Theorem C64_divide_vec3 : forall x y z w x' y' z' w' get, In get [vec3_get_x; vec3_get_y; vec3_get_z] ->
  big B1 x' -> big B2 x' -> big B1 y' -> big B2 y' -> big B1 z' -> big B2 z' ->
  get (vec3_divide (B:=B1) (V4 (Fin x) (Fin y) (Fin z) w) (V4 (Fin x') (Fin y') (Fin z') w')) =
  get (vec3_divide (B:=B2) (V4 (Fin x) (Fin y) (Fin z) w) (V4 (Fin x') (Fin y') (Fin z') w')).
Proof.
  intros x y z w x' y' z' w' get Hg [X C1] [_ C2] [Y D1] [_ D2] [Z F1] [_ F2].
  unfold vec3_divide, g_div, map2; cbn [vx vy vz vw]. rewrite !(X_div B1 E1), !(X_div B2 E2) by assumption.
  destruct Hg as [<-|[<-|[<-|[]]]]; reflexivity.
Qed.
Theorem C64_inverse : forall A, (is_scalar B1 = true \/ is_scalar B2 = true -> Rabs (det 4 A) <> eps) ->
  matrix_inverse (B:=B1) (mt A) = matrix_inverse (B:=B2) (mt A).
Proof.
  intros A H. unfold matrix_inverse. destruct (Rlt_le_dec (Rabs (det 4 A)) eps) as [L|L].
  - now rewrite !mt_inverse_f.
  - rewrite !mt_inverse_t; auto; intros S; assert (Rabs (det 4 A) <> eps) by (apply H; auto); lra.
Qed.
(** everything computed through the inverse *)
Theorem C64_through_inverse : forall A M p, (is_scalar B1 = true \/ is_scalar B2 = true -> Rabs (det 4 A) <> eps) ->
  matrix_is_backface_visible (B:=B1) (mt A) = matrix_is_backface_visible (B:=B2) (mt A) /\
  matrix_unproject_point3d (B:=B1) (mt A) M p = matrix_unproject_point3d (B:=B2) (mt A) M p.
Proof.
  intros A M p H. apply C64_inverse in H. unfold matrix_inverse in H. unfold matrix_is_backface_visible, matrix_unproject_point3d. now rewrite H.
Qed.
Theorem C64_untransform : forall A p x y w h r, (is_scalar B1 = true \/ is_scalar B2 = true -> Rabs (det 4 A) <> eps) ->
  let bounds := mkrect (Fin x) (Fin y) (Fin w) (Fin h) in
  matrix_untransform_point (B:=B1) (mt A) p bounds = matrix_untransform_point (B:=B2) (mt A) p bounds /\
  (matrix_is_2d (mt A) = true ->
   matrix_untransform_bounds (B:=B1) (mt A) bounds r = matrix_untransform_bounds (B:=B2) (mt A) bounds r).
Proof.
  intros A p x y w h r H bounds. pose proof (C64_inverse A H) as E. split.
  - unfold matrix_untransform_point, bounds. rewrite E, (C64_transform_bounds B1 B2). reflexivity.
  - intros T. unfold matrix_untransform_bounds, bounds. rewrite E, T. destruct (Rlt_le_dec (Rabs (det 4 A)) eps) as [L|L].
    + unfold matrix_inverse. now rewrite mt_inverse_f.
    + unfold matrix_inverse. rewrite mt_inverse_t by (auto; intros S; assert (Rabs (det 4 A) <> eps) by (apply H; auto); lra).
      now rewrite (C64_transform_bounds B1 B2).
Qed.
(** rotations about an axis *)
Theorem C64_rotate : forall M t v w, 0 < dot v v -> above_cutoff B1 (dot v v) -> above_cutoff B2 (dot v v) ->
  matrix_init_rotate (B:=B1) (Fin t) (vv3 v w) = matrix_init_rotate (B:=B2) (Fin t) (vv3 v w) /\
  matrix_rotate (B:=B1) M (Fin t) (vv3 v w) = matrix_rotate (B:=B2) M (Fin t) (vv3 v w) /\
  quaternion_init_from_angle_vec3 (B:=B1) (Fin t) (vv3 v w) = quaternion_init_from_angle_vec3 (B:=B2) (Fin t) (vv3 v w).
Proof.
  intros M t v w P C1 C2. assert (N : g_normalize3 (B:=B1) (vv3 v w) = g_normalize3 (B:=B2) (vv3 v w)) by (now apply norm3_same).
  unfold matrix_init_rotate, matrix_rotate, matrix_rotate_internal, gm_rotation, quaternion_init_from_angle_vec3. rewrite !N. repeat split.
Qed.
Theorem C64_rotate_axes : forall M t,
  matrix_rotate_x (B:=B1) M (Fin t) = matrix_rotate_x (B:=B2) M (Fin t) /\
  matrix_rotate_y (B:=B1) M (Fin t) = matrix_rotate_y (B:=B2) M (Fin t) /\
  matrix_rotate_z (B:=B1) M (Fin t) = matrix_rotate_z (B:=B2) M (Fin t).
Proof.
  intros M t.
  assert (K : forall B, above_cutoff B 1) by (intros B _; unfold eps; lra).
  assert (N : forall x y z, x * x + y * y + z * z = 1 -> g_normalize3 (B:=B1) (v3 x y z (Fin 0)) = g_normalize3 (B:=B2) (v3 x y z (Fin 0))).
  { intros x y z H. apply norm3_same; rewrite H; auto. lra. }
  unfold matrix_rotate_x, matrix_rotate_y, matrix_rotate_z, matrix_rotate_internal, gm_rotation.
  change (g_init fone fzero fzero fzero) with (v3 1 0 0 (Fin 0)). change (g_init fzero fone fzero fzero) with (v3 0 1 0 (Fin 0)).
  change (g_init fzero fzero fone fzero) with (v3 0 0 1 (Fin 0)). rewrite !N by ring. repeat split.
Qed.
Theorem C64_quaternion_normalize : forall x y z w, let n := x * x + y * y + (z * z + w * w) in
  0 < n -> above_cutoff B1 n -> above_cutoff B2 n ->
  let q := Qt (Fin x) (Fin y) (Fin z) (Fin w) in
  quaternion_normalize (B:=B1) q = quaternion_normalize (B:=B2) q /\
  quaternion_to_angle_vec3 (B:=B1) q = quaternion_to_angle_vec3 (B:=B2) q.
Proof.
  intros x y z w n P C1 C2 q. assert (N : quaternion_normalize (B:=B1) q = quaternion_normalize (B:=B2) q).
  { unfold quaternion_normalize, quaternion_to_vec4, q; cbn [qx qy qz qw]. rewrite rv_init. now rewrite norm4_same. }
  split; auto. unfold quaternion_to_angle_vec3. now rewrite N.
Qed.
Theorem C64_look_at : forall eye center up,
  let dir := sub3 center eye in let side := cross (unit3 dir) up in
  eps <= dot dir dir -> above_cutoff B1 (dot dir dir) -> above_cutoff B2 (dot dir dir) ->
  eps <= dot side side -> above_cutoff B1 (dot side side) -> above_cutoff B2 (dot side side) ->
  matrix_init_look_at (B:=B1) (rv3 eye) (rv3 center) (rv3 up) = matrix_init_look_at (B:=B2) (rv3 eye) (rv3 center) (rv3 up).
Proof.
  intros eye center up dir side D A1 A2 S S1 S2. pose proof eps_pos as EP.
  assert (G : forall B, exact_backend B -> above_cutoff B (dot dir dir) -> above_cutoff B (dot side side) ->
    matrix_init_look_at (B:=B) (rv3 eye) (rv3 center) (rv3 up) = mt (mlook (unit3 side) (cross (unit3 side) (unit3 dir)) (scl3 (-1) (unit3 dir)) eye)).
  { intros B EB CD CS. unfold matrix_init_look_at, gm_init_look_at, rv3. cbv zeta. rewrite rv_sub.
    change (r3x center - r3x eye) with (r3x dir). change (r3y center - r3y eye) with (r3y dir). change (r3z center - r3z eye) with (r3z dir).
    replace (0 - 0) with 0 by ring.
    assert (K1 : g_get_x (g_dot3 (B:=B) (rv (r3x dir) (r3y dir) (r3z dir) 0) (rv (r3x dir) (r3y dir) (r3z dir) 0)) = Fin (dot dir dir)).
    { unfold g_dot3. rewrite rv_v3, X_dot3. reflexivity. }
    rewrite K1, xeps, Xlt_f by auto. rewrite rv_normalize3 by (auto; lra). rewrite rv_cross.
    assert (K2 : g_get_x (g_dot3 (B:=B) (rv (r3x side) (r3y side) (r3z side) 0) (rv (r3x side) (r3y side) (r3z side) 0)) = Fin (dot side side)).
    { unfold g_dot3. rewrite rv_v3, X_dot3. reflexivity. }
    change (rv (r3y (unit3 dir) * r3z up - r3z (unit3 dir) * r3y up) (r3z (unit3 dir) * r3x up - r3x (unit3 dir) * r3z up) (r3x (unit3 dir) * r3y up - r3y (unit3 dir) * r3x up) 0) with (rv (r3x side) (r3y side) (r3z side) 0).
    rewrite K2, Xlt_f by auto.
    rewrite rv_normalize3 by (auto; lra). rewrite rv_cross, rv_neg. vs. unfold mt, vv, mlook, of_rows, vec, cross, scl3; cbn [r3x r3y r3z]. veqs; ring. }
  now rewrite (G B1), (G B2).
Qed.
(** rays against boxes, no direction component below FLT_EPSILON *)
Theorem C64_ray_box : forall o x y z w b, eps < Rabs x -> eps < Rabs y -> eps < Rabs z ->
  ray_intersect_box (B:=B1) (Ry o (V4 (Fin x) (Fin y) (Fin z) w)) b = ray_intersect_box (B:=B2) (Ry o (V4 (Fin x) (Fin y) (Fin z) w)) b /\
  ray_intersects_box (B:=B1) (Ry o (V4 (Fin x) (Fin y) (Fin z) w)) b = ray_intersects_box (B:=B2) (Ry o (V4 (Fin x) (Fin y) (Fin z) w)) b.
Proof.
  intros o x y z w b X Y Z.
  assert (N : forall a, eps < Rabs a -> a <> 0) by (intros a H ->; rewrite Rabs_R0 in H; unfold eps in H; lra).
  assert (R : forall a, eps < Rabs a -> lane_reciprocal (B:=B1) (Fin a) = lane_reciprocal (B:=B2) (Fin a)).
  { intros a H. now rewrite (X_reciprocal B1 E1 a (N a H) H), (X_reciprocal B2 E2 a (N a H) H). }
  assert (E : ray_intersect_box (B:=B1) (Ry o (V4 (Fin x) (Fin y) (Fin z) w)) b = ray_intersect_box (B:=B2) (Ry o (V4 (Fin x) (Fin y) (Fin z) w)) b).
  { unfold ray_intersect_box. cbn [ray_o ray_d]. cbv zeta.
    unfold vec3_get_x, vec3_get_y, vec3_get_z, g_get_x, g_get_y, g_get_z, vec3_multiply, g_mul, map2, g_reciprocal, map1; cbn [vx vy vz vw].
    rewrite !(R x), !(R y), !(R z) by auto. reflexivity. }
  split; [exact E|]. unfold ray_intersects_box. now rewrite E.
Qed.
(** planes and frusta *)
Theorem C64_plane_normalize : forall x y z w c, regular B1 B2 (x * x + y * y + z * z) ->
  plane_normalize (B:=B1) (Pl (V4 (Fin x) (Fin y) (Fin z) w) c) = plane_normalize (B:=B2) (Pl (V4 (Fin x) (Fin y) (Fin z) w) c).
Proof.
  intros x y z w c R. unfold plane_normalize. cbn [pl_n pl_c]. destruct (C64_normalize x y z 0 (Fin 0) w) as (_ & N & _). rewrite N by auto.
  change (V4 (Fin x) (Fin y) (Fin z) w) with (v3 x y z w). now rewrite len3_same.
Qed.
(** the decomposition's Gram-Schmidt step and the decomposition itself *)
Lemma rows_same r0 r1 r2 : dot (cross r0 r1) r2 <> 0 ->
  (forall B, B = B1 \/ B = B2 -> above_cutoff B (dot r0 r0) /\ above_cutoff B (dot (orth1 r0 r1) (orth1 r0 r1)) /\ above_cutoff B (dot (orth2 r0 r1 r2) (orth2 r0 r1 r2))) ->
  decompose_rows (B:=B1) (rr r0) (rr r1) (rr r2) = decompose_rows (B:=B2) (rr r0) (rr r1) (rr r2).
Proof.
  intros D C. destruct (gs_positive _ _ _ D) as (P0 & P1 & P2).
  destruct (orth2_orth r0 r1 r2 P0 P1) as [O02 O12]. pose proof (orth1_orth r0 r1 P0) as O01.
  set (e1 := orth1 r0 r1) in * . set (e2 := orth2 r0 r1 r2) in * .
  assert (S1 : sub3 r1 (scl3 (dot (unit3 r0) r1) (unit3 r0)) = e1) by (rewrite unit_part by auto; reflexivity).
  set (z1 := sub3 r2 (scl3 (dot (unit3 r0) r2) (unit3 r0))).
  assert (DZ : dot (unit3 e1) z1 = dot (unit3 e1) r2).
  { unfold z1. rewrite dot_sub_r, dot_scl_r, (unit3_dot e1 (unit3 r0)), (dot_comm e1 (unit3 r0)), (unit3_dot r0 e1), O01. ring. }
  assert (S2 : sub3 z1 (scl3 (dot (unit3 e1) z1) (unit3 e1)) = e2).
  { rewrite DZ, unit_part by auto. unfold z1. rewrite unit_part by auto. reflexivity. }
  assert (G : forall B, exact_backend B -> above_cutoff B (dot r0 r0) -> above_cutoff B (dot e1 e1) -> above_cutoff B (dot e2 e2) ->
    exists X, decompose_rows (B:=B) (rr r0) (rr r1) (rr r2) = X).
  { eauto. }
  destruct (C B1 (or_introl eq_refl)) as (A0 & A1 & A2), (C B2 (or_intror eq_refl)) as (F0 & F1 & F2).
  unfold decompose_rows.
  rewrite !(rr_len B1 E1 r0), !(rr_len B2 E2 r0), !(rr_norm B1 E1 r0 P0 A0), !(rr_norm B2 E2 r0 P0 F0), !rr_dotx, !rr_sub, !S1.
  rewrite !(rr_len B1 E1 e1), !(rr_len B2 E2 e1), !(rr_norm B1 E1 e1 P1 A1), !(rr_norm B2 E2 e1 P1 F1). fold z1. rewrite !rr_dotx, !rr_sub, !S2.
  rewrite !(rr_len B1 E1 e2), !(rr_len B2 E2 e2), !(rr_norm B1 E1 e2 P2 A2), !(rr_norm B2 E2 e2 P2 F2), !rr_triple, !rr_neg. reflexivity.
Qed.
Theorem C64_decompose_affine : forall A, affine A -> gs_above B1 A -> gs_above B2 A ->
  (is_scalar B1 = true \/ is_scalar B2 = true -> Rabs (det 4 A) <> eps) -> matrix_is_identity (B:=B1) (mt A) = false -> matrix_is_identity (B:=B2) (mt A) = false ->
  matrix_decompose (B:=B1) (mt A) = matrix_decompose (B:=B2) (mt A).
Proof.
  intros A Af G1 G2 Hd I1 I2. unfold matrix_decompose. rewrite I1, I2. destruct (matrix_is_2d (mt A)); [reflexivity|].
  pose proof Af as (_ & _ & _ & W). assert (W' : eps <= Rabs (A 3%nat 3%nat)) by (rewrite W, Rabs_R1; unfold eps; lra).
  rewrite !X_dec3 by auto. cbv zeta. rewrite !(row3_ext (mclear (mnorm A)) A), (det_ext _ _ (aff_norm A Af)) by (auto using aff_norm; lia).
  destruct (approx_val (Fin (det 4 A)) (Fin 0)) eqn:N; [reflexivity|]. apply X_approx_f in N. rewrite Rminus_0_r in N.
  rewrite !(mt_ext _ _ (aff_norm A Af)). rewrite (C64_inverse A Hd).
  rewrite (rows_same (row3 A 0) (row3 A 1) (row3 A 2)); [reflexivity| |].
  - rewrite <- det_affine by auto. intros Z. rewrite Z, Rabs_R0 in N. unfold eps in N. lra.
  - intros B [-> | ->]; [exact G1|exact G2].
Qed.
End Same3.

(** ** What differs *)
(** the scalar back end alone compares with a relative tolerance *)
Theorem C64_equality_refuted : forall b, exists v1 v2,
  vec2_equal (B:=Scalar b) false (Some v1) (Some v2) = true /\ vec2_equal (B:=Gcc) false (Some v1) (Some v2) = false.
Proof.
  intros b. exists (rv 1024 0 0 0), (rv (1024 + / 8192) 0 0 0).
  unfold vec2_equal, pointer_equal, vec2_equal_fn. split.
  - assert (Z : approx_equal (Fin 0) (Fin 0) feps = true).
    { unfold approx_equal. cbn [fisinf xreal_ops andb]. rewrite Xsub, Xabs. cbn [fisnan xreal_ops].
      rewrite xeps, Rminus_0_r, Rabs_R0, Xle_t; [reflexivity|unfold eps; lra]. }
    assert (X : approx_equal (Fin 1024) (Fin (1024 + / 8192)) feps = true).
    { unfold approx_equal. cbn [fisinf xreal_ops andb]. rewrite Xsub, !Xabs. cbn [fisnan xreal_ops].
      replace (Rabs (1024 - (1024 + / 8192))) with (/ 8192) by (rewrite Rabs_left1 by lra; lra).
      rewrite (Rabs_pos_eq 1024), (Rabs_pos_eq (1024 + / 8192)) by lra. rewrite xeps. rewrite Xle_f by (unfold eps; lra).
      rewrite Xlt_t by lra. rewrite Xmul, Xle_t; [reflexivity|unfold eps; lra]. }
    unfold g_cmp_eq, all2, lane_eq, backend. rewrite !rv_x, !rv_y, !rv_z, !rv_w, X, Z. reflexivity.
  - unfold g_cmp_eq, all2, lane_eq, backend. rewrite !rv_x, !rv_y, !rv_z, !rv_w. rewrite Xeq_f by lra. cbn [andb].
    unfold vec2_near. rewrite rv_sub. unfold g_dot2. rewrite rv_mul, rv_splat_x, rv_splat_y, rv_add. unfold g_get_x. rewrite rv_x, xeps, Xmul.
    apply Xlt_f. unfold eps. lra.
Qed.
(** short vectors (here of length 2^-12) that only the scalar back end normalises to zero *)
Theorem C64_normalize_refuted : forall b, exists v,
  vec3_normalize (B:=Scalar b) v = rv 0 0 0 0 /\ vec3_normalize (B:=Gcc) v = rv 1 0 0 0.
Proof.
  intros b. exists (v3 (/ 4096) 0 0 (Fin 0)).
  assert (S : sqrt (/ 4096 * / 4096 + 0 * 0 + 0 * 0) = / 4096) by (replace (/ 4096 * / 4096 + 0 * 0 + 0 * 0) with (/ 4096 * / 4096) by ring; apply sqrt_square; lra).
  split; unfold vec3_normalize; rewrite X_len3 by exact I; rewrite S, Xabs, xeps, Rabs_pos_eq, Xlt_t by (unfold eps; lra);
  unfold g_normalize3, g_dot3; rewrite X_dot3; unfold g_rsqrt, map1, g_splat, lane_rsqrt, backend; cbn [vx vy vz vw].
  - rewrite Xabs, xeps, Xlt_f by (rewrite Rabs_pos_eq by lra; unfold eps; lra). unfold g_mul, map2, v3; cbn [vx vy vz vw]. rewrite Xzero, !Xmul.
    rewrite <- rv_init. unfold g_init. xring.
  - rewrite Xzero, Xeq_f by lra. rewrite Xsqrt by lra. rewrite S, Xone, Xdiv by lra. unfold g_mul, map2, v3; cbn [vx vy vz vw]. rewrite !Xmul.
    rewrite <- rv_init. unfold g_init. f_equal; f_equal; field.
Qed.

(** ** The hypotheses are met: exact estimates exist for every back end, and ordinary
    operands are regular. *)
Definition xinv (x : xreal) : xreal := match x with Fin r => Fin (/ r) | _ => Undef end.
Definition xisqrt (x : xreal) : xreal := match x with Fin r => Fin (/ sqrt r) | _ => Undef end.
Example exact_sse : forall a f, exact_backend (Sse a f xinv xisqrt).
Proof. intros a f. split; reflexivity. Qed.
Example exact_neon : exact_backend (Neon xinv xisqrt (fun x => match x with Fin r => Fin (sqrt r) | _ => Undef end)).
Proof. split; [|split]; reflexivity. Qed.
Example regular_ex : forall B1 B2, regular B1 B2 (3 * 3 + 4 * 4 + 0 * 0) /\ big B1 (-2).
Proof.
  intros B1 B2. split; [right; split; intros _; unfold eps; lra|]. split; [lra|]. intros _. rewrite Rabs_left by lra. unfold eps. lra.
Qed.
Example C64_ex : vec3_normalize (B:=Sse true false xinv xisqrt) (V4 (Fin 3) (Fin 4) (Fin 0) (Fin 0)) = vec3_normalize (B:=Scalar false) (V4 (Fin 3) (Fin 4) (Fin 0) (Fin 0)).
Proof.
  destruct (C64_normalize (Sse true false xinv xisqrt) (Scalar false) (exact_sse true false) I 3 4 0 0 (Fin 0) (Fin 0)) as (_ & N & _).
  apply N. apply regular_ex.
Qed.
