(** * Props_MatX4: bounds, 2D inverses, unprojection and predicates in exact arithmetic
    (C24, C36, C37, C40). *)

From Coq Require Import ZArith Reals Bool List Lra Lia Psatz.
From Flocq Require Import Core.
From Verif Require Import Num Simd Vec Rect Box Mat Geo OrdThy XSetup RMat Props_VecX Props_RectX Props_MatX Props_MatX2 Props_MatX3.
Import ListNotations.
Local Open Scope R_scope.

Lemma X_lane_min (BK : Backend xreal) a b : lane_min (Fin a) (Fin b) = Fin (Rmin a b).
Proof.
  pose proof (lane_min_l (F:=xreal) (Fin a) (Fin b) eq_refl eq_refl) as H1.
  pose proof (lane_min_r (F:=xreal) (Fin a) (Fin b) eq_refl eq_refl) as H2.
  destruct (lane_min_cases (F:=xreal) (Fin a) (Fin b)) as [E|E]; rewrite E in * .
  - apply Xle_iff in H2. now rewrite Rmin_left.
  - apply Xle_iff in H1. now rewrite Rmin_right.
Qed.
Lemma X_lane_max (BK : Backend xreal) a b : lane_max (Fin a) (Fin b) = Fin (Rmax a b).
Proof.
  pose proof (lane_max_l (F:=xreal) (Fin a) (Fin b) eq_refl eq_refl) as H1.
  pose proof (lane_max_r (F:=xreal) (Fin a) (Fin b) eq_refl eq_refl) as H2.
  destruct (lane_max_cases (F:=xreal) (Fin a) (Fin b)) as [E|E]; rewrite E in * .
  - apply Xle_iff in H2. now rewrite Rmax_left.
  - apply Xle_iff in H1. now rewrite Rmax_right.
Qed.
Definition min4 a b c d := Rmin (Rmin a b) (Rmin c d).
Definition max4 a b c d := Rmax (Rmax a b) (Rmax c d).
Lemma X_min_val (BK : Backend xreal) a b c d : g_get_x (g_min_val (g_init (Fin a) (Fin b) (Fin c) (Fin d))) = Fin (min4 a b c d).
Proof.
  unfold g_get_x, g_min_val, g_min, map2, g_init, g_shuffle_wxyz, g_shuffle_zwxy. cbn [vx vy vz vw]. rewrite !X_lane_min. f_equal. unfold min4.
  unfold Rmin. repeat destruct Rle_dec; lra.
Qed.
Lemma X_max_val (BK : Backend xreal) a b c d : g_get_x (g_max_val (g_init (Fin a) (Fin b) (Fin c) (Fin d))) = Fin (max4 a b c d).
Proof.
  unfold g_get_x, g_max_val, g_max, map2, g_init, g_shuffle_wxyz, g_shuffle_zwxy. cbn [vx vy vz vw]. rewrite !X_lane_max. f_equal. unfold max4.
  unfold Rmax. repeat destruct Rle_dec; lra.
Qed.
Lemma min4_le a b c d : min4 a b c d <= a /\ min4 a b c d <= b /\ min4 a b c d <= c /\ min4 a b c d <= d.
Proof. unfold min4, Rmin. repeat destruct Rle_dec; lra. Qed.
Lemma max4_ge a b c d : a <= max4 a b c d /\ b <= max4 a b c d /\ c <= max4 a b c d /\ d <= max4 a b c d.
Proof. unfold max4, Rmax. repeat destruct Rle_dec; lra. Qed.
Lemma min4_in a b c d : min4 a b c d = a \/ min4 a b c d = b \/ min4 a b c d = c \/ min4 a b c d = d.
Proof. unfold min4, Rmin. repeat destruct Rle_dec; lra. Qed.
Lemma max4_in a b c d : max4 a b c d = a \/ max4 a b c d = b \/ max4 a b c d = c \/ max4 a b c d = d.
Proof. unfold max4, Rmax. repeat destruct Rle_dec; lra. Qed.
Lemma X_points_bounds (BK : Backend xreal) ax ay bx by_ cx cy dx dy :
  points_bounds (p2 ax ay) (p2 bx by_) (p2 cx cy) (p2 dx dy) =
  rct (RR (min4 ax bx cx dx) (min4 ay by_ cy dy) (max4 ax bx cx dx - min4 ax bx cx dx) (max4 ay by_ cy dy - min4 ay by_ cy dy)).
Proof.
  unfold points_bounds. cbn [p2 px py]. rewrite !X_min_val, !X_max_val. cbv zeta. rewrite !Xsub. unfold rect_init.
  change (mkrect (Fin ?a) (Fin ?b) (Fin ?c) (Fin ?d)) with (rct (RR a b c d)).
  change (rect_normalize (mkrect (Fin ?a) (Fin ?b) (Fin ?c) (Fin ?d))) with (rect_normalize (rct (RR a b c d))).
  rewrite rct_norm. f_equal. unfold nrm; cbn [X Y W H].
  assert (L : forall a b c d, min4 a b c d <= max4 a b c d) by (intros; pose proof (min4_le a b c d); pose proof (max4_ge a b c d); lra).
  now rewrite !lo_d, !hi_d by auto.
Qed.

Section S.
Context (BK : Backend xreal).

(** ** C24: bounds of a transformed rectangle *)
(** the image of (x, y) *)
Definition img (A : RM) (x y : R) : R * R :=
  (x * A 0%nat 0%nat + y * A 1%nat 0%nat + A 3%nat 0%nat, x * A 0%nat 1%nat + y * A 1%nat 1%nat + A 3%nat 1%nat).
Lemma X_corner A x y : transform_corner (mt A) (p2 x y) = p2 (fst (img A x y)) (snd (img A x y)).
Proof.
  unfold transform_corner. cbn [p2 px py]. rewrite Xzero, Xone, rv_init, vv_vec, mt_vec4. unfold vv, vmul, sum4, vec, g_get_x, g_get_y.
  rewrite rv_x, rv_y. unfold img, p2; cbn [fst snd]. xring.
Qed.
Lemma X_tpoint A x y : matrix_transform_point (mt A) (p2 x y) = p2 (fst (img A x y)) (snd (img A x y)).
Proof.
  unfold matrix_transform_point. cbn [p2 px py]. rewrite Xzero, Xone, rv_init, vv_vec, mt_point3. unfold vv, vmul, sum4, vec, g_get_x, g_get_y.
  rewrite rv_x, rv_y. unfold img, p2; cbn [fst snd]. xring.
Qed.
Theorem C24_transform_bounds_exact : forall A r, exists b,
  matrix_transform_bounds (mt A) (rct r) = rct b /\
  (forall x y, inr r x y -> exists x' y', matrix_transform_point (mt A) (p2 x y) = p2 x' y' /\ inr b x' y') /\
  (forall b', (forall x y, inr r x y -> exists x' y', matrix_transform_point (mt A) (p2 x y) = p2 x' y' /\ inr b' x' y') ->
     forall x y, inr b x y -> inr b' x y).
Proof.
  intros A r.
  unfold matrix_transform_bounds. rewrite rct_norm.
  pose proof (C11_corners_exact (nrm r)) as C. cbv zeta in C. destruct C as (-> & -> & -> & -> & _).
  cbn [nrm X Y W H]. set (x0 := lo (X r) (W r)). set (x1 := hi (X r) (W r)). set (y0 := lo (Y r) (H r)). set (y1 := hi (Y r) (H r)).
  assert (Lx : x0 <= x1) by apply lo_hi. assert (Ly : y0 <= y1) by apply lo_hi.
  replace (x0 + (x1 - x0)) with x1 by ring. replace (y0 + (y1 - y0)) with y1 by ring.
  rewrite (Rmin_left x0 x1), (Rmax_right x0 x1), (Rmin_left y0 y1), (Rmax_right y0 y1) by auto.
  rewrite !X_corner, X_points_bounds. eexists. split; [reflexivity|].
  assert (K : forall p q c lo hi, forall x y, x0 <= x <= x1 -> y0 <= y <= y1 ->
     lo <= x0 * p + y0 * q + c <= hi -> lo <= x1 * p + y0 * q + c <= hi -> lo <= x1 * p + y1 * q + c <= hi -> lo <= x0 * p + y1 * q + c <= hi ->
     lo <= x * p + y * q + c <= hi).
  { intros p q c lo hi x y Hx Hy H1 H2 H3 H4.
    assert (P : x0 * p <= x * p <= x1 * p \/ x1 * p <= x * p <= x0 * p) by (destruct (Rle_dec 0 p); [left|right]; nra).
    assert (Q : y0 * q <= y * q <= y1 * q \/ y1 * q <= y * q <= y0 * q) by (destruct (Rle_dec 0 q); [left|right]; nra).
    destruct P, Q; lra. }
  split.
  - intros x y Hi. rewrite inr_lohi in Hi. fold x0 x1 y0 y1 in Hi. destruct Hi as [Hx Hy]. do 2 eexists. split; [apply X_tpoint|].
    apply inr_lohi. cbn [X Y W H]. unfold img; cbn [fst snd].
    match goal with |- context [min4 ?a ?b ?c ?d] => pose proof (min4_le a b c d) as M1; pose proof (max4_ge a b c d) as M2; set (mn := min4 a b c d) in * ; set (mxx := max4 a b c d) in * end.
    match goal with |- context [min4 ?a ?b ?c ?d] => pose proof (min4_le a b c d) as M3; pose proof (max4_ge a b c d) as M4; set (mny := min4 a b c d) in * ; set (mxy := max4 a b c d) in * end.
    unfold img in M1, M2, M3, M4; cbn [fst snd] in M1, M2, M3, M4.
    rewrite !lo_d, !hi_d by lra. split; apply K; lra.
  - intros b' Hb x y Hi. rewrite inr_lohi in Hi. cbn [X Y W H] in Hi. unfold img in Hi; cbn [fst snd] in Hi.
    assert (In : forall x y, (x = x0 \/ x = x1) -> (y = y0 \/ y = y1) -> inr b' (fst (img A x y)) (snd (img A x y))).
    { intros x' y' Ex Ey. destruct (Hb x' y') as (u & v & E & I).
      - apply inr_lohi. fold x0 x1 y0 y1. destruct Ex, Ey; subst; lra.
      - rewrite X_tpoint in E. unfold p2 in E. injection E as <- <-. auto. }
    assert (I1 := In x0 y0 (or_introl eq_refl) (or_introl eq_refl)). assert (I2 := In x1 y0 (or_intror eq_refl) (or_introl eq_refl)).
    assert (I3 := In x1 y1 (or_intror eq_refl) (or_intror eq_refl)). assert (I4 := In x0 y1 (or_introl eq_refl) (or_intror eq_refl)).
    rewrite inr_lohi in I1, I2, I3, I4 |- * . unfold img in I1, I2, I3, I4; cbn [fst snd] in I1, I2, I3, I4.
    match type of Hi with context [min4 ?a ?b ?c ?d] => pose proof (min4_in a b c d) as M1; pose proof (max4_in a b c d) as M2; pose proof (min4_le a b c d) as N1; pose proof (max4_ge a b c d) as N2; set (mn := min4 a b c d) in * ; set (mxx := max4 a b c d) in * end.
    match type of Hi with context [min4 ?a ?b ?c ?d] => pose proof (min4_in a b c d) as M3; pose proof (max4_in a b c d) as M4; pose proof (min4_le a b c d) as N3; pose proof (max4_ge a b c d) as N4; set (mny := min4 a b c d) in * ; set (mxy := max4 a b c d) in * end.
    rewrite !lo_d, !hi_d in Hi by lra. clear - Hi I1 I2 I3 I4 M1 M2 M3 M4. lra.
Qed.
(** transform_rect's quad has the images of the corners as its vertices, in order. *)
Theorem C24_transform_rect_exact : forall A r,
  let x0 := Rmin (X r) (X r + W r) in let x1 := Rmax (X r) (X r + W r) in
  let y0 := Rmin (Y r) (Y r + H r) in let y1 := Rmax (Y r) (Y r + H r) in
  let t := fun x y => matrix_transform_point (mt A) (p2 x y) in
  matrix_transform_rect (mt A) (rct r) = Qd (t x0 y0) (t x1 y0) (t x1 y1) (t x0 y1).
Proof.
  intros A r x0' x1' y0' y1'. cbv zeta. unfold matrix_transform_rect. rewrite rct_norm.
  pose proof (C11_corners_exact (nrm r)) as C. cbv zeta in C. destruct C as (-> & -> & -> & -> & _).
  cbn [nrm X Y W H]. change x0' with (lo (X r) (W r)). change x1' with (hi (X r) (W r)). change y0' with (lo (Y r) (H r)). change y1' with (hi (Y r) (H r)).
  set (x0 := lo (X r) (W r)). set (x1 := hi (X r) (W r)). set (y0 := lo (Y r) (H r)). set (y1 := hi (Y r) (H r)).
  assert (Lx : x0 <= x1) by apply lo_hi. assert (Ly : y0 <= y1) by apply lo_hi.
  replace (x0 + (x1 - x0)) with x1 by ring. replace (y0 + (y1 - y0)) with y1 by ring.
  rewrite (Rmin_left x0 x1), (Rmax_right x0 x1), (Rmin_left y0 y1), (Rmax_right y0 y1) by auto.
  now rewrite !X_corner, !X_tpoint.
Qed.

(** project_point: the point where the line through the images (under the linear part) of
    (x, y, 0) and (x, y, 1) meets the plane z = 0. *)
Definition lin (A : RM) (x y z : R) : R3 :=
  V3 (x * A 0%nat 0%nat + y * A 1%nat 0%nat + z * A 2%nat 0%nat)
     (x * A 0%nat 1%nat + y * A 1%nat 1%nat + z * A 2%nat 1%nat)
     (x * A 0%nat 2%nat + y * A 1%nat 2%nat + z * A 2%nat 2%nat).
Lemma X_project A x y : A 2%nat 2%nat <> 0 ->
  let s := r3z (lin A x y 0) / A 2%nat 2%nat in
  matrix_project_point (mt A) (p2 x y) = p2 (r3x (lin A x y 0) - s * A 2%nat 0%nat) (r3y (lin A x y 0) - s * A 2%nat 1%nat).
Proof.
  intros N s. unfold matrix_project_point. cbn [p2 px py]. rewrite Xzero, Xone, !rv_init.
  pose proof (C25_transform_vec3_exact A) as T. unfold matrix_transform_vec3 in T. rewrite !T. rewrite !rv_sub, !rv_x, !rv_y, !rv_z, Xneg.
  rewrite Xdiv by (intros Z; apply N; lra). rewrite !Xmul, !Xadd. unfold p2, s, lin; cbn [r3x r3y r3z].
  f_equal; f_equal; field; split; auto; intros Z; apply N; lra.
Qed.
Theorem C67_project_point_exact : forall A x y, A 2%nat 2%nat <> 0 -> exists qx qy s,
  matrix_project_point (mt A) (p2 x y) = p2 qx qy /\
  V3 qx qy 0 = add3 (lin A x y 0) (scl3 s (sub3 (lin A x y 1) (lin A x y 0))) /\
  (forall qx' qy' s', V3 qx' qy' 0 = add3 (lin A x y 0) (scl3 s' (sub3 (lin A x y 1) (lin A x y 0))) -> qx' = qx /\ qy' = qy).
Proof.
  intros A x y N. do 2 eexists. exists (- (r3z (lin A x y 0) / A 2%nat 2%nat)). split; [now apply X_project|].
  unfold add3, scl3, sub3, lin; cbn [r3x r3y r3z]. split; [apply V3_eq; field; auto|].
  intros qx' qy' s' E. injection E as E0 E1 E2.
  assert (S : s' = - ((x * A 0%nat 2%nat + y * A 1%nat 2%nat + 0 * A 2%nat 2%nat) / A 2%nat 2%nat)).
  { apply Rmult_eq_reg_r with (A 2%nat 2%nat); auto. transitivity (s' * A 2%nat 2%nat); auto. field_simplify; auto. lra. }
  rewrite E0, E1, S. split; field; auto.
Qed.
(** It drops the translation: moving the matrix does not move the projection. *)
Theorem C67_translation_ignored_refuted : exists A B, affine A /\ affine B /\
  matrix_transform_point (mt A) (p2 0 0) <> matrix_transform_point (mt B) (p2 0 0) /\
  forall x y, matrix_project_point (mt A) (p2 x y) = matrix_project_point (mt B) (p2 x y).
Proof.
  exists mI, (mtrans 5 6 7). split; [repeat split|]. split; [repeat split|]. split.
  - rewrite !X_tpoint. unfold img, mI, mtrans, of_rows, vec, p2; simpl. intros E. injection E. intros. lra.
  - intros. rewrite !X_project by (unfold mI, mtrans, of_rows, vec; simpl; lra). reflexivity.
Qed.

(** ** C36: untransform_point *)
(** the matrix of graphene_matrix_init_from_2d *)
Definition m2d (xx yx xy yy x0 y0 : R) : RM := of_rows (vec xx yx 0 0) (vec xy yy 0 0) (vec 0 0 1 0) (vec x0 y0 0 1).
Lemma mt_2d xx yx xy yy x0 y0 : matrix_init_from_2d (Fin xx) (Fin yx) (Fin xy) (Fin yy) (Fin x0) (Fin y0) = mt (m2d xx yx xy yy x0 y0).
Proof. reflexivity. Qed.
Lemma det_2d xx yx xy yy x0 y0 : det 4 (m2d xx yx xy yy x0 y0) = xx * yy - yx * xy.
Proof. rewrite det4. unfold m2d, of_rows, vec. cbv zeta. ring. Qed.
Lemma aff_2d xx yx xy yy x0 y0 : affine (m2d xx yx xy yy x0 y0).
Proof. repeat split. Qed.
Lemma X_is2d A : matrix_is_2d (mt A) = true <->
  Rabs (A 0%nat 2%nat) < eps /\ Rabs (A 0%nat 3%nat) < eps /\ Rabs (A 1%nat 2%nat) < eps /\ Rabs (A 1%nat 3%nat) < eps /\
  Rabs (A 2%nat 0%nat) < eps /\ Rabs (A 2%nat 1%nat) < eps /\ 1 - eps < Rabs (A 2%nat 2%nat) /\ Rabs (A 2%nat 3%nat) < eps /\
  Rabs (A 3%nat 2%nat) < eps /\ 1 - eps < Rabs (A 3%nat 3%nat).
Proof.
  unfold matrix_is_2d, gm_is_2d, mt, vv. vs. rewrite xeps, !andb_true_iff, !Xlt_iff.
  split; intros; decompose [and] H; repeat split; lra.
Qed.
Lemma is2d_2d xx yx xy yy x0 y0 : matrix_is_2d (mt (m2d xx yx xy yy x0 y0)) = true.
Proof. apply X_is2d. unfold m2d, of_rows, vec. rewrite Rabs_R0, Rabs_R1. unfold eps. repeat split; lra. Qed.
Theorem C36_round_trip : forall xx yx xy yy x0 y0 x y bounds, exact_backend BK ->
  eps < Rabs (xx * yy - yx * xy) ->
  let m := matrix_init_from_2d (Fin xx) (Fin yx) (Fin xy) (Fin yy) (Fin x0) (Fin y0) in
  matrix_untransform_point m (matrix_transform_point m (p2 x y)) bounds = Some (p2 x y) /\
  exists q, matrix_untransform_point m (p2 x y) bounds = Some q /\ matrix_transform_point m q = p2 x y.
Proof.
  intros xx yx xy yy x0 y0 x y bounds EB D m. unfold m. rewrite mt_2d. unfold matrix_untransform_point. rewrite is2d_2d.
  set (A := m2d xx yx xy yy x0 y0).
  destruct (C28_inverse_points BK A EB (aff_2d _ _ _ _ _ _)) as (I & E & Ia & HI).
  { unfold A. now rewrite det_2d. }
  rewrite E. 
  assert (F3 : forall M x y, matrix_transform_point (mt M) (p2 x y) =
     Pt (p3x (matrix_transform_point3d (mt M) (pt3 x y 0))) (p3y (matrix_transform_point3d (mt M) (pt3 x y 0)))) by reflexivity.
  split.
  - destruct (HI x y 0) as [H1 _]. rewrite C25_transform_point3d_exact in H1.
    replace (x * A 0%nat 2%nat + y * A 1%nat 2%nat + 0 * A 2%nat 2%nat + A 3%nat 2%nat) with 0 in H1 by (unfold A, m2d, of_rows, vec; ring).
    f_equal. rewrite (X_tpoint A).
    rewrite F3. unfold img; cbn [fst snd].
    replace (x * A 0%nat 0%nat + y * A 1%nat 0%nat + 0 * A 2%nat 0%nat + A 3%nat 0%nat) with (x * A 0%nat 0%nat + y * A 1%nat 0%nat + A 3%nat 0%nat) in H1 by ring.
    replace (x * A 0%nat 1%nat + y * A 1%nat 1%nat + 0 * A 2%nat 1%nat + A 3%nat 1%nat) with (x * A 0%nat 1%nat + y * A 1%nat 1%nat + A 3%nat 1%nat) in H1 by ring.
    rewrite H1. reflexivity.
  - eexists. split; [reflexivity|]. destruct (HI x y 0) as [_ H2]. rewrite (X_tpoint I).
    rewrite C25_transform_point3d_exact in H2. rewrite C25_transform_point3d_exact in H2. unfold pt3 in H2. injection H2 as E0 E1 E2.
    rewrite X_tpoint. unfold img, p2; cbn [fst snd]. revert E0 E1. unfold A, m2d, of_rows, vec. intros E0 E1.
    f_equal; f_equal; lra.
Qed.
Theorem C36_fails_iff : forall xx yx xy yy x0 y0 p bounds,
  let m := matrix_init_from_2d (Fin xx) (Fin yx) (Fin xy) (Fin yy) (Fin x0) (Fin y0) in
  matrix_untransform_point m p bounds = None <-> Rabs (xx * yy - yx * xy) < eps.
Proof.
  intros xx yx xy yy x0 y0 p bounds m. unfold m. rewrite mt_2d. unfold matrix_untransform_point. rewrite is2d_2d.
  rewrite <- (det_2d xx yx xy yy x0 y0), <- (C28_inverse_answer BK). destruct (matrix_inverse _); split; congruence.
Qed.
Theorem C36_hypotheses_met : exists xx yx xy yy, eps < Rabs (xx * yy - yx * xy) /\ yx <> 0 /\ xy <> 0.
Proof. exists 2, 1, (-1), 3. replace (2 * 3 - 1 * -1) with 7 by ring. rewrite Rabs_pos_eq by lra. unfold eps. lra. Qed.
(** A matrix that is not 2D goes through project_point, which ignores its translation:
    untransforming the image of the origin under the translation (1, 0, 1) gives (1, 0). *)
Theorem C36_non_2d_refuted : exact_backend BK -> exists A bounds,
  affine A /\ det 4 A = 1 /\
  matrix_transform_point (mt A) (p2 0 0) = p2 1 0 /\ inr bounds 0 0 /\
  matrix_untransform_point (mt A) (p2 1 0) (rct bounds) = Some (p2 1 0).
Proof.
  intros EB. exists (mtrans 1 0 1), (RR (-5) (-5) 10 10).
  assert (D : det 4 (mtrans 1 0 1) = 1) by (rewrite det4; unfold mtrans, of_rows, vec; cbv zeta; ring).
  split; [repeat split|]. split; [auto|].
  assert (T : matrix_transform_point (mt (mtrans 1 0 1)) (p2 0 0) = p2 1 0).
  { rewrite X_tpoint. unfold img, mtrans, of_rows, vec, p2; cbn [fst snd]. xring. }
  split; [auto|]. assert (I0 : inr (RR (-5) (-5) 10 10) 0 0).
  { apply inr_lohi. cbn [X Y W H]. rewrite !lo_pos, !hi_pos by lra. lra. }
  split; [auto|]. unfold matrix_untransform_point.
  assert (N : matrix_is_2d (mt (mtrans 1 0 1)) = false).
  { apply not_true_is_false. rewrite X_is2d. unfold mtrans, of_rows, vec. rewrite Rabs_R1. unfold eps. lra. }
  rewrite N. destruct (C24_transform_bounds_exact (mtrans 1 0 1) (RR (-5) (-5) 10 10)) as (b & -> & Hb & _).
  destruct (Hb 0 0 I0) as (x' & y' & E & I'). rewrite T in E. unfold p2 in E. injection E as <- <-.
  rewrite (proj2 (C11_contains_point_exact _ _ _) I'). cbn [negb].
  unfold matrix_inverse. rewrite mt_inverse_t by (auto; rewrite D, Rabs_R1; unfold eps; lra).
  assert (M : meq (minv (mtrans 1 0 1)) (mtrans (-1) 0 (-1))).
  { intros i j Hi Hj. unfold minv, adj. rewrite D, det3. unfold mtrans, of_rows, vec. idx4 i Hi; idx4 j Hj; simpl; field. }
  rewrite (mt_ext _ _ M), X_project by (unfold mtrans, of_rows, vec; lra).
  f_equal. unfold p2, lin, mtrans, of_rows, vec; cbn [r3x r3y r3z]. f_equal; f_equal; field.
Qed.

(** ** C37: unprojection *)
Lemma vmul_inv A v : det 4 A <> 0 -> veq (vmul (vmul v A) (minv A)) v.
Proof.
  intros D i Hi. rewrite <- (vmul_mmul v A (minv A) i Hi). unfold vmul, sum4. rewrite !(minv_r A D) by lia. unfold mI. idx4 i Hi; simpl; ring.
Qed.
Theorem C37_unproject_exact : forall P q cx cy cz cw, exact_backend BK -> eps < Rabs (det 4 P) ->
  matrix_transform_vec4 (mt P) (rv (r3x q) (r3y q) (r3z q) 1) = rv cx cy cz cw -> cw <> 0 ->
  matrix_unproject_point3d (mt P) matrix_init_identity (pt3 (cx / cw) (cy / cw) (cz / cw)) = Some (pp3 q).
Proof.
  intros P q cx cy cz cw EB D E Hc. unfold matrix_unproject_point3d. rewrite mt_inverse_t by (auto; lra).
  assert (Dn : det 4 P <> 0) by (intros Z; rewrite Z, Rabs_R0 in D; unfold eps in D; lra).
  change (gm_mul (mt (minv P)) matrix_init_identity) with (matrix_multiply (mt (minv P)) matrix_init_identity).
  rewrite (proj2 (C25_identity_neutral (minv P))). unfold pt3; cbn [p3x p3y p3z]. rewrite Xone, rv_init, (vv_vec (cx / cw)), mt_vec4.
  rewrite (vv_vec (r3x q)), (vv_vec cx), C25_transform_vec4_exact in E. apply vv_inj in E.
  assert (V : veq (vmul (vec (cx / cw) (cy / cw) (cz / cw) 1) (minv P)) (vec (r3x q / cw) (r3y q / cw) (r3z q / cw) (1 / cw))).
  { intros i Hi. pose proof (vmul_inv P (vec (r3x q) (r3y q) (r3z q) 1) Dn i Hi) as K.
    assert (K2 : vmul (vmul (vec (r3x q) (r3y q) (r3z q) 1) P) (minv P) i = vmul (vec cx cy cz cw) (minv P) i).
    { unfold vmul at 1 3. unfold sum4. rewrite !E by lia. reflexivity. }
    rewrite K2 in K. transitivity (vmul (vec cx cy cz cw) (minv P) i / cw).
    - unfold vmul, sum4, vec. field. auto.
    - rewrite K. unfold vec. idx4 i Hi; field; auto. }
  rewrite (vv_ext _ _ V). unfold vv, vec, g_get_w. rewrite rv_w.
  assert (Dc : 1 / cw <> 0) by (unfold Rdiv; rewrite Rmult_1_l; now apply Rinv_neq_0_compat).
  rewrite Xdiv by auto. rewrite rv_splat, rv_mul, rv_x, rv_y, rv_z. unfold pp3, pt3. do 2 f_equal; f_equal; field; auto.
Qed.
Theorem C37_fails_iff : forall P M p, matrix_unproject_point3d (mt P) M p = None <-> Rabs (det 4 P) < eps.
Proof.
  intros P M p. rewrite <- (C28_inverse_answer BK). unfold matrix_unproject_point3d, matrix_inverse. destruct (gm_inverse _); split; congruence.
Qed.
(** With a modelview M the documented inverse of (M then P) is not computed: P = identity,
    M = translation by (1,0,0): the origin is drawn at (1,0,0), which unprojects to (2,0,0). *)
Theorem C37_modelview_refuted : exact_backend BK -> exists M,
  affine M /\ det 4 M = 1 /\
  matrix_transform_point3d (mt M) (pt3 0 0 0) = pt3 1 0 0 /\
  matrix_unproject_point3d matrix_init_identity (mt M) (pt3 1 0 0) = Some (pt3 2 0 0).
Proof.
  intros EB. exists (mtrans 1 0 0). split; [repeat split|]. split; [rewrite det4; unfold mtrans, of_rows, vec; cbv zeta; ring|].
  split. { rewrite C25_transform_point3d_exact. unfold mtrans, of_rows, vec. apply pt3_eq; ring. }
  unfold matrix_unproject_point3d, matrix_init_identity. rewrite mt_I, mt_inverse_t by (auto; rewrite det_I, Rabs_R1; unfold eps; lra).
  assert (M : meq (minv mI) mI).
  { intros i j Hi Hj. rewrite <- (minv_l mI) by (auto; rewrite det_I; lra). unfold mmul, sum4, mI. idx4 j Hj; simpl; ring. }
  rewrite (mt_ext _ _ M), mt_mul, (mt_ext _ _ (mmul_1_l _)). unfold pt3; cbn [p3x p3y p3z]. rewrite Xone, rv_init, vv_vec, mt_vec4.
  unfold vv, vmul, sum4, mtrans, of_rows, vec, g_get_w. rewrite rv_w, Xdiv by lra. rewrite rv_splat, rv_mul, rv_x, rv_y, rv_z.
  f_equal. f_equal; f_equal; field.
Qed.

(** ** C40: predicates *)
Theorem C40_is_2d_exact : forall A, matrix_is_2d (mt A) = true <->
  Rabs (A 0%nat 2%nat) < eps /\ Rabs (A 0%nat 3%nat) < eps /\ Rabs (A 1%nat 2%nat) < eps /\ Rabs (A 1%nat 3%nat) < eps /\
  Rabs (A 2%nat 0%nat) < eps /\ Rabs (A 2%nat 1%nat) < eps /\ 1 - eps < Rabs (A 2%nat 2%nat) /\ Rabs (A 2%nat 3%nat) < eps /\
  Rabs (A 3%nat 2%nat) < eps /\ 1 - eps < Rabs (A 3%nat 3%nat).
Proof. exact X_is2d. Qed.
(** ... so a matrix that scales z by 5 and divides by w = -7 counts as 2D *)
Theorem C40_is_2d_refuted : matrix_is_2d (mt (of_rows (vec 1 0 0 0) (vec 0 1 0 0) (vec 0 0 5 0) (vec 0 0 0 (-7)))) = true.
Proof.
  apply X_is2d. unfold of_rows, vec. rewrite Rabs_R0, Rabs_pos_eq, (Rabs_left (-7)) by lra. unfold eps. repeat split; lra.
Qed.
Lemma X_approx_equal a b : approx_equal (Fin a) (Fin b) feps = true <-> Rabs (a - b) <= eps \/ Rabs (a - b) <= Rmax (Rabs a) (Rabs b) * eps.
Proof.
  unfold approx_equal. cbn [fisinf xreal_ops andb]. rewrite Xsub, !Xabs, xeps. cbn [fisnan xreal_ops].
  destruct (fle (Fin (Rabs (a - b))) (Fin eps)) eqn:E; [apply Xle_iff in E; tauto|apply Xle_iff_f in E].
  assert (K : (if flt (Fin (Rabs a)) (Fin (Rabs b)) then Fin (Rabs b) else Fin (Rabs a)) = Fin (Rmax (Rabs a) (Rabs b))).
  { destruct (flt _ _) eqn:L; [apply Xlt_iff in L; rewrite Rmax_right by lra|apply Xlt_iff_f in L; rewrite Rmax_left by lra]; reflexivity. }
  rewrite K, Xmul, Xle_iff. split; [auto|intros [?|?]; auto; lra].
Qed.
(** is_identity: exactly the identity on the SIMD back ends ... *)
Theorem C40_is_identity_exact : is_scalar BK = false -> forall A, matrix_is_identity (mt A) = true <-> meq A mI.
Proof.
  intros NS A. unfold matrix_is_identity, gm_is_identity, g_cmp_eq, all2, mt, vv. vs.
  assert (L : forall a b, lane_eq (Fin a) (Fin b) = true <-> a = b).
  { intros. assert (EQ : feqb (Fin a) (Fin b) = true <-> a = b).
    { split; [|apply Xeq_t]. intros E. destruct (Req_dec a b); auto. rewrite Xeq_f in E by auto. discriminate. }
    unfold lane_eq, backend. destruct BK; try discriminate; exact EQ. }
  rewrite !andb_true_iff, !L. split.
  - intros HH. decompose [and] HH. clear HH. intros i j Hi Hj. unfold mI. idx4 i Hi; idx4 j Hj; simpl; assumption.
  - intros E. rewrite !E by lia. unfold mI; simpl. tauto.
Qed.
(** ... and within FLT_EPSILON, absolutely or relatively, on the scalar one. *)
Theorem C40_is_identity_scalar : is_scalar BK = true -> forall A, matrix_is_identity (mt A) = true <->
  forall i j, (i < 4)%nat -> (j < 4)%nat ->
    Rabs (A i j - mI i j) <= eps \/ Rabs (A i j - mI i j) <= Rmax (Rabs (A i j)) (Rabs (mI i j)) * eps.
Proof.
  intros NS A. unfold matrix_is_identity, gm_is_identity, g_cmp_eq, all2, mt, vv. vs.
  assert (L : forall a b, lane_eq (Fin a) (Fin b) = true <-> Rabs (a - b) <= eps \/ Rabs (a - b) <= Rmax (Rabs a) (Rabs b) * eps).
  { intros. unfold lane_eq, backend. destruct BK; try discriminate. apply X_approx_equal. }
  rewrite !andb_true_iff, !L. split.
  - intros HH. decompose [and] HH. clear HH. intros i j Hi Hj. unfold mI. idx4 i Hi; idx4 j Hj; simpl; assumption.
  - intros E.
    pose proof (E 0 0 ltac:(lia) ltac:(lia))%nat. pose proof (E 0 1 ltac:(lia) ltac:(lia))%nat. pose proof (E 0 2 ltac:(lia) ltac:(lia))%nat. pose proof (E 0 3 ltac:(lia) ltac:(lia))%nat.
    pose proof (E 1 0 ltac:(lia) ltac:(lia))%nat. pose proof (E 1 1 ltac:(lia) ltac:(lia))%nat. pose proof (E 1 2 ltac:(lia) ltac:(lia))%nat. pose proof (E 1 3 ltac:(lia) ltac:(lia))%nat.
    pose proof (E 2 0 ltac:(lia) ltac:(lia))%nat. pose proof (E 2 1 ltac:(lia) ltac:(lia))%nat. pose proof (E 2 2 ltac:(lia) ltac:(lia))%nat. pose proof (E 2 3 ltac:(lia) ltac:(lia))%nat.
    pose proof (E 3 0 ltac:(lia) ltac:(lia))%nat. pose proof (E 3 1 ltac:(lia) ltac:(lia))%nat. pose proof (E 3 2 ltac:(lia) ltac:(lia))%nat. pose proof (E 3 3 ltac:(lia) ltac:(lia))%nat.
    clear E. unfold mI in * ; simpl Nat.eqb in * ; cbv iota in * . repeat split; assumption.
Qed.
(** is_backface_visible: the image of the xy plane's orientation against the volume's *)
Theorem C40_backface_exact : forall A, exact_backend BK -> affine A -> eps < Rabs (det 4 A) ->
  (matrix_is_backface_visible (mt A) = true <-> (A 0%nat 0%nat * A 1%nat 1%nat - A 0%nat 1%nat * A 1%nat 0%nat) / det 4 A < 0).
Proof.
  intros A EB (A0 & A1 & A2 & A3) D. unfold matrix_is_backface_visible. rewrite mt_inverse_t by (auto; lra).
  unfold mt, vv, g_get_z; cbn [mz]. rewrite rv_z, Xzero, Xlt_iff. unfold minv, adj. rewrite det3. simpl. rewrite A0, A1, A3.
  match goal with |- ?a < 0 <-> ?b < 0 => replace a with b; [tauto|] end. unfold Rdiv. ring.
Qed.
Theorem C40_backface_singular : forall A, Rabs (det 4 A) < eps -> matrix_is_backface_visible (mt A) = false.
Proof. intros A D. unfold matrix_is_backface_visible. now rewrite mt_inverse_f. Qed.
End S.

(** a card turned about its vertical axis shows its back exactly when cos(angle) < 0 *)
Theorem C40_backface_turn : forall (BK : Backend xreal) deg, exact_backend BK ->
  matrix_is_backface_visible (matrix_init_rotate (Fin deg) (vv3 (V3 0 1 0) (Fin 0))) = true <-> cos (deg * PI / 180) < 0.
Proof.
  intros BK deg EB. assert (D1 : dot (V3 0 1 0) (V3 0 1 0) = 1) by (unfold dot; cbn [r3x r3y r3z]; ring).
  destruct (C30_rotation_orthogonal BK deg (V3 0 1 0) (Fin 0) EB) as (_ & A & E & Af & D).
  - rewrite D1; lra. - intros _. rewrite D1. unfold eps; lra.
  - rewrite E. rewrite C40_backface_exact by (auto; rewrite D, Rabs_R1; unfold eps; lra). rewrite D.
    revert E. unfold matrix_init_rotate. rewrite X_d2r, mt_rotation. 
    + intros E. apply mt_inj in E. rewrite <- !E by lia. rewrite unit3_id by auto.
      unfold mrot, rodrigues, dot, cross, add3, scl3, of_rows, vec; cbn [r3x r3y r3z].
      replace (deg * (PI / 180)) with (deg * PI / 180) by field.
      match goal with |- ?a < 0 <-> _ => replace a with (cos (deg * PI / 180)); [tauto|field] end.
    + auto. + rewrite D1; lra. + intros _. rewrite D1. unfold eps; lra.
Qed.
