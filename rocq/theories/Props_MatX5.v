(** * Props_MatX5: projecting and untransforming rectangles in exact arithmetic (C75). *)

From Coq Require Import ZArith Reals Bool List Lra Lia Psatz.
From Flocq Require Import Core.
From Verif Require Import Num Simd Vec Rect Box Mat Geo OrdThy XSetup RMat Props_VecX Props_RectX Props_MatX Props_MatX2 Props_MatX3 Props_MatX4.
From Verif Require Props_GeoX.
Import ListNotations.
Local Open Scope R_scope.

(** the bounds of the images of the corners of a rectangle under an affine map *)
Lemma affine_bounds (BK : Backend xreal) (p q c p' q' c' x0 x1 y0 y1 : R) (f : R -> R -> R * R) :
  (forall x y, f x y = (x * p + y * q + c, x * p' + y * q' + c')) -> x0 <= x1 -> y0 <= y1 ->
  exists b, points_bounds (p2 (fst (f x0 y0)) (snd (f x0 y0))) (p2 (fst (f x1 y0)) (snd (f x1 y0)))
              (p2 (fst (f x0 y1)) (snd (f x0 y1))) (p2 (fst (f x1 y1)) (snd (f x1 y1))) = rct b /\
    (forall x y, x0 <= x <= x1 -> y0 <= y <= y1 -> inr b (fst (f x y)) (snd (f x y))) /\
    (forall b', (forall x y, x0 <= x <= x1 -> y0 <= y <= y1 -> inr b' (fst (f x y)) (snd (f x y))) -> forall x y, inr b x y -> inr b' x y).
Proof.
  intros F Lx Ly. rewrite X_points_bounds. eexists. split; [reflexivity|].
  assert (K : forall p q c lo hi, forall x y, x0 <= x <= x1 -> y0 <= y <= y1 ->
     lo <= x0 * p + y0 * q + c <= hi -> lo <= x1 * p + y0 * q + c <= hi -> lo <= x1 * p + y1 * q + c <= hi -> lo <= x0 * p + y1 * q + c <= hi ->
     lo <= x * p + y * q + c <= hi).
  { intros a b e lo hi x y Hx Hy H1 H2 H3 H4.
    assert (P : x0 * a <= x * a <= x1 * a \/ x1 * a <= x * a <= x0 * a) by (destruct (Rle_dec 0 a); [left|right]; nra).
    assert (Q : y0 * b <= y * b <= y1 * b \/ y1 * b <= y * b <= y0 * b) by (destruct (Rle_dec 0 b); [left|right]; nra).
    destruct P, Q; lra. }
  split.
  - intros x y Hx Hy. apply inr_lohi. cbn [X Y W H]. rewrite !F. cbn [fst snd].
    match goal with |- context [min4 ?a ?b ?c ?d] => pose proof (min4_le a b c d) as M1; pose proof (max4_ge a b c d) as M2; set (mn := min4 a b c d) in * ; set (mxx := max4 a b c d) in * end.
    match goal with |- context [min4 ?a ?b ?c ?d] => pose proof (min4_le a b c d) as M3; pose proof (max4_ge a b c d) as M4; set (mny := min4 a b c d) in * ; set (mxy := max4 a b c d) in * end.
    rewrite !lo_d, !hi_d by lra. split; apply K; lra.
  - intros b' Hb x y Hi. rewrite inr_lohi in Hi. cbn [X Y W H] in Hi. rewrite !F in Hi. cbn [fst snd] in Hi.
    pose proof (Hb x0 y0 ltac:(lra) ltac:(lra)) as I1. pose proof (Hb x1 y0 ltac:(lra) ltac:(lra)) as I2.
    pose proof (Hb x1 y1 ltac:(lra) ltac:(lra)) as I3. pose proof (Hb x0 y1 ltac:(lra) ltac:(lra)) as I4.
    rewrite F in I1, I2, I3, I4. rewrite inr_lohi in I1, I2, I3, I4 |- * . cbn [fst snd] in I1, I2, I3, I4.
    match type of Hi with context [min4 ?a ?b ?c ?d] => pose proof (min4_in a b c d) as M1; pose proof (max4_in a b c d) as M2; pose proof (min4_le a b c d) as N1; pose proof (max4_ge a b c d) as N2; set (mn := min4 a b c d) in * ; set (mxx := max4 a b c d) in * end.
    match type of Hi with context [min4 ?a ?b ?c ?d] => pose proof (min4_in a b c d) as M3; pose proof (max4_in a b c d) as M4; pose proof (min4_le a b c d) as N3; pose proof (max4_ge a b c d) as N4; set (mny := min4 a b c d) in * ; set (mxy := max4 a b c d) in * end.
    rewrite !lo_d, !hi_d in Hi by lra. clear - Hi I1 I2 I3 I4 M1 M2 M3 M4. lra.
Qed.

Section S.
Context (BK : Backend xreal).

(** project_rect: the projections of the four corners, in the order top left, top right, bottom
    left, bottom right *)
Theorem C75_project_rect_corners : forall A r,
  let x0 := Rmin (X r) (X r + W r) in let x1 := Rmax (X r) (X r + W r) in
  let y0 := Rmin (Y r) (Y r + H r) in let y1 := Rmax (Y r) (Y r + H r) in
  let t := fun x y => matrix_project_point (mt A) (p2 x y) in
  matrix_project_rect (mt A) (rct r) = Qd (t x0 y0) (t x1 y0) (t x0 y1) (t x1 y1) /\
  matrix_project_rect_bounds (mt A) (rct r) = quad_bounds (matrix_project_rect (mt A) (rct r)).
Proof.
  intros A r x0' x1' y0' y1'. cbv zeta. split; [|unfold matrix_project_rect_bounds, matrix_project_rect, quad_bounds; cbn [q0 q1 q2 q3]; reflexivity]. unfold matrix_project_rect. rewrite rct_norm.
  pose proof (C11_corners_exact (nrm r)) as C. cbv zeta in C. destruct C as (-> & -> & -> & -> & _).
  cbn [nrm X Y W H]. change x0' with (lo (X r) (W r)). change x1' with (hi (X r) (W r)). change y0' with (lo (Y r) (H r)). change y1' with (hi (Y r) (H r)).
  set (x0 := lo (X r) (W r)). set (x1 := hi (X r) (W r)). set (y0 := lo (Y r) (H r)). set (y1 := hi (Y r) (H r)).
  assert (Lx : x0 <= x1) by apply lo_hi. assert (Ly : y0 <= y1) by apply lo_hi.
  replace (x0 + (x1 - x0)) with x1 by ring. replace (y0 + (y1 - y0)) with y1 by ring.
  now rewrite (Rmin_left x0 x1), (Rmax_right x0 x1), (Rmin_left y0 y1), (Rmax_right y0 y1) by auto.
Qed.
(** project_rect_bounds: the smallest rectangle containing the projection of every point of r *)
Theorem C75_project_rect_bounds : forall A r, A 2%nat 2%nat <> 0 -> exists b,
  matrix_project_rect_bounds (mt A) (rct r) = rct b /\
  (forall x y, inr r x y -> exists x' y', matrix_project_point (mt A) (p2 x y) = p2 x' y' /\ inr b x' y') /\
  (forall b', (forall x y, inr r x y -> exists x' y', matrix_project_point (mt A) (p2 x y) = p2 x' y' /\ inr b' x' y') ->
     forall x y, inr b x y -> inr b' x y).
Proof.
  intros A r N. destruct (C75_project_rect_corners A r) as [E1 E2]. cbv zeta in E1. rewrite E2, E1. unfold quad_bounds. cbn [q0 q1 q2 q3].
  change (Rmin (X r) (X r + W r)) with (lo (X r) (W r)). change (Rmax (X r) (X r + W r)) with (hi (X r) (W r)).
  change (Rmin (Y r) (Y r + H r)) with (lo (Y r) (H r)). change (Rmax (Y r) (Y r + H r)) with (hi (Y r) (H r)).
  set (x0 := lo (X r) (W r)). set (x1 := hi (X r) (W r)). set (y0 := lo (Y r) (H r)). set (y1 := hi (Y r) (H r)).
  assert (Lx : x0 <= x1) by apply lo_hi. assert (Ly : y0 <= y1) by apply lo_hi.
  set (f := fun x y => let s := r3z (lin A x y 0) / A 2%nat 2%nat in (r3x (lin A x y 0) - s * A 2%nat 0%nat, r3y (lin A x y 0) - s * A 2%nat 1%nat)).
  assert (P : forall x y, matrix_project_point (mt A) (p2 x y) = p2 (fst (f x y)) (snd (f x y))) by (intros; now apply X_project).
  assert (F : forall x y, f x y = (x * (A 0%nat 0%nat - A 0%nat 2%nat / A 2%nat 2%nat * A 2%nat 0%nat) + y * (A 1%nat 0%nat - A 1%nat 2%nat / A 2%nat 2%nat * A 2%nat 0%nat) + 0,
     x * (A 0%nat 1%nat - A 0%nat 2%nat / A 2%nat 2%nat * A 2%nat 1%nat) + y * (A 1%nat 1%nat - A 1%nat 2%nat / A 2%nat 2%nat * A 2%nat 1%nat) + 0)).
  { intros x y. unfold f, lin; cbn [r3x r3y r3z]. f_equal; field; auto. }
  clearbody f. rewrite !P. destruct (affine_bounds BK _ _ _ _ _ _ x0 x1 y0 y1 f F Lx Ly) as (b & E & B1 & B2).
  exists b. split; [exact E|]. split.
  - intros x y Hi. rewrite inr_lohi in Hi. fold x0 x1 y0 y1 in Hi. do 2 eexists. split; [apply P|]. apply B1; apply Hi.
  - intros b' Hb. apply B2. intros x y Hx Hy. destruct (Hb x y) as (x' & y' & E' & I'); [apply inr_lohi; fold x0 x1 y0 y1; split; assumption|].
    rewrite P in E'. unfold p2 in E'. injection E' as -> ->. exact I'.
Qed.
(** The order of the corners is not the one of quad_init_from_rect (and transform_rect), which goes
    around the rectangle: with the identity, which projects every point to itself, project_rect
    crosses over, and graphene_quad_contains denies points inside the rectangle. *)
Theorem C75_project_rect_order_refuted :
  (forall x y, matrix_project_point matrix_init_identity (p2 x y) = p2 x y) /\
  let r := RR 0 0 4 4 in
  quad_contains (quad_init_from_rect (rct r)) (p2 1 2) = true /\
  quad_contains (matrix_transform_rect matrix_init_identity (rct r)) (p2 1 2) = true /\
  quad_contains (matrix_project_rect matrix_init_identity (rct r)) (p2 1 2) = false.
Proof.
  assert (P : forall x y, matrix_project_point matrix_init_identity (p2 x y) = p2 x y).
  { intros x y. unfold matrix_init_identity. rewrite mt_I, X_project by (unfold mI; simpl; lra). unfold lin, mI; cbn [r3x r3y r3z]. simpl Nat.eqb. cbv iota. unfold p2. xring. }
  split; [exact P|]. cbv zeta.
  assert (I0 : inr (RR 0 0 4 4) 1 2) by (apply inr_lohi; cbn [X Y W H]; rewrite !lo_pos, !hi_pos by lra; lra).
  assert (E4 : forall a, 0 <= a -> Rmin 0 (0 + a) = 0 /\ Rmax 0 (0 + a) = a) by (intros a Ha; split; [rewrite Rmin_left|rewrite Rmax_right]; lra).
  destruct (E4 4 ltac:(lra)) as [E0 E1]. split; [|split].
  - apply Props_GeoX.C58_from_rect; cbn [W H]; [lra|lra|exact I0].
  - unfold matrix_init_identity. rewrite mt_I. pose proof (C24_transform_rect_exact mI (RR 0 0 4 4)) as C. cbv zeta in C. cbn [X Y W H] in C. rewrite E0, E1 in C. rewrite C. rewrite !X_tpoint.
    assert (G : forall x y, p2 (fst (img mI x y)) (snd (img mI x y)) = p2 x y) by (intros x y; unfold img, mI, p2; cbn [fst snd]; simpl Nat.eqb; cbv iota; xring).
    rewrite !G. apply (Props_GeoX.quad_contains_spec (0, 0) (4, 0) (4, 4) (0, 4) (1, 2)). unfold Props_GeoX.orient; cbn [fst snd]. lra.
  - apply not_true_is_false. intros K. unfold matrix_init_identity in K, P. rewrite mt_I in K, P.
    destruct (C75_project_rect_corners mI (RR 0 0 4 4)) as [C _]. cbv zeta in C. cbn [X Y W H] in C. rewrite E0, E1, !P in C. rewrite C in K.
    apply (Props_GeoX.quad_contains_spec (0, 0) (4, 0) (0, 4) (4, 4) (1, 2)) in K. unfold Props_GeoX.orient in K; cbn [fst snd] in K. lra.
Qed.

(** ** untransform_bounds *)
(** 2D matrices: the answer contains every point that the matrix sends into r, and nothing smaller
    does; res is left alone (and uninitialised, if it was) exactly if the matrix is singular. *)
Theorem C75_untransform_bounds_2d : forall xx yx xy yy x0 y0 r bounds, exact_backend BK ->
  eps < Rabs (xx * yy - yx * xy) ->
  let m := matrix_init_from_2d (Fin xx) (Fin yx) (Fin xy) (Fin yy) (Fin x0) (Fin y0) in
  let sends_into := fun b => forall x y x' y', matrix_transform_point m (p2 x y) = p2 x' y' -> inr r x' y' -> inr b x y in
  exists b, matrix_untransform_bounds m (rct r) bounds = Some (rct b) /\
    sends_into b /\ (forall b', sends_into b' -> forall x y, inr b x y -> inr b' x y).
Proof.
  intros xx yx xy yy x0 y0 r bounds EB D m sends_into. unfold m in * . rewrite mt_2d in * . unfold matrix_untransform_bounds. rewrite is2d_2d.
  set (A := m2d xx yx xy yy x0 y0) in * .
  destruct (C28_inverse_points BK A EB (aff_2d _ _ _ _ _ _)) as (I & E & Ia & HI).
  { unfold A. now rewrite det_2d. }
  rewrite E. destruct (C24_transform_bounds_exact BK I r) as (b & Eb & B1 & B2). rewrite Eb. exists b. split; [reflexivity|].
  pose proof (fun x y => proj1 (C36_round_trip BK xx yx xy yy x0 y0 x y bounds EB D)) as RT. cbv zeta in RT. rewrite mt_2d in RT. fold A in RT.
  pose proof (fun x y => proj2 (C36_round_trip BK xx yx xy yy x0 y0 x y bounds EB D)) as RT2. cbv zeta in RT2. rewrite mt_2d in RT2. fold A in RT2.
  assert (U : forall p, matrix_untransform_point (mt A) p bounds = Some (matrix_transform_point (mt I) p)).
  { intros p. unfold matrix_untransform_point. unfold A. rewrite is2d_2d. fold A. now rewrite E. }
  split.
  - intros x y x' y' T Hr. change (matrix_transform_point (mt A) (p2 x y) = p2 x' y') in T. destruct (B1 x' y' Hr) as (u & v & Q & Hb). pose proof (RT x y) as K. rewrite T, U, Q in K. unfold p2 in K. injection K as -> ->. exact Hb.
  - intros b' Hb'. apply B2. intros x y Hr. destruct (RT2 x y) as (q & Uq & Tq). rewrite U in Uq. injection Uq as Uq.
    rewrite X_tpoint in Uq |- * . do 2 eexists. split; [reflexivity|]. subst q. eapply Hb'; [exact Tq|exact Hr].
Qed.
Theorem C75_untransform_bounds_fails : forall xx yx xy yy x0 y0 r bounds,
  let m := matrix_init_from_2d (Fin xx) (Fin yx) (Fin xy) (Fin yy) (Fin x0) (Fin y0) in
  matrix_untransform_bounds m r bounds = None <-> Rabs (xx * yy - yx * xy) < eps.
Proof.
  intros xx yx xy yy x0 y0 r bounds m. unfold m. rewrite mt_2d. unfold matrix_untransform_bounds. rewrite is2d_2d.
  rewrite <- (det_2d xx yx xy yy x0 y0), <- (C28_inverse_answer BK). destruct (matrix_inverse _); split; congruence.
Qed.

(** Matrices that are not 2D.  The inverse is projected, and a projection ignores the translation of
    its matrix (C36_non_2d_refuted), so these are right for matrices without translation: there
    untransform_point inverts transform_point on the bounds... *)
Definition flat (A : RM) : R := A 0%nat 0%nat * A 1%nat 1%nat - A 0%nat 1%nat * A 1%nat 0%nat.
Definition untranslated (A : RM) : Prop := affine A /\ A 3%nat 0%nat = 0 /\ A 3%nat 1%nat = 0 /\ A 3%nat 2%nat = 0.
Lemma project_inverse A x y : untranslated A -> det 4 A <> 0 -> flat A <> 0 ->
  minv A 2%nat 2%nat <> 0 /\ matrix_project_point (mt (minv A)) (p2 (fst (img A x y)) (snd (img A x y))) = p2 x y.
Proof.
  intros ((A0 & A1 & A2 & A3) & T0 & T1 & T2) D Fl.
  assert (N : minv A 2%nat 2%nat <> 0).
  { unfold minv, adj. rewrite det3. simpl. rewrite A0, A1, A3, T0, T1. unfold flat in Fl. intros Q. apply Fl.
    apply (f_equal (fun z => z * det 4 A)) in Q. unfold Rdiv in Q. rewrite Rmult_assoc, Rinv_l, Rmult_0_l in Q by auto. lra. }
  split; [exact N|]. rewrite X_project by exact N. pose proof (minv_r A D) as M.
  assert (K : forall i j, (i < 4)%nat -> (j < 4)%nat -> A i 3%nat = 0 -> A i 0%nat * minv A 0%nat j + A i 1%nat * minv A 1%nat j + A i 2%nat * minv A 2%nat j = mI i j).
  { intros i j Hi Hj Z. rewrite <- (M i j Hi Hj). unfold mmul, sum4. rewrite Z. ring. }
  pose proof (K 0%nat 0%nat ltac:(lia) ltac:(lia) A0) as K00. pose proof (K 0%nat 1%nat ltac:(lia) ltac:(lia) A0) as K01. pose proof (K 0%nat 2%nat ltac:(lia) ltac:(lia) A0) as K02.
  pose proof (K 1%nat 0%nat ltac:(lia) ltac:(lia) A1) as K10. pose proof (K 1%nat 1%nat ltac:(lia) ltac:(lia) A1) as K11. pose proof (K 1%nat 2%nat ltac:(lia) ltac:(lia) A1) as K12.
  clear K M. unfold mI in * . simpl Nat.eqb in * . cbv iota in * .
  unfold img, lin; cbn [fst snd r3x r3y r3z]. rewrite T0, T1.
  set (I := minv A) in * . clearbody I.
  assert (Z : (x * A 0%nat 0%nat + y * A 1%nat 0%nat + 0) * I 0%nat 2%nat + (x * A 0%nat 1%nat + y * A 1%nat 1%nat + 0) * I 1%nat 2%nat + 0 * I 2%nat 2%nat =
              - (x * A 0%nat 2%nat + y * A 1%nat 2%nat) * I 2%nat 2%nat).
  { replace (- (x * A 0%nat 2%nat + y * A 1%nat 2%nat) * I 2%nat 2%nat) with
      (x * (A 0%nat 0%nat * I 0%nat 2%nat + A 0%nat 1%nat * I 1%nat 2%nat + A 0%nat 2%nat * I 2%nat 2%nat) + y * (A 1%nat 0%nat * I 0%nat 2%nat + A 1%nat 1%nat * I 1%nat 2%nat + A 1%nat 2%nat * I 2%nat 2%nat) - (x * A 0%nat 2%nat + y * A 1%nat 2%nat) * I 2%nat 2%nat) by (rewrite K02, K12; ring). ring. }
  rewrite Z. unfold p2. f_equal; f_equal.
  - replace (- (x * A 0%nat 2%nat + y * A 1%nat 2%nat) * I 2%nat 2%nat / I 2%nat 2%nat) with (- (x * A 0%nat 2%nat + y * A 1%nat 2%nat)) by (field; auto).
    transitivity (x * (A 0%nat 0%nat * I 0%nat 0%nat + A 0%nat 1%nat * I 1%nat 0%nat + A 0%nat 2%nat * I 2%nat 0%nat) + y * (A 1%nat 0%nat * I 0%nat 0%nat + A 1%nat 1%nat * I 1%nat 0%nat + A 1%nat 2%nat * I 2%nat 0%nat)); [ring|]. rewrite K00, K10. ring.
  - replace (- (x * A 0%nat 2%nat + y * A 1%nat 2%nat) * I 2%nat 2%nat / I 2%nat 2%nat) with (- (x * A 0%nat 2%nat + y * A 1%nat 2%nat)) by (field; auto).
    transitivity (x * (A 0%nat 0%nat * I 0%nat 1%nat + A 0%nat 1%nat * I 1%nat 1%nat + A 0%nat 2%nat * I 2%nat 1%nat) + y * (A 1%nat 0%nat * I 0%nat 1%nat + A 1%nat 1%nat * I 1%nat 1%nat + A 1%nat 2%nat * I 2%nat 1%nat)); [ring|]. rewrite K01, K11. ring.
Qed.
Theorem C75_untransform_point_linear : forall A x y bounds, exact_backend BK -> untranslated A -> eps < Rabs (det 4 A) -> flat A <> 0 ->
  matrix_is_2d (mt A) = false -> inr bounds x y ->
  matrix_untransform_point (mt A) (matrix_transform_point (mt A) (p2 x y)) (rct bounds) = Some (p2 x y).
Proof.
  intros A x y bounds EB U D Fl N2 Hb. unfold matrix_untransform_point. rewrite N2.
  destruct (C24_transform_bounds_exact BK A bounds) as (b & -> & B1 & _). destruct (B1 x y Hb) as (x' & y' & E & I'). rewrite E.
  rewrite (proj2 (C11_contains_point_exact _ _ _) I'). cbn [negb].
  assert (D0 : det 4 A <> 0) by (intros Q; rewrite Q, Rabs_R0 in D; unfold eps in D; lra).
  unfold matrix_inverse. rewrite (mt_inverse_t BK EB) by (auto; lra). rewrite X_tpoint in E. rewrite <- E. f_equal. now apply project_inverse.
Qed.
(** ... and untransform_bounds gives the smallest rectangle with every point that the matrix sends
    into both r and the transformed bounds (so with every point of the bounds it sends into r), or
    the zero rectangle if those two have no interior point in common. *)
Theorem C75_untransform_bounds_linear : forall A r bounds, exact_backend BK -> untranslated A -> eps < Rabs (det 4 A) -> flat A <> 0 ->
  matrix_is_2d (mt A) = false -> exists tb, matrix_transform_bounds (mt A) (rct bounds) = rct tb /\
  let meet := exists x y, inr_open r x y /\ inr_open tb x y in
  let sends_into := fun b => forall x y x' y', matrix_transform_point (mt A) (p2 x y) = p2 x' y' -> inr r x' y' -> inr tb x' y' -> inr b x y in
  exists b, matrix_untransform_bounds (mt A) (rct r) (rct bounds) = Some (rct b) /\
    (meet -> sends_into b /\ (forall b', sends_into b' -> forall x y, inr b x y -> inr b' x y) /\
       (forall x y x' y', inr bounds x y -> matrix_transform_point (mt A) (p2 x y) = p2 x' y' -> inr r x' y' -> inr b x y)) /\
    (~ meet -> b = RR 0 0 0 0).
Proof.
  intros A r bounds EB U D Fl N2. destruct (C24_transform_bounds_exact BK A bounds) as (tb & E & T1 & _). exists tb. split; [exact E|]. cbv zeta.
  unfold matrix_untransform_bounds. rewrite N2, E.
  destruct (C13_intersection_exact r tb) as (C1 & C2 & C3). destruct (rect_intersection (rct r) (rct tb)) as [ok i] eqn:EI. cbn [fst snd] in * . destruct ok; cbn [negb].
  2:{ specialize (C3 eq_refl). exists (RR 0 0 0 0). split; [|split; [intros K; exfalso; apply C1 in K; discriminate|reflexivity]].
      f_equal. unfold rect_init. rewrite Xzero. change (mkrect (Fin 0) (Fin 0) (Fin 0) (Fin 0)) with (rct (RR 0 0 0 0)). rewrite rct_norm. f_equal.
      unfold nrm, lo, hi; cbn [X Y W H]. rewrite Rmin_left, Rmax_left by lra. f_equal; lra. }
  assert (D0 : det 4 A <> 0) by (intros Q; rewrite Q, Rabs_R0 in D; unfold eps in D; lra).
  destruct (C2 eq_refl) as (ir & -> & _ & _ & Hi). unfold matrix_inverse. rewrite (mt_inverse_t BK EB) by (auto; lra).
  assert (P : forall x y, matrix_project_point (mt (minv A)) (p2 (fst (img A x y)) (snd (img A x y))) = p2 x y) by (intros; now apply project_inverse).
  assert (N : minv A 2%nat 2%nat <> 0) by now apply (project_inverse A 0 0).
  destruct (C75_project_rect_bounds (minv A) ir N) as (b & Eb & B1 & B2). rewrite Eb. exists b. split; [reflexivity|]. split; [|intros K; exfalso; apply K, C1; reflexivity].
  intros _. assert (S : forall x y x' y', matrix_transform_point (mt A) (p2 x y) = p2 x' y' -> inr r x' y' -> inr tb x' y' -> inr b x y).
  { intros x y x' y' T Hr Ht. rewrite X_tpoint in T. destruct (B1 x' y' (proj2 (Hi x' y') (conj Hr Ht))) as (u & v & Q & Hb).
    rewrite <- T, P in Q. unfold p2 in Q. injection Q as -> ->. exact Hb. }
  split; [exact S|]. split.
  - intros b' Hb'. apply B2. intros x y Hxy. apply Hi in Hxy.
    (* the preimage of (x, y): solve the 2x2 system *)
    set (u := (x * A 1%nat 1%nat - y * A 1%nat 0%nat) / flat A). set (v := (y * A 0%nat 0%nat - x * A 0%nat 1%nat) / flat A).
    assert (G : img A u v = (x, y)).
    { destruct U as (_ & Z0 & Z1 & _). unfold img, u, v. rewrite Z0, Z1. unfold flat in Fl |- * . f_equal; field; auto. }
    exists u, v. pose proof (P u v) as Q. rewrite G in Q. split; [exact Q|]. apply (Hb' u v x y); [rewrite X_tpoint, G; reflexivity|apply Hxy|apply Hxy].
  - intros x y x' y' Hb T Hr. destruct (T1 x y Hb) as (u & v & T' & Hv). rewrite T in T'. unfold p2 in T'. injection T' as -> ->. now apply (S x y u v).
Qed.
(** it fails exactly if the matrix is singular and (when not 2D) the two rectangles meet *)
Theorem C75_untransform_bounds_fails_iff : forall A r bounds, matrix_is_2d (mt A) = false ->
  (matrix_untransform_bounds (mt A) (rct r) (rct bounds) = None <->
   Rabs (det 4 A) < eps /\ exists tb, matrix_transform_bounds (mt A) (rct bounds) = rct tb /\ exists x y, inr_open r x y /\ inr_open tb x y) /\
  (forall x y, matrix_untransform_point (mt A) (p2 x y) (rct bounds) = None <->
   Rabs (det 4 A) < eps \/ exists tb, matrix_transform_bounds (mt A) (rct bounds) = rct tb /\ ~ inr tb x y).
Proof.
  intros A r bounds N2. destruct (C24_transform_bounds_exact BK A bounds) as (tb & E & _). unfold matrix_untransform_bounds, matrix_untransform_point. rewrite N2, E.
  assert (J : forall b b', rct b = rct b' -> b = b') by (intros [x1 y1 w1 h1] [x2 y2 w2 h2] Q; unfold rct in Q; cbn [Props_RectX.X Props_RectX.Y Props_RectX.W Props_RectX.H] in Q; injection Q; intros; subst; reflexivity).
  split.
  - destruct (C13_intersection_exact r tb) as (C1 & C2 & C3). destruct (rect_intersection (rct r) (rct tb)) as [ok i]. cbn [fst snd] in * .
    rewrite <- (C28_inverse_answer BK). destruct ok; cbn [negb].
    + destruct (matrix_inverse _); split; try congruence; try tauto; [intros [? _]; congruence|]. intros _. split; auto. exists tb. split; auto. now apply C1.
    + split; [discriminate|]. intros (_ & tb' & E' & K). apply J in E'. subst tb'. apply C1 in K. discriminate.
  - intros x y. rewrite <- (C28_inverse_answer BK). pose proof (C11_contains_point_exact tb x y) as C. destruct (rect_contains_point (rct tb) (p2 x y)) eqn:Q; cbn [negb].
    + destruct (matrix_inverse _); split; try tauto; try discriminate. intros [K|(tb' & E' & K)]; [discriminate K|]. apply J in E'. subst tb'. exfalso. apply K, C. reflexivity.
    + split; auto. intros _. right. exists tb. split; auto. intros K. apply C in K. congruence.
Qed.
(** the hypotheses can be met: a rotation about the y axis *)
Example C75_linear_ex : exists A, untranslated A /\ eps < Rabs (det 4 A) /\ flat A <> 0 /\ matrix_is_2d (mt A) = false.
Proof.
  exists (of_rows (vec (3/5) 0 (-4/5) 0) (vec 0 1 0 0) (vec (4/5) 0 (3/5) 0) (vec 0 0 0 1)).
  split; [repeat split|]. split; [|split].
  - rewrite det4. unfold of_rows, vec. cbv zeta. replace (Rabs _) with 1; [unfold eps; lra|]. rewrite Rabs_pos_eq; lra.
  - unfold flat, of_rows, vec. lra.
  - apply not_true_is_false. rewrite X_is2d. unfold of_rows, vec. intros (K & _). revert K. rewrite Rabs_left by lra. unfold eps. lra.
Qed.
End S.
