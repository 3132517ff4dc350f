(** * Props_RectX: rectangles in exact arithmetic (C10-C16).

    Specification: a rectangle with origin (x, y) and size (w, h), of any signs, stands for
    the closed set of points between its two corners (x, y) and (x + w, y + h). *)

From Coq Require Import ZArith Reals Bool List Lra Lia Psatz.
From Flocq Require Import Core.
From Verif Require Import Num Simd Vec Rect Box OrdThy XSetup Props_VecX.
Import ListNotations.
Local Open Scope R_scope.

(** one axis: the interval between a and a + l *)
Definition seg (a l p : R) : Prop := Rmin a (a + l) <= p <= Rmax a (a + l).
(** its interior *)
Definition seg_in (a l p : R) : Prop := Rmin a (a + l) < p < Rmax a (a + l).
Record rrect := RR { X : R; Y : R; W : R; H : R }.
Definition inr (r : rrect) (px py : R) : Prop := seg (X r) (W r) px /\ seg (Y r) (H r) py.
Definition inr_open (r : rrect) (px py : R) : Prop := seg_in (X r) (W r) px /\ seg_in (Y r) (H r) py.
(** the API value *)
Definition rct (r : rrect) : rect xreal := mkrect (Fin (X r)) (Fin (Y r)) (Fin (W r)) (Fin (H r)).

Definition lo a l := Rmin a (a + l).
Definition hi a l := Rmax a (a + l).
Lemma lo_eq a l : a + Rmin l 0 = lo a l.
Proof. unfold lo, Rmin. destruct (Rle_dec l 0), (Rle_dec a (a + l)); lra. Qed.
Lemma hi_lo a l : Rabs l = hi a l - lo a l.
Proof. unfold lo, hi, Rmin, Rmax, Rabs. destruct (Rcase_abs l), (Rle_dec a (a + l)); lra. Qed.
Lemma lo_hi a l : lo a l <= hi a l.
Proof. unfold lo, hi, Rmin, Rmax. destruct (Rle_dec a (a + l)); lra. Qed.
Lemma seg_lohi a l p : seg a l p <-> lo a l <= p <= hi a l.
Proof. reflexivity. Qed.
Lemma lo_pos a l : 0 <= l -> lo a l = a. Proof. intros. unfold lo. rewrite Rmin_left; lra. Qed.
Lemma hi_pos a l : 0 <= l -> hi a l = a + l. Proof. intros. unfold hi. rewrite Rmax_right; lra. Qed.
Lemma lo_d a b : a <= b -> lo a (b - a) = a. Proof. intros. rewrite lo_pos; lra. Qed.
Lemma hi_d a b : a <= b -> hi a (b - a) = b. Proof. intros. rewrite hi_pos; lra. Qed.

(** the normalised rectangle *)
Definition nrm (r : rrect) : rrect :=
  RR (lo (X r) (W r)) (lo (Y r) (H r)) (hi (X r) (W r) - lo (X r) (W r)) (hi (Y r) (H r) - lo (Y r) (H r)).
Lemma rct_norm r : rect_normalize (rct r) = rct (nrm r).
Proof. unfold rct. rewrite X_norm. unfold nrm; cbn [X Y W H]. now rewrite !lo_eq, <- !hi_lo. Qed.
Lemma rxF r : rx (rct r) = Fin (X r). Proof. reflexivity. Qed.
Lemma ryF r : ry (rct r) = Fin (Y r). Proof. reflexivity. Qed.
Lemma rwF r : rw (rct r) = Fin (W r). Proof. reflexivity. Qed.
Lemma rhF r : rh (rct r) = Fin (H r). Proof. reflexivity. Qed.
Lemma X_min a b : cMIN (Fin a) (Fin b) = Fin (Rmin a b).
Proof.
  unfold cMIN. destruct (flt (Fin a) (Fin b)) eqn:L; [apply Xlt_iff in L|apply Xlt_iff_f in L]; f_equal.
  - now rewrite Rmin_left by lra. - now rewrite Rmin_right by lra.
Qed.
Lemma X_max a b : cMAX (Fin a) (Fin b) = Fin (Rmax a b).
Proof.
  unfold cMAX. destruct (flt (Fin b) (Fin a)) eqn:L; [apply Xlt_iff in L|apply Xlt_iff_f in L]; f_equal.
  - now rewrite Rmax_left by lra. - now rewrite Rmax_right by lra.
Qed.
Ltac rr := rewrite ?rxF, ?ryF, ?rwF, ?rhF; cbn [X Y W H nrm].

Section S.
Context (BK : Backend xreal).

(** ** C10: sign conventions *)
Theorem C10_normalize_exact : forall r, exists n, rect_normalize (rct r) = rct n /\
  0 <= W n /\ 0 <= H n /\ (forall px py, inr n px py <-> inr r px py) /\
  (X n = X r \/ X n = X r + W r) /\ (Y n = Y r \/ Y n = Y r + H r).
Proof.
  intros r. exists (nrm r). split; [apply rct_norm|]. pose proof (lo_hi (X r) (W r)). pose proof (lo_hi (Y r) (H r)).
  split; [cbn; lra|]. split; [cbn; lra|]. split; [|split].
  - intros. unfold inr. rewrite !seg_lohi. cbn [nrm X Y W H]. now rewrite !lo_d, !hi_d by lra.
  - cbn. unfold lo, Rmin. destruct (Rle_dec _ _); auto.
  - cbn. unfold lo, Rmin. destruct (Rle_dec _ _); auto.
Qed.
(** The rectangle given by any two opposite corners is the same to every query. *)
Theorem C10_corner_choice : forall r,
  rect_normalize (rct (RR (X r + W r) (Y r) (- W r) (H r))) = rect_normalize (rct r) /\
  rect_normalize (rct (RR (X r) (Y r + H r) (W r) (- H r))) = rect_normalize (rct r) /\
  rect_normalize (rct (RR (X r + W r) (Y r + H r) (- W r) (- H r))) = rect_normalize (rct r).
Proof.
  assert (A : forall a l, lo (a + l) (- l) = lo a l).
  { intros. unfold lo. replace (a + l + - l) with a by ring. apply Rmin_comm. }
  assert (B : forall a l, hi (a + l) (- l) = hi a l).
  { intros. unfold hi. replace (a + l + - l) with a by ring. apply Rmax_comm. }
  intros r. rewrite !rct_norm. unfold nrm; cbn [X Y W H]. rewrite !A, !B. auto.
Qed.

(** ** C11: containment *)
Theorem C11_contains_point_exact : forall r px py, rect_contains_point (rct r) (p2 px py) = true <-> inr r px py.
Proof.
  intros. unfold rect_contains_point. rewrite rct_norm. rr. cbn [p2 Rect.px Rect.py]. rewrite !Xadd.
  rewrite !andb_true_iff, !Xle_iff. unfold inr. rewrite !seg_lohi.
  replace (lo (X r) (W r) + (hi (X r) (W r) - lo (X r) (W r))) with (hi (X r) (W r)) by ring.
  replace (lo (Y r) (H r) + (hi (Y r) (H r) - lo (Y r) (H r))) with (hi (Y r) (H r)) by ring. tauto.
Qed.
(** The corner getters, the centre and the vertices. *)
Theorem C11_corners_exact : forall r,
  let x0 := Rmin (X r) (X r + W r) in let x1 := Rmax (X r) (X r + W r) in
  let y0 := Rmin (Y r) (Y r + H r) in let y1 := Rmax (Y r) (Y r + H r) in
  rect_get_top_left (rct r) = p2 x0 y0 /\ rect_get_top_right (rct r) = p2 x1 y0 /\
  rect_get_bottom_left (rct r) = p2 x0 y1 /\ rect_get_bottom_right (rct r) = p2 x1 y1 /\
  rect_get_center (rct r) = p2 ((x0 + x1) / 2) ((y0 + y1) / 2) /\
  rect_get_vertices (rct r) = [rv x0 y0 0 0; rv x1 y0 0 0; rv x1 y1 0 0; rv x0 y1 0 0] /\
  rect_get_x (rct r) = Fin x0 /\ rect_get_y (rct r) = Fin y0 /\
  rect_get_width (rct r) = Fin (Rabs (W r)) /\ rect_get_height (rct r) = Fin (Rabs (H r)) /\
  rect_get_area (rct r) = Fin (Rabs (W r * H r)).
Proof.
  intros r x0 x1 y0 y1. change x0 with (lo (X r) (W r)). change x1 with (hi (X r) (W r)).
  change y0 with (lo (Y r) (H r)). change y1 with (hi (Y r) (H r)).
  unfold rect_get_top_left, rect_get_top_right, rect_get_bottom_left, rect_get_bottom_right, rect_get_center,
    rect_get_vertices, rect_get_x, rect_get_y, rect_get_width, rect_get_height, rect_get_area.
  rewrite rct_norm. rr. rewrite xtwo, !Xadd, !Xdiv, !Xadd, Xmul by lra.
  rewrite Rabs_mult, (hi_lo (X r) (W r)), (hi_lo (Y r) (H r)).
  unfold p2, vec2_init, rv, g_init. rewrite !Xzero.
  repeat split; try reflexivity; repeat (f_equal; try lra).
Qed.

(** ** C12: union *)
Definition uni (a b : rrect) : rrect :=
  let x0 := Rmin (lo (X a) (W a)) (lo (X b) (W b)) in let y0 := Rmin (lo (Y a) (H a)) (lo (Y b) (H b)) in
  RR x0 y0 (Rmax (hi (X a) (W a)) (hi (X b) (W b)) - x0) (Rmax (hi (Y a) (H a)) (hi (Y b) (H b)) - y0).
Lemma rct_union a b : rect_union (rct a) (rct b) = rct (uni a b).
Proof.
  unfold rect_union. rewrite !rct_norm. rr. rewrite !Xadd, !X_min, !X_max, !Xsub.
  unfold rct, uni; cbn [X Y W H]. repeat (f_equal; try ring).
  all: rewrite ?Rplus_minus; auto.
  all: f_equal; f_equal; ring.
Qed.
Lemma uni_lo a b : lo (X (uni a b)) (W (uni a b)) = Rmin (lo (X a) (W a)) (lo (X b) (W b)) /\
  hi (X (uni a b)) (W (uni a b)) = Rmax (hi (X a) (W a)) (hi (X b) (W b)) /\
  lo (Y (uni a b)) (H (uni a b)) = Rmin (lo (Y a) (H a)) (lo (Y b) (H b)) /\
  hi (Y (uni a b)) (H (uni a b)) = Rmax (hi (Y a) (H a)) (hi (Y b) (H b)).
Proof.
  cbn [uni X Y W H]. pose proof (lo_hi (X a) (W a)). pose proof (lo_hi (Y a) (H a)).
  pose proof (Rmin_l (lo (X a) (W a)) (lo (X b) (W b))). pose proof (Rmax_l (hi (X a) (W a)) (hi (X b) (W b))).
  pose proof (Rmin_l (lo (Y a) (H a)) (lo (Y b) (H b))). pose proof (Rmax_l (hi (Y a) (H a)) (hi (Y b) (H b))).
  rewrite !lo_d, !hi_d by lra. auto.
Qed.
Lemma inr_lohi r px py : inr r px py <-> lo (X r) (W r) <= px <= hi (X r) (W r) /\ lo (Y r) (H r) <= py <= hi (Y r) (H r).
Proof. reflexivity. Qed.
Lemma sub_lohi a b : (forall px py, inr a px py -> inr b px py) <->
  lo (X b) (W b) <= lo (X a) (W a) /\ hi (X a) (W a) <= hi (X b) (W b) /\ lo (Y b) (H b) <= lo (Y a) (H a) /\ hi (Y a) (H a) <= hi (Y b) (H b).
Proof.
  pose proof (lo_hi (X a) (W a)). pose proof (lo_hi (Y a) (H a)). split.
  - intros S. pose proof (S (lo (X a) (W a)) (lo (Y a) (H a))) as S1. pose proof (S (hi (X a) (W a)) (hi (Y a) (H a))) as S2.
    rewrite !inr_lohi in * . lra.
  - intros S px py. rewrite !inr_lohi. lra.
Qed.
Theorem C12_union_contains : forall a b, exists u, rect_union (rct a) (rct b) = rct u /\
  (forall px py, inr a px py \/ inr b px py -> inr u px py) /\
  (forall c, (forall px py, inr a px py \/ inr b px py -> inr c px py) -> forall px py, inr u px py -> inr c px py).
Proof.
  intros a b. exists (uni a b). split; [apply rct_union|]. destruct (uni_lo a b) as (E1 & E2 & E3 & E4). split.
  - intros px py. rewrite !inr_lohi, E1, E2, E3, E4. unfold Rmin, Rmax.
    destruct (Rle_dec (lo (X a) (W a)) _), (Rle_dec (lo (Y a) (H a)) _), (Rle_dec (hi (X a) (W a)) _), (Rle_dec (hi (Y a) (H a)) _); lra.
  - intros c Hc. apply sub_lohi. rewrite E1, E2, E3, E4.
    destruct (proj1 (sub_lohi a c) (fun px py I => Hc px py (or_introl I))) as (?&?&?&?).
    destruct (proj1 (sub_lohi b c) (fun px py I => Hc px py (or_intror I))) as (?&?&?&?).
    repeat split; try (apply Rmin_glb; auto); apply Rmax_lub; auto.
Qed.
Theorem C12_union_algebra : forall a b c,
  rect_union (rct a) (rct b) = rect_union (rct b) (rct a) /\
  rect_union (rct a) (rct a) = rect_normalize (rct a) /\
  rect_union (rect_union (rct a) (rct b)) (rct c) = rect_union (rct a) (rect_union (rct b) (rct c)).
Proof.
  intros a b c. rewrite !rct_union, rct_norm. split; [|split].
  - unfold uni, rct; cbn [X Y W H]. now rewrite (Rmin_comm (lo (X a) (W a))), (Rmin_comm (lo (Y a) (H a))), (Rmax_comm (hi (X a) (W a))), (Rmax_comm (hi (Y a) (H a))).
  - unfold uni, nrm, rct; cbn [X Y W H]. rewrite (Rmin_left (lo (X a) (W a))), (Rmin_left (lo (Y a) (H a))), (Rmax_left (hi (X a) (W a))), (Rmax_left (hi (Y a) (H a))) by lra. reflexivity.
  - destruct (uni_lo a b) as (E1 & E2 & E3 & E4). destruct (uni_lo b c) as (F1 & F2 & F3 & F4).
    unfold uni at 1 3. rewrite E1, E2, E3, E4, F1, F2, F3, F4. unfold rct; cbn [X Y W H]. now rewrite !Rmin_assoc, !Rmax_assoc.
Qed.

(** ** C13: intersection *)
Theorem C13_intersection_exact : forall a b,
  (fst (rect_intersection (rct a) (rct b)) = true <-> exists px py, inr_open a px py /\ inr_open b px py) /\
  (fst (rect_intersection (rct a) (rct b)) = true ->
     exists i, snd (rect_intersection (rct a) (rct b)) = rct i /\ 0 < W i /\ 0 < H i /\
       forall px py, inr i px py <-> inr a px py /\ inr b px py) /\
  (fst (rect_intersection (rct a) (rct b)) = false -> snd (rect_intersection (rct a) (rct b)) = rct (RR 0 0 0 0)).
Proof.
  intros a b. unfold rect_intersection. rewrite !rct_norm. rr. rewrite !Xadd, !X_min, !X_max, !Xsub.
  replace (lo (X a) (W a) + (hi (X a) (W a) - lo (X a) (W a))) with (hi (X a) (W a)) by ring.
  replace (lo (Y a) (H a) + (hi (Y a) (H a) - lo (Y a) (H a))) with (hi (Y a) (H a)) by ring.
  replace (lo (X b) (W b) + (hi (X b) (W b) - lo (X b) (W b))) with (hi (X b) (W b)) by ring.
  replace (lo (Y b) (H b) + (hi (Y b) (H b) - lo (Y b) (H b))) with (hi (Y b) (H b)) by ring.
  set (x1 := Rmax (lo (X a) (W a)) (lo (X b) (W b))). set (x2 := Rmin (hi (X a) (W a)) (hi (X b) (W b))).
  set (y1 := Rmax (lo (Y a) (H a)) (lo (Y b) (H b))). set (y2 := Rmin (hi (Y a) (H a)) (hi (Y b) (H b))).
  assert (Ox : forall p q, inr_open a p q /\ inr_open b p q <-> x1 < p < x2 /\ y1 < q < y2).
  { intros p q. unfold inr_open, seg_in, x1, x2, y1, y2.
    change (Rmin (X a) (X a + W a)) with (lo (X a) (W a)). change (Rmax (X a) (X a + W a)) with (hi (X a) (W a)).
    change (Rmin (Y a) (Y a + H a)) with (lo (Y a) (H a)). change (Rmax (Y a) (Y a + H a)) with (hi (Y a) (H a)).
    change (Rmin (X b) (X b + W b)) with (lo (X b) (W b)). change (Rmax (X b) (X b + W b)) with (hi (X b) (W b)).
    change (Rmin (Y b) (Y b + H b)) with (lo (Y b) (H b)). change (Rmax (Y b) (Y b + H b)) with (hi (Y b) (H b)).
    unfold Rmin, Rmax. destruct (Rle_dec _ _), (Rle_dec _ _), (Rle_dec _ _), (Rle_dec _ _); lra. }
  assert (Cx : forall p q, inr a p q /\ inr b p q <-> x1 <= p <= x2 /\ y1 <= q <= y2).
  { intros p q. rewrite !inr_lohi. unfold x1, x2, y1, y2, Rmin, Rmax.
    destruct (Rle_dec _ _), (Rle_dec _ _), (Rle_dec _ _), (Rle_dec _ _); lra. }
  destruct (fle (Fin x2) (Fin x1)) eqn:L1; [apply Xle_iff in L1|apply Xle_iff_f in L1].
  { cbn [orb fst snd]. split; [|split].
    - split; [discriminate|]. intros (p & q & I). apply Ox in I. lra.
    - discriminate.
    - intros _. unfold rect_init. rewrite Xzero. change (mkrect (Fin 0) (Fin 0) (Fin 0) (Fin 0)) with (rct (RR 0 0 0 0)).
      rewrite rct_norm. unfold nrm; cbn [X Y W H]. rewrite !lo_pos, !hi_pos by lra. unfold rct; cbn [X Y W H]. xring. }
  destruct (fle (Fin y2) (Fin y1)) eqn:L2; [apply Xle_iff in L2|apply Xle_iff_f in L2].
  { cbn [orb fst snd]. split; [|split].
    - split; [discriminate|]. intros (p & q & I). apply Ox in I. lra.
    - discriminate.
    - intros _. unfold rect_init. rewrite Xzero. change (mkrect (Fin 0) (Fin 0) (Fin 0) (Fin 0)) with (rct (RR 0 0 0 0)).
      rewrite rct_norm. unfold nrm; cbn [X Y W H]. rewrite !lo_pos, !hi_pos by lra. unfold rct; cbn [X Y W H]. xring. }
  cbn [orb fst snd]. split; [|split; [|discriminate]].
  - split; auto. intros _. exists ((x1 + x2) / 2), ((y1 + y2) / 2). apply Ox. lra.
  - intros _. exists (RR x1 y1 (x2 - x1) (y2 - y1)). split.
    + unfold rect_init. change (mkrect (Fin x1) (Fin y1) (Fin (x2 - x1)) (Fin (y2 - y1))) with (rct (RR x1 y1 (x2 - x1) (y2 - y1))).
      rewrite rct_norm. unfold nrm; cbn [X Y W H]. now rewrite !lo_d, !hi_d by lra.
    + cbn [X Y W H]. split; [lra|]. split; [lra|]. intros p q. rewrite inr_lohi; cbn [X Y W H]. rewrite !lo_d, !hi_d by lra. symmetry. apply Cx.
Qed.
Theorem C13_intersection_commutes : forall a b, rect_intersection (rct a) (rct b) = rect_intersection (rct b) (rct a).
Proof.
  intros a b. unfold rect_intersection. rewrite !rct_norm. rr. rewrite !Xadd, !X_min, !X_max.
  now rewrite (Rmax_comm (lo (X a) (W a))), (Rmax_comm (lo (Y a) (H a))),
    (Rmin_comm (lo (X a) (W a) + _)), (Rmin_comm (lo (Y a) (H a) + _)).
Qed.

(** ** C14: rounding *)
Definition integer (r : R) : Prop := exists z : Z, r = IZR z.
Definition integral (r : rrect) : Prop := integer (X r) /\ integer (Y r) /\ integer (W r) /\ integer (H r).
Theorem C14_round_extents_exact : forall r, exists e, rect_round_extents (rct r) = rct e /\ integral e /\
  (forall px py, inr r px py -> inr e px py) /\
  (forall c, integral c -> (forall px py, inr r px py -> inr c px py) -> forall px py, inr e px py -> inr c px py).
Proof.
  intros r. unfold rect_round_extents. rewrite rct_norm. rr. rewrite !Xadd.
  replace (lo (X r) (W r) + (hi (X r) (W r) - lo (X r) (W r))) with (hi (X r) (W r)) by ring.
  replace (lo (Y r) (H r) + (hi (Y r) (H r) - lo (Y r) (H r))) with (hi (Y r) (H r)) by ring.
  change (ffloor (Fin (lo (X r) (W r)))) with (Fin (IZR (Zfloor (lo (X r) (W r))))).
  change (ffloor (Fin (lo (Y r) (H r)))) with (Fin (IZR (Zfloor (lo (Y r) (H r))))).
  change (fceil (Fin (hi (X r) (W r)))) with (Fin (IZR (Zceil (hi (X r) (W r))))).
  change (fceil (Fin (hi (Y r) (H r)))) with (Fin (IZR (Zceil (hi (Y r) (H r))))).
  rewrite !Xsub.
  pose proof (Zfloor_lb (lo (X r) (W r))). pose proof (Zfloor_lb (lo (Y r) (H r))).
  pose proof (Zceil_ub (hi (X r) (W r))). pose proof (Zceil_ub (hi (Y r) (H r))).
  pose proof (lo_hi (X r) (W r)). pose proof (lo_hi (Y r) (H r)).
  exists (RR (IZR (Zfloor (lo (X r) (W r)))) (IZR (Zfloor (lo (Y r) (H r)))) (IZR (Zceil (hi (X r) (W r))) - IZR (Zfloor (lo (X r) (W r)))) (IZR (Zceil (hi (Y r) (H r))) - IZR (Zfloor (lo (Y r) (H r))))). split; [reflexivity|]. split; [|split].
  - split; [|split; [|split]]; cbn [X Y W H]; try (now eexists); rewrite <- minus_IZR; now eexists.
  - apply sub_lohi. cbn [X Y W H]. rewrite !lo_d, !hi_d by lra. lra.
  - intros c (Ix & Iy & Iw & Ih) S. apply sub_lohi in S. apply sub_lohi. cbn [X Y W H]. rewrite !lo_d, !hi_d by lra.
    assert (Il : forall a l, integer a -> integer l -> integer (lo a l)).
    { intros a l [za ->] [zl ->]. unfold lo. rewrite <- plus_IZR. unfold Rmin. destruct (Rle_dec _ _); now eexists. }
    assert (Ih' : forall a l, integer a -> integer l -> integer (hi a l)).
    { intros a l [za ->] [zl ->]. unfold hi. rewrite <- plus_IZR. unfold Rmax. destruct (Rle_dec _ _); now eexists. }
    destruct (Il _ _ Ix Iw) as [z1 E1], (Il _ _ Iy Ih) as [z2 E2], (Ih' _ _ Ix Iw) as [z3 E3], (Ih' _ _ Iy Ih) as [z4 E4].
    rewrite E1, E2, E3, E4 in * . destruct S as (S1 & S2 & S3 & S4). repeat split; apply IZR_le.
    + now apply Zfloor_lub. + now apply Zceil_glb. + now apply Zfloor_lub. + now apply Zceil_glb.
Qed.
(** the deprecated rect_round gives integers but does not cover the original *)
Theorem C14_round_exact : forall r, exists e, rect_round (rct r) = rct e /\ integral e /\ 0 <= W e /\ 0 <= H e.
Proof.
  intros r. unfold rect_round. rewrite rct_norm. rr.
  exists (RR (IZR (Zfloor (lo (X r) (W r)))) (IZR (Zfloor (lo (Y r) (H r))))
            (IZR (Zceil (hi (X r) (W r) - lo (X r) (W r)))) (IZR (Zceil (hi (Y r) (H r) - lo (Y r) (H r))))).
  split; [reflexivity|]. pose proof (lo_hi (X r) (W r)). pose proof (lo_hi (Y r) (H r)).
  pose proof (Zceil_ub (hi (X r) (W r) - lo (X r) (W r))). pose proof (Zceil_ub (hi (Y r) (H r) - lo (Y r) (H r))).
  split; [|cbn; lra]. split; [|split; [|split]]; cbn; now eexists.
Qed.
Theorem C14_round_refuted : exists r px py, inr r px py /\
  rect_contains_point (rect_round (rct r)) (p2 px py) = false.
Proof.
  exists (RR (/2) 0 1 1), (3/2), 0. split.
  - unfold inr, seg; cbn [X Y W H]. rewrite !Rmin_left, !Rmax_right by lra. lra.
  - unfold rect_round. rewrite rct_norm. unfold nrm; cbn [X Y W H]. rewrite !lo_pos, !hi_pos by lra. rr.
    replace (/ 2 + 1 - / 2) with 1 by lra. replace (0 + 1 - 0) with 1 by lra.
    change (ffloor (Fin (/ 2))) with (Fin (IZR (Zfloor (/ 2)))). change (ffloor (Fin 0)) with (Fin (IZR (Zfloor 0))).
    change (fceil (Fin 1)) with (Fin (IZR (Zceil 1))).
    rewrite (Zfloor_imp 0 (/ 2)), (Zfloor_imp 0 0), (Zceil_imp 1 1) by (simpl; lra).
    change (mkrect (Fin 0) (Fin 0) (Fin 1) (Fin 1)) with (rct (RR 0 0 1 1)).
    apply not_true_iff_false. rewrite C11_contains_point_exact. unfold inr, seg; cbn [X Y W H].
    rewrite !Rmin_left, !Rmax_right by lra. lra.
Qed.

(** ** C15: offset, inset, expand, scale *)
Theorem C15_offset_exact : forall r dx dy, exists o, rect_offset (rct r) (Fin dx) (Fin dy) = rct o /\
  forall px py, inr o px py <-> inr r (px - dx) (py - dy).
Proof.
  intros r dx dy. unfold rect_offset. rewrite rct_norm. rr. rewrite !Xadd. pose proof (lo_hi (X r) (W r)). pose proof (lo_hi (Y r) (H r)).
  exists (RR (lo (X r) (W r) + dx) (lo (Y r) (H r) + dy) (hi (X r) (W r) - lo (X r) (W r)) (hi (Y r) (H r) - lo (Y r) (H r))). split; [reflexivity|].
  intros px py. rewrite !inr_lohi; cbn [X Y W H].
  rewrite (lo_pos (lo (X r) (W r) + dx)), (hi_pos (lo (X r) (W r) + dx)), (lo_pos (lo (Y r) (H r) + dy)), (hi_pos (lo (Y r) (H r) + dy)) by lra. lra.
Qed.
(** inset: each edge moves inwards by the delta (outwards if negative); an axis that would
    be turned inside out becomes a single line at lo + d *)
Theorem C15_inset_exact : forall r dx dy, exists o, rect_inset (rct r) (Fin dx) (Fin dy) = rct o /\
  0 <= W o /\ 0 <= H o /\
  X o = Rmin (X r) (X r + W r) + dx /\ Y o = Rmin (Y r) (Y r + H r) + dy /\
  (2 * dx <= Rabs (W r) -> X o + W o = Rmax (X r) (X r + W r) - dx) /\
  (Rabs (W r) <= 2 * dx -> W o = 0) /\
  (2 * dy <= Rabs (H r) -> Y o + H o = Rmax (Y r) (Y r + H r) - dy) /\
  (Rabs (H r) <= 2 * dy -> H o = 0).
Proof.
  intros r dx dy. unfold rect_inset. rewrite rct_norm. rr.
  change (Rmin (X r) (X r + W r)) with (lo (X r) (W r)). change (Rmax (X r) (X r + W r)) with (hi (X r) (W r)).
  change (Rmin (Y r) (Y r + H r)) with (lo (Y r) (H r)). change (Rmax (Y r) (Y r + H r)) with (hi (Y r) (H r)).
  rewrite (hi_lo (X r) (W r)), (hi_lo (Y r) (H r)).
  assert (A : forall d s, (if fle fzero (Fin d) then fsub (Fin s) (fmul (Fin d) ftwo) else fadd (Fin s) (fmul (Fin d) (fneg ftwo))) = Fin (s - 2 * d)).
  { intros d s. rewrite xtwo, Xneg, !Xmul, Xsub, Xadd. destruct (fle fzero (Fin d)); f_equal; ring. }
  assert (C : forall s, (if flt (Fin s) fzero then fzero else Fin s) = Fin (Rmax s 0)).
  { intros s. rewrite Xzero. destruct (flt (Fin s) (Fin 0)) eqn:L; [apply Xlt_iff in L|apply Xlt_iff_f in L]; f_equal;
      [rewrite Rmax_right|rewrite Rmax_left]; lra. }
  rewrite !A, !C, !Xadd.
  set (sx := hi (X r) (W r) - lo (X r) (W r)). set (sy := hi (Y r) (H r) - lo (Y r) (H r)).
  exists (RR (lo (X r) (W r) + dx) (lo (Y r) (H r) + dy) (Rmax (sx - 2 * dx) 0) (Rmax (sy - 2 * dy) 0)). split; [reflexivity|]. cbn [X Y W H].
  pose proof (Rmax_r (sx - 2 * dx) 0). pose proof (Rmax_r (sy - 2 * dy) 0).
  repeat split; auto; intros; unfold sx, sy in * ; unfold Rmax; destruct (Rle_dec _ _); lra.
Qed.
Theorem C15_inset_inverse : forall r dx dy, 2 * dx <= Rabs (W r) -> 2 * dy <= Rabs (H r) ->
  exists o, rect_inset (rct r) (Fin dx) (Fin dy) = rct o /\
  rect_inset (rct o) (Fin (- dx)) (Fin (- dy)) = rect_normalize (rct r).
Proof.
  intros r dx dy Hx Hy. destruct (C15_inset_exact r dx dy) as (o & E & Wo & Ho & E1 & E2 & E3 & _ & E4 & _).
  exists o. split; auto. specialize (E3 Hx). specialize (E4 Hy).
  destruct (C15_inset_exact o (- dx) (- dy)) as (q & F & _ & _ & F1 & F2 & F3 & _ & F4 & _).
  rewrite F, rct_norm. rewrite Rmin_left in F1, F2 by lra. rewrite Rmax_right in F3, F4 by lra.
  pose proof (Rabs_pos (W r)). pose proof (Rabs_pos (H r)).
  change (Rmin (X r) (X r + W r)) with (lo (X r) (W r)) in * . change (Rmax (X r) (X r + W r)) with (hi (X r) (W r)) in * .
  change (Rmin (Y r) (Y r + H r)) with (lo (Y r) (H r)) in * . change (Rmax (Y r) (Y r + H r)) with (hi (Y r) (H r)) in * .
  rewrite (hi_lo (X r) (W r)) in Hx. rewrite (hi_lo (Y r) (H r)) in Hy.
  rewrite (Rabs_pos_eq (W o)) in F3 by lra. rewrite (Rabs_pos_eq (H o)) in F4 by lra.
  pose proof (lo_hi (X r) (W r)). pose proof (lo_hi (Y r) (H r)).
  assert (T : - dx * 2 <= W o) by lra. assert (T' : - dy * 2 <= H o) by lra.
  specialize (F3 ltac:(lra)). specialize (F4 ltac:(lra)).
  unfold rct, nrm; cbn [X Y W H]. replace (X q) with (lo (X r) (W r)) by lra. replace (Y q) with (lo (Y r) (H r)) by lra.
  replace (W q) with (hi (X r) (W r) - lo (X r) (W r)) by lra. replace (H q) with (hi (Y r) (H r) - lo (Y r) (H r)) by lra. reflexivity.
Qed.
Theorem C15_expand_exact : forall r ex ey, exists o, rect_expand (rct r) (p2 ex ey) = rct o /\
  (forall px py, inr r px py \/ (px = ex /\ py = ey) -> inr o px py) /\
  (forall c, (forall px py, inr r px py \/ (px = ex /\ py = ey) -> inr c px py) -> forall px py, inr o px py -> inr c px py).
Proof.
  intros r ex ey. unfold rect_expand, rect_init. cbn [p2 Rect.px Rect.py]. rewrite Xzero.
  change (mkrect (Fin ex) (Fin ey) (Fin 0) (Fin 0)) with (rct (RR ex ey 0 0)).
  assert (E : rect_normalize (rct (RR ex ey 0 0)) = rct (RR ex ey 0 0)).
  { rewrite rct_norm. unfold nrm; cbn [X Y W H]. rewrite !lo_pos, !hi_pos by lra. unfold rct; cbn [X Y W H]. xring. }
  rewrite E. destruct (C12_union_contains r (RR ex ey 0 0)) as (u & Eu & U1 & U2). rewrite Eu.
  destruct (C10_normalize_exact u) as (n & En & _ & _ & N & _). exists n. split; auto.
  assert (P : forall px py, inr (RR ex ey 0 0) px py <-> px = ex /\ py = ey).
  { intros. rewrite inr_lohi; cbn [X Y W H]. rewrite !lo_pos, !hi_pos by lra. split; [intros; split; lra|intros [-> ->]; lra]. }
  split.
  - intros px py I. apply N, U1. rewrite P. auto.
  - intros c Hc px py I. apply N in I. eapply U2; eauto. intros qx qy. rewrite P. auto.
Qed.
Theorem C15_scale_exact : forall r sx sy, exists o, rect_scale (rct r) (Fin sx) (Fin sy) = rct o /\ 0 <= W o /\ 0 <= H o /\
  (forall px py, inr r px py -> inr o (px * sx) (py * sy)) /\
  (sx <> 0 -> sy <> 0 -> forall px py, inr o px py -> inr r (px / sx) (py / sy)).
Proof.
  intros r sx sy. unfold rect_scale. rewrite rct_norm. rr. rewrite !Xmul.
  pose proof (lo_hi (X r) (W r)) as L1. pose proof (lo_hi (Y r) (H r)) as L2.
  set (x0 := lo (X r) (W r)) in * . set (x1 := hi (X r) (W r)) in * . set (y0 := lo (Y r) (H r)) in * . set (y1 := hi (Y r) (H r)) in * .
  destruct (C10_normalize_exact (RR (x0 * sx) (y0 * sy) ((x1 - x0) * sx) ((y1 - y0) * sy))) as (n & En & Nw & Nh & N & _).
  exists n. split; [exact En|]. split; auto. split; auto.
  assert (S : forall a b s p, a <= b -> (a <= p <= b -> seg (a * s) ((b - a) * s) (p * s))).
  { intros a b s p Hab Hp. unfold seg. replace (a * s + (b - a) * s) with (b * s) by ring.
    destruct (Rle_or_lt 0 s); [rewrite Rmin_left, Rmax_right by nra|rewrite Rmin_right, Rmax_left by nra]; split; nra. }
  assert (T : forall a b s p, a <= b -> s <> 0 -> seg (a * s) ((b - a) * s) p -> a <= p / s <= b).
  { intros a b s p Hab Hs. unfold seg. replace (a * s + (b - a) * s) with (b * s) by ring.
    set (q := p / s). replace p with (q * s) by (unfold q; field; auto).
    destruct (Rdichotomy _ _ Hs); [rewrite Rmin_right, Rmax_left by nra|rewrite Rmin_left, Rmax_right by nra]; intros; split; nra. }
  split.
  - intros px py [I1 I2]. apply N. split; cbn [X Y W H]; apply S; auto.
  - intros Hx Hy px py I. apply N in I. destruct I as [I1 I2]; cbn [X Y W H] in I1, I2. split; [now apply (T x0 x1)|now apply (T y0 y1)].
Qed.

(** ** C16: rect_contains_rect *)
Lemma rct_equal a b : rect_equal false (Some (rct a)) (Some (rct b)) = true <->
  Rabs (X (nrm a) - X (nrm b)) < eps /\ Rabs (Y (nrm a) - Y (nrm b)) < eps /\
  Rabs (W (nrm a) - W (nrm b)) < eps /\ Rabs (H (nrm a) - H (nrm b)) < eps.
Proof.
  unfold rect_equal, rect_equal_fn, pointer_equal. rewrite !rct_norm.
  unfold point_equal, pointer_equal. rewrite andb_true_iff.
  change (rorigin (rct (nrm a))) with (p2 (X (nrm a)) (Y (nrm a))). change (rorigin (rct (nrm b))) with (p2 (X (nrm b)) (Y (nrm b))).
  rewrite xeps.
  destruct (C65_near_exact BK (X (nrm a)) (Y (nrm a)) 0 (X (nrm b)) (Y (nrm b)) 0 eps) as (-> & _ & _).
  destruct (C65_near_exact BK (W (nrm a)) (H (nrm a)) 0 (W (nrm b)) (H (nrm b)) 0 eps) as (_ & _ & S).
  unfold rct, mkrect; cbn [rsize]. rewrite S. tauto.
Qed.
Lemma nrm_uni a b : nrm (uni a b) = uni a b.
Proof.
  destruct (uni_lo a b) as (E1 & E2 & E3 & E4). unfold nrm. rewrite E1, E2, E3, E4. reflexivity.
Qed.
Theorem C16_contains_rect_complete : forall a b, (forall px py, inr b px py -> inr a px py) ->
  rect_contains_rect (rct a) (rct b) = true.
Proof.
  intros a b S. apply sub_lohi in S. destruct S as (S1 & S2 & S3 & S4).
  unfold rect_contains_rect. rewrite rct_union, rct_equal, nrm_uni. unfold uni, nrm; cbn [X Y W H].
  rewrite !Rmin_left, !Rmax_left by lra. rewrite !Rminus_eq_0, !Rabs_R0. pose proof eps_pos. auto.
Qed.
Theorem C16_contains_rect_sound : forall a b, rect_contains_rect (rct a) (rct b) = true ->
  forall px py, inr b px py -> exists qx qy, inr a qx qy /\ Rabs (px - qx) < 2 * eps /\ Rabs (py - qy) < 2 * eps.
Proof.
  intros a b. unfold rect_contains_rect. rewrite rct_union, rct_equal, nrm_uni. unfold uni, nrm; cbn [X Y W H].
  intros (E1 & E2 & E3 & E4) px py I. rewrite inr_lohi in I.
  pose proof (lo_hi (X a) (W a)) as L1. pose proof (lo_hi (Y a) (H a)) as L2. pose proof eps_pos.
  pose proof (lo_hi (X b) (W b)) as L3. pose proof (lo_hi (Y b) (H b)) as L4.
  assert (A : forall l h l' h' p, l <= h -> l' <= p <= h' -> Rabs (l - Rmin l l') < eps ->
    Rabs (h - l - (Rmax h h' - Rmin l l')) < eps -> exists q, l <= q <= h /\ Rabs (p - q) < 2 * eps).
  { intros l h l' h' p Hlh Hp A B. pose proof (Rmin_l l l'). pose proof (Rmin_r l l'). pose proof (Rmax_l h h'). pose proof (Rmax_r h h').
    apply Rabs_def2 in A. apply Rabs_def2 in B.
    destruct (Rle_dec p l); [exists l; split; [lra|apply Rabs_def1; lra]|].
    destruct (Rle_dec p h); [exists p; split; [lra|rewrite Rminus_eq_0, Rabs_R0; lra]|].
    exists h. split; [lra|apply Rabs_def1; lra]. }
  destruct (A _ _ _ _ px L1 (proj1 I) E1 E3) as (qx & Q1 & Q2). destruct (A _ _ _ _ py L2 (proj2 I) E2 E4) as (qy & Q3 & Q4).
  exists qx, qy. rewrite inr_lohi. auto.
Qed.
Theorem C16_contains_rect_reflexive : forall a, rect_contains_rect (rct a) (rct a) = true.
Proof. intros a. apply C16_contains_rect_complete. auto. Qed.
(** ... and it does accept a rectangle that sticks out: the tolerance is real. *)
Theorem C16_contains_rect_tolerance_refuted : exists a b px py,
  rect_contains_rect (rct a) (rct b) = true /\ inr b px py /\ ~ inr a px py.
Proof.
  exists (RR 0 0 1 1), (RR 0 0 (1 + eps / 2) 1), (1 + eps / 2), 0. pose proof eps_pos. split; [|split].
  - unfold rect_contains_rect. rewrite rct_union, rct_equal, nrm_uni. unfold uni, nrm; cbn [X Y W H].
    rewrite !lo_pos, !hi_pos by lra. rewrite !Rmin_left, !Rmax_right by lra.
    repeat split; apply Rabs_def1; lra.
  - rewrite inr_lohi; cbn [X Y W H]. rewrite !lo_pos, !hi_pos by lra. lra.
  - rewrite inr_lohi; cbn [X Y W H]. rewrite !lo_pos, !hi_pos by lra. lra.
Qed.
End S.

(** ** Non-vacuity *)
Example ex_intersect : exists px py, inr_open (RR 4 3 (-4) (-3)) px py /\ inr_open (RR 1 1 5 5) px py.
Proof. exists 2, 2. unfold inr_open, seg_in; cbn [X Y W H]. rewrite (Rmin_right 4), (Rmin_right 3), (Rmax_left 4), (Rmax_left 3), !Rmin_left, !Rmax_right by lra. lra. Qed.
