(** * Props_Box2d: graphene_box2d_t (C22), binary32, every back end; the
    exact-arithmetic half (round trip with
    rectangles, scaling) is in Props_Box2dX.v. *)

From Coq Require Import ZArith Reals Bool List Lra Lia Permutation.
From Flocq Require Import Core BinarySingleNaN.
From Verif Require Import Num Simd Vec Rect Box Mat OrdThy FloatThy BoxThy Hist B32Setup FloatLem Props_Vec Props_Rect Props_Box.
From Verif Require Props_Mat.
Import ListNotations.

Notation P2 := (point b32).
Notation B2 := (@box2d b32).

(** Vocabulary.  A box without NaN, a point without NaN, and lo <= p <= hi. *)
Definition p2_nn (p : P2) : Prop := nonnan (px p) /\ nonnan (py p).
Definition b2_nn (b : B2) : Prop := p2_nn (box2d_get_min b) /\ p2_nn (box2d_get_max b).
Definition between2 (lo hi p : P2) : Prop :=
  fle (px lo) (px p) = true /\ fle (px p) (px hi) = true /\
  fle (py lo) (py p) = true /\ fle (py p) (py hi) = true.

(** ** helpers *)
Definition lower2 (a c : B2) : Prop :=
  fle (vx c) (vx a) = true /\ fle (vy c) (vy a) = true /\ fle (vz a) (vz c) = true /\ fle (vw a) (vw c) = true.
Lemma b2_lanes (b : B2) : b2_nn b <-> nonnan (vx b) /\ nonnan (vy b) /\ nonnan (vz b) /\ nonnan (vw b).
Proof. unfold b2_nn, p2_nn. change (px (box2d_get_min b)) with (vx b). change (py (box2d_get_min b)) with (vy b). change (px (box2d_get_max b)) with (vz b). change (py (box2d_get_max b)) with (vw b). tauto. Qed.
Lemma btw_lanes (b : B2) (p : P2) : between2 (box2d_get_min b) (box2d_get_max b) p <->
  fle (vx b) (px p) = true /\ fle (px p) (vz b) = true /\ fle (vy b) (py p) = true /\ fle (py p) (vw b) = true.
Proof. reflexivity. Qed.
Lemma empty2 (b : B2) : box2d_is_empty b = (fle finf (vx b) && fle finf (vy b)) && (fle (vz b) fninf && fle (vw b) fninf).
Proof. unfold box2d_is_empty. rewrite !is_pinf_le, !is_ninf_le. reflexivity. Qed.
Lemma inf2 (b : B2) : box2d_is_infinity b = (fle (vx b) fninf && fle (vy b) fninf) && (fle finf (vz b) && fle finf (vw b)).
Proof. unfold box2d_is_infinity. rewrite !is_pinf_le, !is_ninf_le. reflexivity. Qed.
Lemma empty2_no (b : B2) (p : P2) : box2d_is_empty b = true -> ~ between2 (box2d_get_min b) (box2d_get_max b) p.
Proof.
  rewrite empty2, btw_lanes, !andb_true_iff. intros [[H _] [H' _]] (A1 & A2 & _).
  assert (E : fle (finf : b32) fninf = true) by (eapply ol_trans; [exact H|]; eapply ol_trans; [exact A1|]; eapply ol_trans; [exact A2|exact H']).
  rewrite inf_not_ninf in E. discriminate.
Qed.
Lemma inf2_all (b : B2) (p : P2) : box2d_is_infinity b = true -> p2_nn p -> between2 (box2d_get_min b) (box2d_get_max b) p.
Proof.
  rewrite inf2, btw_lanes, !andb_true_iff. intros [[H1 H2] [H3 H4]] [N1 N2].
  split; [eapply ol_trans; [exact H1|now apply ol_ninf_le]|]. split; [eapply ol_trans; [|exact H3]; now apply ol_le_inf|].
  split; [eapply ol_trans; [exact H2|now apply ol_ninf_le]|eapply ol_trans; [|exact H4]; now apply ol_le_inf].
Qed.
Lemma not_both2 (b : B2) : box2d_is_empty b = true -> box2d_is_infinity b = true -> False.
Proof.
  rewrite empty2, inf2, !andb_true_iff. intros [[H _] _] [[H' _] _].
  assert (E : fle (finf : b32) fninf = true) by (eapply ol_trans; [exact H|exact H']). rewrite inf_not_ninf in E. discriminate.
Qed.
Lemma z00 : fle (fzero : b32) fzero = true. Proof. reflexivity. Qed.
Lemma contains2_iff (b : B2) (p : P2) : box2d_contains_point b p = true <->
  between2 (box2d_get_min b) (box2d_get_max b) p \/ box2d_is_infinity b = true.
Proof.
  unfold box2d_contains_point. destruct (box2d_is_empty b) eqn:E.
  - split; [discriminate|]. intros [H|H]; [exfalso; eapply empty2_no; eauto|exfalso; eapply not_both2; eauto].
  - destruct (box2d_is_infinity b) eqn:I; [tauto|]. rewrite btw_lanes.
    change (g_cmp_ge (g_init (px p) (py p) fzero fzero) (box2d_min_v b)) with (fle (vx b) (px p) && fle (vy b) (py p) && fle (fzero : b32) fzero && fle (fzero : b32) fzero).
    change (g_cmp_le (g_init (px p) (py p) fzero fzero) (box2d_max_v b)) with (fle (px p) (vz b) && fle (py p) (vw b) && fle (fzero : b32) fzero && fle (fzero : b32) fzero).
    rewrite !z00, !andb_true_r.
    match goal with |- (if ?c then true else false) = true <-> _ => replace (if c then true else false) with c by (destruct c; reflexivity) end.
    rewrite !andb_true_iff. intuition discriminate.
Qed.
Lemma lower2_btw a c p : lower2 a c -> between2 (box2d_get_min a) (box2d_get_max a) p -> between2 (box2d_get_min c) (box2d_get_max c) p.
Proof.
  rewrite !btw_lanes. intros (L1 & L2 & L3 & L4) (A1 & A2 & A3 & A4).
  split; [|split; [|split]]; tr.
Qed.
Lemma lower2_contains a c p : lower2 a c -> box2d_contains_point a p = true -> box2d_contains_point c p = true.
Proof.
  rewrite !contains2_iff. intros L [H|H]; [left; eapply lower2_btw; eauto|]. right.
  destruct L as (L1 & L2 & L3 & L4). rewrite inf2, !andb_true_iff in H |- * . destruct H as [[H1 H2] [H3 H4]].
  repeat split; tr.
Qed.
Lemma lower2_refl a : b2_nn a -> lower2 a a.
Proof. rewrite b2_lanes. intros (A & B & C & D). repeat split; now apply ol_refl. Qed.
Lemma lower2_trans a b c : lower2 a b -> lower2 b c -> lower2 a c.
Proof. intros (A1 & A2 & A3 & A4) (B1 & B2 & B3 & B4). repeat split; tr. Qed.
Lemma contained_pt_nn (b : B2) (p : P2) : b2_nn b -> p2_nn p -> (box2d_contains_point b p = true <-> between2 (box2d_get_min b) (box2d_get_max b) p).
Proof. intros Nb Np. rewrite contains2_iff. split; [intros [H|H]; auto using inf2_all|auto]. Qed.
(** a non-empty box is determined by its points *)
Lemma points_lower2 (b c : B2) : b2_nn b -> b2_nn c -> (exists p, box2d_contains_point b p = true) ->
  (forall p, box2d_contains_point b p = true -> box2d_contains_point c p = true) -> lower2 b c.
Proof.
  intros Nb Nc [p Hp] H. pose proof Nb as [Q1 Q2].
  assert (NE : fle (vx b) (vz b) = true /\ fle (vy b) (vw b) = true).
  { apply contains2_iff in Hp as [Hp|Hp].
    - rewrite btw_lanes in Hp. destruct Hp as (A1 & A2 & A3 & A4). split; tr.
    - pose proof (inf2_all b (Pt fzero fzero) Hp ltac:(split; apply ol_zero)) as A. rewrite btw_lanes in A. destruct A as (A1 & A2 & A3 & A4). split; tr. }
  destruct NE as [NE1 NE2]. pose proof Nb as NL. rewrite b2_lanes in NL. destruct NL as (N1 & N2 & N3 & N4).
  assert (I1 : between2 (box2d_get_min c) (box2d_get_max c) (box2d_get_min b)).
  { apply contained_pt_nn; auto. apply H. apply contained_pt_nn; auto. rewrite btw_lanes. change (px (box2d_get_min b)) with (vx b). change (py (box2d_get_min b)) with (vy b). repeat split; auto using ol_refl. }
  assert (I2 : between2 (box2d_get_min c) (box2d_get_max c) (box2d_get_max b)).
  { apply contained_pt_nn; auto. apply H. apply contained_pt_nn; auto. rewrite btw_lanes. change (px (box2d_get_max b)) with (vz b). change (py (box2d_get_max b)) with (vw b). repeat split; auto using ol_refl. }
  rewrite btw_lanes in I1, I2. destruct I1 as (A1 & _ & A3 & _), I2 as (_ & A2 & _ & A4). repeat split; assumption.
Qed.

Section Ops.
Context {BK : Backend b32}.
Lemma expand2_lanes (b : B2) (v : simd4f b32) : box2d_expand_vec2 b v =
  V4 (lane_min (vx b) (vx v)) (lane_min (vy b) (vy v)) (lane_max (vz b) (vx v)) (lane_max (vw b) (vy v)).
Proof. reflexivity. Qed.
Definition v2_nn (v : simd4f b32) : Prop := nonnan (vx v) /\ nonnan (vy v).
Definition as_pt (v : simd4f b32) : P2 := Pt (vx v) (vy v).
Lemma expand2_spec (b : B2) (v : simd4f b32) : b2_nn b -> v2_nn v ->
  let r := box2d_expand_vec2 b v in
  b2_nn r /\ lower2 b r /\ between2 (box2d_get_min r) (box2d_get_max r) (as_pt v) /\
  (forall c, lower2 b c -> between2 (box2d_get_min c) (box2d_get_max c) (as_pt v) -> lower2 r c).
Proof.
  intros Nb [V1 V2]. rewrite b2_lanes in Nb. destruct Nb as (N1 & N2 & N3 & N4). cbv zeta. rewrite expand2_lanes.
  split; [rewrite b2_lanes; cbn [vx vy vz vw]; auto using lane_min_nn, lane_max_nn|].
  split; [unfold lower2; cbn [vx vy vz vw]; auto using lane_min_l, lane_max_l|].
  split; [rewrite btw_lanes; cbn [vx vy vz vw as_pt px py]; auto using lane_min_r, lane_max_r|].
  intros c (L1 & L2 & L3 & L4). rewrite btw_lanes. cbn [as_pt px py]. intros (B1 & B2 & B3 & B4).
  unfold lower2. cbn [vx vy vz vw]. rewrite !fle_min_iff, !max_fle_iff by assumption. rewrite L1, L2, L3, L4, B1, B2, B3, B4. auto.
Qed.
Lemma fold2_spec (vs : list (simd4f b32)) : forall b : B2, b2_nn b -> (forall v, In v vs -> v2_nn v) ->
  let r := fold_left box2d_expand_vec2 vs b in
  b2_nn r /\ lower2 b r /\ (forall v, In v vs -> between2 (box2d_get_min r) (box2d_get_max r) (as_pt v)) /\
  (forall c, lower2 b c -> (forall v, In v vs -> between2 (box2d_get_min c) (box2d_get_max c) (as_pt v)) -> lower2 r c).
Proof.
  induction vs as [|v vs IH]; intros b Nb Nv; cbv zeta; simpl.
  - split; [assumption|]. split; [now apply lower2_refl|]. split; [contradiction|]. auto.
  - destruct (expand2_spec b v Nb (Nv v (or_introl eq_refl))) as (E1 & E2 & E3 & E4).
    destruct (IH (box2d_expand_vec2 b v) E1 (fun u Hu => Nv u (or_intror Hu))) as (I1 & I2 & I3 & I4).
    split; [assumption|]. split; [eapply lower2_trans; eassumption|]. split.
    + intros u [<-|Hu]; [eapply lower2_btw; eassumption|auto].
    + intros c Lc Hc. apply I4; [apply E4; [assumption|apply Hc; auto]|]. intros u Hu. apply Hc. auto.
Qed.
Lemma empty2_nn : b2_nn (box2d_empty : B2). Proof. apply b2_lanes. repeat split; try apply ol_inf; apply ol_ninf. Qed.
Lemma empty2_lower (c : B2) : b2_nn c -> lower2 box2d_empty c.
Proof.
  rewrite b2_lanes. intros (A & B & C & D). unfold lower2. cbn [box2d_empty g_init vx vy vz vw].
  repeat split; first [now apply ol_le_inf | now apply ol_ninf_le].
Qed.
Lemma fold_map2 (pts : list P2) (b : B2) :
  fold_left (fun b p => box2d_expand_vec2 b (point_to_vec2 p)) pts b = fold_left box2d_expand_vec2 (map point_to_vec2 pts) b.
Proof. revert b. induction pts; intros; simpl; auto. Qed.
Lemma from_points2 (pts : list P2) : (forall p, In p pts -> p2_nn p) ->
  let r := box2d_init_from_points pts in
  b2_nn r /\ (forall p, In p pts -> between2 (box2d_get_min r) (box2d_get_max r) p) /\
  (forall c, b2_nn c -> (forall p, In p pts -> between2 (box2d_get_min c) (box2d_get_max c) p) -> lower2 r c).
Proof.
  intros H. cbv zeta. unfold box2d_init_from_points. rewrite fold_map2.
  destruct (fold2_spec (map point_to_vec2 pts) box2d_empty empty2_nn) as (I1 & _ & I3 & I4).
  { intros v Hv. apply in_map_iff in Hv as (p & <- & Hp). exact (H p Hp). }
  split; [exact I1|]. split.
  - intros p Hp. specialize (I3 (point_to_vec2 p) (in_map _ _ _ Hp)). destruct p. exact I3.
  - intros c Nc Hc. apply I4; [now apply empty2_lower|]. intros v Hv. apply in_map_iff in Hv as (p & <- & Hp). specialize (Hc p Hp). destruct p. exact Hc.
Qed.
End Ops.

(** ** C22: what containment means *)
Theorem C22_contains_point_meaning : forall (b : B2) (p : P2), b2_nn b -> p2_nn p ->
  (box2d_contains_point b p = true <-> between2 (box2d_get_min b) (box2d_get_max b) p).
Proof. exact contained_pt_nn. Qed.
Theorem C22_init : forall a b c d : b32,
  box2d_get_min (box2d_init (Some (Pt a b)) (Some (Pt c d))) = Pt a b /\ box2d_get_max (box2d_init (Some (Pt a b)) (Some (Pt c d))) = Pt c d /\
  box2d_get_min (box2d_init_from_vec2 (Some (vec2_init a b)) (Some (vec2_init c d))) = Pt a b /\
  box2d_get_max (box2d_init_from_vec2 (Some (vec2_init a b)) (Some (vec2_init c d))) = Pt c d /\
  box2d_init (Some (Pt a b)) None = box2d_init (Some (Pt a b)) (Some (Pt fzero fzero)) /\
  box2d_init None (Some (Pt c d)) = box2d_init (Some (Pt fzero fzero)) (Some (Pt c d)) /\
  (forall l, (4 <= length l)%nat -> box2d_to_float (box2d_init (Some (Pt a b)) (Some (Pt c d))) l = Some ([a; b; c; d] ++ skipn 4 l)).
Proof.
  intros a b c d. do 6 (split; [reflexivity|]). intros l Hl. do 4 (destruct l as [|? l]; [simpl in Hl; lia|]). reflexivity.
Qed.
(** ** the box of a list of points or vectors *)
Theorem C22_points_contained : forall (BK : Backend b32) (pts : list P2), (forall p, In p pts -> p2_nn p) ->
  forall p, In p pts -> box2d_contains_point (box2d_init_from_points pts) p = true.
Proof. intros BK pts H p Hp. apply contains2_iff. left. now apply (from_points2 pts H). Qed.
Theorem C22_points_least : forall (BK : Backend b32) (pts : list P2) (c : B2), (forall p, In p pts -> p2_nn p) -> b2_nn c ->
  (forall p, In p pts -> box2d_contains_point c p = true) ->
  forall q, box2d_contains_point (box2d_init_from_points pts) q = true -> box2d_contains_point c q = true.
Proof.
  intros BK pts c H Nc Hin q. apply lower2_contains. apply (from_points2 pts H); auto.
  intros p Hp. apply contained_pt_nn; auto.
Qed.
Theorem C22_points_order_irrelevant : forall (BK : Backend b32) (pts pts' : list P2), (forall p, In p pts -> p2_nn p) -> Permutation pts pts' ->
  forall q, box2d_contains_point (box2d_init_from_points pts) q = box2d_contains_point (box2d_init_from_points pts') q.
Proof.
  assert (A : forall (BK : Backend b32) (pts pts' : list P2), (forall p, In p pts -> p2_nn p) -> Permutation pts pts' ->
    forall q, box2d_contains_point (box2d_init_from_points pts) q = true -> box2d_contains_point (box2d_init_from_points pts') q = true).
  { intros BK pts pts' H Pm. assert (H' : forall p, In p pts' -> p2_nn p) by (intros; apply H; eapply Permutation_in; [apply Permutation_sym|]; eauto).
    apply C22_points_least; auto; [apply (from_points2 pts' H')|]. intros p Hp. apply C22_points_contained; auto. eapply Permutation_in; eauto. }
  intros BK pts pts' H Pm q. apply eq_true_iff_eq. split; apply A; auto using Permutation_sym.
  intros; apply H; eapply Permutation_in; [apply Permutation_sym|]; eauto.
Qed.
Theorem C22_no_points : forall (BK : Backend b32) (q : P2), box2d_contains_point (box2d_init_from_points []) q = false /\ box2d_contains_point (box2d_init_from_vectors []) q = false.
Proof. intros. split; reflexivity. Qed.
Theorem C22_vectors_as_points : forall (BK : Backend b32) (vs : list (simd4f b32)),
  box2d_init_from_vectors vs = box2d_init_from_points (map (fun v => Pt (vec2_get_x v) (vec2_get_y v)) vs).
Proof.
  intros BK vs. unfold box2d_init_from_vectors, box2d_init_from_points. generalize (box2d_empty : B2).
  induction vs as [|v vs IH]; intros b; simpl; auto.
Qed.
Theorem C22_expand : forall (BK : Backend b32) (b : B2) (p : P2), b2_nn b -> p2_nn p ->
  box2d_contains_point (box2d_expand b p) p = true /\
  box2d_expand_vec2 b (point_to_vec2 p) = box2d_expand b p /\
  (forall q, box2d_contains_point b q = true -> box2d_contains_point (box2d_expand b p) q = true) /\
  (forall c, b2_nn c -> (exists q, box2d_contains_point b q = true) ->
     (forall q, box2d_contains_point b q = true -> box2d_contains_point c q = true) -> box2d_contains_point c p = true ->
     forall q, box2d_contains_point (box2d_expand b p) q = true -> box2d_contains_point c q = true).
Proof.
  intros BK b p Nb Np. destruct (expand2_spec b (point_to_vec2 p) Nb Np) as (E1 & E2 & E3 & E4).
  change (box2d_expand_vec2 b (point_to_vec2 p)) with (box2d_expand b p) in * .
  split; [apply contains2_iff; left; destruct p; exact E3|]. split; [reflexivity|]. split; [intros q; now apply lower2_contains|].
  intros c Nc Hne Hall Hcp q. apply lower2_contains. apply E4; [now apply points_lower2|].
  destruct p; exact (proj1 (contained_pt_nn c _ Nc Np) Hcp).
Qed.
(** ** the lattice *)
Section Lattice.
Context {BK : Backend b32}.
Lemma union2_lanes (a b : B2) : box2d_union a b = V4 (lane_min (vx a) (vx b)) (lane_min (vy a) (vy b)) (lane_max (vz a) (vz b)) (lane_max (vw a) (vw b)).
Proof. reflexivity. Qed.
Lemma union2_nn (a b : B2) : b2_nn a -> b2_nn b -> b2_nn (box2d_union a b).
Proof. rewrite !b2_lanes, union2_lanes. cbn [vx vy vz vw]. intros (?&?&?&?) (?&?&?&?). auto using lane_min_nn, lane_max_nn. Qed.
Lemma union2_l (a b : B2) : b2_nn a -> b2_nn b -> lower2 a (box2d_union a b).
Proof. rewrite !b2_lanes, union2_lanes. unfold lower2. cbn [vx vy vz vw]. intros (?&?&?&?) (?&?&?&?). auto using lane_min_l, lane_max_l. Qed.
Lemma union2_r (a b : B2) : b2_nn a -> b2_nn b -> lower2 b (box2d_union a b).
Proof. rewrite !b2_lanes, union2_lanes. unfold lower2. cbn [vx vy vz vw]. intros (?&?&?&?) (?&?&?&?). auto using lane_min_r, lane_max_r. Qed.
Lemma union2_least (a b c : B2) : b2_nn a -> b2_nn b -> lower2 a c -> lower2 b c -> lower2 (box2d_union a b) c.
Proof.
  rewrite !b2_lanes, union2_lanes. unfold lower2. cbn [vx vy vz vw]. intros (?&?&?&?) (?&?&?&?) (L1&L2&L3&L4) (M1&M2&M3&M4).
  rewrite !fle_min_iff, !max_fle_iff by assumption. rewrite L1, L2, L3, L4, M1, M2, M3, M4. auto.
Qed.
(** the corner of the intersection *)
Definition icorner (a b : B2) : B2 := V4 (lane_max (vx a) (vx b)) (lane_max (vy a) (vy b)) (lane_min (vz a) (vz b)) (lane_min (vw a) (vw b)).
Lemma inter2_lanes (a b : B2) : box2d_intersection a b =
  if fle (vx (icorner a b)) (vz (icorner a b)) && fle (vy (icorner a b)) (vw (icorner a b)) then (true, icorner a b) else (false, box2d_empty).
Proof.
  unfold box2d_intersection, icorner. cbv zeta.
  match goal with |- (if negb ?c then _ else _) = _ => replace c with (fle (vx (icorner a b)) (vz (icorner a b)) && fle (vy (icorner a b)) (vw (icorner a b))) end.
  - cbn [icorner vx vy vz vw]. destruct (_ && _); reflexivity.
  - unfold icorner, g_cmp_le, all2, g_max, g_min, map2, box2d_min_v, box2d_max_v, g_merge_low, g_merge_high, g_init_zero. cbn [vx vy vz vw].
    assert (Z : fle (lane_max (fzero : b32) fzero) (lane_min fzero fzero) = true).
    { destruct (lane_max_cases (fzero : b32) fzero) as [->| ->], (lane_min_cases (fzero : b32) fzero) as [->| ->]; reflexivity. }
    rewrite Z, !andb_true_r. reflexivity.
Qed.
Lemma icorner_nn (a b : B2) : b2_nn a -> b2_nn b -> b2_nn (icorner a b).
Proof. rewrite !b2_lanes. cbn [icorner vx vy vz vw]. intros (?&?&?&?) (?&?&?&?). auto using lane_min_nn, lane_max_nn. Qed.
Lemma icorner_btw (a b : B2) (p : P2) : b2_nn a -> b2_nn b ->
  (between2 (box2d_get_min (icorner a b)) (box2d_get_max (icorner a b)) p <->
   between2 (box2d_get_min a) (box2d_get_max a) p /\ between2 (box2d_get_min b) (box2d_get_max b) p).
Proof.
  rewrite !b2_lanes, !btw_lanes. cbn [icorner vx vy vz vw]. intros (?&?&?&?) (?&?&?&?).
  rewrite !fle_min_iff, !max_fle_iff by assumption. rewrite !andb_true_iff. tauto.
Qed.
Lemma icorner_inf (a b : B2) : b2_nn a -> b2_nn b -> (box2d_is_infinity (icorner a b) = true <-> box2d_is_infinity a = true /\ box2d_is_infinity b = true).
Proof.
  rewrite !b2_lanes, !inf2. cbn [icorner vx vy vz vw]. intros (?&?&?&?) (?&?&?&?).
  rewrite !fle_min_iff, !max_fle_iff by assumption. rewrite !andb_true_iff. tauto.
Qed.
End Lattice.
Theorem C22_intersection : forall (BK : Backend b32) (a b : B2), b2_nn a -> b2_nn b ->
  (fst (box2d_intersection a b) = true <-> exists p, box2d_contains_point a p = true /\ box2d_contains_point b p = true) /\
  (forall p, p2_nn p -> (box2d_contains_point (snd (box2d_intersection a b)) p = true <-> box2d_contains_point a p = true /\ box2d_contains_point b p = true)) /\
  (fst (box2d_intersection a b) = false -> snd (box2d_intersection a b) = box2d_empty).
Proof.
  intros BK a b Na Nb. rewrite inter2_lanes. pose proof (icorner_nn a b Na Nb) as Ni.
  assert (NE : fle (vx (icorner a b)) (vz (icorner a b)) && fle (vy (icorner a b)) (vw (icorner a b)) = true <->
    exists p, p2_nn p /\ between2 (box2d_get_min (icorner a b)) (box2d_get_max (icorner a b)) p).
  { rewrite andb_true_iff. rewrite b2_lanes in Ni. destruct Ni as (N1 & N2 & N3 & N4). split.
    - intros [H1 H2]. exists (Pt (vx (icorner a b)) (vy (icorner a b))). split; [split; assumption|]. rewrite btw_lanes. cbn [px py]. repeat split; auto using ol_refl.
    - intros (p & _ & Hp). rewrite btw_lanes in Hp. destruct Hp as (A1 & A2 & A3 & A4). split; tr. }
  assert (PP : (exists p, p2_nn p /\ between2 (box2d_get_min (icorner a b)) (box2d_get_max (icorner a b)) p) <-> exists p, box2d_contains_point a p = true /\ box2d_contains_point b p = true).
  { split.
    - intros (p & Np & Hp). exists p. apply icorner_btw in Hp as [H1 H2]; auto. rewrite !contained_pt_nn by assumption. auto.
    - intros (p & H1 & H2). apply contains2_iff in H1. apply contains2_iff in H2.
      assert (BN : forall c : B2, between2 (box2d_get_min c) (box2d_get_max c) p -> p2_nn p).
      { intros c Hc. rewrite btw_lanes in Hc. destruct Hc as (A1 & _ & A3 & _). split; [apply (ol_le_nn _ _ A1)|apply (ol_le_nn _ _ A3)]. }
      destruct H1 as [H1|H1], H2 as [H2|H2].
      + exists p. split; [eauto|]. apply icorner_btw; auto.
      + exists p. split; [eauto|]. apply icorner_btw; auto. split; [assumption|]. apply inf2_all; eauto.
      + exists p. split; [eauto|]. apply icorner_btw; auto. split; [|assumption]. apply inf2_all; eauto.
      + exists (Pt fzero fzero). assert (Z : p2_nn (Pt fzero fzero)) by (split; apply ol_zero). split; [exact Z|]. apply icorner_btw; auto using inf2_all. }
  destruct (fle (vx (icorner a b)) (vz (icorner a b)) && fle (vy (icorner a b)) (vw (icorner a b))) eqn:E; cbn [fst snd].
  - split; [split; [intros _; apply PP, NE; reflexivity|reflexivity]|]. split; [|discriminate].
    intros p Np. rewrite !contained_pt_nn by auto. now apply icorner_btw.
  - split; [split; [discriminate|intros H; apply PP, NE in H; discriminate]|]. split; [|reflexivity].
    intros p Np. split; [discriminate|]. intros H. exfalso. assert (false = true) by (apply NE, PP; eauto). discriminate.
Qed.
(** the inline fast path answers like the function *)
Theorem C22_intersects_is_intersection : forall (BK : Backend b32) (a b : B2), box2d_intersects a b = fst (box2d_intersection a b).
Proof.
  intros BK a b. unfold box2d_intersection, box2d_intersects. cbv zeta.
  change (g_init (px (box2d_get_min a)) (py (box2d_get_min a)) fzero fzero) with (box2d_min_v a).
  change (g_init (px (box2d_get_min b)) (py (box2d_get_min b)) fzero fzero) with (box2d_min_v b).
  change (g_init (px (box2d_get_max a)) (py (box2d_get_max a)) fzero fzero) with (box2d_max_v a).
  change (g_init (px (box2d_get_max b)) (py (box2d_get_max b)) fzero fzero) with (box2d_max_v b).
  destruct (g_cmp_le _ _); reflexivity.
Qed.
Theorem C22_union : forall (BK : Backend b32) (a b : B2), b2_nn a -> b2_nn b ->
  (forall p, box2d_contains_point a p = true \/ box2d_contains_point b p = true -> box2d_contains_point (box2d_union a b) p = true) /\
  (forall c, b2_nn c -> (exists p, box2d_contains_point a p = true) -> (exists p, box2d_contains_point b p = true) ->
     (forall p, box2d_contains_point a p = true \/ box2d_contains_point b p = true -> box2d_contains_point c p = true) ->
     forall q, box2d_contains_point (box2d_union a b) q = true -> box2d_contains_point c q = true).
Proof.
  intros BK a b Na Nb. split.
  - intros p [H|H]; revert H; apply lower2_contains; auto using union2_l, union2_r.
  - intros c Nc Ea Eb Hall q. apply lower2_contains. apply union2_least; auto; apply points_lower2; auto.
Qed.
Theorem C22_contains_box : forall (a b : B2), b2_nn a -> b2_nn b ->
  (exists p, box2d_contains_point b p = true) -> box2d_is_infinity b = false ->
  (box2d_contains_box a b = true <-> forall p, box2d_contains_point b p = true -> box2d_contains_point a p = true).
Proof.
  intros a b Na Nb Eb Ib.
  assert (Em : box2d_is_empty b = false).
  { destruct (box2d_is_empty b) eqn:E; auto. destruct Eb as [p Hp]. unfold box2d_contains_point in Hp. rewrite E in Hp. discriminate. }
  assert (C : box2d_contains_box a b = true <-> (box2d_is_empty a = false /\ (box2d_is_infinity a = true \/ lower2 b a))).
  { unfold box2d_contains_box. rewrite Ib, Em. rewrite !orb_false_r. destruct (box2d_is_empty a); [split; [discriminate|intros [? _]; discriminate]|].
    destruct (box2d_is_infinity a); [tauto|].
    change (g_cmp_ge (box2d_min_v b) (box2d_min_v a)) with (fle (vx a) (vx b) && fle (vy a) (vy b) && fle (fzero : b32) fzero && fle (fzero : b32) fzero).
    change (g_cmp_le (box2d_max_v b) (box2d_max_v a)) with (fle (vz b) (vz a) && fle (vw b) (vw a) && fle (fzero : b32) fzero && fle (fzero : b32) fzero).
    rewrite !z00, !andb_true_r. unfold lower2.
    destruct (fle (vx a) (vx b)), (fle (vy a) (vy b)), (fle (vz b) (vz a)), (fle (vw b) (vw a)); simpl; intuition discriminate. }
  rewrite C. split.
  - intros (_ & [I|L]) p Hp; [apply contains2_iff; auto|]. eapply lower2_contains; eauto.
  - intros H. assert (L : lower2 b a) by (apply points_lower2; auto). split; [|auto].
    destruct (box2d_is_empty a) eqn:E; auto. destruct Eb as [p Hp]. specialize (H p Hp). unfold box2d_contains_point in H. rewrite E in H. discriminate.
Qed.
Theorem C22_extremes : forall (BK : Backend b32) (b : B2) (p : P2), b2_nn b ->
  box2d_contains_point box2d_empty p = false /\ box2d_contains_point box2d_infinite p = true /\
  box2d_contains_point (box2d_union b box2d_empty) p = box2d_contains_point b p /\
  box2d_contains_point (box2d_union box2d_empty b) p = box2d_contains_point b p /\
  (p2_nn p -> box2d_contains_point (snd (box2d_intersection b box2d_infinite)) p = box2d_contains_point b p) /\
  (box2d_equal_fn b box2d_empty = false -> box2d_contains_box b box2d_empty = true).
Proof.
  intros BK b p Nb. split; [reflexivity|]. split; [reflexivity|]. pose proof empty2_nn as Ne.
  split; [apply eq_true_iff_eq; split; apply lower2_contains; auto using union2_l; apply union2_least; auto using lower2_refl, empty2_lower|].
  split; [apply eq_true_iff_eq; split; apply lower2_contains; auto using union2_r; apply union2_least; auto using lower2_refl, empty2_lower|].
  split.
  - intros Np. apply eq_true_iff_eq. assert (Ni : b2_nn (box2d_infinite : B2)) by (apply b2_lanes; repeat split; try apply ol_inf; apply ol_ninf).
    destruct (C22_intersection BK b box2d_infinite Nb Ni) as (_ & I & _). rewrite (I p Np). split; [tauto|]. intros H; split; [exact H|reflexivity].
  - intros H. unfold box2d_contains_box. replace (box2d_is_empty (box2d_empty : B2)) with true by reflexivity.
    replace (box2d_is_infinity (box2d_empty : B2)) with false by reflexivity. rewrite orb_true_r, orb_false_r.
    destruct (box2d_is_empty b) eqn:E; auto. revert H. unfold box2d_equal_fn. rewrite E. simpl. discriminate.
Qed.
(** ** expanding by a scalar *)
Theorem C22_expand_scalar : forall (b : B2) (s : b32), b2_nn b -> fin s -> fle fzero s = true ->
  forall p, box2d_contains_point b p = true -> box2d_contains_point (box2d_expand_scalar b s) p = true.
Proof.
  intros b s Nb Fs Hs p. apply lower2_contains. rewrite b2_lanes in Nb. destruct Nb as (N1 & N2 & N3 & N4).
  assert (S0 : (0 <= B2R s)%R). { rewrite fle_X, (fin_X s Fs) in Hs. now apply xle_fin in Hs. }
  assert (Al : forall x, nonnan x -> fle (fadd x (fmul s fm1)) x = true) by (intros x Hx; apply (add_le x _ (- B2R s) Hx (neg_scalar_X s Fs)); lra).
  assert (Ag : forall x, nonnan x -> fle x (fadd x s) = true) by (intros x Hx; apply (add_ge x s Hx (fin_X s Fs) S0)).
  change (box2d_expand_scalar b s) with (V4 (fadd (vx b) (fmul s fm1)) (fadd (vy b) (fmul s fm1)) (fadd (vz b) s) (fadd (vw b) s)).
  unfold lower2. cbn [vx vy vz vw]. auto.
Qed.
(** ** centre, vertices, size *)
Theorem C22_vertices : forall (b : B2), b2_nn b -> (exists p, box2d_contains_point b p = true) ->
  (forall v, In v (box2d_get_vertices b) -> box2d_contains_point b (Pt (vec2_get_x v) (vec2_get_y v)) = true) /\
  (forall (BK : Backend b32) p, box2d_contains_point (box2d_init_from_vectors (box2d_get_vertices b)) p = box2d_contains_point b p).
Proof.
  intros b Nb Eb.
  assert (NE : fle (vx b) (vz b) = true /\ fle (vy b) (vw b) = true).
  { destruct Eb as [p Hp]. apply contains2_iff in Hp as [Hp|Hp].
    - rewrite btw_lanes in Hp. destruct Hp as (A1 & A2 & A3 & A4). split; tr.
    - pose proof (inf2_all b (Pt fzero fzero) Hp ltac:(split; apply ol_zero)) as A. rewrite btw_lanes in A. destruct A as (A1 & A2 & A3 & A4). split; tr. }
  destruct NE as [NE1 NE2]. pose proof Nb as NL. rewrite b2_lanes in NL. destruct NL as (N1 & N2 & N3 & N4).
  assert (VC : forall v, In v (box2d_get_vertices b) -> v2_nn v /\ between2 (box2d_get_min b) (box2d_get_max b) (as_pt v)).
  { intros v Hv. change (box2d_get_vertices b) with [vec2_init (vx b) (vy b); vec2_init (vx b) (vw b); vec2_init (vz b) (vy b); vec2_init (vz b) (vw b)] in Hv.
    rewrite btw_lanes. simpl in Hv. destruct Hv as [<-|[<-|[<-|[<-|[]]]]]; (split; [split; assumption|]); cbn [as_pt px py vec2_init g_init vx vy]; repeat split; auto using ol_refl. }
  split.
  - intros v Hv. apply contains2_iff. left. apply (VC v Hv).
  - intros BK p. destruct (fold2_spec (box2d_get_vertices b) box2d_empty empty2_nn (fun v Hv => proj1 (VC v Hv))) as (I1 & _ & I3 & I4).
    apply eq_true_iff_eq. split; apply lower2_contains.
    + apply I4; [now apply empty2_lower|]. intros v Hv. apply (VC v Hv).
    + assert (A := I3 (vec2_init (vx b) (vy b)) (or_introl eq_refl)). assert (C := I3 (vec2_init (vz b) (vw b)) (or_intror (or_intror (or_intror (or_introl eq_refl))))).
      rewrite btw_lanes in A, C. destruct A as (A1 & _ & A3 & _), C as (_ & C2 & _ & C4). unfold lower2. repeat split; assumption.
Qed.
Theorem C22_center_contained : forall (b : B2) (p : P2), fin (vx b) -> fin (vy b) -> fin (vz b) -> fin (vw b) ->
  fin (fadd (vx b) (vz b)) -> fin (fadd (vy b) (vw b)) -> box2d_contains_point b p = true ->
  box2d_contains_point b (box2d_get_center b) = true.
Proof.
  intros b p F1 F2 F3 F4 S1 S2 Hp.
  assert (Ei : box2d_is_infinity b = false). { rewrite inf2. replace (fle (vx b) fninf) with false; [reflexivity|]. symmetry. rewrite fle_X, (fin_X _ F1). reflexivity. }
  assert (Ee : box2d_is_empty b = false). { destruct (box2d_is_empty b) eqn:E; auto. unfold box2d_contains_point in Hp. rewrite E in Hp. discriminate. }
  apply contains2_iff in Hp as [Hp|Hp]; [|congruence]. rewrite btw_lanes in Hp. destruct Hp as (A1 & A2 & A3 & A4).
  apply contains2_iff. left. rewrite btw_lanes.
  assert (C : forall l h : b32, fin l -> fin h -> fle l h = true -> fin (fadd l h) -> fle l (fmul (fadd l h) fhalf) = true /\ fle (fmul (fadd l h) fhalf) h = true).
  { intros l h Fl Fh L S. pose proof L as L'. rewrite fle_X, (fin_X l Fl), (fin_X h Fh) in L'. apply xle_fin in L'. apply half_sum_between; auto. }
  unfold box2d_get_center. rewrite Ee, Ei. cbn [orb].
  change (px _) with (fmul (fadd (vx b) (vz b)) fhalf). change (py _) with (fmul (fadd (vy b) (vw b)) fhalf).
  destruct (C (vx b) (vz b)) as [C1 C2]; auto; [tr|]. destruct (C (vy b) (vw b)) as [C3 C4]; auto; tr.
Qed.

(** ** rectangles *)
(** A box made from a finite rectangle of non-negative size holds exactly its points. *)
Theorem C22_init_from_rect : forall (r : rect b32) (p : P2), rfin r -> flt (rw r) fzero = false -> flt (rh r) fzero = false ->
  box2d_contains_point (box2d_init_from_rect r) p = rect_contains_point r p.
Proof.
  intros r p (F1 & F2 & F3 & F4) Hw Hh. apply eq_true_iff_eq. rewrite contains2_iff, btw_lanes.
  assert (I : box2d_is_infinity (box2d_init_from_rect r) = false).
  { rewrite inf2. change (vx (box2d_init_from_rect r)) with (rx r). replace (fle (rx r) fninf) with false; [reflexivity|]. symmetry. rewrite fle_X, (fin_X _ F1). reflexivity. }
  unfold rect_contains_point. rewrite norm_id by assumption. rewrite I, !andb_true_iff.
  change (vx (box2d_init_from_rect r)) with (rx r). change (vy (box2d_init_from_rect r)) with (ry r).
  change (vz (box2d_init_from_rect r)) with (fadd (rx r) (rw r)). change (vw (box2d_init_from_rect r)) with (fadd (ry r) (rh r)).
  intuition congruence.
Qed.
(** With a negative width the rectangle has points but the box has none. *)
Theorem C22_init_from_rect_negative_refuted : exists (r : rect b32) (p : P2), rfin r /\
  rect_contains_point r p = true /\ forall q, box2d_contains_point (box2d_init_from_rect r) q = false.
Proof.
  exists (mkrect fone fone fm1 fm1), (Pt fhalf fhalf). split; [repeat split; vm_compute; reflexivity|]. split; [vm_compute; reflexivity|].
  intros q. destruct (box2d_contains_point _ q) eqn:E; auto. apply contains2_iff in E. rewrite btw_lanes in E.
  destruct E as [(A1 & A2 & _)|E]; [|vm_compute in E; discriminate].
  assert (L : fle (vx (box2d_init_from_rect (mkrect (fone : b32) fone fm1 fm1))) (vz (box2d_init_from_rect (mkrect (fone : b32) fone fm1 fm1))) = true) by tr.
  vm_compute in L. discriminate.
Qed.
(** contains_rect is point-set inclusion for finite rectangles of non-negative size. *)
Theorem C22_contains_rect : forall (b : B2) (r : rect b32), b2_nn b -> rfin r -> flt (rw r) fzero = false -> flt (rh r) fzero = false ->
  (box2d_contains_rect b r = true <-> forall p, rect_contains_point r p = true -> box2d_contains_point b p = true).
Proof.
  intros b r Nb Fr Hw Hh. pose proof Fr as (F1 & F2 & F3 & F4).
  destruct (le_add (rx r) (rw r) (fin_nn _ F1) F3 Hw) as [A1 A2]. destruct (le_add (ry r) (rh r) (fin_nn _ F2) F4 Hh) as [B1 B2].
  assert (C : forall q, rect_contains_point r q = true <-> fle (rx r) (px q) = true /\ fle (px q) (fadd (rx r) (rw r)) = true /\ fle (ry r) (py q) = true /\ fle (py q) (fadd (ry r) (rh r)) = true).
  { intros q. unfold rect_contains_point. rewrite norm_id by assumption. rewrite !andb_true_iff. tauto. }
  assert (D : box2d_contains_rect b r = true <-> box2d_contains_point b (Pt (rx r) (ry r)) = true /\ box2d_contains_point b (Pt (fadd (rx r) (rw r)) (fadd (ry r) (rh r))) = true).
  { unfold box2d_contains_rect. change (rorigin r) with (Pt (rx r) (ry r)) || replace (rorigin r) with (Pt (rx r) (ry r)) by (destruct r as [[] []]; reflexivity).
    destruct (box2d_is_empty b) eqn:E; [unfold box2d_contains_point; rewrite E; intuition discriminate|].
    destruct (box2d_is_infinity b) eqn:I; [unfold box2d_contains_point; rewrite E, I; tauto|].
    destruct (box2d_contains_point b _), (box2d_contains_point b _); simpl; intuition discriminate. }
  rewrite D. split.
  - intros [H1 H2] p Hp. apply C in Hp as (P1 & P2' & P3 & P4). apply contains2_iff in H1, H2. apply contains2_iff.
    destruct H1 as [H1|]; [|tauto]. destruct H2 as [H2|]; [|tauto]. left. rewrite btw_lanes in H1, H2 |- * . cbn [px py] in H1, H2.
    destruct H1 as (H1 & _ & H1' & _), H2 as (_ & H2 & _ & H2'). repeat split; tr.
  - intros H. split; apply H, C; cbn [px py]; repeat split; auto using ol_refl, fin_nn.
Qed.
(** The far corner of a box built from a rect and read back through to_rect: the near
    corner is exact; the size is the rounded difference. *)
Theorem C22_to_rect : forall (b : B2),
  rorigin (box2d_to_rect b) = box2d_get_min b /\
  (b2_nn b -> (exists p, box2d_contains_point b p = true) -> fin (vx b) -> fin (vy b) -> flt (rw (box2d_to_rect b)) fzero = false /\ flt (rh (box2d_to_rect b)) fzero = false).
Proof.
  intros b. split; [reflexivity|]. intros Nb [p Hp] F1 F2. pose proof Nb as NL. rewrite b2_lanes in NL. destruct NL as (_ & _ & N3 & N4).
  assert (L : fle (vx b) (vz b) = true /\ fle (vy b) (vw b) = true).
  { apply contains2_iff in Hp as [Hp|Hp].
    - rewrite btw_lanes in Hp. destruct Hp as (A1 & A2 & A3 & A4). split; tr.
    - rewrite inf2, !andb_true_iff in Hp. destruct Hp as [[E _] _]. rewrite fle_X, (fin_X _ F1) in E. discriminate. }
  change (rw (box2d_to_rect b)) with (fsub (vz b) (vx b)). change (rh (box2d_to_rect b)) with (fsub (vw b) (vy b)).
  assert (S : forall l h : b32, fin l -> nonnan h -> fle l h = true -> flt (fsub h l) fzero = false).
  { intros l h Fl Nh Hl. now apply Props_Mat.sub_not_neg. }
  split; apply S; tauto.
Qed.

(** ** extremes and scaling *)
(** The empty box does not contain itself, nor does the infinite box. *)
Theorem C22_self_containment_refuted :
  box2d_contains_box (box2d_empty : B2) box2d_empty = false /\ box2d_contains_box (box2d_infinite : B2) box2d_infinite = false.
Proof. split; vm_compute; reflexivity. Qed.
(** Scaling by a negative factor swaps the corners without re-ordering them: the box
    (0,0)-(1,1) scaled by -1 has no points. *)
Theorem C22_scale_negative_refuted : forall BK : Backend b32, exists (b : B2) (s : simd4f b32),
  (exists p, box2d_contains_point b p = true) /\ (forall p, box2d_contains_point (box2d_scale_offset b (Some s) None) p = false).
Proof.
  intros BK. exists box2d_one, (vec2_init fm1 fm1). split; [exists (Pt fhalf fhalf); vm_compute; reflexivity|].
  intros p. destruct (box2d_contains_point _ p) eqn:E; auto. apply contains2_iff in E. rewrite btw_lanes in E.
  destruct E as [(A1 & A2 & _)|E].
  - assert (L : fle (vx (box2d_scale_offset (box2d_one : B2) (Some (vec2_init fm1 fm1)) None)) (vz (box2d_scale_offset (box2d_one : B2) (Some (vec2_init fm1 fm1)) None)) = true) by tr.
    exfalso. clear - L. destruct BK as [[]| |[] [] rcp rsq|rec rsq sq]; vm_compute in L; discriminate.
  - exfalso. destruct BK as [[]| |[] [] rcp rsq|rec rsq sq]; vm_compute in E; discriminate.
Qed.
(** equality: reflexive on finite boxes, symmetric, and an empty (infinite) box equals
    exactly the empty (infinite) boxes *)
Theorem C22_equal : forall (BK : Backend b32) (a b : B2),
  (fin (vx a) /\ fin (vy a) /\ fin (vz a) /\ fin (vw a) \/ box2d_is_empty a = true \/ box2d_is_infinity a = true -> box2d_equal_fn a a = true) /\
  box2d_equal_fn a b = box2d_equal_fn b a /\
  (box2d_is_empty a = true -> box2d_equal_fn a b = box2d_is_empty b) /\
  (box2d_is_infinity a = true -> box2d_equal_fn a b = box2d_is_infinity b).
Proof.
  intros BK a b.
  split.
  - intros H. unfold box2d_equal_fn. destruct (box2d_is_empty a); [reflexivity|]. destruct (box2d_is_infinity a); [reflexivity|]. cbn [andb orb].
    destruct H as [H|[H|H]]; [|discriminate|discriminate]. destruct H as (H1 & H2 & H3 & H4); destruct (C05_reflexive_finite BK a) as (_ & _ & R4); exact (R4 H1 H2 H3 H4).
  - split; [|split].
    + unfold box2d_equal_fn. destruct (box2d_is_empty a), (box2d_is_empty b), (box2d_is_infinity a), (box2d_is_infinity b); cbn [andb orb]; try reflexivity. destruct (C05_equal_symmetric BK false) as (_ & _ & S4); exact (S4 (Some a) (Some b)).
    + intros H. unfold box2d_equal_fn. rewrite H. cbn [andb orb]. destruct (box2d_is_empty b); reflexivity.
    + intros H. unfold box2d_equal_fn. assert (E : box2d_is_empty a = false) by (destruct (box2d_is_empty a) eqn:E; auto; exfalso; eapply not_both2; eauto).
      rewrite H, E. cbn [andb orb]. destruct (box2d_is_empty b) eqn:Eb; [|destruct (box2d_is_infinity b); reflexivity].
      destruct (box2d_is_infinity b) eqn:I; auto. exfalso; eapply not_both2; eauto.
Qed.
(** ** the hypotheses can be met *)
Example C22_ex : b2_nn (V4 fzero fzero fone ftwo) /\ (exists p, box2d_contains_point (V4 (fzero : b32) fzero fone ftwo) p = true) /\
  box2d_is_infinity (V4 (fzero : b32) fzero fone ftwo) = false /\
  box2d_contains_box (V4 (fm1 : b32) fm1 ftwo ftwo) (V4 fzero fzero fone ftwo) = true /\
  box2d_contains_box (V4 (fhalf : b32) fm1 ftwo ftwo) (V4 fzero fzero fone ftwo) = false /\
  box2d_contains_rect (V4 (fm1 : b32) fm1 ftwo ftwo) (mkrect fzero fzero fone ftwo) = true.
Proof. split; [split; split; reflexivity|]. split; [exists (Pt fhalf fone); vm_compute; reflexivity|]. repeat split; vm_compute; reflexivity. Qed.
