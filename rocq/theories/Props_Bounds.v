(** * Props_Bounds: transformed boxes and rectangles cover the true image, and no more, up to rounding (C84). *)
From Coq Require Import ZArith Reals Bool List Lra Lia Psatz.
From Flocq Require Import Core BinarySingleNaN.
From Verif Require Import Num Simd Vec Rect Box Mat Geo Quat OrdThy FloatThy B32Setup FloatLem ErrThy Props_Mat Props_Rect Props_Err.
Import ListNotations.
Local Open Scope R_scope.

(** coordinate [r] of a point *)
Definition co (p : point3d b32) (r : nat) : R := real (nth r [p3x p; p3y p; p3z p] (p3z p)).
(** the exact affine image of a real point *)
Definition aff (m : mat b32) (p : nat -> R) (c : nat) : R := ent m 0 c * p 0%nat + ent m 1 c * p 1%nat + ent m 2 c * p 2%nat + ent m 3 c.
Definition inside (b : box b32) (p : nat -> R) : Prop := forall r, (r < 3)%nat -> co (box_get_min b) r <= p r <= co (box_get_max b) r.
(** a bound on the products that make up column [c] over the box *)
Definition span (b : box b32) (r : nat) : R := Rmax (Rabs (co (box_get_min b) r)) (Rabs (co (box_get_max b) r)).
Definition reach (m : mat b32) (b : box b32) (c : nat) : R :=
  Rabs (ent m 0 c) * span b 0 + Rabs (ent m 1 c) * span b 1 + Rabs (ent m 2 c) * span b 2 + Rabs (ent m 3 c).

Lemma ends a lo hi x : lo <= x <= hi -> (a * lo <= a * x /\ a * x <= a * hi) \/ (a * hi <= a * x /\ a * x <= a * lo).
Proof. intros H. destruct (Rle_dec 0 a); [left|right]; split; nra. Qed.
Definition vertex (b : box b32) (v : nat -> R) : Prop := forall r, (r < 3)%nat -> v r = co (box_get_min b) r \/ v r = co (box_get_max b) r.
Lemma vertices_enclose m b c p : inside b p -> exists u v, vertex b u /\ vertex b v /\ aff m u c <= aff m p c <= aff m v c.
Proof.
  intros I. pose proof (I 0%nat ltac:(lia)) as I0. pose proof (I 1%nat ltac:(lia)) as I1. pose proof (I 2%nat ltac:(lia)) as I2.
  assert (E : forall r a, co (box_get_min b) r <= p r <= co (box_get_max b) r -> exists l h, (l = co (box_get_min b) r \/ l = co (box_get_max b) r) /\ (h = co (box_get_min b) r \/ h = co (box_get_max b) r) /\ a * l <= a * p r <= a * h).
  { intros r a H. destruct (ends a _ _ _ H) as [[A B]|[A B]]; eauto 10. }
  destruct (E 0%nat (ent m 0 c) I0) as (l0 & h0 & L0 & H0 & B0). destruct (E 1%nat (ent m 1 c) I1) as (l1 & h1 & L1 & H1 & B1). destruct (E 2%nat (ent m 2 c) I2) as (l2 & h2 & L2 & H2 & B2).
  exists (fun r => nth r [l0; l1; l2] 0), (fun r => nth r [h0; h1; h2] 0). split; [|split].
  - intros r Hr. do 3 (destruct r as [|r]; [cbn; auto|]). lia.
  - intros r Hr. do 3 (destruct r as [|r]; [cbn; auto|]). lia.
  - unfold aff; cbn [nth]. lra.
Qed.
Lemma vertex_inside b v : (forall r, (r < 3)%nat -> co (box_get_min b) r <= co (box_get_max b) r) -> vertex b v -> inside b v.
Proof. intros H V r Hr. specialize (H r Hr). destruct (V r Hr) as [->| ->]; lra. Qed.

(** the vertices of the code are the vertices *)
Definition rv3 (v : V) (r : nat) : R := real (nth r [vx v; vy v; vz v] (vz v)).
Lemma code_vertex b v : In v (box_get_vertices b) -> vertex b (rv3 v).
Proof.
  unfold box_get_vertices. cbv zeta. intros H r Hr. simpl in H.
  repeat destruct H as [<-|H]; [..|contradiction]; (do 3 (destruct r as [|r]; [cbn; auto|]); lia).
Qed.
Lemma vertex_code b u : vertex b u -> exists v, In v (box_get_vertices b) /\ forall r, (r < 3)%nat -> rv3 v r = u r.
Proof.
  intros V. destruct (V 0%nat ltac:(lia)) as [E0|E0], (V 1%nat ltac:(lia)) as [E1|E1], (V 2%nat ltac:(lia)) as [E2|E2];
  match type of E0 with _ = co ?p0 _ => match type of E1 with _ = co ?p1 _ => match type of E2 with _ = co ?p2 _ =>
    exists (vec3_init (p3x p0) (p3y p1) (p3z p2)) end end end; (split; [unfold box_get_vertices; cbv zeta; simpl; tauto|]);
  intros r Hr; (do 3 (destruct r as [|r]; [cbn; symmetry; assumption|])); lia.
Qed.
Lemma reach_vertex m b c v : vertex b v -> Rabs (ent m 0 c * v 0%nat) + Rabs (ent m 1 c * v 1%nat) + Rabs (ent m 2 c * v 2%nat) + Rabs (ent m 3 c) <= reach m b c.
Proof.
  intros V. unfold reach. rewrite !Rabs_mult. assert (S : forall r, (r < 3)%nat -> Rabs (v r) <= span b r). { intros r Hr. unfold span. destruct (V r Hr) as [->| ->]; [apply Rmax_l|apply Rmax_r]. }
  apply Rplus_le_compat_r. repeat apply Rplus_le_compat; apply Rmult_le_compat_l; auto using Rabs_pos.
Qed.
Section Fold.
Context {BK : Backend b32}.
Lemma fold_attains (g : V -> b32) (vs : list V) : forall b : box b32,
  (forall u v, g (g_min u v) = lane_min (g u) (g v)) -> (forall u v, g (g_max u v) = lane_max (g u) (g v)) ->
  let r := fold_left box_expand_vec3 vs b in
  (g (bmin r) = g (bmin b) \/ exists v, In v vs /\ g (bmin r) = g v) /\ (g (bmax r) = g (bmax b) \/ exists v, In v vs /\ g (bmax r) = g v).
Proof.
  induction vs as [|v vs IH]; intros b G1 G2; cbv zeta; cbn [fold_left]; [auto|].
  destruct (IH (box_expand_vec3 b v) G1 G2) as [A B]. split.
  - destruct A as [A|(u & U & A)]; [|right; exists u; simpl; auto]. rewrite A. change (bmin (box_expand_vec3 b v)) with (g_min (bmin b) v). rewrite G1.
    destruct (lane_min_cases (g (bmin b)) (g v)) as [->| ->]; [auto|right; exists v; simpl; auto].
  - destruct B as [B|(u & U & B)]; [|right; exists u; simpl; auto]. rewrite B. change (bmax (box_expand_vec3 b v)) with (g_max (bmax b) v). rewrite G2.
    destruct (lane_max_cases (g (bmax b)) (g v)) as [->| ->]; [auto|right; exists v; simpl; auto].
Qed.
End Fold.
Definition lane3 (c : nat) (v : V) : b32 := nth c [vx v; vy v; vz v] (vz v).
Lemma image_lane (BK : Backend b32) m b v c : finite_mat m -> p3fin (box_get_min b) -> p3fin (box_get_max b) -> In v (box_get_vertices b) -> (c < 3)%nat ->
  reach m b c <= bpow radix2 126 -> within (tol (reach m b c)) (lane3 c (gm_point3_mul m v)) (aff m (rv3 v) c).
Proof.
  intros FM (L0 & L1 & L2) (H0 & H1 & H2) Hv Hc HR.
  assert (FV : fin (vx v) /\ fin (vy v) /\ fin (vz v)). { unfold box_get_vertices in Hv. cbv zeta in Hv. simpl in Hv. repeat destruct Hv as [<-|Hv]; [..|contradiction]; cbn; auto. }
  destruct FV as (F0 & F1 & F2). pose proof (reach_vertex m b c _ (code_vertex b v Hv)) as RV.
  destruct (C70_transform_point3d BK m (P3 (vx v) (vy v) (vz v)) FM F0 F1 F2) as (X & Y & Z). cbv zeta in X, Y, Z. cbn [p3x p3y p3z] in X, Y, Z.
  assert (W : forall e e' x t, within e x t -> e <= e' -> within e' x t) by (intros e e' x t [F Q] H; split; auto; lra).
  assert (TM : forall s s', s <= s' -> tol s <= tol s') by (intros s s' H; unfold tol; apply Rplus_le_compat_r, Rmult_le_compat_l; auto; apply bpow_ge_0).
  do 3 (destruct c as [|c]; [eapply W; [first [apply X|apply Y|apply Z]; eapply Rle_trans; [exact RV|exact HR]|apply TM; exact RV]|]). lia.
Qed.

Lemma fle_real (a b : b32) : fin a -> fin b -> fle a b = true -> real a <= real b.
Proof. intros A B. rewrite fle_X, (fin_X a A), (fin_X b B). apply xle_fin. Qed.
Lemma fin_nonnan (a : b32) : fin a -> nonnan a.
Proof. intros F. rewrite nn_X, (fin_X a F). reflexivity. Qed.
(** graphene_matrix_transform_box: every exact image of a point of the box lies in the result widened by the rounding error, and the
    result reaches no further than the exact images widened by the same error *)
Theorem C84_transform_box : forall (BK : Backend b32) (m : mat b32) (b : box b32),
  finite_mat m -> p3fin (box_get_min b) -> p3fin (box_get_max b) ->
  (forall r, (r < 3)%nat -> co (box_get_min b) r <= co (box_get_max b) r) ->
  (forall c, (c < 3)%nat -> reach m b c <= bpow radix2 126) ->
  let t := matrix_transform_box m b in
  p3fin (box_get_min t) /\ p3fin (box_get_max t) /\ forall c, (c < 3)%nat -> let e := tol (reach m b c) in
  (forall p, inside b p -> co (box_get_min t) c - e <= aff m p c <= co (box_get_max t) c + e) /\
  (exists p, inside b p /\ aff m p c <= co (box_get_min t) c + e) /\ (exists p, inside b p /\ co (box_get_max t) c - e <= aff m p c).
Proof.
  intros BK m b FM FL FH LH HR t.
  assert (K : forall c, (c < 3)%nat -> let lo := lane3 c (bmin t) in let hi := lane3 c (bmax t) in let e := tol (reach m b c) in fin lo /\ fin hi /\
    (forall p, inside b p -> real lo - e <= aff m p c <= real hi + e) /\
    (exists p, inside b p /\ aff m p c <= real lo + e) /\ (exists p, inside b p /\ real hi - e <= aff m p c)).
  { intros c Hc lo hi e. set (vs := map (gm_point3_mul m) (box_get_vertices b)).
    assert (G1 : forall u v, lane3 c (g_min u v) = lane_min (lane3 c u) (lane3 c v)) by (intros; unfold lane3; do 3 (destruct c as [|c]; [reflexivity|]); lia).
    assert (G2 : forall u v, lane3 c (g_max u v) = lane_max (lane3 c u) (lane3 c v)) by (intros; unfold lane3; do 3 (destruct c as [|c]; [reflexivity|]); lia).
    assert (IM : forall v, In v vs -> exists u, In u (box_get_vertices b) /\ v = gm_point3_mul m u /\ within e (lane3 c v) (aff m (rv3 u) c)).
    { intros v Hv. apply in_map_iff in Hv as (u & <- & Hu). exists u. split; auto. split; auto. now apply image_lane; auto. }
    assert (I0 : lane3 c (bmin box_empty) = finf /\ lane3 c (bmax box_empty) = fninf) by (do 3 (destruct c as [|c]; [split; reflexivity|]); lia). destruct I0 as [I0 J0].
    destruct (fold_attains (lane3 c) vs box_empty G1 G2) as [A B]. fold (box_init_from_vectors vs) in A, B. change (box_init_from_vectors vs) with t in A, B. fold lo in A. fold hi in B.
    assert (NI : nonnan (finf : b32) /\ nonnan (fninf : b32)) by (split; reflexivity).
    destruct (fold_lane (lane3 c) vs box_empty G1 G2) as (N1 & N2 & _ & _ & M).
    { rewrite I0; apply NI. } { rewrite J0; apply NI. } { intros v Hv. destruct (IM v Hv) as (u & _ & _ & F & _). now apply fin_nonnan. }
    fold (box_init_from_vectors vs) in M. change (box_init_from_vectors vs) with t in M. fold lo hi in M.
    assert (NE : exists v0, In v0 vs) by (eexists; left; reflexivity). destruct NE as (v0 & V0).
    destruct (IM v0 V0) as (u0 & _ & _ & F0 & _). destruct (M v0 V0) as [M1 M2].
    assert (AL : exists v, In v vs /\ lo = lane3 c v).
    { destruct A as [A|A]; auto. exfalso. rewrite I0 in A. rewrite A in M1. rewrite fle_X, (fin_X _ F0) in M1. discriminate M1. }
    assert (AH : exists v, In v vs /\ hi = lane3 c v).
    { destruct B as [B|B]; auto. exfalso. rewrite J0 in B. rewrite B in M2. rewrite fle_X, (fin_X _ F0) in M2. discriminate M2. }
    destruct AL as (vl & Vl & El), AH as (vh & Vh & Eh). destruct (IM vl Vl) as (ul & Ul & _ & Fl & Ql), (IM vh Vh) as (uh & Uh & _ & Fh & Qh). rewrite <- El in Fl, Ql. rewrite <- Eh in Fh, Qh.
    apply Rabs_le_inv in Ql, Qh.
    split; auto. split; auto. split; [|split].
    - intros p Ip. destruct (vertices_enclose m b c p Ip) as (u & v & Hu & Hv & [E1 E2]).
      assert (X : forall w, vertex b w -> real lo - e <= aff m w c <= real hi + e).
      { intros w Hw. destruct (vertex_code b w Hw) as (k & Hk & Ek).
        assert (EA : aff m (rv3 k) c = aff m w c) by (unfold aff; rewrite !Ek by lia; reflexivity). rewrite <- EA.
        pose proof (image_lane BK m b k c FM FL FH Hk Hc (HR c Hc)) as [Fk Qk]. apply Rabs_le_inv in Qk. fold e in Qk.
        destruct (M (gm_point3_mul m k)) as [Z1 Z2]; [unfold vs; now apply in_map|]. apply fle_real in Z1; auto. apply fle_real in Z2; auto. lra. }
      pose proof (X u Hu). pose proof (X v Hv). lra.
    - exists (rv3 ul). split; [apply vertex_inside; auto; now apply code_vertex|lra].
    - exists (rv3 uh). split; [apply vertex_inside; auto; now apply code_vertex|lra]. }
  pose proof (K 0%nat ltac:(lia)) as (A0 & B0 & _). pose proof (K 1%nat ltac:(lia)) as (A1 & B1 & _). pose proof (K 2%nat ltac:(lia)) as (A2 & B2 & _).
  split; [split; [exact A0|split; [exact A1|exact A2]]|]. split; [split; [exact B0|split; [exact B1|exact B2]]|].
  intros c Hc e. destruct (K c Hc) as (_ & _ & X & Y & Z).
  assert (E1 : co (box_get_min t) c = real (lane3 c (bmin t))) by (do 3 (destruct c as [|c]; [reflexivity|]); lia).
  assert (E2 : co (box_get_max t) c = real (lane3 c (bmax t))) by (do 3 (destruct c as [|c]; [reflexivity|]); lia).
  rewrite E1, E2. auto.
Qed.

(** ** rectangles *)
Definition aff2 (m : mat b32) (x y : R) (c : nat) : R := ent m 0 c * x + ent m 1 c * y + ent m 3 c.
(** the rectangle as its accessors show it *)
Definition inside2 (r : rect b32) (x y : R) : Prop :=
  real (px (rect_get_top_left r)) <= x <= real (px (rect_get_bottom_right r)) /\ real (py (rect_get_top_left r)) <= y <= real (py (rect_get_bottom_right r)).
Definition reach2 (m : mat b32) (r : rect b32) (c : nat) : R :=
  Rabs (ent m 0 c) * Rmax (Rabs (real (px (rect_get_top_left r)))) (Rabs (real (px (rect_get_bottom_right r)))) +
  Rabs (ent m 1 c) * Rmax (Rabs (real (py (rect_get_top_left r)))) (Rabs (real (py (rect_get_bottom_right r)))) + Rabs (ent m 3 c).
Section Four.
Context {BK : Backend b32}.
Lemma minval_in (v : V) : let x := g_get_x (g_min_val v) in x = vx v \/ x = vy v \/ x = vz v \/ x = vw v.
Proof.
  destruct v as [a b c d]. cbv zeta. cbn [vx vy vz vw]. change (g_get_x (g_min_val (V4 a b c d))) with (lane_min (lane_min a d) (lane_min c b)).
  destruct (lane_min_cases (lane_min a d) (lane_min c b)) as [->| ->]; [destruct (lane_min_cases a d) as [->| ->]|destruct (lane_min_cases c b) as [->| ->]]; auto.
Qed.
Lemma maxval_in (v : V) : let x := g_get_x (g_max_val v) in x = vx v \/ x = vy v \/ x = vz v \/ x = vw v.
Proof.
  destruct v as [a b c d]. cbv zeta. cbn [vx vy vz vw]. change (g_get_x (g_max_val (V4 a b c d))) with (lane_max (lane_max a d) (lane_max c b)).
  destruct (lane_max_cases (lane_max a d) (lane_max c b)) as [->| ->]; [destruct (lane_max_cases a d) as [->| ->]|destruct (lane_max_cases c b) as [->| ->]]; auto.
Qed.
(** four values known up to [e] *)
Lemma four_bounds (a b c d : b32) (ta tb tc td e : R) : within e a ta -> within e b tb -> within e c tc -> within e d td ->
  Rabs ta + e <= bpow radix2 126 -> Rabs tb + e <= bpow radix2 126 -> Rabs tc + e <= bpow radix2 126 -> Rabs td + e <= bpow radix2 126 ->
  let lo := g_get_x (g_min_val (g_init a b c d)) in let hi := g_get_x (g_max_val (g_init a b c d)) in let w := fsub hi lo in
  fin lo /\ fin hi /\ fin w /\ flt w fzero = false /\ 0 <= real w /\
  (forall t, In t [ta; tb; tc; td] -> real lo - e <= t <= real lo + real w * (1 + bpow radix2 (-23)) + e) /\
  (exists t, In t [ta; tb; tc; td] /\ t <= real lo + e) /\ (exists t, In t [ta; tb; tc; td] /\ real lo + real w * (1 - bpow radix2 (-23)) - e <= t).
Proof.
  intros [Fa Qa] [Fb Qb] [Fc Qc] [Fd Qd] Ba Bb Bc Bd lo hi w. apply Rabs_le_inv in Qa, Qb, Qc, Qd.
  assert (N : nonnan a /\ nonnan b /\ nonnan c /\ nonnan d) by (repeat split; now apply fin_nonnan). destruct N as (Na & Nb & Nc & Nd).
  destruct (minval_le (g_init a b c d) Na Nb Nc Nd) as (L1 & L2 & L3 & L4). fold lo in L1, L2, L3, L4. cbn [g_init vx vy vz vw] in * .
  destruct (minval_max (g_init a b c d) Na Nb Nc Nd) as (_ & H1 & H2 & H3 & H4). fold hi in H1, H2, H3, H4. cbn [g_init vx vy vz vw] in * .
  assert (FL : fin lo /\ exists t, In t [ta; tb; tc; td] /\ Rabs (real lo - t) <= e).
  { pose proof (minval_in (g_init a b c d)) as I. cbv zeta in I. fold lo in I. cbn [g_init vx vy vz vw] in I.
    destruct I as [->|[->|[->| ->]]]; (split; [assumption|]); [exists ta|exists tb|exists tc|exists td]; (split; [simpl; tauto|apply Rabs_le; lra]). }
  assert (FH : fin hi /\ exists t, In t [ta; tb; tc; td] /\ Rabs (real hi - t) <= e).
  { pose proof (maxval_in (g_init a b c d)) as I. cbv zeta in I. fold hi in I. cbn [g_init vx vy vz vw] in I.
    destruct I as [->|[->|[->| ->]]]; (split; [assumption|]); [exists ta|exists tb|exists tc|exists td]; (split; [simpl; tauto|apply Rabs_le; lra]). }
  destruct FL as (FL & tl & Tl & Ql), FH as (FH & th & Th & Qh).
  assert (BT : forall t, In t [ta; tb; tc; td] -> Rabs t + e <= bpow radix2 126) by (intros t [<-|[<-|[<-|[<-|[]]]]]; assumption).
  assert (AB : forall x t, Rabs (x - t) <= e -> Rabs t + e <= bpow radix2 126 -> Rabs x <= bpow radix2 126).
  { intros x t Q B. replace x with ((x - t) + t) by ring. eapply Rle_trans; [apply Rabs_triang|]. lra. }
  pose proof (AB _ _ Ql (BT _ Tl)) as Al. pose proof (AB _ _ Qh (BT _ Th)) as Ah. apply Rabs_le_inv in Ql, Qh.
  assert (LH : fle lo hi = true) by (eapply ol_trans; eassumption). pose proof (fle_real _ _ FL FH LH) as LHr.
  assert (E2 : bpow radix2 127 = 2 * bpow radix2 126) by (change 127%Z with (1 + 126)%Z; now rewrite bpow_plus).
  assert (WX : B2X w = Fin (rnd32 (real hi - real lo))).
  { unfold w. rewrite fsub_X, (fin_X _ FL), (fin_X _ FH). apply (xrnd_ok (real hi - real lo)). apply Rabs_le_inv in Al, Ah. apply Rabs_le. lra. }
  apply fin_of_X in WX as [FW VW].
  assert (ER : Rabs (real w - (real hi - real lo)) <= u32 * (real hi - real lo)).
  { rewrite VW. replace (u32 * (real hi - real lo)) with (u32 * Rabs (real hi + - real lo)) by (rewrite Rabs_pos_eq by lra; ring). apply (rnd_err_add (real hi) (- real lo)); [apply generic_format_B2R|apply generic_format_opp, generic_format_B2R]. }
  apply Rabs_le_inv in ER. assert (UV : bpow radix2 (-23) = 2 * u32) by (change (-23)%Z with (1 + -24)%Z; now rewrite bpow_plus).
  rewrite UV. rewrite u32_val in * .
  split; auto. split; auto. split; auto. split; [now apply sub_not_neg|].
  split; [lra|]. split; [|split].
  - intros t Ht. apply fle_real in L1, L2, L3, L4, H1, H2, H3, H4; auto.
    destruct Ht as [<-|[<-|[<-|[<-|[]]]]]; split; lra.
  - exists tl. split; auto. lra.
  - exists th. split; auto. lra.
Qed.
End Four.
Lemma ends_ordered (x w : b32) : fin x -> fin (fadd x w) -> flt w fzero = false -> real x <= real (fadd x w).
Proof.
  intros FX FS W.
  assert (FW : exists y, B2X w = Fin y /\ 0 <= y).
  { rewrite flt_X, fzero_X in W. pose proof (fin_X _ FS) as ES. rewrite fadd_X, (fin_X x FX) in ES.
    destruct (B2X w) as [y| | |]; try discriminate. exists y. split; auto. destruct (Rle_dec 0 y); auto. exfalso. rewrite (proj2 (xlt_fin y 0)) in W; [discriminate|lra]. }
  destruct FW as (y & EW & PY).
  apply fle_real; auto. rewrite fle_X, fadd_X, EW, (fin_X x FX). cbn [xadd].
  pose proof (xrnd_mono (prec:=24) (emax:=128) (Fin (real x)) (Fin (real x + y))) as M. rewrite <- (fin_X x FX) in M at 2. rewrite xrnd_B2X in M. rewrite (fin_X x FX) in M. apply M. apply xle_fin. lra.
Qed.
Lemma rect_ordered r : corners_fin r -> real (px (rect_get_top_left r)) <= real (px (rect_get_bottom_right r)) /\ real (py (rect_get_top_left r)) <= real (py (rect_get_bottom_right r)).
Proof.
  intros (A & B & C & D). destruct (norm_nonneg r) as [W H]. split; now apply ends_ordered.
Qed.
Lemma corner_lane (BK : Backend b32) m r q c : finite_mat m -> corners_fin r -> In q (rect_corners r) -> (c < 2)%nat -> reach2 m r c <= bpow radix2 125 ->
  let t := aff2 m (real (px q)) (real (py q)) c in
  within (tol (reach2 m r c)) (nth c [px (transform_corner m q); py (transform_corner m q)] fzero) t /\ Rabs t <= reach2 m r c.
Proof.
  intros FM (A & B & C & D) Hq Hc HR t. apply rect_corners_in in Hq as [X Y].
  assert (FX : fin (px q)) by (destruct X as [<-|[<-|[]]]; assumption). assert (FY : fin (py q)) by (destruct Y as [<-|[<-|[]]]; assumption).
  assert (AX : Rabs (real (px q)) <= Rmax (Rabs (real (px (rect_get_top_left r)))) (Rabs (real (px (rect_get_bottom_right r))))) by (destruct X as [<-|[<-|[]]]; [apply Rmax_l|apply Rmax_r]).
  assert (AY : Rabs (real (py q)) <= Rmax (Rabs (real (py (rect_get_top_left r)))) (Rabs (real (py (rect_get_bottom_right r))))) by (destruct Y as [<-|[<-|[]]]; [apply Rmax_l|apply Rmax_r]).
  assert (S : Rabs (ent m 0 c * real (px q)) + Rabs (ent m 1 c * real (py q)) + Rabs (ent m 3 c) <= reach2 m r c).
  { unfold reach2. rewrite !Rabs_mult. apply Rplus_le_compat_r. apply Rplus_le_compat; apply Rmult_le_compat_l; auto using Rabs_pos. }
  assert (Z : real fzero = 0) by apply fin_of_X, fzero_X. assert (O : real fone = 1) by apply fin_of_X, fone_X.
  split.
  - set (v := g_init (px q) (py q) fzero fone).
    assert (F4 : finite4 v) by (unfold finite4; cbn [v g_init vx vy vz vw]; split; [exact FX|split; [exact FY|split; [exact (proj1 (fin_of_X _ _ fzero_X))|exact (proj1 (fin_of_X _ _ fone_X))]]]).
    assert (ES : sum_rows (fun k => Rabs (ent m k c * comp v k)) = Rabs (ent m 0 c * real (px q)) + Rabs (ent m 1 c * real (py q)) + Rabs (ent m 3 c)).
    { unfold sum_rows, comp, v, g_init; cbn [g_get vx vy vz vw]. rewrite Z, O, Rmult_0_r, Rmult_1_r, Rabs_R0. ring. }
    assert (ET : sum_rows (fun k => ent m k c * comp v k) = t).
    { unfold sum_rows, comp, v, g_init, t, aff2; cbn [g_get vx vy vz vw]. rewrite Z, O. ring. }
    destruct (C70_transform_vec4 BK m v c ltac:(lia) FM F4) as [F Q]. { rewrite ES. eapply Rle_trans; [exact S|]. eapply Rle_trans; [exact HR|]. apply bpow_le; lia. }
    rewrite ES, ET in Q.
    assert (EL : g_get (matrix_transform_vec4 m v) c = nth c [px (transform_corner m q); py (transform_corner m q)] fzero) by (do 2 (destruct c as [|c]; [reflexivity|]); lia).
    rewrite EL in F, Q. split; auto. eapply Rle_trans; [exact Q|]. unfold tol. apply Rplus_le_compat_r, Rmult_le_compat_l; auto. apply bpow_ge_0.
  - eapply Rle_trans; [|exact S]. unfold t, aff2. eapply Rle_trans; [apply Rabs_triang|]. apply Rplus_le_compat_r, Rabs_triang.
Qed.
(** graphene_matrix_transform_bounds: every exact image of a point of the rectangle lies in the result widened by the rounding error (on the
    far side also by 2^-23 of the extent, which is itself rounded), and the result reaches no further than that *)
Theorem C84_transform_bounds : forall (BK : Backend b32) (m : mat b32) (r : rect b32),
  finite_mat m -> corners_fin r -> (forall c, (c < 2)%nat -> reach2 m r c <= bpow radix2 125) ->
  let t := matrix_transform_bounds m r in
  let at_ c := real (if Nat.eqb c 0 then rect_get_x t else rect_get_y t) in
  let ext c := real (if Nat.eqb c 0 then rect_get_width t else rect_get_height t) in
  fin (rect_get_x t) /\ fin (rect_get_y t) /\ fin (rect_get_width t) /\ fin (rect_get_height t) /\
  forall c, (c < 2)%nat -> let e := tol (reach2 m r c) in
  (forall x y, inside2 r x y -> at_ c - e <= aff2 m x y c <= at_ c + ext c * (1 + bpow radix2 (-23)) + e) /\
  (exists x y, inside2 r x y /\ aff2 m x y c <= at_ c + e) /\
  (exists x y, inside2 r x y /\ at_ c + ext c * (1 - bpow radix2 (-23)) - e <= aff2 m x y c).
Proof.
  intros BK m r FM FC HR t at_ ext.
  destruct (rect_ordered r FC) as [OX OY].
  set (cs := rect_corners r). set (c0 := rect_get_top_left r) in * . set (c1 := rect_get_top_right r). set (c2 := rect_get_bottom_right r) in * . set (c3 := rect_get_bottom_left r).
  assert (Et : t = points_bounds (transform_corner m c0) (transform_corner m c1) (transform_corner m c2) (transform_corner m c3)).
  { unfold t, matrix_transform_bounds. cbv zeta. unfold c0, c1, c2, c3, rect_get_top_left, rect_get_top_right, rect_get_bottom_right, rect_get_bottom_left. now rewrite norm_idem. }
  assert (CL : forall c q, (c < 2)%nat -> In q cs -> within (tol (reach2 m r c)) (nth c [px (transform_corner m q); py (transform_corner m q)] fzero) (aff2 m (real (px q)) (real (py q)) c) /\ Rabs (aff2 m (real (px q)) (real (py q)) c) + tol (reach2 m r c) <= bpow radix2 126).
  { intros c q Hc Hq. destruct (corner_lane BK m r q c FM FC Hq Hc (HR c Hc)) as [W A]. split; auto.
    assert (E : bpow radix2 126 = 2 * bpow radix2 125) by (change 126%Z with (1 + 125)%Z; now rewrite bpow_plus). specialize (HR c Hc). rewrite E. unfold tol.
    assert (E1 : bpow radix2 (-147) <= / 2 * bpow radix2 125) by (change (/ 2) with (bpow radix2 (-1)); rewrite <- bpow_plus; apply bpow_le; lia). change (bpow radix2 (-22)) with (/ 4194304). pose proof (bpow_gt_0 radix2 125). lra. }
  assert (I0 : In c0 cs) by (left; reflexivity). assert (I1 : In c1 cs) by (right; left; reflexivity). assert (I2 : In c2 cs) by (do 2 right; left; reflexivity). assert (I3 : In c3 cs) by (do 3 right; left; reflexivity).
  pose proof (fun c Hc => four_bounds _ _ _ _ _ _ _ _ _ (proj1 (CL c c0 Hc I0)) (proj1 (CL c c1 Hc I1)) (proj1 (CL c c2 Hc I2)) (proj1 (CL c c3 Hc I3)) (proj2 (CL c c0 Hc I0)) (proj2 (CL c c1 Hc I1)) (proj2 (CL c c2 Hc I2)) (proj2 (CL c c3 Hc I3))) as FB.
  cbv zeta in FB.
  destruct (FB 0%nat ltac:(lia)) as (FLx & FHx & FWx & NWx & PWx & RX1 & RX2 & RX3). destruct (FB 1%nat ltac:(lia)) as (FLy & FHy & FWy & NWy & PWy & RY1 & RY2 & RY3). clear FB. cbn [nth] in * .
  assert (Er : rect_normalize t = t). { rewrite Et. unfold points_bounds, rect_init. cbv zeta. apply norm_idem. }
  assert (Ef : rx t = g_get_x (g_min_val (g_init (px (transform_corner m c0)) (px (transform_corner m c1)) (px (transform_corner m c2)) (px (transform_corner m c3)))) /\
    ry t = g_get_x (g_min_val (g_init (py (transform_corner m c0)) (py (transform_corner m c1)) (py (transform_corner m c2)) (py (transform_corner m c3)))) /\
    rw t = fsub (g_get_x (g_max_val (g_init (px (transform_corner m c0)) (px (transform_corner m c1)) (px (transform_corner m c2)) (px (transform_corner m c3))))) (rx t) /\
    rh t = fsub (g_get_x (g_max_val (g_init (py (transform_corner m c0)) (py (transform_corner m c1)) (py (transform_corner m c2)) (py (transform_corner m c3))))) (ry t)).
  { rewrite Et. unfold points_bounds, rect_init. cbv zeta. rewrite norm_id; [auto|exact NWx|exact NWy]. }
  destruct Ef as (Ex & Ey & Ew & Eh). rewrite Ex in Ew. rewrite Ey in Eh.
  unfold at_, ext, rect_get_x, rect_get_y, rect_get_width, rect_get_height. rewrite Er, Ex, Ey, Ew, Eh.
  split; auto. split; auto. split; auto. split; auto.
  (* corners enclose *)
  assert (EN : forall c x y, inside2 r x y -> exists p q, In p cs /\ In q cs /\ aff2 m (real (px p)) (real (py p)) c <= aff2 m x y c <= aff2 m (real (px q)) (real (py q)) c).
  { intros c x y [HX HY]. fold c0 c2 in HX, HY.
    assert (SX : exists l h, In l [px c0; px c2] /\ In h [px c0; px c2] /\ ent m 0 c * real l <= ent m 0 c * x <= ent m 0 c * real h) by (destruct (ends (ent m 0 c) _ _ _ HX) as [[P Q]|[P Q]]; [exists (px c0), (px c2)|exists (px c2), (px c0)]; simpl; tauto).
    assert (SY : exists l h, In l [py c0; py c2] /\ In h [py c0; py c2] /\ ent m 1 c * real l <= ent m 1 c * y <= ent m 1 c * real h) by (destruct (ends (ent m 1 c) _ _ _ HY) as [[P Q]|[P Q]]; [exists (py c0), (py c2)|exists (py c2), (py c0)]; simpl; tauto).
    destruct SX as (lx & hx & Lx & Hx & Bx), SY as (ly & hy & Ly & Hy & By). exists (Pt lx ly), (Pt hx hy). split; [apply rect_corners_in; auto|]. split; [apply rect_corners_in; auto|]. unfold aff2; cbn [px py]. lra. }
  assert (CI : forall q, In q cs -> inside2 r (real (px q)) (real (py q))).
  { intros q Hq. apply rect_corners_in in Hq as [X Y]. fold c0 c2 in X, Y. unfold inside2. fold c0 c2. split; [destruct X as [<-|[<-|[]]]; lra|destruct Y as [<-|[<-|[]]]; lra]. }
  assert (IT : forall c q, In q cs -> In (aff2 m (real (px q)) (real (py q)) c) [aff2 m (real (px c0)) (real (py c0)) c; aff2 m (real (px c1)) (real (py c1)) c; aff2 m (real (px c2)) (real (py c2)) c; aff2 m (real (px c3)) (real (py c3)) c]).
  { intros c q Hq. change (In (aff2 m (real (px q)) (real (py q)) c) (map (fun q => aff2 m (real (px q)) (real (py q)) c) cs)). now apply in_map with (f := fun q => aff2 m (real (px q)) (real (py q)) c). }
  assert (TI : forall c t, In t [aff2 m (real (px c0)) (real (py c0)) c; aff2 m (real (px c1)) (real (py c1)) c; aff2 m (real (px c2)) (real (py c2)) c; aff2 m (real (px c3)) (real (py c3)) c] -> exists q, In q cs /\ aff2 m (real (px q)) (real (py q)) c = t).
  { intros c s Hs. change (In s (map (fun q => aff2 m (real (px q)) (real (py q)) c) cs)) in Hs. apply in_map_iff in Hs as (q & E & Hq). eauto. }
  intros c Hc. destruct c as [|[|c]]; [| |lia]; cbn [Nat.eqb]; [set (e := tol (reach2 m r 0)) in * |set (e := tol (reach2 m r 1)) in * ].
  - split; [|split].
    + intros x y Hxy. destruct (EN 0%nat x y Hxy) as (p & q & Hp & Hq & B1 & B2). pose proof (RX1 _ (IT 0%nat p Hp)). pose proof (RX1 _ (IT 0%nat q Hq)). lra.
    + destruct RX2 as (s & Hs & B). apply TI in Hs as (q & Hq & <-). exists (real (px q)), (real (py q)). split; auto.
    + destruct RX3 as (s & Hs & B). apply TI in Hs as (q & Hq & <-). exists (real (px q)), (real (py q)). split; auto.
  - split; [|split].
    + intros x y Hxy. destruct (EN 1%nat x y Hxy) as (p & q & Hp & Hq & B1 & B2). pose proof (RY1 _ (IT 1%nat p Hp)). pose proof (RY1 _ (IT 1%nat q Hq)). lra.
    + destruct RY2 as (s & Hs & B). apply TI in Hs as (q & Hq & <-). exists (real (px q)), (real (py q)). split; auto.
    + destruct RY3 as (s & Hs & B). apply TI in Hs as (q & Hq & <-). exists (real (px q)), (real (py q)). split; auto.
Qed.

(** ** non-vacuity: the translation by (1,1,1) on the unit cube and on the unit square *)
Lemma z_real : real fzero = 0. Proof. apply fin_of_X, fzero_X. Qed.
Lemma o_real : real fone = 1. Proof. apply fin_of_X, fone_X. Qed.
Lemma z_fin : fin fzero. Proof. apply fin_of_X with 0; apply fzero_X. Qed.
Lemma o_fin : fin fone. Proof. apply fin_of_X with 1; apply fone_X. Qed.
Definition shift1 : mat b32 := M4 (V4 fone fzero fzero fzero) (V4 fzero fone fzero fzero) (V4 fzero fzero fone fzero) (V4 fone fone fone fone).
Lemma shift1_fin : finite_mat shift1.
Proof. unfold finite_mat, finite4, shift1; cbn [mx my mz mw vx vy vz vw]. pose proof z_fin. pose proof o_fin. tauto. Qed.
Example C84_box_ex : let b : box b32 := Bx (V4 fzero fzero fzero fzero) (V4 fone fone fone fzero) in
  finite_mat shift1 /\ p3fin (box_get_min b) /\ p3fin (box_get_max b) /\ (forall r, (r < 3)%nat -> co (box_get_min b) r <= co (box_get_max b) r) /\
  (forall c, (c < 3)%nat -> reach shift1 b c = 2) /\ aff shift1 (fun _ => / 2) 0 = 1 + / 2 /\ tol 2 <= / 1000000.
Proof.
  intros b. pose proof z_fin. pose proof o_fin. split; [apply shift1_fin|]. split; [repeat split; assumption|]. split; [repeat split; assumption|].
  split; [|split; [|split]].
  - intros r Hr. do 3 (destruct r as [|r]; [unfold co; cbn; rewrite z_real, o_real; lra|]). lia.
  - intros c Hc. do 3 (destruct c as [|c]; [unfold reach, span, co, ent; cbn; rewrite !z_real, !o_real, Rabs_R0, Rabs_R1, Rmax_right by lra; ring|]). lia.
  - unfold aff, ent; cbn. rewrite z_real, o_real. field.
  - unfold tol. change (bpow radix2 (-22)) with (/ 4194304). assert (bpow radix2 (-147) <= bpow radix2 (-30)) by (apply bpow_le; lia). change (bpow radix2 (-30)) with (/ 1073741824) in * . lra.
Qed.
Example C84_bounds_ex : let r : rect b32 := rect_init fzero fzero fone fone in
  corners_fin r /\ inside2 r (/ 2) (/ 4) /\ forall c, (c < 2)%nat -> reach2 shift1 r c = 2.
Proof.
  intros r.
  assert (W : flt (fone : b32) fzero = false) by beq. assert (F : fadd fzero fone = (fone : b32)) by beq.
  assert (N : rect_normalize r = r) by apply norm_idem. assert (Er : r = Rc (Pt fzero fzero) (Sz fone fone)) by (apply norm_id; exact W).
  assert (E : rect_get_top_left r = Pt fzero fzero) by (unfold rect_get_top_left; cbv zeta; rewrite N, Er; reflexivity).
  assert (E' : rect_get_bottom_right r = Pt fone fone) by (unfold rect_get_bottom_right; cbv zeta; rewrite N, Er; transitivity (Pt (fadd fzero fone : b32) (fadd fzero fone)); [reflexivity|rewrite F; reflexivity]).
  pose proof z_fin. pose proof o_fin. unfold corners_fin, inside2, reach2. rewrite E, E'. cbn [px py]. split; [tauto|]. rewrite z_real, o_real. split; [lra|].
  intros c Hc. do 2 (destruct c as [|c]; [unfold ent; cbn; rewrite !z_real, !o_real, Rabs_R0, Rabs_R1, Rmax_right by lra; ring|]). lia.
Qed.
