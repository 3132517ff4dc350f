(** * Props_Grid: rectangles aligned to a (sub)pixel grid are handled exactly (C87). *)
From Coq Require Import ZArith Reals Bool List Lra Lia Psatz.
From Flocq Require Import Core BinarySingleNaN.
From Verif Require Import Num Simd Vec Rect OrdThy FloatThy B32Setup FloatLem ErrThy Props_Err Props_Err2 Props_Err3 Props_Rect Props_Dec.
Import ListNotations.
Local Open Scope R_scope.

(** ** the specification: a grid, and the edges of a rectangle *)
(** integer multiples of 2^k: k = 0 whole pixels, k = -1 half pixels, ... *)
Definition grid (k : Z) (x : R) : Prop := exists i : Z, x = IZR i * bpow radix2 k.
(** the largest coordinate allowed: 2^23 grid steps *)
Definition reach (k : Z) : R := bpow radix2 (23 + k).
(** a finite float that is a grid number *)
Definition on_grid (k : Z) (v : b32) : Prop := fin v /\ grid k (real v).

Record edges := Ed { eL : R; eT : R; eR : R; eB : R }.
(** the float rectangle [r], whatever the signs of its sizes, has exactly these edges *)
Definition exactly (r : rect b32) (e : edges) : Prop :=
  rfin r /\ left_of r = eL e /\ top_of r = eT e /\ right_of r = eR e /\ bottom_of r = eB e.
Definition within_reach (k : Z) (e : edges) : Prop :=
  Rabs (eL e) <= reach k /\ Rabs (eT e) <= reach k /\ Rabs (eR e) <= reach k /\ Rabs (eB e) <= reach k.
Definition edges_on_grid (k : Z) (e : edges) : Prop := grid k (eL e) /\ grid k (eT e) /\ grid k (eR e) /\ grid k (eB e).

(** the exact operations, on edges *)
Definition uni (a b : edges) : edges := Ed (Rmin (eL a) (eL b)) (Rmin (eT a) (eT b)) (Rmax (eR a) (eR b)) (Rmax (eB a) (eB b)).
(** do the interiors meet? *)
Definition meets (a b : edges) : bool :=
  Rlt_bool (Rmax (eL a) (eL b)) (Rmin (eR a) (eR b)) && Rlt_bool (Rmax (eT a) (eT b)) (Rmin (eB a) (eB b)).
Definition int (a b : edges) : edges :=
  if meets a b then Ed (Rmax (eL a) (eL b)) (Rmax (eT a) (eT b)) (Rmin (eR a) (eR b)) (Rmin (eB a) (eB b)) else Ed 0 0 0 0.
Definition off (a : edges) (dx dy : R) : edges := Ed (eL a + dx) (eT a + dy) (eR a + dx) (eB a + dy).
(** an inset that eats the whole rectangle leaves an empty one *)
Definition ins (a : edges) (dx dy : R) : edges :=
  Ed (eL a + dx) (eT a + dy) (Rmax (eL a + dx) (eR a - dx)) (Rmax (eT a + dy) (eB a - dy)).
Definition grow (a : edges) (x y : R) : edges := Ed (Rmin (eL a) x) (Rmin (eT a) y) (Rmax (eR a) x) (Rmax (eB a) y).
Definition outward (a : edges) : edges := Ed (IZR (Zfloor (eL a))) (IZR (Zfloor (eT a))) (IZR (Zceil (eR a))) (IZR (Zceil (eB a))).
(** graphene_rect_round: origin and size rounded separately *)
Definition rnd_old (a : edges) : edges :=
  let l := IZR (Zfloor (eL a)) in let t := IZR (Zfloor (eT a)) in Ed l t (l + IZR (Zceil (eR a - eL a))) (t + IZR (Zceil (eB a - eT a))).
Definition mul (a : edges) (s t : R) : edges :=
  Ed (Rmin (eL a * s) (eR a * s)) (Rmin (eT a * t) (eB a * t)) (Rmax (eL a * s) (eR a * s)) (Rmax (eT a * t) (eB a * t)).

(** a history of rectangle operations *)
Inductive rexp :=
  | Init (x y w h : b32)
  | Raw (x y w h : b32)
  | Norm (e : rexp)
  | Union (a b : rexp)
  | Inter (a b : rexp)
  | Offset (e : rexp) (dx dy : b32)
  | Inset (e : rexp) (dx dy : b32)
  | Expand (e : rexp) (x y : b32)
  | RoundExt (e : rexp)
  | Round (e : rexp)
  | Scale (e : rexp) (s t : b32).
(** what the library computes *)
Fixpoint run (e : rexp) : rect b32 := match e with
  | Init x y w h => rect_init x y w h
  | Raw x y w h => mkrect x y w h
  | Norm e => rect_normalize (run e)
  | Union a b => rect_union (run a) (run b)
  | Inter a b => snd (rect_intersection (run a) (run b))
  | Offset e dx dy => rect_offset (run e) dx dy
  | Inset e dx dy => rect_inset (run e) dx dy
  | Expand e x y => rect_expand (run e) (Pt x y)
  | RoundExt e => rect_round_extents (run e)
  | Round e => rect_round (run e)
  | Scale e s t => rect_scale (run e) s t end.
(** what it should compute *)
Fixpoint ideal (e : rexp) : edges := match e with
  | Init x y w h | Raw x y w h => Ed (Rmin (real x) (real x + real w)) (Rmin (real y) (real y + real h)) (Rmax (real x) (real x + real w)) (Rmax (real y) (real y + real h))
  | Norm e => ideal e
  | Union a b => uni (ideal a) (ideal b)
  | Inter a b => int (ideal a) (ideal b)
  | Offset e dx dy => off (ideal e) (real dx) (real dy)
  | Inset e dx dy => ins (ideal e) (real dx) (real dy)
  | Expand e x y => grow (ideal e) (real x) (real y)
  | RoundExt e => outward (ideal e)
  | Round e => rnd_old (ideal e)
  | Scale e s t => mul (ideal e) (real s) (real t) end.
(** inputs on the grid, exact intermediate edges within reach *)
Fixpoint tame (k : Z) (e : rexp) : Prop := within_reach k (ideal e) /\ match e with
  | Init x y w h | Raw x y w h => on_grid k x /\ on_grid k y /\ on_grid k w /\ on_grid k h
  | Norm e | RoundExt e | Round e => tame k e
  | Union a b | Inter a b => tame k a /\ tame k b
  | Offset e dx dy => tame k e /\ on_grid k dx /\ on_grid k dy
  | Inset e dx dy => tame k e /\ (on_grid k dx /\ Rabs (real dx) <= reach k) /\ on_grid k dy /\ Rabs (real dy) <= reach k
  | Expand e x y => tame k e /\ on_grid k x /\ on_grid k y
  | Scale e s t => tame k e /\ on_grid 0 s /\ on_grid 0 t end.

(** ** grid arithmetic *)
Lemma grid_add k x y : grid k x -> grid k y -> grid k (x + y).
Proof. intros [i ->] [j ->]. exists (i + j)%Z. rewrite plus_IZR. ring. Qed.
Lemma grid_opp k x : grid k x -> grid k (- x).
Proof. intros [i ->]. exists (- i)%Z. rewrite opp_IZR. ring. Qed.
Lemma grid_sub k x y : grid k x -> grid k y -> grid k (x - y).
Proof. intros. apply grid_add; auto. now apply grid_opp. Qed.
Lemma grid_min k x y : grid k x -> grid k y -> grid k (Rmin x y).
Proof. intros. unfold Rmin. now destruct (Rle_dec x y). Qed.
Lemma grid_max k x y : grid k x -> grid k y -> grid k (Rmax x y).
Proof. intros. unfold Rmax. now destruct (Rle_dec x y). Qed.
Lemma grid_mul k j x y : grid k x -> grid j y -> grid (k + j) (x * y).
Proof. intros [a ->] [b ->]. exists (a * b)%Z. rewrite mult_IZR, bpow_plus. ring. Qed.
Lemma grid_0 k : grid k 0. Proof. exists 0%Z. simpl. ring. Qed.
Lemma grid_int k z : (k <= 0)%Z -> grid k (IZR z).
Proof. intros K. exists (z * 2 ^ (- k))%Z. rewrite mult_IZR, (IZR_Zpower radix2) by lia. rewrite Rmult_assoc, <- bpow_plus. replace (- k + k)%Z with 0%Z by lia. simpl. ring. Qed.
Lemma grid_half k x : grid k x -> grid (k - 1) x.
Proof. intros [i ->]. exists (2 * i)%Z. rewrite mult_IZR. replace k with (1 + (k - 1))%Z at 1 by lia. rewrite bpow_plus. change (bpow radix2 1) with 2. ring. Qed.

#[local] Instance ve32 : Valid_exp (SpecFloat.fexp 24 128) := fexp_correct 24 128 prec32.
Lemma grid_fmt k x : (-149 <= k)%Z -> grid k x -> Rabs x <= bpow radix2 (24 + k) -> generic_format radix2 (SpecFloat.fexp 24 128) x.
Proof.
  intros K [i ->] B.
  assert (I : (Z.abs i <= 2 ^ 24)%Z).
  { rewrite Rabs_mult, (Rabs_pos_eq (bpow radix2 k)), bpow_plus in B by apply bpow_ge_0.
    apply Rmult_le_reg_r in B; [|apply bpow_gt_0]. rewrite <- abs_IZR in B. apply le_IZR. exact B. }
  assert (C : (Z.abs i < 2 ^ 24 \/ i = 2 ^ 24 \/ i = - 2 ^ 24)%Z) by lia.
  assert (G : forall z, generic_format radix2 (FLT_exp (-149) 24) z -> generic_format radix2 (SpecFloat.fexp 24 128) z).
  { intros z. unfold generic_format, scaled_mantissa, cexp. now rewrite fexp32. }
  destruct C as [C|[C|C]]; apply G; clear G.
  - change (generic_format radix2 (FLT_exp (-149) 24) (F2R (Float radix2 i k))). apply generic_format_FLT. exists (Float radix2 i k); auto.
  - subst. change (IZR (2 ^ 24)) with (bpow radix2 24). rewrite <- bpow_plus. apply generic_format_bpow. unfold FLT_exp. lia.
  - subst. change (IZR (- 2 ^ 24)) with (- bpow radix2 24). rewrite Ropp_mult_distr_l_reverse, <- bpow_plus. apply generic_format_opp, generic_format_bpow. unfold FLT_exp. lia.
Qed.

(** the float [v] is exactly the real [x] *)
Definition holds (v : b32) (x : R) : Prop := fin v /\ real v = x.
Lemma grid_rnd k x : (-149 <= k <= 100)%Z -> grid k x -> Rabs x <= bpow radix2 (24 + k) -> xrnd (prec:=24) (emax:=128) (Fin x) = Fin x.
Proof.
  intros K G B. apply xrnd_fmt; [eapply grid_fmt; eauto; lia|]. eapply Rle_lt_trans; [exact B|]. apply bpow_lt. lia.
Qed.
Lemma hadd k a b x y : holds a x -> holds b y -> (-149 <= k <= 100)%Z -> grid k (x + y) -> Rabs (x + y) <= bpow radix2 (24 + k) -> holds (fadd a b) (x + y).
Proof. intros [A <-] [B <-] K G H. apply fin_of_X. rewrite fadd_X, (fin_X a A), (fin_X b B). now apply (grid_rnd k). Qed.
Lemma hsub k a b x y : holds a x -> holds b y -> (-149 <= k <= 100)%Z -> grid k (x - y) -> Rabs (x - y) <= bpow radix2 (24 + k) -> holds (fsub a b) (x - y).
Proof. intros [A <-] [B <-] K G H. apply fin_of_X. rewrite fsub_X, (fin_X a A), (fin_X b B). now apply (grid_rnd k). Qed.
Lemma hmul k a b x y : holds a x -> holds b y -> (-149 <= k <= 100)%Z -> grid k (x * y) -> Rabs (x * y) <= bpow radix2 (24 + k) -> holds (fmul a b) (x * y).
Proof. intros [A <-] [B <-] K G H. apply fin_of_X. rewrite fmul_X, (fin_X a A), (fin_X b B). now apply (grid_rnd k). Qed.
Lemma habs a x : holds a x -> holds (fabs a) (Rabs x).
Proof. intros [A <-]. apply fin_of_X. now rewrite fabs_X, (fin_X a A). Qed.
Lemma hmin a b x y : holds a x -> holds b y -> holds (cMIN a b) (Rmin x y).
Proof.
  intros [A <-] [B <-]. unfold cMIN. destruct (flt a b) eqn:E.
  - apply flt_R in E; auto. rewrite Rmin_left by lra. now split.
  - apply flt_Rf in E; auto. rewrite Rmin_right by lra. now split.
Qed.
Lemma hmax a b x y : holds a x -> holds b y -> holds (cMAX a b) (Rmax x y).
Proof.
  intros [A <-] [B <-]. unfold cMAX. destruct (flt b a) eqn:E.
  - apply flt_R in E; auto. rewrite Rmax_left by lra. now split.
  - apply flt_Rf in E; auto. rewrite Rmax_right by lra. now split.
Qed.
Lemma hfloor a x : holds a x -> holds (ffloor a) (IZR (Zfloor x)).
Proof. intros [A <-]. apply fin_of_X. now rewrite floor_X, (fin_X a A). Qed.
Lemma hceil a x : holds a x -> holds (fceil a) (IZR (Zceil x)).
Proof. intros [A <-]. apply fin_of_X. now rewrite ceil_X, (fin_X a A). Qed.
Lemma hzero : holds fzero 0. Proof. split; reflexivity. Qed.

Lemma reach2 k : bpow radix2 (24 + k) = 2 * reach k.
Proof. unfold reach. replace (24 + k)%Z with (1 + (23 + k))%Z by lia. rewrite bpow_plus. reflexivity. Qed.
Lemma reach_pos k : 0 < reach k. Proof. apply bpow_gt_0. Qed.
Lemma reach_int k : (-23 <= k)%Z -> exists n, reach k = IZR n.
Proof. intros K. exists (2 ^ (23 + k))%Z. unfold reach. symmetry. apply (IZR_Zpower radix2). lia. Qed.
Lemma floor_reach k x : (-23 <= k)%Z -> Rabs x <= reach k -> Rabs (IZR (Zfloor x)) <= reach k.
Proof.
  intros K H. destruct (reach_int k K) as [n E]. rewrite E in * . apply Rabs_le_inv in H. apply Rabs_le.
  pose proof (Zfloor_lb x). split; [|lra]. rewrite <- opp_IZR. apply IZR_le, Zfloor_lub. rewrite opp_IZR. lra.
Qed.
Lemma ceil_reach k x : (-23 <= k)%Z -> Rabs x <= reach k -> Rabs (IZR (Zceil x)) <= reach k.
Proof.
  intros K H. unfold Zceil. rewrite opp_IZR, Rabs_Ropp. apply floor_reach; auto. now rewrite Rabs_Ropp.
Qed.

(** ** one axis *)
Ltac ra := repeat match goal with H : Rabs _ <= _ |- _ => apply Rabs_le_inv in H end; try apply Rabs_le; lra.
Lemma norm1_exact k (x w : b32) : (-100 <= k <= 100)%Z -> fin x -> fin w ->
  let l := Rmin (real x) (real x + real w) in let r := Rmax (real x) (real x + real w) in
  grid k l -> grid k r -> Rabs l <= reach k -> Rabs r <= reach k ->
  holds (fst (norm1 x w)) l /\ holds (snd (norm1 x w)) (r - l).
Proof.
  intros K X W l r GL GR BL BR. unfold norm1. destruct (flt w fzero) eqn:S; cbn [fst snd].
  - apply flt_R in S; auto using fzero_fin. rewrite fzero_R in S.
    assert (A : holds (fabs w) (- real w)). { rewrite <- (Rabs_left (real w)) by lra. apply habs. now split. }
    assert (EL : l = real x - - real w) by (unfold l; rewrite Rmin_right by lra; ring).
    assert (ER : r = real x) by (unfold r; rewrite Rmax_left by lra; ring).
    split; [|replace (r - l) with (- real w) by lra; exact A].
    rewrite EL. apply (hsub k); auto; [now split|lia|now rewrite <- EL|]. rewrite <- EL, reach2. pose proof (reach_pos k). lra.
  - apply flt_Rf in S; auto using fzero_fin. rewrite fzero_R in S.
    unfold r, l. rewrite Rmin_left, Rmax_right by lra. split; [now split|]. replace (real x + real w - real x) with (real w) by ring. now split.
Qed.

(** ** normalised rectangles *)
Definition fits (k : Z) (e : edges) : Prop := edges_on_grid k e /\ within_reach k e.
Lemma exactly_ord r e : exactly r e -> eL e <= eR e /\ eT e <= eB e.
Proof.
  intros (_ & <- & <- & <- & <-). unfold left_of, right_of, top_of, bottom_of. split; (eapply Rle_trans; [apply Rmin_l|apply Rmax_l]).
Qed.
Lemma norm_exact k r e : (-100 <= k <= 100)%Z -> exactly r e -> fits k e -> let n := rect_normalize r in
  holds (rx n) (eL e) /\ holds (ry n) (eT e) /\ holds (rw n) (eR e - eL e) /\ holds (rh n) (eB e - eT e) /\
  holds (fadd (rx n) (rw n)) (eR e) /\ holds (fadd (ry n) (rh n)) (eB e).
Proof.
  intros K ((X & Y & W & H) & L & T & RR & BB) [(G1 & G2 & G3 & G4) (B1 & B2 & B3 & B4)]. pose proof (reach_pos k).
  destruct (norm_axes r) as (E1 & E2 & E3 & E4). cbv zeta. rewrite E1, E2, E3, E4.
  rewrite <- L, <- T, <- RR, <- BB in * . unfold left_of, right_of, top_of, bottom_of in * .
  destruct (norm1_exact k (rx r) (rw r) K X W) as [P1 P2]; auto.
  destruct (norm1_exact k (ry r) (rh r) K Y H) as [Q1 Q2]; auto.
  do 4 (split; [assumption|]). 
  split.
  - match type of P2 with holds _ (?r - ?l) => replace r with (l + (r - l)) by ring end.
    apply (hadd k); auto; [lia| |]; match goal with |- context [?l + (?r - ?l)] => replace (l + (r - l)) with r by ring end; auto. rewrite reach2; lra.
  - match type of Q2 with holds _ (?r - ?l) => replace r with (l + (r - l)) by ring end.
    apply (hadd k); auto; [lia| |]; match goal with |- context [?l + (?r - ?l)] => replace (l + (r - l)) with r by ring end; auto. rewrite reach2; lra.
Qed.
Lemma mk_exact x y w h l t r b : holds x l -> holds y t -> holds w (r - l) -> holds h (b - t) -> l <= r -> t <= b -> exactly (mkrect x y w h) (Ed l t r b).
Proof.
  intros [X <-] [Y <-] [W EW] [H EH] A B. repeat split; auto; unfold left_of, right_of, top_of, bottom_of; cbn [mkrect rx ry rw rh px py swidth sheight rorigin rsize eL eT eR eB]; rewrite ?EW, ?EH.
  - rewrite Rmin_left by lra; ring.
  - rewrite Rmin_left by lra; ring.
  - rewrite Rmax_right by lra; ring.
  - rewrite Rmax_right by lra; ring.
Qed.
Lemma rect_eta (r : rect b32) : r = mkrect (rx r) (ry r) (rw r) (rh r). Proof. now destruct r as [[? ?] [? ?]]. Qed.
Lemma norm_keeps k r e : (-100 <= k <= 100)%Z -> exactly r e -> fits k e -> exactly (rect_normalize r) e.
Proof.
  intros K E F. destruct (exactly_ord _ _ E). destruct (norm_exact k r e K E F) as (A & B & C & D & _).
  rewrite (rect_eta (rect_normalize r)). destruct e. now apply mk_exact.
Qed.

(** ** the operations *)
Lemma Rmax_reach k x y : Rabs x <= reach k -> Rabs y <= reach k -> Rabs (Rmax x y) <= reach k.
Proof. intros. unfold Rmax. now destruct (Rle_dec x y). Qed.
Lemma Rmin_reach k x y : Rabs x <= reach k -> Rabs y <= reach k -> Rabs (Rmin x y) <= reach k.
Proof. intros. unfold Rmin. now destruct (Rle_dec x y). Qed.
Lemma hdist k a b x y : (-100 <= k <= 100)%Z -> holds a x -> holds b y -> grid k x -> grid k y -> Rabs x <= reach k -> Rabs y <= reach k -> holds (fsub a b) (x - y).
Proof. intros K A B G1 G2 B1 B2. apply (hsub k); auto; [lia|now apply grid_sub|]. rewrite reach2. ra. Qed.

Lemma union_exact k a b ea eb : (-100 <= k <= 100)%Z -> exactly a ea -> exactly b eb -> fits k ea -> fits k eb -> exactly (rect_union a b) (uni ea eb).
Proof.
  intros K A B FA FB. pose proof (exactly_ord _ _ A). pose proof (exactly_ord _ _ B).
  destruct (norm_exact k a ea K A FA) as (A1 & A2 & A3 & A4 & A5 & A6). destruct (norm_exact k b eb K B FB) as (B1 & B2 & B3 & B4 & B5 & B6).
  destruct FA as [(G1 & G2 & G3 & G4) (M1 & M2 & M3 & M4)], FB as [(H1 & H2 & H3 & H4) (N1 & N2 & N3 & N4)].
  unfold rect_union, uni. cbv zeta. apply mk_exact.
  - now apply hmin.
  - now apply hmin.
  - apply (hdist k); auto using hmin, hmax, grid_min, grid_max, Rmax_reach, Rmin_reach.
  - apply (hdist k); auto using hmin, hmax, grid_min, grid_max, Rmax_reach, Rmin_reach.
  - eapply Rle_trans; [apply Rmin_l|]. eapply Rle_trans; [|apply Rmax_l]. lra.
  - eapply Rle_trans; [apply Rmin_l|]. eapply Rle_trans; [|apply Rmax_l]. lra.
Qed.
Lemma norm_pos (x y w h : b32) : flt w fzero = false -> flt h fzero = false -> rect_normalize (mkrect x y w h) = mkrect x y w h.
Proof. intros A B. unfold rect_normalize, rw, rh, mkrect. cbn [rsize swidth]. rewrite A. cbn [rsize sheight]. now rewrite B. Qed.
Lemma int_exact k a b ea eb : (-100 <= k <= 100)%Z -> exactly a ea -> exactly b eb -> fits k ea -> fits k eb ->
  fst (rect_intersection a b) = meets ea eb /\ exactly (snd (rect_intersection a b)) (int ea eb).
Proof.
  intros K A B FA FB.
  destruct (norm_exact k a ea K A FA) as (A1 & A2 & A3 & A4 & A5 & A6). destruct (norm_exact k b eb K B FB) as (B1 & B2 & B3 & B4 & B5 & B6).
  destruct FA as [(G1 & G2 & G3 & G4) (M1 & M2 & M3 & M4)], FB as [(H1 & H2 & H3 & H4) (N1 & N2 & N3 & N4)].
  unfold rect_intersection, int. cbv zeta.
  pose proof (hmax _ _ _ _ A1 B1) as X1. pose proof (hmax _ _ _ _ A2 B2) as Y1. pose proof (hmin _ _ _ _ A5 B5) as X2. pose proof (hmin _ _ _ _ A6 B6) as Y2.
  pose proof (hdist k _ _ _ _ K X2 X1 (grid_min _ _ _ G3 H3) (grid_max _ _ _ G1 H1) (Rmin_reach _ _ _ M3 N3) (Rmax_reach _ _ _ M1 N1)) as DX.
  pose proof (hdist k _ _ _ _ K Y2 Y1 (grid_min _ _ _ G4 H4) (grid_max _ _ _ G2 H2) (Rmin_reach _ _ _ M4 N4) (Rmax_reach _ _ _ M2 N2)) as DY.
  assert (T : forall (p q : b32) x y, holds p x -> holds q y -> fle q p = negb (Rlt_bool x y)).
  { intros p q x y [P <-] [Q <-]. case Rlt_bool_spec; intros L; cbn.
    - apply not_true_iff_false. intros T. apply fle_R in T; auto. lra.
    - apply fle_R; auto. }
  rewrite (T _ _ _ _ X1 X2), (T _ _ _ _ Y1 Y2), <- negb_andb. fold (meets ea eb). destruct (meets ea eb) eqn:E; cbn [negb fst snd]; split; auto.
  - unfold meets in E. apply andb_true_iff in E. destruct E as [E1 E2].
    revert E1; case Rlt_bool_spec; [intros E1 _|discriminate].
    revert E2; case Rlt_bool_spec; [intros E2 _|discriminate].
    unfold rect_init. rewrite norm_pos.
    + apply mk_exact; auto; lra.
    + apply flt_Rf; [apply DX|apply fzero_fin|]. destruct DX as [_ ->]. rewrite fzero_R. lra.
    + apply flt_Rf; [apply DY|apply fzero_fin|]. destruct DY as [_ ->]. rewrite fzero_R. lra.
  - unfold rect_init. rewrite norm_pos by beq. apply mk_exact; try apply hzero; try lra; replace (0 - 0) with 0 by ring; apply hzero.
Qed.
Lemma off_exact k a ea dx dy : (-100 <= k <= 100)%Z -> exactly a ea -> fits k ea -> on_grid k dx -> on_grid k dy -> within_reach k (off ea (real dx) (real dy)) ->
  exactly (rect_offset a dx dy) (off ea (real dx) (real dy)).
Proof.
  intros K A FA [DX GX] [DY GY] (R1 & R2 & R3 & R4). pose proof (exactly_ord _ _ A). pose proof (reach_pos k).
  destruct (norm_exact k a ea K A FA) as (A1 & A2 & A3 & A4 & A5 & A6).
  destruct FA as [(G1 & G2 & G3 & G4) (M1 & M2 & M3 & M4)]. cbn in R1, R2, R3, R4.
  unfold rect_offset, off. cbv zeta. apply mk_exact; try lra.
  - apply (hadd k); auto; [now split|lia|now apply grid_add|]. rewrite reach2. lra.
  - apply (hadd k); auto; [now split|lia|now apply grid_add|]. rewrite reach2. lra.
  - now replace (eR ea + real dx - (eL ea + real dx)) with (eR ea - eL ea) by ring.
  - now replace (eB ea + real dy - (eT ea + real dy)) with (eB ea - eT ea) by ring.
Qed.
Lemma ins_axis k (w d : b32) l r : (-100 <= k <= 100)%Z -> holds w (r - l) -> l <= r -> grid k l -> grid k r -> Rabs l <= reach k -> Rabs r <= reach k ->
  fin d -> grid k (real d) -> Rabs (real d) <= reach k -> Rabs (l + real d) <= reach k -> Rabs (Rmax (l + real d) (r - real d)) <= reach k ->
  let w1 := if fle fzero d then fsub w (fmul d ftwo) else fadd w (fmul d (fneg ftwo)) in
  holds (if flt w1 fzero then fzero else w1) (Rmax (l + real d) (r - real d) - (l + real d)).
Proof.
  intros K W O G1 G2 B1 B2 D GD BD R1 R2 w1.
  assert (TW : holds ftwo 2) by (split; [reflexivity|compute; lra]).
  assert (NT : holds (fneg ftwo) (- 2)) by (split; [reflexivity|compute; lra]).
  assert (E : holds w1 (r - l - 2 * real d)).
  { unfold w1. destruct (fle fzero d) eqn:S.
    - apply fle_R in S; auto using fzero_fin. rewrite fzero_R in S. replace (r - l - 2 * real d) with (r - l - real d * 2) by ring.
      apply (hsub k); auto; try lia.
      + apply (hmul k); auto; [now split|lia|replace (real d * 2) with (real d + real d) by ring; now apply grid_add|]. rewrite reach2. ra.
      + replace (real d * 2) with (real d + real d) by ring. apply grid_sub; [now apply grid_sub|now apply grid_add].
      + rewrite reach2. ra.
    - assert (S' : real d < 0). { apply Rnot_le_lt. intros L. assert (T : fle fzero d = true) by (apply fle_R; auto using fzero_fin). congruence. }
      replace (r - l - 2 * real d) with (r - l + real d * - 2) by ring. rewrite Rmax_right in R2 by lra.
      apply (hadd k); auto; try lia.
      + apply (hmul k); auto; [now split|lia|replace (real d * - 2) with (- (real d + real d)) by ring; now apply grid_opp, grid_add|]. rewrite reach2. ra.
      + replace (real d * - 2) with (- (real d + real d)) by ring. apply grid_add; [now apply grid_sub|now apply grid_opp, grid_add].
      + rewrite reach2. ra. }
  destruct E as [F E]. destruct (flt w1 fzero) eqn:S.
  - apply flt_R in S; auto using fzero_fin. rewrite fzero_R, E in S. rewrite Rmax_left by lra. replace (l + real d - (l + real d)) with 0 by ring. apply hzero.
  - apply flt_Rf in S; auto using fzero_fin. rewrite fzero_R, E in S. rewrite Rmax_right by lra. split; [exact F|]. rewrite E. ring.
Qed.
Lemma ins_exact k a ea dx dy : (-100 <= k <= 100)%Z -> exactly a ea -> fits k ea -> on_grid k dx -> Rabs (real dx) <= reach k -> on_grid k dy -> Rabs (real dy) <= reach k ->
  within_reach k (ins ea (real dx) (real dy)) -> exactly (rect_inset a dx dy) (ins ea (real dx) (real dy)).
Proof.
  intros K A FA [DX GX] BX [DY GY] BY (R1 & R2 & R3 & R4). pose proof (exactly_ord _ _ A) as [O1 O2]. pose proof (reach_pos k).
  destruct (norm_exact k a ea K A FA) as (A1 & A2 & A3 & A4 & A5 & A6).
  destruct FA as [(G1 & G2 & G3 & G4) (M1 & M2 & M3 & M4)]. cbn in R1, R2, R3, R4.
  unfold rect_inset, ins. cbv zeta. apply mk_exact.
  - apply (hadd k); auto; [now split|lia|now apply grid_add|]. rewrite reach2. lra.
  - apply (hadd k); auto; [now split|lia|now apply grid_add|]. rewrite reach2. lra.
  - now apply (ins_axis k).
  - now apply (ins_axis k).
  - apply Rmax_l.
  - apply Rmax_l.
Qed.
Lemma init_exact k x y w h : (-100 <= k <= 100)%Z -> fin x -> fin y -> fin w -> fin h -> fits k (ideal (Raw x y w h)) -> exactly (rect_init x y w h) (ideal (Raw x y w h)).
Proof. intros K X Y W H F. apply (norm_keeps k); auto. repeat split; auto. Qed.
Lemma raw_exact x y w h : fin x -> fin y -> fin w -> fin h -> exactly (mkrect x y w h) (ideal (Raw x y w h)).
Proof. repeat split; auto. Qed.
Lemma grow_exact k a ea x y : (-100 <= k <= 100)%Z -> exactly a ea -> fits k ea -> on_grid k x -> on_grid k y -> Rabs (real x) <= reach k -> Rabs (real y) <= reach k ->
  exactly (rect_expand a (Pt x y)) (grow ea (real x) (real y)).
Proof.
  intros K A FA [X GX] [Y GY] BX BY.
  assert (I : exactly (rect_init x y fzero fzero) (Ed (real x) (real y) (real x) (real y))).
  { unfold rect_init. rewrite norm_pos by beq. apply mk_exact; try lra; try (now split); rewrite Rminus_eq_0; apply hzero. }
  unfold rect_expand. cbn [px py].
  assert (U : exactly (rect_union a (rect_init x y fzero fzero)) (grow ea (real x) (real y))).
  { apply (union_exact k _ _ ea (Ed (real x) (real y) (real x) (real y))); auto. repeat split; auto. }
  apply (norm_keeps k); auto. destruct FA as [(G1 & G2 & G3 & G4) (M1 & M2 & M3 & M4)].
  split; repeat split; cbn; auto using grid_min, grid_max, Rmin_reach, Rmax_reach.
Qed.
Lemma out_exact k a ea : (-23 <= k <= 0)%Z -> exactly a ea -> fits k ea -> exactly (rect_round_extents a) (outward ea).
Proof.
  intros K A FA. pose proof (exactly_ord _ _ A) as [O1 O2].
  destruct (norm_exact k a ea ltac:(lia) A FA) as (A1 & A2 & A3 & A4 & A5 & A6).
  destruct FA as [(G1 & G2 & G3 & G4) (M1 & M2 & M3 & M4)].
  unfold rect_round_extents, outward. cbv zeta. apply mk_exact.
  - now apply hfloor.
  - now apply hfloor.
  - apply (hdist k); [lia|now apply hceil|now apply hfloor|apply grid_int; lia|apply grid_int; lia|apply ceil_reach; auto; lia|apply floor_reach; auto; lia].
  - apply (hdist k); [lia|now apply hceil|now apply hfloor|apply grid_int; lia|apply grid_int; lia|apply ceil_reach; auto; lia|apply floor_reach; auto; lia].
  - apply IZR_le. apply le_IZR. eapply Rle_trans; [apply Zfloor_lb|]. eapply Rle_trans; [exact O1|]. apply Zceil_ub.
  - apply IZR_le. apply le_IZR. eapply Rle_trans; [apply Zfloor_lb|]. eapply Rle_trans; [exact O2|]. apply Zceil_ub.
Qed.
Lemma round_exact k a ea : (-23 <= k <= 0)%Z -> exactly a ea -> fits k ea -> exactly (rect_round a) (rnd_old ea).
Proof.
  intros K A FA. pose proof (exactly_ord _ _ A) as [O1 O2].
  destruct (norm_exact k a ea ltac:(lia) A FA) as (A1 & A2 & A3 & A4 & A5 & A6).
  assert (P : forall x, 0 <= x -> 0 <= IZR (Zceil x)) by (intros x X; pose proof (Zceil_ub x); lra).
  pose proof (P (eR ea - eL ea) ltac:(lra)). pose proof (P (eB ea - eT ea) ltac:(lra)).
  unfold rect_round, rnd_old. cbv zeta. apply mk_exact; try lra.
  - now apply hfloor.
  - now apply hfloor.
  - match goal with |- holds _ (?a + ?b - ?a) => replace (a + b - a) with b by ring end. now apply hceil.
  - match goal with |- holds _ (?a + ?b - ?a) => replace (a + b - a) with b by ring end. now apply hceil.
Qed.
Lemma mul_axis k (o w s : b32) l r : (-100 <= k <= 100)%Z -> holds o l -> holds w (r - l) -> l <= r -> grid k l -> grid k r -> on_grid 0 s ->
  Rabs (Rmin (l * real s) (r * real s)) <= reach k -> Rabs (Rmax (l * real s) (r * real s)) <= reach k ->
  holds (fmul o s) (l * real s) /\ holds (fmul w s) ((r - l) * real s).
Proof.
  intros K O W LR G1 G2 [S GS] B1 B2. pose proof (reach_pos k).
  assert (C1 : Rabs (l * real s) <= reach k /\ Rabs (r * real s) <= reach k).
  { unfold Rmin, Rmax in * . destruct (Rle_dec (l * real s) (r * real s)); auto. }
  destruct C1 as [C1 C2]. split; apply (hmul k); auto; try (now split); try lia; rewrite ?reach2.
  - replace k with (k + 0)%Z by lia. now apply grid_mul.
  - lra.
  - replace k with (k + 0)%Z by lia. apply grid_mul; auto. now apply grid_sub.
  - replace ((r - l) * real s) with (r * real s - l * real s) by ring. ra.
Qed.
Lemma grid_mul0 k x y : grid k x -> grid 0 y -> grid k (x * y).
Proof. intros. replace k with (k + 0)%Z by lia. now apply grid_mul. Qed.
Lemma mul_exact k a ea s t : (-100 <= k <= 100)%Z -> exactly a ea -> fits k ea -> on_grid 0 s -> on_grid 0 t -> within_reach k (mul ea (real s) (real t)) ->
  exactly (rect_scale a s t) (mul ea (real s) (real t)).
Proof.
  intros K A FA S T (R1 & R2 & R3 & R4). pose proof (exactly_ord _ _ A) as [O1 O2].
  destruct (norm_exact k a ea K A FA) as (A1 & A2 & A3 & A4 & A5 & A6).
  destruct FA as [(G1 & G2 & G3 & G4) (M1 & M2 & M3 & M4)]. cbn in R1, R2, R3, R4.
  destruct (mul_axis k _ _ s _ _ K A1 A3 O1 G1 G3 S R1 R3) as [P1 P2].
  destruct (mul_axis k _ _ t _ _ K A2 A4 O2 G2 G4 T R2 R4) as [Q1 Q2].
  unfold rect_scale. cbv zeta. apply (norm_keeps k); auto.
  - destruct P1 as [? E1], P2 as [? E2], Q1 as [? E3], Q2 as [? E4]. repeat split; auto;
    unfold left_of, right_of, top_of, bottom_of; cbn [mkrect rx ry rw rh px py swidth sheight rorigin rsize eL eT eR eB mul] in * ;
    rewrite ?E1, ?E2, ?E3, ?E4; f_equal; ring.
  - destruct S, T. split; repeat split; cbn; auto using grid_min, grid_max, grid_mul0.
Qed.

(** ** the theorem about histories *)
Lemma ideal_grid k e : (k <= 0)%Z -> tame k e -> edges_on_grid k (ideal e).
Proof.
  intros K. induction e; cbn [tame ideal]; intros [_ T].
  - destruct T as ((_ & ?) & (_ & ?) & (_ & ?) & (_ & ?)). repeat split; cbn; auto using grid_min, grid_max, grid_add.
  - destruct T as ((_ & ?) & (_ & ?) & (_ & ?) & (_ & ?)). repeat split; cbn; auto using grid_min, grid_max, grid_add.
  - auto.
  - destruct T as [T1 T2]. destruct (IHe1 T1) as (? & ? & ? & ?), (IHe2 T2) as (? & ? & ? & ?). repeat split; cbn; auto using grid_min, grid_max.
  - destruct T as [T1 T2]. destruct (IHe1 T1) as (? & ? & ? & ?), (IHe2 T2) as (? & ? & ? & ?). unfold int.
    destruct (meets _ _); repeat split; cbn; auto using grid_min, grid_max, grid_0.
  - destruct T as (T & (_ & ?) & (_ & ?)). destruct (IHe T) as (? & ? & ? & ?). repeat split; cbn; auto using grid_add.
  - destruct T as (T & ((_ & ?) & _) & (_ & ?) & _). destruct (IHe T) as (? & ? & ? & ?). repeat split; cbn; auto using grid_add, grid_max, grid_sub.
  - destruct T as (T & (_ & ?) & (_ & ?)). destruct (IHe T) as (? & ? & ? & ?). repeat split; cbn; auto using grid_min, grid_max.
  - repeat split; cbn; auto using grid_int.
  - repeat split; cbn; auto using grid_int, grid_add.
  - destruct T as (T & (_ & ?) & (_ & ?)). destruct (IHe T) as (? & ? & ? & ?). repeat split; cbn; auto using grid_min, grid_max, grid_mul0.
Qed.
Lemma tame_reach k e : tame k e -> within_reach k (ideal e).
Proof. destruct e; now intros [H _]. Qed.
Lemma tame_fits k e : (k <= 0)%Z -> tame k e -> fits k (ideal e).
Proof. intros. split; [now apply ideal_grid|now apply tame_reach]. Qed.

Theorem C87_history_exact : forall (k : Z) (e : rexp), (-23 <= k <= 0)%Z -> tame k e -> exactly (run e) (ideal e).
Proof.
  intros k e K. assert (K' : (-100 <= k <= 100)%Z) by lia.
  induction e; intros T; pose proof (tame_fits k _ (proj2 K) T) as F; cbn [run ideal]; destruct T as [M T].
  - destruct T as ((? & ?) & (? & ?) & (? & ?) & (? & ?)). now apply (init_exact k).
  - destruct T as ((? & ?) & (? & ?) & (? & ?) & (? & ?)). now apply raw_exact.
  - apply (norm_keeps k); auto.
  - destruct T as [T1 T2]. apply (union_exact k); auto; apply tame_fits; auto; lia.
  - destruct T as [T1 T2]. apply (int_exact k); auto; apply tame_fits; auto; lia.
  - destruct T as (T & ? & ?). apply (off_exact k); auto; apply tame_fits; auto; lia.
  - destruct T as (T & (? & ?) & ? & ?). apply (ins_exact k); auto; apply tame_fits; auto; lia.
  - destruct T as (T & ? & ?). apply (grow_exact k); auto; [apply tame_fits; auto; lia| |].
    + destruct M as (M1 & _ & M3 & _). cbn in M1, M3. pose proof (Rmin_r (eL (ideal e)) (real x)). pose proof (Rmax_r (eR (ideal e)) (real x)). ra.
    + destruct M as (_ & M2 & _ & M4). cbn in M2, M4. pose proof (Rmin_r (eT (ideal e)) (real y)). pose proof (Rmax_r (eB (ideal e)) (real y)). ra.
  - apply (out_exact k); auto; apply tame_fits; auto; lia.
  - apply (round_exact k); auto; apply tame_fits; auto; lia.
  - destruct T as (T & ? & ?). apply (mul_exact k); auto; apply tame_fits; auto; lia.
Qed.

(** ** queries on the result of such a history *)
Definition hpoint (p : point b32) (x y : R) : Prop := holds (px p) x /\ holds (py p) y.
Definition hvec (v : simd4f b32) (x y : R) : Prop := holds (vec2_get_x v) x /\ holds (vec2_get_y v) y.

Theorem C87_getters_exact : forall (BK : Backend b32) (k : Z) (e : rexp), (-23 <= k <= 0)%Z -> tame k e ->
  let r := run e in let '(Ed l t ri b) := ideal e in
  holds (rect_get_x r) l /\ holds (rect_get_y r) t /\ holds (rect_get_width r) (ri - l) /\ holds (rect_get_height r) (b - t) /\
  hpoint (rect_get_top_left r) l t /\ hpoint (rect_get_top_right r) ri t /\
  hpoint (rect_get_bottom_left r) l b /\ hpoint (rect_get_bottom_right r) ri b /\
  hpoint (rect_get_center r) ((l + ri) / 2) ((t + b) / 2) /\
  Forall2 (fun v c => hvec v (fst c) (snd c)) (rect_get_vertices r) [(l, t); (ri, t); (ri, b); (l, b)] /\
  ((ri - l) * (b - t) <= bpow radix2 (24 + (k + k)) -> holds (rect_get_area r) ((ri - l) * (b - t))).
Proof.
  intros BK k e K T r. assert (K' : (-100 <= k <= 100)%Z) by lia. pose proof (C87_history_exact k e K T) as X. fold r in X.
  pose proof (tame_fits k e (proj2 K) T) as F. destruct (exactly_ord _ _ X) as [O1 O2].
  destruct (norm_exact k _ _ K' X F) as (A1 & A2 & A3 & A4 & A5 & A6). pose proof (reach_pos k).
  destruct F as [(G1 & G2 & G3 & G4) (M1 & M2 & M3 & M4)]. destruct (ideal e) as [l t ri b]. cbn [eL eT eR eB] in * .
  assert (TW : holds ftwo 2) by (split; [reflexivity|compute; lra]).
  assert (HF : forall (v : b32) x, holds v x -> grid k x -> Rabs x <= 2 * reach k -> holds (fdiv v ftwo) (x / 2)).
  { intros v x [V <-] G B. destruct TW as [T1 T2]. apply fin_of_X. change (fdiv v ftwo) with (Bdiv mode_NE v ftwo).
    rewrite Bdiv_X by (fold b32; rewrite (fin_X _ T1), T2; intros E; injection E; lra). fold b32. rewrite (fin_X v V), (fin_X _ T1), T2. cbn [xdiv].
    destruct (Req_EM_T 2 0); [lra|]. apply (grid_rnd (k - 1)); [lia| |].
    - destruct G as [i ->]. exists i. replace k with (1 + (k - 1))%Z at 1 by lia. rewrite bpow_plus. change (bpow radix2 1) with 2. field.
    - replace (24 + (k - 1))%Z with (23 + k)%Z by lia. fold (reach k). unfold Rdiv. rewrite Rabs_mult, (Rabs_pos_eq (/ 2)) by lra. lra. }
  assert (CE : forall (o w : b32) lo hi, holds o lo -> holds w (hi - lo) -> grid k lo -> grid k hi -> Rabs lo <= reach k -> Rabs hi <= reach k -> holds (fadd o (fdiv w ftwo)) ((lo + hi) / 2)).
  { intros o w lo hi HO HW GL GH BL BH. replace ((lo + hi) / 2) with (lo + (hi - lo) / 2) by field.
    apply (hadd (k - 1)); auto; [apply HF; auto using grid_sub; ra|lia| |].
    - replace (lo + (hi - lo) / 2) with ((lo + hi) / 2) by field. destruct GL as [i ->], GH as [j ->]. exists (i + j)%Z.
      replace k with (1 + (k - 1))%Z at 1 2 by lia. rewrite bpow_plus, plus_IZR. change (bpow radix2 1) with 2. field.
    - replace (24 + (k - 1))%Z with (23 + k)%Z by lia. fold (reach k). replace (lo + (hi - lo) / 2) with ((lo + hi) / 2) by field. ra. }
  repeat match goal with |- _ /\ _ => split end; auto; try (now split).
  - split; now apply CE.
  - repeat constructor; auto; first [apply A1|apply A2|apply A5|apply A6].
  - intros B. unfold rect_get_area. cbv zeta. apply (hmul (k + k)); auto; [lia|apply grid_mul; now apply grid_sub|].
    rewrite Rabs_pos_eq; auto. apply Rmult_le_pos; lra.
Qed.

Theorem C87_contains_point_exact : forall (k : Z) (e : rexp) (p : point b32), (-23 <= k <= 0)%Z -> tame k e -> fin (px p) -> fin (py p) ->
  (rect_contains_point (run e) p = true <->
   eL (ideal e) <= real (px p) <= eR (ideal e) /\ eT (ideal e) <= real (py p) <= eB (ideal e)).
Proof.
  intros k e p K T PX PY. assert (K' : (-100 <= k <= 100)%Z) by lia. pose proof (C87_history_exact k e K T) as X.
  destruct (norm_exact k _ _ K' X (tame_fits k e (proj2 K) T)) as ([F1 A1] & [F2 A2] & _ & _ & [F5 A5] & [F6 A6]).
  unfold rect_contains_point. cbv zeta. rewrite !andb_true_iff, !fle_R, A1, A2, A5, A6 by auto. tauto.
Qed.

Theorem C87_intersects_exact : forall (k : Z) (a b : rexp), (-23 <= k <= 0)%Z -> tame k a -> tame k b ->
  (fst (rect_intersection (run a) (run b)) = true <->
   exists x y, (eL (ideal a) < x < eR (ideal a) /\ eT (ideal a) < y < eB (ideal a)) /\ (eL (ideal b) < x < eR (ideal b) /\ eT (ideal b) < y < eB (ideal b))).
Proof.
  intros k a b K Ta Tb. assert (K' : (-100 <= k <= 100)%Z) by lia.
  destruct (int_exact k _ _ _ _ K' (C87_history_exact k a K Ta) (C87_history_exact k b K Tb) (tame_fits k a (proj2 K) Ta) (tame_fits k b (proj2 K) Tb)) as [-> _].
  unfold meets. rewrite andb_true_iff. destruct (ideal a) as [l t r bo], (ideal b) as [l' t' r' bo']. cbn [eL eT eR eB].
  assert (LT : forall x y, Rlt_bool x y = true <-> x < y). { intros x y. case Rlt_bool_spec; intros; split; intros; auto; try discriminate; lra. }
  rewrite !LT. pose proof (Rmax_l l l'). pose proof (Rmax_r l l'). pose proof (Rmin_l r r'). pose proof (Rmin_r r r').
  pose proof (Rmax_l t t'). pose proof (Rmax_r t t'). pose proof (Rmin_l bo bo'). pose proof (Rmin_r bo bo'). split.
  - intros [A B]. exists ((Rmax l l' + Rmin r r') / 2), ((Rmax t t' + Rmin bo bo') / 2). repeat split; lra.
  - intros (x & y & ((? & ?) & (? & ?)) & (? & ?) & ? & ?). split; [apply Rlt_trans with x|apply Rlt_trans with y];
      first [apply Rmax_lub_lt; assumption|apply Rmin_glb_lt; assumption].
Qed.

Lemma grid_near k x y : (-23 <= k)%Z -> grid k x -> grid k y -> Rabs (x - y) < / 8388608 -> x = y.
Proof.
  intros K [i ->] [j ->] H. destruct (Z.eq_dec i j) as [->|N]; auto. exfalso.
  assert (B : bpow radix2 (-23) <= bpow radix2 k) by (apply bpow_le; lia).
  replace (IZR i * bpow radix2 k - IZR j * bpow radix2 k) with (IZR (i - j) * bpow radix2 k) in H by (rewrite minus_IZR; ring).
  rewrite Rabs_mult, (Rabs_pos_eq (bpow radix2 k)), <- abs_IZR in H by apply bpow_ge_0.
  assert (1 <= IZR (Z.abs (i - j))) by (apply IZR_le; lia). change (bpow radix2 (-23)) with (/ 8388608) in B. nra.
Qed.
Lemma near_iff k (a b : b32) x y : (-23 <= k <= 0)%Z -> holds a x -> holds b y -> grid k x -> grid k y -> Rabs x <= 2 * reach k -> Rabs y <= 2 * reach k -> Rabs (x - y) <= 2 * reach k ->
  (flt (fabs (fsub a b)) feps = true <-> x = y) /\ (approx_val a b = true <-> x = y).
Proof.
  intros K A B G1 G2 B1 B2 B3.
  assert (D : holds (fsub a b) (x - y)) by (apply (hsub k); auto using grid_sub; [lia|now rewrite reach2]).
  assert (D' : holds (fsub b a) (y - x)) by (apply (hsub k); auto using grid_sub; [lia|rewrite reach2, Rabs_minus_sym; auto]).
  assert (E : fin feps /\ real feps = / 8388608) by (apply fin_of_X, feps_X). destruct E as [FE E].
  assert (Q : forall v d, holds v d -> Rabs d = Rabs (x - y) -> 0 <= d -> (flt v feps = true <-> x = y)).
  { intros v d [V <-] H P. rewrite flt_R, E by auto. split.
    - intros L. apply (grid_near k); auto; [lia|]. rewrite <- H, Rabs_pos_eq; auto.
    - intros ->. rewrite Rminus_eq_0, Rabs_R0 in H. rewrite Rabs_pos_eq in H by auto. rewrite H. lra. }
  split.
  - apply (Q _ (Rabs (x - y))); [now apply habs|apply Rabs_Rabsolu|apply Rabs_pos].
  - unfold approx_val, fuzzy_equals. destruct A as [FA <-], B as [FB <-]. destruct (flt b a) eqn:S.
    + apply flt_R in S; auto. apply (Q _ _ D); auto. lra.
    + apply flt_Rf in S; auto. apply (Q _ _ D'); [apply Rabs_minus_sym|lra].
Qed.
Lemma equal_iff k (BK : Backend b32) a b ea eb : (-23 <= k <= 0)%Z -> exactly a ea -> exactly b eb -> fits k ea -> fits k eb ->
  (rect_equal false (Some a) (Some b) = true <-> ea = eb).
Proof.
  intros K A B FA FB. assert (K' : (-100 <= k <= 100)%Z) by lia. pose proof (reach_pos k).
  pose proof (exactly_ord _ _ A) as [O1 O2]. pose proof (exactly_ord _ _ B) as [O3 O4].
  destruct (norm_exact k a ea K' A FA) as (A1 & A2 & A3 & A4 & _). destruct (norm_exact k b eb K' B FB) as (B1 & B2 & B3 & B4 & _).
  destruct FA as [(G1 & G2 & G3 & G4) (M1 & M2 & M3 & M4)], FB as [(H1 & H2 & H3 & H4) (N1 & N2 & N3 & N4)].
  unfold rect_equal, pointer_equal, rect_equal_fn, point_equal, size_equal, pointer_equal, point_near. cbv zeta.
  change (g_get_x (point_diff (rorigin (rect_normalize a)) (rorigin (rect_normalize b)))) with (fsub (rx (rect_normalize a)) (rx (rect_normalize b))).
  change (g_get_y (point_diff (rorigin (rect_normalize a)) (rorigin (rect_normalize b)))) with (fsub (ry (rect_normalize a)) (ry (rect_normalize b))).
  fold (rw (rect_normalize a)) (rw (rect_normalize b)) (rh (rect_normalize a)) (rh (rect_normalize b)).
  rewrite !andb_true_iff.
  destruct (near_iff k _ _ _ _ K A1 B1) as [-> _]; auto; try ra. destruct (near_iff k _ _ _ _ K A2 B2) as [-> _]; auto; try ra.
  destruct (near_iff k _ _ _ _ K A3 B3) as [_ ->]; auto using grid_sub; try ra. destruct (near_iff k _ _ _ _ K A4 B4) as [_ ->]; auto using grid_sub; try ra.
  destruct ea as [l t r bo], eb as [l' t' r' bo']. cbn [eL eT eR eB]. split.
  - intros [[-> ->] [? ?]]. f_equal; lra.
  - intros E. injection E as -> -> -> ->. auto.
Qed.

Theorem C87_equal_exact : forall (BK : Backend b32) (k : Z) (a b : rexp), (-23 <= k <= 0)%Z -> tame k a -> tame k b ->
  (rect_equal false (Some (run a)) (Some (run b)) = true <-> ideal a = ideal b).
Proof.
  intros BK k a b K Ta Tb. apply (equal_iff k BK); auto; try (apply (C87_history_exact k); auto); apply tame_fits; auto; lia.
Qed.
Theorem C87_contains_rect_exact : forall (BK : Backend b32) (k : Z) (a b : rexp), (-23 <= k <= 0)%Z -> tame k a -> tame k b ->
  let A := ideal a in let B := ideal b in
  (rect_contains_rect (run a) (run b) = true <-> eL A <= eL B /\ eR B <= eR A /\ eT A <= eT B /\ eB B <= eB A).
Proof.
  intros BK k a b K Ta Tb A B. assert (K' : (-100 <= k <= 100)%Z) by lia.
  pose proof (C87_history_exact k a K Ta) as Xa. pose proof (C87_history_exact k b K Tb) as Xb.
  pose proof (tame_fits k a (proj2 K) Ta) as Fa. pose proof (tame_fits k b (proj2 K) Tb) as Fb. fold A in Xa, Fa. fold B in Xb, Fb.
  unfold rect_contains_rect.
  assert (FU : fits k (uni A B)).
  { destruct Fa as [(G1 & G2 & G3 & G4) (M1 & M2 & M3 & M4)], Fb as [(H1 & H2 & H3 & H4) (N1 & N2 & N3 & N4)].
    split; repeat split; cbn; auto using grid_min, grid_max, Rmin_reach, Rmax_reach. }
  rewrite (equal_iff k BK _ _ A (uni A B)); auto; [|now apply (union_exact k)].
  destruct A as [l t r bo], B as [l' t' r' bo']. unfold uni. cbn [eL eT eR eB]. split.
  - intros E. injection E as E1 E2 E3 E4. pose proof (Rmin_r l l'). pose proof (Rmin_r t t'). pose proof (Rmax_r r r'). pose proof (Rmax_r bo bo'). lra.
  - intros (? & ? & ? & ?). rewrite !Rmin_left, !Rmax_left by lra. reflexivity.
Qed.

(** ** the hypotheses are met, and needed *)
Lemma lit_grid k m e : (Z.abs m < 2 ^ 24)%Z -> (-149 <= e)%Z -> (e <= 104)%Z -> (k <= e)%Z -> on_grid k (lit m e).
Proof.
  intros M E1 E2 K. destruct (lit_real m e M E1 E2) as [F R]. split; [exact F|]. unfold lit. rewrite R. exists (m * 2 ^ (e - k))%Z.
  rewrite mult_IZR, (IZR_Zpower radix2), Rmult_assoc, <- bpow_plus by lia. do 2 f_equal. lia.
Qed.
(** a half-pixel history: inset (by 1/2, -3) of the union of a rectangle given with a negative width
    and an offset one *)
Definition ex_hist : rexp :=
  Inset (Union (Init (lit 10 0) (lit 3 0) (lit (-9) (-1)) (lit 2 0)) (Offset (Raw (lit 1 0) (lit 5 0) (lit 7 0) (lit 7 (-1))) (lit 3 (-1)) (lit (-2) 0))) (lit 1 (-1)) (lit (-3) 0).
Ltac lits := unfold lit; rewrite ?(fun m e A B C => proj2 (lit_real m e A B C)) by lia; simpl bpow.
Example C87_history_ex : tame (-1) ex_hist /\ ideal ex_hist = Ed 3 0 (19 / 2) (19 / 2).
Proof.
  assert (R : reach (-1) = 4194304) by (unfold reach; simpl; lra).
  assert (I1 : ideal (Init (lit 10 0) (lit 3 0) (lit (-9) (-1)) (lit 2 0)) = Ed (11 / 2) 3 10 5).
  { cbn [ideal]. lits. rewrite !(Rmin_right (10 * 1)), !(Rmax_left (10 * 1)), !(Rmin_left (3 * 1)), !(Rmax_right (3 * 1)) by lra. f_equal; lra. }
  assert (I2 : ideal (Raw (lit 1 0) (lit 5 0) (lit 7 0) (lit 7 (-1))) = Ed 1 5 8 (17 / 2)).
  { cbn [ideal]. lits. rewrite !Rmin_left, !Rmax_right by lra. f_equal; lra. }
  assert (I3 : ideal (Offset (Raw (lit 1 0) (lit 5 0) (lit 7 0) (lit 7 (-1))) (lit 3 (-1)) (lit (-2) 0)) = Ed (5 / 2) 3 (19 / 2) (13 / 2)).
  { change (ideal (Offset ?a ?b ?c)) with (off (ideal a) (real b) (real c)). rewrite I2. unfold off. cbn [eL eT eR eB]. lits. f_equal; lra. }
  assert (I4 : ideal (Union (Init (lit 10 0) (lit 3 0) (lit (-9) (-1)) (lit 2 0)) (Offset (Raw (lit 1 0) (lit 5 0) (lit 7 0) (lit 7 (-1))) (lit 3 (-1)) (lit (-2) 0))) = Ed (5 / 2) 3 10 (13 / 2)).
  { change (ideal (Union ?a ?b)) with (uni (ideal a) (ideal b)). rewrite I1, I3. unfold uni. cbn [eL eT eR eB]. rewrite (Rmin_right (11/2)), (Rmin_left 3), (Rmax_left 10), (Rmax_right 5) by lra. reflexivity. }
  assert (I5 : ideal ex_hist = Ed 3 0 (19 / 2) (19 / 2)).
  { unfold ex_hist. change (ideal (Inset ?a ?b ?c)) with (ins (ideal a) (real b) (real c)). rewrite I4. unfold ins. cbn [eL eT eR eB]. lits. rewrite !Rmax_right by lra. f_equal; lra. }
  split; [|exact I5].
  assert (W : forall a b c d, -100 <= a <= 100 -> -100 <= b <= 100 -> -100 <= c <= 100 -> -100 <= d <= 100 -> within_reach (-1) (Ed a b c d)).
  { intros. unfold within_reach. cbn [eL eT eR eB]. rewrite R. repeat split; apply Rabs_le; lra. }
  unfold ex_hist in * . cbn [tame]. rewrite I5, I4, I3, I2, I1.
  repeat match goal with |- _ /\ _ => split end; try (apply W; lra); try (apply lit_grid; lia).
  - lits. rewrite R. apply Rabs_le. lra.
  - lits. rewrite R. apply Rabs_le. lra.
Qed.
(** beyond the reach a whole-pixel offset can be lost *)
Theorem C87_reach_needed_refuted : exists (x d : b32), on_grid 0 x /\ on_grid 0 d /\
  ~ exactly (rect_offset (mkrect x fzero fone fone) d fzero) (off (ideal (Raw x fzero fone fone)) (real d) (real fzero)).
Proof.
  exists (lit 1 24), fone. split; [apply lit_grid; lia|]. split; [apply (lit_grid 0 1 0); lia|].
  intros (_ & L & _). revert L. unfold left_of.
  assert (E : rx (rect_offset (mkrect (lit 1 24) fzero fone fone) fone fzero) = lit 1 24) by beq.
  assert (E2 : rw (rect_offset (mkrect (lit 1 24) fzero fone fone) fone fzero) = lit 1 0) by beq.
  rewrite E, E2. change (fone : b32) with (lit 1 0). change (fzero : b32) with (lit 0 0). unfold off. cbn [ideal eL]. lits. rewrite !Rmin_left by lra. lra.
Qed.
