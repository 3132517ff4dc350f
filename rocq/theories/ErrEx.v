(** * ErrEx: rounding errors of arbitrary sums, differences and products of binary32 numbers.

    Proof infrastructure: an expression tree, its float value, its real value, and a bound on
    their difference that follows the tree.  No counterpart in the C code. *)
From Coq Require Import ZArith Reals Bool List Lra Lia Psatz.
From Flocq Require Import Core BinarySingleNaN.
From Verif Require Import Num Simd OrdThy FloatThy B32Setup FloatLem ErrThy.
Local Open Scope R_scope.

Inductive ex := L (x : b32) | P (a b : ex) | S (a b : ex) | M (a b : ex) | N (a : ex).
Fixpoint rev (e : ex) : R :=
  match e with L x => B2R x | P a b => rev a + rev b | S a b => rev a - rev b | M a b => rev a * rev b | N a => - rev a end.
(** the value with every leaf and every sign replaced by its absolute value *)
Fixpoint aev (e : ex) : R :=
  match e with L x => Rabs (B2R x) | P a b | S a b => aev a + aev b | M a b => aev a * aev b | N a => aev a end.
(** accumulated underflow errors, in units of [eta] *)
Fixpoint uev (e : ex) : R :=
  match e with L _ => 0 | P a b | S a b => uev a + uev b | M a b => aev a * uev b + aev b * uev a + eta * uev a * uev b + 1 | N a => uev a end.
(** longest chain of roundings *)
Fixpoint dep (e : ex) : nat :=
  match e with L _ => 0 | P a b | S a b => 1 + Nat.max (dep a) (dep b) | M a b => 1 + (dep a + dep b) | N a => dep a end.
Definition gam (n : nat) : R := (1 + u32) ^ n.
Fixpoint ok (e : ex) : Prop :=
  match e with
  | L x => fin x
  | P a b | S a b | M a b => ok a /\ ok b /\ gam (dep e) * (aev e + eta * uev e) <= bpow radix2 127
  | N a => ok a end.
Lemma u32_pos : 0 < u32. Proof. apply bpow_gt_0. Qed.
Lemma gam_pos n : 1 <= gam n.
Proof. apply pow_R1_Rle. pose proof u32_pos. lra. Qed.
Lemma gam_le n m : (n <= m)%nat -> gam n <= gam m.
Proof. intros H. apply Rle_pow; auto. pose proof u32_pos. lra. Qed.
Lemma gam_S n : gam (1 + n) = (1 + u32) * gam n. Proof. reflexivity. Qed.
Lemma gam_add n m : gam (n + m) = gam n * gam m. Proof. apply pow_add. Qed.
Lemma aev_pos e : 0 <= aev e.
Proof. induction e; cbn [aev]; try lra; try apply Rabs_pos. apply Rmult_le_pos; auto. Qed.
Lemma uev_pos e : 0 <= uev e.
Proof. induction e; cbn [uev]; try lra. pose proof (aev_pos e1). pose proof (aev_pos e2). pose proof eta_pos. assert (0 <= aev e1 * uev e2) by nra. assert (0 <= aev e2 * uev e1) by nra. assert (0 <= eta * uev e1 * uev e2) by (apply Rmult_le_pos; nra). lra. Qed.
Lemma rev_abs e : Rabs (rev e) <= aev e.
Proof.
  induction e; cbn [rev aev]; try lra.
  - eapply Rle_trans; [apply Rabs_triang|]. lra.
  - unfold Rminus. eapply Rle_trans; [apply Rabs_triang|]. rewrite Rabs_Ropp. lra.
  - rewrite Rabs_mult. apply Rmult_le_compat; auto using Rabs_pos.
  - now rewrite Rabs_Ropp.
Qed.
Definition bound (e : ex) : R := gam (dep e) * (aev e + eta * uev e) - aev e.
Lemma bound_mono n e : (dep e <= n)%nat -> bound e <= gam n * (aev e + eta * uev e) - aev e.
Proof. intros H. unfold bound. pose proof (gam_le _ _ H). pose proof (aev_pos e). pose proof (uev_pos e). pose proof eta_pos. assert (0 <= eta * uev e) by nra. nra. Qed.
Lemma add_case (x y : b32) a b n A B Ua Ub :
  1 <= gam n -> ap x a (gam n * (A + eta * Ua) - A) -> ap y b (gam n * (B + eta * Ub) - B) -> Rabs a <= A -> Rabs b <= B ->
  gam (1 + n) * (A + B + eta * (Ua + Ub)) <= bpow radix2 127 -> 0 <= Ua -> 0 <= Ub ->
  ap (fadd x y) (a + b) (gam (1 + n) * (A + B + eta * (Ua + Ub)) - (A + B)).
Proof.
  intros G X Y HA HB OV UA UB. pose proof (Rabs_triang a b) as T. pose proof u32_pos. pose proof eta_pos. pose proof (Rabs_pos a). pose proof (Rabs_pos b).
  set (m := gam n * (A + B + eta * (Ua + Ub))).
  assert (Q : 0 <= A + B + eta * (Ua + Ub)) by (assert (0 <= eta * (Ua + Ub)) by nra; lra).
  eapply ap_weak; [eapply (ap_add x y a b _ _ m X Y)|].
  - unfold m. lra.
  - unfold m. eapply Rle_trans; [|exact OV]. rewrite gam_S. assert (0 <= gam n * (A + B + eta * (Ua + Ub))) by (apply Rmult_le_pos; lra). nra.
  - unfold m. rewrite gam_S. lra.
Qed.
Lemma sub_case (x y : b32) a b n A B Ua Ub :
  1 <= gam n -> ap x a (gam n * (A + eta * Ua) - A) -> ap y b (gam n * (B + eta * Ub) - B) -> Rabs a <= A -> Rabs b <= B ->
  gam (1 + n) * (A + B + eta * (Ua + Ub)) <= bpow radix2 127 -> 0 <= Ua -> 0 <= Ub ->
  ap (fsub x y) (a - b) (gam (1 + n) * (A + B + eta * (Ua + Ub)) - (A + B)).
Proof.
  intros G X Y HA HB OV UA UB. destruct (add_case x (fneg y) a (- b) n A B Ua Ub) as (s & E & Q); auto. { now apply ap_neg. } { now rewrite Rabs_Ropp. }
  exists s. split; [now rewrite fsub_add_neg|exact Q].
Qed.
Lemma case_P a b x y : ap x (rev a) (bound a) -> ap y (rev b) (bound b) -> ok (P a b) -> ap (fadd x y) (rev (P a b)) (bound (P a b)).
Proof.
  intros X Y (Oa & Ob & OV). cbn [rev]. unfold bound at 1. cbn [dep aev uev] in * .
  apply add_case; auto using gam_pos, rev_abs, uev_pos; (eapply ap_weak; [eassumption|apply bound_mono; lia]).
Qed.
Lemma case_S a b x y : ap x (rev a) (bound a) -> ap y (rev b) (bound b) -> ok (S a b) -> ap (fsub x y) (rev (S a b)) (bound (S a b)).
Proof.
  intros X Y (Oa & Ob & OV). cbn [rev]. unfold bound at 1. cbn [dep aev uev] in * .
  apply sub_case; auto using gam_pos, rev_abs, uev_pos; (eapply ap_weak; [eassumption|apply bound_mono; lia]).
Qed.
Lemma case_M a b x y : ap x (rev a) (bound a) -> ap y (rev b) (bound b) -> ok (M a b) -> ap (fmul x y) (rev (M a b)) (bound (M a b)).
Proof.
  intros IHa IHb (Oa & Ob & OV). cbn [rev]. unfold bound in * . cbn [dep aev uev] in * .
    pose proof (rev_abs a) as Ra. pose proof (rev_abs b) as Rb. pose proof (aev_pos a). pose proof (aev_pos b). pose proof (uev_pos a). pose proof (uev_pos b). pose proof eta_pos. pose proof u32_pos.
    pose proof (gam_pos (dep a)) as Ga. pose proof (gam_pos (dep b)) as Gb. rewrite gam_S, gam_add in * .
    set (A := aev a) in * . set (B := aev b) in * . set (Ua := uev a) in * . set (Ub := uev b) in * . set (ga := gam (dep a)) in * . set (gb := gam (dep b)) in * .
    assert (Xa : 0 <= eta * Ua) by nra. assert (Xb : 0 <= eta * Ub) by nra.
    set (p := A + eta * Ua) in * . set (q := B + eta * Ub) in * .
    assert (Pp : 0 <= p) by (unfold p; lra). assert (Qq : 0 <= q) by (unfold q; lra).
    assert (gp : p <= ga * p) by nra. assert (gq : q <= gb * q) by nra.
    set (ea := ga * p - A) in * . set (eb := gb * q - B) in * .
    assert (Ea : 0 <= ea) by (unfold ea, p in * ; lra). assert (Eb : 0 <= eb) by (unfold eb, q in * ; lra).
    assert (R1 : Rabs (rev a) * eb <= A * eb) by (apply Rmult_le_compat_r; auto).
    assert (R2 : Rabs (rev b) * ea <= B * ea) by (apply Rmult_le_compat_r; auto).
    assert (R3 : Rabs (rev a) * Rabs (rev b) <= A * B) by (apply Rmult_le_compat; auto using Rabs_pos).
    assert (ID : A * B + A * eb + B * ea + ea * eb = (ga * p) * (gb * q)) by (unfold ea, eb; ring).
    assert (PQ : p * q = A * B + eta * (A * Ub + B * Ua + eta * Ua * Ub)) by (unfold p, q; ring).
    assert (GG : 1 <= ga * gb) by nra. assert (PP : 0 <= p * q) by (apply Rmult_le_pos; auto).
    assert (TOT : (1 + u32) * (ga * gb) * (p * q) + eta <= (1 + u32) * (ga * gb) * (A * B + eta * (A * Ub + B * Ua + eta * Ua * Ub + 1))).
    { replace (A * B + eta * (A * Ub + B * Ua + eta * Ua * Ub + 1)) with (p * q + eta) by (rewrite PQ; ring). rewrite Rmult_plus_distr_l.
      apply Rplus_le_compat_l. assert (1 <= (1 + u32) * (ga * gb)) by nra. nra. }
    eapply ap_weak; [eapply (ap_mul _ _ _ _ _ _ (ga * p * (gb * q)) IHa IHb)|].
    + lra.
    + eapply Rle_trans; [|exact OV]. eapply Rle_trans; [|exact TOT]. replace (ga * p * (gb * q)) with (ga * gb * (p * q)) by ring.
      assert (0 <= ga * gb * (p * q)) by (apply Rmult_le_pos; lra). nra.
    + eapply Rle_trans; [|apply Rplus_le_compat_r, TOT]. replace (ga * p * (gb * q)) with (ga * gb * (p * q)) in * by ring. lra.
Qed.
(** a fused multiply-add is at least as good as the two operations *)
Lemma case_F a b c x y z : ap x (rev a) (bound a) -> ap y (rev b) (bound b) -> ap z (rev c) (bound c) -> ok (P (M a b) c) ->
  ap (ffma x y z) (rev (P (M a b) c)) (bound (P (M a b) c)).
Proof.
  intros X Y Z ((Oa & Ob & OVm) & Oc & OV).
  destruct X as (xs & X & Lx), Y as (ys & Y & Ly), Z as (zs & Z & Lz).
  apply fin_of_X in X as [FX <-], Y as [FY <-], Z as [FZ <-].
  (* the unrounded product *)
  assert (PR : Rabs (B2R x * B2R y - rev (M a b)) <= bound (M a b) - u32 * Rabs (B2R x * B2R y) - eta).
  { cbn [rev]. unfold bound in * . cbn [dep aev uev] in * .
    pose proof (rev_abs a) as Ra. pose proof (rev_abs b) as Rb. pose proof (aev_pos a). pose proof (aev_pos b). pose proof (uev_pos a). pose proof (uev_pos b). pose proof eta_pos. pose proof u32_pos.
    pose proof (gam_pos (dep a)) as Ga. pose proof (gam_pos (dep b)) as Gb. rewrite gam_S, gam_add in * .
    set (A := aev a) in * . set (B := aev b) in * . set (Ua := uev a) in * . set (Ub := uev b) in * . set (ga := gam (dep a)) in * . set (gb := gam (dep b)) in * .
    assert (Xa : 0 <= eta * Ua) by nra. assert (Xb : 0 <= eta * Ub) by nra.
    set (p := A + eta * Ua) in * . set (q := B + eta * Ub) in * .
    assert (Pp : 0 <= p) by (unfold p; lra). assert (Qq : 0 <= q) by (unfold q; lra).
    assert (gp : p <= ga * p) by nra. assert (gq : q <= gb * q) by nra.
    set (ea := ga * p - A) in * . set (eb := gb * q - B) in * .
    assert (Ea : 0 <= ea) by (unfold ea, p in * ; lra). assert (Eb : 0 <= eb) by (unfold eb, q in * ; lra).
    assert (AX : Rabs (B2R x) <= ga * p). { replace (B2R x) with ((B2R x - rev a) + rev a) by ring. eapply Rle_trans; [apply Rabs_triang|]. unfold ea in Lx. lra. }
    assert (AY : Rabs (B2R y) <= gb * q). { replace (B2R y) with ((B2R y - rev b) + rev b) by ring. eapply Rle_trans; [apply Rabs_triang|]. unfold eb in Ly. lra. }
    assert (D : Rabs (B2R x * B2R y - rev a * rev b) <= (ga * p) * (gb * q) - A * B).
    { replace (B2R x * B2R y - rev a * rev b) with (rev a * (B2R y - rev b) + (rev b * (B2R x - rev a) + (B2R x - rev a) * (B2R y - rev b))) by ring.
      eapply Rle_trans; [apply Rabs_triang|]. eapply Rle_trans; [apply Rplus_le_compat_l, Rabs_triang|]. rewrite !Rabs_mult.
      assert (Rabs (rev a) * Rabs (B2R y - rev b) <= A * eb) by (apply Rmult_le_compat; auto using Rabs_pos).
      assert (Rabs (rev b) * Rabs (B2R x - rev a) <= B * ea) by (apply Rmult_le_compat; auto using Rabs_pos).
      assert (Rabs (B2R x - rev a) * Rabs (B2R y - rev b) <= ea * eb) by (apply Rmult_le_compat; auto using Rabs_pos).
      replace (ga * p * (gb * q) - A * B) with (A * eb + (B * ea + ea * eb)) by (unfold ea, eb; ring). lra. }
    assert (MG : Rabs (B2R x * B2R y) <= ga * p * (gb * q)) by (rewrite Rabs_mult; apply Rmult_le_compat; auto using Rabs_pos).
    assert (GG : 1 <= ga * gb) by nra.
    assert (PQ : A * B + eta * (A * Ub + B * Ua + eta * Ua * Ub + 1) = p * q + eta) by (unfold p, q; ring). rewrite PQ.
    assert (u32 * Rabs (B2R x * B2R y) <= u32 * (ga * p * (gb * q))) by (apply Rmult_le_compat_l; lra).
    assert (1 <= (1 + u32) * (ga * gb)) by nra. assert (eta <= (1 + u32) * (ga * gb) * eta) by nra. lra. }
  cbn [dep aev uev] in OV. set (m := P (M a b) c) in * .
  pose proof (rev_abs (M a b)) as Rm. pose proof (rev_abs c) as Rc. pose proof (aev_pos (M a b)). pose proof (aev_pos c). pose proof (uev_pos (M a b)). pose proof (uev_pos c). pose proof eta_pos. pose proof u32_pos.
  pose proof (bound_mono (Nat.max (dep (M a b)) (dep c)) (M a b) ltac:(lia)) as Bm. pose proof (bound_mono (Nat.max (dep (M a b)) (dep c)) c ltac:(lia)) as Bc.
  pose proof (Rabs_pos (B2R x * B2R y)) as AXY.
  assert (SUM : Rabs (B2R x * B2R y + B2R z - (rev (M a b) + rev c)) <= bound (M a b) + bound c - u32 * Rabs (B2R x * B2R y) - eta).
  { replace (B2R x * B2R y + B2R z - (rev (M a b) + rev c)) with ((B2R x * B2R y - rev (M a b)) + (B2R z - rev c)) by ring. eapply Rle_trans; [apply Rabs_triang|]. lra. }
  assert (MG : Rabs (B2R x * B2R y + B2R z) <= gam (Nat.max (dep (M a b)) (dep c)) * (aev m + eta * uev m)).
  { replace (B2R x * B2R y + B2R z) with ((B2R x * B2R y + B2R z - (rev (M a b) + rev c)) + (rev (M a b) + rev c)) by ring. eapply Rle_trans; [apply Rabs_triang|].
    pose proof (Rabs_triang (rev (M a b)) (rev c)). assert (0 <= u32 * Rabs (B2R x * B2R y)) by nra. unfold m. cbn [aev uev] in * . lra. }
  assert (PM : 0 <= gam (Nat.max (dep (M a b)) (dep c)) * (aev m + eta * uev m)) by (eapply Rle_trans; [apply Rabs_pos|exact MG]).
  assert (OV' : (1 + u32) * (gam (Nat.max (dep (M a b)) (dep c)) * (aev m + eta * uev m)) <= bpow radix2 127).
  { rewrite <- Rmult_assoc, <- gam_S. exact OV. }
  pose proof (rnd_err (B2R x * B2R y + B2R z)) as RE.
  exists (rnd32 (B2R x * B2R y + B2R z)). split.
  - change (ffma x y z) with (Bfma mode_NE x y z). rewrite Bfma_X by auto. apply (xrnd_ok (B2R x * B2R y + B2R z)). nra.
  - replace (rnd32 (B2R x * B2R y + B2R z) - rev m) with ((rnd32 (B2R x * B2R y + B2R z) - (B2R x * B2R y + B2R z)) + (B2R x * B2R y + B2R z - (rev (M a b) + rev c))) by (unfold m; cbn [rev]; ring).
    eapply Rle_trans; [apply Rabs_triang|]. unfold bound at 1. change (dep m) with (1 + Nat.max (dep (M a b)) (dep c))%nat. rewrite gam_S.
    assert (u32 * Rabs (B2R x * B2R y + B2R z) <= u32 * (gam (Nat.max (dep (M a b)) (dep c)) * (aev m + eta * uev m))) by (apply Rmult_le_compat_l; lra).
    assert (0 <= u32 * Rabs (B2R x * B2R y)) by nra.
    assert (EQ : gam (Nat.max (dep (M a b)) (dep c)) * (aev (M a b) + eta * uev (M a b)) - aev (M a b) + (gam (Nat.max (dep (M a b)) (dep c)) * (aev c + eta * uev c) - aev c) = gam (Nat.max (dep (M a b)) (dep c)) * (aev m + eta * uev m) - aev m) by (unfold m; cbn [aev uev]; ring).
    lra.
Qed.
(** trees with multiply-adds, which some back ends fuse ([fused]) *)
Inductive fx := XL (x : b32) | XP (a b : fx) | XS (a b : fx) | XM (a b : fx) | XN (a : fx) | XF (a b c : fx).
Fixpoint ds (e : fx) : ex :=
  match e with XL x => L x | XP a b => P (ds a) (ds b) | XS a b => S (ds a) (ds b) | XM a b => M (ds a) (ds b) | XN a => N (ds a)
  | XF a b c => P (M (ds a) (ds b)) (ds c) end.
Fixpoint xev (fused : bool) (e : fx) : b32 :=
  match e with
  | XL x => x | XP a b => fadd (xev fused a) (xev fused b) | XS a b => fsub (xev fused a) (xev fused b) | XM a b => fmul (xev fused a) (xev fused b)
  | XN a => fneg (xev fused a)
  | XF a b c => if fused then ffma (xev fused a) (xev fused b) (xev fused c) else fadd (fmul (xev fused a) (xev fused b)) (xev fused c) end.
Lemma err_ap fused e : ok (ds e) -> ap (xev fused e) (rev (ds e)) (bound (ds e)).
Proof.
  induction e as [x|a IHa b IHb|a IHa b IHb|a IHa b IHb|a IHa|a IHa b IHb c IHc]; cbn [ds xev]; intros O.
  - eapply ap_weak; [apply ap_refl, O|]. unfold bound. cbn. lra.
  - pose proof O as (Oa & Ob & _). apply case_P; auto.
  - pose proof O as (Oa & Ob & _). apply case_S; auto.
  - pose proof O as (Oa & Ob & _). apply case_M; auto.
  - apply (ap_neg _ (rev (ds a)) (bound (ds a))). apply IHa. exact O.
  - pose proof O as ((Oa & Ob & OM) & Oc & _). destruct fused; [apply case_F; auto|]. apply case_P; auto. apply case_M; auto. split; auto.
Qed.

(** ** leaves bounded by [B]: no overflow, and a closed bound *)
Fixpoint leaves (Q : b32 -> Prop) (e : ex) : Prop :=
  match e with L x => Q x | P a b | S a b | M a b => leaves Q a /\ leaves Q b | N a => leaves Q a end.
Fixpoint dg (e : ex) : nat := match e with L _ => 1 | P a b | S a b => Nat.max (dg a) (dg b) | M a b => dg a + dg b | N a => dg a end.
Fixpoint tm (e : ex) : Z := match e with L _ => 1 | P a b | S a b => tm a + tm b | M a b => tm a * tm b | N a => tm a end%Z.
Fixpoint wt (e : ex) : Z := match e with L _ => 0 | P a b | S a b => wt a + wt b | M a b => tm a * wt b + tm b * wt a + wt a * wt b + 1 | N a => wt a end%Z.
Lemma tm_pos e : (1 <= tm e)%Z. Proof. induction e; cbn [tm]; nia. Qed.
Lemma wt_pos e : (0 <= wt e)%Z. Proof. induction e; cbn [wt]; try lia. pose proof (tm_pos e1). pose proof (tm_pos e2). nia. Qed.
Lemma dg_pos e : (1 <= dg e)%nat. Proof. induction e; cbn [dg]; lia. Qed.
Definition le_B (B : R) (x : b32) : Prop := fin x /\ Rabs (B2R x) <= B.
Lemma pow_mono B n m : 1 <= B -> (n <= m)%nat -> B ^ n <= B ^ m. Proof. intros; now apply Rle_pow. Qed.
Lemma aev_bound B e : 1 <= B -> leaves (le_B B) e -> aev e <= IZR (tm e) * B ^ dg e.
Proof.
  intros HB. induction e as [x|a IHa b IHb|a IHa b IHb|a IHa b IHb|a IHa]; cbn [leaves aev tm dg].
  - intros [_ H]. lra.
  - intros [Ha Hb]. specialize (IHa Ha). specialize (IHb Hb). rewrite plus_IZR, Rmult_plus_distr_r.
    pose proof (pow_mono B (dg a) (Nat.max (dg a) (dg b)) HB ltac:(lia)). pose proof (pow_mono B (dg b) (Nat.max (dg a) (dg b)) HB ltac:(lia)).
    pose proof (IZR_le _ _ (tm_pos a)). pose proof (IZR_le _ _ (tm_pos b)). nra.
  - intros [Ha Hb]. specialize (IHa Ha). specialize (IHb Hb). rewrite plus_IZR, Rmult_plus_distr_r.
    pose proof (pow_mono B (dg a) (Nat.max (dg a) (dg b)) HB ltac:(lia)). pose proof (pow_mono B (dg b) (Nat.max (dg a) (dg b)) HB ltac:(lia)).
    pose proof (IZR_le _ _ (tm_pos a)). pose proof (IZR_le _ _ (tm_pos b)). nra.
  - intros [Ha Hb]. specialize (IHa Ha). specialize (IHb Hb). rewrite mult_IZR, pow_add.
    replace (IZR (tm a) * IZR (tm b) * (B ^ dg a * B ^ dg b)) with ((IZR (tm a) * B ^ dg a) * (IZR (tm b) * B ^ dg b)) by ring.
    apply Rmult_le_compat; auto using aev_pos.
  - auto.
Qed.
Lemma uev_bound B e : 1 <= B -> leaves (le_B B) e -> uev e * B ^ 2 <= IZR (wt e) * B ^ dg e.
Proof.
  intros HB. induction e as [x|a IHa b IHb|a IHa b IHb|a IHa b IHb|a IHa]; cbn [leaves uev wt dg].
  - intros _. lra.
  - intros [Ha Hb]. specialize (IHa Ha). specialize (IHb Hb). rewrite plus_IZR, !Rmult_plus_distr_r.
    pose proof (pow_mono B (dg a) (Nat.max (dg a) (dg b)) HB ltac:(lia)). pose proof (pow_mono B (dg b) (Nat.max (dg a) (dg b)) HB ltac:(lia)).
    pose proof (IZR_le _ _ (wt_pos a)). pose proof (IZR_le _ _ (wt_pos b)). nra.
  - intros [Ha Hb]. specialize (IHa Ha). specialize (IHb Hb). rewrite plus_IZR, !Rmult_plus_distr_r.
    pose proof (pow_mono B (dg a) (Nat.max (dg a) (dg b)) HB ltac:(lia)). pose proof (pow_mono B (dg b) (Nat.max (dg a) (dg b)) HB ltac:(lia)).
    pose proof (IZR_le _ _ (wt_pos a)). pose proof (IZR_le _ _ (wt_pos b)). nra.
  - intros [Ha Hb]. specialize (IHa Ha). specialize (IHb Hb). pose proof (aev_bound B a HB Ha) as A. pose proof (aev_bound B b HB Hb) as Bb.
    rewrite !plus_IZR, !mult_IZR, pow_add, !Rmult_plus_distr_r. set (pa := B ^ dg a) in * . set (pb := B ^ dg b) in * .
    pose proof (aev_pos a). pose proof (aev_pos b). pose proof (uev_pos a). pose proof (uev_pos b). pose proof eta_pos.
    assert (E1 : eta <= 1) by (change 1 with (bpow radix2 0); apply bpow_le; lia).
    assert (B2 : 1 <= B ^ 2) by (apply pow_R1_Rle; auto).
    assert (Pa : 0 <= pa) by (apply pow_le; lra). assert (Pb : 0 <= pb) by (apply pow_le; lra).
    assert (PB : B ^ 2 <= pa * pb). { unfold pa, pb. rewrite <- pow_add. apply pow_mono; auto. pose proof (dg_pos a). pose proof (dg_pos b). lia. }
    pose proof (IZR_le _ _ (wt_pos a)). pose proof (IZR_le _ _ (wt_pos b)).
    assert (T1 : aev a * uev b * B ^ 2 <= IZR (tm a) * IZR (wt b) * (pa * pb)).
    { replace (IZR (tm a) * IZR (wt b) * (pa * pb)) with ((IZR (tm a) * pa) * (IZR (wt b) * pb)) by ring. rewrite Rmult_assoc. apply Rmult_le_compat; auto. nra. }
    assert (T2 : aev b * uev a * B ^ 2 <= IZR (tm b) * IZR (wt a) * (pa * pb)).
    { replace (IZR (tm b) * IZR (wt a) * (pa * pb)) with ((IZR (tm b) * pb) * (IZR (wt a) * pa)) by ring. rewrite Rmult_assoc. apply Rmult_le_compat; auto. nra. }
    assert (T3 : eta * uev a * uev b * B ^ 2 <= IZR (wt a) * IZR (wt b) * (pa * pb)).
    { apply Rle_trans with ((uev a * B ^ 2) * (uev b * B ^ 2)).
      - replace (eta * uev a * uev b * B ^ 2) with (eta * (uev a * uev b * B ^ 2)) by ring. replace (uev a * B ^ 2 * (uev b * B ^ 2)) with (B ^ 2 * (uev a * uev b * B ^ 2)) by ring.
        apply Rmult_le_compat_r; [|lra]. repeat apply Rmult_le_pos; auto; lra.
      - replace (IZR (wt a) * IZR (wt b) * (pa * pb)) with ((IZR (wt a) * pa) * (IZR (wt b) * pb)) by ring. apply Rmult_le_compat; auto; apply Rmult_le_pos; auto; lra. }
    lra.
  - auto.
Qed.
(** small trees *)
Lemma gam_small n : (n <= 64)%nat -> gam n <= 1 + (INR n + / 4) * u32.
Proof.
  intros H. assert (G : forall k, (k <= 64)%nat -> gam k <= 1 + INR k * u32 + INR k * INR k * (u32 * u32)).
  { induction k as [|k IH]; intros K; [unfold gam; cbn; lra|]. change (gam (Datatypes.S k)) with ((1 + u32) * gam k). specialize (IH ltac:(lia)). rewrite S_INR.
    pose proof (pos_INR k). assert (INR k <= 64). { replace 64 with (INR 64) by (cbn; lra). apply le_INR; lia. } pose proof u32_pos. assert (u32 <= / 16777216) by (rewrite u32_val; lra).
    apply Rle_trans with ((1 + u32) * (1 + INR k * u32 + INR k * INR k * (u32 * u32))); [nra|]. assert (0 <= INR k * INR k * (u32 * u32) * 1) by nra.
    assert (INR k * u32 <= / 4) by nra. assert (INR k * INR k * (u32 * u32) * u32 <= INR k * (u32 * u32) * 1) by (replace (INR k * INR k * (u32 * u32) * u32) with (INR k * (u32 * u32) * (INR k * u32)) by ring; apply Rmult_le_compat_l; nra). nra. }
  specialize (G n H). pose proof (pos_INR n). assert (INR n <= 64). { replace 64 with (INR 64) by (cbn; lra). apply le_INR; auto. } pose proof u32_pos. assert (u32 <= / 16777216) by (rewrite u32_val; lra).
  assert (INR n * INR n * (u32 * u32) <= / 4 * u32) by (assert (INR n * INR n <= 4096) by nra; nra). lra.
Qed.
Lemma gam_two n : (n <= 64)%nat -> gam n <= 2.
Proof. intros H. pose proof (gam_small n H). pose proof (pos_INR n). assert (INR n <= 64). { replace 64 with (INR 64) by (cbn; lra). apply le_INR; auto. } rewrite u32_val in * . lra. Qed.
Lemma eta_wt w : (w <= 2 ^ 100)%Z -> eta * IZR w <= / 4.
Proof. intros H. pose proof (IZR_le _ _ H). pose proof eta_pos. change (IZR (2 ^ 100)) with (bpow radix2 100) in * . assert (eta * bpow radix2 100 <= / 4) by (rewrite <- bpow_plus; change (-150 + 100)%Z with (-50)%Z; cbn; lra). nra. Qed.
Lemma ok_leaves B e : 1 <= B -> leaves (le_B B) e -> (dep e <= 64)%nat -> (wt e <= 2 ^ 100)%Z -> 4 * IZR (tm e) * B ^ dg e <= bpow radix2 127 -> ok e.
Proof.
  intros HB. assert (NODE : forall e, leaves (le_B B) e -> (dep e <= 64)%nat -> (wt e <= 2 ^ 100)%Z -> 4 * IZR (tm e) * B ^ dg e <= bpow radix2 127 ->
    gam (dep e) * (aev e + eta * uev e) <= bpow radix2 127).
  { intros t Lt D W H. pose proof (aev_bound B t HB Lt) as A. pose proof (uev_bound B t HB Lt) as U. pose proof (gam_two _ D) as G. pose proof (gam_pos (dep t)).
    pose proof (eta_wt _ W) as E. pose proof (aev_pos t). pose proof (uev_pos t). pose proof eta_pos. assert (1 <= B ^ 2) by (apply pow_R1_Rle; auto).
    assert (PB : 0 <= B ^ dg t) by (apply pow_le; lra). pose proof (IZR_le _ _ (tm_pos t)).
    assert (eta * uev t <= / 4 * B ^ dg t). { apply Rle_trans with (eta * (uev t * B ^ 2)). { apply Rmult_le_compat_l; [lra|]. nra. }
      apply Rle_trans with (eta * IZR (wt t) * B ^ dg t). { rewrite Rmult_assoc. apply Rmult_le_compat_l; lra. } apply Rmult_le_compat_r; lra. }
    assert (0 <= eta * uev t) by nra. assert (aev t + eta * uev t <= 2 * (IZR (tm t) * B ^ dg t)) by nra. nra. }
  induction e as [x|a IHa b IHb|a IHa b IHb|a IHa b IHb|a IHa]; intros Lt D W H.
  - apply Lt.
  - pose proof (NODE _ Lt D W H) as Q. destruct Lt as [La Lb]. cbn [dep wt tm dg] in * . pose proof (wt_pos a). pose proof (wt_pos b).
    pose proof (pow_mono B (dg a) (Nat.max (dg a) (dg b)) HB ltac:(lia)). pose proof (pow_mono B (dg b) (Nat.max (dg a) (dg b)) HB ltac:(lia)).
    rewrite plus_IZR in H. pose proof (IZR_le _ _ (tm_pos a)). pose proof (IZR_le _ _ (tm_pos b)).
    assert (X1 : IZR (tm a) * B ^ dg a <= (IZR (tm a) + IZR (tm b)) * B ^ Nat.max (dg a) (dg b)) by (apply Rmult_le_compat; try lra; apply pow_le; lra).
    assert (X2 : IZR (tm b) * B ^ dg b <= (IZR (tm a) + IZR (tm b)) * B ^ Nat.max (dg a) (dg b)) by (apply Rmult_le_compat; try lra; apply pow_le; lra).
    split; [apply IHa; auto; first [lia|lra]|split; [apply IHb; auto; first [lia|lra]|exact Q]].
  - pose proof (NODE _ Lt D W H) as Q. destruct Lt as [La Lb]. cbn [dep wt tm dg] in * . pose proof (wt_pos a). pose proof (wt_pos b).
    pose proof (pow_mono B (dg a) (Nat.max (dg a) (dg b)) HB ltac:(lia)). pose proof (pow_mono B (dg b) (Nat.max (dg a) (dg b)) HB ltac:(lia)).
    rewrite plus_IZR in H. pose proof (IZR_le _ _ (tm_pos a)). pose proof (IZR_le _ _ (tm_pos b)).
    assert (X1 : IZR (tm a) * B ^ dg a <= (IZR (tm a) + IZR (tm b)) * B ^ Nat.max (dg a) (dg b)) by (apply Rmult_le_compat; try lra; apply pow_le; lra).
    assert (X2 : IZR (tm b) * B ^ dg b <= (IZR (tm a) + IZR (tm b)) * B ^ Nat.max (dg a) (dg b)) by (apply Rmult_le_compat; try lra; apply pow_le; lra).
    split; [apply IHa; auto; first [lia|lra]|split; [apply IHb; auto; first [lia|lra]|exact Q]].
  - pose proof (NODE _ Lt D W H) as Q. destruct Lt as [La Lb]. cbn [dep wt tm dg] in * . pose proof (wt_pos a). pose proof (wt_pos b). pose proof (tm_pos a). pose proof (tm_pos b).
    assert (1 <= B ^ dg a) by (apply pow_R1_Rle; auto). assert (1 <= B ^ dg b) by (apply pow_R1_Rle; auto).
    rewrite mult_IZR, pow_add in H. pose proof (IZR_le _ _ (tm_pos a)). pose proof (IZR_le _ _ (tm_pos b)).
    assert (X1 : IZR (tm a) * B ^ dg a <= IZR (tm a) * IZR (tm b) * (B ^ dg a * B ^ dg b)).
    { replace (IZR (tm a) * IZR (tm b) * (B ^ dg a * B ^ dg b)) with ((IZR (tm a) * B ^ dg a) * (IZR (tm b) * B ^ dg b)) by ring. assert (1 <= IZR (tm b) * B ^ dg b) by nra. assert (0 <= IZR (tm a) * B ^ dg a) by nra. nra. }
    assert (X2 : IZR (tm b) * B ^ dg b <= IZR (tm a) * IZR (tm b) * (B ^ dg a * B ^ dg b)).
    { replace (IZR (tm a) * IZR (tm b) * (B ^ dg a * B ^ dg b)) with ((IZR (tm a) * B ^ dg a) * (IZR (tm b) * B ^ dg b)) by ring. assert (1 <= IZR (tm a) * B ^ dg a) by nra. assert (0 <= IZR (tm b) * B ^ dg b) by nra. nra. }
    split; [apply IHa; auto; first [lra|nia]|split; [apply IHb; auto; first [lra|nia]|exact Q]].
  - cbn [ok]. apply IHa; auto.
Qed.
(** the closed bound: [k + 1/4] units in the last place of the absolute sum, plus underflow *)
Lemma err_closed B fused x : let e := ds x in 1 <= B -> leaves (le_B B) e -> (dep e <= 64)%nat -> (wt e <= 2 ^ 100)%Z -> 4 * IZR (tm e) * B ^ dg e <= bpow radix2 127 ->
  fin (xev fused x) /\ Rabs (B2R (xev fused x) - rev e) <= (INR (dep e) + / 4) * u32 * aev e + 2 * eta * IZR (wt e) * B ^ (dg e - 2).
Proof.
  intros e HB Lt D W H. pose proof (ok_leaves B e HB Lt D W H) as O. apply (err_ap fused), ap_fin in O as [F Q]. split; auto. eapply Rle_trans; [exact Q|]. unfold bound.
  pose proof (gam_small _ D). pose proof (gam_two _ D). pose proof (gam_pos (dep e)). pose proof (aev_pos e). pose proof (uev_pos e). pose proof eta_pos. pose proof (uev_bound B e HB Lt) as U.
  assert (B2 : 0 < B ^ 2) by (apply pow_lt; lra).
  assert (UB : uev e <= IZR (wt e) * B ^ (dg e - 2)).
  { destruct (le_lt_dec 2 (dg e)) as [G|G].
    - apply Rmult_le_reg_r with (B ^ 2); auto. rewrite Rmult_assoc, <- pow_add. replace (dg e - 2 + 2)%nat with (dg e) by lia. exact U.
    - assert (Z : forall e, (dg e < 2)%nat -> uev e = 0). { clear. induction e as [x|a IHa b IHb|a IHa b IHb|a IHa b IHb|a IHa]; cbn [dg uev]; intros G; auto.
        - rewrite IHa, IHb by lia; lra. - rewrite IHa, IHb by lia; lra. - pose proof (dg_pos a). pose proof (dg_pos b). lia. }
      rewrite (Z e G). pose proof (IZR_le _ _ (wt_pos e)). apply Rmult_le_pos; [lra|apply pow_le; lra]. }
  assert (eta * uev e <= eta * (IZR (wt e) * B ^ (dg e - 2))) by (apply Rmult_le_compat_l; lra).
  assert (0 <= eta * uev e) by nra.
  assert ((gam (dep e) - 1) * aev e <= (INR (dep e) + / 4) * u32 * aev e) by (apply Rmult_le_compat_r; lra).
  assert (gam (dep e) * (eta * uev e) <= 2 * (eta * uev e)) by (apply Rmult_le_compat_r; lra). fold e. lra.
Qed.
