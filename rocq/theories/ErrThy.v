(** * ErrThy: the standard model of rounding errors for binary32.

    [u] = 2^-24 is the unit roundoff and [eta] = 2^-150 half the smallest subnormal. *)
From Coq Require Import ZArith Reals Bool List Lra Lia Psatz.
From Flocq Require Import Core BinarySingleNaN Relative Plus_error.
From Verif Require Import Num Simd OrdThy FloatThy B32Setup FloatLem.
Local Open Scope R_scope.

Notation rnd32 := (round radix2 (SpecFloat.fexp 24 128) (round_mode mode_NE)).
Notation u32 := (bpow radix2 (-24)).
Notation eta := (bpow radix2 (-150)).

Lemma u32_val : u32 = / 16777216. Proof. reflexivity. Qed.
Lemma eta_pos : 0 < eta. Proof. apply bpow_gt_0. Qed.
Lemma fexp32 : forall e, SpecFloat.fexp 24 128 e = FLT_exp (-149) 24 e.
Proof. intros e. unfold SpecFloat.fexp, FLT_exp, SpecFloat.emin. f_equal. Qed.
Lemma rnd32_FLT r : rnd32 r = round radix2 (FLT_exp (-149) 24) ZnearestE r.
Proof. unfold round, scaled_mantissa, cexp. now rewrite !fexp32. Qed.

(** one rounding *)
Lemma rnd_err r : Rabs (rnd32 r - r) <= u32 * Rabs r + eta.
Proof.
  rewrite rnd32_FLT. destruct (error_N_FLT radix2 (-149) 24 ltac:(lia) (fun x => negb (Z.even x)) r) as (d & e & Hd & He & _ & H).
  rewrite H. replace (r * (1 + d) + e - r) with (d * r + e) by ring.
  replace (/ 2 * bpow radix2 (- (24) + 1)) with u32 in Hd by (simpl; lra).
  replace (/ 2 * bpow radix2 (-149)) with eta in He by (change (-149)%Z with (1 + -150)%Z; rewrite bpow_plus; simpl (bpow radix2 1); lra).
  eapply Rle_trans; [apply Rabs_triang|]. rewrite Rabs_mult. pose proof (Rabs_pos r). nra.
Qed.
(** sums of floats have no underflow error *)
Lemma rnd_err_add (x y : R) : generic_format radix2 (SpecFloat.fexp 24 128) x -> generic_format radix2 (SpecFloat.fexp 24 128) y ->
  Rabs (rnd32 (x + y) - (x + y)) <= u32 * Rabs (x + y).
Proof.
  intros X Y. rewrite rnd32_FLT.
  assert (G : forall z, generic_format radix2 (SpecFloat.fexp 24 128) z -> generic_format radix2 (FLT_exp (-149) 24) z).
  { intros z. unfold generic_format, scaled_mantissa, cexp. now rewrite fexp32. }
  destruct (FLT_plus_error_N_ex radix2 (-149) 24 (fun x => negb (Z.even x)) x y (G _ X) (G _ Y)) as (d & Hd & H).
  rewrite H. replace ((x + y) * (1 + d) - (x + y)) with (d * (x + y)) by ring.
  rewrite Rabs_mult. apply Rmult_le_compat_r; [apply Rabs_pos|].
  eapply Rle_trans; [exact Hd|]. unfold u_ro. simpl. lra.
Qed.
(** no underflow error away from the subnormal range either *)
Lemma rnd_err_rel r : bpow radix2 (-126) <= Rabs r -> Rabs (rnd32 r - r) <= u32 * Rabs r.
Proof.
  intros H. rewrite rnd32_FLT.
  pose proof (relative_error_N_FLT radix2 (-149) 24 ltac:(lia) (fun x => negb (Z.even x)) r) as Q.
  simpl (-149 + 24 - 1)%Z in Q. specialize (Q H).
  replace (/ 2 * bpow radix2 (- (24) + 1)) with u32 in Q by (simpl; lra). exact Q.
Qed.
Lemma fmt (x : b32) : generic_format radix2 (SpecFloat.fexp 24 128) (B2R x).
Proof. apply generic_format_B2R. Qed.

(** no overflow below 2^127 *)
Lemma rnd_small r : Rabs r <= bpow radix2 127 -> Rabs (rnd32 r) <= bpow radix2 127.
Proof.
  intros H. rewrite rnd32_FLT. apply abs_round_le_generic; auto; try apply FLT_exp_valid; try apply valid_rnd_N; [reflexivity|].
  apply generic_format_bpow. cbv. discriminate.
Qed.
Lemma xrnd_ok r : Rabs r <= bpow radix2 127 -> xrnd (prec:=24) (emax:=128) (Fin r) = Fin (rnd32 r).
Proof.
  intros H. simpl. unfold xround. rewrite Rlt_bool_true; auto.
  eapply Rle_lt_trans; [apply rnd_small, H|]. apply bpow_lt; lia.
Qed.

(** [ap x r e]: the float x is finite and within e of the real r *)
Definition ap (x : b32) (r e : R) : Prop := exists s, B2X x = Fin s /\ Rabs (s - r) <= e.
Lemma ap_fin x r e : ap x r e -> fin x /\ Rabs (B2R x - r) <= e.
Proof. intros (s & H & L). apply fin_of_X in H as [H <-]. auto. Qed.
Lemma ap_refl x : fin x -> ap x (B2R x) 0.
Proof. intros H. exists (B2R x). split; [now apply fin_X|]. replace (B2R x - B2R x) with 0 by ring. rewrite Rabs_R0. lra. Qed.
Lemma ap_weak x r e e' : ap x r e -> e <= e' -> ap x r e'.
Proof. intros (s & H & L) E. exists s. split; auto. lra. Qed.
Lemma ap_val x s r e : B2X x = Fin s -> Rabs (s - r) <= e -> ap x r e.
Proof. intros; exists s; auto. Qed.
Lemma ap_add x y a b ea eb M : ap x a ea -> ap y b eb -> Rabs (a + b) + ea + eb <= M -> M <= bpow radix2 127 ->
  ap (fadd x y) (a + b) (ea + eb + u32 * M).
Proof.
  intros (s & X & Ls) (t & Y & Lt) HM HB. apply fin_of_X in X as [FX <-], Y as [FY <-].
  assert (T : Rabs (B2R x + B2R y - (a + b)) <= ea + eb).
  { replace (B2R x + B2R y - (a + b)) with ((B2R x - a) + (B2R y - b)) by ring. eapply Rle_trans; [apply Rabs_triang|]. lra. }
  assert (S : Rabs (B2R x + B2R y) <= M).
  { replace (B2R x + B2R y) with ((B2R x + B2R y - (a + b)) + (a + b)) by ring. eapply Rle_trans; [apply Rabs_triang|]. lra. }
  exists (rnd32 (B2R x + B2R y)). split.
  - rewrite fadd_X, (fin_X x), (fin_X y) by auto. apply xrnd_ok. lra.
  - pose proof (rnd_err_add _ _ (fmt x) (fmt y)) as E.
    replace (rnd32 (B2R x + B2R y) - (a + b)) with ((rnd32 (B2R x + B2R y) - (B2R x + B2R y)) + (B2R x + B2R y - (a + b))) by ring.
    eapply Rle_trans; [apply Rabs_triang|]. assert (u32 * Rabs (B2R x + B2R y) <= u32 * M) by (apply Rmult_le_compat_l; [apply bpow_ge_0|auto]). lra.
Qed.
Lemma ap_neg x a ea : ap x a ea -> ap (fneg x) (- a) ea.
Proof. intros (s & X & L). exists (- s). split; [now rewrite fneg_X, X|]. replace (- s - - a) with (- (s - a)) by ring. now rewrite Rabs_Ropp. Qed.
Lemma ap_abs x a ea : ap x a ea -> ap (fabs x) (Rabs a) ea.
Proof. intros (s & X & L). exists (Rabs s). split; [now rewrite fabs_X, X|]. eapply Rle_trans; [apply Rabs_triang_inv2|auto]. Qed.
Lemma fsub_add_neg (x y : b32) : B2X (fsub x y) = B2X (fadd x (fneg y)).
Proof. rewrite fsub_X, fadd_X, fneg_X. f_equal. destruct (B2X x), (B2X y); simpl; auto; try (f_equal; ring). Qed.
Lemma ap_sub x y a b ea eb M : ap x a ea -> ap y b eb -> Rabs (a - b) + ea + eb <= M -> M <= bpow radix2 127 ->
  ap (fsub x y) (a - b) (ea + eb + u32 * M).
Proof.
  intros X Y HM HB. destruct (ap_add x (fneg y) a (- b) ea eb M X (ap_neg _ _ _ Y) HM HB) as (s & S & L).
  exists s. split; [now rewrite fsub_add_neg|exact L].
Qed.
Lemma ap_mul x y a b ea eb M : ap x a ea -> ap y b eb ->
  Rabs a * Rabs b + Rabs a * eb + Rabs b * ea + ea * eb <= M -> M <= bpow radix2 127 ->
  ap (fmul x y) (a * b) (Rabs a * eb + Rabs b * ea + ea * eb + u32 * M + eta).
Proof.
  intros (s & X & Ls) (t & Y & Lt) HM HB.
  assert (T : Rabs (s * t - a * b) <= Rabs a * eb + Rabs b * ea + ea * eb).
  { replace (s * t - a * b) with (a * (t - b) + (b * (s - a) + (s - a) * (t - b))) by ring.
    eapply Rle_trans; [apply Rabs_triang|]. eapply Rle_trans; [apply Rplus_le_compat_l, Rabs_triang|]. rewrite !Rabs_mult.
    assert (Rabs (s - a) * Rabs (t - b) <= ea * eb) by (apply Rmult_le_compat; auto using Rabs_pos).
    assert (Rabs a * Rabs (t - b) <= Rabs a * eb) by (apply Rmult_le_compat_l; auto using Rabs_pos).
    assert (Rabs b * Rabs (s - a) <= Rabs b * ea) by (apply Rmult_le_compat_l; auto using Rabs_pos). lra. }
  assert (S : Rabs (s * t) <= M).
  { replace (s * t) with ((s * t - a * b) + a * b) by ring. eapply Rle_trans; [apply Rabs_triang|]. rewrite (Rabs_mult a b). lra. }
  exists (rnd32 (s * t)). split.
  - rewrite fmul_X, X, Y. apply xrnd_ok. lra.
  - pose proof (rnd_err (s * t)) as E.
    replace (rnd32 (s * t) - a * b) with ((rnd32 (s * t) - s * t) + (s * t - a * b)) by ring.
    eapply Rle_trans; [apply Rabs_triang|]. assert (u32 * Rabs (s * t) <= u32 * M) by (apply Rmult_le_compat_l; [apply bpow_ge_0|auto]). lra.
Qed.
(** products and sums of the float operands themselves *)
Lemma ap_mul0 (x y : b32) : fin x -> fin y -> Rabs (B2R x * B2R y) <= bpow radix2 127 ->
  ap (fmul x y) (B2R x * B2R y) (u32 * Rabs (B2R x * B2R y) + eta).
Proof.
  intros X Y H. exists (rnd32 (B2R x * B2R y)). split; [|apply rnd_err].
  rewrite fmul_X, (fin_X x), (fin_X y) by auto. now apply xrnd_ok.
Qed.
