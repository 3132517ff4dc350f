(** * FloatLem: further facts about binary32 arithmetic used by the property files. *)

From Coq Require Import ZArith Reals Bool List Lra Lia Psatz.
From Flocq Require Import Core BinarySingleNaN.
From Verif Require Import Num Simd OrdThy FloatThy B32Setup.

Section B.
Context {prec emax : Z} {Hp : Prec_gt_0 prec} {He : Prec_lt_emax prec emax}.
Notation B := (binary_float prec emax).
Notation fexp := (SpecFloat.fexp prec emax).
Notation rnd := (round radix2 fexp (round_mode mode_NE)).
#[local] Instance vexp' : Valid_exp fexp := @fexp_correct prec emax Hp.

Lemma rnd_opp r : rnd (- r) = (- rnd r)%R.
Proof. apply round_NE_opp. Qed.
Lemma xround_opp r : xround (prec:=prec) (emax:=emax) (- r) = xneg (xround (prec:=prec) (emax:=emax) r).
Proof.
  unfold xround. rewrite rnd_opp, Rabs_Ropp. destruct (Rlt_bool_spec (Rabs (rnd r)) (bpow radix2 emax)) as [H|H]; [easy|].
  pose proof (big_nz r H). destruct (Rlt_dec (- r) 0), (Rlt_dec r 0); try easy; exfalso; lra.
Qed.
Lemma xrnd_neg a : xrnd (prec:=prec) (emax:=emax) (xneg a) = xneg (xrnd (prec:=prec) (emax:=emax) a).
Proof. destruct a; simpl; auto. apply xround_opp. Qed.
Lemma xrnd_fin_inv r s : xrnd (prec:=prec) (emax:=emax) (Fin r) = Fin s ->
  s = rnd r /\ (Rabs (rnd r) < bpow radix2 emax)%R.
Proof.
  unfold xrnd, xround. destruct (Rlt_bool_spec (Rabs (rnd r)) (bpow radix2 emax)) as [H|H].
  - intros E. injection E as E. auto.
  - destruct (Rlt_dec r 0); discriminate.
Qed.
Lemma xrnd_fmt r : generic_format radix2 fexp r -> (Rabs r < bpow radix2 emax)%R -> xrnd (prec:=prec) (emax:=emax) (Fin r) = Fin r.
Proof. intros G H. unfold xrnd, xround. rewrite round_generic; auto with typeclass_instances. now rewrite Rlt_bool_true. Qed.
Lemma xsub_swap a b : xsub b a = xneg (xsub a b).
Proof. destruct a, b; simpl; auto. f_equal; ring. Qed.
Lemma xmul_neg_neg a b : xmul (xneg a) (xneg b) = xmul a b.
Proof. destruct a, b; simpl; auto; unfold xsgn_inf; simpl; try (f_equal; ring);
  destruct (Rlt_dec 0 (- r)), (Rlt_dec (- r) 0), (Rlt_dec 0 r), (Rlt_dec r 0); auto; exfalso; lra. Qed.
Lemma xabs_neg a : xabs (xneg a) = xabs a.
Proof. destruct a; simpl; auto. now rewrite Rabs_Ropp. Qed.

(** equal values with equal signs are the same float *)
Lemma B_ext (x y : B) : B2X x = B2X y -> Bsign x = Bsign y -> x = y.
Proof.
  intros H S. destruct (is_finite x) eqn:Fx.
  - rewrite (B2X_finite x Fx) in H.
    assert (Fy : is_finite y = true) by (destruct y as [|[]| |]; easy).
    rewrite (B2X_finite y Fy) in H. inversion H. now apply B2R_Bsign_inj.
  - destruct x as [|sx| |]; try easy; destruct y as [|sy| |]; try easy;
      try (destruct sx); try (destruct sy); simpl in * ; easy.
Qed.
Lemma Bplus_comm_bits (x y : B) : Bplus mode_NE x y = Bplus mode_NE y x.
Proof.
  destruct (is_finite x) eqn:Fx, (is_finite y) eqn:Fy.
  - pose proof (Bplus_correct _ _ Hp He mode_NE x y Fx Fy) as H1.
    pose proof (Bplus_correct _ _ Hp He mode_NE y x Fy Fx) as H2.
    rewrite (Rplus_comm (B2R y) (B2R x)) in H2. destruct (Rlt_bool _ _).
    + destruct H1 as (A1 & A2 & A3), H2 as (C1 & C2 & C3). apply B2R_Bsign_inj; try congruence.
      rewrite A3, C3. destruct (Rcompare _ _); auto. simpl. now destruct (Bsign x), (Bsign y).
    + destruct H1 as [A1 A2], H2 as [C1 C2]. apply B2SF_inj. rewrite A1, C1. now rewrite A2.
  - destruct x as [| | |], y as [|[]| |]; try easy.
  - destruct x as [|[]| |], y as [| | |]; try easy.
  - destruct x as [|[]| |], y as [|[]| |]; easy.
Qed.
Lemma Bmult_comm_bits (x y : B) : Bmult mode_NE x y = Bmult mode_NE y x.
Proof.
  destruct (is_finite x) eqn:Fx, (is_finite y) eqn:Fy.
  - pose proof (Bmult_correct _ _ Hp He mode_NE x y) as H1.
    pose proof (Bmult_correct _ _ Hp He mode_NE y x) as H2.
    rewrite (Rmult_comm (B2R y) (B2R x)) in H2. destruct (Rlt_bool _ _).
    + destruct H1 as (A1 & A2 & A3), H2 as (C1 & C2 & C3).
      assert (F1 : is_finite (Bmult mode_NE x y) = true) by (rewrite A2, Fx, Fy; easy).
      assert (F2 : is_finite (Bmult mode_NE y x) = true) by (rewrite C2, Fx, Fy; easy).
      apply B2R_Bsign_inj; try congruence.
      assert (Nn : forall z : B, is_finite z = true -> is_nan z = false) by (intros []; easy).
      rewrite A3, C3 by (apply Nn; assumption). apply xorb_comm.
    + apply B2SF_inj. rewrite H1, H2. now rewrite xorb_comm.
  - destruct x as [| | |], y as [|[]| |]; try easy; simpl; now rewrite ?xorb_comm.
  - destruct x as [|[]| |], y as [| | |]; try easy; simpl; now rewrite ?xorb_comm.
  - destruct x as [|[]| |], y as [|[]| |]; easy.
Qed.
End B.

Lemma fadd_comm (x y : b32) : fadd x y = fadd y x.
Proof. apply Bplus_comm_bits. Qed.
Lemma fmul_comm (x y : b32) : fmul x y = fmul y x.
Proof. apply Bmult_comm_bits. Qed.
Lemma fsub_swap_X (x y : b32) : B2X (fsub y x) = xneg (B2X (fsub x y)).
Proof. rewrite !fsub_X, xsub_swap. apply xrnd_neg. Qed.
Lemma fabs_sub_sym_X (x y : b32) : B2X (fabs (fsub x y)) = B2X (fabs (fsub y x)).
Proof. rewrite !fabs_X, (fsub_swap_X x y). now rewrite xabs_neg. Qed.
Lemma sq_sub_sym_X (x y : b32) : B2X (fmul (fsub x y) (fsub x y)) = B2X (fmul (fsub y x) (fsub y x)).
Proof. rewrite !fmul_X, (fsub_swap_X x y). now rewrite xmul_neg_neg. Qed.

(** ** float <-> double *)
Lemma b32_in_b64 (x : b32) : generic_format radix2 (SpecFloat.fexp 53 1024) (B2R x).
Proof.
  apply generic_inclusion_mag with (fexp1 := SpecFloat.fexp 24 128).
  - intros _. unfold SpecFloat.fexp, SpecFloat.emin. lia.
  - apply generic_format_B2R.
Qed.
Lemma b32_lt (x : b32) : (Rabs (B2R x) < bpow radix2 1024)%R.
Proof. eapply Rlt_trans; [apply abs_B2R_lt_emax|]. apply bpow_lt. lia. Qed.
Lemma f2d_X (x : b32) : B2X (f2d x) = B2X x.
Proof.
  destruct x as [s|[]| |s m e H]; try easy.
  unfold f2d, b32_dops, bconv. set (x := B754_finite s m e H : b32).
  pose proof (binary_normalize_correct 53 1024 prec64 emax64 mode_NE (cond_Zopp s (Zpos m)) e s) as C. cbv zeta in C.
  change (F2R (Float radix2 (cond_Zopp s (Zpos m)) e)) with (B2R x) in C.
  rewrite round_generic in C by (auto using b32_in_b64 with typeclass_instances).
  rewrite Rlt_bool_true in C by apply b32_lt. destruct C as (C1 & C2 & _).
  rewrite B2X_finite by exact C2. rewrite C1. symmetry. apply (B2X_finite x). reflexivity.
Qed.
Lemma d2f_X (x : b64) : B2X (d2f x) = xrnd (prec:=24) (emax:=128) (B2X x).
Proof.
  destruct x as [s|[]| |s m e H]; try easy.
  - unfold d2f; simpl. unfold B2X. simpl. unfold xround. rewrite rnd_0, Rabs_R0, Rlt_bool_true; auto. apply bpow_gt_0.
  - unfold d2f, b32_dops, bconv. set (x := B754_finite s m e H : b64).
    pose proof (binary_normalize_correct 24 128 prec32 emax32 mode_NE (cond_Zopp s (Zpos m)) e s) as C. cbv zeta in C.
    change (F2R (Float radix2 (cond_Zopp s (Zpos m)) e)) with (B2R x) in C.
    rewrite (B2X_finite x) by reflexivity. unfold xrnd, xround.
    destruct (Rlt_bool _ _).
    + destruct C as (C1 & C2 & _). rewrite B2X_finite by exact C2. now rewrite C1.
    + rewrite (overflow_X _ _ C). unfold Rlt_bool. destruct (Rcompare_spec (B2R x) 0); destruct (Rlt_dec (B2R x) 0); try easy; lra.
Qed.
Lemma dadd_X (x y : b64) : B2X (fadd x y) = xrnd (prec:=53) (emax:=1024) (xadd (B2X x) (B2X y)).
Proof. apply Bplus_X. Qed.
Lemma dsub_X (x y : b64) : B2X (fsub x y) = xrnd (prec:=53) (emax:=1024) (xsub (B2X x) (B2X y)).
Proof. apply Bminus_X. Qed.
Lemma dmul_X (x y : b64) : B2X (fmul x y) = xrnd (prec:=53) (emax:=1024) (xmul (B2X x) (B2X y)).
Proof. apply Bmult_X. Qed.
Lemma xrnd64_b32 (x : b32) : xrnd (prec:=53) (emax:=1024) (B2X x) = B2X x.
Proof. rewrite <- f2d_X. apply xrnd_B2X. Qed.
