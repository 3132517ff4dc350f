(** * FloatThy: binary floating point as rounded extended-real arithmetic.

    [B2X] turns every IEEE operation on every operand (NaN, infinities and signed
    zeros included) into the exact extended-real operation followed by one rounding
    [xrnd], which is monotone.  Statements about floats are proved through it. *)

From Coq Require Import ZArith Reals Bool List Lra Lia Psatz.
From Flocq Require Import Core BinarySingleNaN.
From Verif Require Import Num Simd OrdThy.

Section B.
Context {prec emax : Z} {Hp : Prec_gt_0 prec} {He : Prec_lt_emax prec emax}.
Notation B := (binary_float prec emax).
Notation fexp := (SpecFloat.fexp prec emax).
Notation rnd := (round radix2 fexp (round_mode mode_NE)).

#[local] Instance vexp : Valid_exp fexp := @fexp_correct prec emax Hp.

Definition xround (r : R) : xreal :=
  if Rlt_bool (Rabs (rnd r)) (bpow radix2 emax) then Fin (rnd r)
  else if Rlt_dec r 0 then NInf else PInf.
Definition xrnd (a : xreal) : xreal := match a with Fin r => xround r | _ => a end.

Lemma rnd_mono x y : (x <= y -> rnd x <= rnd y)%R.
Proof. apply round_le; auto with typeclass_instances. Qed.
Lemma rnd_0 : rnd 0 = 0%R.
Proof. apply round_0. auto with typeclass_instances. Qed.
Lemma rnd_pos x : (0 <= x -> 0 <= rnd x)%R.
Proof. intros. rewrite <- rnd_0. now apply rnd_mono. Qed.
Lemma rnd_neg x : (x <= 0 -> rnd x <= 0)%R.
Proof. intros. rewrite <- rnd_0. now apply rnd_mono. Qed.
Lemma rnd_id (x : B) : rnd (B2R x) = B2R x.
Proof. apply round_generic; auto with typeclass_instances. apply generic_format_B2R. Qed.

Lemma xround_mono x y : (x <= y)%R -> xle (xround x) (xround y) = true.
Proof.
  intros H. unfold xround. pose proof (rnd_mono _ _ H) as H'.
  destruct (Rlt_bool_spec (Rabs (rnd x)) (bpow radix2 emax)) as [Bx|Bx],
           (Rlt_bool_spec (Rabs (rnd y)) (bpow radix2 emax)) as [By|By].
  - now apply xle_fin.
  - destruct (Rlt_dec y 0); [|easy]. exfalso.
    pose proof (rnd_neg y ltac:(lra)). rewrite Rabs_left1 in By by easy.
    apply (Rabs_lt_inv _ _) in Bx. lra.
  - destruct (Rlt_dec x 0); [easy|]. exfalso.
    pose proof (rnd_pos x ltac:(lra)). rewrite Rabs_pos_eq in Bx by easy.
    apply (Rabs_lt_inv _ _) in By. lra.
  - destruct (Rlt_dec x 0), (Rlt_dec y 0); try easy. exfalso; lra.
Qed.
Lemma xrnd_mono a b : xle a b = true -> xle (xrnd a) (xrnd b) = true.
Proof.
  destruct a, b; try easy.
  - intros H. apply xround_mono. now apply xle_fin.
  - intros _. unfold xrnd, xround. destruct (Rlt_bool _ _); try destruct (Rlt_dec r 0); easy.
  - intros _. unfold xrnd, xround. destruct (Rlt_bool _ _); try destruct (Rlt_dec r 0); easy.
Qed.
Lemma xrnd_nan a : fisnan (xrnd a) = fisnan a.
Proof. destruct a; try easy. unfold xrnd, xround. destruct (Rlt_bool _ _); try destruct (Rlt_dec r 0); easy. Qed.
Lemma xrnd_B2X (x : B) : xrnd (B2X x) = B2X x.
Proof.
  destruct (is_finite x) eqn:E.
  - rewrite (B2X_finite x E). simpl. unfold xround. rewrite rnd_id, Rlt_bool_true; auto. apply abs_B2R_lt_emax.
  - destruct x as [|[]| |]; easy.
Qed.

Lemma overflow_X (z : B) s : B2SF z = binary_overflow prec emax mode_NE s -> B2X z = if s then NInf else PInf.
Proof. unfold binary_overflow; simpl. destruct z as [|[]| |]; simpl; intros H; inversion H; subst; easy. Qed.
Lemma Bsign_le (x : B) : is_finite x = true -> if Bsign x then (B2R x <= 0)%R else (0 <= B2R x)%R.
Proof.
  destruct x as [s|s| |s m e H]; try easy; simpl; intros _.
  - destruct s; lra.
  - destruct s; simpl; [apply F2R_le_0|apply F2R_ge_0]; easy.
Qed.

Lemma big_nz r : (bpow radix2 emax <= Rabs (rnd r))%R -> r <> 0%R.
Proof. intros H E. subst. rewrite rnd_0, Rabs_R0 in H. pose proof (bpow_gt_0 radix2 emax). lra. Qed.

Lemma Bplus_X (x y : B) : B2X (Bplus mode_NE x y) = xrnd (xadd (B2X x) (B2X y)).
Proof.
  destruct (is_finite x) eqn:Fx, (is_finite y) eqn:Fy.
  - rewrite (B2X_finite x Fx), (B2X_finite y Fy). simpl. unfold xround.
    pose proof (Bplus_correct prec emax Hp He mode_NE x y Fx Fy) as C.
    destruct (Rlt_bool_spec (Rabs (rnd (B2R x + B2R y))) (bpow radix2 emax)) as [L|L].
    + destruct C as (C1 & C2 & _). now rewrite (B2X_finite _ C2), C1.
    + destruct C as (C1 & C2). rewrite (overflow_X _ _ C1).
      pose proof (Bsign_le x Fx). pose proof (Bsign_le y Fy). rewrite <- C2 in H0.
      pose proof (big_nz _ L).
      destruct (Bsign x), (Rlt_dec (B2R x + B2R y) 0); try easy; exfalso; lra.
  - rewrite (B2X_finite x Fx). destruct y as [|[]| |]; try easy; destruct x as [|[]| |]; try easy.
  - rewrite (B2X_finite y Fy). destruct x as [|[]| |]; try easy; destruct y as [|[]| |]; try easy.
  - destruct x as [|[]| |], y as [|[]| |]; try easy.
Qed.
Lemma Bopp_X (x : B) : B2X (Bopp x) = xneg (B2X x).
Proof. destruct x as [[]|[]| |s m e H]; try easy; simpl; rewrite ?Ropp_0; try easy.
  replace (F2R _) with (- F2R (Float radix2 (cond_Zopp s (Z.pos m)) e))%R; auto.
  rewrite <- F2R_Zopp. f_equal. destruct s; easy. Qed.
Lemma Babs_X (x : B) : B2X (Babs x) = xabs (B2X x).
Proof. destruct x as [[]|[]| |s m e H]; try easy; simpl; rewrite ?Rabs_R0; try easy.
  f_equal. change (SpecFloat.S754_finite) with SpecFloat.S754_finite.
  rewrite <- F2R_Zabs. f_equal. destruct s; easy. Qed.
Lemma Bminus_X (x y : B) : B2X (Bminus mode_NE x y) = xrnd (xsub (B2X x) (B2X y)).
Proof.
  destruct (is_finite x) eqn:Fx, (is_finite y) eqn:Fy.
  - rewrite (B2X_finite x Fx), (B2X_finite y Fy). simpl. unfold xround.
    pose proof (Bminus_correct prec emax Hp He mode_NE x y Fx Fy) as C.
    destruct (Rlt_bool_spec (Rabs (rnd (B2R x - B2R y))) (bpow radix2 emax)) as [L|L].
    + destruct C as (C1 & C2 & _). now rewrite (B2X_finite _ C2), C1.
    + destruct C as (C1 & C2). rewrite (overflow_X _ _ C1).
      pose proof (Bsign_le x Fx). pose proof (Bsign_le y Fy). pose proof (big_nz _ L).
      destruct (Bsign x), (Bsign y); try discriminate; destruct (Rlt_dec (B2R x - B2R y) 0); try easy; exfalso; lra.
  - rewrite (B2X_finite x Fx). destruct y as [|[]| |]; try easy; destruct x as [|[]| |]; try easy.
  - rewrite (B2X_finite y Fy). destruct x as [|[]| |]; try easy; destruct y as [|[]| |]; try easy.
  - destruct x as [|[]| |], y as [|[]| |]; try easy.
Qed.
Lemma B2R_nz s m e H : B2R (B754_finite s m e H : B) <> 0%R.
Proof. simpl. destruct s; [apply Rlt_not_eq, F2R_lt_0|apply Rgt_not_eq, F2R_gt_0]; easy. Qed.
Lemma Bmult_X (x y : B) : B2X (Bmult mode_NE x y) = xrnd (xmul (B2X x) (B2X y)).
Proof.
  destruct (is_finite x) eqn:Fx, (is_finite y) eqn:Fy.
  - rewrite (B2X_finite x Fx), (B2X_finite y Fy). simpl. unfold xround.
    pose proof (Bmult_correct prec emax Hp He mode_NE x y) as C.
    destruct (Rlt_bool_spec (Rabs (rnd (B2R x * B2R y))) (bpow radix2 emax)) as [L|L].
    + destruct C as (C1 & C2 & _). rewrite Fx, Fy in C2. now rewrite (B2X_finite _ C2), C1.
    + rewrite (overflow_X _ _ C).
      pose proof (Bsign_le x Fx). pose proof (Bsign_le y Fy). pose proof (big_nz _ L).
      destruct (Bsign x), (Bsign y); simpl; destruct (Rlt_dec (B2R x * B2R y) 0); try easy; exfalso; try nra.
  - destruct y as [|[]| |]; try easy; destruct x as [|[]| |[] m e H]; try easy; simpl;
      unfold xsgn_inf; bdes; try easy; try lra;
      try (assert (0 < F2R (Float radix2 (Z.pos m) e))%R by (apply F2R_gt_0; easy); exfalso; lra);
      try (assert (F2R (Float radix2 (Z.neg m) e) < 0)%R by (apply F2R_lt_0; easy); exfalso; lra).
  - destruct x as [|[]| |]; try easy; destruct y as [|[]| |[] m e H]; try easy; simpl;
      unfold xsgn_inf; bdes; try easy; try lra;
      try (assert (0 < F2R (Float radix2 (Z.pos m) e))%R by (apply F2R_gt_0; easy); exfalso; lra);
      try (assert (F2R (Float radix2 (Z.neg m) e) < 0)%R by (apply F2R_lt_0; easy); exfalso; lra).
  - destruct x as [|[]| |], y as [|[]| |]; try easy.
Qed.
Lemma Bdiv_X (x y : B) : B2X y <> Fin 0 -> B2X (Bdiv mode_NE x y) = xrnd (xdiv (B2X x) (B2X y)).
Proof.
  intros Ny. destruct (is_finite x) eqn:Fx, (is_finite y) eqn:Fy.
  - rewrite (B2X_finite y Fy) in Ny. assert (N : B2R y <> 0%R) by congruence.
    rewrite (B2X_finite x Fx), (B2X_finite y Fy). simpl. destruct (Req_EM_T (B2R y) 0); [easy|]. simpl. unfold xround.
    pose proof (Bdiv_correct prec emax Hp He mode_NE x y N) as C.
    destruct (Rlt_bool_spec (Rabs (rnd (B2R x / B2R y))) (bpow radix2 emax)) as [L|L].
    + destruct C as (C1 & C2 & _). rewrite Fx in C2. now rewrite (B2X_finite _ C2), C1.
    + rewrite (overflow_X _ _ C).
      pose proof (Bsign_le x Fx). pose proof (Bsign_le y Fy). pose proof (big_nz _ L) as Z.
      assert (Q : (B2R x / B2R y * B2R y = B2R x)%R) by (field; auto).
      set (q := (B2R x / B2R y)%R) in * .
      destruct (Bsign x), (Bsign y); simpl; destruct (Rlt_dec q 0); try easy; exfalso; nra.
  - destruct y as [|[]| |]; try easy; destruct x as [|[]| |[] m e H]; try easy; simpl;
     unfold xround; rewrite rnd_0, Rabs_R0, Rlt_bool_true; try easy; apply bpow_gt_0.
  - rewrite (B2X_finite y Fy) in Ny. destruct x as [|[]| |]; try easy; destruct y as [|[]| |[] m e H]; try easy; try (now elim Ny); simpl;
      unfold xsgn_inf; bdes; try easy; try lra;
      try (assert (0 < F2R (Float radix2 (Z.pos m) e))%R by (apply F2R_gt_0; easy); exfalso; lra);
      try (assert (F2R (Float radix2 (Z.neg m) e) < 0)%R by (apply F2R_lt_0; easy); exfalso; lra).
  - destruct x as [|[]| |], y as [|[]| |]; try easy.
Qed.
Lemma Bsqrt_X (x : B) : B2X (Bsqrt mode_NE x) = xrnd (xsqrt (B2X x)).
Proof.
  pose proof (Bsqrt_correct prec emax Hp He mode_NE x) as (C1 & C2 & _).
  pose proof (abs_B2R_lt_emax _ _ (Bsqrt mode_NE x)) as A.
  destruct x as [[]|[]| |[] m e H]; try easy.
  - simpl. destruct (Rlt_dec 0 0); [lra|]. simpl. rewrite sqrt_0. unfold xround. rewrite rnd_0, Rabs_R0, Rlt_bool_true; auto. apply bpow_gt_0.
  - simpl. destruct (Rlt_dec 0 0); [lra|]. simpl. rewrite sqrt_0. unfold xround. rewrite rnd_0, Rabs_R0, Rlt_bool_true; auto. apply bpow_gt_0.
  - simpl B2X at 2. simpl xsqrt. destruct (Rlt_dec _ 0) as [L|L].
    + simpl. easy.
    + elim L. apply F2R_lt_0. easy.
  - rewrite (B2X_finite _ C2), C1. simpl B2X. simpl xsqrt. destruct (Rlt_dec _ 0) as [L|L].
    + exfalso. assert (0 < F2R (Float radix2 (Z.pos m) e))%R by (apply F2R_gt_0; easy). lra.
    + simpl xrnd. unfold xround. rewrite Rlt_bool_true; auto. rewrite C1 in A. exact A.
Qed.
Lemma Bfloor_X (x : B) : B2X (Bnearbyint mode_DN x) = xfloor (B2X x).
Proof.
  pose proof (Bnearbyint_correct prec emax He mode_DN x) as (C1 & C2 & _).
  destruct (is_finite x) eqn:Fx.
  - rewrite (B2X_finite _ C2), (B2X_finite _ Fx), C1. simpl. f_equal.
    unfold round, scaled_mantissa, F2R. simpl. rewrite Rmult_1_r, Rmult_1_r. easy.
  - destruct x as [|[]| |]; easy.
Qed.
Lemma Bceil_X (x : B) : B2X (Bnearbyint mode_UP x) = xceil (B2X x).
Proof.
  pose proof (Bnearbyint_correct prec emax He mode_UP x) as (C1 & C2 & _).
  destruct (is_finite x) eqn:Fx.
  - rewrite (B2X_finite _ C2), (B2X_finite _ Fx), C1. simpl. f_equal.
    unfold round, scaled_mantissa, F2R. simpl. rewrite Rmult_1_r, Rmult_1_r. easy.
  - destruct x as [|[]| |]; easy.
Qed.
Lemma Bfma_X (x y z : B) : is_finite x = true -> is_finite y = true -> is_finite z = true ->
  B2X (Bfma mode_NE x y z) = xround (B2R x * B2R y + B2R z).
Proof.
  intros Fx Fy Fz. pose proof (Bfma_correct prec emax Hp He mode_NE x y z Fx Fy Fz) as C. cbv zeta in C.
  unfold xround. destruct (Rlt_bool_spec (Rabs (rnd (B2R x * B2R y + B2R z))) (bpow radix2 emax)) as [L|L].
  - destruct C as (C1 & C2 & _). now rewrite (B2X_finite _ C2), C1.
  - rewrite (overflow_X _ _ C). destruct (Rlt_bool_spec (B2R x * B2R y + B2R z) 0) as [K|K];
      destruct (Rlt_dec (B2R x * B2R y + B2R z) 0); try easy; lra.
Qed.

(** Equality of floats up to the sign of zero. *)
Definition Bsame (x y : B) : Prop := B2X x = B2X y.
End B.

(** Monotonicity of the exact operations on extended reals. *)
Lemma xadd_mono a a' b b' : xle a a' = true -> xle b b' = true ->
  fisnan (xadd a b) = false -> fisnan (xadd a' b') = false -> xle (xadd a b) (xadd a' b') = true.
Proof.
  destruct a, a', b, b'; try easy; rewrite ?xle_fin; intros; simpl xadd; try easy.
  apply xle_fin. lra.
Qed.
Lemma xmul_mono_pos c a a' : (0 <= c)%R -> xle a a' = true ->
  fisnan (xmul (Fin c) a) = false -> fisnan (xmul (Fin c) a') = false -> xle (xmul (Fin c) a) (xmul (Fin c) a') = true.
Proof.
  intros Hc. destruct a, a'; try easy; intros H N N'; simpl in N, N' |- *; unfold xsgn_inf in * ;
  [apply xle_fin in H; apply xle_fin; now apply Rmult_le_compat_l | bdes; try easy; lra ..].
Qed.
Lemma xmul_mono_neg c a a' : (c <= 0)%R -> xle a a' = true ->
  fisnan (xmul (Fin c) a) = false -> fisnan (xmul (Fin c) a') = false -> xle (xmul (Fin c) a') (xmul (Fin c) a) = true.
Proof.
  intros Hc. destruct a, a'; try easy; intros H N N'; simpl in N, N' |- *; unfold xsgn_inf in * ;
  [apply xle_fin in H; apply xle_fin; now apply Rmult_le_compat_neg_l | bdes; try easy; lra ..].
Qed.
Lemma xmul_comm a b : xmul a b = xmul b a.
Proof. destruct a, b; simpl; try easy. f_equal; ring. Qed.
Lemma xadd_comm a b : xadd a b = xadd b a.
Proof. destruct a, b; simpl; try easy. f_equal; ring. Qed.

(** The operations of the binary32 instance, as rewriting rules. *)
Lemma fadd_X (x y : b32) : B2X (fadd x y) = xrnd (prec:=24) (emax:=128) (xadd (B2X x) (B2X y)).
Proof. apply Bplus_X. Qed.
Lemma fsub_X (x y : b32) : B2X (fsub x y) = xrnd (prec:=24) (emax:=128) (xsub (B2X x) (B2X y)).
Proof. apply Bminus_X. Qed.
Lemma fmul_X (x y : b32) : B2X (fmul x y) = xrnd (prec:=24) (emax:=128) (xmul (B2X x) (B2X y)).
Proof. apply Bmult_X. Qed.
Lemma fneg_X (x : b32) : B2X (fneg x) = xneg (B2X x).
Proof. apply Bopp_X. Qed.
Lemma fabs_X (x : b32) : B2X (fabs x) = xabs (B2X x).
Proof. apply Babs_X. Qed.
Lemma fsqrt_X (x : b32) : B2X (fsqrt x) = xrnd (prec:=24) (emax:=128) (xsqrt (B2X x)).
Proof. apply Bsqrt_X. Qed.
Lemma fle_X (x y : b32) : fle x y = xle (B2X x) (B2X y).
Proof. apply Bleb_X. Qed.
Lemma flt_X (x y : b32) : flt x y = xlt (B2X x) (B2X y).
Proof. apply Bltb_X. Qed.
Lemma feqb_X (x y : b32) : feqb x y = xeqb (B2X x) (B2X y).
Proof. apply Beqb_X. Qed.
Lemma fisnan_X (x : b32) : fisnan x = fisnan (B2X x).
Proof. apply is_nan_X. Qed.

(** Finite floats. *)
Definition fin (x : b32) : Prop := is_finite x = true.
Lemma fin_X (x : b32) : fin x -> B2X x = Fin (B2R x).
Proof. apply B2X_finite. Qed.
Lemma fin_nn (x : b32) : fin x -> nonnan x.
Proof. destruct x; easy. Qed.

(** Literals. *)
Lemma lit_fmt (m e : Z) : (Z.abs m < 2 ^ 24)%Z -> (-149 <= e)%Z -> (e <= 104)%Z ->
  generic_format radix2 (SpecFloat.fexp 24 128) (F2R (Float radix2 m e)) /\
  (Rabs (F2R (Float radix2 m e)) < bpow radix2 128)%R.
Proof.
  intros Hm He He'. split.
  - apply (generic_format_FLT radix2 (-149) 24). exists (Float radix2 m e); auto.
  - rewrite <- F2R_Zabs. apply Rlt_le_trans with (bpow radix2 (24 + e)); [|apply bpow_le; lia].
    unfold F2R; simpl Fnum; simpl Fexp. rewrite bpow_plus. apply Rmult_lt_compat_r; [apply bpow_gt_0|].
    change (bpow radix2 24) with (IZR (2 ^ 24)). now apply IZR_lt.
Qed.
Lemma lit_exact (m e : Z) : (Z.abs m < 2 ^ 24)%Z -> (-149 <= e)%Z -> (e <= 104)%Z ->
  B2X (flit m e : b32) = Fin (F2R (Float radix2 m e)) /\ fin (flit m e).
Proof.
  intros Hm He He'. destruct (lit_fmt m e Hm He He') as [G1 G2].
  pose proof (binary_normalize_correct 24 128 prec32 emax32 mode_NE m e false) as H. cbv zeta in H.
  rewrite round_generic in H by auto with typeclass_instances.
  rewrite Rlt_bool_true in H by exact G2. destruct H as (H1 & H2 & _).
  assert (Hf : fin (flit m e)) by exact H2. split; [|exact Hf].
  rewrite (fin_X _ Hf). f_equal. exact H1.
Qed.
(** For closed literals with a plain real value. *)
Ltac lit_tac := lazymatch goal with |- B2X (flit ?m ?e) = _ =>
  rewrite (proj1 (lit_exact m e ltac:(reflexivity) ltac:(discriminate) ltac:(discriminate))); f_equal; unfold F2R; simpl; lra end.
Lemma fhalf_X : B2X (fhalf : b32) = Fin (/2).
Proof. unfold fhalf. lit_tac. Qed.
Lemma ftwo_X : B2X (ftwo : b32) = Fin 2.
Proof. unfold ftwo. lit_tac. Qed.
Lemma feps_X : B2X (feps : b32) = Fin (/ 8388608).
Proof. unfold feps. lit_tac. Qed.
Lemma fone_X : B2X (fone : b32) = Fin 1.
Proof.
  change (fone : b32) with (Bone : b32). rewrite B2X_finite by apply is_finite_Bone. f_equal. apply Bone_correct.
Qed.
Lemma fzero_X : B2X (fzero : b32) = Fin 0.
Proof. reflexivity. Qed.
Lemma fm1_X : B2X (fm1 : b32) = Fin (-1).
Proof. unfold fm1. rewrite fneg_X, fone_X. reflexivity. Qed.
Lemma fin_of_X (x : b32) r : B2X x = Fin r -> fin x /\ B2R x = r.
Proof. destruct x as [s|[|]| |s m e H]; simpl; intros E; inversion E; split; reflexivity. Qed.
