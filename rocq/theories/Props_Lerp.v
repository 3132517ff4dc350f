(** * Props_Lerp: interpolation of points, sizes and rectangles in double precision (C86). *)
From Coq Require Import ZArith Reals Bool List Lra Lia Psatz.
From Flocq Require Import Core BinarySingleNaN Relative Plus_error.
From Verif Require Import Num Simd Vec Rect OrdThy FloatThy B32Setup FloatLem ErrThy Props_Vec Props_Rect Props_Err.
Import ListNotations.
Local Open Scope R_scope.

Notation rnd64 := (round radix2 (SpecFloat.fexp 53 1024) (round_mode mode_NE)).
Notation u64 := (bpow radix2 (-53)).
Notation eta64 := (bpow radix2 (-1075)).
Lemma fexp64 : forall e, SpecFloat.fexp 53 1024 e = FLT_exp (-1074) 53 e.
Proof. intros e. unfold SpecFloat.fexp, FLT_exp, SpecFloat.emin. f_equal. Qed.
Lemma rnd64_FLT r : rnd64 r = round radix2 (FLT_exp (-1074) 53) ZnearestE r.
Proof. unfold round, scaled_mantissa, cexp. now rewrite !fexp64. Qed.
Lemma rnd_err64 r : Rabs (rnd64 r - r) <= u64 * Rabs r + eta64.
Proof.
  rewrite rnd64_FLT. destruct (error_N_FLT radix2 (-1074) 53 ltac:(lia) (fun x => negb (Z.even x)) r) as (d & e & Hd & He & _ & H).
  rewrite H. replace (r * (1 + d) + e - r) with (d * r + e) by ring.
  replace (/ 2 * bpow radix2 (- (53) + 1)) with u64 in Hd by (simpl; lra).
  replace (/ 2 * bpow radix2 (-1074)) with eta64 in He by (change (-1074)%Z with (1 + -1075)%Z; rewrite bpow_plus; change (bpow radix2 1) with 2; lra).
  eapply Rle_trans; [apply Rabs_triang|]. rewrite Rabs_mult. pose proof (Rabs_pos r). nra.
Qed.
#[local] Instance ve64 : Valid_exp (SpecFloat.fexp 53 1024) := fexp_correct 53 1024 prec64.
#[local] Instance ve32 : Valid_exp (SpecFloat.fexp 24 128) := fexp_correct 24 128 prec32.
Definition fmt64 (x : R) := generic_format radix2 (SpecFloat.fexp 53 1024) x.
Definition fmt32 (x : R) := generic_format radix2 (SpecFloat.fexp 24 128) x.
Lemma rnd_err_add64 (x y : R) : fmt64 x -> fmt64 y -> Rabs (rnd64 (x + y) - (x + y)) <= u64 * Rabs (x + y).
Proof.
  intros X Y. rewrite rnd64_FLT.
  assert (G : forall z, fmt64 z -> generic_format radix2 (FLT_exp (-1074) 53) z).
  { intros z. unfold fmt64, generic_format, scaled_mantissa, cexp. now rewrite fexp64. }
  destruct (FLT_plus_error_N_ex radix2 (-1074) 53 (fun x => negb (Z.even x)) x y (G _ X) (G _ Y)) as (d & Hd & H).
  rewrite H. replace ((x + y) * (1 + d) - (x + y)) with (d * (x + y)) by ring.
  rewrite Rabs_mult. apply Rmult_le_compat_r; [apply Rabs_pos|].
  eapply Rle_trans; [exact Hd|]. unfold u_ro. simpl. lra.
Qed.
Lemma fmt_rnd64 r : fmt64 (rnd64 r). Proof. apply generic_format_round; auto with typeclass_instances. Qed.
Lemma rnd64_small r k : (-1000 <= k <= 1023)%Z -> Rabs r <= bpow radix2 k -> Rabs (rnd64 r) <= bpow radix2 k.
Proof.
  intros K H. rewrite rnd64_FLT. apply abs_round_le_generic; auto; try apply FLT_exp_valid; try apply valid_rnd_N; [reflexivity|].
  apply generic_format_bpow. unfold FLT_exp. lia.
Qed.
Lemma xrnd64_ok r : Rabs r <= bpow radix2 1023 -> xrnd (prec:=53) (emax:=1024) (Fin r) = Fin (rnd64 r).
Proof.
  intros H. simpl. unfold xround. rewrite Rlt_bool_true; auto. eapply Rle_lt_trans; [apply (rnd64_small r 1023); [lia|exact H]|]. apply bpow_lt; lia.
Qed.
Lemma rnd64_mono x y : x <= y -> rnd64 x <= rnd64 y.
Proof. apply round_le; auto with typeclass_instances. Qed.
Lemma rnd64_id x : fmt64 x -> rnd64 x = x.
Proof. apply round_generic; auto with typeclass_instances. Qed.
Lemma fmt64_1 : fmt64 1.
Proof. change 1 with (bpow radix2 0). apply generic_format_bpow. cbv. discriminate. Qed.
Lemma fmt64_0 : fmt64 0. Proof. apply generic_format_0. Qed.

(** what graphene_flerpf computes before the final conversion *)
Definition lerp64 (a b t : R) : R := rnd64 (rnd64 (rnd64 (1 - t) * a) + rnd64 (t * b)).
Lemma lerp64_err a b t : fmt64 t -> Rabs (lerp64 a b t - ((1 - t) * a + t * b)) <= 4 * u64 * (Rabs ((1 - t) * a) + Rabs (t * b)) + 4 * eta64.
Proof.
  intros FT. unfold lerp64. set (s := rnd64 (1 - t)). set (p := rnd64 (s * a)). set (q := rnd64 (t * b)).
  assert (E1 : Rabs (s - (1 - t)) <= u64 * Rabs (1 - t)). { unfold s. apply (rnd_err_add64 1 (- t)); [apply fmt64_1|apply generic_format_opp; exact FT]. }
  pose proof (rnd_err64 (s * a)) as E2. fold p in E2. pose proof (rnd_err64 (t * b)) as E3. fold q in E3.
  pose proof (rnd_err_add64 p q (fmt_rnd64 _) (fmt_rnd64 _)) as E4. set (y := rnd64 (p + q)) in * .
  set (A := Rabs ((1 - t) * a)). set (B := Rabs (t * b)) in * . assert (PA : 0 <= A) by apply Rabs_pos. assert (PB : 0 <= B) by apply Rabs_pos.
  assert (S1 : Rabs (s * a - (1 - t) * a) <= u64 * A).
  { replace (s * a - (1 - t) * a) with ((s - (1 - t)) * a) by ring. unfold A. rewrite !Rabs_mult. rewrite <- Rmult_assoc. apply Rmult_le_compat_r; auto using Rabs_pos. }
  assert (S2 : Rabs (s * a) <= (1 + u64) * A). { replace (s * a) with ((s * a - (1 - t) * a) + (1 - t) * a) by ring. eapply Rle_trans; [apply Rabs_triang|]. fold A. lra. }
  assert (U : u64 = / 9007199254740992) by reflexivity. assert (N : 0 < eta64) by apply bpow_gt_0.
  assert (S3 : Rabs (p - (1 - t) * a) <= 2.5 * u64 * A + eta64).
  { replace (p - (1 - t) * a) with ((p - s * a) + (s * a - (1 - t) * a)) by ring. eapply Rle_trans; [apply Rabs_triang|]. rewrite U in * . lra. }
  assert (S4 : Rabs (p + q - ((1 - t) * a + t * b)) <= 2.5 * u64 * A + u64 * B + 2 * eta64).
  { replace (p + q - ((1 - t) * a + t * b)) with ((p - (1 - t) * a) + (q - t * b)) by ring. eapply Rle_trans; [apply Rabs_triang|]. lra. }
  assert (S5 : Rabs (p + q) <= (A + B) + (2.5 * u64 * A + u64 * B + 2 * eta64)).
  { replace (p + q) with ((p + q - ((1 - t) * a + t * b)) + ((1 - t) * a + t * b)) by ring. eapply Rle_trans; [apply Rabs_triang|]. pose proof (Rabs_triang ((1 - t) * a) (t * b)). fold A B in H. lra. }
  replace (y - ((1 - t) * a + t * b)) with ((y - (p + q)) + (p + q - ((1 - t) * a + t * b))) by ring. eapply Rle_trans; [apply Rabs_triang|].
  rewrite U in * . lra.
Qed.
Lemma lerp64_mono a b a' b' t : 0 <= t <= 1 -> a <= a' -> b <= b' -> lerp64 a b t <= lerp64 a' b' t.
Proof.
  intros T A B. unfold lerp64. assert (S : 0 <= rnd64 (1 - t)). { rewrite <- (rnd64_id 0 fmt64_0). apply rnd64_mono. lra. }
  apply rnd64_mono, Rplus_le_compat; apply rnd64_mono; apply Rmult_le_compat_l; lra.
Qed.
(** ** distinct binary32 numbers are not close *)
Lemma fmt32_FLT x : fmt32 x -> generic_format radix2 (FLT_exp (-149) 24) x.
Proof. unfold fmt32, generic_format, scaled_mantissa, cexp. now rewrite fexp32. Qed.
Lemma gap_pos p q : fmt32 p -> fmt32 q -> 0 < p -> p < q -> p * u32 < q - p.
Proof.
  intros P Q H L. apply fmt32_FLT in P, Q.
  assert (S : succ radix2 (FLT_exp (-149) 24) p <= q) by (apply succ_le_lt; auto; apply FLT_exp_valid; reflexivity).
  rewrite succ_eq_pos in S by lra. pose proof (ulp_FLT_gt radix2 (-149) 24 p) as G. rewrite Rabs_pos_eq in G by lra. change (-(24))%Z with (-24)%Z in G. lra.
Qed.
Lemma gap_near f g : fmt32 f -> fmt32 g -> f <> 0 -> Rabs (f - g) <= bpow radix2 (-40) * Rabs f -> g = f.
Proof.
  assert (K : forall f g, fmt32 f -> fmt32 g -> 0 < f -> Rabs (f - g) <= bpow radix2 (-40) * f -> g = f).
  { clear. intros f g F G P H. apply Rabs_le_inv in H. change (bpow radix2 (-40)) with (/ 1099511627776) in H.
    destruct (Rtotal_order f g) as [L|[E|L]]; auto; exfalso.
    - pose proof (gap_pos f g F G P L) as X. rewrite u32_val in X. lra.
    - pose proof (gap_pos g f G F ltac:(lra) L) as X. rewrite u32_val in X. lra. }
  intros F G N H. destruct (Rlt_dec 0 f) as [P|P]; [apply K; auto; rewrite (Rabs_pos_eq f) in H by lra; exact H|].
  assert (P' : f < 0) by (destruct (Rtotal_order f 0) as [L|[E|L]]; [exact L|contradiction|contradiction]).
  assert (E : - g = - f); [|lra]. apply K; [now apply generic_format_opp|now apply generic_format_opp|lra|].
  replace (- f - - g) with (- (f - g)) by ring. rewrite Rabs_Ropp. rewrite (Rabs_left f) in H by lra. exact H.
Qed.
Lemma fmt32_min f : fmt32 f -> f <> 0 -> bpow radix2 (-149) <= Rabs f.
Proof.
  intros F N. apply fmt32_FLT in F. destruct (Rle_dec (bpow radix2 (-149)) (Rabs f)); auto. exfalso.
  pose proof (generic_format_ge_bpow radix2 (FLT_exp (-149) 24) (-149)) as G. apply n. apply (G ltac:(intros; unfold FLT_exp; lia) (Rabs f)); [now apply Rabs_pos_lt|now apply generic_format_abs].
Qed.
(** a real within 2^-42 of a binary32 number rounds to it *)
Lemma rnd32_near f y : fmt32 f -> Rabs (y - f) <= bpow radix2 (-42) * Rabs f -> rnd32 y = f.
Proof.
  intros F H. destruct (Req_dec f 0) as [E|N].
  - subst. rewrite Rabs_R0, Rmult_0_r, Rminus_0_r in H. assert (y = 0) by (apply Rabs_le_inv in H; lra). subst. apply round_0. auto with typeclass_instances.
  - apply gap_near; auto; [apply generic_format_round; auto with typeclass_instances|].
    destruct (round_N_pt radix2 (SpecFloat.fexp 24 128) (fun x => negb (Z.even x)) y) as [_ B]. specialize (B f F). change (Znearest (fun x => negb (Z.even x))) with ZnearestE in B. change ZnearestE with (round_mode mode_NE) in B.
    rewrite (Rabs_minus_sym f y) in B.
    replace (f - rnd32 y) with (- (y - f) + - (rnd32 y - y)) by ring. eapply Rle_trans; [apply Rabs_triang|]. rewrite !Rabs_Ropp.
    assert (bpow radix2 (-40) = 4 * bpow radix2 (-42)) by (change (-40)%Z with (2 + -42)%Z; now rewrite bpow_plus). pose proof (Rabs_pos f). pose proof (bpow_gt_0 radix2 (-42)). nra.
Qed.
(** interpolating a number with itself gives the number *)
Lemma lerp_const m t : fmt32 m -> fmt64 t -> 0 <= t <= 1 -> rnd32 (lerp64 m m t) = m.
Proof.
  intros F FT T. apply rnd32_near; auto. destruct (Req_dec m 0) as [->|N].
  - unfold lerp64. rewrite !Rmult_0_r. assert (Z : rnd64 0 = 0) by apply rnd64_id, fmt64_0. rewrite Z, Rplus_0_r, Z, Rminus_0_r, Rabs_R0. lra.
  - pose proof (lerp64_err m m t FT) as E. replace ((1 - t) * m + t * m) with m in E by ring. eapply Rle_trans; [exact E|]. rewrite !Rabs_mult, (Rabs_pos_eq (1 - t)), (Rabs_pos_eq t) by lra.
    pose proof (fmt32_min m F N) as M. pose proof (Rabs_pos m).
    assert (E1 : 4 * eta64 <= u64 * bpow radix2 (-149)) by (change 4 with (bpow radix2 2); rewrite <- !bpow_plus; apply bpow_le; lia).
    change u64 with (/ 9007199254740992) in * . change (bpow radix2 (-42)) with (/ 4398046511104). lra.
Qed.

Lemma real64 (t : b64) T : B2X t = Fin T -> fmt64 T.
Proof.
  intros E. destruct (is_finite t) eqn:F.
  - rewrite (B2X_finite t F) in E. injection E as <-. apply (generic_format_B2R 53 1024 t).
  - destruct t as [s|[]| |s m e H]; discriminate.
Qed.
Lemma b32_bound (a : b32) : Rabs (real a) <= bpow radix2 128.
Proof. apply Rlt_le, (abs_B2R_lt_emax 24 128 a). Qed.
Lemma flerpf_X (a b : b32) (t : b64) T : fin a -> fin b -> B2X t = Fin T -> Rabs T <= bpow radix2 800 ->
  B2X (flerpf a b t) = xrnd (prec:=24) (emax:=128) (Fin (lerp64 (real a) (real b) T)).
Proof.
  intros Fa Fb Et HT. unfold flerpf. rewrite d2f_X, dadd_X, !dmul_X, dsub_X, d1_X, !f2d_X, Et, (fin_X a Fa), (fin_X b Fb).
  assert (L : forall i j, (i <= j)%Z -> bpow radix2 i <= bpow radix2 j) by (intros; now apply bpow_le).
  assert (D : forall i, 2 * bpow radix2 i = bpow radix2 (1 + i)) by (intros; now rewrite bpow_plus).
  assert (H1 : Rabs (1 - T) <= bpow radix2 801).
  { unfold Rminus. eapply Rle_trans; [apply Rabs_triang|]. rewrite Rabs_R1, Rabs_Ropp. pose proof (L 0%Z 800%Z ltac:(lia)) as X. change (bpow radix2 0) with 1 in X. pose proof (D 800%Z) as Y. change (1 + 800)%Z with 801%Z in Y. lra. }
  change (xsub (Fin 1) (Fin T)) with (Fin (1 - T)). rewrite xrnd64_ok by (eapply Rle_trans; [exact H1|apply L; lia]).
  assert (H2 : Rabs (rnd64 (1 - T)) <= bpow radix2 801) by (apply rnd64_small; [lia|exact H1]). set (s := rnd64 (1 - T)) in * .
  assert (H3 : Rabs (s * real a) <= bpow radix2 929). { rewrite Rabs_mult. change 929%Z with (801 + 128)%Z. rewrite bpow_plus. apply Rmult_le_compat; auto using Rabs_pos, b32_bound. }
  assert (H4 : Rabs (T * real b) <= bpow radix2 929). { rewrite Rabs_mult. change 929%Z with (801 + 128)%Z. rewrite bpow_plus. apply Rmult_le_compat; auto using Rabs_pos, b32_bound. eapply Rle_trans; [exact HT|apply L; lia]. }
  assert (M : forall x y, xmul (Fin x) (Fin y) = Fin (x * y)) by reflexivity. rewrite !M.
  rewrite !xrnd64_ok by (eapply Rle_trans; [eassumption|apply L; lia]).
  apply (rnd64_small _ 929 ltac:(lia)) in H3. apply (rnd64_small _ 929 ltac:(lia)) in H4.
  assert (A : forall x y, xadd (Fin x) (Fin y) = Fin (x + y)) by reflexivity. rewrite A, xrnd64_ok; [reflexivity|].
  eapply Rle_trans; [apply Rabs_triang|]. pose proof (D 929%Z) as Y. pose proof (L (1 + 929)%Z 1023%Z ltac:(lia)). lra.
Qed.
(** ** between, in binary32 *)
(** [r] is a finite number between [a] and [b], in either order *)
Definition btwf (a b r : b32) : Prop := fin r /\ Rmin (real a) (real b) <= real r <= Rmax (real a) (real b).
Lemma flerpf_between (a b : b32) (t : b64) T : fin a -> fin b -> B2X t = Fin T -> 0 <= T <= 1 -> btwf a b (flerpf a b t).
Proof.
  intros Fa Fb Et HT.
  assert (B : 1 <= bpow radix2 800) by (change 1 with (bpow radix2 0); apply bpow_le; lia).
  pose proof (flerpf_X a b t T Fa Fb Et ltac:(rewrite Rabs_pos_eq; lra)) as E.
  pose proof (real64 t T Et) as FT. set (lo := Rmin (real a) (real b)). set (hi := Rmax (real a) (real b)).
  assert (GA : fmt32 (real a)) by apply (generic_format_B2R 24 128). assert (GB : fmt32 (real b)) by apply (generic_format_B2R 24 128).
  assert (GL : fmt32 lo) by (unfold lo, Rmin; destruct Rle_dec; assumption). assert (GH : fmt32 hi) by (unfold hi, Rmax; destruct Rle_dec; assumption).
  assert (L1 : lo <= rnd32 (lerp64 (real a) (real b) T)).
  { rewrite <- (lerp_const lo T GL FT HT) at 1. apply round_le; auto with typeclass_instances. apply lerp64_mono; auto; [apply Rmin_l|apply Rmin_r]. }
  assert (L2 : rnd32 (lerp64 (real a) (real b) T) <= hi).
  { rewrite <- (lerp_const hi T GH FT HT). apply round_le; auto with typeclass_instances. apply lerp64_mono; auto; [apply Rmax_l|apply Rmax_r]. }
  assert (BD : Rabs lo < bpow radix2 128 /\ Rabs hi < bpow radix2 128).
  { unfold lo, hi, Rmin, Rmax. destruct Rle_dec; split; apply (abs_B2R_lt_emax 24 128). } destruct BD as [BL BH].
  apply Rabs_def2 in BL, BH. cbn [xrnd] in E. unfold xround in E. rewrite Rlt_bool_true in E by (apply Rabs_def1; lra).
  apply fin_of_X in E as [F V]. split; [exact F|]. rewrite V. split; assumption.
Qed.

(** Interpolation factors in [0,1] never leave the segment, in the numbers the C code computes with, for every pair of finite operands:
    no overflow, and equal coordinates are kept exactly. *)
Theorem C86_between : forall (BK : Backend b32) (t : b64) (T : R), B2X t = Fin T -> 0 <= T <= 1 ->
  (forall a b, pt_fin a -> pt_fin b -> let r := point_interpolate a b t in btwf (px a) (px b) (px r) /\ btwf (py a) (py b) (py r)) /\
  (forall a b, sz_fin a -> sz_fin b -> let r := size_interpolate a b t in btwf (swidth a) (swidth b) (swidth r) /\ btwf (sheight a) (sheight b) (sheight r)) /\
  (forall a b, p3_fin a -> p3_fin b -> let r := point3d_interpolate a b t in btwf (p3x a) (p3x b) (p3x r) /\ btwf (p3y a) (p3y b) (p3y r) /\ btwf (p3z a) (p3z b) (p3z r)) /\
  (forall a b, rc_fin (rect_normalize a) -> rc_fin (rect_normalize b) -> let r := rect_interpolate a b t in
    btwf (rect_get_x a) (rect_get_x b) (rect_get_x r) /\ btwf (rect_get_y a) (rect_get_y b) (rect_get_y r) /\
    btwf (rect_get_width a) (rect_get_width b) (rect_get_width r) /\ btwf (rect_get_height a) (rect_get_height b) (rect_get_height r)).
Proof.
  intros BK t T Et HT. assert (K : forall a b, fin a -> fin b -> btwf a b (flerpf a b t)) by (intros; eapply flerpf_between; eauto).
  split; [|split; [|split]].
  - intros a b [? ?] [? ?] r. split; apply K; assumption.
  - intros a b [? ?] [? ?] r. split; apply K; assumption.
  - intros a b (? & ? & ?) (? & ? & ?) r. split; [|split]; apply K; assumption.
  - intros a b [[A1 A2] [A3 A4]] [[B1 B2] [B3 B4]] r.
    assert (NN : forall x y : b32, fin x -> fin y -> flt x fzero = false -> flt y fzero = false -> flt (flerpf x y t) fzero = false).
    { intros x y Fx Fy Nx Ny. destruct (K x y Fx Fy) as [F [L _]]. rewrite flt_X, fzero_X, (fin_X _ F). destruct (xlt (Fin _) (Fin 0)) eqn:E; auto. exfalso. apply xlt_fin in E.
      rewrite flt_X, fzero_X, (fin_X _ Fx) in Nx. rewrite flt_X, fzero_X, (fin_X _ Fy) in Ny.
      assert (0 <= real x) by (destruct (Rle_dec 0 (real x)); auto; rewrite (proj2 (xlt_fin (real x) 0)) in Nx by lra; discriminate).
      assert (0 <= real y) by (destruct (Rle_dec 0 (real y)); auto; rewrite (proj2 (xlt_fin (real y) 0)) in Ny by lra; discriminate).
      unfold Rmin in L. destruct Rle_dec in L; lra. }
    destruct (norm_nonneg a) as [Wa Ha]. destruct (norm_nonneg b) as [Wb Hb].
    assert (NR : rect_normalize r = r) by (apply norm_id; [apply (NN _ _ A3 B3 Wa Wb)|apply (NN _ _ A4 B4 Ha Hb)]).
    unfold rect_get_x, rect_get_y, rect_get_width, rect_get_height. rewrite NR.
    split; [|split; [|split]]; apply K; assumption.
Qed.
(** ** accuracy for any factor *)
Definition lerp_tol (a b t : R) : R := bpow radix2 (-24) * Rabs ((1 - t) * a + t * b) + bpow radix2 (-50) * (Rabs ((1 - t) * a) + Rabs (t * b)) + bpow radix2 (-149).
Definition lerp_near (t : R) (a b r : b32) : Prop :=
  Rabs ((1 - t) * real a) + Rabs (t * real b) <= bpow radix2 126 -> within (lerp_tol (real a) (real b) t) r ((1 - t) * real a + t * real b).
Lemma flerpf_near (a b : b32) (t : b64) T : fin a -> fin b -> B2X t = Fin T -> Rabs T <= bpow radix2 800 -> lerp_near T a b (flerpf a b t).
Proof.
  intros Fa Fb Et HT HS. pose proof (flerpf_X a b t T Fa Fb Et HT) as E. pose proof (lerp64_err (real a) (real b) T (real64 t T Et)) as Q.
  set (y := lerp64 (real a) (real b) T) in * . set (x := (1 - T) * real a + T * real b) in * . set (S := Rabs ((1 - T) * real a) + Rabs (T * real b)) in * .
  assert (X : Rabs x <= S) by (unfold x, S; apply Rabs_triang). assert (S0 : 0 <= S) by (pose proof (Rabs_pos x); lra).
  assert (U : u64 = / 9007199254740992) by reflexivity. assert (U5 : bpow radix2 (-50) = / 1125899906842624) by reflexivity.
  assert (N0 : 0 < eta64) by apply bpow_gt_0. assert (N1 : 8 * eta64 <= bpow radix2 (-150)) by (change 8 with (bpow radix2 3); rewrite <- bpow_plus; apply bpow_le; lia).
  assert (N2 : bpow radix2 (-149) = 2 * bpow radix2 (-150)) by (change (-149)%Z with (1 + -150)%Z; now rewrite bpow_plus).
  assert (Y : Rabs y <= Rabs x + (4 * u64 * S + 4 * eta64)). { replace y with ((y - x) + x) by ring. eapply Rle_trans; [apply Rabs_triang|]. lra. }
  rewrite xrnd_ok in E.
  - apply fin_of_X in E as [F V]. split; auto. rewrite V. pose proof (rnd_err y) as R. rewrite u32_val in R.
    replace (rnd32 y - x) with ((rnd32 y - y) + (y - x)) by ring. eapply Rle_trans; [apply Rabs_triang|]. unfold lerp_tol. fold x S. rewrite U in * . rewrite U5. change (bpow radix2 (-24)) with (/ 16777216). lra.
  - assert (E2 : bpow radix2 127 = 2 * bpow radix2 126) by (change 127%Z with (1 + 126)%Z; now rewrite bpow_plus). assert (E3 : bpow radix2 (-150) <= / 4 * bpow radix2 126) by (change (/ 4) with (bpow radix2 (-2)); rewrite <- bpow_plus; apply bpow_le; lia). rewrite U in * . lra.
Qed.
Theorem C86_accuracy : forall (BK : Backend b32) (t : b64) (T : R), B2X t = Fin T -> Rabs T <= bpow radix2 800 ->
  (forall a b, pt_fin a -> pt_fin b -> let r := point_interpolate a b t in lerp_near T (px a) (px b) (px r) /\ lerp_near T (py a) (py b) (py r)) /\
  (forall a b, sz_fin a -> sz_fin b -> let r := size_interpolate a b t in lerp_near T (swidth a) (swidth b) (swidth r) /\ lerp_near T (sheight a) (sheight b) (sheight r)) /\
  (forall a b, p3_fin a -> p3_fin b -> let r := point3d_interpolate a b t in lerp_near T (p3x a) (p3x b) (p3x r) /\ lerp_near T (p3y a) (p3y b) (p3y r) /\ lerp_near T (p3z a) (p3z b) (p3z r)) /\
  (forall a b, rc_fin (rect_normalize a) -> rc_fin (rect_normalize b) -> let r := rect_interpolate a b t in
    lerp_near T (rect_get_x a) (rect_get_x b) (rx r) /\ lerp_near T (rect_get_y a) (rect_get_y b) (ry r) /\
    lerp_near T (rect_get_width a) (rect_get_width b) (rw r) /\ lerp_near T (rect_get_height a) (rect_get_height b) (rh r)).
Proof.
  intros BK t T Et HT. assert (K : forall a b, fin a -> fin b -> lerp_near T a b (flerpf a b t)) by (intros; eapply flerpf_near; eauto).
  split; [|split; [|split]].
  - intros a b [? ?] [? ?] r. split; apply K; assumption.
  - intros a b [? ?] [? ?] r. split; apply K; assumption.
  - intros a b (? & ? & ?) (? & ? & ?) r. split; [|split]; apply K; assumption.
  - intros a b [[A1 A2] [A3 A4]] [[B1 B2] [B3 B4]] r. split; [|split; [|split]]; apply K; assumption.
Qed.

(** ** vectors interpolate in single precision, and do leave the segment: 3 and 3 at t = 0.1 give less than 3 *)
Theorem C86_vec_refuted : forall BK : Backend b32, let t : b64 := flit 13421773 (-27) in let three : b32 := flit 3 0 in let v := vec3_init three three three in
  let r := vec3_interpolate v v t in fle fzero t = true /\ fle t fone = true /\ flt (vec3_get_x r) three = true.
Proof. intros BK. destruct BK as [[]| |[] [] rcp rsq|rec rsq sq]; (split; [beq|split; beq]). Qed.
(** the same coordinates as points are kept, by C86_between; a case where the result is neither end point *)
Example C86_ex : let t : b64 := flit 1 (-2) in B2X t = Fin (/ 4) /\ 0 <= / 4 <= 1 /\
  let r := point_interpolate (Pt (flit 3 0) (flit 1 0)) (Pt (flit 3 0) (flit 5 0)) t in feqb (px r) (flit 3 0 : b32) = true /\ feqb (py r) (flit 2 0 : b32) = true.
Proof.
  intros t. split; [|split; [lra|]].
  - unfold t. assert (F : is_finite (flit 1 (-2) : b64) = true) by (vm_compute; reflexivity). rewrite B2X_finite by exact F. f_equal. 
    assert (E : (flit 1 (-2) : b64) = @B754_finite 53 1024 false 4503599627370496 (-54) eq_refl) by (apply B2SF_inj; vm_compute; reflexivity). rewrite E. cbn [B2R]. unfold F2R, cond_Zopp; cbn [Fnum Fexp SpecFloat.cond_Zopp].
    change (-54)%Z with (-2 + -52)%Z. rewrite bpow_plus. change (IZR 4503599627370496) with (bpow radix2 52). rewrite (Rmult_comm (bpow radix2 (-2))), <- Rmult_assoc, <- bpow_plus. change (bpow radix2 (52 + -52)) with 1. change (bpow radix2 (-2)) with (/ 4). ring.
  - cbv zeta. split; beq.
Qed.
