(** * Props_NoNan: when the angle of a quaternion is a number (C109). *)
From Coq Require Import ZArith Reals Bool List Lra Lia Psatz.
From Flocq Require Import Core BinarySingleNaN.
From Verif Require Import Num Simd Vec Rect Box Mat Geo Quat OrdThy FloatThy B32Setup FloatLem ErrThy Props_Err Props_Err2 Props_Err3 Props_Rot Props_Slerp Props_QAng Props_ToAxis.
From Verif Require Props_EulF Props_RaySph Props_Proj Props_Eq Props_Euler.
Import ListNotations.
Local Open Scope R_scope.

Notation fexp := (SpecFloat.fexp 24 128).
Notation F32 := (generic_format radix2 fexp).
Local Instance vexp : Valid_exp fexp. Proof. apply (fexp_correct 24 128). reflexivity. Qed.
(** the square root of the rounded square of a float is not below the float *)
Lemma sqrt_sq_ge w : F32 w -> bpow radix2 (-50) <= w <= bpow radix2 70 -> w <= rnd32 (sqrt (rnd32 (w * w))).
Proof.
  intros FW W. assert (W0 : 0 < w) by (pose proof (bpow_gt_0 radix2 (-50)); lra).
  pose proof (bpow_mag_le radix2 w ltac:(lra)) as H1. pose proof (bpow_mag_gt radix2 w) as H2. rewrite Rabs_pos_eq in H1, H2 by lra. assert (ME : (mag radix2 w : Z) = (mag radix2 w : Z)) by reflexivity. set (e := (mag radix2 w : Z)) in ME at 2, H1, H2. assert (HM : bpow radix2 (e - 1) <= w < bpow radix2 e) by (split; assumption). clear H1 H2. clearbody e.
  assert (EL : (-50 < e)%Z). { apply (lt_bpow radix2). lra. } assert (EH : (e - 1 <= 70)%Z). { apply (le_bpow radix2). lra. }
  set (b := bpow radix2 (e - 1)) in * . assert (B0 : 0 < b) by apply bpow_gt_0. assert (B2 : bpow radix2 e = 2 * b). { unfold b. replace e with (1 + (e - 1))%Z at 1 by lia. now rewrite bpow_plus. }
  assert (FB : forall k, (-100 <= k)%Z -> F32 (bpow radix2 k)). { intros k K. apply generic_format_bpow. unfold SpecFloat.fexp, SpecFloat.emin. lia. }
  assert (FE : fexp e = (e - 24)%Z) by (unfold SpecFloat.fexp, SpecFloat.emin; lia). assert (B24 : bpow radix2 (e - 24) = 2 * u * b). { replace (e - 24)%Z with (-23 + (e - 1))%Z by lia. rewrite bpow_plus. fold b. simpl. lra. }
  destruct (Rle_or_lt w b) as [C|C].
  - assert (w = b) as -> by lra. assert (E : b * b = bpow radix2 (2 * (e - 1))). { unfold b. rewrite <- bpow_plus. f_equal. lia. }
    rewrite E, (round_generic _ _ _ (bpow radix2 (2 * (e - 1)))) by (apply FB; lia). rewrite <- E, sqrt_square by lra. apply Props_Eq.rnd_ge_gen; [unfold b; apply FB; lia|lra].
  - assert (WT : w <= 2 * b - 2 * u * b). { assert (F2 : F32 (bpow radix2 e)) by (apply FB; lia). pose proof (pred_ge_gt radix2 fexp w (bpow radix2 e) FW F2 ltac:(lra)) as P. rewrite pred_bpow, FE, B24, B2 in P. exact P. }
    set (y := rnd32 (w * w)). assert (Y : Rabs (y - w * w) <= u * (w * w)).
    { pose proof (rnd_err_rel (w * w)) as Q. rewrite (Rabs_pos_eq (w * w)), u32_val in Q by nra. apply Q. apply Rle_trans with (bpow radix2 (-50) * bpow radix2 (-50)); [rewrite <- bpow_plus; apply bpow_le; lia|]. pose proof (bpow_gt_0 radix2 (-50)). apply Rmult_le_compat; lra. }
    apply Rabs_le_inv in Y. assert (YB : (w - u * b) * (w - u * b) < y) by nra. assert (Y0 : 0 < y) by nra. pose proof (sqrt_sqrt y ltac:(lra)) as SS. pose proof (sqrt_pos y) as SP. set (z := sqrt y) in * .
    assert (ZB : w - u * b < z) by nra. destruct (Rle_or_lt w (rnd32 z)) as [|D]; [assumption|exfalso].
    assert (ZW : z < w). { destruct (Rlt_or_le z w) as [|L]; [assumption|]. pose proof (Props_Eq.rnd_ge_gen z w FW L). lra. }
    assert (FZ : F32 (rnd32 z)) by (apply generic_format_round; auto with typeclass_instances).
    pose proof (round_N_pt radix2 fexp (fun x => negb (Z.even x)) z) as [_ N]. specialize (N w FW). change (round radix2 fexp (Znearest _) z) with (rnd32 z) in N. rewrite (Rabs_pos_eq (w - z)) in N by lra. apply Rabs_le_inv in N.
    pose proof (pred_ge_gt radix2 fexp (rnd32 z) w FZ FW D) as P. rewrite pred_eq_pos in P by lra. unfold pred_pos in P. rewrite <- ME in P. fold b in P. rewrite Req_bool_false in P by lra. rewrite ulp_neq_0 in P by lra. unfold cexp in P. rewrite <- ME, FE, B24 in P. lra.
Qed.
(** one rounded up by half a unit is one *)
Lemma rnd_one : rnd32 (1 + u) = 1.
Proof.
  destruct (lit_real 1 0) as [F1 R1]; try lia. destruct (lit_real 1 (-24)) as [F2 R2]; try lia. change (bpow radix2 0) with 1 in R1. change (bpow radix2 (-24)) with u in R2.
  assert (E : B2X (fadd (flit 1 0) (flit 1 (-24)) : b32) = B2X (flit 1 0 : b32)) by (f_equal; beq).
  rewrite fadd_X, (fin_X _ F1), (fin_X _ F2), R1, R2 in E. cbn [xadd] in E. rewrite xrnd_ok in E. 2: { rewrite Rabs_pos_eq by lra. apply Rle_trans with (bpow radix2 1); [simpl; lra|apply bpow_le; lia]. } injection E as E. rewrite !Rmult_1_l in E. exact E.
Qed.
(** a float divided, through a rounded reciprocal, by a float that is not smaller *)
Lemma quot_le_1 w h : bpow radix2 (-40) <= h <= bpow radix2 80 -> 0 <= w <= h -> 0 <= w * rnd32 (1 / h) <= 1 + u /\ 0 < rnd32 (1 / h) <= 1.01 / h.
Proof.
  intros H W. pose proof (bpow_gt_0 radix2 (-40)). assert (I : 0 < / h) by (apply Rinv_0_lt_compat; lra). assert (IH : h * / h = 1) by (apply Rinv_r; lra).
  assert (R : Rabs (rnd32 (1 / h) - 1 / h) <= u * (1 / h)).
  { pose proof (rnd_err_rel (1 / h)) as Q. unfold Rdiv in * . rewrite (Rabs_pos_eq (1 * / h)), u32_val in Q by lra. apply Q. rewrite Rmult_1_l. apply Rle_trans with (/ bpow radix2 80); [rewrite <- bpow_opp; apply bpow_le; lia|]. apply Rinv_le_contravar; lra. }
  unfold Rdiv in * . rewrite Rmult_1_l in * . apply Rabs_le_inv in R. split; [split|split].
  - apply Rmult_le_pos; lra.
  - apply Rle_trans with (h * ((1 + u) * / h)); [apply Rmult_le_compat; lra|]. rewrite (Rmult_comm (1 + u)), <- Rmult_assoc, IH. lra.
  - lra.
  - lra.
Qed.
(** a is at least p, or infinite *)
Definition above (a : b32) (p : R) : Prop := B2X a = PInf \/ exists s, B2X a = Fin s /\ p <= s.
Lemma round_above r p : F32 p -> 0 <= p <= r -> xrnd (prec:=24) (emax:=128) (Fin r) = PInf \/ exists s, xrnd (prec:=24) (emax:=128) (Fin r) = Fin s /\ p <= s.
Proof.
  intros FP P. unfold xrnd, xround. destruct (Rlt_bool _ _) eqn:E.
  - right. eexists. split; [reflexivity|]. apply Props_Eq.rnd_ge_gen; [exact FP|lra].
  - left. destruct (Rlt_dec r 0); [lra|reflexivity].
Qed.
Lemma sq_above (t : b32) : fin t -> above (fmul t t) (rnd32 (real t * real t)) /\ above (fmul t t) 0.
Proof.
  intros F. assert (P : 0 <= real t * real t) by nra. unfold above. rewrite fmul_X, (fin_X _ F). cbn [xmul].
  assert (R0 : 0 <= rnd32 (real t * real t)) by (apply Props_Eq.rnd_ge_gen; [apply generic_format_0|exact P]). split.
  - unfold xrnd, xround. destruct (Rlt_bool _ _) eqn:E; [right; eexists; split; [reflexivity|apply Rle_refl]|]. left. destruct (Rlt_dec (B2R t * B2R t) 0); [lra|reflexivity].
  - apply round_above; [apply generic_format_0|lra].
Qed.
Lemma add_above (a b : b32) p : F32 p -> 0 <= p -> above a p -> above b 0 -> above (fadd a b) p.
Proof.
  intros FP P A B. unfold above in * . rewrite fadd_X. destruct A as [-> |(x & -> & X)]; destruct B as [-> |(y & -> & Y)]; cbn [xadd]; [now left|now left|now left|]. apply round_above; [exact FP|lra].
Qed.
Lemma add_above_r (a b : b32) p : F32 p -> 0 <= p -> above a 0 -> above b p -> above (fadd a b) p.
Proof. intros FP P A B. rewrite fadd_comm. now apply add_above. Qed.

(** ** specification *)
(** the back ends whose reciprocal square root is 1 / sqrtf (x) *)
Definition divides (BK : Backend b32) : Prop := match BK with Scalar _ | Gcc => True | _ => False end.
Definition q_range (q : quat b32) : Prop := finite_q q /\ bpow radix2 (-44) <= qsq q.

(** a float times the reciprocal square root of a number that is at least its rounded square *)
Lemma comp_in_range (BK : Backend b32) (t S : b32) : divides BK -> fin t -> above S (rnd32 (real t * real t)) -> above S (bpow radix2 (-50)) -> fin (fmul t (lane_rsqrt S)) /\ -1 <= real (fmul t (lane_rsqrt S)) <= 1.
Proof.
  intros HB FT TS SL. destruct (fin_of_X _ _ (fone_X : B2X (fone : b32) = Fin 1)) as [FO RO].
  assert (Z : forall z : b32, B2X z = Fin 0 -> fin (fmul t z) /\ -1 <= real (fmul t z) <= 1).
  { intros z X. destruct (fin_of_X _ _ X) as [FZ RZ]. assert (E : Rabs (real t * real z) <= bpow radix2 127) by (rewrite RZ, Rmult_0_r, Rabs_R0; apply bpow_ge_0). destruct (fin_of_X _ _ (Props_Proj.mul_X t z FT FZ E)) as [A B]. split; [exact A|]. rewrite B, RZ, Rmult_0_r, round_0 by auto with typeclass_instances. lra. }
  assert (K : fin (fmul t (fdiv fone (fsqrt S))) /\ -1 <= real (fmul t (fdiv fone (fsqrt S))) <= 1).
  { destruct TS as [SI|(s & SX & TS)].
    - apply Z. change (fdiv fone (fsqrt S)) with (Bdiv mode_NE (fone : b32) (fsqrt S)). assert (HX : B2X (fsqrt S) = PInf) by (rewrite fsqrt_X, SI; reflexivity). rewrite Bdiv_X by (fold b32; rewrite HX; discriminate). fold b32. rewrite HX, (fin_X _ FO). cbn [xdiv]. rewrite xrnd_ok by (rewrite Rabs_R0; apply bpow_ge_0). now rewrite round_0 by auto with typeclass_instances.
    - destruct SL as [SI|(s' & SX' & SL)]; [rewrite SX in SI; discriminate|]. rewrite SX in SX'. injection SX' as <-. destruct (fin_of_X _ _ SX) as [FS RS]. assert (SU : s < bpow radix2 128). { pose proof (abs_B2R_lt_emax 24 128 S) as A. fold b32 in A. rewrite RS in A. eapply Rle_lt_trans; [apply Rle_abs|exact A]. }
      pose proof (bpow_gt_0 radix2 (-50)) as P50. assert (P128 : bpow radix2 64 * bpow radix2 64 = bpow radix2 128) by (rewrite <- bpow_plus; reflexivity). assert (M50 : bpow radix2 (-25) * bpow radix2 (-25) = bpow radix2 (-50)) by (rewrite <- bpow_plus; reflexivity).
      assert (SU2 : sqrt s <= bpow radix2 64) by (rewrite <- (sqrt_square (bpow radix2 64)) by apply bpow_ge_0; apply sqrt_le_1; [lra|rewrite P128; apply bpow_ge_0|lra]).
      assert (SL2 : bpow radix2 (-25) <= sqrt s) by (rewrite <- (sqrt_square (bpow radix2 (-25))) by apply bpow_ge_0; apply sqrt_le_1; lra).
      assert (HX : B2X (fsqrt S) = Fin (rnd32 (sqrt s))). { rewrite fsqrt_X, SX. cbn [xsqrt]. destruct (Rlt_dec s 0); [lra|]. apply xrnd_ok. rewrite Rabs_pos_eq by apply sqrt_pos. eapply Rle_trans; [exact SU2|]. apply bpow_le; lia. }
      destruct (fin_of_X _ _ HX) as [FH RH]. assert (FB : forall k, (-100 <= k)%Z -> F32 (bpow radix2 k)). { intros j J. apply generic_format_bpow. unfold SpecFloat.fexp, SpecFloat.emin. lia. }
      assert (HR : bpow radix2 (-25) <= real (fsqrt S) <= bpow radix2 64) by (rewrite RH; split; [apply Props_Eq.rnd_ge_gen; [apply FB; lia|exact SL2]|apply Props_Eq.rnd_le_gen; [apply FB; lia|exact SU2]]).
      set (h := fsqrt S) in * . assert (HQ : bpow radix2 (-40) <= real h <= bpow radix2 80) by (bp (-40)%Z (-25)%Z; bp 64%Z 80%Z; lra). pose proof (bpow_gt_0 radix2 (-40)) as P40.
      assert (RX : B2X (fdiv fone h) = Fin (rnd32 (1 / real h))).
      { change (fdiv fone h) with (Bdiv mode_NE (fone : b32) h). rewrite Bdiv_X by (fold b32; rewrite (fin_X _ FH); intros E; injection E; lra). fold b32. rewrite (fin_X _ FO), (fin_X _ FH), RO. cbn [xdiv]. destruct (Req_EM_T (B2R h) 0); [lra|]. apply xrnd_ok. unfold Rdiv. rewrite Rmult_1_l. rewrite Rabs_pos_eq by (left; apply Rinv_0_lt_compat; lra).
        apply Rle_trans with (/ bpow radix2 (-40)); [apply Rinv_le_contravar; lra|]. rewrite <- bpow_opp. apply bpow_le. lia. }
      destruct (fin_of_X _ _ RX) as [FR RR].
      assert (TB : Rabs (real t) * rnd32 (1 / real h) <= 1 + u).
      { assert (FA : F32 (Rabs (real t))) by (apply generic_format_abs, fmt). destruct (Rle_or_lt (bpow radix2 (-50)) (Rabs (real t))) as [L|L].
        - apply quot_le_1; [exact HQ|]. split; [apply Rabs_pos|]. eapply Rle_trans; [apply (sqrt_sq_ge _ FA); split; [exact L|]|].
          + apply Rnot_lt_le. intros C. assert (C2 : bpow radix2 70 * bpow radix2 70 <= Rabs (real t) * Rabs (real t)) by (apply Rmult_le_compat; try apply bpow_ge_0; lra). rewrite <- Rabs_mult, Rabs_pos_eq, <- bpow_plus in C2 by nra.
            assert (bpow radix2 (70 + 70) <= rnd32 (real t * real t)) by (apply Props_Eq.rnd_ge_gen; [apply FB; lia|exact C2]). bp 128%Z (70 + 70)%Z. lra.
          + rewrite <- Rabs_mult, Rabs_pos_eq by nra. rewrite RH. apply round_le; auto with typeclass_instances. apply sqrt_le_1; [|lra|exact TS]. apply Props_Eq.rnd_ge_gen; [apply generic_format_0|nra].
        - destruct (quot_le_1 0 (real h) HQ ltac:(lra)) as [_ [A B]]. apply Rle_trans with (bpow radix2 (-50) * (1.01 / real h)); [apply Rmult_le_compat; try lra; apply Rabs_pos|]. assert (E : bpow radix2 (-50) = / 33554432 * bpow radix2 (-25)) by (rewrite <- M50; f_equal; simpl; lra).
          assert (I0 : 0 < / real h) by (apply Rinv_0_lt_compat; lra). assert (bpow radix2 (-25) * / real h <= 1). { replace 1 with (real h * / real h) by (apply Rinv_r; lra). apply Rmult_le_compat_r; lra. } unfold Rdiv. rewrite E. lra. }
      destruct (quot_le_1 0 (real h) HQ ltac:(lra)) as [_ [RP _]].
      assert (AB : Rabs (real t * real (fdiv fone h)) <= 1 + u) by (rewrite RR, Rabs_mult, (Rabs_pos_eq (rnd32 _)); lra).
      destruct (fin_of_X _ _ (Props_Proj.mul_X t (fdiv fone h) FT FR ltac:(apply Rle_trans with (bpow radix2 1); [simpl; lra|apply bpow_le; lia]))) as [FM RM]. split; [exact FM|]. rewrite RM. apply Rabs_le_inv in AB. split.
      + replace (-1) with (- rnd32 (1 + u)) by (rewrite rnd_one; lra). rewrite <- round_NE_opp. apply round_le; auto with typeclass_instances. apply AB.
      + apply Rle_trans with (rnd32 (1 + u)); [|rewrite rnd_one; lra]. apply round_le; auto with typeclass_instances. apply AB. }
  unfold lane_rsqrt. destruct BK; cbv [backend]; cbn [divides] in HB; try contradiction; [destruct (flt feps (fabs S))|destruct (feqb S fzero)]; auto; apply Z; reflexivity.
Qed.
Lemma fr t : F32 (rnd32 t). Proof. apply generic_format_round; auto with typeclass_instances. Qed.
Lemma rn (t : b32) : 0 <= rnd32 (real t * real t). Proof. apply Props_Eq.rnd_ge_gen; [apply generic_format_0|nra]. Qed.
(** the sum of two, three or four squares *)
Lemma sum2_above (x y : b32) : fin x -> fin y -> let S := fadd (fmul x x) (fmul y y) in above S 0 /\ above S (rnd32 (real x * real x)) /\ above S (rnd32 (real y * real y)).
Proof.
  intros FX FY S. destruct (sq_above x FX) as [A A0]. destruct (sq_above y FY) as [B B0]. split; [|split].
  - apply add_above; auto; [apply generic_format_0|lra].
  - apply add_above; auto; [apply fr|apply rn].
  - apply add_above_r; auto; [apply fr|apply rn].
Qed.

(** ** C109 *)
Theorem C109_normalize_in_range : forall (BK : Backend b32) (q : quat b32) k, divides BK -> q_range q -> fin (qcomp k (quaternion_normalize q)) /\ -1 <= real (qcomp k (quaternion_normalize q)) <= 1.
Proof.
  intros BK q k HB [F N]. pose proof (F 0%nat) as F0. pose proof (F 1%nat) as F1. pose proof (F 2%nat) as F2. pose proof (F 3%nat) as F3. unfold qcomp in F0, F1, F2, F3. cbn [nth] in F0, F1, F2, F3.
  assert (SD : qsq q = real (qx q) * real (qx q) + real (qy q) * real (qy q) + real (qz q) * real (qz q) + real (qw q) * real (qw q)) by reflexivity. set (x := qx q) in * . set (y := qy q) in * . set (z := qz q) in * . set (w := qw q) in * . set (Q := qsq q) in * .
  destruct (sum2_above x y F0 F1) as (A0 & A1 & A2). destruct (sum2_above z w F2 F3) as (B0 & B1 & B2). set (a := fadd (fmul x x) (fmul y y)) in * . set (b := fadd (fmul z z) (fmul w w)) in * . set (S := fadd a b).
  assert (UP : forall t : b32, In t [x; y; z; w] -> fin t /\ above S (rnd32 (real t * real t))).
  { intros t [<-|[<-|[<-|[<-|[]]]]]; (split; [assumption|]); first [apply add_above; [apply fr|apply rn|assumption|assumption]|apply add_above_r; [apply fr|apply rn|assumption|assumption]]. }
  assert (SL : above S (bpow radix2 (-50))).
  { assert (M : exists t : b32, In t [x; y; z; w] /\ bpow radix2 (-46) <= real t * real t).
    { assert (E : bpow radix2 (-44) = 4 * bpow radix2 (-46)) by (apply (pb 2 (-46))). destruct (Rle_or_lt (bpow radix2 (-46)) (real x * real x)); [exists x; split; [simpl; tauto|assumption]|]. destruct (Rle_or_lt (bpow radix2 (-46)) (real y * real y)); [exists y; split; [simpl; tauto|assumption]|]. destruct (Rle_or_lt (bpow radix2 (-46)) (real z * real z)); [exists z; split; [simpl; tauto|assumption]|]. destruct (Rle_or_lt (bpow radix2 (-46)) (real w * real w)); [exists w; split; [simpl; tauto|assumption]|]. lra. }
    destruct M as (t & I & L). destruct (UP t I) as [_ [SI|(s & SX & TS)]]; [now left|right; exists s; split; [exact SX|]]. apply Rle_trans with (bpow radix2 (-46)); [apply bpow_le; lia|]. eapply Rle_trans; [|exact TS]. apply Props_Eq.rnd_ge_gen; [|exact L]. apply generic_format_bpow. unfold SpecFloat.fexp, SpecFloat.emin. lia. }
  assert (ALL : forall t : b32, In t [x; y; z; w] -> fin (fmul t (lane_rsqrt S)) /\ -1 <= real (fmul t (lane_rsqrt S)) <= 1) by (intros t I; destruct (UP t I) as [FT AT]; now apply comp_in_range).
  destruct k as [|[|[|k]]]; [apply (ALL x); simpl; auto|apply (ALL y); simpl; auto|apply (ALL z); simpl; auto|]. destruct k; (apply (ALL w); simpl; auto).
Qed.
(** so on those back ends the arc cosine is always taken of a number in [-1, 1] *)
Theorem C109_angle_is_a_number : forall (BK : Backend b32) (L : LibM b32) (q : quat b32), divides BK -> acos_full L -> q_range q ->
  let a := fst (quaternion_to_angle_vec3 q) in fin a /\ -0.001 <= real a <= 360.001.
Proof.
  intros BK L q HB HA HQ a. destruct (C109_normalize_in_range BK q 3 HB HQ) as [FC RC]. change (qcomp 3 (quaternion_normalize q)) with (qw (quaternion_normalize q)) in FC, RC. set (c := qw (quaternion_normalize q)) in * .
  assert (EA : a = rad_to_deg (fmul (facos c) ftwo)) by reflexivity. rewrite EA. destruct (HA c FC RC) as [FA AA]. change (bpow radix2 (-22)) with (/ 4194304) in AA. pose proof (acos_bound (real c)) as AB. pose proof Props_Euler.PI_bounds as PB. set (t := facos c) in * . clearbody t. apply Rabs_le_inv in AA.
  destruct (fin_of_X _ _ (ftwo_X : B2X (ftwo : b32) = Fin 2)) as [FT RT]. assert (P127 : 64 <= bpow radix2 127) by (change 64 with (bpow radix2 6); apply bpow_le; lia).
  assert (ETA : eta <= / 1000 * u). { change eta with (bpow radix2 (-150)). apply Rle_trans with (bpow radix2 (-40)); [apply bpow_le; lia|simpl; lra]. }
  assert (R2 : Rabs (real t * real ftwo) <= 6.284) by (rewrite RT; apply Rabs_le; lra).
  destruct (ap_fin _ _ _ (ap_mul0 t ftwo FA FT ltac:(lra))) as [FM EM]. rewrite u32_val in EM. rewrite RT in EM, R2. set (m := fmul t ftwo) in * . assert (EM' : Rabs (real m - real t * 2) <= 6.29 * u) by lra. clear EM. apply Rabs_le_inv in EM'.
  assert (MB : -0.000001 <= real m <= 2 * PI + 0.000001) by lra.
  destruct (Props_Euler.r2d_err m FM) as [FD ED]. { apply Rle_trans with (bpow radix2 3); [simpl; apply Rabs_le; lra|apply bpow_le; lia]. }
  split; [exact FD|]. assert (U23 : bpow radix2 (-23) = 2 * u) by (simpl; lra). rewrite U23 in ED.
  assert (IP : 0 < 180 / PI <= 57.3). { split; [apply Rdiv_lt_0_compat; lra|]. apply (Rmult_le_reg_r PI); [lra|]. unfold Rdiv. rewrite Rmult_assoc, Rinv_l by lra. lra. }
  assert (DB : -0.0001 <= real m * (180 / PI) <= 360.0001).
  { split; [nra|]. apply Rle_trans with ((2 * PI + 0.000001) * (180 / PI)); [apply Rmult_le_compat_r; lra|]. replace ((2 * PI + 0.000001) * (180 / PI)) with (360 + 0.000001 * (180 / PI)) by (field; lra). lra. }
  set (d := real m * (180 / PI)) in * . assert (Rabs d <= 361) by (apply Rabs_le; lra). assert (ED' : Rabs (real (rad_to_deg m) - d) <= 723 * u) by lra. apply Rabs_le_inv in ED'. lra.
Qed.

(** ** with the estimates of the SSE back end the angle can be NaN *)
(** an admissible estimate: at one point the one an Intel Xeon returns, elsewhere 1 / sqrtf (x) *)
Definition xeon_at : b32 := flit 8390658 (-25).
Definition xeon_rsq (x : b32) : b32 := if feqb x xeon_at then flit 8190 (-12) else fdiv fone (fsqrt x).
Definition xeon_q : quat b32 := Qt (flit 0 0) (flit 0 0) (flit 0 0) (flit 8389633 (-24)).
Theorem C109_sse_nan_refuted : forall s4 fm, let BK := Sse s4 fm (fun x => fdiv fone x) xeon_rsq in
  estimates_ok BK /\ q_range xeon_q /\
  forall L : LibM b32, (forall x : b32, fin x -> 1 < real x -> B2X (facos x) = Undef) -> B2X (fst (quaternion_to_angle_vec3 (B:=BK) xeon_q)) = Undef.
Proof.
  intros s4 fm BK. destruct (proj1 (C70_estimates_ok_ex s4 fm)) as [E1 E2]. refine (conj (conj E1 _) (conj _ _)).
  - intros x FX RX. unfold xeon_rsq. destruct (feqb x xeon_at) eqn:EQ; [|exact (E2 x FX RX)].
    destruct (lit_real 8390658 (-25)) as [F1 R1]; try lia. destruct (lit_real 8190 (-12)) as [F2 R2]; try lia. rewrite feqb_X, (fin_X _ FX) in EQ. unfold xeon_at in EQ. rewrite (fin_X _ F1) in EQ. cbn [xeqb] in EQ. destruct (Req_EM_T (B2R x) _) as [EX|]; [|discriminate].
    rewrite EX, R1. split; [exact F2|]. rewrite R2. change (bpow radix2 (-25)) with (/ 33554432). change (bpow radix2 (-12)) with (/ 4096).
    set (X := 8390658 * / 33554432). pose proof (sqrt_sqrt X ltac:(unfold X; lra)) as SS. pose proof (sqrt_pos X) as SP. set (h := sqrt X) in * . assert (XV : 0.250061 <= X <= 0.250062) by (unfold X; lra). assert (HB : 0.50006 <= h <= 0.50007) by (split; nra).
    assert (IB : 1.9997 <= / h <= 1.9998). { split; apply (Rmult_le_reg_l h); try lra; rewrite Rinv_r by lra; lra. } apply Rabs_le. lra.
  - destruct (lit_real 0 0) as [F0 R0]; try lia. destruct (lit_real 8389633 (-24)) as [F1 R1]; try lia. assert (E : qsq xeon_q = (8389633 * / 16777216) * (8389633 * / 16777216)). { unfold qsq, xeon_q; cbn [qx qy qz qw]. rewrite R0, R1. change (bpow radix2 0) with 1. change (bpow radix2 (-24)) with (/ 16777216). lra. }
    split; [intros k; destruct k as [|[|[|k]]]; [assumption|assumption|assumption|destruct k; assumption]|]. rewrite E. apply Rle_trans with (bpow radix2 (-3)); [apply bpow_le; lia|simpl; lra].
  - intros L HL. assert (E : qw (quaternion_normalize (B:=BK) xeon_q) = flit 8388609 (-23)) by (destruct s4, fm; beq).
    assert (A : fst (quaternion_to_angle_vec3 (B:=BK) xeon_q) = rad_to_deg (fmul (facos (qw (quaternion_normalize (B:=BK) xeon_q))) ftwo)) by reflexivity. rewrite A, E. destruct (lit_real 8388609 (-23)) as [F1 R1]; try lia.
    unfold rad_to_deg. rewrite !fmul_X, HL; [reflexivity|exact F1|]. rewrite R1. simpl. lra.
Qed.

(** ** the hypotheses can be met: (3, -4, 12, 0), which is not of length 1, on the portable back end *)
Example C109_ex : divides (Scalar true) /\ divides (Gcc : Backend b32) /\ acos_full libm_ac /\ q_range (Qt (flit 3 0) (flit (-4) 0) (flit 12 0) (flit 0 0)).
Proof.
  refine (conj I (conj I (conj libm_ac_full _))). destruct (C108_ex_normalize Gcc) as (F & [N _] & _). exact (conj F (proj1 N)).
Qed.

(** ** C110: vectors *)
(** the square root of a float is above FLT_EPSILON only if the float is not tiny *)
Lemma guard_above (S : b32) : above S 0 -> flt feps (fabs (fsqrt S)) = true -> above S (bpow radix2 (-50)).
Proof.
  intros [SI|(s & SX & P)] H; [now left|right; exists s; split; [exact SX|]]. destruct (Rle_or_lt (bpow radix2 (-50)) s) as [|C]; [assumption|exfalso].
  rewrite flt_X, feps_X, fabs_X, fsqrt_X, SX in H. cbn [xsqrt] in H. destruct (Rlt_dec s 0); [lra|]. assert (M50 : bpow radix2 (-25) * bpow radix2 (-25) = bpow radix2 (-50)) by (rewrite <- bpow_plus; reflexivity).
  assert (SL : sqrt s <= bpow radix2 (-25)) by (rewrite <- (sqrt_square (bpow radix2 (-25))) by apply bpow_ge_0; apply sqrt_le_1; [lra|rewrite M50; apply bpow_ge_0|lra]).
  rewrite xrnd_ok in H by (rewrite Rabs_pos_eq by apply sqrt_pos; eapply Rle_trans; [exact SL|apply bpow_le; lia]). cbn [xabs] in H. apply xlt_fin in H.
  assert (F25 : F32 (bpow radix2 (-25))) by (apply generic_format_bpow; unfold SpecFloat.fexp, SpecFloat.emin; lia). pose proof (Props_Eq.rnd_le_gen _ _ F25 SL) as U. pose proof (Props_Eq.rnd_ge_gen _ _ (generic_format_0 radix2 fexp) (sqrt_pos s)) as L. rewrite Rabs_pos_eq in H by exact L. change (bpow radix2 (-25)) with (/ 33554432) in U. lra.
Qed.
Lemma sqrt_lane (BK : Backend b32) x : divides BK -> lane_sqrt x = fsqrt x. Proof. destruct BK; cbn [divides]; try contradiction; reflexivity. Qed.
Lemma zero_ok : fin (fzero : b32) /\ -1 <= real (fzero : b32) <= 1. Proof. split; [reflexivity|]. change (real (fzero : b32)) with 0. lra. Qed.

(** every component of a normalised finite vector is a number in [-1, 1] *)
Definition unit_range (n : V) (get : V -> b32) : Prop := fin (get n) /\ -1 <= real (get n) <= 1.
Theorem C110_vec2_normalize : forall (BK : Backend b32) (v : V), divides BK -> finite2 v -> Forall (unit_range (vec2_normalize v)) [vec2_get_x; vec2_get_y].
Proof.
  intros BK v HB (F1 & F2). change (fin (vx v)) in F1. change (fin (vy v)) in F2. unfold vec2_normalize. destruct (flt feps (fabs (vec2_length v))) eqn:G; [|repeat apply Forall_cons; try apply Forall_nil; exact zero_ok].
  set (S := fadd (fmul (vx v) (vx v)) (fmul (vy v) (vy v))). assert (L : vec2_length v = fsqrt S) by (exact (sqrt_lane BK S HB)). rewrite L in G. destruct (sum2_above _ _ F1 F2) as (A0 & A1 & A2). fold S in A0, A1, A2. pose proof (guard_above S A0 G) as SL.
  apply Forall_cons; [exact (comp_in_range BK _ S HB F1 A1 SL)|]. apply Forall_cons; [exact (comp_in_range BK _ S HB F2 A2 SL)|]. apply Forall_nil.
Qed.
Theorem C110_vec3_normalize : forall (BK : Backend b32) (v : V), divides BK -> finite3 v -> Forall (unit_range (vec3_normalize v)) [vec3_get_x; vec3_get_y; vec3_get_z].
Proof.
  intros BK v HB (F1 & F2 & F3). change (fin (vx v)) in F1. change (fin (vy v)) in F2. change (fin (vz v)) in F3. unfold vec3_normalize. destruct (flt feps (fabs (vec3_length v))) eqn:G; [|repeat apply Forall_cons; try apply Forall_nil; exact zero_ok].
  set (S := fadd (fadd (fmul (vx v) (vx v)) (fmul (vy v) (vy v))) (fmul (vz v) (vz v))). assert (D : g_dot3_scalar v v = S) by (destruct BK; cbn [divides] in HB; try contradiction; reflexivity).
  assert (L : vec3_length v = fsqrt S) by (rewrite <- D; exact (sqrt_lane BK _ HB)). rewrite L in G. destruct (sum2_above _ _ F1 F2) as (A0 & A1 & A2). destruct (sq_above _ F3) as [B1 B0].
  assert (S0 : above S 0) by (apply add_above; auto; [apply generic_format_0|lra]). pose proof (guard_above S S0 G) as SL.
  assert (E : forall get, In get [vec3_get_x; vec3_get_y; vec3_get_z] -> get (g_normalize3 v) = fmul (get v) (lane_rsqrt S)) by (intros get [<-|[<-|[<-|[]]]]; rewrite <- D; reflexivity).
  apply Forall_forall. intros get I. unfold unit_range. rewrite (E get I). apply comp_in_range; auto; destruct I as [<-|[<-|[<-|[]]]]; try assumption; first [apply add_above; [apply fr|apply rn|assumption|assumption]|apply add_above_r; [apply fr|apply rn|assumption|assumption]].
Qed.
Theorem C110_vec4_normalize : forall (BK : Backend b32) (v : V), divides BK -> finite4 v -> Forall (unit_range (vec4_normalize v)) [vec4_get_x; vec4_get_y; vec4_get_z; vec4_get_w].
Proof.
  intros BK v HB (F1 & F2 & F3 & F4). change (fin (vx v)) in F1. change (fin (vy v)) in F2. change (fin (vz v)) in F3. change (fin (vw v)) in F4. unfold vec4_normalize. destruct (flt feps (fabs (vec4_length v))) eqn:G; [|repeat apply Forall_cons; try apply Forall_nil; exact zero_ok].
  set (S := fadd (fadd (fmul (vx v) (vx v)) (fmul (vy v) (vy v))) (fadd (fmul (vz v) (vz v)) (fmul (vw v) (vw v)))).
  assert (L : vec4_length v = fsqrt S) by (exact (sqrt_lane BK S HB)). rewrite L in G. destruct (sum2_above _ _ F1 F2) as (A0 & A1 & A2). destruct (sum2_above _ _ F3 F4) as (B0 & B1 & B2).
  assert (S0 : above S 0) by (apply add_above; auto; [apply generic_format_0|lra]). pose proof (guard_above S S0 G) as SL.
  assert (E : forall get, In get [vec4_get_x; vec4_get_y; vec4_get_z; vec4_get_w] -> get (g_normalize4 v) = fmul (get v) (lane_rsqrt S)) by (intros get [<-|[<-|[<-|[<-|[]]]]]; reflexivity).
  apply Forall_forall. intros get I. unfold unit_range. rewrite (E get I). apply comp_in_range; auto; destruct I as [<-|[<-|[<-|[<-|[]]]]]; try assumption; first [apply add_above; [apply fr|apply rn|assumption|assumption]|apply add_above_r; [apply fr|apply rn|assumption|assumption]].
Qed.
(** with the estimates of the SSE back end a component of a normalised vector can be one ulp above 1 *)
Theorem C110_sse_above_one_refuted : forall s4 fm, let BK := Sse s4 fm (fun x : b32 => fdiv fone x) xeon_rsq in let v := vec3_init (flit 8389633 (-24)) (flit 0 0) (flit 0 0) : simd4f b32 in
  estimates_ok BK /\ finite3 v /\ real (vec3_get_x (vec3_normalize (B:=BK) v)) = 1 + bpow radix2 (-23).
Proof.
  intros s4 fm BK v. destruct (lit_real 0 0) as [F0 R0]; try lia. destruct (lit_real 8389633 (-24)) as [F1 R1]; try lia. destruct (lit_real 8388609 (-23)) as [F2 R2]; try lia.
  refine (conj (proj1 (C109_sse_nan_refuted s4 fm)) (conj (conj F1 (conj F0 F0)) _)).
  assert (E : vec3_get_x (vec3_normalize (B:=BK) v) = flit 8388609 (-23)) by (destruct s4, fm; beq). rewrite E, R2. simpl. lra.
Qed.
(** the hypotheses can be met, also by a vector whose squares overflow: (2^127, 3, 0); its direction is then lost, but no component leaves the range *)
Example C110_ex : let v := vec3_init (flit 1 127) (flit 3 0) (flit 0 0) : V in divides (Scalar true) /\ divides (Gcc : Backend b32) /\ finite3 v.
Proof. intros v. destruct (lit_real 3 0) as [F3 _]; try lia. destruct (lit_real 0 0) as [F0 _]; try lia. refine (conj I (conj I (conj _ (conj F3 F0)))). vm_compute. reflexivity. Qed.
