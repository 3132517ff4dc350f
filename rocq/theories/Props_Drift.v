(** * Props_Drift: how far long chains of quaternion products drift (C82). *)
From Coq Require Import ZArith Reals Bool List Lra Lia Psatz.
From Flocq Require Import Core BinarySingleNaN.
From Verif Require Import Num Simd Vec Rect Box Mat Geo Quat OrdThy FloatThy B32Setup FloatLem ErrThy Props_Err Props_Err2 Props_Err3 ErrEx Props_Err5.
From Verif Require Props_MatX2.
From Verif Require Import RQuat.
Import ListNotations.
Local Open Scope R_scope.
Notation dot := Props_MatX2.dot. Notation add3 := Props_MatX2.add3. Notation scl3 := Props_MatX2.scl3. Notation cross := Props_MatX2.cross.

(** ** chains of quaternion products *)
Definition rq (q : quat b32) : RQ := RQ4 (real (qx q)) (real (qy q)) (real (qz q)) (real (qw q)).
Definition qnorm (a : RQ) : R := sqrt (qdot a a).
Definition qdist (a b : RQ) : R := qnorm (qadd a (qscal (-1) b)).
Definition finite_q (q : quat b32) : Prop := fin (qx q) /\ fin (qy q) /\ fin (qz q) /\ fin (qw q).
Lemma qdot_pos a : 0 <= qdot a a.
Proof. destruct a as [s [x y z]]. unfold qdot, dot; cbn. nra. Qed.
Lemma qnorm_pos a : 0 <= qnorm a. Proof. apply sqrt_pos. Qed.
Lemma qnorm_sq a : qnorm a * qnorm a = qdot a a. Proof. apply sqrt_sqrt, qdot_pos. Qed.
Lemma qnorm_mul a b : qnorm (qmul a b) = qnorm a * qnorm b.
Proof. unfold qnorm. rewrite qdot_mul. apply sqrt_mult_alt, qdot_pos. Qed.
Lemma cs4 a b c d x y z w : a * x + b * y + c * z + d * w <= sqrt (a * a + b * b + c * c + d * d) * sqrt (x * x + y * y + z * z + w * w).
Proof.
  rewrite <- sqrt_mult_alt by nra. destruct (Rle_dec (a * x + b * y + c * z + d * w) 0) as [N|N]; [eapply Rle_trans; [exact N|apply sqrt_pos]|].
  rewrite <- (sqrt_square (a * x + b * y + c * z + d * w)) by lra. apply sqrt_le_1_alt.
  assert (0 <= (a * y - b * x) ^ 2 + (a * z - c * x) ^ 2 + (a * w - d * x) ^ 2 + (b * z - c * y) ^ 2 + (b * w - d * y) ^ 2 + (c * w - d * z) ^ 2).
  { repeat apply Rplus_le_le_0_compat; apply pow2_ge_0. } lra.
Qed.
Lemma cs4abs a b c d x y z w : Rabs (a * x) + Rabs (b * y) + Rabs (c * z) + Rabs (d * w) <= sqrt (a * a + b * b + c * c + d * d) * sqrt (x * x + y * y + z * z + w * w).
Proof.
  rewrite !Rabs_mult. eapply Rle_trans; [apply cs4|]. apply Req_le.
  assert (E : forall t, Rabs t * Rabs t = t * t) by (intros t; rewrite <- Rabs_mult; apply Rabs_pos_eq; nra). now rewrite !E.
Qed.
Lemma qdot_cs a b : qdot a b <= qnorm a * qnorm b.
Proof.
  destruct a as [s [x y z]], b as [t [p q r]]. unfold qnorm, qdot, dot; cbn. pose proof (cs4 s x y z t p q r).
  replace (s * s + (x * x + y * y + z * z)) with (s * s + x * x + y * y + z * z) by ring. replace (t * t + (p * p + q * q + r * r)) with (t * t + p * p + q * q + r * r) by ring. lra.
Qed.
Lemma qnorm_tri a b : qnorm (qadd a b) <= qnorm a + qnorm b.
Proof.
  pose proof (qnorm_pos a). pose proof (qnorm_pos b). unfold qnorm at 1. rewrite <- (sqrt_square (qnorm a + qnorm b)) by lra. apply sqrt_le_1_alt.
  replace (qdot (qadd a b) (qadd a b)) with (qdot a a + 2 * qdot a b + qdot b b) by (destruct a as [s [x y z]], b as [t [p q r]]; unfold qdot, qadd, add3, dot; cbn; ring).
  rewrite <- (qnorm_sq a), <- (qnorm_sq b). pose proof (qdot_cs a b). lra.
Qed.
Lemma qdist_tri a b c : qdist a c <= qdist a b + qdist b c.
Proof.
  unfold qdist. eapply Rle_trans; [|apply qnorm_tri]. apply Req_le. f_equal.
  destruct a as [s [x y z]], b as [t [p q r]], c as [v [l m n]]. unfold qadd, qscal, add3, scl3; cbn. f_equal; [ring|f_equal; ring].
Qed.
Lemma qnorm_dist a b : qnorm a <= qnorm b + qdist a b.
Proof.
  unfold qdist. eapply Rle_trans; [|apply qnorm_tri]. apply Req_le. f_equal.
  destruct a as [s [x y z]], b as [t [p q r]]. unfold qadd, qscal, add3, scl3; cbn. f_equal; [ring|f_equal; ring].
Qed.
Lemma qdist_sym a b : qdist a b = qdist b a.
Proof. unfold qdist, qnorm. f_equal. destruct a as [s [x y z]], b as [t [p q r]]. unfold qdot, qadd, qscal, add3, scl3, dot; cbn. ring. Qed.
Lemma qdist_mul_r a b c : qdist (qmul a c) (qmul b c) = qdist a b * qnorm c.
Proof.
  unfold qdist. rewrite <- qnorm_mul. f_equal. destruct a as [s [x y z]], b as [t [p q r]], c as [v [l m n]].
  unfold qmul, qadd, qscal, add3, scl3, cross, dot; cbn. f_equal; [ring|f_equal; ring].
Qed.
Lemma qcomp_le q : let a := rq q in Rabs (real (qx q)) <= qnorm a /\ Rabs (real (qy q)) <= qnorm a /\ Rabs (real (qz q)) <= qnorm a /\ Rabs (real (qw q)) <= qnorm a.
Proof.
  assert (S : forall t T, t * t <= T -> Rabs t <= sqrt T). { intros t T H. rewrite <- sqrt_Rsqr_abs. apply sqrt_le_1_alt. exact H. }
  unfold qnorm, rq, RQ4, qdot, dot; cbn. repeat split; apply S; nra.
Qed.
(** one product: 10 units in the last place of the product of the lengths *)
Theorem C82_product : forall a b : quat b32, finite_q a -> finite_q b -> qnorm (rq a) <= bpow radix2 60 -> qnorm (rq b) <= bpow radix2 60 ->
  finite_q (quaternion_multiply a b) /\
  qdist (rq (quaternion_multiply a b)) (qmul (rq a) (rq b)) <= 10 * bpow radix2 (-24) * (qnorm (rq a) * qnorm (rq b)) + bpow radix2 (-145).
Proof.
  intros a b (A1 & A2 & A3 & A4) (B1 & B2 & B3 & B4) NA NB.
  destruct (qcomp_le a) as (a1 & a2 & a3 & a4), (qcomp_le b) as (b1 & b2 & b3 & b4).
  destruct (C81_quaternion_multiply a b) as (X & Y & Z & W).
  { repeat split; auto; lra. } { repeat split; auto; lra. }
  set (p := quaternion_multiply a b) in * .
  assert (CS : forall s1 s2 s3 s4 t1 t2 t3 t4, s1 * s1 + s2 * s2 + s3 * s3 + s4 * s4 = qdot (rq a) (rq a) -> t1 * t1 + t2 * t2 + t3 * t3 + t4 * t4 = qdot (rq b) (rq b) ->
    Rabs (s1 * t1) + Rabs (s2 * t2) + Rabs (s3 * t3) + Rabs (s4 * t4) <= qnorm (rq a) * qnorm (rq b)).
  { intros s1 s2 s3 s4 t1 t2 t3 t4 E1 E2. unfold qnorm. rewrite <- E1, <- E2. apply cs4abs. }
  set (e := 5 * bpow radix2 (-24) * (qnorm (rq a) * qnorm (rq b)) + bpow radix2 (-146)).
  assert (WK : forall (r : b32) s t, within (slack 5 s (-146)) r t -> s <= qnorm (rq a) * qnorm (rq b) -> fin r /\ Rabs (real r - t) <= e).
  { intros r s t [F L] H. split; auto. eapply Rle_trans; [exact L|]. unfold slack, e. apply Rplus_le_compat_r. apply Rmult_le_compat_l; [|exact H]. pose proof (bpow_gt_0 radix2 (-24)). lra. }
  apply WK in X as [FX X]; [|apply CS; unfold rq, RQ4, qdot, dot; cbn; ring].
  apply WK in Y as [FY Y]; [|apply CS; unfold rq, RQ4, qdot, dot; cbn; ring].
  apply WK in Z as [FZ Z]; [|apply CS; unfold rq, RQ4, qdot, dot; cbn; ring].
  apply WK in W as [FW W]; [|apply CS; unfold rq, RQ4, qdot, dot; cbn; ring].
  split; [repeat split; auto|].
  assert (PE : 0 <= e). { unfold e. pose proof (qnorm_pos (rq a)). pose proof (qnorm_pos (rq b)). pose proof (bpow_gt_0 radix2 (-24)). pose proof (bpow_gt_0 radix2 (-146)). assert (0 <= qnorm (rq a) * qnorm (rq b)) by nra. nra. }
  assert (SQ : forall t, Rabs t <= e -> t * t <= e * e). { intros t H. rewrite <- (Rabs_pos_eq (t * t)) by nra. rewrite Rabs_mult. apply Rmult_le_compat; auto using Rabs_pos. }
  replace (10 * bpow radix2 (-24) * (qnorm (rq a) * qnorm (rq b)) + bpow radix2 (-145)) with (2 * e).
  2:{ unfold e. change (-145)%Z with (1 + -146)%Z. rewrite (bpow_plus radix2 1). change (bpow radix2 1) with 2. ring. }
  unfold qdist, qnorm at 1. rewrite <- (sqrt_square (2 * e)) by lra. apply sqrt_le_1_alt.
  apply SQ in X, Y, Z, W. revert X Y Z W. unfold rq, RQ4, qdot, qadd, qscal, qmul, add3, scl3, cross, dot; cbn. intros X Y Z W.
  lra.
Qed.
(** a quaternion whose length is 1 up to [d] *)
Definition near_unit (d : R) (q : quat b32) : Prop := finite_q q /\ Rabs (qnorm (rq q) - 1) <= d.
Lemma pow_up d k : 0 <= d -> INR k * d <= / 2 -> (1 + d) ^ k <= 1 + 2 * INR k * d.
Proof.
  intros D. induction k as [|k IH]; intros H; [cbn; lra|]. rewrite S_INR in * . cbn [pow]. pose proof (pos_INR k).
  assert (K : INR k * d <= / 2) by nra. specialize (IH K). apply Rle_trans with ((1 + d) * (1 + 2 * INR k * d)); [apply Rmult_le_compat_l; lra|].
  assert (2 * (INR k * d) * d <= d) by nra. lra.
Qed.
Lemma pow_down d k : 0 <= d <= 1 -> 1 - INR k * d <= (1 - d) ^ k.
Proof.
  intros D. induction k as [|k IH]; [cbn; lra|]. rewrite S_INR. cbn [pow]. pose proof (pos_INR k). assert (0 <= (1 - d) ^ k) by (apply pow_le; lra).
  destruct (Rle_dec (1 - INR k * d) 0); nra.
Qed.
Lemma chain_inv (q0 : quat b32) (d : R) : near_unit d q0 -> forall l, Forall (near_unit d) l ->
  (INR (length l) + 1) * d <= / 4 -> 45 * INR (length l) * bpow radix2 (-24) <= 1 ->
  let n := length l in let p := fold_left quaternion_multiply l q0 in let E := fold_left qmul (map rq l) (rq q0) in
  finite_q p /\ qdist (rq p) E <= 30 * bpow radix2 (-24) * (INR n * (1 + d) ^ n) /\ (1 - d) ^ (n + 1) <= qnorm E <= (1 + d) ^ (n + 1).
Proof.
  intros [F0 N0] l. apply Rabs_le_inv in N0 as N0'. assert (D0 : 0 <= d) by (pose proof (Rabs_pos (qnorm (rq q0) - 1)); lra).
  induction l as [|q l IH] using rev_ind; intros FA H1 H2; cbv zeta.
  - cbn [fold_left map length INR] in * . split; auto. split.
    + unfold qdist, qnorm. replace (qdot _ _) with 0. rewrite sqrt_0; lra. unfold rq, RQ4, qdot, qadd, qscal, add3, scl3, dot; cbn; ring.
    + cbn [Nat.add pow]. lra.
  - rewrite app_length in * . cbn [length] in * . replace (length l + 1)%nat with (Datatypes.S (length l)) in * by lia. rewrite S_INR in * .
    apply Forall_app in FA as [FL FQ]. inversion FQ as [|? ? [Fq Nq] _]; subst. apply Rabs_le_inv in Nq. pose proof (pos_INR (length l)) as PL.
    pose proof (bpow_gt_0 radix2 (-24)) as U0. specialize (IH FL ltac:(nra) ltac:(nra)). cbv zeta in IH. rewrite map_app, !fold_left_app. cbn [map fold_left].
    set (n := length l) in * . set (p := fold_left quaternion_multiply l q0) in * . set (E := fold_left qmul (map rq l) (rq q0)) in * .
    destruct IH as (Fp & ER & LO & HI). set (e := qdist (rq p) E) in * .
    assert (U1 : (1 + d) ^ Datatypes.S n <= 1.5). { eapply Rle_trans; [apply pow_up; auto|]; rewrite S_INR; nra. }
    assert (U2 : (1 + d) ^ n <= 1.5). { eapply Rle_trans; [apply pow_up; auto; nra|]. nra. }
    assert (U3 : 1 <= (1 + d) ^ n) by (apply pow_R1_Rle; lra).
    assert (Dd : d <= / 8) by nra.
    assert (Ee : e <= 1). { eapply Rle_trans; [exact ER|]. assert (INR n * (1 + d) ^ n <= INR n * 1.5) by (apply Rmult_le_compat_l; auto).
      apply Rle_trans with (30 * bpow radix2 (-24) * (INR n * 1.5)); [apply Rmult_le_compat_l; [lra|auto]|]. nra. }
    assert (NP : qnorm (rq p) <= 2.5). { eapply Rle_trans; [apply (qnorm_dist _ E)|]. fold e. lra. }
    assert (B60 : 4 <= bpow radix2 60) by (change 4 with (bpow radix2 2); apply bpow_le; lia).
    destruct (C82_product p q Fp Fq ltac:(lra) ltac:(lra)) as [FP DP]. split; [exact FP|]. split.
    + eapply Rle_trans; [apply (qdist_tri _ (qmul (rq p) (rq q)))|]. rewrite qdist_mul_r. fold e.
      assert (PN : qnorm (rq p) * qnorm (rq q) <= 2.5 * 1.125) by (apply Rmult_le_compat; try apply qnorm_pos; lra).
      assert (T1 : 10 * bpow radix2 (-24) * (qnorm (rq p) * qnorm (rq q)) <= 10 * bpow radix2 (-24) * (2.5 * 1.125)) by (apply Rmult_le_compat_l; lra).
      assert (T2 : bpow radix2 (-145) <= bpow radix2 (-24)) by (apply bpow_le; lia).
      assert (T3 : e * qnorm (rq q) <= 30 * bpow radix2 (-24) * (INR n * (1 + d) ^ n) * (1 + d)).
      { apply Rmult_le_compat; auto; try apply qnorm_pos; lra. }
      cbn [pow]. assert (V : 1 <= (1 + d) * (1 + d) ^ n) by nra.
      replace (30 * bpow radix2 (-24) * ((INR n + 1) * ((1 + d) * (1 + d) ^ n))) with
        (30 * bpow radix2 (-24) * (INR n * (1 + d) ^ n) * (1 + d) + 30 * bpow radix2 (-24) * ((1 + d) * (1 + d) ^ n)) by ring.
      assert (30 * bpow radix2 (-24) * 1 <= 30 * bpow radix2 (-24) * ((1 + d) * (1 + d) ^ n)) by (apply Rmult_le_compat_l; lra). lra.
    + rewrite qnorm_mul. replace (Datatypes.S n + 1)%nat with (Datatypes.S (Datatypes.S n)) by lia. rewrite <- !(tech_pow_Rmult _ (Datatypes.S n)). pose proof (qnorm_pos E). pose proof (qnorm_pos (rq q)).
      assert (0 <= (1 - d) ^ Datatypes.S n) by (apply pow_le; lra). split.
      * rewrite (Rmult_comm (1 - d)). apply Rmult_le_compat; lra.
      * rewrite (Rmult_comm (1 + d)). apply Rmult_le_compat; lra.
Qed.
(** Composing n rotations by quaternion products: the result is within 45 n units in the last place of the exact
    product of the operands, and its length has drifted from 1 by at most as much plus what the operands' own
    lengths explain.  Any number of products, in any order of operands. *)
Theorem C82_chain : forall (q0 : quat b32) (l : list (quat b32)) (d : R), near_unit d q0 -> Forall (near_unit d) l ->
  let n := INR (length l) in (n + 1) * d <= / 4 -> 45 * n * bpow radix2 (-24) <= 1 ->
  let p := fold_left quaternion_multiply l q0 in
  finite_q p /\
  qdist (rq p) (fold_left qmul (map rq l) (rq q0)) <= 45 * n * bpow radix2 (-24) /\
  Rabs (qnorm (rq p) - 1) <= 2 * (n + 1) * d + 45 * n * bpow radix2 (-24).
Proof.
  intros q0 l d N0 FA n H1 H2 p. pose proof (bpow_gt_0 radix2 (-24)). pose proof (pos_INR (length l)).
  assert (D0 : 0 <= d) by (destruct N0 as [_ N0]; pose proof (Rabs_pos (qnorm (rq q0) - 1)); lra).
  destruct (chain_inv q0 d N0 l FA H1 H2) as (F & E & LO & HI). fold p in F, E.
  assert (U1 : (1 + d) ^ (length l + 1) <= 1 + 2 * (n + 1) * d).
  { eapply Rle_trans; [apply pow_up; auto|]; rewrite plus_INR; cbn [INR]; fold n; lra. }
  assert (U2 : (1 + d) ^ length l <= 1.5). { eapply Rle_trans; [apply pow_up; auto; fold n; nra|]. fold n. nra. }
  assert (D4 : d <= / 4) by (fold n in H0; nra).
  assert (U4 : 1 - (n + 1) * d <= (1 - d) ^ (length l + 1)). { eapply Rle_trans; [|apply pow_down; lra]. rewrite plus_INR; cbn [INR]; fold n; lra. }
  assert (EE : qdist (rq p) (fold_left qmul (map rq l) (rq q0)) <= 45 * n * bpow radix2 (-24)).
  { eapply Rle_trans; [exact E|]. fold n. assert (n * (1 + d) ^ length l <= n * 1.5) by (apply Rmult_le_compat_l; auto).
    apply Rle_trans with (30 * bpow radix2 (-24) * (n * 1.5)); [apply Rmult_le_compat_l; lra|lra]. }
  split; auto. split; auto. pose proof (qnorm_dist (rq p) (fold_left qmul (map rq l) (rq q0))). pose proof (qnorm_dist (fold_left qmul (map rq l) (rq q0)) (rq p)) as Q. rewrite qdist_sym in Q.
  assert (0 <= (n + 1) * d) by (apply Rmult_le_pos; [fold n in H0; lra|auto]). apply Rabs_le. lra.
Qed.

(** ** non-vacuity: the unit quaternions i and j *)
Example C82_chain_ex : let i : quat b32 := Qt fone fzero fzero fzero in let j : quat b32 := Qt fzero fone fzero fzero in
  near_unit 0 i /\ Forall (near_unit 0) [j; i; j] /\ (INR 3 + 1) * 0 <= / 4 /\ 45 * INR 3 * bpow radix2 (-24) <= 1.
Proof.
  assert (Z : real fzero = 0) by apply fin_of_X, fzero_X. assert (FZ : fin fzero) by (apply fin_of_X with 0; apply fzero_X). assert (FO : fin fone) by (apply fin_of_X with 1; apply fone_X).
  assert (N : forall a b c d, a * a + b * b + c * c + d * d = 1 -> qnorm (RQ4 a b c d) = 1).
  { intros a b c d H. unfold qnorm, RQ4, qdot, dot; cbn. rewrite <- sqrt_1. f_equal. lra. }
  assert (I : near_unit 0 (Qt fone fzero fzero fzero)). { split; [repeat split; assumption|]. unfold rq; cbn [qx qy qz qw]. rewrite one_real, Z, N by ring. replace (1 - 1) with 0 by ring. rewrite Rabs_R0. lra. }
  assert (J : near_unit 0 (Qt fzero fone fzero fzero)). { split; [repeat split; assumption|]. unfold rq; cbn [qx qy qz qw]. rewrite one_real, Z, N by ring. replace (1 - 1) with 0 by ring. rewrite Rabs_R0. lra. }
  cbv zeta. split; [auto|]. split; [apply Forall_cons; [exact J|apply Forall_cons; [exact I|apply Forall_cons; [exact J|apply Forall_nil]]]|]. split; [cbn; lra|]. change (bpow radix2 (-24)) with (/ 16777216). cbn. lra.
Qed.
