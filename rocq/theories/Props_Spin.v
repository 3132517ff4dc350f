(** * Props_Spin: accumulating rotations with renormalisation at every step, in binary32 (C114). *)
From Coq Require Import ZArith Reals Bool List Lra Lia Psatz.
From Flocq Require Import Core BinarySingleNaN.
From Verif Require Import Num Simd Vec Rect Box Mat Geo Quat OrdThy FloatThy B32Setup FloatLem ErrThy Props_Err Props_Err2 Props_Err3 RQuat Props_Drift.
From Verif Require Props_ToAxis Props_MatX2 Props_Slerp.
Import ListNotations.
Local Open Scope R_scope.

(** ** specification *)
(** the unit quaternion in the direction of a *)
Definition dirq (a : RQ) : RQ := qscal (/ qnorm a) a.
(** an orientation turned by each step in turn, renormalised after every one *)
Definition spin {B : Backend b32} (q0 : quat b32) (steps : list (quat b32)) : quat b32 :=
  fold_left (fun p s => quaternion_normalize (quaternion_multiply p s)) steps q0.
(** the exact composition of the rotations the quaternions stand for *)
Definition turned (q0 : quat b32) (steps : list (quat b32)) : RQ := fold_left qmul (map (fun s => dirq (rq s)) steps) (dirq (rq q0)).
(** finite, of length between 1/16 and 16 *)
Definition usable (q : quat b32) : Prop := finite_q q /\ / 16 <= qnorm (rq q) <= 16.

Lemma qscal_norm k a : qnorm (qscal k a) = Rabs k * qnorm a.
Proof. unfold qnorm. replace (qdot (qscal k a) (qscal k a)) with (Rsqr k * qdot a a) by (destruct a as [s [x y z]]; unfold qdot, qscal, scl3, dot, Rsqr; cbn; ring). rewrite sqrt_mult_alt by apply Rle_0_sqr. now rewrite sqrt_Rsqr_abs. Qed.
Lemma dirq_norm a : 0 < qnorm a -> qnorm (dirq a) = 1.
Proof. intros H. unfold dirq. rewrite qscal_norm, Rabs_pos_eq; [field; lra|left; now apply Rinv_0_lt_compat]. Qed.
Lemma dirq_mul a b : 0 < qnorm a -> 0 < qnorm b -> dirq (qmul a b) = qmul (dirq a) (dirq b).
Proof.
  intros A B. unfold dirq. rewrite qnorm_mul. rewrite Rinv_mult. generalize (/ qnorm a) (/ qnorm b). intros i j.
  destruct a as [s [x y z]], b as [t [p q r]]. unfold qmul, qscal, add3, scl3, cross, dot; cbn. f_equal; [ring|f_equal; ring].
Qed.
Lemma qdist_diff a b : Rabs (qnorm a - qnorm b) <= qdist a b.
Proof. pose proof (qnorm_dist a b). pose proof (qnorm_dist b a) as H2. rewrite qdist_sym in H2. apply Rabs_le. lra. Qed.
Lemma dirq_dist a b : 0 < qnorm a -> 0 < qnorm b -> qdist (dirq a) (dirq b) <= 2 * qdist a b / qnorm b.
Proof.
  intros A B. apply Rle_trans with (qdist (dirq a) (qscal (/ qnorm b) a) + qdist (qscal (/ qnorm b) a) (dirq b)); [apply qdist_tri|].
  assert (E1 : qdist (dirq a) (qscal (/ qnorm b) a) = Rabs (qnorm b - qnorm a) / qnorm b).
  { unfold qdist, dirq. replace (qadd _ _) with (qscal (/ qnorm a - / qnorm b) a) by (destruct a as [s [x y z]]; unfold qadd, qscal, add3, scl3; cbn; f_equal; [ring|f_equal; ring]).
    rewrite qscal_norm. replace (/ qnorm a - / qnorm b) with ((qnorm b - qnorm a) * / (qnorm a * qnorm b)) by (field; lra). rewrite Rabs_mult, (Rabs_pos_eq (/ _)) by (left; apply Rinv_0_lt_compat, Rmult_lt_0_compat; auto). field. lra. }
  assert (E2 : qdist (qscal (/ qnorm b) a) (dirq b) = qdist a b / qnorm b).
  { unfold qdist, dirq. replace (qadd _ _) with (qscal (/ qnorm b) (qadd a (qscal (-1) b))) by (destruct a as [s [x y z]], b as [t [p q r]]; unfold qadd, qscal, add3, scl3; cbn; f_equal; [ring|f_equal; ring]).
    rewrite qscal_norm, Rabs_pos_eq by (left; now apply Rinv_0_lt_compat). unfold Rdiv. ring. }
  rewrite E1, E2. pose proof (qdist_diff b a) as Q. rewrite (qdist_sym b a) in Q. assert (0 < / qnorm b) by now apply Rinv_0_lt_compat. unfold Rdiv.
  assert (Rabs (qnorm b - qnorm a) * / qnorm b <= qdist a b * / qnorm b) by (apply Rmult_le_compat_r; lra). lra.
Qed.
Lemma fin_all q : finite_q q <-> Props_ToAxis.finite_q q.
Proof. split. - intros (A & B & C & D) k. destruct k as [|[|[|[|k]]]]; assumption. - intros H. exact (conj (H 0%nat) (conj (H 1%nat) (conj (H 2%nat) (H 3%nat)))). Qed.
Lemma qsq_dot q : Props_ToAxis.qsq q = qdot (rq q) (rq q).
Proof. unfold Props_ToAxis.qsq, rq, RQ4, qdot, dot; cbn. ring. Qed.
Lemma comp4_dist a0 a1 a2 a3 b0 b1 b2 b3 e t : 0 <= e -> 0 <= t -> (forall x, In x [(a0, b0); (a1, b1); (a2, b2); (a3, b3)] -> Rabs (fst x - snd x) <= e * Rabs (snd x) + t) -> qnorm (RQ4 b0 b1 b2 b3) = 1 ->
  qdist (RQ4 a0 a1 a2 a3) (RQ4 b0 b1 b2 b3) <= e + 2 * t.
Proof.
  intros E T H N. assert (SQ : b0 * b0 + b1 * b1 + b2 * b2 + b3 * b3 = 1). { pose proof (qnorm_sq (RQ4 b0 b1 b2 b3)) as Q. rewrite N in Q. unfold RQ4, qdot, dot in Q; cbn in Q. lra. }
  assert (B1 : Rabs b0 + Rabs b1 + Rabs b2 + Rabs b3 <= 2) by now apply Props_ToAxis.mass4.
  assert (K : forall x y, In (x, y) [(a0, b0); (a1, b1); (a2, b2); (a3, b3)] -> (x - y) * (x - y) <= e * e * (y * y) + 2 * e * t * Rabs y + t * t).
  { intros x y I. specialize (H _ I). cbn [fst snd] in H. assert (Q : Rabs (x - y) * Rabs (x - y) <= (e * Rabs y + t) * (e * Rabs y + t)) by (apply Rmult_le_compat; auto using Rabs_pos).
    rewrite <- Rabs_mult, Rabs_pos_eq in Q by apply (Rle_0_sqr (x - y)). assert (Y : Rabs y * Rabs y = y * y) by (rewrite <- Rabs_mult; apply Rabs_pos_eq, (Rle_0_sqr y)). rewrite <- Y. lra. }
  pose proof (K a0 b0 ltac:(simpl; auto)) as K0. pose proof (K a1 b1 ltac:(simpl; auto)) as K1. pose proof (K a2 b2 ltac:(simpl; auto)) as K2. pose proof (K a3 b3 ltac:(simpl; auto)) as K3.
  unfold qdist, qnorm. rewrite <- (sqrt_square (e + 2 * t)) by lra. apply sqrt_le_1_alt. unfold RQ4, qdot, qadd, qscal, add3, scl3, dot; cbn.
  assert (M1 : 0 <= e * t) by now apply Rmult_le_pos.
  assert (M2 : 2 * (e * t) * (Rabs b0 + Rabs b1 + Rabs b2 + Rabs b3) <= 2 * (e * t) * 2) by (apply Rmult_le_compat_l; lra).
  assert (M3 : e * e * (b0 * b0 + b1 * b1 + b2 * b2 + b3 * b3) = e * e) by (rewrite SQ; ring). lra.
Qed.

(** one normalisation, as a vector *)
Lemma norm_step (BK : Backend b32) (m : quat b32) : estimates_ok BK -> finite_q m -> / 512 <= qnorm (rq m) <= 512 ->
  let r := quaternion_normalize m in finite_q r /\ qdist (rq r) (dirq (rq m)) <= 16.1 * u.
Proof.
  intros HB FM [N0 N1] r. pose proof (qnorm_sq (rq m)) as NS. set (n := qnorm (rq m)) in * .
  assert (NR : Props_Err3.normal_range BK (Props_ToAxis.qsq m)).
  { rewrite qsq_dot, <- NS. assert (Q1 : / 512 * / 512 <= n * n) by (apply Rmult_le_compat; lra). assert (Q2 : n * n <= 512 * 512) by (apply Rmult_le_compat; lra).
    split; [split|].
    - apply Rle_trans with (bpow radix2 (-18)); [apply bpow_le; lia|simpl; lra].
    - apply Rle_trans with (bpow radix2 18); [simpl; lra|apply bpow_le; lia].
    - destruct BK; cbn -[bpow]; auto. apply Rle_trans with (bpow radix2 (-18)); [apply bpow_le; lia|simpl; lra]. }
  assert (SQ : sqrt (Props_ToAxis.qsq m) = n) by (rewrite qsq_dot; reflexivity).
  pose proof (fun k => Props_ToAxis.C108_normalize BK m k HB (proj1 (fin_all m) FM) NR) as C. fold r in C. rewrite SQ in C. change (bpow radix2 (-20)) with (/ 1048576) in C.
  assert (I0 : 0 < / n) by (apply Rinv_0_lt_compat; lra).
  split; [exact (conj (proj1 (C 0%nat)) (conj (proj1 (C 1%nat)) (conj (proj1 (C 2%nat)) (proj1 (C 3%nat)))))|].
  assert (ET : bpow radix2 (-150) <= / 100 * u). { apply Rle_trans with (bpow radix2 (-40)); [apply bpow_le; lia|simpl; lra]. }
  assert (ED : dirq (rq m) = RQ4 (real (qx m) * / n) (real (qy m) * / n) (real (qz m) * / n) (real (qw m) * / n)).
  { unfold dirq. fold n. clearbody n. unfold rq, RQ4, qscal, scl3; cbn [qs qv Props_MatX2.r3x Props_MatX2.r3y Props_MatX2.r3z]. f_equal; [ring|f_equal; ring]. }
  assert (DN : qnorm (dirq (rq m)) = 1) by (apply dirq_norm; fold n; lra).
  rewrite ED in DN |- * . pose proof (bpow_gt_0 radix2 (-150)) as E0. apply Rle_trans with (/ 1048576 + 2 * bpow radix2 (-150)); [|lra].
  unfold rq at 1. apply comp4_dist; auto; try lra.
  assert (A : forall x, Rabs (x * / n) = Rabs x * / n) by (intros x; rewrite Rabs_mult, (Rabs_pos_eq (/ n)) by lra; reflexivity).
  intros x I. cbn [In] in I. destruct I as [<-|[<-|[<-|[<-|[]]]]]; cbn [fst snd]; rewrite A.
  - exact (proj2 (C 0%nat)).
  - exact (proj2 (C 1%nat)).
  - exact (proj2 (C 2%nat)).
  - exact (proj2 (C 3%nat)).
Qed.

(** one step: the length is restored, and the direction is that of the exact product up to 53 units *)
Lemma spin_step (BK : Backend b32) (p s : quat b32) : estimates_ok BK -> usable p -> usable s ->
  let r := quaternion_normalize (quaternion_multiply p s) in
  finite_q r /\ Rabs (qnorm (rq r) - 1) <= 16.1 * u /\ qdist (dirq (rq r)) (qmul (dirq (rq p)) (dirq (rq s))) <= 53 * u.
Proof.
  intros HB [FP NP] [FS NS] r. assert (B60 : 16 <= bpow radix2 60) by (change 16 with (bpow radix2 4); apply bpow_le; lia).
  destruct (C82_product p s FP FS ltac:(lra) ltac:(lra)) as [FM DM]. set (m := quaternion_multiply p s) in * . rewrite <- (qnorm_mul (rq p) (rq s)) in DM.
  assert (AN : / 256 <= qnorm (qmul (rq p) (rq s)) <= 256). { rewrite qnorm_mul. split; [replace (/ 256) with (/ 16 * / 16) by lra|replace 256 with (16 * 16) by lra]; apply Rmult_le_compat; lra. }
  rewrite <- (dirq_mul (rq p) (rq s)) by lra. set (A := qmul (rq p) (rq s)) in * . set (a := qnorm A) in * . change (bpow radix2 (-24)) with (/ 16777216) in DM.
  assert (ET : bpow radix2 (-145) <= / 1000 * u * / 256). { apply Rle_trans with (bpow radix2 (-50)); [apply bpow_le; lia|simpl; lra]. }
  assert (D : qdist (rq m) A <= 10.001 * u * a) by lra.
  pose proof (qdist_diff (rq m) A) as DD. fold a in DD. apply Rabs_le_inv in DD.
  destruct (norm_step BK m HB FM ltac:(lra)) as [FR DR]. fold r in FR, DR.
  assert (NM : qnorm (dirq (rq m)) = 1) by (apply dirq_norm; lra). pose proof (qdist_diff (rq r) (dirq (rq m))) as DN. rewrite NM in DN.
  split; [exact FR|split; [lra|]]. apply Rabs_le_inv in DN.
  pose proof (dirq_dist (rq m) A ltac:(lra) ltac:(fold a; lra)) as K2. fold a in K2.
  assert (K2' : 2 * qdist (rq m) A / a <= 20.002 * u). { apply Rmult_le_reg_r with a; [lra|]. unfold Rdiv. rewrite Rmult_assoc, Rinv_l by lra. lra. }
  pose proof (dirq_dist (rq r) (dirq (rq m)) ltac:(lra) ltac:(lra)) as K1. rewrite NM in K1.
  assert (DI : dirq (dirq (rq m)) = dirq (rq m)). { unfold dirq at 1. rewrite NM. rewrite Rinv_1. destruct (dirq (rq m)) as [w [x y z]]. unfold qscal, scl3; cbn. f_equal; [ring|f_equal; ring]. }
  rewrite DI in K1. pose proof (qdist_tri (dirq (rq r)) (dirq (rq m)) (dirq A)). lra.
Qed.

(** ** any number of steps: the length never drifts, and the orientation at most linearly *)
Theorem C114_spin : forall (BK : Backend b32) (q0 : quat b32) (steps : list (quat b32)), estimates_ok BK -> usable q0 -> Forall usable steps -> steps <> [] ->
  let p := spin q0 steps in
  finite_q p /\ Rabs (qnorm (rq p) - 1) <= bpow radix2 (-19) /\
  qdist (rq p) (turned q0 steps) <= (53 * INR (length steps) + 17) * bpow radix2 (-24).
Proof.
  intros BK q0 steps HB H0 HS NE p. change (bpow radix2 (-24)) with (/ 16777216). change (bpow radix2 (-19)) with (/ 524288).
  assert (G : forall l, Forall usable l -> usable (spin q0 l) /\ qdist (dirq (rq (spin q0 l))) (turned q0 l) <= 53 * u * INR (length l) /\ (l <> [] -> Rabs (qnorm (rq (spin q0 l)) - 1) <= 16.1 * u)).
  { clear p NE HS. induction l as [|s l IH] using rev_ind; intros HS.
    - split; [exact H0|]. split; [|congruence]. unfold spin, turned; cbn [fold_left map length INR]. unfold qdist, qnorm at 1. replace (qdot _ _) with 0; [rewrite sqrt_0; lra|].
      generalize (dirq (rq q0)). intros [w [x y z]]. unfold qdot, qadd, qscal, add3, scl3, dot; cbn; ring.
    - apply Forall_app in HS as [HL Hs]. inversion Hs as [|? ? Us _]; subst. destruct (IH HL) as (UP & DP & _). unfold spin, turned in * . rewrite map_app, !fold_left_app. cbn [map fold_left]. rewrite app_length; cbn [length].
      set (q := fold_left _ l q0) in * . set (E := fold_left qmul _ _) in * . replace (length l + 1)%nat with (Datatypes.S (length l)) by lia. rewrite S_INR.
      destruct (spin_step BK q s HB UP Us) as (F & N & D). split; [split; [exact F|apply Rabs_le_inv in N; lra]|]. split; [|intros _; exact N].
      eapply Rle_trans; [apply (qdist_tri _ (qmul (dirq (rq q)) (dirq (rq s))))|]. rewrite qdist_mul_r. destruct Us as [_ NS]. rewrite (dirq_norm (rq s)) by lra. lra. }
  destruct (G steps HS) as ([FP _] & D & N). fold p in FP, D, N. specialize (N NE). split; [exact FP|split; [lra|]].
  apply Rabs_le_inv in N. assert (NP : 0 < qnorm (rq p)) by lra.
  assert (DD : qdist (rq p) (dirq (rq p)) <= 16.1 * u).
  { assert (E : qdist (rq p) (dirq (rq p)) = Rabs (qnorm (rq p) - 1)).
    { unfold qdist, dirq. replace (qadd _ _) with (qscal (1 - / qnorm (rq p)) (rq p)) by (generalize (/ qnorm (rq p)); destruct (rq p) as [w [x y z]]; intros k; unfold qadd, qscal, add3, scl3; cbn; f_equal; [ring|f_equal; ring]).
      rewrite qscal_norm. rewrite <- (Rabs_pos_eq (qnorm (rq p))) at 2 by lra. rewrite <- Rabs_mult. f_equal. field. lra. }
    rewrite E. apply Rabs_le. lra. }
  eapply Rle_trans; [apply (qdist_tri _ (dirq (rq p)))|]. lra.
Qed.

(** what that means for points: the turned points are off by at most the length of the point times twice the drift *)
Theorem C114_points : forall (BK : Backend b32) (q0 : quat b32) (steps : list (quat b32)) (v : Props_MatX2.R3), estimates_ok BK -> usable q0 -> Forall usable steps -> steps <> [] ->
  let d := (53 * INR (length steps) + 17) * bpow radix2 (-24) in let n := fun w => sqrt (dot w w) in
  n (Props_MatX2.add3 (qrot (rq (spin q0 steps)) v) (scl3 (-1) (qrot (turned q0 steps) v))) <= (2 + d) * d * n v.
Proof.
  intros BK q0 steps v HB H0 HS NE d n. destruct (C114_spin BK q0 steps HB H0 HS NE) as (_ & _ & D). fold d in D. set (a := rq (spin q0 steps)) in * . set (b := turned q0 steps) in * .
  assert (NB : qnorm b = 1).
  { unfold b, turned. assert (G : forall l E, Forall usable l -> qnorm E = 1 -> qnorm (fold_left qmul (map (fun s => dirq (rq s)) l) E) = 1).
    { induction l as [|s l IH]; intros E HL HE; [exact HE|]. inversion HL as [|? ? [_ Us] HL']; subst. cbn [map fold_left]. apply IH; auto. rewrite qnorm_mul, HE, dirq_norm; lra. }
    apply G; auto. apply dirq_norm. destruct H0. lra. }
  assert (PN : forall w : Props_MatX2.R3, n w = qnorm (qpure w)) by (intros w; unfold n, qnorm, qdot, qpure; cbn [qs qv]; f_equal; ring).
  assert (CN : forall q, qnorm (qconj q) = qnorm q) by (intros [w [x y z]]; unfold qnorm, qdot, qconj, scl3, dot; cbn; f_equal; ring).
  assert (EQ : qpure (Props_MatX2.add3 (qrot a v) (scl3 (-1) (qrot b v))) = qadd (qmul (qmul a (qpure v)) (qconj a)) (qscal (-1) (qmul (qmul b (qpure v)) (qconj b)))).
  { rewrite <- !qrot_pure. generalize (qrot a v) (qrot b v). intros [x y z] [x' y' z']. unfold qpure, qadd, qscal; cbn. f_equal; [ring]. }
  rewrite !PN, EQ. change (qdist (qmul (qmul a (qpure v)) (qconj a)) (qmul (qmul b (qpure v)) (qconj b)) <= (2 + d) * d * qnorm (qpure v)).
  assert (DL : forall x y z, qdist (qmul x y) (qmul x z) = qnorm x * qdist y z).
  { intros x y z. unfold qdist. rewrite <- qnorm_mul. f_equal. destruct x as [s [p q r]], y as [s' [p' q' r']], z as [s'' [p'' q'' r'']]. unfold qmul, qadd, qscal, add3, scl3, cross, dot; cbn. f_equal; [ring|f_equal; ring]. }
  assert (DC : qdist (qconj a) (qconj b) = qdist a b).
  { unfold qdist. rewrite <- CN. f_equal. destruct a as [s [p q r]], b as [s' [p' q' r']]. unfold qconj, qadd, qscal, add3, scl3; cbn. f_equal. f_equal; ring. }
  eapply Rle_trans; [apply (qdist_tri _ (qmul (qmul a (qpure v)) (qconj b)))|]. rewrite DL, DC, qnorm_mul. rewrite qdist_mul_r, CN, NB. rewrite qdist_mul_r.
  pose proof (qnorm_dist a b) as NA. rewrite NB in NA. set (t := qnorm (qpure v)) in * . assert (T : 0 <= t) by apply qnorm_pos. set (x := qdist a b) in * . assert (X : 0 <= x) by apply qnorm_pos. pose proof (qnorm_pos a).
  assert (M : qnorm a * x <= (1 + d) * d) by (apply Rmult_le_compat; lra). assert (M2 : qnorm a * x * t <= (1 + d) * d * t) by (apply Rmult_le_compat_r; lra). assert (M3 : x * t <= d * t) by (apply Rmult_le_compat_r; lra). lra.
Qed.

(** ** the hypotheses can be met: turning the orientation i by j, then by a step of length 2, a thousand times *)
Example C114_ex : let i : quat b32 := Qt fone fzero fzero fzero in let s : quat b32 := Qt fone fone fone fone in
  usable i /\ Forall usable (repeat s 1000) /\ repeat s 1000 <> [].
Proof.
  assert (Z : real fzero = 0) by apply fin_of_X, fzero_X. assert (FZ : fin fzero) by (apply fin_of_X with 0; apply fzero_X). assert (FO : fin fone) by (apply fin_of_X with 1; apply fone_X).
  assert (N : forall a b c d t, 0 <= t -> a * a + b * b + c * c + d * d = t * t -> qnorm (RQ4 a b c d) = t).
  { intros a b c d t T H. unfold qnorm, RQ4, qdot, dot; cbn. rewrite <- (sqrt_square t) by auto. f_equal. lra. }
  assert (one_real : real fone = 1) by apply fin_of_X, fone_X. intros i s. assert (US : usable s). { split; [repeat split; assumption|]. unfold s, rq; cbn [qx qy qz qw]. rewrite one_real, (N 1 1 1 1 2); lra. }
  split; [|split; [|discriminate]].
  - split; [repeat split; assumption|]. unfold i, rq; cbn [qx qy qz qw]. rewrite one_real, Z, (N 1 0 0 0 1); lra.
  - apply Forall_forall. intros x I. apply repeat_spec in I. now rewrite I.
Qed.
