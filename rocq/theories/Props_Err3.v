(** * Props_Err3: accuracy of the approximate reciprocals and square roots, and of
    normalize (C70). *)
From Coq Require Import ZArith Reals Bool List Lra Lia Psatz.
From Flocq Require Import Core BinarySingleNaN.
From Verif Require Import Num Simd Neon Vec Rect Box Mat OrdThy FloatThy B32Setup FloatLem ErrThy Props_Err Props_Err2.
Import ListNotations.
Local Open Scope R_scope.

Lemma fmaN (x y z : b32) p q r : B2X x = Fin p -> B2X y = Fin q -> B2X z = Fin r ->
  / 2 <= p * q + r <= 4 -> exists d, Rabs d <= u /\ B2X (ffma x y z) = Fin ((p * q + r) * (1 + d)).
Proof.
  intros X Y Z A. pose proof (fin_of_X _ _ X) as [FX EX]. pose proof (fin_of_X _ _ Y) as [FY EY]. pose proof (fin_of_X _ _ Z) as [FZ EZ].
  destruct (rnd_rel (p * q + r)) as [G H].
  - apply Rle_trans with (/ 2); [|lra]. apply (bpow_le radix2 (-126) (-1)). lia.
  - apply Rle_trans with 4; [lra|]. apply (bpow_le radix2 2 127). lia.
  - exists ((rnd32 (p * q + r) - (p * q + r)) / (p * q + r)). split.
    + apply Rabs_le. split; apply Rmult_le_reg_r with (p * q + r); try lra; unfold Rdiv; rewrite Rmult_assoc, Rinv_l; lra.
    + change (ffma x y z) with (Bfma mode_NE x y z). rewrite Bfma_X by auto. rewrite EX, EY, EZ.
      etransitivity; [exact G|]. f_equal. field. lra.
Qed.
Lemma no_zti (a b : b32) : fin a -> fin b -> zero_times_inf a b = false.
Proof.
  intros A B. unfold zero_times_inf. assert (Ha : fisinf a = false) by (destruct a; try discriminate; auto).
  assert (Hb : fisinf b = false) by (destruct b; try discriminate; auto). rewrite Ha, Hb. now rewrite andb_false_r.
Qed.

(** ** one Newton step for the reciprocal *)
Lemma newton_rec e d1 d2 d3 E : Rabs e <= E -> E <= / 256 -> Rabs d1 <= u -> Rabs d2 <= u -> Rabs d3 <= u ->
  Rabs ((2 - (1 + e) * (1 + d1)) * (1 + d2) * (1 + e) * (1 + d3) - 1) <= 3.1 * u + 1.1 * (E * E).
Proof.
  intros He HE H1 H2 H3. apply Rabs_le_inv in He, H1, H2, H3.
  set (q := d2 + d3 + d2 * d3). assert (Q : - (2.001 * u) <= q <= 2.001 * u) by (unfold q; nra).
  assert (E2 : 0 <= e * e <= E * E) by nra. assert (EE : E * E <= / 65536) by nra.
  set (g := 2 * e + e * e). assert (G : - 0.009 <= g <= 0.009) by (unfold g; lra).
  set (h := (1 + g) * d1). assert (Hh : - (1.01 * u) <= h <= 1.01 * u) by (unfold h; nra).
  replace ((2 - (1 + e) * (1 + d1)) * (1 + d2) * (1 + e) * (1 + d3) - 1) with (- (e * e) - h + (1 - e * e - h) * q) by (unfold h, g, q; ring).
  set (k := 1 - e * e - h). assert (K : 0.999 <= k <= 1.001) by (unfold k; lra).
  assert (M : - (2.01 * u) <= k * q <= 2.01 * u) by nra.
  apply Rabs_le. lra.
Qed.
(** reciprocals of floats in a medium range *)
Definition midrange1 (X : R) : Prop := bpow radix2 (-62) <= X <= bpow radix2 62.
Lemma rec_facts X : midrange1 X -> let T := / X in bpow radix2 (-62) <= T <= bpow radix2 62 /\ X * T = 1 /\ 0 < T /\ 0 < X.
Proof.
  intros [A B] T. assert (HX : 0 < X) by (pose proof (bpow_gt_0 radix2 (-62)); lra).
  split; [|repeat split; auto; [unfold T; field; lra|unfold T; now apply Rinv_0_lt_compat]].
  replace (bpow radix2 (-62)) with (/ bpow radix2 62) at 1 by (rewrite <- bpow_opp; reflexivity).
  replace (bpow radix2 62) with (/ bpow radix2 (-62)) at 2 by (rewrite <- bpow_opp; reflexivity).
  unfold T. split; apply Rinv_le; auto using bpow_gt_0.
Qed.
Lemma rec_scale T e : bpow radix2 (-62) <= T <= bpow radix2 62 -> Rabs e <= / 256 -> bpow radix2 (-63) <= T * (1 + e) <= bpow radix2 63.
Proof.
  intros [A B] E. apply Rabs_le_inv in E. assert (bpow radix2 (-62) = 2 * bpow radix2 (-63)) by (apply (pb 1 (-63))).
  assert (bpow radix2 63 = 2 * bpow radix2 62) by (apply (pb 1 62)). pose proof (bpow_gt_0 radix2 (-63)). pose proof (bpow_gt_0 radix2 62). nra.
Qed.
(** [step x s] stands for 2 - x * s computed with two roundings or one *)
Lemma rec_step (x s t : b32) X e E : B2X x = Fin X -> midrange1 X -> B2X s = Fin (/ X * (1 + e)) -> Rabs e <= E -> E <= / 256 ->
  (exists d1 d2, Rabs d1 <= u /\ Rabs d2 <= u /\ B2X t = Fin ((2 - (1 + e) * (1 + d1)) * (1 + d2))) ->
  rel (3.1 * u + 1.1 * (E * E)) (fmul t s) (/ X).
Proof.
  intros HX M HS He HE (d1 & d2 & D1 & D2 & Ht). destruct (rec_facts X M) as (T1 & XT & T0 & X0). set (T := / X) in * .
  assert (He' : Rabs e <= / 256) by lra. pose proof (rec_scale T e T1 He') as S1. apply Rabs_le_inv in He'.
  assert (D1' := Rabs_le_inv _ _ D1). assert (D2' := Rabs_le_inv _ _ D2).
  assert (B : 0.98 <= (1 + e) * (1 + d1) <= 1.02) by nra.
  assert (C : 0.9 <= (2 - (1 + e) * (1 + d1)) * (1 + d2) <= 1.1) by nra.
  pose proof (bpow_gt_0 radix2 (-63)). pose proof (bpow_gt_0 radix2 63).
  assert (G := scal _ _ _ _ _ _ C ltac:(lra) S1 ltac:(lra)).
  assert (H64 : bpow radix2 (-63) = 2 * bpow radix2 (-64)) by (apply (pb 1 (-64))). bp (-126)%Z (-64)%Z. bp 64%Z 127%Z.
  assert (H65 : bpow radix2 64 = 2 * bpow radix2 63) by (apply (pb 1 63)).
  destruct (mulN t s _ _ Ht HS) as (d3 & D3 & Y); [rewrite Rabs_pos_eq; lra|rewrite Rabs_pos_eq; lra|].
  apply (rel_intro _ _ _ _ Y).
  pose proof (newton_rec e d1 d2 d3 E He HE D1 D2 D3) as N.
  replace ((2 - (1 + e) * (1 + d1)) * (1 + d2) * (T * (1 + e)) * (1 + d3) - T) with
    (((2 - (1 + e) * (1 + d1)) * (1 + d2) * (1 + e) * (1 + d3) - 1) * T) by ring.
  rewrite Rabs_mult, (Rabs_pos_eq T) by lra. apply Rmult_le_compat_r; lra.
Qed.
(** the two-rounding form *)
Lemma two_minus (x s : b32) X e : B2X x = Fin X -> midrange1 X -> B2X s = Fin (/ X * (1 + e)) -> Rabs e <= / 256 ->
  exists d1 d2, Rabs d1 <= u /\ Rabs d2 <= u /\ B2X (fsub ftwo (fmul x s)) = Fin ((2 - (1 + e) * (1 + d1)) * (1 + d2)).
Proof.
  intros HX M HS He. destruct (rec_facts X M) as (T1 & XT & T0 & X0). set (T := / X) in * . apply Rabs_le_inv in He.
  assert (P : X * (T * (1 + e)) = 1 + e) by (rewrite <- Rmult_assoc, XT; ring).
  bp (-126)%Z (-1)%Z. bp 1%Z 127%Z. assert (bpow radix2 (-1) = / 2) by reflexivity. assert (bpow radix2 1 = 2) by reflexivity.
  destruct (mulN x s _ _ HX HS) as (d1 & D1 & Y1); rewrite ?P, ?Rabs_pos_eq by lra; try lra. rewrite P in Y1. assert (D1' := Rabs_le_inv _ _ D1).
  assert (B : 0.98 <= (1 + e) * (1 + d1) <= 1.02) by nra.
  destruct (subN ftwo (fmul x s) 2 _ ftwo_X Y1) as (d2 & D2 & Y2); [rewrite Rabs_pos_eq; lra|lra|]. eauto 6.
Qed.
Lemma rel_factor k (x : b32) T : rel k x T -> 0 < T -> exists e, Rabs e <= k /\ B2X x = Fin (T * (1 + e)).
Proof.
  intros [F L] HT. exists ((real x - T) / T). split.
  - unfold Rdiv. rewrite Rabs_mult, Rabs_inv, (Rabs_pos_eq T) by lra. apply Rmult_le_reg_r with T; auto. rewrite Rmult_assoc, Rinv_l; lra.
  - rewrite (fin_X x) by auto. f_equal. field. lra.
Qed.

(** ** What the hardware promises of its first estimates *)
Definition rcp_estimate (k : R) (f : b32 -> b32) : Prop :=
  forall x, fin x -> bpow radix2 (-100) <= real x <= bpow radix2 100 -> within (k * / real x) (f x) (/ real x).
Definition rsqrt_estimate (k : R) (f : b32 -> b32) : Prop :=
  forall x, fin x -> bpow radix2 (-100) <= real x <= bpow radix2 126 -> within (k * / sqrt (real x)) (f x) (/ sqrt (real x)).
(** Intel: relative error at most 1.5 * 2^-12; ARM: at most 2^-8 *)
Definition estimates_ok (BK : Backend b32) : Prop :=
  match BK with
  | Scalar _ | Gcc => True
  | Sse _ _ rcp rsq => rcp_estimate (1.5 * bpow radix2 (-12)) rcp /\ rsqrt_estimate (1.5 * bpow radix2 (-12)) rsq
  | Neon rec rsq sq => exists fused rece rsqe, rcp_estimate (bpow radix2 (-8)) rece /\ rsqrt_estimate (bpow radix2 (-8)) rsqe /\
      rec = neon_reciprocal fused rece /\ rsq = neon_rsqrt fused rsqe /\ sq = neon_sqrt fused rece rsqe
  end.

Lemma divN (x y : b32) p q : B2X x = Fin p -> B2X y = Fin q -> 0 < p -> 0 < q ->
  bpow radix2 (-126) <= p / q <= bpow radix2 127 ->
  exists d, Rabs d <= u /\ B2X (fdiv x y) = Fin (p / q * (1 + d)).
Proof.
  intros X Y P Q A. assert (0 < p / q) by (apply Rdiv_lt_0_compat; auto).
  destruct (rnd_rel (p / q)) as [G H']; [tauto|tauto|].
  exists ((rnd32 (p / q) - (p / q)) / (p / q)). split.
  - set (w := p / q) in * . apply Rabs_le. split; apply Rmult_le_reg_r with w; try lra; unfold Rdiv; rewrite Rmult_assoc, Rinv_l; lra.
  - change (fdiv x y) with (Bdiv mode_NE x y). rewrite Bdiv_X by (fold b32; rewrite Y; intros E; injection E; lra).
    fold b32. rewrite X, Y. cbn [xdiv]. destruct (Req_EM_T q 0); [lra|].
    etransitivity; [exact G|]. f_equal. field. split; lra.
Qed.
Lemma rel_pow k (x : b32) X : rel k x X -> 0 < X -> 0 <= k <= / 2 -> 0 < real x.
Proof. intros R HX Hk. apply rel_bounds in R. nra. Qed.

(** one over a float, correctly rounded *)
Lemma rec_ieee (x : b32) : fin x -> bpow radix2 (-100) <= real x <= bpow radix2 100 -> rel u (fdiv fone x) (/ real x).
Proof.
  intros F [A B]. assert (HX : 0 < real x) by (pose proof (bpow_gt_0 radix2 (-100)); lra).
  destruct (divN fone x 1 (real x) fone_X (fin_X x F) ltac:(lra) HX) as (d & D & Y).
  { unfold Rdiv. rewrite Rmult_1_l. split.
    - apply Rle_trans with (/ bpow radix2 100); [rewrite <- bpow_opp; apply bpow_le; lia|apply Rinv_le; auto].
    - apply Rle_trans with (/ bpow radix2 (-100)); [apply Rinv_le; auto using bpow_gt_0|rewrite <- bpow_opp; apply bpow_le; lia]. }
  apply (rel_intro _ _ _ _ Y). replace (1 / real x * (1 + d) - / real x) with (d * / real x) by (field; lra).
  rewrite Rabs_mult, (Rabs_pos_eq (/ real x)) by (left; now apply Rinv_0_lt_compat). apply Rmult_le_compat_r; auto. left; now apply Rinv_0_lt_compat.
Qed.
(** square root, correctly rounded *)
Lemma sqrt_ieee (x : b32) : fin x -> bpow radix2 (-100) <= real x <= bpow radix2 126 -> rel u (fsqrt x) (sqrt (real x)).
Proof.
  intros F [A B]. destruct (sqrt_range (-50) 63 _ A B) as [C D].
  destruct (rnd_rel (sqrt (real x))) as [G H]; [bp (-126)%Z (-50)%Z; lra|bp 63%Z 127%Z; lra|].
  apply (rel_intro _ _ (rnd32 (sqrt (real x)))).
  - rewrite fsqrt_X, (fin_X x F), xsqrt_fin by (pose proof (bpow_gt_0 radix2 (-100)); lra). exact G.
  - apply Rabs_le. lra.
Qed.
(** composing: 1 / y when y is close to Y *)
Lemma inv_rel k y Y : 0 < Y -> 0 <= k <= / 256 -> (1 - k) * Y <= y <= (1 + k) * Y -> Rabs (/ y - / Y) <= k * 1.01 * / Y.
Proof.
  intros HY Hk H. assert (0 < y) by nra.
  replace (/ y - / Y) with ((Y - y) * / y * / Y) by (field; lra).
  rewrite Rabs_mult, (Rabs_pos_eq (/ Y)) by (left; now apply Rinv_0_lt_compat).
  apply Rmult_le_compat_r; [left; now apply Rinv_0_lt_compat|].
  rewrite Rabs_mult, (Rabs_pos_eq (/ y)) by (left; now apply Rinv_0_lt_compat).
  apply Rmult_le_reg_r with y; auto. rewrite Rmult_assoc, Rinv_l, Rmult_1_r by lra. apply Rabs_le. nra.
Qed.
Lemma rsq_ieee (x : b32) : fin x -> bpow radix2 (-100) <= real x <= bpow radix2 126 -> rel (2.1 * u) (fdiv fone (fsqrt x)) (/ sqrt (real x)).
Proof.
  intros F A. pose proof (sqrt_ieee x F A) as R. destruct (sqrt_range (-50) 63 _ (proj1 A) (proj2 A)) as [C D].
  assert (P : 0 < sqrt (real x)) by (pose proof (bpow_gt_0 radix2 (-50)); lra).
  pose proof (rel_bounds _ _ _ R) as RB. pose proof (inv_rel u _ _ P ltac:(lra) RB) as I.
  assert (R2 : rel u (fdiv fone (fsqrt x)) (/ real (fsqrt x))).
  { apply rec_ieee; [apply R|]. assert (bpow radix2 (-50) = 2 * bpow radix2 (-51)) by (apply (pb 1 (-51))). assert (bpow radix2 64 = 2 * bpow radix2 63) by (apply (pb 1 63)).
    bp (-100)%Z (-51)%Z. bp 64%Z 100%Z. pose proof (bpow_gt_0 radix2 (-51)). lra. }
  destruct R2 as [F2 L2]. split; auto. apply Rabs_le_inv in I, L2. assert (0 < / sqrt (real x)) by (now apply Rinv_0_lt_compat). apply Rabs_le. lra.
Qed.
(** so the promises are met by correctly rounded instructions *)
Example C70_estimates_ok_ex : forall a b, estimates_ok (Sse a b (fun x => fdiv fone x) (fun x => fdiv fone (fsqrt x))) /\ estimates_ok (neon a (fun x => fdiv fone x) (fun x => fdiv fone (fsqrt x))).
Proof.
  intros a b.
  assert (P8 : bpow radix2 (-8) = / 256) by reflexivity. assert (P12 : bpow radix2 (-12) = / 4096) by reflexivity.
  assert (A : forall k, u <= k -> rcp_estimate k (fun x => fdiv fone x)).
  { intros k K x F R. apply (rel_weak u); auto; [now apply rec_ieee|]. left. apply Rinv_0_lt_compat. pose proof (bpow_gt_0 radix2 (-100)). lra. }
  assert (B : forall k, 2.1 * u <= k -> rsqrt_estimate k (fun x => fdiv fone (fsqrt x))).
  { intros k K x F R. apply (rel_weak (2.1 * u)); auto; [now apply rsq_ieee|]. left. apply Rinv_0_lt_compat, sqrt_lt_R0. pose proof (bpow_gt_0 radix2 (-100)). lra. }
  split; [split; [apply A|apply B]; lra|]. exists a, (fun x => fdiv fone x), (fun x => fdiv fone (fsqrt x)).
  split; [apply A; lra|]. split; [apply B; lra|]. repeat split.
Qed.

(** ** the NEON refinement steps *)
Lemma neon_rsqrt_step fused (x s : b32) X e E : B2X x = Fin X -> midrange X -> B2X s = Fin (/ sqrt X * (1 + e)) -> Rabs e <= E -> E <= / 256 ->
  rel (4.1 * u + 1.6 * (E * E)) (neon_rsqrt_iter fused x s) (/ sqrt X).
Proof.
  intros HX M HS He HE. destruct (rsq_facts X M) as (T1 & Q1 & XT & QT & T0). set (T := / sqrt X) in * . set (Q := sqrt X) in * .
  assert (He' : Rabs e <= / 256) by lra. pose proof (scaleT T e T1 He') as S1. apply Rabs_le_inv in He'.
  assert (R1 : T * (1 + e) * X = Q * (1 + e)) by (rewrite <- XT; ring).
  assert (Q2 : bpow radix2 (-31) <= Q * (1 + e) <= bpow radix2 63).
  { assert (bpow radix2 (-30) = 2 * bpow radix2 (-31)) by (apply (pb 1 (-31))). assert (bpow radix2 63 = 2 * bpow radix2 62) by (apply (pb 1 62)).
    pose proof (bpow_gt_0 radix2 (-31)). pose proof (bpow_gt_0 radix2 62). nra. }
  bp (-126)%Z (-31)%Z. bp 63%Z 127%Z. pose proof (bpow_gt_0 radix2 (-31)).
  destruct (mulN s x (T * (1 + e)) X HS HX) as (d1 & D1 & Y1); rewrite ?R1, ?Rabs_pos_eq by lra; try lra.
  rewrite R1 in Y1. set (est1 := fmul s x) in * .
  assert (P2 : Q * (1 + e) * (1 + d1) * (T * (1 + e)) = (1 + e) * ((1 + e) * (1 + d1))) by (transitivity ((Q * T) * ((1 + e) * ((1 + e) * (1 + d1)))); [ring|rewrite QT; ring]).
  assert (D1' := Rabs_le_inv _ _ D1).
  assert (B2 : 0.98 <= (1 + e) * ((1 + e) * (1 + d1)) <= 1.02).
  { assert (0.99 <= (1 + e) * (1 + e) <= 1.01) by nra. nra. }
  bp (-126)%Z (-1)%Z. bp 1%Z 127%Z. assert (bpow radix2 (-1) = / 2) by reflexivity. assert (bpow radix2 1 = 2) by reflexivity.
  bp 2%Z 127%Z. assert (bpow radix2 2 = 4) by reflexivity.
  assert (ST : exists d2 d3, Rabs d2 <= u /\ Rabs d3 <= u /\
    B2X (if fused then ffma (fneg est1) s fthree else fsub fthree (fmul est1 s)) = Fin ((3 - (1 + e) * ((1 + e) * (1 + d1)) * (1 + d2)) * (1 + d3))).
  { destruct fused.
    - assert (N1 : B2X (fneg est1) = Fin (- (Q * (1 + e) * (1 + d1)))) by (rewrite fneg_X, Y1; reflexivity).
      assert (P3 : - (Q * (1 + e) * (1 + d1)) * (T * (1 + e)) + 3 = 3 - (1 + e) * ((1 + e) * (1 + d1)) * (1 + 0)) by (rewrite <- P2; ring).
      destruct (fmaN (fneg est1) s fthree _ _ _ N1 HS fthree_X) as (d3 & D3 & Y3); [rewrite P3; lra|].
      exists 0, d3. rewrite P3 in Y3. repeat split; auto. rewrite Rabs_R0; lra.
    - destruct (mulN est1 s _ _ Y1 HS) as (d2 & D2 & Y2); rewrite ?P2, ?Rabs_pos_eq by lra; try lra. rewrite P2 in Y2. assert (D2' := Rabs_le_inv _ _ D2).
      assert (B3 : 0.97 <= (1 + e) * ((1 + e) * (1 + d1)) * (1 + d2) <= 1.03) by nra.
      destruct (subN fthree (fmul est1 s) 3 _ fthree_X Y2) as (d3 & D3 & Y3); [rewrite Rabs_pos_eq; lra|lra|]. eauto 6. }
  destruct ST as (d2 & d3 & D2 & D3 & Y3). assert (D2' := Rabs_le_inv _ _ D2). assert (D3' := Rabs_le_inv _ _ D3).
  unfold neon_rsqrt_iter, neon_rsqrts. fold est1.
  rewrite no_zti; [|now destruct (fin_of_X _ _ Y1)|now destruct (fin_of_X _ _ HS)].
  set (st := if fused then ffma (fneg est1) s fthree else fsub fthree (fmul est1 s)) in * .
  set (b := (1 + e) * ((1 + e) * (1 + d1)) * (1 + d2)) in * . assert (B3 : 0.97 <= b <= 1.03) by (unfold b; nra).
  assert (C : 1.9 <= (3 - b) * (1 + d3) <= 2.1) by nra.
  destruct (mulN st fhalf _ _ Y3 fhalf_X) as (d4 & D4 & Y4); [rewrite Rabs_pos_eq; lra|rewrite Rabs_pos_eq; lra|]. assert (D4' := Rabs_le_inv _ _ D4).
  assert (C4 : 0.9 <= (3 - b) * (1 + d3) * / 2 * (1 + d4) <= 1.1) by nra.
  pose proof (bpow_gt_0 radix2 (-63)). pose proof (bpow_gt_0 radix2 31).
  pose proof (scal _ _ _ _ _ _ S1 ltac:(lra) C4 ltac:(lra)) as G.
  assert (H64 : bpow radix2 (-63) = 2 * bpow radix2 (-64)) by (apply (pb 1 (-64))). bp (-126)%Z (-64)%Z.
  bp 32%Z 127%Z. assert (H33 : bpow radix2 32 = 2 * bpow radix2 31) by (apply (pb 1 31)). pose proof (bpow_gt_0 radix2 (-64)).
  destruct (mulN s (fmul st fhalf) _ _ HS Y4) as (d5 & D5 & Y5); [rewrite Rabs_pos_eq; lra|rewrite Rabs_pos_eq; lra|].
  apply (rel_intro _ _ _ _ Y5).
  pose proof (newton_num e d1 d2 d3 d4 d5 E He HE D1 D2 D3 D4 D5) as N. fold b in N.
  replace (T * (1 + e) * ((3 - b) * (1 + d3) * / 2 * (1 + d4)) * (1 + d5) - T) with
    (((1 + e) / 2 * (3 - b) * (1 + d3) * (1 + d4) * (1 + d5) - 1) * T) by (unfold Rdiv; ring).
  rewrite Rabs_mult, (Rabs_pos_eq T) by lra. apply Rmult_le_compat_r; lra.
Qed.
Lemma neon_rec_step fused (x s : b32) X e E : B2X x = Fin X -> midrange1 X -> B2X s = Fin (/ X * (1 + e)) -> Rabs e <= E -> E <= / 256 ->
  rel (3.1 * u + 1.1 * (E * E)) (fmul (neon_recps fused s x) s) (/ X).
Proof.
  intros HX M HS He HE. apply (rec_step x s _ X e E HX M HS He HE). unfold neon_recps.
  rewrite no_zti; [|now destruct (fin_of_X _ _ HS)|now destruct (fin_of_X _ _ HX)].
  destruct fused; [|rewrite fmul_comm; apply (two_minus x s X e HX M HS); lra].
  destruct (rec_facts X M) as (T1 & XT & T0 & X0). set (T := / X) in * .
  assert (N1 : B2X (fneg s) = Fin (- (T * (1 + e)))) by (rewrite fneg_X, HS; reflexivity).
  assert (He' : Rabs e <= / 256) by lra. apply Rabs_le_inv in He'.
  assert (P3 : - (T * (1 + e)) * X + 2 = 2 - (1 + e) * (1 + 0)) by (replace (- (T * (1 + e)) * X + 2) with (2 - (X * T) * (1 + e)) by ring; rewrite XT; ring).
  destruct (fmaN (fneg s) x ftwo _ _ _ N1 HX ftwo_X) as (d3 & D3 & Y3); [rewrite P3; lra|rewrite P3 in Y3].
  exists 0, d3; repeat split; auto; rewrite Rabs_R0; lra.
Qed.

Lemma mid_mid1 (x : b32) : fin x -> midrange (real x) -> bpow radix2 (-100) <= real x <= bpow radix2 126.
Proof. intros F [A B]. bp (-100)%Z (-60)%Z. bp 124%Z 126%Z. lra. Qed.
Lemma neon_rsqrt_rel fused rsqe (x : b32) : rsqrt_estimate (bpow radix2 (-8)) rsqe -> fin x -> midrange (real x) ->
  rel (4.2 * u) (neon_rsqrt fused rsqe x) (/ sqrt (real x)).
Proof.
  intros HE F M. assert (P8 : bpow radix2 (-8) = / 256) by reflexivity. pose proof (fin_X x F) as X.
  destruct (rsq_facts _ M) as (_ & _ & _ & _ & T0).
  assert (R0 : rel (/ 256) (rsqe x) (/ sqrt (real x))) by (rewrite <- P8; apply HE; auto; now apply mid_mid1).
  apply rel_factor in R0 as (e0 & E0 & Y0); auto.
  pose proof (neon_rsqrt_step fused x _ _ e0 _ X M Y0 E0 ltac:(lra)) as R1. apply rel_factor in R1 as (e1 & E1 & Y1); auto.
  pose proof (neon_rsqrt_step fused x _ _ e1 (/ 30000) X M Y1 ltac:(lra) ltac:(lra)) as R2. apply rel_factor in R2 as (e2 & E2 & Y2); auto.
  pose proof (neon_rsqrt_step fused x _ _ e2 (/ 1000000) X M Y2 ltac:(lra) ltac:(lra)) as R3.
  eapply rel_weak; [exact R3|lra|lra].
Qed.
Lemma neon_rec_rel fused rece (x : b32) : rcp_estimate (bpow radix2 (-8)) rece -> fin x -> midrange1 (real x) ->
  rel (3.2 * u) (neon_reciprocal fused rece x) (/ real x).
Proof.
  intros HE F M. assert (P8 : bpow radix2 (-8) = / 256) by reflexivity. pose proof (fin_X x F) as X.
  destruct (rec_facts _ M) as (_ & _ & T0 & _).
  assert (R0 : rel (/ 256) (rece x) (/ real x)). { rewrite <- P8; apply HE; auto. destruct M. bp (-100)%Z (-62)%Z. bp 62%Z 100%Z. lra. }
  apply rel_factor in R0 as (e0 & E0 & Y0); auto.
  pose proof (neon_rec_step fused x _ _ e0 _ X M Y0 E0 ltac:(lra)) as R1. apply rel_factor in R1 as (e1 & E1 & Y1); auto.
  pose proof (neon_rec_step fused x _ _ e1 (/ 50000) X M Y1 ltac:(lra) ltac:(lra)) as R2.
  eapply rel_weak; [exact R2|lra|lra].
Qed.

(** ** square roots, reciprocal square roots and reciprocals on every back end *)
Definition range (X : R) : Prop := bpow radix2 (-60) <= X <= bpow radix2 120.
Definition scalar_cutoff (BK : Backend b32) (X : R) : Prop := match BK with Scalar _ => bpow radix2 (-22) <= X | _ => True end.
Lemma U21 : bpow radix2 (-21) = 8 * u. Proof. simpl. lra. Qed.
Lemma U20 : bpow radix2 (-20) = 16 * u. Proof. simpl. lra. Qed.
Lemma range_mid X : range X -> midrange X. Proof. intros [A B]. bp 120%Z 124%Z. unfold midrange. lra. Qed.
Lemma lane_rsqrt_rel (BK : Backend b32) (x : b32) : estimates_ok BK -> fin x -> range (real x) -> scalar_cutoff BK (1.5 * real x) ->
  rel (8 * u) (lane_rsqrt x) (/ sqrt (real x)).
Proof.
  intros HB F R C. pose proof (range_mid _ R) as M. pose proof (mid_mid1 x F M) as M1. destruct (rsq_facts _ M) as (_ & _ & _ & _ & T0).
  unfold lane_rsqrt. destruct BK as [ie| |s4 fm rcp rsq|rec rsq sq]; cbv [backend] in *; cbn [scalar_cutoff estimates_ok] in * .
  - replace (flt feps (fabs x)) with true.
    + apply rel_weak with (2.1 * u); [now apply rsq_ieee|lra|lra].
    + symmetry. rewrite flt_X, feps_X, fabs_X, (fin_X x F). cbn [xabs]. apply xlt_fin.
      assert (bpow radix2 (-22) = / 4194304) by reflexivity. pose proof (bpow_gt_0 radix2 (-100)). rewrite Rabs_pos_eq by lra. lra.
  - replace (feqb x fzero) with false.
    + apply rel_weak with (2.1 * u); [now apply rsq_ieee|lra|lra].
    + symmetry. rewrite feqb_X, fzero_X, (fin_X x F). pose proof (bpow_gt_0 radix2 (-60)). destruct R. cbn [xeqb]. destruct (Req_EM_T (real x) 0); [lra|auto].
  - destruct HB as [_ HB]. assert (P12 : 1.5 * bpow radix2 (-12) = 3 / 8192) by (simpl; lra).
    assert (R0 : rel (3 / 8192) (rsq x) (/ sqrt (real x))) by (rewrite <- P12; now apply HB).
    apply rel_factor in R0 as (e & E & Y); auto.
    eapply rel_weak; [apply (sse_step x (rsq x) _ e (3 / 8192) (fin_X x F) M Y E); lra|lra|lra].
  - destruct HB as (fu & rece & rsqe & _ & HE & _ & -> & _). apply rel_weak with (4.2 * u); [now apply neon_rsqrt_rel|lra|lra].
Qed.
Lemma lane_sqrt_rel (BK : Backend b32) (x : b32) : estimates_ok BK -> fin x -> range (real x) -> rel (8 * u) (lane_sqrt x) (sqrt (real x)).
Proof.
  intros HB F R. pose proof (range_mid _ R) as M. pose proof (mid_mid1 x F M) as M1. destruct (rsq_facts _ M) as (T1 & Q1 & XT & QT & T0).
  assert (P : 0 < sqrt (real x)) by (pose proof (bpow_gt_0 radix2 (-30)); lra).
  unfold lane_sqrt. destruct BK as [ie| |s4 fm rcp rsq|rec rsq sq]; cbv [backend] in *; try (apply rel_weak with u; [now apply sqrt_ieee|lra|lra]).
  destruct HB as (fu & rece & rsqe & HE1 & HE2 & _ & _ & ->). unfold neon_sqrt.
  replace (feqb x fzero) with false. 2:{ symmetry. rewrite feqb_X, fzero_X, (fin_X x F). pose proof (bpow_gt_0 radix2 (-60)). destruct R. cbn [xeqb]. destruct (Req_EM_T (real x) 0); [lra|auto]. }
  cbn [andb]. pose proof (neon_rsqrt_rel fu rsqe x HE2 F M) as R1. pose proof (rel_bounds _ _ _ R1) as RB.
  set (r := neon_rsqrt fu rsqe x) in * . set (T := / sqrt (real x)) in * .
  assert (Mr : midrange1 (real r)).
  { assert (T2 : bpow radix2 (-60) <= T).
    { destruct R as [A B]. destruct (sqrt_range (-30) 60 _ A B). unfold T. replace (bpow radix2 (-60)) with (/ bpow radix2 60) by (rewrite <- bpow_opp; reflexivity). apply Rinv_le; auto. }
    assert (bpow radix2 (-60) = 4 * bpow radix2 (-62)) by (apply (pb 2 (-62))). assert (bpow radix2 62 = 4294967296 * bpow radix2 30) by (apply (pb 32 30)).
    pose proof (bpow_gt_0 radix2 (-62)). pose proof (bpow_gt_0 radix2 30). unfold midrange1. lra. }
  pose proof (neon_rec_rel fu rece r HE1 (proj1 R1) Mr) as [F2 L2]. pose proof (inv_rel (4.2 * u) (real r) T T0 ltac:(lra) RB) as I.
  assert (IT : / T = sqrt (real x)) by (unfold T; rewrite Rinv_inv; reflexivity).
  rewrite IT in I. split; auto. apply Rabs_le_inv in I, L2. apply Rabs_le. lra.
Qed.

Theorem C70_sqrt : forall (BK : Backend b32) (v : V) (i : nat), (i < 4)%nat -> estimates_ok BK ->
  let x := g_get v i in fin x -> range (real x) ->
  within (bpow radix2 (-21) * sqrt (real x)) (g_get (g_sqrt v) i) (sqrt (real x)).
Proof.
  intros BK v i Hi HB x F R. rewrite U21. pose proof (lane_sqrt_rel BK x HB F R) as L.
  do 4 (destruct i as [|i]; [exact L|]). lia.
Qed.
Theorem C70_rsqrt : forall (BK : Backend b32) (v : V) (i : nat), (i < 4)%nat -> estimates_ok BK ->
  let x := g_get v i in fin x -> range (real x) -> scalar_cutoff BK (real x) ->
  within (bpow radix2 (-21) * / sqrt (real x)) (g_get (g_rsqrt v) i) (/ sqrt (real x)).
Proof.
  intros BK v i Hi HB x F R C. rewrite U21. assert (C' : scalar_cutoff BK (1.5 * real x)).
  { destruct BK; auto. unfold scalar_cutoff in * . pose proof (bpow_gt_0 radix2 (-22)). lra. }
  pose proof (lane_rsqrt_rel BK x HB F R C') as L.
  do 4 (destruct i as [|i]; [exact L|]). lia.
Qed.
Theorem C70_reciprocal : forall (BK : Backend b32) (v : V) (i : nat), (i < 4)%nat -> estimates_ok BK ->
  let x := g_get v i in fin x -> bpow radix2 (-22) <= real x <= bpow radix2 62 ->
  within (bpow radix2 (-21) * / real x) (g_get (g_reciprocal v) i) (/ real x).
Proof.
  intros BK v i Hi HB x F R. rewrite U21.
  assert (L : rel (8 * u) (lane_reciprocal x) (/ real x)).
  { assert (R1 : bpow radix2 (-100) <= real x <= bpow radix2 100) by (bp (-100)%Z (-22)%Z; bp 62%Z 100%Z; lra).
    assert (M : midrange1 (real x)) by (unfold midrange1; bp (-62)%Z (-22)%Z; lra). destruct (rec_facts _ M) as (_ & XT & T0 & X0).
    pose proof (rec_ieee x F R1) as I. assert (I8 : rel (8 * u) (fdiv fone x) (/ real x)) by (apply rel_weak with u; [exact I|lra|lra]).
    assert (G : rcp_guard x = fdiv fone x).
    { unfold rcp_guard. replace (flt feps (fabs x)) with true; auto. symmetry. rewrite flt_X, feps_X, fabs_X, (fin_X x F). cbn [xabs]. apply xlt_fin.
      assert (bpow radix2 (-22) = / 4194304) by reflexivity. rewrite Rabs_pos_eq by lra. lra. }
    unfold lane_reciprocal. destruct BK as [[]| |s4 fm rcp rsq|rec rsq sq]; cbv [backend] in *; cbn [estimates_ok] in *; rewrite ?G; auto.
    - destruct HB as [HB _]. assert (P12 : 1.5 * bpow radix2 (-12) = 3 / 8192) by (simpl; lra).
      assert (R0 : rel (3 / 8192) (rcp x) (/ real x)) by (rewrite <- P12; now apply HB).
      apply rel_factor in R0 as (e & E & Y); auto.
      replace (feqb x fzero) with false by (symmetry; rewrite feqb_X, fzero_X, (fin_X x F); cbn [xeqb]; destruct (Req_EM_T (real x) 0); [lra|auto]).
      cbv zeta. rewrite fmul_comm. eapply rel_weak; [apply (rec_step x (rcp x) _ _ e (3 / 8192) (fin_X x F) M Y E); [lra|apply (two_minus x (rcp x) _ e (fin_X x F) M Y); lra]|lra|lra].
    - destruct HB as (fu & rece & rsqe & HE & _ & -> & _). apply rel_weak with (3.2 * u); [now apply neon_rec_rel|lra|lra]. }
  do 4 (destruct i as [|i]; [exact L|]). lia.
Qed.

(** ** normalize *)
Definition normal_range (BK : Backend b32) (S : R) : Prop :=
  bpow radix2 (-44) <= S <= bpow radix2 118 /\ scalar_cutoff BK S.
Lemma near_range (BK : Backend b32) (s : b32) S : rel (4.01 * u) s S -> normal_range BK S ->
  range (real s) /\ scalar_cutoff BK (1.5 * real s) /\ Rabs (sqrt (real s) - sqrt S) <= 2.0051 * u * sqrt S /\ 0 < sqrt S /\ 0 < S /\
  bpow radix2 (-22) <= sqrt S.
Proof.
  intros R [[A B] C]. pose proof (bpow_gt_0 radix2 (-44)). pose proof (rel_bounds _ _ _ R) as RB.
  assert (HS : 0 < S) by lra. pose proof (sqrt_lt_R0 S HS) as P.
  assert (bpow radix2 (-44) = 65536 * bpow radix2 (-60)) by (apply (pb 16 (-60))). assert (bpow radix2 120 = 4 * bpow radix2 118) by (apply (pb 2 118)).
  pose proof (bpow_gt_0 radix2 118). pose proof (bpow_gt_0 radix2 (-60)).
  split; [unfold range; lra|]. split; [destruct BK; auto; unfold scalar_cutoff in *; pose proof (bpow_gt_0 radix2 (-22)); lra|].
  split; [|repeat split; auto; now apply (sqrt_range (-22) 59)].
  pose proof (sqrt_rel (4.01 * u) _ S HS ltac:(lra) (proj2 R)) as E.
  assert (K : 4.01 * u / (2 - 4.01 * u) <= 2.0051 * u) by (apply Rmult_le_reg_r with (2 - 4.01 * u); [lra|]; unfold Rdiv; rewrite Rmult_assoc, Rinv_l; lra).
  eapply Rle_trans; [exact E|]. apply Rmult_le_compat_r; lra.
Qed.
Lemma comp_norm (v r : b32) T : 0 < T -> fin v -> rel (10.2 * u) r T -> Rabs (real v) * T <= 1 ->
  within (bpow radix2 (-20) * (Rabs (real v) * T) + eta) (fmul v r) (real v * T).
Proof.
  intros HT F [Fr Lr] H. rewrite U20. set (w := Rabs (real v) * T) in * .
  assert (W : 0 <= w) by (unfold w; pose proof (Rabs_pos (real v)); nra).
  assert (A : Rabs (real v * real r - real v * T) <= 10.2 * u * w).
  { replace (real v * real r - real v * T) with (real v * (real r - T)) by ring. rewrite Rabs_mult. unfold w.
    replace (10.2 * u * (Rabs (real v) * T)) with (Rabs (real v) * (10.2 * u * T)) by ring. apply Rmult_le_compat_l; auto. apply Rabs_pos. }
  assert (AT : Rabs (real v * T) = w) by (unfold w; rewrite Rabs_mult, (Rabs_pos_eq T); lra).
  assert (B : Rabs (real v * real r) <= 1.01 * w).
  { replace (real v * real r) with ((real v * real r - real v * T) + real v * T) by ring. eapply Rle_trans; [apply Rabs_triang|]. lra. }
  assert (P127 : 2 <= bpow radix2 127) by (apply (bpow_le radix2 1 127); lia).
  pose proof (ap_mul0 v r F Fr ltac:(lra)) as M. apply ap_fin in M as [FM M]. split; auto. rewrite u32_val in M.
  apply Rabs_le_inv in A. apply Rabs_le_inv in M. apply Rabs_le. lra.
Qed.
Lemma norm_core (BK : Backend b32) (s v : b32) S : estimates_ok BK -> rel (4.01 * u) s S -> normal_range BK S -> fin v -> real v * real v <= S ->
  within (bpow radix2 (-20) * (Rabs (real v) * / sqrt S) + eta) (fmul v (lane_rsqrt s)) (real v * / sqrt S) /\
  flt feps (fabs (lane_sqrt s)) = true /\ within (bpow radix2 (-20) * sqrt S) (lane_sqrt s) (sqrt S).
Proof.
  intros HB R N F V. destruct (near_range BK s S R N) as (Rs & Cs & E & P & HS & SL). pose proof R as [Fs _].
  assert (L : rel (10.2 * u) (lane_sqrt s) (sqrt S)).
  { destruct (lane_sqrt_rel BK s HB Fs Rs) as [FL L]. split; auto. apply Rabs_le_inv in L, E. apply Rabs_le. lra. }
  split; [|split].
  - apply comp_norm; auto; [now apply Rinv_0_lt_compat| |].
    + destruct (lane_rsqrt_rel BK s HB Fs Rs Cs) as [FL L']. split; auto.
      assert (E' := Rabs_le_inv _ _ E). pose proof (inv_rel (2.0051 * u) (sqrt (real s)) (sqrt S) P ltac:(lra) ltac:(lra)) as I.
      apply Rabs_le_inv in I, L'. assert (0 < / sqrt S) by (now apply Rinv_0_lt_compat). apply Rabs_le. lra.
    + apply Rmult_le_reg_r with (sqrt S); auto. rewrite Rmult_assoc, Rinv_l, Rmult_1_r, Rmult_1_l by lra.
      rewrite <- sqrt_Rsqr_abs. apply sqrt_le_1_alt. exact V.
  - rewrite flt_X, feps_X, fabs_X, (fin_X _ (proj1 L)). cbn [xabs]. apply xlt_fin. pose proof (rel_bounds _ _ _ L).
    assert (bpow radix2 (-22) = / 4194304) by reflexivity. rewrite Rabs_pos_eq by lra. lra.
  - rewrite U20. eapply rel_weak; [exact L|lra|lra].
Qed.
(** every component of the result is within 2^-20, relatively, of the exact one *)
Definition normalized (v : V) (S : R) (get : V -> b32) (n : V) : Prop :=
  within (bpow radix2 (-20) * (Rabs (real (get v)) * / sqrt S) + bpow radix2 (-150)) (get n) (real (get v) * / sqrt S).
Theorem C70_normalize2 : forall (BK : Backend b32) (v : V), estimates_ok BK -> finite2 v -> normal_range BK (dot2 v v) ->
  Forall (fun get => normalized v (dot2 v v) get (vec2_normalize v)) [vec2_get_x; vec2_get_y].
Proof.
  intros BK v HB F N. pose proof F as (F1 & F2).
  pose proof (C70_dot2 BK v v F F) as D. rewrite adot2_self in D. destruct N as [[A B] C] eqn:EN. clear EN.
  assert (R : rel (4.01 * u) (vec2_dot v v) (dot2 v v)) by (apply tol_rel; [apply D; bp 118%Z 126%Z; lra|bp (-100)%Z (-44)%Z; lra]).
  assert (N' : normal_range BK (dot2 v v)) by (split; auto).
  assert (K : forall x, fin x -> real x * real x <= dot2 v v -> _) by (intros x Fx Hx; exact (norm_core BK _ x _ HB R N' Fx Hx)).
  assert (E : vec2_normalize v = g_normalize2 v).
  { unfold vec2_normalize. change (vec2_length v) with (lane_sqrt (vec2_dot v v)). destruct (K (vx v)) as (_ & E & _); [auto|unfold dot2; nra|]. now rewrite E. }
  rewrite E. apply Forall_cons; [|apply Forall_cons; [|apply Forall_nil]]; apply K; auto; unfold dot2, vec2_get_x, vec2_get_y, g_get_x, g_get_y; nra.
Qed.
Theorem C70_normalize3 : forall (BK : Backend b32) (v : V), estimates_ok BK -> finite3 v -> normal_range BK (dot3 v v) ->
  Forall (fun get => normalized v (dot3 v v) get (vec3_normalize v)) [vec3_get_x; vec3_get_y; vec3_get_z].
Proof.
  intros BK v HB F N. pose proof F as (F1 & F2 & F3).
  pose proof (C70_dot3 BK v v F F) as D. rewrite adot3_self in D. destruct N as [[A B] C] eqn:EN. clear EN.
  assert (R : rel (4.01 * u) (vec3_dot v v) (dot3 v v)) by (apply tol_rel; [apply D; bp 118%Z 126%Z; lra|bp (-100)%Z (-44)%Z; lra]).
  assert (N' : normal_range BK (dot3 v v)) by (split; auto).
  assert (K : forall x, fin x -> real x * real x <= dot3 v v -> _) by (intros x Fx Hx; exact (norm_core BK _ x _ HB R N' Fx Hx)).
  assert (E : vec3_normalize v = g_normalize3 v).
  { unfold vec3_normalize. change (vec3_length v) with (lane_sqrt (vec3_dot v v)). destruct (K (vx v)) as (_ & E & _); [auto|unfold dot3, dot2; nra|]. now rewrite E. }
  rewrite E. apply Forall_cons; [|apply Forall_cons; [|apply Forall_cons; [|apply Forall_nil]]]; apply K; auto; unfold dot3, dot2, vec3_get_x, vec3_get_y, vec3_get_z, g_get_x, g_get_y, g_get_z; nra.
Qed.
Theorem C70_normalize4 : forall (BK : Backend b32) (v : V), estimates_ok BK -> finite4 v -> normal_range BK (dot4 v v) ->
  Forall (fun get => normalized v (dot4 v v) get (vec4_normalize v)) [vec4_get_x; vec4_get_y; vec4_get_z; vec4_get_w].
Proof.
  intros BK v HB F N. pose proof F as (F1 & F2 & F3 & F4).
  pose proof (C70_dot4 BK v v F F) as D. rewrite adot4_self in D. destruct N as [[A B] C] eqn:EN. clear EN.
  assert (R : rel (4.01 * u) (vec4_dot v v) (dot4 v v)) by (apply tol_rel; [apply D; bp 118%Z 126%Z; lra|bp (-100)%Z (-44)%Z; lra]).
  assert (N' : normal_range BK (dot4 v v)) by (split; auto).
  assert (K : forall x, fin x -> real x * real x <= dot4 v v -> _) by (intros x Fx Hx; exact (norm_core BK _ x _ HB R N' Fx Hx)).
  assert (E : vec4_normalize v = g_normalize4 v).
  { unfold vec4_normalize. change (vec4_length v) with (lane_sqrt (vec4_dot v v)). destruct (K (vx v)) as (_ & E & _); [auto|unfold dot4, dot3, dot2; nra|]. now rewrite E. }
  rewrite E. apply Forall_cons; [|apply Forall_cons; [|apply Forall_cons; [|apply Forall_cons; [|apply Forall_nil]]]]; apply K; auto; unfold dot4, dot3, dot2, vec4_get_x, vec4_get_y, vec4_get_z, vec4_get_w, g_get_x, g_get_y, g_get_z, g_get_w; nra.
Qed.
(** so the result has length 1 up to 2^-18, on every back end *)
Lemma sq_close x t : Rabs t <= 1 -> Rabs (x - t) <= bpow radix2 (-20) * Rabs t + bpow radix2 (-150) -> Rabs (x * x - t * t) <= 2.1 * bpow radix2 (-20) * (t * t) + bpow radix2 (-140).
Proof.
  intros T H. assert (E0 : bpow radix2 (-140) = 1024 * eta) by (apply (pb 10 (-150))). pose proof eta_pos. pose proof eta_1. rewrite U20, E0 in * .
  replace (x * x - t * t) with ((x - t) * (x - t) + 2 * t * (x - t)) by ring.
  set (a := Rabs t) in * . assert (A : 0 <= a) by apply Rabs_pos. assert (TT : t * t = a * a) by (unfold a; rewrite <- Rabs_mult, Rabs_pos_eq; nra).
  eapply Rle_trans; [apply Rabs_triang|]. rewrite !Rabs_mult, (Rabs_pos_eq 2) by lra. fold a. set (d := Rabs (x - t)) in * . assert (D : 0 <= d) by apply Rabs_pos.
  assert (d * d <= (16 * u * a + eta) * (16 * u * a + eta)) by nra. assert (2 * a * d <= 2 * a * (16 * u * a + eta)) by nra.
  rewrite TT. nra.
Qed.
Theorem C70_normalize_unit : forall (BK : Backend b32) (v : V), estimates_ok BK ->
  (finite2 v -> normal_range BK (dot2 v v) -> let n := vec2_normalize v in finite2 n /\ Rabs (dot2 n n - 1) <= bpow radix2 (-18)) /\
  (finite3 v -> normal_range BK (dot3 v v) -> let n := vec3_normalize v in finite3 n /\ Rabs (dot3 n n - 1) <= bpow radix2 (-18)) /\
  (finite4 v -> normal_range BK (dot4 v v) -> let n := vec4_normalize v in finite4 n /\ Rabs (dot4 n n - 1) <= bpow radix2 (-18)).
Proof.
  intros BK v HB.
  assert (P18 : bpow radix2 (-18) = 4 * bpow radix2 (-20)) by (apply (pb 2 (-20))). assert (P140 : bpow radix2 (-140) <= / 100 * bpow radix2 (-20)).
  { apply Rle_trans with (bpow radix2 (-27)); [apply bpow_le; lia|]. simpl. lra. }
  pose proof (bpow_gt_0 radix2 (-20)).
  assert (K : forall S x n, bpow radix2 (-44) <= S -> real x * real x <= S -> within (bpow radix2 (-20) * (Rabs (real x) * / sqrt S) + bpow radix2 (-150)) n (real x * / sqrt S) ->
     fin n /\ Rabs (real n * real n - real x * real x / S) <= 2.1 * bpow radix2 (-20) * (real x * real x / S) + bpow radix2 (-140)).
  { intros S x n A B [F L]. split; auto. assert (HS : 0 < S) by (pose proof (bpow_gt_0 radix2 (-44)); lra). pose proof (sqrt_lt_R0 S HS) as P.
    assert (Q : sqrt S * sqrt S = S) by (apply sqrt_sqrt; lra). assert (I : 0 < / sqrt S) by (now apply Rinv_0_lt_compat).
    replace (real x * real x / S) with ((real x * / sqrt S) * (real x * / sqrt S)) by (rewrite <- Q at 3; field; lra).
    assert (T : Rabs (real x * / sqrt S) = Rabs (real x) * / sqrt S) by (rewrite Rabs_mult, (Rabs_pos_eq (/ sqrt S)); lra).
    apply sq_close; [|now rewrite T]. rewrite T. apply Rmult_le_reg_r with (sqrt S); auto. rewrite Rmult_assoc, Rinv_l, Rmult_1_r, Rmult_1_l by lra.
    rewrite <- sqrt_Rsqr_abs. apply sqrt_le_1_alt. exact B. }
  split; [|split]; intros F N n.
  - pose proof (C70_normalize2 BK v HB F N) as H'. fold n in H'. inversion_clear H' as [|? ? H1 H'']. inversion_clear H'' as [|? ? H2 _].
    destruct N as [[A B] _]. assert (HS : 0 < dot2 v v) by (pose proof (bpow_gt_0 radix2 (-44)); lra).
    apply K in H1 as [F1 L1]; auto; [|unfold vec2_get_x, g_get_x, dot2; nra]. apply K in H2 as [F2 L2]; auto; [|unfold vec2_get_y, g_get_y, dot2; nra].
    split; [split; auto|]. unfold vec2_get_x, vec2_get_y, g_get_x, g_get_y in * .
    assert (E : real (vx v) * real (vx v) / dot2 v v + real (vy v) * real (vy v) / dot2 v v = 1) by (unfold dot2 in *; field; lra).
    set (p := _ / _) in E. set (q := _ / _) in E. fold p in L1. fold q in L2. apply Rabs_le_inv in L1, L2. unfold dot2 at 1. apply Rabs_le. clear K. rewrite ?P18, ?U20 in * . lra.
  - pose proof (C70_normalize3 BK v HB F N) as H'. fold n in H'. inversion_clear H' as [|? ? H1 H'']. inversion_clear H'' as [|? ? H2 H3']. inversion_clear H3' as [|? ? H3 _].
    destruct N as [[A B] _]. assert (HS : 0 < dot3 v v) by (pose proof (bpow_gt_0 radix2 (-44)); lra).
    apply K in H1 as [F1 L1]; auto; [|unfold vec3_get_x, g_get_x, dot3, dot2; nra]. apply K in H2 as [F2 L2]; auto; [|unfold vec3_get_y, g_get_y, dot3, dot2; nra].
    apply K in H3 as [F3 L3]; auto; [|unfold vec3_get_z, g_get_z, dot3, dot2; nra].
    split; [split; auto|]. unfold vec3_get_x, vec3_get_y, vec3_get_z, g_get_x, g_get_y, g_get_z in * .
    assert (E : real (vx v) * real (vx v) / dot3 v v + real (vy v) * real (vy v) / dot3 v v + real (vz v) * real (vz v) / dot3 v v = 1) by (unfold dot3, dot2 in *; field; lra).
    set (p := real (vx v) * real (vx v) / dot3 v v) in * . set (q := real (vy v) * real (vy v) / dot3 v v) in * . set (r := real (vz v) * real (vz v) / dot3 v v) in * .
    apply Rabs_le_inv in L1, L2, L3. unfold dot3, dot2. apply Rabs_le. clear K. rewrite ?P18, ?U20 in * . lra.
  - pose proof (C70_normalize4 BK v HB F N) as H'. fold n in H'. inversion_clear H' as [|? ? H1 H'']. inversion_clear H'' as [|? ? H2 H3']. inversion_clear H3' as [|? ? H3 H4']. inversion_clear H4' as [|? ? H4 _].
    destruct N as [[A B] _]. assert (HS : 0 < dot4 v v) by (pose proof (bpow_gt_0 radix2 (-44)); lra).
    apply K in H1 as [F1 L1]; auto; [|unfold vec4_get_x, g_get_x, dot4, dot3, dot2; nra]. apply K in H2 as [F2 L2]; auto; [|unfold vec4_get_y, g_get_y, dot4, dot3, dot2; nra].
    apply K in H3 as [F3 L3]; auto; [|unfold vec4_get_z, g_get_z, dot4, dot3, dot2; nra]. apply K in H4 as [F4 L4]; auto; [|unfold vec4_get_w, g_get_w, dot4, dot3, dot2; nra].
    split; [repeat split; auto|]. unfold vec4_get_x, vec4_get_y, vec4_get_z, vec4_get_w, g_get_x, g_get_y, g_get_z, g_get_w in * .
    assert (E : real (vx v) * real (vx v) / dot4 v v + real (vy v) * real (vy v) / dot4 v v + real (vz v) * real (vz v) / dot4 v v + real (vw v) * real (vw v) / dot4 v v = 1) by (unfold dot4, dot3, dot2 in *; field; lra).
    set (p := real (vx v) * real (vx v) / dot4 v v) in * . set (q := real (vy v) * real (vy v) / dot4 v v) in * . set (r := real (vz v) * real (vz v) / dot4 v v) in * .
    set (t := real (vw v) * real (vw v) / dot4 v v) in * .
    apply Rabs_le_inv in L1, L2, L3, L4. unfold dot4, dot3, dot2. apply Rabs_le. clear K. rewrite ?P18, ?U20 in * . lra.
Qed.
(** the length on every back end, NEON's estimated square root included *)
Theorem C70_length : forall (BK : Backend b32) (v : V), estimates_ok BK ->
  (finite2 v -> normal_range BK (dot2 v v) -> within (bpow radix2 (-20) * sqrt (dot2 v v)) (vec2_length v) (sqrt (dot2 v v))) /\
  (finite3 v -> normal_range BK (dot3 v v) -> within (bpow radix2 (-20) * sqrt (dot3 v v)) (vec3_length v) (sqrt (dot3 v v))) /\
  (finite4 v -> normal_range BK (dot4 v v) -> within (bpow radix2 (-20) * sqrt (dot4 v v)) (vec4_length v) (sqrt (dot4 v v))).
Proof.
  intros BK v HB. split; [|split]; intros F N; pose proof N as [[A B] _]; bp 118%Z 126%Z; bp (-100)%Z (-44)%Z.
  - pose proof (C70_dot2 BK v v F F) as D. rewrite adot2_self in D.
    apply (norm_core BK (vec2_dot v v) (vx v)); auto; [apply tol_rel; [apply D|]; lra|apply F|unfold dot2; nra].
  - pose proof (C70_dot3 BK v v F F) as D. rewrite adot3_self in D.
    apply (norm_core BK (vec3_dot v v) (vx v)); auto; [apply tol_rel; [apply D|]; lra|apply F|unfold dot3, dot2; nra].
  - pose proof (C70_dot4 BK v v F F) as D. rewrite adot4_self in D.
    apply (norm_core BK (vec4_dot v v) (vx v)); auto; [apply tol_rel; [apply D|]; lra|apply F|unfold dot4, dot3, dot2; nra].
Qed.
Lemma lit_real m e : (Z.abs m < 2 ^ 24)%Z -> (-149 <= e)%Z -> (e <= 104)%Z -> fin (flit m e) /\ real (flit m e) = IZR m * bpow radix2 e.
Proof. intros A B C. destruct (lit_exact m e A B C) as [X F]. split; auto. apply fin_of_X in X as [_ ->]. reflexivity. Qed.
Example C70_ex : forall BK : Backend b32, let v := vec3_init (flit 3 0) (flit (-4) 0) (flit 12 0) in
  finite3 v /\ normal_range BK (dot3 v v) /\ medium (dot3 v v) /\ adot3 v v <= bpow radix2 126.
Proof.
  intros BK v. destruct (lit_real 3 0) as [F1 R1]; try reflexivity; try lia. destruct (lit_real (-4) 0) as [F2 R2]; try reflexivity; try lia. destruct (lit_real 12 0) as [F3 R3]; try reflexivity; try lia.
  assert (E : dot3 v v = 169). { unfold dot3, dot2, v, vec3_init, g_init; cbn [vx vy vz]. rewrite R1, R2, R3. simpl. lra. }
  rewrite adot3_self, E. assert (0 <= bpow radix2 0) by apply bpow_ge_0. assert (A : bpow radix2 8 <= bpow radix2 118) by (apply bpow_le; lia). assert (B : bpow radix2 8 <= bpow radix2 126) by (apply bpow_le; lia).
  assert (C : bpow radix2 (-44) <= bpow radix2 0) by (apply bpow_le; lia). assert (D : bpow radix2 (-100) <= bpow radix2 0) by (apply bpow_le; lia). simpl (bpow radix2 8) in * . simpl (bpow radix2 0) in * .
  split; [repeat split; auto|]. split; [split; [lra|]|split; [split; lra|lra]]. destruct BK; [|exact I|exact I|exact I]. unfold scalar_cutoff. assert (bpow radix2 (-22) = / 4194304) by reflexivity. lra.
Qed.
