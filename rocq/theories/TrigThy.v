(** * TrigThy: facts about the real atan2, and rational multiples of pi. *)
From Coq Require Import Reals Lra Psatz.
From Verif Require Import Num.
Local Open Scope R_scope.

Lemma tan_shift t : cos t <> 0 -> tan (t - PI) = tan t.
Proof.
  intros H. unfold tan. replace (t - PI) with (- (PI - t)) by ring. rewrite sin_neg, cos_neg, sin_PI_x, Rtrigo_facts.cos_pi_minus. field. auto.
Qed.
Lemma tan_shift' t : cos t <> 0 -> tan (t + PI) = tan t.
Proof. intros H. unfold tan. rewrite neg_sin, neg_cos. field. auto. Qed.
(** atan2 recovers the polar angle *)
Lemma ratan2_polar r t : 0 < r -> - PI < t <= PI -> ratan2 (r * sin t) (r * cos t) = t.
Proof.
  intros R0 [T1 T2]. unfold ratan2. pose proof PI_RGT_0 as P0.
  assert (SS : forall a, 0 < a -> 0 < r * a) by (intros; now apply Rmult_lt_0_compat).
  assert (Q : forall u v, v <> 0 -> (r * u) / (r * v) = u / v) by (intros; field; lra).
  destruct (Rlt_dec 0 (r * cos t)) as [C|C].
  - assert (C' : 0 < cos t) by (apply (Rmult_lt_reg_l r); lra). rewrite Q by lra. apply atan_tan. split.
    + apply Rnot_le_lt; intros L. assert (cos t <= 0); [|lra]. rewrite <- cos_neg. apply cos_le_0; lra.
    + apply Rnot_le_lt; intros L. assert (cos t <= 0); [|lra]. apply cos_le_0; lra.
  - assert (C' : cos t <= 0) by (apply Rnot_lt_le; intros L; apply C, SS, L).
    destruct (Rlt_dec (r * cos t) 0) as [D|D].
    + assert (D' : cos t < 0) by (destruct C' as [|E]; auto; rewrite E, Rmult_0_r in D; lra).
      rewrite Q by lra. change (sin t / cos t) with (tan t).
      assert (N : t < - (PI / 2) \/ PI / 2 < t).
      { destruct (Rlt_dec t (- (PI / 2))); auto. destruct (Rlt_dec (PI / 2) t); auto. exfalso. assert (0 <= cos t); [|lra]. apply cos_ge_0; lra. }
      destruct (Rlt_dec (r * sin t) 0) as [E|E].
      * assert (E' : sin t < 0) by (apply (Rmult_lt_reg_l r); lra). destruct N as [N|N].
        { rewrite <- tan_shift' by lra. rewrite atan_tan; lra. }
        { exfalso. assert (0 <= sin t); [|lra]. apply sin_ge_0; lra. }
      * assert (E' : 0 <= sin t) by (apply Rnot_lt_le; intros L; apply E; replace 0 with (r * 0) by ring; now apply Rmult_lt_compat_l).
        destruct N as [N|N].
        { exfalso. assert (sin t < 0); [|lra]. replace t with (- (- t)) by ring. rewrite sin_neg. assert (0 < sin (- t)); [|lra]. apply sin_gt_0; lra. }
        { rewrite <- tan_shift by lra. rewrite atan_tan; lra. }
    + assert (D' : cos t = 0) by (destruct C' as [L|]; auto; exfalso; apply D; replace 0 with (r * 0) by ring; now apply Rmult_lt_compat_l).
      assert (N : t = PI / 2 \/ t = - (PI / 2)).
      { destruct (Rtotal_order t (PI / 2)) as [A|[A|A]]; auto.
        - destruct (Rtotal_order t (- (PI / 2))) as [B|[B|B]]; auto.
          + exfalso. assert (cos t < 0); [|lra]. rewrite <- cos_neg. apply cos_lt_0; lra.
          + exfalso. assert (0 < cos t); [|lra]. apply cos_gt_0; lra.
        - exfalso. assert (cos t < 0); [|lra]. apply cos_lt_0; lra. }
      destruct N as [-> | ->].
      * rewrite sin_PI2, Rmult_1_r. destruct (Rlt_dec 0 r); lra.
      * rewrite sin_neg, sin_PI2. destruct (Rlt_dec 0 (r * - (1))); [lra|]. destruct (Rlt_dec (r * - (1)) 0); lra.
Qed.
(** and every non-zero point has it as its polar angle *)
Lemma ratan2_cos_sin y x : x * x + y * y <> 0 -> let r := sqrt (x * x + y * y) in
  0 < r /\ r * cos (ratan2 y x) = x /\ r * sin (ratan2 y x) = y.
Proof.
  intros N r. assert (P : 0 < x * x + y * y) by nra. assert (R0 : 0 < r) by now apply sqrt_lt_R0.
  assert (RR : r * r = x * x + y * y) by (apply sqrt_sqrt; lra). split; auto. unfold ratan2.
  assert (K : x <> 0 -> let a := Rabs x in 0 < a /\ sqrt (1 + (y / x)²) = r / a).
  { intros X a. assert (A : 0 < a) by now apply Rabs_pos_lt. split; auto. apply sqrt_lem_1.
    - unfold Rsqr. nra.
    - apply Rlt_le, Rdiv_lt_0_compat; auto.
    - replace (r / a * (r / a)) with (r * r / (a * a)) by (field; lra). rewrite RR. replace (a * a) with (x * x) by (unfold a; rewrite <- Rabs_mult, Rabs_pos_eq; nra). unfold Rsqr. field. auto. }
  destruct (Rlt_dec 0 x) as [X|X].
  - destruct K as [A E]; [lra|]. rewrite (Rabs_pos_eq x) in * by lra. rewrite cos_atan, sin_atan, E. split; field; lra.
  - destruct (Rlt_dec x 0) as [X'|X'].
    + destruct K as [A E]; [lra|]. rewrite (Rabs_left x) in * by lra.
      destruct (Rlt_dec y 0).
      * replace (atan (y / x) - PI) with (- (PI - atan (y / x))) by ring. rewrite cos_neg, sin_neg, sin_PI_x, Rtrigo_facts.cos_pi_minus, cos_atan, sin_atan, E. split; field; lra.
      * rewrite neg_cos, neg_sin, cos_atan, sin_atan, E. split; field; lra.
    + assert (x = 0) by lra. subst x. destruct (Rlt_dec 0 y).
      * rewrite cos_PI2, sin_PI2. assert (r = y); [|lra]. apply Rsqr_inj; try lra. unfold Rsqr. lra.
      * assert (y < 0) by nra. destruct (Rlt_dec y 0); [|lra]. rewrite cos_neg, sin_neg, cos_PI2, sin_PI2. assert (r = - y); [|lra]. apply Rsqr_inj; try lra. unfold Rsqr. lra.
Qed.
Lemma ratan2_range y x : - PI <= ratan2 y x <= PI.
Proof.
  pose proof PI_RGT_0. pose proof (atan_bound (y / x)). unfold ratan2. destruct (Rlt_dec 0 x); [lra|]. destruct (Rlt_dec x 0).
  - destruct (Rlt_dec y 0).
    + assert (0 < y / x) by (replace (y / x) with (- y * / - x) by (field; lra); apply Rmult_lt_0_compat; [lra|apply Rinv_0_lt_compat; lra]).
      assert (0 < atan (y / x)) by (rewrite <- atan_0; now apply atan_increasing). lra.
    + assert (y / x <= 0) by (replace (y / x) with (- (y * / - x)) by (field; lra); assert (0 <= y * / - x); [|lra]; apply Rmult_le_pos; [lra|apply Rlt_le, Rinv_0_lt_compat; lra]).
      assert (atan (y / x) <= 0); [|lra]. rewrite <- atan_0. destruct H1 as [L|E]; [left; now apply atan_increasing|rewrite E; right; reflexivity].
  - destruct (Rlt_dec 0 y); [lra|]. destruct (Rlt_dec y 0); lra.
Qed.
