(** * RQuat: Hamilton's quaternions over the reals, the specification vocabulary of the
    quaternion properties.  Nothing here mentions the model. *)
From Coq Require Import Reals Lra Psatz.
From Verif Require Import Props_MatX2 RMat.
Local Open Scope R_scope.

(** scalar part and vector part: w + x i + y j + z k *)
Record RQ := Q4 { qs : R; qv : R3 }.
Definition RQ4 (x y z w : R) : RQ := Q4 w (V3 x y z).
(** (s, u)(t, v) = (st - u.v, sv + tu + u x v) *)
Definition qmul (a b : RQ) : RQ :=
  Q4 (qs a * qs b - dot (qv a) (qv b)) (add3 (add3 (scl3 (qs a) (qv b)) (scl3 (qs b) (qv a))) (cross (qv a) (qv b))).
Definition qconj (a : RQ) : RQ := Q4 (qs a) (scl3 (-1) (qv a)).
Definition qneg (a : RQ) : RQ := Q4 (- qs a) (scl3 (-1) (qv a)).
Definition qadd (a b : RQ) : RQ := Q4 (qs a + qs b) (add3 (qv a) (qv b)).
Definition qscal (k : R) (a : RQ) : RQ := Q4 (k * qs a) (scl3 k (qv a)).
Definition qdot (a b : RQ) : R := qs a * qs b + dot (qv a) (qv b).
Definition qone : RQ := Q4 1 (V3 0 0 0).
Definition qpure (v : R3) : RQ := Q4 0 v.
Definition unit_q (a : RQ) : Prop := qdot a a = 1.
(** the rotation of v by the unit quaternion q: the vector part of q v q* *)
Definition qrot (q : RQ) (v : R3) : R3 := qv (qmul (qmul q (qpure v)) (qconj q)).
(** the quaternion of the rotation by t radians about the unit vector k *)
Definition qaxis (k : R3) (t : R) : RQ := Q4 (cos (t / 2)) (scl3 (sin (t / 2)) k).

Lemma RQ_ext a b : qs a = qs b -> r3x (qv a) = r3x (qv b) -> r3y (qv a) = r3y (qv b) -> r3z (qv a) = r3z (qv b) -> a = b.
Proof. destruct a as [s [x y z]], b as [t [x' y' z']]; simpl. now intros -> -> -> ->. Qed.
Ltac qx := repeat match goal with a : RQ |- _ => let x := fresh "x" in let y := fresh "y" in let z := fresh "z" in let w := fresh "w" in destruct a as [w [x y z]]
  | v : R3 |- _ => let x := fresh "x" in let y := fresh "y" in let z := fresh "z" in destruct v as [x y z] end;
  unfold unit_q, qrot, qaxis, qmul, qconj, qneg, qadd, qscal, qdot, qone, qpure, add3, scl3, sub3, cross, dot in * ; cbn [qs qv r3x r3y r3z] in * .
Lemma qmul_assoc a b c : qmul (qmul a b) c = qmul a (qmul b c).
Proof. qx. apply RQ_ext; cbn [qs qv r3x r3y r3z]; ring. Qed.
Lemma qmul_1_l a : qmul qone a = a. Proof. qx. apply RQ_ext; cbn [qs qv r3x r3y r3z]; ring. Qed.
Lemma qmul_1_r a : qmul a qone = a. Proof. qx. apply RQ_ext; cbn [qs qv r3x r3y r3z]; ring. Qed.
Lemma qdot_mul a b : qdot (qmul a b) (qmul a b) = qdot a a * qdot b b. Proof. qx. ring. Qed.
Lemma qconj_mul a b : qconj (qmul a b) = qmul (qconj b) (qconj a).
Proof. qx. apply RQ_ext; cbn [qs qv r3x r3y r3z]; ring. Qed.
Lemma qdot_mul_l a u v : qdot (qmul a u) (qmul a v) = qdot a a * qdot u v. Proof. qx. ring. Qed.
Lemma qdot_mul_r a u v : qdot (qmul u a) (qmul v a) = qdot u v * qdot a a. Proof. qx. ring. Qed.
Lemma qdot_conj a : qdot (qconj a) (qconj a) = qdot a a. Proof. qx. ring. Qed.
Lemma qmul_conj_l a : qmul (qconj a) a = qscal (qdot a a) qone. Proof. qx. apply RQ_ext; cbn [qs qv r3x r3y r3z]; ring. Qed.
Lemma qmul_conj_r a : qmul a (qconj a) = qscal (qdot a a) qone. Proof. qx. apply RQ_ext; cbn [qs qv r3x r3y r3z]; ring. Qed.
(** q v q* is a pure quaternion *)
Lemma qrot_pure q v : qpure (qrot q v) = qmul (qmul q (qpure v)) (qconj q).
Proof. qx. apply RQ_ext; cbn [qs qv r3x r3y r3z]; ring. Qed.
Lemma qrot_mul a b v : qrot (qmul a b) v = qrot a (qrot b v).
Proof. unfold qrot at 1 2. rewrite qrot_pure, qconj_mul, !qmul_assoc. reflexivity. Qed.
Lemma qrot_neg a v : qrot (qneg a) v = qrot a v. Proof. qx. apply V3_eq; ring. Qed.
Lemma qrot_one v : qrot qone v = v. Proof. qx. apply V3_eq; ring. Qed.
Lemma qrot_dot a u v : unit_q a -> dot (qrot a u) (qrot a v) = dot u v.
Proof.
  intros U. assert (P : forall u v, dot u v = qdot (qpure u) (qpure v)) by (intros; unfold qdot, qpure; cbn [qs qv]; ring).
  rewrite P, !qrot_pure, qdot_mul_r, qdot_mul_l, qdot_conj, <- P, U. ring.
Qed.
Lemma qrot_cross a u v : unit_q a -> cross (qrot a u) (qrot a v) = qrot a (cross u v).
Proof.
  intros U. assert (P : forall u v, qmul (qpure u) (qpure v) = Q4 (- dot u v) (cross u v)).
  { intros. qx. apply RQ_ext; cbn [qs qv r3x r3y r3z]; ring. }
  assert (E : cross (qrot a u) (qrot a v) = qv (qmul (qpure (qrot a u)) (qpure (qrot a v)))) by (rewrite P; reflexivity).
  rewrite E, !qrot_pure. rewrite !qmul_assoc, <- (qmul_assoc (qconj a) a), qmul_conj_l, U.
  replace (qmul (qscal 1 qone) (qmul (qpure v) (qconj a))) with (qmul (qpure v) (qconj a)).
  2:{ replace (qscal 1 qone) with qone by (unfold qscal, qone, scl3; cbn; f_equal; [ring|apply V3_eq; ring]). now rewrite qmul_1_l. }
  rewrite <- (qmul_assoc (qpure u)), P. generalize (cross u v) (dot u v). clear. intros c d. qx. apply V3_eq; ring.
Qed.
Lemma qaxis_unit k t : dot k k = 1 -> unit_q (qaxis k t).
Proof.
  intros K. unfold unit_q. assert (E : qdot (qaxis k t) (qaxis k t) = cos (t / 2) * cos (t / 2) + sin (t / 2) * sin (t / 2) * dot k k) by (clear K; qx; ring).
  rewrite E, K, sc2. ring.
Qed.
(** the half-angle quaternion rotates by the whole angle *)
Lemma qaxis_rot k t v : dot k k = 1 -> qrot (qaxis k t) v = rodrigues k t v.
Proof.
  intros K. assert (Ct : cos t = 2 * (cos (t / 2) * cos (t / 2)) - 1) by (replace t with (2 * (t / 2)) at 1 by field; rewrite cos_2a_cos; ring).
  assert (St : sin t = 2 * (sin (t / 2) * cos (t / 2))) by (replace t with (2 * (t / 2)) at 1 by field; rewrite sin_2a; ring).
  unfold rodrigues. rewrite Ct, St. assert (S := sc2 (t / 2)). unfold qaxis, qrot, qmul, qconj, qpure. set (s := sin (t / 2)) in * . set (c := cos (t / 2)) in * . clearbody s c.
  destruct k as [x y z], v as [a b d]. unfold add3, scl3, cross, dot in * ; cbn [qs qv r3x r3y r3z] in * .
  assert (Z : z * z = 1 - x * x - y * y) by lra. apply V3_eq; ring [Z S].
Qed.
