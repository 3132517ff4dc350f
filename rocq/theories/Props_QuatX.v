(** * Props_QuatX: quaternions in exact arithmetic (C41, C42). *)
From Coq Require Import ZArith Reals Bool List Lra Lia Psatz.
From Flocq Require Import Core.
From Verif Require Import Num Simd Vec Rect Box Mat Quat OrdThy XSetup RMat Props_VecX Props_MatX Props_MatX2 RQuat TrigThy.
Import ListNotations.
Local Open Scope R_scope.

(** the library's representation of a real quaternion *)
Definition qt (a : RQ) : quat xreal := Qt (Fin (r3x (qv a))) (Fin (r3y (qv a))) (Fin (r3z (qv a))) (Fin (qs a)).
(** the matrix whose rows are the rotated axes *)
Definition mrows (u v w : R3) : RM := of_rows (vec (r3x u) (r3y u) (r3z u) 0) (vec (r3x v) (r3y v) (r3z v) 0) (vec (r3x w) (r3y w) (r3z w) 0) (vec 0 0 0 1).
Definition mquat (a : RQ) : RM := mrows (qrot a (V3 1 0 0)) (qrot a (V3 0 1 0)) (qrot a (V3 0 0 1)).
Lemma mquat_closed w x y z : mquat (Q4 w (V3 x y z)) =
  mrows (V3 (w * w + x * x - y * y - z * z) (2 * (x * y + w * z)) (2 * (x * z - w * y)))
        (V3 (2 * (x * y - w * z)) (w * w - x * x + y * y - z * z) (2 * (y * z + w * x)))
        (V3 (2 * (x * z + w * y)) (2 * (y * z - w * x)) (w * w - x * x - y * y + z * z)).
Proof.
  unfold mquat. f_equal; unfold qrot, qmul, qconj, qpure, add3, scl3, cross, dot; cbn [qs qv r3x r3y r3z]; apply V3_eq; ring.
Qed.
Lemma mrows_mul a b c u v w : meq (mmul (mrows a b c) (mrows u v w))
  (mrows (add3 (add3 (scl3 (r3x a) u) (scl3 (r3y a) v)) (scl3 (r3z a) w)) (add3 (add3 (scl3 (r3x b) u) (scl3 (r3y b) v)) (scl3 (r3z b) w))
         (add3 (add3 (scl3 (r3x c) u) (scl3 (r3y c) v)) (scl3 (r3z c) w))).
Proof. intros i j Hi Hj. unfold mmul, sum4, mrows. idx4 i Hi; idx4 j Hj; unfold of_rows, vec, add3, scl3; cbn [r3x r3y r3z]; ring. Qed.
Lemma mrows_orth a b c : dot a a = 1 -> dot b b = 1 -> dot c c = 1 -> dot a b = 0 -> dot b c = 0 -> dot c a = 0 ->
  meq (mmul (mrows a b c) (mtr (mrows a b c))) mI.
Proof.
  intros A B C D E F i j Hi Hj. unfold dot in * . unfold mmul, sum4, mtr, mrows, mI. idx4 i Hi; idx4 j Hj; unfold of_rows, vec; cbn [Nat.eqb]; lra.
Qed.
Lemma mrows_det a b c : det 4 (mrows a b c) = dot (cross a b) c.
Proof. rewrite det4. unfold mrows, of_rows, vec. cbv zeta. unfold dot, cross; cbn [r3x r3y r3z]. ring. Qed.
Lemma qt_eq a b : a = b -> qt a = qt b. Proof. now intros ->. Qed.
Lemma qt_inj a b : qt a = qt b -> a = b.
Proof. destruct a as [w [x y z]], b as [w' [x' y' z']]. unfold qt; cbn. intros E; injection E; intros; subst; reflexivity. Qed.
Lemma Qt_eq (a b c d a' b' c' d' : R) : a = a' -> b = b' -> c = c' -> d = d' -> Qt (Fin a) (Fin b) (Fin c) (Fin d) = Qt (Fin a') (Fin b') (Fin c') (Fin d').
Proof. now intros -> -> -> ->. Qed.

Lemma X_dot4 x y z w x' y' z' w' : g_dot4 (rv x y z w) (rv x' y' z' w') = g_splat (Fin (x * x' + y * y' + (z * z' + w * w'))).
Proof.
  Local Transparent rv.
  unfold g_dot4, g_sum, g_splat_x, g_splat_y, g_splat_z, g_splat_w, g_splat, g_add, g_mul, map2, rv; cbn [vx vy vz vw]. rewrite !Xmul, !Xadd. reflexivity.
  Local Opaque rv.
Qed.
Ltac qu := unfold qt; cbn [qx qy qz qw qs qv r3x r3y r3z].
Lemma q_unit w x y z : unit_q (Q4 w (V3 x y z)) <-> w * w = 1 - x * x - y * y - z * z.
Proof. unfold unit_q, qdot, dot; cbn [qs qv r3x r3y r3z]. split; lra. Qed.

Section S.
Context (BK : Backend xreal).

(** ** C41 *)
(** the API operations are the textbook ones *)
Theorem C41_operations_exact : forall a b k,
  quaternion_multiply (qt a) (qt b) = qt (qmul a b) /\ quaternion_invert (qt a) = qt (qconj a) /\
  quaternion_add (qt a) (qt b) = qt (qadd a b) /\ quaternion_scale (qt a) (Fin k) = qt (qscal k a) /\
  quaternion_dot (qt a) (qt b) = Fin (qdot a b) /\ quaternion_init_identity = qt qone.
Proof.
  intros a b k. destruct a as [w [x y z]], b as [w' [x' y' z']]. repeat split.
  - unfold quaternion_multiply, qt; cbn [qx qy qz qw qs qv r3x r3y r3z]. rewrite !Xmul, !Xadd, !Xsub. unfold qmul, add3, scl3, cross, dot; cbn [qs qv r3x r3y r3z]. apply Qt_eq; ring.
  - unfold quaternion_invert, qt, qconj, scl3; cbn [qx qy qz qw qs qv r3x r3y r3z]. rewrite !Xneg. apply Qt_eq; ring.
  - unfold quaternion_scale, quaternion_init_from_simd4f, quaternion_to_vec4, qt; cbn [qx qy qz qw qs qv r3x r3y r3z]. vs. unfold qscal, scl3; cbn [qs qv r3x r3y r3z]. apply Qt_eq; ring.
  - unfold quaternion_dot, quaternion_to_vec4, qt; cbn [qx qy qz qw qs qv r3x r3y r3z]. rewrite !rv_init, X_dot4.
    unfold g_get_x, g_splat; cbn [vx]. unfold qdot, dot; cbn [qs qv r3x r3y r3z]. f_equal; ring.
Qed.
(** the algebra a caller relies on, stated about the API *)
Theorem C41_algebra : forall a b c, let mul := quaternion_multiply in
  mul (mul (qt a) (qt b)) (qt c) = mul (qt a) (mul (qt b) (qt c)) /\
  mul quaternion_init_identity (qt a) = qt a /\ mul (qt a) quaternion_init_identity = qt a /\
  quaternion_dot (mul (qt a) (qt b)) (mul (qt a) (qt b)) = fmul (quaternion_dot (qt a) (qt a)) (quaternion_dot (qt b) (qt b)) /\
  quaternion_invert (mul (qt a) (qt b)) = mul (quaternion_invert (qt b)) (quaternion_invert (qt a)) /\
  (unit_q a -> mul (qt a) (quaternion_invert (qt a)) = quaternion_init_identity /\ mul (quaternion_invert (qt a)) (qt a) = quaternion_init_identity).
Proof.
  intros a b c mul. unfold mul. assert (M : forall a b, quaternion_multiply (qt a) (qt b) = qt (qmul a b)) by (intros; now destruct (C41_operations_exact a0 b0 0)).
  assert (I : forall a, quaternion_invert (qt a) = qt (qconj a)) by (intros; now destruct (C41_operations_exact a0 a0 0)).
  assert (D : forall a b, quaternion_dot (qt a) (qt b) = Fin (qdot a b)) by (intros; now destruct (C41_operations_exact a0 b0 0) as (_ & _ & _ & _ & ? & _)).
  assert (J : quaternion_init_identity = qt qone) by now destruct (C41_operations_exact a a 0) as (_ & _ & _ & _ & _ & ?).
  rewrite J, ?I, ?M, ?I, ?M, !D, Xmul. split; [|split; [|split; [|split; [|split]]]].
  - now rewrite qmul_assoc. - now rewrite qmul_1_l. - now rewrite qmul_1_r. - now rewrite qdot_mul. - now rewrite qconj_mul.
  - intros U. unfold unit_q in U. rewrite qmul_conj_r, qmul_conj_l, U. split; apply qt_eq; unfold qscal, qone, scl3; cbn; f_equal; try apply V3_eq; ring.
Qed.
(** a unit quaternion becomes the matrix of its rotation *)
Lemma mt_quat a : unit_q a -> quaternion_to_matrix (qt a) = mt (mquat a).
Proof.
  destruct a as [w [x y z]]. intros U. rewrite q_unit in U.
  unfold quaternion_to_matrix. qu. rewrite Xone, Xzero, xtwo, !Xmul, ?Xadd, ?Xsub, ?Xmul, ?Xsub, !rv_init.
  rewrite mquat_closed. unfold mt, vv, mrows, of_rows, vec; cbn [r3x r3y r3z]. veqs; ring [U].
Qed.
Theorem C41_to_matrix_rotates : forall a v, unit_q a -> let m := quaternion_to_matrix (qt a) in
  matrix_transform_point3d m (pp3 v) = pp3 (qrot a v) /\
  matrix_transform_vec3 m (rv (r3x v) (r3y v) (r3z v) 0) = rv (r3x (qrot a v)) (r3y (qrot a v)) (r3z (qrot a v)) 0.
Proof.
  intros a v U m. unfold m. rewrite mt_quat by auto. unfold pp3. rewrite C25_transform_point3d_exact, C25_transform_vec3_exact.
  assert (E : qrot a v = add3 (add3 (scl3 (r3x v) (qrot a (V3 1 0 0))) (scl3 (r3y v) (qrot a (V3 0 1 0)))) (scl3 (r3z v) (qrot a (V3 0 0 1)))).
  { clear. qx. apply V3_eq; ring. }
  rewrite E. unfold mquat, mrows, of_rows, vec, add3, scl3; cbn [r3x r3y r3z]. split; [apply pt3_eq; ring|apply rv_eq; ring].
Qed.
(** the matrix of a product is the product of the matrices, in row-vector order *)
Lemma mquat_mul a b : meq (mquat (qmul a b)) (mmul (mquat b) (mquat a)).
Proof.
  assert (E : forall v, qrot a v = add3 (add3 (scl3 (r3x v) (qrot a (V3 1 0 0))) (scl3 (r3y v) (qrot a (V3 0 1 0)))) (scl3 (r3z v) (qrot a (V3 0 0 1)))).
  { clear. intros. qx. apply V3_eq; ring. }
  intros i j Hi Hj. unfold mquat at 2 3. rewrite mrows_mul by auto. unfold mquat. rewrite !qrot_mul, <- !E. reflexivity.
Qed.
Lemma unit_mul a b : unit_q a -> unit_q b -> unit_q (qmul a b).
Proof. unfold unit_q. intros A B'. rewrite qdot_mul, A, B'. ring. Qed.
Theorem C41_matrix_homomorphism : forall a b, unit_q a -> unit_q b ->
  quaternion_to_matrix (quaternion_multiply (qt a) (qt b)) = matrix_multiply (quaternion_to_matrix (qt b)) (quaternion_to_matrix (qt a)).
Proof.
  intros a b A B'. destruct (C41_operations_exact a b 0) as (-> & _). rewrite !mt_quat by (auto using unit_mul).
  unfold matrix_multiply. rewrite mt_mul. apply mt_ext, mquat_mul.
Qed.
(** and it is a rotation matrix *)
Theorem C41_matrix_is_rotation : forall a, unit_q a -> let m := quaternion_to_matrix (qt a) in
  matrix_multiply m (matrix_transpose m) = matrix_init_identity /\
  matrix_transpose m = quaternion_to_matrix (quaternion_invert (qt a)) /\
  exists A, m = mt A /\ affine A /\ det 4 A = 1.
Proof.
  intros a U m. unfold m. rewrite mt_quat by auto. change (matrix_transpose (mt (mquat a))) with (mt (mtr (mquat a))). split; [|split].
  - unfold matrix_multiply, matrix_init_identity. rewrite mt_mul, mt_I. apply mt_ext. unfold mquat.
    apply mrows_orth; rewrite qrot_dot by auto; unfold dot; cbn [r3x r3y r3z]; ring.
  - destruct (C41_operations_exact a a 0) as (_ & -> & _). rewrite mt_quat.
    + apply mt_ext. intros i j Hi Hj. clear U. destruct a as [w [x y z]]. unfold qconj, scl3; cbn [qs qv r3x r3y r3z]. rewrite !mquat_closed. unfold mrows, mtr.
      idx4 i Hi; idx4 j Hj; unfold of_rows, vec; cbn [r3x r3y r3z]; ring.
    + unfold unit_q in * . now rewrite qdot_conj.
  - exists (mquat a). split; auto. split; [repeat split|].
    unfold mquat. rewrite mrows_det, qrot_cross, qrot_dot by auto. unfold dot, cross; cbn [r3x r3y r3z]. ring.
Qed.
(** rotating a matrix by a quaternion appends the rotation *)
Theorem C41_rotate_quaternion_appends : forall A a p q, unit_q a -> affine A ->
  matrix_transform_point3d (mt A) (pp3 p) = pp3 q ->
  matrix_transform_point3d (matrix_rotate_quaternion (mt A) (qt a)) (pp3 p) = pp3 (qrot a q).
Proof.
  intros A a p q U Af E. unfold matrix_rotate_quaternion. rewrite mt_quat by auto. unfold pp3 in * . rewrite C25_compose_point3d, E by auto.
  rewrite <- mt_quat by auto. apply (C41_to_matrix_rotates a q U).
Qed.
(** normalize: a quaternion away from zero keeps its direction and gets length 1 *)
Theorem C41_normalize : forall a, exact_backend BK -> 0 < qdot a a -> above_cutoff BK (qdot a a) ->
  exists n, quaternion_normalize (qt a) = qt n /\ unit_q n /\ n = qscal (/ sqrt (qdot a a)) a.
Proof.
  intros a EB P C. exists (qscal (/ sqrt (qdot a a)) a). split; [|split; auto].
  - unfold quaternion_normalize, quaternion_to_vec4, quaternion_init_from_simd4f. qu. rewrite rv_init. unfold g_normalize4. rewrite X_dot4.
    match goal with |- context [g_splat (Fin ?e)] => replace e with (qdot a a) by (unfold qdot, dot; ring) end.
    unfold g_rsqrt, g_splat, map1; cbn [vx vy vz vw]. rewrite (X_rsqrt BK EB _ P C).
    change (V4 (Fin ?a) (Fin ?b) (Fin ?c) (Fin ?d)) with (rv a b c d). vs. unfold qscal, scl3; cbn [qs qv r3x r3y r3z]. apply Qt_eq; ring.
  - unfold unit_q. rewrite <- (unit_scale (qdot a a) P). set (s := / sqrt (qdot a a)). clearbody s. clear. qx. ring.
Qed.

(** ** C42: to_matrix and back *)
Lemma sqrt_half_sq u : / 2 * sqrt (Rmax (4 * (u * u)) 0) = Rabs u.
Proof.
  rewrite Rmax_left by nra. replace (4 * (u * u)) with ((2 * Rabs u) * (2 * Rabs u)).
  - rewrite sqrt_square; [field|]. pose proof (Rabs_pos u). lra.
  - replace (2 * Rabs u * (2 * Rabs u)) with (4 * (Rabs u * Rabs u)) by ring. rewrite <- Rabs_mult, Rabs_pos_eq; nra.
Qed.
Lemma X_max' a b : cMAX (Fin a) (Fin b) = Fin (Rmax a b).
Proof.
  unfold cMAX. destruct (flt (Fin b) (Fin a)) eqn:L; [apply Xlt_iff in L|apply Xlt_iff_f in L]; f_equal.
  - now rewrite Rmax_left by lra. - now rewrite Rmax_right by lra.
Qed.
Definition hs (u : R) : R := / 2 * sqrt (Rmax u 0).
Definition flip (b : R) (a u : R) : R := if Rlt_dec a b then - u else u.
Lemma X_from_matrix A : quaternion_init_from_matrix (mt A) =
  let xx := A 0%nat 0%nat in let yy := A 1%nat 1%nat in let zz := A 2%nat 2%nat in
  qt (Q4 (hs (1 + xx + yy + zz)) (V3 (flip (A 2%nat 1%nat) (A 1%nat 2%nat) (hs (1 + xx - yy - zz)))
    (flip (A 0%nat 2%nat) (A 2%nat 0%nat) (hs (1 - xx + yy - zz))) (flip (A 1%nat 0%nat) (A 0%nat 1%nat) (hs (1 - xx - yy + zz))))).
Proof.
  Local Transparent rv.
  unfold quaternion_init_from_matrix. unfold matrix_get_value; cbn [Nat.ltb Nat.leb orb]. unfold matrix_get_row, mt, vv, rv, g_get; cbn [mx my mz mw vx vy vz vw].
  rewrite Xone, Xzero, xhalf. cbv zeta. rewrite !Xadd, !Xsub, !Xadd, !Xsub, ?Xadd, !X_max'. rewrite !Xsqrt by apply Rmax_r. rewrite !Xmul.
  unfold qt, flip, hs; cbn [qs qv r3x r3y r3z].
  assert (K : forall a b u, (if flt (Fin a) (Fin b) then fneg (Fin u) else Fin u) = Fin (if Rlt_dec a b then - u else u)).
  { intros. destruct (Rlt_dec a b); [rewrite Xlt_t by auto; now rewrite Xneg|rewrite Xlt_f by lra; auto]. }
  rewrite !K. reflexivity.
  Local Opaque rv.
Qed.
(** to_matrix then init_from_matrix: the same quaternion up to sign, with a positive scalar part, unless the scalar part is 0 *)
Theorem C42_quaternion_round_trip : forall a, unit_q a -> qs a <> 0 ->
  quaternion_init_from_matrix (quaternion_to_matrix (qt a)) = qt (if Rlt_dec 0 (qs a) then a else qneg a).
Proof.
  intros a U N. rewrite mt_quat, X_from_matrix by auto. destruct a as [w [x y z]]. cbn [qs] in N. rewrite q_unit in U. rewrite mquat_closed.
  unfold mrows, of_rows, vec; cbv zeta; cbn [r3x r3y r3z]. apply qt_eq. cbn [qs].
  replace (1 + (w * w + x * x - y * y - z * z) + (w * w - x * x + y * y - z * z) + (w * w - x * x - y * y + z * z)) with (4 * (w * w)) by (ring [U]).
  replace (1 + (w * w + x * x - y * y - z * z) - (w * w - x * x + y * y - z * z) - (w * w - x * x - y * y + z * z)) with (4 * (x * x)) by (ring [U]).
  replace (1 - (w * w + x * x - y * y - z * z) + (w * w - x * x + y * y - z * z) - (w * w - x * x - y * y + z * z)) with (4 * (y * y)) by (ring [U]).
  replace (1 - (w * w + x * x - y * y - z * z) - (w * w - x * x + y * y - z * z) + (w * w - x * x - y * y + z * z)) with (4 * (z * z)) by (ring [U]).
  unfold hs. rewrite !sqrt_half_sq.
  assert (K : forall c u, 2 * (c + w * u) < 2 * (c - w * u) <-> w * u < 0) by (intros; split; intros; lra).
  assert (F : forall u c a b, a = 2 * (c + w * u) -> b = 2 * (c - w * u) -> flip b a (Rabs u) = if Rlt_dec 0 w then u else - u).
  { intros u c p q -> ->. unfold flip. destruct (Rlt_dec _ _) as [L|L]; [apply K in L|]; destruct (Rlt_dec 0 w) as [P|P]; unfold Rabs; destruct (Rcase_abs u) as [G|G]; try lra; nra. }
  rewrite (F x (y * z)), (F y (x * z)), (F z (x * y)) by ring.
  destruct (Rlt_dec 0 w) as [P|P]; unfold qneg, scl3; cbn [qs qv r3x r3y r3z]; [rewrite Rabs_pos_eq by lra; reflexivity|].
  rewrite Rabs_left by lra. f_equal. apply V3_eq; ring.
Qed.
(** so the rotation itself survives *)
Theorem C42_rotation_round_trip : forall a, unit_q a -> qs a <> 0 ->
  quaternion_to_matrix (quaternion_init_from_matrix (quaternion_to_matrix (qt a))) = quaternion_to_matrix (qt a).
Proof.
  intros a U N. rewrite C42_quaternion_round_trip by auto. destruct (Rlt_dec 0 (qs a)); auto.
  assert (U' : unit_q (qneg a)) by (unfold unit_q in * ; rewrite <- U; clear; qx; ring).
  rewrite !mt_quat by auto. unfold mquat. now rewrite !qrot_neg.
Qed.
(** a half turn loses the signs of its axis *)
Theorem C42_half_turn : forall x y z, unit_q (Q4 0 (V3 x y z)) ->
  quaternion_init_from_matrix (quaternion_to_matrix (qt (Q4 0 (V3 x y z)))) = qt (Q4 0 (V3 (Rabs x) (Rabs y) (Rabs z))).
Proof.
  intros x y z U. rewrite mt_quat, X_from_matrix by auto. rewrite q_unit in U. rewrite mquat_closed.
  unfold mrows, of_rows, vec; cbv zeta; cbn [r3x r3y r3z]. apply qt_eq. 
  match goal with |- Q4 (hs ?a) (V3 (flip _ _ (hs ?b)) (flip _ _ (hs ?c)) (flip _ _ (hs ?d))) = _ =>
    replace a with (4 * (0 * 0)) by lra; replace b with (4 * (x * x)) by lra; replace c with (4 * (y * y)) by lra; replace d with (4 * (z * z)) by lra end.
  unfold hs. rewrite !sqrt_half_sq, Rabs_R0. unfold flip. f_equal. apply V3_eq; destruct (Rlt_dec _ _); try reflexivity; lra.
Qed.
(** and so becomes a different rotation when they differ *)
Theorem C42_half_turn_refuted : exists a, unit_q a /\
  quaternion_to_matrix (quaternion_init_from_matrix (quaternion_to_matrix (qt a))) <> quaternion_to_matrix (qt a).
Proof.
  exists (Q4 0 (V3 (3/5) (-4/5) 0)). assert (U : unit_q (Q4 0 (V3 (3/5) (-4/5) 0))) by (apply q_unit; lra). split; auto.
  rewrite C42_half_turn by auto. rewrite (Rabs_pos_eq (3/5)), (Rabs_left (-4/5)), Rabs_R0 by lra.
  rewrite !mt_quat by (apply q_unit; lra). intros E. apply mt_inj in E. specialize (E 0%nat 1%nat ltac:(lia) ltac:(lia)). rewrite !mquat_closed in E.
  unfold mrows, of_rows, vec in E; cbn [r3x r3y r3z] in E. lra.
Qed.
(** Every rotation matrix with trace above -1 (that is, not a half turn) is recovered from its quaternion. *)
Definition rotation_rows (a b c : R3) : Prop := dot a a = 1 /\ dot b b = 1 /\ dot a b = 0 /\ c = cross a b.
Lemma rotation_facts a0 a1 a2 b0 b1 b2 c0 c1 c2 : rotation_rows (V3 a0 a1 a2) (V3 b0 b1 b2) (V3 c0 c1 c2) ->
  (a0 * a0 + a1 * a1 + a2 * a2 = 1 /\ b0 * b0 + b1 * b1 + b2 * b2 = 1 /\ c0 * c0 + c1 * c1 + c2 * c2 = 1 /\
   a0 * b0 + a1 * b1 + a2 * b2 = 0 /\ b0 * c0 + b1 * c1 + b2 * c2 = 0 /\ c0 * a0 + c1 * a1 + c2 * a2 = 0) /\
  (a0 * a0 + b0 * b0 + c0 * c0 = 1 /\ a1 * a1 + b1 * b1 + c1 * c1 = 1 /\ a2 * a2 + b2 * b2 + c2 * c2 = 1 /\
   a0 * a1 + b0 * b1 + c0 * c1 = 0 /\ a1 * a2 + b1 * b2 + c1 * c2 = 0 /\ a2 * a0 + b2 * b0 + c2 * c0 = 0) /\
  (a0 = b1 * c2 - b2 * c1 /\ a1 = b2 * c0 - b0 * c2 /\ a2 = b0 * c1 - b1 * c0) /\
  (b0 = c1 * a2 - c2 * a1 /\ b1 = c2 * a0 - c0 * a2 /\ b2 = c0 * a1 - c1 * a0) /\
  (c0 = a1 * b2 - a2 * b1 /\ c1 = a2 * b0 - a0 * b2 /\ c2 = a0 * b1 - a1 * b0).
Proof.
  unfold rotation_rows, dot, cross; cbn [r3x r3y r3z]. intros (A & B & AB & C). injection C as -> -> ->.
  set (sA := a0 * a0 + a1 * a1 + a2 * a2) in * . set (sB := b0 * b0 + b1 * b1 + b2 * b2) in * . set (sD := a0 * b0 + a1 * b1 + a2 * b2) in * .
  assert (U : forall l p q r, l = p * (sA - 1) + q * (sB - 1) + r * sD -> l = 0) by (intros l p q r ->; rewrite A, B, AB; ring).
  assert (V : forall l m p q r, l - m = p * (sA - 1) + q * (sB - 1) + r * sD -> l = m) by (intros l m p q r E; apply Rminus_diag_uniq; eapply U; exact E).
  repeat split; try assumption; try ring.
  - apply (V _ _ (sB) 1 (- sD)); unfold sA, sB, sD; ring.
  - apply (V _ _ (1 - b0 * b0) (sA - a0 * a0) (- (sD - 2 * a0 * b0))); unfold sA, sB, sD; ring.
  - apply (V _ _ (1 - b1 * b1) (sA - a1 * a1) (- (sD - 2 * a1 * b1))); unfold sA, sB, sD; ring.
  - apply (V _ _ (1 - b2 * b2) (sA - a2 * a2) (- (sD - 2 * a2 * b2))); unfold sA, sB, sD; ring.
  - apply (U _ (- (b0 * b1)) (- (a0 * a1)) (a0 * b1 + a1 * b0)); unfold sA, sB, sD; ring.
  - apply (U _ (- (b1 * b2)) (- (a1 * a2)) (a1 * b2 + a2 * b1)); unfold sA, sB, sD; ring.
  - apply (U _ (- (b2 * b0)) (- (a2 * a0)) (a2 * b0 + a0 * b2)); unfold sA, sB, sD; ring.
  - apply (V _ _ 0 (- a0) b0); unfold sA, sB, sD; ring.
  - apply (V _ _ 0 (- a1) b1); unfold sA, sB, sD; ring.
  - apply (V _ _ 0 (- a2) b2); unfold sA, sB, sD; ring.
  - apply (V _ _ (- b0) 0 a0); unfold sA, sB, sD; ring.
  - apply (V _ _ (- b1) 0 a1); unfold sA, sB, sD; ring.
  - apply (V _ _ (- b2) 0 a2); unfold sA, sB, sD; ring.
Qed.
Theorem C42_matrix_round_trip : forall a b c, rotation_rows a b c -> -1 < r3x a + r3y b + r3z c ->
  exists q, quaternion_init_from_matrix (mt (mrows a b c)) = qt q /\ unit_q q /\ 0 < qs q /\ quaternion_to_matrix (qt q) = mt (mrows a b c).
Proof.
  intros [a0 a1 a2] [b0 b1 b2] [c0 c1 c2] RT TR. cbn [r3x r3y r3z] in TR.
  destruct (rotation_facts _ _ _ _ _ _ _ _ _ RT) as ((R1 & R2 & R3' & R4 & R5 & R6) & (C1 & C2 & C3 & C4 & C5 & C6) & (A0 & A1 & A2) & (B0 & B1 & B2) & (D0 & D1 & D2)).
  assert (E0 : quaternion_init_from_matrix (mt (mrows (V3 a0 a1 a2) (V3 b0 b1 b2) (V3 c0 c1 c2))) =
    qt (Q4 (hs (1 + a0 + b1 + c2)) (V3 (flip c1 b2 (hs (1 + a0 - b1 - c2))) (flip a2 c0 (hs (1 - a0 + b1 - c2))) (flip b0 a1 (hs (1 - a0 - b1 + c2)))))).
  { rewrite X_from_matrix. reflexivity. }
  rewrite E0. clear E0.
  set (w := hs (1 + a0 + b1 + c2)). set (tr := 1 + a0 + b1 + c2) in * .
  assert (W2 : 4 * (w * w) = tr).
  { unfold w, hs. rewrite Rmax_left by (unfold tr; lra). replace (4 * (/ 2 * sqrt tr * (/ 2 * sqrt tr))) with (sqrt tr * sqrt tr) by field. apply sqrt_sqrt. unfold tr; lra. }
  assert (W0 : 0 < w). { unfold w, hs. rewrite Rmax_left by (unfold tr; lra). assert (0 < sqrt tr) by (apply sqrt_lt_R0; unfold tr; lra). lra. }
  assert (K : forall d e f, (e - d) * (e - d) = tr * f -> flip d e (hs f) = (e - d) / (4 * w)).
  { intros d e f E. set (u := (e - d) / (4 * w)). assert (EU : e - d = 4 * w * u) by (unfold u; field; lra).
    assert (F : f = 4 * (u * u)). { rewrite EU, <- W2 in E. apply (Rmult_eq_reg_l (4 * (w * w))); clear -E W0; [rewrite <- E; ring|nra]. }
    unfold hs. rewrite F, sqrt_half_sq. unfold flip. destruct (Rlt_dec e d) as [L|L].
    - assert (u < 0) by (clear -EU L W0; nra). rewrite Rabs_left; lra.
    - assert (0 <= u) by (apply Rnot_lt_le; intros Z; apply L; clear -EU Z W0; nra). now apply Rabs_pos_eq. }
  rewrite (K c1 b2 (1 + a0 - b1 - c2)), (K a2 c0 (1 - a0 + b1 - c2)), (K b0 a1 (1 - a0 - b1 + c2)) by (unfold tr; lra).
  set (x := (b2 - c1) / (4 * w)). set (y := (c0 - a2) / (4 * w)). set (z := (a1 - b0) / (4 * w)).
  assert (X : b2 - c1 = 4 * (w * x)) by (unfold x; field; lra). assert (Y : c0 - a2 = 4 * (w * y)) by (unfold y; field; lra). assert (Z : a1 - b0 = 4 * (w * z)) by (unfold z; field; lra).
  clearbody x y z w. assert (TN : 0 < tr) by (unfold tr; lra).
  assert (SQ : forall p q u v f, p = 4 * (w * u) -> q = 4 * (w * v) -> p * q = tr * f -> 4 * (u * v) = f).
  { intros p q u v f -> -> E. rewrite <- W2 in E. apply (Rmult_eq_reg_l (4 * (w * w))); clear -E W0; [rewrite <- E; ring|nra]. }
  assert (XX := SQ _ _ x x (1 + a0 - b1 - c2) X X ltac:(unfold tr; lra)).
  assert (YY := SQ _ _ y y (1 - a0 + b1 - c2) Y Y ltac:(unfold tr; lra)).
  assert (ZZ := SQ _ _ z z (1 - a0 - b1 + c2) Z Z ltac:(unfold tr; lra)).
  assert (XY := SQ _ _ x y (a1 + b0) X Y ltac:(unfold tr; lra)).
  assert (YZ := SQ _ _ y z (b2 + c1) Y Z ltac:(unfold tr; lra)).
  assert (ZX := SQ _ _ z x (c0 + a2) Z X ltac:(unfold tr; lra)).
  assert (U : unit_q (Q4 w (V3 x y z))) by (apply q_unit; unfold tr in W2; lra).
  exists (Q4 w (V3 x y z)). split; [reflexivity|]. split; auto. split; auto. rewrite mt_quat by auto. rewrite mquat_closed. unfold tr in W2.
  f_equal. f_equal; apply V3_eq; lra.
Qed.
(** the hypotheses of C42 are met by a rotation that mixes the axes *)
Example C42_ex : unit_q (Q4 (1/2) (V3 (1/2) (-1/2) (1/2))) /\
  rotation_rows (V3 (3/5) (4/5) 0) (V3 (-4/5) (3/5) 0) (V3 0 0 1).
Proof. split; [apply q_unit; lra|]. unfold rotation_rows, dot, cross; cbn [r3x r3y r3z]. repeat split; try lra. apply V3_eq; lra. Qed.
End S.
