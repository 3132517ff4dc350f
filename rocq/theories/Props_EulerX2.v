(** * Props_EulerX2: rotating a matrix by Euler angles, angles in degrees: exact arithmetic (C49, C73). *)
From Coq Require Import ZArith Reals Bool List Lra Lia Psatz.
From Flocq Require Import Core.
From Verif Require Import Num Simd Vec Rect Box Mat Quat OrdThy XSetup RMat Props_VecX Props_MatX Props_MatX2 RQuat TrigThy Props_QuatX Props_QuatX2 Props_MatX3 Props_MatX4 Props_EulerX.
Import ListNotations.
Local Open Scope R_scope.
Section S.
Context (BK : Backend xreal).
(** graphene_matrix_rotate_euler appends the rotation the order's name promises, for the four
    orders whose quaternion is right (C49_quaternion) *)
Theorem C49_rotate_euler_appends : forall o x y z A p q, In o [SXYZ; RZYX; OXYZ; ODefault] -> affine A ->
  matrix_transform_point3d (mt A) (pp3 p) = pp3 q ->
  matrix_transform_point3d (matrix_rotate_euler (mt A) (euler_init_from_radians (Fin x) (Fin y) (Fin z) o)) (pp3 p) = pp3 (turn o x y z q).
Proof.
  intros o x y z A p q IN Af E. destruct (C49_quaternion o x y z IN) as (Q & U & T & _). cbv zeta in Q.
  unfold matrix_rotate_euler, quaternion_init_from_euler. rewrite Q, <- T. now apply C41_rotate_quaternion_appends.
Qed.
Lemma quat_mat_real a : exists A, quaternion_to_matrix (qt a) = mt A.
Proof.
  destruct a as [w [x y z]]. eexists (of_rows (vec _ _ _ _) (vec _ _ _ _) (vec _ _ _ _) (vec _ _ _ _)).
  unfold quaternion_to_matrix, qt. cbn [qx qy qz qw qs qv r3x r3y r3z]. rewrite Xone, Xzero, xtwo, !Xmul, ?Xadd, ?Xsub, ?Xmul, ?Xsub, !rv_init.
  unfold mt, vv, of_rows, vec. reflexivity.
Qed.
Lemma euler_quat_real o x y z : exists a, euler_to_quaternion (euler_init_from_radians (Fin x) (Fin y) (Fin z) o) = qt a.
Proof.
  unfold euler_to_quaternion. rewrite eu_x, eu_y, eu_z. rewrite xhalf, !Xmul, !Xsin, !Xcos. cbv zeta. rewrite xm1.
  destruct (ap_rep _), (ap_parity _); rewrite ?Xmul, ?Xadd, ?Xsub, ?Xmul; eexists (Q4 _ (V3 _ _ _)); unfold qt; cbn [qs qv r3x r3y r3z]; reflexivity.
Qed.
(** in every other order it appends a different rotation than graphene_euler_to_matrix gives *)
Theorem C49_rotate_euler_refuted : forall o, ~ In o [SXYZ; RZYX; OXYZ; ODefault] ->
  let e := euler_init_with_order (Fin 90) (Fin 90) (Fin 180) o in
  matrix_rotate_euler matrix_init_identity e <> euler_to_matrix e.
Proof.
  intros o N e. pose proof (C49_other_orders_refuted o N) as H. cbv zeta in H. fold e in H.
  assert (E : exists a, euler_to_quaternion e = qt a).
  { unfold e, euler_init_with_order. rewrite !X_d2r. apply euler_quat_real. }
  destruct E as [a E]. unfold matrix_rotate_euler, matrix_rotate_quaternion, quaternion_init_from_euler. rewrite E in * .
  destruct (quat_mat_real a) as [A QA]. rewrite QA in * . rewrite (proj1 (C25_identity_neutral A)). exact H.
Qed.
(** degrees: what is put in comes out *)
Theorem C73_degrees_exact : forall o x y z v,
  let e := euler_init_with_order (Fin x) (Fin y) (Fin z) o in
  euler_get_x e = Fin x /\ euler_get_y e = Fin y /\ euler_get_z e = Fin z /\ euler_to_vec3 e = rv x y z 0 /\
  euler_to_vec3 (euler_init_from_vec3 (Some (rv x y z v)) o) = rv x y z v.
Proof.
  intros o x y z v e. pose proof PI_RGT_0 as P.
  assert (K : forall t, t * (PI / 180) * (180 / PI) = t) by (intros; field; lra).
  assert (L : (180 : R) / 1 = 180) by field.
  unfold e, euler_get_x, euler_get_y, euler_get_z, euler_to_vec3, euler_init_with_order, euler_init_internal, euler_init_from_vec3; cbn [eu_v].
  rewrite !X_d2r. unfold vec3_init, vec3_get_x, vec3_get_y, vec3_get_z, vec3_scale. rewrite Xzero, Xpi, x180, !Xdiv by lra. rewrite !rv_init. unfold g_splat.
  rewrite !rv_init, !rv_mul.
  split; [|split; [|split; [|split]]]; try (apply rv_eq; rewrite ?K, ?Rmult_0_l; reflexivity).
  all: unfold rad_to_deg; rewrite x180, Xpi, Xdiv by lra.
  all: match goal with |- (?a *. _)%f = Fin ?t => replace a with (Fin (t * (PI / 180))) by reflexivity end; rewrite Xmul; f_equal; apply K.
Qed.
End S.
