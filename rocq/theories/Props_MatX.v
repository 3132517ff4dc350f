(** * Props_MatX: matrices in exact arithmetic (C25-C29), every back end unless stated. *)

From Coq Require Import ZArith Reals Bool List Lra Lia Psatz.
From Flocq Require Import Core.
From Verif Require Import Num Simd Vec Rect Box Mat OrdThy XSetup RMat Props_VecX.
Import ListNotations.
Local Open Scope R_scope.

(** the library's representation of a real matrix and of a real (row) vector *)
Definition vv (v : RV) : V := rv (v 0%nat) (v 1%nat) (v 2%nat) (v 3%nat).
Definition mt (A : RM) : mat xreal := M4 (vv (A 0%nat)) (vv (A 1%nat)) (vv (A 2%nat)) (vv (A 3%nat)).
Definition pt3 (x y z : R) : point3d xreal := P3 (Fin x) (Fin y) (Fin z).

Lemma vv_ext u v : veq u v -> vv u = vv v.
Proof. intros H. unfold vv. now rewrite !H by lia. Qed.
Lemma mt_ext A B : meq A B -> mt A = mt B.
Proof. intros H. unfold mt, vv. now rewrite !H by lia. Qed.
Lemma vv_inj u v : vv u = vv v -> veq u v.
Proof. unfold vv, rv. intros E i Hi. injection E. intros. idx4 i Hi; auto. Qed.
Lemma mt_inj A B : mt A = mt B -> meq A B.
Proof. unfold mt. intros E i j Hi Hj. injection E. intros. idx4 i Hi; idx4 j Hj; auto. Qed.

Lemma rv_eq a b c d a' b' c' d' : a = a' -> b = b' -> c = c' -> d = d' -> rv a b c d = rv a' b' c' d'.
Proof. now intros -> -> -> ->. Qed.
Lemma vv_vec a b c d : rv a b c d = vv (vec a b c d). Proof. reflexivity. Qed.
Lemma M4_eq (a b c d a' b' c' d' : V) : a = a' -> b = b' -> c = c' -> d = d' -> M4 a b c d = M4 a' b' c' d'.
Proof. now intros -> -> -> ->. Qed.
Ltac veqs := repeat first [apply M4_eq | apply rv_eq].

Lemma rv_init a b c d : g_init (Fin a) (Fin b) (Fin c) (Fin d) = rv a b c d. Proof. reflexivity. Qed.
Lemma rv_add a b c d a' b' c' d' : g_add (rv a b c d) (rv a' b' c' d') = rv (a + a') (b + b') (c + c') (d + d'). Proof. reflexivity. Qed.
Lemma rv_sub a b c d a' b' c' d' : g_sub (rv a b c d) (rv a' b' c' d') = rv (a - a') (b - b') (c - c') (d - d'). Proof. reflexivity. Qed.
Lemma rv_mul a b c d a' b' c' d' : g_mul (rv a b c d) (rv a' b' c' d') = rv (a * a') (b * b') (c * c') (d * d'). Proof. reflexivity. Qed.
Lemma rv_splat a : g_splat (Fin a) = rv a a a a. Proof. reflexivity. Qed.
Lemma rv_splat_x a b c d : g_splat_x (rv a b c d) = rv a a a a. Proof. reflexivity. Qed.
Lemma rv_splat_y a b c d : g_splat_y (rv a b c d) = rv b b b b. Proof. reflexivity. Qed.
Lemma rv_splat_z a b c d : g_splat_z (rv a b c d) = rv c c c c. Proof. reflexivity. Qed.
Lemma rv_splat_w a b c d : g_splat_w (rv a b c d) = rv d d d d. Proof. reflexivity. Qed.
Lemma rv_wxyz a b c d : g_shuffle_wxyz (rv a b c d) = rv d a b c. Proof. reflexivity. Qed.
Lemma rv_zwxy a b c d : g_shuffle_zwxy (rv a b c d) = rv c d a b. Proof. reflexivity. Qed.
Lemma rv_yzwx a b c d : g_shuffle_yzwx (rv a b c d) = rv b c d a. Proof. reflexivity. Qed.
Lemma rv_zero_w a b c d : g_zero_w (rv a b c d) = rv a b c 0. Proof. reflexivity. Qed.
Lemma rv_high a b c d a' b' c' d' : g_merge_high (rv a b c d) (rv a' b' c' d') = rv c d c' d'. Proof. reflexivity. Qed.
Lemma rv_0101 a b c d : g_flip_sign_0101 (rv a b c d) = rv a (- b) c (- d). Proof. reflexivity. Qed.
Lemma rv_1010 a b c d : g_flip_sign_1010 (rv a b c d) = rv (- a) b (- c) d. Proof. reflexivity. Qed.
Lemma rv_x a b c d : vx (rv a b c d) = Fin a. Proof. reflexivity. Qed.
Lemma rv_y a b c d : vy (rv a b c d) = Fin b. Proof. reflexivity. Qed.
Lemma rv_z a b c d : vz (rv a b c d) = Fin c. Proof. reflexivity. Qed.
Lemma rv_w a b c d : vw (rv a b c d) = Fin d. Proof. reflexivity. Qed.
Lemma rv_madd (BK : Backend xreal) a b c d a' b' c' d' e f g h : g_madd (rv a b c d) (rv a' b' c' d') (rv e f g h) =
  rv (a * a' + e) (b * b' + f) (c * c' + g) (d * d' + h).
Proof. unfold g_madd, backend. destruct BK as [| |? []|]; reflexivity. Qed.
Lemma rv_neg (BK : Backend xreal) a b c d : g_neg (rv a b c d) = rv (- a) (- b) (- c) (- d).
Proof. unfold g_neg, map1, lane_neg, backend, rv. cbn [vx vy vz vw]. destruct BK; xs; xring. Qed.
#[global] Opaque rv.
Ltac vs := unfold g_get_x, g_get_y, g_get_z, g_get_w; cbn [mx my mz mw];
  repeat (progress (rewrite ?Xone, ?Xzero, ?xm1, ?xhalf, ?xtwo, ?Xadd, ?Xsub, ?Xmul, ?Xneg, ?Xabs,
    ?rv_init, ?rv_splat, ?rv_splat_x, ?rv_splat_y, ?rv_splat_z, ?rv_splat_w, ?rv_wxyz, ?rv_zwxy, ?rv_yzwx, ?rv_zero_w,
    ?rv_high, ?rv_0101, ?rv_1010, ?rv_x, ?rv_y, ?rv_z, ?rv_w, ?rv_add, ?rv_sub, ?rv_mul, ?rv_madd)).

Section S.
Context (BK : Backend xreal).

Lemma mt_vec4 A v : gm_vec4_mul (mt A) (vv v) = vv (vmul v A).
Proof. unfold gm_vec4_mul, mt, vv. vs. unfold vmul, sum4. veqs; ring. Qed.
Lemma mt_vec3 A v : gm_vec3_mul (mt A) (vv v) = vv (fun i => if Nat.eqb i 3 then 0 else vmul (vec (v 0%nat) (v 1%nat) (v 2%nat) 0) A i).
Proof. unfold gm_vec3_mul, mt, vv. vs. unfold vmul, sum4, vec. simpl Nat.eqb; cbv iota. veqs; ring. Qed.
Lemma mt_point3 A v : gm_point3_mul (mt A) (vv v) = vv (vmul (vec (v 0%nat) (v 1%nat) (v 2%nat) 1) A).
Proof. unfold gm_point3_mul, mt, vv. vs. unfold vmul, sum4, vec. veqs; ring. Qed.
Lemma mt_mul A B : gm_mul (mt A) (mt B) = mt (mmul A B).
Proof. unfold gm_mul. cbn [mt mx my mz mw]. rewrite !mt_vec4. reflexivity. Qed.
Lemma mt_I : gm_identity = mt mI. Proof. reflexivity. Qed.

(** ** C25: multiplication composes transformations *)
Theorem C25_multiply_exact : forall A B, matrix_multiply (mt A) (mt B) = mt (mmul A B).
Proof. exact mt_mul. Qed.
Theorem C25_identity_neutral : forall A,
  matrix_multiply matrix_init_identity (mt A) = mt A /\ matrix_multiply (mt A) matrix_init_identity = mt A.
Proof.
  intros A. unfold matrix_multiply, matrix_init_identity. rewrite mt_I, !mt_mul. split; apply mt_ext; [apply mmul_1_l|apply mmul_1_r].
Qed.
Theorem C25_associative : forall A B C,
  matrix_multiply (matrix_multiply (mt A) (mt B)) (mt C) = matrix_multiply (mt A) (matrix_multiply (mt B) (mt C)).
Proof. intros. unfold matrix_multiply. rewrite !mt_mul. apply mt_ext, mmul_assoc. Qed.
Theorem C25_transform_vec4_exact : forall A v, matrix_transform_vec4 (mt A) (vv v) = vv (vmul v A).
Proof. exact mt_vec4. Qed.
Theorem C25_compose_vec4 : forall A B v,
  matrix_transform_vec4 (matrix_multiply (mt A) (mt B)) (vv v) = matrix_transform_vec4 (mt B) (matrix_transform_vec4 (mt A) (vv v)).
Proof. intros. unfold matrix_transform_vec4, matrix_multiply. rewrite mt_mul, !mt_vec4. apply vv_ext, vmul_mmul. Qed.
(** a vec3 is transformed by the upper 3x3 block *)
Theorem C25_transform_vec3_exact : forall A x y z w,
  matrix_transform_vec3 (mt A) (rv x y z w) =
  rv (x * A 0%nat 0%nat + y * A 1%nat 0%nat + z * A 2%nat 0%nat)
     (x * A 0%nat 1%nat + y * A 1%nat 1%nat + z * A 2%nat 1%nat)
     (x * A 0%nat 2%nat + y * A 1%nat 2%nat + z * A 2%nat 2%nat) 0.
Proof. intros. unfold matrix_transform_vec3. rewrite vv_vec, mt_vec3. unfold vv, vmul, sum4, vec. simpl Nat.eqb; cbv iota. veqs; ring. Qed.
Theorem C25_compose_vec3 : forall A B x y z w, affine A ->
  matrix_transform_vec3 (matrix_multiply (mt A) (mt B)) (rv x y z w) = matrix_transform_vec3 (mt B) (matrix_transform_vec3 (mt A) (rv x y z w)).
Proof.
  intros A B x y z w (A0 & A1 & A2 & A3). unfold matrix_multiply. rewrite mt_mul, !C25_transform_vec3_exact. unfold mmul, sum4. rewrite A0, A1, A2. veqs; ring.
Qed.
(** a point is transformed with w = 1, the transformed w is dropped *)
Theorem C25_transform_point3d_exact : forall A x y z,
  matrix_transform_point3d (mt A) (pt3 x y z) =
  pt3 (x * A 0%nat 0%nat + y * A 1%nat 0%nat + z * A 2%nat 0%nat + A 3%nat 0%nat)
      (x * A 0%nat 1%nat + y * A 1%nat 1%nat + z * A 2%nat 1%nat + A 3%nat 1%nat)
      (x * A 0%nat 2%nat + y * A 1%nat 2%nat + z * A 2%nat 2%nat + A 3%nat 2%nat).
Proof.
  intros. unfold matrix_transform_point3d, pt3. cbn [p3x p3y p3z]. rewrite Xone, rv_init, vv_vec, mt_point3. unfold vv, vmul, sum4, vec. vs.
  xring.
Qed.
Theorem C25_compose_point3d : forall A B x y z, affine A ->
  matrix_transform_point3d (matrix_multiply (mt A) (mt B)) (pt3 x y z) =
  matrix_transform_point3d (mt B) (matrix_transform_point3d (mt A) (pt3 x y z)).
Proof.
  intros A B x y z (A0 & A1 & A2 & A3). unfold matrix_multiply. rewrite mt_mul, !C25_transform_point3d_exact. unfold mmul, sum4, pt3. rewrite A0, A1, A2, A3. xring.
Qed.
(** the 2D point is the 3D one with z = 0 *)
Theorem C25_transform_point_is_point3d : forall A x y,
  let q := matrix_transform_point3d (mt A) (pt3 x y 0) in
  matrix_transform_point (mt A) (p2 x y) = Pt (p3x q) (p3y q).
Proof. reflexivity. Qed.
(** Without the affine hypothesis composition of points fails (perspective needs the division by w). *)
Theorem C25_projective_refuted : exists A B x y z,
  matrix_transform_point3d (matrix_multiply (mt A) (mt B)) (pt3 x y z) <>
  matrix_transform_point3d (mt B) (matrix_transform_point3d (mt A) (pt3 x y z)).
Proof.
  exists (fun i j => if Nat.eqb j 3 then 1 else 0), (fun i j => if Nat.eqb i 3 then 1 else 0), 1, 0, 0.
  unfold matrix_multiply. rewrite mt_mul, !C25_transform_point3d_exact. unfold mmul, sum4, pt3. simpl Nat.eqb. cbv iota. intros E. injection E. intros. lra.
Qed.

(** ** C26: transposition *)
Theorem C26_transpose_multiply : forall A B,
  matrix_transpose (matrix_multiply (mt A) (mt B)) = matrix_multiply (matrix_transpose (mt B)) (matrix_transpose (mt A)).
Proof.
  intros. assert (T : forall A, gm_transpose (mt A) = mt (mtr A)) by reflexivity.
  unfold matrix_transpose, matrix_multiply. rewrite mt_mul, !T, mt_mul. apply mt_ext. intros i j _ _. unfold mmul, mtr, sum4. ring.
Qed.

(** ** C27: the determinant.  graphene_matrix_determinant returns MINUS the determinant. *)
Lemma mt_det_v A : exists a b c, gm_det_v (mt A) = rv (- det 4 A) a b c.
Proof.
  unfold gm_det_v, gm_r1_sum, sum_b, minor1, minor2, minor3, mt, vv. vs. do 3 eexists. rewrite det4. cbv zeta.
  apply rv_eq; [ring|reflexivity..].
Qed.
Lemma mt_det A : matrix_determinant (mt A) = Fin (- det 4 A).
Proof. unfold matrix_determinant, gm_determinant. destruct (mt_det_v A) as (a & b & c & ->). now vs. Qed.
Theorem C27_determinant_negated : forall A, matrix_determinant (mt A) = Fin (- det 4 A).
Proof. exact mt_det. Qed.
(** the documented claim (the value of the determinant) is false, already for the identity *)
Theorem C27_determinant_refuted : matrix_determinant matrix_init_identity = Fin (-1) /\ det 4 mI = 1.
Proof. unfold matrix_init_identity. rewrite mt_I, mt_det, det_I. split; xring. Qed.
Theorem C27_determinant_laws : forall A B a b,
  matrix_determinant (mt A) = Fin a -> matrix_determinant (mt B) = Fin b ->
  matrix_determinant (matrix_multiply (mt A) (mt B)) = Fin (- (a * b)) /\
  matrix_determinant (matrix_transpose (mt A)) = Fin a.
Proof.
  intros A B a b. unfold matrix_multiply. rewrite mt_mul, !mt_det. intros E1 E2. injection E1 as <-. injection E2 as <-.
  rewrite det_mul. split; [xring|]. change (matrix_transpose (mt A)) with (mt (mtr A)). rewrite mt_det. now rewrite det_tr.
Qed.
Theorem C27_is_singular_exact : forall A, matrix_is_singular (mt A) = true <-> Rabs (det 4 A) <= eps.
Proof.
  intros. unfold matrix_is_singular. change (g_get_x (gm_determinant (mt A))) with (matrix_determinant (mt A)).
  rewrite mt_det, Xabs, xeps, Xle_iff, Rabs_Ropp. tauto.
Qed.

(** ** C28: the inverse *)
(** the adjugate, by cofactors *)
Definition adj (A : RM) : RM := fun i j =>
  (-1) ^ (i + j) * det 3 (fun r c => A (if Nat.ltb r j then r else S r) (if Nat.ltb c i then c else S c)).
Lemma adj_r A : meq (mmul A (adj A)) (fun i j => if Nat.eqb i j then det 4 A else 0).
Proof.
  intros i j Hi Hj. unfold mmul, sum4, adj. rewrite det4, !det3. idx4 i Hi; idx4 j Hj; simpl; ring.
Qed.
Lemma adj_l A : meq (mmul (adj A) A) (fun i j => if Nat.eqb i j then det 4 A else 0).
Proof.
  intros i j Hi Hj. unfold mmul, sum4, adj. rewrite det4, !det3. idx4 i Hi; idx4 j Hj; simpl; ring.
Qed.
Definition minv (A : RM) : RM := fun i j => adj A i j / det 4 A.
Lemma minv_r A : det 4 A <> 0 -> meq (mmul A (minv A)) mI.
Proof.
  intros D i j Hi Hj. transitivity (mmul A (adj A) i j / det 4 A).
  - unfold mmul, sum4, minv. field. auto.
  - rewrite (adj_r A i j Hi Hj). unfold mI. destruct (Nat.eqb i j); field; auto.
Qed.
Lemma minv_l A : det 4 A <> 0 -> meq (mmul (minv A) A) mI.
Proof.
  intros D i j Hi Hj. transitivity (mmul (adj A) A i j / det 4 A).
  - unfold mmul, sum4, minv. field. auto.
  - rewrite (adj_l A i j Hi Hj). unfold mI. destruct (Nat.eqb i j); field; auto.
Qed.
Lemma mt_inverse_f A : Rabs (det 4 A) < eps -> gm_inverse (mt A) = None.
Proof.
  intros D. unfold gm_inverse. cbv zeta. fold (gm_r1_sum (mt A)). 
  fold (gm_det_v (mt A)). destruct (mt_det_v A) as (a & b & c & ->). vs. rewrite xeps, Rabs_Ropp, Xle_f by auto. reflexivity.
Qed.
Lemma mt_inverse_t (EB : exact_backend BK) A : eps <= Rabs (det 4 A) -> (is_scalar BK = true -> eps < Rabs (det 4 A)) ->
  gm_inverse (mt A) = Some (mt (minv A)).
Proof.
  intros D Ds. unfold gm_inverse. cbv zeta. fold (gm_r1_sum (mt A)).
  fold (gm_det_v (mt A)). destruct (mt_det_v A) as (a & b & c & ->). cbv zeta. unfold g_get_x at 1. rewrite rv_x, Xabs, xeps, Rabs_Ropp, Xle_t by auto.
  assert (Dn : det 4 A <> 0) by (intros E; rewrite E, Rabs_R0 in D; unfold eps in D; lra).
  assert (I : g_splat_x (g_div (g_splat fone) (rv (- det 4 A) a b c)) = rv (/ (- det 4 A)) (/ (- det 4 A)) (/ (- det 4 A)) (/ (- det 4 A))).
  { unfold g_splat_x, g_div, map2. cbn [vx g_splat]. rewrite rv_x, Xone, X_div; auto.
    - rewrite rv_splat. f_equal; field; lra.
    - lra.
    - intros S. rewrite Rabs_Ropp. auto. }
  rewrite I. f_equal. unfold gm_r1_sum, sum_a, sum_b, minor1, minor2, minor3, mt, vv, gm_init. vs.
  unfold gm_transpose. vs.
  replace (/ - det 4 A) with (- / det 4 A) by (field; auto).
  veqs; unfold minv, adj, Rdiv; rewrite det3; generalize (/ det 4 A); intros q; simpl; ring.
Qed.
(** It succeeds exactly when |det| >= FLT_EPSILON ... *)
Theorem C28_inverse_answer : forall A, matrix_inverse (mt A) = None <-> Rabs (det 4 A) < eps.
Proof.
  intros A. split; [|apply mt_inverse_f]. intros H. destruct (Rlt_le_dec (Rabs (det 4 A)) eps) as [|L]; auto. exfalso. revert H.
  unfold matrix_inverse, gm_inverse. cbv zeta. fold (gm_r1_sum (mt A)). fold (gm_det_v (mt A)). destruct (mt_det_v A) as (a & b & c & ->).
  unfold g_get_x at 1. rewrite rv_x, Xabs, xeps, Rabs_Ropp, Xle_t by auto. discriminate.
Qed.
(** ... and then (above the scalar back end's division cut-off) it is the inverse. *)
Theorem C28_inverse_exact : forall A, exact_backend BK -> eps <= Rabs (det 4 A) -> (is_scalar BK = true -> eps < Rabs (det 4 A)) ->
  exists I, matrix_inverse (mt A) = Some (mt I) /\
    matrix_multiply (mt A) (mt I) = matrix_init_identity /\ matrix_multiply (mt I) (mt A) = matrix_init_identity /\
    (forall v, matrix_transform_vec4 (mt I) (matrix_transform_vec4 (mt A) (vv v)) = vv v /\
               matrix_transform_vec4 (mt A) (matrix_transform_vec4 (mt I) (vv v)) = vv v).
Proof.
  intros A EB D Ds. exists (minv A). split; [now apply mt_inverse_t|].
  assert (Dn : det 4 A <> 0) by (intros E; rewrite E, Rabs_R0 in D; unfold eps in D; lra).
  assert (I1 : matrix_multiply (mt A) (mt (minv A)) = matrix_init_identity).
  { unfold matrix_multiply, matrix_init_identity. rewrite mt_mul, mt_I. apply mt_ext. now apply minv_r. }
  assert (I2 : matrix_multiply (mt (minv A)) (mt A) = matrix_init_identity).
  { unfold matrix_multiply, matrix_init_identity. rewrite mt_mul, mt_I. apply mt_ext. now apply minv_l. }
  split; [auto|]. split; [auto|]. intros v.
  assert (Iv : matrix_transform_vec4 matrix_init_identity (vv v) = vv v).
  { unfold matrix_transform_vec4, matrix_init_identity. rewrite mt_I, mt_vec4. apply vv_ext. intros i Hi. unfold vmul, sum4, mI. idx4 i Hi; simpl; ring. }
  rewrite <- !C25_compose_vec4, I1, I2. auto.
Qed.
Theorem C28_nonsingular_inverted : forall A, exact_backend BK -> matrix_is_singular (mt A) = false ->
  exists I, matrix_inverse (mt A) = Some (mt I) /\ matrix_multiply (mt A) (mt I) = matrix_init_identity.
Proof.
  intros A EB H. assert (D : eps < Rabs (det 4 A)).
  { destruct (Rlt_le_dec eps (Rabs (det 4 A))) as [|L]; auto. apply C27_is_singular_exact in L. congruence. }
  destruct (C28_inverse_exact A EB) as (I & E & E' & _); [lra|auto|]. eauto.
Qed.
(** The inverse of an affine matrix undoes transform_point3d. *)
Theorem C28_inverse_points : forall A, exact_backend BK -> affine A -> eps < Rabs (det 4 A) ->
  exists I, matrix_inverse (mt A) = Some (mt I) /\ affine I /\ forall x y z,
    matrix_transform_point3d (mt I) (matrix_transform_point3d (mt A) (pt3 x y z)) = pt3 x y z /\
    matrix_transform_point3d (mt A) (matrix_transform_point3d (mt I) (pt3 x y z)) = pt3 x y z.
Proof.
  intros A EB Af D. destruct (C28_inverse_exact A EB) as (I & E & E1 & E2 & _); [lra|auto|]. exists I. split; auto.
  assert (Dn : det 4 A <> 0) by (intros Z; rewrite Z, Rabs_R0 in D; unfold eps in D; lra).
  assert (Am : affine I).
  { rewrite mt_inverse_t in E by (auto; lra). assert (M : meq (minv A) I) by (apply mt_inj; congruence).
    clear - Af M Dn. unfold affine. rewrite <- !M by lia.
    destruct Af as (A0 & A1 & A2 & A3).
    assert (D4 : det 4 A = det 3 A). { rewrite det4, det3. cbv zeta. rewrite A0, A1, A2, A3. ring. }
    unfold minv, adj, Rdiv. rewrite D4 in Dn |- * . revert Dn. rewrite !det3. simpl. rewrite A0, A1, A2. intros Dn.
    repeat split; try ring. field. auto. }
  split; auto. intros x y z.
  assert (Ip : matrix_transform_point3d matrix_init_identity (pt3 x y z) = pt3 x y z).
  { unfold matrix_init_identity. rewrite mt_I, C25_transform_point3d_exact. unfold mI, pt3; simpl. xring. }
  rewrite <- !C25_compose_point3d, E1, E2 by auto. auto.
Qed.
End S.

(** The scalar back end divides by anything not above FLT_EPSILON to zero: at |det| =
    FLT_EPSILON it reports success and stores the zero matrix. *)
Theorem C28_scalar_boundary_refuted : forall b, let BK : Backend xreal := Scalar b in
  exists A, Rabs (det 4 A) = eps /\ matrix_inverse (mt A) = Some (mt (fun _ _ => 0)).
Proof.
  intros b BK. set (A := fun i j : nat => if Nat.eqb i j then (if Nat.eqb i 0 then eps else 1) else 0). exists A.
  assert (D : det 4 A = eps) by (rewrite det4; unfold A; simpl; ring).
  split; [rewrite D; apply Rabs_pos_eq; unfold eps; lra|].
  unfold matrix_inverse, gm_inverse. cbv zeta. fold (gm_r1_sum (mt A)). fold (gm_det_v (mt A)). destruct (mt_det_v BK A) as (a & b' & c & ->).
  unfold g_get_x at 1. rewrite rv_x, Xabs, xeps, Rabs_Ropp, D, Xle_t by (rewrite Rabs_pos_eq; unfold eps; lra).
  assert (I : g_splat_x (g_div (g_splat fone) (rv (- eps) a b' c)) = rv 0 0 0 0).
  { unfold g_splat_x, g_div, map2. cbn [vx g_splat]. rewrite rv_x. unfold lane_div, backend, BK.
    rewrite Xabs, xeps, Rabs_Ropp, Xlt_f by (rewrite Rabs_pos_eq; unfold eps; lra). rewrite Xzero, rv_splat. reflexivity. }
  rewrite I. f_equal. unfold gm_r1_sum, sum_a, sum_b, minor1, minor2, minor3, mt, vv, gm_init. vs.
  unfold gm_transpose. vs. veqs; ring.
Qed.
