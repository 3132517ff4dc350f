(** * Props_Simd4x4X: the simd4x4f API in exact arithmetic (C74). *)

From Coq Require Import ZArith Reals Bool List Lra Lia Psatz.
From Flocq Require Import Core.
From Verif Require Import Num Simd Vec Rect Box Mat OrdThy XSetup RMat Props_VecX Props_MatX.
Import ListNotations.
Local Open Scope R_scope.

(** A rigid motion: an affine matrix whose upper three rows are orthogonal unit vectors. *)
Definition row_dot (A : RM) (i j : nat) : R := A i 0%nat * A j 0%nat + A i 1%nat * A j 1%nat + A i 2%nat * A j 2%nat.
Definition orthonormal (A : RM) : Prop := forall i j, (i < 3)%nat -> (j < 3)%nat -> row_dot A i j = if Nat.eqb i j then 1 else 0.

Section S.
Context (BK : Backend xreal).

(** row vector times matrix, with the fourth component of the vector taken as it is, as 0, as 1 *)
Theorem C74_vec4_mul : forall A x y z w, gm_vec4_mul (mt A) (rv x y z w) = vv (vmul (vec x y z w) A).
Proof. intros. rewrite vv_vec. apply mt_vec4. Qed.
Theorem C74_vec3_mul : forall A x y z w, let r := vmul (vec x y z 0) A in
  gm_vec3_mul (mt A) (rv x y z w) = rv (r 0%nat) (r 1%nat) (r 2%nat) 0.
Proof. intros. rewrite vv_vec, mt_vec3. reflexivity. Qed.
Theorem C74_point3_mul : forall A x y z w, gm_point3_mul (mt A) (rv x y z w) = vv (vmul (vec x y z 1) A).
Proof. intros. rewrite vv_vec, mt_point3. reflexivity. Qed.
Theorem C74_matrix_mul : forall A B, gm_mul (mt A) (mt B) = mt (mmul A B).
Proof. exact mt_mul. Qed.
Theorem C74_sum_exact : forall A, gm_sum (mt A) = vv (fun j => A 0%nat j + A 1%nat j + A 2%nat j + A 3%nat j).
Proof. intros. unfold gm_sum, mt, vv. vs. reflexivity. Qed.

(** ** the "inverse orthographic" products *)
(** what they compute: products of the vector with the rows, instead of the columns *)
Theorem C74_inv_ortho_value : forall A x y z w,
  gm_inv_ortho_vec3_mul (mt A) (rv x y z w) =
    rv (x * A 0%nat 0%nat + y * A 0%nat 1%nat + z * A 0%nat 2%nat) (x * A 1%nat 0%nat + y * A 1%nat 1%nat + z * A 1%nat 2%nat)
       (x * A 2%nat 0%nat + y * A 2%nat 1%nat + z * A 2%nat 2%nat) 0 /\
  (affine A -> gm_inv_ortho_point3_mul (mt A) (rv x y z w) =
   gm_inv_ortho_vec3_mul (mt A) (rv (x - A 3%nat 0%nat) (y - A 3%nat 1%nat) (z - A 3%nat 2%nat) w)).
Proof.
  intros A x y z w.
  assert (Z : g_init_zero = rv 0 0 0 0) by reflexivity.
  assert (T : forall a b c d e f g h i j k l m n o p, gm_transpose (M4 (rv a b c d) (rv e f g h) (rv i j k l) (rv m n o p)) = M4 (rv a e i m) (rv b f j n) (rv c g k o) (rv d h l p)).
  { intros. unfold gm_transpose. vs. reflexivity. }
  split.
  - unfold gm_inv_ortho_vec3_mul, gm_zero_last, mt, vv. cbn [mx my mz mw]. rewrite Z, T. unfold gm_vec3_mul. vs. veqs; ring.
  - intros (A0 & A1 & A2 & A3). unfold gm_inv_ortho_vec3_mul, gm_inv_ortho_point3_mul, gm_zero_last, mt, vv. cbn [mx my mz mw].
    rewrite Z, !T. unfold gm_vec3_mul, gm_point3_mul. vs. rewrite A0, A1, A2. veqs; ring.
Qed.
Lemma mmul_ext A B A' B' : meq A A' -> meq B B' -> meq (mmul A B) (mmul A' B').
Proof. intros H K i j Hi Hj. unfold mmul, sum4. now rewrite !H, !K by lia. Qed.
Lemma det_ext A B : meq A B -> det 4 A = det 4 B.
Proof. intros H. rewrite !det4. cbv zeta. now rewrite !H by lia. Qed.
Lemma right_inverse_left A B : meq (mmul A B) mI -> meq (mmul B A) mI.
Proof.
  intros H. assert (D : det 4 A * det 4 B = 1) by (rewrite <- det_mul, (det_ext _ _ H); apply det_I).
  assert (N : det 4 A <> 0) by (intros Z; rewrite Z in D; lra).
  assert (E : meq B (minv A)).
  { intros i j Hi Hj. rewrite <- (mmul_1_l B) by auto.
    rewrite <- (mmul_ext _ B _ B (minv_l A N) (fun _ _ _ _ => eq_refl)) by auto. rewrite mmul_assoc by auto.
    rewrite (mmul_ext _ _ _ _ (fun _ _ _ _ => eq_refl) H) by auto. now apply mmul_1_r. }
  intros i j Hi Hj. rewrite (mmul_ext _ A _ A E (fun _ _ _ _ => eq_refl)) by auto. now apply minv_l.
Qed.
Lemma orthonormal_cols A : orthonormal A -> forall i j, (i < 3)%nat -> (j < 3)%nat ->
  A 0%nat i * A 0%nat j + A 1%nat i * A 1%nat j + A 2%nat i * A 2%nat j = if Nat.eqb i j then 1 else 0.
Proof.
  intros Or i j Hi Hj.
  set (E := fun i j => if (Nat.ltb i 3 && Nat.ltb j 3)%bool then A i j else mI i j).
  assert (H : meq (mmul E (mtr E)) mI).
  { intros k l Hk Hl. unfold mmul, sum4, mtr, E, mI.
    idx4 k Hk; idx4 l Hl; simpl; try ring;
    match goal with |- A ?a _ * A ?b _ + _ + _ + _ = _ => pose proof (Or a b ltac:(lia) ltac:(lia)) as Q; unfold row_dot in Q; simpl in Q; lra end. }
  apply right_inverse_left in H. specialize (H i j ltac:(lia) ltac:(lia)). unfold mI in H at 1. rewrite <- H. unfold mmul, sum4, mtr, E, mI.
  destruct i as [|[|[|]]]; try lia; destruct j as [|[|[|]]]; try lia; simpl; ring.
Qed.
(** For an orthonormal matrix they undo vec3_mul and point3_mul, and are undone by them. *)
Definition col_dot (A : RM) (i j : nat) : R := A 0%nat i * A 0%nat j + A 1%nat i * A 1%nat j + A 2%nat i * A 2%nat j.
Lemma col_dot_ortho A : orthonormal A -> forall i j, (i < 3)%nat -> (j < 3)%nat -> col_dot A i j = if Nat.eqb i j then 1 else 0.
Proof. exact (orthonormal_cols A). Qed.
Ltac lin A k Or dot x y z := transitivity (x * dot A 0%nat k + y * dot A 1%nat k + z * dot A 2%nat k);
  [unfold dot; ring|rewrite !Or by lia; simpl; ring].
Ltac lin3 A Or dot x y z := apply rv_eq; [lin A 0%nat Or dot x y z|lin A 1%nat Or dot x y z|lin A 2%nat Or dot x y z|try reflexivity; try ring].
Theorem C74_inv_ortho_vec3 : forall A x y z w w', orthonormal A ->
  (gm_inv_ortho_vec3_mul (mt A) (gm_vec3_mul (mt A) (rv x y z w)) = rv x y z 0) /\
  (gm_vec3_mul (mt A) (gm_inv_ortho_vec3_mul (mt A) (rv x y z w')) = rv x y z 0).
Proof.
  intros A x y z w w' Or. pose proof (col_dot_ortho A Or) as Co. split.
  - rewrite C74_vec3_mul. cbv zeta. rewrite (proj1 (C74_inv_ortho_value _ _ _ _ _)). unfold vmul, sum4, vec. lin3 A Or row_dot x y z.
  - rewrite (proj1 (C74_inv_ortho_value _ _ _ _ _)), C74_vec3_mul. cbv zeta. unfold vmul, sum4, vec. lin3 A Co col_dot x y z.
Qed.
Theorem C74_inv_ortho_point3 : forall A x y z w w', orthonormal A -> affine A ->
  (gm_inv_ortho_point3_mul (mt A) (gm_point3_mul (mt A) (rv x y z w)) = rv x y z 0) /\
  (gm_point3_mul (mt A) (gm_inv_ortho_point3_mul (mt A) (rv x y z w')) = rv x y z 1).
Proof.
  intros A x y z w w' Or Af. pose proof (col_dot_ortho A Or) as Co. split.
  - rewrite C74_point3_mul. unfold vv. rewrite (proj2 (C74_inv_ortho_value _ _ _ _ _)) by auto. rewrite (proj1 (C74_inv_ortho_value _ _ _ _ _)).
    unfold vmul, sum4, vec. lin3 A Or row_dot x y z.
  - rewrite (proj2 (C74_inv_ortho_value _ _ _ _ _)) by auto. rewrite (proj1 (C74_inv_ortho_value _ _ _ _ _)), C74_point3_mul.
    destruct Af as (A0 & A1 & A2 & A3). unfold vv, vmul, sum4, vec. rewrite A0, A1, A2, A3. set (a := x - A 3%nat 0%nat). set (b := y - A 3%nat 1%nat). set (c := z - A 3%nat 2%nat).
    replace (rv x y z 1) with (rv (a + A 3%nat 0%nat) (b + A 3%nat 1%nat) (c + A 3%nat 2%nat) 1) by (unfold a, b, c; veqs; ring).
    apply rv_eq; [..|ring]; rewrite Rmult_1_l; f_equal; [lin A 0%nat Co col_dot a b c|lin A 1%nat Co col_dot a b c|lin A 2%nat Co col_dot a b c].
Qed.
(** ** determinant *)
Theorem C74_determinant : forall A, vx (gm_determinant (mt A)) = Fin (- det 4 A) /\
  (exact_backend BK -> det 4 A <> 0 -> (is_scalar BK = true -> eps < Rabs (det 4 A)) ->
   let i := Fin (/ (- det 4 A)) in gm_invdet (mt A) = V4 i i i i).
Proof.
  intros A. split; [exact (C27_determinant_negated BK A)|]. intros EB N Ds i. unfold gm_invdet, i. destruct (mt_det_v BK A) as (a & b & c & ->).
  unfold g_splat_x, g_div, map2. cbn [vx g_splat]. rewrite rv_x, Xone, X_div; auto.
  - unfold g_splat. replace (1 / - det 4 A) with (/ - det 4 A) by (field; lra). reflexivity.
  - lra.
  - intros S. rewrite Rabs_Ropp. auto.
Qed.
(** the hypotheses are met, by a quarter turn around z followed by a translation *)
Example C74_exact_ex : let A := fun i => match i with 0 => vec 0 1 0 0 | 1 => vec (-1) 0 0 0 | 2 => vec 0 0 1 0 | _ => vec 5 6 7 1 end%nat in
  orthonormal A /\ affine A /\ det 4 A = 1 /\ gm_point3_mul (mt A) (rv 1 2 3 0) = rv 3 7 10 1.
Proof.
  cbv zeta. split; [|split; [|split]].
  - intros i j Hi Hj. unfold row_dot. destruct i as [|[|[|]]]; try lia; destruct j as [|[|[|]]]; try lia; simpl; ring.
  - unfold affine; simpl; lra.
  - rewrite det4. cbv zeta. simpl. ring.
  - rewrite C74_point3_mul. unfold vv, vmul, sum4, vec. veqs; ring.
Qed.
End S.
