(** * RGeo: real 3-vectors, the specification vocabulary of the geometry properties.
    Nothing here mentions the model. *)
From Coq Require Import Reals Lra Psatz.
Local Open Scope R_scope.

Record R3 := mk3 { X3 : R; Y3 : R; Z3 : R }.
Definition vplus (a b : R3) : R3 := mk3 (X3 a + X3 b) (Y3 a + Y3 b) (Z3 a + Z3 b).
Definition vminus (a b : R3) : R3 := mk3 (X3 a - X3 b) (Y3 a - Y3 b) (Z3 a - Z3 b).
Definition vscal (k : R) (a : R3) : R3 := mk3 (k * X3 a) (k * Y3 a) (k * Z3 a).
Definition vzero : R3 := mk3 0 0 0.
Definition dot (a b : R3) : R := X3 a * X3 b + Y3 a * Y3 b + Z3 a * Z3 b.
Definition cross (a b : R3) : R3 :=
  mk3 (Y3 a * Z3 b - Z3 a * Y3 b) (Z3 a * X3 b - X3 a * Z3 b) (X3 a * Y3 b - Y3 a * X3 b).
Definition norm (a : R3) : R := sqrt (dot a a).
Definition dist (a b : R3) : R := norm (vminus a b).

Lemma R3_ext a b : X3 a = X3 b -> Y3 a = Y3 b -> Z3 a = Z3 b -> a = b.
Proof. destruct a, b; simpl; congruence. Qed.
Ltac r3 := apply R3_ext; simpl; try ring.
Ltac vx := repeat match goal with a : R3 |- _ => destruct a end;
  unfold dist, norm, dot, cross, vplus, vminus, vscal, vzero in *; cbn [X3 Y3 Z3] in *.

Lemma dot_sym a b : dot a b = dot b a. Proof. unfold dot; ring. Qed.
Lemma dot_nonneg a : 0 <= dot a a. Proof. unfold dot; nra. Qed.
Lemma dot_plus_l a b c : dot (vplus a b) c = dot a c + dot b c. Proof. unfold dot, vplus; simpl; ring. Qed.
Lemma dot_minus_l a b c : dot (vminus a b) c = dot a c - dot b c. Proof. unfold dot, vminus; simpl; ring. Qed.
Lemma dot_scal_l k a c : dot (vscal k a) c = k * dot a c. Proof. unfold dot, vscal; simpl; ring. Qed.
Lemma dot_plus_r a b c : dot c (vplus a b) = dot c a + dot c b. Proof. unfold dot, vplus; simpl; ring. Qed.
Lemma dot_minus_r a b c : dot c (vminus a b) = dot c a - dot c b. Proof. unfold dot, vminus; simpl; ring. Qed.
Lemma dot_scal_r k a c : dot c (vscal k a) = k * dot c a. Proof. unfold dot, vscal; simpl; ring. Qed.
Lemma dot_zero_iff a : dot a a = 0 <-> a = vzero.
Proof.
  split; [|intros ->; unfold dot; simpl; ring]. destruct a as [x y z]; unfold dot, vzero; simpl; intros H.
  assert (x = 0) by nra. assert (y = 0) by nra. assert (z = 0) by nra. now subst.
Qed.
Lemma norm_sq a : norm a * norm a = dot a a. Proof. apply sqrt_sqrt, dot_nonneg. Qed.
Lemma norm_nonneg a : 0 <= norm a. Proof. apply sqrt_pos. Qed.
Lemma norm_unique a r : 0 <= r -> r * r = dot a a -> norm a = r.
Proof. intros H E. unfold norm. rewrite <- E. now apply sqrt_square. Qed.
Lemma norm_le a r : 0 <= r -> (norm a <= r <-> dot a a <= r * r).
Proof.
  intros H. rewrite <- norm_sq. pose proof (norm_nonneg a). split; intros; nra.
Qed.
Lemma norm_lt a r : 0 <= r -> (r < norm a <-> r * r < dot a a).
Proof. intros H. rewrite <- norm_sq. pose proof (norm_nonneg a). split; intros; nra. Qed.
Lemma norm_scal k a : norm (vscal k a) = Rabs k * norm a.
Proof.
  apply norm_unique; [apply Rmult_le_pos; [apply Rabs_pos|apply norm_nonneg]|].
  replace (Rabs k * norm a * (Rabs k * norm a)) with (Rabs k * Rabs k * (norm a * norm a)) by ring.
  rewrite norm_sq, <- Rabs_mult, Rabs_pos_eq by nra. rewrite dot_scal_l, dot_scal_r. ring.
Qed.
Lemma norm_pos a : a <> vzero -> 0 < norm a.
Proof.
  intros H. apply sqrt_lt_R0. destruct (Rle_lt_or_eq_dec _ _ (dot_nonneg a)); auto. symmetry in e. now apply dot_zero_iff in e.
Qed.
Lemma cauchy a b : dot a b * dot a b <= dot a a * dot b b.
Proof.
  assert (E : dot a a * dot b b - dot a b * dot a b = dot (cross a b) (cross a b)) by (unfold dot, cross; simpl; ring).
  pose proof (dot_nonneg (cross a b)). lra.
Qed.
Lemma cauchy_abs a b : Rabs (dot a b) <= norm a * norm b.
Proof.
  apply Rsqr_incr_0_var; [|apply Rmult_le_pos; apply norm_nonneg]. rewrite <- Rsqr_abs. unfold Rsqr.
  replace (norm a * norm b * (norm a * norm b)) with ((norm a * norm a) * (norm b * norm b)) by ring. rewrite !norm_sq. apply cauchy.
Qed.
Lemma triangle_ineq a b : norm (vplus a b) <= norm a + norm b.
Proof.
  pose proof (norm_nonneg a). pose proof (norm_nonneg b). apply norm_le; [lra|].
  replace (dot (vplus a b) (vplus a b)) with (dot a a + 2 * dot a b + dot b b) by (unfold dot, vplus; simpl; ring).
  rewrite <- !norm_sq. pose proof (cauchy_abs a b). pose proof (Rle_abs (dot a b)). nra.
Qed.
Lemma dist_sym a b : dist a b = dist b a.
Proof. unfold dist, norm. f_equal. unfold dot, vminus; simpl; ring. Qed.
