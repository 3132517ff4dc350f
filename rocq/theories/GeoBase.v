(** * GeoBase: what the vec3 operations compute on real vectors, exact arithmetic.
    [is3 v a]: the three components a caller can read from the vec3 [v] are [a]; the
    hidden fourth lane is anything. *)
From Coq Require Import ZArith Reals Bool List Lra Lia Psatz.
From Flocq Require Import Core.
From Verif Require Import Num Simd Vec Rect Box Mat Geo OrdThy XSetup Props_VecX RGeo.
Import ListNotations.
Local Open Scope R_scope.

Definition is3 (v : V) (a : R3) : Prop :=
  vec3_get_x v = Fin (X3 a) /\ vec3_get_y v = Fin (Y3 a) /\ vec3_get_z v = Fin (Z3 a).
(** the point3d with real coordinates [a] *)
Definition at3 (a : R3) : point3d xreal := P3 (Fin (X3 a)) (Fin (Y3 a)) (Fin (Z3 a)).
(** a plane with normal n and constant c; a sphere; a triangle; a ray *)
Definition rplane (pl : plane xreal) (n : R3) (c : R) : Prop := is3 (plane_get_normal pl) n /\ plane_get_constant pl = Fin c.

Lemma is3_v3 v a : is3 v a <-> v = v3 (X3 a) (Y3 a) (Z3 a) (vw v).
Proof.
  unfold is3, v3. destruct v as [x y z w]. unfold vec3_get_x, vec3_get_y, vec3_get_z, g_get_x, g_get_y, g_get_z; cbn [vx vy vz vw].
  split; [intros (-> & -> & ->); reflexivity|intros E; injection E; auto].
Qed.
Lemma v3_is3 x y z w : is3 (v3 x y z w) (mk3 x y z). Proof. repeat split. Qed.
Lemma is3_inj v a b : is3 v a -> is3 v b -> a = b.
Proof. intros (A & B & C) (D & E & G). rewrite A in D. rewrite B in E. rewrite C in G. apply R3_ext; congruence. Qed.

Section L.
Context (BK : Backend xreal).
Lemma is3_add u v a b : is3 u a -> is3 v b -> is3 (vec3_add u v) (vplus a b).
Proof. rewrite !(is3_v3 u), !(is3_v3 v). intros -> ->. repeat split. Qed.
Lemma is3_sub u v a b : is3 u a -> is3 v b -> is3 (vec3_subtract u v) (vminus a b).
Proof. rewrite !(is3_v3 u), !(is3_v3 v). intros -> ->. repeat split. Qed.
Lemma is3_mul u v a b : is3 u a -> is3 v b -> is3 (vec3_multiply u v) (mk3 (X3 a * X3 b) (Y3 a * Y3 b) (Z3 a * Z3 b)).
Proof. rewrite !(is3_v3 u), !(is3_v3 v). intros -> ->. repeat split. Qed.
Lemma is3_scale u a k : is3 u a -> is3 (vec3_scale u (Fin k)) (vscal k a).
Proof. rewrite !(is3_v3 u). intros ->. repeat split; cbn; rewrite Xmul; f_equal; ring. Qed.
Lemma is3_neg u a : is3 u a -> is3 (vec3_negate u) (vscal (-1) a).
Proof.
  rewrite !(is3_v3 u). intros ->. repeat split; unfold vec3_get_x, vec3_get_y, vec3_get_z, g_get_x, g_get_y, g_get_z, vec3_negate, g_neg, map1, lane_neg, backend, v3; cbn [vx vy vz vw];
  destruct BK; xs; f_equal; ring.
Qed.
Lemma is3_cross u v a b : is3 u a -> is3 v b -> is3 (vec3_cross u v) (cross a b).
Proof. rewrite !(is3_v3 u), !(is3_v3 v). intros -> ->. destruct (X_cross BK (X3 a) (Y3 a) (Z3 a) (X3 b) (Y3 b) (Z3 b) (vw u) (vw v)) as [h ->]. repeat split. Qed.
Lemma is3_dot u v a b : is3 u a -> is3 v b -> vec3_dot u v = Fin (dot a b).
Proof. rewrite !(is3_v3 u), !(is3_v3 v). intros -> ->. unfold vec3_dot. now rewrite X_dot3. Qed.
Lemma is3_zero : is3 vec3_zero vzero. Proof. repeat split. Qed.
Lemma is3_xaxis : is3 vec3_x_axis (mk3 1 0 0). Proof. repeat split. Qed.
Lemma is3_of_at3 a : is3 (point3d_to_vec3 (at3 a)) a. Proof. repeat split. Qed.
Lemma at3_of_is3 u a : is3 u a -> point3d_init_from_vec3 u = at3 a.
Proof. rewrite !(is3_v3 u). intros ->. reflexivity. Qed.
Lemma is3_xyz x y z w : is3 (vec4_get_xyz (V4 (Fin x) (Fin y) (Fin z) w)) (mk3 x y z). Proof. repeat split. Qed.
Context (EB : exact_backend BK).
Lemma is3_len u a : is3 u a -> vec3_length u = Fin (norm a).
Proof. rewrite !(is3_v3 u). intros ->. rewrite X_len3 by auto. reflexivity. Qed.
Lemma is3_normalize u a : is3 u a -> eps < norm a -> above_cutoff BK (dot a a) -> is3 (vec3_normalize u) (vscal (/ norm a) a).
Proof.
  rewrite !(is3_v3 u). intros -> Hn Hc. unfold vec3_normalize. rewrite X_len3, Xabs, xeps by auto.
  change (sqrt (X3 a * X3 a + Y3 a * Y3 a + Z3 a * Z3 a)) with (norm a).
  rewrite Xlt_t by (rewrite Rabs_pos_eq by apply norm_nonneg; exact Hn).
  unfold g_normalize3, g_dot3. rewrite X_dot3. change (X3 a * X3 a + Y3 a * Y3 a + Z3 a * Z3 a) with (dot a a).
  unfold g_rsqrt, g_splat, map1. cbn [vx vy vz vw].
  assert (0 < dot a a). { rewrite <- norm_sq. pose proof eps_pos. nra. }
  rewrite (X_rsqrt BK EB (dot a a) H Hc). repeat split; cbn; rewrite Xmul; f_equal; unfold norm; ring.
Qed.
Lemma is3_normalize0 u a : is3 u a -> norm a <= eps -> is3 (vec3_normalize u) vzero.
Proof.
  rewrite !(is3_v3 u). intros -> Hn. unfold vec3_normalize. rewrite X_len3, Xabs, xeps by auto.
  change (sqrt (X3 a * X3 a + Y3 a * Y3 a + Z3 a * Z3 a)) with (norm a).
  rewrite Xlt_f by (rewrite Rabs_pos_eq by apply norm_nonneg; exact Hn). repeat split.
Qed.
End L.
(** a vector of length > eps normalises to length one *)
Lemma unit_norm a : eps < norm a -> norm (vscal (/ norm a) a) = 1.
Proof.
  intros H. pose proof eps_pos. rewrite norm_scal, Rabs_pos_eq; [field; lra|]. left. apply Rinv_0_lt_compat. lra.
Qed.
Lemma unit_dot a : norm a = 1 <-> dot a a = 1.
Proof. rewrite <- norm_sq. pose proof (norm_nonneg a). split; [intros ->; ring|intros; nra]. Qed.
Definition rsphere (s : sphere xreal) (c : R3) (r : R) : Prop := is3 (scenter s) c /\ sphere_get_radius s = Fin r.
Lemma X_ffmax a b : ffmax (Fin a) (Fin b) = Fin (Rmax a b).
Proof.
  unfold ffmax. cbn [fisnan xreal_ops]. simpl. unfold Rmax. destruct (Rle_dec a b) as [L|L].
  - destruct (Rle_lt_or_eq_dec _ _ L) as [L'| ->]; [now rewrite Xlt_t|]. destruct (flt (Fin b) (Fin b)); reflexivity.
  - rewrite Xlt_f by lra. reflexivity.
Qed.
(** ** boxes with real corners; [w1], [w2] are the hidden lanes, zero for boxes built by
    the API *)
Definition rbox3 (a b : R3) : box xreal := Bx (rv (X3 a) (Y3 a) (Z3 a) 0) (rv (X3 b) (Y3 b) (Z3 b) 0).
Definition in_box (a b p : R3) : Prop := X3 a <= X3 p <= X3 b /\ Y3 a <= Y3 p <= Y3 b /\ Z3 a <= Z3 p <= Z3 b.
Lemma rbox3_init a b : rbox3 a b = box_init (Some (at3 a)) (Some (at3 b)). Proof. reflexivity. Qed.
Lemma box_contains_gen a b w1 w2 p : box_contains_point (Bx (rv (X3 a) (Y3 a) (Z3 a) w1) (rv (X3 b) (Y3 b) (Z3 b) w2)) (at3 p) = true <-> in_box a b p /\ w1 <= 0 <= w2.
Proof.
  unfold box_contains_point.
  replace (box_is_empty _) with false by reflexivity. replace (box_is_infinity _) with false by reflexivity.
  change (g_cmp_ge _ _) with (fle (Fin (X3 a)) (Fin (X3 p)) && fle (Fin (Y3 a)) (Fin (Y3 p)) && fle (Fin (Z3 a)) (Fin (Z3 p)) && fle (Fin w1) (Fin 0)).
  change (g_cmp_le _ _) with (fle (Fin (X3 p)) (Fin (X3 b)) && fle (Fin (Y3 p)) (Fin (Y3 b)) && fle (Fin (Z3 p)) (Fin (Z3 b)) && fle (Fin 0) (Fin w2)).
  match goal with |- (if ?c then true else false) = true <-> _ => replace (if c then true else false) with c by (destruct c; reflexivity) end.
  rewrite !andb_true_iff, !Xle_iff. unfold in_box. tauto.
Qed.
Lemma box_contains_rbox3 a b p : box_contains_point (rbox3 a b) (at3 p) = true <-> in_box a b p.
Proof. unfold rbox3. rewrite box_contains_gen. intuition lra. Qed.
