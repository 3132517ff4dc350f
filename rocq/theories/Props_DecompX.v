(** * Props_DecompX: matrix decomposition and interpolation in exact arithmetic (C39, C68). *)
From Coq Require Import ZArith Reals Bool List Lra Lia Psatz.
From Flocq Require Import Core.
From Verif Require Import Num Simd Vec Rect Box Mat Quat OrdThy XSetup RMat Props_VecX Props_MatX Props_MatX2 Props_MatX3 Props_MatX4 RQuat TrigThy Props_QuatX Props_QuatX2.
Import ListNotations.
Local Open Scope R_scope.

(** ** Textbook side: rows, Gram-Schmidt *)
Definition row3 (A : RM) (i : nat) : R3 := V3 (A i 0%nat) (A i 1%nat) (A i 2%nat).
(** the part of [r1] orthogonal to [r0]; the part of [r2] orthogonal to both *)
Definition orth1 (r0 r1 : R3) : R3 := sub3 r1 (scl3 (dot r0 r1 / dot r0 r0) r0).
Definition orth2 (r0 r1 r2 : R3) : R3 :=
  let e1 := orth1 r0 r1 in sub3 (sub3 r2 (scl3 (dot r0 r2 / dot r0 r0) r0)) (scl3 (dot e1 r2 / dot e1 e1) e1).
Ltac r3s := repeat match goal with v : R3 |- _ => let x := fresh "x" in let y := fresh "y" in let z := fresh "z" in destruct v as [x y z] end.
Lemma dot_0 v : dot v v = 0 -> v = V3 0 0 0.
Proof. destruct v as [x y z]. unfold dot; cbn [r3x r3y r3z]. intros H. apply V3_eq; nra. Qed.
Lemma dot_pos v : v <> V3 0 0 0 -> 0 < dot v v.
Proof. intros H. pose proof (dot_nonneg v). destruct (Req_dec (dot v v) 0) as [E|E]; [|lra]. now apply dot_0 in E. Qed.
Lemma triple_orth1 r0 r1 v : dot r0 r0 <> 0 -> dot (cross r0 r1) v = dot (cross r0 (orth1 r0 r1)) v.
Proof. intros H. unfold orth1. set (k := dot r0 r1 / dot r0 r0). clearbody k. clear H. r3s. unfold dot, cross, sub3, scl3; cbn [r3x r3y r3z]. ring. Qed.
Lemma triple_sub a b v k l : dot (cross a b) v = dot (cross a b) (sub3 (sub3 v (scl3 k a)) (scl3 l b)).
Proof. r3s. unfold dot, cross, sub3, scl3; cbn [r3x r3y r3z]. ring. Qed.
Lemma triple_orth2 r0 r1 r2 : dot r0 r0 <> 0 -> dot (cross r0 r1) r2 = dot (cross r0 (orth1 r0 r1)) (orth2 r0 r1 r2).
Proof. intros H. rewrite triple_orth1 by auto. unfold orth2. apply triple_sub. Qed.
Lemma gs_positive r0 r1 r2 : dot (cross r0 r1) r2 <> 0 ->
  0 < dot r0 r0 /\ 0 < dot (orth1 r0 r1) (orth1 r0 r1) /\ 0 < dot (orth2 r0 r1 r2) (orth2 r0 r1 r2).
Proof.
  intros D. assert (P0 : 0 < dot r0 r0). { apply dot_pos. intros ->. apply D. unfold dot, cross; cbn [r3x r3y r3z]. ring. }
  split; auto. rewrite triple_orth2 in D by lra. split.
  - apply dot_pos. intros E. rewrite E in D. apply D. unfold dot, cross; cbn [r3x r3y r3z]. ring.
  - apply dot_pos. intros E. rewrite E in D. apply D. unfold dot, cross; cbn [r3x r3y r3z]. ring.
Qed.
Lemma det_affine A : affine A -> det 4 A = dot (cross (row3 A 0) (row3 A 1)) (row3 A 2).
Proof. intros (E0 & E1 & E2 & E3). rewrite det4. cbv zeta. rewrite E0, E1, E2, E3. unfold dot, cross, row3; cbn [r3x r3y r3z]. ring. Qed.
Lemma orth_frame a b c : dot a a = 1 -> dot b b = 1 -> dot c c = 1 -> dot a b = 0 -> dot a c = 0 -> dot b c = 0 ->
  let t := dot a (cross b c) in t * t = 1 /\ c = scl3 t (cross a b).
Proof.
  intros A B C AB AC BC t.
  assert (W : dot (cross a b) (cross a b) = 1). { replace (dot (cross a b) (cross a b)) with (dot a a * dot b b - dot a b * dot a b) by (clear; r3s; unfold dot, cross; cbn [r3x r3y r3z]; ring). rewrite A, B, AB. ring. }
  assert (T : dot (cross a b) c = t) by (unfold t; clear; r3s; unfold dot, cross; cbn [r3x r3y r3z]; ring).
  assert (Z : cross (cross a b) c = V3 0 0 0).
  { assert (E : cross (cross a b) c = sub3 (scl3 (dot a c) b) (scl3 (dot b c) a)) by (clear; r3s; unfold dot, cross, sub3, scl3; cbn [r3x r3y r3z]; apply V3_eq; ring).
    rewrite E, AC, BC. clear. r3s. unfold sub3, scl3; cbn [r3x r3y r3z]; apply V3_eq; ring. }
  assert (T1 : t * t = 1).
  { assert (E : dot (cross (cross a b) c) (cross (cross a b) c) = dot (cross a b) (cross a b) * dot c c - dot (cross a b) c * dot (cross a b) c).
    { generalize (cross a b). clear. intros. r3s. unfold dot, cross; cbn [r3x r3y r3z]; ring. }
    rewrite Z, W, C, T in E. unfold dot in E; cbn [r3x r3y r3z] in E. lra. }
  split; auto.
  assert (E : dot (sub3 c (scl3 t (cross a b))) (sub3 c (scl3 t (cross a b))) = 0).
  { replace (dot (sub3 c (scl3 t (cross a b))) (sub3 c (scl3 t (cross a b)))) with (dot c c - 2 * t * dot (cross a b) c + t * t * dot (cross a b) (cross a b))
      by (generalize (cross a b); clear; intros; r3s; unfold dot, sub3, scl3; cbn [r3x r3y r3z]; ring).
    rewrite C, T, W. nra. }
  apply dot_0 in E. clear -E. set (d := scl3 t (cross a b)) in * . clearbody d. destruct c as [x y z], d as [x' y' z']. unfold sub3 in E; cbn [r3x r3y r3z] in E. injection E. intros. apply V3_eq; lra.
Qed.
Lemma unit3_dot u v : dot (unit3 u) v = / sqrt (dot u u) * dot u v.
Proof. unfold unit3. set (k := / sqrt (dot u u)). clearbody k. r3s. unfold dot, scl3; cbn [r3x r3y r3z]. ring. Qed.
Lemma unit3_dot2 u v : dot (unit3 u) (unit3 v) = / sqrt (dot u u) * / sqrt (dot v v) * dot u v.
Proof. unfold unit3. set (k := / sqrt (dot u u)). set (l := / sqrt (dot v v)). clearbody k l. r3s. unfold dot, scl3; cbn [r3x r3y r3z]. ring. Qed.
Lemma scl3_scl a b v : scl3 a (scl3 b v) = scl3 (a * b) v.
Proof. r3s. unfold scl3; cbn [r3x r3y r3z]. apply V3_eq; ring. Qed.
Lemma dot_comm u v : dot u v = dot v u.
Proof. unfold dot. ring. Qed.
Lemma inv_sqrt2 n : 0 < n -> / sqrt n * / sqrt n = / n.
Proof. intros H. rewrite <- Rinv_mult, sqrt_sqrt; lra. Qed.
(** what the code subtracts *)
Lemma unit_part u v : 0 < dot u u -> scl3 (dot (unit3 u) v) (unit3 u) = scl3 (dot u v / dot u u) u.
Proof. intros P. rewrite unit3_dot. unfold unit3. rewrite scl3_scl. f_equal. unfold Rdiv. rewrite <- (inv_sqrt2 _ P). ring. Qed.
Lemma dot_sub_r u v w : dot u (sub3 v w) = dot u v - dot u w.
Proof. r3s. unfold dot, sub3; cbn [r3x r3y r3z]. ring. Qed.
Lemma dot_scl_r u k w : dot u (scl3 k w) = k * dot u w.
Proof. r3s. unfold dot, scl3; cbn [r3x r3y r3z]. ring. Qed.
Lemma dot_scl_l u k w : dot (scl3 k u) w = k * dot u w.
Proof. r3s. unfold dot, scl3; cbn [r3x r3y r3z]. ring. Qed.
Lemma orth1_orth a b : 0 < dot a a -> dot a (orth1 a b) = 0.
Proof. intros P. unfold orth1. rewrite dot_sub_r, dot_scl_r. field. lra. Qed.
Lemma orth2_orth a b c : 0 < dot a a -> 0 < dot (orth1 a b) (orth1 a b) -> dot a (orth2 a b c) = 0 /\ dot (orth1 a b) (orth2 a b c) = 0.
Proof.
  intros P Q. pose proof (orth1_orth a b P) as O. unfold orth2. cbv zeta. set (e := orth1 a b) in * . clearbody e.
  rewrite !dot_sub_r, !dot_scl_r, O, (dot_comm e a), O. split; field; lra.
Qed.
Lemma unit_rec v : 0 < dot v v -> scl3 (sqrt (dot v v)) (unit3 v) = v.
Proof. intros P. unfold unit3. rewrite scl3_scl, Rinv_r. 2: now apply Rgt_not_eq, sqrt_lt_R0. r3s. unfold scl3; cbn [r3x r3y r3z]. apply V3_eq; ring. Qed.
Lemma sub_add a b : add3 (sub3 a b) b = a.
Proof. r3s. unfold add3, sub3; cbn [r3x r3y r3z]. apply V3_eq; ring. Qed.

Lemma scl_unit_inj a b u v : 0 < a -> 0 < b -> dot u u = 1 -> dot v v = 1 -> scl3 a u = scl3 b v -> a = b /\ u = v.
Proof.
  intros A B U V E. assert (Q : a * a = b * b).
  { assert (K : dot (scl3 a u) (scl3 a u) = dot (scl3 b v) (scl3 b v)) by (now rewrite E). rewrite !dot_scl_l, !dot_scl_r, U, V in K. lra. }
  assert (a = b) by nra. subst b. split; auto. clear - A E. destruct u as [x y z], v as [x' y' z']. unfold scl3 in E; cbn [r3x r3y r3z] in E. injection E. intros. apply V3_eq; apply (Rmult_eq_reg_l a); lra.
Qed.
Lemma dot_add_r u v w : dot u (add3 v w) = dot u v + dot u w.
Proof. r3s. unfold dot, add3; cbn [r3x r3y r3z]. ring. Qed.
Lemma add_scl a u v : scl3 a (add3 u v) = add3 (scl3 a u) (scl3 a v).
Proof. r3s. unfold scl3, add3; cbn [r3x r3y r3z]. apply V3_eq; ring. Qed.
Lemma add3_cancel a b c : add3 a c = add3 b c -> a = b.
Proof. r3s. unfold add3; cbn [r3x r3y r3z]. intros E. injection E. intros. apply V3_eq; lra. Qed.

Section S.
Context (BK : Backend xreal).

Definition rr (v : R3) : V := rv (r3x v) (r3y v) (r3z v) 0.
Lemma rr_dot4 u v : g_dot4 (rr u) (rr v) = g_splat (Fin (dot u v)).
Proof. unfold rr. rewrite X_dot4. do 2 f_equal. unfold dot. ring. Qed.
Lemma rr_dotx u v : g_get_x (g_dot4 (rr u) (rr v)) = Fin (dot u v). Proof. now rewrite rr_dot4. Qed.
Lemma rr_len (EB : exact_backend BK) v : g_get_x (g_length4 (rr v)) = Fin (sqrt (dot v v)).
Proof. unfold g_length4. rewrite rr_dot4. unfold g_sqrt, g_splat, map1, g_get_x; cbn [vx]. rewrite (X_lane_sqrt BK EB); auto. apply dot_nonneg. Qed.
Lemma rr_norm (EB : exact_backend BK) v : 0 < dot v v -> above_cutoff BK (dot v v) -> g_normalize4 (rr v) = rr (unit3 v).
Proof.
  intros P C. unfold g_normalize4. rewrite rr_dot4. unfold g_rsqrt, g_splat, map1; cbn [vx vy vz vw]. rewrite (X_rsqrt BK EB _ P C).
  change (V4 (Fin ?a) (Fin ?b) (Fin ?c) (Fin ?d)) with (rv a b c d). unfold rr. rewrite rv_mul. unfold unit3, scl3; cbn [r3x r3y r3z]. apply rv_eq; ring.
Qed.
Lemma rr_sub u v k : g_sub (rr u) (g_mul (rr v) (g_splat (Fin k))) = rr (sub3 u (scl3 k v)).
Proof. unfold rr. rewrite rv_splat, rv_mul, rv_sub. unfold sub3, scl3; cbn [r3x r3y r3z]. apply rv_eq; ring. Qed.
Lemma rr_neg v : g_neg (rr v) = rr (scl3 (-1) v).
Proof. unfold rr. rewrite rv_neg. unfold scl3; cbn [r3x r3y r3z]. apply rv_eq; ring. Qed.
Lemma rr_triple u v w : g_get_x (g_dot3 (rr u) (g_cross3 (rr v) (rr w))) = Fin (dot u (cross v w)).
Proof.
  unfold rr. rewrite rv_cross. unfold g_dot3. Local Transparent rv. unfold rv. Local Opaque rv. pose proof (X_dot3 BK) as H; unfold v3 in H; rewrite H. reflexivity.
Qed.

(** The Gram-Schmidt part of the decomposition. *)
Lemma X_rows (EB : exact_backend BK) r0 r1 r2 : dot (cross r0 r1) r2 <> 0 ->
  above_cutoff BK (dot r0 r0) -> above_cutoff BK (dot (orth1 r0 r1) (orth1 r0 r1)) -> above_cutoff BK (dot (orth2 r0 r1 r2) (orth2 r0 r1 r2)) ->
  exists s hxy hxz hyz u v w, rotation_rows u v w /\
    decompose_rows (rr r0) (rr r1) (rr r2) = (rr s, rv hxy hxz hyz 0, rr u, rr v, rr w) /\
    (0 < r3x s /\ 0 < r3y s /\ 0 < r3z s /\ 0 < dot (cross r0 r1) r2 \/ r3x s < 0 /\ r3y s < 0 /\ r3z s < 0 /\ dot (cross r0 r1) r2 < 0) /\
    r0 = scl3 (r3x s) u /\ r1 = scl3 (r3y s) (add3 v (scl3 hxy u)) /\ r2 = scl3 (r3z s) (add3 w (add3 (scl3 hxz u) (scl3 hyz v))).
Proof.
  intros D C0 C1 C2. destruct (gs_positive _ _ _ D) as (P0 & P1 & P2).
  destruct (orth2_orth r0 r1 r2 P0 P1) as [O02 O12]. pose proof (orth1_orth r0 r1 P0) as O01.
  pose proof (triple_orth2 r0 r1 r2 ltac:(lra)) as TO.

  set (e1 := orth1 r0 r1) in * . set (e2 := orth2 r0 r1 r2) in * .
  assert (S1 : sub3 r1 (scl3 (dot (unit3 r0) r1) (unit3 r0)) = e1) by (rewrite unit_part by auto; reflexivity).
  set (z1 := sub3 r2 (scl3 (dot (unit3 r0) r2) (unit3 r0))).
  assert (DZ : dot (unit3 e1) z1 = dot (unit3 e1) r2).
  { unfold z1. rewrite dot_sub_r, dot_scl_r, (unit3_dot e1 (unit3 r0)), (dot_comm e1 (unit3 r0)), (unit3_dot r0 e1), O01. ring. }
  assert (S2 : sub3 z1 (scl3 (dot (unit3 e1) z1) (unit3 e1)) = e2).
  { rewrite DZ, unit_part by auto. unfold z1. rewrite unit_part by auto. reflexivity. }
  pose proof (unit3_unit _ P0) as U0. pose proof (unit3_unit _ P1) as U1. pose proof (unit3_unit _ P2) as U2.
  assert (V01 : dot (unit3 r0) (unit3 e1) = 0) by (rewrite unit3_dot2, O01; ring).
  assert (V02 : dot (unit3 r0) (unit3 e2) = 0) by (rewrite unit3_dot2, O02; ring).
  assert (V12 : dot (unit3 e1) (unit3 e2) = 0) by (rewrite unit3_dot2, O12; ring).
  pose proof (sqrt_lt_R0 _ P0) as Q0. pose proof (sqrt_lt_R0 _ P1) as Q1. pose proof (sqrt_lt_R0 _ P2) as Q2.
  assert (R0 : r0 = scl3 (sqrt (dot r0 r0)) (unit3 r0)) by (symmetry; now apply unit_rec).
  assert (R1 : r1 = add3 (scl3 (sqrt (dot e1 e1)) (unit3 e1)) (scl3 (dot (unit3 r0) r1) (unit3 r0))) by (rewrite unit_rec, <- S1, sub_add; auto).
  assert (R2 : r2 = add3 (add3 (scl3 (sqrt (dot e2 e2)) (unit3 e2)) (scl3 (dot (unit3 e1) z1) (unit3 e1))) (scl3 (dot (unit3 r0) r2) (unit3 r0)))
    by (rewrite unit_rec, <- S2, sub_add by auto; unfold z1; now rewrite sub_add).
  assert (TT : dot (cross r0 r1) r2 = sqrt (dot r0 r0) * sqrt (dot e1 e1) * sqrt (dot e2 e2) * dot (unit3 r0) (cross (unit3 e1) (unit3 e2))).
  { rewrite TO. rewrite <- (unit_rec r0 P0) at 1. rewrite <- (unit_rec e1 P1) at 1. rewrite <- (unit_rec e2 P2) at 1.
    clear. generalize (unit3 r0) (unit3 e1) (unit3 e2) (sqrt (dot r0 r0)) (sqrt (dot e1 e1)) (sqrt (dot e2 e2)). clear. intros. r3s. unfold dot, cross, scl3; cbn [r3x r3y r3z]. ring. }
  destruct (orth_frame _ _ _ U0 U1 U2 V01 V02 V12) as [T1 T2].
  set (t := dot (unit3 r0) (cross (unit3 e1) (unit3 e2))) in * .
  unfold decompose_rows. rewrite !(rr_len EB r0), !(rr_norm EB r0 P0 C0), !rr_dotx, !rr_sub, !S1.
  rewrite !(rr_len EB e1), !(rr_norm EB e1 P1 C1). fold z1. rewrite !rr_dotx, !rr_sub, !S2, !(rr_len EB e2), !(rr_norm EB e2 P2 C2), rr_triple. fold t.
  rewrite !Xdiv, Xzero, xm1, !Xmul by lra. unfold vec3_init. rewrite !Xzero, !rv_init.
  assert (T : t = 1 \/ t = -1). { assert (H : (t - 1) * (t + 1) = 0) by lra. apply Rmult_integral in H. lra. }
  assert (QP : 0 < sqrt (dot r0 r0) * sqrt (dot e1 e1) * sqrt (dot e2 e2)) by (apply Rmult_lt_0_compat; [apply Rmult_lt_0_compat|]; auto).
  set (s0 := sqrt (dot r0 r0)) in * . set (s1 := sqrt (dot e1 e1)) in * . set (s2 := sqrt (dot e2 e2)) in * .
  set (hxy := dot (unit3 r0) r1 / s1). set (hxz := dot (unit3 r0) r2 / s2). set (hyz := dot (unit3 e1) z1 / s2).
  assert (F0 : r1 = scl3 s1 (add3 (unit3 e1) (scl3 hxy (unit3 r0)))).
  { rewrite R1 at 1. unfold hxy. generalize (unit3 e1) (unit3 r0) (dot (unit3 r0) r1). clear - Q1. intros. r3s. unfold add3, scl3; cbn [r3x r3y r3z]. apply V3_eq; field; lra. }
  assert (F1 : r2 = scl3 s2 (add3 (unit3 e2) (add3 (scl3 hxz (unit3 r0)) (scl3 hyz (unit3 e1))))).
  { rewrite R2 at 1. unfold hxz, hyz. generalize (unit3 e1) (unit3 r0) (unit3 e2) (dot (unit3 r0) r2) (dot (unit3 e1) z1). clear - Q2. intros. r3s. unfold add3, scl3; cbn [r3x r3y r3z]. apply V3_eq; field; lra. }
  clearbody hxy hxz hyz. clear R1 R2 S1 S2 DZ. clearbody t.
  destruct T as [T|T]; subst t.
  - rewrite Xlt_f by lra. exists (V3 s0 s1 s2), hxy, hxz, hyz, (unit3 r0), (unit3 e1), (unit3 e2). cbn [r3x r3y r3z].
    split; [|split; [|split; [|split; [|split]]]]; auto.
    + repeat split; auto. rewrite T2. generalize (cross (unit3 r0) (unit3 e1)). clear. intros. r3s. unfold scl3; cbn [r3x r3y r3z]. apply V3_eq; ring.
    + left. repeat split; auto. rewrite TT. lra.
  - rewrite Xlt_t by lra. rewrite !rr_neg. exists (V3 (- s0) (- s1) (- s2)), hxy, hxz, hyz, (scl3 (-1) (unit3 r0)), (scl3 (-1) (unit3 e1)), (scl3 (-1) (unit3 e2)). cbn [r3x r3y r3z].
    split; [|split; [|split; [|split; [|split]]]].
    + unfold rotation_rows. rewrite !dot_scl_l, !dot_scl_r, U0, U1, V01, T2. repeat split; try ring.
      generalize (unit3 r0) (unit3 e1). clear. intros. r3s. unfold scl3, cross; cbn [r3x r3y r3z]. apply V3_eq; ring.
    + f_equal. f_equal. f_equal. f_equal. unfold rr; cbn [r3x r3y r3z]. apply rv_eq; ring.
    + right. repeat split; lra.
    + rewrite scl3_scl. replace (- s0 * -1) with s0 by ring. exact R0.
    + rewrite F0 at 1. generalize (unit3 e1) (unit3 r0). clear. intros. r3s. unfold add3, scl3; cbn [r3x r3y r3z]. apply V3_eq; ring.
    + rewrite F1 at 1. generalize (unit3 e1) (unit3 r0) (unit3 e2). clear. intros. r3s. unfold add3, scl3; cbn [r3x r3y r3z]. apply V3_eq; ring.
Qed.

(** ** C39: which matrices are decomposed *)
Definition mnorm (A : RM) : RM := fun i j => A i j / A 3%nat 3%nat.
(** the same matrix with the perspective column cleared *)
Definition mclear (A : RM) : RM := fun i j => if Nat.eqb j 3 then mI i j else A i j.
Lemma mclear_aff A : affine (mclear A).
Proof. repeat split. Qed.
Local Transparent rv.
Lemma mt_ww A : g_get_w (mw (mt A)) = Fin (A 3%nat 3%nat). Proof. reflexivity. Qed.
Lemma mt_clear A : M4 (g_merge_w (mx (mt A)) fzero) (g_merge_w (my (mt A)) fzero) (g_merge_w (mz (mt A)) fzero) (g_merge_w (mw (mt A)) fone) = mt (mclear A).
Proof. reflexivity. Qed.
Definition col3 (A : RM) : RV := fun i => A i 3%nat.
Lemma mt_persp A : g_init (g_get_w (mx (mt A))) (g_get_w (my (mt A))) (g_get_w (mz (mt A))) (g_get_w (mw (mt A))) = vv (col3 A).
Proof. reflexivity. Qed.
Lemma mt_trans A : g_merge_w (mw (mt A)) fzero = rr (row3 A 3). Proof. reflexivity. Qed.
Lemma mt_lw A : g_init fzero fzero fzero (g_get_w (mw (mt A))) = rv 0 0 0 (A 3%nat 3%nat). Proof. reflexivity. Qed.
Lemma mt_rows A : affine A -> mx (mt A) = rr (row3 A 0) /\ my (mt A) = rr (row3 A 1) /\ mz (mt A) = rr (row3 A 2) .
Proof. intros (E0 & E1 & E2 & _). unfold mt, vv; cbn [mx my mz]. rewrite E0, E1, E2. repeat split. Qed.
Lemma mt_get A i j : (i < 4)%nat -> (j < 4)%nat -> matrix_get_value (mt A) i j = Fin (A i j).
Proof. intros Hi Hj. idx4 i Hi; idx4 j Hj; reflexivity. Qed.
Lemma mt_mrows u v w : M4 (rr u) (rr v) (rr w) (rv 0 0 0 1) = mt (mrows u v w). Proof. reflexivity. Qed.
Local Opaque rv.
Lemma X_norm A : eps <= Rabs (A 3%nat 3%nat) -> matrix_normalize (mt A) = Some (mt (mnorm A)).
Proof.
  intros W. unfold matrix_normalize. rewrite mt_ww, Xzero.
  assert (N : A 3%nat 3%nat <> 0) by (intros E; rewrite E, Rabs_R0 in W; unfold eps in W; lra).
  replace (approx_val _ _) with false by (symmetry; apply X_approx_f; now rewrite Rminus_0_r). rewrite Xone, Xdiv by auto. f_equal. unfold mt, vv, mnorm. vs.
  apply M4_eq; apply rv_eq; unfold Rdiv; ring.
Qed.
Definition near3 (v : RV) : Prop := Rabs (v 0%nat) <= eps /\ Rabs (v 1%nat) <= eps /\ Rabs (v 2%nat) <= eps.
Lemma X_zero3 v : g_is_zero3 (vv v) = true <-> near3 v.
Proof. unfold g_is_zero3, vv, near3. vs. rewrite xeps, !andb_true_iff, !Xle_iff. tauto. Qed.
Lemma X_dec3 A : eps <= Rabs (A 3%nat 3%nat) -> matrix_decompose_3d (mt A) =
  let L := mclear (mnorm A) in
  if approx_val (Fin (det 4 L)) (Fin 0) then None else
  let persp := if negb (g_is_zero3 (vv (col3 (mnorm A)))) then
      match matrix_inverse (mt L) with Some tmp => Some (matrix_transform_vec4 tmp (vv (col3 (mnorm A)))) | None => None end
    else Some (rv 0 0 0 1) in
  match persp with None => None | Some persp =>
    let '(scale, shear, x, y, z) := decompose_rows (rr (row3 L 0)) (rr (row3 L 1)) (rr (row3 L 2)) in
    Some (Dc scale shear (quaternion_init_from_matrix (M4 x y z (rv 0 0 0 1))) (rr (row3 L 3)) persp) end.
Proof.
  intros W. unfold matrix_decompose_3d. rewrite mt_ww, Xzero.
  replace (approx_val (Fin (A 3%nat 3%nat)) _) with false by (symmetry; apply X_approx_f; now rewrite Rminus_0_r).
  rewrite X_norm by auto. cbv zeta. rewrite <- Xzero, mt_clear, mt_persp. set (L := mclear (mnorm A)).
  destruct (mt_rows L (mclear_aff _)) as (-> & -> & ->). rewrite mt_det, Xzero, <- Xzero.
  replace (approx_val (Fin (- det 4 L)) fzero) with (approx_val (Fin (det 4 L)) fzero).
  2:{ apply eq_true_iff_eq. rewrite Xzero, !X_approx. now rewrite !Rminus_0_r, Rabs_Ropp. }
  rewrite mt_trans, mt_lw. change (L 3%nat 3%nat) with 1. reflexivity.
Qed.
(** decompose answers false exactly when the relevant determinant (or the homogeneous scale) is below FLT_EPSILON *)
Theorem C39_answer : forall A, matrix_is_identity (mt A) = false ->
  (matrix_decompose (mt A) = None <->
   if matrix_is_2d (mt A) then Rabs (A 0%nat 0%nat * A 1%nat 1%nat - A 0%nat 1%nat * A 1%nat 0%nat) < eps
   else Rabs (A 3%nat 3%nat) < eps \/ Rabs (det 4 (mclear (mnorm A))) < eps).
Proof.
  intros A I. unfold matrix_decompose. rewrite I. destruct (matrix_is_2d (mt A)).
  - unfold matrix_decompose_2d. rewrite !mt_get by lia. rewrite !Xmul, Xsub, Xabs, xeps.
    match goal with |- context [flt (Fin (Rabs ?e)) (Fin eps)] => replace e with (A 0%nat 0%nat * A 1%nat 1%nat - A 0%nat 1%nat * A 1%nat 0%nat) by ring end.
    destruct (flt _ (Fin eps)) eqn:E.
    + apply Xlt_iff in E. tauto.
    + apply Xlt_iff_f in E. split; [|lra]. cbv zeta. repeat match goal with |- context [let '(_, _) := ?e in _] => destruct e end. discriminate.
  - destruct (Rlt_le_dec (Rabs (A 3%nat 3%nat)) eps) as [W|W].
    + split; [tauto|]. intros _. unfold matrix_decompose_3d. rewrite mt_ww, Xzero, (proj2 (X_approx _ _)); auto. now rewrite Rminus_0_r.
    + rewrite X_dec3 by auto. cbv zeta. set (L := mclear (mnorm A)). destruct (approx_val (Fin (det 4 L)) (Fin 0)) eqn:E.
      * apply X_approx in E. rewrite Rminus_0_r in E. tauto.
      * apply X_approx_f in E. rewrite Rminus_0_r in E. split; [|lra]. pose proof (C28_inverse_answer BK L) as IA.
        destruct (negb _); [destruct (matrix_inverse (mt L))|].
        -- destruct (decompose_rows _ _ _) as [[[[? ?] ?] ?] ?]. discriminate.
        -- intros _. exfalso. assert (Rabs (det 4 L) < eps) by (apply IA; reflexivity). lra.
        -- destruct (decompose_rows _ _ _) as [[[[? ?] ?] ?] ?]. discriminate.
Qed.

(** ** C39: 3D affine matrices *)
Definition gs_above (A : RM) : Prop :=
  above_cutoff BK (dot (row3 A 0) (row3 A 0)) /\
  above_cutoff BK (dot (orth1 (row3 A 0) (row3 A 1)) (orth1 (row3 A 0) (row3 A 1))) /\
  above_cutoff BK (dot (orth2 (row3 A 0) (row3 A 1) (row3 A 2)) (orth2 (row3 A 0) (row3 A 1) (row3 A 2))).
Lemma aff_norm A : affine A -> meq (mclear (mnorm A)) A.
Proof. intros (E0 & E1 & E2 & E3) i j Hi Hj. unfold mclear, mnorm, mI. rewrite E3. idx4 j Hj; idx4 i Hi; cbn [Nat.eqb]; rewrite ?E0, ?E1, ?E2, ?E3; field. Qed.
Lemma row3_ext A B i : (i < 4)%nat -> meq A B -> row3 A i = row3 B i.
Proof. intros Hi E. unfold row3. now rewrite !E by lia. Qed.
Lemma det_ext A B : meq A B -> det 4 A = det 4 B.
Proof. intros E. rewrite !det4. cbv zeta. now rewrite !E by lia. Qed.
Lemma X_dec3_affine : forall A, exact_backend BK -> affine A -> eps <= Rabs (det 4 A) -> gs_above A ->
  exists s hxy hxz hyz u v w, rotation_rows u v w /\
    matrix_decompose_3d (mt A) = Some (Dc (rr s) (rv hxy hxz hyz 0) (quaternion_init_from_matrix (mt (mrows u v w))) (rr (row3 A 3)) (rv 0 0 0 1)) /\
    (0 < r3x s /\ 0 < r3y s /\ 0 < r3z s /\ 0 < det 4 A \/ r3x s < 0 /\ r3y s < 0 /\ r3z s < 0 /\ det 4 A < 0) /\
    row3 A 0 = scl3 (r3x s) u /\ row3 A 1 = scl3 (r3y s) (add3 v (scl3 hxy u)) /\
    row3 A 2 = scl3 (r3z s) (add3 w (add3 (scl3 hxz u) (scl3 hyz v))).
Proof.
  intros A EB Af D (G0 & G1 & G2). pose proof Af as (E0 & E1 & E2 & E3).
  pose proof eps_pos as EP. assert (Dn : det 4 A <> 0) by (intros Z; rewrite Z, Rabs_R0 in D; lra). rewrite det_affine in Dn by auto.
  destruct (X_rows EB _ _ _ Dn G0 G1 G2) as (s & hxy & hxz & hyz & u & v & w & RT & ER & SG & R0 & R1 & R2).
  exists s, hxy, hxz, hyz, u, v, w. rewrite (det_affine A Af). repeat (split; auto).
  rewrite X_dec3 by (rewrite E3, Rabs_R1; unfold eps; lra). cbv zeta.
  rewrite !(row3_ext (mclear (mnorm A)) A), (det_ext _ _ (aff_norm A Af)) by (auto using aff_norm; lia).
  replace (approx_val (Fin (det 4 A)) (Fin 0)) with false by (symmetry; apply X_approx_f; now rewrite Rminus_0_r).
  assert (Z : g_is_zero3 (vv (col3 (mnorm A))) = true).
  { apply X_zero3. unfold near3, col3, mnorm. rewrite E0, E1, E2, E3. unfold Rdiv. rewrite !Rmult_0_l, Rabs_R0. lra. }
  rewrite Z; cbn [negb]. rewrite ER, mt_mrows. reflexivity.
Qed.
Theorem C39_affine : forall A, exact_backend BK -> affine A -> matrix_is_identity (mt A) = false -> matrix_is_2d (mt A) = false ->
  eps <= Rabs (det 4 A) -> gs_above A ->
  exists s hxy hxz hyz u v w, rotation_rows u v w /\
    matrix_decompose (mt A) = Some (Dc (rr s) (rv hxy hxz hyz 0) (quaternion_init_from_matrix (mt (mrows u v w))) (rr (row3 A 3)) (rv 0 0 0 1)) /\
    (0 < r3x s /\ 0 < r3y s /\ 0 < r3z s /\ 0 < det 4 A \/ r3x s < 0 /\ r3y s < 0 /\ r3z s < 0 /\ det 4 A < 0) /\
    row3 A 0 = scl3 (r3x s) u /\ row3 A 1 = scl3 (r3y s) (add3 v (scl3 hxy u)) /\
    row3 A 2 = scl3 (r3z s) (add3 w (add3 (scl3 hxz u) (scl3 hyz v))).
Proof. intros A EB Af I T D G. unfold matrix_decompose. rewrite I, T. now apply X_dec3_affine. Qed.
(** Putting the parts together again through the API: scale, shear, rotate, translate. *)
Definition recompose (d : decomp) : mat xreal :=
  let s := dc_scale d in let h := dc_shear d in let t := dc_translate d in
  matrix_translate
    (matrix_multiply (matrix_init_scale (vec3_get_x s) (vec3_get_y s) (vec3_get_z s))
      (matrix_skew_xy (matrix_skew_xz (matrix_skew_yz (quaternion_to_matrix (dc_rotate d)) (vec3_get_z h)) (vec3_get_y h)) (vec3_get_x h)))
    (P3 (vec3_get_x t) (vec3_get_y t) (vec3_get_z t)).
Theorem C39_recompose : forall A d, exact_backend BK -> affine A -> matrix_is_identity (mt A) = false -> matrix_is_2d (mt A) = false ->
  gs_above A -> matrix_decompose (mt A) = Some d -> qw (dc_rotate d) <> Fin 0 -> recompose d = mt A.
Proof.
  intros A d EB Af I T G E Q. assert (D : eps <= Rabs (det 4 A)).
  { destruct (Rlt_le_dec (Rabs (det 4 A)) eps) as [L|L]; auto. exfalso. pose proof (C39_answer A I) as CA. rewrite T in CA.
    rewrite (proj2 CA) in E; [easy|]. right. rewrite (det_ext _ _ (aff_norm A Af)). auto. }
  destruct (C39_affine A EB Af I T D G) as (s & hxy & hxz & hyz & u & v & w & RT & ED & _ & R0 & R1 & R2).
  rewrite ED in E. injection E as <-. cbn [dc_rotate] in Q.
  assert (TR : -1 < r3x u + r3y v + r3z w).
  { rewrite X_from_matrix in Q. cbn [qw] in Q. unfold mrows, of_rows, vec in Q. destruct (Rlt_le_dec (-1) (r3x u + r3y v + r3z w)) as [L|L]; auto. exfalso. apply Q. 
    unfold qt; cbn [qw qs]. unfold hs. rewrite Rmax_right, sqrt_0, Rmult_0_r by lra. reflexivity. }
  destruct (C42_matrix_round_trip u v w RT TR) as (q & EQ & _ & _ & EM).
  unfold recompose; cbn [dc_scale dc_shear dc_rotate dc_translate]. rewrite EQ, EM. unfold rr, vec3_get_x, vec3_get_y, vec3_get_z. vs.
  unfold matrix_init_scale, matrix_translate, matrix_multiply; cbn [p3x p3y p3z]. rewrite mt_scale, mt_translation.
  assert (SK : matrix_skew_xy (matrix_skew_xz (matrix_skew_yz (mt (mrows u v w)) (Fin hyz)) (Fin hxz)) (Fin hxy) =
    mt (mrows u (add3 v (scl3 hxy u)) (add3 w (add3 (scl3 hxz u) (scl3 hyz v))))).
  { unfold matrix_skew_xy, matrix_skew_xz, matrix_skew_yz, mt, vv. vs. unfold mrows, of_rows, vec, add3, scl3; cbn [r3x r3y r3z]. apply M4_eq; apply rv_eq; ring. }
  rewrite SK, !mt_mul. apply mt_ext.
  assert (Af' := Af). destruct Af' as (E0 & E1 & E2 & E3).
  assert (RA : meq A (of_rows (vec (r3x (row3 A 0)) (r3y (row3 A 0)) (r3z (row3 A 0)) 0) (vec (r3x (row3 A 1)) (r3y (row3 A 1)) (r3z (row3 A 1)) 0)
     (vec (r3x (row3 A 2)) (r3y (row3 A 2)) (r3z (row3 A 2)) 0) (vec (r3x (row3 A 3)) (r3y (row3 A 3)) (r3z (row3 A 3)) 1))).
  { intros i j Hi Hj. unfold row3; cbn [r3x r3y r3z]. idx4 i Hi; idx4 j Hj; unfold of_rows, vec; auto. }
  intros i j Hi Hj. rewrite RA by auto. rewrite R0, R1, R2. clear - Hi Hj.
  set (a := add3 v _). set (b := add3 w _). clearbody a b. set (t := row3 A 3). clearbody t. r3s. unfold mmul, sum4, mscale, mtrans, mrows, of_rows, vec, scl3; cbn [r3x r3y r3z].
  idx4 i Hi; idx4 j Hj; ring.
Qed.
(** Uniqueness: when the matrix already is scale, shear, rotation, translation with positive scales, exactly these come out. *)
Lemma X_dec3_unique : forall A s hxy hxz hyz u v w, exact_backend BK -> affine A -> gs_above A -> eps <= Rabs (det 4 A) -> rotation_rows u v w ->
  row3 A 0 = scl3 (r3x s) u -> row3 A 1 = scl3 (r3y s) (add3 v (scl3 hxy u)) ->
  row3 A 2 = scl3 (r3z s) (add3 w (add3 (scl3 hxz u) (scl3 hyz v))) ->
  0 < r3x s -> 0 < r3y s -> 0 < r3z s ->
  matrix_decompose_3d (mt A) = Some (Dc (rr s) (rv hxy hxz hyz 0) (quaternion_init_from_matrix (mt (mrows u v w))) (rr (row3 A 3)) (rv 0 0 0 1)).
Proof.
  intros A s hxy hxz hyz u v w EB Af G D RT R0 R1 R2 S0 S1 S2.
  destruct (X_dec3_affine A EB Af D G) as (s' & gxy & gxz & gyz & u' & v' & w' & RT' & -> & SG & R0' & R1' & R2').
  assert (DP : 0 < det 4 A).
  { rewrite (det_affine A Af), R0, R1, R2. destruct RT as (U & V & UV & ->).
    replace (dot (cross (scl3 (r3x s) u) (scl3 (r3y s) (add3 v (scl3 hxy u)))) (scl3 (r3z s) (add3 (cross u v) (add3 (scl3 hxz u) (scl3 hyz v)))))
      with (r3x s * r3y s * r3z s * (dot u u * dot v v - dot u v * dot u v)) by (clear; r3s; unfold dot, cross, add3, scl3; cbn [r3x r3y r3z]; ring).
    rewrite U, V, UV. assert (0 < r3x s * r3y s * r3z s) by (repeat apply Rmult_lt_0_compat; auto). lra. }
  destruct SG as [(Q0 & Q1 & Q2 & _)|(_ & _ & _ & Q)]; [|lra].
  destruct RT as (U & V & UV & ->), RT' as (U' & V' & UV' & ->). rewrite R0 in R0'. rewrite R1 in R1'. rewrite R2 in R2'.
  destruct (scl_unit_inj _ _ _ _ S0 Q0 U U' R0') as [E0 <-].
  assert (H1 : r3y s * hxy = r3y s' * gxy).
  { assert (K := f_equal (dot u) R1'). rewrite !dot_scl_r, !dot_add_r, !dot_scl_r, U, UV, UV' in K. lra. }
  rewrite !add_scl, !scl3_scl, H1 in R1'. apply add3_cancel in R1'.
  destruct (scl_unit_inj _ _ _ _ S1 Q1 V V' R1') as [E1 <-].
  assert (hxy = gxy) by (rewrite E1 in H1; apply (Rmult_eq_reg_l (r3y s')); lra). subst gxy.
  assert (VU : dot v u = 0) by (now rewrite dot_comm).
  assert (UW : dot u (cross u v) = 0) by (clear; r3s; unfold dot, cross; cbn [r3x r3y r3z]; ring).
  assert (VW : dot v (cross u v) = 0) by (clear; r3s; unfold dot, cross; cbn [r3x r3y r3z]; ring).
  assert (WU : dot (cross u v) u = 0) by (now rewrite dot_comm).
  assert (WV : dot (cross u v) v = 0) by (now rewrite dot_comm).
  assert (WW : dot (cross u v) (cross u v) = 1).
  { replace (dot (cross u v) (cross u v)) with (dot u u * dot v v - dot u v * dot u v) by (clear; r3s; unfold dot, cross; cbn [r3x r3y r3z]; ring). rewrite U, V, UV. ring. }
  assert (K0 := f_equal (dot u) R2'). assert (K1 := f_equal (dot v) R2'). assert (K2 := f_equal (dot (cross u v)) R2').
  rewrite !dot_scl_r, !dot_add_r, !dot_scl_r, ?U, ?V, ?UV, ?VU, ?UW, ?VW, ?WU, ?WV, ?WW in K0. rewrite !dot_scl_r, !dot_add_r, !dot_scl_r, ?U, ?V, ?UV, ?VU, ?UW, ?VW, ?WU, ?WV, ?WW in K1. rewrite !dot_scl_r, !dot_add_r, !dot_scl_r, ?U, ?V, ?UV, ?VU, ?UW, ?VW, ?WU, ?WV, ?WW in K2.
  assert (E2 : r3z s = r3z s') by lra. rewrite <- E2 in K0, K1.
  assert (hxz = gxz) by (apply (Rmult_eq_reg_l (r3z s)); lra). assert (hyz = gyz) by (apply (Rmult_eq_reg_l (r3z s)); lra). subst gxz gyz.
  unfold rr. rewrite E0, E1, E2. reflexivity.
Qed.

Theorem C39_unique : forall A s hxy hxz hyz u v w, exact_backend BK -> affine A -> matrix_is_identity (mt A) = false -> matrix_is_2d (mt A) = false ->
  gs_above A -> eps <= Rabs (det 4 A) -> rotation_rows u v w ->
  row3 A 0 = scl3 (r3x s) u -> row3 A 1 = scl3 (r3y s) (add3 v (scl3 hxy u)) ->
  row3 A 2 = scl3 (r3z s) (add3 w (add3 (scl3 hxz u) (scl3 hyz v))) ->
  0 < r3x s -> 0 < r3y s -> 0 < r3z s ->
  matrix_decompose (mt A) = Some (Dc (rr s) (rv hxy hxz hyz 0) (quaternion_init_from_matrix (mt (mrows u v w))) (rr (row3 A 3)) (rv 0 0 0 1)).
Proof. intros A s hxy hxz hyz u v w EB Af I T. unfold matrix_decompose. rewrite I, T. now apply X_dec3_unique. Qed.
Lemma above_1 k : eps < k -> above_cutoff BK k. Proof. intros H _. exact H. Qed.
(** a rotation about no main axis: its own decomposition *)
Definition trans_rows (u v w t : R3) : RM := of_rows (vec (r3x u) (r3y u) (r3z u) 0) (vec (r3x v) (r3y v) (r3z v) 0) (vec (r3x w) (r3y w) (r3z w) 0) (vec (r3x t) (r3y t) (r3z t) 1).
Theorem C39_rigid : forall u v w t, exact_backend BK -> rotation_rows u v w -> let m := mt (trans_rows u v w t) in
  matrix_is_identity m = false -> matrix_is_2d m = false ->
  matrix_decompose m = Some (Dc (rv 1 1 1 0) (rv 0 0 0 0) (quaternion_init_from_matrix (mt (mrows u v w))) (rr t) (rv 0 0 0 1)).
Proof.
  intros u v w t EB RT m I T. pose proof RT as (U & V & UV & EW).
  assert (R0 : row3 (trans_rows u v w t) 0 = u) by (destruct u; reflexivity). assert (R1 : row3 (trans_rows u v w t) 1 = v) by (destruct v; reflexivity).
  assert (R2 : row3 (trans_rows u v w t) 2 = w) by (destruct w; reflexivity). assert (R3 : row3 (trans_rows u v w t) 3 = t) by (destruct t; reflexivity).
  assert (WW : dot w w = 1).
  { rewrite EW. replace (dot (cross u v) (cross u v)) with (dot u u * dot v v - dot u v * dot u v) by (clear; r3s; unfold dot, cross; cbn [r3x r3y r3z]; ring). rewrite U, V, UV. ring. }
  assert (Af : affine (trans_rows u v w t)) by (repeat split).
  assert (UW : dot u w = 0) by (rewrite EW; clear; r3s; unfold dot, cross; cbn [r3x r3y r3z]; ring).
  assert (VW : dot v w = 0) by (rewrite EW; clear; r3s; unfold dot, cross; cbn [r3x r3y r3z]; ring).
  assert (O1 : orth1 u v = v) by (unfold orth1; rewrite UV, U; clear; r3s; unfold sub3, scl3; cbn [r3x r3y r3z]; apply V3_eq; field).
  assert (O2 : orth2 u v w = w) by (unfold orth2; cbv zeta; rewrite O1, UW, VW, U, V; clear; r3s; unfold sub3, scl3; cbn [r3x r3y r3z]; apply V3_eq; field).
  rewrite <- R3. apply (C39_unique (trans_rows u v w t) (V3 1 1 1) 0 0 0 u v w); auto; rewrite ?R0, ?R1, ?R2; cbn [r3x r3y r3z]; try lra.
  - unfold gs_above. rewrite R0, R1, R2, O1, O2, U, V, WW. repeat split; apply above_1; unfold eps; lra.
  - rewrite det_affine, R0, R1, R2, <- EW, WW, Rabs_R1 by auto. unfold eps; lra.
  - clear; r3s; unfold scl3; cbn [r3x r3y r3z]; apply V3_eq; field.
  - clear; r3s; unfold scl3, add3; cbn [r3x r3y r3z]; apply V3_eq; field.
  - clear; r3s; unfold scl3, add3; cbn [r3x r3y r3z]; apply V3_eq; field.
Qed.
Lemma not_identity A i j : (i < 4)%nat -> (j < 4)%nat -> i <> j -> 1 < Rabs (A i j) * 1000 -> Rabs (A i j) < 1000 -> matrix_is_identity (mt A) = false.
Proof.
  intros Hi Hj N L M. destruct (matrix_is_identity (mt A)) eqn:E; auto. exfalso. destruct (is_scalar BK) eqn:S.
  - pose proof (proj1 (C40_is_identity_scalar BK S _) E i j Hi Hj) as E'. unfold mI in E'. rewrite (proj2 (Nat.eqb_neq i j) N), Rminus_0_r, Rabs_R0, Rmax_left in E' by apply Rabs_pos. unfold eps in E'. lra.
  - pose proof (proj1 (C40_is_identity_exact BK S _) E i j Hi Hj) as E'. unfold mI in E'. rewrite (proj2 (Nat.eqb_neq i j) N) in E'. rewrite E', Rabs_R0 in L. lra.
Qed.
Lemma recompose_rotation q p : unit_q q -> recompose (Dc (rv 1 1 1 0) (rv 0 0 0 0) (qt q) (rr (V3 0 0 0)) p) = quaternion_to_matrix (qt q).
Proof.
  intros U. rewrite (mt_quat q U). unfold recompose; cbn [dc_scale dc_shear dc_rotate dc_translate]. rewrite (mt_quat q U). unfold rr, vec3_get_x, vec3_get_y, vec3_get_z. vs.
  unfold matrix_init_scale, matrix_translate, matrix_multiply; cbn [p3x p3y p3z r3x r3y r3z]. rewrite mt_scale, mt_translation.
  assert (SK : matrix_skew_xy (matrix_skew_xz (matrix_skew_yz (mt (mquat q)) (Fin 0)) (Fin 0)) (Fin 0) = mt (mquat q)).
  { set (B := mquat q). clearbody B. unfold matrix_skew_xy, matrix_skew_xz, matrix_skew_yz, mt, vv. vs. apply M4_eq; apply rv_eq; ring. }
  rewrite SK, !mt_mul. apply mt_ext. set (B := mquat q). clearbody B. clear. intros i j Hi Hj. unfold mmul, sum4, mscale, mtrans, of_rows, vec. idx4 i Hi; idx4 j Hj; ring.
Qed.
(** half turns lose the signs of their axis (C42), so the decomposition does not determine the matrix *)
Definition turn : RM := trans_rows (V3 (-1/9) (-8/9) (4/9)) (V3 (-8/9) (-1/9) (-4/9)) (V3 (4/9) (-4/9) (-7/9)) (V3 0 0 0).
Theorem C39_half_turn_refuted : exact_backend BK -> exists d, affine turn /\ meq (mmul turn (mtr turn)) mI /\ det 4 turn = 1 /\
  matrix_decompose (mt turn) = Some d /\ recompose d <> mt turn.
Proof.
  intros EB. set (a := Q4 0 (V3 (2/3) (-2/3) (1/3))). assert (Ua : unit_q a) by (apply q_unit; lra).
  assert (RT : rotation_rows (V3 (-1/9) (-8/9) (4/9)) (V3 (-8/9) (-1/9) (-4/9)) (V3 (4/9) (-4/9) (-7/9))).
  { repeat split; unfold dot, cross; cbn [r3x r3y r3z]; try lra. apply V3_eq; lra. }
  assert (MA : mt (mrows (V3 (-1/9) (-8/9) (4/9)) (V3 (-8/9) (-1/9) (-4/9)) (V3 (4/9) (-4/9) (-7/9))) = quaternion_to_matrix (qt a)).
  { rewrite (mt_quat a Ua). unfold a. rewrite mquat_closed. f_equal. f_equal; apply V3_eq; lra. }
  eexists. split; [repeat split|]. split; [|split; [|split]].
  - intros i j Hi Hj. unfold mmul, sum4, mtr, turn, trans_rows, of_rows, vec, mI; cbn [r3x r3y r3z]. idx4 i Hi; idx4 j Hj; cbn [Nat.eqb]; lra.
  - rewrite det4. unfold turn, trans_rows, of_rows, vec; cbn [r3x r3y r3z]. lra.
  - apply C39_rigid; auto.
    + apply (not_identity _ 0 1); try lia; unfold trans_rows, of_rows, vec; cbn [r3x r3y r3z]; rewrite Rabs_left; lra.
    + apply not_true_is_false. rewrite X_is2d. unfold trans_rows, of_rows, vec; cbn [r3x r3y r3z]. intros (H & _). rewrite Rabs_pos_eq in H by lra. unfold eps in H; lra.
  - rewrite MA. unfold a. rewrite C42_half_turn by auto. rewrite (Rabs_pos_eq (2/3)), (Rabs_left (-2/3)), (Rabs_pos_eq (1/3)) by lra.
    assert (Ub : unit_q (Q4 0 (V3 (2/3) (- (-2/3)) (1/3)))) by (apply q_unit; lra).
    rewrite recompose_rotation, (mt_quat _ Ub), mquat_closed by auto. intros E. apply mt_inj in E. specialize (E 0%nat 1%nat ltac:(lia) ltac:(lia)).
    unfold turn, trans_rows, mrows, of_rows, vec in E; cbn [r3x r3y r3z] in E. lra.
Qed.
(** the hypotheses are met by a sheared, scaled, rotated and translated matrix *)
Example C39_ex : exact_backend BK -> let A := trans_rows (V3 0 2 0) (V3 0 1 3) (V3 4 1 1) (V3 5 6 7) in
  affine A /\ matrix_is_identity (mt A) = false /\ matrix_is_2d (mt A) = false /\ gs_above A /\ eps <= Rabs (det 4 A) /\
  exists d, matrix_decompose (mt A) = Some d /\ qw (dc_rotate d) <> Fin 0 /\ dc_scale d = rv 2 3 4 0 /\ dc_shear d = rv (1/3) (1/4) (1/4) 0.
Proof.
  intros EB A. assert (Af : affine A) by (repeat split). split; auto.
  assert (I : matrix_is_identity (mt A) = false) by (apply (not_identity _ 0 1); try lia; unfold A, trans_rows, of_rows, vec; cbn [r3x r3y r3z]; rewrite Rabs_pos_eq; lra).
  assert (T : matrix_is_2d (mt A) = false) by (apply not_true_is_false; rewrite X_is2d; unfold A, trans_rows, of_rows, vec; cbn [r3x r3y r3z]; intros (_ & _ & H & _); rewrite Rabs_pos_eq in H by lra; unfold eps in H; lra).
  assert (G : gs_above A).
  { assert (O1 : orth1 (row3 A 0) (row3 A 1) = V3 0 0 3) by (unfold orth1, A, row3, trans_rows, of_rows, vec, dot, sub3, scl3; cbn [r3x r3y r3z]; apply V3_eq; field).
    assert (O2 : orth2 (row3 A 0) (row3 A 1) (row3 A 2) = V3 4 0 0) by (unfold orth2; cbv zeta; rewrite O1; unfold A, row3, trans_rows, of_rows, vec, dot, sub3, scl3; cbn [r3x r3y r3z]; apply V3_eq; field).
    unfold gs_above. rewrite O1, O2. unfold A, row3, trans_rows, of_rows, vec, dot; cbn [r3x r3y r3z]. repeat split; apply above_1; unfold eps; lra. }
  assert (D : eps <= Rabs (det 4 A)) by (rewrite det4; unfold A, trans_rows, of_rows, vec; cbn [r3x r3y r3z]; cbv zeta; rewrite Rabs_pos_eq; unfold eps; lra).
  repeat (split; auto). eexists. split.
  - apply (C39_unique A (V3 2 3 4) (1/3) (1/4) (1/4) (V3 0 1 0) (V3 0 0 1) (V3 1 0 0)); auto; cbn [r3x r3y r3z]; try lra.
    + repeat split; unfold dot, cross; cbn [r3x r3y r3z]; try lra. apply V3_eq; lra.
    + unfold row3, A, trans_rows, of_rows, vec, scl3; cbn [r3x r3y r3z]. apply V3_eq; lra.
    + unfold row3, A, trans_rows, of_rows, vec, scl3, add3; cbn [r3x r3y r3z]. apply V3_eq; lra.
    + unfold row3, A, trans_rows, of_rows, vec, scl3, add3; cbn [r3x r3y r3z]. apply V3_eq; lra.
  - cbn [dc_rotate dc_scale dc_shear]. split; auto. rewrite X_from_matrix. unfold mrows, of_rows, vec; cbn [r3x r3y r3z]. cbv zeta. unfold qt; cbn [qw qs]. unfold hs.
    rewrite Rmax_left by lra. replace (1 + 0 + 0 + 0) with 1 by ring. rewrite sqrt_1. intros H. injection H. lra.
Qed.

(** ** C39: perspective *)
(** The perspective vector of a projective matrix should make [clear(A) * P = A], with P the identity
    with last column p, that is clear(A) p = (last column of A).  The code solves the transposed system. *)
Definition colmul (A : RM) (p : RV) : RV := fun i => sum4 (fun k => A i k * p k).
Theorem C39_perspective : forall A d, exact_backend BK -> matrix_is_identity (mt A) = false -> matrix_is_2d (mt A) = false ->
  A 3%nat 3%nat = 1 -> ~ near3 (col3 A) -> eps < Rabs (det 4 (mclear A)) -> matrix_decompose (mt A) = Some d ->
  exists p, dc_persp d = vv p /\ veq (vmul p (mclear A)) (col3 A).
Proof.
  intros A d EB I T E3 NZ D E. unfold matrix_decompose in E. rewrite I, T in E.
  rewrite X_dec3 in E by (rewrite E3, Rabs_R1; unfold eps; lra). cbv zeta in E.
  assert (EN : meq (mnorm A) A) by (intros i j _ _; unfold mnorm; rewrite E3; field).
  assert (EC : meq (mclear (mnorm A)) (mclear A)). { intros i j Hi Hj. unfold mclear. destruct (Nat.eqb j 3); auto. }
  assert (EV : vv (col3 (mnorm A)) = vv (col3 A)) by (apply vv_ext; intros i Hi; apply EN; lia).
  rewrite (mt_ext _ _ EC), EV, (det_ext _ _ EC) in E.
  replace (approx_val (Fin (det 4 (mclear A))) (Fin 0)) with false in E by (symmetry; apply X_approx_f; rewrite Rminus_0_r; lra).
  replace (g_is_zero3 (vv (col3 A))) with false in E by (symmetry; apply not_true_is_false; now rewrite X_zero3). cbn [negb] in E.
  unfold matrix_inverse in E. rewrite (mt_inverse_t BK EB (mclear A)), C25_transform_vec4_exact in E by (auto; lra).
  destruct (decompose_rows _ _ _) as [[[[? ?] ?] ?] ?]. injection E as <-. cbn [dc_persp]. eexists; split; [reflexivity|].
  assert (Dn : det 4 (mclear A) <> 0) by (intros Z; rewrite Z, Rabs_R0 in D; unfold eps in D; lra).
  intros i Hi. rewrite <- vmul_mmul by auto. pose proof (minv_l _ Dn) as ML. unfold vmul, sum4. rewrite !ML by lia. unfold mI. idx4 i Hi; cbn [Nat.eqb]; ring.
Qed.
(** a translation by x = 1 with a unit perspective along x *)
Definition ptrans : RM := of_rows (vec 1 0 0 1) (vec 0 1 0 0) (vec 0 0 1 0) (vec 1 0 0 1).
Theorem C39_perspective_refuted : exact_backend BK -> matrix_is_2d (mt ptrans) = false /\ exists d p,
  matrix_decompose (mt ptrans) = Some d /\ dc_persp d = vv p /\ ~ veq (colmul (mclear ptrans) p) (col3 ptrans).
Proof.
  intros EB.
  assert (I : matrix_is_identity (mt ptrans) = false) by (apply (not_identity _ 0 3); try lia; unfold ptrans, of_rows, vec; rewrite Rabs_R1; lra).
  assert (T : matrix_is_2d (mt ptrans) = false) by (apply not_true_is_false; rewrite X_is2d; unfold ptrans, of_rows, vec; intros (_ & H & _); rewrite Rabs_R1 in H; unfold eps in H; lra).
  split; auto.
  assert (DC : det 4 (mclear ptrans) = 1) by (rewrite det4; unfold mclear, ptrans, of_rows, vec, mI; cbn [Nat.eqb]; cbv zeta; ring).
  destruct (matrix_decompose (mt ptrans)) as [d|] eqn:E.
  2:{ apply (proj1 (C39_answer ptrans I)) in E. rewrite T in E. exfalso. unfold ptrans at 1 in E. unfold of_rows, vec in E. rewrite Rabs_R1 in E.
      assert (EM : det 4 (mclear (mnorm ptrans)) = 1) by (rewrite det4; unfold mclear, mnorm, ptrans, of_rows, vec, mI; cbn [Nat.eqb]; cbv zeta; field). rewrite EM, Rabs_R1 in E. unfold eps in E. lra. }
  destruct (C39_perspective ptrans d EB I T eq_refl) as (p & EP & EV); auto.
  - unfold near3, col3, ptrans, of_rows, vec. rewrite Rabs_R1. unfold eps. lra.
  - rewrite DC, Rabs_R1. unfold eps; lra.
  - exists d, p. repeat (split; auto). intros EC. pose proof (EV 0%nat ltac:(lia)) as V0. pose proof (EV 3%nat ltac:(lia)) as V3. 
    pose proof (EC 0%nat ltac:(lia)) as C0. unfold vmul, colmul, sum4, mclear, col3, ptrans, of_rows, vec, mI in V0, V3, C0; cbn [Nat.eqb] in V0, V3, C0. lra.
Qed.
(** ** C39: 2D matrices *)
Theorem C39_similarity_2d : forall k th x y, 0 < k -> eps <= k * k -> - PI < th < PI ->
  let m := mt (m2d (k * cos th) (k * sin th) (- (k * sin th)) (k * cos th) x y) in matrix_is_identity m = false ->
  exists q, matrix_decompose m = Some (Dc (rv k k 0 0) (rv 0 0 0 0) (qt q) (rv x y 0 0) (rv 0 0 0 0)) /\
    unit_q q /\ quaternion_to_matrix (qt q) = mt (mrot ez (- th)).
Proof.
  intros k th x y K KK TH m I. exists (qxyz 0 0 (- th)). destruct (C44_from_radians 0 0 (- th)) as (EQ & UQ & RQ').
  split; [|split; auto].
  - unfold matrix_decompose. rewrite I. unfold m at 1. rewrite is2d_2d. unfold matrix_decompose_2d, m. rewrite !mt_get by lia. unfold m2d, of_rows, vec.
    pose proof (sc2 th) as SC. set (s := sin th) in * . set (c := cos th) in * .
    rewrite !Xmul, !Xadd, !Xsub, Xabs, xeps, Xzero.
    replace (k * c * (k * c) - - (k * s) * (k * s)) with (k * k) by nra.
    replace (k * c * (k * c) + - (k * s) * - (k * s)) with (k * k) by nra.
    replace (k * s * (k * s) + k * c * (k * c)) with (k * k) by nra.
    rewrite Xlt_f by (rewrite Rabs_pos_eq; nra). cbv zeta. rewrite !Xsqrt, sqrt_square by nra. rewrite Xlt_f by nra.
    assert (KE : eps <= k). { unfold eps in * . destruct (Rlt_le_dec k (/ 8388608)); auto. nra. }
    replace (approx_val (Fin k) (Fin 0)) with false by (symmetry; apply X_approx_f; rewrite Rminus_0_r, Rabs_pos_eq; lra). cbn [negb].
    rewrite Xone, !Xdiv, !Xmul by lra. rewrite Xatan2.
    replace (- (k * s) * (1 / k)) with (1 * sin (- th)) by (rewrite sin_neg; fold s; field; lra). replace (k * c * (1 / k)) with (1 * cos (- th)) by (rewrite cos_neg; fold c; field; lra).
    rewrite ratan2_polar by lra. rewrite X_r2d. 
    unfold vec2_init. change (f2d ?a) with a. change (d2f ?a) with a. rewrite C44_from_angles.
    assert (PN : PI <> 0) by (pose proof PI_RGT_0; lra).
    replace (0 * PI / 180) with 0 by field. replace (- th * (180 / PI) * PI / 180) with (- th) by (field; auto). rewrite EQ. reflexivity.
  - rewrite mt_quat by auto. unfold mquat. rewrite !RQ'. unfold mrot. apply mt_ext. unfold mrows.
    assert (R0 : forall k v, rodrigues k 0 v = v) by (intros k0 [a b d]; destruct k0 as [e f g]; unfold rodrigues; rewrite sin_0, cos_0; unfold add3, scl3, cross, dot; cbn [r3x r3y r3z]; apply V3_eq; ring).
    rewrite !R0. intros i j _ _. reflexivity.
Qed.
(** so the rotation of a decomposed 2D matrix is the opposite one, and its scale along z is 0 *)
Theorem C39_2d_refuted : exact_backend BK -> exists A d, affine A /\ meq (mmul A (mtr A)) mI /\ det 4 A = 1 /\ matrix_is_2d (mt A) = true /\
  matrix_decompose (mt A) = Some d /\ quaternion_to_matrix (dc_rotate d) <> mt A /\
  matrix_multiply (mt A) (quaternion_to_matrix (dc_rotate d)) = matrix_init_identity /\ vec3_get_z (dc_scale d) = Fin 0.
Proof.
  intros EB. set (A := m2d (1 * cos (PI / 2)) (1 * sin (PI / 2)) (- (1 * sin (PI / 2))) (1 * cos (PI / 2)) 0 0).
  assert (I : matrix_is_identity (mt A) = false).
  { apply (not_identity _ 0 1); try lia; unfold A, m2d, of_rows, vec; rewrite sin_PI2, Rmult_1_l, Rabs_R1; lra. }
  pose proof PI_RGT_0 as PP. destruct (C39_similarity_2d 1 (PI / 2) 0 0 ltac:(lra) ltac:(unfold eps; lra) ltac:(lra) I) as (q & E & U & M).
  fold A in E. exists A. eexists. split; [apply aff_2d|]. split; [|split; [|split; [apply is2d_2d|split; [exact E|]]]].
  - intros i j Hi Hj. unfold mmul, sum4, mtr, A, m2d, of_rows, vec, mI. rewrite sin_PI2, cos_PI2. idx4 i Hi; idx4 j Hj; cbn [Nat.eqb]; ring.
  - unfold A. rewrite det_2d, sin_PI2, cos_PI2. ring.
  - cbn [dc_rotate dc_scale]. rewrite M. unfold matrix_multiply, matrix_init_identity. rewrite mt_mul, mt_I. split; [|split].
    + intros H. apply mt_inj in H. specialize (H 0%nat 1%nat ltac:(lia) ltac:(lia)). revert H. unfold mrot, A, m2d, rodrigues, of_rows, vec, ez, add3, scl3, cross, dot; cbn [r3x r3y r3z].
      rewrite sin_neg, cos_neg, sin_PI2, cos_PI2. lra.
    + apply mt_ext. intros i j Hi Hj. unfold mmul, sum4, mrot, A, m2d, mI, rodrigues, of_rows, vec, ez, add3, scl3, cross, dot; cbn [r3x r3y r3z].
      rewrite sin_neg, cos_neg, sin_PI2, cos_PI2. idx4 i Hi; idx4 j Hj; cbn [Nat.eqb]; ring.
    + unfold vec3_get_z. vs. reflexivity.
Qed.
(** the identity: scale 1, no shear, no rotation, no translation, and perspective (0,0,0,0) where every other 3D affine matrix gets (0,0,0,1) *)
Theorem C39_identity : matrix_decompose (mt mI) = Some (Dc (rv 1 1 1 0) (rv 0 0 0 0) (qt qone) (rv 0 0 0 0) (rv 0 0 0 0)).
Proof.
  assert (I : matrix_is_identity (mt mI) = true).
  { destruct (is_scalar BK) eqn:S; [apply (C40_is_identity_scalar BK S)|now apply (C40_is_identity_exact BK S)].
    intros i j _ _. left. rewrite Rminus_diag_eq, Rabs_R0 by auto. unfold eps; lra. }
  unfold matrix_decompose. rewrite I, Xzero, C44_from_angles. replace (0 * PI / 180) with 0 by field. destruct (C44_from_radians 0 0 0) as (-> & _).
  replace (qxyz 0 0 0) with qone; [reflexivity|]. unfold qxyz, qaxis, qmul, qone, ex, ey, ez, add3, scl3, cross, dot; cbn [qs qv r3x r3y r3z]. replace (0 / 2) with 0 by field. rewrite sin_0, cos_0. f_equal; [ring|apply V3_eq; ring].
Qed.

(** ** C68: interpolation *)
(** both decompositions fail: the identity; exactly one fails: its uninitialised outputs are used (undefined) *)
Theorem C68_answer : forall a b f, let dec2 := matrix_is_2d a && matrix_is_2d b in
  let ok m := if dec2 then match matrix_decompose_2d m with None => false | _ => true end else match matrix_decompose_3d m with None => false | _ => true end in
  (matrix_interpolate a b f = None <-> ok a <> ok b) /\ (ok a = false -> ok b = false -> matrix_interpolate a b f = Some matrix_init_identity).
Proof.
  intros a b f dec2 ok. unfold ok, matrix_interpolate. fold dec2. destruct dec2.
  - destruct (matrix_decompose_2d a) as [[[[? ?] ?] ?]|], (matrix_decompose_2d b) as [[[[? ?] ?] ?]|]; split; try easy; try (split; congruence).
    cbv zeta. repeat match goal with |- context [let '(_, _) := ?e in _] => destruct e end. split; congruence.
  - destruct (matrix_decompose_3d a), (matrix_decompose_3d b); split; try easy; split; congruence.
Qed.
Definition lerp (f a b : R) : R := (1 - f) * a + f * b.
Definition lerp3 (f : R) (a b : R3) : R3 := V3 (lerp f (r3x a) (r3x b)) (lerp f (r3y a) (r3y b)) (lerp f (r3z a) (r3z b)).
Lemma X_interp3 a b f : vec3_interpolate (rr a) (rr b) (Fin f) = rr (lerp3 f a b).
Proof. unfold vec3_interpolate, g_interpolate, rr. change (d2f ?x) with x. vs. unfold lerp3, lerp; cbn [r3x r3y r3z]. apply rv_eq; ring. Qed.
(** without shear the code returns translate * rotate * scale, while the matrices it took apart are scale * rotate * translate *)
Lemma X_interp_3d a b f s s' q q' qf t t' : matrix_is_2d a && matrix_is_2d b = false ->
  matrix_decompose_3d a = Some (Dc (rr s) (rr (V3 0 0 0)) (qt q) (rr t) (rv 0 0 0 1)) ->
  matrix_decompose_3d b = Some (Dc (rr s') (rr (V3 0 0 0)) (qt q') (rr t') (rv 0 0 0 1)) ->
  quaternion_slerp (qt q) (qt q') (Fin f) = qt qf -> unit_q qf ->
  let sf := lerp3 f s s' in let tf := lerp3 f t t' in
  (sf = V3 1 1 1 \/ eps <= Rabs (r3x sf - 1) \/ eps <= Rabs (r3y sf - 1) \/ eps <= Rabs (r3z sf - 1)) ->
  matrix_interpolate a b (Fin f) = Some (mt (mmul (mmul (mtrans (r3x tf) (r3y tf) (r3z tf)) (mquat qf)) (mscale (r3x sf) (r3y sf) (r3z sf)))).
Proof.
  intros T2 Ea Eb Sl Uf sf tf SC. unfold matrix_interpolate. rewrite T2, Ea, Eb. cbn [dc_scale dc_shear dc_rotate dc_translate dc_persp].
  change (d2f ?x) with x. rewrite Sl, !X_interp3. fold sf tf.
  replace (lerp3 f (V3 0 0 0) (V3 0 0 0)) with (V3 0 0 0) by (unfold lerp3, lerp; cbn [r3x r3y r3z]; apply V3_eq; ring).
  assert (G : forall i, (i < 3)%nat -> g_get (rr (V3 0 0 0)) i = Fin 0). { Local Transparent rv. intros i Hi. destruct i as [|[|[|i]]]; try lia; reflexivity. Local Opaque rv. }
  assert (A0 : approx_val (Fin 0) fzero = true) by (rewrite Xzero; apply X_approx; rewrite Rminus_0_r, Rabs_R0; unfold eps; lra).
  rewrite !G, !A0 by lia. cbn [negb].
  assert (PE : g_interpolate (rv 0 0 0 1) (rv 0 0 0 1) (Fin f) = rv 0 0 0 1) by (unfold g_interpolate; vs; apply rv_eq; ring).
  rewrite !PE. vs. change (M4 (rv 1 0 0 0) (rv 0 1 0 0) (rv 0 0 1 0) (rv 0 0 0 1)) with (mt mI).
  assert (PT : forall v, point3d_init_from_vec3 (rr v) = pp3 v). { Local Transparent rv. intros v. reflexivity. Local Opaque rv. }
  rewrite !PT. unfold pp3, pt3, matrix_translate, matrix_rotate_quaternion, matrix_multiply, matrix_scale; cbn [p3x p3y p3z].
  rewrite mt_translation, (mt_quat qf Uf), mt_scale, !mt_mul.
  assert (EI : mt (mmul (mmul mI (mtrans (r3x tf) (r3y tf) (r3z tf))) (mquat qf)) = mt (mmul (mtrans (r3x tf) (r3y tf) (r3z tf)) (mquat qf))).
  { apply mt_ext. intros i j Hi Hj. unfold mmul at 1 3. unfold sum4. now rewrite !(mmul_1_l _ i) by lia. }
  assert (ES : mt (mmul (mmul (mmul mI (mtrans (r3x tf) (r3y tf) (r3z tf))) (mquat qf)) (mscale (r3x sf) (r3y sf) (r3z sf))) = mt (mmul (mmul (mtrans (r3x tf) (r3y tf) (r3z tf)) (mquat qf)) (mscale (r3x sf) (r3y sf) (r3z sf)))).
  { apply mt_inj in EI. apply mt_ext. intros i j Hi Hj. unfold mmul at 1 4. unfold sum4. now rewrite !EI by lia. }
  rewrite EI, ES. destruct SC as [SC|SC].
  - rewrite SC. cbn [r3x r3y r3z]. rewrite !(proj2 (X_approx 1 1)) by (rewrite Rminus_diag_eq, Rabs_R0 by auto; unfold eps; lra). cbn [negb orb]. f_equal. apply mt_ext.
    intros i j Hi Hj. set (B := mmul _ (mquat qf)). clearbody B. unfold mmul, sum4, mscale, of_rows, vec. idx4 j Hj; ring.
  - match goal with |- Some (if ?c then _ else _) = _ => assert (C : c = true) end; [|now rewrite C].
    rewrite !orb_true_iff, !negb_true_iff, !X_approx_f. tauto.
Qed.
(** *** what does hold: pure translations are interpolated component by component *)
Lemma slerp_self q t : unit_q q -> quaternion_slerp (qt q) (qt q) (Fin t) = qt q.
Proof. intros U. apply C43_close; auto. rewrite U, Rabs_R1. unfold eps; lra. Qed.
(** scale, then rotate, then translate *)
Definition srt (s : R3) (q : RQ) (t : R3) : RM := mmul (mmul (mscale (r3x s) (r3y s) (r3z s)) (mquat q)) (mtrans (r3x t) (r3y t) (r3z t)).
Definition good_scale (s : R3) : Prop := 0 < r3x s /\ 0 < r3y s /\ 0 < r3z s /\ eps < r3x s * r3x s /\ eps < r3y s * r3y s /\ eps < r3z s * r3z s /\ eps <= r3x s * r3y s * r3z s.
Lemma srt_rows s q t : meq (srt s q t) (trans_rows (scl3 (r3x s) (qrot q (V3 1 0 0))) (scl3 (r3y s) (qrot q (V3 0 1 0))) (scl3 (r3z s) (qrot q (V3 0 0 1))) t).
Proof.
  unfold srt, mquat. set (u := qrot q (V3 1 0 0)). set (v := qrot q (V3 0 1 0)). set (w := qrot q (V3 0 0 1)). clearbody u v w. clear. r3s.
  intros i j Hi Hj. unfold mmul, sum4, mscale, mtrans, mrows, trans_rows, scl3, of_rows, vec; cbn [r3x r3y r3z]. idx4 i Hi; idx4 j Hj; ring.
Qed.
Lemma dec3_srt s q t : exact_backend BK -> unit_q q -> 0 < qs q -> good_scale s ->
  matrix_decompose_3d (mt (srt s q t)) = Some (Dc (rr s) (rr (V3 0 0 0)) (qt q) (rr t) (rv 0 0 0 1)).
Proof.
  intros EB U W (S0 & S1 & S2 & Q0 & Q1 & Q2 & DD). rewrite (mt_ext _ _ (srt_rows s q t)).
  pose proof (mquat_rotation q U) as RT. set (u := qrot q (V3 1 0 0)) in * . set (v := qrot q (V3 0 1 0)) in * . set (w := qrot q (V3 0 0 1)) in * .
  assert (EQ : quaternion_init_from_matrix (mt (mrows u v w)) = qt q).
  { change (mrows u v w) with (mquat q). rewrite <- (mt_quat q U), C42_quaternion_round_trip by (auto; lra). destruct (Rlt_dec 0 (qs q)); [auto|lra]. }
  rewrite <- EQ. clearbody u v w. clear EQ W U. 
  set (A := trans_rows _ _ _ t). assert (R0 : row3 A 0 = scl3 (r3x s) u) by (unfold A; clear; r3s; reflexivity). assert (R1 : row3 A 1 = scl3 (r3y s) v) by (unfold A; clear; r3s; reflexivity).
  assert (R2 : row3 A 2 = scl3 (r3z s) w) by (unfold A; clear; r3s; reflexivity). assert (R3 : row3 A 3 = t) by (unfold A; clear; r3s; reflexivity).
  assert (Af : affine A) by (repeat split). clearbody A. pose proof RT as (Uu & Vv & UV & EW).
  assert (WW : dot w w = 1).
  { rewrite EW. replace (dot (cross u v) (cross u v)) with (dot u u * dot v v - dot u v * dot u v) by (clear; r3s; unfold dot, cross; cbn [r3x r3y r3z]; ring). rewrite Uu, Vv, UV. ring. }
  assert (UW : dot u w = 0) by (rewrite EW; clear; r3s; unfold dot, cross; cbn [r3x r3y r3z]; ring).
  assert (VW : dot v w = 0) by (rewrite EW; clear; r3s; unfold dot, cross; cbn [r3x r3y r3z]; ring).
  assert (O1 : orth1 (row3 A 0) (row3 A 1) = row3 A 1) by (rewrite R0, R1; unfold orth1; rewrite dot_scl_l, !dot_scl_r, UV; generalize (dot (scl3 (r3x s) u) (scl3 (r3x s) u)); intros; clear; r3s; unfold sub3, scl3, Rdiv; cbn [r3x r3y r3z]; apply V3_eq; ring).
  assert (O2 : orth2 (row3 A 0) (row3 A 1) (row3 A 2) = row3 A 2).
  { unfold orth2; cbv zeta; rewrite O1, R0, R1, R2. rewrite (dot_scl_l u _ (scl3 _ w)), (dot_scl_l v _ (scl3 _ w)), (dot_scl_r u _ w), (dot_scl_r v _ w), UW, VW.
    generalize (dot (scl3 (r3x s) u) (scl3 (r3x s) u)) (dot (scl3 (r3y s) v) (scl3 (r3y s) v)); intros; clear; r3s; unfold sub3, scl3, Rdiv; cbn [r3x r3y r3z]; apply V3_eq; ring. }
  rewrite <- R3 at 1. change (rr (V3 0 0 0)) with (rv 0 0 0 0).
  apply (X_dec3_unique A s 0 0 0 u v w); auto.
  - unfold gs_above. rewrite O1, O2, R0, R1, R2, !dot_scl_l, !dot_scl_r, Uu, Vv, WW, !Rmult_1_r. repeat split; now apply above_1.
  - rewrite (det_affine A Af), R0, R1, R2. replace (dot (cross (scl3 (r3x s) u) (scl3 (r3y s) v)) (scl3 (r3z s) w)) with (r3x s * r3y s * r3z s * dot (cross u v) w) by (clear; r3s; unfold dot, cross, scl3; cbn [r3x r3y r3z]; ring).
    rewrite <- EW, WW, Rmult_1_r, Rabs_pos_eq; auto. left; repeat apply Rmult_lt_0_compat; auto.
  - rewrite R1. clear; r3s; unfold scl3, add3; cbn [r3x r3y r3z]; apply V3_eq; ring.
  - rewrite R2. clear; r3s; unfold scl3, add3; cbn [r3x r3y r3z]; apply V3_eq; ring.
Qed.
(** The general answer for matrices without shear and perspective: the parts are interpolated, but put together in the order
    translate, rotate, scale, the opposite of the order they were taken apart in. *)
Theorem C68_interpolate_3d : forall s q t s' q' t' f qf, exact_backend BK -> unit_q q -> 0 < qs q -> good_scale s -> unit_q q' -> 0 < qs q' -> good_scale s' ->
  let a := mt (srt s q t) in let b := mt (srt s' q' t') in
  matrix_is_2d a && matrix_is_2d b = false -> quaternion_slerp (qt q) (qt q') (Fin f) = qt qf -> unit_q qf ->
  let sf := lerp3 f s s' in let tf := lerp3 f t t' in
  (sf = V3 1 1 1 \/ eps <= Rabs (r3x sf - 1) \/ eps <= Rabs (r3y sf - 1) \/ eps <= Rabs (r3z sf - 1)) ->
  matrix_interpolate a b (Fin f) = Some (mt (mmul (mmul (mtrans (r3x tf) (r3y tf) (r3z tf)) (mquat qf)) (mscale (r3x sf) (r3y sf) (r3z sf)))).
Proof. intros. eapply X_interp_3d; eauto using dec3_srt. Qed.
Lemma good_1 : good_scale (V3 1 1 1).
Proof. unfold good_scale, eps; cbn [r3x r3y r3z]. lra. Qed.
Lemma mquat_one : meq (mquat qone) mI.
Proof. unfold qone. rewrite mquat_closed. intros i j Hi Hj. unfold mrows, of_rows, vec, mI; cbn [r3x r3y r3z]. idx4 i Hi; idx4 j Hj; cbn [Nat.eqb]; ring. Qed.
Lemma srt_trans t : mt (srt (V3 1 1 1) qone t) = mt (mtrans (r3x t) (r3y t) (r3z t)).
Proof.
  apply mt_ext. intros i j Hi Hj. unfold srt, mmul, sum4. rewrite !mquat_one by lia. unfold mscale, mtrans, of_rows, vec, mI; cbn [r3x r3y r3z].
  idx4 i Hi; idx4 j Hj; cbn [Nat.eqb]; ring.
Qed.
Lemma unit_one : unit_q qone. Proof. apply q_unit. lra. Qed.
Theorem C68_translations : forall t t' f, exact_backend BK -> let tr v := mt (mtrans (r3x v) (r3y v) (r3z v)) in
  eps <= Rabs (r3z t) \/ eps <= Rabs (r3z t') -> matrix_interpolate (tr t) (tr t') (Fin f) = Some (tr (lerp3 f t t')).
Proof.
  intros t t' f EB tr Z. unfold tr. rewrite <- (srt_trans t), <- (srt_trans t').
  assert (T2 : matrix_is_2d (mt (srt (V3 1 1 1) qone t)) && matrix_is_2d (mt (srt (V3 1 1 1) qone t')) = false).
  { apply not_true_is_false. rewrite andb_true_iff, !srt_trans, !X_is2d. unfold mtrans, of_rows, vec. lra. }
  pose proof unit_one as U1. pose proof good_1 as G1.
  assert (L1 : lerp3 f (V3 1 1 1) (V3 1 1 1) = V3 1 1 1) by (unfold lerp3, lerp; cbn [r3x r3y r3z]; apply V3_eq; ring).
  rewrite (C68_interpolate_3d _ qone t _ qone t' f qone EB U1 ltac:(cbn; lra) G1 U1 ltac:(cbn; lra) G1 T2 (slerp_self qone f U1) U1 ltac:(auto)), L1.
  f_equal. apply mt_ext. generalize (lerp3 f t t'). intros v. intros i j Hi Hj. cbn [r3x r3y r3z]. unfold mmul, sum4. rewrite !mquat_one by lia. unfold mscale, mtrans, of_rows, vec, mI; cbn [r3x r3y r3z].
  idx4 i Hi; idx4 j Hj; cbn [Nat.eqb]; ring.
Qed.
(** Interpolating a scaled and translated matrix with itself does not give it back: the translation comes out scaled. *)
Theorem C68_self_refuted : exact_backend BK -> forall f, let a := matrix_translate (matrix_init_scale (Fin 2) (Fin 2) (Fin 2)) (pt3 1 0 5) in
  exists r, matrix_interpolate a a (Fin f) = Some r /\ matrix_get_x_translation a = Fin 1 /\ matrix_get_x_translation r = Fin 2.
Proof.
  intros EB f a. assert (Ea : a = mt (srt (V3 2 2 2) qone (V3 1 0 5))).
  { unfold a, matrix_translate, matrix_init_scale, pt3; cbn [p3x p3y p3z]. rewrite mt_scale, mt_translation, mt_mul. apply mt_ext. intros i j Hi Hj. unfold srt, mmul, sum4. rewrite !mquat_one by lia.
    unfold mscale, mtrans, of_rows, vec, mI; cbn [r3x r3y r3z]. idx4 i Hi; idx4 j Hj; cbn [Nat.eqb]; ring. }
  assert (T2 : matrix_is_2d (mt (srt (V3 2 2 2) qone (V3 1 0 5))) && matrix_is_2d (mt (srt (V3 2 2 2) qone (V3 1 0 5))) = false).
  { apply not_true_is_false. rewrite andb_true_iff, <- Ea. unfold a, matrix_translate, matrix_init_scale, pt3; cbn [p3x p3y p3z]. rewrite mt_scale, mt_translation, mt_mul, X_is2d. unfold mmul, sum4, mscale, mtrans, of_rows, vec.
    intros [H _]. decompose [and] H. replace (0 * 0 + 0 * 0 + 0 * 1 + 1 * 5) with 5 in * by ring. rewrite (Rabs_pos_eq 5) in * by lra. unfold eps in * . lra. }
  assert (G2 : good_scale (V3 2 2 2)) by (unfold good_scale, eps; cbn [r3x r3y r3z]; lra).
  assert (L2 : lerp3 f (V3 2 2 2) (V3 2 2 2) = V3 2 2 2) by (unfold lerp3, lerp; cbn [r3x r3y r3z]; apply V3_eq; ring).
  assert (L1 : lerp3 f (V3 1 0 5) (V3 1 0 5) = V3 1 0 5) by (unfold lerp3, lerp; cbn [r3x r3y r3z]; apply V3_eq; ring).
  pose proof unit_one as U1. rewrite Ea. eexists. split; [|split].
  - apply (C68_interpolate_3d _ qone _ _ qone _ f qone EB U1 ltac:(cbn; lra) G2 U1 ltac:(cbn; lra) G2 T2 (slerp_self qone f U1) U1).
    rewrite L2. right; left. cbn [r3x]. rewrite Rabs_pos_eq; unfold eps; lra.
  - rewrite <- Ea. unfold a. apply (C29_getters 1 0 5 2 2 2).
  - rewrite L1, L2. unfold matrix_get_x_translation, mt, vv. vs. f_equal. unfold mmul, sum4. rewrite !mquat_one by lia. unfold mscale, mtrans, of_rows, vec, mI; cbn [r3x r3y r3z Nat.eqb]. ring.
Qed.
(** *** endpoints hold for rotations with a uniform scale about the origin, no translation. *)
Lemma uniform_commutes k q : mt (mmul (mmul (mtrans 0 0 0) (mquat q)) (mscale k k k)) = mt (srt (V3 k k k) q (V3 0 0 0)).
Proof.
  apply mt_ext. unfold srt. set (B := mquat q). assert (EB : affine B /\ B 3%nat 0%nat = 0 /\ B 3%nat 1%nat = 0 /\ B 3%nat 2%nat = 0) by (repeat split).
  clearbody B. destruct EB as ((E0 & E1 & E2 & E3) & E4 & E5 & E6). intros i j Hi Hj. unfold mmul, sum4, mscale, mtrans, of_rows, vec; cbn [r3x r3y r3z].
  idx4 i Hi; idx4 j Hj; rewrite ?E0, ?E1, ?E2, ?E3, ?E4, ?E5, ?E6; ring.
Qed.
Lemma mquat_neg q : mquat (qneg q) = mquat q.
Proof. unfold mquat. now rewrite !qrot_neg. Qed.
Theorem C68_uniform_endpoints : forall k q k' q', exact_backend BK -> unit_q q -> 0 < qs q -> unit_q q' -> 0 < qs q' -> Rabs (qdot q q') <= 1 - eps ->
  good_scale (V3 k k k) -> good_scale (V3 k' k' k') -> (k = 1 \/ eps <= Rabs (k - 1)) -> (k' = 1 \/ eps <= Rabs (k' - 1)) ->
  let a := mt (srt (V3 k k k) q (V3 0 0 0)) in let b := mt (srt (V3 k' k' k') q' (V3 0 0 0)) in
  matrix_is_2d a && matrix_is_2d b = false ->
  matrix_interpolate a b (Fin 0) = Some a /\ matrix_interpolate a b (Fin 1) = Some b.
Proof.
  intros k q k' q' EB U W U' W' D G G' K K' a b T2. destruct (C43_endpoints q q' U U' D) as [S0 S1].
  assert (UN : unit_q (if Rlt_dec (qdot q q') 0 then qneg q else q)) by (destruct (Rlt_dec _ _); auto; unfold unit_q in * ; rewrite <- U; clear; qx; ring).
  assert (L0 : forall s s', lerp3 0 s s' = s) by (intros; unfold lerp3, lerp; r3s; cbn [r3x r3y r3z]; apply V3_eq; ring).
  assert (L1 : forall s s', lerp3 1 s s' = s') by (intros; unfold lerp3, lerp; r3s; cbn [r3x r3y r3z]; apply V3_eq; ring).
  assert (Q : forall k, (k = 1 \/ eps <= Rabs (k - 1)) -> V3 k k k = V3 1 1 1 \/ eps <= Rabs (r3x (V3 k k k) - 1) \/ eps <= Rabs (r3y (V3 k k k) - 1) \/ eps <= Rabs (r3z (V3 k k k) - 1)).
  { intros k0 [->|H]; auto. }
  split.
  - unfold a at 1, b at 1. rewrite (C68_interpolate_3d _ q _ _ q' _ 0 _ EB U W G U' W' G' T2 S0 UN), !L0 by (rewrite L0; auto). cbn [r3x r3y r3z].
    rewrite uniform_commutes. unfold a, srt. destruct (Rlt_dec _ _); rewrite ?mquat_neg; reflexivity.
  - unfold a at 1, b at 1. rewrite (C68_interpolate_3d _ q _ _ q' _ 1 _ EB U W G U' W' G' T2 S1 U'), !L1 by (rewrite L1; auto). cbn [r3x r3y r3z].
    rewrite uniform_commutes. reflexivity.
Qed.
Example C68_uniform_ex : let q := Q4 (3/5) (V3 (4/5) 0 0) in let q' := Q4 (3/5) (V3 0 (-4/5) 0) in
  unit_q q /\ 0 < qs q /\ unit_q q' /\ 0 < qs q' /\ Rabs (qdot q q') <= 1 - eps /\ good_scale (V3 2 2 2) /\
  matrix_is_2d (mt (srt (V3 2 2 2) q (V3 0 0 0))) && matrix_is_2d (mt (srt (V3 1 1 1) q' (V3 0 0 0))) = false.
Proof.
  cbv zeta. repeat match goal with |- _ /\ _ => split end.
  - apply q_unit; lra. - cbn; lra. - apply q_unit; lra. - cbn; lra.
  - unfold qdot, dot; cbn [qs qv r3x r3y r3z]. rewrite Rabs_pos_eq; unfold eps; lra.
  - unfold good_scale, eps; cbn [r3x r3y r3z]; lra.
  - apply not_true_is_false. rewrite andb_true_iff, !(mt_ext _ _ (srt_rows _ _ _)), !X_is2d. intros [H _]. destruct H as (_ & _ & H & _).
    unfold trans_rows, of_rows, vec, scl3, qrot, qmul, qconj, qpure, add3, scl3, cross, dot in H; cbn [qs qv r3x r3y r3z] in H. 
    match type of H with Rabs ?e < _ => replace e with (2 * (24/25)) in H by field end. rewrite Rabs_pos_eq in H; unfold eps in H; lra.
Qed.

(** *** 2D *)
Definition rot2 (k th : R) : RM := m2d (k * cos th) (k * sin th) (- (k * sin th)) (k * cos th) 0 0.
Lemma X_dec2 k th x y : 0 < k -> eps <= k * k -> - PI < th < PI -> eps < Rabs th ->
  matrix_decompose_2d (mt (m2d (k * cos th) (k * sin th) (- (k * sin th)) (k * cos th) x y)) = Some (rv x y 0 0, rv k k 0 0, Fin (- th * (180 / PI)), rv 1 0 0 1).
Proof.
  intros K KK TH TE. unfold matrix_decompose_2d. rewrite !mt_get by lia. unfold m2d, of_rows, vec.
  pose proof (sc2 th) as SC. set (s := sin th) in * . set (c := cos th) in * .
  rewrite !Xmul, !Xadd, !Xsub, Xabs, xeps, Xzero.
  replace (k * c * (k * c) - - (k * s) * (k * s)) with (k * k) by nra.
  replace (k * c * (k * c) + - (k * s) * - (k * s)) with (k * k) by nra.
  replace (k * s * (k * s) + k * c * (k * c)) with (k * k) by nra.
  rewrite Xlt_f by (rewrite Rabs_pos_eq; nra). cbv zeta. rewrite !Xsqrt, sqrt_square by nra. rewrite Xlt_f by nra.
  assert (KE : eps <= k). { unfold eps in * . destruct (Rlt_le_dec k (/ 8388608)); auto. nra. }
  replace (approx_val (Fin k) (Fin 0)) with false by (symmetry; apply X_approx_f; rewrite Rminus_0_r, Rabs_pos_eq; lra). cbn [negb].
  rewrite Xone, !Xdiv, !Xmul by lra. rewrite Xatan2.
  replace (- (k * s) * (1 / k)) with (- s) by (field; lra). replace (k * c * (1 / k)) with c by (field; lra). replace (k * s * (1 / k)) with s by (field; lra).
  assert (AT : ratan2 (- s) c = - th).
  { replace (- s) with (1 * sin (- th)) by (rewrite sin_neg; fold s; ring). replace c with (1 * cos (- th)) by (rewrite cos_neg; fold c; ring). apply ratan2_polar; lra. }
  rewrite AT, X_r2d, Xabs, Rabs_Ropp, Xlt_t by auto. change (f2d ?a) with a. change (d2f ?a) with a. rewrite !Xneg, !Xmul, !Xadd.
  unfold vec2_init. rewrite Xzero, !rv_init. f_equal. change (V4 (Fin ?a) (Fin ?b) (Fin ?c) (Fin ?d)) with (rv a b c d). f_equal. apply rv_eq; nra.
Qed.
(** rotations with uniform scale: after adding full turns so that the angles differ by at most half a turn, angle and scale are interpolated *)
Theorem C68_rotations_2d : forall k th k' ph f, 0 < k -> eps <= k * k -> - PI < th < PI -> eps < Rabs th -> 0 < k' -> eps <= k' * k' -> - PI < ph < PI -> eps < Rabs ph ->
  exists th' ph', (th' = th \/ th' = th + 2 * PI) /\ (ph' = ph \/ ph' = ph + 2 * PI) /\ Rabs (th' - ph') <= PI /\
    matrix_interpolate (mt (rot2 k th)) (mt (rot2 k' ph)) (Fin f) = Some (mt (rot2 (lerp f k k') (lerp f th' ph'))).
Proof.
  intros k th k' ph f K KK TH TE K' KK' PH PE. unfold matrix_interpolate, rot2 at 1 2 3 4. rewrite !is2d_2d; cbn [andb]. rewrite !X_dec2 by auto.
  unfold vec2_get_x, vec2_get_y. vs. rewrite !(Xlt_f k 0), !(Xlt_f k' 0) by lra. cbn [andb orb]. cbv iota.
  pose proof PI_RGT_0 as PP. assert (PN : PI <> 0) by lra.
  assert (SM : forall x, eps < Rabs x -> fle (Fin (Rabs (- x * (180 / PI)))) (flit (FOps := dops) 1 (-52)) = false).
  { intros x X. change (flit (FOps := dops) 1 (-52)) with (Fin (1 * bpow radix2 (-52))). apply Xle_f. rewrite Rabs_mult, Rabs_Ropp, (Rabs_pos_eq (180 / PI)) by (left; apply Rdiv_lt_0_compat; lra).
    assert (1 < 180 / PI) by (apply (Rmult_lt_reg_r PI); auto; unfold Rdiv; rewrite Rmult_assoc, Rinv_l by auto; pose proof PI_4; lra).
    assert (1 * bpow radix2 (-52) < eps) by (unfold eps; simpl; lra). assert (P0 := eps_pos). nra. }
  rewrite !Xabs, !SM by auto. change (flit (FOps := dops) 180 0) with (Fin (180 * 1)). change (flit (FOps := dops) 360 0) with (Fin (360 * 1)). rewrite !Xsub, Xabs.
  set (d := - th * (180 / PI)). set (e := - ph * (180 / PI)).
  assert (DT : th = - d * (PI / 180)) by (unfold d; field; auto). assert (EP : ph = - e * (PI / 180)) by (unfold e; field; auto).
  assert (FIN : forall d' e', (let translate_res := vec2_interpolate (rv 0 0 0 0) (rv 0 0 0 0) (Fin f) in
     let scale_res := vec2_interpolate (rv k k 0 0) (rv k' k' 0 0) (Fin f) in
     let rotate_res := flerp (Fin d') (Fin e') (Fin f) in
     let m_res := g_interpolate (rv 1 0 0 1) (rv 1 0 0 1) (d2f (Fin f)) in
        let m11 := vx m_res in let m12 := vy m_res in let m21 := vz m_res in let m22 := vw m_res in
        let translate_x := vec2_get_x translate_res in
        let translate_y := vec2_get_y translate_res in
        let res := M4 (g_init m11 m21 fzero fzero) (g_init m12 m22 fzero fzero)
                      (g_init fzero fzero fone fzero)
                      (g_init (fadd (fmul translate_x m11) (fmul translate_y m21))
                              (fadd (fmul translate_x m12) (fmul translate_y m22)) fzero fone) in
        let rad := deg_to_rad (d2f rotate_res) in
        let rot_sin := fsin rad in let rot_cos := fcos rad in
        let tmp_m := M4 (g_init rot_cos (fneg rot_sin) fzero fzero) (g_init rot_sin rot_cos fzero fzero)
                        (g_init fzero fzero fone fzero) (g_init fzero fzero fzero fone) in
        let res := gm_mul res tmp_m in
        let res := gm_mul res (gm_scale (vec2_get_x scale_res) (vec2_get_y scale_res) fone) in
        Some res) = Some (mt (rot2 (lerp f k k') (lerp f (- d' * (PI / 180)) (- e' * (PI / 180)))))).
  { intros d' e'. cbv zeta. unfold vec2_interpolate, g_interpolate, flerp, vec2_get_x, vec2_get_y. change (d2f ?a) with a.
    change (@fone xreal dops) with (Fin 1). change (@fsub xreal dops) with (@fsub xreal xreal_ops). change (@fmul xreal dops) with (@fmul xreal xreal_ops). change (@fadd xreal dops) with (@fadd xreal xreal_ops).
    vs. rewrite X_d2r, Xsin, Xcos. vs. rewrite mt_scale.
    replace (lerp f (- d' * (PI / 180)) (- e' * (PI / 180))) with (- (((1 - f) * d' + f * e') * (PI / 180))) by (unfold lerp; ring).
    set (r := ((1 - f) * d' + f * e') * (PI / 180)).
    assert (E1 : forall a b c d x y, M4 (rv a b 0 0) (rv c d 0 0) (rv 0 0 1 0) (rv x y 0 1) = mt (m2d a b c d x y)) by reflexivity.
    rewrite !E1, !mt_mul. f_equal. apply mt_ext. unfold rot2. rewrite sin_neg, cos_neg. clear. set (sr := sin r). set (cr := cos r). clearbody sr cr.
    intros i j Hi Hj. unfold mmul, sum4, m2d, mscale, lerp, of_rows, vec. idx4 i Hi; idx4 j Hj; ring. }
  assert (DE : th - ph = - (d - e) * (PI / 180)) by (rewrite DT, EP; ring).
  destruct (flt (Fin (180 * 1)) (Fin (Rabs (d - e)))) eqn:C1.
  - apply Xlt_iff in C1. destruct (flt (Fin e) (Fin d)) eqn:C2.
    + apply Xlt_iff in C2. rewrite Rabs_pos_eq in C1 by lra. exists (th + 2 * PI), ph. rewrite FIN. split; [auto|]. split; [auto|]. split.
      * assert (th - ph < - PI) by (rewrite DE; nra). apply Rabs_le. lra.
      * do 3 f_equal. rewrite DT, EP. f_equal; field.
    + apply Xlt_iff_f in C2. rewrite Rabs_left1 in C1 by lra. exists th, (ph + 2 * PI). rewrite FIN. split; [auto|]. split; [auto|]. split.
      * assert (PI < th - ph) by (rewrite DE; nra). apply Rabs_le. lra.
      * do 3 f_equal. rewrite DT, EP. f_equal; field.
  - apply Xlt_iff_f in C1. exists th, ph. rewrite FIN. split; [auto|]. split; [auto|]. split.
    * rewrite DE, Rabs_mult, Rabs_Ropp, (Rabs_pos_eq (PI / 180)) by lra. nra.
    * do 3 f_equal. rewrite DT, EP. reflexivity.
Qed.
Lemma rot2_turn k t : mt (rot2 k (t + 2 * PI)) = mt (rot2 k t).
Proof. unfold rot2. rewrite sin_plus, cos_plus, sin_2PI, cos_2PI. apply mt_ext. intros i j Hi Hj. unfold m2d, of_rows, vec. idx4 i Hi; idx4 j Hj; ring. Qed.
Theorem C68_endpoints_2d : forall k th k' ph, 0 < k -> eps <= k * k -> - PI < th < PI -> eps < Rabs th -> 0 < k' -> eps <= k' * k' -> - PI < ph < PI -> eps < Rabs ph ->
  let a := mt (rot2 k th) in let b := mt (rot2 k' ph) in
  matrix_interpolate a b (Fin 0) = Some a /\ matrix_interpolate a b (Fin 1) = Some b.
Proof.
  intros k th k' ph K KK TH TE K' KK' PH PE a b. unfold a, b.
  destruct (C68_rotations_2d k th k' ph 0 K KK TH TE K' KK' PH PE) as (t0 & p0 & T0 & P0 & _ & ->).
  destruct (C68_rotations_2d k th k' ph 1 K KK TH TE K' KK' PH PE) as (t1 & p1 & T1 & P1 & _ & ->).
  assert (L0 : forall x y, lerp 0 x y = x) by (intros; unfold lerp; ring). assert (L1 : forall x y, lerp 1 x y = y) by (intros; unfold lerp; ring).
  rewrite !L0, !L1. split; f_equal.
  - destruct T0 as [->| ->]; auto using rot2_turn. - destruct P1 as [->| ->]; auto using rot2_turn.
Qed.
(** a 2D matrix with a rotation and a translation, interpolated with itself: the translation comes out rotated *)
Theorem C68_self_2d_refuted : exact_backend BK -> exists a, matrix_is_2d a = true /\ forall f, exists r, matrix_interpolate a a (Fin f) = Some r /\
  (matrix_get_x_translation a, matrix_get_y_translation a) = (Fin 1, Fin 0) /\ (matrix_get_x_translation r, matrix_get_y_translation r) = (Fin 0, Fin 1).
Proof.
  intros EB. set (A := m2d (1 * cos (PI / 2)) (1 * sin (PI / 2)) (- (1 * sin (PI / 2))) (1 * cos (PI / 2)) 1 0). exists (mt A). split; [apply is2d_2d|].
  intros f. pose proof PI_RGT_0 as PP. assert (PN : PI <> 0) by lra. pose proof PI_4 as P4. pose proof PI2_1 as P2'.
  assert (E2 : matrix_decompose_2d (mt A) = Some (rv 1 0 0 0, rv 1 1 0 0, Fin (- (PI / 2) * (180 / PI)), rv 1 0 0 1)).
  { apply X_dec2; try lra; unfold eps; try lra. rewrite Rabs_pos_eq; lra. }
  unfold matrix_interpolate. unfold A at 1 2. rewrite is2d_2d; cbn [andb]. rewrite E2. replace (- (PI / 2) * (180 / PI)) with (-90) by (field; auto).
  unfold vec2_get_x, vec2_get_y. vs. rewrite !(Xlt_f 1 0) by lra. cbn [andb orb]. cbv iota.
  change (flit (FOps := dops) 1 (-52)) with (Fin (1 * bpow radix2 (-52))). change (flit (FOps := dops) 180 0) with (Fin (180 * 1)). rewrite !Xabs, Xle_f by (rewrite Rabs_left by lra; simpl; lra).
  rewrite !Xsub, Xabs, Xlt_f by (rewrite Rminus_diag_eq, Rabs_R0 by auto; lra).
  unfold vec2_interpolate, g_interpolate, flerp. change (d2f ?a) with a.
  change (@fone xreal dops) with (Fin 1). change (@fsub xreal dops) with (@fsub xreal xreal_ops). change (@fmul xreal dops) with (@fmul xreal xreal_ops). change (@fadd xreal dops) with (@fadd xreal xreal_ops).
  vs. rewrite X_d2r, Xsin, Xcos. vs. rewrite mt_scale.
  replace (((1 - f) * -90 + f * -90) * (PI / 180)) with (- (PI / 2)) by field. rewrite sin_neg, cos_neg, sin_PI2, cos_PI2.
  assert (E1 : forall a b c d x y, M4 (rv a b 0 0) (rv c d 0 0) (rv 0 0 1 0) (rv x y 0 1) = mt (m2d a b c d x y)) by reflexivity.
  rewrite !E1, !mt_mul. eexists. split; [reflexivity|]. unfold matrix_get_x_translation, matrix_get_y_translation, mt, vv. vs. unfold A, mmul, sum4, m2d, mscale, of_rows, vec. split; f_equal; f_equal; ring.
Qed.
End S.
