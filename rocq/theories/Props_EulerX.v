(** * Props_EulerX: Euler angles in exact arithmetic (C47, C48, C49). *)
From Coq Require Import ZArith Reals Bool List Lra Lia Psatz.
From Flocq Require Import Core.
From Verif Require Import Num Simd Vec Rect Box Mat Quat OrdThy XSetup RMat Props_VecX Props_MatX Props_MatX2 RQuat TrigThy Props_QuatX Props_QuatX2 Props_MatX3 Props_MatX4.
Import ListNotations.
Local Open Scope R_scope.

(** What the names of the orders promise (graphene-euler.h): S = static axes, R =
    relative axes, then the axes in the order the rotations are applied. *)
Definition order_spec (o : eorder) : bool * (axis * axis * axis) :=
  match o with
  | ODefault => (true, (AX, AY, AZ))
  | OXYZ => (true, (AX, AY, AZ)) | OYZX => (true, (AY, AZ, AX)) | OZXY => (true, (AZ, AX, AY))
  | OXZY => (true, (AX, AZ, AY)) | OYXZ => (true, (AY, AX, AZ)) | OZYX => (true, (AZ, AY, AX))
  | SXYZ => (true, (AX, AY, AZ)) | SXYX => (true, (AX, AY, AX)) | SXZY => (true, (AX, AZ, AY)) | SXZX => (true, (AX, AZ, AX))
  | SYZX => (true, (AY, AZ, AX)) | SYZY => (true, (AY, AZ, AY)) | SYXZ => (true, (AY, AX, AZ)) | SYXY => (true, (AY, AX, AY))
  | SZXY => (true, (AZ, AX, AY)) | SZXZ => (true, (AZ, AX, AZ)) | SZYX => (true, (AZ, AY, AX)) | SZYZ => (true, (AZ, AY, AZ))
  | RZYX => (false, (AZ, AY, AX)) | RXYX => (false, (AX, AY, AX)) | RYZX => (false, (AY, AZ, AX)) | RXZX => (false, (AX, AZ, AX))
  | RXZY => (false, (AX, AZ, AY)) | RYZY => (false, (AY, AZ, AY)) | RZXY => (false, (AZ, AX, AY)) | RYXY => (false, (AY, AX, AY))
  | RYXZ => (false, (AY, AX, AZ)) | RZXZ => (false, (AZ, AX, AZ)) | RXYZ => (false, (AX, AY, AZ)) | RZYZ => (false, (AZ, AY, AZ))
  end.
Definition axis_vec (a : axis) : R3 := match a with AX => ex | AY => ey | AZ => ez end.
Definition pick (x y z : R) (a : axis) : R := match a with AX => x | AY => y | AZ => z end.
(** three rotations by t1, t2, t3 about the named axes, one after the other; about
    relative axes the composition is the other way round *)
Definition turn_by (o : eorder) (t1 t2 t3 : R) (v : R3) : R3 :=
  let '(static, (a, b, c)) := order_spec o in
  if static then rodrigues (axis_vec c) t3 (rodrigues (axis_vec b) t2 (rodrigues (axis_vec a) t1 v))
  else rodrigues (axis_vec a) t1 (rodrigues (axis_vec b) t2 (rodrigues (axis_vec c) t3 v)).
Definition mturn_by (o : eorder) (t1 t2 t3 : R) : RM := mrows (turn_by o t1 t2 t3 ex) (turn_by o t1 t2 t3 ey) (turn_by o t1 t2 t3 ez).
(** the Euler angles x, y, z are the amounts for the axes X, Y, Z *)
Definition turn (o : eorder) (x y z : R) : R3 -> R3 :=
  let '(_, (a, b, c)) := order_spec o in turn_by o (pick x y z a) (pick x y z b) (pick x y z c).
Definition mturn (o : eorder) (x y z : R) : RM := mrows (turn o x y z ex) (turn o x y z ey) (turn o x y z ez).

Lemma rod_ax a t v : rodrigues (axis_vec a) t v =
  match a with
  | AX => V3 (r3x v) (cos t * r3y v - sin t * r3z v) (sin t * r3y v + cos t * r3z v)
  | AY => V3 (cos t * r3x v + sin t * r3z v) (r3y v) (cos t * r3z v - sin t * r3x v)
  | AZ => V3 (cos t * r3x v - sin t * r3y v) (sin t * r3x v + cos t * r3y v) (r3z v)
  end.
Proof. destruct v as [p q r], a; unfold rodrigues, axis_vec, ex, ey, ez, add3, scl3, cross, dot; cbn [r3x r3y r3z]; apply V3_eq; ring. Qed.
Lemma sin_m t : sin (t * -1) = - sin t. Proof. rewrite <- sin_neg. f_equal. ring. Qed.
Lemma cos_m t : cos (t * -1) = cos t. Proof. rewrite <- cos_neg. f_equal. ring. Qed.

Section S.
Context (BK : Backend xreal).

Lemma eu_x x y z o : vec3_get_x (eu_v (euler_init_from_radians (Fin x) (Fin y) (Fin z) o)) = Fin x. Proof. reflexivity. Qed.
Lemma eu_y x y z o : vec3_get_y (eu_v (euler_init_from_radians (Fin x) (Fin y) (Fin z) o)) = Fin y. Proof. reflexivity. Qed.
Lemma eu_z x y z o : vec3_get_z (eu_v (euler_init_from_radians (Fin x) (Fin y) (Fin z) o)) = Fin z. Proof. reflexivity. Qed.

Lemma internal_turn o t1 t2 t3 : euler_to_matrix_internal (Fin t1) (Fin t2) (Fin t3) (order_parameters (euler_real_order o)) = mt (mturn_by o t1 t2 t3).
Proof.
  unfold mturn_by, turn_by.
  destruct o; unfold order_spec, euler_real_order, order_parameters; cbv zeta beta iota;
    unfold euler_to_matrix_internal; cbn [ap_first ap_parity ap_frame ap_rep];
    rewrite ?xm1, ?Xmul, ?Xsin, ?Xcos, ?sin_m, ?cos_m;
    unfold mat_of_table, axis_j, axis_k, next_axis; cbn [axis_eqb]; cbv zeta;
    rewrite ?Xzero, ?Xone, ?Xmul, ?Xneg, ?Xmul, ?Xadd, ?Xsub, ?rv_init;
    rewrite !rod_ax; unfold ex, ey, ez; cbn [r3x r3y r3z]; unfold mt, vv, mrows, of_rows, vec; cbn [r3x r3y r3z]; veqs; ring.
Qed.
Theorem C47_product : forall o x y z,
  euler_to_matrix (euler_init_from_radians (Fin x) (Fin y) (Fin z) o) = mt (mturn o x y z).
Proof.
  intros o x y z. transitivity (let '(_, (a, b, c)) := order_spec o in
    euler_to_matrix_internal (Fin (pick x y z a)) (Fin (pick x y z b)) (Fin (pick x y z c)) (order_parameters (euler_real_order o))).
  - destruct o; reflexivity.
  - unfold mturn, turn. destruct (order_spec o) as [st [[a b] c]]. apply internal_turn.
Qed.
(** the matrix is a rotation matrix, and it turns points the way the name says *)
Definition lin3 (p q r : R) (u v w : R3) : R3 := add3 (add3 (scl3 p u) (scl3 q v)) (scl3 r w).
Lemma rod_lin k t p q r u v w : rodrigues k t (lin3 p q r u v w) = lin3 p q r (rodrigues k t u) (rodrigues k t v) (rodrigues k t w).
Proof. destruct k as [k0 k1 k2], u as [u0 u1 u2], v as [v0 v1 v2], w as [w0 w1 w2]; unfold rodrigues, lin3, add3, scl3, cross, dot; cbn [r3x r3y r3z]; apply V3_eq; ring. Qed.
Lemma turn_lin o x y z v : turn o x y z v = add3 (add3 (scl3 (r3x v) (turn o x y z ex)) (scl3 (r3y v) (turn o x y z ey))) (scl3 (r3z v) (turn o x y z ez)).
Proof.
  assert (E : v = lin3 (r3x v) (r3y v) (r3z v) ex ey ez) by (destruct v as [p q r]; unfold lin3, ex, ey, ez, add3, scl3; cbn [r3x r3y r3z]; apply V3_eq; ring).
  fold (lin3 (r3x v) (r3y v) (r3z v) (turn o x y z ex) (turn o x y z ey) (turn o x y z ez)). rewrite E at 1.
  unfold turn, turn_by. destruct (order_spec o) as [[] [[a b] c]]; now rewrite !rod_lin.
Qed.
Lemma axis_unit a : dot (axis_vec a) (axis_vec a) = 1.
Proof. destruct a; unfold dot; cbn; ring. Qed.
Lemma turn_dot o x y z u v : dot (turn o x y z u) (turn o x y z v) = dot u v.
Proof. unfold turn, turn_by. destruct (order_spec o) as [[] [[a b] c]]; rewrite !rod_dot by apply axis_unit; reflexivity. Qed.
Lemma turn_cross o x y z u v : cross (turn o x y z u) (turn o x y z v) = turn o x y z (cross u v).
Proof. unfold turn, turn_by. destruct (order_spec o) as [[] [[a b] c]]; rewrite !rod_cross by apply axis_unit; reflexivity. Qed.
Lemma turn_rotation o x y z : rotation_rows (turn o x y z ex) (turn o x y z ey) (turn o x y z ez).
Proof.
  unfold rotation_rows. rewrite !turn_dot, turn_cross. unfold ex, ey, ez, dot, cross; cbn [r3x r3y r3z]. repeat split; try ring.
  f_equal. apply V3_eq; ring.
Qed.
Theorem C47_turns_points : forall o x y z v,
  matrix_transform_point3d (euler_to_matrix (euler_init_from_radians (Fin x) (Fin y) (Fin z) o)) (pp3 v) = pp3 (turn o x y z v).
Proof.
  intros. rewrite C47_product. unfold pp3. rewrite C25_transform_point3d_exact, (turn_lin o x y z v).
  unfold mturn, mrows, of_rows, vec, add3, scl3; cbn [r3x r3y r3z]. apply pt3_eq; ring.
Qed.
Theorem C47_is_rotation : forall o x y z, let m := euler_to_matrix (euler_init_from_radians (Fin x) (Fin y) (Fin z) o) in
  matrix_multiply m (matrix_transpose m) = matrix_init_identity /\
  exists A, m = mt A /\ affine A /\ det 4 A = 1.
Proof.
  intros o x y z m. unfold m. rewrite C47_product. pose proof (turn_rotation o x y z) as (A & B & AB & C). split.
  - change (matrix_transpose (mt (mturn o x y z))) with (mt (mtr (mturn o x y z))). unfold matrix_multiply, matrix_init_identity. rewrite mt_mul, mt_I. apply mt_ext. unfold mturn.
    apply mrows_orth; rewrite turn_dot; unfold dot, ex, ey, ez; cbn [r3x r3y r3z]; ring.
  - exists (mturn o x y z). split; auto. split; [repeat split|]. unfold mturn. rewrite mrows_det, turn_cross, turn_dot. unfold dot, cross, ex, ey, ez; cbn [r3x r3y r3z]. ring.
Qed.
(** the same from degrees, and through the copy constructors *)
Theorem C47_degrees : forall o x y z,
  euler_to_matrix (euler_init_with_order (Fin x) (Fin y) (Fin z) o) = mt (mturn o (x * PI / 180) (y * PI / 180) (z * PI / 180)) /\
  euler_to_matrix (euler_init (Fin x) (Fin y) (Fin z)) = mt (mturn SXYZ (x * PI / 180) (y * PI / 180) (z * PI / 180)) /\
  euler_to_matrix (euler_init_from_vec3 (Some (vec3_init (Fin x) (Fin y) (Fin z))) o) = mt (mturn o (x * PI / 180) (y * PI / 180) (z * PI / 180)) /\
  euler_to_matrix (euler_init_from_vec3 None o) = matrix_init_identity.
Proof.
  intros o x y z.
  assert (W : forall o, euler_to_matrix (euler_init_with_order (Fin x) (Fin y) (Fin z) o) = mt (mturn o (x * PI / 180) (y * PI / 180) (z * PI / 180))).
  { intros o'. unfold euler_init_with_order. rewrite !X_d2r. replace (x * (PI / 180)) with (x * PI / 180) by field. replace (y * (PI / 180)) with (y * PI / 180) by field. replace (z * (PI / 180)) with (z * PI / 180) by field. apply C47_product. }
  split; [apply W|]. split; [unfold euler_init; rewrite W; reflexivity|]. split.
  - rewrite <- W. unfold euler_init_from_vec3, euler_init_with_order, euler_init_internal. rewrite !X_d2r.
    assert (Z : vec3_scale (vec3_init (Fin x) (Fin y) (Fin z)) (fpi /. flit 180 0)%f = vec3_init (Fin (x * (PI / 180))) (Fin (y * (PI / 180))) (Fin (z * (PI / 180)))).
    { unfold vec3_scale, vec3_init. rewrite Xpi, x180, Xdiv, Xzero, !rv_init by lra. unfold g_splat. rewrite rv_init, rv_mul. apply rv_eq; ring. }
    rewrite Z. reflexivity.
  - change (euler_init_from_vec3 None o) with (euler_init_from_radians (Fin 0) (Fin 0) (Fin 0) o). rewrite C47_product. unfold matrix_init_identity. rewrite mt_I. apply mt_ext.
    assert (T : forall v, turn o 0 0 0 v = v).
    { intros v. unfold turn, turn_by. assert (R0 : forall a w, rodrigues (axis_vec a) 0 w = w).
      { intros a [p q r]. rewrite rod_ax, cos_0, sin_0. destruct a; cbn [r3x r3y r3z]; apply V3_eq; ring. }
      destruct (order_spec o) as [[] [[a b] c]]; unfold pick; destruct a, b, c; now rewrite !R0. }
    intros i j Hi Hj. unfold mturn. rewrite !T. unfold mrows, mI, ex, ey, ez. idx4 i Hi; idx4 j Hj; reflexivity.
Qed.

(** ** C48: matrix to Euler angles and back *)
Lemma euler_core ii ij ik ji jj jk ki kj kk :
  ii * ii + ji * ji + ki * ki = 1 -> ki * ki + kj * kj + kk * kk = 1 ->
  ii * ki + ij * kj + ik * kk = 0 -> ji * ki + jj * kj + jk * kk = 0 ->
  ji = ik * kj - ij * kk -> ii = jj * kk - jk * kj -> 0 < ii * ii + ji * ji ->
  let cy := sqrt (ii * ii + ji * ji) in
  let a := ratan2 kj kk in let b := ratan2 (- ki) cy in let g := ratan2 ji ii in
  cos b * cos g = ii /\ sin b * (sin a * cos g) - cos a * sin g = ij /\ sin b * (cos a * cos g) + sin a * sin g = ik /\
  cos b * sin g = ji /\ sin b * (sin a * sin g) + cos a * cos g = jj /\ sin b * (cos a * sin g) - sin a * cos g = jk /\
  - sin b = ki /\ cos b * sin a = kj /\ cos b * cos a = kk.
Proof.
  intros H1 H2 H3 H4 H5 H6 P cy a b g.
  assert (C0 : 0 < cy) by (apply sqrt_lt_R0; exact P).
  assert (CC : cy * cy = ii * ii + ji * ji) by (apply sqrt_sqrt; lra).
  destruct (ratan2_cos_sin kj kk) as (_ & A1 & A2); [clear -H1 H2 P; lra|].
  destruct (ratan2_cos_sin (- ki) cy) as (_ & B1 & B2); [clear -C0; nra|].
  destruct (ratan2_cos_sin ji ii) as (_ & G1 & G2); [clear -P; lra|]. fold a in A1, A2. fold b in B1, B2. fold g in G1, G2.
  replace (sqrt (kk * kk + kj * kj)) with cy in A1, A2 by (unfold cy; f_equal; clear -H1 H2; lra).
  replace (sqrt (ii * ii + ji * ji)) with cy in G1, G2 by reflexivity.
  replace (sqrt (cy * cy + - ki * - ki)) with 1 in B1, B2.
  2:{ symmetry. rewrite <- sqrt_1. f_equal. clear -CC H1. lra. }
  pose proof (sc2 a) as SA. pose proof (sc2 b) as SB. pose proof (sc2 g) as SG.
  clearbody a b g. clearbody cy.
  rewrite Rmult_1_l in B1, B2. rewrite B1, B2. revert A1 A2 G1 G2 SA. clear SB SG B1 B2. generalize (sin a) (cos a) (sin g) (cos g). intros sa ca sg cg A1 A2 G1 G2 SA.
  clear P H1 H2 CC. rewrite <- A1, <- A2, <- G1 in H3. rewrite <- A1, <- A2, <- G2 in H4. rewrite <- A1, <- A2, <- G2 in H5. rewrite <- A1, <- A2, <- G1 in H6.
  assert (E1 : ij * sa + ik * ca = cg * - ki) by (apply (Rmult_eq_reg_l cy); [|lra]; clear -H3; lra).
  assert (E2 : sg = ik * sa - ij * ca) by (apply (Rmult_eq_reg_l cy); [|lra]; clear -H5; lra).
  assert (E3 : jj * sa + jk * ca = sg * - ki) by (apply (Rmult_eq_reg_l cy); [|lra]; clear -H4; lra).
  assert (E4 : cg = jj * ca - jk * sa) by (apply (Rmult_eq_reg_l cy); [|lra]; clear -H6; lra).
  assert (Q : forall u, u = u * (sa * sa) + u * (ca * ca)) by (intros u; rewrite SA; ring).
  repeat split; try ring; try lra.
  - rewrite (Q ij). transitivity (sa * (cg * - ki) - ca * sg); [ring|]. rewrite <- E1, E2. ring.
  - rewrite (Q ik). transitivity (ca * (cg * - ki) + sa * sg); [ring|]. rewrite <- E1, E2. ring.
  - rewrite (Q jj). transitivity (sa * (sg * - ki) + ca * cg); [ring|]. rewrite <- E3, E4. ring.
  - rewrite (Q jk). transitivity (ca * (sg * - ki) - sa * cg); [ring|]. rewrite <- E3, E4. ring.
Qed.
Lemma euler_core_lock ii ij ik ji jj jk ki kj kk :
  ii * ii + ji * ji + ki * ki = 1 -> ki * ki + kj * kj + kk * kk = 1 -> ji * ji + jj * jj + jk * jk = 1 ->
  ij = jk * ki - ji * kk -> ik = ji * kj - jj * ki -> ki * ki = 1 ->
  let a := ratan2 (- jk) jj in let b := ratan2 (- ki) 0 in
  cos b * cos 0 = ii /\ sin b * (sin a * cos 0) - cos a * sin 0 = ij /\ sin b * (cos a * cos 0) + sin a * sin 0 = ik /\
  cos b * sin 0 = ji /\ sin b * (sin a * sin 0) + cos a * cos 0 = jj /\ sin b * (cos a * sin 0) - sin a * cos 0 = jk /\
  - sin b = ki /\ cos b * sin a = kj /\ cos b * cos a = kk.
Proof.
  intros H1 H2 H3 H4 H5 H6 a b. assert (ji = 0 /\ ii = 0 /\ kj = 0 /\ kk = 0) as (-> & -> & -> & ->) by nra.
  destruct (ratan2_cos_sin (- jk) jj) as (_ & A1 & A2); [clear -H3; lra|].
  destruct (ratan2_cos_sin (- ki) 0) as (_ & B1 & B2); [clear -H6; lra|]. fold a in A1, A2. fold b in B1, B2.
  replace (sqrt (jj * jj + - jk * - jk)) with 1 in A1, A2 by (rewrite <- sqrt_1; f_equal; clear -H3; lra).
  replace (sqrt (0 * 0 + - ki * - ki)) with 1 in B1, B2 by (rewrite <- sqrt_1; f_equal; clear -H6; lra).
  rewrite Rmult_1_l in * . rewrite A1, A2, B1, B2, sin_0, cos_0. subst ij ik. repeat split; ring.
Qed.
(** a matrix given by its table of entries: T r c is lane r of row c *)
Definition comp (v : R3) (a : axis) : R := pick (r3x v) (r3y v) (r3z v) a.
Definition rowof (a b c : R3) (x : axis) : R3 := match x with AX => a | AY => b | AZ => c end.
Lemma table_mrows a b c r s : table_of_mat (mt (mrows a b c)) r s = Fin (comp (rowof a b c s) r).
Proof. destruct r, s; reflexivity. Qed.
Lemma mat_of_mrows a b c : mat_of_table (fun r s => Fin (comp (rowof a b c s) r)) = mt (mrows a b c).
Proof. reflexivity. Qed.
Definition nine (T : axis -> axis -> R) (i j k : axis) (a b g : R) : Prop :=
  cos b * cos g = T i i /\ sin b * (sin a * cos g) - cos a * sin g = T i j /\ sin b * (cos a * cos g) + sin a * sin g = T i k /\
  cos b * sin g = T j i /\ sin b * (sin a * sin g) + cos a * cos g = T j j /\ sin b * (cos a * sin g) - sin a * cos g = T j k /\
  - sin b = T k i /\ cos b * sin a = T k j /\ cos b * cos a = T k k.
Lemma nine_matrix T p a b g : ap_rep p = false ->
  let i := ap_first p in let j := axis_j i (ap_parity p) in let k := axis_k i (ap_parity p) in nine T i j k a b g ->
  let '(t1, t2, t3) := (let '(t1, t2, t3) := if ap_parity p then (a * -1, b * -1, g * -1) else (a, b, g) in if ap_frame p then (t3, t2, t1) else (t1, t2, t3)) in
  euler_to_matrix_internal (Fin t1) (Fin t2) (Fin t3) p = mat_of_table (fun r s => Fin (T r s)).
Proof.
  destruct p as [[] [] rep []]; cbn [ap_rep ap_parity ap_frame ap_first]; intros ->; unfold axis_j, axis_k, next_axis, nine; cbv zeta beta iota; intros (N1 & N2 & N3 & N4 & N5 & N6 & N7 & N8 & N9);
    unfold euler_to_matrix_internal; cbn [ap_first ap_parity ap_frame ap_rep];
    rewrite ?xm1, ?Xmul, ?Xsin, ?Xcos, ?sin_m, ?cos_m, ?sin_m, ?cos_m, ?Ropp_involutive;
    unfold mat_of_table, axis_j, axis_k, next_axis; cbn [axis_eqb]; cbv zeta;
    rewrite ?Xzero, ?Xone, ?Xmul, ?Xneg, ?Xmul, ?Xadd, ?Xsub, ?rv_init; veqs; try reflexivity; lra.
Qed.
Definition raw_angles (T : axis -> axis -> R) (i j k : axis) : R * R * R :=
  let cy := sqrt (T i i * T i i + T j i * T j i) in
  if Rle_dec (16 * eps) cy then (ratan2 (T k j) (T k k), ratan2 (- T k i) cy, ratan2 (T j i) (T i i))
  else (ratan2 (- T j k) (T j j), ratan2 (- T k i) cy, 0).
Lemma X_to_euler T m p : ap_rep p = false -> (forall r c, table_of_mat m r c = Fin (T r c)) ->
  let i := ap_first p in let j := axis_j i (ap_parity p) in let k := axis_k i (ap_parity p) in
  let '(a, b, g) := raw_angles T i j k in
  let '(t1, t2, t3) := (let '(t1, t2, t3) := if ap_parity p then (a * -1, b * -1, g * -1) else (a, b, g) in if ap_frame p then (t3, t2, t1) else (t1, t2, t3)) in
  matrix_to_euler m p = (Fin t1, Fin t2, Fin t3).
Proof.
  intros NR TM i j k. unfold matrix_to_euler. rewrite NR. cbv zeta. fold i j k. rewrite !TM. rewrite !Xmul, !Xadd, Xsqrt by nra.
  unfold raw_angles. set (cy := sqrt _). change (flit 16 0) with (Fin (16 * 1)). rewrite xeps, xm1, Rmult_1_r, !Xmul.
  replace (T k i * -1) with (- T k i) by ring. replace (T j k * -1) with (- T j k) by ring.
  destruct (Rle_dec (16 * eps) cy) as [L|L].
  - rewrite Xle_t, !Xatan2 by exact L. destruct (ap_parity p), (ap_frame p); rewrite ?Xmul; reflexivity.
  - rewrite Xle_f, !Xatan2, Xzero by lra. destruct (ap_parity p), (ap_frame p); rewrite ?Xmul; reflexivity.
Qed.
(** the entry of a rotation matrix that is +-1 in gimbal lock: what is left of the first
    static axis along the third *)
Definition lock_entry (o : eorder) (a b c : R3) : R :=
  let '(static, (u, _, w)) := order_spec o in if static then comp (rowof a b c u) w else comp (rowof a b c w) u.
Definition repeats (o : eorder) : bool := let '(_, (u, _, w)) := order_spec o in axis_eqb u w.
Definition facts (T : axis -> axis -> R) (i j k : axis) : Prop :=
  T i i * T i i + T j i * T j i + T k i * T k i = 1 /\ T k i * T k i + T k j * T k j + T k k * T k k = 1 /\
  T j i * T j i + T j j * T j j + T j k * T j k = 1 /\
  T i i * T k i + T i j * T k j + T i k * T k k = 0 /\ T j i * T k i + T j j * T k j + T j k * T k k = 0 /\
  T j i = T i k * T k j - T i j * T k k /\ T i i = T j j * T k k - T j k * T k j /\
  T i j = T j k * T k i - T j i * T k k /\ T i k = T j i * T k j - T j j * T k i.
Lemma rot_table a b c : rotation_rows a b c -> forall i par, facts (fun r s => comp (rowof a b c s) r) i (axis_j i par) (axis_k i par).
Proof.
  intros R i par. destruct a as [a0 a1 a2], b as [b0 b1 b2], c as [c0 c1 c2].
  destruct (rotation_facts _ _ _ _ _ _ _ _ _ R) as ((R1 & R2 & R3 & R4 & R5 & R6) & (C1 & C2 & C3 & C4 & C5 & C6) & (A0 & A1 & A2) & (B0 & B1 & B2) & D0 & D1 & D2).
  clear R. unfold facts. destruct i, par; unfold axis_j, axis_k, next_axis, comp, rowof, pick; cbn [r3x r3y r3z]; repeat split; lra.
Qed.
Lemma lock_index o a b c : repeats o = false -> let p := order_parameters (euler_real_order o) in
  ap_rep p = false /\ lock_entry o a b c = comp (rowof a b c (ap_first p)) (axis_k (ap_first p) (ap_parity p)).
Proof. destruct o; cbn; intros H; try discriminate H; split; reflexivity. Qed.
Lemma rot_nine T i j k : facts T i j k -> T k i * T k i = 1 \/ 16 * eps <= sqrt (1 - T k i * T k i) ->
  let '(x, y, z) := raw_angles T i j k in nine T i j k x y z.
Proof.
  intros (F1 & F2 & F3 & F4 & F5 & F6 & F7 & F8 & F9) L. assert (P0 := eps_pos). unfold raw_angles. set (cy := sqrt (T i i * T i i + T j i * T j i)).
  replace (1 - T k i * T k i) with (T i i * T i i + T j i * T j i) in L by lra. fold cy in L.
  destruct (Rle_dec (16 * eps) cy) as [G|G].
  - apply euler_core; auto. destruct (Rlt_le_dec 0 (T i i * T i i + T j i * T j i)) as [|N]; auto. exfalso. assert (cy = 0) by (apply sqrt_neg_0; exact N). lra.
  - destruct L as [L|L]; [|contradiction]. replace cy with 0 by (unfold cy; symmetry; rewrite <- sqrt_0; f_equal; lra). apply euler_core_lock; auto.
Qed.
Theorem C48_angles : forall o a b c, rotation_rows a b c -> repeats o = false ->
  let m := mt (mrows a b c) in matrix_is_identity m = false \/ m = matrix_init_identity ->
  let s := lock_entry o a b c in s * s = 1 \/ 16 * eps <= sqrt (1 - s * s) ->
  exists t1 t2 t3, euler_init_from_matrix (Some m) o = euler_init_from_radians (Fin t1) (Fin t2) (Fin t3) o /\ mt (mturn_by o t1 t2 t3) = m.
Proof.
  intros o a b c R NR m ID s L.
  assert (I0 : mt (mturn_by o 0 0 0) = matrix_init_identity).
  { unfold matrix_init_identity. rewrite mt_I. apply mt_ext.
    assert (T : forall v, turn_by o 0 0 0 v = v).
    { intros v. unfold turn_by. assert (R0 : forall a w, rodrigues (axis_vec a) 0 w = w).
      { intros a' [p q r]. rewrite rod_ax, cos_0, sin_0. destruct a'; cbn [r3x r3y r3z]; apply V3_eq; ring. }
      destruct (order_spec o) as [[] [[a' b'] c']]; now rewrite !R0. }
    intros i j Hi Hj. unfold mturn_by. rewrite !T. unfold mrows, mI, ex, ey, ez. idx4 i Hi; idx4 j Hj; reflexivity. }
  destruct (matrix_is_identity m) eqn:EI.
  - destruct ID as [ID|ID]; [discriminate|]. exists 0, 0, 0. split; [|congruence].
    unfold euler_init_from_matrix. rewrite EI. unfold euler_init_with_order, euler_init_from_radians. rewrite Xzero, X_d2r, Rmult_0_l. reflexivity.
  - destruct (lock_index o a b c NR) as [RP LE]. fold s in LE. rewrite LE in L. clear ID LE s.
    pose proof (rot_nine _ _ _ _ (rot_table a b c R (ap_first (order_parameters (euler_real_order o))) (ap_parity (order_parameters (euler_real_order o)))) L) as N.
    pose proof (X_to_euler (fun r s => comp (rowof a b c s) r) m _ RP (table_mrows a b c)) as E. cbv zeta in E.
    pose proof (nine_matrix (fun r s => comp (rowof a b c s) r) (order_parameters (euler_real_order o))) as M.
    destruct (raw_angles _ _ _ _) as [[x y] z]. specialize (M x y z RP N). cbv beta in M. change (mat_of_table (fun r s : axis => Fin (comp (rowof a b c s) r))) with m in M.
    set (tt := let '(t1, t2, t3) := if ap_parity _ then _ else _ in _) in M, E. destruct tt as [[t1 t2] t3]. exists t1, t2, t3. split.
    + unfold euler_init_from_matrix. rewrite EI, E. unfold euler_init_from_radians, euler_init_internal. destruct o; reflexivity.
    + rewrite <- M. symmetry. apply internal_turn.
Qed.
(** for the orders X, Y, Z the angles are stored where euler_to_matrix looks for them *)
Theorem C48_round_trip : forall o a b c, In o [SXYZ; RXYZ; OXYZ; ODefault] -> rotation_rows a b c ->
  let m := mt (mrows a b c) in matrix_is_identity m = false \/ m = matrix_init_identity ->
  let s := lock_entry o a b c in s * s = 1 \/ 16 * eps <= sqrt (1 - s * s) ->
  euler_to_matrix (euler_init_from_matrix (Some m) o) = m.
Proof.
  intros o a b c IN R m ID s L.
  assert (NR : repeats o = false) by (simpl in IN; destruct IN as [<-|[<-|[<-|[<-|[]]]]]; reflexivity).
  destruct (C48_angles o a b c R NR ID L) as (t1 & t2 & t3 & E1 & E). fold m in E1, E. rewrite E1, C47_product, <- E.
  simpl in IN; destruct IN as [<-|[<-|[<-|[<-|[]]]]]; reflexivity.
Qed.
(** the half turns about the X and the Z axis *)
Definition half_x : mat xreal := mt (mrows ex (V3 0 (-1) 0) (V3 0 0 (-1))).
Definition half_z : mat xreal := mt (mrows (V3 (-1) 0 0) (V3 0 (-1) 0) ez).
Lemma at_pos : ratan2 0 1 = 0.
Proof. pose proof (ratan2_polar 1 0). rewrite sin_0, cos_0, !Rmult_1_l in H. apply H; pose proof PI_RGT_0; lra. Qed.
Lemma at_neg : ratan2 0 (-1) = PI.
Proof. pose proof (ratan2_polar 1 PI). rewrite sin_PI, cos_PI, !Rmult_1_l in H. apply H; pose proof PI_RGT_0; lra. Qed.
Definition diag_angles (d : axis -> R) (p : axis_param) : R * R * R :=
  let i := ap_first p in let j := axis_j i (ap_parity p) in let k := axis_k i (ap_parity p) in
  let '(a, b, g) := if ap_rep p then (ratan2 0 (d j), ratan2 0 (d i), 0) else (ratan2 0 (d k), ratan2 0 1, ratan2 0 (d i)) in
  let '(a, b, g) := if ap_parity p then (a * -1, b * -1, g * -1) else (a, b, g) in
  if ap_frame p then (g, b, a) else (a, b, g).
Lemma diag_to_euler u v w p : u * u = 1 -> v * v = 1 -> w * w = 1 ->
  matrix_to_euler (mt (mrows (V3 u 0 0) (V3 0 v 0) (V3 0 0 w))) p = let '(x, y, z) := diag_angles (pick u v w) p in (Fin x, Fin y, Fin z).
Proof.
  intros U V' W. assert (P0 : 0 < 16 * eps <= 1) by (unfold eps; lra).
  destruct p as [i par rep fr]. unfold matrix_to_euler, diag_angles; cbn [ap_first ap_parity ap_rep ap_frame]. cbv zeta. rewrite !table_mrows.
  change (flit 16 0) with (Fin (16 * 1)). rewrite Rmult_1_r, xeps, xm1, !Xmul, !Xadd, ?Xmul, Xzero.
  assert (Z : 0 * -1 = 0) by ring. assert (S0 : sqrt (0 * 0 + 0 * 0) = 0) by (replace (0 * 0 + 0 * 0) with 0 by ring; apply sqrt_0).
  destruct rep.
  - destruct i, par; unfold axis_j, axis_k, next_axis, comp, rowof, pick; cbn [r3x r3y r3z]; rewrite Xsqrt, S0, Xle_f by lra; rewrite ?Z, !Xatan2; destruct fr; rewrite ?Xmul, ?Z; reflexivity.
  - assert (S1 : forall t, t * t = 1 -> sqrt (t * t + 0 * 0) = 1) by (intros t ->; replace (1 + 0 * 0) with 1 by ring; apply sqrt_1).
    destruct i, par; unfold axis_j, axis_k, next_axis, comp, rowof, pick; cbn [r3x r3y r3z]; rewrite Xsqrt, S1, Xle_t by lra; rewrite ?Z, !Xatan2; destruct fr; rewrite ?Xmul, ?Z; reflexivity.
Qed.
Lemma diag_not_identity u v w : u * u = 1 -> v * v = 1 -> w * w = 1 -> v = -1 -> matrix_is_identity (mt (mrows (V3 u 0 0) (V3 0 v 0) (V3 0 0 w))) = false.
Proof.
  intros U V' W N. destruct (matrix_is_identity _) eqn:E; auto. exfalso. destruct (is_scalar BK) eqn:S.
  - pose proof (proj1 (C40_is_identity_scalar BK S _) E) as E'. clear E. specialize (E' 1%nat 1%nat ltac:(lia) ltac:(lia)). unfold mrows, of_rows, vec, mI in E'; cbn [r3x r3y r3z Nat.eqb] in E'. rewrite N in E'. unfold eps in E'. rewrite Rabs_left, (Rabs_left (-1)), Rabs_R1, Rmax_left in E' by lra. lra.
  - pose proof (proj1 (C40_is_identity_exact BK S _) E) as E'. clear E. specialize (E' 1%nat 1%nat ltac:(lia) ltac:(lia)). unfold mrows, of_rows, vec, mI in E'; cbn [r3x r3y r3z Nat.eqb] in E'. lra.
Qed.
(** every other order loses one of the two half turns *)
Theorem C48_other_orders_refuted : forall o, ~ In o [SXYZ; RXYZ; OXYZ; ODefault] -> exists a b c, rotation_rows a b c /\
  let m := mt (mrows a b c) in (m = half_x \/ m = half_z) /\ matrix_is_identity m = false /\ (repeats o = false -> lock_entry o a b c = 0) /\
  euler_to_matrix (euler_init_from_matrix (Some m) o) <> m.
Proof.
  intros o N.
  assert (K : forall u v w, u * u = 1 -> v = -1 -> w * w = 1 -> let m := mt (mrows (V3 u 0 0) (V3 0 v 0) (V3 0 0 w)) in
    euler_to_matrix (euler_init_from_matrix (Some m) o) = let '(x, y, z) := diag_angles (pick u v w) (order_parameters (euler_real_order o)) in mt (mturn o x y z)).
  { intros u v w U V' W m. assert (V2 : v * v = 1) by (rewrite V'; ring). unfold euler_init_from_matrix. unfold m at 1. rewrite diag_not_identity by auto.
    assert (RO : euler_real_order (euler_real_order o) = euler_real_order o) by (destruct o; reflexivity).
    unfold m. rewrite diag_to_euler by auto. destruct (diag_angles _ _) as [[x y] z]. rewrite <- C47_product. unfold euler_init_from_radians, euler_init_internal. now rewrite RO. }
  assert (X : In o [SXZY; RXZY; OXZY] \/ ~ In o [SXZY; RXZY; OXZY]) by (destruct o; simpl; intuition discriminate).
  destruct X as [X|X].
  - exists (V3 (-1) 0 0), (V3 0 (-1) 0), (V3 0 0 1). split; [|split; [|split; [|split]]].
    + unfold rotation_rows, dot, cross; cbn [r3x r3y r3z]. repeat split; try ring. apply V3_eq; ring.
    + (left; reflexivity) || (right; reflexivity).
    + apply diag_not_identity; ring.
    + simpl in X; destruct X as [<-|[<-|[<-|[]]]]; reflexivity.
    + rewrite K by ring. intros E.
      assert (E' : meq (let '(x, y, z) := diag_angles (pick (-1) (-1) 1) (order_parameters (euler_real_order o)) in mturn o x y z) (mrows (V3 (-1) 0 0) (V3 0 (-1) 0) (V3 0 0 1))).
      { apply mt_inj. rewrite <- E. now destruct (diag_angles _ _) as [[x y] z]. }
      clear E K. pose proof (E' 0%nat 0%nat ltac:(lia) ltac:(lia)) as E0. pose proof (E' 1%nat 1%nat ltac:(lia) ltac:(lia)) as E1. pose proof (E' 2%nat 2%nat ltac:(lia) ltac:(lia)) as E2. clear E'. revert E0 E1 E2.
      simpl in X; destruct X as [<-|[<-|[<-|[]]]];
      unfold diag_angles, euler_real_order, order_parameters; cbn [ap_first ap_parity ap_rep ap_frame axis_j axis_k next_axis pick];
      rewrite ?at_pos, ?at_neg;
      unfold mturn, mrows, of_rows, vec, turn, turn_by, order_spec, pick; cbv beta iota; rewrite !rod_ax; unfold ex, ey, ez; cbn [r3x r3y r3z];
      rewrite ?sin_m, ?cos_m, ?Rmult_0_l, ?sin_0, ?cos_0, ?sin_PI, ?cos_PI; lra.
  - exists (V3 1 0 0), (V3 0 (-1) 0), (V3 0 0 (-1)). split; [|split; [|split; [|split]]].
    + unfold rotation_rows, dot, cross; cbn [r3x r3y r3z]. repeat split; try ring. apply V3_eq; ring.
    + (left; reflexivity) || (right; reflexivity).
    + apply diag_not_identity; ring.
    + destruct o; intros RP; try discriminate RP; reflexivity.
    + rewrite K by ring. intros E.
      assert (E' : meq (let '(x, y, z) := diag_angles (pick 1 (-1) (-1)) (order_parameters (euler_real_order o)) in mturn o x y z) (mrows (V3 1 0 0) (V3 0 (-1) 0) (V3 0 0 (-1)))).
      { apply mt_inj. rewrite <- E. now destruct (diag_angles _ _) as [[x y] z]. }
      clear E K. pose proof (E' 0%nat 0%nat ltac:(lia) ltac:(lia)) as E0. pose proof (E' 1%nat 1%nat ltac:(lia) ltac:(lia)) as E1. pose proof (E' 2%nat 2%nat ltac:(lia) ltac:(lia)) as E2. clear E'. revert E0 E1 E2.
      destruct o; try (exfalso; apply N; simpl; tauto); try (exfalso; apply X; simpl; tauto);
      unfold diag_angles, euler_real_order, order_parameters; cbn [ap_first ap_parity ap_rep ap_frame axis_j axis_k next_axis pick];
      rewrite ?at_pos, ?at_neg;
      unfold mturn, mrows, of_rows, vec, turn, turn_by, order_spec, pick; cbv beta iota; rewrite !rod_ax; unfold ex, ey, ez; cbn [r3x r3y r3z];
      rewrite ?sin_m, ?cos_m, ?Rmult_0_l, ?sin_0, ?cos_0, ?sin_PI, ?cos_PI; lra.
Qed.
(** the same through a quaternion *)
Theorem C48_quaternion_round_trip : forall o q, In o [SXYZ; RXYZ; OXYZ; ODefault] -> unit_q q ->
  let m := quaternion_to_matrix (qt q) in matrix_is_identity m = false \/ m = matrix_init_identity ->
  let s := lock_entry o (qrot q ex) (qrot q ey) (qrot q ez) in s * s = 1 \/ 16 * eps <= sqrt (1 - s * s) ->
  euler_to_matrix (euler_init_from_quaternion (Some (qt q)) o) = m.
Proof.
  intros o q IN U m ID s L. unfold m in * . clear m. rewrite mt_quat in * by auto.
  replace (euler_init_from_quaternion (Some (qt q)) o) with (euler_init_from_matrix (Some (mt (mquat q))) o).
  - apply C48_round_trip; auto. apply mquat_rotation; auto.
  - rewrite <- mt_quat by auto. unfold euler_init_from_quaternion, euler_init_from_matrix. destruct o; reflexivity.
Qed.

(** ** C49: Euler angles to quaternion *)
Definition qeuler (x y z : R) : RQ := qmul (qaxis ez z) (qmul (qaxis ey y) (qaxis ex x)).
Lemma qeuler_unit x y z : unit_q (qeuler x y z).
Proof. unfold qeuler. auto using unit_mul, qaxis_unit, (axis_unit AX), (axis_unit AY), (axis_unit AZ). Qed.
Theorem C49_quaternion : forall o x y z, In o [SXYZ; RZYX; OXYZ; ODefault] ->
  let e := euler_init_from_radians (Fin x) (Fin y) (Fin z) o in
  euler_to_quaternion e = qt (qeuler x y z) /\ unit_q (qeuler x y z) /\ (forall v, qrot (qeuler x y z) v = turn o x y z v) /\
  quaternion_to_matrix (euler_to_quaternion e) = euler_to_matrix e.
Proof.
  intros o x y z IN e.
  assert (E : euler_to_quaternion e = qt (qeuler x y z)).
  { transitivity (euler_to_quaternion (euler_init_from_radians (Fin x) (Fin y) (Fin z) SXYZ)).
    - unfold e. simpl in IN; destruct IN as [<-|[<-|[<-|[<-|[]]]]]; reflexivity.
    - unfold euler_to_quaternion. rewrite eu_x, eu_y, eu_z. rewrite xhalf, !Xmul, !Xsin, !Xcos. cbn [eu_o euler_init_from_radians euler_init_internal euler_real_order order_parameters ap_rep ap_parity].
      cbv zeta. rewrite !Xmul, !Xadd, !Xsub. unfold qeuler, qaxis, qmul, ex, ey, ez, add3, scl3, cross, dot, Rdiv; cbn [qs qv r3x r3y r3z]. unfold qt; cbn [qs qv r3x r3y r3z]. apply Qt_eq; ring. }
  assert (T : forall v, qrot (qeuler x y z) v = turn o x y z v).
  { intros v. unfold qeuler. rewrite !qrot_mul, (qaxis_rot ez), (qaxis_rot ey), (qaxis_rot ex) by (apply (axis_unit AX) || apply (axis_unit AY) || apply (axis_unit AZ)).
    simpl in IN; destruct IN as [<-|[<-|[<-|[<-|[]]]]]; reflexivity. }
  split; [exact E|]. split; [apply qeuler_unit|]. split; [exact T|].
  rewrite E, mt_quat by apply qeuler_unit. unfold e. rewrite C47_product. unfold mturn. rewrite <- !T. reflexivity.
Qed.
(** ninety degrees about X, ninety about Y, a half turn about Z: wrong in every other order *)
Theorem C49_other_orders_refuted : forall o, ~ In o [SXYZ; RZYX; OXYZ; ODefault] ->
  let e := euler_init_with_order (Fin 90) (Fin 90) (Fin 180) o in
  quaternion_to_matrix (euler_to_quaternion e) <> euler_to_matrix e.
Proof.
  intros o N. cbv zeta. unfold euler_init_with_order. rewrite !X_d2r.
  replace (90 * (PI / 180)) with (PI / 2) by field. replace (180 * (PI / 180)) with PI by field.
  fold (euler_init_from_radians (Fin (PI / 2)) (Fin (PI / 2)) (Fin PI) o).
  assert (H : / sqrt 2 * / sqrt 2 = / 2). { rewrite <- Rinv_mult, sqrt_sqrt by lra. reflexivity. }
  assert (Q : euler_to_quaternion (euler_init_from_radians (Fin (PI / 2)) (Fin (PI / 2)) (Fin PI) o) =
    let p := order_parameters (euler_real_order o) in
    if ap_rep p then qt (Q4 (-1/2) (V3 (1/2) (if ap_parity p then -1/2 else 1/2) (1/2))) else qt (Q4 (1/2) (V3 (-1/2) (if ap_parity p then -1/2 else 1/2) (1/2)))).
  { unfold euler_to_quaternion. rewrite eu_x, eu_y, eu_z. rewrite xhalf, !Xmul, !Xsin, !Xcos. 
    replace (eu_o (euler_init_from_radians (Fin (PI / 2)) (Fin (PI / 2)) (Fin PI) o)) with (euler_real_order o) by reflexivity.
    replace (euler_real_order (euler_real_order o)) with (euler_real_order o) by (destruct o; reflexivity).
    replace (PI / 2 * / 2) with (PI / 4) by field. fold (PI / 2). rewrite sin_PI4, cos_PI4, sin_PI2, cos_PI2. cbv zeta. rewrite xm1.
    replace (1 / sqrt 2) with (/ sqrt 2) by (unfold Rdiv; ring). set (h := / sqrt 2) in * . clearbody h.
    destruct (ap_rep _), (ap_parity _); rewrite ?Xmul, ?Xadd, ?Xsub, ?Xmul; unfold qt; cbn [qs qv r3x r3y r3z]; apply Qt_eq; lra. }
  rewrite Q. clear Q. rewrite C47_product. intros E.
  assert (E' : meq (let p := order_parameters (euler_real_order o) in mquat
    (if ap_rep p then Q4 (-1/2) (V3 (1/2) (if ap_parity p then -1/2 else 1/2) (1/2)) else Q4 (1/2) (V3 (-1/2) (if ap_parity p then -1/2 else 1/2) (1/2)))) (mturn o (PI / 2) (PI / 2) PI)).
  { apply mt_inj. rewrite <- E. cbv zeta. rewrite <- mt_quat; [destruct (ap_rep _); reflexivity|]. destruct (ap_rep _), (ap_parity _); apply q_unit; lra. }
  clear E H.
  assert (E2 : forall i j, (i < 3)%nat -> (j < 3)%nat -> mquat (let p := order_parameters (euler_real_order o) in
    if ap_rep p then Q4 (-1/2) (V3 (1/2) (if ap_parity p then -1/2 else 1/2) (1/2)) else Q4 (1/2) (V3 (-1/2) (if ap_parity p then -1/2 else 1/2) (1/2))) i j = mturn o (PI / 2) (PI / 2) PI i j) by (intros; apply E'; lia).
  clear E'. pose proof (E2 0%nat 0%nat ltac:(lia) ltac:(lia)) as F0. pose proof (E2 0%nat 1%nat ltac:(lia) ltac:(lia)) as F1. pose proof (E2 0%nat 2%nat ltac:(lia) ltac:(lia)) as F2.
  pose proof (E2 1%nat 0%nat ltac:(lia) ltac:(lia)) as F3. pose proof (E2 1%nat 1%nat ltac:(lia) ltac:(lia)) as F4. clear E2. revert F0 F1 F2 F3 F4.
  destruct o; try (exfalso; apply N; simpl; tauto); cbn [euler_real_order order_parameters ap_rep ap_parity]; cbv zeta; rewrite !mquat_closed;
    unfold mturn, mrows, of_rows, vec, turn, turn_by, order_spec, pick; cbv beta iota; rewrite !rod_ax; unfold ex, ey, ez; cbn [r3x r3y r3z];
    rewrite ?sin_PI2, ?cos_PI2, ?sin_PI, ?cos_PI; lra.
Qed.
(** reorder keeps the rotation between the orders that work in both directions ... *)
Theorem C49_reorder : forall o o' x y z, In o [SXYZ; RZYX; OXYZ; ODefault] -> In o' [SXYZ; RXYZ; OXYZ; ODefault] ->
  let e := euler_init_from_radians (Fin x) (Fin y) (Fin z) o in let m := euler_to_matrix e in
  matrix_is_identity m = false \/ m = matrix_init_identity ->
  let s := lock_entry o' (turn o x y z ex) (turn o x y z ey) (turn o x y z ez) in s * s = 1 \/ 16 * eps <= sqrt (1 - s * s) ->
  euler_to_matrix (euler_reorder e o') = m.
Proof.
  intros o o' x y z IN IN' e m ID s L. destruct (C49_quaternion o x y z IN) as (Q & U & T & M). fold e in Q, M. unfold s in L. rewrite <- !T in L. clear s.
  unfold euler_reorder, quaternion_init_from_euler. unfold m in * . clear m. rewrite <- M in * . rewrite Q in * .
  replace (euler_init_from_quaternion (Some (qt (qeuler x y z))) (euler_real_order o')) with (euler_init_from_quaternion (Some (qt (qeuler x y z))) o').
  - now apply C48_quaternion_round_trip.
  - unfold euler_init_from_quaternion. destruct o'; reflexivity.
Qed.
(** ... and loses it for every other target *)
Theorem C49_reorder_refuted : forall o', ~ In o' [SXYZ; RXYZ; OXYZ; ODefault] -> exists x y z,
  let e := euler_init (Fin x) (Fin y) (Fin z) in euler_to_matrix (euler_reorder e o') <> euler_to_matrix e.
Proof.
  intros o' N. destruct (C48_other_orders_refuted o' N) as (a & b & c & _ & HM & _ & _ & NE).
  set (m := mt (mrows a b c)) in * . clearbody m. clear a b c.
  assert (A : forall x y z, euler_init (Fin x) (Fin y) (Fin z) = euler_init_from_radians (Fin (x * (PI / 180))) (Fin (y * (PI / 180))) (Fin (z * (PI / 180))) ODefault).
  { intros. unfold euler_init, euler_init_with_order. rewrite !X_d2r. reflexivity. }
  assert (W : exists x y z, euler_to_matrix (euler_init (Fin x) (Fin y) (Fin z)) = m).
  { assert (Z : 0 * (PI / 180) = 0) by ring. assert (O : 180 * (PI / 180) = PI) by field.
    destruct HM as [->| ->]; [exists 180, 0, 0|exists 0, 0, 180]; rewrite A, C47_product, Z, O; apply mt_ext; intros i j Hi Hj;
    unfold mturn, mrows; idx4 i Hi; idx4 j Hj; unfold of_rows, vec, turn, turn_by, order_spec, pick; cbv beta iota; rewrite ?rod_ax; unfold ex, ey, ez; cbn [r3x r3y r3z];
    rewrite ?sin_0, ?cos_0, ?sin_PI, ?cos_PI; ring. }
  destruct W as (x & y & z & E). exists x, y, z. cbv zeta. rewrite E. unfold euler_reorder, quaternion_init_from_euler, euler_init_from_quaternion.
  destruct (C49_quaternion ODefault (x * (PI / 180)) (y * (PI / 180)) (z * (PI / 180)) ltac:(simpl; tauto)) as (_ & _ & _ & M). cbv zeta in M. rewrite <- A in M. rewrite M, E.
  replace (euler_init_from_matrix (Some m) (euler_real_order (euler_real_order o'))) with (euler_init_from_matrix (Some m) o'); auto.
  unfold euler_init_from_matrix. destruct o'; reflexivity.
Qed.
End S.
(** the hypotheses are met: a rotation that permutes the axes, and one in gimbal lock *)
Example C48_ex : rotation_rows (V3 0 1 0) (V3 0 0 1) (V3 1 0 0) /\ lock_entry SXYZ (V3 0 1 0) (V3 0 0 1) (V3 1 0 0) = 0 /\
  rotation_rows (V3 0 0 1) (V3 1 0 0) (V3 0 1 0) /\ lock_entry SXYZ (V3 0 0 1) (V3 1 0 0) (V3 0 1 0) = 1 /\ 16 * eps <= sqrt (1 - 0 * 0).
Proof.
  unfold rotation_rows, dot, cross, lock_entry; cbn [order_spec rowof comp pick r3x r3y r3z]. repeat split; try ring; try (apply V3_eq; ring).
  replace (1 - 0 * 0) with 1 by ring. rewrite sqrt_1. unfold eps; lra.
Qed.
