(** * Props_MatX3: projections, look_at, untransforming, predicates in exact arithmetic
    (C31, C32, C35-C37, C40). *)

From Coq Require Import ZArith Reals Bool List Lra Lia Psatz.
From Flocq Require Import Core.
From Verif Require Import Num Simd Vec Rect Box Mat Geo OrdThy XSetup RMat Props_VecX Props_MatX Props_MatX2.
Import ListNotations.
Local Open Scope R_scope.

Ltac vsd := repeat (progress (vs; rewrite ?Xdiv by lra)).

(** ** C31: projections *)
(** the canonical clip volume *)
Definition in_clip (x y z w : R) : Prop := - w <= x <= w /\ - w <= y <= w /\ - w <= z <= w.
Lemma div_le a b d : 0 < d -> (a / d <= b <-> a <= b * d).
Proof.
  intros H. split; intros L.
  - apply Rmult_le_reg_r with (/ d). now apply Rinv_0_lt_compat. replace (b * d * / d) with b by (field; lra). exact L.
  - apply Rmult_le_reg_r with d; auto. replace (a / d * d) with a by (field; lra). exact L.
Qed.
Lemma le_div a b d : 0 < d -> (b <= a / d <-> b * d <= a).
Proof.
  intros H. split; intros L.
  - apply Rmult_le_reg_r with (/ d). now apply Rinv_0_lt_compat. replace (b * d * / d) with b by (field; lra). exact L.
  - apply Rmult_le_reg_r with d; auto. replace (a / d * d) with a by (field; lra). exact L.
Qed.

Section S.
Context (BK : Backend xreal).

(** init_frustum: a point (x,y,z) is inside the viewing frustum when its depth s = -z is
    between near and far and its projection on the near plane is inside the window. *)
Theorem C31_frustum_exact : forall l r b t n f x y z, l < r -> b < t -> 0 < n -> n < f ->
  exists cx cy cz cw,
  matrix_transform_vec4 (matrix_init_frustum (Fin l) (Fin r) (Fin b) (Fin t) (Fin n) (Fin f)) (rv x y z 1) = rv cx cy cz cw /\
  (in_clip cx cy cz cw <->
     n <= - z <= f /\ l <= x * n / (- z) <= r /\ b <= y * n / (- z) <= t).
Proof.
  intros l r b t n f x y z Hx Hy Hn Hf. unfold matrix_init_frustum, gm_init_frustum. cbv zeta. vsd.
  change (M4 (rv ?a ?b ?c ?d) ?y ?z ?w) with (M4 (rv a b c d) y z w).
  match goal with |- context [matrix_transform_vec4 (M4 (rv ?a0 ?a1 ?a2 ?a3) (rv ?b0 ?b1 ?b2 ?b3) (rv ?c0 ?c1 ?c2 ?c3) (rv ?d0 ?d1 ?d2 ?d3)) _] =>
    change (M4 (rv a0 a1 a2 a3) (rv b0 b1 b2 b3) (rv c0 c1 c2 c3) (rv d0 d1 d2 d3)) with (mt (of_rows (vec a0 a1 a2 a3) (vec b0 b1 b2 b3) (vec c0 c1 c2 c3) (vec d0 d1 d2 d3))) end.
  rewrite vv_vec, C25_transform_vec4_exact. do 4 eexists. split; [reflexivity|]. unfold vmul, sum4, of_rows, vec.
  assert (E1 : x * (2 * n / (r - l)) + y * 0 + z * ((r + l) / (r - l)) + 1 * 0 = (2 * (n * x) + z * (r + l)) / (r - l)) by (field; lra).
  assert (E2 : x * 0 + y * (2 * n / (t - b)) + z * ((t + b) / (t - b)) + 1 * 0 = (2 * (n * y) + z * (t + b)) / (t - b)) by (field; lra).
  assert (E3 : x * 0 + y * 0 + z * (-1 * (f + n) / (f - n)) + 1 * (- (2) * f * n / (f - n)) = (- z * (f + n) - 2 * f * n) / (f - n)) by (field; lra).
  assert (E4 : x * 0 + y * 0 + z * -1 + 1 * 0 = - z) by ring.
  rewrite E1, E2, E3, E4. unfold in_clip. rewrite !div_le, !le_div by lra.
  split.
  - intros ((A1 & A2) & (B1 & B2) & (C1 & C2)).
    assert (Z1 : n <= - z). { apply Rmult_le_reg_l with (2 * f); nra. }
    assert (Z2 : - z <= f). { apply Rmult_le_reg_l with (2 * n); nra. }
    rewrite !div_le, !le_div by lra. repeat split; try lra; nra.
  - intros ((Z1 & Z2) & W). rewrite !div_le, !le_div in W by lra. destruct W as ((A1 & A2) & (B1 & B2)). repeat split; nra.
Qed.
(** init_perspective: half the vertical angle is a = fovy/2 degrees. *)
Theorem C31_perspective_exact : forall fovy aspect n f x y z, 0 < fovy < 180 -> 0 < aspect -> 0 < n -> n < f ->
  let T := tan (fovy * PI / 180 / 2) in
  exists cx cy cz cw,
  matrix_transform_vec4 (matrix_init_perspective (Fin fovy) (Fin aspect) (Fin n) (Fin f)) (rv x y z 1) = rv cx cy cz cw /\
  (in_clip cx cy cz cw <->
     n <= - z <= f /\ Rabs x <= - z * (aspect * T) /\ Rabs y <= - z * T).
Proof.
  intros fovy aspect n f x y z Hv Ha Hn Hf T. unfold matrix_init_perspective, gm_init_perspective. cbv zeta. rewrite X_d2r, Xpi_2. vs.
  set (h := fovy * PI / 180 / 2) in * . pose proof PI_RGT_0 as Pp.
  assert (Hh : 0 < h < PI / 2). { unfold h. split; nra. }
  replace (PI / 2 - fovy * (PI / 180) * / 2) with (PI / 2 - h) by (unfold h; field).
  assert (Sn : 0 < sin h) by (apply sin_gt_0; lra). assert (Cn : 0 < cos h) by (apply cos_gt_0; lra).
  assert (Cp : cos (PI / 2 - h) = sin h) by (rewrite cos_shift; auto). assert (Sp : sin (PI / 2 - h) = cos h) by (rewrite sin_shift; auto).
  rewrite Xtan by lra. assert (Ct : tan (PI / 2 - h) = / T). { unfold tan at 1. rewrite Cp, Sp. unfold T, tan. field. split; lra. }
  rewrite Ct. assert (Tp : 0 < T). { unfold T, tan. apply Rdiv_lt_0_compat; auto. }
  vsd.
  match goal with |- context [matrix_transform_vec4 (M4 (rv ?a0 ?a1 ?a2 ?a3) (rv ?b0 ?b1 ?b2 ?b3) (rv ?c0 ?c1 ?c2 ?c3) (rv ?d0 ?d1 ?d2 ?d3)) _] =>
    change (M4 (rv a0 a1 a2 a3) (rv b0 b1 b2 b3) (rv c0 c1 c2 c3) (rv d0 d1 d2 d3)) with (mt (of_rows (vec a0 a1 a2 a3) (vec b0 b1 b2 b3) (vec c0 c1 c2 c3) (vec d0 d1 d2 d3))) end.
  rewrite vv_vec, C25_transform_vec4_exact. do 4 eexists. split; [reflexivity|]. unfold vmul, sum4, of_rows, vec. clearbody T. clear Ct.
  assert (E1 : x * (/ T / aspect) + y * 0 + z * 0 + 1 * 0 = x / (aspect * T)) by (field; lra).
  assert (E2 : x * 0 + y * / T + z * 0 + 1 * 0 = y / T) by (field; lra).
  assert (E3 : x * 0 + y * 0 + z * (- (f + n) / (f - n)) + 1 * (- (2) * n * f / (f - n)) = (- z * (f + n) - 2 * f * n) / (f - n)) by (field; lra).
  assert (E4 : x * 0 + y * 0 + z * -1 + 1 * 0 = - z) by ring.
  assert (Ta : 0 < aspect * T) by nra.
  rewrite E1, E2, E3, E4. unfold in_clip. rewrite !div_le, !le_div by lra.
  split.
  - intros ((A1 & A2) & (B1 & B2) & (C1 & C2)).
    assert (Z1 : n <= - z). { apply Rmult_le_reg_l with (2 * f); nra. }
    assert (Z2 : - z <= f). { apply Rmult_le_reg_l with (2 * n); nra. }
    repeat split; try lra; apply Rabs_le; nra.
  - intros ((Z1 & Z2) & (W1 & W2)). apply Rabs_le_inv in W1. apply Rabs_le_inv in W2. repeat split; nra.
Qed.
(** init_ortho maps the box left..right, top..bottom, -far..-near onto the cube; the
    argument named top lands on y = -1 and the one named bottom on y = +1. *)
Theorem C31_ortho_exact : forall l r top bottom n f x y z, l < r -> top < bottom -> n < f ->
  exists cx cy cz,
  matrix_transform_point3d (matrix_init_ortho (Fin l) (Fin r) (Fin top) (Fin bottom) (Fin n) (Fin f)) (pt3 x y z) = pt3 cx cy cz /\
  (in_clip cx cy cz 1 <-> l <= x <= r /\ top <= y <= bottom /\ n <= - z <= f) /\
  (x = l -> cx = -1) /\ (x = r -> cx = 1) /\ (y = top -> cy = -1) /\ (y = bottom -> cy = 1) /\
  (- z = n -> cz = -1) /\ (- z = f -> cz = 1).
Proof.
  intros l r t b n f x y z Hx Hy Hf. unfold matrix_init_ortho, gm_init_ortho. cbv zeta. vsd.
  match goal with |- context [matrix_transform_point3d (M4 (rv ?a0 ?a1 ?a2 ?a3) (rv ?b0 ?b1 ?b2 ?b3) (rv ?c0 ?c1 ?c2 ?c3) (rv ?d0 ?d1 ?d2 ?d3)) _] =>
    change (M4 (rv a0 a1 a2 a3) (rv b0 b1 b2 b3) (rv c0 c1 c2 c3) (rv d0 d1 d2 d3)) with (mt (of_rows (vec a0 a1 a2 a3) (vec b0 b1 b2 b3) (vec c0 c1 c2 c3) (vec d0 d1 d2 d3))) end.
  rewrite C25_transform_point3d_exact. do 3 eexists. split; [reflexivity|]. unfold vmul, sum4, of_rows, vec.
  assert (E1 : x * (2 / (r - l)) + y * 0 + z * 0 + - (r + l) / (r - l) = (2 * x - (r + l)) / (r - l)) by (field; lra).
  assert (E2 : x * 0 + y * (2 / (b - t)) + z * 0 + - (b + t) / (b - t) = (2 * y - (b + t)) / (b - t)) by (field; lra).
  assert (E3 : x * 0 + y * 0 + z * (- (2) / (f - n)) + - (f + n) / (f - n) = (2 * - z - (f + n)) / (f - n)) by (field; lra).
  rewrite E1, E2, E3. unfold in_clip. rewrite !div_le, !le_div by lra.
  split; [split; [intros ((A1 & A2) & (B1 & B2) & (C1 & C2))|intros ((A1 & A2) & (B1 & B2) & (C1 & C2))]; repeat split; lra|].
  repeat split; intros ->; try (field; lra).
Qed.

(** What matrix_perspective does to a homogeneous vector: w becomes w + z - w/depth. *)
Theorem C31_apply_perspective_exact : forall A depth v a b c w, depth <> 0 ->
  matrix_transform_vec4 (mt A) (vv v) = rv a b c w ->
  matrix_transform_vec4 (matrix_perspective (mt A) (Fin depth)) (vv v) = rv a b c (w + (c - w / depth)).
Proof.
  intros A depth v a b c w Hd. rewrite C25_transform_vec4_exact. intros E.
  set (P := fun i j => if Nat.eqb j 3 then A i 3%nat + (A i 2%nat - A i 3%nat / depth) else A i j).
  assert (EP : matrix_perspective (mt A) (Fin depth) = mt P).
  { unfold matrix_perspective, gm_perspective, mt, vv. cbv zeta. vs. rewrite !Xdiv by auto. vs. unfold g_merge_w. rewrite ?rv_x, ?rv_y, ?rv_z.
    change (V4 (Fin ?a) (Fin ?b) (Fin ?c) (Fin ?d)) with (rv a b c d).
    veqs; unfold P; simpl Nat.eqb; cbv iota; try reflexivity; field; auto. }
  rewrite EP, C25_transform_vec4_exact. rewrite vv_vec in E. apply vv_inj in E.
  pose proof (E 0%nat ltac:(lia)) as E0. pose proof (E 1%nat ltac:(lia)) as E1. pose proof (E 2%nat ltac:(lia)) as E2. pose proof (E 3%nat ltac:(lia)) as E3.
  unfold vmul, sum4, vec in E0, E1, E2, E3. rewrite <- E0, <- E1, <- E2, <- E3. unfold vv, vmul, sum4, P; simpl Nat.eqb; cbv iota. apply rv_eq; field; auto.
Qed.
(** A perspective of depth d should leave the plane z = 0 alone and divide by 1 - z/d; it
    moves the origin's w instead. *)
Theorem C31_apply_perspective_refuted : exists depth z, depth <> 0 /\
  matrix_transform_vec4 (matrix_perspective matrix_init_identity (Fin depth)) (rv 0 0 0 1) <> rv 0 0 0 1 /\
  matrix_transform_vec4 (matrix_perspective matrix_init_identity (Fin depth)) (rv 0 0 z 1) <> rv 0 0 z (1 - z / depth).
Proof.
  exists 2, 1. split; [lra|]. unfold matrix_init_identity. rewrite mt_I.
  assert (I : forall z, matrix_transform_vec4 (mt mI) (vv (vec 0 0 z 1)) = rv 0 0 z 1).
  { intros z. rewrite C25_transform_vec4_exact. unfold vv, vmul, sum4, vec, mI; simpl Nat.eqb; cbv iota. apply rv_eq; ring. }
  rewrite !vv_vec. rewrite (C31_apply_perspective_exact mI 2 _ _ _ _ _ ltac:(lra) (I 0)), (C31_apply_perspective_exact mI 2 _ _ _ _ _ ltac:(lra) (I 1)).
  rewrite !vv_vec. split; intros E; apply vv_inj in E; specialize (E 3%nat ltac:(lia)); unfold vec in E; lra.
Qed.

(** ** C32: look_at *)
Lemma rv_v3 x y z w : rv x y z w = v3 x y z (Fin w). Proof. reflexivity. Qed.
Lemma rv_cross a b c a' b' c' : g_cross3 (rv a b c 0) (rv a' b' c' 0) = rv (b * c' - c * b') (c * a' - a * c') (a * b' - b * a') 0.
Proof.
  unfold g_cross3, backend. rewrite !rv_x, !rv_y, !rv_z, !rv_w. rewrite !Xmul, !Xsub, ?Xzero.
  destruct BK; rewrite rv_v3; unfold v3; xring.
Qed.
Lemma rv_normalize3 (EB : exact_backend BK) v : 0 < dot v v -> above_cutoff BK (dot v v) ->
  g_normalize3 (rv (r3x v) (r3y v) (r3z v) 0) = rv (r3x (unit3 v)) (r3y (unit3 v)) (r3z (unit3 v)) 0.
Proof.
  intros P C. unfold g_normalize3, g_dot3. rewrite rv_v3, X_dot3. fold (dot v v). unfold g_rsqrt, g_splat, map1; cbn [vx vy vz vw].
  rewrite (X_rsqrt BK EB _ P C). unfold g_mul, map2, v3; cbn [vx vy vz vw]. rewrite !Xmul. unfold unit3, scl3; cbn [r3x r3y r3z].
  rewrite rv_v3. unfold v3. f_equal; f_equal; ring.
Qed.
Definition mlook (x y z eye : R3) : RM :=
  of_rows (vec (r3x x) (r3y x) (r3z x) 0) (vec (r3x y) (r3y y) (r3z y) 0) (vec (r3x z) (r3y z) (r3z z) 0)
          (vec (- r3x eye) (- r3y eye) (- r3z eye) 1).
Definition rv3 (v : R3) : V := rv (r3x v) (r3y v) (r3z v) 0.
(** General position: the eye and the centre are apart and [up] is not along the line of
    sight (both beyond the library's thresholds). *)
Theorem C32_look_at_orthonormal : forall eye center up, exact_backend BK ->
  let dir := sub3 center eye in
  eps <= dot dir dir -> above_cutoff BK (dot dir dir) ->
  let side := cross (unit3 dir) up in
  eps <= dot side side -> above_cutoff BK (dot side side) ->
  exists x y z, matrix_init_look_at (rv3 eye) (rv3 center) (rv3 up) = mt (mlook x y z eye) /\
    dot x x = 1 /\ dot y y = 1 /\ dot z z = 1 /\ dot x y = 0 /\ dot y z = 0 /\ dot x z = 0 /\ cross x y = z /\
    z = unit3 (sub3 eye center) /\ dot x up = 0 /\ 0 < dot y up.
Proof.
  intros eye center up EB dir D1 D2 side S1 S2. pose proof eps_pos as Ep.
  exists (unit3 side), (cross (unit3 side) (unit3 dir)), (scl3 (-1) (unit3 dir)).
  assert (Ud : dot (unit3 dir) (unit3 dir) = 1) by (apply unit3_unit; lra). assert (Us : dot (unit3 side) (unit3 side) = 1) by (apply unit3_unit; lra).
  assert (Sd : dot side (unit3 dir) = 0). { unfold side. unfold dot, cross; cbn [r3x r3y r3z]. ring. }
  assert (Su : dot side up = 0). { unfold side. unfold dot, cross; cbn [r3x r3y r3z]. ring. }
  assert (Od : dot (unit3 side) (unit3 dir) = 0). { transitivity (/ sqrt (dot side side) * dot side (unit3 dir)); [unfold unit3 at 1, dot, scl3; cbn [r3x r3y r3z]; ring|rewrite Sd; ring]. }
  assert (Ou : dot (unit3 side) up = 0). { transitivity (/ sqrt (dot side side) * dot side up); [unfold unit3 at 1, dot, scl3; cbn [r3x r3y r3z]; ring|rewrite Su; ring]. }
  split.
  - unfold matrix_init_look_at, gm_init_look_at, rv3. cbv zeta. rewrite rv_sub.
    change (r3x center - r3x eye) with (r3x dir). change (r3y center - r3y eye) with (r3y dir). change (r3z center - r3z eye) with (r3z dir).
    replace (0 - 0) with 0 by ring.
    assert (K1 : g_get_x (g_dot3 (rv (r3x dir) (r3y dir) (r3z dir) 0) (rv (r3x dir) (r3y dir) (r3z dir) 0)) = Fin (dot dir dir)).
    { unfold g_dot3. rewrite rv_v3, X_dot3. reflexivity. }
    rewrite K1, xeps, Xlt_f by auto. rewrite rv_normalize3 by (auto; lra). rewrite rv_cross.
    change (rv _ _ _ 0) with (rv (r3x side) (r3y side) (r3z side) 0) at 1 2.
    assert (K2 : g_get_x (g_dot3 (rv (r3x side) (r3y side) (r3z side) 0) (rv (r3x side) (r3y side) (r3z side) 0)) = Fin (dot side side)).
    { unfold g_dot3. rewrite rv_v3, X_dot3. reflexivity. }
    rewrite K2, Xlt_f by auto. 
    change (rv (r3y (unit3 dir) * r3z up - r3z (unit3 dir) * r3y up) (r3z (unit3 dir) * r3x up - r3x (unit3 dir) * r3z up) (r3x (unit3 dir) * r3y up - r3y (unit3 dir) * r3x up) 0) with (rv (r3x side) (r3y side) (r3z side) 0).
    rewrite rv_normalize3 by (auto; lra). rewrite rv_cross, rv_neg. vs. unfold mt, vv, mlook, of_rows, vec, cross, scl3; cbn [r3x r3y r3z]. veqs; ring.
  - assert (Ycross : cross (unit3 side) (cross (unit3 side) (unit3 dir)) = scl3 (-1) (unit3 dir)).
    { revert Us Od. destruct (unit3 side) as [a b c], (unit3 dir) as [d e f]. unfold dot, cross, scl3; cbn [r3x r3y r3z]. intros Us Od.
      apply V3_eq.
      - replace (b * (a * e - b * d) - c * (c * d - a * f)) with (a * (a * d + b * e + c * f) - d * (a * a + b * b + c * c)) by ring. rewrite Od, Us. ring.
      - replace (c * (b * f - c * e) - a * (a * e - b * d)) with (b * (a * d + b * e + c * f) - e * (a * a + b * b + c * c)) by ring. rewrite Od, Us. ring.
      - replace (a * (c * d - a * f) - b * (b * f - c * e)) with (c * (a * d + b * e + c * f) - f * (a * a + b * b + c * c)) by ring. rewrite Od, Us. ring. }
    split; [auto|]. split.
    { revert Us Od Ud. destruct (unit3 side) as [a b c], (unit3 dir) as [d e f]. unfold dot, cross; cbn [r3x r3y r3z]. intros Us Od Ud.
      replace ((b * f - c * e) * (b * f - c * e) + (c * d - a * f) * (c * d - a * f) + (a * e - b * d) * (a * e - b * d))
        with ((a * a + b * b + c * c) * (d * d + e * e + f * f) - (a * d + b * e + c * f) * (a * d + b * e + c * f)) by ring. rewrite Us, Ud, Od. ring. }
    split. { rewrite <- Ud. unfold dot, scl3; cbn [r3x r3y r3z]. ring. }
    split. { unfold dot, cross; cbn [r3x r3y r3z]. ring. }
    split. { unfold dot, cross, scl3; cbn [r3x r3y r3z]. ring. }
    split. { transitivity (- dot (unit3 side) (unit3 dir)); [unfold dot, scl3; cbn [r3x r3y r3z]; ring|rewrite Od; ring]. }
    split; [exact Ycross|].
    split. { unfold unit3. replace (dot (sub3 eye center) (sub3 eye center)) with (dot dir dir) by (unfold dir, dot, sub3; cbn [r3x r3y r3z]; ring).
      unfold dir, scl3, sub3; cbn [r3x r3y r3z]. apply V3_eq; ring. }
    split; [exact Ou|].
    (* y . up = (side/|side| x d) . up = side/|side| . (d x up) = |side| *)
    replace (dot (cross (unit3 side) (unit3 dir)) up) with (dot (unit3 side) side).
    2:{ unfold side at 2. unfold dot, cross; cbn [r3x r3y r3z]. ring. }
    replace (dot (unit3 side) side) with (/ sqrt (dot side side) * dot side side) by (unfold unit3, dot at 1 3, scl3; cbn [r3x r3y r3z]; unfold dot; ring).
    apply Rmult_lt_0_compat; [apply Rinv_0_lt_compat, sqrt_lt_R0|]; lra.
Qed.

(** A view matrix should take the eye to the origin; this one does not. *)
Theorem C32_eye_not_origin_refuted : exact_backend BK -> exists eye center up,
  let dir := sub3 center eye in let side := cross (unit3 dir) up in
  (eps < dot dir dir /\ eps < dot side side) /\
  matrix_transform_point3d (matrix_init_look_at (rv3 eye) (rv3 center) (rv3 up)) (pp3 eye) <> pt3 0 0 0.
Proof.
  intros EB. exists (V3 1 0 0), (V3 0 0 0), (V3 0 1 0). cbv zeta.
  assert (D : dot (sub3 (V3 0 0 0) (V3 1 0 0)) (sub3 (V3 0 0 0) (V3 1 0 0)) = 1) by (unfold dot, sub3; cbn [r3x r3y r3z]; ring).
  assert (U : unit3 (sub3 (V3 0 0 0) (V3 1 0 0)) = V3 (-1) 0 0) by (rewrite unit3_id by auto; unfold sub3; cbn [r3x r3y r3z]; apply V3_eq; ring).
  assert (C : cross (V3 (-1) 0 0) (V3 0 1 0) = V3 0 0 (-1)) by (unfold cross; cbn [r3x r3y r3z]; apply V3_eq; ring).
  assert (C1 : dot (V3 0 0 (-1)) (V3 0 0 (-1)) = 1) by (unfold dot; cbn [r3x r3y r3z]; ring).
  rewrite D, U, C, C1. pose proof eps_pos. split; [unfold eps; lra|].
  destruct (C32_look_at_orthonormal (V3 1 0 0) (V3 0 0 0) (V3 0 1 0) EB) as (x & y & z & E & Ux & _); cbv zeta.
  1,2: rewrite D; unfold above_cutoff, eps; intros; lra.
  1,2: rewrite U, C, C1; unfold above_cutoff, eps; intros; lra.
  rewrite E. unfold pp3. rewrite C25_transform_point3d_exact. unfold mlook, of_rows, vec; cbn [r3x r3y r3z].
  (* the matrix is determined: its first row is the side vector (0,0,-1) *)
  destruct (C32_look_at_orthonormal (V3 1 0 0) (V3 0 0 0) (V3 0 1 0) EB) as (x' & y' & z' & E' & H'); cbv zeta.
  1,2: rewrite D; unfold above_cutoff, eps; intros; lra.
  1,2: rewrite U, C, C1; unfold above_cutoff, eps; intros; lra.
  destruct H' as (H1 & _ & _ & _ & _ & Hxz & _ & Hz & Hu & _). rewrite E in E'. apply mt_inj in E'.
  pose proof (E' 0%nat 0%nat ltac:(lia) ltac:(lia)) as X0. pose proof (E' 0%nat 1%nat ltac:(lia) ltac:(lia)) as X1. unfold mlook, of_rows, vec in X0, X1.
  intros F. unfold pt3 in F. injection F. intros Fz Fy Fx.
  assert (Z1 : z' = V3 1 0 0).
  { rewrite Hz. rewrite unit3_id; unfold sub3, dot; cbn [r3x r3y r3z]; [apply V3_eq|]; ring. }
  rewrite Z1 in Hxz. unfold dot in Hxz; cbn [r3x r3y r3z] in Hxz. rewrite <- X0 in Hxz. lra.
Qed.

(** ** C35: spheres *)
Lemma X_ffmax a b : ffmax (Fin a) (Fin b) = Fin (Rmax a b).
Proof.
  unfold ffmax. cbn [fisnan xreal_ops]. destruct (Rle_lt_dec b a).
  - rewrite Xlt_f by auto. now rewrite Rmax_left.
  - rewrite Xlt_t by auto. rewrite Rmax_right by lra. reflexivity.
Qed.
Lemma X_sphere_contains c w r p : sphere_contains_point (Sp (rv (r3x c) (r3y c) (r3z c) w) (Fin r)) (pp3 p) = true <-> dot (sub3 c p) (sub3 c p) <= r * r.
Proof.
  unfold sphere_contains_point, distance_sq, vec3_subtract, vec3_dot, point3d_to_vec3, vec3_init, pp3, pt3. cbn [scenter sradius p3x p3y p3z].
  rewrite Xzero, rv_init, rv_sub. unfold g_dot3, g_get_x, g_splat; cbn [vx]. rewrite rv_v3, X_dot3, Xmul. fold (dot (sub3 c p) (sub3 c p)).
  change (((r3x c - r3x p) * (r3x c - r3x p) + (r3y c - r3y p) * (r3y c - r3y p) + (r3z c - r3z p) * (r3z c - r3z p))) with (dot (sub3 c p) (sub3 c p)).
  destruct (fle _ _) eqn:E; [apply Xle_iff in E; tauto|apply Xle_iff_f in E]. split; [discriminate|lra].
Qed.
Lemma X_dotrow (A : RM) i : g_dot3_scalar (vv (A i)) (vv (A i)) = Fin (A i 0%nat * A i 0%nat + A i 1%nat * A i 1%nat + A i 2%nat * A i 2%nat).
Proof. unfold vv. rewrite rv_v3. apply X_dot3. Qed.
Definition row3 (A : RM) (i : nat) : R3 := V3 (A i 0%nat) (A i 1%nat) (A i 2%nat).
(** the three basis images are mutually orthogonal: rotations, translations, axis scalings
    followed by rotations *)
Definition orth_rows (A : RM) : Prop :=
  dot (row3 A 0) (row3 A 1) = 0 /\ dot (row3 A 0) (row3 A 2) = 0 /\ dot (row3 A 1) (row3 A 2) = 0.
Theorem C35_transform_sphere_contains : forall A c w r p, 0 <= r -> orth_rows A ->
  sphere_contains_point (Sp (rv (r3x c) (r3y c) (r3z c) w) (Fin r)) (pp3 p) = true ->
  sphere_contains_point (matrix_transform_sphere (mt A) (Sp (rv (r3x c) (r3y c) (r3z c) w) (Fin r)))
                        (matrix_transform_point3d (mt A) (pp3 p)) = true.
Proof.
  intros A c w r p Hr (O1 & O2 & O3). rewrite X_sphere_contains. intros H.
  unfold matrix_transform_sphere. cbn [scenter sradius]. rewrite vv_vec, mt_point3. cbn [mt mx my mz]. rewrite !X_dotrow, !X_ffmax. fold (mt A).
  set (n0 := A 0%nat 0%nat * A 0%nat 0%nat + A 0%nat 1%nat * A 0%nat 1%nat + A 0%nat 2%nat * A 0%nat 2%nat).
  set (n1 := A 1%nat 0%nat * A 1%nat 0%nat + A 1%nat 1%nat * A 1%nat 1%nat + A 1%nat 2%nat * A 1%nat 2%nat).
  set (n2 := A 2%nat 0%nat * A 2%nat 0%nat + A 2%nat 1%nat * A 2%nat 1%nat + A 2%nat 2%nat * A 2%nat 2%nat).
  set (m := Rmax (Rmax n0 n1) n2).
  assert (M0 : n0 <= m) by (unfold m; eapply Rle_trans; [|apply Rmax_l]; apply Rmax_l).
  assert (M1 : n1 <= m) by (unfold m; eapply Rle_trans; [|apply Rmax_l]; apply Rmax_r).
  assert (M2 : n2 <= m) by (unfold m; apply Rmax_r).
  assert (N0 : 0 <= n0) by (unfold n0; nra).
  rewrite Xsqrt, Xmul by lra. unfold pp3. rewrite C25_transform_point3d_exact.
  unfold vec at 1 2 3 4. cbv iota. unfold vv.
  match goal with |- sphere_contains_point (Sp (rv ?a ?b ?c ?d) (Fin ?e)) (pt3 ?x ?y ?z) = true =>
    change (sphere_contains_point (Sp (rv (r3x (V3 a b c)) (r3y (V3 a b c)) (r3z (V3 a b c)) d) (Fin e)) (pp3 (V3 x y z)) = true) end.
  rewrite X_sphere_contains.
  replace (r * sqrt m * (r * sqrt m)) with (r * r * (sqrt m * sqrt m)) by ring. rewrite sqrt_sqrt by lra.
  set (d := sub3 c p) in * .
  assert (E : forall u, u = dot d d * m -> u <= r * r * m) by (intros u ->; apply Rmult_le_compat_r; lra).
  apply Rle_trans with (dot d d * m); [|apply Rmult_le_compat_r; lra].
  apply Rle_trans with (r3x d * r3x d * n0 + r3y d * r3y d * n1 + r3z d * r3z d * n2).
  - apply Req_le. unfold n0, n1, n2. unfold dot, row3 in O1, O2, O3; cbn [r3x r3y r3z] in O1, O2, O3.
    unfold d, dot, sub3, vmul, sum4, vec; cbn [r3x r3y r3z].
    set (a := r3x c - r3x p). set (b := r3y c - r3y p). set (e := r3z c - r3z p).
    match goal with |- ?L = ?R => assert (K : L - R = 2 * a * b * (A 0%nat 0%nat * A 1%nat 0%nat + A 0%nat 1%nat * A 1%nat 1%nat + A 0%nat 2%nat * A 1%nat 2%nat)
       + 2 * a * e * (A 0%nat 0%nat * A 2%nat 0%nat + A 0%nat 1%nat * A 2%nat 1%nat + A 0%nat 2%nat * A 2%nat 2%nat)
       + 2 * b * e * (A 1%nat 0%nat * A 2%nat 0%nat + A 1%nat 1%nat * A 2%nat 1%nat + A 1%nat 2%nat * A 2%nat 2%nat)) by (unfold a, b, e; ring) end.
    rewrite O1, O2, O3 in K. lra.
  - unfold dot. pose proof (Rle_0_sqr (r3x d)). pose proof (Rle_0_sqr (r3y d)). pose proof (Rle_0_sqr (r3z d)). unfold Rsqr in * . nra.
Qed.
(** a shear stretches more than any of its rows is long *)
Theorem C35_shear_refuted : exists A p, 
  sphere_contains_point (Sp (rv 0 0 0 0) (Fin 1)) (pp3 p) = true /\
  sphere_contains_point (matrix_transform_sphere (mt A) (Sp (rv 0 0 0 0) (Fin 1))) (matrix_transform_point3d (mt A) (pp3 p)) = false.
Proof.
  exists (of_rows (vec 1 0 0 0) (vec 1 1 0 0) (vec 0 0 1 0) (vec 0 0 0 1)), (V3 (1/2) (4/5) 0).
  change (rv 0 0 0 0) with (rv (r3x (V3 0 0 0)) (r3y (V3 0 0 0)) (r3z (V3 0 0 0)) 0) at 1. split.
  - apply X_sphere_contains. unfold dot, sub3; cbn [r3x r3y r3z]. lra.
  - unfold matrix_transform_sphere. cbn [scenter sradius]. rewrite vv_vec, mt_point3. cbn [mt mx my mz]. rewrite !X_dotrow, !X_ffmax. fold (mt (of_rows (vec 1 0 0 0) (vec 1 1 0 0) (vec 0 0 1 0) (vec 0 0 0 1))). 
    match goal with |- context [Rmax ?a ?b] => replace (Rmax a b) with 2 end.
    2:{ unfold of_rows, vec. rewrite (Rmax_right (1 * 1 + 0 * 0 + 0 * 0)) by lra. rewrite Rmax_left by lra. ring. }
    rewrite Xsqrt, Xmul by lra. unfold pp3. rewrite C25_transform_point3d_exact. apply not_true_is_false. intros H. revert H.
    unfold vv. match goal with |- sphere_contains_point (Sp (rv ?a ?b ?c ?d) (Fin ?e)) (pt3 ?x ?y ?z) = true -> _ =>
      change (sphere_contains_point (Sp (rv (r3x (V3 a b c)) (r3y (V3 a b c)) (r3z (V3 a b c)) d) (Fin e)) (pp3 (V3 x y z)) = true -> False) end.
    rewrite X_sphere_contains. unfold dot, sub3, vmul, sum4, of_rows, vec; cbn [r3x r3y r3z].
    replace (1 * sqrt 2 * (1 * sqrt 2)) with (sqrt 2 * sqrt 2) by ring. rewrite sqrt_sqrt by lra. lra.
Qed.
End S.
