(** * Props_QuatX2: quaternions in exact arithmetic: slerp and angles (C43-C45). *)
From Coq Require Import ZArith Reals Bool List Lra Lia Psatz.
From Flocq Require Import Core.
From Verif Require Import Num Simd Vec Rect Box Mat Quat OrdThy XSetup RMat Props_VecX Props_MatX Props_MatX2 RQuat TrigThy Props_QuatX.
Import ListNotations.
Local Open Scope R_scope.
Section S.
Context (BK : Backend xreal).

(** ** C43: slerp *)
Lemma q_cauchy a b : unit_q a -> unit_q b -> -1 <= qdot a b <= 1.
Proof.
  intros A B'. assert (P : 0 <= qdot (qadd a b) (qadd a b)) by (unfold qdot, dot; nra).
  assert (M : 0 <= qdot (qadd a (qneg b)) (qadd a (qneg b))) by (unfold qdot, dot; nra).
  assert (E1 : qdot (qadd a b) (qadd a b) = qdot a a + qdot b b + 2 * qdot a b) by (clear; qx; ring).
  assert (E2 : qdot (qadd a (qneg b)) (qadd a (qneg b)) = qdot a a + qdot b b - 2 * qdot a b) by (clear; qx; ring).
  unfold unit_q in * . lra.
Qed.
(** the start point is [a], or [-a] (the same rotation) when that is nearer to [b] *)
Definition near_sign (a b : RQ) : R := if Rlt_dec (qdot a b) 0 then -1 else 1.
Theorem C43_slerp : forall a b t, unit_q a -> unit_q b -> Rabs (qdot a b) <= 1 - eps ->
  let s := near_sign a b in let th := acos (Rabs (qdot a b)) in
  0 < th <= PI / 2 /\
  exists q, quaternion_slerp (qt a) (qt b) (Fin t) = qt q /\ unit_q q /\
    qdot q (qscal s a) = cos (t * th) /\ qdot q b = cos ((1 - t) * th) /\
    exists u v, q = qadd (qscal u a) (qscal v b).
Proof.
  intros a b t A B' D s th. set (d := qdot a b) in * . assert (P0 := eps_pos). assert (PP := PI_RGT_0).
  assert (RD : 0 <= Rabs d) by apply Rabs_pos.
  assert (CT : cos th = Rabs d) by (apply cos_acos; lra).
  assert (ST : sin th = sqrt (1 - Rabs d * Rabs d)) by (unfold th; rewrite sin_acos by lra; reflexivity).
  assert (S0 : 0 < sqrt (1 - Rabs d * Rabs d)) by (apply sqrt_lt_R0; nra).
  assert (T0 : 0 < th <= PI / 2).
  { unfold th. pose proof (acos_bound (Rabs d)) as AB. split.
    - destruct (proj1 AB) as [|E]; auto. exfalso. fold th in E. rewrite <- E, sin_0 in ST. lra.
    - apply Rnot_lt_le; intros L. fold th in L. assert (cos th < 0); [|lra]. fold th in AB. apply cos_lt_0; lra. }
  split; auto.
  set (rv' := sin (t * th) * (1 / sqrt (1 - Rabs d * Rabs d))). set (lv := cos (t * th) - Rabs d * rv').
  exists (qadd (qscal (lv * s) a) (qscal rv' b)). 
  assert (SS : s * s = 1) by (unfold s, near_sign; destruct (Rlt_dec _ _); ring).
  assert (SD : s * d = Rabs d) by (unfold s, near_sign; fold d; destruct (Rlt_dec d 0); [rewrite Rabs_left by lra; ring|rewrite Rabs_pos_eq by lra; ring]).
  assert (Z : sin th * rv' = sin (t * th)) by (unfold rv'; rewrite ST; field; lra).
  assert (N1 : lv * s * (lv * s) + rv' * rv' + 2 * (lv * s) * rv' * d = 1).
  { replace (lv * s * (lv * s) + rv' * rv' + 2 * (lv * s) * rv' * d) with (lv * lv * (s * s) + rv' * rv' + 2 * lv * rv' * (s * d)) by ring. rewrite SS, SD.
    assert (R2 : rv' * rv' * (1 - Rabs d * Rabs d) = sin (t * th) * sin (t * th)).
    { rewrite <- (sqrt_sqrt (1 - Rabs d * Rabs d)) by nra. rewrite <- ST. rewrite <- Z. ring. }
    rewrite sc2 in R2. unfold lv. nra. }
  split; [|split; [|split; [|split]]].
  - unfold quaternion_slerp, quaternion_to_vec4. qu. rewrite !rv_init, X_dot4. unfold g_get_x, g_splat; cbn [vx].
    replace (r3x (qv a) * r3x (qv b) + r3y (qv a) * r3y (qv b) + (r3z (qv a) * r3z (qv b) + qs a * qs b)) with d by (unfold d, qdot, dot; ring).
    pose proof (q_cauchy a b A B') as QC. fold d in QC. rewrite X_clamp, Rmin_left, Rmax_right by lra.
    assert (E : (if flt (Fin d) fzero then (fm1, fneg (Fin d)) else (fone, Fin d)) = (Fin s, Fin (Rabs d))).
    { unfold s, near_sign. fold d. rewrite Xzero. destruct (Rlt_dec d 0).
      - rewrite Xlt_t, xm1, Xneg, Rabs_left by lra. reflexivity.
      - rewrite Xlt_f, Xone, Rabs_pos_eq by lra. reflexivity. }
    rewrite E. rewrite Xone. rewrite (proj2 (X_approx_f (Rabs d) 1)) by (rewrite Rabs_left1; lra).
    cbv zeta. rewrite Xacos by lra. fold th. rewrite !Xmul, Xsub, Xsqrt by nra. rewrite Xdiv by lra. rewrite Xsin, Xcos, !Xmul, Xsub, Xmul. fold rv'. fold lv.
    change (V4 (Fin (lv * s)) (Fin (lv * s)) (Fin (lv * s)) (Fin (lv * s))) with (g_splat (Fin (lv * s))). change (V4 (Fin rv') (Fin rv') (Fin rv') (Fin rv')) with (g_splat (Fin rv')).
    vs. unfold quaternion_init_from_simd4f. vs. unfold qadd, qscal, add3, scl3; cbn [qs qv r3x r3y r3z]. apply Qt_eq; ring.
  - unfold unit_q. replace (qdot _ _) with (lv * s * (lv * s) * qdot a a + rv' * rv' * qdot b b + 2 * (lv * s) * rv' * d) by (unfold d; clear; qx; ring).
    unfold unit_q in A, B'. rewrite A, B'. clear -N1. lra.
  - replace (qdot _ _) with (lv * (s * s) * qdot a a + rv' * (s * d)) by (unfold d; clear; qx; ring). rewrite A, SS, SD. unfold lv. ring.
  - replace (qdot _ _) with (lv * (s * d) + rv' * qdot b b) by (unfold d; clear; qx; ring). rewrite B', SD.
    replace ((1 - t) * th) with (th - t * th) by ring. rewrite cos_minus, CT, <- Z. unfold lv.
    assert (SQ : sin th * sin th = 1 - Rabs d * Rabs d) by (rewrite sc2, CT; ring). replace (sin th * (sin th * rv')) with ((sin th * sin th) * rv') by ring. rewrite SQ. ring.
  - eauto.
Qed.
(** so it starts at a (up to sign) and ends at b *)
Lemma unit_dot1 a b : unit_q a -> unit_q b -> qdot a b = 1 -> a = b.
Proof.
  destruct a as [w [x y z]], b as [w' [x' y' z']]. unfold unit_q, qdot, dot; cbn [qs qv r3x r3y r3z]. intros A B' D.
  assert (E : (w - w') * (w - w') + (x - x') * (x - x') + (y - y') * (y - y') + (z - z') * (z - z') = 0) by lra.
  assert (P1 := Rle_0_sqr (w - w')). assert (P2 := Rle_0_sqr (x - x')). assert (P3 := Rle_0_sqr (y - y')). assert (P4 := Rle_0_sqr (z - z')). unfold Rsqr in * . clear A B' D.
  assert (K : forall u, u * u = 0 -> u = 0) by (intros u Hu; destruct (Rmult_integral _ _ Hu); auto).
  assert (Q1 := K (w - w') ltac:(lra)). assert (Q2 := K (x - x') ltac:(lra)). assert (Q3 := K (y - y') ltac:(lra)). assert (Q4' := K (z - z') ltac:(lra)).
  f_equal; [lra|apply V3_eq; lra].
Qed.
Theorem C43_endpoints : forall a b, unit_q a -> unit_q b -> Rabs (qdot a b) <= 1 - eps ->
  quaternion_slerp (qt a) (qt b) (Fin 0) = qt (if Rlt_dec (qdot a b) 0 then qneg a else a) /\
  quaternion_slerp (qt a) (qt b) (Fin 1) = qt b.
Proof.
  intros a b A B' D. split.
  - destruct (C43_slerp a b 0 A B' D) as (_ & q & -> & U & E & _). apply qt_eq. rewrite Rmult_0_l, cos_0 in E.
    replace (if Rlt_dec (qdot a b) 0 then qneg a else a) with (qscal (near_sign a b) a).
    + apply unit_dot1; auto. unfold unit_q in * . unfold near_sign. destruct (Rlt_dec (qdot a b) 0); (etransitivity; [|exact A]); clear; qx; ring.
    + unfold near_sign. destruct (Rlt_dec (qdot a b) 0); clear; qx; apply RQ_ext; cbn [qs qv r3x r3y r3z]; ring.
  - destruct (C43_slerp a b 1 A B' D) as (_ & q & -> & U & _ & E & _). apply qt_eq. replace ((1 - 1) * acos (Rabs (qdot a b))) with 0 in E by ring. rewrite cos_0 in E. now apply unit_dot1.
Qed.
(** closer than FLT_EPSILON: the start point, whatever the factor *)
Theorem C43_close : forall a b t, unit_q a -> unit_q b -> 1 - eps < Rabs (qdot a b) -> quaternion_slerp (qt a) (qt b) (Fin t) = qt a.
Proof.
  intros a b t A B' D. set (d := qdot a b) in * . unfold quaternion_slerp, quaternion_to_vec4. qu. rewrite !rv_init, X_dot4. unfold g_get_x, g_splat; cbn [vx].
  replace (r3x (qv a) * r3x (qv b) + r3y (qv a) * r3y (qv b) + (r3z (qv a) * r3z (qv b) + qs a * qs b)) with d by (unfold d, qdot, dot; ring).
  pose proof (q_cauchy a b A B') as QC. fold d in QC. rewrite X_clamp, Rmin_left, Rmax_right by lra.
  assert (RD : Rabs d <= 1) by (apply Rabs_le; lra).
  assert (E : (if flt (Fin d) fzero then (fm1, fneg (Fin d)) else (fone, Fin d)) = ((if Rlt_dec d 0 then fm1 else fone), Fin (Rabs d))).
  { rewrite Xzero. destruct (Rlt_dec d 0).
    - rewrite Xlt_t, Xneg, Rabs_left by lra. reflexivity.
    - rewrite Xlt_f, Rabs_pos_eq by lra. reflexivity. }
  rewrite E. rewrite Xone. rewrite (proj2 (X_approx (Rabs d) 1)) by (rewrite Rabs_left1; lra). reflexivity.
Qed.
Example C43_ex : let a := Q4 1 (V3 0 0 0) in let b := Q4 0 (V3 (3/5) 0 (-4/5)) in unit_q a /\ unit_q b /\ Rabs (qdot a b) <= 1 - eps.
Proof.
  cbv zeta. split; [apply q_unit; lra|split; [apply q_unit; lra|]]. unfold qdot, dot, eps; cbn [qs qv r3x r3y r3z].
  replace (1 * 0 + (0 * (3 / 5) + 0 * 0 + 0 * (-4 / 5))) with 0 by ring. rewrite Rabs_R0. lra.
Qed.

(** ** C44: angles about the three axes *)
Definition ex := V3 1 0 0. Definition ey := V3 0 1 0. Definition ez := V3 0 0 1.
Definition qxyz (x y z : R) : RQ := qmul (qmul (qaxis ex x) (qaxis ey y)) (qaxis ez z).
Theorem C44_from_radians : forall x y z,
  quaternion_init_from_radians (Fin x) (Fin y) (Fin z) = qt (qxyz x y z) /\ unit_q (qxyz x y z) /\
  (forall v, qrot (qxyz x y z) v = rodrigues ex x (rodrigues ey y (rodrigues ez z v))).
Proof.
  intros x y z. assert (K : dot ex ex = 1 /\ dot ey ey = 1 /\ dot ez ez = 1) by (unfold dot; cbn; lra). destruct K as (Kx & Ky & Kz). split; [|split].
  - unfold quaternion_init_from_radians. rewrite xhalf, !Xmul, !Xsin, !Xcos. cbv zeta. rewrite !Xmul, !Xadd, !Xsub.
    unfold qxyz, qaxis, qmul, ex, ey, ez, add3, scl3, cross, dot, Rdiv; cbn [qs qv r3x r3y r3z]. unfold qt; cbn [qs qv r3x r3y r3z]. apply Qt_eq; ring.
  - unfold qxyz. auto using unit_mul, qaxis_unit.
  - intros v. unfold qxyz. now rewrite !qrot_mul, !qaxis_rot by auto.
Qed.
Theorem C44_from_angles : forall x y z,
  quaternion_init_from_angles (Fin x) (Fin y) (Fin z) = quaternion_init_from_radians (Fin (x * PI / 180)) (Fin (y * PI / 180)) (Fin (z * PI / 180)).
Proof. intros. unfold quaternion_init_from_angles. rewrite !X_d2r. do 2 f_equal; field. Qed.
(** back again on the principal range *)
Lemma X_clamp_in v : -1 <= v <= 1 -> cCLAMP (Fin v) fm1 fone = Fin v.
Proof. intros. rewrite X_clamp, Rmin_left, Rmax_right by lra. reflexivity. Qed.
Definition e_radians (q : RQ) : R * R * R :=
  let w := qs q in let x := r3x (qv q) in let y := r3y (qv q) in let z := r3z (qv q) in
  (ratan2 (2 * (x * w - y * z)) (w * w - x * x - y * y + z * z), asin (2 * (x * z + y * w)), ratan2 (2 * (z * w - x * y)) (w * w + x * x - y * y - z * z)).
Lemma X_to_radians q : -1 <= 2 * (r3x (qv q) * r3z (qv q) + r3y (qv q) * qs q) <= 1 ->
  quaternion_to_radians (qt q) = let '(a, b, c) := e_radians q in (Fin a, Fin b, Fin c).
Proof.
  intros C. unfold quaternion_to_radians. qu. rewrite xtwo, !Xmul, !Xsub, !Xadd, !Xsub, ?Xadd, ?Xmul. cbv zeta. rewrite X_clamp_in by exact C. rewrite !Xatan2, Xasin by exact C. reflexivity.
Qed.
Lemma qxyz_closed x y z : qxyz x y z =
  let sx := sin (x / 2) in let cx := cos (x / 2) in let sy := sin (y / 2) in let cy := cos (y / 2) in let sz := sin (z / 2) in let cz := cos (z / 2) in
  Q4 (cx * cy * cz - sx * sy * sz) (V3 (sx * cy * cz + cx * sy * sz) (cx * sy * cz - sx * cy * sz) (cx * cy * sz + sx * sy * cz)).
Proof.
  unfold qxyz, qaxis, qmul, ex, ey, ez, add3, scl3, cross, dot; cbn [qs qv r3x r3y r3z]. cbv zeta.
  generalize (sin (x / 2)) (cos (x / 2)) (sin (y / 2)) (cos (y / 2)) (sin (z / 2)) (cos (z / 2)). intros.
  apply RQ_ext; cbn [qs qv r3x r3y r3z]; ring.
Qed.
Lemma entries_ring sx cx sy cy sz cz : sx * sx = 1 - cx * cx -> sy * sy = 1 - cy * cy -> sz * sz = 1 - cz * cz ->
  let w := cx * cy * cz - sx * sy * sz in let a := sx * cy * cz + cx * sy * sz in let b := cx * sy * cz - sx * cy * sz in let c := cx * cy * sz + sx * sy * cz in
  2 * (a * w - b * c) = (2 * (cy * cy) - 1) * (2 * (sx * cx)) /\ w * w - a * a - b * b + c * c = (2 * (cy * cy) - 1) * (2 * (cx * cx) - 1) /\
  2 * (a * c + b * w) = 2 * (sy * cy) /\ 2 * (c * w - a * b) = (2 * (cy * cy) - 1) * (2 * (sz * cz)) /\ w * w + a * a - b * b - c * c = (2 * (cy * cy) - 1) * (2 * (cz * cz) - 1).
Proof. intros Sx Sy Sz. cbv zeta. repeat split; ring [Sx Sy Sz]. Qed.
Lemma half_cos t : cos t = 2 * (cos (t / 2) * cos (t / 2)) - 1.
Proof. replace t with (2 * (t / 2)) at 1 by field. rewrite cos_2a_cos. ring. Qed.
Lemma half_sin t : sin t = 2 * (sin (t / 2) * cos (t / 2)).
Proof. replace t with (2 * (t / 2)) at 1 by field. rewrite sin_2a. ring. Qed.
(** the entries of the rotation matrix the two directions agree on *)
Lemma qxyz_entries x y z : exists w a b c, qxyz x y z = Q4 w (V3 a b c) /\
  2 * (a * w - b * c) = cos y * sin x /\ w * w - a * a - b * b + c * c = cos y * cos x /\
  2 * (a * c + b * w) = sin y /\ 2 * (c * w - a * b) = cos y * sin z /\ w * w + a * a - b * b - c * c = cos y * cos z.
Proof.
  rewrite qxyz_closed. cbv zeta. do 4 eexists. split; [reflexivity|].
  rewrite (half_cos x), (half_cos y), (half_cos z), (half_sin x), (half_sin y), (half_sin z).
  apply entries_ring; apply sc2.
Qed.
Theorem C44_round_trip : forall x y z, - PI < x <= PI -> - (PI / 2) < y < PI / 2 -> - PI < z <= PI ->
  quaternion_to_radians (quaternion_init_from_radians (Fin x) (Fin y) (Fin z)) = (Fin x, Fin y, Fin z).
Proof.
  intros x y z Hx Hy Hz. destruct (C44_from_radians x y z) as (-> & _). destruct (qxyz_entries x y z) as (w & a & b & c & -> & E1 & E2 & E3 & E4 & E5).
  assert (C : 0 < cos y) by (apply cos_gt_0; lra).
  rewrite X_to_radians by (cbn [qs qv r3x r3y r3z]; rewrite E3; apply SIN_bound). unfold e_radians; cbn [qs qv r3x r3y r3z]; cbv zeta. rewrite E1, E2, E3, E4, E5. rewrite !ratan2_polar by auto. rewrite asin_sin by lra. reflexivity.
Qed.
Theorem C44_round_trip_degrees : forall x y z, -180 < x <= 180 -> -90 < y < 90 -> -180 < z <= 180 ->
  quaternion_to_angles (quaternion_init_from_angles (Fin x) (Fin y) (Fin z)) = (Fin x, Fin y, Fin z).
Proof.
  intros x y z Hx Hy Hz. unfold quaternion_to_angles. pose proof PI_RGT_0 as P. rewrite C44_from_angles, C44_round_trip by (split; nra).
  rewrite !X_r2d. assert (K : forall u, u * PI / 180 * (180 / PI) = u) by (intros; field; lra). now rewrite !K.
Qed.
(** and the other way: away from the poles, the angles of a unit quaternion describe its rotation *)
Lemma mquat_rotation q : unit_q q -> rotation_rows (qrot q (V3 1 0 0)) (qrot q (V3 0 1 0)) (qrot q (V3 0 0 1)).
Proof.
  intros U. unfold rotation_rows. rewrite !qrot_dot, qrot_cross by auto. unfold dot, cross; cbn [r3x r3y r3z]. repeat split; try ring. f_equal. apply V3_eq; ring.
Qed.
Lemma rot_unique a b c a' b' c' : rotation_rows a b c -> rotation_rows a' b' c' -> r3x a = r3x a' -> r3x b = r3x b' -> c = c' ->
  r3y c * r3y c + r3z c * r3z c <> 0 -> a = a' /\ b = b'.
Proof.
  destruct a as [a0 a1 a2], b as [b0 b1 b2], c as [c0 c1 c2], a' as [a0' a1' a2'], b' as [b0' b1' b2'], c' as [c0' c1' c2']. cbn [r3x r3y r3z].
  intros RA RB <- <- E N. injection E as <- <- <-.
  destruct (rotation_facts _ _ _ _ _ _ _ _ _ RA) as ((_ & _ & _ & _ & R5 & R6) & _ & (A0 & _) & (B0 & _) & _).
  destruct (rotation_facts _ _ _ _ _ _ _ _ _ RB) as ((_ & _ & _ & _ & R5' & R6') & _ & (A0' & _) & (B0' & _) & _).
  assert (K : forall u v, u * c1 + v * c2 = 0 -> u * c2 - v * c1 = 0 -> u = 0 /\ v = 0).
  { clear -N. intros u v P Q. split; apply (Rmult_eq_reg_r (c1 * c1 + c2 * c2)); auto; rewrite Rmult_0_l.
    - replace (u * (c1 * c1 + c2 * c2)) with ((u * c1 + v * c2) * c1 + (u * c2 - v * c1) * c2) by ring. rewrite P, Q. ring.
    - replace (v * (c1 * c1 + c2 * c2)) with ((u * c1 + v * c2) * c2 - (u * c2 - v * c1) * c1) by ring. rewrite P, Q. ring. }
  destruct (K (a1 - a1') (a2 - a2')) as [P1 P2]; [lra|lra|]. destruct (K (b1 - b1') (b2 - b2')) as [P3 P4]; [lra|lra|].
  split; apply V3_eq; lra.
Qed.
Lemma qrot_rows w x y z : let q := Q4 w (V3 x y z) in
  qrot q (V3 1 0 0) = V3 (w * w + x * x - y * y - z * z) (2 * (x * y + w * z)) (2 * (x * z - w * y)) /\
  qrot q (V3 0 1 0) = V3 (2 * (x * y - w * z)) (w * w - x * x + y * y - z * z) (2 * (y * z + w * x)) /\
  qrot q (V3 0 0 1) = V3 (2 * (x * z + w * y)) (2 * (y * z - w * x)) (w * w - x * x - y * y + z * z).
Proof. cbv zeta. unfold qrot, qmul, qconj, qpure, add3, scl3, cross, dot; cbn [qs qv r3x r3y r3z]. repeat split; apply V3_eq; ring. Qed.
Theorem C44_to_radians : forall q, unit_q q -> -1 < 2 * (r3x (qv q) * r3z (qv q) + r3y (qv q) * qs q) < 1 ->
  exists x y z, quaternion_to_radians (qt q) = (Fin x, Fin y, Fin z) /\ - PI <= x <= PI /\ - (PI / 2) < y < PI / 2 /\ - PI <= z <= PI /\
    quaternion_to_matrix (quaternion_init_from_radians (Fin x) (Fin y) (Fin z)) = quaternion_to_matrix (qt q).
Proof.
  intros q U C. rewrite X_to_radians by lra. unfold e_radians. destruct q as [w [x y z]]. cbn [qs qv r3x r3y r3z] in * . cbv zeta.
  set (ax := ratan2 _ _). set (ay := asin _). set (az := ratan2 (2 * (z * w - x * y)) _). exists ax, ay, az. split; [reflexivity|].
  split; [apply ratan2_range|]. assert (Bd : - (PI / 2) < ay < PI / 2) by (apply asin_bound_lt; exact C). split; auto. split; [apply ratan2_range|].
  destruct (C44_from_radians ax ay az) as (-> & U' & _).
  assert (Sy : sin ay = 2 * (x * z + y * w)) by (apply sin_asin; lra). assert (Cy : 0 < cos ay) by (apply cos_gt_0; lra).
  assert (C2 := sc2 ay). rewrite Sy in C2.
  rewrite !mt_quat by auto. unfold mquat. 
  pose proof (mquat_rotation _ U) as RQ1. pose proof (mquat_rotation _ U') as RQ2. clear U'.
  destruct (qxyz_entries ax ay az) as (w' & a & b & c & EQ & E1 & E2 & E3 & E4 & E5). rewrite EQ in * . clear EQ.
  destruct (qrot_rows w x y z) as (X1 & X2 & X3). destruct (qrot_rows w' a b c) as (Y1 & Y2 & Y3). rewrite X1, X2, X3 in * . rewrite Y1, Y2, Y3 in * . clear X1 X2 X3 Y1 Y2 Y3.
  destruct (rotation_facts _ _ _ _ _ _ _ _ _ RQ1) as ((_ & _ & R3' & _) & (C1 & _) & _).
  assert (N2 : 2 * (y * z - w * x) * (2 * (y * z - w * x)) + (w * w - x * x - y * y + z * z) * (w * w - x * x - y * y + z * z) = cos ay * cos ay) by lra.
  assert (N1 : (w * w + x * x - y * y - z * z) * (w * w + x * x - y * y - z * z) + 2 * (x * y - w * z) * (2 * (x * y - w * z)) = cos ay * cos ay) by lra.
  assert (P2 : 0 < cos ay * cos ay) by nra.
  destruct (ratan2_cos_sin (2 * (x * w - y * z)) (w * w - x * x - y * y + z * z)) as (_ & G1 & G2); [clear -N2 P2; lra|]. fold ax in G1, G2.
  destruct (ratan2_cos_sin (2 * (z * w - x * y)) (w * w + x * x - y * y - z * z)) as (_ & G3 & G4); [clear -N1 P2; lra|]. fold az in G3, G4.
  assert (Q1 : sqrt ((w * w - x * x - y * y + z * z) * (w * w - x * x - y * y + z * z) + 2 * (x * w - y * z) * (2 * (x * w - y * z))) = cos ay).
  { apply sqrt_lem_1; [clear -N2 P2; lra|lra|clear -N2; lra]. }
  assert (Q2 : sqrt ((w * w + x * x - y * y - z * z) * (w * w + x * x - y * y - z * z) + 2 * (z * w - x * y) * (2 * (z * w - x * y))) = cos ay).
  { apply sqrt_lem_1; [clear -N1 P2; lra|lra|clear -N1; lra]. }
  rewrite Q1 in G1, G2. rewrite Q2 in G3, G4. clear Q1 Q2.
  destruct (rot_unique _ _ _ _ _ _ RQ2 RQ1) as [Ra Rb]; cbn [r3x r3y r3z].
  - clear -E5 G3. lra.
  - clear -E4 G4. lra.
  - clear -E1 E2 E3 G1 G2 Sy. apply V3_eq; lra.
  - clear -E1 E2 G1 G2 N2 P2. replace (2 * (b * c - w' * a)) with (2 * (y * z - w * x)) by lra. replace (w' * w' - a * a - b * b + c * c) with (w * w - x * x - y * y + z * z) by lra. lra.
  - rewrite Ra, Rb. f_equal. f_equal. clear -E1 E2 E3 G1 G2 Sy. apply V3_eq; lra.
Qed.

(** ** C45: axis and angle *)
Theorem C45_from_angle_vec3 : forall deg axis w, exact_backend BK -> 0 < dot axis axis -> above_cutoff BK (dot axis axis) ->
  quaternion_init_from_angle_vec3 (Fin deg) (vv3 axis w) = qt (qaxis (unit3 axis) (deg * PI / 180)) /\
  unit_q (qaxis (unit3 axis) (deg * PI / 180)) /\
  quaternion_to_matrix (quaternion_init_from_angle_vec3 (Fin deg) (vv3 axis w)) = matrix_init_rotate (Fin deg) (vv3 axis w).
Proof.
  intros deg axis w EB P C. assert (U1 := unit3_unit axis P). assert (U := qaxis_unit (unit3 axis) (deg * PI / 180) U1).
  assert (E : quaternion_init_from_angle_vec3 (Fin deg) (vv3 axis w) = qt (qaxis (unit3 axis) (deg * PI / 180))).
  { unfold quaternion_init_from_angle_vec3. rewrite X_d2r, xtwo, Xdiv, Xsin, Xcos by lra. cbv zeta. destruct (X_normalize3 BK EB axis w P C) as (w' & ->).
    unfold vv3, v3, g_mul, g_splat, map2; cbn [vx vy vz]. rewrite !Xmul. unfold qt, qaxis, scl3; cbn [qs qv r3x r3y r3z].
    replace (deg * (PI / 180) / 2) with (deg * PI / 180 / 2) by field. apply Qt_eq; ring. }
  split; auto. split; auto. rewrite E, mt_quat by auto. unfold matrix_init_rotate. rewrite X_d2r, mt_rotation by auto.
  replace (deg * (PI / 180)) with (deg * PI / 180) by field. unfold mquat. rewrite !qaxis_rot by auto. reflexivity.
Qed.
(** to_angle_vec3 of a unit quaternion, not nearly the identity: an angle strictly between 0 and 360 degrees and a unit axis that describe it *)
Lemma lit_small : flit (FOps := dops) 7378697629483821 (-67) = Fin (7378697629483821 * bpow radix2 (-67)).
Proof. reflexivity. Qed.
Lemma small_bound : 7378697629483821 * bpow radix2 (-67) < 1 / 19999.
Proof. simpl. lra. Qed.
Theorem C45_to_angle_vec3 : forall q, exact_backend BK -> unit_q q -> 1 / 19999 <= sqrt (dot (qv q) (qv q)) ->
  exists deg axis, quaternion_to_angle_vec3 (qt q) = (Fin deg, rv (r3x axis) (r3y axis) (r3z axis) 0) /\
    0 < deg < 360 /\ dot axis axis = 1 /\ qaxis axis (deg * PI / 180) = q.
Proof.
  intros q EB U S. set (n := dot (qv q) (qv q)) in * . assert (N0 : 0 < n) by (destruct (Rlt_dec 0 n); auto; rewrite sqrt_neg_0 in S; lra).
  assert (SN : 0 < sqrt n) by lra. assert (S2 : sqrt n * sqrt n = n) by (apply sqrt_sqrt; lra).
  assert (W : qs q * qs q = 1 - n) by (unfold unit_q, qdot in U; fold n in U; lra).
  assert (Wb : -1 < qs q < 1) by (split; nra).
  assert (PP := PI_RGT_0).
  exists (acos (qs q) * 2 * (180 / PI)), (scl3 (/ sqrt n) (qv q)).
  assert (TH : 0 < acos (qs q) < PI) by (apply acos_bound_lt; exact Wb).
  assert (HA : acos (qs q) * 2 * (180 / PI) * PI / 180 / 2 = acos (qs q)) by (field; lra).
  split; [|split; [|split]].
  - unfold quaternion_to_angle_vec3.
    destruct (C41_normalize BK q EB) as (m & -> & _ & Em); [rewrite U; lra|intros _; rewrite U; unfold eps; lra|].
    assert (Mq : m = q). { rewrite Em, U, sqrt_1, Rinv_1. destruct q as [w [x y z]]. apply RQ_ext; unfold qscal, scl3; cbn; ring. } rewrite Mq. clear Em Mq m.
    cbn [qt qx qy qz qw]. rewrite Xone, Xmul, Xsub, W, Xsqrt by lra. replace (1 - (1 - n)) with n by ring. rewrite Xabs, Rabs_pos_eq by lra.
    cbv zeta. change (f2d (Fin (sqrt n))) with (Fin (sqrt n)). rewrite lit_small. rewrite (Xlt_f (sqrt n)) by (pose proof small_bound; lra).
    rewrite !Xdiv by lra. rewrite Xacos by lra. rewrite xtwo, Xmul, X_r2d. unfold vec3_init. rewrite Xzero, rv_init. f_equal. unfold scl3; cbn [r3x r3y r3z]. apply rv_eq; try reflexivity; unfold Rdiv; ring.
  - split.
    + apply Rmult_lt_0_compat; [lra|]. apply Rdiv_lt_0_compat; lra.
    + replace 360 with (PI * 2 * (180 / PI)) by (field; lra). apply Rmult_lt_compat_r; [apply Rdiv_lt_0_compat; lra|lra].
  - assert (DS : forall k v, dot (scl3 k v) (scl3 k v) = k * k * dot v v) by (intros; unfold dot, scl3; cbn [r3x r3y r3z]; ring). rewrite DS. fold n. now apply unit_scale.
  - unfold qaxis. rewrite HA, cos_acos by lra. rewrite sin_acos by lra. unfold Rsqr. rewrite W. replace (1 - (1 - n)) with n by ring.
    destruct q as [w [x y z]]. apply RQ_ext; unfold scl3; cbn [qs qv r3x r3y r3z]; try reflexivity; field; lra.
Qed.
(** hence it undoes init_from_angle_vec3 *)
Theorem C45_round_trip : forall deg axis w, exact_backend BK -> 0 < dot axis axis -> above_cutoff BK (dot axis axis) ->
  0 < deg < 360 -> 1 / 19999 <= sin (deg * PI / 180 / 2) ->
  quaternion_to_angle_vec3 (quaternion_init_from_angle_vec3 (Fin deg) (vv3 axis w)) =
    (Fin deg, rv (r3x (unit3 axis)) (r3y (unit3 axis)) (r3z (unit3 axis)) 0).
Proof.
  intros deg axis w EB P C D S. destruct (C45_from_angle_vec3 deg axis w EB P C) as (-> & U & _). assert (PP := PI_RGT_0).
  assert (U1 := unit3_unit axis P). set (k := unit3 axis) in * . clearbody k. set (h := deg * PI / 180 / 2) in * .
  assert (DQ : dot (qv (qaxis k (deg * PI / 180))) (qv (qaxis k (deg * PI / 180))) = sin h * sin h).
  { unfold qaxis; cbn [qv]. fold h. destruct k as [x y z]. unfold dot, scl3 in * ; cbn [r3x r3y r3z] in * . replace (sin h * sin h) with (sin h * sin h * (x * x + y * y + z * z)) by (rewrite U1; ring). ring. }
  destruct (C45_to_angle_vec3 _ EB U) as (deg' & ax & -> & D' & U2 & E).
  - rewrite DQ, sqrt_square; lra.
  - unfold qaxis in E. injection E as Ec Es Et Eu. fold h in Ec, Es, Et, Eu. set (h' := deg' * PI / 180 / 2) in * .
    assert (H0 : 0 < h < PI) by (unfold h; split; nra). assert (H0' : 0 < h' < PI) by (unfold h'; split; nra).
    assert (EH : h' = h). { rewrite <- (acos_cos h), <- (acos_cos h') by lra. now rewrite Ec. }
    assert (deg' = deg). { unfold h, h' in EH. apply (Rmult_eq_reg_r (PI / 180 / 2)); [|assert (0 < PI / 180 / 2) by lra; lra]. unfold Rdiv in * . lra. } subst deg'.
    rewrite EH in * . f_equal. apply rv_eq; try reflexivity; (apply (Rmult_eq_reg_l (sin h)); [assumption|lra]).
Qed.
Example C45_ex : let axis := V3 1 2 2 in 0 < dot axis axis /\ above_cutoff BK (dot axis axis) /\ 1 / 19999 <= sin (60 * PI / 180 / 2).
Proof.
  cbv zeta. unfold dot; cbn [r3x r3y r3z]. split; [lra|]. split; [unfold above_cutoff, eps; intros; lra|]. replace (60 * PI / 180 / 2) with (PI / 6) by field. rewrite sin_PI6. lra.
Qed.
End S.
