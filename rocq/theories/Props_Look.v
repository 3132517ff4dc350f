(** * Props_Look: graphene_matrix_init_look_at in binary32 (C95). *)
From Coq Require Import ZArith Reals Bool List Lra Lia Psatz.
From Flocq Require Import Core BinarySingleNaN.
From Verif Require Import Num Simd Vec Rect Box Mat Geo Quat OrdThy FloatThy B32Setup FloatLem ErrThy Props_Err Props_Err2 Props_Err3 ErrEx Props_Err4 Props_Err5 RGeo BoxThy Hist.
From Verif Require Props_Rot Props_RaySph Props_VecOps.
Import ListNotations.
Local Open Scope R_scope.

(** ** specification *)
(** the real vector held by a float vector *)
Definition val3 (v : V) : R3 := mk3 (real (vx v)) (real (vy v)) (real (vz v)).
Definition dirn (a : R3) : R3 := vscal (/ norm a) a.
(** the upper 3 entries of row r of a matrix *)
Definition row3 (m : mat b32) (r : nat) : R3 := mk3 (real (matrix_get_value m r 0)) (real (matrix_get_value m r 1)) (real (matrix_get_value m r 2)).

(** ** real vectors *)
Lemma dist_tri a b c : dist a c <= dist a b + dist b c.
Proof. unfold dist. replace (vminus a c) with (vplus (vminus a b) (vminus b c)) by (apply R3_ext; unfold vminus, vplus, vscal, cross; cbn [X3 Y3 Z3]; ring). apply triangle_ineq. Qed.
Lemma norm_gap a b : Rabs (norm a - norm b) <= dist a b.
Proof.
  assert (K : forall p q, norm p <= norm q + dist p q). { intros p q. unfold dist. replace p with (vplus q (vminus p q)) at 1 by (apply R3_ext; unfold vminus, vplus, vscal, cross; cbn [X3 Y3 Z3]; ring). apply triangle_ineq. }
  pose proof (K a b). pose proof (K b a). rewrite (dist_sym b a) in * . apply Rabs_le. lra.
Qed.
Lemma norm_dirn a : 0 < norm a -> norm (dirn a) = 1.
Proof. intros H. unfold dirn. rewrite norm_scal, Rabs_pos_eq; [field; lra|left; now apply Rinv_0_lt_compat]. Qed.
(** a small relative error turns the direction by at most twice as much *)
Lemma dirn_close a b e : 0 < norm a -> 0 < norm b -> dist b a <= e * norm a -> dist (dirn b) (dirn a) <= 2 * e.
Proof.
  intros A B H. unfold dirn.
  apply Rle_trans with (dist (vscal (/ norm b) b) (vscal (/ norm a) b) + dist (vscal (/ norm a) b) (vscal (/ norm a) a)); [apply dist_tri|].
  assert (I : 0 < / norm a) by now apply Rinv_0_lt_compat.
  assert (E1 : dist (vscal (/ norm a) b) (vscal (/ norm a) a) = / norm a * dist b a).
  { unfold dist. replace (vminus (vscal (/ norm a) b) (vscal (/ norm a) a)) with (vscal (/ norm a) (vminus b a)) by (apply R3_ext; unfold vminus, vplus, vscal, cross; cbn [X3 Y3 Z3]; ring). rewrite norm_scal, Rabs_pos_eq; lra. }
  assert (E2 : dist (vscal (/ norm b) b) (vscal (/ norm a) b) = / norm a * Rabs (norm a - norm b)).
  { unfold dist. replace (vminus (vscal (/ norm b) b) (vscal (/ norm a) b)) with (vscal (/ norm b - / norm a) b) by (apply R3_ext; unfold vminus, vplus, vscal, cross; cbn [X3 Y3 Z3]; ring). rewrite norm_scal.
    replace (/ norm b - / norm a) with ((norm a - norm b) * (/ norm a * / norm b)) by (field; lra). rewrite Rabs_mult, (Rabs_pos_eq (/ norm a * / norm b)); [field; lra|]. apply Rmult_le_pos; left; apply Rinv_0_lt_compat; lra. }
  rewrite E1, E2. pose proof (norm_gap b a) as G. rewrite Rabs_minus_sym in G.
  assert (/ norm a * dist b a <= e). { apply Rmult_le_reg_l with (norm a); auto. rewrite <- Rmult_assoc, Rinv_r by lra. lra. }
  assert (/ norm a * Rabs (norm a - norm b) <= / norm a * dist b a) by (apply Rmult_le_compat_l; lra). lra.
Qed.
Lemma cross_le a b : norm (cross a b) <= norm a * norm b.
Proof.
  pose proof (norm_nonneg a). pose proof (norm_nonneg b). apply norm_le; [now apply Rmult_le_pos|].
  replace (norm a * norm b * (norm a * norm b)) with (norm a * norm a * (norm b * norm b)) by ring. rewrite !norm_sq.
  assert (E : dot a a * dot b b - dot a b * dot a b = dot (cross a b) (cross a b)) by (unfold dot, cross; cbn [X3 Y3 Z3]; ring). pose proof (Rle_0_sqr (dot a b)) as Q. unfold Rsqr in Q. lra.
Qed.
Lemma cross_close a b p q : dist (cross a b) (cross p q) <= dist a p * norm b + norm p * dist b q.
Proof.
  unfold dist at 1. replace (vminus (cross a b) (cross p q)) with (vplus (cross (vminus a p) b) (cross p (vminus b q))) by (apply R3_ext; unfold vminus, vplus, vscal, cross; cbn [X3 Y3 Z3]; ring).
  eapply Rle_trans; [apply triangle_ineq|]. unfold dist. apply Rplus_le_compat; apply cross_le.
Qed.
(** component-wise bounds *)
Lemma dist_comp a b e : Rabs (X3 a - X3 b) <= e -> Rabs (Y3 a - Y3 b) <= e -> Rabs (Z3 a - Z3 b) <= e -> dist a b <= 1.7321 * e.
Proof.
  intros H1 H2 H3. pose proof (Rabs_pos (X3 a - X3 b)). unfold dist. apply norm_le; [lra|]. unfold dot, vminus; cbn [X3 Y3 Z3].
  assert (K : forall t, Rabs t <= e -> t * t <= e * e). { intros t T. rewrite <- (Rabs_pos_eq (t * t)) by nra. rewrite Rabs_mult. apply Rmult_le_compat; auto using Rabs_pos. }
  pose proof (K _ H1). pose proof (K _ H2). pose proof (K _ H3). assert (0 <= e * e) by nra. lra.
Qed.
Lemma comp_pair a b (j k : R3 -> R) : (j = X3 /\ k = Y3 \/ j = Y3 /\ k = Z3 \/ j = Z3 /\ k = X3) -> Rabs (j a * k b) + Rabs (k a * j b) <= norm a * norm b.
Proof.
  intros H. pose proof (norm_nonneg a) as NA. pose proof (norm_nonneg b) as NB. rewrite !Rabs_mult.
  apply Rsqr_incr_0_var; [|now apply Rmult_le_pos]. unfold Rsqr. replace (norm a * norm b * (norm a * norm b)) with (norm a * norm a * (norm b * norm b)) by ring. rewrite !norm_sq.
  assert (S : forall t, Rabs t * Rabs t = t * t) by (intros t; rewrite <- Rabs_mult, Rabs_pos_eq by nra; ring).
  assert (G : forall p q s t P Q, 0 <= P -> 0 <= Q -> (Rabs p * Rabs q + Rabs s * Rabs t) * (Rabs p * Rabs q + Rabs s * Rabs t) <= (p * p + s * s + P) * (q * q + t * t + Q)).
  { intros p q s t P Q HP HQ. rewrite <- (S p), <- (S q), <- (S s), <- (S t). pose proof (Rle_0_sqr (Rabs p * Rabs t - Rabs s * Rabs q)) as Z. unfold Rsqr in Z.
    assert (0 <= (Rabs p * Rabs p + Rabs s * Rabs s) * Q) by (apply Rmult_le_pos; [nra|auto]). assert (0 <= P * (Rabs q * Rabs q + Rabs t * Rabs t + Q)) by (apply Rmult_le_pos; [auto|nra]). lra. }
  unfold dot. destruct H as [[-> ->]|[[-> ->]|[-> ->]]].
  - pose proof (G (X3 a) (Y3 b) (Y3 a) (X3 b) (Z3 a * Z3 a) (Z3 b * Z3 b) (Rle_0_sqr _) (Rle_0_sqr _)). lra.
  - pose proof (G (Y3 a) (Z3 b) (Z3 a) (Y3 b) (X3 a * X3 a) (X3 b * X3 b) (Rle_0_sqr _) (Rle_0_sqr _)). lra.
  - pose proof (G (Z3 a) (X3 b) (X3 a) (Z3 b) (Y3 a * Y3 a) (Y3 b * Y3 b) (Rle_0_sqr _) (Rle_0_sqr _)). lra.
Qed.

(** ** the float steps *)
Lemma val3_dot v : dot (val3 v) (val3 v) = dot3 v v. Proof. reflexivity. Qed.
Lemma cross_float (BK : Backend b32) (a b : V) : finite3 a -> finite3 b -> norm (val3 a) * norm (val3 b) <= bpow radix2 126 -> let c := g_cross3 a b in
  finite3 c /\ dist (val3 c) (cross (val3 a) (val3 b)) <= 1.7321 * tol (norm (val3 a) * norm (val3 b)).
Proof.
  intros FA FB H c. pose proof (C70_cross BK a b FA FB) as K. cbv zeta in K. change (vec3_cross a b) with c in K. destruct K as (K1 & K2 & K3).
  pose proof (comp_pair (val3 a) (val3 b) Y3 Z3 ltac:(auto)) as P1. pose proof (comp_pair (val3 a) (val3 b) Z3 X3 ltac:(auto)) as P2. pose proof (comp_pair (val3 a) (val3 b) X3 Y3 ltac:(auto)) as P3.
  cbn [val3 X3 Y3 Z3] in P1, P2, P3. change (vec3_get_x c) with (vx c) in K1. change (vec3_get_y c) with (vy c) in K2. change (vec3_get_z c) with (vz c) in K3.
  pose proof (bpow_gt_0 radix2 (-22)).
  destruct (K1 ltac:(lra)) as [F1 E1]. destruct (K2 ltac:(lra)) as [F2 E2]. destruct (K3 ltac:(lra)) as [F3 E3]. split; [split; [exact F1|split; [exact F2|exact F3]]|].
  assert (M : forall s, s <= norm (val3 a) * norm (val3 b) -> tol s <= tol (norm (val3 a) * norm (val3 b))) by (intros s L; unfold tol; apply Rplus_le_compat_r, Rmult_le_compat_l; lra).
  apply dist_comp; unfold cross; cbn [val3 X3 Y3 Z3]; (eapply Rle_trans; [eassumption|]); apply M; assumption.
Qed.
Lemma sub_float (a b : V) : finite3 a -> finite3 b -> dist (val3 a) (val3 b) <= bpow radix2 60 -> let c := g_sub a b in
  finite3 c /\ dist (val3 c) (vminus (val3 a) (val3 b)) <= u * dist (val3 a) (val3 b).
Proof.
  intros (A1 & A2 & A3) (B1 & B2 & B3) H c. set (D := vminus (val3 a) (val3 b)). change (dist (val3 a) (val3 b)) with (norm D) in * .
  assert (K : forall j, (j = X3 \/ j = Y3 \/ j = Z3) -> Rabs (j D) <= norm D).
  { intros j J. apply Rsqr_incr_0_var; [|apply norm_nonneg]. unfold Rsqr. rewrite norm_sq, <- Rabs_mult, Rabs_pos_eq by nra. unfold dot. destruct J as [-> |[-> | ->]]; nra. }
  assert (P : bpow radix2 60 <= bpow radix2 127) by (apply bpow_le; lia).
  destruct (Props_RaySph.sub_w (vx a) (vx b) _ A1 B1 (K X3 ltac:(auto)) ltac:(lra)) as [F1 E1].
  destruct (Props_RaySph.sub_w (vy a) (vy b) _ A2 B2 (K Y3 ltac:(auto)) ltac:(lra)) as [F2 E2].
  destruct (Props_RaySph.sub_w (vz a) (vz b) _ A3 B3 (K Z3 ltac:(auto)) ltac:(lra)) as [F3 E3].
  split; [split; [exact F1|split; [exact F2|exact F3]]|].
  apply norm_le. { apply Rmult_le_pos; [lra|apply norm_nonneg]. }
  replace (u * norm D * (u * norm D)) with (u * u * (norm D * norm D)) by ring. rewrite norm_sq. unfold dot, vminus at 1 2 3 4 5 6; cbn [X3 Y3 Z3].
  assert (S : forall t s, Rabs t <= u * Rabs s -> t * t <= u * u * (s * s)).
  { intros t s T. rewrite <- (Rabs_pos_eq (t * t)), <- (Rabs_pos_eq (s * s)) by nra. rewrite !Rabs_mult. replace (u * u * (Rabs s * Rabs s)) with (u * Rabs s * (u * Rabs s)) by ring. apply Rmult_le_compat; auto using Rabs_pos. }
  pose proof (S _ _ E1). pose proof (S _ _ E2). pose proof (S _ _ E3). unfold D, val3, vminus, c, g_sub, map2; cbn [X3 Y3 Z3 vx vy vz]. lra.
Qed.
Lemma normalize_float (BK : Backend b32) (v : V) : estimates_ok BK -> finite3 v -> normal_range BK (dot3 v v) -> let n := g_normalize3 v in
  finite3 n /\ dist (val3 n) (dirn (val3 v)) <= 1.75 * bpow radix2 (-20).
Proof.
  intros HB F N n. destruct (Props_Rot.normalize3_close BK v HB F N) as (((F1 & E1) & (F2 & E2) & (F3 & E3)) & _). fold n in F1, F2, F3, E1, E2, E3.
  split; [split; [exact F1|split; [exact F2|exact F3]]|]. pose proof (bpow_gt_0 radix2 (-20)).
  assert (U : forall j, Props_Rot.unit_axis v j = match j with 0%nat => X3 | 1%nat => Y3 | _ => Z3 end (dirn (val3 v))).
  { intros j. unfold Props_Rot.unit_axis, dirn, norm, vscal. rewrite val3_dot. destruct j as [|[|j]]; cbn [X3 Y3 Z3 val3]; unfold Rdiv; rewrite Rmult_comm; reflexivity. }
  rewrite U in E1, E2, E3. cbn [Nat.eqb] in * . eapply Rle_trans; [apply (dist_comp (val3 n) (dirn (val3 v)) _ E1 E2 E3)|lra].
Qed.

(** ** C95: the matrix holds the viewing frame *)
(** how the eye looks: the true direction of view, and the true side vector (orthogonal to it and to [up]) *)
Definition view (eye center : V) : R3 := dirn (vminus (val3 center) (val3 eye)).
Definition side (eye center up : V) : R3 := cross (view eye center) (val3 up).
(** sine of the angle between the direction of view and [up] *)
Definition slant (eye center up : V) : R := norm (side eye center up) / norm (val3 up).
(** eye and center neither too near nor too far, [up] not nearly parallel to the direction of view *)
Definition clear_view (eye center up : V) : Prop :=
  finite3 eye /\ finite3 center /\ finite3 up /\ bpow radix2 (-20) <= dot (vminus (val3 center) (val3 eye)) (vminus (val3 center) (val3 eye)) <= bpow radix2 100 /\
  norm (val3 up) <= bpow radix2 40 /\ bpow radix2 (-20) <= dot (side eye center up) (side eye center up) /\ bpow radix2 (-12) <= slant eye center up.

(** a zero times whatever gives a finite product is a zero *)
Lemma is0_mul_fin (x y : b32) : is0 x -> fin (fmul x y) -> is0 (fmul x y).
Proof.
  intros X F. destruct y as [sy|sy| |sy my ey By].
  - apply is0_mul_l; [assumption|reflexivity].
  - exfalso. destruct x; discriminate F.
  - exfalso. destruct x; discriminate F.
  - apply is0_mul_l; [assumption|reflexivity].
Qed.
Lemma is0_normalize (BK : Backend b32) (v : V) : estimates_ok BK -> finite3 v -> normal_range BK (dot3 v v) -> is0 (vw v) -> is0 (vw (g_normalize3 v)).
Proof.
  intros HB F N Z. pose proof (C70_dot3 BK v v F F) as D. rewrite adot3_self in D. pose proof N as [[A B] C].
  assert (RL : rel (4.01 * u) (vec3_dot v v) (dot3 v v)) by (apply tol_rel; [apply D; bp 118%Z 126%Z; lra|bp (-100)%Z (-44)%Z; lra]).
  assert (FZ : fin (vw v) /\ real (vw v) = 0) by (apply is0_X in Z; now apply fin_of_X in Z). destruct FZ as [FZ RZ].
  destruct (norm_core BK _ (vw v) _ HB RL N FZ) as ([FW _] & _). { rewrite RZ. unfold dot3, dot2. nra. }
  change (vw (g_normalize3 v)) with (fmul (vw v) (lane_rsqrt (vec3_dot v v))). now apply is0_mul_fin.
Qed.
Lemma is0_cross (BK : Backend b32) (a b : V) : is0 (vw a) -> is0 (vw b) -> is0 (vw (g_cross3 a b)).
Proof. intros A B. unfold g_cross3. destruct backend; simpl; try apply is0_fzero. auto using is0_sub, is0_mul. Qed.

Lemma look_core (BK : Backend b32) (eye center up : V) : estimates_ok BK -> clear_view eye center up ->
  let m := matrix_init_look_at eye center up in let d := view eye center in let x := dirn (side eye center up) in let s := slant eye center up in
  exists xx yy z, m = M4 xx yy (g_neg z) (g_init (fneg (vx eye)) (fneg (vy eye)) (fneg (vz eye)) fone) /\ (finite3 xx /\ finite3 yy /\ finite3 z) /\
  (dist (val3 xx) x <= bpow radix2 (-17) / s /\ dist (val3 yy) (cross x d) <= bpow radix2 (-16) / s /\ dist (val3 z) d <= bpow radix2 (-19)) /\
  (norm d = 1 /\ norm x = 1 /\ 0 < s <= 1) /\
  (is0 (vw eye) -> is0 (vw center) -> is0 (vw up) -> is0 (vw xx) /\ is0 (vw yy) /\ is0 (vw z)).
Proof.
  intros HB (FE & FC & FU & [DL DH] & UB & CL & SL) m d x s.
  set (D := vminus (val3 center) (val3 eye)) in * .
  assert (N0 : bpow radix2 (-10) <= norm D). { apply Rsqr_incr_0_var; [|apply norm_nonneg]. unfold Rsqr. rewrite norm_sq, <- bpow_plus. exact DL. }
  assert (N1 : norm D <= bpow radix2 50). { apply norm_le; [apply bpow_ge_0|]. rewrite <- bpow_plus. exact DH. }
  assert (NP : 0 < norm D) by (pose proof (bpow_gt_0 radix2 (-10)); lra).
  assert (ND : norm d = 1) by (apply norm_dirn; exact NP).
  (* direction *)
  destruct (sub_float center eye FC FE) as [FD ED]. { change (norm D <= bpow radix2 60). eapply Rle_trans; [exact N1|apply bpow_le; lia]. }
  change (dist (val3 center) (val3 eye)) with (norm D) in ED. fold D in ED. set (fd := g_sub center eye) in * .
  assert (NG : Rabs (norm (val3 fd) - norm D) <= u * norm D) by (eapply Rle_trans; [apply norm_gap|exact ED]). apply Rabs_le_inv in NG.
  assert (ND2 : bpow radix2 (-21) <= dot3 fd fd <= bpow radix2 101).
  { rewrite <- val3_dot, <- norm_sq. assert (bpow radix2 (-20) = 2 * bpow radix2 (-21)) by (change (-20)%Z with (1 + -21)%Z; now rewrite bpow_plus). assert (bpow radix2 101 = 2 * bpow radix2 100) by (change 101%Z with (1 + 100)%Z; now rewrite bpow_plus).
    rewrite <- norm_sq in DL, DH. pose proof (bpow_gt_0 radix2 (-21)). split.
    - apply Rle_trans with (0.999 * norm D * (0.999 * norm D)); [lra|apply Rmult_le_compat; lra].
    - apply Rle_trans with (1.001 * norm D * (1.001 * norm D)); [apply Rmult_le_compat; lra|lra]. }
  assert (RANGE : forall S, bpow radix2 (-22) <= S <= bpow radix2 101 -> normal_range BK S).
  { intros S [A B]. split; [split; [eapply Rle_trans; [|exact A]; apply bpow_le; lia|eapply Rle_trans; [exact B|apply bpow_le; lia]]|]. unfold scalar_cutoff. destruct BK; auto. }
  assert (P22 : bpow radix2 (-22) <= bpow radix2 (-21)) by (apply bpow_le; lia).
  assert (CUT : forall v, finite3 v -> bpow radix2 (-22) <= dot3 v v <= bpow radix2 101 -> flt (g_get_x (g_dot3 v v)) feps = false).
  { intros v FV [A B]. destruct (C70_dot3 BK v v FV FV) as [F1 E1]. { rewrite adot3_self. eapply Rle_trans; [exact B|apply bpow_le; lia]. } rewrite adot3_self in E1. unfold tol in E1.
    change (g_get_x (g_dot3 v v)) with (vec3_dot v v). destruct (lit_real 1 (-23)) as [FEP REP]; try lia. apply Props_RaySph.flt_Rf; auto. unfold feps. rewrite REP. change (bpow radix2 (-23)) with (/ 8388608). change (bpow radix2 (-22)) with (/ 4194304) in * .
    assert (bpow radix2 (-147) <= / 1000 * / 8388608) by (apply Rle_trans with (bpow radix2 (-40)); [apply bpow_le; lia|simpl; lra]). apply Rabs_le_inv in E1. lra. }
  destruct (normalize_float BK fd HB FD) as [FZ EZ]. { apply RANGE. lra. } set (z := g_normalize3 fd) in * .
  assert (DZ : dist (val3 z) d <= 1.876 * bpow radix2 (-20)).
  { eapply Rle_trans; [apply (dist_tri _ (dirn (val3 fd)))|]. assert (dist (dirn (val3 fd)) d <= 2 * u) by (apply dirn_close; auto; lra).
    change (bpow radix2 (-20)) with (/ 1048576) in * . lra. }
  change (bpow radix2 (-20)) with (/ 1048576) in * .
  assert (NZ : norm (val3 z) <= 1.00001). { pose proof (norm_gap (val3 z) d) as G. rewrite ND in G. apply Rabs_le_inv in G. lra. }
  (* side *)
  set (c := side eye center up) in * . set (U := norm (val3 up)) in * . set (C := norm c) in * .
  assert (C0 : bpow radix2 (-10) <= C). { apply Rsqr_incr_0_var; [|apply norm_nonneg]. unfold Rsqr. unfold C. rewrite norm_sq, <- bpow_plus. exact CL. }
  change (bpow radix2 (-10)) with (/ 1024) in C0.
  assert (CU : C <= U). { unfold C, c, side. eapply Rle_trans; [apply cross_le|]. fold (view eye center) d. rewrite ND. fold U. lra. }
  assert (SS : s = C / U) by reflexivity. assert (U0 : 0 < U) by lra. assert (SU : s * U = C) by (rewrite SS; field; lra).
  fold s in SL. change (bpow radix2 (-12)) with (/ 4096) in SL. assert (S1 : s <= 1) by nra. assert (S0 : 0 < s) by lra.
  assert (IS : 1 <= / s) by (rewrite <- Rinv_1 at 1; apply Rinv_le_contravar; lra).
  assert (IS2 : / s <= 4096). { replace 4096 with (/ / 4096) by lra. apply Rinv_le_contravar; lra. }
  assert (US : U = / s * C) by (rewrite <- SU; field; lra).
  pose proof (norm_nonneg (val3 z)) as NZ0.
  destruct (cross_float BK z up FZ FU) as [FX EX]. { fold U. apply Rle_trans with (1.00001 * bpow radix2 40); [apply Rmult_le_compat; lra|]. apply Rle_trans with (bpow radix2 1 * bpow radix2 40); [simpl (bpow radix2 1); pose proof (bpow_gt_0 radix2 40); lra|rewrite <- bpow_plus; apply bpow_le; lia]. }
  set (cf := g_cross3 z up) in * .
  assert (T147 : bpow radix2 (-147) <= / 1000 * / 4194304 * / 1024) by (apply Rle_trans with (bpow radix2 (-80)); [apply bpow_le; lia|simpl; lra]).
  assert (DC : dist (val3 cf) c <= 2.32 * / 1048576 * U).
  { eapply Rle_trans; [apply (dist_tri _ (cross (val3 z) (val3 up)))|]. assert (Q : dist (cross (val3 z) (val3 up)) c <= dist (val3 z) d * norm (val3 up) + norm d * dist (val3 up) (val3 up)) by apply cross_close.
    assert (Z : dist (val3 up) (val3 up) = 0) by (apply norm_unique; [lra|unfold dot, vminus; cbn [X3 Y3 Z3]; ring]). rewrite Z in Q. fold U in Q. unfold tol in EX. fold U in EX. change (bpow radix2 (-22)) with (/ 4194304) in EX.
    assert (norm (val3 z) * U <= 1.00001 * U) by (apply Rmult_le_compat_r; lra). assert (dist (val3 z) d * U <= 1.876 * / 1048576 * U) by (apply Rmult_le_compat_r; lra). lra. }
  assert (EC : 2.32 * / 1048576 * U = 2.32 * / 1048576 * / s * C) by (rewrite US at 1; ring). rewrite EC in DC. set (e := 2.32 * / 1048576 * / s) in * .
  assert (E0 : 0 < e <= / 100) by (unfold e; lra).
  assert (NC : Rabs (norm (val3 cf) - C) <= e * C) by (eapply Rle_trans; [apply norm_gap|exact DC]). apply Rabs_le_inv in NC.
  assert (CF0 : 0.99 * C <= norm (val3 cf) <= 1.01 * C) by (assert (e * C <= / 100 * C) by (apply Rmult_le_compat_r; lra); lra).
  assert (NC2 : bpow radix2 (-22) <= dot3 cf cf <= bpow radix2 101).
  { rewrite <- val3_dot, <- norm_sq. change (bpow radix2 (-22)) with (/ 4194304). split.
    - apply Rle_trans with (0.99 * C * (0.99 * C)); [|apply Rmult_le_compat; lra]. apply Rle_trans with (0.99 * / 1024 * (0.99 * / 1024)); [lra|apply Rmult_le_compat; lra].
    - apply Rle_trans with (1.01 * bpow radix2 40 * (1.01 * bpow radix2 40)); [apply Rmult_le_compat; lra|]. apply Rle_trans with (bpow radix2 1 * bpow radix2 40 * (bpow radix2 1 * bpow radix2 40)); [simpl (bpow radix2 1); pose proof (bpow_gt_0 radix2 40); apply Rmult_le_compat; lra|]. rewrite <- !bpow_plus. apply bpow_le. lia. }
  destruct (normalize_float BK cf HB FX) as [FXX EXX]; [now apply RANGE|]. set (xx := g_normalize3 cf) in * . change (bpow radix2 (-20)) with (/ 1048576) in EXX.
  assert (DX : dist (val3 xx) x <= 6.4 * / 1048576 * / s).
  { eapply Rle_trans; [apply (dist_tri _ (dirn (val3 cf)))|]. assert (dist (dirn (val3 cf)) x <= 2 * e) by (apply dirn_close; fold C; lra). unfold e in * . lra. }
  assert (NX : norm x = 1) by (apply norm_dirn; fold C; lra).
  (* upwards *)
  assert (NXX : norm (val3 xx) <= 1.03). { pose proof (norm_gap (val3 xx) x) as G. rewrite NX in G. apply Rabs_le_inv in G. lra. }
  pose proof (norm_nonneg (val3 xx)) as NXX0.
  assert (PZ : norm (val3 xx) * norm (val3 z) <= 1.04) by (apply Rle_trans with (1.03 * 1.00001); [apply Rmult_le_compat; lra|lra]).
  destruct (cross_float BK xx z FXX FZ) as [FY EY]. { apply Rle_trans with (bpow radix2 1); [simpl; lra|apply bpow_le; lia]. }
  set (yy := g_cross3 xx z) in * .
  assert (DY : dist (val3 yy) (cross x d) <= bpow radix2 (-16) / s).
  { eapply Rle_trans; [apply (dist_tri _ (cross (val3 xx) (val3 z)))|]. pose proof (cross_close (val3 xx) (val3 z) x d) as Q. rewrite NX in Q. unfold tol in EY. change (bpow radix2 (-22)) with (/ 4194304) in EY. change (bpow radix2 (-16)) with (/ 65536). unfold Rdiv.
    assert (dist (val3 xx) x * norm (val3 z) <= 6.4 * / 1048576 * / s * 1.00001) by (apply Rmult_le_compat; [apply norm_nonneg|lra|lra|lra]). lra. }
  (* the branches taken *)
  assert (M : m = M4 xx yy (g_neg z) (g_init (fneg (vx eye)) (fneg (vy eye)) (fneg (vz eye)) fone)).
  { unfold m, matrix_init_look_at, gm_init_look_at. fold fd. rewrite (CUT fd FD ltac:(lra)). fold z. fold cf. rewrite (CUT cf FX NC2). reflexivity. }
  exists xx, yy, z. split; [exact M|]. split; [auto|]. split; [split; [|split]|].
  - change (bpow radix2 (-17)) with (/ 131072). unfold Rdiv. lra.
  - exact DY.
  - change (bpow radix2 (-19)) with (/ 524288). lra.
  - split; [auto|]. intros Z1 Z2 Z3. assert (is0 (vw z)) by (apply is0_normalize; auto; [apply RANGE; lra|apply is0_sub; auto]).
    assert (is0 (vw xx)) by (apply is0_normalize; auto; apply is0_cross; auto). split; auto. split; auto. apply is0_cross; auto.
Qed.
Lemma neg_lane (BK : Backend b32) (x : b32) : fin x -> fin (lane_neg x) /\ real (lane_neg x) = - real x.
Proof. intros F. pose proof (Props_VecOps.neg_lane_X BK x) as H. change (B2X (lane_neg x) = xneg (B2X x)) in H. rewrite (fin_X x F) in H. now apply fin_of_X in H. Qed.
Lemma val3_neg (BK : Backend b32) (z : V) : finite3 z -> finite3 (g_neg z) /\ val3 (g_neg z) = vscal (-1) (val3 z).
Proof.
  intros (F1 & F2 & F3). destruct (neg_lane BK _ F1) as [G1 E1]. destruct (neg_lane BK _ F2) as [G2 E2]. destruct (neg_lane BK _ F3) as [G3 E3].
  split; [split; [exact G1|split; [exact G2|exact G3]]|]. apply R3_ext; cbn [val3 X3 Y3 Z3 vscal g_neg map1 vx vy vz]; lra.
Qed.

(** the rows are the side vector, the true up vector and the reversed direction of view, up to rounding over the slant *)
Theorem C95_look_at : forall (BK : Backend b32) (eye center up : V), estimates_ok BK -> clear_view eye center up ->
  let m := matrix_init_look_at eye center up in let d := view eye center in let x := dirn (side eye center up) in let s := slant eye center up in
  (forall r c, (r < 3)%nat -> (c < 3)%nat -> fin (matrix_get_value m r c)) /\
  dist (row3 m 0) x <= bpow radix2 (-17) / s /\ dist (row3 m 1) (cross x d) <= bpow radix2 (-16) / s /\ dist (row3 m 2) (vscal (-1) d) <= bpow radix2 (-19).
Proof.
  intros BK eye center up HB CV m d x s. destruct (look_core BK eye center up HB CV) as (xx & yy & z & M & (FX & FY & FZ) & (DX & DY & DZ) & _). fold m d x s in M, DX, DY, DZ.
  destruct (val3_neg BK z FZ) as [FN EN]. rewrite M. split.
  - destruct FX as (X1 & X2 & X3'). destruct FY as (Y1 & Y2 & Y3'). destruct FN as (Z1 & Z2 & Z3'). intros r c R3 C3. destruct r as [|[|[|r]]]; try lia; (destruct c as [|[|[|c]]]; [| | |lia]); assumption.
  - split; [exact DX|]. split; [exact DY|]. change (row3 _ 2) with (val3 (g_neg z)). rewrite EN. unfold dist.
    replace (vminus (vscal (-1) (val3 z)) (vscal (-1) d)) with (vscal (-1) (vminus (val3 z) d)) by (apply R3_ext; unfold vminus, vscal; cbn [X3 Y3 Z3]; ring). rewrite norm_scal.
    replace (Rabs (-1)) with 1 by (rewrite Rabs_left; lra). rewrite Rmult_1_l. exact DZ.
Qed.
(** the exact frame is orthonormal: the three vectors above are orthogonal unit vectors *)
Lemma frame_orthonormal (d c : R3) : norm d = 1 -> 0 < norm c -> dot d c = 0 -> let x := dirn c in let y := cross x d in let z := vscal (-1) d in
  dot x x = 1 /\ dot y y = 1 /\ dot z z = 1 /\ dot x y = 0 /\ dot y z = 0 /\ dot x z = 0.
Proof.
  intros ND NC O x y z. assert (DD : dot d d = 1) by (rewrite <- norm_sq, ND; ring).
  assert (XX : dot x x = 1) by (rewrite <- norm_sq; unfold x; rewrite (norm_dirn c NC); ring).
  assert (XD : dot x d = 0) by (unfold x, dirn; rewrite dot_scal_l, (dot_sym c d), O; ring).
  assert (LG : dot (cross x d) (cross x d) = dot x x * dot d d - dot x d * dot x d) by (unfold dot, cross; cbn [X3 Y3 Z3]; ring).
  split; auto. split; [unfold y; rewrite LG, XX, DD, XD; ring|]. split; [unfold z; rewrite dot_scal_l, dot_scal_r, DD; ring|].
  split; [unfold y, dot, cross; cbn [X3 Y3 Z3]; ring|]. split; [unfold y, z, dot, cross, vscal; cbn [X3 Y3 Z3]; ring|]. unfold z. rewrite dot_scal_r, XD. ring.
Qed.
Lemma dot_close a b p q e f : norm p = 1 -> norm q = 1 -> dist a p <= e -> dist b q <= f -> f <= / 2 -> Rabs (dot a b - dot p q) <= 1.5 * e + f.
Proof.
  intros P Q A B F. replace (dot a b - dot p q) with (dot (vminus a p) b + dot p (vminus b q)) by (unfold dot, vminus; cbn [X3 Y3 Z3]; ring).
  eapply Rle_trans; [apply Rabs_triang|]. pose proof (cauchy_abs (vminus a p) b) as C1. pose proof (cauchy_abs p (vminus b q)) as C2. rewrite P in C2. change (norm (vminus a p)) with (dist a p) in C1. change (norm (vminus b q)) with (dist b q) in C2.
  pose proof (norm_gap b q) as G. rewrite Q in G. apply Rabs_le_inv in G. pose proof (norm_nonneg b). pose proof (norm_nonneg (vminus a p)) as PA. change (norm (vminus a p)) with (dist a p) in PA.
  assert (dist a p * norm b <= e * 1.5) by (apply Rmult_le_compat; lra). lra.
Qed.
(** the rows are orthogonal unit vectors up to rounding over the slant *)
Theorem C95_look_at_rigid : forall (BK : Backend b32) (eye center up : V) (i j : nat), estimates_ok BK -> clear_view eye center up -> (i < 3)%nat -> (j < 3)%nat ->
  let m := matrix_init_look_at eye center up in
  Rabs (dot (row3 m i) (row3 m j) - if Nat.eqb i j then 1 else 0) <= bpow radix2 (-14) / slant eye center up.
Proof.
  intros BK eye center up i j HB CV Hi Hj m. destruct (C95_look_at BK eye center up HB CV) as (_ & DX & DY & DZ). destruct (look_core BK eye center up HB CV) as (_ & _ & _ & _ & _ & _ & (ND & NX & S0) & _).
  fold m in DX, DY, DZ. pose proof CV as (_ & _ & _ & _ & _ & CL & SL). set (d := view eye center) in * . set (c := side eye center up) in * . set (s := slant eye center up) in * . set (x := dirn c) in * .
  assert (NC : 0 < norm c). { pose proof (norm_nonneg c) as P. destruct P as [P|P]; auto. exfalso. rewrite <- norm_sq, <- P in CL. pose proof (bpow_gt_0 radix2 (-20)). lra. }
  assert (O : dot d c = 0) by (unfold c, side; fold d; unfold dot, cross; cbn [X3 Y3 Z3]; ring).
  destruct (frame_orthonormal d c ND NC O) as (XX & YY & ZZ & XY & YZ & XZ). fold x in XX, YY, XY, YZ, XZ.
  set (y := cross x d) in * . set (z := vscal (-1) d) in * .
  assert (U : forall v, dot v v = 1 -> norm v = 1) by (intros v V; apply norm_unique; lra).
  change (bpow radix2 (-17)) with (/ 131072) in DX. change (bpow radix2 (-16)) with (/ 65536) in DY. change (bpow radix2 (-19)) with (/ 524288) in DZ. change (bpow radix2 (-14)) with (/ 16384). change (bpow radix2 (-12)) with (/ 4096) in SL. unfold Rdiv in * .
  assert (IS : 1 <= / s) by (rewrite <- Rinv_1 at 1; apply Rinv_le_contravar; lra). assert (IS2 : / s <= 4096) by (replace 4096 with (/ / 4096) by lra; apply Rinv_le_contravar; lra).
  assert (K : forall a b p q, dot p p = 1 -> dot q q = 1 -> dist a p <= / 65536 * / s -> dist b q <= / 65536 * / s -> Rabs (dot a b - dot p q) <= / 16384 * / s).
  { intros a b p q P Q A B. eapply Rle_trans; [apply (dot_close a b p q _ _ (U p P) (U q Q) A B)|]; lra. }
  assert (DX' : dist (row3 m 0) x <= / 65536 * / s) by lra. assert (DZ' : dist (row3 m 2) z <= / 65536 * / s) by lra.
  assert (G : forall a b p q t, dot p p = 1 -> dot q q = 1 -> dist a p <= / 65536 * / s -> dist b q <= / 65536 * / s -> dot p q = t -> Rabs (dot a b - t) <= / 16384 * / s) by (intros; subst t; now apply K).
  assert (YX : dot y x = 0) by (rewrite dot_sym; exact XY). assert (ZY : dot z y = 0) by (rewrite dot_sym; exact YZ). assert (ZX : dot z x = 0) by (rewrite dot_sym; exact XZ).
  destruct i as [|[|[|i]]]; try lia; (destruct j as [|[|[|j]]]; [| | |lia]); cbn [Nat.eqb]; (eapply G; [ | |eassumption|eassumption|eassumption]); assumption.
Qed.
(** the last row is the negated eye position and one; when the vectors have clean fourth lanes, as every vec3 built through the API, the last column is zero above it *)
Theorem C95_look_at_position : forall (BK : Backend b32) (eye center up : V) (c : nat), (c < 3)%nat -> let m := matrix_init_look_at eye center up in
  B2X (matrix_get_value m 3 c) = xneg (B2X (match c with 0%nat => vec3_get_x eye | 1%nat => vec3_get_y eye | _ => vec3_get_z eye end)) /\ B2X (matrix_get_value m 3 3) = Fin 1.
Proof.
  intros BK eye center up c Hc m. assert (E : exists a b d, m = M4 a b d (g_init (fneg (vx eye)) (fneg (vy eye)) (fneg (vz eye)) fone)).
  { unfold m, matrix_init_look_at, gm_init_look_at. destruct (if flt (g_get_x (g_dot3 _ _)) feps then _ else _) as [za cr]. do 3 eexists. reflexivity. }
  destruct E as (a & b & d & ->). split; [|apply fone_X]. destruct c as [|[|[|c]]]; try lia; apply fneg_X.
Qed.
Theorem C95_look_at_affine : forall (BK : Backend b32) (eye center up : V) (r : nat), estimates_ok BK -> clear_view eye center up -> vec3_api eye -> vec3_api center -> vec3_api up -> (r < 3)%nat ->
  B2X (matrix_get_value (matrix_init_look_at eye center up) r 3) = Fin 0.
Proof.
  intros BK eye center up r HB CV AE AC AU Hr. destruct (look_core BK eye center up HB CV) as (xx & yy & z & M & _ & _ & _ & K). destruct (K (vec3_api_clean _ AE) (vec3_api_clean _ AC) (vec3_api_clean _ AU)) as (K1 & K2 & K3).
  rewrite M. destruct r as [|[|[|r]]]; try lia; apply is0_X; auto. apply is0_neg. exact K3.
Qed.

(** ** non-vacuity: looking from (1, 2, 3) to (4, 2, -1), upright *)
Example C95_ex : forall BK : Backend b32, clear_view (vec3_init (lit 1 0) (lit 2 0) (lit 3 0)) (vec3_init (lit 4 0) (lit 2 0) (lit (-1) 0)) (vec3_init fzero fone fzero).
Proof.
  intros BK. assert (Z : real (fzero : b32) = 0) by reflexivity. destruct (fin_of_X _ _ fone_X) as [FO RO].
  destruct (lit_real 1 0) as [F1 R1]; try lia. destruct (lit_real 2 0) as [F2 R2]; try lia. destruct (lit_real 3 0) as [F3 R3]; try lia. destruct (lit_real 4 0) as [F4 R4]; try lia. destruct (lit_real (-1) 0) as [Fm Rm]; try lia.
  simpl (bpow radix2 0) in * . set (e := vec3_init (lit 1 0) (lit 2 0) (lit 3 0)). set (c := vec3_init (lit 4 0) (lit 2 0) (lit (-1) 0)). set (p := vec3_init fzero fone fzero : V).
  assert (E : vminus (val3 c) (val3 e) = mk3 3 0 (-4)). { apply R3_ext; unfold c, e, vec3_init, g_init, lit; cbn [vminus val3 X3 Y3 Z3 vx vy vz]; rewrite ?R1, ?R2, ?R3, ?R4, ?Rm; lra. }
  assert (P : val3 p = mk3 0 1 0). { apply R3_ext; unfold p, vec3_init, g_init; cbn [val3 X3 Y3 Z3 vx vy vz]; [exact Z|exact RO|exact Z]. }
  assert (N : norm (mk3 3 0 (-4)) = 5) by (apply norm_unique; [lra|unfold dot; cbn [X3 Y3 Z3]; lra]).
  assert (S : side e c p = mk3 0.8 0 0.6). { unfold side, view. rewrite E, P. unfold dirn. rewrite N. apply R3_ext; unfold cross, vscal; cbn [X3 Y3 Z3]; lra. }
  assert (NS : norm (mk3 0.8 0 0.6) = 1) by (apply norm_unique; [lra|unfold dot; cbn [X3 Y3 Z3]; lra]). assert (NP : norm (mk3 0 1 0) = 1) by (apply norm_unique; [lra|unfold dot; cbn [X3 Y3 Z3]; lra]).
  assert (DD : forall a, norm a = 1 -> dot a a = 1) by (intros a A; rewrite <- norm_sq, A; ring).
  unfold clear_view, slant. rewrite E, S, P, NS, NP, (DD _ NS), <- norm_sq, N.
  split; [split; [exact F1|split; [exact F2|exact F3]]|]. split; [split; [exact F4|split; [exact F2|exact Fm]]|]. split; [split; [reflexivity|split; [exact FO|reflexivity]]|].
  change (bpow radix2 (-20)) with (/ 1048576). change (bpow radix2 (-12)) with (/ 4096). assert (1024 <= bpow radix2 100) by (change 1024 with (bpow radix2 10); apply bpow_le; lia). assert (1024 <= bpow radix2 40) by (change 1024 with (bpow radix2 10); apply bpow_le; lia).
  repeat split; lra.
Qed.
