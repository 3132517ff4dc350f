(** * Props_Turn: rays and planes under a matrix in binary32 (C106). *)
From Coq Require Import ZArith Reals Bool List Lra Lia Psatz.
From Flocq Require Import Core BinarySingleNaN.
From Verif Require Import Num Simd Vec Rect Box Mat Geo Quat OrdThy FloatThy B32Setup FloatLem ErrThy RGeo Props_Err Props_Err2 Props_Err3 Props_Look Props_RayTri Props_TriF.
From Verif Require Props_Err6 Props_RaySph Props_Proj Props_Dec Props_Undo Props_Rot.
Import ListNotations.
Local Open Scope R_scope.

(** ** specification *)
(** the linear part of the matrix applied to a row vector, and the whole matrix applied to a point *)
Definition turn (m : mat b32) (v : R3) : R3 := let f c := ent m 0 c * X3 v + ent m 1 c * Y3 v + ent m 2 c * Z3 v in mk3 (f 0%nat) (f 1%nat) (f 2%nat).
Definition shift (m : mat b32) : R3 := mk3 (ent m 3 0) (ent m 3 1) (ent m 3 2).
Definition place (m : mat b32) (p : R3) : R3 := vplus (turn m p) (shift m).
(** the size of the linear part: root of the sum of the squares of its nine entries *)
Definition frob (m : mat b32) : R :=
  let f c := ent m 0 c * ent m 0 c + ent m 1 c * ent m 1 c + ent m 2 c * ent m 2 c in sqrt (f 0%nat + f 1%nat + f 2%nat).

Lemma norm_mono a b : Rabs (X3 a) <= X3 b -> Rabs (Y3 a) <= Y3 b -> Rabs (Z3 a) <= Z3 b -> norm a <= norm b.
Proof.
  intros H1 H2 H3. apply norm_le; [apply norm_nonneg|]. rewrite norm_sq. unfold dot.
  assert (K : forall s t, Rabs s <= t -> s * s <= t * t). { intros s t T. rewrite <- (Rabs_pos_eq (s * s)) by nra. rewrite Rabs_mult. apply Rmult_le_compat; auto using Rabs_pos. }
  pose proof (K _ _ H1). pose proof (K _ _ H2). pose proof (K _ _ H3). lra.
Qed.
(** the sizes of the terms of the three sums *)
Definition spread (m : mat b32) (v : R3) : R3 := let f c := Rabs (ent m 0 c * X3 v) + Rabs (ent m 1 c * Y3 v) + Rabs (ent m 2 c * Z3 v) in mk3 (f 0%nat) (f 1%nat) (f 2%nat).
Lemma frob_nonneg m : 0 <= frob m. Proof. apply sqrt_pos. Qed.
Lemma spread_le m v : norm (spread m v) <= frob m * norm v.
Proof.
  pose proof (frob_nonneg m) as F0. pose proof (norm_nonneg v) as N0. apply norm_le; [nra|]. replace (frob m * norm v * (frob m * norm v)) with (frob m * frob m * (norm v * norm v)) by ring. rewrite norm_sq. unfold frob. rewrite sqrt_sqrt.
  - assert (K : forall a b c x y z, (Rabs (a * x) + Rabs (b * y) + Rabs (c * z)) * (Rabs (a * x) + Rabs (b * y) + Rabs (c * z)) <= (a * a + b * b + c * c) * (x * x + y * y + z * z)).
    { intros a b c x y z. rewrite !Rabs_mult. assert (A : forall t, t * t = Rabs t * Rabs t) by (intros t; rewrite <- Rabs_mult, Rabs_pos_eq; [reflexivity|nra]). rewrite (A a), (A b), (A c), (A x), (A y), (A z).
      set (a' := Rabs a). set (b' := Rabs b). set (c' := Rabs c). set (x' := Rabs x). set (y' := Rabs y). set (z' := Rabs z). pose proof (Rle_0_sqr (a' * y' - b' * x')). pose proof (Rle_0_sqr (a' * z' - c' * x')). pose proof (Rle_0_sqr (b' * z' - c' * y')). unfold Rsqr in * . lra. }
    unfold dot at 1. unfold spread; cbn [X3 Y3 Z3]. unfold dot. pose proof (K (ent m 0 0) (ent m 1 0) (ent m 2 0) (X3 v) (Y3 v) (Z3 v)). pose proof (K (ent m 0 1) (ent m 1 1) (ent m 2 1) (X3 v) (Y3 v) (Z3 v)). pose proof (K (ent m 0 2) (ent m 1 2) (ent m 2 2) (X3 v) (Y3 v) (Z3 v)). lra.
  - repeat match goal with |- 0 <= _ + _ => apply Rplus_le_le_0_compat end; apply Rle_0_sqr.
Qed.
Lemma turn_le m v : norm (turn m v) <= frob m * norm v.
Proof.
  eapply Rle_trans; [|apply spread_le]. apply norm_mono; unfold turn, spread; cbn [X3 Y3 Z3]; (eapply Rle_trans; [apply Rabs_triang|]; apply Rplus_le_compat_r, Rabs_triang).
Qed.
(** componentwise errors that follow a vector of sizes *)
Lemma dist_spread a b s k t : 0 <= k -> 0 <= t -> 0 <= X3 s -> 0 <= Y3 s -> 0 <= Z3 s -> Rabs (X3 a - X3 b) <= k * X3 s + t -> Rabs (Y3 a - Y3 b) <= k * Y3 s + t -> Rabs (Z3 a - Z3 b) <= k * Z3 s + t -> dist a b <= k * norm s + 1.7321 * t.
Proof.
  intros K T S1 S2 S3 H1 H2 H3. unfold dist. apply Rle_trans with (norm (vplus (vscal k s) (mk3 t t t))); [apply norm_mono; unfold vplus, vscal, vminus; cbn [X3 Y3 Z3]; assumption|].
  eapply Rle_trans; [apply triangle_ineq|]. rewrite norm_scal, (Rabs_pos_eq k K). apply Rplus_le_compat_l. apply norm_le; [lra|]. unfold dot; cbn [X3 Y3 Z3]. nra.
Qed.
Lemma spread_pos m v : 0 <= X3 (spread m v) /\ 0 <= Y3 (spread m v) /\ 0 <= Z3 (spread m v).
Proof. unfold spread; cbn [X3 Y3 Z3]. repeat split; repeat apply Rplus_le_le_0_compat; apply Rabs_pos. Qed.
Lemma comp_le_norm a : Rabs (X3 a) <= norm a /\ Rabs (Y3 a) <= norm a /\ Rabs (Z3 a) <= norm a.
Proof. unfold norm. repeat split; rewrite <- sqrt_Rsqr_abs; apply sqrt_le_1_alt; unfold Rsqr, dot; nra. Qed.
Lemma turn_float (BK : Backend b32) (m : mat b32) (v : V) : finite_mat m -> finite3 v -> frob m * norm (val3 v) <= bpow radix2 120 -> let r := matrix_transform_vec3 m v in
  finite3 r /\ dist (val3 r) (turn m (val3 v)) <= bpow radix2 (-22) * (frob m * norm (val3 v)) + bpow radix2 (-146).
Proof.
  intros FM FV B r. pose proof (spread_le m (val3 v)) as SL. destruct (comp_le_norm (spread m (val3 v))) as (C1 & C2 & C3). destruct (spread_pos m (val3 v)) as (P1 & P2 & P3). rewrite Rabs_pos_eq in C1, C2, C3 by assumption.
  assert (P126 : bpow radix2 120 <= bpow radix2 126) by (apply bpow_le; lia).
  destruct (C70_transform_vec3 BK m v 0 ltac:(lia) FM FV) as [F1 E1]; [change (X3 (spread m (val3 v)) <= bpow radix2 126); lra|]. destruct (C70_transform_vec3 BK m v 1 ltac:(lia) FM FV) as [F2 E2]; [change (Y3 (spread m (val3 v)) <= bpow radix2 126); lra|]. destruct (C70_transform_vec3 BK m v 2 ltac:(lia) FM FV) as [F3 E3]; [change (Z3 (spread m (val3 v)) <= bpow radix2 126); lra|].
  split; [exact (conj F1 (conj F2 F3))|]. assert (Z1 : 0 <= bpow radix2 (-22)) by apply bpow_ge_0. assert (Z2 : 0 <= bpow radix2 (-147)) by apply bpow_ge_0.
  pose proof (dist_spread (val3 r) (turn m (val3 v)) (spread m (val3 v)) _ _ Z1 Z2 P1 P2 P3 E1 E2 E3) as D. assert (T : bpow radix2 (-146) = 2 * bpow radix2 (-147)) by (change (-146)%Z with (1 + -147)%Z; rewrite bpow_plus; reflexivity). nra.
Qed.
(** a point, with 1 as its fourth coordinate *)
Lemma place_float (BK : Backend b32) (m : mat b32) (v : V) : finite_mat m -> finite3 v -> frob m * norm (val3 v) + norm (shift m) <= bpow radix2 120 -> let r := vec4_get_xyz (matrix_transform_vec4 m (vec4_init_from_vec3 v fone)) in
  finite3 r /\ dist (val3 r) (place m (val3 v)) <= bpow radix2 (-22) * (frob m * norm (val3 v) + norm (shift m)) + bpow radix2 (-146).
Proof.
  intros FM FV B r. pose proof (spread_le m (val3 v)) as SL. destruct (spread_pos m (val3 v)) as (P1 & P2 & P3).
  set (sh := mk3 (Rabs (ent m 3 0)) (Rabs (ent m 3 1)) (Rabs (ent m 3 2))). assert (NS : norm sh = norm (shift m)).
  { unfold norm, dot, sh, shift; cbn [X3 Y3 Z3]. assert (A : forall t, Rabs t * Rabs t = t * t) by (intros t; rewrite <- Rabs_mult; apply Rabs_pos_eq; nra). now rewrite !A. }
  set (s := vplus (spread m (val3 v)) sh). assert (NB : norm s <= frob m * norm (val3 v) + norm (shift m)) by (eapply Rle_trans; [apply triangle_ineq|]; lra).
  destruct (comp_le_norm s) as (C1 & C2 & C3). pose proof (Rabs_pos (ent m 3 0)) as Q1. pose proof (Rabs_pos (ent m 3 1)) as Q2. pose proof (Rabs_pos (ent m 3 2)) as Q3.
  assert (S1 : 0 <= X3 s) by (unfold s, vplus, sh; cbn [X3]; lra). assert (S2 : 0 <= Y3 s) by (unfold s, vplus, sh; cbn [Y3]; lra). assert (S3 : 0 <= Z3 s) by (unfold s, vplus, sh; cbn [Z3]; lra). rewrite Rabs_pos_eq in C1, C2, C3 by assumption.
  assert (P126 : bpow radix2 120 <= bpow radix2 126) by (apply bpow_le; lia). destruct FV as (V1 & V2 & V3).
  assert (F4 : finite4 (vec4_init_from_vec3 v fone)) by (refine (conj V1 (conj V2 (conj V3 _))); reflexivity).
  destruct (fin_of_X _ _ (fone_X : B2X (fone : b32) = Fin 1)) as [FO RO].
  assert (EQ : forall c, (c < 3)%nat -> let t := match c with 0%nat => X3 | 1%nat => Y3 | _ => Z3 end in sum_rows (fun r0 => Rabs (ent m r0 c * comp (vec4_init_from_vec3 v fone) r0)) = t s /\ sum_rows (fun r0 => ent m r0 c * comp (vec4_init_from_vec3 v fone) r0) = t (place m (val3 v))).
  { intros c Hc t. unfold sum_rows, comp, vec4_init_from_vec3, g_merge_w, g_get; cbn [nth vx vy vz vw]. rewrite RO, !Rmult_1_r. destruct c as [|[|[|c]]]; [..|lia]; split; reflexivity. }
  destruct (EQ 0%nat ltac:(lia)) as [A0 T0]. destruct (EQ 1%nat ltac:(lia)) as [A1 T1]. destruct (EQ 2%nat ltac:(lia)) as [A2 T2]. cbv zeta in A0, A1, A2, T0, T1, T2.
  pose proof (C70_transform_vec4 BK m _ 0 ltac:(lia) FM F4) as W0. pose proof (C70_transform_vec4 BK m _ 1 ltac:(lia) FM F4) as W1. pose proof (C70_transform_vec4 BK m _ 2 ltac:(lia) FM F4) as W2. cbv zeta in W0, W1, W2. rewrite A0, T0 in W0. rewrite A1, T1 in W1. rewrite A2, T2 in W2.
  destruct (W0 ltac:(lra)) as [F0 E0]. destruct (W1 ltac:(lra)) as [F1 E1]. destruct (W2 ltac:(lra)) as [F2 E2].
  split; [exact (conj F0 (conj F1 F2))|]. assert (Z1 : 0 <= bpow radix2 (-22)) by apply bpow_ge_0. assert (Z2 : 0 <= bpow radix2 (-147)) by apply bpow_ge_0.
  pose proof (dist_spread (val3 r) (place m (val3 v)) s _ _ Z1 Z2 S1 S2 S3 E0 E1 E2) as D. assert (T : bpow radix2 (-146) = 2 * bpow radix2 (-147)) by (change (-146)%Z with (1 + -147)%Z; rewrite bpow_plus; reflexivity). nra.
Qed.

(** ** C106: rays *)
(** a vector that the matrix turns into one of ordinary length, at least 2^-20 of what its entries could give *)
Definition turns_well (m : mat b32) (v : R3) : Prop := bpow radix2 (-10) <= norm (turn m v) <= bpow radix2 50 /\ frob m * norm v <= bpow radix2 20 * norm (turn m v).
Definition turn_err (m : mat b32) (v : R3) : R := bpow radix2 (-21) * (frob m * norm v / norm (turn m v)) + bpow radix2 (-19).
Lemma dirn_float (BK : Backend b32) (m : mat b32) (v : V) : estimates_ok BK -> finite_mat m -> finite3 v -> turns_well m (val3 v) ->
  let f := matrix_transform_vec3 m v in finite3 (vec3_normalize f) /\ dist (val3 (vec3_normalize f)) (dirn (turn m (val3 v))) <= turn_err m (val3 v).
Proof.
  intros HB FM FV [[L H] K] f. assert (P70 : bpow radix2 20 * bpow radix2 50 <= bpow radix2 120) by (rewrite <- bpow_plus; apply bpow_le; lia). assert (P20 : 0 < bpow radix2 20) by apply bpow_gt_0.
  destruct (turn_float BK m v FM FV ltac:(nra)) as [FF D]. fold f in FF, D. set (N := norm (turn m (val3 v))) in * . set (G := frob m * norm (val3 v)) in * .
  assert (T146 : bpow radix2 (-146) <= bpow radix2 (-60) * bpow radix2 (-10)) by (rewrite <- bpow_plus; apply bpow_le; lia).
  assert (B20 : bpow radix2 20 = 1048576) by (simpl; lra). assert (B22 : bpow radix2 (-22) = / 4194304) by (simpl; lra). assert (B10 : bpow radix2 (-10) = / 1024) by (simpl; lra). assert (B60 : bpow radix2 (-60) <= / 1000000000000000) by (apply Rle_trans with (bpow radix2 (-50)); [apply bpow_le; lia|simpl; lra]). assert (B60' : 0 < bpow radix2 (-60)) by apply bpow_gt_0.
  assert (NP : 0 < N) by lra. assert (D2 : dist (val3 f) (turn m (val3 v)) <= (bpow radix2 (-22) * (G / N) + bpow radix2 (-60)) * N). { eapply Rle_trans; [exact D|]. replace ((bpow radix2 (-22) * (G / N) + bpow radix2 (-60)) * N) with (bpow radix2 (-22) * G + bpow radix2 (-60) * N) by (field; lra). apply Rplus_le_compat_l. nra. }
  assert (GN : 0 <= G / N <= 1048576). { split; [apply Rmult_le_pos; [apply Rmult_le_pos; [apply frob_nonneg|apply norm_nonneg]|left; now apply Rinv_0_lt_compat]|]. apply Rmult_le_reg_r with N; [exact NP|]. unfold Rdiv. rewrite Rmult_assoc, Rinv_l by lra. rewrite B20 in K. lra. }
  pose proof (norm_gap (val3 f) (turn m (val3 v))) as NG. fold N in NG. apply Rabs_le_inv in NG.
  assert (E26 : dist (val3 f) (turn m (val3 v)) <= 0.2501 * N) by (eapply Rle_trans; [exact D2|]; apply Rmult_le_compat_r; [lra|]; rewrite B22; lra).
  assert (NR : normal_range BK (dot3 f f)). { apply inner_range. rewrite val3_dot3, <- norm_sq. assert (bpow radix2 101 = 2 * (bpow radix2 50 * bpow radix2 50)) by (rewrite <- bpow_plus; change 2 with (bpow radix2 1); rewrite <- bpow_plus; reflexivity). assert (bpow radix2 (-22) = / 4194304) by assumption. assert (0 < bpow radix2 50) by apply bpow_gt_0. split; [rewrite B22; nra|]. nra. }
  destruct (vnorm_float BK f HB FF NR) as [FN DN]. split; [exact FN|]. eapply Rle_trans; [apply (dist_tri _ (dirn (val3 f)))|].
  pose proof (dirn_close (turn m (val3 v)) (val3 f) _ ltac:(fold N; exact NP) ltac:(lra) D2) as DC. unfold turn_err. fold N G. assert (C : bpow radix2 (-19) = 2 * bpow radix2 (-20) /\ bpow radix2 (-21) = 2 * bpow radix2 (-22) /\ bpow radix2 (-60) <= / 1000 * bpow radix2 (-20)). { refine (conj _ (conj _ _)); [change (-19)%Z with (1 + -20)%Z; rewrite bpow_plus; reflexivity|change (-21)%Z with (1 + -22)%Z; rewrite bpow_plus; reflexivity|apply Rle_trans with (bpow radix2 (-40)); [apply bpow_le; lia|simpl; lra]]. }
  destruct C as (C1 & C2 & C3). rewrite C1, C2. lra.
Qed.
Definition place_err (m : mat b32) (p : R3) : R := bpow radix2 (-22) * (frob m * norm p + norm (shift m)) + bpow radix2 (-146).
Theorem C106_transform_ray : forall (BK : Backend b32) (m : mat b32) (r : ray b32), estimates_ok BK -> finite_mat m -> finite3 (ray_o r) -> finite3 (ray_d r) ->
  turns_well m (way r) -> frob m * norm (org r) + norm (shift m) <= bpow radix2 120 -> let r' := matrix_transform_ray m r in
  (finite3 (ray_o r') /\ dist (org r') (place m (org r)) <= place_err m (org r)) /\ (finite3 (ray_d r') /\ dist (way r') (dirn (turn m (way r))) <= turn_err m (way r)).
Proof.
  intros BK m r HB FM FO FD TW B r'. split; [exact (place_float BK m (ray_o r) FM FO B)|exact (dirn_float BK m (ray_d r) HB FM FD TW)].
Qed.
Lemma place_along m o d t : place m (vplus o (vscal t d)) = vplus (place m o) (vscal t (turn m d)).
Proof. unfold place, turn, vplus, vscal; cbn [X3 Y3 Z3]. f_equal; ring. Qed.
Lemma along_close a b d e t : 0 <= t -> dist (vplus a (vscal t d)) (vplus b (vscal t e)) <= dist a b + t * dist d e.
Proof.
  intros T. unfold dist. replace (vminus (vplus a (vscal t d)) (vplus b (vscal t e))) with (vplus (vminus a b) (vscal t (vminus d e))) by (unfold vminus, vplus, vscal; cbn [X3 Y3 Z3]; f_equal; ring).
  eapply Rle_trans; [apply triangle_ineq|]. rewrite norm_scal, (Rabs_pos_eq t T). lra.
Qed.
Theorem C106_ray_image : forall (BK : Backend b32) (m : mat b32) (r : ray b32) (t : R), estimates_ok BK -> finite_mat m -> finite3 (ray_o r) -> finite3 (ray_d r) ->
  turns_well m (way r) -> frob m * norm (org r) + norm (shift m) <= bpow radix2 120 -> 0 <= t -> let r' := matrix_transform_ray m r in let s := t * norm (turn m (way r)) in
  dist (vplus (org r') (vscal s (way r'))) (place m (vplus (org r) (vscal t (way r)))) <= place_err m (org r) + s * turn_err m (way r).
Proof.
  intros BK m r t HB FM FO FD TW B T r' s. destruct (C106_transform_ray BK m r HB FM FO FD TW B) as [[_ E1] [_ E2]]. fold r' in E1, E2. rewrite place_along.
  assert (NP : 0 < norm (turn m (way r))). { destruct TW as [[L _] _]. eapply Rlt_le_trans; [|exact L]. apply bpow_gt_0. }
  assert (EQ : vscal t (turn m (way r)) = vscal s (dirn (turn m (way r)))). { unfold dirn, s. set (v := turn m (way r)) in * . set (n := norm v) in * . clearbody n v. destruct v as [x y z]. unfold vscal; cbn [X3 Y3 Z3]. f_equal; field; lra. }
  rewrite EQ. assert (S0 : 0 <= s) by (unfold s; nra). eapply Rle_trans; [apply along_close, S0|]. assert (s * dist (way r') (dirn (turn m (way r))) <= s * turn_err m (way r)) by (now apply Rmult_le_compat_l). lra.
Qed.

(** ** planes, with a given normal matrix *)
Definition foot (p : plane b32) : R3 := vscal (- real (pl_c p)) (val3 (pl_n p)).
Lemma foot_float (BK : Backend b32) (p : plane b32) : finite3 (pl_n p) -> fin (pl_c p) -> Rabs (real (pl_c p)) * norm (val3 (pl_n p)) <= bpow radix2 100 ->
  let q := vec3_scale (pl_n p) (fneg (pl_c p)) in finite3 q /\ dist (val3 q) (foot p) <= bpow radix2 (-24) * norm (foot p) + bpow radix2 (-148).
Proof.
  intros (F1 & F2 & F3) FC B q. destruct (Props_Dec.fneg_R _ FC) as [FN RN]. destruct (comp_le_norm (val3 (pl_n p))) as (C1 & C2 & C3). set (c := fneg (pl_c p)) in * .
  assert (P126 : bpow radix2 100 <= bpow radix2 126) by (apply bpow_le; lia). assert (AC : Rabs (real c) = Rabs (real (pl_c p))) by (rewrite RN; apply Rabs_Ropp). pose proof (Rabs_pos (real c)) as AP.
  assert (G : forall x : b32, fin x -> Rabs (real x) <= norm (val3 (pl_n p)) -> fin (fmul x c) /\ Rabs (real (fmul x c) - - real (pl_c p) * real x) <= bpow radix2 (-24) * Rabs (- real (pl_c p) * real x) + bpow radix2 (-150)).
  { intros x F L. assert (M : Rabs (real x * real c) <= bpow radix2 126) by (rewrite Rabs_mult, AC; assert (Rabs (real x) * Rabs (real (pl_c p)) <= Rabs (real (pl_c p)) * norm (val3 (pl_n p))) by (pose proof (Rabs_pos (real x)); pose proof (Rabs_pos (real (pl_c p))); nra); lra).
    destruct (fin_of_X _ _ (Props_Proj.mul_X x c F FN (Rle_trans _ _ _ M (bpow_le radix2 126 127 ltac:(lia))))) as [Fm Rm]. pose proof (rnd_err (real x * real c)) as Em. rewrite <- Rm in Em. split; [exact Fm|]. rewrite RN in Em. replace (- real (pl_c p) * real x) with (real x * - real (pl_c p)) by ring. exact Em. }
  destruct (G _ F1 C1) as [G1 E1]. destruct (G _ F2 C2) as [G2 E2]. destruct (G _ F3 C3) as [G3 E3]. split; [exact (conj G1 (conj G2 G3))|].
  pose proof (dist_spread (val3 q) (foot p) (mk3 (Rabs (X3 (foot p))) (Rabs (Y3 (foot p))) (Rabs (Z3 (foot p)))) (bpow radix2 (-24)) (bpow radix2 (-150)) ltac:(apply bpow_ge_0) ltac:(apply bpow_ge_0) (Rabs_pos _) (Rabs_pos _) (Rabs_pos _) E1 E2 E3) as D.
  assert (NS : norm (mk3 (Rabs (X3 (foot p))) (Rabs (Y3 (foot p))) (Rabs (Z3 (foot p)))) = norm (foot p)). { unfold norm, dot; cbn [X3 Y3 Z3]. assert (A : forall t, Rabs t * Rabs t = t * t) by (intros t; rewrite <- Rabs_mult; apply Rabs_pos_eq; nra). now rewrite !A. }
  rewrite NS in D. assert (T : bpow radix2 (-148) = 4 * bpow radix2 (-150)) by (change (-148)%Z with (2 + -150)%Z; rewrite bpow_plus; reflexivity). pose proof (bpow_gt_0 radix2 (-150)). lra.
Qed.
(** the image of the foot, and the size of the terms it is summed from *)
Definition foot_size (m : mat b32) (p : plane b32) : R := frob m * norm (foot p) + norm (shift m).
Lemma place_le m p : norm (place m p) <= frob m * norm p + norm (shift m).
Proof. eapply Rle_trans; [apply triangle_ineq|]. apply Rplus_le_compat_r, turn_le. Qed.
Lemma place_diff m p q : dist (place m p) (place m q) <= frob m * dist p q.
Proof.
  unfold dist. replace (vminus (place m p) (place m q)) with (turn m (vminus p q)); [apply turn_le|]. unfold place, turn, vplus, vminus; cbn [X3 Y3 Z3]. f_equal; ring.
Qed.
Definition plane_ok (m n : mat b32) (p : plane b32) : Prop :=
  finite_mat m /\ finite_mat n /\ finite3 (pl_n p) /\ fin (pl_c p) /\ turns_well n (val3 (pl_n p)) /\ frob m <= bpow radix2 50 /\ norm (foot p) <= bpow radix2 50 /\ norm (shift m) <= bpow radix2 100.
Definition const_err (m n : mat b32) (p : plane b32) : R := 1.5 * turn_err n (val3 (pl_n p)) * foot_size m p + bpow radix2 (-85).
Lemma norm_foot p : norm (foot p) = Rabs (real (pl_c p)) * norm (val3 (pl_n p)).
Proof. unfold foot. now rewrite norm_scal, Rabs_Ropp. Qed.
Lemma plane_float (BK : Backend b32) (m n : mat b32) (p : plane b32) : estimates_ok BK -> plane_ok m n p ->
  exists p', plane_transform p m (Some n) = Some p' /\ finite3 (pl_n p') /\ fin (pl_c p') /\ let N := dirn (turn n (val3 (pl_n p))) in
  dist (val3 (pl_n p')) N <= turn_err n (val3 (pl_n p)) /\ Rabs (real (pl_c p') + dot N (place m (foot p))) <= const_err m n p.
Proof.
  intros HB (FM & FN & FV & FC & TW & LF & LP & LS). eexists. split; [reflexivity|]. cbv zeta. cbn [plane_init pl_n pl_c].
  change (plane_get_constant p) with (pl_c p). set (q := vec3_scale (pl_n p) (fneg (pl_c p))). set (ref := vec4_get_xyz (matrix_transform_vec4 m (vec4_init_from_vec3 q fone))). set (nn := vec3_normalize (matrix_transform_vec3 n (pl_n p))).
  destruct (dirn_float BK n (pl_n p) HB FN FV TW) as [FNN DN]. fold nn in FNN, DN. set (N := dirn (turn n (val3 (pl_n p)))) in * .
  assert (P50 : bpow radix2 50 <= bpow radix2 100) by (apply bpow_le; lia). assert (B50 : 0 < bpow radix2 50) by apply bpow_gt_0. assert (P100 : bpow radix2 50 * bpow radix2 50 = bpow radix2 100) by (rewrite <- bpow_plus; reflexivity). assert (P20 : 64 * bpow radix2 100 <= bpow radix2 120) by (change 64 with (bpow radix2 6); rewrite <- bpow_plus; apply bpow_le; lia).
  destruct (foot_float BK p FV FC ltac:(rewrite <- norm_foot; lra)) as [FQ DQ]. fold q in FQ, DQ. set (a := norm (foot p)) in * . set (g := frob m) in * . assert (g0 : 0 <= g) by apply frob_nonneg. assert (a0 : 0 <= a) by apply norm_nonneg.
  assert (U24 : bpow radix2 (-24) = u) by reflexivity. assert (U22 : bpow radix2 (-22) = 4 * u) by (simpl; lra). assert (U19 : bpow radix2 (-19) = 32 * u) by (simpl; lra). rewrite U24 in DQ.
  pose proof (norm_gap (val3 q) (foot p)) as NG. fold a in NG. apply Rabs_le_inv in NG. set (z := bpow radix2 (-148)) in * . assert (z0 : 0 < z) by apply bpow_gt_0.
  assert (GZ : g * z <= bpow radix2 (-98)) by (apply Rle_trans with (bpow radix2 50 * z); [apply Rmult_le_compat_r; lra|unfold z; rewrite <- bpow_plus; apply bpow_le; lia]).
  assert (GQ : g * norm (val3 q) <= 1.0001 * (g * a) + bpow radix2 (-98)) by (assert (g * norm (val3 q) <= g * (a + u * a + z)) by (apply Rmult_le_compat_l; lra); nra).
  assert (GA : g * a <= bpow radix2 100) by (rewrite <- P100; apply Rmult_le_compat; lra). assert (T98 : 0 < bpow radix2 (-98)) by apply bpow_gt_0. assert (T98' : bpow radix2 (-98) <= bpow radix2 50) by (apply bpow_le; lia). assert (GA0 : 0 <= g * a) by nra.
  set (s := norm (shift m)) in * . assert (s0 : 0 <= s) by apply norm_nonneg.
  destruct (place_float BK m q FM FQ) as [FR DR]; [fold g s; lra|]. fold ref in FR, DR. fold g s in DR.
  set (P0 := place m (foot p)) in * . set (S := foot_size m p). assert (ES : S = g * a + s) by reflexivity.
  assert (T85 : bpow radix2 (-98) <= / 8192 * bpow radix2 (-85) /\ bpow radix2 (-146) <= / 8192 * bpow radix2 (-85) /\ bpow radix2 (-147) <= / 8192 * bpow radix2 (-85)). { change (/ 8192) with (bpow radix2 (-13)). rewrite <- bpow_plus. repeat split; apply bpow_le; lia. } set (y := bpow radix2 (-85)) in * . destruct T85 as (T1 & T2 & T3).
  assert (y0 : 0 < y) by apply bpow_gt_0. assert (y1 : y <= / 1000000) by (apply Rle_trans with (bpow radix2 (-30)); [apply bpow_le; lia|simpl; lra]).
  assert (DP : dist (val3 ref) P0 <= 5.01 * u * S + / 1000 * y). { eapply Rle_trans; [apply (dist_tri _ (place m (val3 q)))|]. pose proof (place_diff m (val3 q) (foot p)) as PD. fold g P0 in PD. assert (g * dist (val3 q) (foot p) <= g * (u * a + z)) by (apply Rmult_le_compat_l; lra). rewrite U22 in DR. nra. }
  assert (NP0 : norm P0 <= S) by apply place_le. assert (S0 : 0 <= S) by (rewrite ES; lra). pose proof (norm_gap (val3 ref) P0) as NR. apply Rabs_le_inv in NR.
  assert (NRef : norm (val3 ref) <= 1.001 * S + / 1000 * y) by nra. set (e := turn_err n (val3 (pl_n p))) in * .
  assert (NN1 : norm N = 1). { apply norm_dirn. destruct TW as [[L _] _]. eapply Rlt_le_trans; [|exact L]. apply bpow_gt_0. }
  assert (EB : 32 * u <= e <= 0.501). { destruct TW as [[L _] K]. unfold e, turn_err. set (nm := norm (turn n (val3 (pl_n p)))) in * . assert (0 < nm) by (eapply Rlt_le_trans; [|exact L]; apply bpow_gt_0).
    assert (0 <= frob n * norm (val3 (pl_n p)) / nm <= bpow radix2 20). { split; [apply Rmult_le_pos; [apply Rmult_le_pos; [apply frob_nonneg|apply norm_nonneg]|left; now apply Rinv_0_lt_compat]|]. apply Rmult_le_reg_r with nm; [assumption|]. unfold Rdiv. rewrite Rmult_assoc, Rinv_l by lra. lra. }
    rewrite U19. assert (B21 : bpow radix2 (-21) = 8 * u) by (simpl; lra). assert (B20 : bpow radix2 20 = 1048576) by (simpl; lra). rewrite B21. rewrite B20 in * . lra. }
  pose proof (norm_gap (val3 nn) N) as NGN. rewrite NN1 in NGN. apply Rabs_le_inv in NGN. pose proof (adot_norm nn ref) as AD. assert (NB : norm (val3 nn) <= 1.502) by lra.
  assert (ADB : adot3 nn ref <= 1.502 * (1.001 * S + / 1000 * y)) by (eapply Rle_trans; [exact AD|]; apply Rmult_le_compat; try apply norm_nonneg; assumption).
  assert (P126 : bpow radix2 120 <= bpow radix2 126) by (apply bpow_le; lia). assert (S1 : S <= 3 * bpow radix2 100) by (rewrite ES; lra). assert (one100 : 1 <= bpow radix2 100) by (change 1 with (bpow radix2 0); apply bpow_le; lia).
  destruct (C70_dot3 BK nn ref FNN FR ltac:(lra)) as [FD ED]. destruct (Props_Dec.fneg_R _ FD) as [FND RND]. split; [exact FNN|]. split; [exact FND|]. split; [exact DN|]. rewrite RND. unfold tol in ED. rewrite U22 in ED. rewrite val3_dot3 in ED.
  assert (DD : Rabs (dot (val3 nn) (val3 ref) - dot N P0) <= e * (1.001 * S + / 1000 * y) + (5.01 * u * S + / 1000 * y)).
  { replace (dot (val3 nn) (val3 ref) - dot N P0) with (dot (vminus (val3 nn) N) (val3 ref) + dot N (vminus (val3 ref) P0)) by (rewrite dot_minus_l, dot_minus_r; ring). eapply Rle_trans; [apply Rabs_triang|]. apply Rplus_le_compat.
    - eapply Rle_trans; [apply cauchy_abs|]. apply Rmult_le_compat; try apply norm_nonneg; assumption.
    - eapply Rle_trans; [apply cauchy_abs|]. rewrite NN1, Rmult_1_l. exact DP. }
  unfold const_err. fold e S y. replace (- real (vec3_dot nn ref) + dot N P0) with (- ((real (vec3_dot nn ref) - dot (val3 nn) (val3 ref)) + (dot (val3 nn) (val3 ref) - dot N P0))) by ring. rewrite Rabs_Ropp. eapply Rle_trans; [apply Rabs_triang|].
  assert (ED2 : Rabs (real (vec3_dot nn ref) - dot (val3 nn) (val3 ref)) <= 4 * u * (1.502 * (1.001 * S + / 1000 * y)) + / 8192 * y) by (eapply Rle_trans; [exact ED|]; lra).
  assert (32 * u * S <= e * S) by (apply Rmult_le_compat_r; lra). assert (e * y <= 0.501 * y) by (apply Rmult_le_compat_r; lra). lra.
Qed.
Theorem C106_transform_plane : forall (BK : Backend b32) (m n : mat b32) (p : plane b32), estimates_ok BK -> plane_ok m n p ->
  exists p', plane_transform p m (Some n) = Some p' /\ finite3 (pl_n p') /\ fin (pl_c p') /\ let N := dirn (turn n (val3 (pl_n p))) in
  dist (val3 (pl_n p')) N <= turn_err n (val3 (pl_n p)) /\ Rabs (real (pl_c p') + dot N (place m (foot p))) <= const_err m n p.
Proof. exact plane_float. Qed.
(** how far n is from being the normal matrix of m: the normal n sends nrm to should see a turned vector as nrm saw the vector *)
Definition normal_defect (m n : mat b32) (nrm : R3) (d : R) : Prop := forall v, Rabs (dot (turn n nrm) (turn m v) - dot nrm v) <= d * norm (turn m v).
Theorem C106_plane_points : forall (BK : Backend b32) (m n : mat b32) (p : plane b32) (d : R) (P : R3), estimates_ok BK -> plane_ok m n p -> normal_defect m n (val3 (pl_n p)) d ->
  dot (val3 (pl_n p)) P + real (pl_c p) = 0 ->
  exists p', plane_transform p m (Some n) = Some p' /\ let Q := place m P in
  Rabs (dot (val3 (pl_n p')) Q + real (pl_c p')) <=
    (d * dist Q (place m (foot p)) + Rabs (real (pl_c p)) * Rabs (norm (val3 (pl_n p)) * norm (val3 (pl_n p)) - 1)) / norm (turn n (val3 (pl_n p))) +
    turn_err n (val3 (pl_n p)) * norm Q + const_err m n p.
Proof.
  intros BK m n p d P HB OK ND HP. destruct (plane_float BK m n p HB OK) as (p' & E & _ & _ & DN & DC). exists p'. split; [exact E|]. intros Q. cbv zeta in DN, DC.
  set (nr := val3 (pl_n p)) in * . set (c := real (pl_c p)) in * . set (T := turn n nr) in * . assert (NP : 0 < norm T). { destruct OK as (_ & _ & _ & _ & [[L _] _] & _). eapply Rlt_le_trans; [|exact L]. apply bpow_gt_0. }
  set (P0 := place m (foot p)) in * . replace (dot (val3 (pl_n p')) Q + real (pl_c p')) with (dot (dirn T) (vminus Q P0) + dot (vminus (val3 (pl_n p')) (dirn T)) Q + (real (pl_c p') + dot (dirn T) P0)) by (rewrite dot_minus_l, dot_minus_r; ring).
  eapply Rle_trans; [apply Rabs_triang|]. apply Rplus_le_compat; [|exact DC]. eapply Rle_trans; [apply Rabs_triang|]. apply Rplus_le_compat.
  - assert (EQ : vminus Q P0 = turn m (vminus P (foot p))) by (unfold Q, P0, place, turn, vplus, vminus; cbn [X3 Y3 Z3]; f_equal; ring).
    assert (DF : dot nr (vminus P (foot p)) = c * (norm nr * norm nr - 1)). { rewrite dot_minus_r. unfold foot. rewrite dot_scal_r. fold nr c. rewrite norm_sq. lra. }
    unfold dist. rewrite EQ. pose proof (ND (vminus P (foot p))) as H. fold T in H. rewrite DF in H. unfold dirn. rewrite dot_scal_l. set (k := dot T _) in * . set (w := c * _) in * . rewrite Rabs_mult, (Rabs_pos_eq (/ norm T)) by (left; now apply Rinv_0_lt_compat).
    unfold Rdiv. rewrite Rmult_comm. apply Rmult_le_compat_r; [left; now apply Rinv_0_lt_compat|]. rewrite <- Rabs_mult. fold w. apply Rabs_le_inv in H. pose proof (Rle_abs w). pose proof (Rle_abs (- w)) as NW. rewrite Rabs_Ropp in NW. apply Rabs_le. lra.
  - eapply Rle_trans; [apply cauchy_abs|]. apply Rmult_le_compat_r; [apply norm_nonneg|exact DN].
Qed.

(** ** without a normal matrix: the transposed inverse is used *)
Definition affine (m : mat b32) : Prop := ent m 0 3 = 0 /\ ent m 1 3 = 0 /\ ent m 2 3 = 0.
Definition blur (m : mat b32) (N : nat -> nat -> R) (nrm : R3) : R :=
  let f c := Props_Undo.inv_err m (N c 0%nat) c 0 * Rabs (X3 nrm) + Props_Undo.inv_err m (N c 1%nat) c 1 * Rabs (Y3 nrm) + Props_Undo.inv_err m (N c 2%nat) c 2 * Rabs (Z3 nrm) in norm (mk3 (f 0%nat) (f 1%nat) (f 2%nat)).
Lemma sum3_abs e f g d1 d2 d3 x y z : Rabs d1 <= e -> Rabs d2 <= f -> Rabs d3 <= g -> Rabs (d1 * x + d2 * y + d3 * z) <= e * Rabs x + f * Rabs y + g * Rabs z.
Proof.
  intros A B C. eapply Rle_trans; [apply Rabs_triang|]. rewrite Rabs_mult. apply Rplus_le_compat; [|apply Rmult_le_compat_r; [apply Rabs_pos|exact C]]. eapply Rle_trans; [apply Rabs_triang|]. rewrite !Rabs_mult. apply Rplus_le_compat; (apply Rmult_le_compat_r; [apply Rabs_pos|assumption]).
Qed.
Theorem C106_normal_matrix : forall (BK : Backend b32) (m : mat b32) (N : nat -> nat -> R) (p : plane b32), Props_Err6.ieee_div BK -> Props_Undo.clear m -> affine m -> Props_Undo.inverse_of N (ent m) ->
  exists i, matrix_inverse m = Some i /\ finite_mat (matrix_transpose i) /\ plane_transform p m None = plane_transform p m (Some (matrix_transpose i)) /\
  forall nrm, normal_defect m (matrix_transpose i) nrm (blur m N nrm).
Proof.
  intros BK m N p HB HC (A0 & A1 & A2) HN. destruct (Props_Undo.inverse_float BK m N HB HC HN) as (i & EI & FI & K). exists i. split; [exact EI|]. split; [|split].
  - destruct FI as ((I1 & I2 & I3 & I4) & (I5 & I6 & I7 & I8) & (I9 & I10 & I11 & I12) & (I13 & I14 & I15 & I16)). refine (conj _ (conj _ (conj _ _))); refine (conj _ (conj _ (conj _ _))); assumption.
  - unfold plane_transform. rewrite EI. reflexivity.
  - intros nrm v. assert (TE : forall r c, (r < 4)%nat -> (c < 4)%nat -> ent (matrix_transpose i) r c = ent i c r). { intros r c Hr Hc. destruct r as [|[|[|[|r]]]], c as [|[|[|[|c]]]]; try lia; reflexivity. }
    set (w := turn m v). set (exact3 := fun c => N c 0%nat * X3 nrm + N c 1%nat * Y3 nrm + N c 2%nat * Z3 nrm). set (EX := mk3 (exact3 0%nat) (exact3 1%nat) (exact3 2%nat)).
    assert (ID : dot EX w = dot nrm v).
    { assert (I : forall r c, (r < 3)%nat -> (c < 3)%nat -> ent m r 0 * N 0%nat c + ent m r 1 * N 1%nat c + ent m r 2 * N 2%nat c = if Nat.eqb r c then 1 else 0).
      { intros r c Hr Hc. destruct (HN r c ltac:(lia) ltac:(lia)) as [_ H]. unfold sum_rows in H. assert (Z : ent m r 3 = 0) by (destruct r as [|[|[|r]]]; [assumption..|lia]). rewrite Z in H. lra. }
      assert (I00 := I 0%nat 0%nat ltac:(lia) ltac:(lia)). assert (I01 := I 0%nat 1%nat ltac:(lia) ltac:(lia)). assert (I02 := I 0%nat 2%nat ltac:(lia) ltac:(lia)).
      assert (I10 := I 1%nat 0%nat ltac:(lia) ltac:(lia)). assert (I11 := I 1%nat 1%nat ltac:(lia) ltac:(lia)). assert (I12 := I 1%nat 2%nat ltac:(lia) ltac:(lia)).
      assert (I20 := I 2%nat 0%nat ltac:(lia) ltac:(lia)). assert (I21 := I 2%nat 1%nat ltac:(lia) ltac:(lia)). assert (I22 := I 2%nat 2%nat ltac:(lia) ltac:(lia)). cbn [Nat.eqb] in * .
      unfold dot, EX, exact3, w, turn; cbn [X3 Y3 Z3]. set (x := X3 nrm). set (y := Y3 nrm). set (z := Z3 nrm). set (p0 := X3 v). set (p1 := Y3 v). set (p2 := Z3 v).
      transitivity (p0 * x * (ent m 0 0 * N 0%nat 0%nat + ent m 0 1 * N 1%nat 0%nat + ent m 0 2 * N 2%nat 0%nat) + p0 * y * (ent m 0 0 * N 0%nat 1%nat + ent m 0 1 * N 1%nat 1%nat + ent m 0 2 * N 2%nat 1%nat) + p0 * z * (ent m 0 0 * N 0%nat 2%nat + ent m 0 1 * N 1%nat 2%nat + ent m 0 2 * N 2%nat 2%nat)
        + p1 * x * (ent m 1 0 * N 0%nat 0%nat + ent m 1 1 * N 1%nat 0%nat + ent m 1 2 * N 2%nat 0%nat) + p1 * y * (ent m 1 0 * N 0%nat 1%nat + ent m 1 1 * N 1%nat 1%nat + ent m 1 2 * N 2%nat 1%nat) + p1 * z * (ent m 1 0 * N 0%nat 2%nat + ent m 1 1 * N 1%nat 2%nat + ent m 1 2 * N 2%nat 2%nat)
        + p2 * x * (ent m 2 0 * N 0%nat 0%nat + ent m 2 1 * N 1%nat 0%nat + ent m 2 2 * N 2%nat 0%nat) + p2 * y * (ent m 2 0 * N 0%nat 1%nat + ent m 2 1 * N 1%nat 1%nat + ent m 2 2 * N 2%nat 1%nat) + p2 * z * (ent m 2 0 * N 0%nat 2%nat + ent m 2 1 * N 1%nat 2%nat + ent m 2 2 * N 2%nat 2%nat)); [ring|].
      rewrite I00, I01, I02, I10, I11, I12, I20, I21, I22. ring. }
    rewrite <- ID, <- dot_minus_l. eapply Rle_trans; [apply cauchy_abs|]. apply Rmult_le_compat_r; [apply norm_nonneg|]. unfold blur. apply norm_mono; unfold vminus, turn, EX, exact3; cbn [X3 Y3 Z3]; rewrite !TE by lia.
    + match goal with |- Rabs ?t <= _ => replace t with ((ent i 0 0 - N 0%nat 0%nat) * X3 nrm + (ent i 0 1 - N 0%nat 1%nat) * Y3 nrm + (ent i 0 2 - N 0%nat 2%nat) * Z3 nrm) by ring end. apply sum3_abs; apply K; lia.
    + match goal with |- Rabs ?t <= _ => replace t with ((ent i 1 0 - N 1%nat 0%nat) * X3 nrm + (ent i 1 1 - N 1%nat 1%nat) * Y3 nrm + (ent i 1 2 - N 1%nat 2%nat) * Z3 nrm) by ring end. apply sum3_abs; apply K; lia.
    + match goal with |- Rabs ?t <= _ => replace t with ((ent i 2 0 - N 2%nat 0%nat) * X3 nrm + (ent i 2 1 - N 2%nat 1%nat) * Y3 nrm + (ent i 2 2 - N 2%nat 2%nat) * Z3 nrm) by ring end. apply sum3_abs; apply K; lia.
Qed.

(** ** a concrete case: a shear with a translation, a ray along the x axis and the plane x = 1 *)
Notation shear := Props_Undo.shear.
Definition shear_normals : mat b32 := M4 (V4 fhalf fzero fzero fzero) (V4 (fneg fhalf) fone fzero fzero) (V4 fzero fzero fone fzero) (V4 fzero fzero fzero fone).
Example C106_ex : let x_axis := V4 fone fzero fzero fzero : V in let r := Ry x_axis x_axis in let p := Pl x_axis fm1 in let nrm := val3 (pl_n p) in
  finite_mat shear /\ finite3 (ray_o r) /\ turns_well shear (way r) /\ frob shear * norm (org r) + norm (shift shear) <= bpow radix2 120 /\
  plane_ok shear shear_normals p /\ normal_defect shear shear_normals nrm 0 /\ dot nrm (mk3 1 2 3) + real (pl_c p) = 0 /\
  norm nrm = 1 /\ Props_Undo.clear shear /\ affine shear /\ Props_Undo.inverse_of Props_Undo.unshear (ent shear).
Proof.
  intros x_axis r p nrm. destruct Props_Undo.C104_ex as (CL & PL & IN & _).
  destruct (lit_real 3 0) as [F3 R3]; try lia. destruct (lit_real 5 0) as [F5 R5]; try lia. change (flit 3 0) with (lit 3 0 : b32) in * . change (flit 5 0) with (lit 5 0 : b32) in * . change (bpow radix2 0) with 1 in * . rewrite !Rmult_1_r in * .
  destruct (fin_of_X _ _ (fone_X : B2X (fone : b32) = Fin 1)) as [FO RO]. assert (FZ : fin (fzero : b32)) by reflexivity. assert (RZ : real (fzero : b32) = 0) by reflexivity. destruct (fin_of_X _ _ (ftwo_X : B2X (ftwo : b32) = Fin 2)) as [FT RT]. destruct (fin_of_X _ _ (fm1_X : B2X (fm1 : b32) = Fin (-1))) as [FM RM].
  destruct (fin_of_X _ _ (fhalf_X : B2X (fhalf : b32) = Fin (/ 2))) as [FH RH]. destruct (Props_Dec.fneg_R _ FH) as [FNH RNH]. rewrite RH in RNH.
  assert (FS : finite_mat shear) by (unfold finite_mat, finite4, shear; cbn; tauto). assert (FN : finite_mat shear_normals) by (unfold finite_mat, finite4, shear_normals; cbn [mx my mz mw vx vy vz vw]; tauto). assert (FX : finite3 x_axis) by (unfold finite3, x_axis; cbn; tauto).
  assert (VX : val3 x_axis = mk3 1 0 0) by (unfold val3, x_axis; cbn [vx vy vz]; now rewrite RO, RZ).
  assert (TX : forall v, turn shear v = mk3 (2 * X3 v) (X3 v + Y3 v) (Z3 v)). { intros v. unfold turn, shear, ent, g_get; cbn [nth mx my mz mw vx vy vz vw]. rewrite RO, RZ, RT. f_equal; ring. }
  assert (TN : forall v, turn shear_normals v = mk3 (/ 2 * X3 v + - / 2 * Y3 v) (Y3 v) (Z3 v)). { intros v. unfold turn, shear_normals, ent, g_get; cbn [nth mx my mz mw vx vy vz vw]. rewrite RO, RZ, RH, RNH. f_equal; ring. }
  assert (SH : shift shear = mk3 3 5 0). { unfold shift, shear, ent, g_get; cbn [nth mx my mz mw vx vy vz vw]. now rewrite R3, R5, RZ. }
  assert (FR : frob shear <= 3). { unfold frob. apply Rsqr_incr_0_var; [|lra]. unfold Rsqr. unfold shear, ent, g_get; cbn [nth mx my mz mw vx vy vz vw]. rewrite RO, RZ, RT. rewrite sqrt_sqrt; lra. }
  assert (FRN : frob shear_normals <= 2). { unfold frob. apply Rsqr_incr_0_var; [|lra]. unfold Rsqr. unfold shear_normals, ent, g_get; cbn [nth mx my mz mw vx vy vz vw]. rewrite RO, RZ, RH, RNH. rewrite sqrt_sqrt; lra. }
  assert (NX : norm (mk3 1 0 0) = 1) by (apply norm_unique; [lra|]; unfold dot; cbn; lra).
  assert (P6 : 64 <= bpow radix2 50) by (change 64 with (bpow radix2 6); apply bpow_le; lia). assert (P6' : 64 <= bpow radix2 100) by (change 64 with (bpow radix2 6); apply bpow_le; lia). assert (P6'' : 64 <= bpow radix2 120) by (change 64 with (bpow radix2 6); apply bpow_le; lia). assert (B10 : bpow radix2 (-10) = / 1024) by (simpl; lra). assert (B20 : bpow radix2 20 = 1048576) by (simpl; lra).
  assert (NSH : norm (shift shear) <= 8) by (rewrite SH; apply norm_le; [lra|]; unfold dot; cbn; lra).
  assert (N1 : 2 <= norm (turn shear (mk3 1 0 0)) <= 3). { rewrite TX. cbn [X3 Y3 Z3]. split; [|apply norm_le; [lra|]; unfold dot; cbn; lra]. assert (norm (mk3 (2 * 1) (1 + 0) 0) * norm (mk3 (2 * 1) (1 + 0) 0) = 5) by (rewrite norm_sq; unfold dot; cbn; lra). pose proof (norm_nonneg (mk3 (2 * 1) (1 + 0) 0)). nra. }
  assert (N2 : norm (turn shear_normals (mk3 1 0 0)) = / 2). { rewrite TN. apply norm_unique; [lra|]. unfold dot; cbn; lra. }
  unfold nrm, r, p, way, org; cbn [ray_o ray_d pl_n pl_c]. rewrite VX.
  refine (conj FS (conj FX (conj _ (conj _ (conj _ (conj _ (conj _ (conj NX (conj CL (conj _ IN)))))))))).
  - split; [lra|]. rewrite NX, B20. lra.
  - rewrite NX. lra.
  - refine (conj FS (conj FN (conj FX (conj FM (conj _ (conj _ (conj _ _))))))); cbn [pl_n]; rewrite ?VX.
    + split; [rewrite N2; lra|]. rewrite NX, N2, B20. lra.
    + lra.
    + rewrite norm_foot. cbn [pl_n pl_c]. rewrite VX, NX, RM, Rabs_left by lra. lra.
    + lra.
  - intros v. rewrite TX, TN. unfold dot; cbn [X3 Y3 Z3]. rewrite (Rmult_0_l (norm _)). match goal with |- Rabs ?t <= 0 => replace t with 0 by lra end. rewrite Rabs_R0. lra.
  - rewrite RM. unfold dot; cbn. lra.
  - destruct PL as (_ & E1 & _ & E2 & _ & _ & _ & E3 & _). exact (conj E1 (conj E2 E3)).
Qed.
