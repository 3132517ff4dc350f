(** * Props_ToAxis: quaternion normalisation, and angle and axis of a quaternion, in binary32 (C108). *)
From Coq Require Import ZArith Reals Bool List Lra Lia Psatz.
From Flocq Require Import Core BinarySingleNaN.
From Verif Require Import Num Simd Vec Rect Box Mat Geo Quat OrdThy FloatThy B32Setup FloatLem ErrThy Props_Err Props_Err2 Props_Err3 Props_Rot Props_Slerp Props_FromMat Props_QAng.
From Verif Require Props_EulF Props_Err4 Props_Err5 Props_Err6 Props_MatX2 RQuat Props_QuatX2 Props_RaySph Props_Dec Props_Proj Props_Eq Props_Euler.
Import ListNotations.
Local Open Scope R_scope.

(** ** specification *)
(** the sum of the squares of the components *)
Definition qsq (q : quat b32) : R := real (qx q) * real (qx q) + real (qy q) * real (qy q) + real (qz q) * real (qz q) + real (qw q) * real (qw q).
Definition finite_q (q : quat b32) : Prop := forall k, fin (qcomp k q).
(** acosf within 2^-22 on [-1, 1] *)
Definition acos_full (L : LibM b32) : Prop := forall x : b32, fin x -> -1 <= real x <= 1 -> within (bpow radix2 (-22)) (facos x) (acos (real x)).

(** ** normalisation *)
Theorem C108_normalize : forall (BK : Backend b32) (q : quat b32) k, estimates_ok BK -> finite_q q -> normal_range BK (qsq q) ->
  within (bpow radix2 (-20) * (Rabs (real (qcomp k q)) * / sqrt (qsq q)) + bpow radix2 (-150)) (qcomp k (quaternion_normalize q)) (real (qcomp k q) * / sqrt (qsq q)).
Proof.
  intros BK q k HB F N. set (v := quaternion_to_vec4 q). assert (F4 : finite4 v) by exact (conj (F 0%nat) (conj (F 1%nat) (conj (F 2%nat) (F 3%nat)))).
  assert (SD : dot4 v v = qsq q) by reflexivity. assert (S4 : dot4 v v = real (vx v) * real (vx v) + real (vy v) * real (vy v) + real (vz v) * real (vz v) + real (vw v) * real (vw v)) by (unfold dot4, dot3, dot2, v; ring).
  rewrite <- SD in * . pose proof (C70_dot4 BK v v F4 F4) as D. rewrite adot4_self in D. pose proof N as [[A B] C].
  assert (R : rel (4.01 * u) (vec4_dot v v) (dot4 v v)) by (apply tol_rel; [apply D; bp 118%Z 126%Z; lra|bp (-100)%Z (-44)%Z; lra]).
  assert (K : forall x, fin x -> real x * real x <= dot4 v v -> _) by (intros x Fx Hx; exact (proj1 (norm_core BK _ x _ HB R N Fx Hx))).
  destruct k as [|[|[|k]]]; (apply K; [apply F|rewrite S4; unfold qcomp, v; cbn [nth quaternion_to_vec4 g_init vx vy vz vw]; nra]) || idtac.
  destruct k; (apply K; [apply (F 3%nat)|rewrite S4; unfold qcomp, v; cbn [nth quaternion_to_vec4 g_init vx vy vz vw]; nra]).
Qed.

Lemma mass4 a b c d : a * a + b * b + c * c + d * d = 1 -> Rabs a + Rabs b + Rabs c + Rabs d <= 2.
Proof.
  intros E. assert (Q : forall v, Rabs v * Rabs v = v * v) by (intros v; rewrite <- Rabs_mult; apply Rabs_pos_eq; nra). rewrite <- (Q a), <- (Q b), <- (Q c), <- (Q d) in E.
  generalize dependent (Rabs a); generalize dependent (Rabs b); generalize dependent (Rabs c); generalize dependent (Rabs d). intros. apply Rsqr_incr_0_var; [unfold Rsqr|lra].
  pose proof (Rle_0_sqr (r - r0)). pose proof (Rle_0_sqr (r - r1)). pose proof (Rle_0_sqr (r - r2)). pose proof (Rle_0_sqr (r0 - r1)). pose proof (Rle_0_sqr (r0 - r2)). pose proof (Rle_0_sqr (r1 - r2)). unfold Rsqr in * . lra.
Qed.
Lemma sq_dev e x X : 0 <= e <= / 1024 -> Rabs (x - X) <= e -> Rabs (x * x - X * X) <= 2 * e * Rabs X + e * e.
Proof.
  intros E H. replace (x * x - X * X) with ((x - X) * (2 * X + (x - X))) by ring. rewrite Rabs_mult. pose proof (Rabs_triang (2 * X) (x - X)) as T. rewrite Rabs_mult, (Rabs_pos_eq 2) in T by lra.
  pose proof (Rabs_pos X). pose proof (Rabs_pos (x - X)). apply Rle_trans with (e * (2 * Rabs X + e)); [apply Rmult_le_compat; try lra; apply Rabs_pos|lra].
Qed.
(** a quaternion near a unit quaternion is still near it after normalisation *)
Lemma normalize_near (BK : Backend b32) (e : R) q Q : estimates_ok BK -> 0 <= e <= / 1024 -> nearby e q Q -> nearby (3.1 * e + 16.2 * u) (quaternion_normalize q) Q.
Proof.
  intros HB E [UQ H]. split; [exact UQ|]. pose proof (unit_sum Q UQ) as SU. assert (V : forall k, Rabs (rcomp k Q) <= 1) by (intros k; now apply rcomp_le).
  assert (FQ : finite_q q) by (intros k; apply H).
  assert (SB : Rabs (qsq q - 1) <= 4.01 * e).
  { pose proof (mass4 _ _ _ _ SU) as M. pose proof (sq_dev e _ _ E (proj2 (H 0%nat))) as D0. pose proof (sq_dev e _ _ E (proj2 (H 1%nat))) as D1. pose proof (sq_dev e _ _ E (proj2 (H 2%nat))) as D2. pose proof (sq_dev e _ _ E (proj2 (H 3%nat))) as D3.
    assert (EE : e * e <= / 1024 * e) by (apply Rmult_le_compat_r; lra). assert (ML : 2 * e * (Rabs (rcomp 0 Q) + Rabs (rcomp 1 Q) + Rabs (rcomp 2 Q) + Rabs (rcomp 3 Q)) <= 2 * e * 2) by (apply Rmult_le_compat_l; lra).
    unfold qsq. change (qcomp 0 q) with (qx q) in D0. change (qcomp 1 q) with (qy q) in D1. change (qcomp 2 q) with (qz q) in D2. change (qcomp 3 q) with (qw q) in D3. apply Rabs_le_inv in D0, D1, D2, D3. apply Rabs_le. lra. }
  apply Rabs_le_inv in SB. set (S := qsq q) in * .
  assert (NR : normal_range BK S). { split; [split|]. - apply Rle_trans with (bpow radix2 (-2)); [apply bpow_le; lia|simpl; lra]. - apply Rle_trans with (bpow radix2 1); [simpl; lra|apply bpow_le; lia].
    - destruct BK; cbn; auto. lra. }
  pose proof (sqrt_sqrt S ltac:(lra)) as SS. assert (SP : 0 < sqrt S) by (apply sqrt_lt_R0; lra). set (n := sqrt S) in * .
  assert (NB : 1 - 2.01 * e <= n <= 1 + 2.01 * e) by (split; nra).
  assert (IB : 1 - 2.02 * e <= / n <= 1 + 2.02 * e). { assert (I : n * / n = 1) by (apply Rinv_r; lra). split; [apply (Rmult_le_reg_l n); [lra|]; rewrite I; nra|apply (Rmult_le_reg_l n); [lra|]; rewrite I; nra]. }
  intros k. destruct (C108_normalize BK q k HB FQ NR) as [FN EN]. fold S n in EN. split; [exact FN|]. destruct (H k) as [FK EK]. specialize (V k). set (x := real (qcomp k q)) in * . set (X := rcomp k Q) in * . set (g := real (qcomp k (quaternion_normalize q))) in * . clearbody g x X n S.
  rewrite U20 in EN. change (bpow radix2 (-150)) with eta in EN. assert (ETA : eta <= / 1000 * u). { change eta with (bpow radix2 (-150)). apply Rle_trans with (bpow radix2 (-40)); [apply bpow_le; lia|simpl; lra]. }
  assert (I0 : 0 < / n) by (apply Rinv_0_lt_compat; lra). assert (AX : Rabs x <= 1 + e). { apply Rabs_le_inv in EK, V. apply Rabs_le. lra. }
  assert (P : Rabs x * / n <= 1.004) by (apply Rle_trans with ((1 + e) * (1 + 2.02 * e)); [apply Rmult_le_compat; try lra; apply Rabs_pos|nra]).
  assert (G : Rabs (x * / n - X) <= 3.05 * e). { replace (x * / n - X) with ((x - X) * / n + X * (/ n - 1)) by ring. eapply Rle_trans; [apply Rabs_triang|]. rewrite !Rabs_mult, (Rabs_pos_eq (/ n)) by lra.
    assert (Rabs (/ n - 1) <= 2.02 * e) by (apply Rabs_le; lra). assert (Rabs (x - X) * / n <= e * 1.003) by (apply Rmult_le_compat; try lra; apply Rabs_pos). assert (Rabs X * Rabs (/ n - 1) <= 1 * (2.02 * e)) by (apply Rmult_le_compat; try lra; apply Rabs_pos). lra. }
  replace (g - X) with ((g - x * / n) + (x * / n - X)) by ring. eapply Rle_trans; [apply Rabs_triang|]. lra.
Qed.

(** ** arc cosine *)
Lemma acos_lip m a b : 0 < m <= 1 -> a < b -> a * a <= 1 - m * m -> b * b <= 1 - m * m -> Rabs (acos b - acos a) <= (b - a) / m.
Proof.
  intros M AB HA HB. assert (RG : forall c, a <= c <= b -> c * c <= 1 - m * m) by (intros c C; destruct (Rle_or_lt 0 c); nra).
  assert (INS : forall c, a <= c <= b -> -1 < c < 1) by (intros c C; specialize (RG c C); assert (0 < m * m) by nra; split; nra).
  destruct (MVT_cor2 acos (fun c => -1 / sqrt (1 - Rsqr c)) a b AB) as (c & EC & C).
  { intros c C. exact (derive_pt_eq_1 _ _ _ _ (derive_pt_acos c (INS c C))). }
  rewrite EC, Rabs_mult, (Rabs_pos_eq (b - a)) by lra. specialize (RG c ltac:(lra)). unfold Rsqr. assert (SQ : m <= sqrt (1 - c * c)) by (rewrite <- (sqrt_square m) by lra; apply sqrt_le_1; nra).
  unfold Rdiv. replace (-1 * / sqrt (1 - c * c)) with (- / sqrt (1 - c * c)) by ring. rewrite Rabs_Ropp, Rabs_inv, (Rabs_pos_eq (sqrt _)) by lra. rewrite Rmult_comm. apply Rmult_le_compat_l; [lra|]. apply Rinv_le_contravar; lra.
Qed.
Lemma acos_near m a b e : 0 < m <= 1 -> Rabs (a - b) <= e -> a * a <= 1 - m * m -> b * b <= 1 - m * m -> Rabs (acos a - acos b) <= e / m.
Proof.
  intros M E HA HB. assert (I : 0 < / m) by (apply Rinv_0_lt_compat; lra). assert (M2 : forall x, x <= e -> x / m <= e / m) by (intros x X; unfold Rdiv; apply Rmult_le_compat_r; lra). apply Rabs_le_inv in E.
  destruct (Rtotal_order a b) as [L|[->|L]].
  - rewrite Rabs_minus_sym. eapply Rle_trans; [exact (acos_lip m a b M L HA HB)|apply M2; lra].
  - rewrite Rminus_eq_0, Rabs_R0. unfold Rdiv. assert (0 <= e) by lra. nra.
  - eapply Rle_trans; [exact (acos_lip m b a M L HB HA)|apply M2; lra].
Qed.

(** ** the code, on a normalised quaternion near Q *)
Lemma guard_off (r : b32) : fin r -> / 100 <= real r -> flt (f2d (fabs r)) (flit 7378697629483821 (-67) : b64) = false.
Proof.
  intros F P. change (flt (f2d (fabs r)) (flit 7378697629483821 (-67) : b64)) with (Bltb (f2d (fabs r)) (flit 7378697629483821 (-67) : b64)). rewrite Bltb_X, f2d_X, fabs_X, (fin_X r F). cbn [xabs]. rewrite Rabs_pos_eq by lra.
  assert (H : xle (B2X (flit 7378697629483821 (-67) : b64)) (Fin (1 * bpow radix2 (-7))) = true). { replace (Fin (1 * bpow radix2 (-7))) with (B2X (flit 1 (-7) : b32)); [rewrite <- f2d_X, <- Bleb_X; vm_compute; reflexivity|]. destruct (lit_real 1 (-7)) as [F1 R1]; try lia. rewrite (fin_X _ F1). f_equal. exact R1. }
  assert (P7 : 1 * bpow radix2 (-7) < real r) by (simpl; lra). destruct (B2X (flit 7378697629483821 (-67) : b64)); try easy. apply xlt_fin_f. apply xle_fin in H. lra.
Qed.
Lemma sine_float (c : b32) (w s E : R) : fin c -> 0 <= E <= 216 * u -> Rabs (real c - w) <= E -> 0 < s -> s * s = 1 - w * w -> / 64 <= s ->
  let r := fsqrt (fsub fone (fmul c c)) in fin r /\ 0.94 * s <= real r /\ Rabs (real r * real r - s * s) <= 2.01 * E + 4.6 * u /\ real c * real c <= 1 - 0.88 * (s * s).
Proof.
  intros F HE D S0 SS SL r. assert (ETA : eta <= / 1000 * u). { change eta with (bpow radix2 (-150)). apply Rle_trans with (bpow radix2 (-40)); [apply bpow_le; lia|simpl; lra]. } assert (E0 : 0 <= eta) by apply bpow_ge_0.
  assert (W : -1 <= w <= 1) by (split; nra). assert (S1 : s <= 1) by nra. assert (SQ : / 4096 <= s * s) by nra.
  assert (D2 : Rabs (real c * real c - w * w) <= 2.001 * E). { eapply Rle_trans; [apply (sq_dev E _ _ ltac:(lra) D)|]. assert (Rabs w <= 1) by (apply Rabs_le; lra). assert (E * Rabs w <= E * 1) by (apply Rmult_le_compat_l; lra). assert (E * E <= / 2000 * E) by (apply Rmult_le_compat_r; lra). lra. }
  apply Rabs_le_inv in D2. set (p := real c * real c) in * . assert (P : 0 <= p <= 1) by (split; [unfold p; nra|lra]).
  assert (P127 : 64 <= bpow radix2 127) by (change 64 with (bpow radix2 6); apply bpow_le; lia). assert (P126 : 64 <= bpow radix2 126) by (change 64 with (bpow radix2 6); apply bpow_le; lia). assert (U : u32 = u) by apply u32_val.
  pose proof (ap_mul0 c c F F ltac:(fold p; rewrite Rabs_pos_eq; lra)) as M. fold p in M. rewrite (Rabs_pos_eq p), U in M by lra. assert (M' : ap (fmul c c) p (1.001 * u)) by (eapply ap_weak; [exact M|]; lra). clear M.
  destruct (fin_of_X _ _ (fone_X : B2X (fone : b32) = Fin 1)) as [FO RO]. assert (HO : ap fone 1 0) by (rewrite <- RO; now apply ap_refl).
  pose proof (ap_sub _ _ _ _ _ _ (1 - p + 1.001 * u) HO M' ltac:(rewrite Rabs_pos_eq; lra) ltac:(lra)) as X. rewrite U in X. destruct (ap_fin _ _ _ X) as [FX EX]. fold r in FX, EX. set (x := fsub fone (fmul c c)) in * .
  assert (UP : u * (1 - p + 1.001 * u) <= 1.001 * u) by lra. assert (EX2 : Rabs (real x - (1 - p)) <= 2.01 * u) by lra. clear EX UP. apply Rabs_le_inv in EX2.
  destruct (Props_RaySph.sqrt_w x FX ltac:(lra) ltac:(lra)) as (FR & R0 & ER). fold r in FR, R0, ER. apply Rabs_le_inv in ER. split; [exact FR|].
  assert (K : Rabs (real r * real r - s * s) <= 2.01 * E + 4.6 * u) by (apply Rabs_le; lra). split; [|split; [exact K|lra]].
  apply Rabs_le_inv in K. apply Rsqr_incr_0_var; [unfold Rsqr|exact R0]. lra.
Qed.
Lemma axis_float (x r : b32) (X s E : R) : fin x -> fin r -> 0 <= E <= 216 * u -> Rabs (real x - X) <= E -> / 64 <= s <= 1 -> Rabs X <= s -> 0.94 * s <= real r -> Rabs (real r * real r - s * s) <= 2.01 * E + 4.6 * u ->
  within ((2.2 * E + 4 * u) / (s * s)) (fdiv x r) (X / s).
Proof.
  intros FX FR HE D S HX RL K. assert (ETA : eta <= / 1000 * u). { change eta with (bpow radix2 (-150)). apply Rle_trans with (bpow radix2 (-40)); [apply bpow_le; lia|simpl; lra]. }
  set (p := real r) in * . assert (IP : 0 < / p) by (apply Rinv_0_lt_compat; lra). assert (IS : 1 <= / s). { rewrite <- Rinv_1. apply Rinv_le_contravar; lra. } assert (IS64 : / s <= 64) by (replace 64 with (/ / 64) by lra; apply Rinv_le_contravar; lra).
  assert (IPS : / p <= 1.064 * / s). { apply (Rmult_le_reg_l p); [lra|]. rewrite Rinv_r by lra. assert (p * / s >= 0.94 * s * / s) by (apply Rle_ge, Rmult_le_compat_r; lra). rewrite Rmult_assoc, Rinv_r in H by lra. lra. }
  assert (DI : Rabs (/ p - / s) <= 0.549 * (2.01 * E + 4.6 * u) * (/ s * / s * / s)).
  { replace (/ p - / s) with (- (p * p - s * s) * (/ p * / s * / (p + s))) by (field; split; [|split]; lra). rewrite Rabs_mult, Rabs_Ropp. assert (IQ : 0 < / (p + s)) by (apply Rinv_0_lt_compat; lra).
    assert (IQS : / (p + s) <= 0.5155 * / s). { apply (Rmult_le_reg_l (p + s)); [lra|]. rewrite Rinv_r by lra. assert ((p + s) * / s >= 1.94 * s * / s) by (apply Rle_ge, Rmult_le_compat_r; lra). rewrite Rmult_assoc, Rinv_r in H by lra. lra. }
    assert (P1 : 0 <= / p * / s) by (apply Rmult_le_pos; lra). assert (P2 : 0 <= / p * / s * / (p + s)) by (apply Rmult_le_pos; lra). rewrite (Rabs_pos_eq (_ * _ * _)) by exact P2.
    assert (Q1 : / p * / s <= 1.064 * / s * / s) by (apply Rmult_le_compat_r; lra). assert (Q2 : / p * / s * / (p + s) <= 1.064 * / s * / s * (0.5155 * / s)) by (apply Rmult_le_compat; lra).
    apply Rle_trans with ((2.01 * E + 4.6 * u) * (1.064 * / s * / s * (0.5155 * / s))); [apply Rmult_le_compat; try lra; apply Rabs_pos|]. assert (0 <= (2.01 * E + 4.6 * u) * (/ s * / s * / s)) by (apply Rmult_le_pos; [lra|]; apply Rmult_le_pos; [apply Rmult_le_pos|]; lra). nra. }
  assert (IQ : 1 <= / s * / s <= 4096) by nra.
  assert (G : Rabs (real x / p - X / s) <= (2.17 * E + 2.53 * u) * (/ s * / s)).
  { replace (real x / p - X / s) with ((real x - X) * / p + X * (/ p - / s)) by (field; lra). eapply Rle_trans; [apply Rabs_triang|]. rewrite !Rabs_mult, (Rabs_pos_eq (/ p)) by lra.
    assert (A1 : Rabs (real x - X) * / p <= E * (1.064 * / s)) by (apply Rmult_le_compat; try lra; apply Rabs_pos). assert (A2 : 1 * / s <= / s * / s) by (apply Rmult_le_compat_r; lra). assert (A3 : 1.064 * E * / s <= 1.064 * E * (/ s * / s)) by (apply Rmult_le_compat_l; lra).
    assert (B1 : Rabs X * Rabs (/ p - / s) <= s * (0.549 * (2.01 * E + 4.6 * u) * (/ s * / s * / s))) by (apply Rmult_le_compat; try lra; apply Rabs_pos).
    replace (s * (0.549 * (2.01 * E + 4.6 * u) * (/ s * / s * / s))) with (0.549 * (2.01 * E + 4.6 * u) * (/ s * / s)) in B1 by (field; lra). assert (EI : 0 <= E * (/ s * / s)) by (apply Rmult_le_pos; lra). lra. }
  assert (XS : Rabs (X / s) <= 1). { unfold Rdiv. rewrite Rabs_mult, (Rabs_pos_eq (/ s)) by lra. replace 1 with (s * / s) by (apply Rinv_r; lra). apply Rmult_le_compat_r; lra. }
  assert (GB : (2.17 * E + 2.53 * u) * (/ s * / s) <= 0.2) by (apply Rle_trans with ((2.17 * (216 * u) + 2.53 * u) * 4096); [apply Rmult_le_compat; lra|lra]).
  assert (XP : Rabs (real x / p) <= 1.2). { apply Rabs_le_inv in G, XS. apply Rabs_le. lra. }
  destruct (Props_Proj.div_raw x r FX FR ltac:(fold p; lra)) as [FD ED]. { fold p. apply Rle_trans with (bpow radix2 1); [simpl; lra|apply bpow_le; lia]. }
  fold p in ED. split; [exact FD|]. change (bpow radix2 (-150)) with eta in ED. replace (real (fdiv x r) - X / s) with ((real (fdiv x r) - real x / p) + (real x / p - X / s)) by ring. eapply Rle_trans; [apply Rabs_triang|].
  replace ((2.2 * E + 4 * u) / (s * s)) with ((2.2 * E + 4 * u) * (/ s * / s)) by (field; lra). assert (1.3 * u * 1 <= 1.3 * u * (/ s * / s)) by (apply Rmult_le_compat_l; lra). nra.
Qed.

(** ** C108 *)
(** the k-th component of an axis *)
Definition acomp (k : nat) (v : V) : b32 := nth k [vec3_get_x v; vec3_get_y v] (vec3_get_z v).
Theorem C108_to_angle_vec3 : forall (BK : Backend b32) (L : LibM b32) (q : quat b32) (Q : RQ) (e s : R), estimates_ok BK -> acos_full L -> 0 <= e <= bpow radix2 (-18) -> nearby e q Q ->
  / 64 <= s -> s * s = 1 - rcomp 3 Q * rcomp 3 Q ->
  let r := quaternion_to_angle_vec3 q in
  fin (fst r) /\ Rabs (radians (fst r) - 2 * acos (rcomp 3 Q)) <= (7 * e + bpow radix2 (-18)) / s /\
  forall k, (k < 3)%nat -> within ((7 * e + 40 * u) / (s * s)) (acomp k (snd r)) (rcomp k Q / s).
Proof.
  intros BK L q Q e s HB HL HE NQ SL SS r. assert (U18 : bpow radix2 (-18) = 64 * u) by (simpl; lra). rewrite U18 in * .
  assert (ETA : eta <= / 1000 * u). { change eta with (bpow radix2 (-150)). apply Rle_trans with (bpow radix2 (-40)); [apply bpow_le; lia|simpl; lra]. } assert (E0 : 0 <= eta) by apply bpow_ge_0.
  destruct (normalize_near BK e q Q HB ltac:(lra) NQ) as [UQ H]. set (E := 3.1 * e + 16.2 * u) in * . assert (EB : 0 <= E <= 216 * u) by (unfold E; lra). pose proof (unit_sum Q UQ) as SU.
  set (n := quaternion_normalize q) in * . destruct (H 3%nat) as [FC EC]. change (qcomp 3 n) with (qw n) in FC, EC. set (c := qw n) in * . set (w := rcomp 3 Q) in * .
  destruct (sine_float c w s E FC EB EC ltac:(lra) SS SL) as (FR & RL & K & CB). set (rt := fsqrt (fsub fone (fmul c c))) in * .
  assert (S1 : s <= 1) by nra. assert (IS : 0 < / s) by (apply Rinv_0_lt_compat; lra). assert (IS1 : 1 <= / s) by (rewrite <- Rinv_1; apply Rinv_le_contravar; lra).
  assert (RE : r = (rad_to_deg (fmul (facos c) ftwo), vec3_init (fdiv (qx n) rt) (fdiv (qy n) rt) (fdiv (qz n) rt))).
  { unfold r, quaternion_to_angle_vec3. cbv zeta. fold n. fold c. fold rt. rewrite (guard_off rt FR) by lra. reflexivity. }
  rewrite RE. cbn [fst snd].
  assert (AX : forall k, (k < 3)%nat -> within ((7 * e + 40 * u) / (s * s)) (fdiv (qcomp k n) rt) (rcomp k Q / s)).
  { intros k Hk. destruct (H k) as [FK EK]. assert (XS : Rabs (rcomp k Q) <= s). { rewrite <- (Rabs_pos_eq s) by lra. apply Rsqr_le_abs_0. unfold Rsqr. destruct k as [|[|[|k]]]; [| | |lia]; nra. }
    destruct (axis_float (qcomp k n) rt (rcomp k Q) s E FK FR EB EK ltac:(lra) XS RL K) as [F D]. split; [exact F|]. eapply Rle_trans; [exact D|]. unfold Rdiv. apply Rmult_le_compat_r; [|unfold E; lra]. left. apply Rinv_0_lt_compat. nra. }
  assert (SSQ : 0 < s * s) by nra.
  assert (AC : Rabs (acos (real c) - acos w) <= 1.07 * E * / s).
  { assert (M : 0 < 0.938 * s <= 1) by lra. pose proof (acos_near (0.938 * s) (real c) w E M EC ltac:(lra) ltac:(lra)) as Z. eapply Rle_trans; [exact Z|]. unfold Rdiv. rewrite Rinv_mult. assert (0 <= E * / s) by (apply Rmult_le_pos; lra). lra. }
  destruct (HL c FC ltac:(nra)) as [FA EA]. change (bpow radix2 (-22)) with (/ 4194304) in EA. pose proof (acos_bound (real c)) as AB. pose proof Props_Euler.PI_bounds as PB. set (al := acos (real c)) in * . set (a := facos c) in * .
  assert (AAB : Rabs (real a) <= 3.142). { apply Rabs_le_inv in EA. apply Rabs_le. lra. }
  destruct (fin_of_X _ _ (ftwo_X : B2X (ftwo : b32) = Fin 2)) as [FT RT]. assert (P127 : 64 <= bpow radix2 127) by (change 64 with (bpow radix2 6); apply bpow_le; lia).
  assert (R2 : Rabs (real a * real ftwo) <= 6.284) by (rewrite RT, Rabs_mult, (Rabs_pos_eq 2) by lra; lra).
  destruct (ap_fin _ _ _ (ap_mul0 a ftwo FA FT ltac:(lra))) as [FM EM]. rewrite u32_val in EM. rewrite RT in EM, R2. set (m := fmul a ftwo) in * .
  assert (EM' : Rabs (real m - 2 * real a) <= 6.29 * u). { replace (2 * real a) with (real a * 2) by ring. eapply Rle_trans; [exact EM|]. lra. }
  assert (MB : Rabs (real m) <= 6.285). { apply Rabs_le_inv in EM', R2. apply Rabs_le. lra. }
  destruct (Props_Euler.r2d_err m FM) as [FD ED]. { apply Rle_trans with (bpow radix2 3); [simpl; lra|apply bpow_le; lia]. }
  split; [exact FD|]. split.
  - unfold radians. set (d := real (rad_to_deg m)) in * . assert (U23 : bpow radix2 (-23) = 2 * u) by (simpl; lra). rewrite U23 in ED.
    assert (PP : 0 < PI / 180 <= 0.02) by lra. replace (d * (PI / 180) - 2 * acos w) with ((d - real m * (180 / PI)) * (PI / 180) + (real m - 2 * real a) + 2 * (real a - al) + 2 * (al - acos w)) by (field; lra).
    assert (T1 : Rabs ((d - real m * (180 / PI)) * (PI / 180)) <= 12.6 * u).
    { rewrite Rabs_mult, (Rabs_pos_eq (PI / 180)) by lra. apply Rle_trans with ((2 * u * Rabs (real m * (180 / PI)) + eta) * (PI / 180)); [apply Rmult_le_compat_r; lra|].
      rewrite Rmult_plus_distr_r, Rmult_assoc. rewrite <- (Rabs_pos_eq (PI / 180)) at 1 by lra. rewrite <- Rabs_mult. replace (real m * (180 / PI) * (PI / 180)) with (real m) by (field; lra). assert (eta * (PI / 180) <= eta * 0.02) by (apply Rmult_le_compat_l; lra). lra. }
    assert (U1 : 27 * u * 1 <= 27 * u * / s) by (apply Rmult_le_compat_l; lra). assert (EE : 2.14 * E * / s <= (6.64 * e + 34.7 * u) * / s) by (apply Rmult_le_compat_r; [lra|unfold E; lra]). assert (G : 0 <= e * / s) by (apply Rmult_le_pos; lra).
    apply Rabs_le_inv in T1, EM', EA, AC. unfold Rdiv in * . apply Rabs_le. lra.
  - intros k Hk. specialize (AX k Hk). destruct k as [|[|[|k]]]; [exact AX|exact AX|exact AX|lia].
Qed.

Theorem C108_round_trip : forall (BK : Backend b32) (L : LibM b32) (a : b32) (v : V), estimates_ok BK -> libm_accurate L -> acos_full L -> fin a -> 0 <= real a <= 360 -> finite3 v -> normal_range BK (dot3 v v) ->
  let s := sin (radians a / 2) in / 64 <= s ->
  let r := quaternion_to_angle_vec3 (quaternion_init_from_angle_vec3 a v) in
  fin (fst r) /\ Rabs (radians (fst r) - radians a) <= bpow radix2 (-15) / s /\ forall k, (k < 3)%nat -> within (bpow radix2 (-15) / (s * s)) (acomp k (snd r)) (unit_axis v k).
Proof.
  intros BK L a v HB HL HA FA AR FV NV s SL r. pose proof Props_Euler.PI_bounds as PB. assert (U15 : bpow radix2 (-15) = 512 * u) by (simpl; lra).
  assert (RA : radians a = real a * (PI / 180)) by reflexivity. set (t := radians a) in * . assert (TR : 0 <= t <= 2 * PI). { rewrite RA. assert (0 <= PI / 180) by lra. split; [apply Rmult_le_pos; lra|]. apply Rle_trans with (360 * (PI / 180)); [apply Rmult_le_compat_r; lra|lra]. }
  assert (GT : good_turn BK 6.2832 (a, v)). { refine (conj FA (conj _ (conj _ (conj FV NV)))); cbn [fst snd]. - apply Rle_trans with (bpow radix2 9); [simpl; apply Rabs_le; lra|apply bpow_le; lia]. - fold t. apply Rabs_le; lra. }
  pose proof (C90_quaternion_from_axis BK L 6.2832 a v HB HL GT) as W. cbv beta zeta in W. destruct W as (W0 & W1 & W2 & W3). fold t in W0, W1, W2, W3.
  assert (EE : bpow radix2 (-19) + bpow radix2 (-22) * Rabs 6.2832 <= 57.2 * u). { rewrite Rabs_pos_eq by lra. simpl. lra. }
  assert (UN : unit_axis v 0 * unit_axis v 0 + unit_axis v 1 * unit_axis v 1 + unit_axis v 2 * unit_axis v 2 = 1) by apply (normalize3_close BK v HB FV NV).
  set (h := half_angle (unit_axis v) t) in * . set (Q := RQuat.RQ4 (h 0%nat) (h 1%nat) (h 2%nat) (h 3%nat)). pose proof (sin2_cos2 (t / 2)) as SC. unfold Rsqr in SC.
  assert (H3 : h 3%nat = cos (t / 2)) by reflexivity. assert (H0 : forall j, (j < 3)%nat -> h j = unit_axis v j * s) by (intros j Hj; unfold h, half_angle; destruct (Nat.ltb_spec j 3); [reflexivity|lia]).
  assert (UQ : unit_q Q). { unfold RQuat.unit_q, RQuat.qdot, Props_MatX2.dot, Q, RQuat.RQ4; cbn [RQuat.qs RQuat.qv Props_MatX2.r3x Props_MatX2.r3y Props_MatX2.r3z]. rewrite H3, !H0 by lia. fold s in SC. nra. }
  set (q := quaternion_init_from_angle_vec3 a v) in * .
  assert (NB : nearby (57.2 * u) q Q). { split; [exact UQ|]. intros k. assert (WK : forall e x y, within e x y -> e <= 57.2 * u -> within (57.2 * u) x y) by (intros e x y [F E] L1; split; [exact F|lra]).
    destruct k as [|[|[|k]]]; [exact (WK _ _ _ W0 EE)|exact (WK _ _ _ W1 EE)|exact (WK _ _ _ W2 EE)|]. assert (W3' := WK _ _ _ W3 EE). destruct k; exact W3'. }
  assert (U18 : bpow radix2 (-18) = 64 * u) by (simpl; lra). fold s in SC.
  destruct (C108_to_angle_vec3 BK L q Q (57.2 * u) s HB HA ltac:(rewrite U18; lra) NB SL) as (F1 & F2 & F3). { change (rcomp 3 Q) with (cos (t / 2)). lra. }
  fold r in F1, F2, F3. assert (IS : 0 < / s) by (apply Rinv_0_lt_compat; lra). split; [exact F1|]. split.
  - change (rcomp 3 Q) with (cos (t / 2)) in F2. rewrite acos_cos in F2 by lra. replace (2 * (t / 2)) with t in F2 by field. eapply Rle_trans; [exact F2|]. unfold Rdiv. apply Rmult_le_compat_r; lra.
  - intros k Hk. destruct (F3 k Hk) as [FK EK]. assert (RC : rcomp k Q = h k) by (destruct k as [|[|[|k]]]; [reflexivity|reflexivity|reflexivity|lia]). rewrite RC, (H0 k Hk) in EK. replace (unit_axis v k * s / s) with (unit_axis v k) in EK by (field; lra).
    split; [exact FK|]. eapply Rle_trans; [exact EK|]. unfold Rdiv. apply Rmult_le_compat_r; [|lra]. left. apply Rinv_0_lt_compat. nra.
Qed.

(** ** the hypotheses can be met: C102's library functions, a turn by 90 degrees about (3, -4, 12) *)
Lemma libm_ac_full : acos_full libm_ac.
Proof.
  intros x _ X. pose proof (acos_bound (real x)) as B. pose proof Props_Euler.PI_bounds as PB. change (@facos _ libm_ac x) with (flit (ZnearestE (acos (real x) * 4194304)) (-22) : b32). set (r := acos (real x)) in * . pose proof (Znearest_half (fun x => negb (Z.even x)) (r * 4194304)) as Q. fold (ZnearestE) in Q. set (z := ZnearestE (r * 4194304)) in * . apply Rabs_le_inv in Q.
  destruct (lit_real z (-22)) as [F E]; [|lia|lia|].
  - assert (A1 : IZR z < IZR 14000000) by lra. assert (A2 : IZR (-10) < IZR z) by lra. apply lt_IZR in A1, A2. lia.
  - split; auto. rewrite E. change (bpow radix2 (-22)) with (/ 4194304). apply Rabs_le. lra.
Qed.
Example C108_ex : forall BK : Backend b32, let a := flit 90 0 : b32 in let v := vec3_init (flit 3 0) (flit (-4) 0) (flit 12 0) in
  libm_accurate libm_ac /\ acos_full libm_ac /\ fin a /\ 0 <= real a <= 360 /\ finite3 v /\ normal_range BK (dot3 v v) /\ / 64 <= sin (radians a / 2).
Proof.
  intros BK a v. destruct (C70_ex BK) as (FV & NV & _). destruct (lit_real 90 0) as [F R1]; try lia. change (bpow radix2 0) with 1 in R1. fold a in F, R1.
  refine (conj (proj1 libm_ac_ok) (conj libm_ac_full (conj F (conj _ (conj FV (conj NV _)))))); [lra|]. unfold radians. replace (real a * (PI / 180) / 2) with (PI / 4) by (rewrite R1; field). pose proof Props_Euler.PI_bounds. pose proof (sin_low (PI / 4) ltac:(lra)). lra.
Qed.
(** a quaternion to normalise: (3, -4, 12, 0) *)
Example C108_ex_normalize : forall BK : Backend b32, let q := Qt (flit 3 0) (flit (-4) 0) (flit 12 0) (flit 0 0) : quat b32 in finite_q q /\ normal_range BK (qsq q) /\ sqrt (qsq q) = 13.
Proof.
  intros BK q. destruct (lit_real 3 0) as [F1 R1]; try lia. destruct (lit_real (-4) 0) as [F2 R2]; try lia. destruct (lit_real 12 0) as [F3 R3]; try lia. destruct (lit_real 0 0) as [F4 R4]; try lia. change (bpow radix2 0) with 1 in * .
  assert (E : qsq q = 169). { unfold qsq, q; cbn [qx qy qz qw]. rewrite R1, R2, R3, R4. lra. }
  split; [|split].
  - intros k. destruct k as [|[|[|k]]]; [assumption|assumption|assumption|destruct k; assumption].
  - rewrite E. split; [split|]. + apply Rle_trans with (bpow radix2 0); [apply bpow_le; lia|simpl; lra]. + apply Rle_trans with (bpow radix2 8); [simpl; lra|apply bpow_le; lia]. + destruct BK; cbn; auto. lra.
  - rewrite E. replace 169 with (13 * 13) by ring. apply sqrt_square. lra.
Qed.
