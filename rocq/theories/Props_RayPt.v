(** * Props_RayPt: nearest point of a ray, and its distance to a plane, in binary32 (C94). *)
From Coq Require Import ZArith Reals Bool List Lra Lia Psatz.
From Flocq Require Import Core BinarySingleNaN.
From Verif Require Import Num Simd Vec Rect Box Mat Geo Quat OrdThy FloatThy B32Setup FloatLem ErrThy Props_Err Props_Err2 Props_Err3 ErrEx Props_Err5 Props_RaySph.
Import ListNotations.
Local Open Scope R_scope.

(** ** specification *)
(** squared distance between the point p and the point of the ray with parameter k *)
Definition gap2 (r : ray b32) (p : point3d b32) (k : R) : R :=
  sq (real (vx (ray_o r)) + k * real (vx (ray_d r)) - real (p3x p)) +
  sq (real (vy (ray_o r)) + k * real (vy (ray_d r)) - real (p3y p)) +
  sq (real (vz (ray_o r)) + k * real (vz (ray_d r)) - real (p3z p)).
Definition near (r : ray b32) (p : point3d b32) : Prop :=
  finite3 (ray_o r) /\ finite3 (ray_d r) /\ fin (p3x p) /\ fin (p3y p) /\ fin (p3z p) /\ Rabs (dot3 (ray_d r) (ray_d r) - 1) <= bpow radix2 (-18) /\ gap2 r p 0 <= bpow radix2 100.
(** how far the point is from the origin of the ray *)
Definition reach (r : ray b32) (p : point3d b32) : R := sqrt (gap2 r p 0 + bpow radix2 (-80)).

(** ** C94: the nearest point *)
(** the answer is, up to rounding, the point of the ray with some parameter t, and no point of the ray is nearer by more than rounding *)
Theorem C94_closest_point : forall (BK : Backend b32) (r : ray b32) (p : point3d b32), near r p ->
  upto3 60 (ray_o r) ->
  let q := ray_get_closest_point_to_point r p in let ok := fun (c o d : b32) (t : R) => within (bpow radix2 (-22) * (Rabs (real o) + reach r p)) c (real o + t * real d) in
  exists t, 0 <= t /\
    (ok (p3x q) (vx (ray_o r)) (vx (ray_d r)) t /\ ok (p3y q) (vy (ray_o r)) (vy (ray_d r)) t /\ ok (p3z q) (vz (ray_o r)) (vz (ray_d r)) t) /\
    (forall k, 0 <= k -> gap2 r p t <= gap2 r p k + bpow radix2 (-35) * sq (reach r p)).
Proof.
  intros BK r p (FO & FD & C1 & C2 & C3 & HU & HV) UO q ok.
  destruct FO as (O1 & O2 & O3). pose proof FD as (D1 & D2 & D3).
  set (V1 := real (p3x p) - real (vx (ray_o r))). set (V2 := real (p3y p) - real (vy (ray_o r))). set (V3 := real (p3z p) - real (vz (ray_o r))).
  set (x := real (vx (ray_d r))) in * . set (y := real (vy (ray_d r))) in * . set (z := real (vz (ray_d r))) in * .
  set (VV := V1 * V1 + V2 * V2 + V3 * V3). set (T := V1 * x + V2 * y + V3 * z). set (DD := x * x + y * y + z * z).
  assert (EF : forall k, gap2 r p k = VV - 2 * k * T + k * k * DD) by (intros k; unfold gap2, sq, VV, T, DD, V1, V2, V3; fold x y z; ring).
  assert (E0 : gap2 r p 0 = VV) by (rewrite EF; ring).
  set (Q := VV + bpow radix2 (-80)). set (M := sqrt Q). assert (EM : reach r p = M) by (unfold reach, M, Q; now rewrite E0).
  pose proof (bpow_gt_0 radix2 (-80)) as P80. assert (V0 : 0 <= VV) by (unfold VV; nra).
  assert (Q0 : 0 < Q) by (unfold Q; lra). assert (MM : M * M = Q) by (apply sqrt_sqrt; lra). assert (M0 : 0 < M) by (now apply sqrt_lt_R0).
  assert (MB : bpow radix2 (-40) <= M). { apply Rsqr_incr_0_var; [|lra]. unfold Rsqr. rewrite MM, <- bpow_plus. change (-40 + -40)%Z with (-80)%Z. unfold Q. lra. }
  assert (QB : Q <= bpow radix2 102). { rewrite E0 in HV. assert (bpow radix2 102 = 4 * bpow radix2 100) by (change 102%Z with (2 + 100)%Z; now rewrite bpow_plus). assert (bpow radix2 (-80) <= bpow radix2 100) by (apply bpow_le; lia). unfold Q. lra. }
  assert (MB2 : M <= bpow radix2 51). { apply Rsqr_incr_0_var; [|apply bpow_ge_0]. unfold Rsqr. rewrite MM, <- bpow_plus. exact QB. }
  assert (T1 : bpow radix2 (-147) <= / 1000 * u * M). { apply Rle_trans with (bpow radix2 (-40) * bpow radix2 (-40)); [rewrite <- bpow_plus; apply bpow_le; lia|]. apply Rle_trans with (bpow radix2 (-40) * M); [apply Rmult_le_compat_l; auto using bpow_ge_0|]. apply Rmult_le_compat_r; [lra|]. simpl. lra. }
  assert (HD : Rabs (DD - 1) <= 64 * u). { unfold dot3, dot2 in HU. fold x y z in HU. change (bpow radix2 (-18)) with (/ 262144) in HU. unfold DD. lra. }
  assert (HT : T * T <= VV * DD) by apply cauchy. assert (HS : VV + 0 * 0 <= M * M) by (rewrite MM; unfold Q; lra).
  assert (BD : DD <= 1.0001) by (apply Rabs_le_inv in HD; lra).
  assert (CB : forall a, a * a <= DD -> Rabs a <= 1.001). { intros a H. rewrite <- (Rabs_pos_eq 1.001) by lra. apply Rsqr_le_abs_0. unfold Rsqr. lra. }
  pose proof (CB x ltac:(unfold DD; nra)) as Bx. pose proof (CB y ltac:(unfold DD; nra)) as By. pose proof (CB z ltac:(unfold DD; nra)) as Bz.
  assert (VB : forall a, a * a <= VV -> Rabs a <= M). { intros a H. rewrite <- (Rmult_1_l M). apply sq_le; [lra|lra|]. rewrite MM. unfold Q. lra. }
  pose proof (VB V1 ltac:(unfold VV; nra)) as B1. pose proof (VB V2 ltac:(unfold VV; nra)) as B2. pose proof (VB V3 ltac:(unfold VV; nra)) as B3.
  assert (P127 : bpow radix2 51 <= bpow radix2 127) by (apply bpow_le; lia). assert (P127' : 2 * bpow radix2 51 <= bpow radix2 127) by (change 2 with (bpow radix2 1); rewrite <- bpow_plus; apply bpow_le; lia).
  unfold ray_get_closest_point_to_point in q. set (w := vec3_subtract (point3d_to_vec3 p) (ray_o r)) in * .
  destruct (sub_w (p3x p) (vx (ray_o r)) M C1 O1 B1 ltac:(lra)) as [F1 E1]. destruct (sub_w (p3y p) (vy (ray_o r)) M C2 O2 B2 ltac:(lra)) as [F2 E2]. destruct (sub_w (p3z p) (vz (ray_o r)) M C3 O3 B3 ltac:(lra)) as [F3 E3].
  change (fsub (p3x p) (vx (ray_o r))) with (vx w) in * . change (fsub (p3y p) (vy (ray_o r))) with (vy w) in * . change (fsub (p3z p) (vz (ray_o r))) with (vz w) in * .
  fold V1 in E1. fold V2 in E2. fold V3 in E3.
  assert (FW : finite3 w) by (split; [exact F1|split; [exact F2|exact F3]]).
  set (w1 := real (vx w)) in * . set (w2 := real (vy w)) in * . set (w3 := real (vz w)) in * .
  assert (WB : forall w V, Rabs (w - V) <= u * Rabs V -> Rabs V <= M -> Rabs w <= 1.001 * M).
  { intros w0 v0 H1 H2. replace w0 with ((w0 - v0) + v0) by ring. eapply Rle_trans; [apply Rabs_triang|]. pose proof (Rabs_pos v0). lra. }
  pose proof (WB _ _ E1 B1) as W1. pose proof (WB _ _ E2 B2) as W2. pose proof (WB _ _ E3 B3) as W3.
  assert (PM : forall a b A B, Rabs a <= A -> Rabs b <= B -> Rabs (a * b) <= A * B) by (intros; rewrite Rabs_mult; apply Rmult_le_compat; auto using Rabs_pos).
  assert (AD : adot3 w (ray_d r) <= 3.01 * M).
  { unfold adot3, adot2. fold w1 w2 w3 x y z. pose proof (PM _ _ _ _ W1 Bx). pose proof (PM _ _ _ _ W2 By). pose proof (PM _ _ _ _ W3 Bz). lra. }
  destruct (C70_dot3 BK w (ray_d r) FW FD) as [FT ET].
  { eapply Rle_trans; [exact AD|]. apply Rle_trans with (bpow radix2 2 * bpow radix2 51); [simpl (bpow radix2 2); lra|]. rewrite <- bpow_plus. apply bpow_le. lia. }
  set (tca := vec3_dot w (ray_d r)) in * .
  assert (HA : Rabs (real tca - T) <= 16 * u * M).
  { unfold tol in ET. change (bpow radix2 (-22)) with (/ 4194304) in ET.
    assert (DW : Rabs (dot3 w (ray_d r) - T) <= 3.01 * u * M).
    { unfold dot3, dot2, T. fold w1 w2 w3 x y z. replace (_ - _) with ((w1 - V1) * x + (w2 - V2) * y + (w3 - V3) * z) by ring.
      assert (U : forall a v, Rabs (a - v) <= u * Rabs v -> Rabs v <= M -> Rabs (a - v) <= u * M) by (intros; eapply Rle_trans; [eassumption|]; lra).
      pose proof (PM _ _ _ _ (U _ _ E1 B1) Bx) as A1. pose proof (PM _ _ _ _ (U _ _ E2 B2) By) as A2. pose proof (PM _ _ _ _ (U _ _ E3 B3) Bz) as A3.
      apply Rabs_le_inv in A1, A2, A3. apply Rabs_le. lra. }
    eapply Rle_trans; [exact (tri _ _ _ _ _ ET DW)|]. lra. }
  set (a := real tca) in * .
  pose proof (a_b VV T DD 0 M a V0 M0 HS HT HD HA) as AB.
  assert (DL : 0.9999 <= DD <= 1.0001) by (apply Rabs_le_inv in HD; lra). set (i := / DD). assert (I0 : 0.9998 <= i <= 1.0002). { unfold i. split; [replace 0.9998 with (/ (/ 0.9998)) by lra; apply Rinv_le_contravar; lra|replace 1.0002 with (/ (/ 1.0002)) by lra; apply Rinv_le_contravar; lra]. } assert (DI : DD * i = 1) by (unfold i; field; lra).
  assert (SQF : forall k, VV - 2 * k * T + k * k * DD = VV - T * T * i + DD * ((k - T * i) * (k - T * i))). { intros k. transitivity (VV - 2 * k * T * (DD * i) + k * k * DD + T * T * i * (DD * i - 1)); [rewrite DI; ring|ring]. }
  assert (FL : forall k, VV - T * T * i <= VV - 2 * k * T + k * k * DD). { intros k. rewrite SQF. pose proof (Rle_0_sqr (k - T * i)) as S0. unfold Rsqr in S0. assert (0 <= DD * ((k - T * i) * (k - T * i))) by (apply Rmult_le_pos; lra). lra. }
  assert (FZ : fin (fzero : b32)) by reflexivity. assert (RZ : real (fzero : b32) = 0) by reflexivity.
  rewrite EM. change (bpow radix2 (-35)) with (/ 34359738368). unfold ok. rewrite EM. change (bpow radix2 (-22)) with (/ 4194304). unfold sq. rewrite MM.
  destruct (flt tca fzero) eqn:Z.
  - apply flt_R in Z; auto. rewrite RZ in Z. fold a in Z. exists 0. split; [lra|]. split.
    + assert (KK : forall o d : b32, fin o -> within (/ 4194304 * (Rabs (real o) + M)) o (real o + 0 * real d)).
      { intros o d F. split; auto. replace (real o - (real o + 0 * real d)) with 0 by ring. rewrite Rabs_R0. pose proof (Rabs_pos (real o)). lra. }
      unfold q, point3d_init_from_vec3, point3d_init_from_simd4f; cbn. split; [|split]; apply KK; auto.
    + intros k K. rewrite !EF. apply Rabs_le_inv in HA. destruct (Rle_or_lt T 0) as [L|L].
      * apply Rabs_le_inv in HD. assert (0 <= k * k * DD) by (apply Rmult_le_pos; nra). assert (0 <= - (2 * k * T)) by nra. lra.
      * assert (T * T <= 16 * u * M * (16 * u * M)) by (apply Rmult_le_compat; lra). assert (TT0 : T * T * i <= 16 * u * M * (16 * u * M) * 1.0002) by (apply Rmult_le_compat; try lra; apply Rle_0_sqr). replace (16 * u * M * (16 * u * M)) with (256 * (u * u) * Q) in TT0 by (rewrite <- MM; ring). specialize (FL k). lra.
  - apply flt_Rf in Z; auto. rewrite RZ in Z. fold a in Z. exists a. split; [exact Z|]. rewrite Rabs_pos_eq in AB by auto. split.
    + destruct UO as (U1 & U2 & U3).
      assert (KK : forall o d : b32, upto 60 o -> fin d -> Rabs (real d) <= 1.001 -> within (/ 4194304 * (Rabs (real o) + M)) (fadd (fmul d tca) o) (real o + a * real d)).
      { intros o d [Fo Bo] Fd Bd. assert (BP : Rabs (real d * a) <= 1.01 * M) by (eapply Rle_trans; [apply PM; [exact Bd|rewrite (Rabs_pos_eq a) by auto; exact AB]|]; lra).
        destruct (ap_fin _ _ _ (ap_mul0 d tca Fd FT ltac:(fold a; lra))) as [Fm Em]. fold a in Em. rewrite u32_val in Em. set (m := fmul d tca) in * .
        assert (ETA : eta <= bpow radix2 (-147)) by (apply bpow_le; lia).
        assert (Bm : Rabs (real m) <= 1.02 * M). { replace (real m) with ((real m - real d * a) + real d * a) by ring. eapply Rle_trans; [apply Rabs_triang|]. lra. }
        assert (Bs : Rabs (real m + real o) <= 1.02 * M + Rabs (real o)) by (eapply Rle_trans; [apply Rabs_triang|]; lra).
        destruct (add_w m o _ Fm Fo Bs) as [Fs Es].
        { apply Rle_trans with (bpow radix2 2 * bpow radix2 60); [|rewrite <- bpow_plus; apply bpow_le; lia]. simpl (bpow radix2 2). assert (bpow radix2 51 <= bpow radix2 60) by (apply bpow_le; lia). lra. }
        split; auto. apply Rabs_le_inv in Es, Em. pose proof (Rabs_pos (real o)). apply Rabs_le. lra. }
      unfold q, point3d_init_from_vec3, point3d_init_from_simd4f, vec3_add, vec3_scale, g_add, g_mul, map2, g_splat; cbn. split; [|split]; apply KK; auto.
    + intros k K. rewrite !EF. specialize (FL k).
      rewrite (SQF a). assert (A1 : Rabs (a - T * i) <= 84 * u * M).
      { apply Rabs_le_inv in HA, HD. assert (TB : Rabs T <= 1.001 * M). { apply sq_le; [lra|lra|]. assert (VV * DD <= Q * 1.0001) by (apply Rmult_le_compat; try lra; unfold Q; lra). rewrite MM. lra. }
        assert (I1 : Rabs (1 - i) <= 65 * u). { replace (1 - i) with ((DD - 1) * i) by (rewrite Rmult_minus_distr_r, DI; ring). rewrite Rabs_mult, (Rabs_pos_eq i) by lra. apply Rle_trans with (64 * u * 1.0002); [apply Rmult_le_compat; try apply Rabs_pos; try lra; apply Rabs_le; lra|lra]. }
        replace (a - T * i) with ((a - T) + T * (1 - i)) by ring. eapply Rle_trans; [apply Rabs_triang|]. pose proof (PM _ _ _ _ TB I1). assert (Rabs (a - T) <= 16 * u * M) by (apply Rabs_le; lra). lra. }
      assert (A2 : (a - T * i) * (a - T * i) <= 84 * u * M * (84 * u * M)). { replace ((a - T * i) * (a - T * i)) with (Rabs (a - T * i) * Rabs (a - T * i)) by (rewrite <- Rabs_mult; apply Rabs_pos_eq, Rle_0_sqr). pose proof (Rabs_pos (a - T * i)). apply Rmult_le_compat; lra. }
      assert (A3 : DD * ((a - T * i) * (a - T * i)) <= 1.0001 * (84 * u * M * (84 * u * M))) by (apply Rmult_le_compat; try lra; apply Rle_0_sqr). replace (84 * u * M * (84 * u * M)) with (7056 * (u * u) * Q) in A3 by (rewrite <- MM; ring).
      lra.
Qed.

(** ** C94: distance to a plane *)
Definition side (pl : plane b32) (r : ray b32) : R := dot3 (ray_o r) (pl_n pl) + real (pl_c pl).
Definition side_size (pl : plane b32) (r : ray b32) : R := adot3 (ray_o r) (pl_n pl) + Rabs (real (pl_c pl)).
(** the ray is not nearly parallel to the plane *)
Definition oblique (pl : plane b32) (r : ray b32) : Prop := bpow radix2 (-21) * adot3 (pl_n pl) (ray_d r) + bpow radix2 (-22) <= Rabs (dot3 (pl_n pl) (ray_d r)).
Lemma upto3_fin k v : upto3 k v -> finite3 v. Proof. intros ([A _] & [B _] & [C _]). split; [exact A|split; [exact B|exact C]]. Qed.
Lemma adot_bd (a b : V) : upto3 30 a -> upto3 30 b -> adot3 a b <= bpow radix2 62.
Proof.
  intros ([_ A1] & [_ A2] & [_ A3]) ([_ B1] & [_ B2] & [_ B3]). unfold adot3, adot2. rewrite !Rabs_mult.
  assert (K : forall x y, Rabs x <= bpow radix2 30 -> Rabs y <= bpow radix2 30 -> Rabs x * Rabs y <= bpow radix2 60) by (intros x y X Y; change 60%Z with (30 + 30)%Z; rewrite bpow_plus; apply Rmult_le_compat; auto using Rabs_pos).
  pose proof (K _ _ A1 B1). pose proof (K _ _ A2 B2). pose proof (K _ _ A3 B3). assert (bpow radix2 62 = 4 * bpow radix2 60) by (change 62%Z with (2 + 60)%Z; now rewrite bpow_plus). pose proof (bpow_gt_0 radix2 60). lra.
Qed.
Lemma dot_adot (a b : V) : Rabs (dot3 a b) <= adot3 a b.
Proof. unfold dot3, dot2, adot3, adot2. eapply Rle_trans; [apply Rabs_triang|]. pose proof (Rabs_triang (real (vx a) * real (vx b)) (real (vy a) * real (vy b))). lra. Qed.
Theorem C94_distance_to_plane : forall (BK : Backend b32) (r : ray b32) (pl : plane b32), upto3 30 (ray_o r) -> upto3 30 (ray_d r) -> upto3 30 (pl_n pl) -> upto 60 (pl_c pl) -> oblique pl r ->
  let t := ray_get_distance_to_plane r pl in let n := dot3 (pl_n pl) (ray_d r) in
  (fin t /\ 0 <= real t /\ Rabs (side pl r + real t * n) <= bpow radix2 (-21) * (side_size pl r + real t * adot3 (pl_n pl) (ray_d r)) + bpow radix2 (-80)) \/
  (B2X t = PInf /\ side pl r * n >= - (bpow radix2 (-21) * side_size pl r + bpow radix2 (-80)) * Rabs n).
Proof.
  intros BK r pl UO UD UN [FC BC] OB t n. pose proof (upto3_fin _ _ UO) as FO. pose proof (upto3_fin _ _ UD) as FD. pose proof (upto3_fin _ _ UN) as FN.
  pose proof (adot_bd _ _ UN UD) as B1. pose proof (adot_bd _ _ UO UN) as B2. assert (P62 : bpow radix2 62 <= bpow radix2 126) by (apply bpow_le; lia).
  destruct (C70_dot3 BK _ _ FN FD ltac:(lra)) as [F1 E1]. destruct (C70_dot3 BK _ _ FO FN ltac:(lra)) as [F2 E2].
  unfold tol in E1, E2. unfold oblique in OB. fold n in OB, E1. pose proof (dot_adot (pl_n pl) (ray_d r)) as NB. fold n in NB.
  set (NA := adot3 (pl_n pl) (ray_d r)) in * . unfold side, side_size. pose proof (dot_adot (ray_o r) (pl_n pl)) as SBB. set (S0 := dot3 (ray_o r) (pl_n pl)) in * . set (A0 := adot3 (ray_o r) (pl_n pl)) in * .
  set (c := real (pl_c pl)) in * .
  change (bpow radix2 (-22)) with (/ 4194304) in * . change (bpow radix2 (-21)) with (/ 2097152) in * .
  assert (T0 : 0 < bpow radix2 (-147)) by apply bpow_gt_0. assert (T1 : bpow radix2 (-147) <= / 1000000 * / 4194304 * / 4194304). { apply Rle_trans with (bpow radix2 (-80)); [apply bpow_le; lia|]. simpl. lra. }
  assert (T2 : eta <= bpow radix2 (-147)) by (apply bpow_le; lia). assert (T3 : 16 * bpow radix2 (-147) <= bpow radix2 (-80)) by (change 16 with (bpow radix2 4); rewrite <- bpow_plus; apply bpow_le; lia).
  set (dn := vec3_dot (pl_n pl) (ray_d r)) in * . set (od := vec3_dot (ray_o r) (pl_n pl)) in * .
  assert (NA0 : / 4194304 <= NA). { assert (0 <= Rabs n) by apply Rabs_pos. assert (0 <= NA) by lra. lra. }
  assert (BP : 0 < bpow radix2 62) by apply bpow_gt_0. assert (B60 : bpow radix2 62 = 4 * bpow radix2 60) by (change 62%Z with (2 + 60)%Z; now rewrite bpow_plus).
  assert (P127 : 16 * bpow radix2 62 <= bpow radix2 127) by (change 16 with (bpow radix2 4); rewrite <- bpow_plus; apply bpow_le; lia).
  assert (BIG : 4 <= bpow radix2 62) by (change 4 with (bpow radix2 2); apply bpow_le; lia).
  assert (A00 : 0 <= A0) by (pose proof (Rabs_pos S0); lra). pose proof (Rabs_pos c) as C0.
  (* the sum *)
  assert (BO : Rabs (real od + c) <= 2 * bpow radix2 62).
  { apply Rabs_le_inv in E2, SBB. unfold upto in BC. assert (Rabs c <= bpow radix2 60) by exact BC. apply Rabs_le_inv in H. apply Rabs_le. lra. }
  destruct (add_w od (pl_c pl) _ F2 FC BO ltac:(lra)) as [F3 E3]. fold c in E3. set (s := fadd od (pl_c pl)) in * .
  assert (BS0 : Rabs (real od + c) <= 1.0001 * (A0 + Rabs c) + bpow radix2 (-147)).
  { apply Rabs_le_inv in E2, SBB. assert (- Rabs c <= c <= Rabs c) by (apply Rabs_le_inv; lra). apply Rabs_le. lra. }
  assert (ES : Rabs (real s - (S0 + c)) <= 5.01 * u * (A0 + Rabs c) + 2 * bpow radix2 (-147)).
  { apply Rabs_le_inv in E2, E3. apply Rabs_le. lra. }
  assert (BS : Rabs (real s) <= 1.001 * (A0 + Rabs c) + 2 * bpow radix2 (-147)). { replace (real s) with ((real s - (real od + c)) + (real od + c)) by ring. eapply Rle_trans; [apply Rabs_triang|]. lra. }
  (* minus one times *)
  assert (M1 : B2X (fm1 : b32) = Fin (-1)) by (unfold fm1; rewrite fneg_X, fone_X; reflexivity). destruct (fin_of_X _ _ M1) as [FM RM].
  assert (MX : B2X (fmul fm1 s) = Fin (- real s)).
  { rewrite fmul_X, M1, (fin_X s F3). cbn [xmul]. replace (-1 * real s) with (- real s) by ring. rewrite xrnd_ok.
    - f_equal. apply round_generic; [apply valid_rnd_N|]. apply generic_format_opp, fmt.
    - rewrite Rabs_Ropp. assert (Rabs c <= bpow radix2 60) by exact BC. lra. }
  destruct (fin_of_X _ _ MX) as [FMX RMX]. set (ms := fmul fm1 s) in * .
  (* denominator *)
  assert (DN : / 4194304 * 0.999 + / 4194304 * NA <= Rabs (real dn)).
  { assert (Rabs n <= Rabs (n - real dn) + Rabs (real dn)) by (replace n with ((n - real dn) + real dn) at 1 by ring; apply Rabs_triang). rewrite (Rabs_minus_sym n) in H. lra. }
  assert (DNZ : real dn <> 0) by (intros E; rewrite E, Rabs_R0 in DN; lra).
  assert (DNB : Rabs (real dn) <= 1.001 * NA). { replace (real dn) with ((real dn - n) + n) by ring. eapply Rle_trans; [apply Rabs_triang|]. lra. }
  assert (CUT : flt (fabs dn) feps = false).
  { destruct (lit_real 1 (-23)) as [FE RE]; try lia. assert (AX : B2X (fabs dn) = Fin (Rabs (real dn))) by (rewrite fabs_X, (fin_X dn F1); reflexivity). destruct (fin_of_X _ _ AX) as [FAX RAX].
    apply flt_Rf; auto. rewrite RAX. unfold feps. rewrite RE. change (bpow radix2 (-23)) with (/ 8388608). lra. }
  (* quotient *)
  set (q := - real s / real dn). assert (QD : q * real dn = - real s) by (unfold q; field; auto).
  assert (QB : Rabs q <= 8 * 4194304 * bpow radix2 62).
  { apply Rmult_le_reg_r with (Rabs (real dn)); [apply Rabs_pos_lt; auto|]. rewrite <- Rabs_mult, QD, Rabs_Ropp. assert (Rabs c <= bpow radix2 60) by exact BC.
    apply Rle_trans with (8 * 4194304 * bpow radix2 62 * (/ 4194304 * 0.999)); [lra|]. apply Rmult_le_compat_l; lra. }
  assert (TX : B2X (fdiv ms dn) = Fin (rnd32 q)).
  { change (fdiv ms dn) with (Bdiv mode_NE ms dn). rewrite Bdiv_X by (fold b32; rewrite (fin_X _ F1); intros Q; injection Q; auto). fold b32. rewrite MX, (fin_X dn F1). cbn [xdiv]. destruct (Req_EM_T (B2R dn) 0); [contradiction|].
    apply xrnd_ok. fold q. eapply Rle_trans; [exact QB|]. apply Rle_trans with (bpow radix2 3 * bpow radix2 22 * bpow radix2 62); [simpl (bpow radix2 3); simpl (bpow radix2 22); lra|]. rewrite <- !bpow_plus. apply bpow_le. lia. }
  destruct (fin_of_X _ _ TX) as [FT RT]. set (tt := fdiv ms dn) in * .
  pose proof (rnd_err q) as EQ. rewrite u32_val, <- RT in EQ.
  assert (TT : t = if fle fzero tt then tt else finf) by (unfold t, ray_get_distance_to_plane; fold dn od s ms; rewrite CUT; fold tt; reflexivity).
  assert (LE : fle fzero tt = xle (Fin 0) (Fin (real tt))) by (rewrite fle_X, (fin_X tt FT); reflexivity).
  destruct (fle fzero tt) eqn:C; rewrite TT.
  - left. split; auto. split; [symmetry in LE; now apply xle_fin in LE|]. symmetry in LE. apply xle_fin in LE.
    assert (R1 : Rabs (real s + real tt * real dn) <= u * Rabs (real s) + bpow radix2 (-147) * (1.001 * NA)).
    { replace (real s + real tt * real dn) with ((real tt - q) * real dn) by (rewrite <- (Ropp_involutive (real s)), <- QD; ring). rewrite Rabs_mult.
      assert (Rabs (real tt - q) * Rabs (real dn) <= (u * Rabs q + eta) * Rabs (real dn)) by (apply Rmult_le_compat_r; [apply Rabs_pos|exact EQ]).
      assert (Rabs q * Rabs (real dn) = Rabs (real s)) by (rewrite <- Rabs_mult, QD; apply Rabs_Ropp).
      assert (eta * Rabs (real dn) <= bpow radix2 (-147) * (1.001 * NA)) by (apply Rmult_le_compat; auto using Rabs_pos; apply bpow_ge_0). lra. }
    assert (R2 : Rabs (real tt * (n - real dn)) <= real tt * (/ 4194304 * 1.001 * NA)). { rewrite Rabs_mult, (Rabs_pos_eq (real tt)) by auto. apply Rmult_le_compat_l; auto. rewrite Rabs_minus_sym. eapply Rle_trans; [exact E1|]. lra. }
    assert (R3 : bpow radix2 (-147) * (1.001 * NA) <= bpow radix2 (-81)).
    { apply Rle_trans with (bpow radix2 (-147) * bpow radix2 63); [apply Rmult_le_compat_l; [lra|]|rewrite <- bpow_plus; apply bpow_le; lia]. assert (bpow radix2 63 = 2 * bpow radix2 62) by (change 63%Z with (1 + 62)%Z; now rewrite bpow_plus). lra. }
    assert (R4 : bpow radix2 (-80) = 2 * bpow radix2 (-81)) by (change (-80)%Z with (1 + -81)%Z; now rewrite bpow_plus). assert (R5 : 16 * bpow radix2 (-147) <= bpow radix2 (-81)) by (change 16 with (bpow radix2 4); rewrite <- bpow_plus; apply bpow_le; lia).
    replace (S0 + c + real tt * n) with ((S0 + c - real s) + (real s + real tt * real dn) + real tt * (n - real dn)) by ring.
    rewrite (Rabs_minus_sym (real s)) in ES. assert (0 <= real tt * NA) by (apply Rmult_le_pos; lra).
    apply Rabs_le_inv in R1, R2, ES. apply Rabs_le. lra.
  - right. split; [reflexivity|]. symmetry in LE. apply xle_fin_f in LE.
    assert (QN : q < 0). { destruct (Rle_or_lt 0 q) as [L|L]; auto. exfalso. assert (0 <= rnd32 q); [|lra]. rewrite rnd32_FLT. apply round_ge_generic; [apply FLT_exp_valid; reflexivity|apply valid_rnd_N|apply generic_format_0|exact L]. }
    assert (ESS : - (/ 2097152 * (A0 + Rabs c) + bpow radix2 (-80)) <= - Rabs (real s - (S0 + c))) by lra.
    assert (E : Rabs (real s - (S0 + c)) * Rabs n <= (/ 2097152 * (A0 + Rabs c) + bpow radix2 (-80)) * Rabs n) by (apply Rmult_le_compat_r; [apply Rabs_pos|lra]).
    assert (SN : 0 <= real s * n).
    { apply Rabs_le_inv in E1. destruct (Rtotal_order 0 (real dn)) as [P|[P|P]]; [|congruence|].
      - rewrite (Rabs_pos_eq (real dn)) in DN by lra. assert (0 < n) by lra. assert (0 <= real s) by nra. nra.
      - rewrite (Rabs_left (real dn)) in DN by lra. assert (n < 0) by lra. assert (real s <= 0) by nra. nra. }
    assert (F : Rabs ((real s - (S0 + c)) * n) <= (/ 2097152 * (A0 + Rabs c) + bpow radix2 (-80)) * Rabs n) by (rewrite Rabs_mult; exact E).
    apply Rabs_le_inv in F. lra.
Qed.

(** ** non-vacuity: a ray along (0.6, 0.8, 0), a point beside it, and the plane x = 7 *)
Example C94_ex : forall BK : Backend b32, let r := Ry (vec3_init (lit 1 0) (lit 2 0) (lit 3 0)) (vec3_init (flit 10066330 (-24)) (flit 13421773 (-24)) fzero) in
  let p := P3 (lit 7 0) (lit 10 0) (lit 4 0) in let pl := Pl (vec3_init (lit 1 0) fzero fzero) (lit (-7) 0) in
  near r p /\ upto3 60 (ray_o r) /\ (upto3 30 (ray_o r) /\ upto3 30 (ray_d r) /\ upto3 30 (pl_n pl) /\ upto 60 (pl_c pl) /\ oblique pl r).
Proof.
  intros BK r p pl. assert (Z : real (fzero : b32) = 0) by reflexivity.
  destruct (lit_real 1 0) as [F1 R1]; try lia. destruct (lit_real 2 0) as [F2 R2]; try lia. destruct (lit_real 3 0) as [F3 R3]; try lia. destruct (lit_real 7 0) as [F7 R7]; try lia. destruct (lit_real 10 0) as [F10 R10]; try lia. destruct (lit_real 4 0) as [F4 R4]; try lia.
  destruct (lit_real (-7) 0) as [Fm Rm]; try lia.
  destruct (lit_real 10066330 (-24)) as [Fa Ra]; try lia. destruct (lit_real 13421773 (-24)) as [Fb Rb]; try lia.
  simpl (bpow radix2 0) in * . change (bpow radix2 (-24)) with u in Ra, Rb.
  assert (P : 1024 <= bpow radix2 100) by (change 1024 with (bpow radix2 10); apply bpow_le; lia).
  assert (P3 : 1024 <= bpow radix2 30) by (change 1024 with (bpow radix2 10); apply bpow_le; lia).
  assert (P6 : 1024 <= bpow radix2 60) by (change 1024 with (bpow radix2 10); apply bpow_le; lia).
  assert (UP : forall e (x : b32) v, fin x -> real x = v -> 1024 <= bpow radix2 e -> -1024 <= v <= 1024 -> upto e x) by (intros e x v FX EX PE LE; split; auto; rewrite EX; apply Rabs_le; lra).
  split; [|split; [|split; [|split; [|split; [|split]]]]].
  - split; [split; [exact F1|split; [exact F2|exact F3]]|]. split; [split; [exact Fa|split; [exact Fb|reflexivity]]|]. split; [exact F7|]. split; [exact F10|]. split; [exact F4|]. split.
    + unfold dot3, dot2, r, vec3_init, g_init; cbn [ray_d vx vy vz]. rewrite Ra, Rb, Z. change (bpow radix2 (-18)) with (/ 262144). apply Rabs_le. lra.
    + unfold gap2, r, p, vec3_init, g_init; cbn [ray_o ray_d p3x p3y p3z vx vy vz]. unfold lit. rewrite R1, R2, R3, R7, R10, R4, Ra, Rb, Z. unfold sq. lra.
  - split; [|split]; (eapply UP; [eassumption|eassumption|assumption|lra]).
  - split; [|split]; (eapply UP; [eassumption|eassumption|assumption|lra]).
  - split; [|split]; (eapply UP; [first [eassumption|reflexivity]|first [eassumption|exact Z]|assumption|lra]).
  - split; [|split]; (eapply UP; [first [eassumption|reflexivity]|first [eassumption|exact Z]|assumption|lra]).
  - eapply UP; [exact Fm|exact Rm|assumption|lra].
  - unfold oblique, dot3, adot3, dot2, adot2, pl, r, vec3_init, g_init; cbn [pl_n ray_d vx vy vz]. unfold lit. rewrite R1, Ra, Rb, Z.
    change (bpow radix2 (-22)) with (/ 4194304). change (bpow radix2 (-21)) with (/ 2097152). rewrite !Rabs_pos_eq; lra.
Qed.
