(** * Props_Dist: distance of a point from a ray, bounding sphere of a box, in binary32 (C103). *)
From Coq Require Import ZArith Reals Bool List Lra Lia Psatz.
From Flocq Require Import Core BinarySingleNaN.
From Verif Require Import Num Simd Vec Rect Box Mat Geo Quat OrdThy FloatThy B32Setup FloatLem ErrThy Props_Err Props_Err2 Props_Err3 ErrEx Props_Err4 Props_Err5 RGeo Props_Look Props_RayTri Props_RayPt.
From Verif Require Props_RaySph Props_Dec Props_Proj Props_Eq Props_EulF.
Import ListNotations.
Local Open Scope R_scope.
Notation sq := Props_RaySph.sq.

(** ** lengths *)
(** the square root is IEEE's, or it is NEON's estimate and the length is not tiny *)
Definition root_ok (BK : Backend b32) (n : R) : Prop := ieee_sqrt BK \/ (estimates_ok BK /\ bpow radix2 (-22) <= n).
Lemma mul_self (x : b32) : fin x -> real x * real x <= 1 -> fin (fmul x x) /\ 0 <= real (fmul x x) <= 3.
Proof.
  intros F B. pose proof (Rle_0_sqr (real x)) as P. unfold Rsqr in P. assert (P127 : 1 <= bpow radix2 127) by (change 1 with (bpow radix2 0); apply bpow_le; lia). assert (ETA : eta <= bpow radix2 0) by (apply bpow_le; lia).
  destruct (fin_of_X _ _ (Props_Proj.mul_X x x F F ltac:(rewrite Rabs_pos_eq; lra))) as [FF E]; change (bpow radix2 0) with 1 in ETA. split; auto. rewrite E. pose proof (rnd_err (real x * real x)) as R1. rewrite (Rabs_pos_eq (real x * real x)), u32_val in R1 by lra. apply Rabs_le_inv in R1. split; [|lra]. apply Props_Eq.rnd_ge_gen; auto. apply generic_format_0.
Qed.
Lemma add_pos (x y : b32) B : fin x -> fin y -> 0 <= real x -> 0 <= real y -> real x + real y <= B -> B <= 20 -> fin (fadd x y) /\ 0 <= real (fadd x y) <= 1.01 * B.
Proof.
  intros FX FY X Y S BB. assert (P127 : 32 <= bpow radix2 127) by (change 32 with (bpow radix2 5); apply bpow_le; lia). destruct (Props_RaySph.add_w x y 20 FX FY) as [F E]; [rewrite Rabs_pos_eq; lra|lra|]. split; auto. rewrite (Rabs_pos_eq (real x + real y)) in E by lra. apply Rabs_le_inv in E. lra.
Qed.
Lemma dot_self_pos (BK : Backend b32) (v : V) : finite3 v -> dot3 v v <= 1 -> 0 <= real (vec3_dot v v).
Proof.
  intros (F1 & F2 & F3) B. unfold dot3, dot2 in B. pose proof (Rle_0_sqr (real (vx v))) as S1. pose proof (Rle_0_sqr (real (vy v))) as S2. pose proof (Rle_0_sqr (real (vz v))) as S3. unfold Rsqr in * .
  destruct (mul_self _ F1 ltac:(lra)) as [G1 P1]. destruct (mul_self _ F2 ltac:(lra)) as [G2 P2]. destruct (mul_self _ F3 ltac:(lra)) as [G3 P3].
  assert (FZ : fin (fzero : b32)) by reflexivity. assert (RZ : real (fzero : b32) = 0) by reflexivity.
  destruct (add_pos _ _ 6 G1 G2) as [A1 B1]; try lra. destruct (add_pos _ _ 6 G1 G3) as [A2 B2]; try lra. destruct (add_pos _ _ 3 G2 FZ) as [A3 B3]; try lra. destruct (add_pos _ _ 3 G3 FZ) as [A4 B4]; try lra.
  unfold vec3_dot, g_dot3, g_dot3_scalar, g_splat, g_get_x; destruct BK as [ie| |[] fma rcp rsq|rec rsq sq]; cbv [backend]; cbn [vx]; (eapply (add_pos _ _ 15); [| | | | |lra]); try eassumption; try lra.
Qed.
Lemma len_float (BK : Backend b32) (v : V) : finite3 v -> root_ok BK (norm (val3 v)) -> norm (val3 v) <= bpow radix2 59 -> within (bpow radix2 (-20) * norm (val3 v) + bpow radix2 (-49)) (vec3_length v) (norm (val3 v)).
Proof.
  intros F H B. pose proof (norm_nonneg (val3 v)) as N0. pose proof (norm_sq (val3 v)) as NS. set (n := norm (val3 v)) in * . rewrite <- val3_dot3 in NS. assert (EN : sqrt (dot3 v v) = n) by (rewrite <- NS; now apply sqrt_square).
  assert (NB : n * n <= bpow radix2 118) by (change 118%Z with (59 + 59)%Z; rewrite bpow_plus; apply Rmult_le_compat; auto). pose proof (bpow_gt_0 radix2 (-49)) as P49. assert (P126 : bpow radix2 118 <= bpow radix2 126) by (apply bpow_le; lia).
  assert (C : ieee_sqrt BK \/ (estimates_ok BK /\ match BK with Neon _ _ _ => True | _ => False end /\ bpow radix2 (-22) <= n)) by (destruct BK, H as [H|[H1 H2]]; cbn in * ; tauto).
  destruct C as [I|(E & NE & L)].
  - destruct (Rle_or_lt (bpow radix2 (-100)) (n * n)) as [L|L].
    + destruct (C70_length3 BK v I F) as [FL EL]. { split; rewrite <- NS; lra. } rewrite EN in EL. split; auto. change (bpow radix2 (-22)) with (/ 4194304) in EL. change (bpow radix2 (-20)) with (/ 1048576). lra.
    + pose proof (C70_dot3 BK v v F F) as D. rewrite adot3_self, <- NS in D. destruct (D ltac:(lra)) as [FD ED]. clear D. unfold vec3_length, g_length3, g_get_x, g_sqrt, map1; cbn [vx]. rewrite lane_sqrt_ieee by auto. change (vx (g_dot3 v v)) with (vec3_dot v v). set (d := vec3_dot v v) in * .
      replace (bpow radix2 (-49)) with (2 * bpow radix2 (-50)) in * by (change (-49)%Z with (1 + -50)%Z; rewrite bpow_plus; reflexivity). pose proof (bpow_gt_0 radix2 (-50)) as P50. assert (T1 : bpow radix2 (-147) <= / 1000 * bpow radix2 (-100)) by (change (-147)%Z with (-47 + -100)%Z; rewrite bpow_plus; apply Rmult_le_compat_r; [apply bpow_ge_0|simpl; lra]).
      unfold tol in ED. change (bpow radix2 (-22)) with (/ 4194304) in ED. assert (E50 : bpow radix2 (-100) = bpow radix2 (-50) * bpow radix2 (-50)) by (rewrite <- bpow_plus; reflexivity). rewrite E50 in * . set (h := bpow radix2 (-50)) in * . assert (hh : 0 < h * h) by (now apply Rmult_lt_0_compat). apply Rabs_le_inv in ED.
      assert (NL : n <= h) by (apply Rsqr_incr_0_var; [unfold Rsqr; lra|lra]).
      assert (D0 : 0 <= real d). { apply dot_self_pos; auto. rewrite <- NS. assert (h * h <= 1) by (rewrite <- E50; change 1 with (bpow radix2 0); apply bpow_le; lia). lra. }
      destruct (Props_RaySph.sqrt_w d FD D0) as (FS & S0 & ES); [assert (h * h <= 1) by (rewrite <- E50; change 1 with (bpow radix2 0); apply bpow_le; lia); assert (2 <= bpow radix2 126) by (change 2 with (bpow radix2 1); apply bpow_le; lia); lra|].
      apply Rabs_le_inv in ES. split; auto. set (s := real (fsqrt d)) in * . assert (SL : s <= 2 * h) by (apply Rsqr_incr_0_var; [unfold Rsqr; lra|lra]). change (bpow radix2 (-20)) with (/ 1048576). apply Rabs_le. lra.
  - destruct (C70_length BK v E) as (_ & K & _). destruct (K F) as [FL EL]. { split; [|destruct BK; cbn in * ; tauto]. rewrite <- NS. split; [|lra]. change (-44)%Z with (-22 + -22)%Z. rewrite bpow_plus. pose proof (bpow_gt_0 radix2 (-22)). apply Rmult_le_compat; lra. }
    rewrite EN in EL. split; auto. lra.
Qed.

(** ** C103: distance of a point from a ray *)
(** how far the answer may be off *)
Definition dist_err (r : ray b32) (p : point3d b32) : R := bpow radix2 (-17) * reach r p + bpow radix2 (-21) * (Rabs (real (vx (ray_o r))) + Rabs (real (vy (ray_o r))) + Rabs (real (vz (ray_o r)))) + bpow radix2 (-48).
(** the ray has a nearest point *)
Lemma gap2_min r p : 0 < dot3 (ray_d r) (ray_d r) -> exists k, 0 <= k /\ forall l, 0 <= l -> gap2 r p k <= gap2 r p l.
Proof.
  intros P. unfold dot3, dot2 in P. set (x := real (vx (ray_d r))) in * . set (y := real (vy (ray_d r))) in * . set (z := real (vz (ray_d r))) in * .
  set (V1 := real (p3x p) - real (vx (ray_o r))). set (V2 := real (p3y p) - real (vy (ray_o r))). set (V3 := real (p3z p) - real (vz (ray_o r))).
  set (T := V1 * x + V2 * y + V3 * z). set (DD := x * x + y * y + z * z) in * .
  assert (EF : forall k, gap2 r p k = V1 * V1 + V2 * V2 + V3 * V3 - 2 * k * T + k * k * DD) by (intros k; unfold gap2, Props_RaySph.sq, T, DD, V1, V2, V3; fold x y z; ring).
  exists (Rmax 0 (T / DD)). split; [apply Rmax_l|]. intros l Hl. rewrite !EF. set (t := T / DD). assert (ET : T = t * DD) by (unfold t; field; lra). rewrite ET. unfold Rmax. destruct (Rle_dec 0 t) as [Ht|Ht].
  - assert (0 <= DD * ((l - t) * (l - t))) by (apply Rmult_le_pos; [lra|apply Rle_0_sqr]). lra.
  - assert (0 <= l * (- t) * DD) by (repeat apply Rmult_le_pos; lra). assert (0 <= l * l * DD) by (repeat apply Rmult_le_pos; lra). lra.
Qed.
Theorem C103_distance_to_point : forall (BK : Backend b32) (r : ray b32) (p : point3d b32), near r p -> upto3 55 (ray_o r) ->
  exists k, 0 <= k /\ (forall l, 0 <= l -> gap2 r p k <= gap2 r p l) /\ let D := sqrt (gap2 r p k) in
  (root_ok BK (D - dist_err r p) -> within (dist_err r p) (ray_get_distance_to_point r p) D).
Proof.
  intros BK r p N UO. pose proof N as (FO & FD & C1 & C2 & C3 & HU & HV).
  assert (UO' : upto3 60 (ray_o r)). { destruct UO as ([A1 A2] & [B1 B2] & [D1 D2]). assert (bpow radix2 55 <= bpow radix2 60) by (apply bpow_le; lia). split; [|split]; split; auto; lra. }
  destruct (gap2_min r p) as (k & K0 & KM). { change (bpow radix2 (-18)) with (/ 262144) in HU. apply Rabs_le_inv in HU. lra. }
  exists k. refine (conj K0 (conj KM _)). intros D RO. destruct (C94_closest_point BK r p N UO') as (t & T0 & (Q1 & Q2 & Q3) & TM). set (q := ray_get_closest_point_to_point r p) in * . cbv beta in Q1, Q2, Q3.
  assert (RP : 0 < reach r p) by (unfold reach; apply sqrt_lt_R0; assert (0 <= gap2 r p 0) by (unfold gap2, Props_RaySph.sq; repeat apply Rplus_le_le_0_compat; apply Rle_0_sqr); pose proof (bpow_gt_0 radix2 (-80)); lra).
  assert (RB : reach r p <= bpow radix2 51). { unfold reach. apply Rsqr_incr_0_var; [|apply bpow_ge_0]. unfold Rsqr. rewrite sqrt_sqrt by (assert (0 <= gap2 r p 0) by (unfold gap2, Props_RaySph.sq; repeat apply Rplus_le_le_0_compat; apply Rle_0_sqr); pose proof (bpow_gt_0 radix2 (-80)); lra). rewrite <- bpow_plus. assert (bpow radix2 (51 + 51) = 4 * bpow radix2 100) by (change (51 + 51)%Z with (2 + 100)%Z; now rewrite bpow_plus). assert (bpow radix2 (-80) <= bpow radix2 100) by (apply bpow_le; lia). pose proof (bpow_gt_0 radix2 100). lra. }
  assert (GR : gap2 r p 0 <= reach r p * reach r p). { unfold reach. rewrite sqrt_sqrt; [pose proof (bpow_gt_0 radix2 (-80)); lra|]. assert (0 <= gap2 r p 0) by (unfold gap2, Props_RaySph.sq; repeat apply Rplus_le_le_0_compat; apply Rle_0_sqr). pose proof (bpow_gt_0 radix2 (-80)). lra. }
  unfold dist_err in * . set (M := reach r p) in * . destruct UO as ([_ O1] & [_ O2] & [_ O3]). set (ox := real (vx (ray_o r))) in * . set (oy := real (vy (ray_o r))) in * . set (oz := real (vz (ray_o r))) in * .
  set (W := Rabs ox + Rabs oy + Rabs oz) in * . pose proof (Rabs_pos ox) as X0. pose proof (Rabs_pos oy) as Y0. pose proof (Rabs_pos oz) as Z0. assert (W0 : 0 <= W) by (unfold W; lra). assert (WB : W <= 3 * bpow radix2 55) by (unfold W; lra).
  set (P := mk3 (real (p3x p)) (real (p3y p)) (real (p3z p))). set (A := mk3 (ox + t * real (vx (ray_d r))) (oy + t * real (vy (ray_d r))) (oz + t * real (vz (ray_d r)))). set (vq := point3d_to_vec3 q).
  assert (EA : dist A P * dist A P = gap2 r p t) by (unfold dist; rewrite norm_sq; unfold gap2, Props_RaySph.sq, dot, vminus, A, P; cbn [X3 Y3 Z3]; reflexivity).
  assert (G0 : forall j, 0 <= gap2 r p j) by (intros; unfold gap2, Props_RaySph.sq; repeat apply Rplus_le_le_0_compat; apply Rle_0_sqr). pose proof (sqrt_pos (gap2 r p k)) as D0. pose proof (sqrt_sqrt _ (G0 k)) as DS. fold D in D0, DS.
  assert (DM : D <= M). { apply Rsqr_incr_0_var; [|lra]. unfold Rsqr. rewrite DS. pose proof (KM 0 (Rle_refl 0)). lra. }
  pose proof (norm_nonneg (vminus A P)) as A0. fold (dist A P) in A0.
  assert (AL : D <= dist A P). { apply Rsqr_incr_0_var; [|lra]. unfold Rsqr. rewrite EA, DS. apply KM; auto. }
  assert (AH : dist A P <= D + 0.71 * bpow radix2 (-17) * M). { specialize (TM k K0). change (bpow radix2 (-35)) with (/ 34359738368) in TM. change (bpow radix2 (-17)) with (/ 131072). unfold Props_RaySph.sq in TM. apply Rsqr_incr_0_var; [|lra]. unfold Rsqr. rewrite EA. assert (0 <= D * M) by (apply Rmult_le_pos; lra). assert (0 <= M * M) by (apply Rmult_le_pos; lra). lra. }
  assert (FQ : finite3 vq) by (destruct Q1, Q2, Q3; split; [|split]; assumption).
  assert (QA : dist (val3 vq) A <= bpow radix2 (-22) * (W + 3 * M)).
  { destruct Q1 as [_ E1], Q2 as [_ E2], Q3 as [_ E3]. change (real (p3x q)) with (real (vx vq)) in E1. change (real (p3y q)) with (real (vy vq)) in E2. change (real (p3z q)) with (real (vz vq)) in E3. pose proof (bpow_gt_0 radix2 (-22)) as P22. set (h := bpow radix2 (-22)) in * .
    apply norm_le; [apply Rmult_le_pos; lra|]. unfold dot, vminus, val3, A; cbn [X3 Y3 Z3].
    set (e1 := real (vx vq) - _) in * . set (e2 := real (vy vq) - _) in * . set (e3 := real (vz vq) - _) in * . replace (h * (W + 3 * M)) with (h * (Rabs ox + M) + h * (Rabs oy + M) + h * (Rabs oz + M)) by (unfold W; ring).
    assert (S2 : forall z, z * z = Rabs z * Rabs z) by (intros; rewrite <- Rabs_mult; symmetry; apply Rabs_pos_eq, Rle_0_sqr). rewrite (S2 e1), (S2 e2), (S2 e3). pose proof (Rabs_pos e1). pose proof (Rabs_pos e2). pose proof (Rabs_pos e3). set (a := Rabs e1) in * . set (b := Rabs e2) in * . set (c := Rabs e3) in * .
    apply Rle_trans with ((a + b + c) * (a + b + c)); [assert (0 <= a * b) by (now apply Rmult_le_pos); assert (0 <= a * c) by (now apply Rmult_le_pos); assert (0 <= b * c) by (now apply Rmult_le_pos); lra|apply Rmult_le_compat; lra]. }
  assert (VP : val3 (point3d_to_vec3 p) = P) by reflexivity.
  pose proof (dist_tri (val3 vq) A P) as TR. pose proof (norm_gap (vminus (val3 vq) P) (vminus A P)) as NG. assert (DD' : dist (vminus (val3 vq) P) (vminus A P) = dist (val3 vq) A) by (unfold dist; f_equal; unfold vminus; cbn [X3 Y3 Z3]; f_equal; ring). rewrite DD' in NG. fold (dist (val3 vq) P) (dist A P) in NG. apply Rabs_le_inv in NG.
  assert (BIG : 64 * bpow radix2 51 + 64 * bpow radix2 55 <= bpow radix2 63). { assert (bpow radix2 63 = 256 * bpow radix2 55) by (change 63%Z with (8 + 55)%Z; now rewrite bpow_plus). assert (bpow radix2 51 <= bpow radix2 55) by (apply bpow_le; lia). lra. }
  assert (BIG2 : 64 * bpow radix2 51 + bpow radix2 (-15) * bpow radix2 55 <= bpow radix2 58). { assert (bpow radix2 58 = 128 * bpow radix2 51) by (change 58%Z with (7 + 51)%Z; now rewrite bpow_plus). rewrite <- bpow_plus. assert (bpow radix2 (-15 + 55) <= bpow radix2 51) by (apply bpow_le; lia). lra. }
  change (bpow radix2 (-15)) with (/ 32768) in BIG2. change (bpow radix2 (-22)) with (/ 4194304) in * . change (bpow radix2 (-17)) with (/ 131072) in * . change (bpow radix2 (-21)) with (/ 2097152) in * .
  assert (FPp : finite3 (point3d_to_vec3 p)) by (split; [|split]; assumption).
  destruct (sub_float vq (point3d_to_vec3 p) FQ FPp) as [FS ES]. { rewrite VP. assert (bpow radix2 58 <= bpow radix2 60) by (apply bpow_le; lia). lra. }
  rewrite VP in ES. set (c := g_sub vq (point3d_to_vec3 p)) in * . pose proof (norm_gap (val3 c) (vminus (val3 vq) P)) as NG2. fold (dist (val3 vq) P) in NG2. apply Rabs_le_inv in NG2.
  assert (EL : ray_get_distance_to_point r p = vec3_length c).
  { unfold ray_get_distance_to_point, c, vq, q, ray_get_closest_point_to_point. destruct (flt _ _); reflexivity. }
  rewrite EL. pose proof (bpow_gt_0 radix2 (-48)) as P48. assert (E48 : bpow radix2 (-48) = 2 * bpow radix2 (-49)) by (change (-48)%Z with (1 + -49)%Z; rewrite bpow_plus; reflexivity).
  assert (RO2 : root_ok BK (norm (val3 c))). { destruct RO as [H|[H1 H2]]; [now left|right; split; auto]. lra. }
  destruct (len_float BK c FS RO2) as [FL LL]. { assert (bpow radix2 59 = 2 * bpow radix2 58) by (change 59%Z with (1 + 58)%Z; rewrite bpow_plus; reflexivity). lra. }
  split; auto. apply Rabs_le_inv in LL. change (bpow radix2 (-20)) with (/ 1048576) in LL. apply Rabs_le. lra.
Qed.

(** ** C103: bounding sphere of a box *)
(** the corners are finite, of size at most 2^55, and in order *)
Definition proper (b : box b32) : Prop := upto3 55 (bmin b) /\ upto3 55 (bmax b) /\ real (vx (bmin b)) <= real (vx (bmax b)) /\ real (vy (bmin b)) <= real (vy (bmax b)) /\ real (vz (bmin b)) <= real (vz (bmax b)).
Definition in_box (b : box b32) (P : R3) : Prop := real (vx (bmin b)) <= X3 P <= real (vx (bmax b)) /\ real (vy (bmin b)) <= Y3 P <= real (vy (bmax b)) /\ real (vz (bmin b)) <= Z3 P <= real (vz (bmax b)).
Definition middle (b : box b32) : R3 := mk3 ((real (vx (bmin b)) + real (vx (bmax b))) / 2) ((real (vy (bmin b)) + real (vy (bmax b))) / 2) ((real (vz (bmin b)) + real (vz (bmax b))) / 2).
Definition half_diag (b : box b32) : R := dist (val3 (bmax b)) (val3 (bmin b)) / 2.
Lemma fin_pinf (x : b32) : fin x -> is_pinf x = false /\ is_ninf x = false.
Proof. destruct x; try discriminate; split; reflexivity. Qed.
Theorem C103_bounding_sphere : forall (BK : Backend b32) (b : box b32), proper b -> root_ok BK (half_diag b) ->
  let s := box_get_bounding_sphere b in let C := val3 (scenter s) in
  finite3 (scenter s) /\ dist C (middle b) <= bpow radix2 (-24) * norm (middle b) + bpow radix2 (-146) /\
  within (bpow radix2 (-19) * half_diag b + bpow radix2 (-49)) (sradius s) (half_diag b) /\
  (forall P, in_box b P -> dist P C <= real (sradius s) + (bpow radix2 (-19) * half_diag b + bpow radix2 (-24) * norm (middle b) + bpow radix2 (-48))).
Proof.
  intros BK b (UN & UX & H1 & H2 & H3) RO s C. destruct b as [mn mx]. cbn [bmin bmax] in * . pose proof UN as ([FN1 N1] & [FN2 N2] & [FN3 N3]). pose proof UX as ([FX1 M1] & [FX2 M2] & [FX3 M3]).
  assert (E1 : box_is_empty (Bx mn mx) = false) by (unfold box_is_empty; cbn [bmin bmax]; now rewrite (proj1 (fin_pinf _ FN1))). assert (E2 : box_is_infinity (Bx mn mx) = false) by (unfold box_is_infinity; cbn [bmin bmax]; now rewrite (proj2 (fin_pinf _ FN1))).
  unfold C; clear C; unfold s; clear s; unfold box_get_bounding_sphere, box_get_center, box_get_size. rewrite E1, E2. cbn [orb bmin bmax scenter sradius]. set (cv := point3d_to_vec3 _). set (sz := g_sub mx mn). clear E1 E2.
  set (h := bpow radix2 55) in * . pose proof (bpow_gt_0 radix2 55) as h0. fold h in h0.
  assert (MID : forall x y : b32, fin x -> fin y -> Rabs (real x) <= h -> Rabs (real y) <= h -> within (u * Rabs ((real x + real y) / 2) + bpow radix2 (-149)) (fmul (fadd x y) fhalf) ((real x + real y) / 2)).
  { intros x y FX FY BX BY. assert (B2 : Rabs (real x + real y) <= 2 * h) by (eapply Rle_trans; [apply Rabs_triang|lra]). destruct (Props_RaySph.add_w x y (2 * h) FX FY B2) as [F E]; [change 127%Z with (72 + 55)%Z; rewrite bpow_plus; fold h; apply Rmult_le_compat_r; [lra|]; change 2 with (bpow radix2 1); apply bpow_le; lia|].
    destruct (Props_EulF.half_exact _ F) as [FF EE]. split; auto. set (w := real (fadd x y)) in * . replace (2 * eta) with (bpow radix2 (-149)) in EE by (change eta with (bpow radix2 (-150)); change (-149)%Z with (1 + -150)%Z; rewrite bpow_plus; reflexivity).
    unfold Rdiv in * . rewrite Rabs_mult, (Rabs_pos_eq (/ 2)) by lra. apply Rabs_le_inv in EE, E. apply Rabs_le. lra. }
  destruct (MID _ _ FN1 FX1 N1 M1) as [FC1 EC1]. destruct (MID _ _ FN2 FX2 N2 M2) as [FC2 EC2]. destruct (MID _ _ FN3 FX3 N3 M3) as [FC3 EC3]. clear MID.
  assert (FC : finite3 cv) by (split; [exact FC1|split; [exact FC2|exact FC3]]). split; [exact FC|].
  set (K := middle (Bx mn mx)) in * . change ((real (vx mn) + real (vx mx)) / 2) with (X3 K) in * . change ((real (vy mn) + real (vy mx)) / 2) with (Y3 K) in * . change ((real (vz mn) + real (vz mx)) / 2) with (Z3 K) in * .
  change (fmul (fadd (vx mn) (vx mx)) fhalf) with (vx cv) in * . change (fmul (fadd (vy mn) (vy mx)) fhalf) with (vy cv) in * . change (fmul (fadd (vz mn) (vz mx)) fhalf) with (vz cv) in * .
  pose proof (norm_nonneg K) as K0. pose proof (bpow_gt_0 radix2 (-149)) as P149. assert (E146 : bpow radix2 (-146) = 8 * bpow radix2 (-149)) by (change (-146)%Z with (3 + -149)%Z; rewrite bpow_plus; reflexivity). set (z := bpow radix2 (-149)) in * .
  assert (DC : dist (val3 cv) K <= bpow radix2 (-24) * norm K + bpow radix2 (-146)).
  { change (bpow radix2 (-24)) with u. rewrite E146. set (Z := mk3 (u * Rabs (X3 K)) (u * Rabs (Y3 K)) (u * Rabs (Z3 K))).
    assert (NZ : norm Z = u * norm K). { apply norm_unique; [lra|]. replace (u * norm K * (u * norm K)) with (u * u * (norm K * norm K)) by ring. rewrite norm_sq. unfold dot, Z; cbn [X3 Y3 Z3]. assert (A2 : forall t, Rabs t * Rabs t = t * t) by (intros t; rewrite <- Rabs_mult; apply Rabs_pos_eq, Rle_0_sqr). rewrite <- (A2 (X3 K)), <- (A2 (Y3 K)), <- (A2 (Z3 K)). ring. }
    assert (NW : norm (mk3 z z z) <= 2 * z) by (apply norm_le; [lra|]; unfold dot; cbn [X3 Y3 Z3]; assert (0 < z * z) by (now apply Rmult_lt_0_compat); lra).
    apply Rle_trans with (norm (vplus Z (mk3 z z z))); [|eapply Rle_trans; [apply triangle_ineq|]; lra].
    unfold dist, norm. apply sqrt_le_1_alt. unfold dot, vminus, vplus, val3, Z; cbn [X3 Y3 Z3].
    assert (SQ : forall e f, Rabs e <= f -> e * e <= f * f) by (intros e f E; rewrite <- (Rabs_pos_eq (e * e)) by apply Rle_0_sqr; rewrite Rabs_mult; apply Rmult_le_compat; auto using Rabs_pos). apply SQ in EC1, EC2, EC3. lra. }
  split; [exact DC|].
  assert (DB : dist (val3 mx) (val3 mn) <= 6 * h). { apply norm_le; [lra|]. unfold dot, vminus, val3; cbn [X3 Y3 Z3]. apply Rabs_le_inv in N1, N2, N3, M1, M2, M3. assert (SQ : forall e, 0 <= e <= 2 * h -> e * e <= 4 * (h * h)) by (intros e E; replace (4 * (h * h)) with (2 * h * (2 * h)) by ring; apply Rmult_le_compat; lra). pose proof (SQ (real (vx mx) - real (vx mn)) ltac:(lra)). pose proof (SQ (real (vy mx) - real (vy mn)) ltac:(lra)). pose proof (SQ (real (vz mx) - real (vz mn)) ltac:(lra)). assert (0 < h * h) by (now apply Rmult_lt_0_compat). lra. }
  unfold half_diag in * . cbn [bmin bmax] in * . set (D := dist (val3 mx) (val3 mn)) in * . assert (D0 : 0 <= D) by apply norm_nonneg.
  assert (H60 : bpow radix2 60 = 32 * h) by (unfold h; change 60%Z with (5 + 55)%Z; now rewrite bpow_plus). assert (H59 : bpow radix2 59 = 16 * h) by (unfold h; change 59%Z with (4 + 55)%Z; now rewrite bpow_plus).
  destruct (sub_float mx mn) as [FS ES]; [split; [exact FX1|split; [exact FX2|exact FX3]]|split; [exact FN1|split; [exact FN2|exact FN3]]|fold D; lra|]. fold sz D in FS, ES.
  pose proof (norm_gap (val3 sz) (vminus (val3 mx) (val3 mn))) as NG. change (norm (vminus (val3 mx) (val3 mn))) with D in NG. apply Rabs_le_inv in NG.
  destruct (len_float BK sz FS) as [FL EL]; [destruct RO as [I|[I J]]; [now left|right; split; [exact I|lra]]|lra|].
  destruct (Props_EulF.half_exact _ FL) as [FR ER]. set (len := vec3_length sz) in * . set (ra := fmul len fhalf) in * .
  assert (T : 2 * eta <= / 1000 * bpow radix2 (-49)). { replace (2 * eta) with z by (unfold z; change eta with (bpow radix2 (-150)); change (-149)%Z with (1 + -150)%Z; rewrite bpow_plus; reflexivity). unfold z. change (-149)%Z with (-100 + -49)%Z. rewrite bpow_plus. apply Rmult_le_compat_r; [apply bpow_ge_0|]. apply Rle_trans with (bpow radix2 (-10)); [apply bpow_le; lia|simpl; lra]. }
  pose proof (bpow_gt_0 radix2 (-49)) as P49. assert (E48 : bpow radix2 (-48) = 2 * bpow radix2 (-49)) by (change (-48)%Z with (1 + -49)%Z; rewrite bpow_plus; reflexivity). assert (T2 : bpow radix2 (-146) <= bpow radix2 (-49)) by (apply bpow_le; lia).
  set (e := bpow radix2 (-49)) in * . change (bpow radix2 (-20)) with (/ 1048576) in EL. change (bpow radix2 (-19)) with (/ 524288).
  assert (WR : within (/ 524288 * (D / 2) + e) ra (D / 2)). { split; auto. apply Rabs_le_inv in EL, ER. apply Rabs_le. unfold Rdiv in * . lra. } split; [exact WR|].
  intros P (P1 & P2 & P3). cbn [bmin bmax] in P1, P2, P3. destruct WR as [_ WR]. apply Rabs_le_inv in WR. rewrite E48.
  assert (PK : dist P K <= D / 2).
  { apply norm_le; [lra|]. replace (D / 2 * (D / 2)) with (D * D * / 4) by (unfold Rdiv; lra). unfold D, dist. rewrite norm_sq. unfold dot, vminus, val3, K, middle; cbn [X3 Y3 Z3 bmin bmax].
    assert (Q : forall a b p, a <= p <= b -> (p - (a + b) / 2) * (p - (a + b) / 2) <= (b - a) * (b - a) * / 4). { intros a b p Hp. assert (0 <= (p - a) * (b - p)) by (apply Rmult_le_pos; lra). lra. }
    pose proof (Q _ _ _ P1). pose proof (Q _ _ _ P2). pose proof (Q _ _ _ P3). lra. }
  pose proof (dist_tri P K (val3 cv)) as TR. rewrite (dist_sym K) in TR. lra.
Qed.
Example C103_ex : forall BK : Backend b32, estimates_ok BK -> let r := Ry (vec3_init (lit 1 0) (lit 2 0) (lit 3 0)) (vec3_init (flit 10066330 (-24)) (flit 13421773 (-24)) fzero) in
  let p := P3 (lit 7 0) (lit 10 0) (lit 4 0) in let b := Bx (vec3_init (lit 1 0) (lit 2 0) (lit 3 0)) (vec3_init (lit 7 0) (lit 10 0) (lit 4 0)) in
  near r p /\ upto3 55 (ray_o r) /\ proper b /\ root_ok BK (half_diag b) /\ in_box b (mk3 2 9 3.5).
Proof.
  intros BK EO r p b. destruct (C94_ex BK) as [N _]. split; [exact N|]. clear N.
  destruct (lit_real 1 0) as [F1 R1]; try lia. destruct (lit_real 2 0) as [F2 R2]; try lia. destruct (lit_real 3 0) as [F3 R3]; try lia. destruct (lit_real 7 0) as [F7 R7]; try lia. destruct (lit_real 10 0) as [F10 R10]; try lia. destruct (lit_real 4 0) as [F4 R4]; try lia. simpl (bpow radix2 0) in * .
  assert (P6 : 1024 <= bpow radix2 55) by (change 1024 with (bpow radix2 10); apply bpow_le; lia).
  assert (UP : forall (x : b32) v, fin x -> real x = v -> -1024 <= v <= 1024 -> upto 55 x) by (intros x v FX EX LE; split; auto; rewrite EX; apply Rabs_le; lra).
  assert (U1 : upto3 55 (bmin b)) by (split; [|split]; (eapply UP; [eassumption|eassumption|lra])). assert (U2 : upto3 55 (bmax b)) by (split; [|split]; (eapply UP; [eassumption|eassumption|lra])).
  split; [exact U1|]. split; [|split].
  - split; [exact U1|]. split; [exact U2|]. unfold b, vec3_init, g_init, lit; cbn [bmin bmax vx vy vz]. rewrite R1, R2, R3, R7, R10, R4. lra.
  - right. split; [exact EO|]. unfold half_diag. assert (1 <= dist (val3 (bmax b)) (val3 (bmin b))). { apply Rsqr_incr_0_var; [|apply norm_nonneg]. unfold Rsqr, dist. rewrite norm_sq. unfold dot, vminus, val3, b, vec3_init, g_init, lit; cbn [bmin bmax vx vy vz X3 Y3 Z3]. rewrite R1, R2, R3, R7, R10, R4. lra. } change (bpow radix2 (-22)) with (/ 4194304). lra.
  - unfold in_box, b, vec3_init, g_init, lit; cbn [bmin bmax vx vy vz X3 Y3 Z3]. rewrite R1, R2, R3, R7, R10, R4. lra.
Qed.
