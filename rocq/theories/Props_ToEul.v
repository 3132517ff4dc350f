(** * Props_ToEul: the angles about the three axes read off a quaternion, in binary32 (C111). *)
From Coq Require Import ZArith Reals Bool List Lra Lia Psatz.
From Flocq Require Import Core BinarySingleNaN.
From Verif Require Import Num Simd Vec Rect Box Mat Geo Quat OrdThy FloatThy B32Setup FloatLem ErrThy Props_Err Props_Err2 Props_Err3 Props_Rot Props_Slerp Props_FromMat Props_QAng Props_ToAxis TrigThy.
From Verif Require Props_EulF Props_Err4 Props_Err5 Props_Err6 Props_MatX2 RQuat Props_QuatX2 Props_RaySph Props_Dec Props_Proj Props_Eq Props_Euler.
Import ListNotations.
Local Open Scope R_scope.

(** ** specification *)
(** t is an angle of the vector (x, y) *)
Definition angle_of (y x t : R) : Prop := x = sqrt (x * x + y * y) * cos t /\ y = sqrt (x * x + y * y) * sin t.
(** asinf within 2^-22 on [-1, 1]; atan2f within 2^-22 of an angle, between -pi and pi, of its argument, unless that is the origin
    (on the cut, where y is zero and x negative, either end will do: C tells them apart by the sign of the zero) *)
Definition asin_accurate (L : LibM b32) : Prop := forall x : b32, fin x -> -1 <= real x <= 1 -> within (bpow radix2 (-22)) (fasin x) (asin (real x)).
Definition atan2_accurate (L : LibM b32) : Prop := forall y x : b32, fin y -> fin x -> real x * real x + real y * real y <> 0 ->
  exists t, angle_of (real y) (real x) t /\ - PI <= t <= PI /\ within (bpow radix2 (-22)) (fatan2 y x) t.
(** the rotation of Q is the turn by x about the x axis, of the turn by y about the y axis, of the turn by z about the z axis *)
Notation rodrigues := Props_MatX2.rodrigues.
Definition turns (Q : RQ) (x y z : R) : Prop := forall v, RQuat.qrot Q v = rodrigues Props_QuatX2.ex x (rodrigues Props_QuatX2.ey y (rodrigues Props_QuatX2.ez z v)).
(** the sine of its pitch *)
Definition pitch_sine (Q : RQ) : R := 2 * (rcomp 0 Q * rcomp 2 Q + rcomp 1 Q * rcomp 3 Q).

(** ** angles of nearby vectors *)
Lemma atan_le v : Rabs (atan v) <= Rabs v.
Proof.
  assert (P : forall v, 0 < v -> 0 <= atan v <= v).
  { intros w W. destruct (MVT_cor2 atan (fun c => / (1 + Rsqr c)) 0 w W) as (c & EC & C). { intros c _. pose proof (derivable_pt_lim_atan c) as D. replace (/ (1 + Rsqr c)) with (/ (1 + c ^ 2)) by (unfold Rsqr; f_equal; ring). exact D. }
    rewrite atan_0, !Rminus_0_r in EC. rewrite EC. assert (0 < 1 + Rsqr c) by (pose proof (Rle_0_sqr c); lra). assert (0 < / (1 + Rsqr c)) by (now apply Rinv_0_lt_compat). assert (/ (1 + Rsqr c) <= 1). { rewrite <- Rinv_1. apply Rinv_le_contravar; [lra|]. pose proof (Rle_0_sqr c). lra. }
    split; nra. }
  destruct (Rtotal_order v 0) as [L|[->|L]].
  - pose proof (P (- v) ltac:(lra)) as Q. rewrite atan_opp in Q. rewrite !Rabs_left1 by lra. lra.
  - rewrite atan_0, Rabs_R0. lra.
  - pose proof (P v L). rewrite !Rabs_pos_eq by lra. lra.
Qed.
Lemma angle_close y x Y X t d c : 0 < c -> X * X + Y * Y = c * c -> 0 <= d <= c / 16 -> Rabs (y - Y) <= d -> Rabs (x - X) <= d -> angle_of y x t ->
  x * x + y * y <> 0 /\ exists T, X = c * cos T /\ Y = c * sin T /\ Rabs (t - T) <= 2.3 * d / c.
Proof.
  intros C E D HY HX [Px Py]. apply Rabs_le_inv in HY, HX. set (r := sqrt (x * x + y * y)) in * .
  assert (N0 : X * X + Y * Y <> 0) by nra. destruct (ratan2_cos_sin Y X N0) as (_ & TX & TY). set (T0 := ratan2 Y X) in * . replace (sqrt (X * X + Y * Y)) with c in TX, TY by (rewrite E; symmetry; apply sqrt_square; lra).
  assert (BX : - c <= X <= c) by (split; nra). assert (BY : - c <= Y <= c) by (split; nra).
  assert (S1 : x * X + y * Y >= c * c - 2 * d * c). { replace (x * X + y * Y) with ((X * X + Y * Y) + ((x - X) * X + (y - Y) * Y)) by ring. assert (- (d * c) <= (x - X) * X) by nra. assert (- (d * c) <= (y - Y) * Y) by nra. lra. }
  assert (S2 : Rabs (y * X - x * Y) <= 2 * d * c). { replace (y * X - x * Y) with ((y - Y) * X - (x - X) * Y) by ring. apply Rabs_le. assert (- (d * c) <= (x - X) * Y <= d * c) by (split; nra). assert (- (d * c) <= (y - Y) * X <= d * c) by (split; nra). lra. }
  assert (SP : 0 < x * X + y * Y) by nra. assert (N : x * x + y * y <> 0) by (intros Z; assert (x = 0) by nra; assert (y = 0) by nra; clear - SP H H0; rewrite H, H0 in SP; lra). split; [exact N|].
  assert (R0 : 0 < r) by (apply sqrt_lt_R0; nra). assert (RC : 0 < r * c) by now apply Rmult_lt_0_compat.
  pose proof (cos_minus t T0) as CM. pose proof (sin_minus t T0) as SM. set (k := cos (t - T0)) in * . set (s := sin (t - T0)) in * .
  assert (K : r * c * k = x * X + y * Y) by (rewrite CM, Px, Py, <- TX, <- TY; ring). assert (S : r * c * s = y * X - x * Y) by (rewrite SM, Px, Py, <- TX, <- TY; ring).
  assert (KP : 0 < k) by (apply (Rmult_lt_reg_l (r * c)); lra). assert (U1 : k * k + s * s = 1) by (unfold k, s; pose proof (sin2_cos2 (t - T0)) as Q; unfold Rsqr in Q; lra).
  destruct (ratan2_cos_sin s k ltac:(lra)) as (_ & DK & DS). rewrite U1, sqrt_1 in DK, DS. set (D0 := ratan2 s k) in * . assert (DA : D0 = atan (s / k)) by (unfold D0, ratan2; destruct (Rlt_dec 0 k); [reflexivity|lra]).
  exists (t - D0). assert (CT : cos (t - D0) = cos T0 /\ sin (t - D0) = sin T0).
  { rewrite cos_minus, sin_minus. replace (cos D0) with k by lra. replace (sin D0) with s by lra. unfold k, s. rewrite cos_minus, sin_minus. pose proof (sin2_cos2 t) as Q. unfold Rsqr in Q. split; nra. }
  destruct CT as [-> ->]. split; [lra|split; [lra|]]. replace (t - (t - D0)) with D0 by ring. rewrite DA. eapply Rle_trans; [apply atan_le|].
  replace (s / k) with ((r * c * s) / (r * c * k)) by (field; lra). rewrite K, S. unfold Rdiv. rewrite Rabs_mult, (Rabs_pos_eq (/ _)) by (left; now apply Rinv_0_lt_compat).
  assert (I : / (x * X + y * Y) <= 1.15 * (/ c * / c)). { replace (1.15 * (/ c * / c)) with (/ (c * c / 1.15)) by (field; lra). apply Rinv_le_contravar; [nra|]. nra. }
  apply Rle_trans with (2 * d * c * (1.15 * (/ c * / c))); [apply Rmult_le_compat; try lra; [apply Rabs_pos|left; now apply Rinv_0_lt_compat]|]. assert (I1 : c * / c = 1) by (apply Rinv_r; lra). replace (2 * d * c * (1.15 * (/ c * / c))) with (2 * d * 1.15 * / c * (c * / c)) by ring. rewrite I1. lra.
Qed.

(** ** the code's arguments *)
Lemma two_sub (p q r s : b32) : fin p -> fin q -> fin r -> fin s -> Rabs (real p * real q) + Rabs (real r * real s) <= 0.51 ->
  ap (fmul ftwo (fsub (fmul p q) (fmul r s))) (2 * (real p * real q - real r * real s)) (3.2 * u).
Proof.
  intros Fp Fq Fr Fs B. assert (ETA : eta <= / 1000 * u). { change eta with (bpow radix2 (-150)). apply Rle_trans with (bpow radix2 (-40)); [apply bpow_le; lia|simpl; lra]. } assert (E0 : 0 <= eta) by apply bpow_ge_0.
  assert (P127 : 64 <= bpow radix2 127) by (change 64 with (bpow radix2 6); apply bpow_le; lia). assert (U : u32 = u) by apply u32_val. pose proof (Rabs_pos (real p * real q)) as A1. pose proof (Rabs_pos (real r * real s)) as A2.
  pose proof (ap_mul0 p q Fp Fq ltac:(lra)) as M1. pose proof (ap_mul0 r s Fr Fs ltac:(lra)) as M2. set (a := real p * real q) in * . set (b := real r * real s) in * . rewrite U in M1, M2.
  assert (AB : Rabs (a - b) <= 0.51) by (pose proof (Rabs_triang a (- b)) as T; rewrite Rabs_Ropp in T; unfold Rminus; lra).
  pose proof (ap_sub _ _ _ _ _ _ 0.52 M1 M2 ltac:(lra) ltac:(lra)) as S. rewrite U in S. assert (S' : ap (fsub (fmul p q) (fmul r s)) (a - b) (1.04 * u)) by (eapply ap_weak; [exact S|]; lra).
  destruct (fin_of_X _ _ (ftwo_X : B2X (ftwo : b32) = Fin 2)) as [FT RT]. assert (HT : ap ftwo 2 0) by (rewrite <- RT; now apply ap_refl).
  pose proof (ap_mul _ _ _ _ _ _ 1.03 HT S' ltac:(rewrite (Rabs_pos_eq 2) by lra; lra) ltac:(lra)) as W. rewrite U, (Rabs_pos_eq 2) in W by lra. eapply ap_weak; [exact W|]. lra.
Qed.
Lemma two_add (p q r s : b32) : fin p -> fin q -> fin r -> fin s -> Rabs (real p * real q) + Rabs (real r * real s) <= 0.51 ->
  ap (fmul ftwo (fadd (fmul p q) (fmul r s))) (2 * (real p * real q + real r * real s)) (3.2 * u).
Proof.
  intros Fp Fq Fr Fs B. assert (ETA : eta <= / 1000 * u). { change eta with (bpow radix2 (-150)). apply Rle_trans with (bpow radix2 (-40)); [apply bpow_le; lia|simpl; lra]. } assert (E0 : 0 <= eta) by apply bpow_ge_0.
  assert (P127 : 64 <= bpow radix2 127) by (change 64 with (bpow radix2 6); apply bpow_le; lia). assert (U : u32 = u) by apply u32_val. pose proof (Rabs_pos (real p * real q)) as A1. pose proof (Rabs_pos (real r * real s)) as A2.
  pose proof (ap_mul0 p q Fp Fq ltac:(lra)) as M1. pose proof (ap_mul0 r s Fr Fs ltac:(lra)) as M2. set (a := real p * real q) in * . set (b := real r * real s) in * . rewrite U in M1, M2.
  assert (AB : Rabs (a + b) <= 0.51) by (pose proof (Rabs_triang a b) as T; lra).
  pose proof (ap_add _ _ _ _ _ _ 0.52 M1 M2 ltac:(lra) ltac:(lra)) as S. rewrite U in S. assert (S' : ap (fadd (fmul p q) (fmul r s)) (a + b) (1.04 * u)) by (eapply ap_weak; [exact S|]; lra).
  destruct (fin_of_X _ _ (ftwo_X : B2X (ftwo : b32) = Fin 2)) as [FT RT]. assert (HT : ap ftwo 2 0) by (rewrite <- RT; now apply ap_refl).
  pose proof (ap_mul _ _ _ _ _ _ 1.03 HT S' ltac:(rewrite (Rabs_pos_eq 2) by lra; lra) ltac:(lra)) as W. rewrite U, (Rabs_pos_eq 2) in W by lra. eapply ap_weak; [exact W|]. lra.
Qed.
Lemma four_squares (p q r s : b32) : fin p -> fin q -> fin r -> fin s -> real p * real p + real q * real q + real r * real r + real s * real s <= 1.01 ->
  ap (fadd (fsub (fsub (fmul p p) (fmul q q)) (fmul r r)) (fmul s s)) (real p * real p - real q * real q - real r * real r + real s * real s) (4.2 * u) /\
  ap (fsub (fsub (fadd (fmul p p) (fmul q q)) (fmul r r)) (fmul s s)) (real p * real p + real q * real q - real r * real r - real s * real s) (4.2 * u).
Proof.
  intros Fp Fq Fr Fs B. assert (ETA : eta <= / 1000 * u). { change eta with (bpow radix2 (-150)). apply Rle_trans with (bpow radix2 (-40)); [apply bpow_le; lia|simpl; lra]. } assert (E0 : 0 <= eta) by apply bpow_ge_0.
  assert (P127 : 64 <= bpow radix2 127) by (change 64 with (bpow radix2 6); apply bpow_le; lia). assert (U : u32 = u) by apply u32_val.
  assert (SQ : forall v, 0 <= v * v) by (intros; nra). pose proof (SQ (real p)). pose proof (SQ (real q)). pose proof (SQ (real r)). pose proof (SQ (real s)).
  assert (M : forall v : b32, fin v -> real v * real v <= 1.01 -> ap (fmul v v) (real v * real v) (u * (real v * real v) + eta)).
  { intros v Fv V. pose proof (ap_mul0 v v Fv Fv) as W. rewrite (Rabs_pos_eq (real v * real v)), U in W by apply SQ. apply W. lra. }
  pose proof (M p Fp ltac:(lra)) as Mp. pose proof (M q Fq ltac:(lra)) as Mq. pose proof (M r Fr ltac:(lra)) as Mr. pose proof (M s Fs ltac:(lra)) as Ms. clear M.
  set (a := real p * real p) in * . set (b := real q * real q) in * . set (c := real r * real r) in * . set (d := real s * real s) in * . clearbody a b c d. split.
  - pose proof (ap_sub _ _ _ _ _ _ 1.02 Mp Mq ltac:(assert (Rabs (a - b) <= 1.01) by (apply Rabs_le; lra); lra) ltac:(lra)) as S1. rewrite U in S1.
    pose proof (ap_sub _ _ _ _ _ _ 1.02 S1 Mr ltac:(assert (Rabs (a - b - c) <= 1.01) by (apply Rabs_le; lra); lra) ltac:(lra)) as S2. rewrite U in S2.
    pose proof (ap_add _ _ _ _ _ _ 1.02 S2 Ms ltac:(assert (Rabs (a - b - c + d) <= 1.01) by (apply Rabs_le; lra); lra) ltac:(lra)) as S3. rewrite U in S3. eapply ap_weak; [exact S3|]. lra.
  - pose proof (ap_add _ _ _ _ _ _ 1.02 Mp Mq ltac:(assert (Rabs (a + b) <= 1.01) by (apply Rabs_le; lra); lra) ltac:(lra)) as S1. rewrite U in S1.
    pose proof (ap_sub _ _ _ _ _ _ 1.02 S1 Mr ltac:(assert (Rabs (a + b - c) <= 1.01) by (apply Rabs_le; lra); lra) ltac:(lra)) as S2. rewrite U in S2.
    pose proof (ap_sub _ _ _ _ _ _ 1.02 S2 Ms ltac:(assert (Rabs (a + b - c - d) <= 1.01) by (apply Rabs_le; lra); lra) ltac:(lra)) as S3. rewrite U in S3. eapply ap_weak; [exact S3|]. lra.
Qed.
Lemma prod_dev e x y X Y : 0 <= e -> Rabs (x - X) <= e -> Rabs (y - Y) <= e -> Rabs (x * y - X * Y) <= e * (Rabs X + Rabs Y) + e * e.
Proof.
  intros E HX HY. replace (x * y - X * Y) with ((x - X) * Y + X * (y - Y) + (x - X) * (y - Y)) by ring. eapply Rle_trans; [apply Rabs_triang|].
  assert (Rabs ((x - X) * Y + X * (y - Y)) <= e * (Rabs X + Rabs Y)). { eapply Rle_trans; [apply Rabs_triang|]. rewrite !Rabs_mult. pose proof (Rabs_pos X). pose proof (Rabs_pos Y). assert (Rabs (x - X) * Rabs Y <= e * Rabs Y) by (apply Rmult_le_compat_r; lra). assert (Rabs X * Rabs (y - Y) <= Rabs X * e) by (apply Rmult_le_compat_l; lra). lra. }
  rewrite Rabs_mult. assert (Rabs (x - X) * Rabs (y - Y) <= e * e) by (apply Rmult_le_compat; try lra; apply Rabs_pos). lra.
Qed.
Lemma code_args e q Q : 0 <= e <= 256 * u -> nearby e q Q ->
  let x := qx q in let y := qy q in let z := qz q in let w := qw q in let X := rcomp 0 Q in let Y := rcomp 1 Q in let Z := rcomp 2 Q in let W := rcomp 3 Q in
  let d := 4.1 * e + 4.5 * u in
  ap (fmul ftwo (fsub (fmul x w) (fmul y z))) (2 * (X * W - Y * Z)) d /\ ap (fadd (fsub (fsub (fmul w w) (fmul x x)) (fmul y y)) (fmul z z)) (W * W - X * X - Y * Y + Z * Z) d /\
  ap (fmul ftwo (fadd (fmul x z) (fmul y w))) (2 * (X * Z + Y * W)) d /\
  ap (fmul ftwo (fsub (fmul z w) (fmul x y))) (2 * (Z * W - X * Y)) d /\ ap (fsub (fsub (fadd (fmul w w) (fmul x x)) (fmul y y)) (fmul z z)) (W * W + X * X - Y * Y - Z * Z) d.
Proof.
  intros E [UQ H] x y z w X Y Z W d. pose proof (unit_sum Q UQ) as SU. fold X Y Z W in SU. destruct (H 0%nat) as [Fx Ex]. destruct (H 1%nat) as [Fy Ey]. destruct (H 2%nat) as [Fz Ez]. destruct (H 3%nat) as [Fw Ew].
  change (qcomp 0 q) with x in Fx, Ex. change (qcomp 1 q) with y in Fy, Ey. change (qcomp 2 q) with z in Fz, Ez. change (qcomp 3 q) with w in Fw, Ew. fold X in Ex. fold Y in Ey. fold Z in Ez. fold W in Ew.
  pose proof (mass4 _ _ _ _ SU) as M. assert (AP : 0 <= Rabs X /\ 0 <= Rabs Y /\ 0 <= Rabs Z /\ 0 <= Rabs W) by (repeat split; apply Rabs_pos). assert (EE : e * e <= 256 * u * e) by (apply Rmult_le_compat_r; lra).
  assert (EM : e * (Rabs X + Rabs Y + Rabs Z + Rabs W) <= e * 2) by (apply Rmult_le_compat_l; lra). assert (EX0 : 0 <= e * Rabs X) by (apply Rmult_le_pos; lra). assert (EY0 : 0 <= e * Rabs Y) by (apply Rmult_le_pos; lra). assert (EZ0 : 0 <= e * Rabs Z) by (apply Rmult_le_pos; lra). assert (EW0 : 0 <= e * Rabs W) by (apply Rmult_le_pos; lra).
  assert (PD : forall a b A B, Rabs (a - A) <= e -> Rabs (b - B) <= e -> Rabs (a * b - A * B) <= e * Rabs A + e * Rabs B + e * e) by (intros a b A B HA HB; pose proof (prod_dev e a b A B ltac:(lra) HA HB); lra).
  assert (sx := PD _ _ _ _ Ex Ex). assert (sy := PD _ _ _ _ Ey Ey). assert (sz := PD _ _ _ _ Ez Ez). assert (sw := PD _ _ _ _ Ew Ew). assert (xw := PD _ _ _ _ Ex Ew). assert (yz := PD _ _ _ _ Ey Ez). assert (xz := PD _ _ _ _ Ex Ez). assert (yw := PD _ _ _ _ Ey Ew). assert (zw := PD _ _ _ _ Ez Ew). assert (xy := PD _ _ _ _ Ex Ey).
  assert (S1 : real x * real x + real y * real y + real z * real z + real w * real w <= 1.001). { apply Rabs_le_inv in sx, sy, sz, sw. lra. }
  assert (AG : forall a b c d, a * a + b * b + c * c + d * d <= 1.001 -> Rabs (a * b) + Rabs (c * d) <= 0.51).
  { intros a b c f K. assert (T : forall s t, Rabs (s * t) <= (s * s + t * t) / 2) by (intros s t; apply Rabs_le; pose proof (Rle_0_sqr (s - t)); pose proof (Rle_0_sqr (s + t)); unfold Rsqr in * ; split; lra). pose proof (T a b). pose proof (T c f). lra. }
  assert (FIN : forall (v : b32) r R' b, ap v r b -> Rabs (r - R') <= 4.1 * e -> b <= 4.5 * u -> ap v R' d). { intros v r R' b A D B. destruct A as (s & EA & DA). exists s. split; [exact EA|]. replace (s - R') with ((s - r) + (r - R')) by ring. eapply Rle_trans; [apply Rabs_triang|]. unfold d. lra. }
  destruct (four_squares w x y z Fw Fx Fy Fz ltac:(lra)) as [Q1 _]. destruct (four_squares w x y z Fw Fx Fy Fz ltac:(lra)) as [_ Q3].
  apply Rabs_le_inv in sx, sy, sz, sw, xw, yz, xz, yw, zw, xy.
  split; [|split; [|split; [|split]]].
  - eapply FIN; [apply (two_sub x w y z Fx Fw Fy Fz); apply AG; lra|apply Rabs_le; lra|lra].
  - eapply FIN; [exact Q1|apply Rabs_le; lra|lra].
  - eapply FIN; [apply (two_add x z y w Fx Fz Fy Fw); apply AG; lra|apply Rabs_le; lra|lra].
  - eapply FIN; [apply (two_sub z w x y Fz Fw Fx Fy); apply AG; lra|apply Rabs_le; lra|lra].
  - eapply FIN; [exact Q3|apply Rabs_le; lra|lra].
Qed.
Lemma row_norms Q : unit_q Q -> let X := rcomp 0 Q in let Y := rcomp 1 Q in let Z := rcomp 2 Q in let W := rcomp 3 Q in
  (W * W - X * X - Y * Y + Z * Z) * (W * W - X * X - Y * Y + Z * Z) + 2 * (X * W - Y * Z) * (2 * (X * W - Y * Z)) = 1 - pitch_sine Q * pitch_sine Q /\
  (W * W + X * X - Y * Y - Z * Z) * (W * W + X * X - Y * Y - Z * Z) + 2 * (Z * W - X * Y) * (2 * (Z * W - X * Y)) = 1 - pitch_sine Q * pitch_sine Q.
Proof.
  intros U X Y Z W. pose proof (unit_sum Q U) as S. fold X Y Z W in S. unfold pitch_sine. fold X Y Z W. assert (S2 : W * W = 1 - X * X - Y * Y - Z * Z) by lra. clearbody X Y Z W. split; ring [S2].
Qed.
(** the exact statement: three angles with these sines and cosines describe the rotation *)
Lemma qrot_basis q v : RQuat.qrot q v = Props_MatX2.add3 (Props_MatX2.add3 (Props_MatX2.scl3 (Props_MatX2.r3x v) (RQuat.qrot q (Props_MatX2.V3 1 0 0))) (Props_MatX2.scl3 (Props_MatX2.r3y v) (RQuat.qrot q (Props_MatX2.V3 0 1 0)))) (Props_MatX2.scl3 (Props_MatX2.r3z v) (RQuat.qrot q (Props_MatX2.V3 0 0 1))).
Proof.
  destruct q as [w [x y z]], v as [a b c]. destruct (Props_QuatX2.qrot_rows w x y z) as (-> & -> & ->).
  unfold RQuat.qrot, RQuat.qmul, RQuat.qconj, RQuat.qpure, Props_MatX2.add3, Props_MatX2.scl3, Props_MatX2.cross, Props_MatX2.dot; cbn [RQuat.qs RQuat.qv Props_MatX2.r3x Props_MatX2.r3y Props_MatX2.r3z]. f_equal; ring.
Qed.
Lemma turns_exact Q c a b g : unit_q Q -> 0 < c -> c * c = 1 - pitch_sine Q * pitch_sine Q -> sin b = pitch_sine Q -> cos b = c ->
  let X := rcomp 0 Q in let Y := rcomp 1 Q in let Z := rcomp 2 Q in let W := rcomp 3 Q in
  W * W - X * X - Y * Y + Z * Z = c * cos a -> 2 * (X * W - Y * Z) = c * sin a -> W * W + X * X - Y * Y - Z * Z = c * cos g -> 2 * (Z * W - X * Y) = c * sin g -> turns Q a b g.
Proof.
  intros U C CC SB CB X Y Z W A1 A2 G1 G2 v. destruct (Props_QuatX2.C44_from_radians a b g) as (_ & U' & T). rewrite <- T. clear T.
  destruct (Props_QuatX2.qxyz_entries a b g) as (w' & a' & b' & c' & EQ & E1 & E2 & E3 & E4 & E5). rewrite EQ in * . clear EQ. rewrite CB in * . rewrite SB in E3.
  pose proof (Props_QuatX2.mquat_rotation _ U) as RQ1. pose proof (Props_QuatX2.mquat_rotation _ U') as RQ2. destruct Q as [w [x y z]].
  unfold pitch_sine in * . unfold rcomp in * ; cbn [nth RQuat.qs RQuat.qv Props_MatX2.r3x Props_MatX2.r3y Props_MatX2.r3z] in * . unfold X, Y, Z, W in * . clear X Y Z W.
  destruct (Props_QuatX2.qrot_rows w x y z) as (X1 & X2 & X3). destruct (Props_QuatX2.qrot_rows w' a' b' c') as (Y1 & Y2 & Y3).
  rewrite (qrot_basis (RQuat.Q4 w _)), (qrot_basis (RQuat.Q4 w' _)). rewrite X1, X2, X3 in * . rewrite Y1, Y2, Y3 in * . clear X1 X2 X3 Y1 Y2 Y3.
  assert (N : 0 < c * c) by nra. pose proof (sin2_cos2 a) as SC. unfold Rsqr in SC.
  assert (EC : Props_MatX2.V3 (2 * (a' * c' + w' * b')) (2 * (b' * c' - w' * a')) (w' * w' - a' * a' - b' * b' + c' * c') = Props_MatX2.V3 (2 * (x * z + w * y)) (2 * (y * z - w * x)) (w * w - x * x - y * y + z * z)) by (f_equal; lra).
  destruct (Props_QuatX2.rot_unique _ _ _ _ _ _ RQ1 RQ2) as [Ra Rb]; cbn [Props_MatX2.r3x Props_MatX2.r3y Props_MatX2.r3z]; [lra|lra|now rewrite EC| |].
  - replace (2 * (y * z - w * x)) with (- (c * sin a)) by lra. replace (w * w - x * x - y * y + z * z) with (c * cos a) by lra. nra.
  - rewrite Ra, Rb, EC. reflexivity.
Qed.

(** ** C111 *)
Lemma asin_near m a b e : 0 < m <= 1 -> Rabs (a - b) <= e -> a * a <= 1 - m * m -> b * b <= 1 - m * m -> Rabs (asin a - asin b) <= e / m.
Proof.
  intros M E HA HB. pose proof (acos_near m a b e M E HA HB) as W. rewrite (acos_asin a), (acos_asin b) in W by (split; nra).
  replace (asin a - asin b) with (- (PI / 2 - asin a - (PI / 2 - asin b))) by ring. now rewrite Rabs_Ropp.
Qed.
Lemma atan2_near (L : LibM b32) (y x : b32) Y X d c : atan2_accurate L -> 0 < c -> X * X + Y * Y = c * c -> 0 <= d <= c / 16 -> ap y Y d -> ap x X d ->
  fin (fatan2 y x) /\ Rabs (real (fatan2 y x)) <= PI + bpow radix2 (-22) /\ exists T, X = c * cos T /\ Y = c * sin T /\ Rabs (real (fatan2 y x) - T) <= 2.3 * d / c + 4 * u.
Proof.
  intros HL C E D Ay Ax. destruct (ap_fin _ _ _ Ay) as [Fy Ey]. destruct (ap_fin _ _ _ Ax) as [Fx Ex].
  assert (N : real x * real x + real y * real y <> 0).
  { apply Rabs_le_inv in Ey, Ex. assert (BX : X <= - (c / 2) \/ c / 2 <= X \/ Y <= - (c / 2) \/ c / 2 <= Y). { destruct (Rle_or_lt X (- (c / 2))); [auto|]. destruct (Rle_or_lt (c / 2) X); [auto|]. destruct (Rle_or_lt Y (- (c / 2))); [auto|]. right; right; right. destruct (Rle_or_lt (c / 2) Y); [auto|exfalso]. nra. }
    intros Z. assert (real x = 0 /\ real y = 0) as [Zx Zy] by (split; nra). rewrite Zx in Ex. rewrite Zy in Ey. destruct BX as [B|[B|[B|B]]]; lra. }
  destruct (HL y x Fy Fx N) as (t & A & R & F & B). change (bpow radix2 (-22)) with (/ 4194304) in * . destruct (angle_close _ _ _ _ t d c C E D Ey Ex A) as (_ & T & TX & TY & DT).
  split; [exact F|]. split; [apply Rabs_le_inv in B; apply Rabs_le; lra|]. exists T. split; [exact TX|split; [exact TY|]].
  replace (real (fatan2 y x) - T) with ((real (fatan2 y x) - t) + (t - T)) by ring. eapply Rle_trans; [apply Rabs_triang|]. lra.
Qed.
Theorem C111_to_radians : forall (L : LibM b32) (q : quat b32) (Q : RQ) (e c : R), asin_accurate L -> atan2_accurate L -> 0 <= e <= bpow radix2 (-16) -> nearby e q Q ->
  / 64 <= c -> c * c = 1 - pitch_sine Q * pitch_sine Q ->
  let r := quaternion_to_radians q in let rx := fst (fst r) in let ry := snd (fst r) in let rz := snd r in let err := (12 * e + 20 * u) / c in
  Rabs (real rx) <= PI + bpow radix2 (-22) /\ Rabs (real rz) <= PI + bpow radix2 (-22) /\
  exists x y z, turns Q x y z /\ - (PI / 2) < y < PI / 2 /\ sin y = pitch_sine Q /\ within err rx x /\ within err ry y /\ within err rz z.
Proof.
  intros L q Q e c HS HA HE NQ CL CC r rx ry rz err. assert (U18 : bpow radix2 (-16) = 256 * u) by (simpl; lra). rewrite U18 in HE. pose proof (proj1 NQ) as UQ.
  destruct (code_args e q Q HE NQ) as (A1 & A2 & A3 & A4 & A5). destruct (row_norms Q UQ) as [N1 N2]. cbv zeta in N1, N2. rewrite <- CC in N1, N2.
  set (d := 4.1 * e + 4.5 * u) in * . assert (DB : 0 <= d <= c / 16) by (unfold d; lra). assert (C0 : 0 < c) by lra. assert (IC : 0 < / c) by (apply Rinv_0_lt_compat; lra).
  assert (C1 : c <= 1) by nra. assert (IC1 : 1 <= / c) by (rewrite <- Rinv_1; apply Rinv_le_contravar; lra).
  destruct (atan2_near L _ _ _ _ d c HA C0 N1 DB A1 A2) as (F1 & B1 & x & X1 & X2 & D1). destruct (atan2_near L _ _ _ _ d c HA C0 N2 DB A4 A5) as (F3 & B3 & z & Z1 & Z2 & D3).
  change (fatan2 _ _) with rx in F1, B1, D1 at 1. change (fatan2 (fmul ftwo (fsub (fmul (qz q) _) _)) _) with rz in F3, B3, D3.
  set (S := pitch_sine Q) in * . assert (SB : -1 < S < 1) by (split; nra). change (2 * _) with S in A3.
  destruct (clamp_float _ _ _ A3 ltac:(lra)) as [A3' RG]. destruct (ap_fin _ _ _ A3') as [Fs Es]. set (s := cCLAMP _ fm1 fone) in * . destruct (HS s Fs RG) as [F2 D2]. change (fasin s) with ry in F2, D2.
  split; [exact B1|split; [exact B3|]]. exists x, (asin S), z. pose proof (asin_bound_lt S SB) as AB. assert (SA : sin (asin S) = S) by (apply sin_asin; lra). assert (CA : cos (asin S) = c). { assert (P : 0 < cos (asin S)) by (apply cos_gt_0; lra). pose proof (sin2_cos2 (asin S)) as W. unfold Rsqr in W. rewrite SA in W. nra. }
  assert (W : forall v T, fin v -> Rabs (real v - T) <= 2.3 * d / c + 4 * u -> within err v T). { intros v T F D. split; [exact F|]. eapply Rle_trans; [exact D|]. unfold err, Rdiv. assert (4 * u * 1 <= 4 * u * / c) by (apply Rmult_le_compat_l; lra). assert (0 <= e * / c) by (apply Rmult_le_pos; lra). unfold d. lra. }
  split; [apply (turns_exact Q c); auto|]. split; [exact AB|]. split; [exact SA|]. split; [now apply W|]. split; [|now apply W].
  apply W; [exact F2|]. change (bpow radix2 (-22)) with (/ 4194304) in D2.
  assert (AN : Rabs (asin (real s) - asin S) <= d / (0.5 * c)).
  { assert (CC0 : 0 <= c * c) by nra. apply asin_near; [lra|exact Es| |lra].
    assert (real s * real s <= S * S + 2 * d + d * d). { apply Rabs_le_inv in Es. nra. } assert (0.75 * (c * c) >= 0.75 * (/ 64 * / 64)) by nra. assert (d * d <= d * / 16) by (apply Rmult_le_compat_l; lra). unfold d in * . lra. }
  replace (real ry - asin S) with ((real ry - asin (real s)) + (asin (real s) - asin S)) by ring. eapply Rle_trans; [apply Rabs_triang|].
  assert (d / (0.5 * c) <= 2.3 * d / c). { unfold Rdiv. rewrite Rinv_mult. assert (0 <= d * / c) by (apply Rmult_le_pos; lra). lra. } lra.
Qed.
(** and in degrees *)
Definition near_turn (e : R) (a : b32) (t : R) : Prop := fin a /\ Rabs (radians a - t) <= e.
Lemma degrees_near (a : b32) t e : fin a -> Rabs (real a) <= 3.15 -> Rabs (real a - t) <= e -> near_turn (e + 7 * u) (rad_to_deg a) t.
Proof.
  intros F B E. pose proof Props_Euler.PI_bounds as PB. assert (ETA : eta <= / 1000 * u). { change eta with (bpow radix2 (-150)). apply Rle_trans with (bpow radix2 (-40)); [apply bpow_le; lia|simpl; lra]. } assert (E0 : 0 <= eta) by apply bpow_ge_0.
  destruct (Props_Euler.r2d_err a F) as [FD ED]. { apply Rle_trans with (bpow radix2 3); [simpl; lra|apply bpow_le; lia]. }
  split; [exact FD|]. unfold radians. set (g := real (rad_to_deg a)) in * . assert (U23 : bpow radix2 (-23) = 2 * u) by (simpl; lra). rewrite U23 in ED.
  assert (IP : 0 < / PI) by (apply Rinv_0_lt_compat; lra). assert (PP : 0 < PI / 180 <= 0.02) by lra. replace (g * (PI / 180) - t) with ((g - real a * (180 / PI)) * (PI / 180) + (real a - t)) by (field; lra). eapply Rle_trans; [apply Rabs_triang|].
  assert (T1 : Rabs ((g - real a * (180 / PI)) * (PI / 180)) <= 6.4 * u).
  { rewrite Rabs_mult, (Rabs_pos_eq (PI / 180)) by lra. apply Rle_trans with ((2 * u * Rabs (real a * (180 / PI)) + eta) * (PI / 180)); [apply Rmult_le_compat_r; lra|].
    rewrite Rmult_plus_distr_r, Rmult_assoc. rewrite <- (Rabs_pos_eq (PI / 180)) at 1 by lra. rewrite <- Rabs_mult. replace (real a * (180 / PI) * (PI / 180)) with (real a) by (field; lra). assert (eta * (PI / 180) <= eta * 0.02) by (apply Rmult_le_compat_l; lra). lra. }
  lra.
Qed.
Theorem C111_to_angles : forall (L : LibM b32) (q : quat b32) (Q : RQ) (e c : R), asin_accurate L -> atan2_accurate L -> 0 <= e <= bpow radix2 (-16) -> nearby e q Q ->
  / 64 <= c -> c * c = 1 - pitch_sine Q * pitch_sine Q ->
  let r := quaternion_to_angles q in let rx := fst (fst r) in let ry := snd (fst r) in let rz := snd r in let err := (12 * e + 28 * u) / c in
  Rabs (radians rx) <= 3.1416 /\ Rabs (radians rz) <= 3.1416 /\
  exists x y z, turns Q x y z /\ - (PI / 2) < y < PI / 2 /\ sin y = pitch_sine Q /\ near_turn err rx x /\ near_turn err ry y /\ near_turn err rz z.
Proof.
  intros L q Q e c HS HA HE NQ CL CC r rx ry rz err. destruct (C111_to_radians L q Q e c HS HA HE NQ CL CC) as (B1 & B3 & x & y & z & T & YB & SY & (F1 & D1) & (F2 & D2) & (F3 & D3)).
  assert (U16 : bpow radix2 (-16) = 256 * u) by (simpl; lra). rewrite U16 in HE. change (bpow radix2 (-22)) with (/ 4194304) in * . unfold rx, ry, rz, r, quaternion_to_angles. destruct (quaternion_to_radians q) as [[a b] g]. cbn [fst snd] in * .
  pose proof Props_Euler.PI_bounds as PB. assert (C1 : c <= 1) by nra. assert (IC : 0 < / c) by (apply Rinv_0_lt_compat; lra). assert (IC1 : 1 <= / c <= 64) by (split; [rewrite <- Rinv_1|replace 64 with (/ / 64) by lra]; apply Rinv_le_contravar; lra).
  assert (EB : (12 * e + 20 * u) / c <= 0.02). { apply Rle_trans with ((12 * (256 * u) + 20 * u) * 64); [unfold Rdiv; apply Rmult_le_compat; lra|lra]. }
  assert (B2 : Rabs (real b) <= 3.15) by (apply Rabs_le_inv in D2; apply Rabs_le; lra).
  assert (W : (12 * e + 20 * u) / c + 7 * u <= err). { unfold err, Rdiv. assert (7 * u * 1 <= 7 * u * / c) by (apply Rmult_le_compat_l; lra). lra. }
  assert (N : forall v t, fin v -> Rabs (real v) <= 3.15 -> Rabs (real v - t) <= (12 * e + 20 * u) / c -> near_turn err (rad_to_deg v) t). { intros v t F B D. destruct (degrees_near v t _ F B D) as [F' D']. split; [exact F'|lra]. }
  assert (RB : forall v, fin v -> Rabs (real v) <= PI + / 4194304 -> Rabs (radians (rad_to_deg v)) <= 3.1416).
  { intros v F B. destruct (degrees_near v (real v) 0 F ltac:(lra)) as [_ D']; [rewrite Rminus_eq_0, Rabs_R0; lra|]. apply Rabs_le_inv in D', B. apply Rabs_le. lra. }
  split; [apply RB; [exact F1|exact B1]|]. split; [apply RB; [exact F3|exact B3]|]. exists x, y, z. split; [exact T|split; [exact YB|split; [exact SY|]]].
  split; [apply N; auto; lra|split; apply N; auto; lra].
Qed.

(** ** there and back: angles in, quaternion, angles out *)
Lemma cos_one t : cos t = 1 -> Rabs t < 2 * PI -> t = 0.
Proof.
  intros C B. pose proof (Props_QuatX2.half_cos t) as H. pose proof (sin2_cos2 (t / 2)) as S. unfold Rsqr in S. assert (Z : sin (t / 2) = 0) by nra.
  destruct (Rtotal_order t 0) as [L|[->|L]]; [|reflexivity|]; exfalso.
  - rewrite Rabs_left1 in B by lra. pose proof (sin_gt_0 (- (t / 2)) ltac:(lra) ltac:(lra)) as P. rewrite sin_neg in P. lra.
  - rewrite Rabs_pos_eq in B by lra. pose proof (sin_gt_0 (t / 2) ltac:(lra) ltac:(lra)). lra.
Qed.
Lemma same_angle s t : cos s = cos t -> sin s = sin t -> Rabs (s - t) < 2 * PI -> s = t.
Proof.
  intros C S B. assert (s - t = 0); [|lra]. apply cos_one; [|exact B]. rewrite cos_minus, C, S. pose proof (sin2_cos2 t) as Q. unfold Rsqr in Q. lra.
Qed.
(** the angles describing a rotation are determined, up to full turns *)
Lemma rodrigues_rows x y z : let f v := rodrigues Props_QuatX2.ex x (rodrigues Props_QuatX2.ey y (rodrigues Props_QuatX2.ez z v)) in
  Props_MatX2.r3x (f (Props_MatX2.V3 0 0 1)) = sin y /\ Props_MatX2.r3y (f (Props_MatX2.V3 0 0 1)) = - (cos y * sin x) /\ Props_MatX2.r3z (f (Props_MatX2.V3 0 0 1)) = cos y * cos x /\
  Props_MatX2.r3x (f (Props_MatX2.V3 1 0 0)) = cos y * cos z /\ Props_MatX2.r3x (f (Props_MatX2.V3 0 1 0)) = - (cos y * sin z).
Proof.
  cbv zeta. destruct (Props_QuatX2.C44_from_radians x y z) as (_ & _ & T). rewrite <- !T. destruct (Props_QuatX2.qxyz_entries x y z) as (w & a & b & c & -> & E1 & E2 & E3 & E4 & E5).
  destruct (Props_QuatX2.qrot_rows w a b c) as (-> & -> & ->). cbn [Props_MatX2.r3x Props_MatX2.r3y Props_MatX2.r3z]. lra.
Qed.
Lemma turns_unique Q x y z x' y' z' : turns Q x y z -> turns Q x' y' z' -> - (PI / 2) < y < PI / 2 -> - (PI / 2) < y' < PI / 2 -> y = y' /\ cos x = cos x' /\ sin x = sin x' /\ cos z = cos z' /\ sin z = sin z'.
Proof.
  intros T T' Y Y'. destruct (rodrigues_rows x y z) as (A1 & A2 & A3 & A4 & A5). destruct (rodrigues_rows x' y' z') as (B1 & B2 & B3 & B4 & B5). rewrite <- T in A1, A2, A3, A4, A5. rewrite <- T' in B1, B2, B3, B4, B5.
  assert (C : 0 < cos y) by (apply cos_gt_0; lra). assert (EY : y = y'). { rewrite <- (asin_sin y), <- (asin_sin y') by lra. f_equal. lra. } subst y'. split; [reflexivity|].
  repeat split; apply (Rmult_eq_reg_l (cos y)); lra.
Qed.
Theorem C111_round_trip : forall (L : LibM b32) (x y z : b32), libm_accurate L -> asin_accurate L -> atan2_accurate L -> fin x -> fin y -> fin z ->
  Rabs (radians x) <= 3.1 -> Rabs (radians y) < PI / 2 -> Rabs (radians z) <= 3.1 -> let c := cos (radians y) in / 64 <= c ->
  let r := quaternion_to_angles (quaternion_init_from_angles x y z) in
  near_turn (bpow radix2 (-13) / c) (fst (fst r)) (radians x) /\ near_turn (bpow radix2 (-13) / c) (snd (fst r)) (radians y) /\ near_turn (bpow radix2 (-13) / c) (snd r) (radians z).
Proof.
  intros L x y z HL HS HA Fx Fy Fz Bx By Bz c CL r. pose proof Props_Euler.PI_bounds as PB. assert (U13 : bpow radix2 (-13) = 2048 * u) by (simpl; lra). assert (U19 : bpow radix2 (-19) = 32 * u) by (simpl; lra). assert (U16 : bpow radix2 (-16) = 256 * u) by (simpl; lra).
  destruct (C107_from_angles L x y z 3.1 HL) as [NQ _]. { intros a [<-|[<-|[<-|[]]]]; (split; [assumption|lra]). } { lra. }
  rewrite U19 in NQ. set (q := quaternion_init_from_angles x y z) in * . set (Q := qxyz (radians x) (radians y) (radians z)) in * .
  assert (TQ : turns Q (radians x) (radians y) (radians z)) by exact (proj2 (proj2 (Props_QuatX2.C44_from_radians (radians x) (radians y) (radians z)))).
  assert (PS : pitch_sine Q = sin (radians y)). { unfold pitch_sine, Q. destruct (Props_QuatX2.qxyz_entries (radians x) (radians y) (radians z)) as (w & a & b & g & -> & _ & _ & E3 & _). exact E3. }
  assert (CC : c * c = 1 - pitch_sine Q * pitch_sine Q). { rewrite PS. unfold c. pose proof (sin2_cos2 (radians y)) as W. unfold Rsqr in W. lra. }
  destruct (C111_to_angles L q Q (32 * u * (1 + 3.1)) c HS HA ltac:(rewrite U16; lra) NQ CL CC) as (R1' & R3' & x' & y' & z' & T' & Y' & _ & (G1 & H1) & (G2 & H2) & (G3 & H3)). fold r in R1', R3', G1, H1, G2, H2, G3, H3.
  apply Rabs_def2 in By. destruct (turns_unique _ _ _ _ _ _ _ T' TQ Y' ltac:(lra)) as (EY & CX & SX & CZ & SZ).
  assert (IC : 0 < / c <= 64) by (split; [apply Rinv_0_lt_compat; lra|replace 64 with (/ / 64) by lra; apply Rinv_le_contravar; lra]).
  assert (EB : (12 * (32 * u * (1 + 3.1)) + 28 * u) / c <= 2048 * u / c) by (unfold Rdiv; apply Rmult_le_compat_r; lra). assert (EM : 2048 * u / c <= 0.0079) by (apply Rle_trans with (2048 * u * 64); [unfold Rdiv; apply Rmult_le_compat_l; lra|lra]).
  assert (EX : x' = radians x). { apply same_angle; auto. apply Rabs_le_inv in R1', H1, Bx. apply Rabs_lt. lra. }
  assert (EZ : z' = radians z). { apply same_angle; auto. apply Rabs_le_inv in R3', H3, Bz. apply Rabs_lt. lra. }
  rewrite EX in H1. rewrite EY in H2. rewrite EZ in H3. unfold near_turn. rewrite U13. repeat split; try assumption; lra.
Qed.

(** ** the hypotheses can be met: library functions rounding to the nearest multiple of 2^-22, and angles 30, -60, 120 *)
Definition libm_eul : LibM b32 := {| fsin := @fsin _ Props_Rot.libm23; fcos := @fcos _ Props_Rot.libm23; ftan := fun x => x; facos := fun x => x;
  fasin := fun x => flit (ZnearestE (asin (real x) * 4194304)) (-22); fatan2 := fun y x => flit (ZnearestE (ratan2 (real y) (real x) * 4194304)) (-22) |}.
Lemma grid_near r : -3.9 <= r <= 3.9 -> within (/ 4194304) (flit (ZnearestE (r * 4194304)) (-22) : b32) r.
Proof.
  intros B. pose proof (Znearest_half (fun x => negb (Z.even x)) (r * 4194304)) as Q. fold (ZnearestE) in Q. set (z := ZnearestE (r * 4194304)) in * . apply Rabs_le_inv in Q.
  destruct (lit_real z (-22)) as [F E]; [|lia|lia|].
  - assert (A1 : IZR z < IZR 16700000) by lra. assert (A2 : IZR (-16700000) < IZR z) by lra. apply lt_IZR in A1, A2. lia.
  - split; auto. rewrite E. change (bpow radix2 (-22)) with (/ 4194304). apply Rabs_le. lra.
Qed.
Lemma libm_eul_ok : libm_accurate libm_eul /\ asin_accurate libm_eul /\ atan2_accurate libm_eul.
Proof.
  pose proof Props_Euler.PI_bounds as PB. split; [exact Props_Rot.libm23_ok|split].
  - intros x _ X. change (@fasin _ libm_eul x) with (flit (ZnearestE (asin (real x) * 4194304)) (-22) : b32). change (bpow radix2 (-22)) with (/ 4194304). apply grid_near. pose proof (asin_bound (real x)). lra.
  - intros y x _ _ N. exists (ratan2 (real y) (real x)). destruct (ratan2_cos_sin (real y) (real x) N) as (_ & A & B). pose proof (ratan2_range (real y) (real x)) as RG. split; [split; symmetry; assumption|split; [exact RG|]].
    change (@fatan2 _ libm_eul y x) with (flit (ZnearestE (ratan2 (real y) (real x) * 4194304)) (-22) : b32). change (bpow radix2 (-22)) with (/ 4194304). apply grid_near. lra.
Qed.
Example C111_ex : let x := lit 30 0 : b32 in let y := lit (-60) 0 : b32 in let z := lit 120 0 : b32 in
  libm_accurate libm_eul /\ asin_accurate libm_eul /\ atan2_accurate libm_eul /\ fin x /\ fin y /\ fin z /\ Rabs (radians x) <= 3.1 /\ Rabs (radians y) < PI / 2 /\ Rabs (radians z) <= 3.1 /\ cos (radians y) = / 2.
Proof.
  intros x y z. destruct libm_eul_ok as (A & B & C). destruct (lit_real 30 0) as [F1 R1]; try lia. destruct (lit_real (-60) 0) as [F3 R3]; try lia. destruct (lit_real 120 0) as [F2 R2]; try lia. change (bpow radix2 0) with 1 in * .
  change (flit 30 0) with (x : b32) in * . change (flit (-60) 0) with (y : b32) in * . change (flit 120 0) with (z : b32) in * . pose proof Props_Euler.PI_bounds as PB. unfold radians. rewrite R1, R2, R3.
  refine (conj A (conj B (conj C (conj F1 (conj F3 (conj F2 (conj _ (conj _ (conj _ _))))))))); [apply Rabs_le; lra|apply Rabs_lt; lra|apply Rabs_le; lra|].
  replace (-60 * 1 * (PI / 180)) with (- (PI / 3)) by field. rewrite cos_neg. rewrite cos_PI3. lra.
Qed.
