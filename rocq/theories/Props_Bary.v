(** * Props_Bary: barycentric coordinates, texture coordinates and containment in triangles in binary32 (C101). *)
From Coq Require Import ZArith Reals Bool List Lra Lia Psatz.
From Flocq Require Import Core BinarySingleNaN.
From Verif Require Import Num Simd Vec Rect Box Mat Geo Quat OrdThy FloatThy B32Setup FloatLem ErrThy Props_Err Props_Err2 Props_Err3 ErrEx Props_Err4 Props_Err5 RGeo Props_Look Props_RayTri.
From Verif Require Props_Err6 Props_Rot Props_RaySph Props_Proj Props_TriF Props_TriX.
Import ListNotations.
Local Open Scope R_scope.
Notation pval := Props_TriF.pval.
Notation finite_pt := Props_TriF.finite_pt.
Notation bary := Props_TriX.bary.
Notation gram := Props_TriX.gram.

(** ** specification *)
(** [u] and [v] are the exact coordinates of the orthogonal projection of [p] on the plane of the triangle *)
Definition coords (a b c p : R3) (u v : R) : Prop :=
  dot (vminus p (bary a b c u v)) (vminus c a) = 0 /\ dot (vminus p (bary a b c u v)) (vminus b a) = 0.
(** 1 / sin^2 of the angle at a: the condition of the problem *)
Definition flatness (a b c : R3) : R := dist c a * dist c a * (dist b a * dist b a) / gram a b c.

(** ** float dot products and 2x2 determinants *)
Lemma dot_float (BK : Backend b32) (x y : V) (X Y : R3) (wx wy : R) : finite3 x -> finite3 y -> dist (val3 x) X <= u * norm X -> dist (val3 y) Y <= u * norm Y ->
  norm X <= wx <= bpow radix2 26 -> norm Y <= wy <= bpow radix2 26 -> bpow radix2 (-110) <= wx * wy ->
  ap (vec3_dot x y) (dot X Y) (6.2 * u * (wx * wy)) /\ Rabs (dot X Y) <= wx * wy.
Proof.
  intros FX FY DX DY BX BY BW. pose proof (norm_nonneg X) as X0. pose proof (norm_nonneg Y) as Y0. set (W := wx * wy) in * .
  assert (NX : forall v Z, dist (val3 v) Z <= u * norm Z -> norm (val3 v) <= 1.0000001 * norm Z). { intros v Z E. pose proof (norm_gap (val3 v) Z) as G. pose proof (norm_nonneg Z). apply Rabs_le_inv in G. lra. }
  pose proof (NX _ _ DX) as NX'. pose proof (NX _ _ DY) as NY'. pose proof (norm_nonneg (val3 x)). pose proof (norm_nonneg (val3 y)).
  assert (XY : norm X * norm Y <= W) by (apply Rmult_le_compat; lra). assert (XY0 : 0 <= norm X * norm Y) by (now apply Rmult_le_pos).
  assert (PB : norm (val3 x) * norm (val3 y) <= 1.0000003 * W). { apply Rle_trans with (1.0000001 * norm X * (1.0000001 * norm Y)); [apply Rmult_le_compat; lra|]. lra. }
  assert (WU : W <= bpow radix2 52). { change 52%Z with (26 + 26)%Z. rewrite bpow_plus. unfold W. apply Rmult_le_compat; lra. }
  pose proof (adot_norm x y) as AD.
  destruct (C70_dot3 BK x y FX FY) as [FD ED]. { assert (E : bpow radix2 126 = bpow radix2 74 * bpow radix2 52) by (rewrite <- bpow_plus; reflexivity). assert (4 <= bpow radix2 74) by (change 4 with (bpow radix2 2); apply bpow_le; lia). pose proof (bpow_gt_0 radix2 52). assert (4 * bpow radix2 52 <= bpow radix2 126) by (rewrite E; apply Rmult_le_compat_r; lra). lra. }
  assert (TN : tol (adot3 x y) <= 4.1 * u * W).
  { unfold tol. assert (T : bpow radix2 (-147) <= / 8192 * (/ 16777216 * bpow radix2 (-110))). { change (/ 8192) with (bpow radix2 (-13)). change (/ 16777216) with (bpow radix2 (-24)). rewrite <- !bpow_plus. apply bpow_le. lia. }
    change (bpow radix2 (-22)) with (/ 4194304). lra. }
  assert (DD : Rabs (dot (val3 x) (val3 y) - dot X Y) <= 2.01 * u * W).
  { replace (dot (val3 x) (val3 y) - dot X Y) with (dot (vminus (val3 x) X) (val3 y) + dot X (vminus (val3 y) Y)) by (unfold dot, vminus; cbn [X3 Y3 Z3]; ring).
    eapply Rle_trans; [apply Rabs_triang|]. pose proof (cauchy_abs (vminus (val3 x) X) (val3 y)) as C1. pose proof (cauchy_abs X (vminus (val3 y) Y)) as C2. change (norm (vminus (val3 x) X)) with (dist (val3 x) X) in C1. change (norm (vminus (val3 y) Y)) with (dist (val3 y) Y) in C2.
    assert (dist (val3 x) X * norm (val3 y) <= u * norm X * (1.0000001 * norm Y)) by (apply Rmult_le_compat; try lra; unfold dist; apply norm_nonneg).
    assert (norm X * dist (val3 y) Y <= norm X * (u * norm Y)) by (apply Rmult_le_compat_l; lra). lra. }
  split; [|eapply Rle_trans; [apply cauchy_abs|exact XY]].
  exists (real (vec3_dot x y)). split; [now apply fin_X|]. rewrite val3_dot3 in ED. replace (real (vec3_dot x y) - dot X Y) with ((real (vec3_dot x y) - dot (val3 x) (val3 y)) + (dot (val3 x) (val3 y) - dot X Y)) by ring. eapply Rle_trans; [apply Rabs_triang|]. assert (0 < bpow radix2 (-110)) by apply bpow_gt_0. lra.
Qed.
Lemma prod_float (A B : b32) a b al be M : ap A a (6.2 * u * al) -> ap B b (6.2 * u * be) -> Rabs a <= al -> Rabs b <= be -> al * be = M -> bpow radix2 (-118) <= M <= bpow radix2 110 ->
  ap (fmul A B) (a * b) (13.5 * u * M) /\ Rabs (a * b) <= M.
Proof.
  intros HA HB Ba Bb EM [ML MU]. pose proof (Rabs_pos a) as a0. pose proof (Rabs_pos b) as b0. assert (U : u32 = u) by reflexivity. pose proof (bpow_gt_0 radix2 (-118)) as P118.
  assert (T1 : Rabs a * Rabs b <= M) by (rewrite <- EM; apply Rmult_le_compat; lra).
  assert (T2 : Rabs a * (6.2 * u * be) <= 6.2 * u * M) by (rewrite <- EM; assert (Rabs a * be <= al * be) by (apply Rmult_le_compat_r; lra); lra).
  assert (T3 : Rabs b * (6.2 * u * al) <= 6.2 * u * M) by (rewrite <- EM; assert (Rabs b * al <= be * al) by (apply Rmult_le_compat_r; lra); lra).
  assert (T4 : 6.2 * u * al * (6.2 * u * be) = 38.44 * u * u * M) by (rewrite <- EM; lra). assert (T5 : 38.44 * u * u * M <= / 10000 * u * M) by (apply Rmult_le_compat_r; lra).
  split; [|now rewrite Rabs_mult].
  destruct (ap_mul A B a b _ _ (1.0001 * M) HA HB) as (s & S & L).
  - rewrite T4. lra.
  - assert (2 * bpow radix2 110 <= bpow radix2 127) by (change 2 with (bpow radix2 1); rewrite <- bpow_plus; apply bpow_le; lia). lra.
  - exists s. split; [exact S|]. rewrite T4, U in L. assert (eta <= / 100 * (/ 16777216 * bpow radix2 (-118))). { apply Rle_trans with (/ 128 * (/ 16777216 * bpow radix2 (-118))); [|lra]. change (/ 128) with (bpow radix2 (-7)). change (/ 16777216) with (bpow radix2 (-24)). rewrite <- !bpow_plus. apply bpow_le. lia. } lra.
Qed.
Lemma det_float (A B C D : b32) a b c d al be ga de M : ap A a (6.2 * u * al) -> ap B b (6.2 * u * be) -> ap C c (6.2 * u * ga) -> ap D d (6.2 * u * de) -> Rabs a <= al -> Rabs b <= be -> Rabs c <= ga -> Rabs d <= de ->
  al * be = M -> ga * de = M -> bpow radix2 (-118) <= M <= bpow radix2 110 -> ap (fsub (fmul A B) (fmul C D)) (a * b - c * d) (30 * u * M).
Proof.
  intros HA HB HC HD Ba Bb Bc Bd E1 E2 BM. destruct (prod_float A B a b al be M HA HB Ba Bb E1 BM) as [P1 Q1]. destruct (prod_float C D c d ga de M HC HD Bc Bd E2 BM) as [P2 Q2]. destruct BM as [ML MU]. pose proof (bpow_gt_0 radix2 (-118)) as P118. assert (U : u32 = u) by reflexivity.
  pose proof (Rabs_triang (a * b) (- (c * d))) as T. rewrite Rabs_Ropp in T.
  destruct (ap_sub _ _ _ _ _ _ (2.0001 * M) P1 P2) as (s & S & L).
  - unfold Rminus. lra.
  - assert (4 * bpow radix2 110 <= bpow radix2 127) by (change 4 with (bpow radix2 2); rewrite <- bpow_plus; apply bpow_le; lia). lra.
  - exists s. split; [exact S|]. rewrite U in L. lra.
Qed.

(** ** one coordinate: a quotient of determinants *)
Lemma ratio_float (N D : b32) (n g M m : R) : ap N n (30 * u * m) -> ap D g (30 * u * M) -> 1024 * u * M <= g -> g <= M -> Rabs n <= 1.0001 * m -> bpow radix2 (-22) <= g -> M <= bpow radix2 105 -> bpow radix2 (-118) <= m <= bpow radix2 110 ->
  m / M <= bpow radix2 63 -> bpow radix2 (-90) <= m / M ->
  ap (fmul N (fdiv fone D)) (n / g) (34 * u * (M / g) * (m / M + Rabs (n / g))).
Proof.
  intros HN HD HG GM Hn GL MU [mL mU] RU RL. assert (U : u32 = u) by reflexivity. pose proof (bpow_gt_0 radix2 (-22)) as P22. pose proof (bpow_gt_0 radix2 (-118)) as P118. pose proof (bpow_gt_0 radix2 (-90)) as P90.
  assert (G0 : 0 < g) by lra. assert (M0 : 0 < M) by lra. assert (I0 : 0 < / g) by (now apply Rinv_0_lt_compat). set (ka := M / g). set (rho := m / M) in * .
  assert (KU : u * ka <= / 1024). { assert (H : (1024 * u * M) * / g <= g * / g) by (apply Rmult_le_compat_r; lra). rewrite Rinv_r in H by lra. unfold ka, Rdiv. lra. }
  assert (K1 : 1 <= ka). { unfold ka, Rdiv. rewrite <- (Rinv_r g) by lra. apply Rmult_le_compat_r; lra. }
  destruct (ap_fin _ _ _ HD) as [FD ED]. set (d := real D) in * . assert (ED' : Rabs (d - g) <= 30 * / 1024 * g) by lra. apply Rabs_le_inv in ED'. assert (d0 : 0.97 * g <= d <= 1.03 * g) by lra.
  destruct (fin_of_X _ _ (fone_X : B2X (fone : b32) = Fin 1)) as [FO RO].
  assert (ID : / d <= 1.031 * / g). { apply Rle_trans with (/ (0.97 * g)); [apply Rinv_le_contravar; lra|]. rewrite Rinv_mult. apply Rmult_le_compat_r; lra. } assert (ID0 : 0 < / d) by (apply Rinv_0_lt_compat; lra).
  assert (IG : / g <= bpow radix2 22). { apply Rle_trans with (/ bpow radix2 (-22)); [apply Rinv_le_contravar; lra|]. rewrite <- bpow_opp. apply bpow_le. lia. }
  destruct (Props_Proj.div_raw fone D FO FD) as [FI EI]. { fold d. lra. } { fold d. rewrite RO. unfold Rdiv. rewrite Rmult_1_l, Rabs_pos_eq by lra. assert (4 * bpow radix2 22 <= bpow radix2 127) by (change 4 with (bpow radix2 2); rewrite <- bpow_plus; apply bpow_le; lia). lra. }
  fold d in EI. rewrite RO in EI. unfold Rdiv in EI. rewrite !Rmult_1_l in EI. rewrite (Rabs_pos_eq (/ d)) in EI by lra.
  assert (GS : bpow radix2 (-150) <= / 1000 * u * / g).
  { apply Rle_trans with (/ 1024 * / 16777216 * bpow radix2 (-105)); [change (/ 1024) with (bpow radix2 (-10)); change (/ 16777216) with (bpow radix2 (-24)); rewrite <- !bpow_plus; apply bpow_le; lia|].
    assert (bpow radix2 (-105) <= / g). { change (-105)%Z with (- (105))%Z. rewrite bpow_opp. apply Rinv_le_contravar; lra. } pose proof (bpow_gt_0 radix2 (-105)). lra. }
  assert (DG : Rabs (/ d - / g) <= 30.94 * u * ka * / g).
  { replace (/ d - / g) with ((g - d) * / d * / g) by (field; lra). rewrite !Rabs_mult, (Rabs_pos_eq (/ d)), (Rabs_pos_eq (/ g)) by lra. apply Rmult_le_compat_r; [lra|]. rewrite <- Rabs_Ropp. replace (- (g - d)) with (d - g) by ring.
    apply Rle_trans with (30 * u * M * (1.031 * / g)); [apply Rmult_le_compat; try lra; apply Rabs_pos|]. unfold ka, Rdiv. assert (0 < M * / g) by (apply Rmult_lt_0_compat; lra). lra. }
  assert (UG : 0 < u * / g) by (apply Rmult_lt_0_compat; lra). assert (KG : u * / g <= u * ka * / g). { replace (u * ka * / g) with (ka * (u * / g)) by ring. rewrite <- (Rmult_1_l (u * / g)) at 1. apply Rmult_le_compat_r; lra. }
  assert (HI : ap (fdiv fone D) (/ g) (32 * u * ka * / g)).
  { exists (real (fdiv fone D)). split; [now apply fin_X|]. replace (real (fdiv fone D) - / g) with ((real (fdiv fone D) - / d) + (/ d - / g)) by ring. eapply Rle_trans; [apply Rabs_triang|]. assert (u * / d <= 1.031 * (u * / g)) by (assert (u * / d <= u * (1.031 * / g)) by (apply Rmult_le_compat_l; lra); lra). lra. }
  assert (MG : m * / g = ka * rho) by (unfold ka, rho, Rdiv; field; lra). set (q := Rabs (n / g)). assert (Eq : Rabs n * / g = q) by (unfold q, Rdiv; rewrite Rabs_mult, (Rabs_pos_eq (/ g)) by lra; reflexivity).
  assert (R0 : 0 < rho) by lra. assert (KR : 0 < ka * rho) by (apply Rmult_lt_0_compat; lra). assert (q0 : 0 <= q) by apply Rabs_pos.
  assert (KRb : rho <= ka * rho) by (rewrite <- (Rmult_1_l rho) at 1; apply Rmult_le_compat_r; lra). assert (Kq : q <= ka * q) by (rewrite <- (Rmult_1_l q) at 1; apply Rmult_le_compat_r; lra).
  assert (E1 : Rabs n * (32 * u * ka * / g) = 32 * u * (ka * q)) by (rewrite <- Eq; ring).
  assert (E2 : Rabs (/ g) * (30 * u * m) = 30 * u * (ka * rho)) by (rewrite <- MG, Rabs_pos_eq by lra; ring).
  assert (E3 : 30 * u * m * (32 * u * ka * / g) <= 0.94 * u * (ka * rho)). { replace (30 * u * m * (32 * u * ka * / g)) with (960 * (u * (m * / g)) * (u * ka)) by ring. rewrite MG. assert (960 * (u * (ka * rho)) * (u * ka) <= 960 * (u * (ka * rho)) * / 1024) by (apply Rmult_le_compat_l; [apply Rmult_le_pos; [lra|apply Rmult_le_pos; lra]|exact KU]). lra. }
  assert (E4 : 0 <= 30 * u * m * (32 * u * ka * / g)) by (repeat apply Rmult_le_pos; lra).
  assert (KQ : u * (ka * q) <= / 1024 * q) by (replace (u * (ka * q)) with (u * ka * q) by ring; apply Rmult_le_compat_r; lra).
  assert (KQ2 : u * (ka * rho) <= / 1024 * rho) by (replace (u * (ka * rho)) with (u * ka * rho) by ring; apply Rmult_le_compat_r; lra).
  destruct (ap_mul N (fdiv fone D) n (/ g) _ _ (1.04 * q + 0.04 * rho) HN HI) as (s & S & L).
  - rewrite E1, E2, (Rabs_pos_eq (/ g)) by lra. rewrite Eq. lra.
  - assert (QB : q <= 1.0001 * (ka * rho)). { rewrite <- Eq, <- MG. assert (Rabs n * / g <= 1.0001 * m * / g) by (apply Rmult_le_compat_r; lra). lra. }
    assert (KB : ka <= bpow radix2 14) by (change (bpow radix2 14) with 16384; lra).
    assert (ka * rho <= bpow radix2 77). { change 77%Z with (14 + 63)%Z. rewrite bpow_plus. apply Rmult_le_compat; lra. } assert (4 * bpow radix2 77 <= bpow radix2 127) by (change 4 with (bpow radix2 2); rewrite <- bpow_plus; apply bpow_le; lia). lra.
  - exists s. split; [exact S|]. rewrite E1, E2, U in L. assert (eta <= / 1000 * u * rho). { apply Rle_trans with (/ 1024 * / 16777216 * bpow radix2 (-90)); [change (/ 1024) with (bpow radix2 (-10)); change (/ 16777216) with (bpow radix2 (-24)); rewrite <- !bpow_plus; apply bpow_le; lia|lra]. }
    fold q. unfold Rdiv at 1. lra.
Qed.

(** ** the triangle and the point *)
Definition well_shaped (a b c : R3) : Prop := dist c a <= bpow radix2 25 /\ dist b a <= bpow radix2 25 /\ bpow radix2 (-22) <= gram a b c /\ flatness a b c <= bpow radix2 14.
(** the error of the two coordinates: the condition of the triangle times the size of the coordinates *)
Definition err_u (a b c p : R3) (s : R) : R := bpow radix2 (-18) * flatness a b c * ((dist p a + bpow radix2 (-60)) / dist c a + Rabs s).
Definition err_v (a b c p : R3) (s : R) : R := bpow radix2 (-18) * flatness a b c * ((dist p a + bpow radix2 (-60)) / dist b a + Rabs s).
Lemma coords_ratio a b c p s t : coords a b c p s t -> 
  dot (vminus b a) (vminus b a) * dot (vminus c a) (vminus p a) - dot (vminus c a) (vminus b a) * dot (vminus b a) (vminus p a) = s * gram a b c /\
  dot (vminus c a) (vminus c a) * dot (vminus b a) (vminus p a) - dot (vminus c a) (vminus b a) * dot (vminus c a) (vminus p a) = t * gram a b c.
Proof.
  intros [H1 H2]. unfold gram. set (e := vminus c a) in * . set (f := vminus b a) in * . set (q := vminus p a).
  assert (E : vminus p (bary a b c s t) = vminus q (vplus (vscal s e) (vscal t f))). { apply R3_ext; unfold q, bary, vminus, vplus, vscal; fold e f; cbn [X3 Y3 Z3]; unfold e, f, vminus; cbn [X3 Y3 Z3]; ring. }
  rewrite E in H1, H2. clear E. assert (L : forall y, dot (vminus q (vplus (vscal s e) (vscal t f))) y = dot q y - s * dot e y - t * dot f y) by (intros y; unfold dot, vminus, vplus, vscal; cbn [X3 Y3 Z3]; ring).
  rewrite L in H1, H2. rewrite (dot_sym e q), (dot_sym f q). rewrite (dot_sym f e) in H1.
  assert (Q1 : dot q e = s * dot e e + t * dot e f) by lra. assert (Q2 : dot q f = s * dot e f + t * dot f f) by lra. rewrite Q1, Q2. split; ring.
Qed.
Lemma denom_float (BK : Backend b32) (a b c : V) (w0 w1 : R) : finite3 a -> finite3 b -> finite3 c -> dist (val3 c) (val3 a) <= w0 <= bpow radix2 26 -> dist (val3 b) (val3 a) <= w1 <= bpow radix2 26 ->
  bpow radix2 (-110) <= w0 * w0 -> bpow radix2 (-110) <= w1 * w1 -> bpow radix2 (-110) <= w0 * w1 -> bpow radix2 (-118) <= w0 * w0 * (w1 * w1) ->
  let v0 := vec3_subtract c a in let v1 := vec3_subtract b a in
  ap (fsub (fmul (vec3_dot v0 v0) (vec3_dot v1 v1)) (fmul (vec3_dot v0 v1) (vec3_dot v0 v1))) (gram (val3 a) (val3 b) (val3 c)) (30 * u * (w0 * w0 * (w1 * w1))).
Proof.
  intros FA FB FC B0 B1 P00 P11 P01 PM v0 v1. assert (P26 : bpow radix2 26 <= bpow radix2 60) by (apply bpow_le; lia).
  destruct (sub_float c a FC FA) as [F0 R0]; [lra|]. destruct (sub_float b a FB FA) as [F1 R1]; [lra|].
  change (dist (val3 c) (val3 a)) with (norm (vminus (val3 c) (val3 a))) in * . change (dist (val3 b) (val3 a)) with (norm (vminus (val3 b) (val3 a))) in * .
  destruct (dot_float BK v0 v0 _ _ w0 w0 F0 F0 R0 R0 B0 B0 P00) as [D00 A00]. destruct (dot_float BK v1 v1 _ _ w1 w1 F1 F1 R1 R1 B1 B1 P11) as [D11 A11]. destruct (dot_float BK v0 v1 _ _ w0 w1 F0 F1 R0 R1 B0 B1 P01) as [D01 A01].
  unfold gram. eapply det_float; eauto; [ring|]. split; [exact PM|].
  pose proof (norm_nonneg (vminus (val3 c) (val3 a))). pose proof (norm_nonneg (vminus (val3 b) (val3 a))).
  assert (Q : forall w, 0 <= w <= bpow radix2 26 -> 0 <= w * w <= bpow radix2 52). { intros w W. split; [apply Rmult_le_pos; lra|]. change 52%Z with (26 + 26)%Z. rewrite bpow_plus. apply Rmult_le_compat; lra. }
  pose proof (Q w0 ltac:(lra)). pose proof (Q w1 ltac:(lra)). apply Rle_trans with (bpow radix2 52 * bpow radix2 52); [apply Rmult_le_compat; lra|]. rewrite <- bpow_plus. apply bpow_le. lia.
Qed.
Lemma bary_float (BK : Backend b32) (t : triangle b32) (p : point3d b32) (s r : R) : finite3 (tr_a t) -> finite3 (tr_b t) -> finite3 (tr_c t) -> finite_pt p ->
  let a := val3 (tr_a t) in let b := val3 (tr_b t) in let c := val3 (tr_c t) in
  well_shaped a b c -> dist (pval p) a <= bpow radix2 25 -> coords a b c (pval p) s r ->
  exists x y, triangle_get_barycoords t (Some p) = Some (vec2_init x y) /\ ap x s (err_u a b c (pval p) s) /\ ap y r (err_v a b c (pval p) r) /\ Rabs s + Rabs r + err_u a b c (pval p) s + err_v a b c (pval p) r <= bpow radix2 85.
Proof.
  intros FA FB FC FP a b c (L0 & L1 & GL & KL) L2 CO. assert (P26 : bpow radix2 25 + bpow radix2 (-60) <= bpow radix2 26). { assert (bpow radix2 (-60) <= bpow radix2 25) by (apply bpow_le; lia). change 26%Z with (1 + 25)%Z. rewrite bpow_plus. change (bpow radix2 1) with 2. lra. }
  assert (P2660 : bpow radix2 26 <= bpow radix2 60) by (apply bpow_le; lia). pose proof (bpow_gt_0 radix2 (-60)) as P60.
  set (n0 := dist c a) in * . set (n1 := dist b a) in * . set (w := dist (pval p) a + bpow radix2 (-60)). set (g := gram a b c) in * . set (pt := point3d_to_vec3 p). assert (FPt : finite3 pt) by exact FP. assert (VP : val3 pt = pval p) by reflexivity.
  assert (N0 : 0 <= n0) by apply norm_nonneg. assert (N1 : 0 <= n1) by apply norm_nonneg. assert (W0 : 0 <= dist (pval p) a) by apply norm_nonneg. set (M := n0 * n0 * (n1 * n1)).
  assert (EN0 : n0 * n0 = dot (vminus c a) (vminus c a)) by apply norm_sq. assert (EN1 : n1 * n1 = dot (vminus b a) (vminus b a)) by apply norm_sq.
  assert (GM : g <= M). { unfold g, gram, M. rewrite EN0, EN1. pose proof (Rle_0_sqr (dot (vminus c a) (vminus b a))). unfold Rsqr in * . lra. }
  assert (G0 : 0 < g) by (pose proof (bpow_gt_0 radix2 (-22)); lra). assert (I0 : 0 < / g) by (now apply Rinv_0_lt_compat).
  assert (KA : flatness a b c = M / g) by reflexivity. assert (GK : 1024 * u * M <= g). { rewrite KA in KL. assert (H : M / g * g <= bpow radix2 14 * g) by (apply Rmult_le_compat_r; lra). replace (M / g * g) with M in H by (field; lra). change (bpow radix2 14) with 16384 in H. lra. }
  assert (PN : bpow radix2 (-11) <= n0 * n1). { apply Rsqr_incr_0_var; [|now apply Rmult_le_pos]. unfold Rsqr. rewrite <- bpow_plus. change (-11 + -11)%Z with (-22)%Z. replace (n0 * n1 * (n0 * n1)) with M by (unfold M; ring). lra. }
  assert (NL : forall x y, 0 <= x -> 0 <= y <= bpow radix2 25 -> bpow radix2 (-11) <= x * y -> bpow radix2 (-36) <= x). { intros x y X0 Y0 XY. destruct (Rle_or_lt (bpow radix2 (-36)) x) as [|C]; auto. exfalso. assert (x * y < bpow radix2 (-36) * bpow radix2 25). { apply Rle_lt_trans with (x * bpow radix2 25); [apply Rmult_le_compat_l; lra|]. apply Rmult_lt_compat_r; [apply bpow_gt_0|auto]. } rewrite <- bpow_plus in H. change (-36 + 25)%Z with (-11)%Z in H. lra. }
  assert (N0L : bpow radix2 (-36) <= n0) by (apply (NL n0 n1); lra). assert (N1L : bpow radix2 (-36) <= n1) by (apply (NL n1 n0); try lra; rewrite Rmult_comm; exact PN). pose proof (bpow_gt_0 radix2 (-36)) as P36.
  assert (WL : bpow radix2 (-60) <= w <= bpow radix2 26) by (unfold w; lra).
  assert (PL : forall x y e f, bpow radix2 e <= x -> bpow radix2 f <= y -> bpow radix2 (e + f) <= x * y) by (intros x y e f X Y; rewrite bpow_plus; apply Rmult_le_compat; auto; apply bpow_ge_0).
  assert (PU : forall x y e f, 0 <= x <= bpow radix2 e -> 0 <= y <= bpow radix2 f -> x * y <= bpow radix2 (e + f)) by (intros x y e f X Y; rewrite bpow_plus; apply Rmult_le_compat; lra).
  assert (BL : forall e f x, (f <= e)%Z -> bpow radix2 e <= x -> bpow radix2 f <= x) by (intros e f x EF X; eapply Rle_trans; [apply bpow_le; exact EF|exact X]).
  assert (P00 : bpow radix2 (-110) <= n0 * n0) by (apply (BL (-36 + -36)%Z); [lia|apply PL; auto]). assert (P11 : bpow radix2 (-110) <= n1 * n1) by (apply (BL (-36 + -36)%Z); [lia|apply PL; auto]). assert (P01 : bpow radix2 (-110) <= n0 * n1) by (apply (BL (-11)%Z); [lia|auto]).
  assert (P0w : bpow radix2 (-110) <= n0 * w) by (apply (BL (-36 + -60)%Z); [lia|apply PL; lra]). assert (P1w : bpow radix2 (-110) <= n1 * w) by (apply (BL (-36 + -60)%Z); [lia|apply PL; lra]).
  assert (ML : bpow radix2 (-118) <= M) by (apply (BL (-22)%Z); [lia|lra]).
  assert (Q0 : 0 <= n0 * n0 <= bpow radix2 50) by (split; [now apply Rmult_le_pos|change 50%Z with (25 + 25)%Z; apply PU; lra]). assert (Q1 : 0 <= n1 * n1 <= bpow radix2 50) by (split; [now apply Rmult_le_pos|change 50%Z with (25 + 25)%Z; apply PU; lra]).
  assert (MU : M <= bpow radix2 100) by (change 100%Z with (50 + 50)%Z; apply PU; auto). assert (MU' : M <= bpow radix2 105) by (eapply Rle_trans; [exact MU|apply bpow_le; lia]).
  assert (Hn0 : n0 <= n0 <= bpow radix2 26) by lra. assert (Hn1 : n1 <= n1 <= bpow radix2 26) by lra.
  set (v0 := vec3_subtract (tr_c t) (tr_a t)). set (v1 := vec3_subtract (tr_b t) (tr_a t)). set (v2 := vec3_subtract pt (tr_a t)).
  pose proof (denom_float BK _ _ _ n0 n1 FA FB FC Hn0 Hn1 P00 P11 P01 ML) as HD. cbv zeta in HD. fold v0 v1 a b c g M in HD. set (D := fsub _ _) in HD.
  destruct (sub_float _ _ FC FA) as [F0 R0]; [fold a c n0; lra|]. destruct (sub_float _ _ FB FA) as [F1 R1]; [fold a b n1; lra|]. destruct (sub_float _ _ FPt FA) as [F2 R2]; [rewrite VP; fold a; lra|].
  rewrite VP in R2. change (g_sub pt (tr_a t)) with v2 in * . change (g_sub (tr_c t) (tr_a t)) with v0 in * . change (g_sub (tr_b t) (tr_a t)) with v1 in * . fold a b c in R0, R1, R2.
  assert (Bw : norm (vminus (pval p) a) <= w <= bpow radix2 26) by (change (norm (vminus (pval p) a)) with (dist (pval p) a); unfold w in * ; lra).
  destruct (dot_float BK v0 v0 _ _ n0 n0 F0 F0 R0 R0 Hn0 Hn0 P00) as [D00 A00]. destruct (dot_float BK v1 v1 _ _ n1 n1 F1 F1 R1 R1 Hn1 Hn1 P11) as [D11 A11]. destruct (dot_float BK v0 v1 _ _ n0 n1 F0 F1 R0 R1 Hn0 Hn1 P01) as [D01 A01].
  destruct (dot_float BK v0 v2 _ _ n0 w F0 F2 R0 R2 Hn0 Bw P0w) as [D02 A02]. destruct (dot_float BK v1 v2 _ _ n1 w F1 F2 R1 R2 Hn1 Bw P1w) as [D12 A12].
  destruct (coords_ratio a b c (pval p) s r CO) as [E0 E1]. fold g in E0, E1.
  set (mu := n1 * n1 * (n0 * w)). set (mv := n0 * n0 * (n1 * w)).
  assert (mub : bpow radix2 (-118) <= mu <= bpow radix2 110). { split. - replace mu with (n0 * n1 * (n1 * w)) by (unfold mu; ring). apply (BL (-11 + (-36 + -60))%Z); [lia|]. apply PL; [auto|apply PL; lra]. - unfold mu. apply Rle_trans with (bpow radix2 (50 + (25 + 26))); [apply PU; [auto|split; [apply Rmult_le_pos; lra|apply PU; lra]]|apply bpow_le; lia]. }
  assert (mvb : bpow radix2 (-118) <= mv <= bpow radix2 110). { split. - replace mv with (n0 * n1 * (n0 * w)) by (unfold mv; ring). apply (BL (-11 + (-36 + -60))%Z); [lia|]. apply PL; [auto|apply PL; lra]. - unfold mv. apply Rle_trans with (bpow radix2 (50 + (25 + 26))); [apply PU; [auto|split; [apply Rmult_le_pos; lra|apply PU; lra]]|apply bpow_le; lia]. }
  assert (NU : ap (fsub (fmul (vec3_dot v1 v1) (vec3_dot v0 v2)) (fmul (vec3_dot v0 v1) (vec3_dot v1 v2))) (s * g) (30 * u * mu)). { rewrite <- E0. eapply det_float; eauto. unfold mu; ring. }
  assert (NV : ap (fsub (fmul (vec3_dot v0 v0) (vec3_dot v1 v2)) (fmul (vec3_dot v0 v1) (vec3_dot v0 v2))) (r * g) (30 * u * mv)). { rewrite <- E1. eapply det_float; eauto. unfold mv; ring. }
  assert (RU : mu / M = w / n0) by (unfold mu, M; field; lra). assert (RV : mv / M = w / n1) by (unfold mv, M; field; lra).
  assert (RB : forall n, bpow radix2 (-36) <= n <= bpow radix2 25 -> bpow radix2 (-90) <= w / n <= bpow radix2 63).
  { intros n [NA NB]. assert (0 < n) by lra. assert (0 < / n) by (now apply Rinv_0_lt_compat). split. - apply (BL (-60 + -25)%Z); [lia|]. apply PL; [lra|]. change (-25)%Z with (- (25))%Z. rewrite bpow_opp. apply Rinv_le_contravar; lra. - apply Rle_trans with (bpow radix2 (26 + 36)); [|apply bpow_le; lia]. apply PU; [lra|]. split; [lra|]. change 36%Z with (- - (36))%Z. rewrite bpow_opp. apply Rinv_le_contravar; [apply bpow_gt_0|exact NA]. }
  pose proof (RB n0 ltac:(lra)) as RB0. pose proof (RB n1 ltac:(lra)) as RB1.
  assert (LG : forall x y z wx wy wz, norm x <= wx -> norm y <= wy -> norm z <= wz -> Rabs (dot x x * dot y z - dot x y * dot x z) <= wx * wx * (wy * wz)).
  { intros x y z wx wy wz X Y Z. replace (dot x x * dot y z - dot x y * dot x z) with (dot (cross x y) (cross x z)) by (unfold dot, cross; cbn [X3 Y3 Z3]; ring). eapply Rle_trans; [apply cauchy_abs|]. pose proof (norm_nonneg x). pose proof (norm_nonneg y). pose proof (norm_nonneg z).
    apply Rle_trans with (norm x * norm y * (norm x * norm z)); [apply Rmult_le_compat; try apply norm_nonneg; apply cross_le|]. replace (wx * wx * (wy * wz)) with (wx * wy * (wx * wz)) by ring. repeat apply Rmult_le_compat; auto; apply Rmult_le_pos; auto. }
  assert (SU : Rabs (s * g) <= 1.0001 * mu). { rewrite <- E0, (dot_sym (vminus c a) (vminus b a)). pose proof (LG (vminus b a) (vminus c a) (vminus (pval p) a) n1 n0 w (Rle_refl _) (Rle_refl _) (proj1 Bw)) as Q. fold mu in Q. pose proof (bpow_gt_0 radix2 (-118)). lra. }
  assert (SV : Rabs (r * g) <= 1.0001 * mv). { rewrite <- E1. pose proof (LG (vminus c a) (vminus b a) (vminus (pval p) a) n0 n1 w (Rle_refl _) (Rle_refl _) (proj1 Bw)) as Q. fold mv in Q. pose proof (bpow_gt_0 radix2 (-118)). lra. }
  assert (C34 : 34 * u <= bpow radix2 (-18)) by (change (bpow radix2 (-18)) with (/ 262144); lra).
  assert (K0 : 0 <= M / g) by (apply Rmult_le_pos; lra).
  assert (FIN : forall q m n, m / M = w / n -> bpow radix2 (-90) <= w / n -> 34 * u * (M / g) * (m / M + Rabs q) <= bpow radix2 (-18) * flatness a b c * (w / n + Rabs q)).
  { intros q m n E L. rewrite E, KA. pose proof (Rabs_pos q). pose proof (bpow_gt_0 radix2 (-90)). apply Rmult_le_compat_r; [lra|]. apply Rmult_le_compat_r; lra. }
  assert (RX : ap (fmul (fsub (fmul (vec3_dot v1 v1) (vec3_dot v0 v2)) (fmul (vec3_dot v0 v1) (vec3_dot v1 v2))) (fdiv fone D)) s (err_u a b c (pval p) s)).
  { eapply ap_weak; [|apply (FIN s mu n0); [exact RU|lra]]. replace s with (s * g / g) by (field; lra). apply ratio_float; auto; rewrite RU; lra. }
  assert (RY : ap (fmul (fsub (fmul (vec3_dot v0 v0) (vec3_dot v1 v2)) (fmul (vec3_dot v0 v1) (vec3_dot v0 v2))) (fdiv fone D)) r (err_v a b c (pval p) r)).
  { eapply ap_weak; [|apply (FIN r mv n1); [exact RV|lra]]. replace r with (r * g / g) by (field; lra). apply ratio_float; auto; rewrite RV; lra. }
  eexists _, _. refine (conj _ (conj RX (conj RY _))).
  - unfold triangle_get_barycoords. cbv zeta. fold pt v0 v1 v2 D. destruct (ap_fin _ _ _ HD) as [FD ED].
    replace (fle (fabs D) feps) with false; [reflexivity|]. symmetry. apply not_true_is_false. intros H. apply Props_Err6.le_eps in H; [|exact FD]. apply Rabs_le_inv in H, ED. change (bpow radix2 (-22)) with (/ 4194304) in GL. lra.
  - assert (SZ : forall q m n, Rabs (q * g) <= 1.0001 * m -> m / M = w / n -> w / n <= bpow radix2 63 -> Rabs q <= bpow radix2 78).
    { intros q m n H E L. rewrite Rabs_mult, (Rabs_pos_eq g) in H by lra. assert (Rabs q <= 1.0001 * (M / g * (m / M))). { replace (M / g * (m / M)) with (m / g) by (field; lra). replace (Rabs q) with (Rabs q * g * / g) by (field; lra). unfold Rdiv. rewrite <- Rmult_assoc. apply Rmult_le_compat_r; lra. }
      rewrite E in H0. assert (0 < M) by lra. assert (M / g * (w / n) <= bpow radix2 14 * bpow radix2 63). { apply Rle_trans with (M / g * bpow radix2 63); [apply Rmult_le_compat_l; lra|]. apply Rmult_le_compat_r; [apply bpow_ge_0|]. rewrite <- KA. exact KL. }
      rewrite <- bpow_plus in H2. change 78%Z with (1 + (14 + 63))%Z. rewrite (bpow_plus radix2 1). change (bpow radix2 1) with 2. pose proof (bpow_gt_0 radix2 (14 + 63)). lra. }
    pose proof (SZ s mu n0 SU RU (proj2 RB0)) as SB. pose proof (SZ r mv n1 SV RV (proj2 RB1)) as RB'.
    assert (EB : forall q n, Rabs q <= bpow radix2 78 -> bpow radix2 (-90) <= w / n <= bpow radix2 63 -> bpow radix2 (-18) * flatness a b c * (w / n + Rabs q) <= bpow radix2 79).
    { intros q n HQ [HN1 HN2]. pose proof (Rabs_pos q). pose proof (bpow_gt_0 radix2 (-90)). assert (bpow radix2 63 <= bpow radix2 78) by (apply bpow_le; lia). apply Rle_trans with (1 * bpow radix2 79); [|lra]. apply Rmult_le_compat; [apply Rmult_le_pos; [apply bpow_ge_0|rewrite KA; exact K0]|lra| |].
      - apply Rle_trans with (bpow radix2 (-18) * bpow radix2 14); [apply Rmult_le_compat_l; [apply bpow_ge_0|exact KL]|]. rewrite <- bpow_plus. change 1 with (bpow radix2 0). apply bpow_le. lia.
      - change 79%Z with (1 + 78)%Z. rewrite bpow_plus. change (bpow radix2 1) with 2. lra. }
    pose proof (EB s n0 SB RB0) as E2. pose proof (EB r n1 RB' RB1) as E3. change (err_u a b c (pval p) s <= bpow radix2 79) in E2. change (err_v a b c (pval p) r <= bpow radix2 79) in E3.
    assert (bpow radix2 78 <= bpow radix2 79) by (apply bpow_le; lia). assert (4 * bpow radix2 79 <= bpow radix2 85) by (change 4 with (bpow radix2 2); rewrite <- bpow_plus; apply bpow_le; lia). lra.
Qed.

(** ** C101 *)
(** the barycentric coordinates are those of the orthogonal projection, up to rounding amplified by the flatness of the triangle *)
Theorem C101_barycoords : forall (BK : Backend b32) (t : triangle b32) (p : point3d b32), finite3 (tr_a t) -> finite3 (tr_b t) -> finite3 (tr_c t) -> finite_pt p ->
  let a := val3 (tr_a t) in let b := val3 (tr_b t) in let c := val3 (tr_c t) in
  well_shaped a b c -> dist (pval p) a <= bpow radix2 25 -> forall s r, coords a b c (pval p) s r ->
  exists bc, triangle_get_barycoords t (Some p) = Some bc /\ fin (vec2_get_x bc) /\ fin (vec2_get_y bc) /\
    Rabs (real (vec2_get_x bc) - s) <= err_u a b c (pval p) s /\ Rabs (real (vec2_get_y bc) - r) <= err_v a b c (pval p) r.
Proof.
  intros BK t p FA FB FC FP a b c WS L2 s r CO. destruct (bary_float BK t p s r FA FB FC FP WS L2 CO) as (x & y & E & X & Y & _). exists (vec2_init x y). split; [exact E|].
  destruct (ap_fin _ _ _ X) as [X1 X2]. destruct (ap_fin _ _ _ Y) as [Y1 Y2]. exact (conj X1 (conj Y1 (conj X2 Y2))).
Qed.
(** a triangle whose squared area is too small for its size has no coordinates, whatever the point *)
Theorem C101_degenerate : forall (BK : Backend b32) (t : triangle b32) (p : option (point3d b32)), finite3 (tr_a t) -> finite3 (tr_b t) -> finite3 (tr_c t) ->
  let a := val3 (tr_a t) in let b := val3 (tr_b t) in let c := val3 (tr_c t) in
  dist c a <= bpow radix2 25 -> dist b a <= bpow radix2 25 ->
  gram a b c + 30 * u * ((dist c a + bpow radix2 (-25)) * (dist c a + bpow radix2 (-25)) * ((dist b a + bpow radix2 (-25)) * (dist b a + bpow radix2 (-25)))) <= bpow radix2 (-23) ->
  triangle_get_barycoords t p = None /\ (forall q, p = Some q -> triangle_contains_point t q = false) /\ (forall x y z, fst (triangle_get_uv t p x y z) = false).
Proof.
  intros BK t p FA FB FC a b c L0 L1 G. set (w0 := dist c a + bpow radix2 (-25)) in * . set (w1 := dist b a + bpow radix2 (-25)) in * .
  assert (P26 : bpow radix2 25 + bpow radix2 (-25) <= bpow radix2 26). { assert (bpow radix2 (-25) <= bpow radix2 25) by (apply bpow_le; lia). change 26%Z with (1 + 25)%Z. rewrite bpow_plus. change (bpow radix2 1) with 2. lra. }
  pose proof (bpow_gt_0 radix2 (-25)) as P25. assert (N0 : 0 <= dist c a) by apply norm_nonneg. assert (N1 : 0 <= dist b a) by apply norm_nonneg.
  assert (W0 : bpow radix2 (-25) <= w0 <= bpow radix2 26) by (unfold w0; lra). assert (W1 : bpow radix2 (-25) <= w1 <= bpow radix2 26) by (unfold w1; lra).
  assert (PL : forall x y e f, bpow radix2 e <= x -> bpow radix2 f <= y -> bpow radix2 (e + f) <= x * y) by (intros x y e f X Y; rewrite bpow_plus; apply Rmult_le_compat; auto; apply bpow_ge_0).
  assert (BL : forall e f x, (f <= e)%Z -> bpow radix2 e <= x -> bpow radix2 f <= x) by (intros e f x EF X; eapply Rle_trans; [apply bpow_le; exact EF|exact X]).
  assert (Q : forall x y, bpow radix2 (-25) <= x -> bpow radix2 (-25) <= y -> bpow radix2 (-50) <= x * y) by (intros x y X Y; apply (PL x y (-25)%Z (-25)%Z); auto).
  pose proof (Q w0 w0 ltac:(lra) ltac:(lra)) as Q00. pose proof (Q w1 w1 ltac:(lra) ltac:(lra)) as Q11. pose proof (Q w0 w1 ltac:(lra) ltac:(lra)) as Q01.
  assert (B0 : dist (val3 (tr_c t)) (val3 (tr_a t)) <= w0 <= bpow radix2 26) by (fold a c; unfold w0 in * ; lra). assert (B1 : dist (val3 (tr_b t)) (val3 (tr_a t)) <= w1 <= bpow radix2 26) by (fold a b; unfold w1 in * ; lra).
  pose proof (denom_float BK _ _ _ w0 w1 FA FB FC B0 B1 (BL (-50)%Z (-110)%Z _ ltac:(lia) Q00) (BL (-50)%Z (-110)%Z _ ltac:(lia) Q11) (BL (-50)%Z (-110)%Z _ ltac:(lia) Q01)) as HD. cbv zeta in HD.
  assert (HN : triangle_get_barycoords t p = None).
  { destruct (ap_fin _ _ _ (HD (BL (-50 + -50)%Z (-118)%Z _ ltac:(lia) (PL _ _ _ _ Q00 Q11)))) as [FD ED]. unfold triangle_get_barycoords. cbv zeta. set (D := fsub _ _) in FD, ED. fold D. replace (fle (fabs D) feps) with true; [reflexivity|]. symmetry. apply Props_Err6.le_eps; [exact FD|].
    pose proof (Props_TriX.gram_nonneg a b c). fold a b c in ED. change (/ 8388608) with (bpow radix2 (-23)). apply Rabs_le. apply Rabs_le_inv in ED. lra. }
  split; [exact HN|]. split; [intros q ->; unfold triangle_contains_point; now rewrite HN|]. intros x y z. unfold triangle_get_uv. now rewrite HN.
Qed.
(** a point whose projection is inside by more than the error is inside, one whose projection is outside by more than the error is not *)
Theorem C101_contains_point : forall (BK : Backend b32) (t : triangle b32) (p : point3d b32), finite3 (tr_a t) -> finite3 (tr_b t) -> finite3 (tr_c t) -> finite_pt p ->
  let a := val3 (tr_a t) in let b := val3 (tr_b t) in let c := val3 (tr_c t) in
  well_shaped a b c -> dist (pval p) a <= bpow radix2 25 -> forall s r, coords a b c (pval p) s r -> let e := err_u a b c (pval p) s in let f := err_v a b c (pval p) r in
  (e <= s -> f <= r -> s + r <= 1 - e - f - bpow radix2 (-24) -> triangle_contains_point t p = true) /\
  (triangle_contains_point t p = true -> - e <= s /\ - f <= r /\ s + r < 1 + e + f).
Proof.
  intros BK t p FA FB FC FP a b c WS L2 s r CO e f. destruct (bary_float BK t p s r FA FB FC FP WS L2 CO) as (x & y & E & X & Y & _). destruct (ap_fin _ _ _ X) as [X1 X2]. destruct (ap_fin _ _ _ Y) as [Y1 Y2]. fold a b c e f in X2, Y2. apply Rabs_le_inv in X2, Y2.
  unfold triangle_contains_point. rewrite E. change (vec2_get_x (vec2_init x y)) with x. change (vec2_get_y (vec2_init x y)) with y.
  assert (SX : B2X (fadd x y) = xrnd (prec:=24) (emax:=128) (Fin (real x + real y))) by (rewrite fadd_X, (fin_X x X1), (fin_X y Y1); reflexivity).
  split.
  - intros H1 H2 H3. rewrite !andb_true_iff. rewrite !fle_X, flt_X, SX, fone_X, fzero_X, (fin_X x X1), (fin_X y Y1). rewrite !xle_fin. split; [split; lra|].
    destruct (lit_real 16777215 (-24)) as [FL RL]; try reflexivity; try lia. change (flit 16777215 (-24)) with (lit 16777215 (-24)) in * . change (bpow radix2 (-24)) with (/ 16777216) in RL.
    assert (LE : xle (xrnd (prec:=24) (emax:=128) (Fin (real x + real y))) (B2X (lit 16777215 (-24))) = true). { rewrite <- (xrnd_B2X (prec:=24) (emax:=128) (lit 16777215 (-24))). apply xrnd_mono. rewrite (fin_X _ FL). apply xle_fin. change (bpow radix2 (-24)) with (/ 16777216) in H3. rewrite RL. lra. }
    rewrite (fin_X _ FL), RL in LE. destruct (xrnd (Fin (real x + real y))) as [z| | |]; try easy. apply xle_fin in LE. apply xlt_fin. lra.
  - rewrite !andb_true_iff. rewrite !fle_X, flt_X, SX, fone_X, fzero_X, (fin_X x X1), (fin_X y Y1). rewrite !xle_fin. intros [[H1 H2] H3]. split; [lra|split; [lra|]].
    destruct (Rlt_or_le (real x + real y) 1) as [|C]; [lra|]. exfalso. assert (LE : xle (xrnd (prec:=24) (emax:=128) (B2X (fone : b32))) (xrnd (prec:=24) (emax:=128) (Fin (real x + real y))) = true) by (apply xrnd_mono; rewrite fone_X; now apply xle_fin).
    rewrite xrnd_B2X, fone_X in LE. destruct (xrnd (Fin (real x + real y))) as [z| | |]; try easy. apply xle_fin in LE. apply xlt_fin in H3. lra.
Qed.

(** the interpolated texture coordinates *)
Definition blend (s r A B C : R) : R := (1 - s - r) * A + r * B + s * C.
Lemma blend_float (x y A B C : b32) (s r e f Q : R) : ap x s e -> ap y r f -> fin A -> fin B -> fin C -> Rabs (real A) <= Q -> Rabs (real B) <= Q -> Rabs (real C) <= Q -> Q <= bpow radix2 30 -> Rabs s + Rabs r + e + f <= bpow radix2 85 ->
  let z := fadd (fadd (fadd fzero (fmul A (fsub (fsub fone x) y))) (fmul B y)) (fmul C x) in
  ap z (blend s r (real A) (real B) (real C)) (Q * (2 * (e + f) + 12 * u * (1 + Rabs s + Rabs r + e + f)) + bpow radix2 (-140)).
Proof.
  intros HX HY FA FB FC BA BB BC QU SU z. assert (U : u32 = u) by reflexivity. pose proof (Rabs_pos s) as s0. pose proof (Rabs_pos r) as r0. pose proof (Rabs_pos (real A)) as A0.
  assert (e0 : 0 <= e) by (destruct HX as (? & _ & L); pose proof (Rabs_pos (x0 - s)); lra). assert (f0 : 0 <= f) by (destruct HY as (? & _ & L); pose proof (Rabs_pos (x0 - r)); lra).
  assert (B85 : 1 <= bpow radix2 85) by (change 1 with (bpow radix2 0); apply bpow_le; lia). set (S := 1 + Rabs s + Rabs r + e + f). assert (S1 : 1 <= S) by (unfold S; lra).
  assert (SB : S <= bpow radix2 86) by (change 86%Z with (1 + 85)%Z; rewrite bpow_plus; change (bpow radix2 1) with 2; unfold S; lra).
  assert (B127 : 8 * bpow radix2 116 <= bpow radix2 127) by (change 8 with (bpow radix2 3); rewrite <- bpow_plus; apply bpow_le; lia).
  assert (B86 : bpow radix2 86 <= bpow radix2 116) by (apply bpow_le; lia).
  assert (QS : 0 <= Q * S) by (apply Rmult_le_pos; lra). assert (QSB : Q * S <= bpow radix2 116) by (change 116%Z with (30 + 86)%Z; rewrite bpow_plus; apply Rmult_le_compat; lra).
  assert (HO : ap (fone : b32) 1 0) by (exists 1; split; [apply fone_X|]; replace (1 - 1) with 0 by ring; rewrite Rabs_R0; lra).
  assert (HZ : ap (fzero : b32) 0 0) by (exists 0; split; [apply fzero_X|]; replace (0 - 0) with 0 by ring; rewrite Rabs_R0; lra).
  assert (T1 : Rabs (1 - s) <= 1 + Rabs s). { eapply Rle_trans; [apply Rabs_triang|]. rewrite Rabs_R1, Rabs_Ropp. lra. }
  assert (T2 : Rabs (1 - s - r) <= 1 + Rabs s + Rabs r). { eapply Rle_trans; [apply Rabs_triang|]. rewrite Rabs_Ropp. lra. }
  destruct (ap_sub fone x 1 s 0 e S HO HX) as (q1 & Q1 & L1); [unfold S; lra|lra|]. rewrite U in L1. assert (H1 : ap (fsub fone x) (1 - s) (e + u * S)) by (exists q1; split; [auto|lra]).
  destruct (ap_sub _ y _ r _ f (1.0001 * S) H1 HY) as (q2 & Q2 & L2); [unfold S; lra|lra|]. rewrite U in L2. assert (H2 : ap (fsub (fsub fone x) y) (1 - s - r) (e + f + 2.1 * u * S)) by (exists q2; split; [auto|lra]).
  assert (MF : forall (K w : b32) k d, fin K -> Rabs (real K) <= Q -> ap w k d -> Rabs k + d <= 1.0001 * S -> ap (fmul K w) (real K * k) (Q * d + 1.01 * u * (Q * S) + eta)).
  { intros K w k d FK BK' HW WB. pose proof (Rabs_pos k). pose proof (Rabs_pos (real K)). assert (d0 : 0 <= d) by (destruct HW as (? & _ & L); pose proof (Rabs_pos (x0 - k)); lra).
    assert (I1 : Rabs (real K) * Rabs k + Rabs (real K) * d <= 1.0001 * (Q * S)). { rewrite <- Rmult_plus_distr_l. replace (1.0001 * (Q * S)) with (Q * (1.0001 * S)) by lra. apply Rmult_le_compat; lra. }
    assert (I2 : Rabs (real K) * d <= Q * d) by (apply Rmult_le_compat_r; lra).
    destruct (ap_mul K w (real K) k 0 d (1.0001 * (Q * S)) (ap_refl K FK) HW) as (q & E & L); [lra|lra|]. exists q. split; [exact E|]. rewrite U in L. lra. }
  assert (AB : forall K k, Rabs (real K) <= Q -> Rabs (real K * k) <= Q * Rabs k). { intros K k HK. rewrite Rabs_mult. apply Rmult_le_compat_r; [apply Rabs_pos|exact HK]. }
  pose proof (MF A _ _ _ FA BA H2 ltac:(unfold S in * ; lra)) as M1. pose proof (MF B _ _ _ FB BB HY ltac:(unfold S in * ; lra)) as M2. pose proof (MF C _ _ _ FC BC HX ltac:(unfold S in * ; lra)) as M3.
  assert (ET : eta <= / 1000 * bpow radix2 (-140)). { apply Rle_trans with (/ 1024 * bpow radix2 (-140)); [change (/ 1024) with (bpow radix2 (-10)); rewrite <- bpow_plus; apply bpow_le; lia|]. pose proof (bpow_gt_0 radix2 (-140)). lra. }
  assert (E0 : 0 <= eta) by apply bpow_ge_0. assert (E1 : eta <= u * bpow radix2 0). { apply Rle_trans with (bpow radix2 (-24)); [apply bpow_le; lia|change (bpow radix2 0) with 1; change (bpow radix2 (-24)) with (/ 16777216); lra]. } change (bpow radix2 0) with 1 in E1.
  pose proof (AB A (1 - s - r) BA) as G1. pose proof (AB B r BB) as G2. pose proof (AB C s BC) as G3.
  assert (J1 : Q * Rabs (1 - s - r) + Q * (e + f) <= Q * S). { rewrite <- Rmult_plus_distr_l. apply Rmult_le_compat_l; unfold S; lra. }
  assert (J2 : Q * Rabs r + Q * f + Q * Rabs s + Q * e <= Q * S). { rewrite <- !Rmult_plus_distr_l. apply Rmult_le_compat_l; unfold S; lra. }
  set (V1 := 1.001 * (Q * S) + eta). set (V2 := 2.001 * (Q * S) + 2.1 * eta). assert (B0 : 1 <= bpow radix2 116) by (change 1 with (bpow radix2 0); apply bpow_le; lia).
  assert (X3 : 0 <= Q * Rabs s) by (apply Rmult_le_pos; lra). assert (X4 : 0 <= Q * Rabs r) by (apply Rmult_le_pos; lra).
  assert (X1 : 0 <= Q * e) by (apply Rmult_le_pos; lra). assert (X2 : 0 <= Q * f) by (apply Rmult_le_pos; lra).
  destruct (ap_add fzero _ 0 _ 0 _ V1 HZ M1) as (t1 & R1 & K1); [rewrite Rplus_0_l; unfold V1; lra|unfold V1; lra|]. 
  assert (N1 : ap (fadd fzero (fmul A (fsub (fsub fone x) y))) (real A * (1 - s - r)) (Q * (e + f) + 4.13 * u * (Q * S) + 1.01 * eta)) by (exists t1; split; [auto|rewrite U in K1; rewrite Rplus_0_l in K1; unfold V1 in K1; lra]).
  pose proof (Rabs_triang (real A * (1 - s - r)) (real B * r)) as Z1.
  destruct (ap_add _ _ _ _ _ _ V2 N1 M2) as (t2 & R2 & K2); [unfold V2; lra|unfold V2; lra|].
  assert (N2 : ap (fadd (fadd fzero (fmul A (fsub (fsub fone x) y))) (fmul B y)) (real A * (1 - s - r) + real B * r) (Q * (e + 2 * f) + 7.2 * u * (Q * S) + 2.03 * eta)) by (exists t2; split; [auto|rewrite U in K2; unfold V2 in K2; lra]).
  pose proof (Rabs_triang (real A * (1 - s - r) + real B * r) (real C * s)) as Z2.
  destruct (ap_add _ _ _ _ _ _ (V2 + 2 * eta) N2 M3) as (t3 & R3 & K3); [unfold V2; lra|unfold V2; lra|].
  exists t3. split; [exact R3|]. unfold blend. replace ((1 - s - r) * real A + r * real B + s * real C) with (real A * (1 - s - r) + real B * r + real C * s) by ring. eapply Rle_trans; [exact K3|]. rewrite U. unfold V2. fold S. lra.
Qed.
Theorem C101_uv : forall (BK : Backend b32) (t : triangle b32) (p : point3d b32) (ua ub uc : V), finite3 (tr_a t) -> finite3 (tr_b t) -> finite3 (tr_c t) -> finite_pt p ->
  let a := val3 (tr_a t) in let b := val3 (tr_b t) in let c := val3 (tr_c t) in
  well_shaped a b c -> dist (pval p) a <= bpow radix2 25 -> forall s r, coords a b c (pval p) s r -> forall Q, Q <= bpow radix2 30 ->
  (forall w, In w [ua; ub; uc] -> fin (vec2_get_x w) /\ fin (vec2_get_y w) /\ Rabs (real (vec2_get_x w)) <= Q /\ Rabs (real (vec2_get_y w)) <= Q) ->
  let e := err_u a b c (pval p) s + err_v a b c (pval p) r in let tolr := Q * (2 * e + 12 * u * (1 + Rabs s + Rabs r + e)) + bpow radix2 (-140) in
  exists w, triangle_get_uv t (Some p) ua ub uc = (true, w) /\ fin (vec2_get_x w) /\ fin (vec2_get_y w) /\
    Rabs (real (vec2_get_x w) - blend s r (real (vec2_get_x ua)) (real (vec2_get_x ub)) (real (vec2_get_x uc))) <= tolr /\
    Rabs (real (vec2_get_y w) - blend s r (real (vec2_get_y ua)) (real (vec2_get_y ub)) (real (vec2_get_y uc))) <= tolr.
Proof.
  intros BK t p ua ub uc FA FB FC FP a b c WS L2 s r CO Q QU HU e tolr. destruct (bary_float BK t p s r FA FB FC FP WS L2 CO) as (x & y & E & X & Y & SM). fold a b c in X, Y, SM.
  destruct (HU ua) as (A1 & A2 & A3 & A4); [now left|]. destruct (HU ub) as (B1 & B2 & B3 & B4); [right; now left|]. destruct (HU uc) as (C1 & C2 & C3 & C4); [right; right; now left|].
  unfold triangle_get_uv. rewrite E. eexists. split; [reflexivity|].
  pose proof (blend_float x y _ _ _ s r _ _ Q X Y A1 B1 C1 A3 B3 C3 QU SM) as [FX GX]%ap_fin. pose proof (blend_float x y _ _ _ s r _ _ Q X Y A2 B2 C2 A4 B4 C4 QU SM) as [FY GY]%ap_fin.
  match type of GX with _ <= ?z => assert (TE : z = tolr) by (unfold tolr, e; ring) end. rewrite TE in GX, GY. exact (conj FX (conj FY (conj GX GY))).
Qed.
(** a triangle and a point that meet the hypotheses: the coordinates of the centroid *)
Example C101_nonvacuous : let o := fzero : b32 in let t2 := lit 3 0 in let o1 := lit 1 0 in
  let t := triangle_init_from_point3d (Some (P3 o o o)) (Some (P3 t2 o o)) (Some (P3 o t2 o)) in
  let a := val3 (tr_a t) in let b := val3 (tr_b t) in let c := val3 (tr_c t) in let p := P3 o1 o1 t2 in
  finite3 (tr_a t) /\ finite3 (tr_b t) /\ finite3 (tr_c t) /\ finite_pt p /\ well_shaped a b c /\ dist (pval p) a <= bpow radix2 25 /\ coords a b c (pval p) (/ 3) (/ 3) /\
  err_u a b c (pval p) (/ 3) <= / 100000 /\ err_v a b c (pval p) (/ 3) <= / 100000 /\ (forall BK : Backend b32, triangle_contains_point t p = true).
Proof.
  intros o t2 o1 t a b c p. assert (Z : real o = 0) by reflexivity.
  destruct (lit_real 3 0) as [F3 R3']; try lia. destruct (lit_real 1 0) as [F1 R1]; try lia. simpl (bpow radix2 0) in R1, R3'. change (flit 3 0) with t2 in R3', F3. change (flit 1 0) with o1 in R1, F1.
  assert (PA : a = mk3 0 0 0) by reflexivity.
  assert (PB : b = mk3 3 0 0) by (change b with (mk3 (real t2) (real o) (real o)); rewrite R3', Z; f_equal; lra).
  assert (PC : c = mk3 0 3 0) by (change c with (mk3 (real o) (real t2) (real o)); rewrite R3', Z; f_equal; lra).
  assert (PP : pval p = mk3 1 1 3) by (unfold pval, p; cbn [p3x p3y p3z]; rewrite R3', R1; f_equal; lra).
  assert (FA : finite3 (tr_a t)) by (split; [reflexivity|split; reflexivity]). assert (FB : finite3 (tr_b t)) by (split; [exact F3|split; reflexivity]). assert (FC : finite3 (tr_c t)) by (split; [reflexivity|split; [exact F3|reflexivity]]). assert (FP : finite_pt p) by (split; [exact F1|split; [exact F1|exact F3]]).
  assert (D0 : dist c a = 3) by (rewrite PA, PC; apply norm_unique; [lra|unfold dot, vminus; cbn [X3 Y3 Z3]; ring]). assert (D1 : dist b a = 3) by (rewrite PA, PB; apply norm_unique; [lra|unfold dot, vminus; cbn [X3 Y3 Z3]; ring]).
  assert (D2 : 0 <= dist (pval p) a <= 3.4). { split; [apply norm_nonneg|]. rewrite PA, PP. apply norm_le; [lra|]. unfold dot, vminus; cbn [X3 Y3 Z3]. lra. }
  assert (G : gram a b c = 81) by (rewrite PA, PB, PC; unfold gram, dot, vminus; cbn [X3 Y3 Z3]; ring).
  assert (FL : flatness a b c = 1) by (unfold flatness; rewrite D0, D1, G; field).
  assert (P25 : 8 <= bpow radix2 25) by (change 8 with (bpow radix2 3); apply bpow_le; lia). assert (P14 : 1 <= bpow radix2 14) by (change 1 with (bpow radix2 0); apply bpow_le; lia). assert (P22 : bpow radix2 (-22) <= 1) by (change 1 with (bpow radix2 0); apply bpow_le; lia).
  assert (WS : well_shaped a b c) by (unfold well_shaped; rewrite D0, D1, G, FL; lra). assert (PD : dist (pval p) a <= bpow radix2 25) by lra.
  assert (CO : coords a b c (pval p) (/ 3) (/ 3)) by (rewrite PA, PB, PC, PP; unfold coords, bary, dot, vminus, vplus, vscal; cbn [X3 Y3 Z3]; split; field).
  assert (P60 : bpow radix2 (-60) <= / 1024) by (change (/ 1024) with (bpow radix2 (-10)); apply bpow_le; lia). pose proof (bpow_gt_0 radix2 (-60)) as P60'.
  assert (EU : err_u a b c (pval p) (/ 3) <= / 100000). { unfold err_u. rewrite FL, D0, (Rabs_pos_eq (/ 3)) by lra. change (bpow radix2 (-18)) with (/ 262144). lra. }
  assert (EV : err_v a b c (pval p) (/ 3) <= / 100000). { unfold err_v. rewrite FL, D1, (Rabs_pos_eq (/ 3)) by lra. change (bpow radix2 (-18)) with (/ 262144). lra. }
  refine (conj FA (conj FB (conj FC (conj FP (conj WS (conj PD (conj CO (conj EU (conj EV _))))))))). intros BK. apply (proj1 (C101_contains_point BK t p FA FB FC FP WS PD _ _ CO)); fold a b c; try lra. change (bpow radix2 (-24)) with (/ 16777216). lra.
Qed.
(** three distinct points on a line have no coordinates *)
Example C101_degenerate_ex : let o := fzero : b32 in
  let t := triangle_init_from_point3d (Some (P3 o o o)) (Some (P3 (lit 1 (-2)) o o)) (Some (P3 (lit 1 (-1)) o o)) in
  forall (BK : Backend b32) p, triangle_get_barycoords t p = None.
Proof.
  intros o t BK p. assert (Z : real o = 0) by reflexivity. destruct (lit_real 1 (-2)) as [F1 R1]; try lia. destruct (lit_real 1 (-1)) as [F2 R2]; try lia. change (flit 1 (-2)) with (lit 1 (-2)) in * . change (flit 1 (-1)) with (lit 1 (-1)) in * . change (bpow radix2 (-2)) with (/ 4) in R1. change (bpow radix2 (-1)) with (/ 2) in R2.
  assert (PA : val3 (tr_a t) = mk3 0 0 0) by reflexivity.
  assert (PB : val3 (tr_b t) = mk3 (/ 4) 0 0) by (change (val3 (tr_b t)) with (mk3 (real (lit 1 (-2))) (real o) (real o)); rewrite R1, Z; f_equal; lra).
  assert (PC : val3 (tr_c t) = mk3 (/ 2) 0 0) by (change (val3 (tr_c t)) with (mk3 (real (lit 1 (-1))) (real o) (real o)); rewrite R2, Z; f_equal; lra).
  assert (D0 : dist (val3 (tr_c t)) (val3 (tr_a t)) = / 2) by (rewrite PA, PC; apply norm_unique; [lra|unfold dot, vminus; cbn [X3 Y3 Z3]; field]). assert (D1 : dist (val3 (tr_b t)) (val3 (tr_a t)) = / 4) by (rewrite PA, PB; apply norm_unique; [lra|unfold dot, vminus; cbn [X3 Y3 Z3]; field]).
  assert (P25 : 1 <= bpow radix2 25) by (change 1 with (bpow radix2 0); apply bpow_le; lia).
  apply (C101_degenerate BK t p).
  - split; [reflexivity|split; reflexivity].
  - split; [exact F1|split; reflexivity].
  - split; [exact F2|split; reflexivity].
  - rewrite D0; lra.
  - rewrite D1; lra.
  - rewrite D0, D1, PA, PB, PC. unfold gram, Props_TriX.gram, dot, vminus; cbn [X3 Y3 Z3]. change (bpow radix2 (-25)) with (/ 33554432). change (bpow radix2 (-23)) with (/ 8388608). lra.
Qed.
