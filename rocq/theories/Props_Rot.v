(** * Props_Rot: rotation matrices in binary32, for any accurate sine and cosine (C90). *)
From Coq Require Import ZArith Reals Bool List Lra Lia Psatz.
From Flocq Require Import Core BinarySingleNaN.
From Verif Require Import Num Simd Vec Rect Box Mat Geo Quat OrdThy FloatThy B32Setup FloatLem ErrThy Props_Err Props_Err2 Props_Err3 ErrEx Props_Err5.
From Verif Require Props_Drift Props_Euler.
From Verif Require Import Props_Err6 Props_Drift2.
Import ListNotations.
Local Open Scope R_scope.

(** ** specification *)
(** sinf and cosf answer within 2^-23 of the true sine and cosine of their (finite) argument *)
Definition libm_accurate (L : LibM b32) : Prop := forall x : b32, fin x ->
  within (bpow radix2 (-23)) (fsin x) (sin (real x)) /\ within (bpow radix2 (-23)) (fcos x) (cos (real x)).
(** Rodrigues' formula: the vector v turned by the angle t about the unit vector k *)
Definition cross3 (k v : nat -> R) (j : nat) : R :=
  match j with 0%nat => k 1%nat * v 2%nat - k 2%nat * v 1%nat | 1%nat => k 2%nat * v 0%nat - k 0%nat * v 2%nat | _ => k 0%nat * v 1%nat - k 1%nat * v 0%nat end.
Definition rdot3 (k v : nat -> R) : R := k 0%nat * v 0%nat + k 1%nat * v 1%nat + k 2%nat * v 2%nat.
Definition turned (k : nat -> R) (t : R) (v : nat -> R) (j : nat) : R := v j * cos t + cross3 k v j * sin t + k j * rdot3 k v * (1 - cos t).
(** the matrix of that turn, for row vectors: row r is the image of the r-th axis *)
Definition turn (k : nat -> R) (t : R) (r c : nat) : R :=
  if (Nat.ltb r 3 && Nat.ltb c 3)%bool then turned k t (fun i => if Nat.eqb i r then 1 else 0) c else if Nat.eqb r c then 1 else 0.
(** the axis scaled to unit length *)
Definition unit_axis (v : V) (j : nat) : R :=
  (match j with 0%nat => real (vec3_get_x v) | 1%nat => real (vec3_get_y v) | _ => real (vec3_get_z v) end) / sqrt (dot3 v v).
(** degrees to radians, in real numbers *)
Definition radians (a : b32) : R := real a * (PI / 180).

(** ** sine and cosine vary no faster than their argument *)
Lemma lip (f g : R -> R) : (forall x, derivable_pt_lim f x (g x)) -> (forall x, Rabs (g x) <= 1) -> forall a b, Rabs (f a - f b) <= Rabs (a - b).
Proof.
  intros D B. assert (K : forall a b, a < b -> Rabs (f b - f a) <= b - a).
  { intros a b H. destruct (MVT_cor2 f g a b H (fun c _ => D c)) as (c & E & _). rewrite E, Rabs_mult, (Rabs_pos_eq (b - a)) by lra. specialize (B c). assert (0 <= b - a) by lra. nra. }
  intros a b. destruct (Rtotal_order a b) as [H|[->|H]].
  - specialize (K a b H). rewrite Rabs_minus_sym, (Rabs_minus_sym a). rewrite (Rabs_pos_eq (b - a)) by lra. exact K.
  - rewrite !Rminus_eq_0, Rabs_R0. lra.
  - specialize (K b a H). rewrite (Rabs_pos_eq (a - b)) by lra. exact K.
Qed.
Lemma sin_lip a b : Rabs (sin a - sin b) <= Rabs (a - b).
Proof. apply (lip sin cos derivable_pt_lim_sin). intros x. apply Rabs_le. pose proof (COS_bound x). lra. Qed.
Lemma cos_lip a b : Rabs (cos a - cos b) <= Rabs (a - b).
Proof. apply (lip cos (fun x => - sin x) derivable_pt_lim_cos). intros x. apply Rabs_le. pose proof (SIN_bound x). lra. Qed.

(** ** perturbing the entries *)
Lemma rabs_bd a b : Rabs a <= b -> - b <= a <= b. Proof. apply Rabs_le_inv. Qed.
Lemma mul_le a b A B : Rabs a <= A -> Rabs b <= B -> Rabs (a * b) <= A * B.
Proof. intros. rewrite Rabs_mult. apply Rmult_le_compat; auto using Rabs_pos. Qed.
Lemma diag_close x c X C e1 e2 : x * x <= 1 -> Rabs c <= 1 -> Rabs (X - x) <= e1 -> Rabs (C - c) <= e2 -> e1 <= / 1000 -> e2 <= / 8 ->
  Rabs ((X * X + C * (1 - X * X)) - (x * x + c * (1 - x * x))) <= 4.3 * e1 + e2.
Proof.
  intros HX HC E1 E2 B1 B2. replace (_ - _) with ((X - x) * (X + x) * (1 - C) + (C - c) * (1 - x * x)) by ring.
  assert (AX : Rabs x <= 1) by (apply Rabs_le; split; nra). pose proof (Rabs_pos (X - x)). pose proof (Rabs_pos (C - c)).
  assert (A1 : Rabs (X + x) <= 2.001). { replace (X + x) with ((X - x) + 2 * x) by ring. eapply Rle_trans; [apply Rabs_triang|]. rewrite Rabs_mult, (Rabs_pos_eq 2) by lra. lra. }
  assert (A2 : Rabs (1 - C) <= 2.125). { apply rabs_bd in HC, E2. apply Rabs_le. lra. }
  assert (A3 : Rabs (1 - x * x) <= 1) by (apply Rabs_le; nra).
  eapply Rle_trans; [apply Rabs_triang|]. pose proof (mul_le _ _ _ _ E1 A1) as M1. pose proof (mul_le _ _ _ _ M1 A2). pose proof (mul_le _ _ _ _ E2 A3). lra.
Qed.
Lemma off_close x y z c s X Y Z C S e1 e2 : x * x + y * y + z * z <= 1 -> Rabs c <= 1 -> Rabs s <= 1 -> Rabs (X - x) <= e1 -> Rabs (Y - y) <= e1 -> Rabs (Z - z) <= e1 ->
  Rabs (C - c) <= e2 -> Rabs (S - s) <= e2 -> e1 <= / 1000 -> e2 <= / 8 ->
  Rabs ((X * Y * (1 - C) + Z * S) - (x * y * (1 - c) + z * s)) <= 5.5 * e1 + 1.5 * e2.
Proof.
  intros HN HC HS EX EY EZ EC ES B1 B2. replace (_ - _) with ((X - x) * Y * (1 - C) + (Y - y) * x * (1 - C) - x * y * (C - c) + (Z - z) * S + (S - s) * z) by ring.
  assert (AX : Rabs x <= 1) by (apply Rabs_le; split; nra). assert (AY : Rabs y <= 1) by (apply Rabs_le; split; nra). assert (AZ : Rabs z <= 1) by (apply Rabs_le; split; nra).
  pose proof (Rabs_pos (X - x)). pose proof (Rabs_pos (C - c)).
  assert (AY' : Rabs Y <= 1.001). { replace Y with ((Y - y) + y) by ring. eapply Rle_trans; [apply Rabs_triang|]. lra. }
  assert (AS : Rabs S <= 1.125). { replace S with ((S - s) + s) by ring. eapply Rle_trans; [apply Rabs_triang|]. lra. }
  assert (A2 : Rabs (1 - C) <= 2.125). { apply rabs_bd in HC, EC. apply Rabs_le. lra. }
  assert (A4 : Rabs (x * y) <= 0.5). { pose proof (Rle_0_sqr (x - y)). pose proof (Rle_0_sqr (x + y)). pose proof (Rle_0_sqr z). unfold Rsqr in * . apply Rabs_le. lra. }
  pose proof (mul_le _ _ _ _ (mul_le _ _ _ _ EX AY') A2). pose proof (mul_le _ _ _ _ (mul_le _ _ _ _ EY AX) A2). pose proof (mul_le _ _ _ _ A4 EC). pose proof (mul_le _ _ _ _ EZ AS). pose proof (mul_le _ _ _ _ ES AZ).
  repeat match goal with H : Rabs ?t <= _ |- _ => apply rabs_bd in H end. apply Rabs_le. lra.
Qed.

(** ** one entry of the float matrix *)
Ltac upt := match goal with |- upto 40 _ => assumption | _ => idtac end.
Lemma upto_small (x : b32) (m : R) : fin x -> Rabs (real x) <= m -> m <= 4 -> upto 40 x.
Proof. intros F H M. split; auto. assert (4 <= bpow radix2 40) by (change 4 with (bpow radix2 2); apply bpow_le; lia). lra. Qed.
Lemma diag_float (X C : b32) : fin X -> fin C -> Rabs (real X) <= 1.001 -> Rabs (real C) <= 1.125 ->
  within (14.5 * u) (fadd (fmul X X) (fmul C (fsub fone (fmul X X)))) (real X * real X + real C * (1 - real X * real X)).
Proof.
  intros FX FC BX BC. pose proof (upto_small X _ FX BX ltac:(lra)) as UX. pose proof (upto_small C _ FC BC ltac:(lra)) as UC.
  apply within_weak with (e := slack 4.25 (Rabs (real X) * Rabs (real X) + Rabs (real C) * (1 + Rabs (real X) * Rabs (real X))) (-100)).
  { tsl (XP (XM (XL X) (XL X)) (XM (XL C) (XS (XL fone) (XM (XL X) (XL X))))). }
  unfold slack. change (bpow radix2 (-24)) with (/ 16777216).
  assert (bpow radix2 (-100) <= bpow radix2 (-34)) by (apply bpow_le; lia). change (bpow radix2 (-34)) with (/ 17179869184) in * .
  pose proof (Rabs_pos (real X)). pose proof (Rabs_pos (real C)).
  assert (Rabs (real X) * Rabs (real X) <= 1.0021) by nra. assert (Rabs (real C) * (1 + Rabs (real X) * Rabs (real X)) <= 1.125 * 2.0021) by (apply Rmult_le_compat; nra). lra.
Qed.
Lemma off_float (f : bool) (X Y Z C S : b32) : fin X -> fin Y -> fin Z -> fin C -> fin S -> Rabs (real X) <= 1.001 -> Rabs (real Y) <= 1.001 -> Rabs (real Z) <= 1.001 -> Rabs (real X * real Y) <= 0.51 ->
  Rabs (real C) <= 1.125 -> Rabs (real S) <= 1.125 ->
  within (10 * u) ((if f then fadd else fsub) (fmul (fmul X Y) (fsub fone C)) (fmul Z S)) ((if f then Rplus else Rminus) (real X * real Y * (1 - real C)) (real Z * real S)).
Proof.
  intros FX FY FZ FC FS BX BY BZ BXY BC BS. pose proof (upto_small X _ FX BX ltac:(lra)) as UX. pose proof (upto_small Y _ FY BY ltac:(lra)) as UY. pose proof (upto_small Z _ FZ BZ ltac:(lra)) as UZ.
  pose proof (upto_small C _ FC BC ltac:(lra)) as UC. pose proof (upto_small S _ FS BS ltac:(lra)) as US.
  apply within_weak with (e := slack 4.25 (Rabs (real X) * Rabs (real Y) * (1 + Rabs (real C)) + Rabs (real Z) * Rabs (real S)) (-100)).
  { destruct f.
    - tsl (XP (XM (XM (XL X) (XL Y)) (XS (XL fone) (XL C))) (XM (XL Z) (XL S))).
    - tsl (XS (XM (XM (XL X) (XL Y)) (XS (XL fone) (XL C))) (XM (XL Z) (XL S))). }
  unfold slack. change (bpow radix2 (-24)) with (/ 16777216).
  assert (bpow radix2 (-100) <= bpow radix2 (-34)) by (apply bpow_le; lia). change (bpow radix2 (-34)) with (/ 17179869184) in * .
  rewrite Rabs_mult in BXY. pose proof (Rabs_pos (real C)). pose proof (Rabs_pos (real X)). pose proof (Rabs_pos (real Y)). pose proof (Rabs_pos (real Z)). pose proof (Rabs_pos (real S)).
  assert (Rabs (real X) * Rabs (real Y) * (1 + Rabs (real C)) <= 0.51 * 2.125) by (apply Rmult_le_compat; nra).
  assert (Rabs (real Z) * Rabs (real S) <= 1.001 * 1.125) by (apply Rmult_le_compat; nra). lra.
Qed.
Lemma normalize3_close (BK : Backend b32) (v : V) : estimates_ok BK -> finite3 v -> normal_range BK (dot3 v v) -> let n := g_normalize3 v in
  (within (1.01 * bpow radix2 (-20)) (vx n) (unit_axis v 0) /\ within (1.01 * bpow radix2 (-20)) (vy n) (unit_axis v 1) /\ within (1.01 * bpow radix2 (-20)) (vz n) (unit_axis v 2)) /\
  unit_axis v 0 * unit_axis v 0 + unit_axis v 1 * unit_axis v 1 + unit_axis v 2 * unit_axis v 2 = 1.
Proof.
  intros HB F N n. pose proof F as (F1 & F2 & F3).
  assert (POS : 0 < dot3 v v) by (destruct N as [[A _] _]; pose proof (bpow_gt_0 radix2 (-44)); lra).
  pose proof (sqrt_lt_R0 _ POS) as SP. assert (SS : sqrt (dot3 v v) * sqrt (dot3 v v) = dot3 v v) by (apply sqrt_sqrt; lra).
  assert (UN : unit_axis v 0 * unit_axis v 0 + unit_axis v 1 * unit_axis v 1 + unit_axis v 2 * unit_axis v 2 = 1).
  { unfold unit_axis. set (q := sqrt (dot3 v v)) in * . replace (_ + _ + _) with (dot3 v v / (q * q)); [rewrite SS; field; lra|].
    unfold dot3, dot2, vec3_get_x, vec3_get_y, vec3_get_z, g_get_x, g_get_y, g_get_z. field. lra. }
  split; [|exact UN].
  pose proof (C70_dot3 BK v v F F) as D. rewrite adot3_self in D. pose proof N as [[A B] C].
  assert (RL : rel (4.01 * u) (vec3_dot v v) (dot3 v v)) by (apply tol_rel; [apply D; bp 118%Z 126%Z; lra|bp (-100)%Z (-44)%Z; lra]).
  assert (K : forall x j, fin x -> real x * real x <= dot3 v v -> unit_axis v j = real x / sqrt (dot3 v v) -> within (1.01 * bpow radix2 (-20)) (fmul x (lane_rsqrt (vec3_dot v v))) (unit_axis v j)).
  { intros x j Fx Hx Ex. destruct (norm_core BK _ x _ HB RL N Fx Hx) as ([FW W] & _). split; auto. rewrite Ex. unfold Rdiv. eapply Rle_trans; [exact W|].
    assert (Q : Rabs (real x) * / sqrt (dot3 v v) <= 1).
    { apply (Rmult_le_reg_r (sqrt (dot3 v v))); auto. rewrite Rmult_assoc, Rinv_l, Rmult_1_r, Rmult_1_l by lra. apply Rabs_le. split; nra. }
    assert (eta <= / 100 * bpow radix2 (-20)). { apply Rle_trans with (bpow radix2 (-27)); [apply bpow_le; lia|]. simpl. lra. }
    pose proof (bpow_gt_0 radix2 (-20)). nra. }
  unfold n, g_normalize3, g_mul, map2, g_rsqrt, g_dot3, g_splat, map1; cbn [vx vy vz].
  split; [|split]; apply K; auto; try reflexivity; unfold dot3, dot2, vec3_get_x, vec3_get_y, vec3_get_z, g_get_x, g_get_y, g_get_z; nra.
Qed.
(** ** C90: rotation matrices *)
Definition rot_err (t : R) : R := bpow radix2 (-17) + bpow radix2 (-22) * Rabs t.
Theorem C90_rotation_accurate : forall (BK : Backend b32) (L : LibM b32) (a : b32) (v : V) (r c : nat), estimates_ok BK -> libm_accurate L ->
  fin a -> Rabs (real a) <= bpow radix2 24 -> finite3 v -> normal_range BK (dot3 v v) -> (r < 4)%nat -> (c < 4)%nat ->
  within (rot_err (radians a)) (matrix_get_value (matrix_init_rotate a v) r c) (turn (unit_axis v) (radians a) r c).
Proof.
  intros BK L a v r c HB HL FA BA FV NV Hr Hc.
  destruct (normalize3_close BK v HB FV NV) as ((WX & WY & WZ) & UN). set (n := g_normalize3 v) in * .
  destruct (Props_Euler.d2r_err a FA) as [FR ER]. { eapply Rle_trans; [exact BA|apply bpow_le; lia]. } fold (radians a) in ER. set (t := radians a) in * .
  set (q := fneg (deg_to_rad a)). assert (QX : B2X q = Fin (- real (deg_to_rad a))) by (unfold q; rewrite fneg_X, (fin_X _ FR); reflexivity). destruct (fin_of_X _ _ QX) as [FQ RQ].
  destruct (HL q FQ) as [[FS ES] [FC EC]]. set (S := fsin q) in * . set (C := fcos q) in * .
  assert (TB : Rabs t <= bpow radix2 19).
  { unfold t, radians. pose proof Props_Euler.PI_bounds. rewrite Rabs_mult, (Rabs_pos_eq (PI / 180)) by lra. change (bpow radix2 24) with (32 * bpow radix2 19) in BA || (assert (bpow radix2 24 = 32 * bpow radix2 19) by (change 24%Z with (5 + 19)%Z; now rewrite bpow_plus)).
    pose proof (Rabs_pos (real a)). nra. }
  set (e1 := 1.01 * bpow radix2 (-20)) in * . set (e2 := bpow radix2 (-23) * (1.001 + Rabs t)).
  assert (ETA : eta <= / 1000 * bpow radix2 (-23)). { apply Rle_trans with (bpow radix2 (-40)); [apply bpow_le; lia|]. simpl. lra. }
  pose proof (bpow_gt_0 radix2 (-23)) as P23. pose proof (Rabs_pos t) as PT.
  assert (ES' : Rabs (real S - (- sin t)) <= e2).
  { pose proof (sin_lip (real q) (- t)) as Q. rewrite sin_neg in Q. rewrite RQ in Q at 2. replace (- real (deg_to_rad a) - - t) with (- (real (deg_to_rad a) - t)) in Q by ring. rewrite Rabs_Ropp in Q.
    replace (real S - - sin t) with ((real S - sin (real q)) + (sin (real q) - - sin t)) by ring. eapply Rle_trans; [apply Rabs_triang|]. unfold e2. lra. }
  assert (EC' : Rabs (real C - cos t) <= e2).
  { pose proof (cos_lip (real q) (- t)) as Q. rewrite cos_neg in Q. rewrite RQ in Q at 2. replace (- real (deg_to_rad a) - - t) with (- (real (deg_to_rad a) - t)) in Q by ring. rewrite Rabs_Ropp in Q.
    replace (real C - cos t) with ((real C - cos (real q)) + (cos (real q) - cos t)) by ring. eapply Rle_trans; [apply Rabs_triang|]. unfold e2. lra. }
  assert (BE2 : e2 <= / 8). { unfold e2. assert (bpow radix2 (-23) * Rabs t <= bpow radix2 (-23) * bpow radix2 19) by (apply Rmult_le_compat_l; lra). rewrite <- bpow_plus in H. simpl in H. change (bpow radix2 (-23)) with (/ 8388608) in * . lra. }
  assert (BE1 : e1 <= / 1000). { unfold e1. simpl. lra. }
  assert (CB : Rabs (cos t) <= 1) by (apply Rabs_le; pose proof (COS_bound t); lra). assert (SB : Rabs (- sin t) <= 1) by (apply Rabs_le; pose proof (SIN_bound t); lra).
  set (x := unit_axis v 0) in * . set (y := unit_axis v 1) in * . set (z := unit_axis v 2) in * .
  destruct WX as [FX WX], WY as [FY WY], WZ as [FZ WZ].
  assert (CC : Rabs (real C) <= 1.125) by (replace (real C) with ((real C - cos t) + cos t) by ring; eapply Rle_trans; [apply Rabs_triang|lra]).
  assert (SS : Rabs (real S) <= 1.125) by (replace (real S) with ((real S - - sin t) + - sin t) by ring; eapply Rle_trans; [apply Rabs_triang|lra]).
  assert (BD : forall X p, p * p <= 1 -> Rabs (real X - p) <= e1 -> Rabs (real X) <= 1.001).
  { intros X p Hp HX. assert (Rabs p <= 1) by (apply Rabs_le; split; nra). replace (real X) with ((real X - p) + p) by ring. eapply Rle_trans; [apply Rabs_triang|lra]. }
  assert (BD2 : forall X Y p s, p * p + s * s <= 1 -> Rabs (real X - p) <= e1 -> Rabs (real Y - s) <= e1 -> Rabs (real X * real Y) <= 0.51).
  { intros X Y p s Hp HX HY. assert (A4 : Rabs (p * s) <= 0.5). { pose proof (Rle_0_sqr (p - s)). pose proof (Rle_0_sqr (p + s)). unfold Rsqr in * . apply Rabs_le. lra. }
    assert (Rabs p <= 1) by (apply Rabs_le; split; nra). assert (BY := BD Y s ltac:(nra) HY).
    replace (real X * real Y) with ((real X - p) * real Y + p * (real Y - s) + p * s) by ring.
    pose proof (mul_le _ _ _ _ HX BY). pose proof (mul_le _ _ _ _ H HY). repeat match goal with H : Rabs _ <= _ |- _ => apply rabs_bd in H end. apply Rabs_le. lra. }
  assert (FIN : 5.5 * e1 + 1.5 * e2 + 14.5 * u <= rot_err t).
  { unfold e1, e2, rot_err. change (bpow radix2 (-20)) with (/ 1048576). change (bpow radix2 (-17)) with (/ 131072). change (bpow radix2 (-22)) with (/ 4194304). change (bpow radix2 (-23)) with (/ 8388608). lra. }
  assert (E10 : 0 <= e1) by (unfold e1; pose proof (bpow_gt_0 radix2 (-20)); lra). assert (E20 : 0 <= e2) by (unfold e2; nra).
  assert (PE : 0 <= rot_err t) by lra.
  assert (DG : forall (X : b32) p, fin X -> p * p <= 1 -> Rabs (real X - p) <= e1 -> within (rot_err t) (fadd (fmul X X) (fmul C (fsub fone (fmul X X)))) (p * p + cos t * (1 - p * p))).
  { intros X p F1 H1 H2. destruct (diag_float X C F1 FC (BD _ _ H1 H2) CC) as [FF E]. split; auto. pose proof (diag_close p (cos t) (real X) (real C) e1 e2 H1 CB H2 EC' BE1 BE2) as Q.
    apply rabs_bd in E, Q. apply Rabs_le. lra. }
  assert (OF : forall f (X Y Z : b32) p s w, fin X -> fin Y -> fin Z -> p * p + s * s + w * w = 1 -> Rabs (real X - p) <= e1 -> Rabs (real Y - s) <= e1 -> Rabs (real Z - w) <= e1 ->
     within (rot_err t) ((if f : bool then fadd else fsub) (fmul (fmul X Y) (fsub fone C)) (fmul Z S)) ((if f then Rplus else Rminus) (p * s * (1 - cos t)) (w * - sin t))).
  { intros f X Y Z p s w F1 F2 F3 HN H1 H2 H3.
    assert (N1 : p * p <= 1) by nra. assert (N2 : s * s <= 1) by nra. assert (N3 : w * w <= 1) by nra. assert (N4 : p * p + s * s <= 1) by nra.
    destruct (off_float f X Y Z C S F1 F2 F3 FC FS (BD _ _ N1 H1) (BD _ _ N2 H2) (BD _ _ N3 H3) (BD2 _ _ _ _ N4 H1 H2) CC SS) as [FF E]. split; auto.
    destruct f.
    - pose proof (off_close p s w (cos t) (- sin t) (real X) (real Y) (real Z) (real C) (real S) e1 e2 ltac:(lra) CB SB H1 H2 H3 EC' ES' BE1 BE2) as Q. apply rabs_bd in E, Q. apply Rabs_le. lra.
    - assert (H3' : Rabs (- real Z - - w) <= e1) by (replace (- real Z - - w) with (- (real Z - w)) by ring; now rewrite Rabs_Ropp).
      pose proof (off_close p s (- w) (cos t) (- sin t) (real X) (real Y) (- real Z) (real C) (real S) e1 e2 ltac:(lra) CB SB H1 H2 H3' EC' ES' BE1 BE2) as Q. apply rabs_bd in E, Q. apply Rabs_le. lra. }
  assert (Z0 : within (rot_err t) fzero 0). { split; [apply (fin_of_X _ _ fzero_X)|]. rewrite (proj2 (fin_of_X _ _ fzero_X)), Rminus_eq_0, Rabs_R0. exact PE. }
  assert (Z1 : within (rot_err t) fone 1). { split; [apply (fin_of_X _ _ fone_X)|]. rewrite (proj2 (fin_of_X _ _ fone_X)), Rminus_eq_0, Rabs_R0. exact PE. }
  assert (COM : forall e g h h', h = h' -> within e g h -> within e g h') by (now intros; subst).
  unfold matrix_init_rotate, gm_rotation. fold n q S C.
  assert (NX : x * x <= 1) by nra. assert (NY : y * y <= 1) by nra. assert (NZ : z * z <= 1) by nra.
  assert (U1 : y * y + z * z + x * x = 1) by lra. assert (U2 : z * z + x * x + y * y = 1) by lra.
  pose proof (DG _ _ FX NX WX) as D0. pose proof (DG _ _ FY NY WY) as D1. pose proof (DG _ _ FZ NZ WZ) as D2.
  pose proof (fun f => OF f _ _ _ _ _ _ FX FY FZ UN WX WY WZ) as O1. pose proof (fun f => OF f _ _ _ _ _ _ FY FZ FX U1 WY WZ WX) as O2. pose proof (fun f => OF f _ _ _ _ _ _ FZ FX FY U2 WZ WX WY) as O3.
  pose proof (O1 true) as O1t. pose proof (O1 false) as O1f. pose proof (O2 true) as O2t. pose proof (O2 false) as O2f. pose proof (O3 true) as O3t. pose proof (O3 false) as O3f. cbv iota in O1t, O1f, O2t, O2f, O3t, O3f.
  clear - Z0 Z1 COM D0 D1 D2 O1t O1f O2t O2f O3t O3f Hr Hc UN.
  do 4 (destruct r as [|r]; [do 4 (destruct c as [|c]; [first [exact Z0|exact Z1
    |eapply COM; [|exact D0]|eapply COM; [|exact D1]|eapply COM; [|exact D2]|eapply COM; [|exact O1t]|eapply COM; [|exact O1f]|eapply COM; [|exact O2t]|eapply COM; [|exact O2f]|eapply COM; [|exact O3t]|eapply COM; [|exact O3f]];
    unfold turn, turned, cross3, rdot3; cbn [Nat.ltb Nat.leb Nat.eqb andb]; fold x y z; ring|]); exfalso; lia|]); exfalso; lia.
Qed.
(** ** rotations preserve lengths *)
Lemma turn_isometry k t v : rdot3 k k = 1 -> vnorm (vmul v (turn k t)) = vnorm v.
Proof.
  intros N. unfold vnorm. f_equal. pose proof (sin2_cos2 t) as SC. unfold Rsqr in SC.
  unfold sum_rows, vmul, sum_rows, turn, turned, cross3, rdot3; cbn [Nat.ltb Nat.leb Nat.eqb andb]. unfold rdot3 in N.
  set (x := k 0%nat) in * . set (y := k 1%nat) in * . set (z := k 2%nat) in * . set (c := cos t) in * . set (s := sin t) in * .
  set (p := v 0%nat). set (q := v 1%nat). set (r := v 2%nat). set (w := v 3%nat).
  assert (S2 : s * s = 1 - c * c) by lra. assert (X2 : x * x = 1 - y * y - z * z) by lra.
  set (V2 := p * p + q * q + r * r). set (D := x * p + y * q + z * r).
  match goal with |- ?l = _ => replace l with (c * c * V2 + s * s * ((x * x + y * y + z * z) * V2 - D * D) + (x * x + y * y + z * z) * (D * D) * ((1 - c) * (1 - c)) + 2 * c * (1 - c) * (D * D) + w * w) by (unfold V2, D; ring) end.
  rewrite N, S2. unfold V2, D. ring.
Qed.
Lemma unit_axis_norm (BK : Backend b32) (v : V) : estimates_ok BK -> finite3 v -> normal_range BK (dot3 v v) -> rdot3 (unit_axis v) (unit_axis v) = 1.
Proof. intros HB F N. apply (normalize3_close BK v HB F N). Qed.
Lemma rdif_sym a b : fro (rdif a b) = fro (rdif b a).
Proof. unfold fro, rdif. f_equal. apply sum_ext; intros; apply sum_ext; intros; ring. Qed.
(** what a call graphene_matrix_rotate (m, a, v) needs: a finite angle of at most 2^24 degrees, a finite axis neither too short nor too long *)
Definition good_turn (BK : Backend b32) (T : R) (av : b32 * V) : Prop :=
  fin (fst av) /\ Rabs (real (fst av)) <= bpow radix2 24 /\ Rabs (radians (fst av)) <= T /\ finite3 (snd av) /\ normal_range BK (dot3 (snd av) (snd av)).
Lemma rot_fro (BK : Backend b32) (L : LibM b32) (T : R) (a : b32) (v : V) : estimates_ok BK -> libm_accurate L -> good_turn BK T (a, v) ->
  finite_mat (matrix_init_rotate a v) /\ fro (rdif (ent (matrix_init_rotate a v)) (turn (unit_axis v) (radians a))) <= 4 * rot_err T.
Proof.
  intros HB HL (FA & BA & TB & FV & NV). cbn [fst snd] in * .
  pose proof (fun r c => C90_rotation_accurate BK L a v r c HB HL FA BA FV NV) as W. set (m := matrix_init_rotate a v) in * .
  split; [apply fin_get; intros; apply W; auto|].
  assert (EM : rot_err (radians a) <= rot_err T). { unfold rot_err. pose proof (bpow_gt_0 radix2 (-22)). pose proof (Rle_abs T). apply Rplus_le_compat_l, Rmult_le_compat_l; lra. }
  assert (P : 0 <= rot_err T). { unfold rot_err. pose proof (bpow_gt_0 radix2 (-22)). pose proof (bpow_gt_0 radix2 (-17)). pose proof (Rabs_pos T). nra. }
  eapply Rle_trans; [apply (fro_mono _ (fun _ _ => rot_err T))|rewrite fro_const; auto; lra].
  intros r c Hr Hc. unfold rdif. rewrite <- (proj1 (get_ent m r c Hr Hc)). eapply Rle_trans; [apply W; auto|exact EM].
Qed.
Lemma near_fro e (a b : nat -> nat -> R) : (forall v, vnorm (vmul v b) = vnorm v) -> fro (rdif a b) <= e -> near_rigid e a.
Proof.
  intros I H v. pose proof (vmul_dif v a b) as V1. pose proof (vmul_dif v b a) as V2. rewrite (rdif_sym b a) in V2. rewrite I in * . pose proof (vnorm_pos v).
  assert (vnorm v * fro (rdif a b) <= vnorm v * e) by (apply Rmult_le_compat_l; auto). split; lra.
Qed.
Theorem C90_rotation_rigid : forall (BK : Backend b32) (L : LibM b32) (T : R) (a : b32) (v : V), estimates_ok BK -> libm_accurate L -> good_turn BK T (a, v) ->
  rigid_mat (4 * rot_err T) (matrix_init_rotate a v).
Proof.
  intros BK L T a v HB HL G. destruct (rot_fro BK L T a v HB HL G) as [F E]. split; auto. eapply near_fro; [|exact E].
  intros w. apply turn_isometry. destruct G as (_ & _ & _ & FV & NV). now apply (unit_axis_norm BK).
Qed.
(** ** any number of rotations in a row *)
Definition rotated (m0 : mat b32) (L : LibM b32) (BK : Backend b32) (l : list (b32 * V)) : mat b32 := fold_left (fun m av => matrix_rotate m (fst av) (snd av)) l m0.
(** the same turns composed in real numbers *)
Definition turns (m0 : mat b32) (l : list (b32 * V)) : nat -> nat -> R := fold_left (fun m av => rmul m (turn (unit_axis (snd av)) (radians (fst av)))) l (ent m0).
Theorem C90_rotation_history : forall (BK : Backend b32) (L : LibM b32) (T : R) (m0 : mat b32) (l : list (b32 * V)), estimates_ok BK -> libm_accurate L -> Forall (good_turn BK T) l ->
  finite_mat m0 -> let K := fro (ent m0) in let n := INR (length l) in let step := 6 * rot_err T + bpow radix2 (-20) in
  bpow radix2 (-100) <= K -> K <= bpow radix2 120 -> n * step <= / 4 ->
  finite_mat (rotated m0 L BK l) /\ fro (turns m0 l) = K /\ fro (rdif (ent (rotated m0 L BK l)) (turns m0 l)) <= n * step * K.
Proof.
  intros BK L T m0 l HB HL GL F0 K n step K1 K2. unfold n. clear n. revert GL.
  assert (PE : 0 < rot_err T). { unfold rot_err. pose proof (bpow_gt_0 radix2 (-22)). pose proof (bpow_gt_0 radix2 (-17)). pose proof (Rabs_pos T). nra. }
  assert (PS : 0 < step) by (unfold step; pose proof (bpow_gt_0 radix2 (-20)); lra). assert (PK : 0 < K) by (pose proof (bpow_gt_0 radix2 (-100)); lra).
  induction l as [|[a v] l IH] using rev_ind; intros GL HN.
  - unfold rotated, turns; cbn [fold_left length INR]. split; [exact F0|split; [reflexivity|]]. unfold rdif. rewrite (fro_ext _ (fun _ _ => 0)) by (intros; ring). rewrite fro_const; lra.
  - apply Forall_app in GL as [GL GA]. apply Forall_inv in GA. rewrite app_length in * . cbn [length] in * . rewrite plus_INR in * . cbn [INR] in * . set (n := INR (length l)) in * . pose proof (pos_INR (length l)) as PN. fold n in PN.
    destruct IH as (F & TK & E); auto; [nra|].
    unfold rotated, turns in * . rewrite !fold_left_app. cbn [fold_left fst snd]. set (p := fold_left _ l m0) in * . set (X := fold_left _ l (ent m0)) in * .
    change (matrix_rotate p a v) with (matrix_multiply p (matrix_init_rotate a v)). destruct (rot_fro BK L T a v HB HL GA) as [FM EM]. set (m := matrix_init_rotate a v) in * . set (t := turn (unit_axis v) (radians a)) in * .
    assert (ISO : forall w, vnorm (vmul w t) = vnorm w). { intros w. apply turn_isometry. destruct GA as (_ & _ & _ & FV & NV). now apply (unit_axis_norm BK). }
    assert (IF : forall A, fro (rmul A t) = fro A). { intros A. rewrite !fro_rows. apply vnorm_ext. intros r _. apply (ISO (A r)). }
    assert (NS : n * step * K <= / 4 * K) by (apply Rmult_le_compat_r; nra).
    assert (BP : fro (ent p) <= 1.25 * K). { pose proof (fro_from (ent p) X). lra. }
    assert (ST : step <= / 4) by nra. assert (E4 : 4 * rot_err T <= / 4) by (unfold step in ST; pose proof (bpow_gt_0 radix2 (-20)); lra).
    assert (IT : fro t = 2). { unfold fro. rewrite <- (sqrt_square 2) by lra. f_equal. unfold sum_rows.
      assert (Q : forall r, (r < 4)%nat -> sum_rows (fun c => t r c * t r c) = 1).
      { intros r Hr. rewrite <- (vnorm_sq (t r)). replace (vnorm (t r)) with 1; [lra|]. rewrite <- (vnorm_ext (vmul (fun i => if Nat.eqb i r then 1 else 0) t)).
        - rewrite ISO. unfold vnorm, sum_rows. rewrite <- (sqrt_square 1) at 1 by lra. f_equal. do 4 (destruct r as [|r]; [cbn; ring|]). lia.
        - intros c _. unfold vmul, sum_rows. do 4 (destruct r as [|r]; [cbn; ring|]). lia. }
      pose proof (Q 0%nat ltac:(lia)). pose proof (Q 1%nat ltac:(lia)). pose proof (Q 2%nat ltac:(lia)). pose proof (Q 3%nat ltac:(lia)). unfold sum_rows in * . lra. }
    assert (BM : fro (ent m) <= 2.25). { pose proof (fro_from (ent m) t). lra. }
    pose proof (fro_pos (ent p)) as PP. pose proof (fro_pos (ent m)) as PM.
    assert (PB : fro (ent p) * fro (ent m) <= 1.25 * K * 2.25) by (apply Rmult_le_compat; lra).
    destruct (prod_fro BK p m F FM) as [FF EF]. { assert (bpow radix2 126 = 64 * bpow radix2 120) by (change 126%Z with (6 + 120)%Z; now rewrite bpow_plus). lra. }
    split; auto. split; [rewrite IF; exact TK|].
    eapply Rle_trans; [apply (fro_dif_tri _ (rmul (ent p) (ent m)))|]. 
    assert (A1 : fro (rdif (rmul (ent p) (ent m)) (rmul X t)) <= 1.25 * K * (4 * rot_err T) + n * step * K).
    { eapply Rle_trans; [apply (fro_dif_tri _ (rmul (ent p) t))|]. apply Rplus_le_compat.
      - rewrite (fro_ext _ (rmul (ent p) (rdif (ent m) t))) by (intros; unfold rdif, rmul, sum_rows; ring). eapply Rle_trans; [apply fro_mul|]. apply Rmult_le_compat; auto using fro_pos.
      - rewrite (fro_ext _ (rmul (rdif (ent p) X) t)) by (intros; unfold rdif, rmul, sum_rows; ring). rewrite IF. exact E. }
    assert (A2 : bpow radix2 (-145) <= / 8 * bpow radix2 (-20) * K).
    { change (/ 8) with (bpow radix2 (-3)). rewrite <- bpow_plus. apply Rle_trans with (bpow radix2 (-3 + -20) * bpow radix2 (-100)); [rewrite <- bpow_plus; apply bpow_le; lia|apply Rmult_le_compat_l; [apply bpow_ge_0|auto]]. }
    assert (A3 : bpow radix2 (-22) * (fro (ent p) * fro (ent m)) <= / 4 * bpow radix2 (-20) * (1.25 * K * 2.25)).
    { change (/ 4) with (bpow radix2 (-2)). rewrite <- bpow_plus. apply Rmult_le_compat_l; [apply bpow_ge_0|auto]. }
    pose proof (bpow_gt_0 radix2 (-20)) as P20. assert (0 < bpow radix2 (-20) * K) by (now apply Rmult_lt_0_compat). assert (0 < rot_err T * K) by (now apply Rmult_lt_0_compat).
    assert (SE : step * K = 6 * (rot_err T * K) + bpow radix2 (-20) * K) by (unfold step; ring). replace ((n + 1) * step * K) with (n * step * K + step * K) by ring. rewrite SE. lra.
Qed.

(** graphene_matrix_rotate_x, _y, _z are graphene_matrix_rotate about the axes *)
Theorem C90_rotate_axes : forall (BK : Backend b32) (L : LibM b32) (m : mat b32) (a : b32),
  matrix_rotate_x m a = matrix_rotate m a (vec3_init fone fzero fzero) /\ matrix_rotate_y m a = matrix_rotate m a (vec3_init fzero fone fzero) /\ matrix_rotate_z m a = matrix_rotate m a (vec3_init fzero fzero fone).
Proof. intros. split; [|split]; reflexivity. Qed.
(** ** quaternions from an angle and an axis *)
Lemma half_err (x : b32) (t e : R) : fin x -> Rabs (real x - t) <= e -> Rabs t + e <= bpow radix2 100 -> within (e / 2 + u * (Rabs t + e) + eta) (fdiv x ftwo) (t / 2).
Proof.
  intros F H B. pose proof (Rabs_pos (real x - t)). pose proof (Rabs_pos t).
  assert (BX : Rabs (real x) <= Rabs t + e). { replace (real x) with ((real x - t) + t) by ring. eapply Rle_trans; [apply Rabs_triang|lra]. }
  assert (BH : Rabs (real x / 2) <= Rabs t + e). { unfold Rdiv. rewrite Rabs_mult, (Rabs_pos_eq (/ 2)) by lra. pose proof (Rabs_pos (real x)). lra. }
  assert (X : B2X (fdiv x ftwo) = Fin (rnd32 (real x / 2))).
  { change (fdiv x ftwo) with (Bdiv mode_NE x ftwo). rewrite Bdiv_X by (fold b32; rewrite ftwo_X; intros [= E]; lra). fold b32. rewrite ftwo_X, (fin_X x F). cbn [xdiv]. destruct (Req_EM_T 2 0) as [E|E]; [lra|].
    apply xrnd_ok. eapply Rle_trans; [exact BH|]. eapply Rle_trans; [exact B|]. apply bpow_le; lia. }
  apply fin_of_X in X as [FX RX]. split; auto. rewrite RX. pose proof (rnd_err (real x / 2)) as E.
  assert (u32 * Rabs (real x / 2) <= u32 * (Rabs t + e)) by (apply Rmult_le_compat_l; [apply bpow_ge_0|auto]).
  assert (U : u32 = u) by reflexivity. rewrite U in * .
  assert (HH : Rabs (real x / 2 - t / 2) <= e / 2). { replace (real x / 2 - t / 2) with ((real x - t) * / 2) by field. rewrite Rabs_mult, (Rabs_pos_eq (/ 2)) by lra. lra. }
  replace (rnd32 (real x / 2) - t / 2) with ((rnd32 (real x / 2) - real x / 2) + (real x / 2 - t / 2)) by ring. eapply Rle_trans; [apply Rabs_triang|]. lra.
Qed.
(** the half-angle formula: (sin (t/2) k, cos (t/2)) *)
Definition half_angle (k : nat -> R) (t : R) (j : nat) : R := if Nat.ltb j 3 then k j * sin (t / 2) else cos (t / 2).
Theorem C90_quaternion_from_axis : forall (BK : Backend b32) (L : LibM b32) (T : R) (a : b32) (v : V), estimates_ok BK -> libm_accurate L -> good_turn BK T (a, v) ->
  let q := quaternion_init_from_angle_vec3 a v in let h := half_angle (unit_axis v) (radians a) in let e := bpow radix2 (-19) + bpow radix2 (-22) * Rabs T in
  within e (qx q) (h 0%nat) /\ within e (qy q) (h 1%nat) /\ within e (qz q) (h 2%nat) /\ within e (qw q) (h 3%nat).
Proof.
  intros BK L T a v HB HL (FA & BA & TB & FV & NV) q h e. cbn [fst snd] in * .
  destruct (normalize3_close BK v HB FV NV) as ((WX & WY & WZ) & UN).
  destruct (Props_Euler.d2r_err a FA) as [FR ER]. { eapply Rle_trans; [exact BA|apply bpow_le; lia]. } fold (radians a) in ER. set (t := radians a) in * .
  assert (ETA : eta <= / 1000 * bpow radix2 (-23)). { apply Rle_trans with (bpow radix2 (-40)); [apply bpow_le; lia|]. simpl. lra. }
  pose proof (bpow_gt_0 radix2 (-23)) as P23. pose proof (Rabs_pos t) as PT. pose proof (Rle_abs T) as LT.
  assert (TT : Rabs t <= bpow radix2 19).
  { unfold t, radians. pose proof Props_Euler.PI_bounds. rewrite Rabs_mult, (Rabs_pos_eq (PI / 180)) by lra. assert (bpow radix2 24 = 32 * bpow radix2 19) by (change 24%Z with (5 + 19)%Z; now rewrite bpow_plus).
    pose proof (Rabs_pos (real a)). nra. }
  assert (P0 : 0 < eta) by apply bpow_gt_0.
  change (bpow radix2 (-23)) with (/ 8388608) in * . change (bpow radix2 19) with 524288 in TT.
  destruct (half_err _ _ _ FR ER) as [FH EH]. { assert (1000000 <= bpow radix2 100) by (apply Rle_trans with (bpow radix2 20); [simpl; lra|apply bpow_le; lia]). lra. }
  set (r := fdiv (deg_to_rad a) ftwo) in * . destruct (HL r FH) as [[FS ES] [FC EC]].
  assert (EH' : Rabs (real r - t / 2) <= / 8388608 * (1.01 * Rabs t + 0.01)) by lra. change (bpow radix2 (-23)) with (/ 8388608) in * .
  set (e2 := / 8388608 * (1.01 * Rabs t + 1.01)).
  assert (ES' : Rabs (real (fsin r) - sin (t / 2)) <= e2).
  { pose proof (sin_lip (real r) (t / 2)). replace (_ - _) with ((real (fsin r) - sin (real r)) + (sin (real r) - sin (t / 2))) by ring. eapply Rle_trans; [apply Rabs_triang|]. unfold e2. lra. }
  assert (EC' : Rabs (real (fcos r) - cos (t / 2)) <= e2).
  { pose proof (cos_lip (real r) (t / 2)). replace (_ - _) with ((real (fcos r) - cos (real r)) + (cos (real r) - cos (t / 2))) by ring. eapply Rle_trans; [apply Rabs_triang|]. unfold e2. lra. }
  assert (SB : Rabs (sin (t / 2)) <= 1) by (apply Rabs_le; pose proof (SIN_bound (t / 2)); lra).
  assert (EE : 1.01 * bpow radix2 (-20) * 1.125 + e2 + u * 1.2 + eta <= e).
  { unfold e, e2. change (bpow radix2 (-20)) with (/ 1048576). change (bpow radix2 (-19)) with (/ 524288). change (bpow radix2 (-22)) with (/ 4194304). lra. }
  assert (B2 : e2 <= / 10) by (unfold e2; lra). assert (B20 : 0 <= e2) by (unfold e2; lra).
  assert (U : u32 = u) by reflexivity. assert (U0 : 0 < u) by lra.
  assert (K : forall (X : b32) p, within (1.01 * bpow radix2 (-20)) X p -> p * p <= 1 -> within e (fmul X (fsin r)) (p * sin (t / 2))).
  { intros X p [FX EX] Hp. assert (AP : Rabs p <= 1) by (apply Rabs_le; split; nra).
    assert (A1 : ap X p (1.01 * bpow radix2 (-20))) by (exists (real X); split; [now apply fin_X|exact EX]).
    assert (A2 : ap (fsin r) (sin (t / 2)) e2) by (exists (real (fsin r)); split; [now apply fin_X|exact ES']).
    assert (A3 : Rabs p * Rabs (sin (t / 2)) + Rabs p * e2 + Rabs (sin (t / 2)) * (1.01 * bpow radix2 (-20)) + 1.01 * bpow radix2 (-20) * e2 <= 1.2).
    { change (bpow radix2 (-20)) with (/ 1048576). pose proof (Rabs_pos p). pose proof (Rabs_pos (sin (t / 2))). nra. }
    assert (A4 : 1.2 <= bpow radix2 127) by (apply Rle_trans with (bpow radix2 1); [simpl; lra|apply bpow_le; lia]).
    destruct (ap_fin _ _ _ (ap_mul X (fsin r) p (sin (t / 2)) (1.01 * bpow radix2 (-20)) e2 1.2 A1 A2 A3 A4)) as [FM EM].
    split; auto. eapply Rle_trans; [exact EM|]. rewrite U. eapply Rle_trans; [|exact EE].
      assert (Rabs p * e2 <= 1 * e2) by (apply Rmult_le_compat_r; auto). pose proof (bpow_gt_0 radix2 (-20)).
      assert (Rabs (sin (t / 2)) * (1.01 * bpow radix2 (-20)) <= 1 * (1.01 * bpow radix2 (-20))) by (apply Rmult_le_compat_r; lra).
      assert (1.01 * bpow radix2 (-20) * e2 <= 1.01 * bpow radix2 (-20) * / 10) by (apply Rmult_le_compat_l; lra). lra. }
  split; [|split; [|split]]; [apply K; [exact WX|nra]|apply K; [exact WY|nra]|apply K; [exact WZ|nra]|].
  split; [exact FC|]. unfold h, half_angle; cbn [Nat.ltb Nat.leb]. eapply Rle_trans; [exact EC'|]. pose proof (bpow_gt_0 radix2 (-20)). lra.
Qed.
(** ** non-vacuity: a sine and cosine rounded to a multiple of 2^-23; three turns about different axes *)
Definition libm23 : LibM b32 := {| fsin := fun x => flit (ZnearestE (sin (real x) * 8388608)) (-23); fcos := fun x => flit (ZnearestE (cos (real x) * 8388608)) (-23);
  ftan := fun x => x; fasin := fun x => x; facos := fun x => x; fatan2 := fun x _ => x |}.
Lemma libm23_ok : libm_accurate libm23.
Proof.
  assert (K : forall r, Rabs r <= 1 -> within (bpow radix2 (-23)) (flit (ZnearestE (r * 8388608)) (-23)) r).
  { intros r H. pose proof (Znearest_half (fun x => negb (Z.even x)) (r * 8388608)) as Q. fold (ZnearestE) in Q. set (z := ZnearestE (r * 8388608)) in * . apply rabs_bd in H, Q.
    destruct (lit_real z (-23)) as [F E]; [|lia|lia|].
    - assert (A1 : IZR z < IZR 8388610) by lra. assert (A2 : IZR (-8388610) < IZR z) by lra. apply lt_IZR in A1, A2. lia.
    - split; auto. rewrite E. change (bpow radix2 (-23)) with (/ 8388608). apply Rabs_le. lra. }
  intros x _. split; apply K; apply Rabs_le; [pose proof (SIN_bound (real x))|pose proof (COS_bound (real x))]; lra.
Qed.
Example C90_ex : forall BK : Backend b32, let l := [(lit 90 0, vec3_init fone fzero fzero); (lit (-45) 0, vec3_init (lit 1 0) (lit 2 0) (lit 2 0)); (lit 720 0, vec3_init (lit 3 (-1)) (lit (-5) 0) (lit 1 (-10)))] in
  Forall (good_turn BK 13) l /\ finite_mat (matrix_init_identity : mat b32) /\ fro (ent matrix_init_identity) = 2 /\ INR (length l) * (6 * rot_err 13 + bpow radix2 (-20)) <= / 4.
Proof.
  intros BK l.
  assert (Z : fin fzero /\ real fzero = 0) by apply fin_of_X, fzero_X. assert (O : fin fone /\ real fone = 1) by apply fin_of_X, fone_X.
  assert (LR : forall m e, (Z.abs m < 2 ^ 24)%Z -> (-149 <= e)%Z -> (e <= 104)%Z -> fin (lit m e) /\ real (lit m e) = IZR m * bpow radix2 e) by apply lit_real.
  assert (G : forall a x y z T, fin a -> fin x -> fin y -> fin z -> Rabs (real a) <= 720 -> Rabs (real a) * 0.018 <= T -> 1 <= real x * real x + real y * real y + real z * real z <= 1000 -> good_turn BK T (a, vec3_init x y z)).
  { intros a x y z T FA FX FY FZ BA BT BN. split; [|split; [|split; [|split]]]; cbn [fst snd]; auto.
    - assert (720 <= bpow radix2 24) by (simpl; lra). lra.
    - unfold radians. pose proof Props_Euler.PI_bounds. rewrite Rabs_mult, (Rabs_pos_eq (PI / 180)) by lra. eapply Rle_trans; [apply Rmult_le_compat_l with (r2 := 0.018); [apply Rabs_pos|lra]|lra].
    - unfold finite3, vec3_init, g_init; cbn [vx vy vz]. auto.
    - assert (D : dot3 (vec3_init x y z) (vec3_init x y z) = real x * real x + real y * real y + real z * real z) by (unfold dot3, dot2, vec3_init, g_init; cbn [vx vy vz]; ring).
      unfold normal_range, scalar_cutoff. rewrite D. split.
      + assert (bpow radix2 (-44) <= 1) by (change 1 with (bpow radix2 0); apply bpow_le; lia). assert (1000 <= bpow radix2 118) by (apply Rle_trans with (bpow radix2 10); [simpl; lra|apply bpow_le; lia]). lra.
      + destruct BK; auto. simpl. lra. }
  destruct Z as [FZ Z], O as [FO O].
  destruct (LR 90 0)%Z as [Fa Ra]; try reflexivity; try lia. destruct (LR (-45) 0)%Z as [Fb Rb]; try reflexivity; try lia. destruct (LR 720 0)%Z as [Fc Rc]; try reflexivity; try lia.
  destruct (LR 1 0)%Z as [F1 R1]; try reflexivity; try lia. destruct (LR 2 0)%Z as [F2 R2]; try reflexivity; try lia. destruct (LR 3 (-1))%Z as [F3 R3]; try reflexivity; try lia. destruct (LR (-5) 0)%Z as [F5 R5]; try reflexivity; try lia. destruct (LR 1 (-10))%Z as [F6 R6]; try reflexivity; try lia.
  change (bpow radix2 0) with 1 in * . change (bpow radix2 (-1)) with (/ 2) in * . change (bpow radix2 (-10)) with (/ 1024) in * .
  assert (FM : finite_mat (matrix_init_identity : mat b32)) by (unfold finite_mat, finite4, matrix_init_identity, gm_identity, g_init; cbn [mx my mz mw vx vy vz vw]; tauto).
  split; [|split; [exact FM|split]].
  - unfold l. clear FM LR. clearbody l || clear l. apply Forall_cons; [|apply Forall_cons; [|apply Forall_cons; [|constructor]]]; (apply G; [assumption|assumption|assumption|assumption| | |]); rewrite ?Ra, ?Rb, ?Rc, ?Z, ?O, ?R1, ?R2, ?R3, ?R5, ?R6; try (rewrite Rabs_pos_eq by lra; lra); try (rewrite Rabs_left by lra; lra); lra.
  - unfold fro. rewrite <- (sqrt_square 2) by lra. f_equal. unfold sum_rows, ent, matrix_init_identity, gm_identity, g_init; cbn [mx my mz mw vx vy vz vw]. cbn. rewrite ?Z, ?O. ring.
  - unfold l; cbn [length INR]. unfold rot_err. rewrite (Rabs_pos_eq 13) by lra. simpl. lra.
Qed.
