(** * Props_RaySph: ray-sphere intersection in binary32 (C93). *)
From Coq Require Import ZArith Reals Bool List Lra Lia Psatz.
From Flocq Require Import Core BinarySingleNaN.
From Verif Require Import Num Simd Vec Rect Box Mat Geo Quat OrdThy FloatThy B32Setup FloatLem ErrThy Props_Err Props_Err2 Props_Err3 ErrEx Props_Err5.
Import ListNotations.
Local Open Scope R_scope.

(** ** the real-number part: [f k] is the squared distance from the centre at parameter [k] *)
Section RealPart.
Variables (V2 T D2 rad M a h : R).
Hypotheses (HV : 0 <= V2) (HM : 0 < M) (HS : V2 + rad * rad <= M * M) (HT : T * T <= V2 * D2) (HD : Rabs (D2 - 1) <= 64 * u) (HA : Rabs (a - T) <= 16 * u * M).
Let f (k : R) : R := V2 - 2 * k * T + k * k * D2.
Let Q : R := M * M.
Lemma Q_pos : 0 < Q. Proof. unfold Q. nra. Qed.
Lemma D2_b : 1 - 64 * u <= D2 <= 1 + 64 * u. Proof. apply Rabs_le_inv in HD. lra. Qed.
Lemma V2_b : V2 <= Q. Proof. unfold Q. nra. Qed.
Lemma TT_b : T * T <= 1.00001 * Q.
Proof. pose proof V2_b. pose proof D2_b. pose proof Q_pos. assert (V2 * D2 <= Q * 1.00001) by (apply Rmult_le_compat; lra). lra. Qed.
Lemma sq_le x b : 0 <= b -> x * x <= b * b * (M * M) -> Rabs x <= b * M.
Proof. intros B H. rewrite <- (Rabs_pos_eq (b * M)) by (apply Rmult_le_pos; lra). apply Rsqr_le_abs_0. unfold Rsqr. lra. Qed.
Lemma T_b : Rabs T <= 1.00001 * M.
Proof. apply sq_le; [lra|]. pose proof TT_b. pose proof Q_pos. unfold Q in * . lra. Qed.
Lemma a_b : Rabs a <= 1.0001 * M.
Proof. replace a with ((a - T) + T) by ring. eapply Rle_trans; [apply Rabs_triang|]. pose proof T_b. lra. Qed.
Lemma aa_TT : Rabs (a * a - T * T) <= 33 * u * Q.
Proof.
  replace (a * a - T * T) with ((a - T) * (a + T)) by ring. rewrite Rabs_mult. pose proof T_b. pose proof a_b.
  assert (Rabs (a + T) <= 2.01 * M) by (eapply Rle_trans; [apply Rabs_triang|]; lra).
  apply Rle_trans with (16 * u * M * (2.01 * M)); [apply Rmult_le_compat; auto using Rabs_pos|]. unfold Q. pose proof Q_pos. unfold Q in * . lra.
Qed.
(** the least value of [f] *)
Lemma f_low k : V2 - T * T - 65 * u * Q <= f k.
Proof.
  pose proof D2_b. pose proof Q_pos. pose proof V2_b. set (q := T * T / D2). assert (QD : q * D2 = T * T) by (unfold q; field; lra).
  assert (q0 : 0 <= q) by (unfold q; apply Rle_mult_inv_pos; nra). assert (qV : q <= V2) by (apply Rmult_le_reg_r with D2; lra).
  assert (E : f k = D2 * ((k - T / D2) * (k - T / D2)) + V2 - q) by (unfold f, q; field; lra).
  rewrite E. assert (0 <= (k - T / D2) * (k - T / D2)) by apply Rle_0_sqr. assert (0 <= D2 * ((k - T / D2) * (k - T / D2))) by (apply Rmult_le_pos; lra).
  assert (q * D2 >= q * (1 - 64 * u)) by (apply Rle_ge, Rmult_le_compat_l; lra). lra.
Qed.
Lemma miss_far : rad * rad - V2 + T * T <= 46 * u * Q -> forall k, rad * rad - 111 * u * Q <= f k.
Proof. intros G k. pose proof (f_low k). lra. Qed.
Hypothesis HH : 0 <= h.
Hypothesis HG : Rabs (h * h - (rad * rad - V2 + T * T)) <= 53 * u * Q.
Lemma h_b : h <= 1.0001 * M.
Proof.
  rewrite <- (Rabs_pos_eq h HH). apply sq_le; [lra|]. apply Rabs_le_inv in HG. pose proof Q_pos. pose proof D2_b. pose proof V2_b.
  assert (V2 * D2 <= V2 * (1 + 64 * u)) by (apply Rmult_le_compat_l; lra). unfold Q in * . lra.
Qed.
Lemma behind : a + h < 0 -> forall k, 0 <= k -> rad * rad - 160 * u * Q <= f k.
Proof.
  intros N k K. pose proof Q_pos. pose proof aa_TT as A. apply Rabs_le_inv in HG, A, HA. assert (h * h <= a * a) by nra.
  destruct (Rle_or_lt T 0) as [L|L].
  - pose proof D2_b. assert (0 <= k * k * D2) by (apply Rmult_le_pos; nra). assert (0 <= - (2 * k * T)) by nra. unfold f. lra.
  - assert (T * T <= 16 * u * M * (16 * u * M)) by (apply Rmult_le_compat; lra). pose proof (f_low k).
    assert (16 * u * M * (16 * u * M) <= u * Q) by (unfold Q in * ; nra). pose proof (f_low k). lra.
Qed.
Lemma outside : h <= a -> rad * rad - 90 * u * Q <= V2.
Proof. intros N. pose proof Q_pos. pose proof aa_TT as A. apply Rabs_le_inv in HG, A. assert (h * h <= a * a) by nra. lra. Qed.
Lemma inside : a <= h -> - h <= a -> V2 <= rad * rad + 90 * u * Q.
Proof. intros N1 N2. pose proof Q_pos. pose proof aa_TT as A. apply Rabs_le_inv in HG, A. assert (a * a <= h * h) by nra. lra. Qed.
Variables (t sg : R).
Hypotheses (HSG : sg = 1 \/ sg = - 1) (Ht : Rabs (t - (a + sg * h)) <= 3 * u * M).
Lemma t_b : Rabs t <= 2.001 * M.
Proof.
  pose proof a_b as A. pose proof h_b. apply Rabs_le_inv in Ht, A. apply Rabs_le. destruct HSG as [->| ->]; lra.
Qed.
Lemma surface : Rabs (f t - rad * rad) <= 360 * u * Q.
Proof.
  pose proof Q_pos. pose proof h_b. set (d := t - T - sg * h). assert (DB : Rabs d <= 19 * u * M).
  { unfold d. apply Rabs_le_inv in Ht, HA. apply Rabs_le. lra. }
  assert (S2 : sg * sg = 1) by (destruct HSG as [->| ->]; ring).
  assert (E : f t - rad * rad = (h * h - (rad * rad - V2 + T * T)) + d * (2 * (sg * h) + d) + t * t * (D2 - 1)).
  { unfold f. replace (t * t * (D2 - 1)) with (t * t * D2 - t * t) by ring. assert (X : t = T + sg * h + d) by (unfold d; ring).
    assert (t * t = (T + sg * h + d) * t) by (rewrite <- X; ring). assert (H2 : h * h = sg * sg * (h * h)) by (rewrite S2; ring). rewrite H2.
    replace (V2 - 2 * t * T + t * t * D2 - rad * rad) with (V2 + (t - T) * (t - T) - T * T - rad * rad + (t * t * D2 - t * t)) by ring.
    replace (t - T) with (sg * h + d) by (unfold d; ring). ring. }
  rewrite E. assert (AS : Rabs (sg * h) <= 1.0001 * M) by (apply Rabs_le; destruct HSG as [->| ->]; lra).
  assert (A1 : Rabs (d * (2 * (sg * h) + d)) <= 39 * u * Q).
  { rewrite Rabs_mult. apply Rle_trans with (19 * u * M * (2.001 * M)); [|unfold Q in * ; lra]. apply Rmult_le_compat; auto using Rabs_pos. eapply Rle_trans; [apply Rabs_triang|]. rewrite Rabs_mult, (Rabs_pos_eq 2) by lra. lra. }
  assert (A2 : Rabs (t * t * (D2 - 1)) <= 4.1 * Q * (64 * u)).
  { rewrite Rabs_mult. apply Rmult_le_compat; auto using Rabs_pos. rewrite Rabs_mult. pose proof t_b. apply Rle_trans with (2.001 * M * (2.001 * M)); [apply Rmult_le_compat; auto using Rabs_pos|]. unfold Q in * . lra. }
  apply Rabs_le_inv in HG, A1, A2. apply Rabs_le. lra.
Qed.
Lemma before : sg = - 1 -> 0 <= t -> forall k, 0 <= k <= t -> rad * rad - 1000 * u * Q <= f k.
Proof.
  intros SG T0 k K. pose proof surface as S. pose proof t_b as TB. pose proof D2_b. pose proof Q_pos. rewrite Rabs_pos_eq in TB by auto. apply Rabs_le_inv in S, Ht, HA. rewrite SG in Ht. pose proof HH as HH0.
  assert (E : f k - f t = (t - k) * (2 * T - (k + t) * D2)) by (unfold f; ring).
  assert (L : t * D2 <= T + 150 * u * M). { assert (t * D2 <= t * (1 + 64 * u)) by (apply Rmult_le_compat_l; lra). lra. }
  assert (L2 : (k + t) * D2 <= 2 * t * D2) by (apply Rmult_le_compat_r; lra).
  assert (L3 : (t - k) * (2 * T - (k + t) * D2) >= - (2.001 * M * (300 * u * M))).
  { destruct (Rle_or_lt 0 (2 * T - (k + t) * D2)) as [P|P]; [assert (0 <= (t - k) * (2 * T - (k + t) * D2)) by (apply Rmult_le_pos; lra); unfold Q in * ; nra|].
    replace ((t - k) * (2 * T - (k + t) * D2)) with (- ((t - k) * ((k + t) * D2 - 2 * T))) by ring. apply Rle_ge, Ropp_le_contravar. apply Rmult_le_compat; lra. }
  unfold Q in * . lra.
Qed.
Lemma after : sg = 1 -> 0 <= t -> forall k, t <= k -> rad * rad - 400 * u * Q <= f k.
Proof.
  intros SG T0 k K. pose proof surface as S. pose proof t_b as TB. pose proof D2_b. pose proof Q_pos. rewrite Rabs_pos_eq in TB by auto. apply Rabs_le_inv in S, Ht, HA. rewrite SG in Ht. pose proof HH as HH0.
  set (x := k - t). assert (E : f k - f t = x * (x * D2 + 2 * (t * D2 - T))) by (unfold f, x; ring).
  assert (L : T - 150 * u * M <= t * D2). { assert (t * (1 - 64 * u) <= t * D2) by (apply Rmult_le_compat_l; lra). lra. }
  assert (X0 : 0 <= x) by (unfold x; lra).
  assert (x * D2 >= x * (1 / 2)) by (apply Rle_ge, Rmult_le_compat_l; lra).
  assert (G : x * (x * D2 + 2 * (t * D2 - T)) >= x * (x * (1 / 2) - 300 * u * M)) by (apply Rle_ge, Rmult_le_compat_l; lra).
  assert (G2 : x * (x * (1 / 2) - 300 * u * M) >= - (1 / 2 * (300 * u * M) * (300 * u * M))). { pose proof (Rle_0_sqr (x - 300 * u * M)) as P. unfold Rsqr in P. lra. }
  assert (1 / 2 * (300 * u * M) * (300 * u * M) <= u * Q) by (unfold Q in * ; lra). lra.
Qed.
End RealPart.
(** ** specification *)
Definition sq (x : R) : R := x * x.
(** squared distance between the sphere's centre and the point of the ray with parameter k *)
Definition dist2 (r : ray b32) (s : sphere b32) (k : R) : R :=
  sq (real (vx (ray_o r)) + k * real (vx (ray_d r)) - real (vx (scenter s))) +
  sq (real (vy (ray_o r)) + k * real (vy (ray_d r)) - real (vy (scenter s))) +
  sq (real (vz (ray_o r)) + k * real (vz (ray_d r)) - real (vz (scenter s))).
Definition radius2 (s : sphere b32) : R := sq (real (sradius s)).
(** finite values of ordinary size and a direction of unit length up to 2^-18, as every normalised direction is (C70_normalize_unit) *)
Definition in_reach (r : ray b32) (s : sphere b32) : Prop :=
  finite3 (ray_o r) /\ finite3 (ray_d r) /\ finite3 (scenter s) /\ fin (sradius s) /\ Rabs (dot3 (ray_d r) (ray_d r) - 1) <= bpow radix2 (-18) /\
  dist2 r s 0 <= bpow radix2 100 /\ radius2 s <= bpow radix2 100.
(** the uncertainty, in squared distance *)
Definition blur (r : ray b32) (s : sphere b32) : R := bpow radix2 (-14) * (dist2 r s 0 + radius2 s + bpow radix2 (-80)).

(** ** the float part *)
Lemma flt_R (x y : b32) : fin x -> fin y -> (flt x y = true <-> real x < real y).
Proof. intros X Y. rewrite flt_X, (fin_X x X), (fin_X y Y). apply xlt_fin. Qed.
Lemma flt_Rf (x y : b32) : fin x -> fin y -> (flt x y = false <-> real y <= real x).
Proof. intros X Y. rewrite flt_X, (fin_X x X), (fin_X y Y). apply xlt_fin_f. Qed.
Lemma sub_w (x y : b32) B : fin x -> fin y -> Rabs (real x - real y) <= B -> B <= bpow radix2 127 -> fin (fsub x y) /\ Rabs (real (fsub x y) - (real x - real y)) <= u * Rabs (real x - real y).
Proof.
  intros FX FY H HB. assert (W : B2X (fsub x y) = Fin (rnd32 (real x - real y))).
  { rewrite fsub_X, (fin_X x FX), (fin_X y FY). apply xrnd_ok. lra. }
  apply fin_of_X in W as [F E]. split; auto. rewrite E. apply rnd_err_add; [apply fmt|apply generic_format_opp, fmt].
Qed.
Lemma add_w (x y : b32) B : fin x -> fin y -> Rabs (real x + real y) <= B -> B <= bpow radix2 127 -> fin (fadd x y) /\ Rabs (real (fadd x y) - (real x + real y)) <= u * Rabs (real x + real y).
Proof.
  intros FX FY H HB. assert (W : B2X (fadd x y) = Fin (rnd32 (real x + real y))).
  { rewrite fadd_X, (fin_X x FX), (fin_X y FY). apply xrnd_ok. lra. }
  apply fin_of_X in W as [F E]. split; auto. rewrite E. apply rnd_err_add; apply fmt.
Qed.
Lemma sqrt_w (x : b32) : fin x -> 0 <= real x -> real x <= bpow radix2 126 -> fin (fsqrt x) /\ 0 <= real (fsqrt x) /\ Rabs (real (fsqrt x) * real (fsqrt x) - real x) <= 2.01 * u * real x.
Proof.
  intros F P B. pose proof (sqrt_pos (real x)) as SP. pose proof (sqrt_sqrt _ P) as SS.
  assert (SB : sqrt (real x) <= bpow radix2 63). { apply Rsqr_incr_0_var; [|apply bpow_ge_0]. unfold Rsqr. rewrite SS, <- bpow_plus. exact B. }
  assert (W : B2X (fsqrt x) = Fin (rnd32 (sqrt (real x)))).
  { rewrite fsqrt_X, (fin_X x F). cbn [xsqrt]. destruct (Rlt_dec (real x) 0); [lra|]. apply xrnd_ok. rewrite Rabs_pos_eq by auto. eapply Rle_trans; [exact SB|]. apply bpow_le. lia. }
  apply fin_of_X in W as [FF E]. split; auto.
  assert (RE : Rabs (rnd32 (sqrt (real x)) - sqrt (real x)) <= u * sqrt (real x)).
  { destruct (Req_dec (real x) 0) as [Z|Z]; [rewrite Z, sqrt_0; pose proof (rnd_err_add 0 0 (generic_format_0 _ _) (generic_format_0 _ _)) as Q; rewrite Rplus_0_r, Rabs_R0 in Q; rewrite u32_val in Q; lra|].
    rewrite <- (Rabs_pos_eq (sqrt (real x))) at 3 by auto. apply rnd_err_rel. rewrite Rabs_pos_eq by auto.
    assert (MIN : bpow radix2 (-149) <= real x).
    { destruct x as [| | |sg m e H0]; try (simpl in Z; lra). destruct sg.
      - exfalso. assert (F2R (Float radix2 (Z.neg m) e) < 0) by (apply F2R_lt_0; easy). simpl in P. simpl in H. unfold SpecFloat.cond_Zopp in P. simpl in P. lra.
      - pose proof (abs_B2R_ge_emin 24 128 (B754_finite false m e H0) eq_refl) as Q. rewrite Rabs_pos_eq in Q by auto. exact Q. }
    apply Rsqr_incr_0_var; auto. unfold Rsqr. rewrite SS, <- bpow_plus. eapply Rle_trans; [|exact MIN]. apply bpow_le. lia. }
  rewrite E. set (g := sqrt (real x)) in * . set (h := rnd32 g) in * . apply Rabs_le_inv in RE.
  split; [lra|]. rewrite <- SS. replace (h * h - g * g) with ((h - g) * (h + g)) by ring. rewrite Rabs_mult. apply Rle_trans with (u * g * (2.01 * g)); [|lra].
  apply Rmult_le_compat; auto using Rabs_pos; apply Rabs_le; lra.
Qed.
Lemma tri (a b c e d : R) : Rabs (a - b) <= e -> Rabs (b - c) <= d -> Rabs (a - c) <= e + d.
Proof. intros H1 H2. replace (a - c) with ((a - b) + (b - c)) by ring. eapply Rle_trans; [apply Rabs_triang|]. lra. Qed.
Definition cdir (r : ray b32) (s : sphere b32) (k : nat) : R :=
  match k with 0%nat => real (vx (scenter s)) - real (vx (ray_o r)) | 1%nat => real (vy (scenter s)) - real (vy (ray_o r)) | _ => real (vz (scenter s)) - real (vz (ray_o r)) end.
Lemma cauchy a b c x y z : (a * x + b * y + c * z) * (a * x + b * y + c * z) <= (a * a + b * b + c * c) * (x * x + y * y + z * z).
Proof. pose proof (Rle_0_sqr (a * y - b * x)). pose proof (Rle_0_sqr (a * z - c * x)). pose proof (Rle_0_sqr (b * z - c * y)). unfold Rsqr in * . lra. Qed.
Theorem C93_ray_sphere : forall (BK : Backend b32) (r : ray b32) (s : sphere b32), in_reach r s ->
  match ray_intersect_sphere r s with
  | (HitNone, _) => forall k, 0 <= k -> radius2 s - blur r s <= dist2 r s k
  | (HitEnter, t) => fin t /\ 0 <= real t /\ Rabs (dist2 r s (real t) - radius2 s) <= blur r s /\ radius2 s - blur r s <= dist2 r s 0 /\
      (forall k, 0 <= k <= real t -> radius2 s - blur r s <= dist2 r s k)
  | (HitLeave, t) => fin t /\ 0 <= real t /\ Rabs (dist2 r s (real t) - radius2 s) <= blur r s /\ dist2 r s 0 <= radius2 s + blur r s /\
      (forall k, real t <= k -> radius2 s - blur r s <= dist2 r s k)
  end.
Proof.
  intros BK r s (FO & FD & FC & FR & HU & HV & HRR).
  destruct FO as (O1 & O2 & O3), FC as (C1 & C2 & C3). pose proof FD as (D1 & D2 & D3).
  set (V1 := cdir r s 0). set (V2 := cdir r s 1). set (V3 := cdir r s 2).
  set (x := real (vx (ray_d r))) in * . set (y := real (vy (ray_d r))) in * . set (z := real (vz (ray_d r))) in * .
  set (VV := V1 * V1 + V2 * V2 + V3 * V3). set (T := V1 * x + V2 * y + V3 * z). set (DD := x * x + y * y + z * z). set (rad := real (sradius s)) in * .
  assert (EF : forall k, dist2 r s k = VV - 2 * k * T + k * k * DD) by (intros k; unfold dist2, sq, VV, T, DD, V1, V2, V3, cdir; fold x y z; ring).
  assert (E0 : dist2 r s 0 = VV) by (rewrite EF; ring).
  assert (ER : radius2 s = rad * rad) by reflexivity.
  set (Q := VV + rad * rad + bpow radix2 (-80)). set (M := sqrt Q).
  pose proof (bpow_gt_0 radix2 (-80)) as P80. assert (V0 : 0 <= VV) by (unfold VV; nra). assert (R0 : 0 <= rad * rad) by nra.
  assert (Q0 : 0 < Q) by (unfold Q; lra). assert (MM : M * M = Q) by (apply sqrt_sqrt; lra). assert (M0 : 0 < M) by (now apply sqrt_lt_R0).
  assert (BL : blur r s = 1024 * u * Q). { unfold blur. rewrite E0, ER. change (bpow radix2 (-14)) with (/ 16384). unfold Q. lra. }
  assert (MB : bpow radix2 (-40) <= M). { apply Rsqr_incr_0_var; [|lra]. unfold Rsqr. rewrite MM, <- bpow_plus. change (-40 + -40)%Z with (-80)%Z. unfold Q. lra. }
  assert (QB : Q <= bpow radix2 102). { rewrite E0 in HV. rewrite ER in HRR. assert (bpow radix2 102 = 4 * bpow radix2 100) by (change 102%Z with (2 + 100)%Z; now rewrite bpow_plus). assert (bpow radix2 (-80) <= bpow radix2 100) by (apply bpow_le; lia). unfold Q. lra. }
  assert (MB2 : M <= bpow radix2 51). { apply Rsqr_incr_0_var; [|apply bpow_ge_0]. unfold Rsqr. rewrite MM, <- bpow_plus. exact QB. }
  assert (T1 : bpow radix2 (-147) <= / 1000 * u * M). { apply Rle_trans with (bpow radix2 (-40) * bpow radix2 (-40)); [rewrite <- bpow_plus; apply bpow_le; lia|]. apply Rle_trans with (bpow radix2 (-40) * M); [apply Rmult_le_compat_l; auto using bpow_ge_0|]. apply Rmult_le_compat_r; [lra|]. simpl. lra. }
  assert (T2 : bpow radix2 (-147) <= / 1000 * u * Q). { apply Rle_trans with (bpow radix2 (-40) * bpow radix2 (-80)); [rewrite <- bpow_plus; apply bpow_le; lia|]. apply Rle_trans with (bpow radix2 (-40) * Q); [apply Rmult_le_compat_l; [apply bpow_ge_0|unfold Q; lra]|]. apply Rmult_le_compat_r; [lra|]. simpl. lra. }
  assert (T3 : eta <= bpow radix2 (-147)) by (apply bpow_le; lia).
  assert (HD : Rabs (DD - 1) <= 64 * u). { unfold dot3, dot2 in HU. fold x y z in HU. change (bpow radix2 (-18)) with (/ 262144) in HU. unfold DD. lra. }
  assert (HT : T * T <= VV * DD) by apply cauchy. assert (HS : VV + rad * rad <= M * M) by (rewrite MM; unfold Q; lra).
  (* components *)
  assert (SQ : forall a b, a * a <= b * b * (M * M) -> 0 <= b -> Rabs a <= b * M) by (intros a b H1 H2; now apply sq_le).
  assert (BD : DD <= 1.0001) by (apply Rabs_le_inv in HD; lra).
  assert (CB : forall a, a * a <= DD -> Rabs a <= 1.001). { intros a H. rewrite <- (Rabs_pos_eq 1.001) by lra. apply Rsqr_le_abs_0. unfold Rsqr. lra. }
  pose proof (CB x ltac:(unfold DD; nra)) as Bx. pose proof (CB y ltac:(unfold DD; nra)) as By. pose proof (CB z ltac:(unfold DD; nra)) as Bz.
  assert (VB : forall a, a * a <= VV -> Rabs a <= M). { intros a H. rewrite <- (Rmult_1_l M). apply SQ; [|lra]. rewrite MM. unfold Q. lra. }
  pose proof (VB V1 ltac:(unfold VV; nra)) as B1. pose proof (VB V2 ltac:(unfold VV; nra)) as B2. pose proof (VB V3 ltac:(unfold VV; nra)) as B3.
  assert (P127 : bpow radix2 51 <= bpow radix2 127) by (apply bpow_le; lia).
  unfold ray_intersect_sphere.
  set (w := vec3_subtract (scenter s) (ray_o r)).
  destruct (sub_w (vx (scenter s)) (vx (ray_o r)) M C1 O1 B1 ltac:(lra)) as [F1 E1]. destruct (sub_w (vy (scenter s)) (vy (ray_o r)) M C2 O2 B2 ltac:(lra)) as [F2 E2]. destruct (sub_w (vz (scenter s)) (vz (ray_o r)) M C3 O3 B3 ltac:(lra)) as [F3 E3].
  change (fsub (vx (scenter s)) (vx (ray_o r))) with (vx w) in * . change (fsub (vy (scenter s)) (vy (ray_o r))) with (vy w) in * . change (fsub (vz (scenter s)) (vz (ray_o r))) with (vz w) in * .
  change (real (vx (scenter s)) - real (vx (ray_o r))) with V1 in E1. change (real (vy (scenter s)) - real (vy (ray_o r))) with V2 in E2. change (real (vz (scenter s)) - real (vz (ray_o r))) with V3 in E3.
  assert (FW : finite3 w) by (split; [exact F1|split; [exact F2|exact F3]]).
  set (w1 := real (vx w)) in * . set (w2 := real (vy w)) in * . set (w3 := real (vz w)) in * .
  assert (WB : forall w V, Rabs (w - V) <= u * Rabs V -> Rabs V <= M -> Rabs w <= 1.001 * M /\ Rabs (w * w - V * V) <= 2.01 * u * (V * V) /\ w * w <= 1.001 * (V * V)).
  { intros w0 v0 H1 H2. assert (A : Rabs w0 <= (1 + u) * Rabs v0) by (replace w0 with ((w0 - v0) + v0) by ring; eapply Rle_trans; [apply Rabs_triang|]; lra).
    assert (X : Rabs (w0 * w0 - v0 * v0) <= 2.01 * u * (v0 * v0)).
    { replace (w0 * w0 - v0 * v0) with ((w0 - v0) * (w0 + v0)) by ring. rewrite Rabs_mult. replace (2.01 * u * (v0 * v0)) with (u * Rabs v0 * (2.01 * Rabs v0)).
      - apply Rmult_le_compat; auto using Rabs_pos. eapply Rle_trans; [apply Rabs_triang|]. pose proof (Rabs_pos v0). lra.
      - replace (v0 * v0) with (Rabs v0 * Rabs v0); [ring|]. rewrite <- Rabs_mult. apply Rabs_pos_eq, Rle_0_sqr. }
    split; [pose proof (Rabs_pos v0); lra|]. split; [exact X|]. apply Rabs_le_inv in X. pose proof (Rle_0_sqr v0) as Z. unfold Rsqr in Z. lra. }
  destruct (WB _ _ E1 B1) as (W1 & X1 & Y1). destruct (WB _ _ E2 B2) as (W2 & X2 & Y2). destruct (WB _ _ E3 B3) as (W3 & X3 & Y3).
  assert (PM : forall a b A B, Rabs a <= A -> Rabs b <= B -> Rabs (a * b) <= A * B) by (intros; rewrite Rabs_mult; apply Rmult_le_compat; auto using Rabs_pos).
  (* tca *)
  assert (AD : adot3 w (ray_d r) <= 3.01 * M).
  { unfold adot3, adot2. fold w1 w2 w3 x y z. pose proof (PM _ _ _ _ W1 Bx). pose proof (PM _ _ _ _ W2 By). pose proof (PM _ _ _ _ W3 Bz). lra. }
  destruct (C70_dot3 BK w (ray_d r) FW FD) as [FT ET].
  { eapply Rle_trans; [exact AD|]. apply Rle_trans with (bpow radix2 2 * bpow radix2 51); [simpl (bpow radix2 2); lra|]. rewrite <- bpow_plus. apply bpow_le. lia. }
  set (tca := vec3_dot w (ray_d r)) in * .
  assert (HA : Rabs (real tca - T) <= 16 * u * M).
  { unfold tol in ET. change (bpow radix2 (-22)) with (/ 4194304) in ET.
    assert (DW : Rabs (dot3 w (ray_d r) - T) <= 3.01 * u * M).
    { unfold dot3, dot2, T. fold w1 w2 w3 x y z. replace (_ - _) with ((w1 - V1) * x + (w2 - V2) * y + (w3 - V3) * z) by ring.
      assert (U : forall a v, Rabs (a - v) <= u * Rabs v -> Rabs v <= M -> Rabs (a - v) <= u * M) by (intros; eapply Rle_trans; [eassumption|]; lra).
      pose proof (PM _ _ _ _ (U _ _ E1 B1) Bx) as A1. pose proof (PM _ _ _ _ (U _ _ E2 B2) By) as A2. pose proof (PM _ _ _ _ (U _ _ E3 B3) Bz) as A3.
      apply Rabs_le_inv in A1, A2, A3. apply Rabs_le. lra. }
    eapply Rle_trans; [exact (tri _ _ _ _ _ ET DW)|]. lra. }
  set (a := real tca) in * .
  pose proof (T_b VV T DD rad M V0 M0 HS HT HD) as TB. pose proof (a_b VV T DD rad M a V0 M0 HS HT HD HA) as AB. pose proof (aa_TT VV T DD rad M a V0 M0 HS HT HD HA) as AT. pose proof (TT_b VV T DD rad M V0 M0 HS HT HD) as TTB. rewrite MM in AT, TTB.
  (* |v|^2 *)
  assert (AV : adot3 w w <= 1.001 * Q).
  { unfold adot3, adot2. fold w1 w2 w3. rewrite !Rabs_pos_eq by apply Rle_0_sqr. unfold Q. unfold VV in * . lra. }
  destruct (C70_dot3 BK w w FW FW) as [FV EV].
  { eapply Rle_trans; [exact AV|]. apply Rle_trans with (bpow radix2 1 * bpow radix2 102); [simpl (bpow radix2 1); lra|]. rewrite <- bpow_plus. apply bpow_le. lia. }
  set (vv := vec3_dot w w) in * .
  assert (EVV : Rabs (real vv - VV) <= 7 * u * Q).
  { unfold tol in EV. change (bpow radix2 (-22)) with (/ 4194304) in EV.
    assert (DW : Rabs (dot3 w w - VV) <= 2.01 * u * Q).
    { unfold dot3, dot2. fold w1 w2 w3. apply Rabs_le_inv in X1, X2, X3. apply Rabs_le. unfold Q, VV in * . lra. }
    eapply Rle_trans; [exact (tri _ _ _ _ _ EV DW)|]. lra. }
  (* tca^2 *)
  assert (AA : a * a <= 1.001 * Q) by (apply Rabs_le_inv in AT; lra).
  assert (P102 : 16 * bpow radix2 102 <= bpow radix2 126) by (change 16 with (bpow radix2 4); rewrite <- bpow_plus; apply bpow_le; lia).
  assert (P126 : bpow radix2 126 <= bpow radix2 127) by (apply bpow_le; lia). pose proof (bpow_gt_0 radix2 102) as P0.
  destruct (ap_fin _ _ _ (ap_mul0 tca tca FT FT ltac:(fold a; rewrite Rabs_pos_eq by apply Rle_0_sqr; lra))) as [FA EA]. fold a in EA. rewrite (Rabs_pos_eq (a * a)), u32_val in EA by apply Rle_0_sqr.
  set (ta := fmul tca tca) in * . assert (ETA : Rabs (real ta - T * T) <= 35 * u * Q) by (eapply Rle_trans; [exact (tri _ _ _ _ _ EA AT)|]; lra).
  (* d2 *)
  assert (VT : Rabs (VV - T * T) <= 1.0001 * Q). { assert (0 <= T * T) by apply Rle_0_sqr. apply Rabs_le. unfold Q in * . lra. }
  assert (BD2 : Rabs (real vv - real ta) <= 1.01 * Q). { apply Rabs_le_inv in VT, ETA, EVV. apply Rabs_le. lra. }
  destruct (sub_w vv ta _ FV FA BD2 ltac:(lra)) as [FD2 ED2]. set (d2 := fsub vv ta) in * .
  assert (HD2 : Rabs (real d2 - (VV - T * T)) <= 44 * u * Q). { apply Rabs_le_inv in ED2, ETA, EVV. apply Rabs_le. lra. }
  (* r2 *)
  assert (RRQ : rad * rad <= Q) by (unfold Q; lra).
  destruct (ap_fin _ _ _ (ap_mul0 (sradius s) (sradius s) FR FR ltac:(fold rad; rewrite Rabs_pos_eq by apply Rle_0_sqr; lra))) as [FR2 ER2]. fold rad in ER2. rewrite (Rabs_pos_eq (rad * rad)), u32_val in ER2 by apply Rle_0_sqr.
  set (r2 := fmul (sradius s) (sradius s)) in * .
  assert (HR2 : Rabs (real r2 - rad * rad) <= 1.01 * u * Q) by lra.
  rewrite BL, ER.
  destruct (flt r2 d2) eqn:C.
  { apply flt_R in C; auto. intros k K. rewrite EF. assert (G : rad * rad - VV + T * T <= 46 * u * (M * M)). { rewrite MM. apply Rabs_le_inv in HD2, HR2. lra. }
    pose proof (miss_far VV T DD rad M M0 HS HT HD G k) as L. rewrite MM in L. lra. }
  apply flt_Rf in C; auto.
  assert (BG : Rabs (real r2 - real d2) <= 2.1 * Q). { apply Rabs_le_inv in HD2, HR2, VT. apply Rabs_le. lra. }
  destruct (sub_w r2 d2 _ FR2 FD2 BG ltac:(lra)) as [FG EG]. set (g := fsub r2 d2) in * .
  assert (HG : Rabs (real g - (rad * rad - VV + T * T)) <= 48 * u * Q). { apply Rabs_le_inv in EG, HD2, HR2. apply Rabs_le. lra. }
  assert (G0 : 0 <= real g). { assert (Z : 0 <= real r2 - real d2) by lra. rewrite (Rabs_pos_eq _ Z) in EG. apply Rabs_le_inv in EG. lra. }
  assert (G1 : real g <= 1.01 * Q). { apply Rabs_le_inv in HG. assert (VV * DD <= VV * 1.0001) by (apply Rmult_le_compat_l; lra). assert (VV <= Q) by (unfold Q; lra). unfold Q in * ; lra. }
  destruct (sqrt_w g FG G0 ltac:(lra)) as (FH & H0 & EH). set (thc := fsqrt g) in * . set (h := real thc) in * .
  assert (HH : Rabs (h * h - (rad * rad - VV + T * T)) <= 53 * u * (M * M)).
  { rewrite MM. eapply Rle_trans; [exact (tri _ _ _ _ _ EH HG)|]. lra. }
  pose proof (h_b VV T DD rad M h V0 M0 HS HT HD H0 HH) as HB.
  assert (BS : Rabs (a - h) <= 2.01 * M) by (apply Rabs_le_inv in AB; apply Rabs_le; lra). assert (BA : Rabs (a + h) <= 2.01 * M) by (apply Rabs_le_inv in AB; apply Rabs_le; lra).
  assert (M127 : 2.01 * M <= bpow radix2 127). { apply Rle_trans with (bpow radix2 2 * bpow radix2 51); [simpl (bpow radix2 2); lra|]. rewrite <- bpow_plus. apply bpow_le. lia. }
  destruct (sub_w tca thc _ FT FH BS M127) as [F0 EE0]. destruct (add_w tca thc _ FT FH BA M127) as [FF1 EE1]. fold a h in EE0, EE1.
  set (t0 := fsub tca thc) in * . set (t1 := fadd tca thc) in * .
  assert (SG : forall t b : R, Rabs (t - b) <= u * Rabs b -> (t < 0 -> b < 0) /\ (0 <= t -> 0 <= b)).
  { intros t b H. split; intros K; destruct (Rle_or_lt 0 b) as [L|L]; auto; [rewrite (Rabs_pos_eq b) in H by auto|rewrite (Rabs_left b) in H by auto]; apply Rabs_le_inv in H; lra. }
  destruct (SG _ _ EE0) as [S1 S2]. destruct (SG _ _ EE1) as [S3 S4].
  assert (N0 : Rabs (real t0 - (a + -1 * h)) <= 3 * u * M) by (replace (a + -1 * h) with (a - h) by ring; lra).
  assert (N1 : Rabs (real t1 - (a + 1 * h)) <= 3 * u * M) by (replace (a + 1 * h) with (a + h) by ring; lra).
  assert (FZ : fin (fzero : b32)) by reflexivity. assert (RZ : real (fzero : b32) = 0) by reflexivity.
  destruct (flt t0 fzero) eqn:Z0.
  - apply flt_R in Z0; auto. rewrite RZ in Z0. destruct (flt t1 fzero) eqn:Z1; cbn [andb].
    + apply flt_R in Z1; auto. rewrite RZ in Z1. intros k K. rewrite EF. pose proof (behind VV T DD rad M a h V0 M0 HS HT HD HA H0 HH (S3 Z1) k K) as L. rewrite MM in L. lra.
    + apply flt_Rf in Z1; auto. rewrite RZ in Z1. split; auto. split; auto. rewrite !EF.
      pose proof (surface VV T DD rad M a h V0 M0 HS HT HD HA H0 HH (real t1) 1 ltac:(auto) N1) as L1. rewrite MM in L1.
      split; [lra|]. split.
      * pose proof (inside VV T DD rad M a h V0 M0 HS HT HD HA HH ltac:(specialize (S1 Z0); lra) ltac:(specialize (S4 Z1); lra)) as L2. rewrite MM in L2. lra.
      * intros k K. rewrite EF. pose proof (after VV T DD rad M a h V0 M0 HS HT HD HA H0 HH (real t1) 1 ltac:(auto) N1 eq_refl Z1 k K) as L3. rewrite MM in L3. lra.
  - apply flt_Rf in Z0; auto. rewrite RZ in Z0. cbn [andb]. split; auto. split; auto. rewrite !EF.
    pose proof (surface VV T DD rad M a h V0 M0 HS HT HD HA H0 HH (real t0) (-1) ltac:(auto) N0) as L1. rewrite MM in L1.
    split; [lra|]. split.
    + pose proof (outside VV T DD rad M a h V0 M0 HS HT HD HA H0 HH ltac:(specialize (S2 Z0); lra)) as L2. rewrite MM in L2. lra.
    + intros k K. rewrite EF. pose proof (before VV T DD rad M a h V0 M0 HS HT HD HA H0 HH (real t0) (-1) ltac:(auto) N0 eq_refl Z0 k K) as L3. rewrite MM in L3. lra.
Qed.
(** a ray with a point well inside the sphere is reported, one that stays well outside is not *)
Theorem C93_sure_hit : forall (BK : Backend b32) (r : ray b32) (s : sphere b32), in_reach r s ->
  (exists k, 0 <= k /\ dist2 r s k < radius2 s - blur r s) -> ray_intersects_sphere r s = true.
Proof.
  intros BK r s H (k & K & L). pose proof (C93_ray_sphere BK r s H) as Q. unfold ray_intersects_sphere. destruct (ray_intersect_sphere r s) as [[] t]; cbn [fst hit_any]; auto. specialize (Q k K). lra.
Qed.
Theorem C93_sure_miss : forall (BK : Backend b32) (r : ray b32) (s : sphere b32), in_reach r s ->
  (forall k, 0 <= k -> radius2 s + blur r s < dist2 r s k) -> ray_intersects_sphere r s = false.
Proof.
  intros BK r s H L. pose proof (C93_ray_sphere BK r s H) as Q. unfold ray_intersects_sphere. destruct (ray_intersect_sphere r s) as [[] t]; cbn [fst hit_any]; auto; destruct Q as (_ & P & S & _); specialize (L _ P); apply Rabs_le_inv in S; lra.
Qed.
(** every ray built by the constructor from a finite origin and a direction of ordinary length has such a direction *)
Theorem C93_ray_init : forall (BK : Backend b32) (o : point3d b32) (d : V), estimates_ok BK -> finite3 d -> normal_range BK (dot3 d d) ->
  let r := ray_init (Some o) (Some d) in finite3 (ray_d r) /\ Rabs (dot3 (ray_d r) (ray_d r) - 1) <= bpow radix2 (-18).
Proof. intros BK o d HB F N r. destruct (C70_normalize_unit BK d HB) as (_ & H & _). exact (H F N). Qed.
(** ** non-vacuity: a ray along (0.6, 0.8, 0) and a sphere of radius 2 in front of it *)
Example C93_ex : forall BK : Backend b32, let r := Ry (vec3_init (lit 1 0) (lit 2 0) (lit 3 0)) (vec3_init (flit 10066330 (-24)) (flit 13421773 (-24)) fzero) in
  let s := Sp (vec3_init (lit 7 0) (lit 10 0) (lit 4 0)) (lit 2 0) in
  in_reach r s /\ exists k, 0 <= k /\ dist2 r s k < radius2 s - blur r s.
Proof.
  intros BK r s. assert (Z : real (fzero : b32) = 0) by reflexivity.
  destruct (lit_real 1 0) as [F1 R1]; try lia. destruct (lit_real 2 0) as [F2 R2]; try lia. destruct (lit_real 3 0) as [F3 R3]; try lia. destruct (lit_real 7 0) as [F7 R7]; try lia. destruct (lit_real 10 0) as [F10 R10]; try lia. destruct (lit_real 4 0) as [F4 R4]; try lia.
  destruct (lit_real 10066330 (-24)) as [Fa Ra]; try lia. destruct (lit_real 13421773 (-24)) as [Fb Rb]; try lia.
  simpl (bpow radix2 0) in * . change (bpow radix2 (-24)) with u in Ra, Rb.
  assert (E : forall k, dist2 r s k = sq (k * (10066330 * u) - 6) + sq (k * (13421773 * u) - 8) + 1).
  { intros k. unfold dist2, r, s, vec3_init, g_init; cbn [ray_o ray_d scenter vx vy vz]. unfold lit. rewrite R1, R2, R3, R7, R10, R4, Ra, Rb, Z. unfold sq. ring. }
  assert (ER : radius2 s = 4) by (unfold radius2, s; cbn [sradius]; unfold lit; rewrite R2; unfold sq; ring).
  assert (P : 1024 <= bpow radix2 100) by (change 1024 with (bpow radix2 10); apply bpow_le; lia).
  split.
  - split; [|split; [|split; [|split; [|split; [|split]]]]].
    + split; [exact F1|split; [exact F2|exact F3]].
    + split; [exact Fa|split; [exact Fb|reflexivity]].
    + split; [exact F7|split; [exact F10|exact F4]].
    + exact F2.
    + unfold dot3, dot2, r, vec3_init, g_init; cbn [ray_d vx vy vz]. rewrite Ra, Rb, Z. change (bpow radix2 (-18)) with (/ 262144). apply Rabs_le. lra.
    + rewrite E. unfold sq. lra.
    + rewrite ER. lra.
  - exists 10. split; [lra|]. unfold blur. rewrite !E, ER. assert (bpow radix2 (-80) <= 1) by (change 1 with (bpow radix2 0); apply bpow_le; lia). change (bpow radix2 (-14)) with (/ 16384). unfold sq. lra.
Qed.
