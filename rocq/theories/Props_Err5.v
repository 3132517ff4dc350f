(** * Props_Err5: rounding errors of interpolation, ray points, quaternions and determinants (C81). *)
From Coq Require Import ZArith Reals Bool List Lra Lia Psatz.
From Flocq Require Import Core BinarySingleNaN.
From Verif Require Import Num Simd Vec Rect Box Mat Geo Quat OrdThy FloatThy B32Setup FloatLem ErrThy Props_Err Props_Err2 Props_Err3 ErrEx.
Import ListNotations.
Local Open Scope R_scope.

(** finite and at most 2^k in absolute value *)
Definition upto (k : Z) (x : b32) : Prop := fin x /\ Rabs (real x) <= bpow radix2 k.
Definition upto3 (k : Z) (v : V) : Prop := upto k (vx v) /\ upto k (vy v) /\ upto k (vz v).
Definition upto4 (k : Z) (v : V) : Prop := upto3 k v /\ upto k (vw v).
Definition uptoq (k : Z) (q : quat b32) : Prop := upto k (qx q) /\ upto k (qy q) /\ upto k (qz q) /\ upto k (qw q).

(** [n] units of 2^-24 relative to the sum [s] of absolute values, plus a tiny absolute term for underflow *)
Definition slack (n s : R) (tiny : Z) : R := n * bpow radix2 (-24) * s + bpow radix2 tiny.

Lemma one_real : real fone = 1. Proof. apply fin_of_X, fone_X. Qed.
Lemma one_upto k : (0 <= k)%Z -> upto k fone.
Proof. intros H. split; [apply fin_of_X with 1; apply fone_X|]. rewrite one_real, Rabs_R1. change 1 with (bpow radix2 0). now apply bpow_le. Qed.
(** turn a closed bound into a slack *)
Lemma to_slack k fused x n s tiny t : (0 <= k)%Z -> let e := ds x in leaves (le_B (bpow radix2 k)) e -> (dep e <= 64)%nat -> (wt e <= 2 ^ 100)%Z ->
  (2 + Z.log2_up (tm e) + k * Z.of_nat (dg e) <= 127)%Z -> INR (dep e) + / 4 <= n -> aev e = s -> rev e = t ->
  (-149 + Z.log2_up (wt e) + k * Z.of_nat (dg e - 2) <= tiny)%Z -> within (slack n s tiny) (xev fused x) t.
Proof.
  intros K e HL D W OV HN <- <- TN.
  assert (PW : forall m, bpow radix2 k ^ m = bpow radix2 (k * Z.of_nat m)).
  { induction m as [|m IH]; [now rewrite Z.mul_0_r|]. cbn [pow]. rewrite IH, <- bpow_plus. f_equal. lia. }
  assert (LG : forall z, (1 <= z)%Z -> IZR z <= bpow radix2 (Z.log2_up z)).
  { intros z Hz. rewrite <- IZR_Zpower by apply Z.log2_up_nonneg. apply IZR_le. destruct (Z.eq_dec z 1) as [->|N1]; [cbn; lia|].
    pose proof (Z.log2_up_spec z ltac:(lia)) as [_ U]. exact U. }
  assert (KB : 1 <= bpow radix2 k) by (change 1 with (bpow radix2 0); now apply bpow_le).
  destruct (err_closed (bpow radix2 k) fused x KB HL D W) as [F Q].
  - fold e. rewrite PW. pose proof (LG _ (tm_pos e)) as T. apply Rle_trans with (bpow radix2 2 * bpow radix2 (Z.log2_up (tm e)) * bpow radix2 (k * Z.of_nat (dg e))).
    + apply Rmult_le_compat_r; [apply bpow_ge_0|]. change (bpow radix2 2) with 4. lra.
    + rewrite <- !bpow_plus. apply bpow_le. lia.
  - split; auto. eapply Rle_trans; [exact Q|]. fold e. unfold slack. apply Rplus_le_compat.
    + apply Rmult_le_compat_r; [apply aev_pos|]. apply Rmult_le_compat_r; [apply bpow_ge_0|auto].
    + pose proof (wt_pos e). destruct (Z.eq_dec (wt e) 0) as [->|Nw]; [replace (2 * eta * 0 * bpow radix2 k ^ (dg e - 2)) with 0 by ring; apply bpow_ge_0|].
      rewrite PW. pose proof (LG (wt e) ltac:(lia)) as T.
      apply Rle_trans with (bpow radix2 1 * eta * bpow radix2 (Z.log2_up (wt e)) * bpow radix2 (k * Z.of_nat (dg e - 2))).
      * apply Rmult_le_compat_r; [apply bpow_ge_0|]. apply Rmult_le_compat_l; [|exact T]. change (bpow radix2 1) with 2. pose proof eta_pos. lra.
      * rewrite <- !bpow_plus. apply bpow_le. lia.
Qed.
Ltac tslack k fm x := apply (to_slack k fm x); cbn [ds leaves rev aev dep dg tm wt Nat.max Nat.add]; unfold le_B; auto using one_upto;
  try (repeat split; first [apply one_upto; lia|unfold upto in * ; tauto|auto]); try (cbn; lra); try lia; try (vm_compute; congruence); rewrite ?one_real, ?Rabs_R1; try reflexivity; try ring.

(** ** linear interpolation of vectors *)
Lemma d2f_ap (f : b64) T : B2X f = Fin T -> Rabs T <= bpow radix2 126 -> ap (d2f f) T (bpow radix2 (-24) * Rabs T + eta).
Proof. intros E H. exists (rnd32 T). split; [rewrite d2f_X, E; apply xrnd_ok; bp 126%Z 127%Z; lra|apply rnd_err]. Qed.
Definition lerp (t a b : R) : R := (1 - t) * a + t * b.
Lemma lerp_lane (f a b : b32) : upto 60 f -> upto 60 a -> upto 60 b ->
  within (slack 3.25 ((1 + Rabs (real f)) * Rabs (real a) + Rabs (real f) * Rabs (real b)) (-147)) (fadd (fmul (fsub fone f) a) (fmul f b)) (lerp (real f) (real a) (real b)).
Proof.
  intros F A B. tslack 60%Z false (XP (XM (XS (XL fone) (XL f)) (XL a)) (XM (XL f) (XL b))).
Qed.
Lemma interp_lane (f : b64) (a b : b32) T : B2X f = Fin T -> Rabs T <= bpow radix2 59 -> upto 60 a -> upto 60 b ->
  within (slack 5 ((1 + Rabs T) * Rabs (real a) + Rabs T * Rabs (real b)) (-85)) (fadd (fmul (fsub fone (d2f f)) a) (fmul (d2f f) b)) (lerp T (real a) (real b)).
Proof.
  intros E HT A B. destruct (ap_fin _ _ _ (d2f_ap f T E ltac:(bp 59%Z 126%Z; lra))) as [FF LF]. set (t := d2f f) in * .
  pose proof (Rabs_pos T) as PT. pose proof eta_pos as Et. assert (Es : eta <= 1) by (change 1 with (bpow radix2 0); apply bpow_le; lia).
  assert (TT : Rabs (real t) <= Rabs T + bpow radix2 (-24) * Rabs T + eta).
  { replace (real t) with ((real t - T) + T) by ring. eapply Rle_trans; [apply Rabs_triang|]. lra. }
  assert (E60 : bpow radix2 60 = 2 * bpow radix2 59) by (change 60%Z with (1 + 59)%Z; now rewrite bpow_plus).
  assert (B59 : 4 <= bpow radix2 59) by (change 4 with (bpow radix2 2); apply bpow_le; lia).
  assert (Ft : upto 60 t). { split; auto. rewrite u32_val in * . lra. }
  destruct (lerp_lane t a b Ft A B) as [F L]. split; auto.
  destruct A as [Fa A], B as [Fb B]. set (x := real a) in * . set (y := real b) in * . set (s := real t) in * .
  replace (real (fadd (fmul (fsub fone t) a) (fmul t b)) - lerp T x y) with ((real (fadd (fmul (fsub fone t) a) (fmul t b)) - lerp s x y) + (s - T) * (y - x)) by (unfold lerp; ring).
  eapply Rle_trans; [apply Rabs_triang|]. rewrite Rabs_mult.
  assert (YX : Rabs (y - x) <= Rabs y + Rabs x) by (unfold Rminus; eapply Rle_trans; [apply Rabs_triang|]; rewrite Rabs_Ropp; lra).
  assert (D : Rabs (s - T) * Rabs (y - x) <= (bpow radix2 (-24) * Rabs T + eta) * (Rabs y + Rabs x)) by (apply Rmult_le_compat; auto using Rabs_pos).
  unfold slack in * . pose proof (Rabs_pos x). pose proof (Rabs_pos y).
  set (X := Rabs x) in * . set (Y := Rabs y) in * . set (TA := Rabs T) in * . set (SA := Rabs s) in * .
  assert (M1 : (1 + SA) * X + SA * Y <= (1 + TA) * X + TA * Y + (bpow radix2 (-24) * TA + eta) * (X + Y)) by nra.
  assert (EX : eta * (X + Y) <= bpow radix2 (-89)).
  { apply Rle_trans with (eta * bpow radix2 61). { apply Rmult_le_compat_l; [lra|]. replace (bpow radix2 61) with (2 * bpow radix2 60) by (change 61%Z with (1 + 60)%Z; now rewrite bpow_plus). lra. }
    rewrite <- bpow_plus. apply bpow_le. lia. }
  assert (E1 : bpow radix2 (-89) * 16 = bpow radix2 (-85)) by (change (-85)%Z with (-89 + 4)%Z; now rewrite bpow_plus).
  assert (E2 : bpow radix2 (-147) <= bpow radix2 (-89)) by (apply bpow_le; lia). pose proof (bpow_gt_0 radix2 (-89)).
  rewrite u32_val in * . assert (0 <= TA * X) by nra. assert (0 <= TA * Y) by nra. lra.
Qed.
(** graphene_vec{2,3,4}_interpolate: a few units in the last place of (1-t)a and tb, for any factor *)
Theorem C81_vec_interpolate : forall (BK : Backend b32) (a b : V) (f : b64) (T : R) (i : nat), B2X f = Fin T -> Rabs T <= bpow radix2 59 -> (i < 4)%nat ->
  upto 60 (g_get a i) -> upto 60 (g_get b i) ->
  let ok := fun v : V => within (slack 5 ((1 + Rabs T) * Rabs (comp a i) + Rabs T * Rabs (comp b i)) (-85)) (g_get v i) (lerp T (comp a i) (comp b i)) in
  ok (vec2_interpolate a b f) /\ ok (vec3_interpolate a b f) /\ ok (vec4_interpolate a b f).
Proof.
  intros BK a b f T i E HT Hi A B ok.
  assert (Q : ok (g_interpolate a b (d2f f))). { unfold ok, comp in * . do 4 (destruct i as [|i]; [now apply interp_lane|]). lia. }
  split; [|split]; exact Q.
Qed.

(** ** points on a ray *)
Theorem C81_ray_position : forall (BK : Backend b32) (r : ray b32) (t : b32), upto3 60 (ray_o r) -> upto3 60 (ray_d r) -> upto 60 t ->
  let p := ray_get_position_at r t in
  let ok := fun (c : b32) (o d : b32) => within (slack 3 (Rabs (real t * real d) + Rabs (real o)) (-148)) c (real o + real t * real d) in
  ok (p3x p) (vx (ray_o r)) (vx (ray_d r)) /\ ok (p3y p) (vy (ray_o r)) (vy (ray_d r)) /\ ok (p3z p) (vz (ray_o r)) (vz (ray_d r)).
Proof.
  intros BK r t (O1 & O2 & O3) (D1 & D2 & D3) Ht p ok.
  assert (Q : forall o d : b32, upto 60 o -> upto 60 d -> ok (fadd (fmul d t) o) o d).
  { intros o d Ho Hd. unfold ok. tslack 60%Z false (XP (XM (XL d) (XL t)) (XL o)). rewrite Rabs_mult. ring. }
  split; [|split]; apply Q; auto.
Qed.

(** ** quaternion products and rotation matrices *)
Theorem C81_quaternion_multiply : forall (a b : quat b32), uptoq 60 a -> uptoq 60 b ->
  let q := quaternion_multiply a b in
  let ax := real (qx a) in let ay := real (qy a) in let az := real (qz a) in let aw := real (qw a) in
  let bx := real (qx b) in let by_ := real (qy b) in let bz := real (qz b) in let bw := real (qw b) in
  let ok := fun (r : b32) p1 p2 p3 p4 => within (slack 5 (Rabs p1 + Rabs p2 + Rabs p3 + Rabs p4) (-146)) r (p1 + p2 + p3 - p4) in
  ok (qx q) (ax * bw) (aw * bx) (ay * bz) (az * by_) /\
  ok (qy q) (ay * bw) (aw * by_) (az * bx) (ax * bz) /\
  ok (qz q) (az * bw) (aw * bz) (ax * by_) (ay * bx) /\
  within (slack 5 (Rabs (aw * bw) + Rabs (ax * bx) + Rabs (ay * by_) + Rabs (az * bz)) (-146)) (qw q) (aw * bw - ax * bx - ay * by_ - az * bz).
Proof.
  intros a b (A1 & A2 & A3 & A4) (B1 & B2 & B3 & B4) q ax ay az aw bx by_ bz bw ok.
  assert (Q : forall p1 p2 p3 p4 q1 q2 q3 q4 : b32, upto 60 p1 -> upto 60 p2 -> upto 60 p3 -> upto 60 p4 -> upto 60 q1 -> upto 60 q2 -> upto 60 q3 -> upto 60 q4 ->
    ok (fsub (fadd (fadd (fmul p1 q1) (fmul p2 q2)) (fmul p3 q3)) (fmul p4 q4)) (real p1 * real q1) (real p2 * real q2) (real p3 * real q3) (real p4 * real q4)).
  { intros p1 p2 p3 p4 q1 q2 q3 q4 P1 P2 P3 P4 Q1 Q2 Q3 Q4. unfold ok.
    tslack 60%Z false (XS (XP (XP (XM (XL p1) (XL q1)) (XM (XL p2) (XL q2))) (XM (XL p3) (XL q3))) (XM (XL p4) (XL q4))). now rewrite !Rabs_mult. }
  split; [apply Q; auto|]. split; [apply Q; auto|]. split; [apply Q; auto|].
  tslack 60%Z false (XS (XS (XS (XM (XL (qw a)) (XL (qw b))) (XM (XL (qx a)) (XL (qx b)))) (XM (XL (qy a)) (XL (qy b)))) (XM (XL (qz a)) (XL (qz b)))). now rewrite !Rabs_mult.
Qed.

(** ** non-vacuity *)
Example C81_upto_ex : let a : quat b32 := Qt (flit 3 (-2)) (flit (-5) 3) fone (flit 7 1) in uptoq 60 a /\ upto3 60 (V4 fone (flit 3 (-2)) (flit (-5) 3) fone).
Proof.
  assert (U : forall x : b32, is_finite x = true -> Rle_bool (Rabs (B2R x)) (bpow radix2 60) = true -> upto 60 x) by (intros x F H; split; [exact F|]; revert H; case Rle_bool_spec; auto; discriminate).
  assert (L3 : upto 60 (flit 3 (-2))). { split; [vm_compute; reflexivity|]. change (real (flit 3 (-2))) with (F2R (Float radix2 12582912 (-24))). unfold F2R; cbn -[bpow]. bp 10%Z 60%Z. change (bpow radix2 (-24)) with (/ 16777216). change (bpow radix2 10) with 1024 in * . rewrite Rabs_pos_eq; lra. }
  assert (L5 : upto 60 (flit (-5) 3)). { split; [vm_compute; reflexivity|]. change (real (flit (-5) 3)) with (F2R (Float radix2 (-10485760) (-18))). unfold F2R; cbn -[bpow]. bp 10%Z 60%Z. change (bpow radix2 (-18)) with (/ 262144). change (bpow radix2 10) with 1024 in * . rewrite Rabs_left; lra. }
  assert (L7 : upto 60 (flit 7 1)). { split; [vm_compute; reflexivity|]. change (real (flit 7 1)) with (F2R (Float radix2 14680064 (-20))). unfold F2R; cbn -[bpow]. bp 10%Z 60%Z. change (bpow radix2 (-20)) with (/ 1048576). change (bpow radix2 10) with 1024 in * . rewrite Rabs_pos_eq; lra. }
  pose proof (one_upto 60 ltac:(lia)). unfold uptoq, upto3; cbn [qx qy qz qw vx vy vz]. tauto.
Qed.
