(** * Props_Err4: rounding errors of cross products, distances, plane distances and box centres (C70). *)
From Coq Require Import ZArith Reals Bool List Lra Lia Psatz.
From Flocq Require Import Core BinarySingleNaN.
From Verif Require Import Num Simd Vec Rect Box Mat Geo OrdThy FloatThy B32Setup FloatLem ErrThy Props_Err Props_Err2 Props_Err3.
Import ListNotations.
Local Open Scope R_scope.

(** ** the cross product *)
Lemma diff2 (a b c d : b32) : fin a -> fin b -> fin c -> fin d ->
  let s := Rabs (real a * real b) + Rabs (real c * real d) in s <= bpow radix2 126 ->
  within (tol s) (fsub (fmul a b) (fmul c d)) (real a * real b - real c * real d).
Proof.
  intros Fa Fb Fc Fd s H. unfold tol, s in * . pose proof (Rabs_triang (real a * real b) (- (real c * real d))) as T. rewrite Rabs_Ropp in T. absfacts. facts.
  eapply ap_within; [eapply ap_sub; [apply ap_mul0; auto; lra|apply ap_mul0; auto; lra| |]|].
  - apply Rle_refl.
  - unfold Rminus in * . rewrite u32_val in * . lra.
  - unfold Rminus in * . rewrite u32_val in * . lra.
Qed.
Lemma diff2' (a b c d : b32) : fin a -> fin b -> fin c -> fin d ->
  let s := Rabs (real a * real b) + Rabs (real c * real d) in s <= bpow radix2 126 ->
  within (tol s) (fsub (fmul b a) (fmul c d)) (real a * real b - real c * real d).
Proof. intros Fa Fb Fc Fd. rewrite (Rmult_comm (real a)). now apply diff2. Qed.
Theorem C70_cross : forall (BK : Backend b32) (a b : V), finite3 a -> finite3 b ->
  let c := vec3_cross a b in
  let ok := fun (r : b32) p q p' q' => Rabs (p * q) + Rabs (p' * q') <= bpow radix2 126 -> within (tol (Rabs (p * q) + Rabs (p' * q'))) r (p * q - p' * q') in
  ok (vec3_get_x c) (real (vy a)) (real (vz b)) (real (vz a)) (real (vy b)) /\
  ok (vec3_get_y c) (real (vz a)) (real (vx b)) (real (vx a)) (real (vz b)) /\
  ok (vec3_get_z c) (real (vx a)) (real (vy b)) (real (vy a)) (real (vx b)).
Proof.
  intros BK a b (A1 & A2 & A3) (B1 & B2 & B3) c ok. unfold c, ok, vec3_get_x, vec3_get_y, vec3_get_z, g_get_x, g_get_y, g_get_z, vec3_cross, g_cross3.
  split; [|split]; intros H; destruct backend; cbn [vx vy vz vw]; first [apply diff2; auto; fail|apply diff2'; auto].
Qed.

(** ** differences and distances *)
Lemma diff_ap (x y : b32) : fin x -> fin y -> Rabs (real x - real y) <= bpow radix2 127 -> ap (fsub x y) (real x - real y) (u * Rabs (real x - real y)).
Proof.
  intros X Y H. eapply ap_weak; [eapply ap_sub; [apply ap_refl, X|apply ap_refl, Y|apply Rle_refl|]|]; rewrite ?u32_val; lra.
Qed.
Definition dist2 (a b : point b32) : R := (real (px a) - real (px b)) ^ 2 + (real (py a) - real (py b)) ^ 2.
Definition dist3 (a b : point3d b32) : R := (real (p3x a) - real (p3x b)) ^ 2 + (real (p3y a) - real (p3y b)) ^ 2 + (real (p3z a) - real (p3z b)) ^ 2.
(** squared distances for which the bounds are stated: 2^-43 (scalar back end: 2^-21) to 2^117 *)
Definition dist_range (BK : Backend b32) (S : R) : Prop := bpow radix2 (-43) <= S <= bpow radix2 117 /\ scalar_cutoff BK (S / 2).
Lemma sq_ap (x : b32) t : ap x t (u * Rabs t) -> Rabs (real x * real x - t ^ 2) <= 2.01 * u * t ^ 2.
Proof.
  intros H. apply ap_fin in H as [_ L]. set (e := real x - t) in * . replace (real x) with (t + e) by (unfold e; ring).
  assert (E : Rabs e ^ 2 <= (u * Rabs t) ^ 2) by (apply pow_incr; split; [apply Rabs_pos|auto]).
  replace ((t + e) * (t + e) - t ^ 2) with (2 * (t * e) + e ^ 2) by ring. eapply Rle_trans; [apply Rabs_triang|].
  rewrite Rabs_mult, (Rabs_pos_eq 2), Rabs_mult, <- RPow_abs by lra. rewrite <- (pow2_abs t).
  assert (Rabs t * Rabs e <= Rabs t * (u * Rabs t)) by (apply Rmult_le_compat_l; [apply Rabs_pos|auto]).
  pose proof (pow2_ge_0 (Rabs t)). nra.
Qed.
Lemma small_of_sq t S : t ^ 2 <= S -> S <= bpow radix2 117 -> Rabs t <= bpow radix2 127.
Proof.
  intros A B. rewrite <- pow2_abs in A. pose proof (Rabs_pos t). bp 117%Z 127%Z. bp 0%Z 127%Z. change (bpow radix2 0) with 1 in * .
  destruct (Rle_dec (Rabs t) (bpow radix2 127)); auto. exfalso. nra.
Qed.
Lemma range_shift (BK : Backend b32) S S' : dist_range BK S -> Rabs (S' - S) <= 2.01 * u * S -> normal_range BK S' /\ 0 < S /\ Rabs (sqrt S' - sqrt S) <= 1.01 * u * sqrt S.
Proof.
  intros [[A B] C] H. pose proof (bpow_gt_0 radix2 (-43)). assert (P : 0 < S) by lra.
  pose proof (sqrt_rel (2.01 * u) S' S P ltac:(lra) H) as Q. apply Rabs_le_inv in H.
  assert (E1 : bpow radix2 (-43) = 2 * bpow radix2 (-44)) by (change (-43)%Z with (1 + -44)%Z; now rewrite bpow_plus).
  assert (E2 : bpow radix2 118 = 2 * bpow radix2 117) by (change 118%Z with (1 + 117)%Z; now rewrite bpow_plus).
  pose proof (bpow_gt_0 radix2 117).
  split; [split; [lra|]|split; [auto|]].
  - destruct BK; auto. simpl in C |- * . lra.
  - eapply Rle_trans; [exact Q|]. apply Rmult_le_compat_r; [apply sqrt_pos|]. unfold Rdiv. 
    replace (2.01 * u * / (2 - 2.01 * u)) with (2.01 * / (2 - 2.01 * u) * u) by ring. apply Rmult_le_compat_r; [lra|].
    apply Rmult_le_reg_r with (2 - 2.01 * u); [lra|]. rewrite Rmult_assoc, Rinv_l by lra. lra.
Qed.
Lemma close_enough (r : b32) S S' : within (bpow radix2 (-20) * sqrt S') r (sqrt S') -> Rabs (sqrt S' - sqrt S) <= 1.01 * u * sqrt S ->
  within (bpow radix2 (-19) * sqrt S) r (sqrt S).
Proof.
  intros [F L] H. split; auto. replace (real r - sqrt S) with ((real r - sqrt S') + (sqrt S' - sqrt S)) by ring. eapply Rle_trans; [apply Rabs_triang|].
  apply Rabs_le_inv in H as H'. pose proof (sqrt_pos S). rewrite U20 in L. replace (bpow radix2 (-19)) with (32 * u) by (simpl; lra). lra.
Qed.
Theorem C70_distance : forall (BK : Backend b32) (a b : point b32) (ox oy : b32), estimates_ok BK ->
  fin (px a) -> fin (py a) -> fin (px b) -> fin (py b) -> dist_range BK (dist2 a b) ->
  match point_distance false a b (Some ox) (Some oy) with
  | (d, Some dx, Some dy) =>
      within (bpow radix2 (-19) * sqrt (dist2 a b)) d (sqrt (dist2 a b)) /\
      within (bpow radix2 (-24) * Rabs (real (px a) - real (px b))) dx (Rabs (real (px a) - real (px b))) /\
      within (bpow radix2 (-24) * Rabs (real (py a) - real (py b))) dy (Rabs (real (py a) - real (py b)))
  | _ => False end /\
  within (bpow radix2 (-21) * dist2 a b) (point_distance_squared false a b) (dist2 a b).
Proof.
  intros BK a b ox oy HB A1 A2 B1 B2 R. pose proof R as [[RA RB] _]. unfold point_distance, point_distance_squared. set (v := point_diff a b).
  set (X := real (px a) - real (px b)). set (Y := real (py a) - real (py b)).
  assert (SX : X ^ 2 <= dist2 a b) by (unfold dist2; fold X Y; pose proof (pow2_ge_0 Y); lra).
  assert (SY : Y ^ 2 <= dist2 a b) by (unfold dist2; fold X Y; pose proof (pow2_ge_0 X); lra).
  assert (HX : ap (vx v) X (u * Rabs X)) by (apply diff_ap; auto; eapply small_of_sq; eauto).
  assert (HY : ap (vy v) Y (u * Rabs Y)) by (apply diff_ap; auto; eapply small_of_sq; eauto).
  assert (F : finite2 v) by (split; [apply (ap_fin _ _ _ HX)|apply (ap_fin _ _ _ HY)]).
  pose proof (sq_ap _ _ HX) as QX. pose proof (sq_ap _ _ HY) as QY.
  assert (Q : Rabs (dot2 v v - dist2 a b) <= 2.01 * u * dist2 a b).
  { unfold dot2, dist2. fold X Y. apply Rabs_le_inv in QX, QY. apply Rabs_le. lra. }
  destruct (range_shift BK _ _ R Q) as (N & P & K).
  assert (U24 : bpow radix2 (-24) = u) by (simpl; lra). split; [split; [|split]|].
  - eapply close_enough; [|exact K]. apply (proj1 (C70_length BK v HB) F N).
  - rewrite U24. eapply ap_within; [apply ap_abs, HX|apply Rle_refl].
  - rewrite U24. eapply ap_within; [apply ap_abs, HY|apply Rle_refl].
  - destruct N as [[N1 N2] _]. bp 118%Z 126%Z. bp (-100)%Z (-44)%Z.
    pose proof (C70_dot2 BK v v F F) as D. rewrite adot2_self in D. specialize (D ltac:(lra)). apply tol_rel in D; [|lra]. destruct D as [D1 D2].
    split; [exact D1|]. change (g_get_x (g_dot2 v v)) with (vec2_dot v v). rewrite U21. apply Rabs_le_inv in Q, D2. apply Rabs_le. lra.
Qed.
Theorem C70_point3d_distance : forall (BK : Backend b32) (a b : point3d b32), estimates_ok BK ->
  fin (p3x a) -> fin (p3y a) -> fin (p3z a) -> fin (p3x b) -> fin (p3y b) -> fin (p3z b) -> dist_range BK (dist3 a b) ->
  let (d, v) := point3d_distance a b in
  let near := fun (get : V -> b32) X => within (bpow radix2 (-24) * Rabs X) (get v) (Rabs X) in
  within (bpow radix2 (-19) * sqrt (dist3 a b)) d (sqrt (dist3 a b)) /\
  near vec3_get_x (real (p3x a) - real (p3x b)) /\ near vec3_get_y (real (p3y a) - real (p3y b)) /\ near vec3_get_z (real (p3z a) - real (p3z b)).
Proof.
  intros BK a b HB A1 A2 A3 B1 B2 B3 R. pose proof R as [[RA RB] _]. unfold point3d_distance. set (v := vec3_subtract (point3d_to_vec3 a) (point3d_to_vec3 b)).
  set (X := real (p3x a) - real (p3x b)). set (Y := real (p3y a) - real (p3y b)). set (Z := real (p3z a) - real (p3z b)).
  pose proof (pow2_ge_0 X). pose proof (pow2_ge_0 Y). pose proof (pow2_ge_0 Z).
  assert (SX : X ^ 2 <= dist3 a b) by (unfold dist3; fold X Y Z; lra). assert (SY : Y ^ 2 <= dist3 a b) by (unfold dist3; fold X Y Z; lra).
  assert (SZ : Z ^ 2 <= dist3 a b) by (unfold dist3; fold X Y Z; lra).
  assert (HX : ap (vx v) X (u * Rabs X)) by (apply diff_ap; auto; eapply small_of_sq; eauto).
  assert (HY : ap (vy v) Y (u * Rabs Y)) by (apply diff_ap; auto; eapply small_of_sq; eauto).
  assert (HZ : ap (vz v) Z (u * Rabs Z)) by (apply diff_ap; auto; eapply small_of_sq; eauto).
  assert (F : finite3 v) by (split; [apply (ap_fin _ _ _ HX)|split; [apply (ap_fin _ _ _ HY)|apply (ap_fin _ _ _ HZ)]]).
  pose proof (sq_ap _ _ HX) as QX. pose proof (sq_ap _ _ HY) as QY. pose proof (sq_ap _ _ HZ) as QZ.
  assert (Q : Rabs (dot3 v v - dist3 a b) <= 2.01 * u * dist3 a b).
  { unfold dot3, dot2, dist3. fold X Y Z. apply Rabs_le_inv in QX, QY, QZ. apply Rabs_le. lra. }
  destruct (range_shift BK _ _ R Q) as (N & P & K).
  assert (U24 : bpow radix2 (-24) = u) by (simpl; lra). rewrite U24. cbv zeta. split; [|split; [|split]].
  - eapply close_enough; [|exact K]. apply (proj1 (proj2 (C70_length BK v HB)) F N).
  - eapply ap_within; [apply ap_abs, HX|apply Rle_refl].
  - eapply ap_within; [apply ap_abs, HY|apply Rle_refl].
  - eapply ap_within; [apply ap_abs, HZ|apply Rle_refl].
Qed.

(** ** planes *)
Theorem C70_plane_distance : forall (BK : Backend b32) (p : plane b32) (q : point3d b32),
  finite3 (plane_get_normal p) -> fin (plane_get_constant p) -> fin (p3x q) -> fin (p3y q) -> fin (p3z q) ->
  let n := plane_get_normal p in let c := plane_get_constant p in
  let s := Rabs (real (vx n) * real (p3x q)) + Rabs (real (vy n) * real (p3y q)) + Rabs (real (vz n) * real (p3z q)) + Rabs (real c) in
  s <= bpow radix2 125 ->
  within (bpow radix2 (-21) * s + bpow radix2 (-146)) (plane_distance p q) (real (vx n) * real (p3x q) + real (vy n) * real (p3y q) + real (vz n) * real (p3z q) + real c).
Proof.
  intros BK p q FN FC X Y Z n c s H.
  assert (D : within (tol (adot3 n (point3d_to_vec3 q))) (vec3_dot n (point3d_to_vec3 q)) (dot3 n (point3d_to_vec3 q))).
  { apply C70_dot3; [exact FN|repeat split; assumption|]. unfold adot3, adot2, point3d_to_vec3, g_init; cbn [vx vy vz]. unfold s in H. pose proof (Rabs_pos (real c)). bp 125%Z 126%Z. lra. }
  unfold plane_distance. fold n c. change (pl_n p) with n. change (pl_c p) with c. destruct D as [F L].
  set (d := vec3_dot n (point3d_to_vec3 q)) in * . revert L. unfold tol, adot3, adot2, dot3, dot2, point3d_to_vec3, g_init; cbn [vx vy vz].
  set (t1 := real (vx n) * real (p3x q)) in * . set (t2 := real (vy n) * real (p3y q)) in * . set (t3 := real (vz n) * real (p3z q)) in * . intros L.
  assert (AP : ap d (t1 + t2 + t3) (bpow radix2 (-22) * (Rabs t1 + Rabs t2 + Rabs t3) + bpow radix2 (-147))) by (exists (real d); split; [now apply fin_X|exact L]).
  assert (E146 : bpow radix2 (-146) = 16 * eta) by (change (-146)%Z with (4 + -150)%Z; now rewrite bpow_plus).
  assert (E125 : bpow radix2 126 = 2 * bpow radix2 125) by (change 126%Z with (1 + 125)%Z; now rewrite bpow_plus).
  pose proof (Rabs_triang (t1 + t2) t3) as T1. pose proof (Rabs_triang t1 t2) as T2. unfold s in * . rewrite E146. replace (bpow radix2 (-21)) with (/ 2097152) by reflexivity.
  facts. pose proof (Rabs_pos t1). pose proof (Rabs_pos t2). pose proof (Rabs_pos t3). pose proof (Rabs_pos (real c)).
  eapply ap_within; [eapply (prods2 d c); [exact AP|apply ap_refl, FC| | |]|]; rewrite ?u32_val; lra.
Qed.

(** ** the centre of a box: half the exact sum, within a relative 2^-22 *)
Lemma mid_err (x y : b32) : fin x -> fin y -> Rabs (real x + real y) <= bpow radix2 126 ->
  within (bpow radix2 (-22) * Rabs ((real x + real y) / 2) + bpow radix2 (-150)) (fmul (fadd x y) fhalf) ((real x + real y) / 2).
Proof.
  intros X Y H. set (s := real x + real y) in * . pose proof (Rabs_pos s) as P. facts.
  assert (A1 : ap (fadd x y) s (u * Rabs s)).
  { eapply ap_weak; [eapply ap_add; [apply ap_refl, X|apply ap_refl, Y|apply Rle_refl|]|]; rewrite ?u32_val; fold s; lra. }
  assert (A2 : ap (fhalf : b32) (/ 2) 0) by (exists (/ 2); split; [apply fhalf_X|rewrite Rminus_eq_0, Rabs_R0; lra]).
  assert (Hh : Rabs (/ 2) = / 2) by (apply Rabs_pos_eq; lra).
  replace (Rabs (s / 2)) with (Rabs s / 2) by (unfold Rdiv; now rewrite Rabs_mult, Hh).
  eapply ap_within; [eapply (ap_mul _ _ s (/ 2)); [exact A1|exact A2|apply Rle_refl|]|]; rewrite ?Hh, ?u32_val; lra.
Qed.
Definition near_mid (lo hi c : b32) : Prop := fin lo -> fin hi -> Rabs (real lo + real hi) <= bpow radix2 126 ->
  within (bpow radix2 (-22) * Rabs ((real lo + real hi) / 2) + bpow radix2 (-150)) c ((real lo + real hi) / 2).
Theorem C70_box_center : forall (BK : Backend b32) (b : box b32), let lo := box_get_min b in let hi := box_get_max b in let c := box_get_center b in
  fin (p3x lo) -> near_mid (p3x lo) (p3x hi) (p3x c) /\ near_mid (p3y lo) (p3y hi) (p3y c) /\ near_mid (p3z lo) (p3z hi) (p3z c).
Proof.
  intros BK b lo hi c F. unfold c, box_get_center, box_is_empty, box_is_infinity.
  assert (E : is_pinf (vx (bmin b)) = false /\ is_ninf (vx (bmin b)) = false).
  { change (vx (bmin b)) with (p3x lo). revert F. generalize (p3x lo). intros x F. unfold is_pinf, is_ninf. destruct x; try discriminate F; split; reflexivity. }
  destruct E as [-> ->]. cbn [andb orb]. split; [|split]; intros A B H; apply (mid_err _ _ A B H).
Qed.
Theorem C70_box2d_center : forall (BK : Backend b32) (b : V), let lo := box2d_get_min b in let hi := box2d_get_max b in let c := box2d_get_center b in
  fin (px lo) -> near_mid (px lo) (px hi) (px c) /\ near_mid (py lo) (py hi) (py c).
Proof.
  intros BK b lo hi c F. unfold c, box2d_get_center, box2d_is_empty, box2d_is_infinity.
  assert (E : is_pinf (vx (box2d_min_v b)) = false /\ is_ninf (vx (box2d_min_v b)) = false).
  { change (vx (box2d_min_v b)) with (px lo). revert F. generalize (px lo). intros x F. unfold is_pinf, is_ninf. destruct x; try discriminate F; split; reflexivity. }
  destruct E as [-> ->]. cbn [andb orb]. split; intros A B H; apply (mid_err _ _ A B H).
Qed.
Example C70_distance_ex : forall BK : Backend b32, let a : point b32 := Pt (flit 3 0) fzero in let b := Pt fzero (flit (-4) 0) in
  fin (px a) /\ fin (py a) /\ fin (px b) /\ fin (py b) /\ dist_range BK (dist2 a b) /\ sqrt (dist2 a b) = 5.
Proof.
  intros BK a b. do 4 (split; [reflexivity|]).
  assert (E : dist2 a b = 25).
  { unfold dist2, a, b; cbn [px py]. rewrite (proj2 (lit_real 3 0 ltac:(lia) ltac:(lia) ltac:(lia))), (proj2 (lit_real (-4) 0 ltac:(lia) ltac:(lia) ltac:(lia))).
    change (B2R (fzero : b32)) with 0. simpl bpow. lra. }
  rewrite E. split.
  - split.
    + bp (-43)%Z 0%Z. bp 5%Z 117%Z. change (bpow radix2 0) with 1 in * . change (bpow radix2 5) with 32 in * . lra.
    + destruct BK; simpl; auto. lra.
  - replace 25 with (5 * 5) by ring. apply sqrt_square. lra.
Qed.
