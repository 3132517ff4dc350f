(** * Props_Err2: rounding errors of length, normalize and the cross product (C70). *)
From Coq Require Import ZArith Reals Bool List Lra Lia Psatz.
From Flocq Require Import Core BinarySingleNaN.
From Verif Require Import Num Simd Vec Rect Box Mat OrdThy FloatThy B32Setup FloatLem ErrThy Props_Err.
Import ListNotations.
Local Open Scope R_scope.

Notation u := (/ 16777216).
(** [rel k x t]: x is a finite float within relative error k of the positive real t *)
Definition rel (k : R) (x : b32) (t : R) : Prop := within (k * t) x t.
Lemma rel_intro k x s t : B2X x = Fin s -> Rabs (s - t) <= k * t -> rel k x t.
Proof. intros H L. apply fin_of_X in H as [F <-]. now split. Qed.
Lemma rel_bounds k x t : rel k x t -> (1 - k) * t <= real x <= (1 + k) * t.
Proof. intros [_ H]. apply Rabs_le_inv in H. lra. Qed.
Lemma rnd_rel r : bpow radix2 (-126) <= r -> r <= bpow radix2 127 ->
  xrnd (prec:=24) (emax:=128) (Fin r) = Fin (rnd32 r) /\ (1 - u) * r <= rnd32 r <= (1 + u) * r.
Proof.
  intros A B. assert (0 < r) by (pose proof (bpow_gt_0 radix2 (-126)); lra).
  assert (Rabs r = r) by (apply Rabs_pos_eq; lra).
  split; [apply xrnd_ok; lra|]. pose proof (rnd_err_rel r) as E. rewrite H0, u32_val in E. specialize (E A). apply Rabs_le_inv in E. lra.
Qed.
Lemma sqrt_rel k s S : 0 < S -> 0 <= k <= 1 -> Rabs (s - S) <= k * S -> Rabs (sqrt s - sqrt S) <= k / (2 - k) * sqrt S.
Proof.
  intros HS Hk H. apply Rabs_le_inv in H.
  assert (0 <= s) by nra. pose proof (sqrt_lt_R0 S HS) as P. pose proof (sqrt_pos s) as P'.
  assert (Q : sqrt S * sqrt S = S) by (apply sqrt_sqrt; lra). assert (Q' : sqrt s * sqrt s = s) by (apply sqrt_sqrt; lra).
  assert (L : (1 - k) * sqrt S <= sqrt s) by nra.
  assert (D : 0 < 2 - k) by lra.
  assert (M : Rabs (sqrt s - sqrt S) * ((2 - k) * sqrt S) <= k * S).
  { destruct (Rle_dec 0 (sqrt s - sqrt S)); [rewrite Rabs_pos_eq by auto|rewrite Rabs_left by lra]; nra. }
  apply Rmult_le_reg_r with ((2 - k) * sqrt S); [nra|].
  replace (k / (2 - k) * sqrt S * ((2 - k) * sqrt S)) with (k * (sqrt S * sqrt S)) by (field; lra). rewrite Q. exact M.
Qed.
Lemma bsqr k : bpow radix2 (k + k) = bpow radix2 k * bpow radix2 k. Proof. apply bpow_plus. Qed.
Lemma sqrt_range a b S : bpow radix2 (a + a) <= S -> S <= bpow radix2 (b + b) -> bpow radix2 a <= sqrt S <= bpow radix2 b.
Proof.
  rewrite !bsqr. intros A B. split.
  - rewrite <- (sqrt_square (bpow radix2 a)) by apply bpow_ge_0. now apply sqrt_le_1_alt.
  - rewrite <- (sqrt_square (bpow radix2 b)) by apply bpow_ge_0. now apply sqrt_le_1_alt.
Qed.
Lemma xsqrt_fin s : 0 <= s -> xsqrt (Fin s) = Fin (sqrt s).
Proof. intros H. simpl. destruct (Rlt_dec s 0); auto. lra. Qed.
Lemma fsqrt_rel (x : b32) S : rel (4.01 * u) x S -> bpow radix2 (-100) <= S -> S <= bpow radix2 126 ->
  rel (3.01 * u) (fsqrt x) (sqrt S).
Proof.
  intros R A B. assert (HS : 0 < S) by (pose proof (bpow_gt_0 radix2 (-100)); lra).
  destruct R as [F L]. pose proof (sqrt_rel (4.01 * u) _ S HS ltac:(lra) L) as E.
  destruct (sqrt_range (-50) 63 S A B) as [A' B']. pose proof (sqrt_lt_R0 S HS) as P.
  apply Rabs_le_inv in L. assert (0 <= real x) by nra.
  assert (K : 4.01 * u / (2 - 4.01 * u) <= 2.0051 * u) by (apply Rmult_le_reg_r with (2 - 4.01 * u); [lra|]; unfold Rdiv; rewrite Rmult_assoc, Rinv_l; lra).
  assert (E2 : Rabs (sqrt (real x) - sqrt S) <= 2.0051 * u * sqrt S) by (eapply Rle_trans; [exact E|]; apply Rmult_le_compat_r; lra).
  apply Rabs_le_inv in E2.
  pose proof (bpow_gt_0 radix2 (-50)). assert (bpow radix2 (-51) <= sqrt (real x)).
  { assert (bpow radix2 (-50) = 2 * bpow radix2 (-51)) by (apply (bpow_plus radix2 1 (-51))). lra. }
  assert (sqrt (real x) <= bpow radix2 64) by (assert (bpow radix2 64 = 2 * bpow radix2 63) by (apply (bpow_plus radix2 1 63)); lra).
  destruct (rnd_rel (sqrt (real x))) as [X Y]; [eapply Rle_trans; [|eassumption]; apply bpow_le; lia|eapply Rle_trans; [eassumption|]; apply bpow_le; lia|].
  apply (rel_intro _ _ (rnd32 (sqrt (real x)))).
  - rewrite fsqrt_X, (fin_X x), xsqrt_fin by auto. exact X.
  - apply Rabs_le. nra.
Qed.

Lemma tol_rel (x : b32) S : within (tol S) x S -> bpow radix2 (-100) <= S -> rel (4.01 * u) x S.
Proof.
  intros [F L] A. split; auto. eapply Rle_trans; [exact L|]. unfold tol. rewrite U22, E147.
  assert (8 * eta <= / 10000000000 * bpow radix2 (-100)).
  { replace (8 * eta) with (bpow radix2 (-47) * bpow radix2 (-100)) by (rewrite <- E147, <- bpow_plus; reflexivity).
    apply Rmult_le_compat_r; [apply bpow_ge_0|]. rewrite <- (Rinv_inv (bpow radix2 (-47))) by (pose proof (bpow_gt_0 radix2 (-47)); lra).
    rewrite <- bpow_opp. apply Rinv_le; [lra|]. simpl. lra. }
  pose proof (bpow_gt_0 radix2 (-100)). lra.
Qed.

(** ** lengths, on every back end with a correctly rounded square root (all but NEON) *)
Definition ieee_sqrt (BK : Backend b32) : Prop := match BK with Neon _ _ _ => False | _ => True end.
Definition medium (S : R) : Prop := bpow radix2 (-100) <= S <= bpow radix2 126.
Lemma lane_sqrt_ieee (BK : Backend b32) x : ieee_sqrt BK -> lane_sqrt x = fsqrt x.
Proof. destruct BK; cbv [ieee_sqrt]; [reflexivity|reflexivity|reflexivity|intros []]. Qed.
Lemma adot2_self v : adot2 v v = dot2 v v.
Proof. unfold adot2, dot2. rewrite !Rabs_pos_eq by nra. reflexivity. Qed.
Lemma adot3_self v : adot3 v v = dot3 v v.
Proof. unfold adot3, dot3. rewrite adot2_self, Rabs_pos_eq by nra. reflexivity. Qed.
Lemma adot4_self v : adot4 v v = dot4 v v.
Proof. unfold adot4, dot4. rewrite adot3_self, Rabs_pos_eq by nra. reflexivity. Qed.
Lemma rel_weak k k' x t : rel k x t -> 0 <= t -> k <= k' -> rel k' x t.
Proof. intros [F L] T K. split; auto. nra. Qed.

Theorem C70_length2 : forall (BK : Backend b32) (v : V), ieee_sqrt BK -> finite2 v -> medium (dot2 v v) ->
  within (bpow radix2 (-22) * sqrt (dot2 v v)) (vec2_length v) (sqrt (dot2 v v)).
Proof.
  intros BK v HB F [A B]. unfold vec2_length, g_length2, g_get_x, g_sqrt, map1; cbn [vx]. rewrite lane_sqrt_ieee by auto.
  pose proof (C70_dot2 BK v v F F) as D. rewrite adot2_self in D. specialize (D B).
  rewrite U22. apply rel_weak with (3.01 * u); [|apply sqrt_pos|lra]. apply fsqrt_rel; auto. apply tol_rel; auto.
Qed.
Theorem C70_length3 : forall (BK : Backend b32) (v : V), ieee_sqrt BK -> finite3 v -> medium (dot3 v v) ->
  within (bpow radix2 (-22) * sqrt (dot3 v v)) (vec3_length v) (sqrt (dot3 v v)).
Proof.
  intros BK v HB F [A B]. unfold vec3_length, g_length3, g_get_x, g_sqrt, map1; cbn [vx]. rewrite lane_sqrt_ieee by auto.
  pose proof (C70_dot3 BK v v F F) as D. rewrite adot3_self in D. specialize (D B).
  rewrite U22. apply rel_weak with (3.01 * u); [|apply sqrt_pos|lra]. apply fsqrt_rel; auto. apply tol_rel; auto.
Qed.
Theorem C70_length4 : forall (BK : Backend b32) (v : V), ieee_sqrt BK -> finite4 v -> medium (dot4 v v) ->
  within (bpow radix2 (-22) * sqrt (dot4 v v)) (vec4_length v) (sqrt (dot4 v v)).
Proof.
  intros BK v HB F [A B]. unfold vec4_length, g_length4, g_get_x, g_sqrt, map1; cbn [vx]. rewrite lane_sqrt_ieee by auto.
  pose proof (C70_dot4 BK v v F F) as D. rewrite adot4_self in D. specialize (D B).
  rewrite U22. apply rel_weak with (3.01 * u); [|apply sqrt_pos|lra]. apply fsqrt_rel; auto. apply tol_rel; auto.
Qed.
(** ** one Newton step for 1/sqrt *)
Lemma newton_num e d1 d2 d3 d4 d5 E : Rabs e <= E -> E <= / 256 ->
  Rabs d1 <= u -> Rabs d2 <= u -> Rabs d3 <= u -> Rabs d4 <= u -> Rabs d5 <= u ->
  Rabs ((1 + e) / 2 * (3 - (1 + e) * ((1 + e) * (1 + d1)) * (1 + d2)) * (1 + d3) * (1 + d4) * (1 + d5) - 1) <= 4.1 * u + 1.6 * (E * E).
Proof.
  intros He HE H1 H2 H3 H4 H5. apply Rabs_le_inv in He, H1, H2, H3, H4, H5.
  set (p := d1 + d2 + d1 * d2). assert (P : - (2.001 * u) <= p <= 2.001 * u) by (unfold p; nra).
  set (q4 := d3 + d4 + d3 * d4). assert (Q4 : - (2.001 * u) <= q4 <= 2.001 * u) by (unfold q4; nra).
  set (q := q4 + d5 + q4 * d5). assert (Q : - (3.002 * u) <= q <= 3.002 * u) by (unfold q; nra).
  assert (E2 : 0 <= e * e <= E * E) by nra.
  assert (EE : E * E <= / 65536) by nra.
  set (e3 := e * (e * e)). assert (E3 : - (E * E / 256) <= e3 <= E * E / 256) by (unfold e3; nra).
  set (a := 3 / 2 * (e * e) + 1 / 2 * e3). assert (A0 : - (1.51 * (E * E)) <= a <= 1.51 * (E * E)) by (unfold a; lra).
  set (g := 3 * e + 3 * (e * e) + e3). assert (G : - 0.012 <= g <= 0.012) by (unfold g; lra).
  set (h := (1 + g) / 2 * p). assert (Hh : - (1.02 * u) <= h <= 1.02 * u) by (unfold h; nra).
  replace ((1 + e) / 2 * (3 - (1 + e) * ((1 + e) * (1 + d1)) * (1 + d2)) * (1 + d3) * (1 + d4) * (1 + d5) - 1)
    with (- a - h + (1 - a - h) * q) by (unfold a, h, g, e3, q, q4, p; field).
  set (k := 1 - a - h). assert (K : 0.999 <= k <= 1.001) by (unfold k; lra).
  assert (M : - (3.01 * u) <= k * q <= 3.01 * u) by nra.
  apply Rabs_le. lra.
Qed.
Lemma mulN (x y : b32) p q : B2X x = Fin p -> B2X y = Fin q -> bpow radix2 (-126) <= Rabs (p * q) -> Rabs (p * q) <= bpow radix2 127 ->
  exists d, Rabs d <= u /\ B2X (fmul x y) = Fin (p * q * (1 + d)).
Proof.
  intros X Y A B. pose proof (rnd_err_rel _ A) as E. rewrite u32_val in E.
  assert (NZ : p * q <> 0) by (intros Z; rewrite Z, Rabs_R0 in A; pose proof (bpow_gt_0 radix2 (-126)); lra).
  exists ((rnd32 (p * q) - p * q) / (p * q)). split.
  - unfold Rdiv. rewrite Rabs_mult, Rabs_inv. apply Rmult_le_reg_r with (Rabs (p * q)); [now apply Rabs_pos_lt|].
    rewrite Rmult_assoc, Rinv_l, Rmult_1_r by (now apply Rabs_no_R0). exact E.
  - rewrite fmul_X, X, Y. cbn [xmul]. rewrite xrnd_ok by auto. f_equal. field. split; intros Z; apply NZ; rewrite Z; ring.
Qed.
Lemma subN (x y : b32) p q : B2X x = Fin p -> B2X y = Fin q -> Rabs (p - q) <= bpow radix2 127 -> p - q <> 0 ->
  exists d, Rabs d <= u /\ B2X (fsub x y) = Fin ((p - q) * (1 + d)).
Proof.
  intros X Y B NZ. rewrite fsub_X, X, Y. cbn [xsub xadd xneg]. apply fin_of_X in X as [_ <-], Y as [_ <-].
  pose proof (rnd_err_add (B2R x) (- B2R y) (fmt x) (generic_format_opp _ _ _ (fmt y))) as E. rewrite u32_val in E.
  change (B2R x + - B2R y) with (B2R x - B2R y) in * .
  exists ((rnd32 (B2R x - B2R y) - (B2R x - B2R y)) / (B2R x - B2R y)). split.
  - unfold Rdiv. rewrite Rabs_mult, Rabs_inv. apply Rmult_le_reg_r with (Rabs (B2R x - B2R y)); [now apply Rabs_pos_lt|].
    rewrite Rmult_assoc, Rinv_l, Rmult_1_r by (now apply Rabs_no_R0). exact E.
  - rewrite xrnd_ok by auto. f_equal. field. auto.
Qed.
Lemma fthree_X : B2X (fthree : b32) = Fin 3.
Proof. unfold fthree. lit_tac. Qed.
Lemma pb a b : bpow radix2 (a + b) = bpow radix2 a * bpow radix2 b. Proof. apply bpow_plus. Qed.
Lemma mulrange a b p q : bpow radix2 a <= p -> bpow radix2 b <= q -> bpow radix2 (a + b) <= p * q.
Proof. intros A B. rewrite pb. apply Rmult_le_compat; auto using bpow_ge_0. Qed.
Lemma mulrange' a b p q : 0 <= p <= bpow radix2 a -> 0 <= q <= bpow radix2 b -> p * q <= bpow radix2 (a + b).
Proof. intros A B. rewrite pb. apply Rmult_le_compat; tauto. Qed.
(** the reciprocal square root of a float in a medium range *)
Definition midrange (X : R) : Prop := bpow radix2 (-60) <= X <= bpow radix2 124.
Lemma rsq_facts X : midrange X -> let T := / sqrt X in
  bpow radix2 (-62) <= T <= bpow radix2 30 /\ bpow radix2 (-30) <= sqrt X <= bpow radix2 62 /\ X * T = sqrt X /\ sqrt X * T = 1 /\ 0 < T.
Proof.
  intros [A B] T. destruct (sqrt_range (-30) 62 X A B) as [C D].
  assert (HX : 0 < X) by (pose proof (bpow_gt_0 radix2 (-60)); lra). pose proof (sqrt_lt_R0 X HX) as P.
  assert (ST : sqrt X * T = 1) by (unfold T; field; lra).
  assert (X * T = sqrt X) by (rewrite <- (sqrt_sqrt X) at 1 by lra; rewrite Rmult_assoc, ST; ring).
  split; [|repeat split; auto; unfold T; now apply Rinv_0_lt_compat].
  change (bpow radix2 (-62)) with (bpow radix2 (- (62))). change (bpow radix2 30) with (bpow radix2 (- (-30))). rewrite !bpow_opp. unfold T.
  split; apply Rinv_le; auto using bpow_gt_0.
Qed.
Lemma scal w c lo hi m M : lo <= w <= hi -> 0 <= lo -> m <= c <= M -> 0 <= m -> lo * m <= w * c <= hi * M.
Proof. intros A B C D. split; apply Rmult_le_compat; lra. Qed.
Ltac bp e f := assert (bpow radix2 e <= bpow radix2 f) by (apply bpow_le; lia).
Lemma scaleT T e : bpow radix2 (-62) <= T <= bpow radix2 30 -> Rabs e <= / 256 -> bpow radix2 (-63) <= T * (1 + e) <= bpow radix2 31.
Proof.
  intros [A B] E. apply Rabs_le_inv in E. assert (bpow radix2 (-62) = 2 * bpow radix2 (-63)) by (apply (pb 1 (-63))).
  assert (bpow radix2 31 = 2 * bpow radix2 30) by (apply (pb 1 30)). pose proof (bpow_gt_0 radix2 (-63)). pose proof (bpow_gt_0 radix2 30). nra.
Qed.
(** the SSE step  (s * 0.5) * (3 - s * (x * s)) *)
Lemma sse_step (x s : b32) X e E : B2X x = Fin X -> midrange X -> B2X s = Fin (/ sqrt X * (1 + e)) -> Rabs e <= E -> E <= / 256 ->
  rel (4.1 * u + 1.6 * (E * E)) (fmul (fmul s fhalf) (fsub fthree (fmul s (fmul x s)))) (/ sqrt X).
Proof.
  intros HX M HS He HE. destruct (rsq_facts X M) as (T1 & Q1 & XT & QT & T0). set (T := / sqrt X) in * . set (Q := sqrt X) in * .
  assert (He' : Rabs e <= / 256) by lra. pose proof (scaleT T e T1 He') as S1. apply Rabs_le_inv in He'.
  assert (R1 : X * (T * (1 + e)) = Q * (1 + e)) by (rewrite <- Rmult_assoc, XT; ring).
  assert (Q2 : bpow radix2 (-31) <= Q * (1 + e) <= bpow radix2 63).
  { assert (bpow radix2 (-30) = 2 * bpow radix2 (-31)) by (apply (pb 1 (-31))). assert (bpow radix2 63 = 2 * bpow radix2 62) by (apply (pb 1 62)).
    pose proof (bpow_gt_0 radix2 (-31)). pose proof (bpow_gt_0 radix2 62). nra. }
  bp (-126)%Z (-31)%Z. bp 63%Z 127%Z. pose proof (bpow_gt_0 radix2 (-31)).
  destruct (mulN x s X (T * (1 + e)) HX HS) as (d1 & D1 & Y1); rewrite ?R1, ?Rabs_pos_eq by lra; try lra.
  rewrite R1 in Y1.
  assert (P2 : T * (1 + e) * (Q * (1 + e) * (1 + d1)) = (1 + e) * ((1 + e) * (1 + d1))) by (transitivity ((Q * T) * ((1 + e) * ((1 + e) * (1 + d1)))); [ring|rewrite QT; ring]).
  assert (D1' := Rabs_le_inv _ _ D1).
  assert (B2 : 0.98 <= (1 + e) * ((1 + e) * (1 + d1)) <= 1.02).
  { assert (0.99 <= (1 + e) * (1 + e) <= 1.01) by nra. nra. }
  bp (-126)%Z (-1)%Z. bp 1%Z 127%Z. assert (bpow radix2 (-1) = / 2) by reflexivity. assert (bpow radix2 1 = 2) by reflexivity.
  destruct (mulN s (fmul x s) _ _ HS Y1) as (d2 & D2 & Y2); rewrite ?P2, ?Rabs_pos_eq by lra; try lra. rewrite P2 in Y2. assert (D2' := Rabs_le_inv _ _ D2).
  set (b := (1 + e) * ((1 + e) * (1 + d1)) * (1 + d2)) in * . assert (B3 : 0.97 <= b <= 1.03) by (unfold b; nra).
  bp 2%Z 127%Z. assert (bpow radix2 2 = 4) by reflexivity.
  destruct (subN fthree (fmul s (fmul x s)) 3 b fthree_X Y2) as (d3 & D3 & Y3); [rewrite Rabs_pos_eq; lra|lra|]. assert (D3' := Rabs_le_inv _ _ D3).
  assert (H64 : bpow radix2 (-63) = 2 * bpow radix2 (-64)) by (apply (pb 1 (-64))). bp (-126)%Z (-64)%Z. bp 31%Z 127%Z. pose proof (bpow_gt_0 radix2 (-64)).
  destruct (mulN s fhalf _ _ HS fhalf_X) as (d4 & D4 & Y4); [rewrite Rabs_pos_eq; lra|rewrite Rabs_pos_eq; lra|]. assert (D4' := Rabs_le_inv _ _ D4).
  assert (C : 1.9 <= (3 - b) * (1 + d3) <= 2.1) by nra.
  assert (H65 : bpow radix2 (-64) = 2 * bpow radix2 (-65)) by (apply (pb 1 (-65))). bp (-126)%Z (-65)%Z.
  pose proof (bpow_gt_0 radix2 (-65)). pose proof (bpow_gt_0 radix2 31).
  assert (G : bpow radix2 (-65) <= T * (1 + e) * / 2 * (1 + d4) <= bpow radix2 31).
  { rewrite (Rmult_assoc (T * (1 + e))). pose proof (scal (T * (1 + e)) (/ 2 * (1 + d4)) _ _ 0.4 0.6 S1 ltac:(lra) ltac:(lra) ltac:(lra)). lra. }
  bp 33%Z 127%Z. assert (H33 : bpow radix2 33 = 4 * bpow radix2 31) by (apply (pb 2 31)). pose proof (bpow_gt_0 radix2 (-65)).
  assert (GC : bpow radix2 (-65) <= T * (1 + e) * / 2 * (1 + d4) * ((3 - b) * (1 + d3)) <= bpow radix2 33).
  { pose proof (scal _ _ _ _ 1.9 2.1 G ltac:(lra) C ltac:(lra)). lra. }
  destruct (mulN (fmul s fhalf) (fsub fthree (fmul s (fmul x s))) _ _ Y4 Y3) as (d5 & D5 & Y5); [rewrite Rabs_pos_eq; lra|rewrite Rabs_pos_eq; lra|].
  apply (rel_intro _ _ _ _ Y5).
  pose proof (newton_num e d1 d2 d3 d4 d5 E He HE D1 D2 D3 D4 D5) as N. fold b in N.
  replace (T * (1 + e) * / 2 * (1 + d4) * ((3 - b) * (1 + d3)) * (1 + d5) - T) with
    (((1 + e) / 2 * (3 - b) * (1 + d3) * (1 + d4) * (1 + d5) - 1) * T) by (unfold Rdiv; ring).
  rewrite Rabs_mult, (Rabs_pos_eq T) by lra. apply Rmult_le_compat_r; lra.
Qed.
