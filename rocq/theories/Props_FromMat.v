(** * Props_FromMat: the quaternion of a rotation matrix in binary32 (C105). *)
From Coq Require Import ZArith Reals Bool List Lra Lia Psatz.
From Flocq Require Import Core BinarySingleNaN.
From Verif Require Import Num Simd Vec Rect Box Mat Geo Quat OrdThy FloatThy B32Setup FloatLem ErrThy Props_Err Props_Err2 ErrEx Props_Err4 Props_Slerp.
From Verif Require Props_Err5 Props_Err6 Props_Err3 Props_EulF Props_MatX2 RQuat Props_RaySph Props_Dec Props_Proj Props_Eq.
Import ListNotations.
Local Open Scope R_scope.

(** ** specification *)
(** entry (r, c) of the rotation matrix of the unit quaternion Q, for row vectors *)
Definition rot_of (Q : RQ) : nat -> nat -> R := Props_Err6.rotm (rcomp 0 Q) (rcomp 1 Q) (rcomp 2 Q) (rcomp 3 Q).
(** the rotation part of m is that of Q up to d in each entry *)
Definition near_rot (d : R) (m : mat b32) (Q : RQ) : Prop := unit_q Q /\ forall r c, (r < 3)%nat -> (c < 3)%nat -> ap (matrix_get_value m r c) (rot_of Q r c) d.

Lemma unit_sum Q : unit_q Q -> rcomp 0 Q * rcomp 0 Q + rcomp 1 Q * rcomp 1 Q + rcomp 2 Q * rcomp 2 Q + rcomp 3 Q * rcomp 3 Q = 1.
Proof. destruct Q as [w [x y z]]. unfold RQuat.unit_q, RQuat.qdot, Props_MatX2.dot, rcomp; cbn. lra. Qed.
(** a square root of a sum that should be 4 v^2 *)
Lemma root_float (x : b32) v d : 0 <= d <= / 1024 -> Rabs v <= 1 -> ap x (4 * (v * v)) (3 * d + 11 * u) ->
  let r := fmul fhalf (fsqrt (cMAX x fzero)) in fin r /\ 0 <= real r /\ Rabs (real r * real r - v * v) <= d + 5.5 * u.
Proof.
  intros D V H r. destruct (ap_fin _ _ _ H) as [F E]. apply Rabs_le_inv in E. assert (FZ : fin (fzero : b32)) by reflexivity. assert (RZ : real (fzero : b32) = 0) by reflexivity.
  destruct (Props_Dec.cMAX_R x fzero F FZ) as [FM RM]. rewrite RZ in RM. assert (V2 : 0 <= v * v <= 1) by (apply Rabs_le_inv in V; nra).
  set (y := cMAX x fzero) in * . assert (Y : 0 <= real y /\ - (3 * d + 11 * u) <= real y - 4 * (v * v) <= 3 * d + 11 * u) by (rewrite RM; unfold Rmax; destruct (Rle_dec (real x) 0); lra). destruct Y as [Y0 Y].
  assert (P126 : 64 <= bpow radix2 126) by (change 64 with (bpow radix2 6); apply bpow_le; lia).
  destruct (Props_RaySph.sqrt_w y FM Y0 ltac:(lra)) as (FS & S0 & ES). apply Rabs_le_inv in ES. set (s := fsqrt y) in * .
  assert (SB : real s <= 2.1) by (apply Rsqr_incr_0_var; [unfold Rsqr; lra|lra]).
  destruct (Props_EulF.half_exact s FS) as [FH EH]. assert (CM : fmul s fhalf = r) by (apply fmul_comm). rewrite CM in FH, EH.
  assert (ETA : eta <= / 1000 * u). { change eta with (bpow radix2 (-150)). apply Rle_trans with (bpow radix2 (-40)); [apply bpow_le; lia|simpl; lra]. } assert (E0 : 0 <= eta) by apply bpow_ge_0.
  apply Rabs_le_inv in EH. unfold Rdiv in EH. set (h := real s * / 2) in * . split; [exact FH|].
  assert (R0 : 0 <= real r). { destruct (fin_of_X _ _ (fhalf_X : B2X (fhalf : b32) = Fin (/ 2))) as [FF RF]. assert (P127 : 64 <= bpow radix2 127) by (change 64 with (bpow radix2 6); apply bpow_le; lia).
    destruct (fin_of_X _ _ (Props_Proj.mul_X fhalf s FF FS ltac:(rewrite RF, Rabs_pos_eq; lra))) as [_ E1]. unfold r. rewrite E1, RF. apply Props_Eq.rnd_ge_gen; [apply generic_format_0|lra]. }
  split; [exact R0|]. assert (HH : h * h = real s * real s * / 4) by (unfold h; lra).
  assert (DIF : Rabs (real r * real r - h * h) <= / 100 * u). { replace (real r * real r - h * h) with ((real r - h) * (real r + h)) by ring. rewrite Rabs_mult. assert (Rabs (real r - h) <= 2 * eta) by (apply Rabs_le; lra). assert (Rabs (real r + h) <= 3) by (apply Rabs_le; unfold h in * ; lra). apply Rle_trans with (2 * eta * 3); [apply Rmult_le_compat; auto using Rabs_pos|lra]. }
  apply Rabs_le_inv in DIF. apply Rabs_le. lra.
Qed.

(** one plus or minus the three diagonal entries *)
Definition pm (b : bool) (x y : b32) : b32 := if b then fadd x y else fsub x y.
Definition pmR (b : bool) (x y : R) : R := if b then x + y else x - y.
Lemma ap_pm s x y a b ea eb M : ap x a ea -> ap y b eb -> Rabs (pmR s a b) + ea + eb <= M -> M <= bpow radix2 127 -> ap (pm s x y) (pmR s a b) (ea + eb + u32 * M).
Proof. destruct s; [apply ap_add|apply ap_sub]. Qed.
Lemma pm_le s a b A B : - A <= a <= A -> - B <= b <= B -> Rabs (pmR s a b) <= A + B.
Proof. intros HA HB. apply Rabs_le. destruct s; unfold pmR; lra. Qed.
Lemma diag_float s1 s2 s3 (x y z : b32) X Y Z v d : 0 <= d <= / 1024 -> ap x X d -> ap y Y d -> ap z Z d -> Rabs X <= 1 -> Rabs Y <= 1 -> Rabs v <= 1 -> pmR s3 (pmR s2 (pmR s1 1 X) Y) Z = 4 * (v * v) ->
  ap (pm s3 (pm s2 (pm s1 fone x) y) z) (4 * (v * v)) (3 * d + 11 * u).
Proof.
  intros D HX HY HZ BX BY BV E. assert (P127 : 64 <= bpow radix2 127) by (change 64 with (bpow radix2 6); apply bpow_le; lia). assert (U : u32 = u) by apply u32_val. destruct (fin_of_X _ _ (fone_X : B2X (fone : b32) = Fin 1)) as [FO RO].
  assert (HO : ap fone 1 0) by (rewrite <- RO; now apply ap_refl). apply Rabs_le_inv in BX, BY, BV. assert (V2 : 0 <= v * v <= 1) by nra.
  assert (B1 : Rabs (pmR s1 1 X) <= 1 + 1) by (apply pm_le; lra).
  pose proof (ap_pm s1 _ _ _ _ _ _ (2 + d) HO HX ltac:(lra) ltac:(lra)) as H1. apply Rabs_le_inv in B1.
  assert (B2 : Rabs (pmR s2 (pmR s1 1 X) Y) <= (1 + 1) + 1) by (apply pm_le; lra).
  pose proof (ap_pm s2 _ _ _ _ _ _ (3 + 2.1 * d + 3 * u) H1 HY ltac:(rewrite U; lra) ltac:(lra)) as H2.
  assert (B3 : Rabs (pmR s3 (pmR s2 (pmR s1 1 X) Y) Z) <= 4) by (rewrite E; apply Rabs_le; lra).
  pose proof (ap_pm s3 _ _ _ _ _ _ (4 + 3.3 * d + 6 * u) H2 HZ ltac:(rewrite U; lra) ltac:(lra)) as H3.
  rewrite <- E. apply (ap_weak _ _ _ _ H3). rewrite U. lra.
Qed.
Lemma root_near rt b K : 0 <= rt -> 0 <= b -> Rabs (rt * rt - b * b) <= K -> Rabs (rt - b) <= sqrt K /\ Rabs (rt - b) * b <= K.
Proof.
  intros R0 B0 H. assert (K0 : 0 <= K) by (eapply Rle_trans; [apply Rabs_pos|exact H]). pose proof (sqrt_pos K). pose proof (sqrt_sqrt K K0) as SS. apply Rabs_le_inv in H.
  assert (N : Rabs (rt - b) * (rt + b) <= K) by (unfold Rabs; destruct (Rcase_abs (rt - b)); nra). assert (P : 0 <= Rabs (rt - b)) by apply Rabs_pos. assert (LE : Rabs (rt - b) <= rt + b) by (apply Rabs_le; lra).
  split; [|nra]. apply Rsqr_incr_0_var; [unfold Rsqr; nra|lra].
Qed.
(** one signed component: r near the absolute value of v, negated when hi > lo where lo - hi is 4 w v up to 2 d *)
Lemma comp_float (r hi lo : b32) H L w v d : 0 <= d <= / 1024 -> fin r -> 0 <= real r -> Rabs (real r * real r - v * v) <= d + 5.5 * u -> ap hi H d -> ap lo L d -> L - H = 4 * (w * v) -> w <> 0 ->
  let s := if Rlt_dec w 0 then -1 else 1 in let e := if flt lo hi then fneg r else r in
  fin e /\ Rabs (real e - s * v) <= sqrt (d + 5.5 * u) + d / Rabs w /\ Rabs (real e - s * v) * Rabs v <= d + 5.5 * u + d * d / (2 * (w * w)).
Proof.
  intros D FR R0 HK HH HL E W s e. destruct (ap_fin _ _ _ HH) as [FH EH]. destruct (ap_fin _ _ _ HL) as [FL EL]. apply Rabs_le_inv in EH, EL.
  assert (K0 : 0 <= d + 5.5 * u) by lra. set (K := d + 5.5 * u) in * . set (rt := real r) in * .
  assert (SV : s * v = if Rlt_dec w 0 then - v else v) by (unfold s; destruct (Rlt_dec w 0); ring). rewrite SV. clear SV s.
  assert (AW : 0 < Rabs w) by now apply Rabs_pos_lt.
  set (b := if Rlt_dec w 0 then - v else v) in * . assert (AB : Rabs b = Rabs v) by (unfold b; destruct (Rlt_dec w 0); [apply Rabs_Ropp|reflexivity]). assert (WB : w * v = Rabs w * b) by (unfold b, Rabs at 1; destruct (Rlt_dec w 0), (Rcase_abs w); lra).
  rewrite <- AB. assert (BB : v * v = b * b) by (unfold b; destruct (Rlt_dec w 0); ring). rewrite BB in HK. rewrite WB in E. clearbody b. clear v AB WB BB.
  replace (w * w) with (Rabs w * Rabs w) by (rewrite <- Rabs_mult; apply Rabs_pos_eq; nra). set (a := Rabs w) in * . clearbody a. clear w W.
  assert (SK : 0 <= sqrt K) by apply sqrt_pos. pose proof (sqrt_sqrt K K0) as SS. set (k := sqrt K) in * .
  assert (DA : 0 <= d / a) by (apply Rmult_le_pos; [lra|left; now apply Rinv_0_lt_compat]).
  assert (Q : d * d / (2 * (a * a)) = d / a * (d / a) * / 2) by (field; lra). assert (DD : d / a * a = d) by (field; lra). set (g := d / a) in * .
  assert (GE : fin e /\ (real e = rt /\ - (2 * d) <= 4 * (a * b) \/ real e = - rt /\ 4 * (a * b) <= 2 * d)).
  { unfold e. pose proof (Props_Dec.flt_R lo hi FL FH) as C. destruct (flt lo hi) eqn:EC.
    - destruct (Props_Dec.fneg_R r FR) as [FN RN]. split; [exact FN|]. right. split; [exact RN|]. assert (real lo < real hi) by (now apply C). lra.
    - split; [exact FR|]. left. split; [reflexivity|]. assert (~ real lo < real hi) by (intros N; apply C in N; congruence). lra. }
  destruct GE as [FE CE]. split; [exact FE|]. apply Rabs_le_inv in HK.
  (* reduce to the unsigned case *)
  assert (G : forall c : R, - (2 * d) <= 4 * (a * c) -> c * c = b * b -> Rabs (rt - c) <= k + g /\ Rabs (rt - c) * Rabs c <= K + g * g * / 2).
  { intros c HC CC. rewrite <- CC in HK. destruct (Rle_dec 0 c) as [C|C].
    - assert (N : Rabs (rt - c) * (rt + c) <= K) by (unfold Rabs; destruct (Rcase_abs (rt - c)); nra). assert (P : 0 <= Rabs (rt - c)) by apply Rabs_pos. assert (LE : Rabs (rt - c) <= rt + c) by (apply Rabs_le; lra).
      split; [|rewrite (Rabs_pos_eq c C); nra]. assert (Rabs (rt - c) <= k) by (apply Rsqr_incr_0_var; [unfold Rsqr; nra|exact SK]). lra.
    - assert (HG : - c <= g * / 2) by (apply Rmult_le_reg_r with a; [exact AW|]; nra). rewrite (Rabs_pos_eq (rt - c)) by lra. rewrite (Rabs_left c) by lra.
      assert (RT : rt <= k + - c) by (apply Rsqr_incr_0_var; [unfold Rsqr; nra|lra]). split; [lra|].
      assert (rt * (- c) <= K + c * c) by (destruct (Rle_dec rt (- c)); nra). nra. }
  rewrite Q. destruct CE as [[-> HC]|[-> HC]].
  - exact (G b HC eq_refl).
  - specialize (G (- b) ltac:(lra) ltac:(ring)). rewrite Rabs_Ropp in G. replace (- rt - b) with (- (rt - - b)) by ring. rewrite Rabs_Ropp. exact G.
Qed.

Lemma rot_le Q r c : unit_q Q -> Rabs (rot_of Q r c) <= 1.
Proof.
  intros H. pose proof (unit_sum Q H) as S. unfold rot_of. set (x := rcomp 0 Q) in * . set (y := rcomp 1 Q) in * . set (z := rcomp 2 Q) in * . set (w := rcomp 3 Q) in * . clearbody x y z w. clear Q H.
  pose proof (Rle_0_sqr x). pose proof (Rle_0_sqr y). pose proof (Rle_0_sqr z). pose proof (Rle_0_sqr w). pose proof (Rle_0_sqr (x + y)). pose proof (Rle_0_sqr (x - y)). pose proof (Rle_0_sqr (x + z)). pose proof (Rle_0_sqr (x - z)). pose proof (Rle_0_sqr (y + z)). pose proof (Rle_0_sqr (y - z)).
  pose proof (Rle_0_sqr (x + w)). pose proof (Rle_0_sqr (x - w)). pose proof (Rle_0_sqr (y + w)). pose proof (Rle_0_sqr (y - w)). pose proof (Rle_0_sqr (z + w)). pose proof (Rle_0_sqr (z - w)). unfold Rsqr in * .
  apply Rabs_le. unfold Props_Err6.rotm. destruct r as [|[|[|[|r]]]], c as [|[|[|[|c]]]]; lra.
Qed.
(** ** C105 *)
Theorem C105_from_matrix : forall (m : mat b32) (Q : RQ) (d : R), 0 <= d <= / 1024 -> near_rot d m Q -> rcomp 3 Q <> 0 ->
  let w := rcomp 3 Q in let s := if Rlt_dec w 0 then -1 else 1 in let r := quaternion_init_from_matrix m in let tol := d + 5.5 * bpow radix2 (-24) in
  forall k, fin (qcomp k r) /\ Rabs (real (qcomp k r) - s * rcomp k Q) <= sqrt tol + d / Rabs w /\ Rabs (real (qcomp k r) - s * rcomp k Q) * Rabs (rcomp k Q) <= tol + d * d / (2 * (w * w)).
Proof.
  intros m Q d D [UQ HM] W w s r tol k. change (bpow radix2 (-24)) with u in tol. pose proof (unit_sum Q UQ) as SU.
  assert (E : forall i j, (i < 3)%nat -> (j < 3)%nat -> ap (matrix_get_value m i j) (rot_of Q i j) d) by exact HM.
  pose proof (E 0%nat 0%nat ltac:(lia) ltac:(lia)) as E00. pose proof (E 1%nat 1%nat ltac:(lia) ltac:(lia)) as E11. pose proof (E 2%nat 2%nat ltac:(lia) ltac:(lia)) as E22.
  pose proof (E 0%nat 1%nat ltac:(lia) ltac:(lia)) as E01. pose proof (E 1%nat 0%nat ltac:(lia) ltac:(lia)) as E10. pose proof (E 0%nat 2%nat ltac:(lia) ltac:(lia)) as E02. pose proof (E 2%nat 0%nat ltac:(lia) ltac:(lia)) as E20. pose proof (E 1%nat 2%nat ltac:(lia) ltac:(lia)) as E12. pose proof (E 2%nat 1%nat ltac:(lia) ltac:(lia)) as E21.
  pose proof (rot_le Q 0 0 UQ) as B0. pose proof (rot_le Q 1 1 UQ) as B1. pose proof (rot_le Q 2 2 UQ) as B2.
  assert (V : forall i, Rabs (rcomp i Q) <= 1) by (intros i; now apply rcomp_le).
  assert (G : forall s1 s2 s3 i, pmR s3 (pmR s2 (pmR s1 1 (rot_of Q 0 0)) (rot_of Q 1 1)) (rot_of Q 2 2) = 4 * (rcomp i Q * rcomp i Q) ->
    let t := fmul fhalf (fsqrt (cMAX (pm s3 (pm s2 (pm s1 fone (matrix_get_value m 0 0)) (matrix_get_value m 1 1)) (matrix_get_value m 2 2)) fzero)) in fin t /\ 0 <= real t /\ Rabs (real t * real t - rcomp i Q * rcomp i Q) <= d + 5.5 * u).
  { intros s1 s2 s3 i EQ. apply root_float; auto. exact (diag_float s1 s2 s3 _ _ _ _ _ _ (rcomp i Q) d D E00 E11 E22 B0 B1 (V i) EQ). }
  pose proof (G true false false 0%nat ltac:(unfold pmR, rot_of, Props_Err6.rotm; lra)) as G0. pose proof (G false true false 1%nat ltac:(unfold pmR, rot_of, Props_Err6.rotm; lra)) as G1.
  pose proof (G false false true 2%nat ltac:(unfold pmR, rot_of, Props_Err6.rotm; lra)) as G2. pose proof (G true true true 3%nat ltac:(unfold pmR, rot_of, Props_Err6.rotm; lra)) as G3. cbv zeta in G0, G1, G2, G3. unfold pm in G0, G1, G2, G3. clear G E.
  destruct k as [|[|[|k]]].
  - destruct G0 as (F & P & K). exact (comp_float _ _ _ _ _ w _ d D F P K E21 E12 ltac:(unfold rot_of, Props_Err6.rotm, w; ring) W).
  - destruct G1 as (F & P & K). exact (comp_float _ _ _ _ _ w _ d D F P K E02 E20 ltac:(unfold rot_of, Props_Err6.rotm, w; ring) W).
  - destruct G2 as (F & P & K). exact (comp_float _ _ _ _ _ w _ d D F P K E10 E01 ltac:(unfold rot_of, Props_Err6.rotm, w; ring) W).
  - destruct G3 as (F & P & K). match goal with |- context [rcomp ?i Q] => change i with (Nat.add 3 k) end. assert (KK : rcomp (3 + k)%nat Q = w) by (unfold w, rcomp; destruct k; reflexivity). rewrite KK.
    assert (SW : s * w = Rabs w) by (unfold s, Rabs; destruct (Rlt_dec w 0), (Rcase_abs w); lra). rewrite SW.
    assert (WW : w * w = Rabs w * Rabs w) by (rewrite <- Rabs_mult, Rabs_pos_eq; [reflexivity|nra]). fold w in K. rewrite WW in K.
    destruct (root_near _ _ (d + 5.5 * u) P (Rabs_pos w) K) as [N1 N2]. fold tol in N1, N2, K.
    assert (AW : 0 < Rabs w) by now apply Rabs_pos_lt. assert (D1 : 0 <= d / Rabs w) by (apply Rmult_le_pos; [lra|left; now apply Rinv_0_lt_compat]).
    assert (D2 : 0 <= d * d / (2 * (w * w))) by (rewrite WW; apply Rmult_le_pos; [nra|left; apply Rinv_0_lt_compat; nra]).
    assert (QW : forall q : quat b32, qcomp (3 + k)%nat q = qw q) by (intros q; unfold qcomp; destruct k; reflexivity). match goal with |- context [qcomp ?i r] => change i with (Nat.add 3 k) end. rewrite QW. split; [exact F|].
    match type of N1 with Rabs (real ?t - _) <= _ => change (qw r) with t end. split; [eapply Rle_trans; [exact N1|lra]|eapply Rle_trans; [exact N2|lra]].
Qed.

(** the rotation matrix of a nearly unit quaternion *)
Lemma rot_lip Q (p : nat -> R) e r c : unit_q Q -> 0 <= e <= / 1024 -> (forall k, Rabs (p k - rcomp k Q) <= e) -> (r < 3)%nat -> (c < 3)%nat ->
  Rabs (Props_Err6.rotm (p 0%nat) (p 1%nat) (p 2%nat) (p 3%nat) r c - rot_of Q r c) <= 6 * e.
Proof.
  intros UQ E H Hr Hc. pose proof (unit_sum Q UQ) as SU. pose proof (H 0%nat) as H0. pose proof (H 1%nat) as H1. pose proof (H 2%nat) as H2. pose proof (H 3%nat) as H3. unfold rot_of.
  set (x := rcomp 0 Q) in * . set (y := rcomp 1 Q) in * . set (z := rcomp 2 Q) in * . set (w := rcomp 3 Q) in * . clearbody x y z w. clear H UQ.
  assert (A : forall t, Rabs t * Rabs t = t * t) by (intros t; rewrite <- Rabs_mult; apply Rabs_pos_eq; nra).
  (* a product moves by at most e (|a| + |b|) + e^2 *)
  assert (PR : forall a b a' b', Rabs (a' - a) <= e -> Rabs (b' - b) <= e -> Rabs (a' * b' - a * b) <= e * (Rabs a + Rabs b) + e * e).
  { intros a b a' b' HA HB. replace (a' * b' - a * b) with ((a' - a) * b + a * (b' - b) + (a' - a) * (b' - b)) by ring. eapply Rle_trans; [apply Rabs_triang|]. eapply Rle_trans; [apply Rplus_le_compat_r, Rabs_triang|]. rewrite !Rabs_mult.
    pose proof (Rabs_pos (a' - a)). pose proof (Rabs_pos (b' - b)). pose proof (Rabs_pos a). pose proof (Rabs_pos b). nra. }
  assert (S2 : forall a b, a * a + b * b <= 1 -> Rabs a + Rabs b <= 1.42).
  { intros a b L. apply Rsqr_incr_0_var; [|lra]. unfold Rsqr. rewrite <- (A a), <- (A b) in L. pose proof (Rle_0_sqr (Rabs a - Rabs b)). unfold Rsqr in * . nra. }
  assert (S4 : forall a b c0 d0, a * a + b * b + c0 * c0 + d0 * d0 = 1 -> Rabs a + Rabs b + Rabs c0 + Rabs d0 <= 2).
  { intros a b c0 d0 L. apply Rsqr_incr_0_var; [|lra]. unfold Rsqr. rewrite <- (A a), <- (A b), <- (A c0), <- (A d0) in L.
    pose proof (Rle_0_sqr (Rabs a - Rabs b)). pose proof (Rle_0_sqr (Rabs a - Rabs c0)). pose proof (Rle_0_sqr (Rabs a - Rabs d0)). pose proof (Rle_0_sqr (Rabs b - Rabs c0)). pose proof (Rle_0_sqr (Rabs b - Rabs d0)). pose proof (Rle_0_sqr (Rabs c0 - Rabs d0)). unfold Rsqr in * . lra. }
  assert (D : forall a b a' b', Rabs (a' - a) <= e -> Rabs (b' - b) <= e -> a * a + b * b <= 1 -> Rabs (1 - 2 * (a' * a' + b' * b') - (1 - 2 * (a * a + b * b))) <= 6 * e).
  { intros a b a' b' HA HB L. pose proof (PR a a a' a' HA HA) as P1. pose proof (PR b b b' b' HB HB) as P2. pose proof (S2 a b L). apply Rabs_le_inv in P1, P2. apply Rabs_le. assert (e * (Rabs a + Rabs b) <= e * 1.42) by (apply Rmult_le_compat_l; lra). nra. }
  assert (O : forall (f : bool) a b c0 d0 a' b' c' d', Rabs (a' - a) <= e -> Rabs (b' - b) <= e -> Rabs (c' - c0) <= e -> Rabs (d' - d0) <= e -> a * a + b * b + c0 * c0 + d0 * d0 = 1 ->
    Rabs (2 * (if f then a' * b' + c' * d' else a' * b' - c' * d') - 2 * (if f then a * b + c0 * d0 else a * b - c0 * d0)) <= 6 * e).
  { intros f a b c0 d0 a' b' c' d' HA HB HC HD L. pose proof (PR a b a' b' HA HB) as P1. pose proof (PR c0 d0 c' d' HC HD) as P2. pose proof (S4 a b c0 d0 L). apply Rabs_le_inv in P1, P2. apply Rabs_le.
    assert (e * (Rabs a + Rabs b) + e * (Rabs c0 + Rabs d0) <= e * 2) by (rewrite <- Rmult_plus_distr_l; apply Rmult_le_compat_l; lra). destruct f; nra. }
  destruct r as [|[|[|r]]]; [| | |lia]; destruct c as [|[|[|c]]]; try lia; unfold Props_Err6.rotm.
  - apply D; auto; nra.
  - apply (O true); auto; lra.
  - apply (O false); auto; lra.
  - apply (O false); auto; lra.
  - apply D; auto; nra.
  - apply (O true); auto; lra.
  - apply (O true); auto; lra.
  - apply (O false); auto; lra.
  - apply D; auto; nra.
Qed.
Lemma to_matrix_near q Q : near_q q Q -> near_rot (38 * u) (quaternion_to_matrix q) Q.
Proof.
  intros [UQ H]. split; [exact UQ|]. intros r c Hr Hc. change (bpow radix2 (-22)) with (/ 4194304) in H.
  assert (V : forall k, Rabs (rcomp k Q) <= 1) by (intros k; now apply rcomp_le). pose proof (unit_sum Q UQ) as SU.
  assert (UP : forall k, Props_Err5.upto 40 (qcomp k q)). { intros k. destruct (H k) as [F E]. split; [exact F|]. specialize (V k). apply Rabs_le_inv in V, E. apply Rle_trans with 2; [apply Rabs_le; lra|]. change 2 with (bpow radix2 1). apply bpow_le; lia. }
  pose proof (Props_Err6.C83_quaternion_to_matrix q r c (conj (UP 0%nat) (conj (UP 1%nat) (conj (UP 2%nat) (UP 3%nat)))) ltac:(lia) ltac:(lia)) as W. cbv zeta in W. destruct W as [F E].
  pose proof (rot_lip Q (fun k => real (qcomp k q)) (/ 4194304) r c UQ ltac:(lra) (fun k => proj2 (H k)) Hr Hc) as L. cbv beta in L. unfold qcomp at 1 2 3 4 in L. cbn [nth] in L.
  apply (ap_val _ _ _ _ (fin_X _ F)). set (t := Props_Err6.rotm _ _ _ _ r c) in * . set (g := real (matrix_get_value (quaternion_to_matrix q) r c)) in * . clearbody g t.
  assert (N : real (qx q) * real (qx q) + real (qy q) * real (qy q) + real (qz q) * real (qz q) + real (qw q) * real (qw q) <= 1.01).
  { pose proof (H 0%nat) as [_ H0]. pose proof (H 1%nat) as [_ H1]. pose proof (H 2%nat) as [_ H2]. pose proof (H 3%nat) as [_ H3]. unfold qcomp in H0, H1, H2, H3. cbn [nth] in H0, H1, H2, H3.
    pose proof (V 0%nat) as V0. pose proof (V 1%nat) as V1. pose proof (V 2%nat) as V2. pose proof (V 3%nat) as V3. apply Rabs_le_inv in H0, H1, H2, H3, V0, V1, V2, V3.
    assert (SQ : forall a b, - / 4194304 <= a - b <= / 4194304 -> -1 <= b <= 1 -> a * a <= b * b + / 1000) by (intros a b A B; nra).
    pose proof (SQ _ _ H0 V0). pose proof (SQ _ _ H1 V1). pose proof (SQ _ _ H2 V2). pose proof (SQ _ _ H3 V3). lra. }
  unfold Props_Err5.slack in E. change (bpow radix2 (-24)) with u in E. assert (T : bpow radix2 (-100) <= / 1000 * u) by (apply Rle_trans with (bpow radix2 (-40)); [apply bpow_le; lia|simpl; lra]).
  set (n := real (qx q) * real (qx q) + real (qy q) * real (qy q) + real (qz q) * real (qz q) + real (qw q) * real (qw q)) in * . clearbody n.
  assert (E' : Rabs (g - t) <= 12.9 * u) by (eapply Rle_trans; [exact E|]; lra). clear E. apply Rabs_le_inv in E', L. apply Rabs_le. lra.
Qed.
Theorem C105_round_trip : forall (q : quat b32) (Q : RQ), near_q q Q -> rcomp 3 Q <> 0 ->
  let w := rcomp 3 Q in let s := if Rlt_dec w 0 then -1 else 1 in let r := quaternion_init_from_matrix (quaternion_to_matrix q) in let e := 38 * bpow radix2 (-24) in
  forall k, fin (qcomp k r) /\ Rabs (real (qcomp k r) - s * rcomp k Q) <= 17 / 10000 + e / Rabs w /\ Rabs (real (qcomp k r) - s * rcomp k Q) * Rabs (rcomp k Q) <= 44 * bpow radix2 (-24) + e * e / (2 * (w * w)).
Proof.
  intros q Q H W w s r e k. change (bpow radix2 (-24)) with u in * . pose proof (to_matrix_near q Q H) as N.
  destruct (C105_from_matrix _ Q (38 * u) ltac:(lra) N W k) as (F & A & B). fold w s r e in F, A, B. change (bpow radix2 (-24)) with u in A, B. split; [exact F|]. split.
  - assert (sqrt (e + 5.5 * u) <= 17 / 10000) by (apply Rsqr_incr_0_var; [unfold Rsqr; rewrite sqrt_sqrt; unfold e; lra|lra]). eapply Rle_trans; [exact A|]. apply Rplus_le_compat_r. assumption.
  - eapply Rle_trans; [exact B|]. apply Rplus_le_compat_r. unfold e. lra.
Qed.

(** ** a concrete case: a rotation about the x axis, (0.6, 0, 0, 0.8) *)
Example C105_ex : let q := Qt (lit 10066330 (-24)) (lit 0 0) (lit 0 0) (lit 13421773 (-24)) : quat b32 in let Q := RQuat.RQ4 (3 / 5) 0 0 (4 / 5) in
  near_q q Q /\ rcomp 3 Q <> 0 /\ near_rot (38 * bpow radix2 (-24)) (quaternion_to_matrix q) Q /\ 0 <= 38 * bpow radix2 (-24) <= / 1024.
Proof.
  intros q Q. destruct Props_Slerp.C102_ex as (_ & _ & _ & NB & _). change (near_q q Q) in NB. change (bpow radix2 (-24)) with u.
  refine (conj NB (conj _ (conj (to_matrix_near q Q NB) _))); [|lra]. cbn. lra.
Qed.
