(** * Props_QAng: quaternions from angles, and angle and axis of a quaternion, in binary32 (C107). *)
From Coq Require Import ZArith Reals Bool List Lra Lia Psatz.
From Flocq Require Import Core BinarySingleNaN.
From Verif Require Import Num Simd Vec Rect Box Mat Geo Quat OrdThy FloatThy B32Setup FloatLem ErrThy Props_Err Props_Err2 Props_Err3 Props_Rot Props_EulF Props_Slerp Props_FromMat.
From Verif Require RGeo Props_Err4 Props_Err5 Props_Err6 Props_MatX2 RQuat Props_QuatX2 Props_RaySph Props_Dec Props_Proj Props_Eq Props_Euler.
Import ListNotations.
Local Open Scope R_scope.

(** ** specification *)
(** the float quaternion is the unit quaternion Q up to e in each component *)
Definition nearby (e : R) (q : quat b32) (Q : RQ) : Prop := unit_q Q /\ forall k, within e (qcomp k q) (rcomp k Q).
(** a turn by x about the x axis after one by y about the y axis after one by z about the z axis (C44) *)
Notation qxyz := Props_QuatX2.qxyz.

Lemma ap_within e x t : ap x t e -> within e x t. Proof. intros H. exact (ap_fin _ _ _ H). Qed.
Lemma within_ap e x t : within e x t -> ap x t e. Proof. intros [F H]. exact (ap_val _ _ _ _ (fin_X _ F) H). Qed.
Lemma radians_close (L : LibM b32) (a b c : b32) (x y z d : R) : libm_accurate L -> 0 <= d <= / 2000 -> fin a -> fin b -> fin c -> Rabs (real a - x) <= d -> Rabs (real b - y) <= d -> Rabs (real c - z) <= d ->
  nearby (20 * u + 3.2 * d) (quaternion_init_from_radians a b c) (qxyz x y z).
Proof.
  intros HL D Fa Fb Fc Ea Eb Ec. split; [apply (Props_QuatX2.C44_from_radians x y z)|].
  assert (ETA : eta <= / 1000 * u). { change eta with (bpow radix2 (-150)). apply Rle_trans with (bpow radix2 (-40)); [apply bpow_le; lia|simpl; lra]. }
  set (e := 2.01 * u + / 2 * d). assert (E0 : 0 <= e <= / 1000) by (unfold e; lra).
  assert (H : forall (s : b32) t, fin s -> Rabs (real s - t) <= d -> ap (fsin (fmul s fhalf)) (sin (t / 2)) e /\ ap (fcos (fmul s fhalf)) (cos (t / 2)) e).
  { intros s t F E. destruct (half_exact s F) as [FH EH]. assert (DH : Rabs (real (fmul s fhalf) - t / 2) <= / 2 * d + / 500 * u). { apply Rabs_le_inv in EH, E. apply Rabs_le. lra. }
    destruct (trig_close L _ _ _ HL FH DH) as [A B]. split; eapply ap_weak; try eassumption; unfold e; lra. }
  destruct (H a x Fa Ea) as [Sa Ca]. destruct (H b y Fb Eb) as [Sb Cb]. destruct (H c z Fc Ec) as [Sc Cc]. clear H.
  destruct (P_bounds e E0) as (B2 & B3 & B). assert (E100 : 0 <= e <= / 100) by lra. assert (N2 : 0 <= P2 e <= / 100) by lra. assert (N3 : 0 <= P3 e <= / 100) by lra.
  assert (T3 : forall p q r t1 t2 t3, ap p t1 e -> ap q t2 e -> ap r t3 e -> Rabs t1 <= 1 -> Rabs t2 <= 1 -> Rabs t3 <= 1 -> ap (fmul (fmul p q) r) (t1 * t2 * t3) (P3 e) /\ Rabs (t1 * t2 * t3) <= 1).
  { intros p q r t1 t2 t3 A1 A2 A3 L1 L2 L3. pose proof (mulN p q _ _ _ _ A1 A2 L1 L2 E100 E100) as M. fold (P2 e) in M. pose proof (one_mul _ _ L1 L2) as L12. split; [|now apply one_mul].
    eapply ap_mono; [exact (mulN _ _ _ _ _ _ M A3 L12 L3 N2 E100)|unfold P3; lra]. }
  assert (PB : P3 e + P3 e + 2.03 * u <= 20 * u + 3.2 * d). { unfold P3. assert (P2 e <= 2.001 * e + 1.03 * u) by (unfold P2; nra). assert (0 <= e * P2 e <= / 1000 * P2 e) by (split; nra). unfold e in * . lra. }
  pose proof (sin1 (x / 2)) as x1. pose proof (cos1 (x / 2)) as x2. pose proof (sin1 (y / 2)) as y1. pose proof (cos1 (y / 2)) as y2. pose proof (sin1 (z / 2)) as z1. pose proof (cos1 (z / 2)) as z2.
  assert (PL : forall p q r p' q' r' t1 t2 t3 t1' t2' t3' v, ap p t1 e -> ap q t2 e -> ap r t3 e -> ap p' t1' e -> ap q' t2' e -> ap r' t3' e -> Rabs t1 <= 1 -> Rabs t2 <= 1 -> Rabs t3 <= 1 -> Rabs t1' <= 1 -> Rabs t2' <= 1 -> Rabs t3' <= 1 ->
    (v = t1 * t2 * t3 + t1' * t2' * t3' -> within (20 * u + 3.2 * d) (fadd (fmul (fmul p q) r) (fmul (fmul p' q') r')) v) /\ (v = t1 * t2 * t3 - t1' * t2' * t3' -> within (20 * u + 3.2 * d) (fsub (fmul (fmul p q) r) (fmul (fmul p' q') r')) v)).
  { intros p q r p' q' r' t1 t2 t3 t1' t2' t3' v A1 A2 A3 A1' A2' A3' L1 L2 L3 L1' L2' L3'. destruct (T3 _ _ _ _ _ _ A1 A2 A3 L1 L2 L3) as [M N]. destruct (T3 _ _ _ _ _ _ A1' A2' A3' L1' L2' L3') as [M' N']. split; intros ->; apply ap_within; (eapply ap_mono; [|exact PB]).
    - exact (addN _ _ _ _ _ _ M M' N N' N3 N3).
    - exact (subN _ _ _ _ _ _ M M' N N' N3 N3). }
  assert (RC : forall k, rcomp k (qxyz x y z) = nth k [sin (x / 2) * cos (y / 2) * cos (z / 2) + cos (x / 2) * sin (y / 2) * sin (z / 2); cos (x / 2) * sin (y / 2) * cos (z / 2) - sin (x / 2) * cos (y / 2) * sin (z / 2); cos (x / 2) * cos (y / 2) * sin (z / 2) + sin (x / 2) * sin (y / 2) * cos (z / 2)] (cos (x / 2) * cos (y / 2) * cos (z / 2) - sin (x / 2) * sin (y / 2) * sin (z / 2))).
  { intros k. unfold rcomp, Props_QuatX2.qxyz, RQuat.qaxis, RQuat.qmul, Props_QuatX2.ex, Props_QuatX2.ey, Props_QuatX2.ez, Props_MatX2.add3, Props_MatX2.scl3, Props_MatX2.cross, Props_MatX2.dot; cbn [RQuat.qs RQuat.qv Props_MatX2.r3x Props_MatX2.r3y Props_MatX2.r3z].
    destruct k as [|[|[|[|k]]]]; cbn [nth]; ring. }
  intros k. rewrite RC. unfold qcomp, quaternion_init_from_radians; cbn [qx qy qz qw]. destruct k as [|[|[|k]]]; cbn [nth].
  - exact (proj1 (PL _ _ _ _ _ _ _ _ _ _ _ _ _ Sa Cb Cc Ca Sb Sc x1 y2 z2 x2 y1 z1) eq_refl).
  - exact (proj2 (PL _ _ _ _ _ _ _ _ _ _ _ _ _ Ca Sb Cc Sa Cb Sc x2 y1 z2 x1 y2 z1) eq_refl).
  - exact (proj1 (PL _ _ _ _ _ _ _ _ _ _ _ _ _ Ca Cb Sc Sa Sb Cc x2 y2 z1 x1 y1 z2) eq_refl).
  - destruct k; exact (proj2 (PL _ _ _ _ _ _ _ _ _ _ _ _ _ Ca Cb Cc Sa Sb Sc x2 y2 z2 x1 y1 z1) eq_refl).
Qed.

(** the rotation matrix of a quaternion that is only nearly Q *)
Lemma matrix_nearby e q Q : 0 <= e <= / 1024 -> nearby e q Q -> near_rot (6 * e + 13 * u) (quaternion_to_matrix q) Q.
Proof.
  intros E [UQ H]. split; [exact UQ|]. intros r c Hr Hc.
  assert (V : forall k, Rabs (rcomp k Q) <= 1) by (intros k; now apply rcomp_le). pose proof (unit_sum Q UQ) as SU.
  assert (UP : forall k, Props_Err5.upto 40 (qcomp k q)). { intros k. destruct (H k) as [F D]. split; [exact F|]. specialize (V k). apply Rabs_le_inv in V, D. apply Rle_trans with 2; [apply Rabs_le; lra|]. change 2 with (bpow radix2 1). apply bpow_le; lia. }
  pose proof (Props_Err6.C83_quaternion_to_matrix q r c (conj (UP 0%nat) (conj (UP 1%nat) (conj (UP 2%nat) (UP 3%nat)))) ltac:(lia) ltac:(lia)) as W. cbv zeta in W. destruct W as [F D].
  pose proof (rot_lip Q (fun k => real (qcomp k q)) e r c UQ E (fun k => proj2 (H k)) Hr Hc) as L. cbv beta in L. unfold qcomp at 1 2 3 4 in L. cbn [nth] in L.
  apply (ap_val _ _ _ _ (fin_X _ F)). set (t := Props_Err6.rotm _ _ _ _ r c) in * . set (g := real (matrix_get_value (quaternion_to_matrix q) r c)) in * . clearbody g t.
  assert (N : real (qx q) * real (qx q) + real (qy q) * real (qy q) + real (qz q) * real (qz q) + real (qw q) * real (qw q) <= 1.01).
  { pose proof (Rle_trans _ _ _ (proj2 (H 0%nat)) (proj2 E)) as H0. pose proof (Rle_trans _ _ _ (proj2 (H 1%nat)) (proj2 E)) as H1. pose proof (Rle_trans _ _ _ (proj2 (H 2%nat)) (proj2 E)) as H2. pose proof (Rle_trans _ _ _ (proj2 (H 3%nat)) (proj2 E)) as H3. unfold qcomp in H0, H1, H2, H3. cbn [nth] in H0, H1, H2, H3.
    pose proof (V 0%nat) as V0. pose proof (V 1%nat) as V1. pose proof (V 2%nat) as V2. pose proof (V 3%nat) as V3. apply Rabs_le_inv in H0, H1, H2, H3, V0, V1, V2, V3.
    assert (SQ : forall a b, - / 1024 <= a - b <= / 1024 -> -1 <= b <= 1 -> a * a <= b * b + / 490) by (intros a b A B; nra).
    pose proof (SQ _ _ H0 V0). pose proof (SQ _ _ H1 V1). pose proof (SQ _ _ H2 V2). pose proof (SQ _ _ H3 V3). clear - SU H4 H5 H6 H7. lra. }
  unfold Props_Err5.slack in D. change (bpow radix2 (-24)) with u in D. assert (T : bpow radix2 (-100) <= / 1000 * u) by (apply Rle_trans with (bpow radix2 (-40)); [apply bpow_le; lia|simpl; lra]).
  set (n := real (qx q) * real (qx q) + real (qy q) * real (qy q) + real (qz q) * real (qz q) + real (qw q) * real (qw q)) in * . clearbody n.
  assert (D' : Rabs (g - t) <= 12.9 * u) by (eapply Rle_trans; [exact D|]; lra). clear D. apply Rabs_le_inv in D', L. apply Rabs_le. lra.
Qed.

(** ** C107 *)
Theorem C107_from_radians : forall (L : LibM b32) (x y z : b32), libm_accurate L -> fin x -> fin y -> fin z ->
  nearby (bpow radix2 (-19)) (quaternion_init_from_radians x y z) (qxyz (real x) (real y) (real z)).
Proof.
  intros L x y z HL Fx Fy Fz. assert (Z : forall a : b32, Rabs (real a - real a) <= 0) by (intros a; rewrite Rminus_eq_0, Rabs_R0; lra).
  destruct (radians_close L x y z _ _ _ 0 HL ltac:(lra) Fx Fy Fz (Z _) (Z _) (Z _)) as [U H]. split; [exact U|]. intros k. destruct (H k) as [F E]. split; [exact F|]. assert (bpow radix2 (-19) = 32 * u) by (simpl; lra). lra.
Qed.
Theorem C107_from_angles : forall (L : LibM b32) (x y z : b32) (T : R), libm_accurate L -> (forall a, In a [x; y; z] -> fin a /\ Rabs (radians a) <= T) -> T <= 500 ->
  let q := quaternion_init_from_angles x y z in let Q := qxyz (radians x) (radians y) (radians z) in
  nearby (bpow radix2 (-19) * (1 + T)) q Q /\ near_rot (bpow radix2 (-16) * (1 + T)) (quaternion_to_matrix q) Q.
Proof.
  intros L x y z T HL HA HT q Q. assert (U : bpow radix2 (-19) = 32 * u) by (simpl; lra). assert (U6 : bpow radix2 (-16) = 256 * u) by (simpl; lra).
  assert (T0 : 0 <= T). { destruct (HA x) as [_ B]; [simpl; auto|]. pose proof (Rabs_pos (radians x)). lra. }
  assert (ETA : eta <= / 1000 * u). { apply Rle_trans with (bpow radix2 (-40)); [apply bpow_le; lia|]. simpl. lra. }
  set (d := 2 * u * T + / 1000 * u).
  assert (R : forall a, In a [x; y; z] -> fin (deg_to_rad a) /\ Rabs (real (deg_to_rad a) - radians a) <= d).
  { intros a I. destruct (HA a I) as [F B]. destruct (Props_Euler.d2r_err a F) as [FR ER].
    - unfold radians in B. pose proof Props_Euler.PI_bounds as PB. rewrite Rabs_mult, (Rabs_pos_eq (PI / 180)) in B by lra. pose proof (Rabs_pos (real a)). assert (Rabs (real a) <= 120000) by nra. apply Rle_trans with (bpow radix2 17); [simpl; lra|apply bpow_le; lia].
    - split; [exact FR|]. fold (radians a) in ER. assert (U2 : bpow radix2 (-23) = 2 * u) by (simpl; lra). rewrite U2 in ER. assert (2 * u * Rabs (radians a) <= 2 * u * T) by (apply Rmult_le_compat_l; lra). unfold d. lra. }
  destruct (R x) as [Fx Dx]; [simpl; auto|]. destruct (R y) as [Fy Dy]; [simpl; auto|]. destruct (R z) as [Fz Dz]; [simpl; auto|].
  destruct (radians_close L _ _ _ _ _ _ d HL ltac:(unfold d; lra) Fx Fy Fz Dx Dy Dz) as [UQ H]. fold Q in UQ, H.
  assert (N : nearby (bpow radix2 (-19) * (1 + T)) q Q). { split; [exact UQ|]. intros k. destruct (H k) as [F E]. split; [exact F|]. eapply Rle_trans; [exact E|]. rewrite U. unfold d. lra. }
  split; [exact N|]. destruct (matrix_nearby (bpow radix2 (-19) * (1 + T)) q Q ltac:(rewrite U; lra) N) as [_ M]. split; [exact UQ|]. intros r c Hr Hc. eapply ap_weak; [exact (M r c Hr Hc)|]. rewrite U, U6. lra.
Qed.

(** ** the hypotheses can be met: the sine and cosine of C90's example, any three angles *)
Example C107_ex : libm_accurate libm23 /\ fin (lit 1 0) /\ fin (lit (-3) 0) /\ fin (lit 2 0) /\ (forall a, In a [lit 1 0; lit (-3) 0; lit 2 0] -> fin a /\ Rabs (radians a) <= 2).
Proof.
  split; [apply libm23_ok|]. destruct (lit_real 1 0) as [F1 R1]; try lia. destruct (lit_real (-3) 0) as [F3 R3]; try lia. destruct (lit_real 2 0) as [F2 R2]; try lia. change (bpow radix2 0) with 1 in * .
  change (flit 1 0) with (lit 1 0 : b32) in * . change (flit (-3) 0) with (lit (-3) 0 : b32) in * . change (flit 2 0) with (lit 2 0 : b32) in * . pose proof Props_Euler.PI_bounds as PB.
  refine (conj F1 (conj F3 (conj F2 _))). intros a [<-|[<-|[<-|[]]]]; (split; [assumption|]); unfold radians; rewrite ?R1, ?R3, ?R2; apply Rabs_le; split; lra.
Qed.
