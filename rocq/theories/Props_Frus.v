(** * Props_Frus: frustums taken from matrices, and culling with them, in binary32 (C99). *)
From Coq Require Import ZArith Reals Bool List Lra Lia Psatz.
From Flocq Require Import Core BinarySingleNaN.
From Verif Require Import Num Simd Vec Rect Box Mat Geo Quat OrdThy FloatThy B32Setup FloatLem ErrThy Props_Err Props_Err2 Props_Err3 ErrEx Props_Err4 Props_Err5 RGeo Props_Look Props_RayTri.
From Verif Require Props_Rot Props_RaySph Props_Proj Props_Dec Props_TriF.
Import ListNotations.
Local Open Scope R_scope.
Notation pval := Props_TriF.pval.

(** ** specification *)
(** the exact clip coordinate [j] (0, 1, 2 for x, y, z and 3 for w) of a point *)
Definition clip (m : mat b32) (j : nat) (P : R3) : R := ent m 0 j * X3 P + ent m 1 j * Y3 P + ent m 2 j * Z3 P + ent m 3 j.
(** the six conditions [x <= w], [-w <= x], [y <= w], ... say that these are not negative *)
Definition slack (m : mat b32) (k : nat) (P : R3) : R := clip m 3 P + (if Nat.even k then - 1 else 1) * clip m (Nat.div2 k) P.
(** the coefficients of the condition as a plane *)
Definition nrm (m : mat b32) (k : nat) : R3 := let s := if Nat.even k then - 1 else 1 in let j := Nat.div2 k in
  mk3 (ent m 0 3 + s * ent m 0 j) (ent m 1 3 + s * ent m 1 j) (ent m 2 3 + s * ent m 2 j).
Definition cst (m : mat b32) (k : nat) : R := ent m 3 3 + (if Nat.even k then - 1 else 1) * ent m 3 (Nat.div2 k).
(** the exact signed distance of a point from the plane, and the uncertainty of the computed one *)
Definition depth (m : mat b32) (k : nat) (P : R3) : R := slack m k P / norm (nrm m k).
Definition margin (m : mat b32) (k : nat) (P : R3) : R := bpow radix2 (-17) * (norm P + Rabs (cst m k) / norm (nrm m k)) + bpow radix2 (-130).
(** clip planes that are neither degenerate nor enormous *)
Definition clips (m : mat b32) : Prop := finite_mat m /\ forall k, (k < 6)%nat -> bpow radix2 (-10) <= norm (nrm m k) <= bpow radix2 50 /\ Rabs (cst m k) <= bpow radix2 59.

Lemma slack_plane m k P : slack m k P = dot (nrm m k) P + cst m k.
Proof. unfold slack, clip, nrm, cst, dot; cbn [X3 Y3 Z3]. destruct (Nat.even k); ring. Qed.

(** ** one plane *)
Lemma near_comp (a N : R3) : Rabs (X3 a - X3 N) <= u * Rabs (X3 N) -> Rabs (Y3 a - Y3 N) <= u * Rabs (Y3 N) -> Rabs (Z3 a - Z3 N) <= u * Rabs (Z3 N) -> dist a N <= u * norm N.
Proof.
  intros H1 H2 H3. pose proof (norm_nonneg N) as N0. unfold dist. apply norm_le; [apply Rmult_le_pos; lra|].
  assert (S : forall t n, Rabs t <= u * Rabs n -> t * t <= u * u * (n * n)). { intros t n H. rewrite <- (Rabs_pos_eq (t * t)) by apply Rle_0_sqr. rewrite Rabs_mult. replace (u * u * (n * n)) with (u * Rabs n * (u * Rabs n)) by (replace (n * n) with (Rabs n * Rabs n) by (rewrite <- Rabs_mult; apply Rabs_pos_eq, Rle_0_sqr); ring). apply Rmult_le_compat; auto using Rabs_pos. }
  replace (u * norm N * (u * norm N)) with (u * u * (norm N * norm N)) by ring. rewrite norm_sq. unfold dot, vminus; cbn [X3 Y3 Z3]. pose proof (S _ _ H1). pose proof (S _ _ H2). pose proof (S _ _ H3). lra.
Qed.
Lemma clip_plane (BK : Backend b32) (t : V) (N : R3) (C : R) : estimates_ok BK -> finite4 t ->
  Rabs (real (vx t) - X3 N) <= u * Rabs (X3 N) -> Rabs (real (vy t) - Y3 N) <= u * Rabs (Y3 N) -> Rabs (real (vz t) - Z3 N) <= u * Rabs (Z3 N) -> Rabs (real (vw t) - C) <= u * Rabs C ->
  bpow radix2 (-10) <= norm N <= bpow radix2 50 -> Rabs C <= bpow radix2 59 ->
  let p := plane_normalize (plane_init_from_vec4 t) in
  Props_Dec.finite_plane p /\ dist (val3 (plane_get_normal p)) (dirn N) <= 40 * u /\ Rabs (real (plane_get_constant p) - C / norm N) <= 40 * u * (Rabs C / norm N) + bpow radix2 (-150).
Proof.
  intros HB (F1 & F2 & F3 & F4) H1 H2 H3 H4 [NL NU] CU p. set (v := vec4_get_xyz t).
  assert (D : dist (val3 v) N <= u * norm N) by (now apply near_comp). set (n := norm N) in * . set (nf := norm (val3 v)).
  change (bpow radix2 (-10)) with (/ 1024) in NL. assert (NP : 0 < n) by lra.
  pose proof (norm_gap (val3 v) N) as G. fold n nf in G. assert (GN : Rabs (nf - n) <= u * n) by lra. apply Rabs_le_inv in GN.
  assert (FV : finite3 v) by (repeat split; assumption).
  assert (RG : bpow radix2 (-22) <= dot3 v v <= bpow radix2 101).
  { rewrite val3_dot3, <- norm_sq. fold nf. change (bpow radix2 (-22)) with (/ 4194304). split.
    - apply Rle_trans with (0.99 * / 1024 * (0.99 * / 1024)); [lra|apply Rmult_le_compat; lra].
    - assert (E : bpow radix2 101 = 2 * (bpow radix2 50 * bpow radix2 50)) by (rewrite <- bpow_plus; change 101%Z with (1 + 100)%Z; now rewrite bpow_plus). rewrite E. pose proof (bpow_gt_0 radix2 50). apply Rle_trans with (1.01 * bpow radix2 50 * (1.01 * bpow radix2 50)); [apply Rmult_le_compat; lra|]. assert (0 < bpow radix2 50 * bpow radix2 50) by (apply Rmult_lt_0_compat; lra). lra. }
  assert (UC : upto 60 (vw t)). { split; [exact F4|]. assert (bpow radix2 60 = 2 * bpow radix2 59) by (change 60%Z with (1 + 59)%Z; now rewrite bpow_plus). pose proof (Rabs_pos C). replace (real (vw t)) with ((real (vw t) - C) + C) by ring. eapply Rle_trans; [apply Rabs_triang|]. lra. }
  destruct (Props_TriF.C97_plane_normalize BK (Pl v (vw t)) HB FV UC (Props_TriF.inner_range BK _ RG)) as (FN & DN & [FC EC]). cbn [pl_n pl_c] in FN, DN, FC, EC. fold nf in EC.
  change (plane_normalize (Pl v (vw t))) with p in * . assert (U19 : bpow radix2 (-19) = 32 * u) by (simpl; lra). rewrite U19 in * .
  split; [split; assumption|]. split.
  - eapply Rle_trans; [apply (dist_tri _ (dirn (val3 v)))|]. assert (dist (dirn (val3 v)) (dirn N) <= 2 * u) by (apply dirn_close; fold n nf; lra). lra.
  - set (c := real (vw t)) in * . pose proof (Rabs_pos C) as C0. set (Q := Rabs C / n). assert (I0 : 0 < / n) by (now apply Rinv_0_lt_compat). assert (Q0 : 0 <= Q) by (unfold Q, Rdiv; apply Rmult_le_pos; lra).
    assert (NFP : 0 < nf) by lra. assert (IN : / nf <= 1.001 * / n). { apply Rle_trans with (/ (0.9999 * n)); [apply Rinv_le_contravar; lra|]. rewrite Rinv_mult. apply Rmult_le_compat_r; lra. }
    assert (IF : 0 < / nf) by (now apply Rinv_0_lt_compat).
    assert (AC : Rabs c <= 1.0001 * Rabs C). { replace c with ((c - C) + C) by ring. eapply Rle_trans; [apply Rabs_triang|]. lra. }
    assert (B1 : Rabs c / nf <= 1.002 * Q). { unfold Rdiv. apply Rle_trans with (1.0001 * Rabs C * (1.001 * / n)); [apply Rmult_le_compat; try lra; apply Rabs_pos|]. unfold Q, Rdiv in * . lra. }
    assert (B2 : Rabs (c / nf - C / n) <= 2.1 * u * Q).
    { replace (c / nf - C / n) with ((c - C) * / nf + C * / n * ((n - nf) * / nf)) by (field; lra). eapply Rle_trans; [apply Rabs_triang|]. rewrite !Rabs_mult, (Rabs_pos_eq (/ nf)), (Rabs_pos_eq (/ n)) by lra.
      assert (T1 : Rabs (c - C) * / nf <= u * Rabs C * (1.001 * / n)) by (apply Rmult_le_compat; try lra; apply Rabs_pos).
      assert (T2 : Rabs (n - nf) * / nf <= 1.001 * u). { apply Rle_trans with (u * n * (1.001 * / n)); [apply Rmult_le_compat; try lra; [apply Rabs_pos|apply Rabs_le; lra]|]. replace (u * n * (1.001 * / n)) with (1.001 * u * (n * / n)) by ring. rewrite Rinv_r by lra. lra. }
      assert (T3 : Rabs C * / n * (Rabs (n - nf) * / nf) <= Rabs C * / n * (1.001 * u)) by (apply Rmult_le_compat_l; [apply Rmult_le_pos; lra|exact T2]). unfold Q, Rdiv in * . lra. }
    replace (real (plane_get_constant p) - C / n) with ((real (plane_get_constant p) - c / nf) + (c / nf - C / n)) by ring. eapply Rle_trans; [apply Rabs_triang|]. fold Q. lra.
Qed.

(** ** the six planes *)
Definition kth (f : frustum b32) (k : nat) : plane b32 := nth k (frustum_planes f) (fr0 f).
Lemma row_sub (BK : Backend b32) (a b : V) : finite4 a -> finite4 b ->
  (forall get : V -> b32, In get [@vx b32; @vy b32; @vz b32; @vw b32] -> Rabs (real (get a) - real (get b)) <= bpow radix2 100) ->
  finite4 (vec4_subtract a b) /\ (forall get : V -> b32, In get [@vx b32; @vy b32; @vz b32; @vw b32] -> Rabs (real (get (vec4_subtract a b)) - (real (get a) - real (get b))) <= u * Rabs (real (get a) - real (get b))).
Proof.
  intros (A1 & A2 & A3 & A4) (B1 & B2 & B3 & B4) H. assert (P : bpow radix2 100 <= bpow radix2 127) by (apply bpow_le; lia).
  assert (K : forall get : V -> b32, In get [@vx b32; @vy b32; @vz b32; @vw b32] -> fin (get (vec4_subtract a b)) /\ Rabs (real (get (vec4_subtract a b)) - (real (get a) - real (get b))) <= u * Rabs (real (get a) - real (get b))).
  { intros get I. pose proof (H get I) as Hg. destruct I as [<-|[<-|[<-|[<-|[]]]]]; [apply (Props_RaySph.sub_w _ _ _ A1 B1 Hg P)|apply (Props_RaySph.sub_w _ _ _ A2 B2 Hg P)|apply (Props_RaySph.sub_w _ _ _ A3 B3 Hg P)|apply (Props_RaySph.sub_w _ _ _ A4 B4 Hg P)]. }
  split; [repeat split; apply K; simpl; auto|]. intros get I. apply K, I.
Qed.
Lemma row_add (BK : Backend b32) (a b : V) : finite4 a -> finite4 b ->
  (forall get : V -> b32, In get [@vx b32; @vy b32; @vz b32; @vw b32] -> Rabs (real (get a) + real (get b)) <= bpow radix2 100) ->
  finite4 (vec4_add a b) /\ (forall get : V -> b32, In get [@vx b32; @vy b32; @vz b32; @vw b32] -> Rabs (real (get (vec4_add a b)) - (real (get a) + real (get b))) <= u * Rabs (real (get a) + real (get b))).
Proof.
  intros (A1 & A2 & A3 & A4) (B1 & B2 & B3 & B4) H. assert (P : bpow radix2 100 <= bpow radix2 127) by (apply bpow_le; lia).
  assert (K : forall get : V -> b32, In get [@vx b32; @vy b32; @vz b32; @vw b32] -> fin (get (vec4_add a b)) /\ Rabs (real (get (vec4_add a b)) - (real (get a) + real (get b))) <= u * Rabs (real (get a) + real (get b))).
  { intros get I. pose proof (H get I) as Hg. destruct I as [<-|[<-|[<-|[<-|[]]]]]; [apply (Props_RaySph.add_w _ _ _ A1 B1 Hg P)|apply (Props_RaySph.add_w _ _ _ A2 B2 Hg P)|apply (Props_RaySph.add_w _ _ _ A3 B3 Hg P)|apply (Props_RaySph.add_w _ _ _ A4 B4 Hg P)]. }
  split; [repeat split; apply K; simpl; auto|]. intros get I. apply K, I.
Qed.
(** ** C99 *)
Theorem C99_frustum_planes : forall (BK : Backend b32) (m : mat b32) (k : nat), estimates_ok BK -> clips m -> (k < 6)%nat ->
  let p := nth k (frustum_get_planes (frustum_init_from_matrix m)) (fr0 (frustum_init_from_matrix m)) in
  finite3 (plane_get_normal p) /\ fin (plane_get_constant p) /\
  dist (val3 (plane_get_normal p)) (dirn (nrm m k)) <= bpow radix2 (-18) /\
  Rabs (real (plane_get_constant p) - cst m k / norm (nrm m k)) <= bpow radix2 (-18) * (Rabs (cst m k) / norm (nrm m k)) + bpow radix2 (-150).
Proof.
  intros BK m k HB [FM H] Hk p. destruct (H k Hk) as [HN HC].
  assert (G : exists t, p = plane_normalize (plane_init_from_vec4 t) /\ finite4 t /\ Rabs (real (vx t) - X3 (nrm m k)) <= u * Rabs (X3 (nrm m k)) /\ Rabs (real (vy t) - Y3 (nrm m k)) <= u * Rabs (Y3 (nrm m k)) /\ Rabs (real (vz t) - Z3 (nrm m k)) <= u * Rabs (Z3 (nrm m k)) /\ Rabs (real (vw t) - cst m k) <= u * Rabs (cst m k)).
  { assert (CB : forall x, Rabs x <= norm (nrm m k) -> Rabs x <= bpow radix2 100) by (intros x X; assert (bpow radix2 50 <= bpow radix2 100) by (apply bpow_le; lia); lra).
    assert (CL : Rabs (X3 (nrm m k)) <= norm (nrm m k) /\ Rabs (Y3 (nrm m k)) <= norm (nrm m k) /\ Rabs (Z3 (nrm m k)) <= norm (nrm m k)).
    { repeat split; (apply Rsqr_incr_0_var; [|apply norm_nonneg]); unfold Rsqr; rewrite norm_sq, <- Rabs_mult, Rabs_pos_eq by apply Rle_0_sqr; unfold dot; nra. }
    destruct CL as (LX & LY & LZ). apply CB in LX, LY, LZ. assert (LW : Rabs (cst m k) <= bpow radix2 100) by (assert (bpow radix2 59 <= bpow radix2 100) by (apply bpow_le; lia); lra).
    pose proof FM as ((M00 & M01 & M02 & M03) & (M10 & M11 & M12 & M13) & (M20 & M21 & M22 & M23) & (M30 & M31 & M32 & M33)).
    assert (FT : forall i, finite4 (matrix_get_row (matrix_transpose m) i)). { intros i. destruct i as [|[|[|[|i]]]]; repeat split; try assumption; reflexivity. }
    set (r := fun i => matrix_get_row (matrix_transpose m) i) in * .
    assert (SB : forall j, Nat.even k = true -> Nat.div2 k = j -> (j < 3)%nat -> p = plane_normalize (plane_init_from_vec4 (vec4_subtract (r 3%nat) (r j))) -> exists t, p = plane_normalize (plane_init_from_vec4 t) /\ finite4 t /\ Rabs (real (vx t) - X3 (nrm m k)) <= u * Rabs (X3 (nrm m k)) /\ Rabs (real (vy t) - Y3 (nrm m k)) <= u * Rabs (Y3 (nrm m k)) /\ Rabs (real (vz t) - Z3 (nrm m k)) <= u * Rabs (Z3 (nrm m k)) /\ Rabs (real (vw t) - cst m k) <= u * Rabs (cst m k)).
    { intros j EV DV Hj E. exists (vec4_subtract (r 3%nat) (r j)). split; [exact E|].
      assert (EX : X3 (nrm m k) = real (vx (r 3%nat)) - real (vx (r j)) /\ Y3 (nrm m k) = real (vy (r 3%nat)) - real (vy (r j)) /\ Z3 (nrm m k) = real (vz (r 3%nat)) - real (vz (r j)) /\ cst m k = real (vw (r 3%nat)) - real (vw (r j))).
      { unfold nrm, cst. rewrite EV, DV. cbn [X3 Y3 Z3]. unfold ent. destruct j as [|[|[|j]]]; [..|lia]; cbn; repeat split; ring. }
      destruct EX as (EX & EY & EZ & EW). rewrite EX in LX |- * . rewrite EY in LY |- * . rewrite EZ in LZ |- * . rewrite EW in LW |- * .
      destruct (row_sub BK (r 3%nat) (r j) (FT 3%nat) (FT j)) as [F K]; [intros get [<-|[<-|[<-|[<-|[]]]]]; assumption|]. split; [exact F|]. repeat split; apply K; simpl; auto. }
    assert (AD : forall j, Nat.even k = false -> Nat.div2 k = j -> (j < 3)%nat -> p = plane_normalize (plane_init_from_vec4 (vec4_add (r 3%nat) (r j))) -> exists t, p = plane_normalize (plane_init_from_vec4 t) /\ finite4 t /\ Rabs (real (vx t) - X3 (nrm m k)) <= u * Rabs (X3 (nrm m k)) /\ Rabs (real (vy t) - Y3 (nrm m k)) <= u * Rabs (Y3 (nrm m k)) /\ Rabs (real (vz t) - Z3 (nrm m k)) <= u * Rabs (Z3 (nrm m k)) /\ Rabs (real (vw t) - cst m k) <= u * Rabs (cst m k)).
    { intros j EV DV Hj E. exists (vec4_add (r 3%nat) (r j)). split; [exact E|].
      assert (EX : X3 (nrm m k) = real (vx (r 3%nat)) + real (vx (r j)) /\ Y3 (nrm m k) = real (vy (r 3%nat)) + real (vy (r j)) /\ Z3 (nrm m k) = real (vz (r 3%nat)) + real (vz (r j)) /\ cst m k = real (vw (r 3%nat)) + real (vw (r j))).
      { unfold nrm, cst. rewrite EV, DV. cbn [X3 Y3 Z3]. unfold ent. destruct j as [|[|[|j]]]; [..|lia]; cbn; repeat split; ring. }
      destruct EX as (EX & EY & EZ & EW). rewrite EX in LX |- * . rewrite EY in LY |- * . rewrite EZ in LZ |- * . rewrite EW in LW |- * .
      destruct (row_add BK (r 3%nat) (r j) (FT 3%nat) (FT j)) as [F K]; [intros get [<-|[<-|[<-|[<-|[]]]]]; assumption|]. split; [exact F|]. repeat split; apply K; simpl; auto. }
    destruct k as [|[|[|[|[|[|k]]]]]]; [apply (SB 0%nat)|apply (AD 0%nat)|apply (SB 1%nat)|apply (AD 1%nat)|apply (SB 2%nat)|apply (AD 2%nat)|lia]; try reflexivity; lia. }
  destruct G as (t & -> & FT & G1 & G2 & G3 & G4). destruct (clip_plane BK t (nrm m k) (cst m k) HB FT G1 G2 G3 G4 HN HC) as ([F1 F2] & D & C).
  assert (U18 : bpow radix2 (-18) = 64 * u) by (simpl; lra). rewrite U18. split; [exact F1|]. split; [exact F2|]. split; [lra|].
  eapply Rle_trans; [exact C|]. apply Rplus_le_compat_r. apply Rmult_le_compat_r; [|lra]. unfold Rdiv. apply Rmult_le_pos; [apply Rabs_pos|]. left. apply Rinv_0_lt_compat. pose proof (bpow_gt_0 radix2 (-10)). lra.
Qed.

(** ** distances from the planes *)
Lemma plane_depth (BK : Backend b32) (m : mat b32) (k : nat) (q : point3d b32) : estimates_ok BK -> clips m -> (k < 6)%nat -> Props_TriF.finite_pt q -> norm (pval q) <= bpow radix2 60 ->
  let p := kth (frustum_init_from_matrix m) k in
  Props_Dec.finite_plane p /\ Props_Dec.at_p3 (Props_Dec.plane_mag p) q <= bpow radix2 125 /\
  Rabs (Props_Dec.at_p3 (Props_Dec.plane_at p) q - depth m k (pval q)) + Props_Dec.at_p3 (Props_Dec.plane_tol p) q <= margin m k (pval q).
Proof.
  intros HB HM Hk Fq Nq p. destruct (C99_frustum_planes BK m k HB HM Hk) as (F3 & FC & D & C). change (nth k (frustum_get_planes (frustum_init_from_matrix m)) (fr0 (frustum_init_from_matrix m))) with p in * .
  destruct HM as [_ H]. destruct (H k Hk) as [[NL _] CU]. pose proof (bpow_gt_0 radix2 (-10)) as B10. set (N := nrm m k) in * . set (c := cst m k) in * . set (P := pval q) in * .
  set (n := plane_get_normal p) in * . set (c' := real (plane_get_constant p)) in * . assert (NP : 0 < norm N) by lra.
  set (Q := Rabs c / norm N) in * . assert (Q0 : 0 <= Q) by (unfold Q, Rdiv; apply Rmult_le_pos; [apply Rabs_pos|left; now apply Rinv_0_lt_compat]).
  pose proof (norm_nonneg P) as P0. change (bpow radix2 (-18)) with (/ 262144) in * . 
  assert (S : bpow radix2 (-150) <= / 2 * bpow radix2 (-130)) by (change (/ 2) with (bpow radix2 (-1)); rewrite <- bpow_plus; apply bpow_le; lia).
  assert (S1 : bpow radix2 (-146) <= / 4 * bpow radix2 (-130)) by (change (/ 4) with (bpow radix2 (-2)); rewrite <- bpow_plus; apply bpow_le; lia).
  assert (S2 : bpow radix2 (-150) <= / 8 * bpow radix2 (-130)) by (change (/ 8) with (bpow radix2 (-3)); rewrite <- bpow_plus; apply bpow_le; lia).
  pose proof (bpow_gt_0 radix2 (-130)) as B130. assert (B130' : bpow radix2 (-130) <= 1) by (change 1 with (bpow radix2 0); apply bpow_le; lia).
  assert (QE : Rabs (c / norm N) = Q). { unfold Q, Rdiv. rewrite Rabs_mult, (Rabs_pos_eq (/ norm N)) by (left; now apply Rinv_0_lt_compat). reflexivity. }
  assert (AC : Rabs c' <= 1.01 * Q + bpow radix2 (-150)). { replace c' with ((c' - c / norm N) + c / norm N) by ring. eapply Rle_trans; [apply Rabs_triang|]. rewrite QE. lra. }
  assert (NN : norm (val3 n) <= 1.01). { pose proof (norm_gap (val3 n) (dirn N)) as G. rewrite (norm_dirn N NP) in G. apply Rabs_le_inv in G. lra. }
  assert (PM : Props_Dec.at_p3 (Props_Dec.plane_mag p) q <= 1.01 * norm P + 1.01 * Q + bpow radix2 (-150)).
  { unfold Props_Dec.plane_mag. fold n c'. pose proof (adot_norm n (V4 (p3x q) (p3y q) (p3z q) fzero)) as A. unfold adot3, adot2 in A. cbn [vx vy vz] in A. change (val3 (V4 (p3x q) (p3y q) (p3z q) fzero)) with P in A.
    assert (norm (val3 n) * norm P <= 1.01 * norm P) by (apply Rmult_le_compat_r; lra). lra. }
  split; [split; [exact F3|exact FC]|]. split.
  - assert (QB : Q <= bpow radix2 70). { unfold Q, Rdiv. change 70%Z with (59 + 11)%Z. rewrite bpow_plus. apply Rmult_le_compat; [apply Rabs_pos|left; now apply Rinv_0_lt_compat|exact CU|]. apply Rle_trans with (/ bpow radix2 (-10)); [apply Rinv_le_contravar; lra|]. rewrite <- bpow_opp. apply bpow_le. lia. }
    assert (bpow radix2 60 <= bpow radix2 70) by (apply bpow_le; lia). assert (E : bpow radix2 125 = 16 * bpow radix2 121) by (change 125%Z with (4 + 121)%Z; now rewrite bpow_plus). assert (bpow radix2 70 <= bpow radix2 121) by (apply bpow_le; lia). assert (1 <= bpow radix2 70) by (change 1 with (bpow radix2 0); apply bpow_le; lia). lra.
  - assert (T : Rabs (Props_Dec.at_p3 (Props_Dec.plane_at p) q - depth m k P) <= / 262144 * norm P + (/ 262144 * Q + bpow radix2 (-150))).
    { replace (Props_Dec.at_p3 (Props_Dec.plane_at p) q - depth m k P) with (dot (vminus (val3 n) (dirn N)) P + (c' - c / norm N)).
      2: { unfold depth. rewrite slack_plane. fold N c. unfold Props_Dec.plane_at. fold n c'. unfold dot, vminus, dirn, vscal, val3, P, pval; cbn [X3 Y3 Z3]. field. lra. }
      eapply Rle_trans; [apply Rabs_triang|]. apply Rplus_le_compat; [|exact C]. eapply Rle_trans; [apply cauchy_abs|]. apply Rmult_le_compat_r; [lra|exact D]. }
    unfold Props_Dec.plane_tol, margin. fold N c Q. change (bpow radix2 (-21)) with (/ 2097152). change (bpow radix2 (-17)) with (/ 131072). lra.
Qed.
Lemma kth_in (f : frustum b32) p : In p (frustum_planes f) <-> exists k, (k < 6)%nat /\ p = kth f k.
Proof.
  split.
  - intros I. apply (In_nth _ _ (fr0 f)) in I. destruct I as (k & Hk & E). exists k. split; [exact Hk|symmetry; exact E].
  - intros (k & Hk & ->). apply nth_In. exact Hk.
Qed.

Theorem C99_frustum_contains_point : forall (BK : Backend b32) (m : mat b32) (q : point3d b32), estimates_ok BK -> clips m -> Props_TriF.finite_pt q -> norm (pval q) <= bpow radix2 60 ->
  let f := frustum_init_from_matrix m in
  ((forall k, (k < 6)%nat -> margin m k (pval q) <= depth m k (pval q)) -> frustum_contains_point f (Some q) = true) /\
  (frustum_contains_point f (Some q) = true -> forall k, (k < 6)%nat -> - margin m k (pval q) <= depth m k (pval q)).
Proof.
  intros BK m q HB HM Fq Nq f. pose proof (fun k Hk => plane_depth BK m k q HB HM Hk Fq Nq) as K. fold f in K. cbv zeta in K.
  destruct (Props_Dec.C77_frustum_contains_point BK f q) as [A B].
  - intros p I. apply kth_in in I. destruct I as (k & Hk & ->). apply (K k Hk).
  - exact Fq.
  - intros p I. apply kth_in in I. destruct I as (k & Hk & ->). apply (K k Hk).
  - split.
    + intros H. apply A. intros p I. apply kth_in in I. destruct I as (k & Hk & ->). destruct (K k Hk) as (_ & _ & E). pose proof (H k Hk). pose proof (Rabs_pos (Props_Dec.at_p3 (Props_Dec.plane_at (kth f k)) q - depth m k (pval q))) as R0.
      pose proof (Rle_abs (- (Props_Dec.at_p3 (Props_Dec.plane_at (kth f k)) q - depth m k (pval q)))) as R1. rewrite Rabs_Ropp in R1. lra.
    + intros H k Hk. destruct (K k Hk) as (_ & _ & E). pose proof (B H (kth f k) (proj2 (kth_in f _) (ex_intro _ k (conj Hk eq_refl)))).
      pose proof (Rle_abs (Props_Dec.at_p3 (Props_Dec.plane_at (kth f k)) q - depth m k (pval q))) as R1. lra.
Qed.
Theorem C99_frustum_intersects_sphere : forall (BK : Backend b32) (m : mat b32) (s : sphere b32), estimates_ok BK -> clips m ->
  let c := sphere_get_center s in let r := real (sphere_get_radius s) in
  Props_TriF.finite_pt c -> norm (pval c) <= bpow radix2 60 -> fin (sphere_get_radius s) ->
  let f := frustum_init_from_matrix m in
  ((forall k, (k < 6)%nat -> margin m k (pval c) - r <= depth m k (pval c)) -> frustum_intersects_sphere f s = true) /\
  (frustum_intersects_sphere f s = true -> forall k, (k < 6)%nat -> - margin m k (pval c) - r <= depth m k (pval c)).
Proof.
  intros BK m s HB HM c r Fq Nq Fr f. pose proof (fun k Hk => plane_depth BK m k c HB HM Hk Fq Nq) as K. fold f in K. cbv zeta in K.
  destruct (Props_Dec.C77_frustum_sphere BK f s) as [A B].
  - intros p I. apply kth_in in I. destruct I as (k & Hk & ->). apply (K k Hk).
  - exact Fq.
  - exact Fr.
  - intros p I. apply kth_in in I. destruct I as (k & Hk & ->). apply (K k Hk).
  - fold c r in A, B. split.
    + intros H. apply A. intros p I. apply kth_in in I. destruct I as (k & Hk & ->). destruct (K k Hk) as (_ & _ & E). pose proof (H k Hk).
      pose proof (Rle_abs (- (Props_Dec.at_p3 (Props_Dec.plane_at (kth f k)) c - depth m k (pval c)))) as R1. rewrite Rabs_Ropp in R1. lra.
    + intros H k Hk. destruct (K k Hk) as (_ & _ & E). pose proof (B H (kth f k) (proj2 (kth_in f _) (ex_intro _ k (conj Hk eq_refl)))).
      pose proof (Rle_abs (Props_Dec.at_p3 (Props_Dec.plane_at (kth f k)) c - depth m k (pval c))) as R1. lra.
Qed.
(** the plane at any real point, not only at points with binary32 coordinates *)
Lemma plane_depth_real (BK : Backend b32) (m : mat b32) (k : nat) (P : R3) : estimates_ok BK -> clips m -> (k < 6)%nat ->
  let p := kth (frustum_init_from_matrix m) k in let Q := Rabs (cst m k) / norm (nrm m k) in
  Props_Dec.plane_mag p (X3 P) (Y3 P) (Z3 P) <= 1.01 * norm P + 1.01 * Q + bpow radix2 (-150) /\
  Rabs (Props_Dec.plane_at p (X3 P) (Y3 P) (Z3 P) - depth m k P) <= bpow radix2 (-18) * (norm P + Q) + bpow radix2 (-150).
Proof.
  intros HB HM Hk p Q. destruct (C99_frustum_planes BK m k HB HM Hk) as (F3 & FC & D & C). change (nth k (frustum_get_planes (frustum_init_from_matrix m)) (fr0 (frustum_init_from_matrix m))) with p in * .
  destruct HM as [_ H]. destruct (H k Hk) as [[NL _] CU]. pose proof (bpow_gt_0 radix2 (-10)) as B10. set (N := nrm m k) in * . set (c := cst m k) in * .
  set (n := plane_get_normal p) in * . set (c' := real (plane_get_constant p)) in * . assert (NP : 0 < norm N) by lra. fold Q in C.
  assert (Q0 : 0 <= Q) by (unfold Q, Rdiv; apply Rmult_le_pos; [apply Rabs_pos|left; now apply Rinv_0_lt_compat]).
  pose proof (norm_nonneg P) as P0. change (bpow radix2 (-18)) with (/ 262144) in * .
  assert (QE : Rabs (c / norm N) = Q). { unfold Q, Rdiv. rewrite Rabs_mult, (Rabs_pos_eq (/ norm N)) by (left; now apply Rinv_0_lt_compat). reflexivity. }
  assert (AC : Rabs c' <= 1.01 * Q + bpow radix2 (-150)). { replace c' with ((c' - c / norm N) + c / norm N) by ring. eapply Rle_trans; [apply Rabs_triang|]. rewrite QE. lra. }
  assert (NN : norm (val3 n) <= 1.01). { pose proof (norm_gap (val3 n) (dirn N)) as G. rewrite (norm_dirn N NP) in G. apply Rabs_le_inv in G. lra. }
  split.
  - unfold Props_Dec.plane_mag. fold n c'. pose proof (cauchy_abs (mk3 (Rabs (real (vx n))) (Rabs (real (vy n))) (Rabs (real (vz n)))) (mk3 (Rabs (X3 P)) (Rabs (Y3 P)) (Rabs (Z3 P)))) as A.
    assert (AN : forall v, norm (mk3 (Rabs (X3 v)) (Rabs (Y3 v)) (Rabs (Z3 v))) = norm v). { intros v. apply norm_unique; [apply norm_nonneg|]. rewrite norm_sq. unfold dot; cbn [X3 Y3 Z3]. rewrite <- !Rabs_mult, !Rabs_pos_eq by apply Rle_0_sqr. reflexivity. }
    rewrite (AN P) in A. change (mk3 (Rabs (real (vx n))) (Rabs (real (vy n))) (Rabs (real (vz n)))) with (mk3 (Rabs (X3 (val3 n))) (Rabs (Y3 (val3 n))) (Rabs (Z3 (val3 n)))) in A. rewrite (AN (val3 n)) in A. unfold dot, val3 in A; cbn [X3 Y3 Z3] in A. rewrite <- !Rabs_mult in A. apply Rabs_le_inv in A.
    change (mk3 (real (vx n)) (real (vy n)) (real (vz n))) with (val3 n) in A. assert (norm (val3 n) * norm P <= 1.01 * norm P) by (apply Rmult_le_compat_r; lra). lra.
  - replace (Props_Dec.plane_at p (X3 P) (Y3 P) (Z3 P) - depth m k P) with (dot (vminus (val3 n) (dirn N)) P + (c' - c / norm N)).
    2: { unfold depth. rewrite slack_plane. fold N c. unfold Props_Dec.plane_at. fold n c'. unfold dot, vminus, dirn, vscal, val3; cbn [X3 Y3 Z3]. field. lra. }
    eapply Rle_trans; [apply Rabs_triang|]. assert (T : Rabs (dot (vminus (val3 n) (dirn N)) P) <= / 262144 * norm P) by (eapply Rle_trans; [apply cauchy_abs|]; apply Rmult_le_compat_r; [lra|exact D]). lra.
Qed.
Lemma corner_bound (b : box b32) (D : R) : (forall sx sy sz, norm (pval (Props_Dec.corner b sx sy sz)) <= D) -> forall x y z, Props_Dec.in_box b x y z -> norm (mk3 x y z) <= D.
Proof.
  intros H x y z (X & Y & Z). pose proof (norm_nonneg (pval (Props_Dec.corner b true true true))). pose proof (H true true true).
  assert (S : forall (lo hi t : R), lo <= t <= hi -> exists s : bool, t * t <= (if s then hi else lo) * (if s then hi else lo)).
  { intros lo hi t T. destruct (Rle_lt_dec 0 t); [exists true; apply Rmult_le_compat; lra|exists false]. replace (t * t) with (- t * - t) by ring. replace (lo * lo) with (- lo * - lo) by ring. apply Rmult_le_compat; lra. }
  destruct (S _ _ _ X) as [sx SX]. destruct (S _ _ _ Y) as [sy SY]. destruct (S _ _ _ Z) as [sz SZ]. specialize (H sx sy sz). eapply Rle_trans; [|exact H]. apply norm_le; [apply norm_nonneg|].
  rewrite norm_sq. unfold dot, pval, Props_TriF.pval, Props_Dec.corner; cbn [X3 Y3 Z3 p3x p3y p3z]. destruct sx, sy, sz; cbn in * ; lra.
Qed.
(** a culled box lies outside one of the six conditions, up to the uncertainty; a box that is kept has a corner near the inner side of each *)
Theorem C99_frustum_intersects_box : forall (BK : Backend b32) (m : mat b32) (b : box b32) (D L : R), estimates_ok BK -> clips m ->
  Props_TriF.finite_pt (box_get_min b) -> Props_TriF.finite_pt (box_get_max b) ->
  (forall sx sy sz, norm (pval (Props_Dec.corner b sx sy sz)) <= D) -> D <= bpow radix2 60 ->
  (forall k, (k < 6)%nat -> Rabs (cst m k) / norm (nrm m k) <= L) -> L <= bpow radix2 70 ->
  let f := frustum_init_from_matrix m in let e := bpow radix2 (-17) * (D + L) + bpow radix2 (-130) in
  (frustum_intersects_box f b = false -> exists k, (k < 6)%nat /\ forall x y z, Props_Dec.in_box b x y z -> depth m k (mk3 x y z) < e) /\
  (frustum_intersects_box f b = true -> forall k, (k < 6)%nat -> exists sx sy sz, - e <= depth m k (pval (Props_Dec.corner b sx sy sz))).
Proof.
  intros BK m b D L HB HM F1 F2 HD DU HL LU f e. pose proof (fun k P Hk => plane_depth_real BK m k P HB HM Hk) as K. fold f in K. cbv zeta in K.
  assert (D0 : 0 <= D) by (eapply Rle_trans; [apply norm_nonneg|apply (HD true true true)]).
  assert (L0 : 0 <= L). { eapply Rle_trans; [|apply (HL 0%nat); lia]. destruct HM as [_ H]. destruct (H 0%nat ltac:(lia)) as [[NL _] _]. pose proof (bpow_gt_0 radix2 (-10)). unfold Rdiv. apply Rmult_le_pos; [apply Rabs_pos|left; apply Rinv_0_lt_compat; lra]. }
  assert (S1 : bpow radix2 (-146) <= / 4 * bpow radix2 (-130)) by (change (/ 4) with (bpow radix2 (-2)); rewrite <- bpow_plus; apply bpow_le; lia).
  assert (S2 : bpow radix2 (-150) <= / 8 * bpow radix2 (-130)) by (change (/ 8) with (bpow radix2 (-3)); rewrite <- bpow_plus; apply bpow_le; lia).
  pose proof (bpow_gt_0 radix2 (-130)) as B130. assert (B130' : bpow radix2 (-130) <= 1) by (change 1 with (bpow radix2 0); apply bpow_le; lia).
  set (M := 1.01 * D + 1.01 * L + bpow radix2 (-150)).
  destruct (Props_Dec.C77_frustum_box BK f b M) as [A B].
  - intros p I. apply kth_in in I. destruct I as (k & Hk & ->). destruct (C99_frustum_planes BK m k HB HM Hk) as (G1 & G2 & _). split; assumption.
  - exact F1.
  - exact F2.
  - intros p sx sy sz I. apply kth_in in I. destruct I as (k & Hk & ->). destruct (K k (pval (Props_Dec.corner b sx sy sz)) Hk) as [G _]. eapply Rle_trans; [exact G|]. unfold M. pose proof (HD sx sy sz). pose proof (HL k Hk). lra.
  - unfold M. assert (bpow radix2 60 <= bpow radix2 70) by (apply bpow_le; lia). assert (E : bpow radix2 125 = 16 * bpow radix2 121) by (change 125%Z with (4 + 121)%Z; now rewrite bpow_plus). assert (bpow radix2 70 <= bpow radix2 121) by (apply bpow_le; lia). assert (1 <= bpow radix2 70) by (change 1 with (bpow radix2 0); apply bpow_le; lia). lra.
  - assert (EE : bpow radix2 (-18) * (D + L) + bpow radix2 (-150) + (bpow radix2 (-21) * M + bpow radix2 (-146)) <= e). { unfold e, M. change (bpow radix2 (-17)) with (/ 131072). change (bpow radix2 (-18)) with (/ 262144). change (bpow radix2 (-21)) with (/ 2097152). lra. }
    assert (W : forall k P, (k < 6)%nat -> norm P <= D -> Rabs (Props_Dec.plane_at (kth f k) (X3 P) (Y3 P) (Z3 P) - depth m k P) <= bpow radix2 (-18) * (D + L) + bpow radix2 (-150)).
    { intros k P Hk HP. destruct (K k P Hk) as [_ G]. eapply Rle_trans; [exact G|]. apply Rplus_le_compat_r, Rmult_le_compat_l; [apply bpow_ge_0|]. pose proof (HL k Hk). lra. }
    split.
    + intros H. destruct (A H) as (p & I & G). apply kth_in in I. destruct I as (k & Hk & ->). exists k. split; [exact Hk|]. intros x y z X. pose proof (W k (mk3 x y z) Hk (corner_bound b D HD x y z X)) as Wk. cbn [X3 Y3 Z3] in Wk. apply Rabs_le_inv in Wk. pose proof (G x y z X). lra.
    + intros H k Hk. destruct (B H (kth f k) (proj2 (kth_in f _) (ex_intro _ k (conj Hk eq_refl)))) as (sx & sy & sz & G). exists sx, sy, sz. pose proof (W k (pval (Props_Dec.corner b sx sy sz)) Hk (HD sx sy sz)) as Wk. apply Rabs_le_inv in Wk. set (q := Props_Dec.corner b sx sy sz) in * . change (X3 (pval q)) with (real (p3x q)) in Wk. change (Y3 (pval q)) with (real (p3y q)) in Wk. change (Z3 (pval q)) with (real (p3z q)) in Wk. lra.
Qed.

(** ** the hypotheses can be met: a perspective view with near 1 and far 2, and a point in the middle of it *)
Example C99_frustum_ex : let m := M4 (V4 (lit 1 0) fzero fzero fzero) (V4 fzero (lit 1 0) fzero fzero) (V4 fzero fzero (lit (-3) 0) (lit (-1) 0)) (V4 fzero fzero (lit (-4) 0) fzero) in
  let q := P3 (fzero : b32) fzero (lit (-3) (-1)) in
  clips m /\ Props_TriF.finite_pt q /\ norm (pval q) <= bpow radix2 60 /\ forall k, (k < 6)%nat -> margin m k (pval q) <= depth m k (pval q).
Proof.
  intros m q.
  destruct (lit_real 1 0) as [F1 R1]; try lia. destruct (lit_real (-1) 0) as [Fm1 Rm1]; try lia. destruct (lit_real (-3) 0) as [Fm3 Rm3]; try lia. destruct (lit_real (-4) 0) as [Fm4 Rm4]; try lia. destruct (lit_real (-3) (-1)) as [Fm5 Rm5]; try lia.
  change (bpow radix2 0) with 1 in * . change (bpow radix2 (-1)) with (/ 2) in Rm5. 
  assert (Z0 : real (fzero : b32) = 0) by reflexivity.
  assert (E : forall i j, (i < 4)%nat -> (j < 4)%nat -> ent m i j = nth j (nth i [[1;0;0;0];[0;1;0;0];[0;0;-3;-1];[0;0;-4;0]] []) 0).
  { intros i j Hi Hj. destruct i as [|[|[|[|i]]]]; [..|lia]; (destruct j as [|[|[|[|j]]]]; [..|lia]); cbn [nth]; try exact Z0.
    - change (real (flit 1 0) = 1). lra.
    - change (real (flit 1 0) = 1). lra.
    - change (real (flit (-3) 0) = -3). lra.
    - change (real (flit (-1) 0) = -1). lra.
    - change (real (flit (-4) 0) = -4). lra. }
  assert (PV : pval q = mk3 0 0 (- 1.5)). { unfold pval, Props_TriF.pval, q; cbn [p3x p3y p3z]. change (lit (-3) (-1)) with (flit (-3) (-1) : b32). rewrite Rm5, Z0. f_equal. lra. }
  assert (NR : forall k, (k < 6)%nat -> nrm m k = nth k [mk3 (-1) 0 (-1); mk3 1 0 (-1); mk3 0 (-1) (-1); mk3 0 1 (-1); mk3 0 0 2; mk3 0 0 (-4)] (mk3 0 0 0) /\ cst m k = nth k [0;0;0;0;4;-4] 0).
  { intros k Hk. destruct k as [|[|[|[|[|[|k]]]]]]; [..|lia]; unfold nrm, cst; cbn [Nat.even Nat.div2 nth]; rewrite !E by lia; cbn [nth]; split; try (apply R3_ext; cbn [X3 Y3 Z3]); ring. }
  assert (NB : forall k, (k < 6)%nat -> 1 <= norm (nrm m k) <= 4).
  { intros k Hk. destruct (NR k Hk) as [-> _]. split; [apply Rsqr_incr_0_var; [|apply norm_nonneg]; unfold Rsqr; rewrite norm_sq|apply norm_le; [lra|]]; unfold dot; (destruct k as [|[|[|[|[|[|k]]]]]]; [..|lia]); cbn [nth X3 Y3 Z3]; lra. }
  assert (SL : forall k, (k < 6)%nat -> 1 <= slack m k (pval q)).
  { intros k Hk. rewrite slack_plane, PV. destruct (NR k Hk) as [-> ->]. unfold dot. destruct k as [|[|[|[|[|[|k]]]]]]; [..|lia]; cbn [nth X3 Y3 Z3]; lra. }
  assert (CB : forall k, (k < 6)%nat -> Rabs (cst m k) <= 4).
  { intros k Hk. destruct (NR k Hk) as [_ ->]. apply Rabs_le. destruct k as [|[|[|[|[|[|k]]]]]]; [..|lia]; cbn [nth]; lra. }
  assert (B60 : 4 <= bpow radix2 50 /\ 4 <= bpow radix2 59 /\ 4 <= bpow radix2 60) by (change 4 with (bpow radix2 2); repeat split; apply bpow_le; lia).
  assert (NP : norm (pval q) <= 2) by (apply norm_le; [lra|]; rewrite PV; unfold dot; cbn [X3 Y3 Z3]; lra).
  split; [split|].
  - repeat split; first [exact F1|exact Fm1|exact Fm3|exact Fm4|reflexivity].
  - intros k Hk. pose proof (NB k Hk). pose proof (CB k Hk). change (bpow radix2 (-10)) with (/ 1024). lra.
  - split; [repeat split; first [exact Fm5|reflexivity]|]. split; [lra|]. intros k Hk. pose proof (NB k Hk) as [N1 N4]. pose proof (CB k Hk) as C4. pose proof (SL k Hk) as S1.
    unfold margin, depth. set (n := norm (nrm m k)) in * . assert (I : / 4 <= / n <= 1) by (split; [apply Rinv_le_contravar; lra|rewrite <- Rinv_1; apply Rinv_le_contravar; lra]).
    pose proof (Rabs_pos (cst m k)). assert (Rabs (cst m k) * / n <= 4 * 1) by (apply Rmult_le_compat; lra). assert (1 * / 4 <= slack m k (pval q) * / n) by (apply Rmult_le_compat; lra). unfold Rdiv.
    assert (bpow radix2 (-130) <= / 16) by (change (/ 16) with (bpow radix2 (-4)); apply bpow_le; lia). change (bpow radix2 (-17)) with (/ 131072). lra.
Qed.
