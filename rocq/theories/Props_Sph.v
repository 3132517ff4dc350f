(** * Props_Sph: bounding spheres in binary32 (C98). *)
From Coq Require Import ZArith Reals Bool List Lra Lia Psatz.
From Flocq Require Import Core BinarySingleNaN.
From Verif Require Import Num Simd Vec Rect Box Mat Geo Quat OrdThy FloatThy B32Setup FloatLem BoxThy Hist ErrThy Props_Err Props_Err2 Props_Err3 ErrEx Props_Err4 Props_Err5 RGeo Props_Look Props_RayTri.
From Verif Require Props_Rot Props_RaySph Props_Proj Props_Box Props_Dec Props_TriF Props_Err6.
Import ListNotations.
Local Open Scope R_scope.
Notation pval := Props_TriF.pval.

(** ** specification *)
(** a point whose coordinates are finite and at most [2^k] in size *)
Definition upto_p (k : Z) (p : point3d b32) : Prop := upto k (p3x p) /\ upto k (p3y p) /\ upto k (p3z p).

(** ** squared distances *)
Lemma pval_dist3 a b : dist3 a b = dist (pval a) (pval b) * dist (pval a) (pval b).
Proof. unfold dist. rewrite norm_sq. unfold dist3, dot, vminus, Props_TriF.pval; cbn [X3 Y3 Z3]. ring. Qed.
Lemma dist3_bound a b : upto_p 50 a -> upto_p 50 b -> dist3 a b <= bpow radix2 117.
Proof.
  intros ((_ & A1) & (_ & A2) & (_ & A3)) ((_ & B1) & (_ & B2) & (_ & B3)). set (K := bpow radix2 50) in * . pose proof (bpow_gt_0 radix2 50) as K0. fold K in K0.
  assert (P : 16 * (K * K) <= bpow radix2 117). { unfold K. rewrite <- bpow_plus. change 16 with (bpow radix2 4). rewrite <- bpow_plus. apply bpow_le. lia. }
  assert (S : forall x y, Rabs x <= K -> Rabs y <= K -> (x - y) ^ 2 <= 4 * (K * K)).
  { intros x y X Y. apply Rabs_le_inv in X, Y. assert (0 <= (2 * K - (x - y)) * (2 * K + (x - y))) by (apply Rmult_le_pos; lra). simpl. lra. }
  pose proof (S _ _ A1 B1). pose proof (S _ _ A2 B2). pose proof (S _ _ A3 B3). unfold dist3. assert (0 <= K * K) by (apply Rmult_le_pos; lra). lra.
Qed.
Lemma upto_fin k p : upto_p k p -> Props_Dec.finite_p3 p.
Proof. intros ((A & _) & (B & _) & (C & _)). repeat split; assumption. Qed.
Lemma fold_far (BK : Backend b32) (c : point3d b32) (pts : list (point3d b32)) (m0 : b32) : upto_p 50 c -> Forall (upto_p 50) pts -> fin m0 -> 0 <= real m0 ->
  let m := fold_left (fun m p => ffmax m (distance_sq (point3d_to_vec3 c) (point3d_to_vec3 p))) pts m0 in
  fin m /\ real m0 <= real m /\ (forall p, In p pts -> real (distance_sq (point3d_to_vec3 c) (point3d_to_vec3 p)) <= real m) /\
  (m = m0 \/ exists p, In p pts /\ m = distance_sq (point3d_to_vec3 c) (point3d_to_vec3 p)).
Proof.
  intros C. revert m0. induction pts as [|p l IH]; intros m0 H F0 P0; cbn [fold_left].
  - split; [exact F0|]. split; [lra|]. split; [intros p []|left; reflexivity].
  - apply Forall_cons_iff in H as [Hp Hl]. destruct (Props_Dec.dist_within BK c p (upto_fin _ _ C) (upto_fin _ _ Hp) (dist3_bound _ _ C Hp)) as [FD _].
    set (d := distance_sq (point3d_to_vec3 c) (point3d_to_vec3 p)) in * .
    assert (E : fin (ffmax m0 d) /\ real m0 <= real (ffmax m0 d) /\ real d <= real (ffmax m0 d) /\ (ffmax m0 d = m0 \/ ffmax m0 d = d)).
    { unfold ffmax. change (fisnan m0) with (is_nan m0). change (fisnan d) with (is_nan d). assert (NN : forall x : b32, fin x -> is_nan x = false) by (intros x Fx; destruct x; easy). rewrite (NN _ F0), (NN _ FD).
      destruct (flt m0 d) eqn:L; [apply Props_RaySph.flt_R in L|apply Props_RaySph.flt_Rf in L]; auto; repeat split; auto; lra. }
    destruct E as (FE & E1 & E2 & E3). destruct (IH (ffmax m0 d) Hl FE ltac:(lra)) as (G1 & G2 & G3 & G4). split; [exact G1|]. split; [lra|]. split.
    + intros q [-> |I]; [fold d; lra|now apply G3].
    + destruct G4 as [G4|(q & I & Q)].
      * destruct E3 as [E3|E3]; [left; now rewrite G4, E3|right; exists p; split; [now left|now rewrite G4, E3]].
      * right. exists q. split; [now right|exact Q].
Qed.
Lemma sq_le r d e s : 0 <= r -> 0 <= d -> 0 <= e -> 0 <= s -> r * r <= (1 + e) * (d * d) + s * s -> r <= (1 + e) * d + s.
Proof.
  intros R0 D0 E0 S0 H. apply Rsqr_incr_0_var; [|assert (0 <= (1 + e) * d) by (apply Rmult_le_pos; lra); lra]. unfold Rsqr. eapply Rle_trans; [exact H|].
  assert (0 <= e * (d * d)) by (repeat apply Rmult_le_pos; lra). assert (0 <= e * (e * (d * d))) by (repeat apply Rmult_le_pos; lra). assert (0 <= d * s) by (apply Rmult_le_pos; lra). assert (0 <= e * (d * s)) by (repeat apply Rmult_le_pos; lra).
  replace (((1 + e) * d + s) * ((1 + e) * d + s)) with (d * d + 2 * (e * (d * d)) + e * (e * (d * d)) + 2 * (d * s) + 2 * (e * (d * s)) + s * s) by ring. lra.
Qed.
Lemma radius_core (BK : Backend b32) (c : point3d b32) (pts : list (point3d b32)) : pts <> [] -> upto_p 50 c -> Forall (upto_p 50) pts ->
  let r := fsqrt (fold_left (fun m p => ffmax m (distance_sq (point3d_to_vec3 c) (point3d_to_vec3 p))) pts fzero) in
  fin r /\ 0 <= real r /\ (forall p, In p pts -> dist (pval c) (pval p) <= (1 + bpow radix2 (-20)) * real r + bpow radix2 (-72)) /\
  exists p, In p pts /\ Rabs (real r - dist (pval c) (pval p)) <= bpow radix2 (-20) * dist (pval c) (pval p) + bpow radix2 (-72).
Proof.
  intros NE C H r. destruct (fold_far BK c pts fzero C H Props_Dec.fzero_fin ltac:(change (real fzero) with 0; lra)) as (FM & M0 & MG & MA). set (m := fold_left _ pts fzero) in * .
  change (real fzero) with 0 in M0.
  assert (W : forall p, In p pts -> let d := dist (pval c) (pval p) in 0 <= d /\ d * d <= bpow radix2 117 /\ Rabs (real (distance_sq (point3d_to_vec3 c) (point3d_to_vec3 p)) - d * d) <= 8 * u * (d * d) + bpow radix2 (-147)).
  { intros p I d. rewrite Forall_forall in H. specialize (H p I). destruct (Props_Dec.dist_within BK c p (upto_fin _ _ C) (upto_fin _ _ H) (dist3_bound _ _ C H)) as [_ E]. rewrite pval_dist3 in E. fold d in E.
    split; [apply norm_nonneg|]. split; [unfold d; rewrite <- pval_dist3; now apply dist3_bound|]. assert (U21 : bpow radix2 (-21) = 8 * u) by (simpl; lra). rewrite U21 in E. exact E. }
  assert (P147 : bpow radix2 (-147) * 2 = bpow radix2 (-73) * bpow radix2 (-73)) by (rewrite <- bpow_plus; change (-73 + -73)%Z with (1 + -147)%Z; rewrite bpow_plus; change (bpow radix2 1) with 2; ring).
  assert (P72 : bpow radix2 (-72) = 2 * bpow radix2 (-73)) by (change (-72)%Z with (1 + -73)%Z; now rewrite bpow_plus). pose proof (bpow_gt_0 radix2 (-73)) as P73. pose proof (bpow_gt_0 radix2 (-147)) as Q147. set (t := bpow radix2 (-73)) in * . set (w := bpow radix2 (-147)) in * .
  assert (W1 : w <= 1) by (apply (bpow_le radix2 (-147) 0); lia). assert (B126 : 2 * bpow radix2 117 + 2 <= bpow radix2 126). { assert (bpow radix2 126 = 512 * bpow radix2 117) by (change 126%Z with (9 + 117)%Z; now rewrite bpow_plus). assert (1 <= bpow radix2 117) by (apply (bpow_le radix2 0); lia). lra. }
  assert (MB : real m <= bpow radix2 126). { destruct MA as [-> |(p & I & ->)]; [change (real fzero) with 0; apply bpow_ge_0|]. destruct (W p I) as (D0 & DB & E). cbv zeta in * . apply Rabs_le_inv in E. lra. }
  destruct (Props_RaySph.sqrt_w m FM M0 MB) as (FR & R0 & ER). fold r in FR, R0, ER. apply Rabs_le_inv in ER.
  assert (U20 : bpow radix2 (-20) = 16 * u) by (simpl; lra). rewrite U20, P72.
  assert (RS : 0 <= real r * real r) by (apply Rmult_le_pos; lra).
  assert (MR : real m <= (1 + 2.1 * u) * (real r * real r)) by lra.
  split; [exact FR|]. split; [exact R0|]. split.
  - intros p I. destruct (W p I) as (D0 & DB & E). cbv zeta in * . set (d := dist (pval c) (pval p)) in * . specialize (MG p I). apply Rabs_le_inv in E. assert (DD : 0 <= d * d) by (apply Rmult_le_pos; lra).
    assert (G : d <= (1 + 10.3 * u) * real r + t) by (apply sq_le; try lra). lra.
  - destruct MA as [E0|(p & I & EP)].
    + destruct pts as [|p l]; [contradiction|]. exists p. split; [now left|]. destruct (W p (or_introl eq_refl)) as (D0 & DB & E). cbv zeta in * . set (d := dist (pval c) (pval p)) in * . specialize (MG p (or_introl eq_refl)). apply Rabs_le_inv in E. assert (DD : 0 <= d * d) by (apply Rmult_le_pos; lra).
      rewrite E0 in * . change (real fzero) with 0 in * . assert (real r * real r <= (1 + 10.3 * u) * (d * d) + t * t) by lra. assert (G : real r <= (1 + 10.3 * u) * d + t) by (apply sq_le; try lra). assert (G2 : d <= (1 + 10.3 * u) * real r + t) by (apply sq_le; try lra). apply Rabs_le. lra.
    + exists p. split; [exact I|]. destruct (W p I) as (D0 & DB & E). cbv zeta in * . set (d := dist (pval c) (pval p)) in * . rewrite <- EP in E. apply Rabs_le_inv in E. assert (DD : 0 <= d * d) by (apply Rmult_le_pos; lra).
      assert (G : real r <= (1 + 10.3 * u) * d + t) by (apply sq_le; try lra). assert (G2 : d <= (1 + 10.3 * u) * real r + t) by (apply sq_le; try lra). apply Rabs_le. lra.
Qed.
(** the centre chosen when none is given lies in every box that contains the points *)
Lemma fle_fin (x y z : b32) : fin x -> fin z -> fle x y = true -> fle y z = true -> fin y /\ real x <= real y <= real z.
Proof.
  intros FX FZ A B. rewrite fle_X, (fin_X _ FX) in A. rewrite fle_X, (fin_X _ FZ) in B. assert (F : fin y) by (destruct y as [s|s| |s e]; try reflexivity; [destruct s; easy|easy]).
  rewrite (fin_X _ F) in A, B. apply xle_fin in A, B. auto.
Qed.
Lemma center_ok (BK : Backend b32) (pts : list (point3d b32)) : pts <> [] -> Forall (upto_p 50) pts ->
  let c := box_get_center (box_init_from_points pts) in upto_p 50 c /\
  forall lo hi, p3_nn lo -> p3_nn hi -> (forall p, In p pts -> between3 lo hi p) -> between3 lo hi c.
Proof.
  intros NE H c. assert (NN : Forall p3_nn pts). { eapply Forall_impl; [|exact H]. intros p ((A & _) & (B & _) & (C & _)). repeat split; now apply fin_nn. }
  destruct (from_points_spec pts NN) as (OK & IN & LEAST). set (b := box_init_from_points pts) in * .
  destruct (lit_real 1 50) as [FK RK]; try lia. assert (RK' : real (flit 1 50 : b32) = bpow radix2 50) by (rewrite RK; ring). clear RK. destruct (lit_real (-1) 50) as [FL RL]; try lia. assert (RL' : real (flit (-1) 50 : b32) = - bpow radix2 50) by (rewrite RL; ring). clear RL.
  set (K := flit 1 50 : b32) in * . set (L := flit (-1) 50 : b32) in * .
  assert (LEX : forall x y : b32, fin x -> fin y -> real x <= real y -> fle x y = true) by (intros x y FX FY E; rewrite fle_X, (fin_X _ FX), (fin_X _ FY); now apply xle_fin).
  assert (OKC : forall lo hi : point3d b32, p3_nn lo -> p3_nn hi -> box_ok (Bx (point3d_to_vec3 lo) (point3d_to_vec3 hi))).
  { intros lo hi A B. split; [apply to_vec3_clean|]. split; [apply to_vec3_clean|]. split; assumption. }
  destruct (LEAST _ (OKC (P3 L L L) (P3 K K K) ltac:(repeat split; now apply fin_nn) ltac:(repeat split; now apply fin_nn))) as (L1 & L2 & L3 & L4 & L5 & L6).
  { intros p I. rewrite Forall_forall in H. destruct (H p I) as ((A1 & A2) & (B1 & B2) & (C1 & C2)). apply Rabs_le_inv in A2, B2, C2. repeat split; cbn; apply LEX; auto; lra. }
  destruct pts as [|p l]; [contradiction|]. destruct (IN p (or_introl eq_refl)) as (I1 & I2 & I3 & I4 & I5 & I6).
  assert (HP : upto_p 50 p) by (now apply Forall_inv in H). destruct HP as ((A1 & A2) & (B1 & B2) & (C1 & C2)).
  assert (FF : forall lo x hi : b32, fin x -> fle L lo = true -> fle lo x = true -> fle x hi = true -> fle hi K = true -> fin lo /\ fin hi /\ - bpow radix2 50 <= real lo <= real hi /\ real hi <= bpow radix2 50 /\ fin (fadd lo hi) /\ fle lo (fmul (fadd lo hi) fhalf) = true /\ fle (fmul (fadd lo hi) fhalf) hi = true /\ fle lo hi = true).
  { intros lo x hi FX E1 E2 E3 E4. destruct (fle_fin L lo x FL FX E1 E2) as [F1 G1]. destruct (fle_fin x hi K FX FK E3 E4) as [F2 G2]. split; [exact F1|]. split; [exact F2|]. split; [lra|]. split; [lra|].
    assert (S : fin (fadd lo hi)). { apply (Props_RaySph.add_w lo hi (2 * bpow radix2 50) F1 F2); [apply Rabs_le; lra|]. change 2 with (bpow radix2 1). rewrite <- bpow_plus. apply bpow_le. lia. }
    assert (LH : fle lo hi = true) by (apply LEX; auto; lra). split; [exact S|]. destruct (Props_Box.half_sum_between lo hi F1 F2 LH S) as [Q1 Q2]. auto. }
  destruct (FF _ _ _ A1 L1 I1 I2 L4) as (X1 & X2 & X3 & X4 & X5 & X6 & X7 & _). destruct (FF _ _ _ B1 L2 I3 I4 L5) as (Y1 & Y2 & Y3 & Y4 & Y5 & Y6 & Y7 & _). destruct (FF _ _ _ C1 L3 I5 I6 L6) as (Z1 & Z2 & Z3 & Z4 & Z5 & Z6 & Z7 & _).
  change (p3x (blo b)) with (vx (bmin b)) in * . change (p3x (bhi b)) with (vx (bmax b)) in * . change (p3y (blo b)) with (vy (bmin b)) in * . change (p3y (bhi b)) with (vy (bmax b)) in * . change (p3z (blo b)) with (vz (bmin b)) in * . change (p3z (bhi b)) with (vz (bmax b)) in * .
  assert (CE : c = P3 (fmul (fadd (vx (bmin b)) (vx (bmax b))) fhalf) (fmul (fadd (vy (bmin b)) (vy (bmax b))) fhalf) (fmul (fadd (vz (bmin b)) (vz (bmax b))) fhalf)).
  { unfold c, box_get_center, box_is_empty, box_is_infinity, is_pinf, is_ninf. assert (NI : forall x : b32, fin x -> fisinf x = false) by (intros x Hx; destruct x; easy). rewrite !NI by assumption. reflexivity. }
  rewrite CE. split.
  - assert (G : forall lo m hi : b32, fin lo -> fin hi -> - bpow radix2 50 <= real lo <= real hi -> real hi <= bpow radix2 50 -> fle lo m = true -> fle m hi = true -> upto 50 m).
    { intros lo m hi F1 F2 B3 B4 E1 E2. destruct (fle_fin lo m hi F1 F2 E1 E2) as [F3 G]. split; [exact F3|apply Rabs_le; lra]. }
    split; [exact (G _ _ _ X1 X2 X3 X4 X6 X7)|split; [exact (G _ _ _ Y1 Y2 Y3 Y4 Y6 Y7)|exact (G _ _ _ Z1 Z2 Z3 Z4 Z6 Z7)]].
  - intros lo hi NL NH IB. destruct (LEAST _ (OKC lo hi NL NH) IB) as (M1 & M2 & M3 & M4 & M5 & M6). cbn in M1, M2, M3, M4, M5, M6.
    assert (TR : forall x y z : b32, fle x y = true -> fle y z = true -> fle x z = true) by (intros x y z ? ?; tr).
    exact (conj (TR _ _ _ M1 X6) (conj (TR _ _ _ X7 M4) (conj (TR _ _ _ M2 Y6) (conj (TR _ _ _ Y7 M5) (conj (TR _ _ _ M3 Z6) (TR _ _ _ Z7 M6)))))).
Qed.

(** ** C98 *)
Theorem C98_sphere_from_points : forall (BK : Backend b32) (pts : list (point3d b32)) (center : option (point3d b32)), pts <> [] -> Forall (upto_p 50) pts ->
  (forall c, center = Some c -> upto_p 50 c) ->
  let s := sphere_init_from_points pts center in let c := sphere_get_center s in let r := real (sphere_get_radius s) in
  match center with Some c0 => c = c0 | None => forall lo hi, p3_nn lo -> p3_nn hi -> (forall p, In p pts -> between3 lo hi p) -> between3 lo hi c end /\
  fin (sphere_get_radius s) /\ 0 <= r /\
  (forall p, In p pts -> dist (pval c) (pval p) <= (1 + bpow radix2 (-20)) * r + bpow radix2 (-72)) /\
  (exists p, In p pts /\ Rabs (r - dist (pval c) (pval p)) <= bpow radix2 (-20) * dist (pval c) (pval p) + bpow radix2 (-72)).
Proof.
  intros BK pts center NE H HC s c r. destruct (center_ok BK pts NE H) as [C1 C2]. destruct center as [c0|].
  - split; [destruct c0; reflexivity|]. replace c with c0 by (destruct c0; reflexivity). exact (radius_core BK c0 pts NE (HC c0 eq_refl) H).
  - assert (RT : forall q : point3d b32, point3d_init_from_vec3 (point3d_to_vec3 q) = q) by (intros []; reflexivity). assert (E : c = box_get_center (box_init_from_points pts)) by exact (RT _). rewrite E.
    split; [exact C2|]. exact (radius_core BK _ pts NE C1 H).
Qed.

(** built from vectors, it is the sphere built from the points the vectors stand for *)
Theorem C98_sphere_from_vectors : forall (BK : Backend b32) (vs : list V) (center : option (point3d b32)),
  let s := sphere_init_from_vectors vs center in let s' := sphere_init_from_points (map point3d_init_from_vec3 vs) center in
  sphere_get_center s = sphere_get_center s' /\ sphere_get_radius s = sphere_get_radius s'.
Proof.
  intros BK vs center s s'.
  assert (FO : forall (b b' : box b32), (vx (bmin b) = vx (bmin b') /\ vy (bmin b) = vy (bmin b') /\ vz (bmin b) = vz (bmin b')) /\ (vx (bmax b) = vx (bmax b') /\ vy (bmax b) = vy (bmax b') /\ vz (bmax b) = vz (bmax b')) ->
    let r := fold_left box_expand_vec3 vs b in let r' := fold_left (fun b p => box_expand_vec3 b (point3d_to_vec3 p)) (map point3d_init_from_vec3 vs) b' in
    (vx (bmin r) = vx (bmin r') /\ vy (bmin r) = vy (bmin r') /\ vz (bmin r) = vz (bmin r')) /\ (vx (bmax r) = vx (bmax r') /\ vy (bmax r) = vy (bmax r') /\ vz (bmax r) = vz (bmax r'))).
  { induction vs as [|v l IH]; intros b b' H; cbn [map fold_left]; [exact H|]. apply IH. destruct H as ((A1 & A2 & A3) & (B1 & B2 & B3)). unfold box_expand_vec3, box_expand_simd4f, g_min, g_max, map2, point3d_to_vec3, point3d_init_from_vec3, g_init, vec3_get_x, vec3_get_y, vec3_get_z, g_get_x, g_get_y, g_get_z; cbn [bmin bmax vx vy vz vw p3x p3y p3z]. rewrite A1, A2, A3, B1, B2, B3. auto. }
  assert (CE : box_get_center (box_init_from_vectors vs) = box_get_center (box_init_from_points (map point3d_init_from_vec3 vs))).
  { destruct (FO box_empty box_empty ltac:(auto)) as ((A1 & A2 & A3) & (B1 & B2 & B3)). change (fold_left box_expand_vec3 vs box_empty) with (box_init_from_vectors vs) in * . change (fold_left (fun b p => box_expand_vec3 b (point3d_to_vec3 p)) (map point3d_init_from_vec3 vs) box_empty) with (box_init_from_points (map point3d_init_from_vec3 vs)) in * .
    unfold box_get_center, box_is_empty, box_is_infinity. rewrite A1, A2, A3, B1, B2, B3. destruct (_ || _); [reflexivity|]. unfold point3d_init_from_vec3, vec3_scale, vec3_add, g_mul, g_add, map2, g_splat, vec3_get_x, vec3_get_y, vec3_get_z, g_get_x, g_get_y, g_get_z; cbn [vx vy vz vw]. rewrite A1, A2, A3, B1, B2, B3. reflexivity. }
  assert (RE : forall (c : V) (m : b32), fold_left (fun m v => ffmax m (distance_sq c v)) vs m = fold_left (fun m p => ffmax m (distance_sq c (point3d_to_vec3 p))) (map point3d_init_from_vec3 vs) m).
  { clear. intros c. induction vs as [|v l IH]; intros m; cbn [map fold_left]; [reflexivity|]. rewrite IH. do 2 f_equal. }
  unfold s, s', sphere_init_from_vectors, sphere_init_from_points. destruct center as [c0|]; cbn [sphere_get_center sphere_get_radius scenter sradius]; rewrite <- ?CE; (split; [reflexivity|]); unfold sphere_get_radius; cbn [sradius]; f_equal; apply RE.
Qed.

(** ** float squares are not negative *)
Definition nnx (a : xreal) : Prop := match a with Fin r => 0 <= r | PInf => True | _ => False end.
Lemma nnx_rnd a : nnx a -> nnx (xrnd (prec:=24) (emax:=128) a).
Proof.
  destruct a as [r| | |]; try easy. intros H. cbn [nnx] in H. unfold xrnd, xround. destruct (Rlt_bool _ _); [|destruct (Rlt_dec r 0); [lra|exact I]]. cbn [nnx].
  apply rnd_pos. exact H.
Qed.
Lemma nnx_add (x y : b32) : nnx (B2X x) -> nnx (B2X y) -> nnx (B2X (fadd x y)).
Proof. intros X Y. rewrite fadd_X. apply nnx_rnd. destruct (B2X x), (B2X y); try easy. cbn in * . lra. Qed.
Lemma nnx_sq (x : b32) : fin x -> nnx (B2X (fmul x x)).
Proof. intros F. rewrite fmul_X, (fin_X _ F). apply nnx_rnd. cbn. apply Rle_0_sqr. Qed.
Lemma dot3_nonneg (BK : Backend b32) (v : V) : finite3 v -> fin (vec3_dot v v) -> 0 <= real (vec3_dot v v).
Proof.
  intros (F1 & F2 & F3) F. assert (G : nnx (B2X (vec3_dot v v))); [|rewrite (fin_X _ F) in G; exact G]. assert (Z : nnx (B2X (fzero : b32))) by (rewrite fzero_X; cbn; lra).
  unfold vec3_dot, g_dot3_scalar. destruct BK as [ie| |[] fma rcp rsq|rec rsq sq]; cbv [backend]; repeat apply nnx_add; auto using nnx_sq.
Qed.
(** ** the bounding box of a sphere *)
Theorem C98_bounding_box : forall (BK : Backend b32) (s : sphere b32), upto_p 50 (sphere_get_center s) -> upto 50 (sphere_get_radius s) ->
  let r := real (sphere_get_radius s) in let b := sphere_get_bounding_box s in
  let side := fun get : point3d b32 -> b32 => let c := real (get (sphere_get_center s)) in
    within (bpow radix2 (-24) * Rabs (c - r)) (get (box_get_min b)) (c - r) /\ within (bpow radix2 (-24) * Rabs (c + r)) (get (box_get_max b)) (c + r) in
  side p3x /\ side p3y /\ side p3z.
Proof.
  intros BK s (CX & CY & CZ) [FR BR] r b side. destruct (fin_of_X _ _ (Props_Box.neg_scalar_X _ FR)) as [FN RN]. fold b32 in RN. change (sphere_get_radius s) with (sradius s) in * . fold r in BR, RN.
  assert (P : 2 * bpow radix2 50 <= bpow radix2 127) by (change 2 with (bpow radix2 1); rewrite <- bpow_plus; apply bpow_le; lia).
  assert (K : forall x : b32, upto 50 x -> within (bpow radix2 (-24) * Rabs (real x - r)) (fadd x (fmul (sradius s) fm1)) (real x - r) /\ within (bpow radix2 (-24) * Rabs (real x + r)) (fadd x (sradius s)) (real x + r)).
  { intros x [FX BX]. assert (U : bpow radix2 (-24) = u) by (simpl; lra). rewrite U. apply Rabs_le_inv in BX, BR. split.
    - destruct (Props_RaySph.add_w x (fmul (sradius s) fm1) (2 * bpow radix2 50) FX FN ltac:(rewrite RN; apply Rabs_le; lra) P) as [F E]. rewrite RN in E. split; [exact F|exact E].
    - destruct (Props_RaySph.add_w x (sradius s) (2 * bpow radix2 50) FX FR ltac:(fold r; apply Rabs_le; lra) P) as [F E]. split; [exact F|exact E]. }
  split; [|split]; unfold side; cbv zeta; [exact (K _ CX)|exact (K _ CY)|exact (K _ CZ)].
Qed.
(** so it covers the real ball up to the rounding of each side *)
Theorem C98_bounding_box_covers : forall (BK : Backend b32) (s : sphere b32) (X : R3), upto_p 50 (sphere_get_center s) -> upto 50 (sphere_get_radius s) ->
  let r := real (sphere_get_radius s) in let b := sphere_get_bounding_box s in dist X (pval (sphere_get_center s)) <= r ->
  let lo := pval (box_get_min b) in let hi := pval (box_get_max b) in let e := bpow radix2 (-23) * (norm (pval (sphere_get_center s)) + r) in
  (X3 lo - e <= X3 X <= X3 hi + e) /\ (Y3 lo - e <= Y3 X <= Y3 hi + e) /\ (Z3 lo - e <= Z3 X <= Z3 hi + e).
Proof.
  intros BK s X C R r b IN lo hi e. destruct (C98_bounding_box BK s C R) as (((_ & X1) & (_ & X2)) & ((_ & Y1) & (_ & Y2)) & ((_ & Z1) & (_ & Z2))). fold r b in X1, X2, Y1, Y2, Z1, Z2.
  set (c := pval (sphere_get_center s)) in * . assert (CP : forall v j, j = X3 \/ j = Y3 \/ j = Z3 -> Rabs (j v) <= norm v).
  { intros v j J. apply Rsqr_incr_0_var; [|apply norm_nonneg]. unfold Rsqr. rewrite norm_sq, <- Rabs_mult, Rabs_pos_eq by apply Rle_0_sqr. unfold dot. destruct J as [-> |[-> | ->]]; nra. }
  assert (R0 : 0 <= r) by (pose proof (norm_nonneg (vminus X c)); unfold dist in IN; lra).
  assert (U : bpow radix2 (-24) = u) by (simpl; lra). rewrite U in * . assert (U2 : bpow radix2 (-23) = 2 * u) by (simpl; lra). unfold e. rewrite U2.
  assert (G : forall j, j = X3 \/ j = Y3 \/ j = Z3 -> forall l h, Rabs (l - (j c - r)) <= u * Rabs (j c - r) -> Rabs (h - (j c + r)) <= u * Rabs (j c + r) -> (forall a b', j (vminus a b') = j a - j b') -> l - 2 * u * (norm c + r) <= j X <= h + 2 * u * (norm c + r)).
  { intros j J l h L H LIN. pose proof (CP c j J) as B1. pose proof (CP (vminus X c) j J) as B2. rewrite LIN in B2. change (norm (vminus X c)) with (dist X c) in B2.
    assert (Rabs (j c - r) <= norm c + r) by (apply Rabs_le; apply Rabs_le_inv in B1; lra). assert (Rabs (j c + r) <= norm c + r) by (apply Rabs_le; apply Rabs_le_inv in B1; lra). pose proof (Rabs_pos (j c)).
    apply Rabs_le_inv in L, H, B1, B2. lra. }
  split; [|split].
  - apply (G X3); auto.
  - apply (G Y3); auto.
  - apply (G Z3); auto.
Qed.

(** ** distance to a sphere *)
Lemma sqrt_dist (BK : Backend b32) (a b : point3d b32) : upto_p 50 a -> upto_p 50 b -> let d := dist (pval a) (pval b) in
  within (bpow radix2 (-21) * d + bpow radix2 (-72)) (fsqrt (distance_sq (point3d_to_vec3 a) (point3d_to_vec3 b))) d.
Proof.
  intros A B d. destruct (Props_Dec.dist_within BK a b (upto_fin _ _ A) (upto_fin _ _ B) (dist3_bound _ _ A B)) as [FM EM].
  pose proof (dist3_bound _ _ A B) as DB. rewrite pval_dist3 in EM, DB. fold d in EM, DB. set (m := distance_sq (point3d_to_vec3 a) (point3d_to_vec3 b)) in * . assert (D0 : 0 <= d) by apply norm_nonneg.
  assert (M0 : 0 <= real m). { apply dot3_nonneg; [|exact FM]. destruct A as ((A1 & A1') & (A2 & A2') & (A3 & A3')), B as ((B1 & B1') & (B2 & B2') & (B3 & B3')).
    assert (P : 2 * bpow radix2 50 <= bpow radix2 127) by (change 2 with (bpow radix2 1); rewrite <- bpow_plus; apply bpow_le; lia).
    assert (K : forall x y : b32, fin x -> fin y -> Rabs (real x) <= bpow radix2 50 -> Rabs (real y) <= bpow radix2 50 -> fin (fsub x y)). { intros x y FX FY X Y. apply (Props_RaySph.sub_w x y (2 * bpow radix2 50) FX FY); [|exact P]. apply Rabs_le_inv in X, Y. apply Rabs_le. lra. }
    split; [|split]; apply K; assumption. }
  assert (P147 : bpow radix2 (-147) * 2 = bpow radix2 (-73) * bpow radix2 (-73)) by (rewrite <- bpow_plus; change (-73 + -73)%Z with (1 + -147)%Z; rewrite bpow_plus; change (bpow radix2 1) with 2; ring).
  assert (P72 : bpow radix2 (-72) = 2 * bpow radix2 (-73)) by (change (-72)%Z with (1 + -73)%Z; now rewrite bpow_plus). pose proof (bpow_gt_0 radix2 (-73)) as P73. pose proof (bpow_gt_0 radix2 (-147)) as Q147. set (t := bpow radix2 (-73)) in * . set (w := bpow radix2 (-147)) in * .
  assert (W1 : w <= 1) by (apply (bpow_le radix2 (-147) 0); lia). assert (B126 : 2 * bpow radix2 117 + 2 <= bpow radix2 126). { assert (bpow radix2 126 = 512 * bpow radix2 117) by (change 126%Z with (9 + 117)%Z; now rewrite bpow_plus). assert (1 <= bpow radix2 117) by (apply (bpow_le radix2 0); lia). lra. }
  assert (U21 : bpow radix2 (-21) = 8 * u) by (simpl; lra). rewrite U21 in * . apply Rabs_le_inv in EM. assert (DD : 0 <= d * d) by (apply Rmult_le_pos; lra).
  destruct (Props_RaySph.sqrt_w m FM M0 ltac:(lra)) as (FR & R0 & ER). split; [exact FR|]. set (r := real (fsqrt m)) in * . apply Rabs_le_inv in ER. assert (RR : 0 <= r * r) by (apply Rmult_le_pos; lra). rewrite P72.
  assert (T : 0 <= t * t) by (apply Rmult_le_pos; lra).
  assert (G : r * r <= (1 + 10.2 * u) * (d * d) + t * t) by lra. assert (G2 : d * d <= (1 + 10.2 * u) * (r * r) + t * t) by lra.
  (* halving the relative error of the square *)
  assert (HS : forall x y, 0 <= x -> 0 <= y -> x * x <= (1 + 10.2 * u) * (y * y) + t * t -> x <= (1 + 5.2 * u) * y + t).
  { intros x y X0 Y0 H. apply Rsqr_incr_0_var; [|assert (0 <= (1 + 5.2 * u) * y) by (apply Rmult_le_pos; lra); lra]. unfold Rsqr. eapply Rle_trans; [exact H|]. assert (0 <= y * y) by (apply Rmult_le_pos; lra). assert (0 <= y * t) by (apply Rmult_le_pos; lra).
    replace (((1 + 5.2 * u) * y + t) * ((1 + 5.2 * u) * y + t)) with ((1 + 5.2 * u) * (1 + 5.2 * u) * (y * y) + 2 * (1 + 5.2 * u) * (y * t) + t * t) by ring. assert ((1 + 10.2 * u) * (y * y) <= (1 + 5.2 * u) * (1 + 5.2 * u) * (y * y)) by (apply Rmult_le_compat_r; [assumption|lra]). assert (0 <= 2 * (1 + 5.2 * u) * (y * t)) by (apply Rmult_le_pos; lra). lra. }
  pose proof (HS r d R0 D0 G). pose proof (HS d r D0 R0 G2). apply Rabs_le. lra.
Qed.
Theorem C98_sphere_distance : forall (BK : Backend b32) (s : sphere b32) (p : point3d b32), upto_p 50 (sphere_get_center s) -> upto 50 (sphere_get_radius s) -> upto_p 50 p ->
  let d := dist (pval (sphere_get_center s)) (pval p) in let r := real (sphere_get_radius s) in
  within (bpow radix2 (-20) * (d + Rabs r) + bpow radix2 (-71)) (sphere_distance s p) (d - r).
Proof.
  intros BK s p C [FR BR] P d r. destruct (sqrt_dist BK _ _ C P) as [FS ES]. fold d in ES.
  change (sphere_distance s p) with (fsub (fsqrt (distance_sq (point3d_to_vec3 (sphere_get_center s)) (point3d_to_vec3 p))) (sradius s)). set (q := fsqrt (distance_sq (point3d_to_vec3 (sphere_get_center s)) (point3d_to_vec3 p))) in * .
  change (sphere_get_radius s) with (sradius s) in * . fold r in BR. assert (D0 : 0 <= d) by apply norm_nonneg. pose proof (Rabs_pos r) as A0. pose proof (RRle_abs r) as A1. pose proof (RRle_abs (- r)) as A2. rewrite Rabs_Ropp in A2.
  assert (DB : d <= bpow radix2 60). { pose proof (dist3_bound _ _ C P) as B. rewrite pval_dist3 in B. fold d in B. apply Rsqr_incr_0_var; [|apply bpow_ge_0]. unfold Rsqr. eapply Rle_trans; [exact B|]. rewrite <- bpow_plus. apply bpow_le. lia. }
  assert (P72 : bpow radix2 (-72) <= 1) by (apply (bpow_le radix2 (-72) 0); lia). assert (P71 : bpow radix2 (-71) = 2 * bpow radix2 (-72)) by (change (-71)%Z with (1 + -72)%Z; now rewrite bpow_plus). pose proof (bpow_gt_0 radix2 (-72)) as Q.
  assert (P60 : bpow radix2 50 <= bpow radix2 60) by (apply bpow_le; lia). assert (O : 1 <= bpow radix2 60) by (apply (bpow_le radix2 0); lia). assert (P127 : 8 * bpow radix2 60 <= bpow radix2 127) by (change 8 with (bpow radix2 3); rewrite <- bpow_plus; apply bpow_le; lia).
  assert (U21 : bpow radix2 (-21) = 8 * u) by (simpl; lra). assert (U20 : bpow radix2 (-20) = 16 * u) by (simpl; lra). rewrite U21 in ES. rewrite U20, P71. apply Rabs_le_inv in ES.
  assert (B1 : Rabs (real q - r) <= (1 + 9 * u) * (d + Rabs r) + bpow radix2 (-72)) by (apply Rabs_le; lra).
  destruct (Props_RaySph.sub_w q (sradius s) (8 * bpow radix2 60) FS FR ltac:(fold r; lra) P127) as [F E]. fold r in E. split; [exact F|]. apply Rabs_le_inv in E. apply Rabs_le. lra.
Qed.

(** ** transformed spheres *)
Definition mrow (m : mat b32) (r : nat) : R3 := mk3 (ent m r 0) (ent m r 1) (ent m r 2).
(** the largest stretch along the axes *)
Definition stretch (m : mat b32) : R := Rmax (Rmax (norm (mrow m 0)) (norm (mrow m 1))) (norm (mrow m 2)).
(** the exact image of a point *)
Definition image3 (m : mat b32) (p : R3) : R3 := vplus (vplus (vscal (X3 p) (mrow m 0)) (vscal (Y3 p) (mrow m 1))) (vplus (vscal (Z3 p) (mrow m 2)) (mrow m 3)).
Lemma half_sq t x y : 0 <= t -> 0 <= x -> 0 <= y -> x * x <= (1 + 10.2 * u) * (y * y) + t * t -> x <= (1 + 5.2 * u) * y + t.
Proof.
  intros T0 X0 Y0 H. apply Rsqr_incr_0_var; [|assert (0 <= (1 + 5.2 * u) * y) by (apply Rmult_le_pos; lra); lra]. unfold Rsqr. eapply Rle_trans; [exact H|]. assert (0 <= y * y) by (apply Rmult_le_pos; lra). assert (0 <= y * t) by (apply Rmult_le_pos; lra).
  replace (((1 + 5.2 * u) * y + t) * ((1 + 5.2 * u) * y + t)) with ((1 + 5.2 * u) * (1 + 5.2 * u) * (y * y) + 2 * (1 + 5.2 * u) * (y * t) + t * t) by ring. assert ((1 + 10.2 * u) * (y * y) <= (1 + 5.2 * u) * (1 + 5.2 * u) * (y * y)) by (apply Rmult_le_compat_r; [assumption|lra]). assert (0 <= 2 * (1 + 5.2 * u) * (y * t)) by (apply Rmult_le_pos; lra). lra.
Qed.
Lemma row_dot (BK : Backend b32) (v : V) : upto3 40 v -> let S := dot (val3 v) (val3 v) in
  fin (g_dot3_scalar v v) /\ 0 <= real (g_dot3_scalar v v) /\ Rabs (real (g_dot3_scalar v v) - S) <= 4 * u * S + bpow radix2 (-147) /\ S <= bpow radix2 90.
Proof.
  intros ((F1 & B1) & (F2 & B2) & (F3 & B3)) S. assert (F : finite3 v) by (repeat split; assumption).
  set (K := bpow radix2 40) in * . pose proof (bpow_gt_0 radix2 40) as K0. fold K in K0.
  assert (P : 8 * (K * K) <= bpow radix2 90). { unfold K. rewrite <- bpow_plus. change 8 with (bpow radix2 3). rewrite <- bpow_plus. apply bpow_le. lia. }
  assert (Q : forall x, Rabs x <= K -> x * x <= K * K). { intros x X. apply Rabs_le_inv in X. assert (0 <= (K - x) * (K + x)) by (apply Rmult_le_pos; lra). lra. }
  assert (SB : S <= bpow radix2 90). { unfold S, dot, val3; cbn [X3 Y3 Z3]. pose proof (Q _ B1). pose proof (Q _ B2). pose proof (Q _ B3). assert (0 <= K * K) by (apply Rmult_le_pos; lra). lra. }
  pose proof (C70_dot3 BK v v F F) as D. rewrite adot3_self, val3_dot3 in D. fold S in D. assert (P126 : bpow radix2 90 <= bpow radix2 126) by (apply bpow_le; lia). destruct (D ltac:(lra)) as [FD ED].
  unfold tol in ED. assert (U22 : bpow radix2 (-22) = 4 * u) by (simpl; lra). rewrite U22 in ED. change (vec3_dot v v) with (g_dot3_scalar v v) in * . split; [exact FD|]. split; [exact (dot3_nonneg BK v F FD)|]. split; [exact ED|exact SB].
Qed.
Lemma ffmax_real (a b : b32) : fin a -> fin b -> fin (ffmax a b) /\ real (ffmax a b) = Rmax (real a) (real b).
Proof.
  intros FA FB. unfold ffmax. change (fisnan a) with (is_nan a). change (fisnan b) with (is_nan b). assert (NN : forall x : b32, fin x -> is_nan x = false) by (intros x Fx; destruct x; easy). rewrite (NN _ FA), (NN _ FB).
  destruct (flt a b) eqn:L; [apply Props_RaySph.flt_R in L|apply Props_RaySph.flt_Rf in L]; auto; split; auto; [rewrite Rmax_right; lra|rewrite Rmax_left; lra].
Qed.
Theorem C98_transform_sphere : forall (BK : Backend b32) (m : mat b32) (s : sphere b32), upto3 40 (mx m) -> upto3 40 (my m) -> upto3 40 (mz m) -> upto 40 (sphere_get_radius s) ->
  let r := real (sphere_get_radius s) in let s' := matrix_transform_sphere m s in
  sphere_get_center s' = matrix_transform_point3d m (sphere_get_center s) /\
  within (bpow radix2 (-21) * (Rabs r * stretch m) + bpow radix2 (-72) * Rabs r + bpow radix2 (-149)) (sphere_get_radius s') (r * stretch m).
Proof.
  intros BK m s H0 H1 H2 [FR BR] r s'. split; [reflexivity|]. change (sphere_get_radius s) with (sradius s) in * . fold r in BR.
  destruct (row_dot BK _ H0) as (F0 & N0 & E0 & B0). destruct (row_dot BK _ H1) as (F1 & N1 & E1 & B1). destruct (row_dot BK _ H2) as (F2 & N2 & E2 & B2). cbv zeta in * . rewrite <- !norm_sq in E0, E1, E2, B0, B1, B2.
  change (val3 (mx m)) with (mrow m 0) in * . change (val3 (my m)) with (mrow m 1) in * . change (val3 (mz m)) with (mrow m 2) in * .
  set (n0 := norm (mrow m 0)) in * . set (n1 := norm (mrow m 1)) in * . set (n2 := norm (mrow m 2)) in * .
  assert (p0 : 0 <= n0) by apply norm_nonneg. assert (p1 : 0 <= n1) by apply norm_nonneg. assert (p2 : 0 <= n2) by apply norm_nonneg.
  set (d0 := g_dot3_scalar (mx m) (mx m)) in * . set (d1 := g_dot3_scalar (my m) (my m)) in * . set (d2 := g_dot3_scalar (mz m) (mz m)) in * .
  destruct (ffmax_real d0 d1 F0 F1) as [F01 M01]. destruct (ffmax_real (ffmax d0 d1) d2 F01 F2) as [FM MM]. rewrite M01 in MM. set (q := ffmax (ffmax d0 d1) d2) in * .
  change (sphere_get_radius s') with (fmul (sradius s) (fsqrt q)). set (S := stretch m). assert (SE : S = Rmax (Rmax n0 n1) n2) by reflexivity.
  assert (S0 : 0 <= S) by (rewrite SE; eapply Rle_trans; [exact p2|apply Rmax_r]).
  assert (W0 : 0 < bpow radix2 (-147)) by apply bpow_gt_0. set (w := bpow radix2 (-147)) in * .
  assert (SQ : Rabs (real q - S * S) <= 4 * u * (S * S) + w /\ 0 <= real q /\ S * S <= bpow radix2 90).
  { assert (MX : forall a b a' b' A B, 0 <= A -> 0 <= B -> a' = A * A -> b' = B * B -> Rabs (a - a') <= 4 * u * a' + w -> Rabs (b - b') <= 4 * u * b' + w -> Rabs (Rmax a b - Rmax A B * Rmax A B) <= 4 * u * (Rmax A B * Rmax A B) + w).
    { clear. intros a b a' b' A B A0 B0 -> -> HA HB. apply Rabs_le_inv in HA, HB. apply Rabs_le. destruct (Rle_dec A B) as [L|L].
      - rewrite (Rmax_right A B) by lra. assert (A * A <= B * B) by (apply Rmult_le_compat; lra). unfold Rmax. destruct (Rle_dec a b); lra.
      - rewrite (Rmax_left A B) by lra. assert (B * B <= A * A) by (apply Rmult_le_compat; lra). unfold Rmax. destruct (Rle_dec a b); lra. }
    rewrite MM, SE. split; [|split].
    - eapply (MX _ _ _ _ (Rmax n0 n1) n2); [eapply Rle_trans; [exact p0|apply Rmax_l]|exact p2|reflexivity|reflexivity| |exact E2]. eapply MX; [exact p0|exact p1|reflexivity|reflexivity|exact E0|exact E1].
    - eapply Rle_trans; [exact N2|apply Rmax_r].
    - unfold Rmax. destruct (Rle_dec n0 n1); [destruct (Rle_dec n1 n2)|destruct (Rle_dec n0 n2)]; lra. }
  destruct SQ as (SQ & Q0 & SB). apply Rabs_le_inv in SQ. assert (SS : 0 <= S * S) by (apply Rmult_le_pos; lra).
  assert (W1 : w <= 1) by (apply (bpow_le radix2 (-147) 0); lia). assert (P126 : 8 * bpow radix2 90 <= bpow radix2 126) by (change 8 with (bpow radix2 3); rewrite <- bpow_plus; apply bpow_le; lia). assert (P90 : 1 <= bpow radix2 90) by (apply (bpow_le radix2 0); lia).
  destruct (Props_RaySph.sqrt_w q FM Q0 ltac:(lra)) as (FS & R0 & ER). apply Rabs_le_inv in ER. set (x := real (fsqrt q)) in * . assert (XX : 0 <= x * x) by (apply Rmult_le_pos; lra).
  assert (P147 : w * 2 = bpow radix2 (-73) * bpow radix2 (-73)) by (unfold w; rewrite <- bpow_plus; change (-73 + -73)%Z with (1 + -147)%Z; rewrite bpow_plus; change (bpow radix2 1) with 2; ring).
  assert (P72 : bpow radix2 (-72) = 2 * bpow radix2 (-73)) by (change (-72)%Z with (1 + -73)%Z; now rewrite bpow_plus). pose proof (bpow_gt_0 radix2 (-73)) as P73. set (t := bpow radix2 (-73)) in * .
  pose proof (half_sq t x S ltac:(lra) R0 S0 ltac:(lra)) as G1. pose proof (half_sq t S x ltac:(lra) S0 R0 ltac:(lra)) as G2.
  assert (EX : Rabs (x - S) <= 5.3 * u * S + 1.001 * t) by (apply Rabs_le; lra). pose proof (Rabs_pos r) as A0.
  assert (EP : Rabs (r * x - r * S) <= 5.3 * u * (Rabs r * S) + 1.001 * t * Rabs r). { replace (r * x - r * S) with (r * (x - S)) by ring. rewrite Rabs_mult. apply Rle_trans with (Rabs r * (5.3 * u * S + 1.001 * t)); [apply Rmult_le_compat_l; assumption|lra]. }
  assert (RS : 0 <= Rabs r * S) by (now apply Rmult_le_pos). assert (AB : Rabs (r * S) = Rabs r * S) by (rewrite Rabs_mult, (Rabs_pos_eq S); auto).
  assert (T1 : t <= 1) by (apply (bpow_le radix2 (-73) 0); lia). assert (RT : t * Rabs r <= bpow radix2 40) by (rewrite <- (Rmult_1_l (bpow radix2 40)); apply Rmult_le_compat; lra).
  assert (SB2 : S <= bpow radix2 45). { apply Rsqr_incr_0_var; [|apply bpow_ge_0]. unfold Rsqr. rewrite <- bpow_plus. exact SB. }
  assert (RSB : Rabs r * S <= bpow radix2 85) by (change 85%Z with (40 + 45)%Z; rewrite bpow_plus; apply Rmult_le_compat; lra).
  assert (P40 : bpow radix2 40 <= bpow radix2 85) by (apply bpow_le; lia). assert (P127 : 8 * bpow radix2 85 <= bpow radix2 127) by (change 8 with (bpow radix2 3); rewrite <- bpow_plus; apply bpow_le; lia).
  assert (RX : Rabs (r * x) <= (1 + 5.3 * u) * (Rabs r * S) + 1.001 * t * Rabs r). { replace (r * x) with ((r * x - r * S) + r * S) by ring. eapply Rle_trans; [apply Rabs_triang|]. rewrite AB. lra. }
  destruct (fin_of_X _ _ (Props_Proj.mul_X (sradius s) (fsqrt q) FR FS ltac:(fold r x; lra))) as [FP RP]. split; [exact FP|]. rewrite RP. fold r x.
  pose proof (rnd_err (r * x)) as E. rewrite u32_val in E. assert (PE : eta <= bpow radix2 (-149)) by (apply bpow_le; lia).
  assert (U21 : bpow radix2 (-21) = 8 * u) by (simpl; lra). rewrite U21, P72.
  replace (rnd32 (r * x) - r * S) with ((rnd32 (r * x) - r * x) + (r * x - r * S)) by ring. eapply Rle_trans; [apply Rabs_triang|].
  assert (0 <= t * Rabs r) by (apply Rmult_le_pos; lra). lra.
Qed.
(** how far apart the terms of an image lie *)
Definition spread (m : mat b32) (c : R3) : R := Rabs (X3 c) * norm (mrow m 0) + Rabs (Y3 c) * norm (mrow m 1) + Rabs (Z3 c) * norm (mrow m 2) + norm (mrow m 3).
Lemma comp_le (v : R3) : Rabs (X3 v) <= norm v /\ Rabs (Y3 v) <= norm v /\ Rabs (Z3 v) <= norm v.
Proof.
  repeat split; (apply Rsqr_incr_0_var; [|apply norm_nonneg]); unfold Rsqr; rewrite norm_sq, <- Rabs_mult, Rabs_pos_eq by apply Rle_0_sqr; unfold dot; nra.
Qed.
Lemma stretch_le (m : mat b32) (e : R) (v : R3) : 0 <= e -> (forall i j, (i < j < 3)%nat -> Rabs (dot (mrow m i) (mrow m j)) <= e * (stretch m * stretch m)) ->
  norm (vplus (vplus (vscal (X3 v) (mrow m 0)) (vscal (Y3 v) (mrow m 1))) (vscal (Z3 v) (mrow m 2))) <= (1 + e) * (stretch m * norm v).
Proof.
  intros E0 H. pose proof (norm_nonneg v) as V0. set (S := stretch m) in * .
  pose proof (norm_nonneg (mrow m 0)) as p0. pose proof (norm_nonneg (mrow m 1)) as p1. pose proof (norm_nonneg (mrow m 2)) as p2.
  assert (B0 : norm (mrow m 0) <= S) by (unfold S, stretch; eapply Rle_trans; [apply Rmax_l|apply Rmax_l]). assert (B1 : norm (mrow m 1) <= S) by (unfold S, stretch; eapply Rle_trans; [apply Rmax_r|apply Rmax_l]). assert (B2 : norm (mrow m 2) <= S) by (unfold S, stretch; apply Rmax_r).
  assert (S0 : 0 <= S) by lra. pose proof (H 0%nat 1%nat ltac:(lia)) as H01. pose proof (H 0%nat 2%nat ltac:(lia)) as H02. pose proof (H 1%nat 2%nat ltac:(lia)) as H12. clear H.
  assert (SQ : forall n, 0 <= n -> n <= S -> n * n <= S * S) by (intros n A B; apply Rmult_le_compat; lra).
  pose proof (SQ _ p0 B0) as Q0. pose proof (SQ _ p1 B1) as Q1. pose proof (SQ _ p2 B2) as Q2. rewrite norm_sq in Q0, Q1, Q2.
  apply norm_le; [repeat apply Rmult_le_pos; lra|]. set (x := X3 v). set (y := Y3 v). set (z := Z3 v). set (a := mrow m 0) in * . set (b := mrow m 1) in * . set (c := mrow m 2) in * .
  assert (NV : norm v * norm v = x * x + y * y + z * z) by (rewrite norm_sq; reflexivity).
  replace (dot (vplus (vplus (vscal x a) (vscal y b)) (vscal z c)) (vplus (vplus (vscal x a) (vscal y b)) (vscal z c))) with (x * x * dot a a + y * y * dot b b + z * z * dot c c + 2 * (x * y * dot a b) + 2 * (x * z * dot a c) + 2 * (y * z * dot b c)) by (unfold dot, vplus, vscal; cbn [X3 Y3 Z3]; ring).
  assert (SS : 0 <= S * S) by (apply Rmult_le_pos; lra). set (D := e * (S * S)) in * . assert (D0 : 0 <= D) by (apply Rmult_le_pos; lra).
  assert (T : forall k n, 0 <= n * n -> k <= S * S -> n * n * k <= n * n * (S * S)) by (intros; apply Rmult_le_compat_l; lra).
  pose proof (T _ x (Rle_0_sqr x) Q0). pose proof (T _ y (Rle_0_sqr y) Q1). pose proof (T _ z (Rle_0_sqr z) Q2).
  assert (X : forall p q k, Rabs k <= D -> 2 * (p * q * k) <= (p * p + q * q) * D).
  { intros p q k K. apply Rle_trans with (2 * (Rabs (p * q) * D)). { apply Rmult_le_compat_l; [lra|]. eapply Rle_trans; [apply RRle_abs|]. rewrite Rabs_mult. apply Rmult_le_compat_l; [apply Rabs_pos|exact K]. }
    assert (2 * Rabs (p * q) <= p * p + q * q). { pose proof (Rle_0_sqr (p - q)) as A1. pose proof (Rle_0_sqr (p + q)) as A2. unfold Rsqr in * . assert (Rabs (p * q) <= (p * p + q * q) / 2) by (apply Rabs_le; lra). lra. }
    replace (2 * (Rabs (p * q) * D)) with (2 * Rabs (p * q) * D) by ring. apply Rmult_le_compat_r; lra. }
  pose proof (X x y _ H01). pose proof (X x z _ H02). pose proof (X y z _ H12).
  replace ((1 + e) * (S * norm v) * ((1 + e) * (S * norm v))) with ((1 + e) * (1 + e) * (S * S) * (norm v * norm v)) by ring. rewrite NV.
  assert (N0 : 0 <= x * x + y * y + z * z) by nra.
  assert (L : (x * x + y * y + z * z) * (S * S + 2 * D) <= (1 + e) * (1 + e) * (S * S) * (x * x + y * y + z * z)). { rewrite (Rmult_comm ((1 + e) * (1 + e) * (S * S))). apply Rmult_le_compat_l; [exact N0|]. assert (0 <= e * D) by (apply Rmult_le_pos; lra). unfold D in * . lra. }
  lra.
Qed.
Theorem C98_transform_sphere_covers : forall (BK : Backend b32) (m : mat b32) (s : sphere b32) (e : R) (X : R3), finite_mat m -> upto3 40 (mx m) -> upto3 40 (my m) -> upto3 40 (mz m) -> upto 40 (sphere_get_radius s) ->
  Props_Dec.finite_p3 (sphere_get_center s) -> spread m (pval (sphere_get_center s)) <= bpow radix2 126 ->
  0 <= e -> (forall i j, (i < j < 3)%nat -> Rabs (dot (mrow m i) (mrow m j)) <= e * (stretch m * stretch m)) ->
  let c := pval (sphere_get_center s) in let r := real (sphere_get_radius s) in let s' := matrix_transform_sphere m s in
  dist X c <= r ->
  dist (image3 m X) (pval (sphere_get_center s')) <= real (sphere_get_radius s') + (e + bpow radix2 (-21)) * (r * stretch m) + bpow radix2 (-21) * spread m c + bpow radix2 (-72) * r + bpow radix2 (-145).
Proof.
  intros BK m s e X FM H0 H1 H2 HR (F1 & F2 & F3) SP E0 OR c r s' IN. destruct (C98_transform_sphere BK m s H0 H1 H2 HR) as [CE [_ ER]]. fold r s' in CE, ER.
  assert (R0 : 0 <= r) by (pose proof (norm_nonneg (vminus X c)); unfold dist in IN; lra). rewrite (Rabs_pos_eq r) in ER by exact R0.
  fold c in SP. set (G := spread m c) in * .
  destruct (C70_transform_point3d BK m (sphere_get_center s) FM F1 F2 F3) as (TX & TY & TZ). cbv zeta in TX, TY, TZ. rewrite <- CE in TX, TY, TZ.
  assert (RB : forall k, (k < 3)%nat -> Rabs (ent m 0 k * X3 c) + Rabs (ent m 1 k * Y3 c) + Rabs (ent m 2 k * Z3 c) + Rabs (ent m 3 k) <= G).
  { intros k Hk. rewrite !Rabs_mult. assert (EN : forall r', Rabs (ent m r' k) <= norm (mrow m r')). { intros r'. destruct (comp_le (mrow m r')) as (A & B & C). destruct k as [|[|[|k]]]; [exact A|exact B|exact C|lia]. }
    unfold G, spread. pose proof (Rabs_pos (X3 c)). pose proof (Rabs_pos (Y3 c)). pose proof (Rabs_pos (Z3 c)).
    pose proof (Rmult_le_compat_l _ _ _ H (EN 0%nat)). pose proof (Rmult_le_compat_l _ _ _ H3 (EN 1%nat)). pose proof (Rmult_le_compat_l _ _ _ H4 (EN 2%nat)). pose proof (EN 3%nat). lra. }
  assert (TL : forall z, z <= G -> tol z <= 4 * u * G + bpow radix2 (-147)). { intros z Z. unfold tol. assert (U : bpow radix2 (-22) = 4 * u) by (simpl; lra). rewrite U. lra. }
  assert (DC : dist (pval (sphere_get_center s')) (image3 m c) <= 1.7321 * (4 * u * G + bpow radix2 (-147))).
  { assert (W : forall k z t b, (k < 3)%nat -> z <= G -> (z <= bpow radix2 126 -> within (tol z) b t) -> Rabs (real b - t) <= 4 * u * G + bpow radix2 (-147)). { intros k z t b Hk Z W. destruct (W ltac:(lra)) as [_ E]. pose proof (TL z Z). lra. }
    apply dist_comp.
    - eapply (W 0%nat) in TX; [|lia|exact (RB 0%nat ltac:(lia))]. eapply Rle_trans; [|exact TX]. right. f_equal. unfold image3, vplus, vscal, mrow; cbn [X3 Y3 Z3]. unfold c, Props_TriF.pval; cbn [X3 Y3 Z3]. ring.
    - eapply (W 1%nat) in TY; [|lia|exact (RB 1%nat ltac:(lia))]. eapply Rle_trans; [|exact TY]. right. f_equal. unfold image3, vplus, vscal, mrow; cbn [X3 Y3 Z3]. unfold c, Props_TriF.pval; cbn [X3 Y3 Z3]. ring.
    - eapply (W 2%nat) in TZ; [|lia|exact (RB 2%nat ltac:(lia))]. eapply Rle_trans; [|exact TZ]. right. f_equal. unfold image3, vplus, vscal, mrow; cbn [X3 Y3 Z3]. unfold c, Props_TriF.pval; cbn [X3 Y3 Z3]. ring. }
  assert (DI : dist (image3 m X) (image3 m c) <= (1 + e) * (stretch m * r)).
  { unfold dist. replace (vminus (image3 m X) (image3 m c)) with (vplus (vplus (vscal (X3 (vminus X c)) (mrow m 0)) (vscal (Y3 (vminus X c)) (mrow m 1))) (vscal (Z3 (vminus X c)) (mrow m 2))) by (apply R3_ext; unfold image3, vminus, vplus, vscal; cbn [X3 Y3 Z3]; ring).
    eapply Rle_trans; [apply (stretch_le m e _ E0 OR)|]. apply Rmult_le_compat_l; [lra|]. apply Rmult_le_compat_l; [|exact IN]. unfold stretch. eapply Rle_trans; [apply (norm_nonneg (mrow m 2))|apply Rmax_r]. }
  eapply Rle_trans; [apply (dist_tri _ (image3 m c))|]. rewrite (dist_sym (image3 m c)). apply Rabs_le_inv in ER.
  assert (U21 : bpow radix2 (-21) = 8 * u) by (simpl; lra). rewrite U21 in * . assert (P145 : bpow radix2 (-145) = 4 * bpow radix2 (-147)) by (change (-145)%Z with (2 + -147)%Z; now rewrite bpow_plus). assert (P149 : bpow radix2 (-147) = 4 * bpow radix2 (-149)) by (change (-147)%Z with (2 + -149)%Z; now rewrite bpow_plus). pose proof (bpow_gt_0 radix2 (-149)).
  assert (G0 : 0 <= G). { unfold G, spread. pose proof (Rabs_pos (X3 c)). pose proof (Rabs_pos (Y3 c)). pose proof (Rabs_pos (Z3 c)). pose proof (norm_nonneg (mrow m 3)). assert (0 <= Rabs (X3 c) * norm (mrow m 0)) by (apply Rmult_le_pos; auto; apply norm_nonneg). assert (0 <= Rabs (Y3 c) * norm (mrow m 1)) by (apply Rmult_le_pos; auto; apply norm_nonneg). assert (0 <= Rabs (Z3 c) * norm (mrow m 2)) by (apply Rmult_le_pos; auto; apply norm_nonneg). lra. }
  lra.
Qed.
(** ** the hypotheses are met *)
Example C98_ex : let pts := [P3 fzero fzero fzero; P3 (lit 6 0) fzero fzero; P3 fzero (lit 8 0) fzero] in Forall (upto_p 50) pts /\
  (forall BK : Backend b32, let s := sphere_init_from_points pts None in sphere_get_radius s = lit 5 0 /\ p3x (sphere_get_center s) = lit 3 0 /\ p3y (sphere_get_center s) = lit 4 0 /\ p3z (sphere_get_center s) = fzero).
Proof.
  intros pts. destruct (lit_real 6 0) as [F6 R6]; try lia. destruct (lit_real 8 0) as [F8 R8]; try lia. simpl (bpow radix2 0) in R6, R8. change (flit 6 0) with (lit 6 0) in R6. change (flit 8 0) with (lit 8 0) in R8.
  assert (P : 8 <= bpow radix2 50) by (change 8 with (bpow radix2 3); apply bpow_le; lia).
  assert (Z : upto 50 (fzero : b32)) by (split; [reflexivity|change (real fzero) with 0; rewrite Rabs_R0; lra]).
  assert (U6 : upto 50 (lit 6 0)) by (split; [exact F6|rewrite R6, Rabs_pos_eq; lra]). assert (U8 : upto 50 (lit 8 0)) by (split; [exact F8|rewrite R8, Rabs_pos_eq; lra]).
  split; [repeat (apply Forall_cons; [split; [|split]; assumption|]); apply Forall_nil|]. intros BK s. destruct BK as [ie| |[] fma rcp rsq|rec rsq sq]; unfold s; (split; [|split; [|split]]); beq.
Qed.
Example C98_ex_transform : let m := M4 (g_init (lit 2 0) fzero fzero fzero) (g_init fzero (lit 3 0) fzero fzero) (g_init fzero fzero (lit 4 0) fzero) (g_init (lit 7 0) (lit 5 0) fzero (lit 1 0)) in
  finite_mat m /\ upto3 40 (mx m) /\ upto3 40 (my m) /\ upto3 40 (mz m) /\ stretch m = 4 /\
  (forall i j, (i < j < 3)%nat -> Rabs (dot (mrow m i) (mrow m j)) <= 0 * (stretch m * stretch m)) /\ spread m (mk3 1 1 1) <= 100.
Proof.
  intros m. assert (Z : real (fzero : b32) = 0) by reflexivity. assert (L : forall k, (0 < k < 8)%Z -> fin (lit k 0) /\ real (lit k 0) = IZR k).
  { intros k Hk. destruct (lit_real k 0) as [F E]; try lia. simpl (bpow radix2 0) in E. split; [exact F|]. change (lit k 0) with (flit k 0 : b32). rewrite E. ring. }
  destruct (L 1%Z ltac:(lia)) as [F1 R1]. destruct (L 2%Z ltac:(lia)) as [F2 R2]. destruct (L 3%Z ltac:(lia)) as [F3 R3]. destruct (L 4%Z ltac:(lia)) as [F4 R4]. destruct (L 5%Z ltac:(lia)) as [F5 R5]. destruct (L 7%Z ltac:(lia)) as [F7 R7]. clear L.
  assert (M0 : mrow m 0 = mk3 2 0 0) by (unfold mrow, ent; cbn; rewrite R2, ?Z; reflexivity). assert (M1 : mrow m 1 = mk3 0 3 0) by (unfold mrow, ent; cbn; rewrite R3, ?Z; reflexivity).
  assert (M2 : mrow m 2 = mk3 0 0 4) by (unfold mrow, ent; cbn; rewrite R4, ?Z; reflexivity). assert (M3 : mrow m 3 = mk3 7 5 0) by (unfold mrow, ent; cbn; rewrite R7, R5, ?Z; reflexivity).
  assert (N0 : norm (mk3 2 0 0) = 2) by (apply norm_unique; [lra|unfold dot; cbn [X3 Y3 Z3]; ring]). assert (N1 : norm (mk3 0 3 0) = 3) by (apply norm_unique; [lra|unfold dot; cbn [X3 Y3 Z3]; ring]). assert (N2 : norm (mk3 0 0 4) = 4) by (apply norm_unique; [lra|unfold dot; cbn [X3 Y3 Z3]; ring]).
  assert (N3 : norm (mk3 7 5 0) <= 9) by (apply norm_le; [lra|unfold dot; cbn [X3 Y3 Z3]; lra]).
  assert (P : 8 <= bpow radix2 40) by (change 8 with (bpow radix2 3); apply bpow_le; lia).
  assert (UZ : upto 40 (fzero : b32)) by (split; [reflexivity|rewrite Z, Rabs_R0; lra]). assert (U2 : upto 40 (lit 2 0)) by (split; [exact F2|rewrite R2, Rabs_pos_eq; lra]). assert (U3 : upto 40 (lit 3 0)) by (split; [exact F3|rewrite R3, Rabs_pos_eq; lra]). assert (U4 : upto 40 (lit 4 0)) by (split; [exact F4|rewrite R4, Rabs_pos_eq; lra]).
  assert (FZ : fin (fzero : b32)) by reflexivity.
  split; [repeat split; assumption|]. split; [split; [exact U2|split; exact UZ]|]. split; [split; [exact UZ|split; [exact U3|exact UZ]]|]. split; [split; [exact UZ|split; [exact UZ|exact U4]]|].
  split; [unfold stretch; rewrite M0, M1, M2, N0, N1, N2, (Rmax_right 2), Rmax_right; lra|]. split.
  - intros i j Hij. assert (D : dot (mrow m i) (mrow m j) = 0); [|rewrite D, Rabs_R0; lra]. destruct i as [|[|i]]; (destruct j as [|[|[|j]]]; try lia); rewrite ?M0, ?M1, ?M2; unfold dot; cbn [X3 Y3 Z3]; ring.
  - unfold spread. rewrite M0, M1, M2, M3, N0, N1, N2. cbn [X3 Y3 Z3]. rewrite Rabs_R1. lra.
Qed.
