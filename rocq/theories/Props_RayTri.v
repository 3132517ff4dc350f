(** * Props_RayTri: ray-triangle intersection in binary32 (C96). *)
From Coq Require Import ZArith Reals Bool List Lra Lia Psatz.
From Flocq Require Import Core BinarySingleNaN.
From Verif Require Import Num Simd Vec Rect Box Mat Geo Quat OrdThy FloatThy B32Setup FloatLem ErrThy Props_Err Props_Err2 Props_Err3 ErrEx Props_Err4 Props_Err5 RGeo Props_Look.
From Verif Require Props_Rot Props_RaySph Props_Proj.
Import ListNotations.
Local Open Scope R_scope.

(** ** triple products *)
Lemma adot_norm (a b : V) : adot3 a b <= norm (val3 a) * norm (val3 b).
Proof.
  set (p := mk3 (Rabs (real (vx a))) (Rabs (real (vy a))) (Rabs (real (vz a)))). set (q := mk3 (Rabs (real (vx b))) (Rabs (real (vy b))) (Rabs (real (vz b)))).
  assert (S : forall t, Rabs t * Rabs t = t * t) by (intros t; rewrite <- Rabs_mult; apply Rabs_pos_eq, Rle_0_sqr).
  assert (A : norm p = norm (val3 a)) by (unfold norm; f_equal; unfold dot, p, val3; cbn [X3 Y3 Z3]; rewrite !S; reflexivity).
  assert (B : norm q = norm (val3 b)) by (unfold norm; f_equal; unfold dot, q, val3; cbn [X3 Y3 Z3]; rewrite !S; reflexivity).
  rewrite <- A, <- B. eapply Rle_trans; [|apply cauchy_abs]. eapply Rle_trans; [|apply Rle_abs]. unfold adot3, adot2, dot, p, q; cbn [X3 Y3 Z3]. rewrite !Rabs_mult. lra.
Qed.
Lemma val3_dot3 a b : dot3 a b = dot (val3 a) (val3 b). Proof. reflexivity. Qed.
(** d . (a x b) for factors that are themselves off by one rounding *)
Lemma triple_float (BK : Backend b32) (d a b : V) (D A B : R3) : finite3 d -> finite3 a -> finite3 b ->
  dist (val3 d) D <= u * norm D -> dist (val3 a) A <= u * norm A -> dist (val3 b) B <= u * norm B ->
  norm D <= bpow radix2 30 -> norm A <= bpow radix2 30 -> norm B <= bpow radix2 30 ->
  within (bpow radix2 (-20) * (norm D * norm A * norm B) + bpow radix2 (-100)) (vec3_dot d (vec3_cross a b)) (dot D (cross A B)).
Proof.
  intros FD FA FB ED EA EB BD BA BB.
  pose proof (norm_nonneg D) as D0. pose proof (norm_nonneg A) as A0. pose proof (norm_nonneg B) as B0.
  assert (NX : forall v W, dist (val3 v) W <= u * norm W -> norm (val3 v) <= 1.0000001 * norm W). { intros v W E. pose proof (norm_gap (val3 v) W) as G. pose proof (norm_nonneg W). apply Rabs_le_inv in G. lra. }
  pose proof (NX _ _ ED) as ND. pose proof (NX _ _ EA) as NA. pose proof (NX _ _ EB) as NB. clear NX.
  pose proof (norm_nonneg (val3 d)) as d0. pose proof (norm_nonneg (val3 a)) as a0. pose proof (norm_nonneg (val3 b)) as b0.
  set (AB := norm A * norm B). assert (AB0 : 0 <= AB) by (now apply Rmult_le_pos).
  assert (P30 : bpow radix2 30 = 1073741824) by reflexivity.
  assert (ABB : AB <= bpow radix2 60) by (change 60%Z with (30 + 30)%Z; rewrite bpow_plus; apply Rmult_le_compat; lra).
  assert (NAB : norm (val3 a) * norm (val3 b) <= 1.0000003 * AB) by (apply Rle_trans with (1.0000001 * norm A * (1.0000001 * norm B)); [apply Rmult_le_compat; lra|unfold AB in * ; lra]).
  assert (P126 : 8 * bpow radix2 90 <= bpow radix2 126) by (change 8 with (bpow radix2 3); rewrite <- bpow_plus; apply bpow_le; lia).
  assert (P60 : 0 < bpow radix2 60) by apply bpow_gt_0. assert (P90 : bpow radix2 90 = 1073741824 * bpow radix2 60) by (rewrite <- P30, <- bpow_plus; reflexivity).
  destruct (cross_float BK a b FA FB ltac:(lra)) as [FC EC]. change (g_cross3 a b) with (vec3_cross a b) in * . set (c := vec3_cross a b) in * .
  assert (U22 : bpow radix2 (-22) = 4 * u) by (simpl; lra). unfold tol in EC. rewrite U22 in EC.
  set (eta := bpow radix2 (-147)) in * . assert (E0 : 0 < eta) by apply bpow_gt_0.
  assert (EABC : dist (cross (val3 a) (val3 b)) (cross A B) <= 2.0000002 * u * AB).
  { eapply Rle_trans; [apply cross_close|]. assert (dist (val3 a) A * norm (val3 b) <= u * norm A * (1.0000001 * norm B)) by (apply Rmult_le_compat; auto; apply norm_nonneg).
    assert (norm A * dist (val3 b) B <= norm A * (u * norm B)) by (apply Rmult_le_compat_l; auto). unfold AB in * . lra. }
  assert (DC : dist (val3 c) (cross A B) <= 8.94 * u * AB + 2 * eta). { eapply Rle_trans; [apply (dist_tri _ (cross (val3 a) (val3 b)))|]. assert (1.7321 * (4 * u * (norm (val3 a) * norm (val3 b))) <= 1.7321 * (4 * u * (1.0000003 * AB))) by lra. lra. }
  assert (CX : norm (cross A B) <= AB) by apply cross_le.
  assert (NC : norm (val3 c) <= 1.000001 * AB + 2 * eta). { pose proof (norm_gap (val3 c) (cross A B)) as G. apply Rabs_le_inv in G. lra. }
  pose proof (norm_nonneg (val3 c)) as c0.
  assert (EB1 : eta <= 1) by (apply (bpow_le radix2 (-147) 0); lia).
  assert (DAB : norm D * AB <= bpow radix2 90) by (change 90%Z with (30 + 60)%Z; rewrite bpow_plus; apply Rmult_le_compat; lra). assert (DAB0 : 0 <= norm D * AB) by (now apply Rmult_le_pos).
  assert (De : norm D * eta <= bpow radix2 (-117)) by (change (-117)%Z with (30 + -147)%Z; rewrite bpow_plus; apply Rmult_le_compat; [lra|lra|lra|apply Rle_refl]).
  assert (P117 : bpow radix2 (-100) = 131072 * bpow radix2 (-117)) by (change (-100)%Z with (17 + -117)%Z; rewrite bpow_plus; reflexivity).
  assert (E117 : eta <= bpow radix2 (-117)) by (apply bpow_le; lia). assert (Q117 : 0 < bpow radix2 (-117)) by apply bpow_gt_0.
  assert (PDC : norm (val3 d) * norm (val3 c) <= 1.000002 * (norm D * AB) + 3 * bpow radix2 (-117)).
  { apply Rle_trans with (1.0000001 * norm D * (1.000001 * AB + 2 * eta)); [apply Rmult_le_compat; lra|]. replace (1.0000001 * norm D * (1.000001 * AB + 2 * eta)) with (1.0000001 * 1.000001 * (norm D * AB) + 2 * 1.0000001 * (norm D * eta)) by ring. lra. }
  assert (S117 : bpow radix2 (-117) <= bpow radix2 60) by (apply bpow_le; lia).
  destruct (C70_dot3 BK d c FD FC) as [FT ET]. { eapply Rle_trans; [apply adot_norm|]. lra. }
  split; [exact FT|]. pose proof (adot_norm d c) as AD. rewrite val3_dot3 in ET. unfold tol in ET. fold eta in ET. rewrite U22 in ET.
  assert (ET' : Rabs (real (vec3_dot d c) - dot (val3 d) (val3 c)) <= 4 * u * (1.000002 * (norm D * AB) + 3 * bpow radix2 (-117)) + eta) by (assert (4 * u * adot3 d c <= 4 * u * (1.000002 * (norm D * AB) + 3 * bpow radix2 (-117))) by lra; lra).
  assert (EV : Rabs (dot (val3 d) (val3 c) - dot D (cross A B)) <= 1.000001 * u * (norm D * AB) + 2 * bpow radix2 (-117) + (8.94 * u * (norm D * AB) + 2 * bpow radix2 (-117))).
  { replace (dot (val3 d) (val3 c) - dot D (cross A B)) with (dot (vminus (val3 d) D) (val3 c) + dot D (vminus (val3 c) (cross A B))) by (unfold dot, vminus; cbn [X3 Y3 Z3]; ring).
    eapply Rle_trans; [apply Rabs_triang|]. pose proof (cauchy_abs (vminus (val3 d) D) (val3 c)) as C1. pose proof (cauchy_abs D (vminus (val3 c) (cross A B))) as C2. fold (dist (val3 d) D) in C1. fold (dist (val3 c) (cross A B)) in C2.
    assert (dist (val3 d) D * norm (val3 c) <= u * norm D * (1.000001 * AB + 2 * eta)) by (apply Rmult_le_compat; auto; apply norm_nonneg).
    assert (norm D * dist (val3 c) (cross A B) <= norm D * (8.94 * u * AB + 2 * eta)) by (apply Rmult_le_compat_l; auto).
    replace (u * norm D * (1.000001 * AB + 2 * eta)) with (1.000001 * u * (norm D * AB) + 2 * u * (norm D * eta)) in H by ring. replace (norm D * (8.94 * u * AB + 2 * eta)) with (8.94 * u * (norm D * AB) + 2 * (norm D * eta)) in H0 by ring. lra. }
  replace (norm D * norm A * norm B) with (norm D * AB) by (unfold AB; ring). assert (U20 : bpow radix2 (-20) = 16 * u) by (simpl; lra). rewrite U20.
  replace (real (vec3_dot d c) - dot D (cross A B)) with ((real (vec3_dot d c) - dot (val3 d) (val3 c)) + (dot (val3 d) (val3 c) - dot D (cross A B))) by ring. eapply Rle_trans; [apply Rabs_triang|]. lra.
Qed.

(** ** the float steps *)
Lemma unit_mul (s x : b32) (k : R) : B2X s = Fin k -> k = 1 \/ k = -1 -> fin x -> fin (fmul s x) /\ real (fmul s x) = k * real x.
Proof.
  intros S K F. assert (H : B2X (fmul s x) = Fin (k * real x)); [|now apply fin_of_X in H].
  rewrite fmul_X, S, (fin_X x F). cbn [xmul]. destruct K as [-> | ->].
  - rewrite Rmult_1_l. rewrite <- (fin_X x F). apply (xrnd_B2X (prec:=24) (emax:=128)).
  - assert (E : Fin (-1 * real x) = B2X (fneg x)) by (rewrite fneg_X, (fin_X x F); cbn; f_equal; ring). rewrite E. apply (xrnd_B2X (prec:=24) (emax:=128)).
Qed.
Lemma div_pos (x y : b32) : fin x -> fin y -> 0 <= real x -> 0 < real y -> Rabs (real x / real y) <= bpow radix2 127 -> 0 <= real (fdiv x y).
Proof.
  intros FX FY PX PY B. assert (E : B2X (fdiv x y) = Fin (rnd32 (real x / real y))).
  { change (fdiv x y) with (Bdiv mode_NE x y). rewrite Bdiv_X by (fold b32; rewrite (fin_X _ FY); intros Q; injection Q; lra). fold b32. rewrite (fin_X _ FX), (fin_X _ FY). cbn [xdiv]. destruct (Req_EM_T (B2R y) 0); [lra|]. now apply xrnd_ok. }
  apply fin_of_X in E as [_ ->]. rewrite rnd32_FLT. apply round_ge_generic; [apply FLT_exp_valid; reflexivity|apply valid_rnd_N|apply generic_format_0|]. unfold Rdiv. apply Rmult_le_pos; auto. left. now apply Rinv_0_lt_compat.
Qed.

Lemma approx_false (x : b32) : fin x -> bpow radix2 (-22) <= Rabs (real x) <= bpow radix2 126 -> approx_val x fzero = false.
Proof.
  intros F [L H]. assert (FZ : fin (fzero : b32)) by reflexivity. assert (Z : real (fzero : b32) = 0) by reflexivity. assert (P : bpow radix2 126 <= bpow radix2 127) by (apply bpow_le; lia).
  destruct (lit_real 1 (-23)) as [FE RE]; try lia. change (bpow radix2 (-22)) with (/ 4194304) in L. change (bpow radix2 (-23)) with (/ 8388608) in RE.
  unfold approx_val, fuzzy_equals. destruct (flt fzero x) eqn:C.
  - apply Props_RaySph.flt_R in C; auto. rewrite Z in C. rewrite Rabs_pos_eq in L, H by lra. destruct (Props_RaySph.sub_w x fzero (bpow radix2 126) F FZ) as [FS ES]; [rewrite Z, Rabs_pos_eq; lra|auto|]. rewrite Z in ES. apply Props_RaySph.flt_Rf; auto. unfold feps. rewrite RE. rewrite (Rabs_pos_eq (real x - 0)) in ES by lra. apply Rabs_le_inv in ES. lra.
  - apply Props_RaySph.flt_Rf in C; auto. rewrite Z in C. rewrite Rabs_left1 in L, H by lra. destruct (Props_RaySph.sub_w fzero x (bpow radix2 126) FZ F) as [FS ES]; [rewrite Z, Rabs_pos_eq; lra|auto|]. rewrite Z in ES. apply Props_RaySph.flt_Rf; auto. unfold feps. rewrite RE. rewrite (Rabs_pos_eq (0 - real x)) in ES by lra. apply Rabs_le_inv in ES. lra.
Qed.

(** ** specification *)
Definition org (r : ray b32) : R3 := val3 (ray_o r).
Definition way (r : ray b32) : R3 := val3 (ray_d r).
Definition edge1 (t : triangle b32) : R3 := vminus (val3 (tr_b t)) (val3 (tr_a t)).
Definition edge2 (t : triangle b32) : R3 := vminus (val3 (tr_c t)) (val3 (tr_a t)).
Definition offset (r : ray b32) (t : triangle b32) : R3 := vminus (org r) (val3 (tr_a t)).
(** the ray meets the plane of the triangle at parameter k, at barycentric coordinates p and q *)
Definition meets (r : ray b32) (t : triangle b32) (k p q : R) : Prop :=
  vplus (org r) (vscal k (way r)) = vplus (val3 (tr_a t)) (vplus (vscal p (edge1 t)) (vscal q (edge2 t))).
(** how squarely the ray meets the plane: the volume spanned by the direction and the two edges *)
Definition volume (r : ray b32) (t : triangle b32) : R := dot (way r) (cross (edge1 t) (edge2 t)).
(** rounding margins, as volumes *)
Definition band (r : ray b32) (t : triangle b32) : R :=
  bpow radix2 (-19) * (norm (way r) * (norm (offset r t) * norm (edge2 t) + norm (edge1 t) * norm (offset r t) + norm (edge1 t) * norm (edge2 t))) + bpow radix2 (-90).
Definition depth_band (r : ray b32) (t : triangle b32) : R := bpow radix2 (-19) * (norm (offset r t) * norm (edge1 t) * norm (edge2 t)) + bpow radix2 (-90).
Definition sized (r : ray b32) (t : triangle b32) : Prop :=
  finite3 (ray_o r) /\ finite3 (ray_d r) /\ finite3 (tr_a t) /\ finite3 (tr_b t) /\ finite3 (tr_c t) /\
  norm (way r) <= bpow radix2 30 /\ norm (edge1 t) <= bpow radix2 30 /\ norm (edge2 t) <= bpow radix2 30 /\ norm (offset r t) <= bpow radix2 30.

Lemma meets_volumes r t k p q : meets r t k p q ->
  dot (way r) (cross (offset r t) (edge2 t)) = p * volume r t /\ dot (way r) (cross (edge1 t) (offset r t)) = q * volume r t /\ dot (offset r t) (cross (edge1 t) (edge2 t)) = - (k * volume r t).
Proof.
  intros H. assert (E : offset r t = vplus (vplus (vscal p (edge1 t)) (vscal q (edge2 t))) (vscal (- k) (way r))).
  { unfold meets in H. unfold offset. pose proof (f_equal X3 H) as H1. pose proof (f_equal Y3 H) as H2. pose proof (f_equal Z3 H) as H3. cbn [vplus vscal X3 Y3 Z3] in H1, H2, H3. apply R3_ext; unfold vminus, vplus, vscal; cbn [X3 Y3 Z3]; lra. }
  rewrite E. unfold volume. set (D := way r). set (A := edge1 t). set (B := edge2 t). unfold dot, cross, vplus, vscal; cbn [X3 Y3 Z3]. repeat split; ring.
Qed.

Theorem C96_ray_triangle : forall (BK : Backend b32) (r : ray b32) (t : triangle b32) (old : b32) (k p q : R), sized r t -> meets r t k p q ->
  bpow radix2 (-21) + 2 * band r t <= Rabs (volume r t) ->
  let e := band r t / Rabs (volume r t) in let ek := depth_band r t / Rabs (volume r t) in
  match ray_intersect_triangle r t old with
  | (HitNone, _) => k < ek \/ p < e \/ q < e \/ 1 - e < p + q
  | (kind, T) => (kind = HitLeave <-> 0 < volume r t) /\ fin T /\ 0 <= real T /\ Rabs (real T - k) <= ek + Rabs k * e + bpow radix2 (-149) /\
      - ek <= k /\ - e <= p /\ - e <= q /\ p + q <= 1 + e
  end.
Proof.
  intros BK r t old k p q (FO & FD & FA & FB & FC & BD & B1 & B2 & BQ) HM BIG e ek.
  destruct (meets_volumes _ _ _ _ _ HM) as (VP & VQ & VK). 
  set (D := way r) in * . set (E1 := edge1 t) in * . set (E2 := edge2 t) in * . set (Q := offset r t) in * . set (v := volume r t) in * .
  assert (P3060 : bpow radix2 30 <= bpow radix2 60) by (apply bpow_le; lia).
  destruct (sub_float _ _ FB FA) as [F1 R1]. { change (norm E1 <= bpow radix2 60). lra. } change (dist (val3 (tr_b t)) (val3 (tr_a t))) with (norm E1) in R1. fold E1 in R1. change (vminus (val3 (tr_b t)) (val3 (tr_a t))) with E1 in R1.
  destruct (sub_float _ _ FC FA) as [F2 R2]. { change (norm E2 <= bpow radix2 60). lra. } change (dist (val3 (tr_c t)) (val3 (tr_a t))) with (norm E2) in R2. change (vminus (val3 (tr_c t)) (val3 (tr_a t))) with E2 in R2.
  destruct (sub_float _ _ FO FA) as [FQ RQ]. { change (norm Q <= bpow radix2 60). lra. } change (dist (val3 (ray_o r)) (val3 (tr_a t))) with (norm Q) in RQ. change (vminus (val3 (ray_o r)) (val3 (tr_a t))) with Q in RQ.
  set (e1 := g_sub (tr_b t) (tr_a t)) in * . set (e2 := g_sub (tr_c t) (tr_a t)) in * . set (df := g_sub (ray_o r) (tr_a t)) in * .
  assert (RD : dist (val3 (ray_d r)) D <= u * norm D). { assert (Z : dist (val3 (ray_d r)) D = 0) by (apply norm_unique; [lra|unfold D, way, dot, vminus; cbn [X3 Y3 Z3]; ring]). rewrite Z. pose proof (norm_nonneg D). lra. }
  destruct (triple_float BK (ray_d r) e1 e2 D E1 E2 FD F1 F2 RD R1 R2 BD B1 B2) as [FN EN].
  destruct (triple_float BK (ray_d r) df e2 D Q E2 FD FQ F2 RD RQ R2 BD BQ B2) as [FP EP].
  destruct (triple_float BK (ray_d r) e1 df D E1 Q FD F1 FQ RD R1 RQ BD B1 BQ) as [FR ER].
  destruct (triple_float BK df e1 e2 Q E1 E2 FQ F1 F2 RQ R1 R2 BQ B1 B2) as [FK EK].
  rewrite VP in EP. rewrite VQ in ER. rewrite VK in EK. change (dot D (cross E1 E2)) with v in EN.
  set (nf := vec3_dot (ray_d r) (vec3_cross e1 e2)) in * . set (pf := vec3_dot (ray_d r) (vec3_cross df e2)) in * . set (rf := vec3_dot (ray_d r) (vec3_cross e1 df)) in * . set (kf := vec3_dot df (vec3_cross e1 e2)) in * .
  pose proof (norm_nonneg D) as D0. pose proof (norm_nonneg E1) as E10. pose proof (norm_nonneg E2) as E20. pose proof (norm_nonneg Q) as Q0.
  set (Wn := norm D * norm E1 * norm E2) in * . set (Wp := norm D * norm Q * norm E2) in * . set (Wr := norm D * norm E1 * norm Q) in * . set (Wk := norm Q * norm E1 * norm E2) in * .
  assert (W0 : 0 <= Wn /\ 0 <= Wp /\ 0 <= Wr /\ 0 <= Wk) by (unfold Wn, Wp, Wr, Wk; repeat split; repeat apply Rmult_le_pos; auto). destruct W0 as (Wn0 & Wp0 & Wr0 & Wk0).
  assert (WB : forall x y z, 0 <= x <= bpow radix2 30 -> 0 <= y <= bpow radix2 30 -> 0 <= z <= bpow radix2 30 -> x * y * z <= bpow radix2 90).
  { intros x y z [X X'] [Y Y'] [Z Z']. change 90%Z with (30 + 30 + 30)%Z. rewrite !bpow_plus. apply Rmult_le_compat; auto; [apply Rmult_le_pos; auto|apply Rmult_le_compat; auto]. }
  assert (Wn1 : Wn <= bpow radix2 90) by (apply WB; auto). assert (Wp1 : Wp <= bpow radix2 90) by (apply WB; auto). assert (Wr1 : Wr <= bpow radix2 90) by (apply WB; auto). assert (Wk1 : Wk <= bpow radix2 90) by (apply WB; auto).
  assert (TP : forall a b c, Rabs (dot a (cross b c)) <= norm a * norm b * norm c). { intros a b c. eapply Rle_trans; [apply cauchy_abs|]. rewrite Rmult_assoc. apply Rmult_le_compat_l; [apply norm_nonneg|apply cross_le]. }
  assert (VP' : Rabs (p * v) <= Wp) by (rewrite <- VP; apply TP). assert (VQ' : Rabs (q * v) <= Wr) by (rewrite <- VQ; apply TP). assert (VK' : Rabs (k * v) <= Wk) by (rewrite <- Rabs_Ropp, <- VK; apply TP). assert (VN' : Rabs v <= Wn) by apply TP.
  clear TP WB. unfold vec3_subtract in * .
  assert (U20 : bpow radix2 (-20) = 16 * u) by (simpl; lra). assert (U19 : bpow radix2 (-19) = 32 * u) by (simpl; lra). rewrite U20 in EN, EP, ER, EK.
  set (tau := bpow radix2 (-100)) in * . assert (T0 : 0 < tau) by apply bpow_gt_0. assert (T90 : bpow radix2 (-90) = 1024 * tau) by (unfold tau; change (-90)%Z with (10 + -100)%Z; rewrite bpow_plus; reflexivity).
  set (bd := 32 * u * (Wp + Wr + Wn) + 1024 * tau). set (bk := 32 * u * Wk + 1024 * tau).
  assert (EB : band r t = bd) by (unfold band; fold D E1 E2 Q; rewrite U19, T90; unfold bd, Wp, Wr, Wn; ring). assert (EKB : depth_band r t = bk) by (unfold depth_band; fold E1 E2 Q; rewrite U19, T90; reflexivity).
  unfold e, ek. rewrite EB, EKB. rewrite EB in BIG. clear e ek EB EKB U19 U20 T90. set (VV := Rabs v) in * . change (bpow radix2 (-21)) with (/ 2097152) in BIG.
  assert (BD0 : 0 < bd) by (unfold bd; lra). assert (BK0 : 0 < bk) by (unfold bk; lra). assert (V0 : 0 < VV) by lra.
  assert (NV : Rabs (real nf - v) <= / 2 * bd) by (unfold bd; lra).
  assert (T1 : tau <= / 1000000) by (apply Rle_trans with (bpow radix2 (-40)); [apply bpow_le; lia|simpl; lra]).
  assert (NB : 0.75 * VV <= Rabs (real nf) <= 1.25 * VV).
  { pose proof (Rabs_triang_inv (real nf) v) as A. pose proof (Rabs_triang_inv v (real nf)) as B. rewrite Rabs_minus_sym in B. fold VV in A, B. lra. }
  assert (P90 : 8 * bpow radix2 90 <= bpow radix2 126) by (change 8 with (bpow radix2 3); rewrite <- bpow_plus; apply bpow_le; lia). assert (P90' : 0 < bpow radix2 90) by apply bpow_gt_0.
  assert (AP : approx_val nf fzero = false) by (apply approx_false; auto; change (bpow radix2 (-22)) with (/ 4194304); lra).
  (* the sign *)
  assert (ZF : fin (fzero : b32)) by reflexivity. assert (ZR : real (fzero : b32) = 0) by reflexivity.
  assert (SG : exists (sg n : b32) s, (if flt fzero nf then (HitLeave, fone, nf) else (HitEnter, fm1, fneg nf)) = (if flt fzero nf then HitLeave else HitEnter, sg, n) /\ B2X sg = Fin s /\ (s = 1 \/ s = -1) /\ s * v = VV /\ fin n /\ real n = s * real nf /\ (flt fzero nf = true <-> 0 < v)).
  { assert (NZ : - (VV * / 4) <= real nf - v <= VV * / 4) by (apply Rabs_le_inv; lra). destruct (flt fzero nf) eqn:C.
    - exists fone, nf, 1. apply Props_RaySph.flt_R in C; auto. rewrite ZR in C. assert (0 < v). { destruct (Rle_or_lt v 0) as [L|L]; auto. unfold VV in NZ. rewrite Rabs_left1 in NZ by auto. lra. }
      split; [reflexivity|]. split; [apply fone_X|]. split; auto. split; [unfold VV; rewrite Rabs_pos_eq; lra|]. split; auto. split; [ring|]. tauto.
    - exists fm1, (fneg nf), (-1). apply Props_RaySph.flt_Rf in C; auto. rewrite ZR in C. assert (v < 0). { destruct (Rle_or_lt 0 v) as [L|L]; auto. unfold VV in NZ, NB, V0. rewrite (Rabs_pos_eq v) in NZ, NB, V0 by auto. rewrite (Rabs_left1 (real nf)) in NB by auto. lra. }
      assert (NX : B2X (fneg nf) = Fin (- real nf)) by (rewrite fneg_X, (fin_X nf FN); reflexivity). destruct (fin_of_X _ _ NX) as [FNN RNN].
      split; [reflexivity|]. split; [unfold fm1; rewrite fneg_X, fone_X; reflexivity|]. split; auto. split; [unfold VV; rewrite Rabs_left; lra|]. split; auto. split; [rewrite RNN; ring|]. split; [discriminate|lra]. }
  destruct SG as (sg & n & s & ESG & SX & S1 & SV & FNN & RNN & SGN).
  assert (SS : s * s = 1) by (destruct S1 as [-> | ->]; ring). assert (SA : Rabs s = 1) by (destruct S1 as [-> | ->]; [apply Rabs_R1|rewrite Rabs_left; lra]).
  destruct (unit_mul sg pf s SX S1 FP) as [FPS RPS]. destruct (unit_mul sg rf s SX S1 FR) as [FRS RRS].
  assert (SXN : B2X (fneg sg) = Fin (- s)) by (rewrite fneg_X, SX; reflexivity).
  destruct (unit_mul (fneg sg) kf (- s) SXN ltac:(destruct S1 as [-> | ->]; [right|left]; ring) FK) as [FKS RKS].
  set (pp := fmul sg pf) in * . set (rr := fmul sg rf) in * . set (kk := fmul (fneg sg) kf) in * .
  (* errors of the signed volumes *)
  assert (EPP : Rabs (real pp - p * VV) <= 16 * u * Wp + tau). { rewrite RPS, <- SV. replace (s * real pf - p * (s * v)) with (s * (real pf - p * v)) by ring. rewrite Rabs_mult, SA. lra. }
  assert (ERR : Rabs (real rr - q * VV) <= 16 * u * Wr + tau). { rewrite RRS, <- SV. replace (s * real rf - q * (s * v)) with (s * (real rf - q * v)) by ring. rewrite Rabs_mult, SA. lra. }
  assert (EKK : Rabs (real kk - k * VV) <= 16 * u * Wk + tau). { rewrite RKS, <- SV. replace (- s * real kf - k * (s * v)) with (- (s * (real kf - - (k * v)))) by ring. rewrite Rabs_Ropp, Rabs_mult, SA. lra. }
  assert (ENN : Rabs (real n - VV) <= 16 * u * Wn + tau). { rewrite RNN, <- SV. replace (s * real nf - s * v) with (s * (real nf - v)) by ring. rewrite Rabs_mult, SA. lra. }
  assert (PV : Rabs (p * VV) <= Wp) by (unfold VV; rewrite Rabs_mult, Rabs_Rabsolu, <- Rabs_mult; auto). assert (QV : Rabs (q * VV) <= Wr) by (unfold VV; rewrite Rabs_mult, Rabs_Rabsolu, <- Rabs_mult; auto). assert (KV : Rabs (k * VV) <= Wk) by (unfold VV; rewrite Rabs_mult, Rabs_Rabsolu, <- Rabs_mult; auto).
  apply Rabs_le_inv in EPP, ERR, EKK, ENN, PV, QV.
  assert (SUMB : Rabs (real pp + real rr) <= 1.01 * (Wp + Wr) + 2 * tau) by (apply Rabs_le; lra).
  assert (P127 : bpow radix2 126 <= bpow radix2 127) by (apply bpow_le; lia).
  assert (T2 : tau <= bpow radix2 90) by (apply bpow_le; lia).
  destruct (Props_RaySph.add_w pp rr _ FPS FRS SUMB ltac:(lra)) as [FSU ESU].
  assert (ESU' : Rabs (real (fadd pp rr) - (p + q) * VV) <= 16 * u * (Wp + Wr) + 2 * tau + u * (1.01 * (Wp + Wr) + 2 * tau)).
  { assert (u * Rabs (real pp + real rr) <= u * (1.01 * (Wp + Wr) + 2 * tau)) by lra. apply Rabs_le_inv in ESU. apply Rabs_le. lra. }
  apply Rabs_le_inv in ESU'.
  assert (LOW : forall x b, x * VV < b -> x < b / VV) by (intros x b H; apply Rmult_lt_reg_r with VV; auto; unfold Rdiv; rewrite Rmult_assoc, Rinv_l; lra).
  assert (UPP : forall x b, x * VV <= b -> x <= b / VV) by (intros x b H; apply Rmult_le_reg_r with VV; auto; unfold Rdiv; rewrite Rmult_assoc, Rinv_l; lra).
  (* the decisions *)
  unfold ray_intersect_triangle. change (vec3_subtract (tr_b t) (tr_a t)) with e1. change (vec3_subtract (tr_c t) (tr_a t)) with e2. change (vec3_subtract (ray_o r) (tr_a t)) with df. fold nf. rewrite AP. rewrite ESG. fold pf rf kf. fold pp rr kk.
  destruct (flt pp fzero) eqn:C1; [apply Props_RaySph.flt_R in C1; auto; rewrite ZR in C1; right; left; apply LOW; unfold bd; lra|]. apply Props_RaySph.flt_Rf in C1; auto. rewrite ZR in C1.
  destruct (flt rr fzero) eqn:C2; [apply Props_RaySph.flt_R in C2; auto; rewrite ZR in C2; right; right; left; apply LOW; unfold bd; lra|]. apply Props_RaySph.flt_Rf in C2; auto. rewrite ZR in C2.
  destruct (flt n (fadd pp rr)) eqn:C3. { apply Props_RaySph.flt_R in C3; auto. right; right; right. assert (1 - (p + q) < bd / VV); [|lra]. apply LOW. unfold bd. lra. }
  apply Props_RaySph.flt_Rf in C3; auto.
  destruct (flt kk fzero) eqn:C4; [apply Props_RaySph.flt_R in C4; auto; rewrite ZR in C4; left; apply LOW; unfold bk; lra|]. apply Props_RaySph.flt_Rf in C4; auto. rewrite ZR in C4.
  (* a hit *)
  assert (HIT : fin (fdiv kk n) /\ 0 <= real (fdiv kk n) /\ Rabs (real (fdiv kk n) - k) <= bk / VV + Rabs k * (bd / VV) + bpow radix2 (-149) /\ - (bk / VV) <= k /\ - (bd / VV) <= p /\ - (bd / VV) <= q /\ p + q <= 1 + bd / VV).
  { assert (N0 : 0.75 * VV <= real n) by (unfold bd in BIG; lra). assert (NP : 0 < real n) by lra. set (q0 := real kk / real n). assert (QN : q0 * real n = real kk) by (unfold q0; field; lra).
    apply Rabs_le_inv in KV. pose proof (Rabs_pos k) as K0.
    assert (QD : Rabs (q0 - k) * real n <= 16 * u * Wk + tau + Rabs k * (16 * u * Wn + tau)).
    { rewrite <- (Rabs_pos_eq (real n)) by lra. rewrite <- Rabs_mult. replace ((q0 - k) * real n) with ((real kk - k * VV) - k * (real n - VV)) by (rewrite <- QN; ring). eapply Rle_trans; [apply Rabs_triang|]. rewrite Rabs_Ropp, Rabs_mult.
      apply Rplus_le_compat; [apply Rabs_le; lra|]. apply Rmult_le_compat_l; auto. apply Rabs_le. lra. }
    assert (QD' : Rabs (q0 - k) * VV <= 1.34 * (16 * u * Wk + tau + Rabs k * (16 * u * Wn + tau))).
    { pose proof (Rabs_pos (q0 - k)) as A. assert (Rabs (q0 - k) * (0.75 * VV) <= Rabs (q0 - k) * real n) by (apply Rmult_le_compat_l; auto). pose proof (Rmult_le_pos _ _ A (Rlt_le _ _ V0)). lra. }
    assert (QB : Rabs q0 <= bpow radix2 126).
    { apply Rmult_le_reg_r with (real n); auto. rewrite <- (Rabs_pos_eq (real n)) at 1 by lra. rewrite <- Rabs_mult, QN. apply Rle_trans with (8 * bpow radix2 90); [apply Rabs_le; lra|].
      assert (X : 8 * bpow radix2 90 <= bpow radix2 126 * / 4194304). { change (/ 4194304) with (bpow radix2 (-22)). rewrite <- bpow_plus. change 8 with (bpow radix2 3). rewrite <- bpow_plus. apply bpow_le. lia. }
      eapply Rle_trans; [exact X|]. apply Rmult_le_compat_l; [apply bpow_ge_0|lra]. }
    assert (QB' : Rabs (real kk / real n) <= bpow radix2 127) by (fold q0; lra).
    destruct (Props_Proj.div_raw kk n FKS FNN ltac:(lra) QB') as [FT ET]. fold q0 in ET.
    split; [exact FT|]. split; [apply div_pos; auto|]. split.
    - assert (Q1 : Rabs q0 <= Rabs k + Rabs (q0 - k)) by (replace q0 with (k + (q0 - k)) at 1 by ring; apply Rabs_triang).
      assert (P149 : bpow radix2 (-150) <= bpow radix2 (-149)) by (apply bpow_le; lia).
      assert (M : (1 + u) * Rabs (q0 - k) + u * Rabs k <= (bk + Rabs k * bd) / VV).
      { apply UPP. assert (KW : Rabs k * VV <= Rabs k * Wn) by (apply Rmult_le_compat_l; auto). assert (0 <= Rabs k * Wn) by (apply Rmult_le_pos; auto). assert (0 <= Rabs k * Wp) by (apply Rmult_le_pos; auto). assert (0 <= Rabs k * Wr) by (apply Rmult_le_pos; auto). assert (0 <= Rabs k * tau) by (apply Rmult_le_pos; lra).
        unfold bk, bd. replace (((1 + u) * Rabs (q0 - k) + u * Rabs k) * VV) with ((1 + u) * (Rabs (q0 - k) * VV) + u * (Rabs k * VV)) by ring. lra. }
      replace (bk / VV + Rabs k * (bd / VV)) with ((bk + Rabs k * bd) / VV) by (field; lra).
      replace (real (fdiv kk n) - k) with ((real (fdiv kk n) - q0) + (q0 - k)) by ring. eapply Rle_trans; [apply Rabs_triang|].
      assert (u * Rabs q0 <= u * (Rabs k + Rabs (q0 - k))) by lra. lra.
    - assert (K1 : - k <= bk / VV) by (apply UPP; unfold bk; lra). assert (K2 : - p <= bd / VV) by (apply UPP; unfold bd; lra). assert (K3 : - q <= bd / VV) by (apply UPP; unfold bd; lra). assert (K4 : p + q - 1 <= bd / VV) by (apply UPP; unfold bd; lra). lra. }
  destruct (flt fzero nf) eqn:C; (split; [|exact HIT]); [|split; [discriminate|intros H; apply SGN in H; discriminate]]. split; [intros _; now apply SGN|reflexivity].
Qed.

(** a ray that is not parallel to the triangle meets its plane at exactly one parameter and pair of coordinates *)
Theorem C96_meets_once : forall r t, volume r t <> 0 -> exists k p q, meets r t k p q /\ forall k' p' q', meets r t k' p' q' -> k' = k /\ p' = p /\ q' = q.
Proof.
  intros r t NV. exists (- dot (offset r t) (cross (edge1 t) (edge2 t)) / volume r t), (dot (way r) (cross (offset r t) (edge2 t)) / volume r t), (dot (way r) (cross (edge1 t) (offset r t)) / volume r t). split.
  - unfold meets. assert (O : org r = vplus (offset r t) (val3 (tr_a t))) by (apply R3_ext; unfold offset, vplus, vminus; cbn [X3 Y3 Z3]; ring). rewrite O. unfold volume in * . set (D := way r) in * . set (A := edge1 t) in * . set (B := edge2 t) in * . set (Q := offset r t) in * . set (C := val3 (tr_a t)).
    set (v := dot D (cross A B)) in * .
    apply R3_ext; unfold vplus, vscal; cbn [X3 Y3 Z3]; apply Rmult_eq_reg_l with v; auto; field_simplify; auto; unfold v, dot, cross; cbn [X3 Y3 Z3]; ring.
  - intros k p q H. destruct (meets_volumes _ _ _ _ _ H) as (P & Q & K). rewrite P, Q, K. repeat split; field; auto.
Qed.
(** a ray clearly through the triangle is reported, a ray clearly beside it or pointing away is not *)
Theorem C96_sure_hit : forall (BK : Backend b32) (r : ray b32) (t : triangle b32) (k p q : R), sized r t -> meets r t k p q -> bpow radix2 (-21) + 2 * band r t <= Rabs (volume r t) ->
  let e := band r t / Rabs (volume r t) in let ek := depth_band r t / Rabs (volume r t) in
  ek <= k -> e <= p -> e <= q -> p + q <= 1 - e -> ray_intersects_triangle r t = true.
Proof.
  intros BK r t k p q S M B e ek K P Q PQ. pose proof (C96_ray_triangle BK r t fzero k p q S M B) as H. cbv zeta in H. fold e ek in H. unfold ray_intersects_triangle.
  destruct (ray_intersect_triangle r t fzero) as [[]]; auto. exfalso. lra.
Qed.
Theorem C96_sure_miss : forall (BK : Backend b32) (r : ray b32) (t : triangle b32) (k p q : R), sized r t -> meets r t k p q -> bpow radix2 (-21) + 2 * band r t <= Rabs (volume r t) ->
  let e := band r t / Rabs (volume r t) in let ek := depth_band r t / Rabs (volume r t) in
  k < - ek \/ p < - e \/ q < - e \/ 1 + e < p + q -> ray_intersects_triangle r t = false.
Proof.
  intros BK r t k p q S M B e ek K. pose proof (C96_ray_triangle BK r t fzero k p q S M B) as H. cbv zeta in H. fold e ek in H. unfold ray_intersects_triangle.
  destruct (ray_intersect_triangle r t fzero) as [[]]; auto; exfalso; lra.
Qed.

(** ** non-vacuity: a ray along z and a triangle in front of it *)
Example C96_ex : forall BK : Backend b32, let r := Ry (vec3_init fzero fzero (lit (-5) 0)) (vec3_init fzero fzero (lit 1 0)) in
  let t := Tr (vec3_init (lit (-1) 0) (lit (-1) 0) fzero) (vec3_init (lit 2 0) (lit (-1) 0) fzero) (vec3_init (lit (-1) 0) (lit 2 0) fzero) in
  sized r t /\ meets r t 5 (1 / 3) (1 / 3) /\ bpow radix2 (-21) + 2 * band r t <= Rabs (volume r t) /\ depth_band r t / Rabs (volume r t) <= 5 /\ band r t / Rabs (volume r t) <= 1 / 3.
Proof.
  intros BK r t. assert (Z : real (fzero : b32) = 0) by reflexivity.
  destruct (lit_real 1 0) as [F1 R1]; try lia. destruct (lit_real 2 0) as [F2 R2]; try lia. destruct (lit_real (-1) 0) as [Fm Rm]; try lia. destruct (lit_real (-5) 0) as [F5 R5]; try lia. simpl (bpow radix2 0) in * .
  assert (EO : org r = mk3 0 0 (-5)) by (apply R3_ext; unfold org, r, vec3_init, g_init, lit; cbn [ray_o val3 X3 Y3 Z3 vx vy vz]; rewrite ?Z, ?R5; lra).
  assert (ED : way r = mk3 0 0 1) by (apply R3_ext; unfold way, r, vec3_init, g_init, lit; cbn [ray_d val3 X3 Y3 Z3 vx vy vz]; rewrite ?Z, ?R1; lra).
  assert (EA : val3 (tr_a t) = mk3 (-1) (-1) 0) by (apply R3_ext; unfold t, vec3_init, g_init, lit; cbn [tr_a val3 X3 Y3 Z3 vx vy vz]; rewrite ?Z, ?Rm; lra).
  assert (E1 : edge1 t = mk3 3 0 0) by (unfold edge1; rewrite EA; apply R3_ext; unfold t, vec3_init, g_init, lit; cbn [tr_b vminus val3 X3 Y3 Z3 vx vy vz]; rewrite ?Z, ?Rm, ?R2; lra).
  assert (E2 : edge2 t = mk3 0 3 0) by (unfold edge2; rewrite EA; apply R3_ext; unfold t, vec3_init, g_init, lit; cbn [tr_c vminus val3 X3 Y3 Z3 vx vy vz]; rewrite ?Z, ?Rm, ?R2; lra).
  assert (EQ : offset r t = mk3 1 1 (-5)) by (unfold offset; rewrite EA, EO; apply R3_ext; cbn [vminus X3 Y3 Z3]; lra).
  assert (N1 : norm (mk3 0 0 1) = 1) by (apply norm_unique; [lra|unfold dot; cbn [X3 Y3 Z3]; lra]). assert (N2 : norm (mk3 3 0 0) = 3) by (apply norm_unique; [lra|unfold dot; cbn [X3 Y3 Z3]; lra]). assert (N3 : norm (mk3 0 3 0) = 3) by (apply norm_unique; [lra|unfold dot; cbn [X3 Y3 Z3]; lra]).
  assert (N4 : norm (mk3 1 1 (-5)) <= 6) by (apply norm_le; [lra|unfold dot; cbn [X3 Y3 Z3]; lra]). pose proof (norm_nonneg (mk3 1 1 (-5))) as N40.
  assert (VV : volume r t = 9) by (unfold volume; rewrite ED, E1, E2; unfold dot, cross; cbn [X3 Y3 Z3]; lra).
  assert (P30 : 1024 <= bpow radix2 30) by (change 1024 with (bpow radix2 10); apply bpow_le; lia). assert (P90 : bpow radix2 (-90) <= / 1024) by (change (/ 1024) with (bpow radix2 (-10)); apply bpow_le; lia).
  assert (BB : band r t <= / 1024 * 2) by (unfold band; rewrite ED, E1, E2, EQ, N1, N2, N3; change (bpow radix2 (-19)) with (/ 524288); lra).
  assert (BK' : depth_band r t <= / 1024 * 2) by (unfold depth_band; rewrite E1, E2, EQ, N2, N3; change (bpow radix2 (-19)) with (/ 524288); lra).
  rewrite VV, Rabs_pos_eq by lra. change (bpow radix2 (-21)) with (/ 2097152).
  split; [|split; [|repeat split; lra]].
  - unfold sized. rewrite ED, E1, E2, EQ, N1, N2, N3. repeat split; try exact F1; try exact F2; try exact Fm; try exact F5; try lra.
  - unfold meets. rewrite EO, ED, EA, E1, E2. apply R3_ext; cbn [vplus vscal X3 Y3 Z3]; lra.
Qed.
