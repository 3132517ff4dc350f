(** * Props_TriF: normals, areas, midpoints and planes of triangles in binary32 (C97). *)
From Coq Require Import ZArith Reals Bool List Lra Lia Psatz.
From Flocq Require Import Core BinarySingleNaN.
From Verif Require Import Num Simd Vec Rect Box Mat Geo Quat OrdThy FloatThy B32Setup FloatLem ErrThy Props_Err Props_Err2 Props_Err3 ErrEx Props_Err4 Props_Err5 RGeo Props_Look Props_RayTri.
From Verif Require Props_Rot Props_RaySph Props_Proj Props_Box.
Import ListNotations.
Local Open Scope R_scope.

(** ** specification *)
(** the edges at the second corner, the vector orthogonal to both, and the sine of the angle there *)
Definition leg1 (a b c : R3) : R3 := vminus c b.
Definition leg2 (a b c : R3) : R3 := vminus a b.
Definition face (a b c : R3) : R3 := cross (leg1 a b c) (leg2 a b c).
Definition sine (a b c : R3) : R := norm (face a b c) / (norm (leg1 a b c) * norm (leg2 a b c)).
(** not too large, not degenerate *)
Definition solid (a b c : R3) : Prop :=
  norm (leg1 a b c) <= bpow radix2 25 /\ norm (leg2 a b c) <= bpow radix2 25 /\ bpow radix2 (-20) <= dot (face a b c) (face a b c) /\ bpow radix2 (-12) <= sine a b c.

(** ** the cross product of the edges *)
Lemma face_float (BK : Backend b32) (a b c : V) : finite3 a -> finite3 b -> finite3 c -> solid (val3 a) (val3 b) (val3 c) ->
  let A := val3 a in let B := val3 b in let C := val3 c in let n := norm (face A B C) in
  let f := vec3_cross (vec3_subtract c b) (vec3_subtract a b) in
  finite3 f /\ dist (val3 f) (face A B C) <= 9 * u * (norm (leg1 A B C) * norm (leg2 A B C)) /\
  (norm (leg1 A B C) * norm (leg2 A B C) = / sine A B C * n /\ 0 < sine A B C <= 1 /\ 1 <= / sine A B C <= 4096) /\ / 1024 <= n /\ n <= bpow radix2 50 /\
  0.99 * n <= norm (val3 f) <= 1.01 * n /\ bpow radix2 (-22) <= dot3 f f <= bpow radix2 101 /\
  dist (dirn (val3 f)) (dirn (face A B C)) <= 18 * u * / sine A B C.
Proof.
  intros FA FB FC (L1 & L2 & NL & SL) A B C n f. set (p := leg1 A B C) in * . set (q := leg2 A B C) in * . fold A B C in NL, SL, L1, L2. fold p in L1. fold q in L2. set (w := face A B C) in * .
  pose proof (norm_nonneg p) as P0. pose proof (norm_nonneg q) as Q0. assert (P60 : bpow radix2 25 <= bpow radix2 60) by (apply bpow_le; lia).
  destruct (sub_float c b FC FB) as [F1 R1]. { change (norm p <= bpow radix2 60). lra. } change (dist (val3 c) (val3 b)) with (norm p) in R1. change (vminus (val3 c) (val3 b)) with p in R1.
  destruct (sub_float a b FA FB) as [F2 R2]. { change (norm q <= bpow radix2 60). lra. } change (dist (val3 a) (val3 b)) with (norm q) in R2. change (vminus (val3 a) (val3 b)) with q in R2.
  change (g_sub c b) with (vec3_subtract c b) in * . change (g_sub a b) with (vec3_subtract a b) in * . set (pf := vec3_subtract c b) in * . set (qf := vec3_subtract a b) in * .
  assert (NX : forall v W, dist (val3 v) W <= u * norm W -> norm (val3 v) <= 1.0000001 * norm W). { intros v W E. pose proof (norm_gap (val3 v) W) as G. pose proof (norm_nonneg W). apply Rabs_le_inv in G. lra. }
  pose proof (NX _ _ R1) as NP. pose proof (NX _ _ R2) as NQ. clear NX. pose proof (norm_nonneg (val3 pf)) as p0. pose proof (norm_nonneg (val3 qf)) as q0.
  set (G := norm p * norm q). assert (G0 : 0 <= G) by (now apply Rmult_le_pos).
  assert (GB : G <= bpow radix2 50) by (change 50%Z with (25 + 25)%Z; rewrite bpow_plus; apply Rmult_le_compat; lra).
  assert (NPQ : norm (val3 pf) * norm (val3 qf) <= 1.0000003 * G) by (apply Rle_trans with (1.0000001 * norm p * (1.0000001 * norm q)); [apply Rmult_le_compat; lra|unfold G in * ; lra]).
  assert (P126 : 8 * bpow radix2 50 <= bpow radix2 126) by (change 8 with (bpow radix2 3); rewrite <- bpow_plus; apply bpow_le; lia). pose proof (bpow_gt_0 radix2 50) as P50.
  destruct (cross_float BK pf qf F1 F2 ltac:(lra)) as [FF EF]. change (g_cross3 pf qf) with f in * . unfold tol in EF.
  assert (U22 : bpow radix2 (-22) = 4 * u) by (simpl; lra). rewrite U22 in EF.
  assert (N0 : / 1024 <= n). { apply Rsqr_incr_0_var; [|apply norm_nonneg]. unfold Rsqr. unfold n. fold w. rewrite norm_sq. change (bpow radix2 (-20)) with (/ 1048576) in NL. lra. }
  assert (NG : n <= G) by apply cross_le.
  assert (ETA : bpow radix2 (-147) <= / 1000 * u * / 1024) by (apply Rle_trans with (bpow radix2 (-80)); [apply bpow_le; lia|simpl; lra]).
  assert (EW : dist (cross (val3 pf) (val3 qf)) w <= 2.0000002 * u * G).
  { eapply Rle_trans; [apply (cross_close _ _ p q)|]. assert (dist (val3 pf) p * norm (val3 qf) <= u * norm p * (1.0000001 * norm q)) by (apply Rmult_le_compat; auto; apply norm_nonneg).
    assert (norm p * dist (val3 qf) q <= norm p * (u * norm q)) by (apply Rmult_le_compat_l; auto). unfold G in * . lra. }
  assert (DW : dist (val3 f) w <= 9 * u * G). { eapply Rle_trans; [apply (dist_tri _ (cross (val3 pf) (val3 qf)))|]. lra. }
  set (s := sine A B C) in * . assert (SE : s = n / G) by reflexivity. assert (GP : 0 < G) by lra. assert (SG : s * G = n) by (rewrite SE; field; lra).
  change (bpow radix2 (-12)) with (/ 4096) in SL. assert (S1 : s <= 1) by nra. assert (S0 : 0 < s) by lra.
  assert (IS : 1 <= / s) by (rewrite <- Rinv_1 at 1; apply Rinv_le_contravar; lra). assert (IS2 : / s <= 4096) by (replace 4096 with (/ / 4096) by lra; apply Rinv_le_contravar; lra).
  assert (GS : G = / s * n) by (rewrite <- SG; field; lra).
  assert (DW' : dist (val3 f) w <= 9 * u * / s * n) by (rewrite GS in DW; lra).
  assert (DN : 9 * u * / s * n <= / 100 * n) by (apply Rmult_le_compat_r; lra).
  assert (NF : Rabs (norm (val3 f) - n) <= / 100 * n) by (eapply Rle_trans; [apply norm_gap|fold w; lra]). apply Rabs_le_inv in NF.
  split; [exact FF|]. split; [exact DW|]. split; [auto|]. split; [exact N0|]. split; [lra|]. split; [lra|]. split.
  - rewrite val3_dot3, <- norm_sq. change (bpow radix2 (-22)) with (/ 4194304). split.
    + apply Rle_trans with (0.99 * / 1024 * (0.99 * / 1024)); [lra|apply Rmult_le_compat; lra].
    + apply Rle_trans with (bpow radix2 1 * bpow radix2 49 * (bpow radix2 1 * bpow radix2 49) * 1.1); [|].
      * assert (norm (val3 f) <= 1.01 * bpow radix2 50) by lra. rewrite <- !bpow_plus. change (1 + 49 + (1 + 49))%Z with 100%Z. change (1 + 49)%Z with 50%Z. pose proof (norm_nonneg (val3 f)). apply Rle_trans with (1.01 * bpow radix2 50 * (1.01 * bpow radix2 50)); [apply Rmult_le_compat; auto|].
        assert (bpow radix2 100 = bpow radix2 50 * bpow radix2 50) by (rewrite <- bpow_plus; reflexivity). pose proof (bpow_gt_0 radix2 100). nra.
      * rewrite <- !bpow_plus. assert (bpow radix2 101 = 2 * bpow radix2 100) by (change 101%Z with (1 + 100)%Z; now rewrite bpow_plus). pose proof (bpow_gt_0 radix2 100). change (1 + 49 + (1 + 49))%Z with 100%Z. lra.
  - replace (18 * u * / s) with (2 * (9 * u * / s)) by ring. apply dirn_close; fold w n; lra.
Qed.

(** ** C97: triangles *)
Definition finite_tri (t : triangle b32) : Prop := finite3 (tr_a t) /\ finite3 (tr_b t) /\ finite3 (tr_c t).
Theorem C97_triangle_area : forall (BK : Backend b32) (t : triangle b32), estimates_ok BK -> finite_tri t ->
  let A := val3 (tr_a t) in let B := val3 (tr_b t) in let C := val3 (tr_c t) in solid A B C ->
  within (bpow radix2 (-20) * (norm (leg1 A B C) * norm (leg2 A B C))) (triangle_get_area t) (norm (face A B C) / 2).
Proof.
  intros BK t HB (FA & FB & FC) A B C SO. destruct (face_float BK _ _ _ FA FB FC SO) as (FF & DF & (GS & S0 & IS) & N0 & N1 & NF & RG & _). fold A B C in DF, GS, S0, IS, N0, N1, NF.
  fold (triangle_cross t) in FF, DF, NF, RG. set (f := triangle_cross t) in * . set (n := norm (face A B C)) in * . set (G := norm (leg1 A B C) * norm (leg2 A B C)) in * .
  assert (NR : normal_range BK (dot3 f f)). { destruct RG as [R1 R2]. split; [split; [eapply Rle_trans; [|exact R1]; apply bpow_le; lia|eapply Rle_trans; [exact R2|apply bpow_le; lia]]|]. unfold scalar_cutoff. destruct BK; auto. }
  destruct (C70_length BK f HB) as (_ & H & _). destruct (H FF NR) as [FL EL]. rewrite val3_dot3 in EL. fold (norm (val3 f)) in EL. clear H. set (l := vec3_length f) in * .
  change (bpow radix2 (-20)) with (/ 1048576) in * .
  assert (NG : n <= G) by apply cross_le. pose proof (norm_gap (val3 f) (face A B C)) as NGP. fold n in NGP. apply Rabs_le_inv in NGP. apply Rabs_le_inv in EL.
  assert (LB : Rabs (real l * / 2) <= bpow radix2 127). { apply Rle_trans with (2 * bpow radix2 50); [apply Rabs_le; lra|]. change 2 with (bpow radix2 1). rewrite <- bpow_plus. apply bpow_le. lia. }
  destruct Props_Proj.half_real as [FH RH]. unfold triangle_get_area. fold f l.
  destruct (fin_of_X _ _ (Props_Proj.mul_X l fhalf FL FH ltac:(rewrite RH; exact LB))) as [FM RM]. split; [exact FM|]. rewrite RM, RH.
  pose proof (rnd_err (real l * / 2)) as E. rewrite u32_val in E. assert (LP : 0 < real l) by lra. rewrite (Rabs_pos_eq (real l * / 2)) in E by lra.
  assert (T : eta <= / 1000 * u * / 1024) by (apply Rle_trans with (bpow radix2 (-80)); [apply bpow_le; lia|simpl; lra]). apply Rabs_le_inv in E. apply Rabs_le. unfold Rdiv. lra.
Qed.
Lemma inner_range (BK : Backend b32) S : bpow radix2 (-22) <= S <= bpow radix2 101 -> normal_range BK S.
Proof. intros [A B]. split; [split; [eapply Rle_trans; [|exact A]; apply bpow_le; lia|eapply Rle_trans; [exact B|apply bpow_le; lia]]|]. unfold scalar_cutoff. destruct BK; auto. Qed.
Theorem C97_triangle_normal : forall (BK : Backend b32) (t : triangle b32), finite_tri t ->
  let A := val3 (tr_a t) in let B := val3 (tr_b t) in let C := val3 (tr_c t) in solid A B C ->
  finite3 (triangle_get_normal t) /\ dist (val3 (triangle_get_normal t)) (dirn (face A B C)) <= bpow radix2 (-19) / sine A B C.
Proof.
  intros BK t (FA & FB & FC) A B C SO. destruct (face_float BK _ _ _ FA FB FC SO) as (FF & DF & (GS & S0 & IS) & N0 & N1 & NF & RG & DD). fold A B C in DF, GS, S0, IS, N0, N1, NF, DD.
  fold (triangle_cross t) in FF, DF, NF, RG, DD. set (f := triangle_cross t) in * . set (n := norm (face A B C)) in * . set (s := sine A B C) in * .
  assert (P101 : bpow radix2 101 <= bpow radix2 126) by (apply bpow_le; lia). assert (P22 : bpow radix2 (-100) <= bpow radix2 (-22)) by (apply bpow_le; lia).
  pose proof (C70_dot3 BK f f FF FF) as D. rewrite adot3_self in D. specialize (D ltac:(lra)). pose proof (tol_rel _ _ D ltac:(lra)) as RL. set (ls := vec3_dot f f) in * .
  assert (SP : flt fzero ls = true). { apply Props_RaySph.flt_R; [reflexivity|apply RL|]. change (real fzero) with 0. destruct RL as [_ E]. apply Rabs_le_inv in E. change (bpow radix2 (-22)) with (/ 4194304) in RG. lra. }
  pose proof (fsqrt_rel _ _ RL ltac:(lra) ltac:(lra)) as RS. rewrite val3_dot3 in RS. fold (norm (val3 f)) in RS. set (nf := norm (val3 f)) in * . set (sr := fsqrt ls) in * .
  assert (NP : 0 < nf) by lra.
  destruct (fin_of_X _ _ (fone_X : B2X (fone : b32) = Fin 1)) as [FO RO].
  assert (WQ : within ((0 + 3.01 + 1.0001) * u * Rabs (1 / nf) + bpow radix2 (-150)) (fdiv fone sr) (1 / nf)).
  { apply Props_Proj.quot; try lra.
    - split; auto. rewrite RO. replace (1 - 1) with 0 by ring. rewrite Rabs_R0. lra.
    - rewrite Rabs_pos_eq by lra. exact RS.
    - rewrite Rabs_R1. apply (bpow_le radix2 0). lia.
    - rewrite Rabs_pos_eq by lra. apply Rle_trans with (/ 2048); [change (/ 2048) with (bpow radix2 (-11)); apply bpow_le; lia|lra]. }
  set (iq := fdiv fone sr) in * . destruct WQ as [FI EI].
  assert (IN : 0 < / nf <= 2048). { split; [now apply Rinv_0_lt_compat|]. replace 2048 with (/ / 2048) by lra. apply Rinv_le_contravar; lra. }
  assert (EI' : Rabs (real iq - / nf) <= 4.0102 * u * / nf + bpow radix2 (-150)). { replace (1 / nf) with (/ nf) in EI by (field; lra). rewrite (Rabs_pos_eq (/ nf)) in EI by lra. lra. }
  assert (P40 : bpow radix2 (-150) * bpow radix2 60 <= / 1000 * u) by (rewrite <- bpow_plus; apply Rle_trans with (bpow radix2 (-80)); [apply bpow_le; lia|simpl; lra]). pose proof (bpow_gt_0 radix2 (-150)) as Q150. assert (P1 : 1 <= bpow radix2 60) by (apply (bpow_le radix2 0); lia).
  assert (NFB : nf <= bpow radix2 60). { apply Rle_trans with (2 * bpow radix2 50); [lra|]. change 2 with (bpow radix2 1). rewrite <- bpow_plus. apply bpow_le. lia. }
  assert (K : forall x : b32, fin x -> Rabs (real x) <= nf -> fin (fmul x iq) /\ Rabs (real (fmul x iq) - / nf * real x) <= 5.02 * u).
  { intros x Fx Bx. pose proof (Rabs_pos (real x)) as X0.
    assert (E1 : Rabs (real x * real iq - / nf * real x) <= 4.012 * u). { replace (real x * real iq - / nf * real x) with (real x * (real iq - / nf)) by ring. rewrite Rabs_mult. apply Rle_trans with (nf * (4.0102 * u * / nf + bpow radix2 (-150))); [apply Rmult_le_compat; auto using Rabs_pos|].
      rewrite Rmult_plus_distr_l. replace (nf * (4.0102 * u * / nf)) with (4.0102 * u) by (field; lra). assert (nf * bpow radix2 (-150) <= bpow radix2 60 * bpow radix2 (-150)) by (apply Rmult_le_compat_r; lra). lra. }
    assert (E2 : Rabs (/ nf * real x) <= 1). { rewrite Rabs_mult, (Rabs_pos_eq (/ nf)) by lra. apply Rle_trans with (/ nf * nf); [apply Rmult_le_compat_l; lra|]. rewrite Rinv_l; lra. }
    assert (E3 : Rabs (real x * real iq) <= 1.001). { replace (real x * real iq) with ((real x * real iq - / nf * real x) + / nf * real x) by ring. eapply Rle_trans; [apply Rabs_triang|]. lra. }
    destruct (fin_of_X _ _ (Props_Proj.mul_X x iq Fx FI ltac:(apply Rle_trans with (bpow radix2 1); [simpl; lra|apply bpow_le; lia]))) as [FM RM]. split; auto. rewrite RM.
    pose proof (rnd_err (real x * real iq)) as E4. rewrite u32_val in E4. assert (eta <= / 1000 * u) by (apply Rle_trans with (bpow radix2 (-80)); [apply bpow_le; lia|simpl; lra]).
    replace (rnd32 (real x * real iq) - / nf * real x) with ((rnd32 (real x * real iq) - real x * real iq) + (real x * real iq - / nf * real x)) by ring. eapply Rle_trans; [apply Rabs_triang|]. lra. }
  assert (CB : forall j, (j = X3 \/ j = Y3 \/ j = Z3) -> Rabs (j (val3 f)) <= nf).
  { intros j J. apply Rsqr_incr_0_var; [|lra]. unfold Rsqr, nf. rewrite norm_sq, <- Rabs_mult, Rabs_pos_eq by nra. unfold dot. destruct J as [-> |[-> | ->]]; nra. }
  destruct FF as (F1 & F2 & F3). destruct (K _ F1 (CB X3 ltac:(auto))) as [G1 H1]. destruct (K _ F2 (CB Y3 ltac:(auto))) as [G2 H2]. destruct (K _ F3 (CB Z3 ltac:(auto))) as [G3 H3].
  assert (ET : triangle_get_normal t = vec3_scale f iq) by (unfold triangle_get_normal; fold f ls; rewrite SP; reflexivity). rewrite ET.
  split; [split; [exact G1|split; [exact G2|exact G3]]|].
  assert (DN : dist (val3 (vec3_scale f iq)) (dirn (val3 f)) <= 1.7321 * (5.02 * u)) by (apply dist_comp; [exact H1|exact H2|exact H3]).
  eapply Rle_trans; [apply (dist_tri _ (dirn (val3 f)))|]. assert (U19 : bpow radix2 (-19) = 32 * u) by (simpl; lra). rewrite U19. unfold Rdiv. lra.
Qed.
Theorem C97_triangle_midpoint : forall (BK : Backend b32) (t : triangle b32), upto3 60 (tr_a t) -> upto3 60 (tr_b t) -> upto3 60 (tr_c t) ->
  let ok := fun (get : V -> b32) (r : b32) => within (bpow radix2 (-22) * (Rabs (real (get (tr_a t))) + Rabs (real (get (tr_b t))) + Rabs (real (get (tr_c t)))) + bpow radix2 (-149)) r ((real (get (tr_a t)) + real (get (tr_b t)) + real (get (tr_c t))) / 3) in
  let m := triangle_get_midpoint t in ok (@vx b32) (p3x m) /\ ok (@vy b32) (p3y m) /\ ok (@vz b32) (p3z m).
Proof.
  intros BK t (A1 & A2 & A3) (B1 & B2 & B3) (C1 & C2 & C3) ok m.
  assert (K : forall a b c : b32, upto 60 a -> upto 60 b -> upto 60 c -> within (bpow radix2 (-22) * (Rabs (real a) + Rabs (real b) + Rabs (real c)) + bpow radix2 (-149)) (fmul (fadd (fadd a b) c) (fdiv fone fthree)) ((real a + real b + real c) / 3)).
  2: { repeat split; apply K; assumption. }
  clear. intros a b c [FA HA] [FB HB] [FC HC]. set (S := Rabs (real a) + Rabs (real b) + Rabs (real c)).
  pose proof (Rabs_pos (real a)) as PA. pose proof (Rabs_pos (real b)) as PB. pose proof (Rabs_pos (real c)) as PC.
  assert (SB : S <= bpow radix2 62). { assert (bpow radix2 62 = 4 * bpow radix2 60) by (change 62%Z with (2 + 60)%Z; now rewrite bpow_plus). unfold S. lra. }
  assert (P : 8 * bpow radix2 62 <= bpow radix2 127) by (change 8 with (bpow radix2 3); rewrite <- bpow_plus; apply bpow_le; lia). pose proof (bpow_gt_0 radix2 62) as P62.
  pose proof (Rabs_triang (real a) (real b)) as T1.
  destruct (Props_RaySph.add_w a b (bpow radix2 62) FA FB ltac:(unfold S in * ; lra) ltac:(lra)) as [F1 E1]. set (s1 := fadd a b) in * .
  assert (T2 : Rabs (real s1 + real c) <= 1.0001 * S). { replace (real s1 + real c) with ((real s1 - (real a + real b)) + (real a + real b) + real c) by ring. eapply Rle_trans; [apply Rabs_triang|]. eapply Rle_trans; [apply Rplus_le_compat_r, Rabs_triang|]. unfold S. lra. }
  assert (S0 : 0 <= S) by (unfold S; lra).
  destruct (Props_RaySph.add_w s1 c (2 * bpow radix2 62) F1 FC ltac:(lra) ltac:(lra)) as [F2 E2]. set (s2 := fadd s1 c) in * .
  assert (T3 : Rabs (real s2 - (real a + real b + real c)) <= 2.0001 * u * S). { replace (real s2 - (real a + real b + real c)) with ((real s2 - (real s1 + real c)) + (real s1 - (real a + real b))) by ring. eapply Rle_trans; [apply Rabs_triang|]. assert (Rabs (real a + real b) <= S) by (unfold S; lra). lra. }
  assert (T4 : Rabs (real a + real b + real c) <= S). { eapply Rle_trans; [apply Rabs_triang|]. unfold S. lra. }
  assert (T5 : Rabs (real s2) <= 1.0001 * S). { replace (real s2) with ((real s2 - (real a + real b + real c)) + (real a + real b + real c)) by ring. eapply Rle_trans; [apply Rabs_triang|]. lra. }
  destruct (fin_of_X _ _ (fone_X : B2X (fone : b32) = Fin 1)) as [FO RO]. destruct (lit_real 3 0) as [F3 R3]; try lia. simpl (bpow radix2 0) in R3.
  assert (R3' : real (fthree : b32) = 3) by (unfold fthree; rewrite R3; lra).
  assert (W : within (u * Rabs (1 / 3) + bpow radix2 (-150)) (fdiv fone fthree) (1 / 3)). { pose proof (Props_Proj.div_raw fone fthree FO F3) as W. change (real (flit 3 0)) with (real (fthree : b32)) in W. rewrite RO, R3' in W. apply W; [lra|]. rewrite Rabs_pos_eq by lra. apply Rle_trans with 1; [lra|]. apply (bpow_le radix2 0). lia. }
  destruct W as [FW EW]. rewrite (Rabs_pos_eq (1 / 3)) in EW by lra. set (third := fdiv fone fthree) in * .
  assert (Q150 : bpow radix2 (-150) <= / 1000 * u) by (apply Rle_trans with (bpow radix2 (-80)); [apply bpow_le; lia|simpl; lra]).
  assert (TH : Rabs (real third - 1 / 3) <= 0.335 * u) by lra.
  assert (T6 : Rabs (real s2 * real third - (real a + real b + real c) / 3) <= 1.01 * u * S).
  { replace (real s2 * real third - (real a + real b + real c) / 3) with (real s2 * (real third - 1 / 3) + (real s2 - (real a + real b + real c)) * / 3) by field. eapply Rle_trans; [apply Rabs_triang|]. rewrite !Rabs_mult, (Rabs_pos_eq (/ 3)) by lra.
    assert (Rabs (real s2) * Rabs (real third - 1 / 3) <= 1.0001 * S * (0.335 * u)) by (apply Rmult_le_compat; auto using Rabs_pos). lra. }
  assert (T7 : Rabs (real s2 * real third) <= 0.4 * S). { replace (real s2 * real third) with ((real s2 * real third - (real a + real b + real c) / 3) + (real a + real b + real c) * / 3) by (unfold Rdiv; ring). eapply Rle_trans; [apply Rabs_triang|]. rewrite (Rabs_mult _ (/ 3)), (Rabs_pos_eq (/ 3)) by lra. lra. }
  destruct (fin_of_X _ _ (Props_Proj.mul_X s2 third F2 FW ltac:(lra))) as [FM RM]. split; auto. rewrite RM. pose proof (rnd_err (real s2 * real third)) as E. rewrite u32_val in E.
  assert (P149 : eta <= bpow radix2 (-149)) by (apply bpow_le; lia). assert (U22 : bpow radix2 (-22) = 4 * u) by (simpl; lra). rewrite U22.
  replace (rnd32 (real s2 * real third) - (real a + real b + real c) / 3) with ((rnd32 (real s2 * real third) - real s2 * real third) + (real s2 * real third - (real a + real b + real c) / 3)) by ring. eapply Rle_trans; [apply Rabs_triang|]. fold S. lra.
Qed.

(** ** C97: planes *)
Definition pval (p : point3d b32) : R3 := mk3 (real (p3x p)) (real (p3y p)) (real (p3z p)).
Definition finite_pt (p : point3d b32) : Prop := fin (p3x p) /\ fin (p3y p) /\ fin (p3z p).
Lemma vnorm_float (BK : Backend b32) (v : V) : estimates_ok BK -> finite3 v -> normal_range BK (dot3 v v) -> let n := vec3_normalize v in
  finite3 n /\ dist (val3 n) (dirn (val3 v)) <= 1.75 * bpow radix2 (-20).
Proof.
  intros HB F N n. assert (E : n = g_normalize3 v); [|rewrite E; now apply normalize_float].
  unfold n, vec3_normalize. pose proof (C70_dot3 BK v v F F) as D. rewrite adot3_self in D. pose proof N as [[A B] _].
  assert (P118 : bpow radix2 118 <= bpow radix2 126) by (apply bpow_le; lia). assert (P44 : bpow radix2 (-100) <= bpow radix2 (-44)) by (apply bpow_le; lia).
  assert (RL : rel (4.01 * u) (vec3_dot v v) (dot3 v v)) by (apply tol_rel; [apply D; lra|lra]).
  change (vec3_length v) with (lane_sqrt (vec3_dot v v)). destruct F as (F1 & F2 & F3). destruct (norm_core BK _ (vx v) _ HB RL N F1) as (_ & E & _); [unfold dot3, dot2; nra|]. now rewrite E.
Qed.
Theorem C97_plane_from_points : forall (BK : Backend b32) (a b c : point3d b32), estimates_ok BK -> finite_pt a -> finite_pt b -> finite_pt c ->
  let A := pval a in let B := pval b in let C := pval c in solid A B C -> norm A <= bpow radix2 60 ->
  let p := plane_init_from_points a b c in
  finite3 (plane_get_normal p) /\ fin (plane_get_constant p) /\
  dist (val3 (plane_get_normal p)) (dirn (face A B C)) <= bpow radix2 (-18) / sine A B C /\
  (forall P, dot (face A B C) (vminus P A) = 0 ->
   Rabs (dot (val3 (plane_get_normal p)) P + real (plane_get_constant p)) <= bpow radix2 (-18) / sine A B C * dist P A + bpow radix2 (-21) * norm A + bpow radix2 (-140)).
Proof.
  intros BK a b c HB FA FB FC A B C SO NA p.
  destruct (face_float BK (point3d_to_vec3 a) (point3d_to_vec3 b) (point3d_to_vec3 c) FA FB FC SO) as (FF & _ & (_ & S0 & IS) & N0 & _ & NF & RG & DD).
  change (val3 (point3d_to_vec3 a)) with A in * . change (val3 (point3d_to_vec3 b)) with B in * . change (val3 (point3d_to_vec3 c)) with C in * .
  set (f := vec3_cross (vec3_subtract (point3d_to_vec3 c) (point3d_to_vec3 b)) (vec3_subtract (point3d_to_vec3 a) (point3d_to_vec3 b))) in * .
  destruct (vnorm_float BK f HB FF (inner_range BK _ RG)) as [FN EN]. set (n := vec3_normalize f) in * . set (s := sine A B C) in * .
  assert (U20 : bpow radix2 (-20) = 16 * u) by (simpl; lra). assert (U18 : bpow radix2 (-18) = 64 * u) by (simpl; lra). assert (U21 : bpow radix2 (-21) = 8 * u) by (simpl; lra). rewrite U20 in EN. rewrite U18, U21.
  assert (DN : dist (val3 n) (dirn (face A B C)) <= 46 * u * / s). { eapply Rle_trans; [apply (dist_tri _ (dirn (val3 f)))|]. lra. }
  assert (NW : 0 < norm (face A B C)) by lra.
  assert (N1 : norm (dirn (face A B C)) = 1) by (now apply norm_dirn).
  assert (NN : norm (val3 n) <= 1.1). { pose proof (norm_gap (val3 n) (dirn (face A B C))) as G. rewrite N1 in G. apply Rabs_le_inv in G. lra. }
  pose proof (norm_nonneg (val3 n)) as n0. pose proof (norm_nonneg A) as A0.
  pose proof (adot_norm (point3d_to_vec3 a) n) as AD. change (val3 (point3d_to_vec3 a)) with A in AD.
  assert (AB : norm A * norm (val3 n) <= 1.1 * norm A) by (rewrite (Rmult_comm 1.1); apply Rmult_le_compat_l; auto).
  assert (P126 : 8 * bpow radix2 60 <= bpow radix2 126) by (change 8 with (bpow radix2 3); rewrite <- bpow_plus; apply bpow_le; lia). pose proof (bpow_gt_0 radix2 60) as P60.
  assert (AD2 : adot3 (point3d_to_vec3 a) n <= bpow radix2 126) by (eapply Rle_trans; [exact AD|]; eapply Rle_trans; [exact AB|]; lra).
  destruct (C70_dot3 BK (point3d_to_vec3 a) n FA FN AD2) as [FD ED]. rewrite val3_dot3 in ED. change (val3 (point3d_to_vec3 a)) with A in ED. unfold tol in ED. assert (U22 : bpow radix2 (-22) = 4 * u) by (simpl; lra). rewrite U22 in ED.
  assert (PC : plane_get_constant p = fmul (vec3_dot (point3d_to_vec3 a) n) fm1) by reflexivity.
  destruct (fin_of_X _ _ (Props_Box.neg_scalar_X _ FD)) as [FK RK]. rewrite <- PC in FK, RK. fold b32 in RK.
  assert (PN : plane_get_normal p = n) by reflexivity. rewrite PN.
  split; [exact FN|]. split; [exact FK|]. split; [unfold Rdiv; lra|].
  intros P HP. rewrite RK. set (K := real (vec3_dot (point3d_to_vec3 a) n)) in * .
  assert (H0 : dot (dirn (face A B C)) (vminus P A) = 0). { transitivity (/ norm (face A B C) * dot (face A B C) (vminus P A)); [unfold dirn, dot, vscal; cbn [X3 Y3 Z3]; ring|rewrite HP; ring]. }
  replace (dot (val3 n) P + - K) with (dot (vminus (val3 n) (dirn (face A B C))) (vminus P A) - (K - dot A (val3 n))).
  2: { transitivity (dot (val3 n) (vminus P A) - dot (dirn (face A B C)) (vminus P A) - (K - dot A (val3 n))); [unfold dot, vminus; cbn [X3 Y3 Z3]; ring|]. rewrite H0. unfold dot, vminus; cbn [X3 Y3 Z3]; ring. }
  eapply Rle_trans; [apply Rabs_triang|]. rewrite Rabs_Ropp. pose proof (cauchy_abs (vminus (val3 n) (dirn (face A B C))) (vminus P A)) as CA.
  change (norm (vminus (val3 n) (dirn (face A B C)))) with (dist (val3 n) (dirn (face A B C))) in CA. change (norm (vminus P A)) with (dist P A) in CA.
  assert (D0 : 0 <= dist P A) by apply norm_nonneg.
  assert (T : dist (val3 n) (dirn (face A B C)) * dist P A <= 64 * u / s * dist P A) by (apply Rmult_le_compat_r; [exact D0|unfold Rdiv; lra]).
  assert (P140 : bpow radix2 (-147) <= bpow radix2 (-140)) by (apply bpow_le; lia). lra.
Qed.
(** the corners lie in that plane *)
Lemma corners_in_plane a b c : Forall (fun P => dot (face a b c) (vminus P a) = 0) [a; b; c].
Proof. repeat constructor; unfold face, leg1, leg2, dot, cross, vminus; cbn [X3 Y3 Z3]; ring. Qed.
Theorem C97_plane_normalize : forall (BK : Backend b32) (p : plane b32), estimates_ok BK -> finite3 (pl_n p) -> upto 60 (pl_c p) -> normal_range BK (dot3 (pl_n p) (pl_n p)) ->
  let n := norm (val3 (pl_n p)) in
  finite3 (plane_get_normal (plane_normalize p)) /\ dist (val3 (plane_get_normal (plane_normalize p))) (dirn (val3 (pl_n p))) <= bpow radix2 (-19) /\
  within (bpow radix2 (-19) * (Rabs (real (pl_c p)) / n) + bpow radix2 (-150)) (plane_get_constant (plane_normalize p)) (real (pl_c p) / n).
Proof.
  intros BK p HB F [FC BC] N n. destruct (vnorm_float BK (pl_n p) HB F N) as [FN EN].
  assert (U20 : bpow radix2 (-20) = 16 * u) by (simpl; lra). assert (U19 : bpow radix2 (-19) = 32 * u) by (simpl; lra). rewrite U19. rewrite U20 in EN.
  split; [exact FN|]. split; [eapply Rle_trans; [exact EN|lra]|].
  destruct (C70_length BK (pl_n p) HB) as (_ & H & _). destruct (H F N) as [FL EL]. clear H. rewrite val3_dot3 in EL. fold (norm (val3 (pl_n p))) in EL. fold n in EL. rewrite U20 in EL.
  change (plane_get_constant (plane_normalize p)) with (fdiv (pl_c p) (vec3_length (pl_n p))). set (l := vec3_length (pl_n p)) in * .
  assert (NL : bpow radix2 (-22) <= n). { destruct N as [[A _] _]. rewrite val3_dot3, <- norm_sq in A. fold n in A. pose proof (bpow_gt_0 radix2 (-22)). apply Rsqr_incr_0_var; [|apply norm_nonneg]. unfold Rsqr. rewrite <- bpow_plus. exact A. }
  assert (NP : 0 < n) by (pose proof (bpow_gt_0 radix2 (-22)); lra). apply Rabs_le_inv in EL. assert (LP : 0.9999 * n <= real l) by lra. assert (LP0 : 0 < real l) by lra.
  set (c := real (pl_c p)) in * . pose proof (Rabs_pos c) as C0. assert (I0 : 0 < / n) by (now apply Rinv_0_lt_compat). set (Q := Rabs c / n). assert (Q0 : 0 <= Q) by (unfold Q, Rdiv; apply Rmult_le_pos; lra).
  assert (QL : Rabs (c / real l) <= 1.0002 * Q). { unfold Rdiv. rewrite Rabs_mult, (Rabs_pos_eq (/ real l)) by (left; now apply Rinv_0_lt_compat). assert (/ real l <= 1.0002 * / n). { apply Rle_trans with (/ (0.9999 * n)); [apply Rinv_le_contravar; lra|]. rewrite Rinv_mult. apply Rmult_le_compat_r; lra. }
    apply Rle_trans with (Rabs c * (1.0002 * / n)); [apply Rmult_le_compat_l; auto|]. unfold Q, Rdiv. lra. }
  assert (QB : Q <= bpow radix2 82). { unfold Q, Rdiv. change 82%Z with (60 + 22)%Z. rewrite bpow_plus. apply Rmult_le_compat; try lra. apply Rle_trans with (/ bpow radix2 (-22)); [apply Rinv_le_contravar; [apply bpow_gt_0|exact NL]|]. rewrite <- bpow_opp. apply bpow_le. lia. }
  assert (P127 : 8 * bpow radix2 82 <= bpow radix2 127) by (change 8 with (bpow radix2 3); rewrite <- bpow_plus; apply bpow_le; lia).
  destruct (Props_Proj.div_raw (pl_c p) l FC FL ltac:(lra) ltac:(fold c; lra)) as [FD ED]. split; [exact FD|]. fold c in ED.
  replace (real (fdiv (pl_c p) l) - c / n) with ((real (fdiv (pl_c p) l) - c / real l) + (c / real l - c / n)) by ring. eapply Rle_trans; [apply Rabs_triang|].
  assert (E2 : Rabs (c / real l - c / n) <= 16.1 * u * Q). { replace (c / real l - c / n) with (c / real l * ((n - real l) * / n)) by (field; lra). rewrite Rabs_mult. assert (Rabs ((n - real l) * / n) <= 16 * u). { rewrite Rabs_mult, (Rabs_pos_eq (/ n)) by lra. apply Rle_trans with (16 * u * n * / n); [apply Rmult_le_compat_r; [lra|apply Rabs_le; lra]|]. rewrite Rmult_assoc, Rinv_r by lra. lra. }
    apply Rle_trans with (1.0002 * Q * (16 * u)); [apply Rmult_le_compat; auto using Rabs_pos|lra]. }
  lra.
Qed.
(** ** the hypotheses are met *)
Example C97_ex : let a := P3 (lit (-1) 0) (lit (-1) 0) fzero in let b := P3 (lit 2 0) (lit (-1) 0) fzero in let c := P3 (lit (-1) 0) (lit 2 0) fzero in
  finite_pt a /\ finite_pt b /\ finite_pt c /\ solid (pval a) (pval b) (pval c) /\ norm (pval a) <= bpow radix2 60.
Proof.
  intros a b c. assert (Z : real (fzero : b32) = 0) by reflexivity.
  destruct (lit_real (-1) 0) as [F1 R1]; try lia. destruct (lit_real 2 0) as [F2 R2]; try lia. simpl (bpow radix2 0) in R1, R2. change (flit (-1) 0) with (lit (-1) 0) in R1. change (flit 2 0) with (lit 2 0) in R2.
  assert (PA : pval a = mk3 (-1) (-1) 0) by (unfold pval, a; cbn [p3x p3y p3z]; rewrite R1, Z; f_equal; lra).
  assert (PB : pval b = mk3 2 (-1) 0) by (unfold pval, b; cbn [p3x p3y p3z]; rewrite R1, R2, Z; f_equal; lra).
  assert (PC : pval c = mk3 (-1) 2 0) by (unfold pval, c; cbn [p3x p3y p3z]; rewrite R1, R2, Z; f_equal; lra).
  rewrite PA, PB, PC.
  repeat (split; [split; [assumption|split; [assumption|reflexivity]]|]).
  assert (L1 : leg1 (mk3 (-1) (-1) 0) (mk3 2 (-1) 0) (mk3 (-1) 2 0) = mk3 (-3) 3 0) by (apply R3_ext; unfold leg1, vminus; cbn [X3 Y3 Z3]; ring).
  assert (L2 : leg2 (mk3 (-1) (-1) 0) (mk3 2 (-1) 0) (mk3 (-1) 2 0) = mk3 (-3) 0 0) by (apply R3_ext; unfold leg2, vminus; cbn [X3 Y3 Z3]; ring).
  assert (LF : face (mk3 (-1) (-1) 0) (mk3 2 (-1) 0) (mk3 (-1) 2 0) = mk3 0 0 9) by (unfold face; rewrite L1, L2; apply R3_ext; unfold cross; cbn [X3 Y3 Z3]; ring).
  assert (N2 : norm (mk3 (-3) 0 0) = 3) by (apply norm_unique; [lra|unfold dot; cbn [X3 Y3 Z3]; ring]).
  assert (NF : norm (mk3 0 0 9) = 9) by (apply norm_unique; [lra|unfold dot; cbn [X3 Y3 Z3]; ring]).
  assert (N1 : 3 < norm (mk3 (-3) 3 0) <= 5).
  { pose proof (norm_nonneg (mk3 (-3) 3 0)). pose proof (norm_sq (mk3 (-3) 3 0)) as E. unfold dot in E; cbn [X3 Y3 Z3] in E. split; nra. }
  assert (P25 : 8 <= bpow radix2 25) by (change 8 with (bpow radix2 3); apply bpow_le; lia).
  split.
  - unfold solid, sine. rewrite L1, L2, LF, N2, NF. split; [lra|]. split; [lra|]. split; [unfold dot; cbn [X3 Y3 Z3]; change (bpow radix2 (-20)) with (/ 1048576); lra|].
    change (bpow radix2 (-12)) with (/ 4096). apply (Rmult_le_reg_r (norm (mk3 (-3) 3 0) * 3)); [lra|]. unfold Rdiv. rewrite (Rmult_assoc 9), Rinv_l by lra. lra.
  - apply Rle_trans with 2; [|apply Rle_trans with (bpow radix2 1); [simpl; lra|apply bpow_le; lia]]. pose proof (norm_nonneg (mk3 (-1) (-1) 0)). pose proof (norm_sq (mk3 (-1) (-1) 0)) as E. unfold dot in E; cbn [X3 Y3 Z3] in E. nra.
Qed.
