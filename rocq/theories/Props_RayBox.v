(** * Props_RayBox: ray-box intersection in binary32 is exact for a slightly moved box (C91). *)
From Coq Require Import ZArith Reals Bool List Lra Lia Psatz.
From Flocq Require Import Core BinarySingleNaN.
From Verif Require Import Num Simd Vec Rect Box Mat Geo Quat Neon OrdThy FloatThy B32Setup FloatLem ErrThy BoxThy Hist Props_Box Props_Rect Props_Mat Props_Geo.
From Verif Require Import Props_Err Props_Err2 Props_Err3.
From Verif Require Props_Pick.
Import ListNotations.
Local Open Scope R_scope.
Import Props_Pick (aclo, achi, aclo_iff, achi_iff, amin, amax, slabs, ray_box_slabs, axis_proper, okf).

(** ** what the hardware promises of its reciprocal estimates, for both signs *)
Definition rcp_estimate_any (k : R) (f : b32 -> b32) : Prop :=
  forall x, fin x -> bpow radix2 (-100) <= Rabs (real x) <= bpow radix2 100 -> within (k * / Rabs (real x)) (f x) (/ real x).
Definition reciprocals_ok (BK : Backend b32) : Prop :=
  match BK with
  | Scalar _ | Gcc => True
  | Sse _ _ rcp _ => rcp_estimate_any (1.5 * bpow radix2 (-12)) rcp
  | Neon rec _ _ => exists fused rece, rcp_estimate_any (bpow radix2 (-8)) rece /\ rec = neon_reciprocal fused rece
  end.

(** ** reciprocals of negative numbers *)
Lemma fin_neg (x y : b32) : fin y -> B2X x = xneg (B2X y) -> fin x /\ real x = - real y.
Proof. intros F H. rewrite (fin_X y F) in H. now apply fin_of_X in H. Qed.
Lemma mul_neg_l (a b a' b' : b32) : B2X a = xneg (B2X a') -> B2X b = B2X b' -> B2X (fmul a b) = xneg (B2X (fmul a' b')).
Proof. intros A B. now rewrite !fmul_X, A, B, Props_Pick.xmul_opp_l, xrnd_neg. Qed.
Lemma mul_neg_2 (a b a' b' : b32) : B2X a = xneg (B2X a') -> B2X b = xneg (B2X b') -> B2X (fmul a b) = B2X (fmul a' b').
Proof. intros A B. now rewrite !fmul_X, A, B, xmul_neg_neg. Qed.
Lemma recps_neg fused (a b a' b' : b32) : fin a' -> fin b' -> B2X a = xneg (B2X a') -> B2X b = xneg (B2X b') -> B2X (neon_recps fused a b) = B2X (neon_recps fused a' b').
Proof.
  intros FA FB A B. destruct (fin_neg a a' FA A) as [FA' RA], (fin_neg b b' FB B) as [FB' RB]. unfold neon_recps. rewrite !no_zti by auto. destruct fused.
  - assert (N : forall t : b32, fin t -> fin (fneg t) /\ real (fneg t) = - real t) by (intros t F; now apply fin_neg; rewrite ?fneg_X).
    assert (F2 : fin ftwo) by apply (fin_of_X _ _ ftwo_X).
    change (ffma (fneg a) b ftwo) with (Bfma mode_NE (fneg a) b ftwo). change (ffma (fneg a') b' ftwo) with (Bfma mode_NE (fneg a') b' ftwo). rewrite !Bfma_X; auto; try apply N; auto.
    apply (f_equal (fun t => xrnd (Fin (t + real ftwo)))). rewrite (proj2 (N a FA')), (proj2 (N a' FA)), RA, RB. ring.
  - rewrite !fsub_X. do 2 f_equal. now apply mul_neg_2.
Qed.
Lemma neon_rec_neg fused rece rece' (x y : b32) : rcp_estimate (bpow radix2 (-8)) rece' -> fin y -> midrange1 (real y) -> B2X x = xneg (B2X y) -> B2X (rece x) = xneg (B2X (rece' y)) ->
  B2X (neon_reciprocal fused rece x) = xneg (B2X (neon_reciprocal fused rece' y)).
Proof.
  intros HE F M EX E0. pose proof (fin_X y F) as X. assert (P8 : bpow radix2 (-8) = / 256) by reflexivity.
  destruct (rec_facts _ M) as (_ & _ & T0 & _).
  assert (R0 : rel (/ 256) (rece' y) (/ real y)). { rewrite <- P8; apply HE; auto. destruct M. bp (-100)%Z (-62)%Z. bp 62%Z 100%Z. lra. }
  pose proof R0 as [F0 _]. apply rel_factor in R0 as (e0 & Q0 & Y0); auto.
  pose proof (neon_rec_step fused y _ _ e0 _ X M Y0 Q0 ltac:(lra)) as [F1 _].
  unfold neon_reciprocal. set (s0 := rece x) in * . set (t0 := rece' y) in * .
  assert (S1 : forall s t : b32, fin t -> B2X s = xneg (B2X t) -> B2X (fmul (neon_recps fused s x) s) = xneg (B2X (fmul (neon_recps fused t y) t))).
  { intros s t Ft H. rewrite (fmul_comm _ s), (fmul_comm _ t). apply mul_neg_l; auto. now apply recps_neg. }
  cbv zeta. apply S1; auto.
Qed.
Lemma recip_any (BK : Backend b32) (x : b32) : reciprocals_ok BK -> fin x -> bpow radix2 (-22) <= Rabs (real x) <= bpow radix2 62 ->
  within (bpow radix2 (-21) * / Rabs (real x)) (lane_reciprocal x) (/ real x).
Proof.
  intros HB F R.
  (* a back end with the same reciprocal on positive numbers, and a correct reciprocal square root *)
  assert (POS : forall (B : Backend b32) (y : b32), reciprocals_ok B -> fin y -> bpow radix2 (-22) <= real y <= bpow radix2 62 -> within (bpow radix2 (-21) * / real y) (lane_reciprocal (B:=B) y) (/ real y)).
  { intros B y HR Fy Ry. assert (E : forall k f, rcp_estimate_any k f -> rcp_estimate k f).
    { intros k f H z Fz Rz. pose proof (bpow_gt_0 radix2 (-100)). specialize (H z Fz). rewrite Rabs_pos_eq in H by lra. auto. }
    destruct B as [ie| |s4 fm rcp rsq|rec rsq sq]; cbn [reciprocals_ok] in HR.
    - apply (C70_reciprocal (Scalar ie) (V4 y y y y) 0 ltac:(lia) I Fy Ry).
    - apply (C70_reciprocal Gcc (V4 y y y y) 0 ltac:(lia) I Fy Ry).
    - destruct (proj1 (C70_estimates_ok_ex s4 fm)) as [_ Q]. apply (C70_reciprocal (Sse s4 fm rcp (fun x => fdiv fone (fsqrt x))) (V4 y y y y) 0 ltac:(lia)); auto. split; auto.
    - destruct HR as (fu & rece & HE & ->). destruct (proj1 (C70_estimates_ok_ex true true)) as [_ Q].
      apply (C70_reciprocal (neon fu rece (fun x => fdiv fone (fsqrt x))) (V4 y y y y) 0 ltac:(lia)); auto.
      exists fu, rece, (fun x => fdiv fone (fsqrt x)). split; [auto|]. split; [|repeat split]. intros z Fz Rz. apply (rel_weak (2.1 * u)); [now apply rsq_ieee| |].
      + left. apply Rinv_0_lt_compat, sqrt_lt_R0. pose proof (bpow_gt_0 radix2 (-100)). lra.
      + change (bpow radix2 (-8)) with (/ 256). lra. }
  destruct (Rle_dec 0 (real x)) as [P|P]. { rewrite Rabs_pos_eq in * by auto. now apply POS. }
  rewrite Rabs_left in * by lra. set (y := fneg x). assert (YX : B2X y = xneg (B2X x)) by apply fneg_X. destruct (fin_neg y x F YX) as [FY RY].
  assert (XY : B2X x = xneg (B2X y)) by (now rewrite YX, Props_Pick.xnegneg). rewrite <- RY in * .
  assert (K : forall B : Backend b32, reciprocals_ok B -> B2X (lane_reciprocal (B:=BK) x) = xneg (B2X (lane_reciprocal (B:=B) y)) -> within (bpow radix2 (-21) * / real y) (lane_reciprocal (B:=BK) x) (/ real x)).
  { intros B HR E. destruct (POS B y HR FY R) as [FW W]. apply fin_neg in E as [FE E]; auto. split; auto. rewrite E. replace (/ real x) with (- / real y) by (rewrite RY; field; lra).
    replace (- real (lane_reciprocal (B:=B) y) - - / real y) with (- (real (lane_reciprocal (B:=B) y) - / real y)) by ring. now rewrite Rabs_Ropp. }
  pose proof (bpow_gt_0 radix2 (-22)) as P22.
  assert (DV : B2X (fdiv fone x) = xneg (B2X (fdiv fone y))).
  { change (fdiv fone x) with (Bdiv mode_NE fone x). change (fdiv fone y) with (Bdiv mode_NE fone y). rewrite !Bdiv_X; fold b32; rewrite ?(fin_X x F), ?(fin_X y FY); try (intros [= E]; lra).
    rewrite fone_X. cbn [xdiv]. destruct (Req_EM_T (real x) 0); [lra|]. destruct (Req_EM_T (real y) 0); [lra|]. rewrite <- xrnd_neg. f_equal. cbn [xneg]. f_equal. rewrite RY. field. lra. }
  assert (GD : forall t : b32, fin t -> bpow radix2 (-22) <= Rabs (real t) -> rcp_guard t = fdiv fone t).
  { intros t Ft Rt. unfold rcp_guard. replace (flt feps (fabs t)) with true; auto. symmetry. rewrite flt_X, feps_X, fabs_X, (fin_X t Ft). cbn [xabs]. apply xlt_fin. change (bpow radix2 (-22)) with (/ 4194304) in Rt. lra. }
  assert (GX : rcp_guard x = fdiv fone x) by (apply GD; auto; rewrite Rabs_left by lra; lra). assert (GY : rcp_guard y = fdiv fone y) by (apply GD; auto; rewrite Rabs_pos_eq by lra; lra).
  assert (M : midrange1 (real y)) by (unfold midrange1; bp (-62)%Z (-22)%Z; lra).
  assert (FL : forall k f, rcp_estimate_any k f -> rcp_estimate_any k (fun z => fneg (f (fneg z)))).
  { intros k f H z Fz Rz. destruct (fin_neg (fneg z) z Fz (fneg_X z)) as [FN RN]. assert (Rz' : bpow radix2 (-100) <= Rabs (real (fneg z)) <= bpow radix2 100) by (now rewrite RN, Rabs_Ropp).
    destruct (H (fneg z) FN Rz') as [FH EH]. destruct (fin_neg (fneg (f (fneg z))) _ FH (fneg_X _)) as [FG RG]. split; auto. rewrite RG. rewrite RN, Rabs_Ropp in EH.
    assert (real z <> 0) by (intros E; rewrite E, Rabs_R0 in Rz; pose proof (bpow_gt_0 radix2 (-100)); lra).
    replace (- real (f (fneg z)) - / real z) with (- (real (f (fneg z)) - / - real z)) by (field; auto). now rewrite Rabs_Ropp. }
  assert (NN : forall k (f : b32 -> b32), rcp_estimate_any k f -> B2X (f x) = xneg (B2X (fneg (f (fneg y))))).
  { intros k f H. unfold y. assert (E : fneg (fneg x) = x) by (apply Bopp_involutive). now rewrite E, fneg_X, Props_Pick.xnegneg. }
  destruct BK as [[]| |s4 fm rcp rsq|rec rsq sq]; cbn [reciprocals_ok] in HB.
  - apply (K (Scalar true) I). exact DV.
  - apply (K (Scalar false) I). unfold lane_reciprocal. cbv [backend]. now rewrite GX, GY.
  - apply (K Gcc I). unfold lane_reciprocal. cbv [backend]. now rewrite GX, GY.
  - apply (K (Sse s4 fm (fun z => fneg (rcp (fneg z))) rsq)); [now apply FL|]. unfold lane_reciprocal; cbv [backend]; cbv zeta.
    replace (feqb x fzero) with false by (symmetry; rewrite feqb_X, fzero_X, (fin_X x F); cbn [xeqb]; destruct (Req_EM_T (real x) 0); [lra|auto]).
    replace (feqb y fzero) with false by (symmetry; rewrite feqb_X, fzero_X, (fin_X y FY); cbn [xeqb]; destruct (Req_EM_T (real y) 0); [lra|auto]).
    apply mul_neg_l; [eapply NN; eauto|]. rewrite !fsub_X. do 2 f_equal. apply mul_neg_2; auto. eapply NN; eauto.
  - destruct HB as (fu & rece & HE & ->). apply (K (Neon (neon_reciprocal fu (fun z => fneg (rece (fneg z)))) rsq sq)); [exists fu, (fun z => fneg (rece (fneg z))); auto|].
    unfold lane_reciprocal; cbv [backend]. apply neon_rec_neg; auto; [|eapply NN; eauto].
    intros z Fz Rz. pose proof (bpow_gt_0 radix2 (-100)). specialize (FL _ _ HE z Fz). rewrite Rabs_pos_eq in FL by lra. auto.
Qed.
(** ** intervals of real parameters *)
Definition geL (l : b32) (t : R) : Prop := xlt (Fin t) (B2X l) = false.
Definition leH (h : b32) (t : R) : Prop := xlt (B2X h) (Fin t) = false.
Lemma nan_cases : (forall r, @fisnan xreal xreal_ops (Fin r) = false) /\ @fisnan xreal xreal_ops PInf = false /\ @fisnan xreal xreal_ops NInf = false /\ @fisnan xreal xreal_ops Undef = true.
Proof. repeat split. Qed.
Lemma geL_ac x y t : geL (aclo x y) t <-> geL x t /\ geL y t.
Proof.
  unfold geL, aclo. rewrite flt_X, fisnan_X. destruct (B2X x) as [a| | |] eqn:EX, (B2X y) as [b| | |] eqn:EY; rewrite ?(proj1 nan_cases), ?(proj1 (proj2 nan_cases)), ?(proj1 (proj2 (proj2 nan_cases))), ?(proj2 (proj2 (proj2 nan_cases))); cbn [xlt orb]; rewrite ?EX, ?EY; cbn [xlt]; try easy; try tauto.
  destruct (Rlt_dec a b); cbn [orb]; rewrite ?EX, ?EY; destruct (Rlt_dec t a), (Rlt_dec t b); split; intros; try easy; lra.
Qed.
Lemma leH_ac x y t : leH (achi x y) t <-> leH x t /\ leH y t.
Proof.
  unfold leH, achi. rewrite flt_X, fisnan_X. destruct (B2X x) as [a| | |] eqn:EX, (B2X y) as [b| | |] eqn:EY; rewrite ?(proj1 nan_cases), ?(proj1 (proj2 nan_cases)), ?(proj1 (proj2 (proj2 nan_cases))), ?(proj2 (proj2 (proj2 nan_cases))); cbn [xlt orb]; rewrite ?EX, ?EY; cbn [xlt]; try easy; try tauto.
  destruct (Rlt_dec b a); cbn [orb]; rewrite ?EX, ?EY; cbn [xlt]; destruct (Rlt_dec a t), (Rlt_dec b t); split; intros; try easy; lra.
Qed.
Lemma cross_none l h t : flt h l = true -> geL l t -> leH h t -> False.
Proof. unfold geL, leH. rewrite flt_X. destruct (B2X h) as [a| | |], (B2X l) as [b| | |]; try easy. rewrite xlt_fin, !xlt_fin_f. lra. Qed.
Lemma ok_ac xl xh yl yh : flt xh xl = false -> flt yh yl = false -> flt yh xl = false -> flt xh yl = false -> flt (achi xh yh) (aclo xl yl) = false.
Proof.
  intros A B C D. apply not_true_is_false. intros H. apply achi_iff in H as [H|H]; apply aclo_iff in H as [H|H]; congruence.
Qed.
(** the slab test on three parameter intervals, of which at least one is bounded *)
Lemma slabs_spec xl xh yl yh zl zh : flt xh xl = false -> flt yh yl = false -> flt zh zl = false -> (fin xl /\ fin xh \/ fin yl /\ fin yh \/ fin zl /\ fin zh) ->
  let ok t := 0 <= t /\ (geL xl t /\ leH xh t) /\ (geL yl t /\ leH yh t) /\ (geL zl t /\ leH zh t) in
  match slabs xl xh yl yh zl zh with
  | (HitNone, t) => real t = 0 /\ forall s, ~ ok s
  | (HitEnter, t) => fin t /\ ok (real t) /\ forall s, ok s -> real t <= s
  | (HitLeave, t) => fin t /\ ok (real t) /\ (forall s, ok s -> s <= real t) /\ ok 0
  end.
Proof.
  intros OX OY OZ FN ok. assert (Z0 : real fzero = 0) by apply (fin_of_X _ _ fzero_X). unfold slabs.
  destruct (flt yh xl || flt xh yl)%bool eqn:E1.
  { split; auto. intros s (_ & (A & B) & (C & D) & _). apply orb_true_iff in E1 as [E1|E1]; eapply cross_none; eauto. }
  apply orb_false_iff in E1 as [E1 E1']. pose proof (ok_ac _ _ _ _ OX OY E1 E1') as OXY.
  destruct (flt zh (aclo xl yl) || flt (achi xh yh) zl)%bool eqn:E2.
  { split; auto. intros s (_ & (A & B) & (C & D) & (G & H)). apply orb_true_iff in E2 as [E2|E2]; eapply cross_none; eauto; [now apply geL_ac|now apply leH_ac]. }
  apply orb_false_iff in E2 as [E2 E2']. pose proof (ok_ac _ _ _ _ OXY OZ E2 E2') as OA.
  set (L := aclo (aclo xl yl) zl) in * . set (H := achi (achi xh yh) zh) in * .
  assert (OK : forall t, ok t <-> 0 <= t /\ geL L t /\ leH H t). { intros t. unfold L, H. rewrite !geL_ac, !leH_ac. unfold ok. tauto. }
  assert (BD : exists l h, fin l /\ fin h /\ flt H l = false /\ flt h L = false /\ (flt h H = false /\ fisnan H = false)).
  { assert (N : forall a b : b32, fisnan (achi a b) = true -> fisnan a = true /\ fisnan b = true).
    { intros a b. unfold achi. destruct (flt b a || fisnan a)%bool eqn:E; intros Q.
      - apply orb_true_iff in E as [E|E]; auto. split; auto. rewrite flt_X in E. rewrite fisnan_X in Q. destruct (B2X b); try easy.
      - apply orb_false_iff in E. destruct E. congruence. }
    assert (NF : forall a : b32, fin a -> fisnan a = false) by (intros a Fa; rewrite fisnan_X, (fin_X a Fa); reflexivity).
    assert (HN : forall a : b32, fin a -> (fisnan H = true -> fisnan a = true) -> fisnan H = false). { intros a Fa Q. destruct (fisnan H); auto. rewrite (NF a Fa) in Q. symmetry. auto. }
    assert (A : forall l h, (forall z, flt z l = true -> flt z L = true) -> (forall z, flt h z = true -> flt H z = true) -> flt H l = false /\ flt h L = false /\ flt h H = false).
    { intros l h P Q. repeat split; apply not_true_is_false; intros W; [apply P in W|apply Q in W|apply Q in W]; try congruence. rewrite Props_Pick.flt_irr in W. easy. }
    destruct FN as [[F1 F2]|[[F1 F2]|[F1 F2]]]; eexists _, _; (split; [exact F1|split; [exact F2|]]);
     match goal with |- flt H ?l = false /\ flt ?h L = false /\ _ => destruct (A l h) as (A1 & A2 & A3); [intros z; unfold L; rewrite !aclo_iff; tauto|intros z; unfold H; rewrite !achi_iff; tauto|] end; repeat split; auto; eapply HN; eauto; intros Q; apply N in Q as [Q Q2]; auto; apply N in Q; tauto. }
  destruct BD as (l & h & Fl & Fh & B1 & B2 & B3 & B4). rewrite !flt_X, (fin_X l Fl) in B1. rewrite flt_X, (fin_X h Fh) in B2, B3. rewrite fisnan_X in B4.
  assert (HX : xlt (B2X H) (Fin 0) = false -> fin H /\ 0 <= real H).
  { intros Q. destruct (B2X H) as [x| | |] eqn:EH; try easy. apply fin_of_X in EH as [FH EH]. rewrite EH. apply xlt_fin_f in Q. split; auto. }
  rewrite flt_X, fzero_X. destruct (xlt (B2X H) (Fin 0)) eqn:E3.
  { split; auto. intros s Hs. apply OK in Hs as (P & _ & Q). unfold leH in Q. destruct (B2X H) as [x| | |]; try easy. apply xlt_fin in E3. apply xlt_fin_f in Q. lra. }
  destruct (HX eq_refl) as [FH H0]. rewrite flt_X, (fin_X H FH) in OA.
  rewrite fle_X, fzero_X. destruct (xle (Fin 0) (B2X L)) eqn:E4.
  - assert (EL : exists x, B2X L = Fin x). { destruct (B2X L) as [x| | |]; try easy. eauto. } destruct EL as [x EL]. rewrite EL in OA, E4. apply xlt_fin_f in OA. apply xle_fin in E4. pose proof (fin_of_X _ _ EL) as [FL RL].
    split; auto. rewrite RL. split.
    + apply OK. unfold geL, leH. rewrite EL, (fin_X H FH), !xlt_fin_f. lra.
    + intros s Hs. apply OK in Hs as (_ & Q & _). unfold geL in Q. rewrite EL in Q. apply xlt_fin_f in Q. lra.
  - split; auto. split; [|split].
    + apply OK. unfold geL, leH. rewrite (fin_X H FH). split; auto. split; [|apply xlt_fin_f; lra]. exact OA.
    + intros s Hs. apply OK in Hs as (_ & _ & Q). unfold leH in Q. rewrite (fin_X H FH) in Q. apply xlt_fin_f in Q. lra.
    + apply OK. unfold geL, leH. rewrite (fin_X H FH). split; [lra|]. split; [|apply xlt_fin_f; lra]. destruct (B2X L) as [x| | |]; try easy. apply xlt_fin_f. assert (~ 0 <= x) by (rewrite <- xle_fin; congruence). lra.
Qed.
(** ** one axis *)
(** the direction component d is neither tiny nor huge, or it is zero and has an infinite reciprocal *)
Definition regular {BK : Backend b32} (d : b32) : Prop := fin d /\ (bpow radix2 (-22) <= Rabs (real d) <= bpow radix2 62 \/ real d = 0 /\ fisinf (lane_reciprocal d) = true).
(** how far a face at c may appear to move for a ray from o with component d *)
Definition margin (o d c : R) : R := bpow radix2 (-20) * Rabs (c - o) + bpow radix2 (-149) * Rabs d.
Lemma sub_err (c o : b32) : fin c -> fin o -> Rabs (real c - real o) <= bpow radix2 60 -> fin (fsub c o) /\ Rabs (real (fsub c o) - (real c - real o)) <= u * Rabs (real c - real o).
Proof.
  intros FC FO RC. assert (WX : B2X (fsub c o) = Fin (rnd32 (real c - real o))).
  { rewrite fsub_X, (fin_X c FC), (fin_X o FO). apply xrnd_ok. eapply Rle_trans; [exact RC|apply bpow_le; lia]. }
  apply fin_of_X in WX as [FW RW]. split; auto. rewrite RW. pose proof (rnd_err_add (real c) (- real o) (fmt c)) as Q. unfold Rminus. apply Q. apply generic_format_opp, fmt.
Qed.
Lemma face (BK : Backend b32) (o d c : b32) : reciprocals_ok BK -> fin o -> fin d -> fin c -> bpow radix2 (-22) <= Rabs (real d) <= bpow radix2 62 -> Rabs (real c - real o) <= bpow radix2 60 ->
  let t := fmul (fsub c o) (lane_reciprocal d) in fin t /\ Rabs (real o + real t * real d - real c) <= margin (real o) (real d) (real c).
Proof.
  intros HB FO FD FC RD RC t. destruct (recip_any BK d HB FD RD) as [FI EI]. set (i := lane_reciprocal d) in * . rewrite U21 in EI.
  pose proof (bpow_gt_0 radix2 (-22)) as P22. set (D := Rabs (real c - real o)) in * . assert (D0 : 0 <= D) by apply Rabs_pos.
  assert (AD : 0 < Rabs (real d)) by lra. assert (DN : real d <> 0) by (intros E; rewrite E, Rabs_R0 in AD; lra).
  assert (U : u32 = u) by reflexivity.
  destruct (sub_err c o FC FO RC) as [FW EW]. set (w := fsub c o) in * . fold D in EW.
  assert (BW : Rabs (real w) <= (1 + u) * D). { replace (real w) with ((real w - (real c - real o)) + (real c - real o)) by ring. eapply Rle_trans; [apply Rabs_triang|]. fold D. lra. }
  assert (EID : Rabs (real i * real d - 1) <= 8 * u).
  { replace (real i * real d - 1) with ((real i - / real d) * real d) by (field; auto). rewrite Rabs_mult. eapply Rle_trans; [apply Rmult_le_compat_r; [lra|exact EI]|]. rewrite Rmult_assoc, Rinv_l by lra. lra. }
  pose proof (bpow_gt_0 radix2 22) as P22'. assert (BI : Rabs (real i) <= bpow radix2 23).
  { replace (real i) with ((real i - / real d) + / real d) by ring. eapply Rle_trans; [apply Rabs_triang|]. rewrite Rabs_inv by auto.
    assert (/ Rabs (real d) <= bpow radix2 22). { replace (bpow radix2 22) with (/ bpow radix2 (-22)) by (rewrite <- bpow_opp; reflexivity). apply Rinv_le; lra. } change (bpow radix2 23) with (2 * bpow radix2 22) in * || (assert (bpow radix2 23 = 2 * bpow radix2 22) by (change 23%Z with (1 + 22)%Z; now rewrite bpow_plus)). lra. }
  assert (BM : Rabs (real w * real i) <= bpow radix2 127).
  { rewrite Rabs_mult. apply Rle_trans with (bpow radix2 61 * bpow radix2 23); [apply Rmult_le_compat; auto using Rabs_pos|rewrite <- bpow_plus; apply bpow_le; lia].
    assert (bpow radix2 61 = 2 * bpow radix2 60) by (change 61%Z with (1 + 60)%Z; now rewrite bpow_plus). nra. }
  destruct (ap_fin _ _ _ (ap_mul0 w i FW FI BM)) as [FT ET]. fold t in FT, ET. split; auto. rewrite U in ET.
  assert (AW : Rabs (real w * real i * real d) <= (1 + 8 * u) * Rabs (real w)).
  { rewrite Rmult_assoc, Rabs_mult. assert (Rabs (real i * real d) <= 1 + 8 * u). { replace (real i * real d) with ((real i * real d - 1) + 1) by ring. eapply Rle_trans; [apply Rabs_triang|]. rewrite Rabs_R1. lra. } pose proof (Rabs_pos (real w)). nra. }
  unfold margin. fold D. rewrite U20.
  replace (real o + real t * real d - real c) with ((real t - real w * real i) * real d + real w * (real i * real d - 1) + (real w - (real c - real o))) by ring.
  assert (T1 : Rabs ((real t - real w * real i) * real d) <= u * ((1 + 8 * u) * Rabs (real w)) + eta * Rabs (real d)).
  { rewrite Rabs_mult. eapply Rle_trans; [apply Rmult_le_compat_r; [lra|exact ET]|]. rewrite Rmult_plus_distr_r, Rmult_assoc, <- Rabs_mult. apply Rplus_le_compat_r, Rmult_le_compat_l; lra. }
  assert (T2 : Rabs (real w * (real i * real d - 1)) <= Rabs (real w) * (8 * u)) by (rewrite Rabs_mult; apply Rmult_le_compat_l; [apply Rabs_pos|auto]).
  assert (T3 : eta * Rabs (real d) <= bpow radix2 (-149) * Rabs (real d)) by (apply Rmult_le_compat_r; [lra|apply bpow_le; lia]).
  eapply Rle_trans; [apply Rabs_triang|]. eapply Rle_trans; [apply Rplus_le_compat_r, Rabs_triang|]. nra.
Qed.
Lemma axis_set (BK : Backend b32) (o d lo hi : b32) : reciprocals_ok BK -> fin o -> fin lo -> fin hi -> regular d -> real lo <= real hi -> Rabs (real lo - real o) <= bpow radix2 60 -> Rabs (real hi - real o) <= bpow radix2 60 ->
  let l := amin (lane_reciprocal d) o lo hi in let h := amax (lane_reciprocal d) o lo hi in
  flt h l = false /\ (real d <> 0 -> fin l /\ fin h) /\
  exists lo' hi', Rabs (lo' - real lo) <= margin (real o) (real d) (real lo) /\ Rabs (hi' - real hi) <= margin (real o) (real d) (real hi) /\
    forall t, geL l t /\ leH h t <-> lo' <= real o + t * real d <= hi'.
Proof.
  intros HB FO FL FH [FD RD] LE BL BH l h. pose proof (bpow_gt_0 radix2 (-22)) as P22.
  pose proof (sub_err lo o FL FO BL) as [FWL EWL]. pose proof (sub_err hi o FH FO BH) as [FWH EWH].
  assert (LE' : fle lo hi = true) by (rewrite fle_X, (fin_X lo FL), (fin_X hi FH); now apply xle_fin).
  split; [apply axis_proper; auto; right; exact FWL|].
  destruct RD as [RD|[DZ IZ]].
  - destruct (face BK o d lo HB FO FD FL RD BL) as [F1 E1]. destruct (face BK o d hi HB FO FD FH RD BH) as [F2 E2].
    set (tl := fmul (fsub lo o) (lane_reciprocal d)) in * . set (th := fmul (fsub hi o) (lane_reciprocal d)) in * .
    destruct (recip_any BK d HB FD RD) as [FI EI]. assert (DN : real d <> 0) by (intros E; rewrite E, Rabs_R0 in RD; lra).
    assert (SG : fle fzero (lane_reciprocal d) = true -> 0 < real d).
    { intros Q. rewrite fle_X, fzero_X, (fin_X _ FI) in Q. apply xle_fin in Q. destruct (Rlt_dec 0 (real d)) as [|N]; auto. exfalso. assert (real d < 0) by (destruct (Rdichotomy _ _ DN); lra). rewrite (Rabs_left (real d)) in EI by lra.
      assert (0 < / - real d) by (apply Rinv_0_lt_compat; lra). assert (/ real d = - / - real d) by (field; auto). rewrite U21 in EI. apply Rabs_le_inv in EI. nra. }
    assert (SG' : fle fzero (lane_reciprocal d) = false -> real d < 0).
    { intros Q. rewrite fle_X, fzero_X, (fin_X _ FI) in Q. assert (Q' : ~ 0 <= real (lane_reciprocal d)) by (rewrite <- xle_fin; congruence). destruct (Rlt_dec (real d) 0) as [|N]; auto. exfalso. assert (0 < real d) by (destruct (Rdichotomy _ _ DN); lra). rewrite (Rabs_pos_eq (real d)) in EI by lra.
      assert (0 < / real d) by (apply Rinv_0_lt_compat; lra). rewrite U21 in EI. apply Rabs_le_inv in EI. nra. }
    unfold l, h, amin, amax. fold tl th. split.
    { intros _. destruct (fle fzero (lane_reciprocal d)); auto. }
    exists (real o + real tl * real d), (real o + real th * real d). split; [exact E1|split; [exact E2|]]. intros t. unfold geL, leH.
    destruct (fle fzero (lane_reciprocal d)) eqn:Q; [specialize (SG eq_refl)|specialize (SG' eq_refl)]; rewrite (fin_X tl F1), (fin_X th F2), !xlt_fin_f; split; intros [A B]; split; nra.
  - split; [intros; contradiction|]. exists (real lo), (real hi). assert (MP : forall c, 0 <= margin (real o) (real d) c).
    { intros c. unfold margin. pose proof (bpow_gt_0 radix2 (-20)). pose proof (bpow_gt_0 radix2 (-149)). pose proof (Rabs_pos (c - real o)). pose proof (Rabs_pos (real d)). nra. }
    split; [rewrite Rminus_eq_0, Rabs_R0; apply MP|]. split; [rewrite Rminus_eq_0, Rabs_R0; apply MP|]. intros t. rewrite DZ, Rmult_0_r, Rplus_0_r.
    assert (II : B2X (lane_reciprocal d) = PInf \/ B2X (lane_reciprocal d) = NInf) by (destruct (lane_reciprocal d) as [|[]| |]; try discriminate; auto).
    assert (SN : forall w c, Rabs (w - (c - real o)) <= u * Rabs (c - real o) -> (0 < w <-> real o < c) /\ (w < 0 <-> c < real o)).
    { intros w c Q. assert (U1 : u <= / 2) by lra. destruct (Rle_dec 0 (c - real o)); [rewrite (Rabs_pos_eq (c - real o)) in Q by auto|rewrite (Rabs_left (c - real o)) in Q by lra]; apply Rabs_le_inv in Q; split; split; intros; nra. }
    destruct (SN _ _ EWL) as [L1 L2]. destruct (SN _ _ EWH) as [H1 H2].
    unfold geL, leH, l, h, amin, amax. rewrite fle_X, fzero_X.
    destruct II as [II|II]; rewrite II; [change (xle (Fin 0) PInf) with true|change (xle (Fin 0) NInf) with false]; cbv iota; rewrite !fmul_X, II, (fin_X _ FWL), (fin_X _ FWH); cbn [xmul]; unfold xsgn_inf.
    + destruct (Rlt_dec 0 (real (fsub lo o))), (Rlt_dec (real (fsub lo o)) 0), (Rlt_dec 0 (real (fsub hi o))), (Rlt_dec (real (fsub hi o)) 0); try lra; cbn; split; intros [A B]; split; try easy; lra.
    + destruct (Rlt_dec 0 (real (fsub lo o))), (Rlt_dec (real (fsub lo o)) 0), (Rlt_dec 0 (real (fsub hi o))), (Rlt_dec (real (fsub hi o)) 0); try lra; cbn; split; intros [A B]; split; try easy; lra.
Qed.
(** ** C91 *)
(** coordinates and components by axis *)
Definition pcoord (p : point3d b32) (i : nat) : b32 := match i with 0%nat => p3x p | 1%nat => p3y p | _ => p3z p end.
Definition vcomp (v : V) (i : nat) : b32 := match i with 0%nat => vec3_get_x v | 1%nat => vec3_get_y v | _ => vec3_get_z v end.
(** a ray and a box in range: finite, ordered, nothing further than 2^60 from the origin of the ray, every direction component regular and one not zero *)
Definition in_range {BK : Backend b32} (r : ray b32) (b : box b32) : Prop :=
  (forall i, (i < 3)%nat -> let o := pcoord (ray_get_origin r) i in let lo := pcoord (box_get_min b) i in let hi := pcoord (box_get_max b) i in
     fin o /\ fin lo /\ fin hi /\ real lo <= real hi /\ Rabs (real lo - real o) <= bpow radix2 60 /\ Rabs (real hi - real o) <= bpow radix2 60 /\ regular (vcomp (ray_get_direction r) i)) /\
  exists i, (i < 3)%nat /\ real (vcomp (ray_get_direction r) i) <> 0.
(** the answer of graphene_ray_intersect_box is the exact answer, over the real numbers, for the ray and the box with faces lo and hi *)
Definition exact_answer (o d lo hi : nat -> R) (a : hit * b32) : Prop :=
  let hits t := 0 <= t /\ forall i, (i < 3)%nat -> lo i <= o i + t * d i <= hi i in
  match a with
  | (HitNone, t) => real t = 0 /\ forall s, ~ hits s
  | (HitEnter, t) => fin t /\ hits (real t) /\ forall s, hits s -> real t <= s
  | (HitLeave, t) => fin t /\ hits (real t) /\ (forall s, hits s -> s <= real t) /\ hits 0
  end.
Theorem C91_ray_box : forall (BK : Backend b32) (r : ray b32) (b : box b32), reciprocals_ok BK -> in_range r b ->
  let o i := real (pcoord (ray_get_origin r) i) in let d i := real (vcomp (ray_get_direction r) i) in
  exists lo hi : nat -> R,
    (forall i, (i < 3)%nat -> Rabs (lo i - real (pcoord (box_get_min b) i)) <= margin (o i) (d i) (real (pcoord (box_get_min b) i)) /\
                              Rabs (hi i - real (pcoord (box_get_max b) i)) <= margin (o i) (d i) (real (pcoord (box_get_max b) i))) /\
    exact_answer o d lo hi (ray_intersect_box r b).
Proof.
  intros BK r b HB [HR [k [Hk Nk]]] o d.
  assert (A : forall i, (i < 3)%nat -> let l := amin (lane_reciprocal (vcomp (ray_get_direction r) i)) (pcoord (ray_get_origin r) i) (pcoord (box_get_min b) i) (pcoord (box_get_max b) i) in
     let h := amax (lane_reciprocal (vcomp (ray_get_direction r) i)) (pcoord (ray_get_origin r) i) (pcoord (box_get_min b) i) (pcoord (box_get_max b) i) in
     flt h l = false /\ (d i <> 0 -> fin l /\ fin h) /\ exists lo' hi', Rabs (lo' - real (pcoord (box_get_min b) i)) <= margin (o i) (d i) (real (pcoord (box_get_min b) i)) /\
       Rabs (hi' - real (pcoord (box_get_max b) i)) <= margin (o i) (d i) (real (pcoord (box_get_max b) i)) /\ forall t, geL l t /\ leH h t <-> lo' <= o i + t * d i <= hi').
  { intros i Hi. destruct (HR i Hi) as (FO & FL & FH & LE & BL & BH & RG). now apply axis_set. }
  destruct (A 0%nat ltac:(lia)) as (O0 & N0 & l0 & h0 & ML0 & MH0 & S0). destruct (A 1%nat ltac:(lia)) as (O1 & N1 & l1 & h1 & ML1 & MH1 & S1). destruct (A 2%nat ltac:(lia)) as (O2 & N2 & l2 & h2 & ML2 & MH2 & S2). clear A.
  exists (fun i => match i with 0%nat => l0 | 1%nat => l1 | _ => l2 end), (fun i => match i with 0%nat => h0 | 1%nat => h1 | _ => h2 end). split.
  { intros i Hi. do 3 (destruct i as [|i]; [auto|]). lia. }
  rewrite ray_box_slabs. cbv zeta.
  set (xl := amin _ _ (vx (bmin b)) _). set (xh := amax _ _ (vx (bmin b)) _). set (yl := amin _ _ (vy (bmin b)) _). set (yh := amax _ _ (vy (bmin b)) _). set (zl := amin _ _ (vz (bmin b)) _). set (zh := amax _ _ (vz (bmin b)) _).
  assert (FN : fin xl /\ fin xh \/ fin yl /\ fin yh \/ fin zl /\ fin zh).
  { do 3 (destruct k as [|k]; [auto|]). lia. }
  pose proof (slabs_spec xl xh yl yh zl zh O0 O1 O2 FN) as SP. cbv zeta in SP.
  assert (EQ : forall t, (0 <= t /\ (geL xl t /\ leH xh t) /\ (geL yl t /\ leH yh t) /\ geL zl t /\ leH zh t) <->
     (0 <= t /\ forall i, (i < 3)%nat -> match i with 0%nat => l0 | 1%nat => l1 | _ => l2 end <= o i + t * d i <= match i with 0%nat => h0 | 1%nat => h1 | _ => h2 end)).
  { intros t. specialize (S0 t). specialize (S1 t). specialize (S2 t). split.
    - intros (P & X & Y & Z). split; auto. intros i Hi. do 3 (destruct i as [|i]; [first [now apply S0|now apply S1|now apply S2]|]). lia.
    - intros (P & Q). split; auto. split; [now apply S0, (Q 0%nat); lia|]. split; [now apply S1, (Q 1%nat); lia|now apply S2, (Q 2%nat); lia]. }
  unfold exact_answer. destruct (slabs xl xh yl yh zl zh) as [[] t]; [|destruct SP as (F & P & Q); split; auto; split; [now apply EQ|intros s Hs; apply Q; now apply EQ]|].
  - destruct SP as [E Q]. split; auto. intros s Hs. apply (Q s). now apply EQ.
  - destruct SP as (F & P & Q & Z). split; auto. split; [now apply EQ|]. split; [intros s Hs; apply Q; now apply EQ|now apply EQ].
Qed.
(** a ray that goes through the box, away from its faces by the margin, hits it; and then the distance is right to within the margins *)
Theorem C91_sure_hit : forall (BK : Backend b32) (r : ray b32) (b : box b32), reciprocals_ok BK -> in_range r b ->
  let o i := real (pcoord (ray_get_origin r) i) in let d i := real (vcomp (ray_get_direction r) i) in
  let lo i := real (pcoord (box_get_min b) i) in let hi i := real (pcoord (box_get_max b) i) in
  (exists t, 0 <= t /\ forall i, (i < 3)%nat -> lo i + margin (o i) (d i) (lo i) <= o i + t * d i <= hi i - margin (o i) (d i) (hi i)) ->
  ray_intersects_box r b = true.
Proof.
  intros BK r b HB HR o d lo hi (t & T0 & Ht). destruct (C91_ray_box BK r b HB HR) as (l & h & M & E). fold o d in M, E. unfold ray_intersects_box. destruct (ray_intersect_box r b) as [[] s]; try reflexivity. exfalso.
  destruct E as [_ E]. apply (E t). split; auto. intros i Hi. destruct (M i Hi) as [M1 M2]. specialize (Ht i Hi). fold (lo i) (hi i) (o i) (d i) in M1, M2. apply Rabs_le_inv in M1, M2. lra.
Qed.
(** a reported hit: some point of the ray is in the box grown by the margins; on entering, the reported parameter is such a point and no earlier point of the ray is in the shrunk box *)
Theorem C91_sure_miss : forall (BK : Backend b32) (r : ray b32) (b : box b32), reciprocals_ok BK -> in_range r b ->
  let o i := real (pcoord (ray_get_origin r) i) in let d i := real (vcomp (ray_get_direction r) i) in
  let lo i := real (pcoord (box_get_min b) i) in let hi i := real (pcoord (box_get_max b) i) in
  let near t := 0 <= t /\ forall i, (i < 3)%nat -> lo i - margin (o i) (d i) (lo i) <= o i + t * d i <= hi i + margin (o i) (d i) (hi i) in
  let well_inside t := 0 <= t /\ forall i, (i < 3)%nat -> lo i + margin (o i) (d i) (lo i) <= o i + t * d i <= hi i - margin (o i) (d i) (hi i) in
  (ray_intersects_box r b = true -> exists t, near t) /\
  match ray_intersect_box r b with
  | (HitNone, t) => real t = 0
  | (HitEnter, t) => near (real t) /\ forall s, well_inside s -> real t <= s
  | (HitLeave, t) => near (real t) /\ near 0 /\ forall s, well_inside s -> s <= real t
  end.
Proof.
  intros BK r b HB HR o d lo hi near well. destruct (C91_ray_box BK r b HB HR) as (l & h & M & E). fold o d in M, E. unfold ray_intersects_box.
  assert (N : forall t, (0 <= t /\ forall i, (i < 3)%nat -> l i <= o i + t * d i <= h i) -> near t).
  { intros t [T0 Ht]. split; auto. intros i Hi. destruct (M i Hi) as [M1 M2]. specialize (Ht i Hi). fold (lo i) (hi i) (o i) (d i) in M1, M2. apply Rabs_le_inv in M1, M2. lra. }
  assert (W : forall t, well t -> (0 <= t /\ forall i, (i < 3)%nat -> l i <= o i + t * d i <= h i)).
  { intros t [T0 Ht]. split; auto. intros i Hi. destruct (M i Hi) as [M1 M2]. specialize (Ht i Hi). fold (lo i) (hi i) (o i) (d i) in M1, M2. apply Rabs_le_inv in M1, M2. lra. }
  unfold exact_answer in E. destruct (ray_intersect_box r b) as [[] t].
  - split; [discriminate|apply E].
  - destruct E as (F & P & Q). split; [intros _; exists (real t); auto|]. split; auto.
  - destruct E as (F & P & Q & Z). split; [intros _; exists (real t); auto|]. split; auto.
Qed.
(** a zero component has an infinite reciprocal whenever the estimate of one over zero is infinite (as Intel and ARM document) *)
Definition zero_estimate_ok (BK : Backend b32) : Prop :=
  match BK with
  | Scalar _ | Gcc => True
  | Sse _ _ rcp _ => forall s, fisinf (rcp (B754_zero s)) = true
  | Neon rec _ _ => exists fused rece, (forall s, fisinf (rece (B754_zero s)) = true) /\ rec = neon_reciprocal fused rece
  end.
Theorem C91_zero_regular : forall (BK : Backend b32) (d : b32), zero_estimate_ok BK -> fin d -> real d = 0 -> regular d.
Proof.
  intros BK d HZ F E. split; auto. right. split; auto.
  assert (Z : exists s, d = B754_zero s).
  { destruct d as [s| | |s m e H]; try discriminate; eauto. exfalso. unfold real in E. cbn in E. unfold F2R in E; cbn in E. pose proof (bpow_gt_0 radix2 e). destruct s; cbn in E; [pose proof (IZR_lt (Z.neg m) 0 eq_refl)|pose proof (IZR_lt 0 (Z.pos m) eq_refl)]; nra. }
  destruct Z as [s ->]. assert (INF : forall x : b32, fisinf x = true -> exists t, x = B754_infinity t) by (intros [|t| |]; try discriminate; eauto).
  destruct BK as [[]| |s4 fm rcp rsq|rec rsq sq]; cbn [zero_estimate_ok] in HZ.
  - destruct s; beq.
  - destruct s; beq.
  - destruct s; beq.
  - destruct (INF _ (HZ s)) as [t Ht]. unfold lane_reciprocal; cbv [backend]; cbv zeta. rewrite Ht. destruct s, t; beq.
  - destruct HZ as (fused & rece & HZ & ->). destruct (INF _ (HZ s)) as [t Ht]. unfold lane_reciprocal; cbv [backend]. unfold neon_reciprocal. rewrite Ht. destruct fused, s, t; beq.
Qed.
(** ** non-vacuity *)
Example ex_reciprocals : forall a b rsq sq fused, reciprocals_ok (Sse a b (fun x => fdiv fone x) rsq) /\ reciprocals_ok (Neon (neon_reciprocal fused (fun x => fdiv fone x)) rsq sq).
Proof.
  assert (K : forall k, bpow radix2 (-22) <= k -> rcp_estimate_any k (fun x => fdiv fone x)).
  { intros k Hk x F R. pose proof (bpow_gt_0 radix2 (-100)). assert (N : real x <> 0) by (intros E; rewrite E, Rabs_R0 in R; lra).
    assert (P : 0 < Rabs (real x)) by lra. assert (IB : / Rabs (real x) <= bpow radix2 100) by (replace (bpow radix2 100) with (/ bpow radix2 (-100)) by (rewrite <- bpow_opp; reflexivity); apply Rinv_le; lra).
    assert (IL : bpow radix2 (-100) <= / Rabs (real x)) by (replace (bpow radix2 (-100)) with (/ bpow radix2 100) by (rewrite <- bpow_opp; reflexivity); apply Rinv_le; lra).
    assert (D : B2X (fdiv fone x) = Fin (rnd32 (/ real x))).
    { change (fdiv fone x) with (Bdiv mode_NE fone x). rewrite Bdiv_X by (fold b32; rewrite (fin_X x F); intros [= E]; auto). fold b32. rewrite fone_X, (fin_X x F). cbn [xdiv]. destruct (Req_EM_T (real x) 0); [contradiction|].
      replace (1 / real x) with (/ real x) by (field; auto). apply xrnd_ok. rewrite Rabs_inv by auto. eapply Rle_trans; [exact IB|apply bpow_le; lia]. }
    apply fin_of_X in D as [FD RD]. split; auto. rewrite RD. pose proof (rnd_err (/ real x)) as Q. rewrite Rabs_inv in Q by auto. eapply Rle_trans; [exact Q|].
    assert (EE : eta <= u * / Rabs (real x)). { apply Rle_trans with (bpow radix2 (-24) * bpow radix2 (-100)); [rewrite <- bpow_plus; apply bpow_le; lia|change (bpow radix2 (-24)) with u; apply Rmult_le_compat_l; lra]. }
    change u32 with u. apply Rle_trans with (bpow radix2 (-22) * / Rabs (real x)); [|apply Rmult_le_compat_r; lra]. change (bpow radix2 (-22)) with (/ 4194304). lra. }
  intros a b rsq sq fused. split; [apply K; simpl; lra|]. exists fused, (fun x => fdiv fone x). split; auto. apply K. apply bpow_le; lia.
Qed.
Lemma by_float (x y : b32) : fin x -> fin y -> fle x y = true -> real x <= real y.
Proof. intros F G. rewrite fle_X, (fin_X x F), (fin_X y G). apply xle_fin. Qed.
Lemma by_range (x : b32) : fin x -> fle (fabs x) (lit 1 10) = true -> Rabs (real x) <= 1024.
Proof.
  intros F H. rewrite fle_X, fabs_X, (fin_X x F) in H. destruct (lit_real 1 10) as [FL RL]; try reflexivity; try lia. change (flit 1 10) with (lit 1 10) in * . rewrite (fin_X _ FL), RL in H. cbn [xabs] in H. apply xle_fin in H. simpl in H. lra.
Qed.
Lemma by_lower (x : b32) : fin x -> fle (lit 1 (-22)) (fabs x) = true -> bpow radix2 (-22) <= Rabs (real x).
Proof.
  intros F H. rewrite fle_X, fabs_X, (fin_X x F) in H. destruct (lit_real 1 (-22)) as [FL RL]; try reflexivity; try lia. change (flit 1 (-22)) with (lit 1 (-22)) in * . rewrite (fin_X _ FL), RL in H. cbn [xabs] in H. apply xle_fin in H. lra.
Qed.
Lemma by_zero (x : b32) : feqb x fzero = true -> fin x /\ real x = 0.
Proof. rewrite feqb_X, fzero_X. destruct (B2X x) as [r| | |] eqn:E; try easy. unfold xeqb. destruct (Req_EM_T r 0); [|easy]. intros _. apply fin_of_X in E as [F <-]. auto. Qed.
Definition axis_check {BK : Backend b32} (o lo hi d : b32) : bool :=
  (is_finite o && is_finite lo && is_finite hi && is_finite d && fle lo hi && fle (fabs o) (lit 1 10) && fle (fabs lo) (lit 1 10) && fle (fabs hi) (lit 1 10) && fle (fabs d) (lit 1 10) &&
   (fle (lit 1 (-22)) (fabs d) || feqb d fzero && fisinf (lane_reciprocal d)))%bool.
Lemma check_axis (BK : Backend b32) o lo hi d : axis_check o lo hi d = true ->
  fin o /\ fin lo /\ fin hi /\ real lo <= real hi /\ Rabs (real lo - real o) <= bpow radix2 60 /\ Rabs (real hi - real o) <= bpow radix2 60 /\ regular d.
Proof.
  unfold axis_check. rewrite !andb_true_iff, orb_true_iff, andb_true_iff. intros (((((((((FO & FL) & FH) & FD) & LE) & BO) & BL) & BH) & BD) & RD).
  assert (P : 2048 <= bpow radix2 60) by (apply Rle_trans with (bpow radix2 11); [simpl; lra|apply bpow_le; lia]).
  apply by_range in BO, BL, BH, BD; auto. apply by_float in LE; auto. repeat split; auto.
  - eapply Rle_trans; [apply Rabs_triang|]. rewrite Rabs_Ropp. lra.
  - eapply Rle_trans; [apply Rabs_triang|]. rewrite Rabs_Ropp. lra.
  - destruct RD as [RD|[Z I]]; [left|right; split; auto; now apply by_zero]. apply by_lower in RD; auto. split; auto. assert (bpow radix2 60 <= bpow radix2 62) by (apply bpow_le; lia). lra.
Qed.
Definition ex_box : box b32 := box_init (Some (P3 fone (lit (-1) 0) fzero)) (Some (P3 (lit 3 0) fone fone)).
Example C91_ex_oblique : forall BK : Backend b32, in_range (Ry (vec3_init fm1 fzero fhalf) (vec3_init fone fhalf (lit (-1) (-2)))) ex_box.
Proof.
  intros BK. split.
  - intros i Hi. apply check_axis. do 3 (destruct i as [|i]; [beq|]). lia.
  - exists 0%nat. split; [lia|]. cbn [vcomp]. destruct (fin_of_X _ _ fone_X) as [_ E]. change (real fone <> 0). lra.
Qed.
Example C91_ex_axis_parallel : forall ieee, let BK : Backend b32 := Scalar ieee in
  let r := ray_init (Some (P3 fm1 fzero fhalf)) (Some (vec3_init ftwo fzero fzero)) in in_range r ex_box /\ ray_intersects_box r ex_box = true /\ ray_intersects_box (ray_init (Some (P3 fm1 ftwo fhalf)) (Some (vec3_init ftwo fzero fzero))) ex_box = false.
Proof.
  intros ieee BK r. split; [|split; [destruct ieee; beq|destruct ieee; beq]]. split.
  - intros i Hi. apply check_axis. do 3 (destruct i as [|i]; [destruct ieee; beq|]). lia.
  - exists 0%nat. split; [lia|]. assert (C : fle (lit 1 (-22)) (fabs (vcomp (ray_get_direction r) 0)) = true) by (destruct ieee; beq). assert (F : fin (vcomp (ray_get_direction r) 0)) by (destruct ieee; unfold fin; beq).
    apply by_lower in C; auto. intros E. rewrite E, Rabs_R0 in C. pose proof (bpow_gt_0 radix2 (-22)). lra.
Qed.
