(** * Props_Slerp: spherical interpolation of quaternions in binary32 (C102). *)
From Coq Require Import ZArith Reals Bool List Lra Lia Psatz.
From Flocq Require Import Core BinarySingleNaN.
From Verif Require Import Num Simd Vec Rect Box Mat Geo Quat OrdThy FloatThy B32Setup FloatLem ErrThy Props_Err Props_Err2 ErrEx Props_Err4.
From Verif Require Props_Eq Props_MatX2 RQuat Props_Err6 Props_Rot Props_RaySph Props_Proj Props_Dec.
Import ListNotations.
Local Open Scope R_scope.
Notation RQ := RQuat.RQ.
Notation qdot := RQuat.qdot.
Notation unit_q := RQuat.unit_q.

(** ** real functions *)
Lemma mono_le (f f' : R -> R) a b : a <= b -> (forall c, a <= c <= b -> derivable_pt_lim f c (f' c)) -> (forall c, a <= c <= b -> 0 <= f' c) -> f a <= f b.
Proof.
  intros L D P. destruct (Req_dec a b) as [->|N]; [lra|]. destruct (MVT_cor2 f f' a b ltac:(lra) D) as (c & E & C). specialize (P c ltac:(lra)). assert (0 <= f' c * (b - a)) by (apply Rmult_le_pos; lra). lra.
Qed.
Lemma derivable_pt_lim_comp_sin t x : derivable_pt_lim (fun x => sin (t * x)) x (t * cos (t * x)).
Proof. replace (t * cos (t * x)) with (cos (t * x) * t) by ring. apply (derivable_pt_lim_comp (fun x => t * x) sin); [|apply derivable_pt_lim_sin]. pose proof (derivable_pt_lim_scal id t x 1 (derivable_pt_lim_id x)) as H. rewrite Rmult_1_r in H. exact H. Qed.
Lemma derivable_pt_lim_comp_cos t x : derivable_pt_lim (fun x => cos (t * x)) x (- t * sin (t * x)).
Proof. replace (- t * sin (t * x)) with (- sin (t * x) * t) by ring. apply (derivable_pt_lim_comp (fun x => t * x) cos); [|apply derivable_pt_lim_cos]. pose proof (derivable_pt_lim_scal id t x 1 (derivable_pt_lim_id x)) as H. rewrite Rmult_1_r in H. exact H. Qed.
Ltac dp := repeat match goal with
  | |- derivable_pt_lim (fun x => @?f x + @?g x) _ _ => apply (derivable_pt_lim_plus f g)
  | |- derivable_pt_lim (fun x => @?f x - @?g x) _ _ => apply (derivable_pt_lim_minus f g)
  | |- derivable_pt_lim (fun x => @?f x * @?g x) _ _ => apply (derivable_pt_lim_mult f g)
  | |- derivable_pt_lim (fun _ => ?k) _ _ => apply derivable_pt_lim_const
  | |- derivable_pt_lim (fun x => x) _ _ => apply derivable_pt_lim_id
  | |- derivable_pt_lim (fun x => sin x) _ _ => apply derivable_pt_lim_sin
  | |- derivable_pt_lim (fun x => cos x) _ _ => apply derivable_pt_lim_cos
  | |- derivable_pt_lim (fun x => sin (?t * x)) _ _ => apply derivable_pt_lim_comp_sin
  | |- derivable_pt_lim (fun x => cos (?t * x)) _ _ => apply derivable_pt_lim_comp_cos
  end.
Ltac der := intros; match goal with |- derivable_pt_lim ?f ?x ?v => let d := fresh in let H := fresh in
  evar (d : R); assert (H : derivable_pt_lim f x d); [unfold d; dp|refine (eq_ind d (fun z => derivable_pt_lim f x z) H v _); unfold d; try ring] end.
Lemma sin_le_x x : 0 <= x -> sin x <= x.
Proof. intros [H|<-]; [left; now apply sin_lt_x|rewrite sin_0; lra]. Qed.
Lemma cos_ge x : 0 <= x -> 1 - x * x / 2 <= cos x.
Proof.
  intros H. assert (K : cos 0 + 0 * 0 * / 2 <= cos x + x * x * / 2).
  { apply (mono_le (fun x => cos x + x * x * / 2) (fun x => x - sin x)); [auto| |intros c C; pose proof (sin_le_x c ltac:(lra)); lra]. der. field. }
  rewrite cos_0 in K. lra.
Qed.
Lemma sin_ge x : 0 <= x -> x - x * x * x / 6 <= sin x.
Proof.
  intros H. assert (K : sin 0 - 0 + 0 * 0 * 0 * / 6 <= sin x - x + x * x * x * / 6).
  { apply (mono_le (fun x => sin x - x + x * x * x * / 6) (fun x => cos x - (1 - x * x / 2))); [auto| |intros c C; pose proof (cos_ge c ltac:(lra)); lra]. der. field. }
  rewrite sin_0 in K. lra.
Qed.
Lemma cos_le x : 0 <= x -> cos x <= 1 - x * x / 2 + x * x * x * x / 24.
Proof.
  intros H. assert (K : 1 - 0 * 0 * / 2 + 0 * 0 * 0 * 0 * / 24 - cos 0 <= 1 - x * x * / 2 + x * x * x * x * / 24 - cos x).
  { apply (mono_le (fun x => 1 - x * x * / 2 + x * x * x * x * / 24 - cos x) (fun x => sin x - (x - x * x * x / 6))); [auto| |intros c C; pose proof (sin_ge c ltac:(lra)); lra]. der. field. }
  rewrite cos_0 in K. lra.
Qed.
Lemma pi_gt : 3 < PI. Proof. pose proof PI2_3_2. lra. Qed.
Lemma sin_low x : 0 <= x <= 1.6 -> 0.57 * x <= sin x.
Proof. intros [A B]. pose proof (sin_ge x A). assert (x * x <= 2.56) by nra. assert (x * (x * x) <= x * 2.56) by (apply Rmult_le_compat_l; lra). lra. Qed.
Lemma sin_t x t : 0 <= x <= 1.6 -> 0 <= t <= 1 -> 0 <= sin (t * x) <= t * x /\ 0 <= t * x <= x.
Proof.
  intros X T. assert (0 <= t * x) by (apply Rmult_le_pos; lra). assert (t * x <= 1 * x) by (apply Rmult_le_compat_r; lra). pose proof pi_gt. split; [|lra]. split; [apply sin_ge_0; lra|now apply sin_le_x].
Qed.
Definition wron (t x : R) : R := t * cos (t * x) * sin x - sin (t * x) * cos x.
Lemma wron_range t x : 0 <= t <= 1 -> 0 <= x <= 1.6 -> 0 <= wron t x <= x * x * x / 3.
Proof.
  intros T X. assert (D : forall c, derivable_pt_lim (wron t) c ((1 - t * t) * (sin (t * c) * sin c))).
  { intros c. unfold wron. der. }
  assert (P : forall c, 0 <= c <= x -> 0 <= sin (t * c) * sin c <= c * c /\ 0 <= 1 - t * t <= 1).
  { intros c C. destruct (sin_t c t ltac:(lra) T) as [S1 S2]. pose proof (sin_le_x c ltac:(lra)). pose proof pi_gt. assert (0 <= sin c) by (apply sin_ge_0; lra). split; [split; [apply Rmult_le_pos; lra|apply Rmult_le_compat; lra]|nra]. }
  assert (Z : wron t 0 = 0) by (unfold wron; rewrite Rmult_0_r, sin_0; ring). split.
  - rewrite <- Z. apply (mono_le (wron t) (fun c => (1 - t * t) * (sin (t * c) * sin c))); [lra|intros; apply D|]. intros c C. destruct (P c C). apply Rmult_le_pos; lra.
  - assert (K : 0 * 0 * 0 * / 3 - wron t 0 <= x * x * x * / 3 - wron t x).
    { apply (mono_le (fun c => c * c * c * / 3 - wron t c) (fun c => c * c - (1 - t * t) * (sin (t * c) * sin c))); [lra| |].
      - intros c _. apply (derivable_pt_lim_minus (fun c => c * c * c * / 3) (wron t)); [|apply D]. der. field.
      - intros c C. destruct (P c C) as [P1 P2]. assert ((1 - t * t) * (sin (t * c) * sin c) <= 1 * (sin (t * c) * sin c)) by (apply Rmult_le_compat_r; lra). lra. }
    rewrite Z in K. lra.
Qed.
(** the weight of the second end *)
Definition wgt (t x : R) : R := sin (t * x) / sin x.
Lemma wgt_lip t x y : 0 <= t <= 1 -> 0 < y <= x -> x <= 1.6 -> 0 <= wgt t x - wgt t y <= 2 * (cos y - cos x).
Proof.
  intros T XY X. assert (SP : forall c, y <= c <= x -> 0.57 * c <= sin c /\ 0 < sin c). { intros c C. pose proof (sin_low c ltac:(lra)). lra. }
  assert (D : forall c, y <= c <= x -> derivable_pt_lim (wgt t) c (wron t c / Rsqr (sin c))).
  { intros c C. destruct (SP c C). unfold wgt. pose proof (derivable_pt_lim_div (fun c => sin (t * c)) sin c _ _ (derivable_pt_lim_comp_sin t c) (derivable_pt_lim_sin c) ltac:(lra)) as H1.
    refine (eq_ind _ (fun z => derivable_pt_lim _ c z) H1 _ _). unfold wron. f_equal. ring. }
  split.
  - assert (wgt t y <= wgt t x); [|lra]. apply (mono_le _ _ _ _ (proj2 XY) D). intros c C. destruct (SP c C). destruct (wron_range t c T ltac:(lra)). apply Rmult_le_pos; [lra|]. left. apply Rinv_0_lt_compat. unfold Rsqr. now apply Rmult_lt_0_compat.
  - assert (K : -1 * (wgt t y + 2 * cos y) <= -1 * (wgt t x + 2 * cos x)); [|lra].
    apply (mono_le (fun c => -1 * (wgt t c + 2 * cos c)) (fun c => 2 * sin c - wron t c / Rsqr (sin c))); [lra| |].
    + intros c C. pose proof (derivable_pt_lim_scal (fun c => wgt t c + 2 * cos c) (-1) c _ (derivable_pt_lim_plus (wgt t) (fun c => 2 * cos c) c _ _ (D c C) (derivable_pt_lim_scal cos 2 c _ (derivable_pt_lim_cos c)))) as H. refine (eq_ind _ (fun z => derivable_pt_lim _ c z) H _ _). ring.
    + intros c C. destruct (SP c C) as [S1 S2]. destruct (wron_range t c T ltac:(lra)) as [_ W]. assert (S3 : 0 < Rsqr (sin c)) by (unfold Rsqr; now apply Rmult_lt_0_compat).
      assert (wron t c / Rsqr (sin c) <= 2 * sin c); [|lra]. apply (Rmult_le_reg_r (Rsqr (sin c))); [auto|]. unfold Rdiv. rewrite Rmult_assoc, Rinv_l by lra. rewrite Rmult_1_r. eapply Rle_trans; [exact W|]. unfold Rsqr.
      assert (C0 : 0 < c) by lra. assert (Q1 : 0.57 * c * (0.57 * c) <= sin c * sin c) by (apply Rmult_le_compat; lra). assert (Q2 : 0.57 * c * (0.57 * c) * (0.57 * c) <= sin c * sin c * sin c) by (apply Rmult_le_compat; try lra; apply Rmult_le_pos; lra).
      assert (0 < c * c * c) by (repeat apply Rmult_lt_0_compat; auto). lra.
Qed.
Lemma cos_lip t x y : 0 <= t <= 1 -> 0 <= y <= x -> x <= 1.6 -> 0 <= cos (t * y) - cos (t * x) <= 2 * (cos y - cos x).
Proof.
  intros T XY X. split.
  - assert (-1 * cos (t * y) <= -1 * cos (t * x)); [|lra]. apply (mono_le (fun c => -1 * cos (t * c)) (fun c => t * sin (t * c))); [lra|der|]. intros c C. destruct (sin_t c t ltac:(lra) T). apply Rmult_le_pos; lra.
  - assert (cos (t * y) - 2 * cos y <= cos (t * x) - 2 * cos x); [|lra]. apply (mono_le (fun c => cos (t * c) - 2 * cos c) (fun c => 2 * sin c - t * sin (t * c))); [lra|der|]. intros c C. destruct (sin_t c t ltac:(lra) T). pose proof (sin_low c ltac:(lra)). assert (t * sin (t * c) <= 1 * c) by (apply Rmult_le_compat; lra). lra.
Qed.
Lemma wgt_range t x : 0 <= t <= 1 -> 0 < x <= 1.6 -> 0 <= wgt t x <= 1.76.
Proof.
  intros T X. destruct (sin_t x t ltac:(lra) T). pose proof (sin_low x ltac:(lra)). assert (0 < sin x) by lra. assert (0 < / sin x) by (now apply Rinv_0_lt_compat). unfold wgt. split; [apply Rmult_le_pos; lra|].
  apply (Rmult_le_reg_r (sin x)); [auto|]. unfold Rdiv. rewrite Rmult_assoc, Rinv_l by lra. lra.
Qed.
Lemma acos_hi v : - / 1024 <= v <= 1 -> 0 <= acos v <= 1.6 /\ cos (acos v) = v.
Proof.
  intros V. pose proof (acos_bound v) as B. pose proof (cos_acos v ltac:(lra)) as E. split; [|exact E]. split; [lra|]. destruct (Rle_or_lt (acos v) 1.6) as [|C]; auto. exfalso. pose proof pi_gt. pose proof (cos_le 1.6 ltac:(lra)).
  assert (cos (acos v) < cos 1.6) by (apply cos_decreasing_1; lra). lra.
Qed.

(** ** specification *)
(** sinf, cosf within 2^-23; acosf within 2^-22 on [0, 1] *)
Definition acos_accurate (L : LibM b32) : Prop := forall x : b32, fin x -> 0 <= real x <= 1 -> within (bpow radix2 (-22)) (facos x) (acos (real x)).
(** one component of the point at the fraction [t] of the great arc of angle [th] from A to B *)
Definition arc (t th A B : R) : R := sin ((1 - t) * th) / sin th * A + sin (t * th) / sin th * B.
Lemma arc_wgt t th A B : sin th <> 0 -> arc t th A B = cos (t * th) * A + wgt t th * (B - cos th * A).
Proof. intros N. unfold arc, wgt. replace ((1 - t) * th) with (th - t * th) by ring. rewrite sin_minus. field. exact N. Qed.
Lemma arc_close t x y A B d : 0 <= t <= 1 -> 0 < x <= 1.6 -> 0 < y <= 1.6 -> Rabs A <= 1 -> Rabs B <= 1 -> Rabs (cos x - cos y) <= d -> Rabs (arc t x A B - arc t y A B) <= 8 * d.
Proof.
  intros T X Y HA HB HC. pose proof (sin_low x ltac:(lra)). pose proof (sin_low y ltac:(lra)). rewrite !arc_wgt by lra.
  assert (W : Rabs (wgt t x - wgt t y) <= 2 * d /\ Rabs (cos (t * x) - cos (t * y)) <= 2 * d).
  { apply Rabs_le_inv in HC. destruct (Rle_or_lt y x) as [L|L].
    - pose proof (wgt_lip t x y T ltac:(lra) ltac:(lra)). pose proof (cos_lip t x y T ltac:(lra) ltac:(lra)). split; apply Rabs_le; lra.
    - pose proof (wgt_lip t y x T ltac:(lra) ltac:(lra)). pose proof (cos_lip t y x T ltac:(lra) ltac:(lra)). split; apply Rabs_le; lra. }
  destruct W as [W1 W2]. pose proof (wgt_range t x T X) as WR. set (w := wgt t x) in * . set (w' := wgt t y) in * .
  replace (cos (t * x) * A + w * (B - cos x * A) - (cos (t * y) * A + w' * (B - cos y * A))) with ((cos (t * x) - cos (t * y)) * A + (w - w') * (B - cos y * A) + w * ((cos y - cos x) * A)) by ring.
  eapply Rle_trans; [apply Rabs_triang|]. eapply Rle_trans; [apply Rplus_le_compat_r, Rabs_triang|]. rewrite !Rabs_mult, (Rabs_minus_sym (cos y)). rewrite (Rabs_pos_eq w) by lra. pose proof (Rabs_pos (cos x - cos y)). pose proof (Rabs_pos A). pose proof (Rabs_pos (w - w')). pose proof (Rabs_pos (cos (t * x) - cos (t * y))).
  assert (Rabs (B - cos y * A) <= 2). { eapply Rle_trans; [apply Rabs_triang|]. rewrite Rabs_Ropp, Rabs_mult. pose proof (COS_bound y) as CB. assert (Rabs (cos y) <= 1) by (apply Rabs_le; lra). assert (Rabs (cos y) * Rabs A <= 1 * 1) by (apply Rmult_le_compat; try lra; apply Rabs_pos). lra. }
  assert (Rabs (cos (t * x) - cos (t * y)) * Rabs A <= 2 * d * 1) by (apply Rmult_le_compat; lra).
  assert (Rabs (w - w') * Rabs (B - cos y * A) <= 2 * d * 2) by (apply Rmult_le_compat; try lra; apply Rabs_pos).
  assert (Rabs (cos x - cos y) * Rabs A <= d * 1) by (apply Rmult_le_compat; lra). assert (w * (Rabs (cos x - cos y) * Rabs A) <= 1.76 * (d * 1)) by (apply Rmult_le_compat; try lra; apply Rmult_le_pos; lra). lra.
Qed.

(** ** the two weights *)
Lemma inv_root (c : b32) (sg : R) : fin c -> 0 <= real c <= 1 -> 0 < sg -> sg * sg = 1 - real c * real c -> 3.96 * u <= sg * sg ->
  let r := fdiv fone (fsqrt (fsub fone (fmul c c))) in ap r (/ sg) (0.63 * u * / (sg * sg * sg) + 3.8 * u * / sg).
Proof.
  intros FC C S0 SQ SL r. assert (U : u32 = u) by reflexivity. set (q := sg * sg) in * . set (cr := real c) in * . assert (CC : 0 <= cr * cr <= 1) by nra.
  assert (ET : 0 <= eta <= / 1000000 * u) by (split; [apply bpow_ge_0|apply Rle_trans with (bpow radix2 (-45)); [apply bpow_le; lia|]; change (-45)%Z with (-21 + -24)%Z; rewrite bpow_plus; change (bpow radix2 (-21)) with (/ 2097152); change (bpow radix2 (-24)) with (/ 16777216); lra]).
  assert (P127 : 4 <= bpow radix2 127) by (change 4 with (bpow radix2 2); apply bpow_le; lia). assert (P126 : 4 <= bpow radix2 126) by (change 4 with (bpow radix2 2); apply bpow_le; lia).
  destruct (ap_fin _ _ _ (ap_mul0 c c FC FC ltac:(fold cr; rewrite Rabs_pos_eq; lra))) as [F1 E1]. fold cr in E1. rewrite (Rabs_pos_eq (cr * cr)), U in E1 by lra. set (cc := real (fmul c c)) in * . apply Rabs_le_inv in E1.
  destruct (fin_of_X _ _ (fone_X : B2X (fone : b32) = Fin 1)) as [FO RO].
  assert (B1 : Rabs (1 - cc) <= 1.26 * q). { apply Rabs_le. lra. }
  destruct (Props_RaySph.sub_w fone (fmul c c) 2 FO F1) as [F2 E2]; [fold cc; rewrite RO; lra|lra|]. fold cc in E2. rewrite RO in E2. set (qf := real (fsub fone (fmul c c))) in * . apply Rabs_le_inv in E2.
  assert (EQ : Rabs (qf - q) <= 1.00001 * u + 1.26 * u * q) by (apply Rabs_le; lra). apply Rabs_le_inv in EQ. assert (Q1 : 0.747 * q <= qf <= 1.253 * q) by lra. assert (q0 : 0 < q) by (unfold q; now apply Rmult_lt_0_compat).
  destruct (Props_RaySph.sqrt_w (fsub fone (fmul c c)) F2) as (F3 & P3 & E3); [fold qf; lra|fold qf; lra|]. fold qf in E3. set (rt := real (fsqrt (fsub fone (fmul c c)))) in * . apply Rabs_le_inv in E3.
  assert (ER : Rabs (rt * rt - q) <= 1.0001 * u + 3.9 * u * q) by (apply Rabs_le; lra). assert (RL : 0.864 * sg <= rt). { apply Rsqr_incr_0_var; [|auto]. unfold Rsqr. replace (0.864 * sg * (0.864 * sg)) with (0.746496 * q) by (unfold q; lra). lra. }
  assert (ED : Rabs (rt - sg) * (1.864 * sg) <= 1.0001 * u + 3.9 * u * q). { eapply Rle_trans; [|exact ER]. replace (rt * rt - q) with ((rt - sg) * (rt + sg)) by (unfold q; ring). rewrite Rabs_mult, (Rabs_pos_eq (rt + sg)) by lra. apply Rmult_le_compat_l; [apply Rabs_pos|lra]. }
  set (i := / sg). assert (i0 : 0 < i) by (now apply Rinv_0_lt_compat). assert (ii : sg * i = 1) by (unfold i; field; lra). assert (RT0 : 0 < rt) by lra.
  assert (IR : / rt <= 1.158 * i). { apply Rle_trans with (/ (0.864 * sg)); [apply Rinv_le_contravar; lra|]. rewrite Rinv_mult. fold i. lra. } assert (IR0 : 0 < / rt) by (now apply Rinv_0_lt_compat).
  assert (ED2 : Rabs (rt - sg) <= (0.537 * u + 2.1 * u * q) * i). { assert (EZ : Rabs (rt - sg) = Rabs (rt - sg) * (1.864 * sg) * (0.5364807 * i) + Rabs (rt - sg) * (1 - 1.864 * 0.5364807) * (sg * i)) by (rewrite <- (Rmult_1_r (Rabs (rt - sg))) at 1; rewrite <- ii at 1; lra). rewrite ii in EZ. pose proof (Rabs_pos (rt - sg)). assert (Rabs (rt - sg) * (1.864 * sg) * (0.5364807 * i) <= (1.0001 * u + 3.9 * u * q) * (0.5364807 * i)) by (apply Rmult_le_compat_r; lra). assert (0 < q * i) by (now apply Rmult_lt_0_compat). lra. }
  assert (DI : Rabs (/ rt - i) <= (0.537 * u + 2.1 * u * q) * i * (1.158 * i) * i). { replace (/ rt - i) with ((sg - rt) * / rt * i) by (unfold i; field; lra). rewrite !Rabs_mult, (Rabs_pos_eq (/ rt)), (Rabs_pos_eq i), Rabs_minus_sym by lra. apply Rmult_le_compat_r; [lra|]. apply Rmult_le_compat; try lra. apply Rabs_pos. }
  assert (QI : q * i * i = 1) by (unfold q; replace (sg * sg * i * i) with (sg * i * (sg * i)) by ring; rewrite ii; ring).
  assert (DI2 : Rabs (/ rt - i) <= 0.622 * u * (i * i * i) + 2.44 * u * i). { eapply Rle_trans; [exact DI|]. replace ((0.537 * u + 2.1 * u * q) * i * (1.158 * i) * i) with (0.537 * 1.158 * u * (i * i * i) + 2.1 * 1.158 * u * i * (q * i * i)) by ring. rewrite QI. assert (0 < i * i * i) by (repeat apply Rmult_lt_0_compat; auto). lra. }
  assert (IB : i <= bpow radix2 20). { assert (bpow radix2 (-20) <= sg). { apply Rsqr_incr_0_var; [|lra]. unfold Rsqr. fold q. rewrite <- bpow_plus. change (-20 + -20)%Z with (-16 + -24)%Z. rewrite bpow_plus. change (bpow radix2 (-16)) with (/ 65536). change (bpow radix2 (-24)) with (/ 16777216). lra. } unfold i. change 20%Z with (- - (20))%Z. rewrite bpow_opp. apply Rinv_le_contravar; [apply bpow_gt_0|auto]. }
  destruct (Props_Proj.div_raw fone _ FO F3) as [FR ERR]. { fold rt. lra. } { fold rt. rewrite RO. unfold Rdiv. rewrite Rmult_1_l, Rabs_pos_eq by lra. assert (2 * bpow radix2 20 <= bpow radix2 127) by (change 2 with (bpow radix2 1); rewrite <- bpow_plus; apply bpow_le; lia). lra. }
  fold rt in ERR. rewrite RO in ERR. unfold Rdiv in ERR. rewrite Rmult_1_l, (Rabs_pos_eq (/ rt)) in ERR by lra.
  assert (T150 : bpow radix2 (-150) <= / 100 * u * i). { assert (I1 : 1 <= i). { apply (Rmult_le_reg_l sg); [auto|]. rewrite ii, Rmult_1_r. assert (q <= 1) by lra. unfold q in * . nra. } apply Rle_trans with (/ 128 * u * 1); [|assert (/ 128 * u * 1 <= / 128 * u * i) by (apply Rmult_le_compat_l; lra); lra]. apply Rle_trans with (bpow radix2 (-31)); [apply bpow_le; lia|]. change (-31)%Z with (-7 + -24)%Z. rewrite bpow_plus. change (bpow radix2 (-7)) with (/ 128). change (bpow radix2 (-24)) with (/ 16777216). lra. }
  exists (real r). split; [now apply fin_X|]. replace (real r - i) with ((real r - / rt) + (/ rt - i)) by ring. eapply Rle_trans; [apply Rabs_triang|]. replace (/ (q * sg)) with (i * i * i) by (unfold i, q; field; lra). assert (0 < i * i * i) by (repeat apply Rmult_lt_0_compat; auto). fold r in ERR. lra.
Qed.

Lemma weights_float (L : LibM b32) (c t : b32) : Props_Rot.libm_accurate L -> acos_accurate L -> fin c -> fin t -> 0 <= real c <= 1 -> 0 <= real t <= 1 -> 3.96 * u <= 1 - real c * real c ->
  let x := acos (real c) in let rv := fmul (fsin (fmul t (facos c))) (fdiv fone (fsqrt (fsub fone (fmul c c)))) in
  let lv := fsub (fcos (fmul t (facos c))) (fmul c rv) in let s2 := 1 - real c * real c in
  fin rv /\ fin lv /\ 0 < x <= 1.6 /\ cos x = real c /\ sin x * sin x = s2 /\ 0 < sin x <= 1 /\ Rabs (real rv - wgt (real t) x) <= u * / s2 + 15 * u * / sin x /\ Rabs (real lv - (cos (real t * x) - real c * real rv)) <= 11.8 * u /\
  Rabs (real rv) <= 1.3 /\ Rabs (real lv) <= 2.4.
Proof.
  intros HL HA FC FT C T SL x rv lv s2. assert (U : u32 = u) by reflexivity. set (cr := real c) in * . set (tr := real t) in * . destruct (acos_hi cr ltac:(lra)) as [XB XC]. fold x in XB, XC.
  assert (P2 : x <= PI / 2). { destruct (Rle_or_lt x (PI / 2)) as [|D]; auto. exfalso. pose proof pi_gt. assert (cos x < 0); [|lra]. rewrite <- cos_PI2. apply cos_decreasing_1; lra. }
  assert (S2 : sin x * sin x = s2). { pose proof (sin2_cos2 x) as E. unfold Rsqr in E. rewrite XC in E. unfold s2. lra. }
  assert (S0 : 0 <= sin x) by (apply sin_ge_0; pose proof pi_gt; lra). assert (SP : 0 < sin x). { destruct S0 as [|E]; auto. rewrite <- E in S2. unfold s2 in * . lra. } pose proof (SIN_bound x) as SB. assert (X0 : 0 < x). { destruct (proj1 XB) as [|E]; auto. rewrite <- E, sin_0 in SP. lra. }
  set (sg := sin x) in * . set (i := / sg). assert (i0 : 0 < i) by (now apply Rinv_0_lt_compat). assert (ii : sg * i = 1) by (unfold i; field; lra). assert (I1 : 1 <= i) by (unfold i; rewrite <- Rinv_1; apply Rinv_le_contravar; lra).
  pose proof (inv_root c sg FC ltac:(fold cr; lra) SP ltac:(fold cr; exact S2) ltac:(rewrite S2; exact SL)) as HR. cbv zeta in HR. set (r := fdiv fone (fsqrt (fsub fone (fmul c c)))) in * . fold i in HR.
  assert (I2 : / s2 = i * i) by (rewrite <- S2; unfold i; field; lra). assert (I3 : / (sg * sg * sg) = i * i * i) by (unfold i; field; lra). rewrite I3 in HR.
  assert (QI : u * (i * i) <= 0.2526). { assert (E : s2 * (i * i) = 1) by (rewrite <- S2; replace (sg * sg * (i * i)) with (sg * i * (sg * i)) by ring; rewrite ii; ring). assert (3.96 * u * (i * i) <= s2 * (i * i)) by (apply Rmult_le_compat_r; [apply Rmult_le_pos; lra|exact SL]). lra. }
  assert (QI1 : u * i <= / 8000). { apply Rsqr_incr_0_var; [|lra]. unfold Rsqr. replace (u * i * (u * i)) with (u * (u * (i * i))) by ring. apply Rle_trans with (u * 0.2526); [apply Rmult_le_compat_l; lra|lra]. }
  destruct (HA c FC C) as [FA EA]. fold cr x in EA. change (bpow radix2 (-22)) with (/ 4194304) in EA.
  assert (P127 : 16 <= bpow radix2 127) by (change 16 with (bpow radix2 4); apply bpow_le; lia).
  assert (ET : 0 <= eta <= / 1000000 * u) by (split; [apply bpow_ge_0|apply Rle_trans with (bpow radix2 (-45)); [apply bpow_le; lia|]; change (-45)%Z with (-21 + -24)%Z; rewrite bpow_plus; change (bpow radix2 (-21)) with (/ 2097152); change (bpow radix2 (-24)) with (/ 16777216); lra]).
  assert (HT : ap (fmul t (facos c)) (tr * x) (5.7 * u)).
  { assert (A1 : ap (facos c) x (4 * u)) by (exists (real (facos c)); split; [now apply fin_X|lra]). destruct (ap_mul t (facos c) tr x 0 (4 * u) 1.601 (ap_refl t FT) A1) as (z & Z & E).
    - rewrite !Rabs_pos_eq by lra. assert (tr * x <= 1 * 1.6) by (apply Rmult_le_compat; lra). assert (tr * (4 * u) <= 1 * (4 * u)) by (apply Rmult_le_compat_r; lra). lra.
    - lra.
    - exists z. split; [exact Z|]. rewrite (Rabs_pos_eq tr), (Rabs_pos_eq x), U in E by lra. assert (tr * (4 * u) <= 1 * (4 * u)) by (apply Rmult_le_compat_r; lra). lra. }
  destruct (ap_fin _ _ _ HT) as [FTX ETX]. destruct (HL _ FTX) as [[FS ES] [FCs ECs]]. change (bpow radix2 (-23)) with (/ 8388608) in * . set (tau := real (fmul t (facos c))) in * .
  assert (LS : forall a b, Rabs (sin a - sin b) <= Rabs (a - b) /\ Rabs (cos a - cos b) <= Rabs (a - b)) by (intros; split; [apply Props_Rot.sin_lip|apply Props_Rot.cos_lip]).
  destruct (LS tau (tr * x)) as [L1 L2].
  assert (HS : ap (fsin (fmul t (facos c))) (sin (tr * x)) (7.8 * u)). { exists (real (fsin (fmul t (facos c)))). split; [now apply fin_X|]. replace (real (fsin (fmul t (facos c))) - sin (tr * x)) with ((real (fsin (fmul t (facos c))) - sin tau) + (sin tau - sin (tr * x))) by ring. eapply Rle_trans; [apply Rabs_triang|]. lra. }
  assert (HC : ap (fcos (fmul t (facos c))) (cos (tr * x)) (7.8 * u)). { exists (real (fcos (fmul t (facos c)))). split; [now apply fin_X|]. replace (real (fcos (fmul t (facos c))) - cos (tr * x)) with ((real (fcos (fmul t (facos c))) - cos tau) + (cos tau - cos (tr * x))) by ring. eapply Rle_trans; [apply Rabs_triang|]. lra. }
  destruct (sin_t x tr ltac:(lra) T) as [ST1 ST2]. assert (ST3 : sin (tr * x) <= sg) by (apply sin_incr_1; pose proof pi_gt; lra). set (sn := sin (tr * x)) in * .
  assert (WG : wgt tr x = sn * i) by reflexivity. assert (W1 : 0 <= sn * i <= 1). { split; [apply Rmult_le_pos; lra|]. rewrite <- ii. apply Rmult_le_compat_r; lra. }
  set (er := 0.63 * u * (i * i * i) + 3.8 * u * i) in * . assert (E0 : 0 <= er) by (unfold er; assert (0 <= i * i * i) by (repeat apply Rmult_le_pos; lra); lra).
  assert (ERI : er <= 0.16 * i). { unfold er. replace (0.63 * u * (i * i * i)) with (0.63 * (u * (i * i)) * i) by ring. assert (0.63 * (u * (i * i)) * i <= 0.63 * 0.2526 * i) by (apply Rmult_le_compat_r; lra). assert (3.8 * u * i <= 0.0001 * i) by (apply Rmult_le_compat_r; lra). lra. }
  assert (SER : sn * er <= 0.63 * (u * (i * i)) + 3.8 * u). { assert (sn * er <= sg * er) by (apply Rmult_le_compat_r; lra). replace (sg * er) with (0.63 * (u * (i * i)) * (sg * i) + 3.8 * u * (sg * i)) in H by (unfold er; ring). rewrite ii in H. lra. }
  assert (SER0 : 0 <= sn * er) by (apply Rmult_le_pos; lra).
  assert (U78 : 7.8 * u * er <= 1.25 * u * i). { assert (7.8 * u * er <= 7.8 * u * (0.16 * i)) by (apply Rmult_le_compat_l; lra). assert (0 < u * i) by (apply Rmult_lt_0_compat; lra). lra. } assert (UI0 : 0 < u * i) by (apply Rmult_lt_0_compat; lra).
  assert (HRV : ap rv (sn * i) (u * (i * i) + 15 * u * i)).
  { destruct (ap_mul _ r sn i _ _ 1.3 HS HR) as (z & Z & E).
    - rewrite (Rabs_pos_eq sn), (Rabs_pos_eq i) by lra. lra.
    - lra.
    - exists z. split; [exact Z|]. rewrite (Rabs_pos_eq sn), (Rabs_pos_eq i), U in E by lra. assert (u <= u * i) by (rewrite <- (Rmult_1_r u) at 1; apply Rmult_le_compat_l; lra). assert (0 < u * (i * i)) by (repeat apply Rmult_lt_0_compat; lra). lra. }
  destruct (ap_fin _ _ _ HRV) as [FRV ERV]. set (w := real rv) in * . assert (WB : Rabs w <= 1.3). { apply Rabs_le_inv in ERV. apply Rabs_le. lra. }
  assert (HP : ap (fmul c rv) (cr * w) (1.32 * u)). { assert (Rabs (cr * w) <= 1.3). { rewrite Rabs_mult, (Rabs_pos_eq cr) by lra. pose proof (Rabs_pos w). assert (cr * Rabs w <= 1 * Rabs w) by (apply Rmult_le_compat_r; lra). lra. } eapply ap_weak; [apply ap_mul0; auto; fold cr w; lra|]. fold cr w. rewrite U. lra. }
  assert (CB : Rabs (cos (tr * x)) <= 1) by (pose proof (COS_bound (tr * x)); apply Rabs_le; lra).
  assert (TB : Rabs (cos (tr * x) - cr * w) <= 2.3). { eapply Rle_trans; [apply Rabs_triang|]. rewrite Rabs_Ropp, Rabs_mult, (Rabs_pos_eq cr) by lra. pose proof (Rabs_pos w). assert (cr * Rabs w <= 1 * Rabs w) by (apply Rmult_le_compat_r; lra). lra. }
  destruct (ap_sub _ _ _ _ _ _ 2.4 HC HP) as (z & Z & E); [lra|lra|]. apply fin_of_X in Z as [FZ <-]. rewrite U in E. fold lv in FZ, E.
  refine (conj FRV (conj FZ (conj (conj X0 (proj2 XB)) (conj XC (conj S2 (conj (conj SP (proj2 SB)) (conj _ (conj _ (conj WB _))))))))).
  - rewrite I2, WG. fold i. exact ERV.
  - fold w. lra.
  - apply Rabs_le_inv in E, TB. apply Rabs_le. lra.
Qed.

(** ** one component *)
Lemma comp_float (ai bi lv rv sgn : b32) (s A B c t x : R) : fin ai -> fin bi -> fin lv -> fin rv -> fin sgn -> real sgn = s -> s = 1 \/ s = -1 -> Rabs (real ai - A) <= 4 * u -> Rabs (real bi - B) <= 4 * u -> Rabs A <= 1 -> Rabs B <= 1 ->
  0 <= c <= 1 -> 0 <= t <= 1 -> 0 < x <= 1.6 -> cos x = c -> Rabs (real lv - (cos (t * x) - c * real rv)) <= 11.8 * u -> Rabs (real rv) <= 1.3 -> Rabs (real lv) <= 2.4 ->
  let w := real bi - c * (s * real ai) in
  ap (fadd (fmul ai (fmul lv sgn)) (fmul bi rv)) (cos (t * x) * (s * real ai) + real rv * w) (25 * u) /\ Rabs (cos (t * x) * (s * real ai) + wgt t x * w - arc t x (s * A) B) <= 19 * u.
Proof.
  intros FA FB FL FR FS RS SS EA EB HA HB C T X XC EL BR BL w. assert (U : u32 = u) by reflexivity. set (a := real ai) in * . set (b := real bi) in * . set (l := real lv) in * . set (r := real rv) in * .
  assert (P127 : 16 <= bpow radix2 127) by (change 16 with (bpow radix2 4); apply bpow_le; lia).
  assert (ET : 0 <= eta <= / 1000000 * u) by (split; [apply bpow_ge_0|apply Rle_trans with (bpow radix2 (-45)); [apply bpow_le; lia|]; change (-45)%Z with (-21 + -24)%Z; rewrite bpow_plus; change (bpow radix2 (-21)) with (/ 2097152); change (bpow radix2 (-24)) with (/ 16777216); lra]).
  assert (AB : Rabs a <= 1.00001) by (apply Rabs_le_inv in EA, HA; apply Rabs_le; lra). assert (BB : Rabs b <= 1.00001) by (apply Rabs_le_inv in EB, HB; apply Rabs_le; lra). pose proof (Rabs_pos a). pose proof (Rabs_pos b). pose proof (Rabs_pos l). pose proof (Rabs_pos r).
  assert (SA : forall z, Rabs (s * z) = Rabs z) by (intros z; rewrite Rabs_mult; destruct SS as [-> | ->]; rewrite ?Rabs_R1, ?(Rabs_left (-1)) by lra; ring).
  assert (HL : ap (fmul lv sgn) (s * l) (2.41 * u)). { eapply ap_weak; [|instantiate (1 := u32 * Rabs (s * l) + eta); rewrite SA, U; lra]. replace (s * l) with (real lv * real sgn) by (fold l; rewrite RS; ring). apply ap_mul0; auto. fold l. rewrite RS, Rmult_comm, SA. lra. }
  pose proof (SA l) as SL. pose proof (SA a) as SAa.
  assert (M1 : ap (fmul ai (fmul lv sgn)) (a * (s * l)) (4.9 * u)).
  { assert (Q : Rabs a * Rabs (s * l) <= 1.00001 * 2.4) by (rewrite SL; apply Rmult_le_compat; lra). assert (Q2 : Rabs a * (2.41 * u) <= 1.00001 * (2.41 * u)) by (apply Rmult_le_compat_r; lra).
    destruct (ap_mul ai _ a (s * l) 0 _ 2.41 (ap_refl ai FA) HL) as (z & Z & E); [lra|lra|]. exists z. split; [exact Z|]. rewrite U in E. lra. }
  assert (M2 : ap (fmul bi rv) (b * r) (1.4 * u)). { assert (Q : Rabs b * Rabs r <= 1.00001 * 1.3) by (apply Rmult_le_compat; lra). eapply ap_weak; [apply ap_mul0; auto; fold b r; rewrite Rabs_mult; lra|]. fold b r. rewrite Rabs_mult, U. lra. }
  assert (M3 : Rabs (a * (s * l) + b * r) <= 3.71). { eapply Rle_trans; [apply Rabs_triang|]. rewrite !Rabs_mult. assert (Rabs a * (Rabs s * Rabs l) <= 1.00001 * 2.4) by (rewrite <- Rabs_mult, SL; apply Rmult_le_compat; lra). assert (Rabs b * Rabs r <= 1.00001 * 1.3) by (apply Rmult_le_compat; lra). lra. }
  split.
  - destruct (ap_add _ _ _ _ _ _ 3.72 M1 M2) as (z & Z & E); [lra|lra|]. exists z. split; [exact Z|]. rewrite U in E.
    replace (z - (cos (t * x) * (s * a) + r * w)) with ((z - (a * (s * l) + b * r)) + (s * a) * (l - (cos (t * x) - c * r))) by (unfold w; ring). eapply Rle_trans; [apply Rabs_triang|]. rewrite (Rabs_mult (s * a)), SAa.
    assert (Rabs a * Rabs (l - (cos (t * x) - c * r)) <= 1.00001 * (11.8 * u)) by (apply Rmult_le_compat; try lra; apply Rabs_pos). lra.
  - pose proof (sin_low x ltac:(lra)). rewrite arc_wgt by lra. rewrite XC. destruct (wgt_range t x T X) as [W0 W1]. set (g := wgt t x) in * .
    replace (cos (t * x) * (s * a) + g * w - (cos (t * x) * (s * A) + g * (B - c * (s * A)))) with (cos (t * x) * (s * (a - A)) + g * ((b - B) - c * (s * (a - A)))) by (unfold w; ring).
    eapply Rle_trans; [apply Rabs_triang|]. rewrite !Rabs_mult. assert (CB : Rabs (cos (t * x)) <= 1) by (pose proof (COS_bound (t * x)); apply Rabs_le; lra). rewrite <- (Rabs_mult s), SA, (Rabs_pos_eq g) by lra.
    assert (Rabs (b - B - c * (s * (a - A))) <= 8 * u). { eapply Rle_trans; [apply Rabs_triang|]. rewrite Rabs_Ropp, Rabs_mult, SA, (Rabs_pos_eq c) by lra. pose proof (Rabs_pos (a - A)). assert (c * Rabs (a - A) <= 1 * Rabs (a - A)) by (apply Rmult_le_compat_r; lra). lra. }
    assert (Rabs (cos (t * x)) * Rabs (a - A) <= 1 * (4 * u)) by (apply Rmult_le_compat; try lra; apply Rabs_pos). assert (g * Rabs (b - B - c * (s * (a - A))) <= 1.76 * (8 * u)) by (apply Rmult_le_compat; try lra; apply Rabs_pos). lra.
Qed.

(** ** rounded unit quaternions *)
Definition qcomp (k : nat) (q : quat b32) : b32 := nth k [qx q; qy q; qz q] (qw q).
Definition rcomp (k : nat) (q : RQ) : R := nth k [Props_MatX2.r3x (RQuat.qv q); Props_MatX2.r3y (RQuat.qv q); Props_MatX2.r3z (RQuat.qv q)] (RQuat.qs q).
(** the float quaternion q is the unit quaternion Q up to 2^-22 in each component *)
Definition near_q (q : quat b32) (Q : RQ) : Prop := unit_q Q /\ forall k, fin (qcomp k q) /\ Rabs (real (qcomp k q) - rcomp k Q) <= bpow radix2 (-22).
Lemma rcomp_le Q k : unit_q Q -> Rabs (rcomp k Q) <= 1.
Proof.
  intros H. assert (K : forall z, z * z <= 1 -> Rabs z <= 1) by (intros z Z; apply Rabs_le; nra). apply K. destruct Q as [w [x y z]]. unfold RQuat.unit_q, RQuat.qdot, Props_MatX2.dot in H; cbn in H. unfold rcomp; destruct k as [|[|[|[|k]]]]; cbn; nra.
Qed.
Lemma near_dot (BK : Backend b32) a b A B : near_q a A -> near_q b B -> ap (g_get_x (g_dot4 (quaternion_to_vec4 a) (quaternion_to_vec4 b))) (qdot A B) (21 * u).
Proof.
  intros [UA NA] [UB NB]. change (bpow radix2 (-22)) with (/ 4194304) in NA, NB.
  destruct (NA 0%nat) as [A1 A1'], (NA 1%nat) as [A2 A2'], (NA 2%nat) as [A3 A3'], (NA 3%nat) as [A4 A4']. destruct (NB 0%nat) as [B1 B1'], (NB 1%nat) as [B2 B2'], (NB 2%nat) as [B3 B3'], (NB 3%nat) as [B4 B4'].
  pose proof (rcomp_le A 0 UA). pose proof (rcomp_le A 1 UA). pose proof (rcomp_le A 2 UA). pose proof (rcomp_le A 3 UA). pose proof (rcomp_le B 0 UB). pose proof (rcomp_le B 1 UB). pose proof (rcomp_le B 2 UB). pose proof (rcomp_le B 3 UB).
  destruct A as [Aw [Ax Ay Az]], B as [Bw [Bx By_ Bz]]. unfold RQuat.unit_q, RQuat.qdot, Props_MatX2.dot in * ; unfold qcomp, rcomp in * ; cbn in * .
  assert (SM : forall x y z w, w * w + (x * x + y * y + z * z) = 1 -> Rabs x + Rabs y + Rabs z + Rabs w <= 2).
  { intros x y z w E. assert (Q : forall v, Rabs v * Rabs v = v * v) by (intros v; rewrite <- Rabs_mult; apply Rabs_pos_eq; nra). apply Rsqr_incr_0_var; [|lra]. unfold Rsqr. rewrite <- (Q x), <- (Q y), <- (Q z), <- (Q w) in E. pose proof (Rle_0_sqr (Rabs x - Rabs y)). pose proof (Rle_0_sqr (Rabs x - Rabs z)). pose proof (Rle_0_sqr (Rabs x - Rabs w)). pose proof (Rle_0_sqr (Rabs y - Rabs z)). pose proof (Rle_0_sqr (Rabs y - Rabs w)). pose proof (Rle_0_sqr (Rabs z - Rabs w)). unfold Rsqr in * . lra. }
  pose proof (SM _ _ _ _ UA) as SA. pose proof (SM _ _ _ _ UB) as SB.
  set (va := quaternion_to_vec4 a). set (vb := quaternion_to_vec4 b). assert (FA : finite4 va) by (exact (conj A1 (conj A2 (conj A3 A4)))). assert (FB : finite4 vb) by (exact (conj B1 (conj B2 (conj B3 B4)))).
  assert (TM : forall x y X Y, Rabs (x - X) <= / 4194304 -> Rabs (y - Y) <= / 4194304 -> Rabs X <= 1 -> Rabs Y <= 1 -> Rabs (x * y - X * Y) <= 4 * u * (Rabs X + Rabs Y) + 16 * u * u).
  { intros x y X Y HX HY BX BY. replace (x * y - X * Y) with ((x - X) * Y + X * (y - Y) + (x - X) * (y - Y)) by ring. eapply Rle_trans; [apply Rabs_triang|]. eapply Rle_trans; [apply Rplus_le_compat_r, Rabs_triang|]. rewrite !Rabs_mult. pose proof (Rabs_pos (x - X)). pose proof (Rabs_pos (y - Y)). pose proof (Rabs_pos X). pose proof (Rabs_pos Y).
    assert (Rabs (x - X) * Rabs Y <= 4 * u * Rabs Y) by (apply Rmult_le_compat_r; lra). assert (Rabs X * Rabs (y - Y) <= Rabs X * (4 * u)) by (apply Rmult_le_compat_l; lra). assert (Rabs (x - X) * Rabs (y - Y) <= 4 * u * (4 * u)) by (apply Rmult_le_compat; lra). lra. }
  pose proof (TM _ _ _ _ A1' B1' ltac:(auto) ltac:(auto)) as T1. pose proof (TM _ _ _ _ A2' B2' ltac:(auto) ltac:(auto)) as T2. pose proof (TM _ _ _ _ A3' B3' ltac:(auto) ltac:(auto)) as T3. pose proof (TM _ _ _ _ A4' B4' ltac:(auto) ltac:(auto)) as T4.
  assert (AM : forall X Y, Rabs (X * Y) <= (X * X + Y * Y) / 2). { intros X Y. apply Rabs_le. pose proof (Rle_0_sqr (X - Y)). pose proof (Rle_0_sqr (X + Y)). unfold Rsqr in * . lra. }
  assert (AD : adot4 va vb <= 1.0001). { unfold adot4, adot3, adot2. cbn [va vb quaternion_to_vec4 g_init vx vy vz vw]. pose proof (AM Ax Bx). pose proof (AM Ay By_). pose proof (AM Az Bz). pose proof (AM Aw Bw).
    assert (RT : forall x X e, Rabs (x - X) <= e -> Rabs x <= Rabs X + e) by (intros x X e E; pose proof (Rabs_triang_inv x X); lra). pose proof (RT _ _ _ T1). pose proof (RT _ _ _ T2). pose proof (RT _ _ _ T3). pose proof (RT _ _ _ T4). pose proof (Rabs_pos Ax). lra. }
  destruct (C70_dot4 BK va vb FA FB) as [FD ED]. { apply Rle_trans with 2; [lra|]. change 2 with (bpow radix2 1). apply bpow_le. lia. }
  change (vec4_dot va vb) with (g_get_x (g_dot4 va vb)) in * . exists (real (g_get_x (g_dot4 va vb))). split; [now apply fin_X|].
  unfold tol in ED. change (bpow radix2 (-22)) with (/ 4194304) in ED. assert (bpow radix2 (-147) <= / 1000 * u). { apply Rle_trans with (bpow radix2 (-34)); [apply bpow_le; lia|]. change (-34)%Z with (-10 + -24)%Z. rewrite bpow_plus. change (bpow radix2 (-10)) with (/ 1024). change (bpow radix2 (-24)) with (/ 16777216). lra. }
  unfold dot4, dot3, dot2 in ED. cbn [va vb quaternion_to_vec4 g_init vx vy vz vw] in ED. set (z := real _) in ED |- * .
  apply Rabs_le_inv in ED, T1, T2, T3, T4. apply Rabs_le. lra.
Qed.

(** ** the branches of the code *)
Lemma clamp_float (x : b32) d e : ap x d e -> -1 <= d <= 1 -> ap (cCLAMP x fm1 fone) d e /\ -1 <= real (cCLAMP x fm1 fone) <= 1.
Proof.
  intros H D. destruct (ap_fin _ _ _ H) as [FX EX]. apply Rabs_le_inv in EX. destruct (fin_of_X _ _ (fone_X : B2X (fone : b32) = Fin 1)) as [FO RO]. destruct (fin_of_X _ _ (fm1_X : B2X (fm1 : b32) = Fin (-1))) as [FM RM].
  unfold cCLAMP. destruct (flt x fm1) eqn:E1; [apply Props_Dec.flt_R in E1; auto; rewrite RM in E1|apply Props_Dec.flt_Rf in E1; auto; rewrite RM in E1; destruct (flt fone x) eqn:E2; [apply Props_Dec.flt_R in E2; auto; rewrite RO in E2|apply Props_Dec.flt_Rf in E2; auto; rewrite RO in E2]].
  - split; [exists (-1); split; [apply fm1_X|apply Rabs_le; lra]|rewrite RM; lra].
  - split; [exists 1; split; [apply fone_X|apply Rabs_le; lra]|rewrite RO; lra].
  - split; [exact H|lra].
Qed.
Lemma approx_one (c : b32) : fin c -> 0 <= real c <= 1 -> (approx_val c fone = true -> 1 - 2.1 * u <= real c) /\ (approx_val c fone = false -> 3.96 * u <= 1 - real c * real c).
Proof.
  intros F C. destruct (fin_of_X _ _ (fone_X : B2X (fone : b32) = Fin 1)) as [FO RO]. rewrite Props_Eq.approx_val_abs by auto. assert (P : 2 <= bpow radix2 127) by (change 2 with (bpow radix2 1); apply bpow_le; lia).
  destruct (Props_RaySph.sub_w c fone 1 F FO) as [FS ES]; [rewrite RO; apply Rabs_le; lra|lra|]. rewrite RO in ES. set (z := real (fsub c fone)) in * . rewrite (Rabs_left1 (real c - 1)) in ES by lra. apply Rabs_le_inv in ES.
  assert (FZ : fin (fabs (fsub c fone)) /\ real (fabs (fsub c fone)) = Rabs z) by (apply fin_of_X; now rewrite fabs_X, (fin_X _ FS)). destruct FZ as [FZ RZ]. destruct (fin_of_X _ _ feps_X) as [FE RE].
  split; intros H.
  - apply Props_Dec.flt_R in H; auto. rewrite RZ, RE in H. apply Rabs_def2 in H. lra.
  - apply Props_Dec.flt_Rf in H; auto. rewrite RZ, RE in H. destruct (Rle_or_lt z 0) as [Z|Z]; [rewrite Rabs_left1 in H by lra|rewrite Rabs_pos_eq in H by lra]; [|lra].
    assert (1.99999 * u <= 1 - real c) by lra. destruct (Rle_or_lt (real c) 0.99) as [K|K]; [assert (real c * real c <= 0.99 * 0.99) by (apply Rmult_le_compat; lra); lra|]. assert (1.99999 * u * 1.99 <= (1 - real c) * (1 + real c)) by (apply Rmult_le_compat; lra). lra.
Qed.
Lemma slerp_cases (BK : Backend b32) (L : LibM b32) (a b : quat b32) (A B : RQ) (t : b32) : Props_Rot.libm_accurate L -> acos_accurate L -> near_q a A -> near_q b B -> fin t -> 0 <= real t <= 1 ->
  let d := qdot A B in let r := quaternion_slerp a b t in
  -1 <= d <= 1 /\ exists s c, (s = 1 \/ s = -1) /\ 0 <= c <= 1 /\ Rabs (c - s * d) <= 21 * u /\
  ((1 - 2.1 * u <= c /\ r = a) \/
   (3.96 * u <= 1 - c * c /\ let x := acos c in 0 < x <= 1.6 /\ cos x = c /\ sin x * sin x = 1 - c * c /\ 0 < sin x <= 1 /\ exists w, Rabs w <= 1.3 /\ Rabs (w - wgt (real t) x) <= u * / (1 - c * c) + 15 * u * / sin x /\
    forall k, let y := real (qcomp k b) - c * (s * real (qcomp k a)) in ap (qcomp k r) (cos (real t * x) * (s * real (qcomp k a)) + w * y) (25 * u) /\
      Rabs (cos (real t * x) * (s * real (qcomp k a)) + wgt (real t) x * y - arc (real t) x (s * rcomp k A) (rcomp k B)) <= 19 * u)).
Proof.
  intros HL HA NA NB FT T d r. pose proof NA as [UA NA']. pose proof NB as [UB NB'].
  assert (D : -1 <= d <= 1). { clear - UA UB. unfold d. destruct A as [Aw [Ax Ay Az]], B as [Bw [Bx By_ Bz]]. unfold RQuat.unit_q, RQuat.qdot, Props_MatX2.dot in * ; cbn in * . pose proof (Rle_0_sqr (Aw - Bw)). pose proof (Rle_0_sqr (Ax - Bx)). pose proof (Rle_0_sqr (Ay - By_)). pose proof (Rle_0_sqr (Az - Bz)). pose proof (Rle_0_sqr (Aw + Bw)). pose proof (Rle_0_sqr (Ax + Bx)). pose proof (Rle_0_sqr (Ay + By_)). pose proof (Rle_0_sqr (Az + Bz)). unfold Rsqr in * . lra. }
  split; [exact D|]. pose proof (near_dot BK a b A B NA NB) as ND. fold d in ND. destruct (clamp_float _ _ _ ND D) as [HC RC]. unfold r, quaternion_slerp. set (cl := cCLAMP _ _ _) in * . destruct (ap_fin _ _ _ HC) as [FC EC]. apply Rabs_le_inv in EC.
  destruct (fin_of_X _ _ (fone_X : B2X (fone : b32) = Fin 1)) as [FO RO]. destruct (fin_of_X _ _ (fm1_X : B2X (fm1 : b32) = Fin (-1))) as [FM RM]. assert (FZ : fin (fzero : b32)) by reflexivity. assert (RZ : real (fzero : b32) = 0) by reflexivity.
  assert (FN : fin (fneg cl) /\ real (fneg cl) = - real cl) by (apply fin_of_X; now rewrite fneg_X, (fin_X _ FC)). destruct FN as [FN RN].
  assert (G : exists (sg c : b32) (s : R), (if (cl <. fzero)%f then (fm1, fneg cl) else (fone, cl)) = (sg, c) /\ fin sg /\ fin c /\ real sg = s /\ (s = 1 \/ s = -1) /\ 0 <= real c <= 1 /\ Rabs (real c - s * d) <= 21 * u).
  { destruct (flt cl fzero) eqn:E; [apply Props_Dec.flt_R in E; auto|apply Props_Dec.flt_Rf in E; auto]; rewrite RZ in E.
    - exists fm1, (fneg cl), (-1). rewrite RN. refine (conj eq_refl (conj FM (conj FN (conj RM (conj (or_intror eq_refl) (conj _ _)))))); [lra|apply Rabs_le; lra].
    - exists fone, cl, 1. refine (conj eq_refl (conj FO (conj FC (conj RO (conj (or_introl eq_refl) (conj _ _)))))); [lra|apply Rabs_le; lra]. }
  destruct G as (sg & c & s & -> & FSg & Fc & RS & SS & C & CD). cbv beta iota zeta. exists s, (real c). refine (conj SS (conj C (conj CD _))). destruct (approx_one c Fc C) as [AT AF]. destruct (approx_val c fone) eqn:E; [left; split; [now apply AT|reflexivity]|right]. specialize (AF eq_refl). split; [exact AF|].
  destruct (weights_float L c t HL HA Fc FT C T AF) as (FR & FLv & XB & XC & S2 & SB & EW & EL & BR & BL). set (x := acos (real c)) in * . refine (conj XB (conj XC (conj S2 (conj SB _)))).
  set (rv := fmul (fsin (fmul t (facos c))) _) in * . set (lv := fsub _ (fmul c rv)) in * . exists (real rv). refine (conj BR (conj EW _)). intros k.
  destruct (NA' k) as [FA EA]. destruct (NB' k) as [FB EB]. change (bpow radix2 (-22)) with (/ 4194304) in EA, EB.
  assert (ER : qcomp k (quaternion_init_from_simd4f (g_add (g_mul (quaternion_to_vec4 a) (g_splat (fmul lv sg))) (g_mul (quaternion_to_vec4 b) (g_splat rv)))) = fadd (fmul (qcomp k a) (fmul lv sg)) (fmul (qcomp k b) rv)) by (unfold qcomp; destruct k as [|[|[|[|k]]]]; reflexivity).
  rewrite ER. apply (comp_float (qcomp k a) (qcomp k b) lv rv sg s); auto; try lra; apply rcomp_le; auto.
Qed.
Lemma off_axis A B k : unit_q A -> unit_q B -> (rcomp k B - qdot A B * rcomp k A) * (rcomp k B - qdot A B * rcomp k A) <= 1 - qdot A B * qdot A B.
Proof.
  intros UA UB. set (d := qdot A B). assert (E : forall e f g h, e * e + f * f + g * g + h * h = 1 - d * d -> (forall z, In z [e; f; g; h] -> z * z <= 1 - d * d)).
  { intros e f g h S z Z. pose proof (Rle_0_sqr e). pose proof (Rle_0_sqr f). pose proof (Rle_0_sqr g). pose proof (Rle_0_sqr h). unfold Rsqr in * . cbn in Z. destruct Z as [<-|[<-|[<-|[<-|[]]]]]; lra. }
  apply (E (rcomp 0 B - d * rcomp 0 A) (rcomp 1 B - d * rcomp 1 A) (rcomp 2 B - d * rcomp 2 A) (rcomp 3 B - d * rcomp 3 A)).
  - transitivity (qdot B B - 2 * d * qdot A B + d * d * qdot A A); [destruct A as [Aw [Ax Ay Az]], B as [Bw [Bx By_ Bz]]; unfold rcomp, RQuat.qdot, Props_MatX2.dot; cbn; ring|]. unfold RQuat.unit_q in * . rewrite UA, UB. fold d. ring.
  - destruct k as [|[|[|k]]]; [now left|right; now left|right; right; now left|right; right; right; left; destruct k; reflexivity].
Qed.
(** ** C102 *)
(** spherical interpolation is right up to rounding, from the start point or its opposite, whichever is nearer to the end *)
Theorem C102_slerp : forall (BK : Backend b32) (L : LibM b32) (a b : quat b32) (A B : RQ) (t : b32), Props_Rot.libm_accurate L -> acos_accurate L -> near_q a A -> near_q b B -> fin t -> 0 <= real t <= 1 ->
  let d := qdot A B in let r := quaternion_slerp a b t in d * d <= 1 - bpow radix2 (-16) ->
  exists s, (s = 1 \/ s = -1) /\ - bpow radix2 (-19) <= s * d /\ let th := acos (s * d) in 0 < sin th /\
  forall k, fin (qcomp k r) /\ Rabs (real (qcomp k r) - arc (real t) th (s * rcomp k A) (rcomp k B)) <= bpow radix2 (-16) + bpow radix2 (-22) / sin th.
Proof.
  intros BK L a b A B t HL HA NA NB FT T d r HD. change (bpow radix2 (-16)) with (/ 65536) in * . change (bpow radix2 (-19)) with (/ 524288) in * . change (bpow radix2 (-22)) with (/ 4194304) in * .
  destruct (slerp_cases BK L a b A B t HL HA NA NB FT T) as [D (s & c & SS & C & CD & CASES)]. fold d in D, CD. fold r in CASES. pose proof NA as [UA NA']. pose proof NB as [UB NB']. change (bpow radix2 (-22)) with (/ 4194304) in NA', NB'.
  assert (SD : s * d * (s * d) = d * d) by (destruct SS as [-> | ->]; ring). assert (SD1 : -1 <= s * d <= 1) by (destruct SS as [-> | ->]; lra). apply Rabs_le_inv in CD.
  exists s. refine (conj SS _). assert (SDL : - / 524288 <= s * d) by lra. refine (conj SDL _). destruct (acos_hi (s * d) ltac:(lra)) as [TB TC]. set (th := acos (s * d)) in * .
  assert (G2 : sin th * sin th = 1 - d * d). { pose proof (sin2_cos2 th) as E. unfold Rsqr in E. rewrite TC, SD in E. lra. } assert (G0 : 0 <= sin th) by (apply sin_ge_0; pose proof pi_gt; lra). set (g := sin th) in * .
  assert (GL : / 256 <= g). { apply Rsqr_incr_0_var; [|auto]. unfold Rsqr. rewrite G2. lra. } cbv zeta. fold g. assert (GP : 0 < g) by lra. refine (conj GP _). assert (TH0 : 0 < th). { destruct (proj1 TB) as [|E]; auto. exfalso. unfold g in GL. rewrite <- E, sin_0 in GL. lra. }
  assert (CQ : Rabs (c * c - d * d) <= 42.1 * u). { rewrite <- SD. replace (c * c - s * d * (s * d)) with ((c - s * d) * (c + s * d)) by ring. rewrite Rabs_mult. apply Rle_trans with (21 * u * 2); [apply Rmult_le_compat; try apply Rabs_pos; apply Rabs_le; lra|lra]. } apply Rabs_le_inv in CQ.
  assert (LB : 0.83 * (g * g) <= 1 - c * c) by (rewrite G2; lra).
  destruct CASES as [[C1 _]|(C2 & XB & XC & S2 & SB & w & WB & EW & K)].
  { exfalso. assert ((1 - 2.1 * u) * (1 - 2.1 * u) <= c * c) by (apply Rmult_le_compat; lra). lra. }
  set (x := acos c) in * . intros k. destruct (K k) as [K1 K2]. set (y := real (qcomp k b) - c * (s * real (qcomp k a))) in * . destruct (ap_fin _ _ _ K1) as [FR ER]. split; [exact FR|].
  destruct (NA' k) as [_ EA]. destruct (NB' k) as [_ EB]. pose proof (rcomp_le A k UA) as BA. pose proof (rcomp_le B k UB) as BB.
  assert (SA : forall z, Rabs (s * z) = Rabs z) by (intros z; rewrite Rabs_mult; destruct SS as [-> | ->]; rewrite ?Rabs_R1, ?(Rabs_left (-1)) by lra; ring).
  assert (OA : Rabs (rcomp k B - d * rcomp k A) <= g). { apply Rsqr_incr_0_var; [|lra]. unfold Rsqr. rewrite <- Rabs_mult, Rabs_pos_eq by (apply Rle_0_sqr). rewrite G2. apply off_axis; auto. }
  assert (YB : Rabs y <= g + 29.1 * u).
  { assert (SSq : s * s = 1) by (destruct SS as [-> | ->]; ring). replace y with ((real (qcomp k b) - rcomp k B) - c * (s * (real (qcomp k a) - rcomp k A)) + (rcomp k B - d * rcomp k A) - (c - s * d) * (s * rcomp k A)) by (unfold y; transitivity (real (qcomp k b) - c * (s * real (qcomp k a)) + (s * s - 1) * d * rcomp k A); [ring|rewrite SSq; ring]).
    eapply Rle_trans; [apply Rabs_triang|]. eapply Rle_trans; [apply Rplus_le_compat_r, Rabs_triang|]. eapply Rle_trans; [apply Rplus_le_compat_r, Rplus_le_compat_r, Rabs_triang|]. rewrite !Rabs_Ropp, (Rabs_mult c), (Rabs_mult (c - s * d)), !SA, (Rabs_pos_eq c) by lra.
    assert (c * Rabs (real (qcomp k a) - rcomp k A) <= 1 * (4 * u)) by (apply Rmult_le_compat; try lra; apply Rabs_pos). assert (Rabs (c - s * d) * Rabs (rcomp k A) <= 21 * u * 1) by (apply Rmult_le_compat; try apply Rabs_pos; auto; apply Rabs_le; lra). lra. }
  assert (YB' : Rabs y <= 1.001 * g) by lra. pose proof (Rabs_pos y) as Y0. set (i := / g). assert (i0 : 0 < i) by (apply Rinv_0_lt_compat; lra). assert (ii : g * i = 1) by (unfold i; field; lra).
  assert (I2 : / (1 - c * c) <= 1.21 * (i * i)). { apply Rle_trans with (/ (0.83 * (g * g))); [apply Rinv_le_contravar; [|exact LB]; assert (0 < g * g) by (now apply Rmult_lt_0_compat); lra|]. replace 0.83 with (83 / 100) by lra; replace (/ (83 / 100 * (g * g))) with (100 / 83 * (i * i)) by (unfold i; field; lra). assert (0 < i * i) by (now apply Rmult_lt_0_compat). lra. }
  assert (SG : 0.91 * g <= sin x). { apply Rsqr_incr_0_var; [|lra]. unfold Rsqr. rewrite S2. replace (0.91 * g * (0.91 * g)) with (0.8281 * (g * g)) by lra. assert (0 <= g * g) by (apply Rmult_le_pos; lra). lra. }
  assert (I1 : / sin x <= 1.1 * i). { apply Rle_trans with (/ (0.91 * g)); [apply Rinv_le_contravar; lra|]. replace 0.91 with (91 / 100) by lra; replace (/ (91 / 100 * g)) with (100 / 91 * i) by (unfold i; field; lra). lra. }
  assert (WY : Rabs ((w - wgt (real t) x) * y) <= 1.3 * u * i + 16.6 * u).
  { rewrite Rabs_mult. assert (Rabs (w - wgt (real t) x) <= 1.21 * u * (i * i) + 16.5 * u * i) by lra. apply Rle_trans with ((1.21 * u * (i * i) + 16.5 * u * i) * (1.001 * g)); [apply Rmult_le_compat; try lra; apply Rabs_pos|]. replace ((1.21 * u * (i * i) + 16.5 * u * i) * (1.001 * g)) with (1.21 * 1.001 * u * i * (g * i) + 16.5 * 1.001 * u * (g * i)) by ring. rewrite ii. assert (0 < u * i) by (apply Rmult_lt_0_compat; lra). lra. }
  assert (AC : Rabs (arc (real t) x (s * rcomp k A) (rcomp k B) - arc (real t) th (s * rcomp k A) (rcomp k B)) <= 8 * (21 * u)). { apply arc_close; auto; try lra. - now rewrite SA. - rewrite XC, TC. apply Rabs_le. lra. }
  replace (real (qcomp k r) - arc (real t) th (s * rcomp k A) (rcomp k B)) with ((real (qcomp k r) - (cos (real t * x) * (s * real (qcomp k a)) + w * y)) + ((w - wgt (real t) x) * y) + (cos (real t * x) * (s * real (qcomp k a)) + wgt (real t) x * y - arc (real t) x (s * rcomp k A) (rcomp k B)) + (arc (real t) x (s * rcomp k A) (rcomp k B) - arc (real t) th (s * rcomp k A) (rcomp k B))) by ring.
  eapply Rle_trans; [apply Rabs_triang|]. eapply Rle_trans; [apply Rplus_le_compat_r, Rabs_triang|]. eapply Rle_trans; [apply Rplus_le_compat_r, Rplus_le_compat_r, Rabs_triang|]. unfold Rdiv. fold i. assert (0 < u * i) by (apply Rmult_lt_0_compat; lra). lra.
Qed.
(** quaternions that are nearly the same turn: the result is nearly that turn *)
Theorem C102_slerp_near : forall (BK : Backend b32) (L : LibM b32) (a b : quat b32) (A B : RQ) (t : b32), Props_Rot.libm_accurate L -> acos_accurate L -> near_q a A -> near_q b B -> fin t -> 0 <= real t <= 1 ->
  let d := qdot A B in let r := quaternion_slerp a b t in 1 - bpow radix2 (-16) <= d * d ->
  exists s, (s = 1 \/ s = -1) /\ forall k, fin (qcomp k r) /\ Rabs (real (qcomp k r) - s * rcomp k A) <= bpow radix2 (-7).
Proof.
  intros BK L a b A B t HL HA NA NB FT T d r HD. change (bpow radix2 (-16)) with (/ 65536) in * . change (bpow radix2 (-7)) with (/ 128).
  destruct (slerp_cases BK L a b A B t HL HA NA NB FT T) as [D (s & c & SS & C & CD & CASES)]. fold d in D, CD. fold r in CASES. pose proof NA as [UA NA']. pose proof NB as [UB NB']. change (bpow radix2 (-22)) with (/ 4194304) in NA', NB'.
  destruct CASES as [[_ ->]|(C2 & XB & XC & S2 & SB & w & WB & EW & K)].
  { exists 1. split; [now left|]. intros k. destruct (NA' k) as [F E]. split; [exact F|]. rewrite Rmult_1_l. lra. }
  exists s. split; [exact SS|]. set (x := acos c) in * . intros k. destruct (K k) as [K1 _]. set (y := real (qcomp k b) - c * (s * real (qcomp k a))) in * . destruct (ap_fin _ _ _ K1) as [FR ER]. split; [exact FR|].
  destruct (NA' k) as [_ EA]. destruct (NB' k) as [_ EB]. pose proof (rcomp_le A k UA) as BA. apply Rabs_le_inv in CD.
  assert (SA : forall z, Rabs (s * z) = Rabs z) by (intros z; rewrite Rabs_mult; destruct SS as [-> | ->]; rewrite ?Rabs_R1, ?(Rabs_left (-1)) by lra; ring).
  assert (OA : Rabs (rcomp k B - d * rcomp k A) <= / 256). { apply Rsqr_incr_0_var; [|lra]. unfold Rsqr. rewrite <- Rabs_mult, Rabs_pos_eq by (apply Rle_0_sqr). pose proof (off_axis A B k UA UB) as Q. fold d in Q. lra. }
  assert (YB : Rabs y <= / 256 + 29.1 * u).
  { assert (SSq : s * s = 1) by (destruct SS as [-> | ->]; ring). replace y with ((real (qcomp k b) - rcomp k B) - c * (s * (real (qcomp k a) - rcomp k A)) + (rcomp k B - d * rcomp k A) - (c - s * d) * (s * rcomp k A)) by (unfold y; transitivity (real (qcomp k b) - c * (s * real (qcomp k a)) + (s * s - 1) * d * rcomp k A); [ring|rewrite SSq; ring]).
    eapply Rle_trans; [apply Rabs_triang|]. eapply Rle_trans; [apply Rplus_le_compat_r, Rabs_triang|]. eapply Rle_trans; [apply Rplus_le_compat_r, Rplus_le_compat_r, Rabs_triang|]. rewrite !Rabs_Ropp, (Rabs_mult c), (Rabs_mult (c - s * d)), !SA, (Rabs_pos_eq c) by lra.
    assert (c * Rabs (real (qcomp k a) - rcomp k A) <= 1 * (4 * u)) by (apply Rmult_le_compat; try lra; apply Rabs_pos). assert (Rabs (c - s * d) * Rabs (rcomp k A) <= 21 * u * 1) by (apply Rmult_le_compat; try apply Rabs_pos; auto; apply Rabs_le; lra). lra. }
  assert (SD : s * d * (s * d) = d * d) by (destruct SS as [-> | ->]; ring). assert (DS : 1 - / 65536 <= s * d). { destruct (Rle_or_lt (1 - / 65536) (s * d)) as [|N]; auto. exfalso. assert (s * d <= 1) by (destruct SS as [-> | ->]; lra). assert (-21 * u <= s * d) by lra. destruct (Rle_or_lt 0 (s * d)); [assert (s * d * (s * d) <= (1 - / 65536) * 1) by (apply Rmult_le_compat; lra)|assert (- (s * d) * - (s * d) <= 21 * u * (21 * u)) by (apply Rmult_le_compat; lra)]; nra. }
  pose proof (cos_lip (real t) x 0 T ltac:(lra) ltac:(lra)) as CL. rewrite Rmult_0_r, cos_0, XC in CL. set (co := cos (real t * x)) in * .
  replace (real (qcomp k r) - s * rcomp k A) with ((real (qcomp k r) - (co * (s * real (qcomp k a)) + w * y)) + w * y + co * (s * (real (qcomp k a) - rcomp k A)) + (co - 1) * (s * rcomp k A)) by ring.
  eapply Rle_trans; [apply Rabs_triang|]. eapply Rle_trans; [apply Rplus_le_compat_r, Rabs_triang|]. eapply Rle_trans; [apply Rplus_le_compat_r, Rplus_le_compat_r, Rabs_triang|]. rewrite (Rabs_mult w), (Rabs_mult co), (Rabs_mult (co - 1)), !SA.
  assert (Rabs w * Rabs y <= 1.3 * (/ 256 + 29.1 * u)) by (apply Rmult_le_compat; auto; apply Rabs_pos). pose proof (COS_bound (real t * x)) as CB. fold co in CB.
  assert (Rabs co * Rabs (real (qcomp k a) - rcomp k A) <= 1 * (4 * u)) by (apply Rmult_le_compat; try apply Rabs_pos; [apply Rabs_le; lra|lra]). assert (Rabs (co - 1) * Rabs (rcomp k A) <= / 10000 * 1) by (apply Rmult_le_compat; try apply Rabs_pos; auto; apply Rabs_le; lra). lra.
Qed.

(** the points of the great arc are unit quaternions, so the result has length 1 up to rounding *)
Lemma arc_norm t th A B s : (s = 1 \/ s = -1) -> unit_q A -> unit_q B -> cos th = s * qdot A B -> sin th <> 0 -> let v k := arc t th (s * rcomp k A) (rcomp k B) in v 0%nat * v 0%nat + v 1%nat * v 1%nat + v 2%nat * v 2%nat + v 3%nat * v 3%nat = 1.
Proof.
  intros SS UA UB TC N v. unfold v, arc. set (p := (1 - t) * th). set (q := t * th). assert (T : th = p + q) by (unfold p, q; ring).
  assert (SSq : s * s = 1) by (destruct SS as [-> | ->]; ring).
  assert (E : sin p * sin p + sin q * sin q + 2 * sin p * sin q * cos th = sin th * sin th).
  { rewrite T, sin_plus, cos_plus. pose proof (sin2_cos2 p) as P. pose proof (sin2_cos2 q) as Q. unfold Rsqr in P, Q.
    transitivity (sin p * sin p * (1 - sin q * sin q) + sin q * sin q * (1 - sin p * sin p) + 2 * sin p * sin q * cos p * cos q); [ring|]. replace (1 - sin q * sin q) with (cos q * cos q) by lra. replace (1 - sin p * sin p) with (cos p * cos p) by lra. ring. }
  transitivity ((sin p * sin p * (s * s) * qdot A A + sin q * sin q * qdot B B + 2 * sin p * sin q * (s * qdot A B)) / (sin th * sin th)).
  - destruct A as [Aw [Ax Ay Az]], B as [Bw [Bx By_ Bz]]; unfold rcomp, RQuat.qdot, Props_MatX2.dot; cbn; field; exact N.
  - unfold RQuat.unit_q in * . rewrite UA, UB, SSq, <- TC, !Rmult_1_r, E. field. exact N.
Qed.
Theorem C102_slerp_unit : forall (BK : Backend b32) (L : LibM b32) (a b : quat b32) (A B : RQ) (t : b32), Props_Rot.libm_accurate L -> acos_accurate L -> near_q a A -> near_q b B -> fin t -> 0 <= real t <= 1 ->
  let d := qdot A B in let r := quaternion_slerp a b t in let len2 := real (qx r) * real (qx r) + real (qy r) * real (qy r) + real (qz r) * real (qz r) + real (qw r) * real (qw r) in
  (d * d <= 1 - bpow radix2 (-16) -> Rabs (len2 - 1) <= bpow radix2 (-11)) /\ (d * d <= / 2 -> Rabs (len2 - 1) <= bpow radix2 (-13)).
Proof.
  intros BK L a b A B t HL HA NA NB FT T d r len2. pose proof NA as [UA NA']. pose proof NB as [UB NB'].
  assert (G : d * d <= 1 - bpow radix2 (-16) -> exists g, 0 < g /\ g * g = 1 - d * d /\ let e := / 65536 + / 4194304 / g in Rabs (len2 - 1) <= e * (4 + 4 * e)).
  { intros HD. destruct (C102_slerp BK L a b A B t HL HA NA NB FT T HD) as (s & SS & SL & G0 & K). fold d in SL, G0, K. fold r in K. set (th := acos (s * d)) in * . change (bpow radix2 (-16)) with (/ 65536) in * . change (bpow radix2 (-22)) with (/ 4194304) in * .
    assert (SD : s * d * (s * d) = d * d) by (destruct SS as [-> | ->]; ring). assert (TC : cos th = s * d). { unfold th. apply cos_acos. split; nra. }
    exists (sin th). refine (conj G0 (conj _ _)). { pose proof (sin2_cos2 th) as E. unfold Rsqr in E. rewrite TC, SD in E. lra. }
    cbv zeta. set (e := / 65536 + / 4194304 / sin th) in * . assert (E0 : 0 <= e). { unfold e. assert (0 < / sin th) by (now apply Rinv_0_lt_compat). unfold Rdiv. lra. }
    pose proof (arc_norm (real t) th A B s SS UA UB TC ltac:(lra)) as N. cbv beta zeta in N. pose proof (proj2 (K 0%nat)) as K0. pose proof (proj2 (K 1%nat)) as K1. pose proof (proj2 (K 2%nat)) as K2. pose proof (proj2 (K 3%nat)) as K3. clear K.
    set (v0 := arc (real t) th (s * rcomp 0 A) _) in * . set (v1 := arc (real t) th (s * rcomp 1 A) _) in * . set (v2 := arc (real t) th (s * rcomp 2 A) _) in * . set (v3 := arc (real t) th (s * rcomp 3 A) _) in * .
    unfold len2. cbn [qcomp nth] in K0, K1, K2, K3. set (r0 := real (qx r)) in * . set (r1 := real (qy r)) in * . set (r2 := real (qz r)) in * . set (r3 := real (qw r)) in * .
    assert (Q : forall r v, Rabs (r - v) <= e -> Rabs (r * r - v * v) <= e * (2 * Rabs v + e)). { intros z w H. replace (z * z - w * w) with ((z - w) * (2 * w + (z - w))) by ring. rewrite Rabs_mult. apply Rmult_le_compat; try apply Rabs_pos; auto. eapply Rle_trans; [apply Rabs_triang|]. rewrite Rabs_mult, (Rabs_pos_eq 2) by lra. lra. }
    apply Q in K0, K1, K2, K3. assert (SV : Rabs v0 + Rabs v1 + Rabs v2 + Rabs v3 <= 2).
    { assert (A2 : forall z, Rabs z * Rabs z = z * z) by (intros z; rewrite <- Rabs_mult; apply Rabs_pos_eq, Rle_0_sqr). rewrite <- (A2 v0), <- (A2 v1), <- (A2 v2), <- (A2 v3) in N. pose proof (Rle_0_sqr (Rabs v0 - /2)). pose proof (Rle_0_sqr (Rabs v1 - /2)). pose proof (Rle_0_sqr (Rabs v2 - /2)). pose proof (Rle_0_sqr (Rabs v3 - /2)). unfold Rsqr in * . lra. }
    replace (r0 * r0 + r1 * r1 + r2 * r2 + r3 * r3 - 1) with ((r0 * r0 - v0 * v0) + (r1 * r1 - v1 * v1) + (r2 * r2 - v2 * v2) + (r3 * r3 - v3 * v3)) by lra.
    eapply Rle_trans; [apply Rabs_triang|]. eapply Rle_trans; [apply Rplus_le_compat_r, Rabs_triang|]. eapply Rle_trans; [apply Rplus_le_compat_r, Rplus_le_compat_r, Rabs_triang|].
    apply Rle_trans with (e * (2 * (Rabs v0 + Rabs v1 + Rabs v2 + Rabs v3) + 4 * e)); [lra|apply Rmult_le_compat_l; lra]. }
  change (bpow radix2 (-16)) with (/ 65536) in * . change (bpow radix2 (-11)) with (/ 2048) in * . change (bpow radix2 (-13)) with (/ 8192) in * .
  split; intros HD; (destruct (G ltac:(lra)) as (g & G0 & G2 & B0); clear G; cbv zeta in B0).
  - assert (GL : / 256 <= g) by (apply Rsqr_incr_0_var; [unfold Rsqr; rewrite G2; lra|lra]). assert (I : / g <= 256) by (replace 256 with (/ (/ 256)) by lra; apply Rinv_le_contravar; lra). assert (I0 : 0 < / g) by (now apply Rinv_0_lt_compat). unfold Rdiv in B0. set (e := / 65536 + / 4194304 * / g) in * . assert (0 <= e <= / 13000) by (unfold e; lra). assert (e * (4 + 4 * e) <= / 13000 * (4 + 1)) by (apply Rmult_le_compat; lra). lra.
  - assert (GL : / 2 <= g) by (apply Rsqr_incr_0_var; [unfold Rsqr; rewrite G2; lra|lra]). assert (I : / g <= 2) by (replace 2 with (/ (/ 2)) by lra; apply Rinv_le_contravar; lra). assert (I0 : 0 < / g) by (now apply Rinv_0_lt_compat). unfold Rdiv in B0. set (e := / 65536 + / 4194304 * / g) in * . assert (0 <= e <= / 60000) by (unfold e; lra). assert (e * (4 + 4 * e) <= / 60000 * (4 + 1)) by (apply Rmult_le_compat; lra). lra.
Qed.
(** a math library whose cosine and sine are correct to 2^-23 and arc cosine to 2^-22, and two quaternions meeting the hypotheses *)
Definition libm_ac : LibM b32 := {| fsin := @fsin _ Props_Rot.libm23; fcos := @fcos _ Props_Rot.libm23; ftan := fun x => x; fasin := fun x => x; facos := fun x => flit (ZnearestE (acos (real x) * 4194304)) (-22); fatan2 := fun x _ => x |}.
Lemma libm_ac_ok : Props_Rot.libm_accurate libm_ac /\ acos_accurate libm_ac.
Proof.
  split; [exact Props_Rot.libm23_ok|]. intros x _ X. destruct (acos_hi (real x) ltac:(lra)) as [B _]. change (@facos _ libm_ac x) with (flit (ZnearestE (acos (real x) * 4194304)) (-22) : b32). set (r := acos (real x)) in * . pose proof (Znearest_half (fun x => negb (Z.even x)) (r * 4194304)) as Q. fold (ZnearestE) in Q. set (z := ZnearestE (r * 4194304)) in * . apply Rabs_le_inv in Q.
  destruct (Props_Err3.lit_real z (-22)) as [F E]; [|lia|lia|].
  - assert (A1 : IZR z < IZR 6800000) by lra. assert (A2 : IZR (-10) < IZR z) by lra. apply lt_IZR in A1, A2. lia.
  - split; auto. rewrite E. change (bpow radix2 (-22)) with (/ 4194304). apply Rabs_le. lra.
Qed.
Example C102_ex : let a := Qt (lit 0 0) (lit 0 0) (lit 0 0) (lit 1 0) : quat b32 in let b := Qt (lit 10066330 (-24)) (lit 0 0) (lit 0 0) (lit 13421773 (-24)) : quat b32 in let A := RQuat.RQ4 0 0 0 1 in let B := RQuat.RQ4 (3 / 5) 0 0 (4 / 5) in
  Props_Rot.libm_accurate libm_ac /\ acos_accurate libm_ac /\ near_q a A /\ near_q b B /\ qdot A B * qdot A B <= 1 - bpow radix2 (-16).
Proof.
  intros a b A B. refine (conj (proj1 libm_ac_ok) (conj (proj2 libm_ac_ok) _)).
  destruct (Props_Err3.lit_real 0 0) as [F0 R0]; [lia|lia|lia|]. destruct (Props_Err3.lit_real 1 0) as [F1 R1]; [lia|lia|lia|]. destruct (Props_Err3.lit_real 10066330 (-24)) as [F2 R2]; [lia|lia|lia|]. destruct (Props_Err3.lit_real 13421773 (-24)) as [F3 R3]; [lia|lia|lia|].
  change (flit 0 0) with (lit 0 0 : b32) in * . change (flit 1 0) with (lit 1 0 : b32) in * . change (flit 10066330 (-24)) with (lit 10066330 (-24) : b32) in * . change (flit 13421773 (-24)) with (lit 13421773 (-24) : b32) in * .
  change (bpow radix2 0) with 1 in * . change (bpow radix2 (-24)) with (/ 16777216) in * .
  refine (conj (conj _ _) (conj (conj _ _) _)).
  - unfold RQuat.unit_q, RQuat.qdot, Props_MatX2.dot; cbn; lra.
  - intros k. change (bpow radix2 (-22)) with (/ 4194304). unfold qcomp, rcomp; destruct k as [|[|[|[|k]]]]; cbn [nth a A qx qy qz qw RQuat.RQ4 RQuat.qs RQuat.qv Props_MatX2.r3x Props_MatX2.r3y Props_MatX2.r3z]; (split; [assumption|]); rewrite ?R0, ?R1; apply Rabs_le; lra.
  - unfold RQuat.unit_q, RQuat.qdot, Props_MatX2.dot; cbn; lra.
  - intros k. change (bpow radix2 (-22)) with (/ 4194304). unfold qcomp, rcomp; destruct k as [|[|[|[|k]]]]; cbn [nth b B qx qy qz qw RQuat.RQ4 RQuat.qs RQuat.qv Props_MatX2.r3x Props_MatX2.r3y Props_MatX2.r3z]; (split; [assumption|]); rewrite ?R0, ?R2, ?R3; apply Rabs_le; lra.
  - change (bpow radix2 (-16)) with (/ 65536). unfold RQuat.qdot, Props_MatX2.dot; cbn; lra.
Qed.
