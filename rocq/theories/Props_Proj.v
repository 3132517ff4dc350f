(** * Props_Proj: projection matrices in binary32 (C92). *)
From Coq Require Import ZArith Reals Bool List Lra Lia Psatz.
From Flocq Require Import Core BinarySingleNaN Relative Mult_error.
From Verif Require Import Num Simd Vec Rect Box Mat Geo Quat OrdThy FloatThy B32Setup FloatLem ErrThy Props_Err Props_Err2 Props_Err3 ErrEx Props_Err5 Props_Err6.
From Verif Require Props_Euler Props_Rot.
Import ListNotations.
Local Open Scope R_scope.

(** ** specification *)
(** a parameter of ordinary size *)
Definition moderate (x : b32) : Prop := fin x /\ Rabs (real x) <= bpow radix2 40.
(** two clipping planes that are not (nearly) the same *)
Definition apart (x y : b32) : Prop := bpow radix2 (-40) <= Rabs (real x - real y).
(** the stored value is the true one but for a relative error below four half-units in the last place (or a subnormal one) *)
Definition accurate (x : b32) (t : R) : Prop := within (4 * bpow radix2 (-24) * Rabs t + bpow radix2 (-149)) x t.
(** the orthographic projection as a real matrix for row vectors: x from left..right to -1..1, y from top..bottom to -1..1, z from -near..-far to -1..1 *)
Definition ortho (l r t b n f : R) (i j : nat) : R :=
  (match i, j with
  | 0%nat, 0%nat => 2 / (r - l) | 1%nat, 1%nat => 2 / (b - t) | 2%nat, 2%nat => - 2 / (f - n) | 3%nat, 3%nat => 1
  | 3%nat, 0%nat => - (r + l) / (r - l) | 3%nat, 1%nat => - (b + t) / (b - t) | 3%nat, 2%nat => - (f + n) / (f - n)
  | _, _ => 0 end).
(** the perspective projection of the frustum with the given sides on the near plane *)
Definition frustum (l r b t n f : R) (i j : nat) : R :=
  (match i, j with
  | 0%nat, 0%nat => 2 * n / (r - l) | 1%nat, 1%nat => 2 * n / (t - b)
  | 2%nat, 0%nat => (r + l) / (r - l) | 2%nat, 1%nat => (t + b) / (t - b) | 2%nat, 2%nat => - (f + n) / (f - n) | 2%nat, 3%nat => - 1
  | 3%nat, 2%nat => - (2 * f * n) / (f - n) | _, _ => 0 end).

(** ** a quotient of accurate values *)
Lemma u24 : bpow radix2 (-24) = u. Proof. reflexivity. Qed.
Lemma within_abs e x t : within e x t -> Rabs (real x) <= Rabs t + e.
Proof. intros [_ H]. replace (real x) with ((real x - t) + t) by ring. eapply Rle_trans; [apply Rabs_triang|]. lra. Qed.
Lemma div_raw (x y : b32) : fin x -> fin y -> real y <> 0 -> Rabs (real x / real y) <= bpow radix2 127 ->
  within (u * Rabs (real x / real y) + bpow radix2 (-150)) (fdiv x y) (real x / real y).
Proof.
  intros FX FY NY B. assert (E : B2X (fdiv x y) = Fin (rnd32 (real x / real y))).
  { change (fdiv x y) with (Bdiv mode_NE x y). rewrite Bdiv_X by (fold b32; rewrite (fin_X _ FY); intros Q; injection Q; auto). fold b32. rewrite (fin_X _ FX), (fin_X _ FY). cbn [xdiv]. destruct (Req_EM_T (B2R y) 0); [contradiction|]. now apply xrnd_ok. }
  destruct (fin_of_X _ _ E) as [FF RR]. split; auto. rewrite RR. apply rnd_err.
Qed.

Lemma quot (x y : b32) (X Y a b : R) : within (a * u * Rabs X) x X -> within (b * u * Rabs Y) y Y -> 0 <= a -> 0 <= b -> a + b <= 8 ->
  Rabs X <= bpow radix2 82 -> bpow radix2 (-40) <= Rabs Y -> within ((a + b + 1.0001) * u * Rabs (X / Y) + bpow radix2 (-150)) (fdiv x y) (X / Y).
Proof.
  intros WX WY A0 B0 AB BX BY. pose proof (within_abs _ _ _ WX) as AX. destruct WX as [FX EX], WY as [FY EY].
  pose proof (bpow_gt_0 radix2 (-40)) as P40. assert (YP : 0 < Rabs Y) by lra. assert (NY : Y <> 0) by (intros ->; rewrite Rabs_R0 in YP; lra).
  assert (AY : Rabs Y * (1 - 8 * u) <= Rabs (real y)).
  { replace Y with ((Y - real y) + real y) at 1 by ring. assert (Rabs (Y - real y) <= 8 * u * Rabs Y) by (rewrite Rabs_minus_sym; nra).
    assert (Rabs Y <= Rabs (Y - real y) + Rabs (real y)) by (replace Y with ((Y - real y) + real y) at 1 by ring; apply Rabs_triang).
    replace (Y - real y + real y) with Y by ring. lra. }
  assert (yP : 0 < Rabs (real y)) by nra. assert (Ny : real y <> 0) by (intros E; rewrite E, Rabs_R0 in yP; lra).
  set (Q := Rabs (X / Y)). assert (QE : Q * Rabs Y = Rabs X). { unfold Q. rewrite <- Rabs_mult. f_equal. field. auto. }
  assert (Q0 : 0 <= Q) by apply Rabs_pos.
  assert (D : Rabs (real x / real y - X / Y) <= (a + b) * (1.000001 * u) * Q).
  { apply Rmult_le_reg_r with (Rabs (real y)); auto. rewrite <- Rabs_mult.
    replace ((real x / real y - X / Y) * real y) with ((real x - X) - X / Y * (real y - Y)) by (field; auto).
    eapply Rle_trans; [apply Rabs_triang|]. rewrite Rabs_Ropp, Rabs_mult. fold Q.
    assert (Q * Rabs (real y - Y) <= Q * (b * u * Rabs Y)) by (apply Rmult_le_compat_l; auto).
    assert ((a + b) * u * (Q * Rabs Y) <= (a + b) * (1.000001 * u) * (Q * Rabs (real y))).
    { replace ((a + b) * (1.000001 * u) * (Q * Rabs (real y))) with ((a + b) * u * Q * (1.000001 * Rabs (real y))) by ring. rewrite <- Rmult_assoc. apply Rmult_le_compat_l; [|lra].
      apply Rmult_le_pos; auto. lra. }
    rewrite <- QE in EX. nra. }
  assert (D2 : Rabs (real x / real y) <= 1.00001 * Q).
  { replace (real x / real y) with ((real x / real y - X / Y) + X / Y) by ring. eapply Rle_trans; [apply Rabs_triang|]. fold Q. nra. }
  assert (Q122 : Q <= bpow radix2 122).
  { apply Rmult_le_reg_r with (Rabs Y); auto. rewrite QE. apply Rle_trans with (bpow radix2 122 * bpow radix2 (-40)); [rewrite <- bpow_plus; exact BX|]. apply Rmult_le_compat_l; auto. apply bpow_ge_0. }
  destruct (div_raw x y FX FY Ny) as [FF EE].
  { assert (bpow radix2 127 = 32 * bpow radix2 122) by (change 127%Z with (5 + 122)%Z; now rewrite bpow_plus). pose proof (bpow_gt_0 radix2 122). lra. }
  split; auto. replace (real (fdiv x y) - X / Y) with ((real (fdiv x y) - real x / real y) + (real x / real y - X / Y)) by ring.
  eapply Rle_trans; [apply Rabs_triang|]. fold Q. assert (0 <= (a + b) * Q) by (apply Rmult_le_pos; lra). assert ((a + b) * Q <= 8 * Q) by (apply Rmult_le_compat_r; lra). lra.
Qed.
Lemma pow_w (e : R) x t : within e x t -> within e (fneg x) (- t).
Proof.
  intros [F E]. assert (Q : B2X (fneg x) = Fin (- real x)) by (rewrite fneg_X, (fin_X _ F); reflexivity).
  destruct (fin_of_X _ _ Q) as [FQ RQ]. split; auto. rewrite RQ. replace (- real x - - t) with (- (real x - t)) by ring. now rewrite Rabs_Ropp.
Qed.
Lemma exact_w x : fin x -> within (0 * u * Rabs (real x)) x (real x).
Proof. intros F. split; auto. rewrite Rminus_eq_0, Rabs_R0. lra. Qed.
Lemma p41 : bpow radix2 41 = 2 * bpow radix2 40. Proof. change 41%Z with (1 + 40)%Z. now rewrite bpow_plus. Qed.
Lemma sum_w x y : moderate x -> moderate y -> within (1 * u * Rabs (real x + real y)) (fadd x y) (real x + real y).
Proof.
  intros [FX BX] [FY BY]. assert (W : B2X (fadd x y) = Fin (rnd32 (real x + real y))).
  { rewrite fadd_X, (fin_X x FX), (fin_X y FY). apply xrnd_ok. eapply Rle_trans; [apply Rabs_triang|]. apply Rle_trans with (bpow radix2 41); [rewrite p41; lra|apply bpow_le; lia]. }
  apply fin_of_X in W as [F E]. split; auto. rewrite E, Rmult_1_l. apply rnd_err_add; apply fmt.
Qed.
Lemma dif_w x y : moderate x -> moderate y -> within (1 * u * Rabs (real x - real y)) (fsub x y) (real x - real y).
Proof.
  intros [FX BX] [FY BY]. assert (W : B2X (fsub x y) = Fin (rnd32 (real x - real y))).
  { rewrite fsub_X, (fin_X x FX), (fin_X y FY). apply xrnd_ok. unfold Rminus. eapply Rle_trans; [apply Rabs_triang|]. rewrite Rabs_Ropp. apply Rle_trans with (bpow radix2 41); [rewrite p41; lra|apply bpow_le; lia]. }
  apply fin_of_X in W as [F E]. split; auto. rewrite E, Rmult_1_l. apply rnd_err_add; [apply fmt|apply generic_format_opp, fmt].
Qed.
Lemma fmt_dbl (x : b32) : generic_format radix2 (SpecFloat.fexp 24 128) (real x * 2).
Proof.
  assert (G : generic_format radix2 (FLT_exp (-149) 24) (real x * bpow radix2 1)).
  { apply mult_bpow_pos_exact_FLT; [|lia]. pose proof (fmt x) as Q. unfold generic_format, scaled_mantissa, cexp in * . now rewrite <- fexp32. }
  unfold generic_format, scaled_mantissa, cexp in * . rewrite fexp32. exact G.
Qed.
Lemma mul_X (x y : b32) : fin x -> fin y -> Rabs (real x * real y) <= bpow radix2 127 -> B2X (fmul x y) = Fin (rnd32 (real x * real y)).
Proof. intros FX FY B. rewrite fmul_X, (fin_X x FX), (fin_X y FY). now apply xrnd_ok. Qed.
Lemma twice (s x : b32) (k : R) : fin s -> real s = k -> k = 2 \/ k = - 2 \/ k = - 1 -> moderate x -> fin (fmul s x) /\ real (fmul s x) = k * real x.
Proof.
  intros FS RS K [FX BX]. assert (W : B2X (fmul s x) = Fin (k * real x)).
  { rewrite mul_X; auto; rewrite RS.
    - f_equal. apply round_generic; [apply valid_rnd_N|]. destruct K as [->|[->| ->]].
      + rewrite Rmult_comm. apply fmt_dbl.
      + replace (- 2 * real x) with (- (real x * 2)) by ring. apply generic_format_opp, fmt_dbl.
      + replace (- 1 * real x) with (- real x) by ring. apply generic_format_opp, fmt.
    - rewrite Rabs_mult. assert (Rabs k <= 2) by (destruct K as [->|[->| ->]]; apply Rabs_le; lra). apply Rle_trans with (2 * bpow radix2 40); [apply Rmult_le_compat; auto using Rabs_pos|].
      rewrite <- p41. apply bpow_le. lia. }
  apply fin_of_X in W. exact W.
Qed.
Lemma prod_w (x y : b32) : fin x -> fin y -> bpow radix2 (-126) <= Rabs (real x * real y) <= bpow radix2 127 -> within (1 * u * Rabs (real x * real y)) (fmul x y) (real x * real y).
Proof.
  intros FX FY [B1 B2]. destruct (fin_of_X _ _ (mul_X x y FX FY B2)) as [F E]. split; auto. rewrite E, Rmult_1_l. now apply rnd_err_rel.
Qed.
Lemma acc_intro (c : R) (x : b32) (t : R) : within (c * u * Rabs t + bpow radix2 (-150)) x t -> c <= 4 -> accurate x t.
Proof.
  intros W C. unfold accurate. rewrite u24. eapply within_weak; [exact W|]. pose proof (Rabs_pos t). assert (bpow radix2 (-150) <= bpow radix2 (-149)) by (apply bpow_le; lia). nra.
Qed.
Lemma acc_exact (x : b32) (t : R) : fin x -> real x = t -> accurate x t.
Proof. intros F <-. split; auto. rewrite Rminus_eq_0, Rabs_R0. pose proof (Rabs_pos (real x)). pose proof (bpow_ge_0 radix2 (-24)). pose proof (bpow_ge_0 radix2 (-149)). nra. Qed.
Lemma two_ok : fin ftwo /\ real ftwo = 2. Proof. apply fin_of_X, ftwo_X. Qed.
Lemma mtwo_ok : fin (fneg ftwo) /\ real (fneg ftwo) = - 2.
Proof. apply fin_of_X. rewrite fneg_X, ftwo_X. reflexivity. Qed.
Lemma m1_ok : fin fm1 /\ real fm1 = - 1.
Proof. apply fin_of_X. unfold fm1. rewrite fneg_X, fone_X. reflexivity. Qed.
Lemma zero_acc : accurate fzero 0. Proof. apply acc_exact; [reflexivity|reflexivity]. Qed.
Lemma one_acc : accurate fone 1. Proof. destruct (fin_of_X fone 1 fone_X). now apply acc_exact. Qed.
Lemma m1_acc : accurate fm1 (- 1). Proof. apply acc_exact; apply m1_ok. Qed.
Lemma small2 : 2 <= bpow radix2 82. Proof. change 2 with (bpow radix2 1). apply bpow_le. lia. Qed.
Lemma sum82 x y : moderate x -> moderate y -> Rabs (real x + real y) <= bpow radix2 82.
Proof. intros [_ A] [_ B]. eapply Rle_trans; [apply Rabs_triang|]. apply Rle_trans with (bpow radix2 41); [rewrite p41; lra|apply bpow_le; lia]. Qed.
(** the three shapes of entries *)
Lemma two_over (x y : b32) : moderate x -> moderate y -> apart x y -> accurate (fdiv ftwo (fsub x y)) (2 / (real x - real y)).
Proof.
  intros MX MY A. destruct two_ok as [F2 R2]. pose proof (exact_w ftwo F2) as W. rewrite R2 in W.
  eapply acc_intro; [eapply (quot _ _ 2 _ 0 1 W (dif_w x y MX MY)); try lra; [rewrite Rabs_pos_eq by lra; apply small2|exact A]|lra].
Qed.
Lemma sum_over (x y : b32) : moderate x -> moderate y -> apart x y -> accurate (fdiv (fneg (fadd x y)) (fsub x y)) (- (real x + real y) / (real x - real y)).
Proof.
  intros MX MY A. pose proof (pow_w _ _ _ (sum_w x y MX MY)) as W. rewrite <- (Rabs_Ropp (real x + real y)) in W.
  eapply acc_intro; [eapply (quot _ _ _ _ 1 1 W (dif_w x y MX MY)); try lra; [rewrite Rabs_Ropp; now apply sum82|exact A]|lra].
Qed.
Lemma sum_over' (x y : b32) : moderate x -> moderate y -> apart x y -> accurate (fdiv (fadd x y) (fsub x y)) ((real x + real y) / (real x - real y)).
Proof.
  intros MX MY A. eapply acc_intro; [eapply (quot _ _ _ _ 1 1 (sum_w x y MX MY) (dif_w x y MX MY)); try lra; [now apply sum82|exact A]|lra].
Qed.
(** ** C92: every entry of the matrix *)
Theorem C92_ortho : forall (BK : Backend b32) (l r t b n f : b32) (i j : nat), moderate l -> moderate r -> moderate t -> moderate b -> moderate n -> moderate f ->
  apart r l -> apart b t -> apart f n -> (i < 4)%nat -> (j < 4)%nat ->
  accurate (matrix_get_value (matrix_init_ortho l r t b n f) i j) (ortho (real l) (real r) (real t) (real b) (real n) (real f) i j).
Proof.
  intros BK l r t b n f i j ML MR MT MB MN MF A1 A2 A3 Hi Hj.
  assert (E : accurate (fdiv (fneg ftwo) (fsub f n)) (- 2 / (real f - real n))).
  { destruct mtwo_ok as [F2 R2]. pose proof (exact_w _ F2) as W. rewrite R2 in W.
    eapply acc_intro; [eapply (quot _ _ (- 2) _ 0 1 W (dif_w f n MF MN)); try lra; [rewrite Rabs_left by lra; replace (- -2) with 2 by ring; apply small2|exact A3]|lra]. }
  pose proof (two_over r l MR ML A1). pose proof (two_over b t MB MT A2). pose proof (sum_over r l MR ML A1). pose proof (sum_over b t MB MT A2). pose proof (sum_over f n MF MN A3).
  pose proof zero_acc. pose proof one_acc.
  do 4 (destruct i as [|i]; [do 4 (destruct j as [|j]; [assumption|]); lia|]). lia.
Qed.
Theorem C92_frustum : forall (BK : Backend b32) (l r b t n f : b32) (i j : nat), moderate l -> moderate r -> moderate b -> moderate t -> moderate n -> moderate f ->
  apart r l -> apart t b -> apart f n -> bpow radix2 (-40) <= real n < real f -> (i < 4)%nat -> (j < 4)%nat ->
  accurate (matrix_get_value (matrix_init_frustum l r b t n f) i j) (frustum (real l) (real r) (real b) (real t) (real n) (real f) i j).
Proof.
  intros BK l r b t n f i j ML MR MB MT MN MF A1 A2 A3 [N0 NF] Hi Hj.
  pose proof (bpow_gt_0 radix2 (-40)) as P40.
  assert (B41 : forall x, moderate x -> 2 * Rabs (real x) <= bpow radix2 41) by (intros x [_ Q]; rewrite p41; lra).
  assert (D : forall x y, moderate x -> moderate y -> apart x y -> accurate (fdiv (fmul ftwo n) (fsub x y)) (2 * real n / (real x - real y))).
  { intros x y MX MY A. destruct (twice ftwo n 2 (proj1 two_ok) (proj2 two_ok) ltac:(auto) MN) as [F2 R2]. pose proof (exact_w _ F2) as W. rewrite R2 in W.
    eapply acc_intro; [eapply (quot _ _ _ _ 0 1 W (dif_w x y MX MY)); try lra; [|exact A]|lra].
    rewrite Rabs_mult, (Rabs_pos_eq 2) by lra. eapply Rle_trans; [apply (B41 n MN)|apply bpow_le; lia]. }
  assert (C : accurate (fdiv (fmul fm1 (fadd f n)) (fsub f n)) (- (real f + real n) / (real f - real n))).
  { pose proof (sum_w f n MF MN) as [FS ES]. assert (X : B2X (fmul fm1 (fadd f n)) = Fin (- real (fadd f n))).
    { rewrite mul_X; [|apply m1_ok|auto|].
      - rewrite (proj2 m1_ok). f_equal. replace (-1 * real (fadd f n)) with (- real (fadd f n)) by ring. apply round_generic; [apply valid_rnd_N|]. apply generic_format_opp, fmt.
      - rewrite (proj2 m1_ok). replace (-1 * real (fadd f n)) with (- real (fadd f n)) by ring. rewrite Rabs_Ropp.
        pose proof (within_abs _ _ _ (conj FS ES)) as Q. pose proof (sum82 f n MF MN). assert (bpow radix2 83 = 2 * bpow radix2 82) by (change 83%Z with (1 + 82)%Z; now rewrite bpow_plus).
        pose proof (Rabs_pos (real f + real n)). assert (bpow radix2 83 <= bpow radix2 127) by (apply bpow_le; lia). lra. }
    destruct (fin_of_X _ _ X) as [FX RX]. assert (W : within (1 * u * Rabs (- (real f + real n))) (fmul fm1 (fadd f n)) (- (real f + real n))).
    { split; auto. rewrite RX, Rabs_Ropp. replace (- real (fadd f n) - - (real f + real n)) with (- (real (fadd f n) - (real f + real n))) by ring. now rewrite Rabs_Ropp. }
    eapply acc_intro; [eapply (quot _ _ _ _ 1 1 W (dif_w f n MF MN)); try lra; [rewrite Rabs_Ropp; now apply sum82|exact A3]|lra]. }
  assert (G : accurate (fdiv (fmul (fmul (fneg ftwo) f) n) (fsub f n)) (- (2 * real f * real n) / (real f - real n))).
  { destruct (twice (fneg ftwo) f (- 2) (proj1 mtwo_ok) (proj2 mtwo_ok) ltac:(auto) MF) as [F2 R2].
    assert (PB : bpow radix2 (-126) <= Rabs (- 2 * real f * real n) <= bpow radix2 82).
    { replace (- 2 * real f * real n) with (- (2 * real f * real n)) by ring. rewrite Rabs_Ropp, Rabs_pos_eq by nra. split.
      - apply Rle_trans with (bpow radix2 (-40) * bpow radix2 (-40)); [rewrite <- bpow_plus; apply bpow_le; lia|]. apply Rmult_le_compat; lra.
      - apply Rle_trans with (bpow radix2 41 * bpow radix2 40); [|rewrite <- bpow_plus; apply bpow_le; lia]. pose proof (B41 f MF) as Q. rewrite Rabs_pos_eq in Q by lra. destruct MN as [_ Q']. rewrite Rabs_pos_eq in Q' by lra. apply Rmult_le_compat; lra. }
    pose proof (prod_w (fmul (fneg ftwo) f) n F2 (proj1 MN)) as W. rewrite R2 in W.
    specialize (W (conj (proj1 PB) (Rle_trans _ _ _ (proj2 PB) (bpow_le radix2 82 127 ltac:(lia))))).
    replace (- (2 * real f * real n)) with (- 2 * real f * real n) by ring.
    eapply acc_intro; [eapply (quot _ _ _ _ 1 1 W (dif_w f n MF MN)); try lra; exact A3|lra]. }
  pose proof (D r l MR ML A1). pose proof (D t b MT MB A2). pose proof (sum_over' r l MR ML A1). pose proof (sum_over' t b MT MB A2).
  pose proof zero_acc. pose proof one_acc. pose proof m1_acc.
  do 4 (destruct i as [|i]; [do 4 (destruct j as [|j]; [assumption|]); lia|]). lia.
Qed.
(** ** C92: applying it *)
Lemma ent_get (BK : Backend b32) (m : mat b32) i c : (i < 4)%nat -> (c < 4)%nat -> ent m i c = real (matrix_get_value m i c).
Proof. intros Hi Hc. do 4 (destruct i as [|i]; [do 4 (destruct c as [|c]; [reflexivity|]); lia|]). lia. Qed.
Lemma map_close (BK : Backend b32) (m : mat b32) (v : V) (E : nat -> R) (c : nat) : (c < 4)%nat -> finite_mat m ->
  (forall i, (i < 4)%nat -> accurate (matrix_get_value m i c) (E i)) -> moderate (vx v) -> moderate (vy v) -> moderate (vz v) -> moderate (vw v) ->
  let s := sum_rows (fun i => Rabs (E i * comp v i)) in s <= bpow radix2 125 ->
  within (bpow radix2 (-20) * s + bpow radix2 (-100)) (g_get (matrix_transform_vec4 m v) c) (sum_rows (fun i => E i * comp v i)).
Proof.
  intros Hc FM A MX MY MZ MW s HS.
  assert (CV : forall i, (i < 4)%nat -> Rabs (comp v i) <= bpow radix2 40).
  { intros i Hi. do 4 (destruct i as [|i]; [unfold comp, nth; first [apply MX|apply MY|apply MZ|apply MW]|]). lia. }
  assert (T : forall i, (i < 4)%nat -> Rabs (ent m i c * comp v i - E i * comp v i) <= 4 * u * Rabs (E i * comp v i) + bpow radix2 (-109)).
  { intros i Hi. rewrite (ent_get BK m i c Hi Hc). destruct (A i Hi) as [_ Q]. rewrite u24 in Q. replace (_ - _) with ((real (matrix_get_value m i c) - E i) * comp v i) by ring.
    rewrite !Rabs_mult. pose proof (CV i Hi). pose proof (Rabs_pos (comp v i)).
    assert (bpow radix2 (-109) = bpow radix2 (-149) * bpow radix2 40) by (rewrite <- bpow_plus; reflexivity).
    apply Rle_trans with ((4 * u * Rabs (E i) + bpow radix2 (-149)) * Rabs (comp v i)); [apply Rmult_le_compat_r; auto|].
    assert (bpow radix2 (-149) * Rabs (comp v i) <= bpow radix2 (-149) * bpow radix2 40) by (apply Rmult_le_compat_l; auto using bpow_ge_0). lra. }
  assert (T2 : forall i, (i < 4)%nat -> Rabs (ent m i c * comp v i) <= (1 + 4 * u) * Rabs (E i * comp v i) + bpow radix2 (-109)).
  { intros i Hi. specialize (T i Hi). replace (ent m i c * comp v i) with ((ent m i c * comp v i - E i * comp v i) + E i * comp v i) by ring. eapply Rle_trans; [apply Rabs_triang|]. lra. }
  assert (P : sum_rows (fun i => Rabs (ent m i c * comp v i)) <= (1 + 4 * u) * s + 4 * bpow radix2 (-109)).
  { unfold s, sum_rows. pose proof (T2 0%nat ltac:(lia)). pose proof (T2 1%nat ltac:(lia)). pose proof (T2 2%nat ltac:(lia)). pose proof (T2 3%nat ltac:(lia)). lra. }
  assert (P109 : bpow radix2 (-109) <= bpow radix2 0) by (apply bpow_le; lia). simpl (bpow radix2 0) in P109.
  assert (P125 : 16 <= bpow radix2 125) by (change 16 with (bpow radix2 4); apply bpow_le; lia).
  assert (P126 : bpow radix2 126 = 2 * bpow radix2 125) by (change 126%Z with (1 + 125)%Z; now rewrite bpow_plus).
  assert (FV : finite4 v) by (split; [apply MX|split; [apply MY|split; [apply MZ|apply MW]]]).
  assert (S0 : 0 <= s). { unfold s, sum_rows. pose proof (Rabs_pos (E 0%nat * comp v 0)). pose proof (Rabs_pos (E 1%nat * comp v 1)). pose proof (Rabs_pos (E 2%nat * comp v 2)). pose proof (Rabs_pos (E 3%nat * comp v 3)). lra. }
  destruct (C70_transform_vec4 BK m v c Hc FM FV) as [FF EE]; [lra|]. split; auto. unfold tol in EE.
  assert (D : Rabs (sum_rows (fun i => ent m i c * comp v i) - sum_rows (fun i => E i * comp v i)) <= 4 * u * s + 4 * bpow radix2 (-109)).
  { unfold s, sum_rows. pose proof (T 0%nat ltac:(lia)) as A0. pose proof (T 1%nat ltac:(lia)) as A1. pose proof (T 2%nat ltac:(lia)) as A2. pose proof (T 3%nat ltac:(lia)) as A3.
    apply Rabs_le_inv in A0, A1, A2, A3. apply Rabs_le. lra. }
  assert (Q : forall a b x d e, Rabs (a - x) <= d -> Rabs (x - b) <= e -> Rabs (a - b) <= d + e).
  { intros a b x d e H1 H2. replace (a - b) with ((a - x) + (x - b)) by ring. eapply Rle_trans; [apply Rabs_triang|]. lra. }
  eapply Rle_trans; [exact (Q _ _ _ _ _ EE D)|].
  assert (bpow radix2 (-147) <= bpow radix2 (-109)) by (apply bpow_le; lia). assert (16 * bpow radix2 (-109) <= bpow radix2 (-100)).
  { change 16 with (bpow radix2 4). rewrite <- bpow_plus. apply bpow_le. lia. }
  change (bpow radix2 (-22)) with (/ 4194304) in * . change (bpow radix2 (-20)) with (/ 1048576). pose proof (bpow_gt_0 radix2 (-109)). nra.
Qed.
Lemma acc_fin x t : accurate x t -> fin x. Proof. now intros [F _]. Qed.
Lemma fin_of_entries (BK : Backend b32) (m : mat b32) (E : nat -> nat -> R) : (forall i j, (i < 4)%nat -> (j < 4)%nat -> accurate (matrix_get_value m i j) (E i j)) -> finite_mat m.
Proof.
  intros A. split; [|split; [|split]]; (split; [|split; [|split]]).
  all: match goal with |- fin (vx (mx _)) => apply (acc_fin _ _ (A 0%nat 0%nat ltac:(lia) ltac:(lia))) | |- fin (vy (mx _)) => apply (acc_fin _ _ (A 0%nat 1%nat ltac:(lia) ltac:(lia))) | |- fin (vz (mx _)) => apply (acc_fin _ _ (A 0%nat 2%nat ltac:(lia) ltac:(lia))) | |- fin (vw (mx _)) => apply (acc_fin _ _ (A 0%nat 3%nat ltac:(lia) ltac:(lia)))
   | |- fin (vx (my _)) => apply (acc_fin _ _ (A 1%nat 0%nat ltac:(lia) ltac:(lia))) | |- fin (vy (my _)) => apply (acc_fin _ _ (A 1%nat 1%nat ltac:(lia) ltac:(lia))) | |- fin (vz (my _)) => apply (acc_fin _ _ (A 1%nat 2%nat ltac:(lia) ltac:(lia))) | |- fin (vw (my _)) => apply (acc_fin _ _ (A 1%nat 3%nat ltac:(lia) ltac:(lia)))
   | |- fin (vx (mz _)) => apply (acc_fin _ _ (A 2%nat 0%nat ltac:(lia) ltac:(lia))) | |- fin (vy (mz _)) => apply (acc_fin _ _ (A 2%nat 1%nat ltac:(lia) ltac:(lia))) | |- fin (vz (mz _)) => apply (acc_fin _ _ (A 2%nat 2%nat ltac:(lia) ltac:(lia))) | |- fin (vw (mz _)) => apply (acc_fin _ _ (A 2%nat 3%nat ltac:(lia) ltac:(lia)))
   | |- fin (vx (mw _)) => apply (acc_fin _ _ (A 3%nat 0%nat ltac:(lia) ltac:(lia))) | |- fin (vy (mw _)) => apply (acc_fin _ _ (A 3%nat 1%nat ltac:(lia) ltac:(lia))) | |- fin (vz (mw _)) => apply (acc_fin _ _ (A 3%nat 2%nat ltac:(lia) ltac:(lia))) | |- fin (vw (mw _)) => apply (acc_fin _ _ (A 3%nat 3%nat ltac:(lia) ltac:(lia))) end.
Qed.
(** sizes of the entries *)
Lemma inv_apart x y : apart x y -> real x - real y <> 0 /\ Rabs (/ (real x - real y)) <= bpow radix2 40.
Proof.
  intros A. red in A. pose proof (bpow_gt_0 radix2 (-40)). assert (N : real x - real y <> 0) by (intros E; rewrite E, Rabs_R0 in A; lra). split; auto.
  rewrite Rabs_inv by auto. replace (bpow radix2 40) with (/ bpow radix2 (-40)) by (rewrite <- bpow_opp; reflexivity). apply Rinv_le; auto.
Qed.
Lemma term_bd (a x y : R) A X Y : Rabs a <= A -> Rabs x <= X -> Rabs y <= Y -> Rabs (a * x * y) <= A * X * Y.
Proof. intros. rewrite !Rabs_mult. apply Rmult_le_compat; auto using Rabs_pos. - apply Rmult_le_pos; apply Rabs_pos. - apply Rmult_le_compat; auto using Rabs_pos. Qed.
Definition close_clip (s : R) (q : b32) (t : R) : Prop := within (bpow radix2 (-20) * s + bpow radix2 (-100)) q t.
Theorem C92_ortho_maps : forall (BK : Backend b32) (l r t b n f : b32) (v : V), moderate l -> moderate r -> moderate t -> moderate b -> moderate n -> moderate f ->
  apart r l -> apart b t -> apart f n -> moderate (vx v) -> moderate (vy v) -> moderate (vz v) -> vw v = fone ->
  let q := matrix_transform_vec4 (matrix_init_ortho l r t b n f) v in let x := real (vx v) in let y := real (vy v) in let z := real (vz v) in
  close_clip ((2 * Rabs x + Rabs (real r + real l)) / Rabs (real r - real l)) (vx q) ((2 * x - (real r + real l)) / (real r - real l)) /\
  close_clip ((2 * Rabs y + Rabs (real b + real t)) / Rabs (real b - real t)) (vy q) ((2 * y - (real b + real t)) / (real b - real t)) /\
  close_clip ((2 * Rabs z + Rabs (real f + real n)) / Rabs (real f - real n)) (vz q) ((- 2 * z - (real f + real n)) / (real f - real n)) /\
  close_clip 1 (vw q) 1.
Proof.
  intros BK l r t b n f v ML MR MT MB MN MF A1 A2 A3 MX MY MZ HW q x y z.
  set (E := ortho (real l) (real r) (real t) (real b) (real n) (real f)).
  pose proof (fun i j => C92_ortho BK l r t b n f i j ML MR MT MB MN MF A1 A2 A3) as ENT. fold E in ENT.
  pose proof (fin_of_entries BK _ _ ENT) as FM.
  assert (MW : moderate (vw v)) by (rewrite HW; destruct (fin_of_X fone 1 fone_X) as [F1 R1]; split; auto; rewrite R1, Rabs_R1; change 1 with (bpow radix2 0); apply bpow_le; lia).
  assert (W1 : comp v 3 = 1) by (unfold comp; cbn [g_get]; rewrite HW; apply fin_of_X, fone_X).
  assert (K : forall (c : nat) s t, (c < 4)%nat -> sum_rows (fun i => Rabs (E i c * comp v i)) = s -> sum_rows (fun i => E i c * comp v i) = t -> s <= bpow radix2 125 -> close_clip s (g_get q c) t).
  { intros c s0 t0 Hc <- <- HB. apply map_close; auto. }
  assert (Z : forall k, 0 * k = 0) by (intros; ring).
  assert (SP : forall a d p : R, d <> 0 -> Rabs (2 * / d * p) + Rabs (- a * / d * 1) = (2 * Rabs p + Rabs a) * / Rabs d).
  { intros a d p Hd. rewrite !Rabs_mult, Rabs_Ropp, Rabs_inv, Rabs_R1, (Rabs_pos_eq 2) by (auto; lra). field. now apply Rabs_no_R0. }
  assert (SB : forall d (X Y p : b32), moderate X -> moderate Y -> moderate p -> d = real X - real Y -> apart X Y -> (2 * Rabs (real p) + Rabs (real X + real Y)) / Rabs d <= bpow radix2 125).
  { intros d X Y p HX HY Hp -> A. destruct (inv_apart _ _ A) as [N I]. pose proof (proj2 Hp). unfold Rdiv. rewrite <- Rabs_inv by auto.
    assert (Rabs (real X + real Y) <= bpow radix2 41). { eapply Rle_trans; [apply Rabs_triang|]. rewrite p41. pose proof (proj2 HX). pose proof (proj2 HY). lra. }
    apply Rle_trans with (bpow radix2 42 * bpow radix2 40); [|rewrite <- bpow_plus; apply bpow_le; lia].
    assert (bpow radix2 42 = 2 * bpow radix2 41) by (change 42%Z with (1 + 41)%Z; now rewrite bpow_plus). rewrite p41 in * . pose proof (Rabs_pos (real p)). pose proof (Rabs_pos (real X + real Y)).
    apply Rmult_le_compat; auto using Rabs_pos; lra. }
  destruct (inv_apart _ _ A1) as [N1 _], (inv_apart _ _ A2) as [N2 _], (inv_apart _ _ A3) as [N3 _].
  unfold sum_rows in K. split; [|split; [|split]].
  - change (vx q) with (g_get q 0). apply K; try lia; unfold E, ortho, Rdiv; rewrite ?W1, ?Z, ?Rabs_R0.
    + change (comp v 0) with x. rewrite <- SP by auto. ring.
    + change (comp v 0) with x. field. auto.
    + apply SB; auto.
  - change (vy q) with (g_get q 1). apply K; try lia; unfold E, ortho, Rdiv; rewrite ?W1, ?Z, ?Rabs_R0.
    + change (comp v 1) with y. rewrite <- SP by auto. ring.
    + change (comp v 1) with y. field. auto.
    + apply SB; auto.
  - change (vz q) with (g_get q 2). apply K; try lia; unfold E, ortho, Rdiv; rewrite ?W1, ?Z, ?Rabs_R0.
    + change (comp v 2) with z. rewrite <- SP by auto. replace (-2 * / (real f - real n) * z) with (- (2 * / (real f - real n) * z)) by ring. rewrite Rabs_Ropp. ring.
    + change (comp v 2) with z. field. auto.
    + apply SB; auto.
  - change (vw q) with (g_get q 3). apply K; try lia; unfold E, ortho, Rdiv; rewrite ?W1, ?Z, ?Rabs_R0.
    + rewrite Rmult_1_r, Rabs_R1. ring.
    + ring.
    + change 1 with (bpow radix2 0). apply bpow_le. lia.
Qed.
Theorem C92_frustum_maps : forall (BK : Backend b32) (l r b t n f : b32) (v : V), moderate l -> moderate r -> moderate b -> moderate t -> moderate n -> moderate f ->
  apart r l -> apart t b -> apart f n -> bpow radix2 (-40) <= real n < real f -> moderate (vx v) -> moderate (vy v) -> moderate (vz v) -> vw v = fone ->
  let q := matrix_transform_vec4 (matrix_init_frustum l r b t n f) v in let x := real (vx v) in let y := real (vy v) in let z := real (vz v) in
  close_clip ((2 * Rabs (real n * x) + Rabs ((real r + real l) * z)) / Rabs (real r - real l)) (vx q) ((2 * real n * x + (real r + real l) * z) / (real r - real l)) /\
  close_clip ((2 * Rabs (real n * y) + Rabs ((real t + real b) * z)) / Rabs (real t - real b)) (vy q) ((2 * real n * y + (real t + real b) * z) / (real t - real b)) /\
  close_clip ((2 * Rabs (real f * real n) + Rabs ((real f + real n) * z)) / Rabs (real f - real n)) (vz q) (- (2 * real f * real n + (real f + real n) * z) / (real f - real n)) /\
  close_clip (Rabs z) (vw q) (- z).
Proof.
  intros BK l r b t n f v ML MR MB MT MN MF A1 A2 A3 NF MX MY MZ HW q x y z.
  set (E := frustum (real l) (real r) (real b) (real t) (real n) (real f)).
  pose proof (fun i j => C92_frustum BK l r b t n f i j ML MR MB MT MN MF A1 A2 A3 NF) as ENT. fold E in ENT.
  pose proof (fin_of_entries BK _ _ ENT) as FM.
  assert (MW : moderate (vw v)) by (rewrite HW; destruct (fin_of_X fone 1 fone_X) as [F1 R1]; split; auto; rewrite R1, Rabs_R1; change 1 with (bpow radix2 0); apply bpow_le; lia).
  assert (W1 : comp v 3 = 1) by (unfold comp; cbn [g_get]; rewrite HW; apply fin_of_X, fone_X).
  assert (K : forall (c : nat) s t, (c < 4)%nat -> sum_rows (fun i => Rabs (E i c * comp v i)) = s -> sum_rows (fun i => E i c * comp v i) = t -> s <= bpow radix2 125 -> close_clip s (g_get q c) t).
  { intros c s0 t0 Hc <- <- HB. apply map_close; auto. }
  assert (Z : forall k, 0 * k = 0) by (intros; ring).
  assert (SP : forall a d p s : R, d <> 0 -> Rabs (2 * a * / d * p) + Rabs (s * / d * z) = (2 * Rabs (a * p) + Rabs (s * z)) * / Rabs d).
  { intros a d p s Hd. rewrite !Rabs_mult, Rabs_inv, (Rabs_pos_eq 2) by (auto; lra). field. now apply Rabs_no_R0. }
  assert (SB : forall d (X Y g p : b32), moderate X -> moderate Y -> moderate g -> moderate p -> d = real X - real Y -> apart X Y -> (2 * Rabs (real g * real p) + Rabs ((real X + real Y) * z)) * / Rabs d <= bpow radix2 125).
  { intros d X Y g p HX HY Hg Hp -> A. destruct (inv_apart _ _ A) as [N I]. pose proof (proj2 Hp). pose proof (proj2 Hg). rewrite <- Rabs_inv by auto.
    assert (Rabs (real X + real Y) <= bpow radix2 41). { eapply Rle_trans; [apply Rabs_triang|]. rewrite p41. pose proof (proj2 HX). pose proof (proj2 HY). lra. }
    assert (Rabs (real g * real p) <= bpow radix2 40 * bpow radix2 40) by (rewrite Rabs_mult; apply Rmult_le_compat; auto using Rabs_pos).
    assert (Rabs ((real X + real Y) * z) <= bpow radix2 41 * bpow radix2 40) by (rewrite Rabs_mult; apply Rmult_le_compat; auto using Rabs_pos; apply MZ).
    apply Rle_trans with (bpow radix2 82 * bpow radix2 40); [|rewrite <- bpow_plus; apply bpow_le; lia].
    assert (bpow radix2 82 = 2 * (bpow radix2 41 * bpow radix2 40)) by (rewrite <- bpow_plus; change 82%Z with (1 + (41 + 40))%Z; now rewrite bpow_plus). rewrite p41 in * . pose proof (Rabs_pos (real g * real p)). pose proof (Rabs_pos ((real X + real Y) * z)).
    apply Rmult_le_compat; auto using Rabs_pos; lra. }
  destruct (inv_apart _ _ A1) as [N1 _], (inv_apart _ _ A2) as [N2 _], (inv_apart _ _ A3) as [N3 _].
  unfold sum_rows in K. split; [|split; [|split]].
  - change (vx q) with (g_get q 0). apply K; try lia; unfold E, frustum, Rdiv; rewrite ?W1, ?Z, ?Rabs_R0.
    + change (comp v 0) with x. change (comp v 2) with z. rewrite <- SP by auto. ring.
    + change (comp v 0) with x. change (comp v 2) with z. field. auto.
    + apply SB; auto.
  - change (vy q) with (g_get q 1). apply K; try lia; unfold E, frustum, Rdiv; rewrite ?W1, ?Z, ?Rabs_R0.
    + change (comp v 1) with y. change (comp v 2) with z. rewrite <- SP by auto. ring.
    + change (comp v 1) with y. change (comp v 2) with z. field. auto.
    + apply SB; auto.
  - change (vz q) with (g_get q 2). apply K; try lia; unfold E, frustum, Rdiv; rewrite ?W1, ?Z, ?Rabs_R0.
    + change (comp v 2) with z. rewrite <- SP by auto. rewrite <- (Rabs_Ropp (2 * real f * _ * _)), <- (Rabs_Ropp ((real f + real n) * _ * _)). rewrite Rplus_0_l, Rplus_0_l, Rplus_comm. f_equal; f_equal; ring.
    + change (comp v 2) with z. field. auto.
    + apply SB; auto.
  - change (vw q) with (g_get q 3). apply K; try lia; unfold E, frustum, Rdiv; rewrite ?W1, ?Z, ?Rabs_R0.
    + change (comp v 2) with z. replace (-1 * z) with (- z) by ring. rewrite Rabs_Ropp. ring.
    + change (comp v 2) with z. ring.
    + eapply Rle_trans; [apply MZ|]. apply bpow_le. lia.
Qed.

(** ** C92: field of view *)
(** tanf answers to within a relative error of 2^-22 (and an absolute one of the same size), away from the poles *)
Definition tan_accurate (L : LibM b32) : Prop := forall x : b32, fin x -> Rabs (real x) <= 1.5707 -> within (bpow radix2 (-22) * (1 + Rabs (tan (real x)))) (ftan x) (tan (real x)).
(** the cotangent of half the field of view, given in degrees *)
Definition cot_half (fovy : b32) : R := / tan (real fovy * (PI / 180) / 2).
(** the perspective projection *)
Definition perspective_true (c aspect n f : R) (i j : nat) : R :=
  match i, j with
  | 0%nat, 0%nat => c / aspect | 1%nat, 1%nat => c | 2%nat, 2%nat => - (f + n) / (f - n) | 2%nat, 3%nat => - 1
  | 3%nat, 2%nat => - (2 * f * n) / (f - n) | _, _ => 0 end.

(** tangents of nearby angles *)
Lemma tan_near a b d : 0 < cos a -> 0 < cos b -> Rabs (a - b) <= d -> d <= / 100 -> d * Rabs (tan b) <= / 100 -> Rabs (tan a - tan b) <= 1.03 * d * (1 + tan b * tan b).
Proof.
  intros CA CB D D1 D2. set (e := a - b) in * . assert (Ce : 0.99 <= cos e).
  { pose proof (Props_Rot.cos_lip e 0) as Q. rewrite cos_0, Rminus_0_r in Q. apply Rabs_le_inv in Q. lra. }
  assert (Se : Rabs (sin e) <= d). { pose proof (Props_Rot.sin_lip e 0) as Q. rewrite sin_0, !Rminus_0_r in Q. lra. }
  assert (Te : Rabs (tan e) <= 1.0102 * d).
  { unfold tan, Rdiv. rewrite Rabs_mult, Rabs_inv, (Rabs_pos_eq (cos e)) by lra. assert (/ cos e <= 1.0102) by (replace 1.0102 with (/ / 1.0102) by (field; lra); apply Rinv_le; lra).
    pose proof (Rabs_pos (sin e)). assert (0 < / cos e) by (apply Rinv_0_lt_compat; lra). nra. }
  set (t := tan e) in * . set (T := tan b) in * .
  assert (B : Rabs (t * T) <= 0.011). { rewrite Rabs_mult. pose proof (Rabs_pos t). pose proof (Rabs_pos T). nra. }
  apply Rabs_le_inv in B.
  assert (E : tan a = (t + T) / (1 - t * T)).
  { replace a with (e + b) by (unfold e; ring). apply tan_plus; [lra|lra|replace (e + b) with a by (unfold e; ring); lra|fold t T; lra]. }
  rewrite E. replace ((t + T) / (1 - t * T) - T) with (t * (1 + T * T) * / (1 - t * T)) by (field; lra).
  assert (0 <= T * T) by nra. rewrite !Rabs_mult, (Rabs_pos_eq (1 + T * T)), Rabs_inv, (Rabs_pos_eq (1 - t * T)) by lra.
  assert (I : / (1 - t * T) <= 1.0112) by (replace 1.0112 with (/ / 1.0112) by (field; lra); apply Rinv_le; lra).
  assert (0 < / (1 - t * T)) by (apply Rinv_0_lt_compat; lra). pose proof (Rabs_pos t). assert (0 <= d) by (pose proof (Rabs_pos e); lra).
  apply Rle_trans with (1.0102 * d * (1 + T * T) * 1.0112); [|nra]. apply Rmult_le_compat; try lra; [apply Rmult_le_pos; lra|]. apply Rmult_le_compat_r; lra.
Qed.
Lemma pi2_real : fin fpi_2 /\ real fpi_2 = 13176795 * / 8388608.
Proof. destruct (lit_real 13176795 (-23)) as [F E]; try lia. split; [exact F|]. etransitivity; [exact E|]. reflexivity. Qed.
Lemma half_real : fin fhalf /\ real fhalf = / 2.
Proof. destruct (lit_real 1 (-1)) as [F E]; try lia. split; [exact F|]. etransitivity; [exact E|]. simpl. lra. Qed.
Lemma cot_shift y : 0 < y < PI / 2 -> tan (PI / 2 - y) = / tan y.
Proof.
  intros [A B]. unfold tan. rewrite sin_shift, cos_shift. assert (0 < sin y) by (apply sin_gt_0; pose proof PI_RGT_0; lra). assert (0 < cos y) by (apply cos_gt_0; lra). field. lra.
Qed.
Lemma cot_bd0 e y : 0 < e <= / 100 -> e <= y < PI / 2 -> 0 < / tan y <= 2 * / e.
Proof.
  intros H [A B]. pose proof Props_Euler.PI_bounds as P. assert (S0 : 0 < sin y) by (apply sin_gt_0; lra). assert (C0 : 0 < cos y) by (apply cos_gt_0; lra).
  assert (S1 : e / 2 <= sin y).
  { apply Rle_trans with (sin e).
    - destruct (MVT_cor2 sin cos 0 e ltac:(lra) (fun c _ => derivable_pt_lim_sin c)) as (c & E & Hc). rewrite sin_0, !Rminus_0_r in E. rewrite E.
      pose proof (Props_Rot.cos_lip c 0) as Q. rewrite cos_0, Rminus_0_r, (Rabs_pos_eq c) in Q by lra. apply Rabs_le_inv in Q. nra.
    - apply sin_incr_1; lra. }
  unfold tan. replace (/ (sin y / cos y)) with (cos y * / sin y) by (field; lra). pose proof (COS_bound y). assert (0 < / sin y) by (now apply Rinv_0_lt_compat).
  assert (/ sin y <= 2 * / e). { replace (2 * / e) with (/ (e / 2)) by (field; lra). apply Rinv_le; lra. } split; [nra|]. nra.
Qed.
Lemma cot_bd y : / 8192 <= y < PI / 2 -> 0 < / tan y <= 16384.
Proof. intros H. replace 16384 with (2 * / / 8192) by (rewrite Rinv_inv; lra). apply cot_bd0; lra. Qed.
Lemma cot_float (L : LibM b32) (fovy : b32) : tan_accurate L -> fin fovy -> / 64 <= real fovy <= 179.999 -> let c := cot_half fovy in
  within (8.2 * / 10000000 * (1 + c * c)) (ftan (fsub fpi_2 (fmul (deg_to_rad fovy) fhalf))) c /\ 0 < c <= 16384.
Proof.
  intros HL FF RF c. pose proof Props_Euler.PI_bounds as P. set (y := real fovy * (PI / 180) / 2).
  assert (Y : / 8192 <= y < PI / 2) by (unfold y; nra).
  destruct (Props_Euler.d2r_err fovy FF) as [FR ER]. { rewrite Rabs_pos_eq by lra. apply Rle_trans with (bpow radix2 8); [simpl; lra|apply bpow_le; lia]. }
  set (r := deg_to_rad fovy) in * . replace (real fovy * (PI / 180)) with (2 * y) in ER by (unfold y; field). rewrite (Rabs_pos_eq (2 * y)) in ER by lra.
  assert (ETA : eta <= / 1000000000000). { apply Rle_trans with (bpow radix2 (-40)); [apply bpow_le; lia|]. simpl. lra. }
  change (bpow radix2 (-23)) with (/ 8388608) in ER. apply Rabs_le_inv in ER.
  destruct half_real as [FH RH]. destruct pi2_real as [FP RP].
  assert (BR : 0 <= real r <= 3.2) by lra.
  destruct (ap_fin _ _ _ (ap_mul0 r fhalf FR FH ltac:(rewrite RH, Rabs_pos_eq by lra; apply Rle_trans with (bpow radix2 8); [simpl; lra|apply bpow_le; lia]))) as [FM EM].
  rewrite RH, (Rabs_pos_eq (real r * / 2)) in EM by lra. rewrite u32_val in EM. set (h := fmul r fhalf) in * . apply Rabs_le_inv in EM.
  destruct (dif_w fpi_2 h) as [FD ED].
  { split; auto. rewrite RP, Rabs_pos_eq by lra. apply Rle_trans with (bpow radix2 8); [simpl; lra|apply bpow_le; lia]. }
  { split; auto. apply Rle_trans with (bpow radix2 8); [simpl; apply Rabs_le; lra|apply bpow_le; lia]. }
  set (x := fsub fpi_2 h) in * . rewrite RP in ED.
  assert (Rabs (13176795 * / 8388608 - real h) <= 1.6) by (apply Rabs_le; lra).
  apply Rabs_le_inv in ED.
  assert (DX : Rabs (real x - (PI / 2 - y)) <= 4.3 / 10000000) by (apply Rabs_le; lra).
  assert (XB : -1.5707 <= real x <= 1.5707). { apply Rabs_le_inv in DX. unfold y in * . lra. }
  pose proof (cot_shift y ltac:(lra)) as CS. pose proof (cot_bd y Y) as CB. change (/ tan y) with c in * .
  assert (TN : Rabs (tan (real x) - c) <= 1.03 * (4.3 / 10000000) * (1 + c * c)).
  { rewrite <- CS. apply tan_near; auto; try lra.
    - apply cos_gt_0; lra.
    - apply cos_gt_0; lra.
    - rewrite CS, Rabs_pos_eq; lra. }
  destruct (HL x FD ltac:(apply Rabs_le; lra)) as [FT ET]. split; [|exact CB]. split; auto.
  change (bpow radix2 (-22)) with (/ 4194304) in ET.
  assert (AT : Rabs (tan (real x)) <= c + 1.03 * (4.3 / 10000000) * (1 + c * c)).
  { replace (tan (real x)) with ((tan (real x) - c) + c) by ring. eapply Rle_trans; [apply Rabs_triang|]. rewrite (Rabs_pos_eq c); lra. }
  assert (c <= 0.5 * (1 + c * c)) by (pose proof (Rle_0_sqr (c - 1)) as Q; unfold Rsqr in Q; lra). assert (0 <= c * c) by (apply Rmult_le_pos; lra).
  replace (real (ftan x) - c) with ((real (ftan x) - tan (real x)) + (tan (real x) - c)) by ring. eapply Rle_trans; [apply Rabs_triang|]. lra.
Qed.
Theorem C92_perspective : forall (BK : Backend b32) (L : LibM b32) (fovy aspect n f : b32), tan_accurate L -> fin fovy -> / 64 <= real fovy <= 179.999 ->
  moderate aspect -> bpow radix2 (-40) <= real aspect -> moderate n -> moderate f -> apart f n -> bpow radix2 (-40) <= real n < real f ->
  let m := matrix_init_perspective fovy aspect n f in let c := cot_half fovy in
  within (bpow radix2 (-20) * (1 + c * c) / real aspect + bpow radix2 (-149)) (matrix_get_value m 0 0) (c / real aspect) /\
  within (bpow radix2 (-20) * (1 + c * c)) (matrix_get_value m 1 1) c /\
  (forall i j, (i < 4)%nat -> (j < 4)%nat -> (i, j) <> (0, 0)%nat -> (i, j) <> (1, 1)%nat -> accurate (matrix_get_value m i j) (perspective_true c (real aspect) (real n) (real f) i j)).
Proof.
  intros BK L fovy aspect n f HL FF RF [FA BA] A0 MN MF A3 [N0 NF] m c.
  destruct (cot_float L fovy HL FF RF) as [[FT ET] CB]. fold c in ET, CB. set (k := ftan (fsub fpi_2 (fmul (deg_to_rad fovy) fhalf))) in * .
  pose proof (bpow_gt_0 radix2 (-40)) as P40. change (bpow radix2 (-20)) with (/ 1048576).
  assert (CC : 0 <= c * c) by (apply Rmult_le_pos; lra).
  split; [|split].
  - assert (KB : Rabs (real k) <= 0.6 * (1 + c * c)).
    { replace (real k) with ((real k - c) + c) by ring. eapply Rle_trans; [apply Rabs_triang|]. rewrite (Rabs_pos_eq c) by lra. assert (c <= 0.5 * (1 + c * c)) by (pose proof (Rle_0_sqr (c - 1)) as Q; unfold Rsqr in Q; lra). lra. }
    set (a := real aspect) in * . assert (IA : 0 < / a) by (apply Rinv_0_lt_compat; lra).
    assert (IB : / a <= bpow radix2 40). { replace (bpow radix2 40) with (/ bpow radix2 (-40)) by (rewrite <- bpow_opp; reflexivity). apply Rinv_le; auto. }
    assert (QB : Rabs (real k / a) <= 0.6 * (1 + c * c) * / a). { unfold Rdiv. rewrite Rabs_mult, (Rabs_pos_eq (/ a)) by lra. apply Rmult_le_compat_r; lra. }
    destruct (div_raw k aspect FT FA) as [FD ED]; [fold a; lra| |].
    { fold a. eapply Rle_trans; [exact QB|]. apply Rle_trans with (bpow radix2 30 * bpow radix2 40); [|rewrite <- bpow_plus; apply bpow_le; lia]. assert (c * c <= 16384 * 16384) by (apply Rmult_le_compat; lra). assert (bpow radix2 30 = 1073741824) by reflexivity. apply Rmult_le_compat; lra. }
    fold a in ED. split; [exact FD|]. change (matrix_get_value m 0 0) with (fdiv k aspect).
    replace (real (fdiv k aspect) - c / a) with ((real (fdiv k aspect) - real k / a) + (real k - c) * / a) by (unfold Rdiv; ring).
    eapply Rle_trans; [apply Rabs_triang|]. rewrite (Rabs_mult (real k - c)), (Rabs_pos_eq (/ a)) by lra.
    assert (Rabs (real k - c) * / a <= 8.2 * / 10000000 * (1 + c * c) * / a) by (apply Rmult_le_compat_r; lra).
    assert (bpow radix2 (-150) <= bpow radix2 (-149)) by (apply bpow_le; lia). assert (0 <= (1 + c * c) * / a) by (apply Rmult_le_pos; lra). replace (/ 1048576 * (1 + c * c) / a) with (/ 1048576 * ((1 + c * c) * / a)) by (unfold Rdiv; ring). lra.
  - split; [exact FT|]. change (matrix_get_value m 1 1) with k. eapply Rle_trans; [exact ET|]. lra.
  - assert (C : accurate (fdiv (fneg (fadd f n)) (fsub f n)) (- (real f + real n) / (real f - real n))) by now apply sum_over.
    assert (G : accurate (fdiv (fmul (fmul (fneg ftwo) n) f) (fsub f n)) (- (2 * real f * real n) / (real f - real n))).
    { destruct (twice (fneg ftwo) n (- 2) (proj1 mtwo_ok) (proj2 mtwo_ok) ltac:(auto) MN) as [F2 R2].
      assert (PB : bpow radix2 (-126) <= Rabs (- 2 * real n * real f) <= bpow radix2 82).
      { replace (- 2 * real n * real f) with (- (2 * real n * real f)) by ring. rewrite Rabs_Ropp, Rabs_pos_eq by nra. split.
        - apply Rle_trans with (bpow radix2 (-40) * bpow radix2 (-40)); [rewrite <- bpow_plus; apply bpow_le; lia|]. apply Rmult_le_compat; lra.
        - apply Rle_trans with (bpow radix2 41 * bpow radix2 40); [|rewrite <- bpow_plus; apply bpow_le; lia]. destruct MN as [_ Q]. rewrite Rabs_pos_eq in Q by lra. destruct MF as [_ Q']. rewrite Rabs_pos_eq in Q' by lra. rewrite p41. apply Rmult_le_compat; lra. }
      pose proof (prod_w (fmul (fneg ftwo) n) f F2 (proj1 MF)) as W. rewrite R2 in W.
      specialize (W (conj (proj1 PB) (Rle_trans _ _ _ (proj2 PB) (bpow_le radix2 82 127 ltac:(lia))))).
      replace (- (2 * real f * real n)) with (- 2 * real n * real f) by ring.
      eapply acc_intro; [eapply (quot _ _ _ _ 1 1 W (dif_w f n MF MN)); try lra; exact A3|lra]. }
    pose proof zero_acc. pose proof m1_acc. intros i j Hi Hj H1 H2.
    do 4 (destruct i as [|i]; [do 4 (destruct j as [|j]; [first [assumption|congruence]|]); lia|]). lia.
Qed.

(** ** non-vacuity: the tangent rounded to binary32; a 45 degree 16:9 view, a screen-sized ortho and a lopsided frustum *)
Definition libm_tan : LibM b32 := {| fsin := fun x => x; fcos := fun x => x;
  ftan := fun x => flit (ZnearestE (tan (real x) * 8388608)) (-23); fasin := fun x => x; facos := fun x => x; fatan2 := fun x _ => x |}.
Lemma tan_bd x : Rabs x <= 1.5707 -> Rabs (tan x) <= 40000.
Proof.
  intros H. apply Rabs_le_inv in H. pose proof Props_Euler.PI_bounds as P.
  assert (K : forall z, 0 <= z <= 1.5707 -> 0 <= tan z <= 40000).
  { intros z Hz. destruct (Req_dec z 0) as [->|N]; [rewrite tan_0; lra|]. replace z with (PI / 2 - (PI / 2 - z)) by ring. rewrite cot_shift by lra.
    pose proof (cot_bd0 (/ 20000) (PI / 2 - z) ltac:(lra) ltac:(lra)) as Q. rewrite Rinv_inv in Q. lra. }
  destruct (Rle_or_lt 0 x) as [G|G]; [specialize (K x ltac:(lra)); apply Rabs_le; lra|]. specialize (K (- x) ltac:(lra)). rewrite tan_neg in K. apply Rabs_le. lra.
Qed.
Lemma libm_tan_ok : tan_accurate libm_tan.
Proof.
  intros x F H. pose proof (tan_bd _ H) as B. set (t := tan (real x)) in * . cbn [ftan libm_tan]. fold t.
  pose proof (Znearest_half (fun x => negb (Z.even x)) (t * 8388608)) as Q. fold (ZnearestE) in Q. set (z := ZnearestE (t * 8388608)) in * . apply Rabs_le_inv in Q.
  assert (T : Rabs (IZR z * / 8388608 - t) <= / 16777216) by (apply Rabs_le; lra).
  assert (TB : Rabs (IZR z * / 8388608) <= Rabs t + / 16777216). { replace (IZR z * / 8388608) with ((IZR z * / 8388608 - t) + t) by ring. eapply Rle_trans; [apply Rabs_triang|]. lra. }
  assert (E : B2X (flit z (-23) : b32) = Fin (rnd32 (IZR z * / 8388608))).
  { change (IZR z * / 8388608) with (IZR z * bpow radix2 (-23)). 
    pose proof (binary_normalize_correct 24 128 prec32 emax32 mode_NE z (-23) false) as C. cbv zeta in C. change (F2R {| Fnum := z; Fexp := -23 |}) with (IZR z * bpow radix2 (-23)) in C.
    rewrite Rlt_bool_true in C.
    - destruct C as (C1 & C2 & _). assert (FZ : fin (flit z (-23))) by exact C2. rewrite (fin_X _ FZ). f_equal. exact C1.
    - apply Rle_lt_trans with (bpow radix2 127); [|apply bpow_lt; lia]. apply rnd_small. change (bpow radix2 (-23)) with (/ 8388608).
      apply Rle_trans with (bpow radix2 20); [|apply bpow_le; lia]. simpl (bpow radix2 20). lra. }
  destruct (fin_of_X _ _ E) as [FF RR]. split; auto. change (real (ftan x)) with (real (flit z (-23))). rewrite RR. pose proof (rnd_err (IZR z * / 8388608)) as R1. rewrite u32_val in R1.
  assert (ETA : eta <= / 1000000000). { apply Rle_trans with (bpow radix2 (-40)); [apply bpow_le; lia|]. simpl. lra. }
  change (bpow radix2 (-22)) with (/ 4194304). pose proof (Rabs_pos t).
  replace (rnd32 (IZR z * / 8388608) - t) with ((rnd32 (IZR z * / 8388608) - IZR z * / 8388608) + (IZR z * / 8388608 - t)) by ring. eapply Rle_trans; [apply Rabs_triang|]. lra.
Qed.

Example C92_ex : tan_accurate libm_tan /\ (fin (lit 45 0) /\ / 64 <= real (lit 45 0) <= 179.999) /\ moderate (flit 14913081 (-23)) /\ moderate (lit 1920 0) /\ apart (lit 1920 0) fzero /\
  moderate (flit 13421773 (-27)) /\ moderate (lit 1000 0) /\ apart (lit 1000 0) (flit 13421773 (-27)) /\ bpow radix2 (-40) <= real (flit 13421773 (-27)) < real (lit 1000 0).
Proof.
  assert (L1 : fin (lit 45 0) /\ real (lit 45 0) = 45) by (destruct (lit_real 45 0) as [F E]; try lia; split; [exact F|]; etransitivity; [exact E|]; simpl; lra).
  assert (L2 : fin (flit 14913081 (-23)) /\ real (flit 14913081 (-23)) = 14913081 * / 8388608) by (destruct (lit_real 14913081 (-23)) as [F E]; try lia; split; [exact F|exact E]).
  assert (L3 : fin (lit 1920 0) /\ real (lit 1920 0) = 1920) by (destruct (lit_real 1920 0) as [F E]; try lia; split; [exact F|]; etransitivity; [exact E|]; simpl; lra).
  assert (L4 : fin (flit 13421773 (-27)) /\ real (flit 13421773 (-27)) = 13421773 * / 134217728) by (destruct (lit_real 13421773 (-27)) as [F E]; try lia; split; [exact F|exact E]).
  assert (L5 : fin (lit 1000 0) /\ real (lit 1000 0) = 1000) by (destruct (lit_real 1000 0) as [F E]; try lia; split; [exact F|]; etransitivity; [exact E|]; simpl; lra).
  destruct L1 as [F1 R1], L2 as [F2 R2], L3 as [F3 R3], L4 as [F4 R4], L5 as [F5 R5].
  assert (P : bpow radix2 (-40) <= / 1024) by (change (/ 1024) with (bpow radix2 (-10)); apply bpow_le; lia). assert (Q : 4096 <= bpow radix2 40) by (change 4096 with (bpow radix2 12); apply bpow_le; lia).
  assert (Z : real fzero = 0) by reflexivity.
  split; [exact libm_tan_ok|]. unfold moderate, apart. rewrite R1, R2, R3, R4, R5, Z. rewrite !Rabs_pos_eq by lra. repeat split; try assumption; lra.
Qed.
