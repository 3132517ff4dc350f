(** * Props_Undo: undoing a transformation in binary32 (C104). *)
From Coq Require Import ZArith Reals Bool List Lra Lia Psatz.
From Flocq Require Import Core BinarySingleNaN.
From Verif Require Import Num Simd Vec Rect Box Mat Geo Quat OrdThy FloatThy B32Setup FloatLem ErrThy Props_Err Props_Err2 Props_Err3 ErrEx Props_Err5 Props_Err6.
From Verif Require RMat Props_MatX Props_Dec.
Import ListNotations.
Local Open Scope R_scope.

(** ** specification *)
(** the determinant is clear of the singularity threshold and of its rounding error *)
Definition clear (m : mat b32) : Prop := upto_mat 30 m /\ real feps + det_err m < Rabs (det 4 (ent m)) /\ 2 * det_err m <= Rabs (det 4 (ent m)).
(** N is the inverse matrix of M (row-column products in both orders give the identity) *)
Definition inverse_of (N M : nat -> nat -> R) : Prop := forall i j, (i < 4)%nat -> (j < 4)%nat ->
  sum_rows (fun k => N i k * M k j) = (if Nat.eqb i j then 1 else 0) /\ sum_rows (fun k => M i k * N k j) = (if Nat.eqb i j then 1 else 0).
(** how far the entry (i, j) of the computed inverse of m may be off, x being the exact entry (C83) *)
Definition inv_err (m : mat b32) (x : R) (i j : nat) : R := 3 * (cof_err m i j + Rabs x * det_err m) / Rabs (det 4 (ent m)) + bpow radix2 (-149).

Lemma has_inverse m : clear m -> inverse_of (Props_MatX.minv (ent m)) (ent m).
Proof.
  intros (U & H1 & H2). assert (D : det 4 (ent m) <> 0). { intros E. rewrite E, Rabs_R0 in H1. pose proof (det_within Gcc m U) as [_ Q]. fold (det_err m) in Q. rewrite real_eps in H1. pose proof (Rle_trans _ _ _ (Rabs_pos _) Q). lra. }
  intros i j Hi Hj. split; [exact (Props_MatX.minv_l (ent m) D i j Hi Hj)|exact (Props_MatX.minv_r (ent m) D i j Hi Hj)].
Qed.
Lemma inverse_unique N N' M : inverse_of N M -> inverse_of N' M -> forall i j, (i < 4)%nat -> (j < 4)%nat -> N i j = N' i j.
Proof.
  intros H H' i j Hi Hj. assert (A : sum_rows (fun k => N i k * sum_rows (fun l => M k l * N' l j)) = N i j).
  { unfold sum_rows at 1. rewrite (proj2 (H' 0 j ltac:(lia) Hj))%nat, (proj2 (H' 1 j ltac:(lia) Hj))%nat, (proj2 (H' 2 j ltac:(lia) Hj))%nat, (proj2 (H' 3 j ltac:(lia) Hj))%nat. destruct j as [|[|[|[|j]]]]; [..|lia]; cbn; ring. }
  assert (B : sum_rows (fun l => sum_rows (fun k => N i k * M k l) * N' l j) = N' i j).
  { unfold sum_rows at 1. rewrite (proj1 (H i 0 Hi ltac:(lia)))%nat, (proj1 (H i 1 Hi ltac:(lia)))%nat, (proj1 (H i 2 Hi ltac:(lia)))%nat, (proj1 (H i 3 Hi ltac:(lia)))%nat. destruct i as [|[|[|[|i]]]]; [..|lia]; cbn; ring. }
  rewrite <- A, <- B. unfold sum_rows. ring.
Qed.
(** C83 for any description of the inverse *)
Lemma inverse_float (BK : Backend b32) (m : mat b32) N : ieee_div BK -> clear m -> inverse_of N (ent m) ->
  exists n, matrix_inverse m = Some n /\ finite_mat n /\ forall i j, (i < 4)%nat -> (j < 4)%nat -> Rabs (ent n i j - N i j) <= inv_err m (N i j) i j.
Proof.
  intros HB HC HN. pose proof HC as (U & H1 & H2). destruct (C83_inverse BK m HB U H1 H2) as (n & EN & K). exists n. split; [exact EN|]. pose proof (inverse_unique _ _ _ HN (has_inverse m HC)) as EQ.
  assert (G : forall i j, (i < 4)%nat -> (j < 4)%nat -> fin (matrix_get_value n i j) /\ Rabs (ent n i j - N i j) <= inv_err m (N i j) i j).
  { intros i j Hi Hj. specialize (K i j Hi Hj). cbv zeta in K. rewrite (EQ i j Hi Hj). destruct K as [F E]. split; [exact F|]. unfold ent. unfold inv_err, Props_MatX.minv.
    assert (EV : matrix_get_value n i j = g_get (nth i [mx n; my n; mz n; mw n] (mw n)) j) by (destruct i as [|[|[|[|i]]]]; [..|lia]; destruct j as [|[|[|[|j]]]]; try lia; reflexivity). rewrite <- EV. exact E. }
  split; [|intros i j Hi Hj; apply G; auto].
  assert (GF : forall i j, (i < 4)%nat -> (j < 4)%nat -> fin (matrix_get_value n i j)) by (intros; now apply G).
  unfold finite_mat, finite4. exact (conj (conj (GF 0 0 ltac:(lia) ltac:(lia)) (conj (GF 0 1 ltac:(lia) ltac:(lia)) (conj (GF 0 2 ltac:(lia) ltac:(lia)) (GF 0 3 ltac:(lia) ltac:(lia))))) (conj (conj (GF 1 0 ltac:(lia) ltac:(lia)) (conj (GF 1 1 ltac:(lia) ltac:(lia)) (conj (GF 1 2 ltac:(lia) ltac:(lia)) (GF 1 3 ltac:(lia) ltac:(lia))))) (conj (conj (GF 2 0 ltac:(lia) ltac:(lia)) (conj (GF 2 1 ltac:(lia) ltac:(lia)) (conj (GF 2 2 ltac:(lia) ltac:(lia)) (GF 2 3 ltac:(lia) ltac:(lia))))) (conj (GF 3 0 ltac:(lia) ltac:(lia)) (conj (GF 3 1 ltac:(lia) ltac:(lia)) (conj (GF 3 2 ltac:(lia) ltac:(lia)) (GF 3 3 ltac:(lia) ltac:(lia))))))))%nat.
Qed.

(** ** C104: the inverse undoes the matrix *)
(** the moduli of the terms of row i, column j of the two products *)
Definition right_size (m : mat b32) N i j : R := sum_rows (fun k => aent m i k * (Rabs (N k j) + inv_err m (N k j) k j)).
Definition left_size (m : mat b32) N i j : R := sum_rows (fun k => (Rabs (N i k) + inv_err m (N i k) i k) * aent m k j).
Theorem C104_inverse_product : forall (BK : Backend b32) (m : mat b32) N, ieee_div BK -> clear m -> inverse_of N (ent m) ->
  exists n, matrix_inverse m = Some n /\ forall i j, (i < 4)%nat -> (j < 4)%nat -> let one := if Nat.eqb i j then 1 else 0 in
  (right_size m N i j <= bpow radix2 126 -> within (sum_rows (fun k => aent m i k * inv_err m (N k j) k j) + tol (right_size m N i j)) (matrix_get_value (matrix_multiply m n) i j) one) /\
  (left_size m N i j <= bpow radix2 126 -> within (sum_rows (fun k => inv_err m (N i k) i k * aent m k j) + tol (left_size m N i j)) (matrix_get_value (matrix_multiply n m) i j) one).
Proof.
  intros BK m N HB HC HN. destruct (inverse_float BK m N HB HC HN) as (n & EN & FN & K). exists n. split; [exact EN|]. intros i j Hi Hj one.
  assert (FM : finite_mat m). { destruct HC as (U & _). unfold upto_mat, upto4, upto3, upto in U. unfold finite_mat, finite4. tauto. }
  assert (TM : forall s t, s <= t -> tol s <= tol t) by (intros s t H; unfold tol; assert (0 < bpow radix2 (-22)) by apply bpow_gt_0; assert (bpow radix2 (-22) * s <= bpow radix2 (-22) * t) by (apply Rmult_le_compat_l; lra); lra).
  assert (AB : forall k l, (k < 4)%nat -> (l < 4)%nat -> Rabs (ent n k l) <= Rabs (N k l) + inv_err m (N k l) k l) by (intros k l Hk Hl; specialize (K k l Hk Hl); replace (ent n k l) with (N k l + (ent n k l - N k l)) by ring; eapply Rle_trans; [apply Rabs_triang|]; lra).
  assert (S4 : forall f g, (forall k, (k < 4)%nat -> f k <= g k) -> sum_rows f <= sum_rows g) by (intros f g H; unfold sum_rows; pose proof (H 0%nat ltac:(lia)); pose proof (H 1%nat ltac:(lia)); pose proof (H 2%nat ltac:(lia)); pose proof (H 3%nat ltac:(lia)); lra).
  assert (A4 : forall f, Rabs (sum_rows f) <= sum_rows (fun k => Rabs (f k))) by (intros f; unfold sum_rows; repeat (eapply Rle_trans; [apply Rabs_triang|]; apply Rplus_le_compat_r); lra).
  destruct (HN i j Hi Hj) as [NL NR]. split; intros SZ.
  - assert (L : sum_rows (fun k => Rabs (ent m i k * ent n k j)) <= right_size m N i j). { apply S4. intros k Hk. rewrite Rabs_mult. apply Rmult_le_compat_l; [apply Rabs_pos|auto]. }
    destruct (C70_multiply BK m n i j Hi Hj FM FN ltac:(lra)) as [F E]. split; [exact F|]. set (r := real (matrix_get_value (matrix_multiply m n) i j)) in * . unfold one. rewrite <- NR.
    replace (r - sum_rows (fun k => ent m i k * N k j)) with (sum_rows (fun k => ent m i k * (ent n k j - N k j)) + (r - sum_rows (fun k => ent m i k * ent n k j))) by (unfold sum_rows; ring).
    eapply Rle_trans; [apply Rabs_triang|]. apply Rplus_le_compat; [|eapply Rle_trans; [exact E|]; now apply TM]. eapply Rle_trans; [apply A4|]. apply S4. intros k Hk. rewrite Rabs_mult. apply Rmult_le_compat_l; [apply Rabs_pos|auto].
  - assert (L : sum_rows (fun k => Rabs (ent n i k * ent m k j)) <= left_size m N i j). { apply S4. intros k Hk. rewrite Rabs_mult. apply Rmult_le_compat_r; [apply Rabs_pos|auto]. }
    destruct (C70_multiply BK n m i j Hi Hj FN FM ltac:(lra)) as [F E]. split; [exact F|]. set (r := real (matrix_get_value (matrix_multiply n m) i j)) in * . unfold one. rewrite <- NL.
    replace (r - sum_rows (fun k => N i k * ent m k j)) with (sum_rows (fun k => (ent n i k - N i k) * ent m k j) + (r - sum_rows (fun k => ent n i k * ent m k j))) by (unfold sum_rows; ring).
    eapply Rle_trans; [apply Rabs_triang|]. apply Rplus_le_compat; [|eapply Rle_trans; [exact E|]; now apply TM]. eapply Rle_trans; [apply A4|]. apply S4. intros k Hk. rewrite Rabs_mult. apply Rmult_le_compat_r; [apply Rabs_pos|auto].
Qed.

(** ** C104: points *)
(** a matrix acting on the plane only: the z and w rows and columns are those of the identity, except for a translation in x and y *)
Definition planar (m : mat b32) : Prop :=
  ent m 0 2 = 0 /\ ent m 0 3 = 0 /\ ent m 1 2 = 0 /\ ent m 1 3 = 0 /\ ent m 2 0 = 0 /\ ent m 2 1 = 0 /\ ent m 2 2 = 1 /\ ent m 2 3 = 0 /\ ent m 3 2 = 0 /\ ent m 3 3 = 1.
Lemma planar_2d m : finite_mat m -> planar m -> matrix_is_2d m = true.
Proof.
  intros ((A1 & A2 & A3 & A4) & (B1 & B2 & B3 & B4) & (C1 & C2 & C3 & C4) & (D1 & D2 & D3 & D4)) (E1 & E2 & E3 & E4 & E5 & E6 & E7 & E8 & E9 & E10).
  assert (Z : forall x : b32, fin x -> real x = 0 -> flt (fabs x) feps = true). { intros x F E. rewrite flt_X, feps_X, fabs_X, (fin_X x F), E. cbn [xabs]. apply xlt_fin. rewrite Rabs_R0. lra. }
  assert (O : forall x : b32, fin x -> real x = 1 -> flt (fsub fone (fabs x)) feps = true).
  { intros x F E. assert (FA : fin (fabs x) /\ real (fabs x) = 1) by (apply fin_of_X; rewrite fabs_X, (fin_X x F), E; cbn [xabs]; now rewrite Rabs_R1). destruct FA as [FA RA]. destruct (fin_of_X _ _ (fone_X : B2X (fone : b32) = Fin 1)) as [FO RO].
    rewrite flt_X, feps_X, fsub_X, (fin_X _ FA), (fin_X _ FO), RA, RO. cbn [xsub xadd xneg]. replace (1 - 1) with 0 by ring. rewrite xrnd_ok; [|rewrite Rabs_R0; apply bpow_ge_0]. apply xlt_fin. rewrite rnd32_FLT, round_0 by apply valid_rnd_N. lra. }
  unfold matrix_is_2d, gm_is_2d. rewrite !Z, !O; auto.
Qed.
(** the sum of the moduli of the terms of coordinate c, and the bound on its error *)
Definition back_size (m : mat b32) N (x y : R) (c : nat) : R := (Rabs (N 0%nat c) + inv_err m (N 0%nat c) 0 c) * Rabs x + (Rabs (N 1%nat c) + inv_err m (N 1%nat c) 1 c) * Rabs y + (Rabs (N 3%nat c) + inv_err m (N 3%nat c) 3 c).
Definition back_err (m : mat b32) N (x y : R) (c : nat) : R := inv_err m (N 0%nat c) 0 c * Rabs x + inv_err m (N 1%nat c) 1 c * Rabs y + inv_err m (N 3%nat c) 3 c + tol (back_size m N x y c).
Definition back (N : nat -> nat -> R) (x y : R) (c : nat) : R := N 0%nat c * x + N 1%nat c * y + N 3%nat c.
Lemma back_float (BK : Backend b32) (m : mat b32) N (p : point b32) (b : rect b32) : ieee_div BK -> clear m -> planar m -> inverse_of N (ent m) -> fin (px p) -> fin (py p) ->
  back_size m N (real (px p)) (real (py p)) 0 <= bpow radix2 126 -> back_size m N (real (px p)) (real (py p)) 1 <= bpow radix2 126 ->
  exists q, matrix_untransform_point m p b = Some q /\ within (back_err m N (real (px p)) (real (py p)) 0) (px q) (back N (real (px p)) (real (py p)) 0) /\ within (back_err m N (real (px p)) (real (py p)) 1) (py q) (back N (real (px p)) (real (py p)) 1).
Proof.
  intros HB HC HP HN FX FY S0 S1. destruct (inverse_float BK m N HB HC HN) as (n & EN & FN & K). unfold matrix_untransform_point.
  assert (FM : finite_mat m). { destruct HC as (U & _). unfold upto_mat, upto4, upto3, upto in U. unfold finite_mat, finite4. tauto. }
  rewrite (planar_2d m FM HP), EN. eexists. split; [reflexivity|]. destruct (C70_transform_point BK n p FN FX FY) as [T0 T1]. set (x := real (px p)) in * . set (y := real (py p)) in * .
  assert (TM : forall s t, s <= t -> tol s <= tol t) by (intros s t H; unfold tol; assert (0 < bpow radix2 (-22)) by apply bpow_gt_0; assert (bpow radix2 (-22) * s <= bpow radix2 (-22) * t) by (apply Rmult_le_compat_l; lra); lra).
  assert (AB : forall k l, (k < 4)%nat -> (l < 4)%nat -> Rabs (ent n k l) <= Rabs (N k l) + inv_err m (N k l) k l) by (intros k l Hk Hl; specialize (K k l Hk Hl); replace (ent n k l) with (N k l + (ent n k l - N k l)) by ring; eapply Rle_trans; [apply Rabs_triang|]; lra).
  assert (G : forall c (r : b32), (c < 2)%nat -> back_size m N x y c <= bpow radix2 126 -> (Rabs (ent n 0 c * x) + Rabs (ent n 1 c * y) + Rabs (ent n 3 c) <= bpow radix2 126 -> within (tol (Rabs (ent n 0 c * x) + Rabs (ent n 1 c * y) + Rabs (ent n 3 c))) r (ent n 0 c * x + ent n 1 c * y + ent n 3 c)) -> within (back_err m N x y c) r (back N x y c)).
  { intros c r Hc SZ T. assert (L : Rabs (ent n 0 c * x) + Rabs (ent n 1 c * y) + Rabs (ent n 3 c) <= back_size m N x y c).
    { unfold back_size. rewrite !Rabs_mult. apply Rplus_le_compat; [apply Rplus_le_compat|]; [apply Rmult_le_compat_r; [apply Rabs_pos|]| apply Rmult_le_compat_r; [apply Rabs_pos|]|]; apply AB; lia. }
    destruct (T ltac:(lra)) as [F E]. split; [exact F|]. unfold back_err, back.
    replace (real r - _) with ((ent n 0 c - N 0%nat c) * x + (ent n 1 c - N 1%nat c) * y + (ent n 3 c - N 3%nat c) + (real r - (ent n 0 c * x + ent n 1 c * y + ent n 3 c))) by ring.
    eapply Rle_trans; [apply Rabs_triang|]. apply Rplus_le_compat; [|eapply Rle_trans; [exact E|]; now apply TM]. eapply Rle_trans; [apply Rabs_triang|]. apply Rplus_le_compat; [|apply K; lia]. eapply Rle_trans; [apply Rabs_triang|]. rewrite !Rabs_mult. apply Rplus_le_compat; apply Rmult_le_compat_r; try apply Rabs_pos; apply K; lia. }
  split; apply G; auto.
Qed.
(** graphene_matrix_untransform_point returns, up to rounding, the point that the matrix sends exactly to the given one *)
Theorem C104_untransform_point : forall (BK : Backend b32) (m : mat b32) N (p : point b32) (b : rect b32), ieee_div BK -> clear m -> planar m -> inverse_of N (ent m) -> fin (px p) -> fin (py p) ->
  let x := real (px p) in let y := real (py p) in
  back_size m N x y 0 <= bpow radix2 126 -> back_size m N x y 1 <= bpow radix2 126 ->
  exists q X Y, matrix_untransform_point m p b = Some q /\
  (ent m 0 0 * X + ent m 1 0 * Y + ent m 3 0 = x /\ ent m 0 1 * X + ent m 1 1 * Y + ent m 3 1 = y) /\
  within (back_err m N x y 0) (px q) X /\ within (back_err m N x y 1) (py q) Y.
Proof.
  intros BK m N p b HB HC HP HN FX FY x y S0 S1. destruct (back_float BK m N p b HB HC HP HN FX FY S0 S1) as (q & EQ & Q0 & Q1). exists q, (back N x y 0), (back N x y 1). refine (conj EQ (conj _ (conj Q0 Q1))).
  destruct HP as (E1 & E2 & E3 & E4 & E5 & E6 & E7 & E8 & E9 & E10). unfold back.
  pose proof (fun i j Hi Hj => proj1 (HN i j Hi Hj)) as L. unfold sum_rows in L.
  pose proof (L 0 0 ltac:(lia) ltac:(lia))%nat as L00. pose proof (L 0 1 ltac:(lia) ltac:(lia))%nat as L01. pose proof (L 1 0 ltac:(lia) ltac:(lia))%nat as L10. pose proof (L 1 1 ltac:(lia) ltac:(lia))%nat as L11. pose proof (L 3 0 ltac:(lia) ltac:(lia))%nat as L30. pose proof (L 3 1 ltac:(lia) ltac:(lia))%nat as L31.
  pose proof (L 0 3 ltac:(lia) ltac:(lia))%nat as L03. pose proof (L 1 3 ltac:(lia) ltac:(lia))%nat as L13. pose proof (L 3 3 ltac:(lia) ltac:(lia))%nat as L33.
  cbn [Nat.eqb] in * . rewrite E2, E4, E8, E10 in L03, L13, L33. rewrite E5 in L00, L10, L30. rewrite E6 in L01, L11, L31.
  assert (N03 : N 0%nat 3%nat = 0) by lra. assert (N13 : N 1%nat 3%nat = 0) by lra. assert (N33 : N 3%nat 3%nat = 1) by lra. rewrite N03 in L00, L01. rewrite N13 in L10, L11. rewrite N33 in L30, L31.
  split.
  - transitivity ((N 0%nat 0%nat * ent m 0 0 + N 0%nat 1%nat * ent m 1 0) * x + (N 1%nat 0%nat * ent m 0 0 + N 1%nat 1%nat * ent m 1 0) * y + (N 3%nat 0%nat * ent m 0 0 + N 3%nat 1%nat * ent m 1 0 + ent m 3 0)); [ring|].
    replace (N 0%nat 0%nat * ent m 0 0 + N 0%nat 1%nat * ent m 1 0) with 1 by lra. replace (N 1%nat 0%nat * ent m 0 0 + N 1%nat 1%nat * ent m 1 0) with 0 by lra. replace (N 3%nat 0%nat * ent m 0 0 + N 3%nat 1%nat * ent m 1 0 + ent m 3 0) with 0 by lra. ring.
  - transitivity ((N 0%nat 0%nat * ent m 0 1 + N 0%nat 1%nat * ent m 1 1) * x + (N 1%nat 0%nat * ent m 0 1 + N 1%nat 1%nat * ent m 1 1) * y + (N 3%nat 0%nat * ent m 0 1 + N 3%nat 1%nat * ent m 1 1 + ent m 3 1)); [ring|].
    replace (N 0%nat 0%nat * ent m 0 1 + N 0%nat 1%nat * ent m 1 1) with 0 by lra. replace (N 1%nat 0%nat * ent m 0 1 + N 1%nat 1%nat * ent m 1 1) with 1 by lra. replace (N 3%nat 0%nat * ent m 0 1 + N 3%nat 1%nat * ent m 1 1 + ent m 3 1) with 0 by lra. ring.
Qed.
(** there and back: transforming a point and undoing it gives the point back up to rounding *)
Theorem C104_round_trip : forall (BK : Backend b32) (m : mat b32) N (p : point b32) (b : rect b32), ieee_div BK -> clear m -> planar m -> inverse_of N (ent m) -> fin (px p) -> fin (py p) ->
  let x := real (px p) in let y := real (py p) in let s c := aent m 0 c * Rabs x + aent m 1 c * Rabs y + aent m 3 c in
  let q := matrix_transform_point m p in let qx := real (px q) in let qy := real (py q) in
  s 0%nat <= bpow radix2 126 -> s 1%nat <= bpow radix2 126 -> back_size m N qx qy 0 <= bpow radix2 126 -> back_size m N qx qy 1 <= bpow radix2 126 ->
  let e c := back_err m N qx qy c + Rabs (N 0%nat c) * tol (s 0%nat) + Rabs (N 1%nat c) * tol (s 1%nat) in
  exists r, matrix_untransform_point m q b = Some r /\ within (e 0%nat) (px r) x /\ within (e 1%nat) (py r) y.
Proof.
  intros BK m N p b HB HC HP HN FX FY x y s q qx qy S0 S1 B0 B1 e.
  assert (FM : finite_mat m). { destruct HC as (U & _). unfold upto_mat, upto4, upto3, upto in U. unfold finite_mat, finite4. tauto. }
  destruct (C70_transform_point BK m p FM FX FY) as [T0 T1]. fold q x y in T0, T1.
  assert (ES : forall c, Rabs (ent m 0 c * x) + Rabs (ent m 1 c * y) + Rabs (ent m 3 c) = s c) by (intros c; unfold s, aent; now rewrite !Rabs_mult). rewrite !ES in T0, T1.
  destruct (T0 S0) as [FQ0 EQ0]. destruct (T1 S1) as [FQ1 EQ1]. fold qx in EQ0. fold qy in EQ1.
  destruct (back_float BK m N q b HB HC HP HN FQ0 FQ1 B0 B1) as (r & ER & [FR0 R0] & [FR1 R1]). fold qx qy in R0, R1. exists r. split; [exact ER|].
  destruct HP as (E1 & E2 & E3 & E4 & E5 & E6 & E7 & E8 & E9 & E10). pose proof (fun i j Hi Hj => proj2 (HN i j Hi Hj)) as L. unfold sum_rows in L.
  pose proof (L 0 0 ltac:(lia) ltac:(lia))%nat as L00. pose proof (L 0 1 ltac:(lia) ltac:(lia))%nat as L01. pose proof (L 1 0 ltac:(lia) ltac:(lia))%nat as L10. pose proof (L 1 1 ltac:(lia) ltac:(lia))%nat as L11. pose proof (L 3 0 ltac:(lia) ltac:(lia))%nat as L30. pose proof (L 3 1 ltac:(lia) ltac:(lia))%nat as L31.
  cbn [Nat.eqb] in * . rewrite E1, E2 in L00, L01. rewrite E3, E4 in L10, L11. rewrite E9, E10 in L30, L31.
  set (tx := ent m 0 0 * x + ent m 1 0 * y + ent m 3 0) in * . set (ty := ent m 0 1 * x + ent m 1 1 * y + ent m 3 1) in * .
  assert (K : forall c (r0 : b32) w, fin r0 -> Rabs (real r0 - back N qx qy c) <= back_err m N qx qy c -> back N tx ty c = w -> within (e c) r0 w).
  { intros c r0 w F E W. split; [exact F|]. unfold e. rewrite <- W. replace (real r0 - back N tx ty c) with ((real r0 - back N qx qy c) + N 0%nat c * (qx - tx) + N 1%nat c * (qy - ty)) by (unfold back; ring).
    eapply Rle_trans; [apply Rabs_triang|]. apply Rplus_le_compat; [eapply Rle_trans; [apply Rabs_triang|]; apply Rplus_le_compat; [exact E|]|]; rewrite Rabs_mult; apply Rmult_le_compat_l; auto using Rabs_pos. }
  split; (apply K; [assumption|assumption|]); unfold back, tx, ty.
  - transitivity ((ent m 0 0 * N 0%nat 0%nat + ent m 0 1 * N 1%nat 0%nat) * x + (ent m 1 0 * N 0%nat 0%nat + ent m 1 1 * N 1%nat 0%nat) * y + (ent m 3 0 * N 0%nat 0%nat + ent m 3 1 * N 1%nat 0%nat + N 3%nat 0%nat)); [ring|].
    replace (ent m 0 0 * N 0%nat 0%nat + ent m 0 1 * N 1%nat 0%nat) with 1 by lra. replace (ent m 1 0 * N 0%nat 0%nat + ent m 1 1 * N 1%nat 0%nat) with 0 by lra. replace (ent m 3 0 * N 0%nat 0%nat + ent m 3 1 * N 1%nat 0%nat + N 3%nat 0%nat) with 0 by lra. ring.
  - transitivity ((ent m 0 0 * N 0%nat 1%nat + ent m 0 1 * N 1%nat 1%nat) * x + (ent m 1 0 * N 0%nat 1%nat + ent m 1 1 * N 1%nat 1%nat) * y + (ent m 3 0 * N 0%nat 1%nat + ent m 3 1 * N 1%nat 1%nat + N 3%nat 1%nat)); [ring|].
    replace (ent m 0 0 * N 0%nat 1%nat + ent m 0 1 * N 1%nat 1%nat) with 0 by lra. replace (ent m 1 0 * N 0%nat 1%nat + ent m 1 1 * N 1%nat 1%nat) with 1 by lra. replace (ent m 3 0 * N 0%nat 1%nat + ent m 3 1 * N 1%nat 1%nat + N 3%nat 1%nat) with 0 by lra. ring.
Qed.
(** the back-face test is right when the entry of the inverse it looks at is not nearly 0 *)
Theorem C104_backface : forall (BK : Backend b32) (m : mat b32) N, ieee_div BK -> clear m -> inverse_of N (ent m) ->
  (N 2%nat 2%nat < - inv_err m (N 2%nat 2%nat) 2 2 -> matrix_is_backface_visible m = true) /\ (inv_err m (N 2%nat 2%nat) 2 2 <= N 2%nat 2%nat -> matrix_is_backface_visible m = false).
Proof.
  intros BK m N HB HC HN. destruct (inverse_float BK m N HB HC HN) as (n & EN & (_ & _ & (_ & _ & Fz & _) & _) & K). specialize (K 2 2 ltac:(lia) ltac:(lia))%nat. unfold matrix_inverse in EN. unfold matrix_is_backface_visible. rewrite EN. change (ent n 2 2) with (real (g_get_z (mz n))) in K. change (vz (mz n)) with (g_get_z (mz n)) in Fz. set (w := g_get_z (mz n)) in * .
  assert (FZ : fin (fzero : b32)) by reflexivity. assert (RZ : real (fzero : b32) = 0) by reflexivity. apply Rabs_le_inv in K. split; intros H; rewrite flt_X, (fin_X w Fz), (fin_X _ FZ), RZ.
  - apply xlt_fin. lra.
  - destruct (xlt (Fin (real w)) (Fin 0)) eqn:E; auto. apply xlt_fin in E. lra.
Qed.
(** a matrix that scales, shears and moves: (x, y) goes to (2x + 3, x + y + 5) *)
Definition shear : mat b32 := M4 (V4 ftwo fone fzero fzero) (V4 fzero fone fzero fzero) (V4 fzero fzero fone fzero) (V4 (lit 3 0) (lit 5 0) fzero fone).
Definition unshear (i j : nat) : R := match i, j with 0%nat, 0%nat => / 2 | 0%nat, 1%nat => - / 2 | 1%nat, 1%nat | 2%nat, 2%nat | 3%nat, 3%nat => 1 | 3%nat, 0%nat => - 1.5 | 3%nat, 1%nat => - 3.5 | _, _ => 0 end.
Example C104_ex : let x := 7 in let y := -2 in clear shear /\ planar shear /\ inverse_of unshear (ent shear) /\ back_size shear unshear x y 0 <= bpow radix2 126 /\ back_size shear unshear x y 1 <= bpow radix2 126 /\ back_err shear unshear x y 0 <= / 200 /\
  inv_err shear (unshear 0 0) 0 0 <= / 100000.
Proof.
  intros x y. destruct (lit_real 3 0) as [F3 R3]; try lia. destruct (lit_real 5 0) as [F5 R5]; try lia. change (flit 3 0) with (lit 3 0 : b32) in * . change (flit 5 0) with (lit 5 0 : b32) in * . change (bpow radix2 0) with 1 in * . rewrite !Rmult_1_r in * .
  assert (EN : forall i j, (i < 4)%nat -> (j < 4)%nat -> ent shear i j = match i, j with 0%nat, 0%nat => 2 | 0%nat, 1%nat | 1%nat, 1%nat | 2%nat, 2%nat => 1 | 0%nat, _ | 1%nat, _ | 2%nat, _ => 0 | _, 0%nat => 3 | _, 1%nat => 5 | _, 2%nat => 0 | _, _ => 1 end).
  { intros i j Hi Hj. unfold ent, shear. destruct i as [|[|[|[|i]]]]; [..|lia]; destruct j as [|[|[|[|j]]]]; try lia; cbn; rewrite ?one_real, ?zero_real, ?two_real, ?R3, ?R5; auto. }
  assert (AN : forall i j, (i < 4)%nat -> (j < 4)%nat -> aent shear i j = ent shear i j). { intros i j Hi Hj. unfold aent. apply Rabs_pos_eq. rewrite EN by auto. destruct i as [|[|[|[|i]]]]; [..|lia]; destruct j as [|[|[|[|j]]]]; try lia; lra. }
  assert (D : det 4 (ent shear) = 2) by (rewrite RMat.det4; cbv zeta; rewrite !EN by lia; ring).
  assert (PP : perm 4 (aent shear) = 2) by (cbn; rewrite !AN, !EN by lia; ring).
  assert (T80 : bpow radix2 (-80) <= bpow radix2 (-20)) by (apply bpow_le; lia). assert (T110 : bpow radix2 (-110) <= bpow radix2 (-20)) by (apply bpow_le; lia). assert (T149 : bpow radix2 (-149) <= bpow radix2 (-20)) by (apply bpow_le; lia). assert (T147 : bpow radix2 (-147) <= bpow radix2 (-20)) by (apply bpow_le; lia). pose proof (bpow_gt_0 radix2 (-80)) as Q80. pose proof (bpow_gt_0 radix2 (-110)) as Q110. pose proof (bpow_gt_0 radix2 (-149)) as Q149. change (bpow radix2 (-20)) with (/ 1048576) in * .
  assert (DE : 0 <= det_err shear <= / 400000). { unfold det_err. rewrite PP. unfold slack. change (bpow radix2 (-24)) with u32. rewrite u32_val. lra. }
  assert (CE : forall i j, (i < 4)%nat -> (j < 4)%nat -> 0 <= cof_err shear i j <= / 4000).
  { intros i j Hi Hj. assert (0 <= cof_abs shear i j <= 750). { unfold cof_abs. assert (G : forall r c, (r < 4)%nat -> (c < 4)%nat -> 0 <= aent shear r c <= 5) by (intros r c Hr Hc; rewrite AN, EN by auto; destruct r as [|[|[|[|r]]]]; [..|lia]; destruct c as [|[|[|[|c]]]]; try lia; lra).
      destruct (perm_bound 3 (fun r c => aent shear (if Nat.ltb r j then r else Datatypes.S r) (if Nat.ltb c i then c else Datatypes.S c)) 5) as [P0 P1]; [lra|intros r c Hr Hc; apply G; [destruct (Nat.ltb r j); lia|destruct (Nat.ltb c i); lia]|]. split; [exact P0|]. eapply Rle_trans; [exact P1|]. simpl. lra. }
    unfold cof_err, slack. change (bpow radix2 (-24)) with u32. rewrite u32_val. lra. }
  assert (IE : forall i j, (i < 4)%nat -> (j < 4)%nat -> Rabs (unshear i j) <= 3.5 -> 0 <= inv_err shear (unshear i j) i j <= / 2500).
  { intros i j Hi Hj B. unfold inv_err. rewrite D, (Rabs_pos_eq 2) by lra. specialize (CE i j Hi Hj). pose proof (Rabs_pos (unshear i j)) as P. assert (0 <= Rabs (unshear i j) * det_err shear <= 3.5 * / 400000) by (split; [apply Rmult_le_pos; lra|apply Rmult_le_compat; lra]). unfold Rdiv. lra. }
  assert (R7 : Rabs x = 7) by (unfold x; apply Rabs_pos_eq; lra). assert (R2 : Rabs y = 2) by (unfold y; rewrite Rabs_left; lra).
  assert (A00 : Rabs (unshear 0 0) = / 2) by (unfold unshear; apply Rabs_pos_eq; lra). assert (A01 : Rabs (unshear 0 1) = / 2) by (unfold unshear; rewrite Rabs_left; lra). assert (A10 : Rabs (unshear 1 0) = 0) by (unfold unshear; apply Rabs_R0). assert (A11 : Rabs (unshear 1 1) = 1) by (unfold unshear; apply Rabs_R1). assert (A30 : Rabs (unshear 3 0) = 1.5) by (unfold unshear; rewrite Rabs_left; lra). assert (A31 : Rabs (unshear 3 1) = 3.5) by (unfold unshear; rewrite Rabs_left; lra).
  pose proof (IE 0 0 ltac:(lia) ltac:(lia) ltac:(lra))%nat as I00. pose proof (IE 0 1 ltac:(lia) ltac:(lia) ltac:(lra))%nat as I01. pose proof (IE 1 0 ltac:(lia) ltac:(lia) ltac:(lra))%nat as I10. pose proof (IE 1 1 ltac:(lia) ltac:(lia) ltac:(lra))%nat as I11. pose proof (IE 3 0 ltac:(lia) ltac:(lia) ltac:(lra))%nat as I30. pose proof (IE 3 1 ltac:(lia) ltac:(lia) ltac:(lra))%nat as I31.
  assert (P6 : 64 <= bpow radix2 126) by (change 64 with (bpow radix2 6); apply bpow_le; lia).
  assert (B0 : back_size shear unshear x y 0 <= 6) by (unfold back_size; rewrite R7, R2, A00, A10, A30; lra).
  refine (conj (conj _ (conj _ _)) (conj _ (conj _ (conj _ (conj _ (conj _ _)))))).
  - assert (UL : forall k, (k = 3 \/ k = 5)%Z -> upto 30 (lit k 0)). { intros k [-> | ->]; split; auto; rewrite ?R3, ?R5, Rabs_pos_eq by lra; assert (8 <= bpow radix2 30) by (change 8 with (bpow radix2 3); apply bpow_le; lia); lra. }
    unfold upto_mat, upto4, upto3, shear; cbn [mx my mz mw vx vy vz vw]. pose proof (zero_upto 30). pose proof (one_upto 30 ltac:(lia)). pose proof (two_upto 30 ltac:(lia)). pose proof (UL 3%Z ltac:(lia)). pose proof (UL 5%Z ltac:(lia)). tauto.
  - rewrite D, Rabs_pos_eq, real_eps by lra. lra.
  - rewrite D, Rabs_pos_eq by lra. lra.
  - unfold planar. rewrite !EN by lia. repeat split.
  - intros i j Hi Hj. unfold sum_rows. rewrite !EN by lia. destruct i as [|[|[|[|i]]]]; [..|lia]; destruct j as [|[|[|[|j]]]]; try lia; cbn; lra.
  - lra.
  - unfold back_size. rewrite R7, R2, A01, A11, A31. lra.
  - unfold back_err, tol. rewrite R7, R2. change (bpow radix2 (-22)) with (/ 4194304). lra.
  - unfold inv_err. rewrite D, A00, (Rabs_pos_eq 2) by lra. assert (cof_abs shear 0 0 = 1) as E1 by (unfold cof_abs; cbn; rewrite !AN, !EN by lia; ring). unfold cof_err. rewrite E1. unfold slack. change (bpow radix2 (-24)) with u32. rewrite u32_val. unfold Rdiv. lra.
Qed.
