(** * Props_Drift2: how far long chains of matrix products drift (C85). *)
From Coq Require Import ZArith Reals Bool List Lra Lia Psatz.
From Flocq Require Import Core BinarySingleNaN.
From Verif Require Import Num Simd Vec Rect Box Mat Geo Quat OrdThy FloatThy B32Setup FloatLem ErrThy Props_Err Props_Err2 Props_Err3 ErrEx Props_Err5.
From Verif Require Props_Drift.
From Verif Require Import Props_Err6.
Import ListNotations.
Local Open Scope R_scope.

(** ** real 4x4 matrices and row vectors *)
Definition rmul (a b : nat -> nat -> R) : nat -> nat -> R := fun r c => sum_rows (fun k => a r k * b k c).
Definition rabs (a : nat -> nat -> R) : nat -> nat -> R := fun r c => Rabs (a r c).
Definition rdif (a b : nat -> nat -> R) : nat -> nat -> R := fun r c => a r c - b r c.
(** the row vector times the matrix, as graphene transforms vectors *)
Definition vmul (v : nat -> R) (a : nat -> nat -> R) : nat -> R := fun c => sum_rows (fun k => v k * a k c).
Definition vnorm (v : nat -> R) : R := sqrt (sum_rows (fun k => v k * v k)).
(** Frobenius norm *)
Definition fro (a : nat -> nat -> R) : R := sqrt (sum_rows (fun r => sum_rows (fun c => a r c * a r c))).

(** ** running error bound, any matrices *)
(** what absolute values can grow to: each step rounds up by 2^-22 and 2^-147 *)
Definition grow (u b : nat -> nat -> R) : nat -> nat -> R := fun r c => (1 + bpow radix2 (-22)) * rmul u (rabs b) r c + bpow radix2 (-147).
Definition upper (m0 : mat b32) (l : list (mat b32)) : nat -> nat -> R := fold_left (fun u b => grow u (ent b)) l (rabs (ent m0)).
Definition exact (m0 : mat b32) (l : list (mat b32)) : nat -> nat -> R := fold_left (fun u b => rmul u (ent b)) l (ent m0).
Definition magn (m0 : mat b32) (l : list (mat b32)) : nat -> nat -> R := fold_left (fun u b => rmul u (rabs (ent b))) l (rabs (ent m0)).

Lemma sum_le f g : (forall k, (k < 4)%nat -> f k <= g k) -> sum_rows f <= sum_rows g.
Proof. intros H. unfold sum_rows. pose proof (H 0%nat ltac:(lia)). pose proof (H 1%nat ltac:(lia)). pose proof (H 2%nat ltac:(lia)). pose proof (H 3%nat ltac:(lia)). lra. Qed.
Lemma sum_ext f g : (forall k, (k < 4)%nat -> f k = g k) -> sum_rows f = sum_rows g.
Proof. intros H. unfold sum_rows. rewrite !H by lia. reflexivity. Qed.
Lemma sum_nonneg f : (forall k, (k < 4)%nat -> 0 <= f k) -> 0 <= sum_rows f.
Proof. intros H. unfold sum_rows. pose proof (H 0%nat ltac:(lia)). pose proof (H 1%nat ltac:(lia)). pose proof (H 2%nat ltac:(lia)). pose proof (H 3%nat ltac:(lia)). lra. Qed.
Lemma sum_abs f : Rabs (sum_rows f) <= sum_rows (fun k => Rabs (f k)).
Proof. unfold sum_rows. pose proof (Rabs_triang (f 0%nat + f 1%nat + f 2%nat) (f 3%nat)). pose proof (Rabs_triang (f 0%nat + f 1%nat) (f 2%nat)). pose proof (Rabs_triang (f 0%nat) (f 1%nat)). lra. Qed.

Lemma get_ent m r c : (r < 4)%nat -> (c < 4)%nat -> real (matrix_get_value m r c) = ent m r c /\ (finite_mat m -> fin (matrix_get_value m r c)).
Proof.
  intros Hr Hc. split.
  - do 4 (destruct r as [|r]; [do 4 (destruct c as [|c]; [reflexivity|]); lia|]); lia.
  - intros ((A & B & C & D) & (E & F & G & H) & (I & J & K & L) & (M & N & O & P)).
    do 4 (destruct r as [|r]; [do 4 (destruct c as [|c]; [assumption|]); lia|]); lia.
Qed.
Lemma fin_get m : (forall r c, (r < 4)%nat -> (c < 4)%nat -> fin (matrix_get_value m r c)) -> finite_mat m.
Proof.
  intros H. unfold finite_mat, finite4.
  pose proof (fun c Hc => H 0%nat c ltac:(lia) Hc) as H0. pose proof (fun c Hc => H 1%nat c ltac:(lia) Hc) as H1. pose proof (fun c Hc => H 2%nat c ltac:(lia) Hc) as H2. pose proof (fun c Hc => H 3%nat c ltac:(lia) Hc) as H3.
  repeat split; first [exact (H0 0%nat ltac:(lia))|exact (H0 1%nat ltac:(lia))|exact (H0 2%nat ltac:(lia))|exact (H0 3%nat ltac:(lia))|exact (H1 0%nat ltac:(lia))|exact (H1 1%nat ltac:(lia))|exact (H1 2%nat ltac:(lia))|exact (H1 3%nat ltac:(lia))
   |exact (H2 0%nat ltac:(lia))|exact (H2 1%nat ltac:(lia))|exact (H2 2%nat ltac:(lia))|exact (H2 3%nat ltac:(lia))|exact (H3 0%nat ltac:(lia))|exact (H3 1%nat ltac:(lia))|exact (H3 2%nat ltac:(lia))|exact (H3 3%nat ltac:(lia))].
Qed.
(** one product: finite, and each entry within [tol] *)
Lemma step_prod (BK : Backend b32) a b : finite_mat a -> finite_mat b ->
  (forall r c, (r < 4)%nat -> (c < 4)%nat -> rmul (rabs (ent a)) (rabs (ent b)) r c <= bpow radix2 126) ->
  finite_mat (matrix_multiply a b) /\ forall r c, (r < 4)%nat -> (c < 4)%nat ->
  Rabs (ent (matrix_multiply a b) r c - rmul (ent a) (ent b) r c) <= tol (rmul (rabs (ent a)) (rabs (ent b)) r c).
Proof.
  intros FA FB H.
  assert (E : forall r c, rmul (rabs (ent a)) (rabs (ent b)) r c = sum_rows (fun k => Rabs (ent a r k * ent b k c))).
  { intros r c. apply sum_ext. intros k _. unfold rabs. now rewrite Rabs_mult. }
  assert (W : forall r c, (r < 4)%nat -> (c < 4)%nat -> within (tol (rmul (rabs (ent a)) (rabs (ent b)) r c)) (matrix_get_value (matrix_multiply a b) r c) (rmul (ent a) (ent b) r c)).
  { intros r c Hr Hc. rewrite E. apply C70_multiply; auto. rewrite <- E. auto. }
  split.
  - apply fin_get. intros r c Hr Hc. apply W; auto.
  - intros r c Hr Hc. destruct (W r c Hr Hc) as [_ Q]. now rewrite (proj1 (get_ent _ r c Hr Hc)) in Q.
Qed.
Definition below4 (u : nat -> nat -> R) (b : R) : Prop := forall r c, (r < 4)%nat -> (c < 4)%nat -> u r c <= b.
Lemma running (BK : Backend b32) : forall (l : list (mat b32)) (p : mat b32) (x a u : nat -> nat -> R), finite_mat p -> Forall finite_mat l ->
  (forall r c, (r < 4)%nat -> (c < 4)%nat -> Rabs (ent p r c - x r c) <= u r c - a r c) -> (forall r c, (r < 4)%nat -> (c < 4)%nat -> Rabs (x r c) <= a r c) ->
  (forall l1 l2, l = l1 ++ l2 -> below4 (fold_left (fun u b => grow u (ent b)) l1 u) (bpow radix2 126)) ->
  let p' := fold_left matrix_multiply l p in finite_mat p' /\
  forall r c, (r < 4)%nat -> (c < 4)%nat -> Rabs (ent p' r c - fold_left (fun u b => rmul u (ent b)) l x r c) <= fold_left (fun u b => grow u (ent b)) l u r c - fold_left (fun u b => rmul u (rabs (ent b))) l a r c.
Proof.
  induction l as [|b l IH]; intros p x a u FP FL E A HB; cbv zeta; cbn [fold_left]; [auto|].
  inversion FL as [|? ? FB FL']; subst.
  assert (PU : forall r c, (r < 4)%nat -> (c < 4)%nat -> Rabs (ent p r c) <= u r c).
  { intros r c Hr Hc. specialize (E r c Hr Hc). specialize (A r c Hr Hc). replace (ent p r c) with ((ent p r c - x r c) + x r c) by ring. eapply Rle_trans; [apply Rabs_triang|]. lra. }
  assert (SU : forall r c, (r < 4)%nat -> (c < 4)%nat -> rmul (rabs (ent p)) (rabs (ent b)) r c <= rmul u (rabs (ent b)) r c).
  { intros r c Hr Hc. apply sum_le. intros k Hk. apply Rmult_le_compat_r; [apply Rabs_pos|apply PU; auto]. }
  assert (NU : forall r c, (r < 4)%nat -> (c < 4)%nat -> 0 <= rmul u (rabs (ent b)) r c).
  { intros r c Hr Hc. apply sum_nonneg. intros k Hk. apply Rmult_le_pos; [|apply Rabs_pos]. eapply Rle_trans; [apply Rabs_pos|apply PU; auto]. }
  pose proof (bpow_gt_0 radix2 (-22)) as G. pose proof (bpow_gt_0 radix2 (-147)) as T.
  destruct (step_prod BK p b FP FB) as [F Q].
  { intros r c Hr Hc. specialize (HB [b] l eq_refl r c Hr Hc). cbn [fold_left] in HB. unfold grow in HB. specialize (SU r c Hr Hc). specialize (NU r c Hr Hc). nra. }
  apply IH; auto.
  - intros r c Hr Hc. specialize (Q r c Hr Hc). unfold tol in Q. specialize (SU r c Hr Hc).
    assert (D : Rabs (rmul (ent p) (ent b) r c - rmul x (ent b) r c) <= rmul u (rabs (ent b)) r c - rmul a (rabs (ent b)) r c).
    { replace (rmul (ent p) (ent b) r c - rmul x (ent b) r c) with (sum_rows (fun k => (ent p r k - x r k) * ent b k c)) by (unfold rmul, sum_rows; ring).
      replace (rmul u (rabs (ent b)) r c - rmul a (rabs (ent b)) r c) with (sum_rows (fun k => (u r k - a r k) * rabs (ent b) k c)) by (unfold rmul, sum_rows; ring).
      eapply Rle_trans; [apply sum_abs|]. apply sum_le. intros k Hk. rewrite Rabs_mult. apply Rmult_le_compat_r; [apply Rabs_pos|apply E; auto]. }
    unfold grow.
    replace (ent (matrix_multiply p b) r c - rmul x (ent b) r c) with ((ent (matrix_multiply p b) r c - rmul (ent p) (ent b) r c) + (rmul (ent p) (ent b) r c - rmul x (ent b) r c)) by ring.
    eapply Rle_trans; [apply Rabs_triang|]. assert (bpow radix2 (-22) * rmul (rabs (ent p)) (rabs (ent b)) r c <= bpow radix2 (-22) * rmul u (rabs (ent b)) r c) by (apply Rmult_le_compat_l; lra). lra.
  - intros r c Hr Hc. unfold rmul. eapply Rle_trans; [apply sum_abs|]. apply sum_le. intros k Hk. rewrite Rabs_mult. apply Rmult_le_compat_r; [apply Rabs_pos|apply A; auto].
  - intros l1 l2 ->. exact (HB (b :: l1) l2 eq_refl).
Qed.
(** graphene_matrix_multiply applied again and again: the error of each entry of the accumulated product is at most the excess of the
    rounded-up product of absolute values over the exact one *)
Theorem C85_running_bound : forall (BK : Backend b32) (m0 : mat b32) (l : list (mat b32)), finite_mat m0 -> Forall finite_mat l ->
  (forall l1 l2, l = l1 ++ l2 -> below4 (upper m0 l1) (bpow radix2 126)) ->
  let p := fold_left matrix_multiply l m0 in
  forall r c, (r < 4)%nat -> (c < 4)%nat -> within (upper m0 l r c - magn m0 l r c) (matrix_get_value p r c) (exact m0 l r c).
Proof.
  intros BK m0 l F0 FL HB p r c Hr Hc.
  destruct (running BK l m0 (ent m0) (rabs (ent m0)) (rabs (ent m0)) F0 FL) as [F Q].
  - intros i j _ _. rewrite Rminus_eq_0, Rabs_R0. lra.
  - intros i j _ _. apply Rle_refl.
  - exact HB.
  - destruct (get_ent p r c Hr Hc) as [E FE]. split; [apply FE, F|]. rewrite E. apply Q; auto.
Qed.
(** ** closed form, when the absolute row sums are at most [L] *)
Definition row_sum (a : nat -> nat -> R) (r : nat) : R := sum_rows (fun c => a r c).
Definition rows_upto (L : R) (m : mat b32) : Prop := finite_mat m /\ forall r, (r < 4)%nat -> row_sum (rabs (ent m)) r <= L.
Lemma row_mul a b r L : (r < 4)%nat -> (forall k, (k < 4)%nat -> 0 <= a r k) -> (forall k, (k < 4)%nat -> row_sum b k <= L) -> row_sum (rmul a b) r <= row_sum a r * L.
Proof.
  intros Hr A B. replace (row_sum (rmul a b) r) with (sum_rows (fun k => a r k * row_sum b k)) by (unfold row_sum, rmul, sum_rows; ring).
  replace (row_sum a r * L) with (sum_rows (fun k => a r k * L)) by (unfold row_sum, sum_rows; ring). apply sum_le. intros k Hk. apply Rmult_le_compat_l; auto.
Qed.
Lemma upper_magn m0 l : forall r c, (r < 4)%nat -> (c < 4)%nat -> 0 <= magn m0 l r c <= upper m0 l r c.
Proof.
  unfold magn, upper. cut (forall u a, (forall r c, (r < 4)%nat -> (c < 4)%nat -> 0 <= a r c <= u r c) -> forall r c, (r < 4)%nat -> (c < 4)%nat ->
    0 <= fold_left (fun u b => rmul u (rabs (ent b))) l a r c <= fold_left (fun u b => grow u (ent b)) l u r c).
  { intros K. apply K. intros; split; [apply Rabs_pos|apply Rle_refl]. }
  induction l as [|b l IH]; intros u a H0 r c Hr Hc; cbn [fold_left]; auto.
  apply IH; auto. clear r c Hr Hc. intros r c Hr Hc. pose proof (bpow_gt_0 radix2 (-22)). pose proof (bpow_gt_0 radix2 (-147)).
  assert (0 <= rmul a (rabs (ent b)) r c) by (apply sum_nonneg; intros k Hk; apply Rmult_le_pos; [apply H0; auto|apply Rabs_pos]).
  assert (rmul a (rabs (ent b)) r c <= rmul u (rabs (ent b)) r c) by (apply sum_le; intros k Hk; apply Rmult_le_compat_r; [apply Rabs_pos|apply H0; auto]).
  unfold grow. split; [auto|]. nra.
Qed.
Lemma rows_bound m0 L : 1 <= L -> rows_upto L m0 -> forall l, Forall (rows_upto L) l -> INR (length l) * bpow radix2 (-20) <= 1 ->
  forall r, (r < 4)%nat -> row_sum (magn m0 l) r <= L ^ (length l + 1) /\ row_sum (upper m0 l) r - row_sum (magn m0 l) r <= INR (length l) * bpow radix2 (-20) * L ^ (length l + 1).
Proof.
  intros HL [F0 R0] l. induction l as [|b l IH] using rev_ind; intros FA HN r Hr.
  { cbn [length INR Nat.add]. unfold magn, upper; cbn [fold_left]. rewrite pow_1. split; [auto|]. lra. }
  apply Forall_app in FA as [FA FB]. inversion FB as [|? ? [FB1 RB] _]; subst. rewrite app_length in HN |- * . cbn [length] in HN |- * .
  rewrite plus_INR in HN |- * . cbn [INR] in HN |- * . set (n := length l) in * . pose proof (pos_INR n) as PN.
  assert (G : bpow radix2 (-20) = / 1048576) by reflexivity. assert (G2 : bpow radix2 (-22) = / 4194304) by reflexivity.
  destruct (IH FA ltac:(lra) r Hr) as [M D]. unfold magn, upper in * . rewrite !fold_left_app. cbn [fold_left].
  set (a := fold_left (fun u b => rmul u (rabs (ent b))) l (rabs (ent m0))) in * . set (u := fold_left (fun u b => grow u (ent b)) l (rabs (ent m0))) in * .
  pose proof (upper_magn m0 l) as UM. unfold upper, magn in UM. fold a u in UM.
  assert (P1 : 1 <= L ^ (n + 1)) by (apply pow_R1_Rle; auto).
  assert (EP : L ^ (n + 1 + 1) = L ^ (n + 1) * L) by (rewrite (Nat.add_comm (n + 1) 1); cbn [Nat.add pow]; ring).
  rewrite EP. set (Q := L ^ (n + 1)) in * .
  assert (A1 : row_sum (rmul a (rabs (ent b))) r <= row_sum a r * L) by (apply row_mul; auto; intros k Hk; apply UM; auto).
  split. { eapply Rle_trans; [exact A1|]. apply Rmult_le_compat_r; lra. }
  assert (U1 : row_sum (rmul u (rabs (ent b))) r <= row_sum u r * L) by (apply row_mul; auto; intros k Hk; specialize (UM r k Hr Hk); lra).
  assert (D1 : row_sum (rmul (rdif u a) (rabs (ent b))) r <= row_sum (rdif u a) r * L) by (apply row_mul; auto; intros k Hk; specialize (UM r k Hr Hk); unfold rdif; lra).
  assert (E1 : row_sum (rdif u a) r = row_sum u r - row_sum a r) by (unfold row_sum, rdif, sum_rows; ring).
  assert (E2 : row_sum (rmul (rdif u a) (rabs (ent b))) r = row_sum (rmul u (rabs (ent b))) r - row_sum (rmul a (rabs (ent b))) r) by (unfold row_sum, rdif, rmul, sum_rows; ring).
  assert (E3 : row_sum (grow u (ent b)) r = (1 + bpow radix2 (-22)) * row_sum (rmul u (rabs (ent b))) r + 4 * bpow radix2 (-147)) by (unfold row_sum, grow, sum_rows; ring).
  rewrite E1, E2 in D1. rewrite E3.
  assert (T : 4 * bpow radix2 (-147) <= / 4194304) by (change 4 with (bpow radix2 2); rewrite <- bpow_plus, <- G2; apply bpow_le; lia).
  rewrite G in * . rewrite G2.
  (* rows of the upper bound are at most 2 Q *)
  assert (S : row_sum u r <= 2 * Q). { assert (INR n * / 1048576 * Q <= 1 * Q) by (apply Rmult_le_compat_r; lra). lra. }
  assert (S2 : row_sum u r * L <= 2 * Q * L) by (apply Rmult_le_compat_r; lra).
  assert (DL : (row_sum u r - row_sum a r) * L <= INR n * / 1048576 * Q * L) by (apply Rmult_le_compat_r; lra).
  assert (QL : 1 <= Q * L) by nra.
  replace ((INR n + 1) * / 1048576 * (Q * L)) with (INR n * / 1048576 * Q * L + / 1048576 * (Q * L)) by ring. lra.
Qed.
Theorem C85_row_sums : forall (BK : Backend b32) (L : R) (m0 : mat b32) (l : list (mat b32)), 1 <= L -> rows_upto L m0 -> Forall (rows_upto L) l ->
  let n := length l in INR n * bpow radix2 (-20) <= 1 -> L ^ (n + 1) <= bpow radix2 125 ->
  let p := fold_left matrix_multiply l m0 in
  finite_mat p /\ forall r, (r < 4)%nat -> sum_rows (fun c => Rabs (real (matrix_get_value p r c) - exact m0 l r c)) <= INR n * bpow radix2 (-20) * L ^ (n + 1).
Proof.
  intros BK L m0 l HL R0 RL n HN HP p.
  assert (W : forall r c, (r < 4)%nat -> (c < 4)%nat -> within (upper m0 l r c - magn m0 l r c) (matrix_get_value p r c) (exact m0 l r c)).
  { apply C85_running_bound; auto. { apply R0. } { eapply Forall_impl; [|exact RL]. intros m [F _]; exact F. }
    intros l1 l2 E r c Hr Hc. assert (FA : Forall (rows_upto L) l1) by (rewrite E in RL; now apply Forall_app in RL).
    assert (LE : (length l1 <= n)%nat) by (unfold n; rewrite E, app_length; lia). assert (LR : INR (length l1) <= INR n) by now apply le_INR.
    assert (G : 0 < bpow radix2 (-20)) by apply bpow_gt_0.
    assert (H1 : INR (length l1) * bpow radix2 (-20) <= 1) by nra.
    destruct (rows_bound m0 L HL R0 l1 FA H1 r Hr) as [M D].
    assert (U : upper m0 l1 r c <= row_sum (upper m0 l1) r).
    { pose proof (fun k Hk => upper_magn m0 l1 r k Hr Hk) as UM. pose proof (UM 0%nat ltac:(lia)). pose proof (UM 1%nat ltac:(lia)). pose proof (UM 2%nat ltac:(lia)). pose proof (UM 3%nat ltac:(lia)).
      unfold row_sum, sum_rows. do 4 (destruct c as [|c]; [lra|]). lia. }
    assert (P0 : 0 <= L ^ (length l1 + 1)) by (apply pow_le; lra). assert (PP : L ^ (length l1 + 1) <= L ^ (n + 1)) by (apply Rle_pow; [auto|lia]).
    assert (INR (length l1) * bpow radix2 (-20) * L ^ (length l1 + 1) <= 1 * L ^ (length l1 + 1)) by (apply Rmult_le_compat_r; auto).
    assert (E2 : bpow radix2 126 = 2 * bpow radix2 125) by (change 126%Z with (1 + 125)%Z; now rewrite bpow_plus). lra. }
  split. { apply fin_get. intros r c Hr Hc. apply W; auto. }
  intros r Hr. destruct (rows_bound m0 L HL R0 l RL HN r Hr) as [_ D]. eapply Rle_trans; [|exact D].
  replace (row_sum (upper m0 l) r - row_sum (magn m0 l) r) with (sum_rows (fun c => upper m0 l r c - magn m0 l r c)) by (unfold row_sum, sum_rows; ring).
  apply sum_le. intros c Hc. apply W; auto.
Qed.

(** ** nearly rigid matrices *)
(** lengths of row vectors change by at most the factor 1 +- d *)
Definition near_rigid (d : R) (a : nat -> nat -> R) : Prop := forall v, (1 - d) * vnorm v <= vnorm (vmul v a) <= (1 + d) * vnorm v.
Lemma vnorm_pos v : 0 <= vnorm v. Proof. apply sqrt_pos. Qed.
Lemma vnorm_sq v : vnorm v * vnorm v = sum_rows (fun k => v k * v k).
Proof. apply sqrt_sqrt. apply sum_nonneg. intros; nra. Qed.
Lemma vnorm_mono u v : (forall k, (k < 4)%nat -> Rabs (u k) <= v k) -> vnorm u <= vnorm v.
Proof. intros H. apply sqrt_le_1_alt, sum_le. intros k Hk. specialize (H k Hk). apply Rabs_le_inv in H. nra. Qed.
Lemma vnorm_ext u v : (forall k, (k < 4)%nat -> u k = v k) -> vnorm u = vnorm v.
Proof. intros H. unfold vnorm. f_equal. apply sum_ext. intros k Hk. now rewrite H. Qed.
Lemma vnorm_cs u v : sum_rows (fun k => u k * v k) <= vnorm u * vnorm v.
Proof. unfold vnorm, sum_rows. apply Props_Drift.cs4. Qed.
Lemma vnorm_tri u v : vnorm (fun k => u k + v k) <= vnorm u + vnorm v.
Proof.
  pose proof (vnorm_pos u). pose proof (vnorm_pos v). unfold vnorm at 1. rewrite <- (sqrt_square (vnorm u + vnorm v)) by lra. apply sqrt_le_1_alt.
  replace (sum_rows (fun k => (u k + v k) * (u k + v k))) with (sum_rows (fun k => u k * u k) + 2 * sum_rows (fun k => u k * v k) + sum_rows (fun k => v k * v k)) by (unfold sum_rows; ring).
  rewrite <- !vnorm_sq. pose proof (vnorm_cs u v). lra.
Qed.
Lemma fro_rows a : fro a = vnorm (fun r => vnorm (a r)).
Proof. unfold fro, vnorm at 1. f_equal. apply sum_ext. intros r _. now rewrite vnorm_sq. Qed.
Lemma fro_cols a : fro a = vnorm (fun c => vnorm (fun r => a r c)).
Proof. unfold fro, vnorm at 1. f_equal. rewrite (sum_ext (fun k => vnorm (fun r => a r k) * vnorm (fun r => a r k)) (fun k => sum_rows (fun r => a r k * a r k))) by (intros; apply vnorm_sq). unfold sum_rows. ring. Qed.
Lemma fro_pos a : 0 <= fro a. Proof. apply sqrt_pos. Qed.
Lemma fro_sq a : fro a * fro a = sum_rows (fun r => sum_rows (fun c => a r c * a r c)).
Proof. apply sqrt_sqrt. apply sum_nonneg. intros; apply sum_nonneg. intros; nra. Qed.
Lemma fro_mono a b : (forall r c, (r < 4)%nat -> (c < 4)%nat -> Rabs (a r c) <= b r c) -> fro a <= fro b.
Proof. intros H. unfold fro. apply sqrt_le_1_alt, sum_le. intros r Hr. apply sum_le. intros c Hc. specialize (H r c Hr Hc). apply Rabs_le_inv in H. nra. Qed.
Lemma fro_ext a b : (forall r c, (r < 4)%nat -> (c < 4)%nat -> a r c = b r c) -> fro a = fro b.
Proof. intros H. unfold fro. f_equal. apply sum_ext. intros r Hr. apply sum_ext. intros c Hc. now rewrite H. Qed.
Lemma fro_tri a b : fro (fun r c => a r c + b r c) <= fro a + fro b.
Proof.
  rewrite !fro_rows. eapply Rle_trans; [|apply vnorm_tri]. apply vnorm_mono. intros k Hk. rewrite Rabs_pos_eq by apply vnorm_pos. apply vnorm_tri.
Qed.
Lemma fro_scal k a : 0 <= k -> fro (fun r c => k * a r c) = k * fro a.
Proof.
  intros H. unfold fro. replace (sum_rows (fun r => sum_rows (fun c => k * a r c * (k * a r c)))) with (k * k * sum_rows (fun r => sum_rows (fun c => a r c * a r c))) by (unfold sum_rows; ring).
  rewrite sqrt_mult_alt by nra. now rewrite sqrt_square.
Qed.
Lemma fro_const k : 0 <= k -> fro (fun _ _ => k) = 4 * k.
Proof. intros H. unfold fro, sum_rows. replace (k * k + k * k + k * k + k * k + (k * k + k * k + k * k + k * k) + (k * k + k * k + k * k + k * k) + (k * k + k * k + k * k + k * k)) with ((4 * k) * (4 * k)) by ring. apply sqrt_square. lra. Qed.
Lemma fro_abs a : fro (rabs a) = fro a.
Proof. unfold fro, rabs. f_equal. apply sum_ext; intros r _; apply sum_ext; intros c _. rewrite <- Rabs_mult. apply Rabs_pos_eq. nra. Qed.
(** ||A B|| <= ||A|| ||B|| *)
Lemma fro_mul a b : fro (rmul a b) <= fro a * fro b.
Proof.
  pose proof (fro_pos a). pose proof (fro_pos b). rewrite <- (sqrt_square (fro a * fro b)) by nra. unfold fro at 1. apply sqrt_le_1_alt.
  replace (fro a * fro b * (fro a * fro b)) with ((fro a * fro a) * (fro b * fro b)) by ring. rewrite (fro_cols b), vnorm_sq, (fro_rows a), vnorm_sq.
  set (p := fun r => vnorm (a r)). set (q := fun c => vnorm (fun r => b r c)).
  assert (E : sum_rows (fun r => sum_rows (fun c => (p r * q c) * (p r * q c))) = sum_rows (fun k => p k * p k) * sum_rows (fun k => q k * q k)) by (unfold sum_rows; ring). eapply Rle_trans; [|apply Req_le; exact E].
  apply sum_le; intros r Hr; apply sum_le; intros c Hc.
  assert (A : Rabs (rmul a b r c) <= p r * q c).
  { unfold rmul. eapply Rle_trans; [apply sum_abs|]. unfold p, q, sum_rows, vnorm. apply (Props_Drift.cs4abs (a r 0%nat) (a r 1%nat) (a r 2%nat) (a r 3%nat) (b 0%nat c) (b 1%nat c) (b 2%nat c) (b 3%nat c)). }
  apply Rabs_le_inv in A. nra.
Qed.
(** the Frobenius norm bounds the operator norm *)
Lemma vmul_fro v a : vnorm (vmul v a) <= vnorm v * fro a.
Proof.
  pose proof (vnorm_pos v). pose proof (fro_pos a). rewrite <- (sqrt_square (vnorm v * fro a)) by nra. unfold vnorm at 1. apply sqrt_le_1_alt.
  replace (vnorm v * fro a * (vnorm v * fro a)) with ((vnorm v * vnorm v) * (fro a * fro a)) by ring. rewrite (fro_cols a), (vnorm_sq (fun c => vnorm (fun r => a r c))).
  set (q := fun c => vnorm (fun r => a r c)).
  assert (E : sum_rows (fun c => (vnorm v * q c) * (vnorm v * q c)) = vnorm v * vnorm v * sum_rows (fun k => q k * q k)) by (unfold sum_rows; ring). eapply Rle_trans; [|apply Req_le; exact E].
  apply sum_le; intros c Hc.
  assert (A : Rabs (vmul v a c) <= vnorm v * q c).
  { unfold vmul. eapply Rle_trans; [apply sum_abs|]. unfold q, sum_rows, vnorm. apply (Props_Drift.cs4abs (v 0%nat) (v 1%nat) (v 2%nat) (v 3%nat) (a 0%nat c) (a 1%nat c) (a 2%nat c) (a 3%nat c)). }
  apply Rabs_le_inv in A. nra.
Qed.
(** multiplying by a nearly rigid matrix on the right *)
Lemma fro_rigid d a b : 0 <= d -> near_rigid d b -> fro (rmul a b) <= (1 + d) * fro a.
Proof.
  intros D N. rewrite !fro_rows.
  assert (E : (1 + d) * vnorm (fun r => vnorm (a r)) = vnorm (fun r => (1 + d) * vnorm (a r))).
  { unfold vnorm at 1 3. replace (sum_rows (fun k => (1 + d) * vnorm (a k) * ((1 + d) * vnorm (a k)))) with (((1 + d) * (1 + d)) * sum_rows (fun k => vnorm (a k) * vnorm (a k))) by (unfold sum_rows; ring).
    rewrite sqrt_mult_alt by nra. rewrite sqrt_square by lra. reflexivity. }
  rewrite E. apply vnorm_mono. intros r Hr. rewrite Rabs_pos_eq by apply vnorm_pos. apply (N (a r)).
Qed.
Lemma rigid_fro d b : 0 <= d -> near_rigid d b -> fro b <= 2 * (1 + d).
Proof.
  intros D N. set (one := fun r k => if Nat.eqb r k then 1 else 0 : R).
  assert (E : fro b = fro (rmul one b)). { apply fro_ext. intros r c Hr Hc. unfold rmul, one, sum_rows. do 4 (destruct r as [|r]; [cbn; ring|]). lia. }
  rewrite E. eapply Rle_trans; [apply fro_rigid; eauto|]. assert (F : fro one = 2). { unfold fro, one, sum_rows; cbn. replace (_ + _) with (2 * 2) by ring. apply sqrt_square. lra. }
  rewrite F. lra.
Qed.
Lemma vmul_assoc v a b c : vmul (vmul v a) b c = vmul v (rmul a b) c.
Proof. unfold vmul, rmul, sum_rows. ring. Qed.
Lemma vmul_dif v a b : vnorm (vmul v a) <= vnorm (vmul v b) + vnorm v * fro (rdif a b).
Proof.
  eapply Rle_trans; [|apply Rplus_le_compat_l, vmul_fro]. eapply Rle_trans; [|apply vnorm_tri]. apply Req_le, vnorm_ext. intros k _. unfold vmul, rdif, sum_rows. ring.
Qed.
Lemma rigid_d d b : near_rigid d b -> 0 <= d.
Proof.
  intros N. specialize (N (fun k => if Nat.eqb k 0 then 1 else 0)). assert (E : vnorm (fun k => if Nat.eqb k 0 then 1 else 0) = 1) by (unfold vnorm, sum_rows; cbn; replace (_ + _) with (1 * 1) by ring; apply sqrt_square; lra). rewrite E in N. lra.
Qed.
Definition rigid_mat (d : R) (m : mat b32) : Prop := finite_mat m /\ near_rigid d (ent m).
Lemma fro_dif_tri a b c : fro (rdif a c) <= fro (rdif a b) + fro (rdif b c).
Proof. eapply Rle_trans; [|apply fro_tri]. apply Req_le, fro_ext. intros; unfold rdif; ring. Qed.
Lemma fro_from a b : fro a <= fro b + fro (rdif a b).
Proof. eapply Rle_trans; [|apply fro_tri]. apply Req_le, fro_ext. intros; unfold rdif; ring. Qed.
Lemma entry_fro a r c : (r < 4)%nat -> (c < 4)%nat -> Rabs (a r c) <= fro a.
Proof.
  intros Hr Hc. apply Rsqr_incr_0_var; [|apply fro_pos]. unfold Rsqr. rewrite fro_sq, <- Rabs_mult, Rabs_pos_eq by nra.
  assert (P : forall i j, 0 <= a i j * a i j) by (intros; nra).
  unfold sum_rows. pose proof (P 0%nat 0%nat). pose proof (P 0%nat 1%nat). pose proof (P 0%nat 2%nat). pose proof (P 0%nat 3%nat). pose proof (P 1%nat 0%nat). pose proof (P 1%nat 1%nat). pose proof (P 1%nat 2%nat). pose proof (P 1%nat 3%nat).
  pose proof (P 2%nat 0%nat). pose proof (P 2%nat 1%nat). pose proof (P 2%nat 2%nat). pose proof (P 2%nat 3%nat). pose proof (P 3%nat 0%nat). pose proof (P 3%nat 1%nat). pose proof (P 3%nat 2%nat). pose proof (P 3%nat 3%nat).
  do 4 (destruct r as [|r]; [do 4 (destruct c as [|c]; [lra|]); lia|]); lia.
Qed.
(** one product in Frobenius norm *)
Lemma prod_fro (BK : Backend b32) a b : finite_mat a -> finite_mat b -> fro (ent a) * fro (ent b) <= bpow radix2 126 ->
  finite_mat (matrix_multiply a b) /\ fro (rdif (ent (matrix_multiply a b)) (rmul (ent a) (ent b))) <= bpow radix2 (-22) * (fro (ent a) * fro (ent b)) + bpow radix2 (-145).
Proof.
  intros FA FB H. pose proof (fro_mul (rabs (ent a)) (rabs (ent b))) as M. rewrite !fro_abs in M.
  destruct (step_prod BK a b FA FB) as [F Q].
  { intros r c Hr Hc. pose proof (entry_fro (rmul (rabs (ent a)) (rabs (ent b))) r c Hr Hc) as X. pose proof (Rle_abs (rmul (rabs (ent a)) (rabs (ent b)) r c)). lra. }
  split; auto. pose proof (bpow_gt_0 radix2 (-22)). pose proof (bpow_gt_0 radix2 (-147)).
  eapply Rle_trans; [apply (fro_mono _ (fun r c => bpow radix2 (-22) * rmul (rabs (ent a)) (rabs (ent b)) r c + bpow radix2 (-147))); intros r c Hr Hc; apply Q; auto|].
  eapply Rle_trans; [apply fro_tri|]. rewrite fro_scal, fro_const by lra. replace (4 * bpow radix2 (-147)) with (bpow radix2 (-145)) by (change (-145)%Z with (2 + -147)%Z; now rewrite bpow_plus).
  apply Rplus_le_compat_r, Rmult_le_compat_l; lra.
Qed.
Lemma rigid_chain (BK : Backend b32) (m0 : mat b32) (d : R) : rigid_mat d m0 -> forall l, Forall (rigid_mat d) l ->
  (INR (length l) + 1) * d <= / 4 -> 14 * INR (length l) * bpow radix2 (-22) <= 1 ->
  let n := length l in let p := fold_left matrix_multiply l m0 in
  finite_mat p /\ fro (rdif (ent p) (exact m0 l)) <= 9 * bpow radix2 (-22) * (INR n * (1 + d) ^ n) /\
  (forall v, (1 - d) ^ (n + 1) * vnorm v <= vnorm (vmul v (exact m0 l)) <= (1 + d) ^ (n + 1) * vnorm v) /\ fro (exact m0 l) <= 2 * (1 + d) ^ (n + 1).
Proof.
  intros [F0 N0] l. pose proof (rigid_d _ _ N0) as D0. induction l as [|b l IH] using rev_ind; intros FA H1 H2; cbv zeta.
  - unfold exact. cbn [fold_left length INR Nat.add] in * . rewrite !pow_1. split; auto. split; [|split].
    + replace (fro (rdif (ent m0) (ent m0))) with 0; [lra|]. symmetry. unfold fro, rdif, sum_rows. rewrite <- sqrt_0. f_equal. ring.
    + apply N0.
    + apply rigid_fro; auto.
  - rewrite app_length in * . cbn [length] in * . replace (length l + 1)%nat with (Datatypes.S (length l)) in * by lia. rewrite S_INR in * .
    apply Forall_app in FA as [FL FQ]. inversion FQ as [|? ? [Fb Nb] _]; subst. pose proof (pos_INR (length l)) as PL.
    pose proof (bpow_gt_0 radix2 (-22)) as U0. specialize (IH FL ltac:(nra) ltac:(nra)). cbv zeta in IH. unfold exact in * . rewrite !fold_left_app. cbn [fold_left].
    set (n := length l) in * . set (p := fold_left matrix_multiply l m0) in * . set (E := fold_left (fun u b => rmul u (ent b)) l (ent m0)) in * .
    destruct IH as (Fp & ER & RG & HI). set (e := fro (rdif (ent p) E)) in * .
    replace (n + 1)%nat with (Datatypes.S n) in * by lia.
    assert (U1 : (1 + d) ^ Datatypes.S n <= 1.5). { eapply Rle_trans; [apply Props_Drift.pow_up; auto|]; rewrite S_INR; nra. }
    assert (U2 : (1 + d) ^ n <= 1.5). { eapply Rle_trans; [apply Props_Drift.pow_up; auto; nra|]. nra. }
    assert (U3 : 1 <= (1 + d) ^ n) by (apply pow_R1_Rle; lra).
    assert (Dd : d <= / 8) by nra.
    assert (Ee : e <= 1). { eapply Rle_trans; [exact ER|]. assert (INR n * (1 + d) ^ n <= INR n * 1.5) by (apply Rmult_le_compat_l; auto).
      apply Rle_trans with (9 * bpow radix2 (-22) * (INR n * 1.5)); [apply Rmult_le_compat_l; [lra|auto]|]. nra. }
    pose proof (fro_pos (ent p)) as Pp. pose proof (fro_pos (ent b)) as Pb. pose proof (fro_pos E) as PE.
    assert (NP : fro (ent p) <= 4). { eapply Rle_trans; [apply (fro_from _ E)|]. fold e. lra. }
    pose proof (rigid_fro d (ent b) D0 Nb) as NB.
    assert (PN : fro (ent p) * fro (ent b) <= 4 * (2 * (1 + d))) by (apply Rmult_le_compat; lra).
    assert (B60 : 16 <= bpow radix2 126) by (change 16 with (bpow radix2 4); apply bpow_le; lia).
    destruct (prod_fro BK p b Fp Fb ltac:(lra)) as [FP DP]. split; [exact FP|]. split; [|split].
    + eapply Rle_trans; [apply (fro_dif_tri _ (rmul (ent p) (ent b)))|].
      assert (T0 : fro (rdif (rmul (ent p) (ent b)) (rmul E (ent b))) <= (1 + d) * e).
      { eapply Rle_trans; [apply Req_le, (fro_ext _ (rmul (rdif (ent p) E) (ent b))); intros; unfold rdif, rmul, sum_rows; ring|]. now apply fro_rigid. }
      assert (T1 : bpow radix2 (-22) * (fro (ent p) * fro (ent b)) <= bpow radix2 (-22) * (4 * (2 * (1 + d)))) by (apply Rmult_le_compat_l; lra).
      assert (T2 : bpow radix2 (-145) <= / 2 * bpow radix2 (-22)) by (change (/ 2) with (bpow radix2 (-1)); rewrite <- bpow_plus; apply bpow_le; lia).
      assert (T3 : (1 + d) * e <= (1 + d) * (9 * bpow radix2 (-22) * (INR n * (1 + d) ^ n))) by (apply Rmult_le_compat_l; lra).
      cbn [pow]. assert (V : 1 + d <= (1 + d) * (1 + d) ^ n) by nra.
      replace (9 * bpow radix2 (-22) * ((INR n + 1) * ((1 + d) * (1 + d) ^ n))) with
        ((1 + d) * (9 * bpow radix2 (-22) * (INR n * (1 + d) ^ n)) + 9 * bpow radix2 (-22) * ((1 + d) * (1 + d) ^ n)) by ring.
      assert (9 * bpow radix2 (-22) * (1 + d) <= 9 * bpow radix2 (-22) * ((1 + d) * (1 + d) ^ n)) by (apply Rmult_le_compat_l; lra). nra.
    + intros v. replace (Datatypes.S n + 1)%nat with (Datatypes.S (Datatypes.S n)) by lia. rewrite <- !(tech_pow_Rmult _ (Datatypes.S n)).
      assert (AS : vnorm (vmul v (rmul E (ent b))) = vnorm (vmul (vmul v E) (ent b))) by (apply vnorm_ext; intros; symmetry; apply vmul_assoc). rewrite AS. specialize (RG v). specialize (Nb (vmul v E)).
      split.
      * eapply Rle_trans; [|apply Nb]. rewrite Rmult_assoc. apply Rmult_le_compat_l; lra.
      * eapply Rle_trans; [apply Nb|]. rewrite Rmult_assoc. apply Rmult_le_compat_l; lra.
    + replace (Datatypes.S n + 1)%nat with (Datatypes.S (Datatypes.S n)) by lia. rewrite <- (tech_pow_Rmult _ (Datatypes.S n)). apply Rle_trans with ((1 + d) * fro E); [apply fro_rigid; auto|].
      replace (2 * ((1 + d) * (1 + d) ^ Datatypes.S n)) with ((1 + d) * (2 * (1 + d) ^ Datatypes.S n)) by ring. apply Rmult_le_compat_l; lra.
Qed.
(** Accumulating n rotations (or any nearly rigid matrices) with graphene_matrix_multiply: the result is within 14 n units of 2^-22 of the
    exact product, and changes no length by more than that plus what the operands' own defects explain. *)
Theorem C85_rigid_chain : forall (BK : Backend b32) (d : R) (m0 : mat b32) (l : list (mat b32)), rigid_mat d m0 -> Forall (rigid_mat d) l ->
  let n := INR (length l) in (n + 1) * d <= / 4 -> 14 * n * bpow radix2 (-22) <= 1 ->
  let p := fold_left matrix_multiply l m0 in
  fro (rdif (ent p) (exact m0 l)) <= 14 * n * bpow radix2 (-22) /\ rigid_mat (2 * (n + 1) * d + 14 * n * bpow radix2 (-22)) p.
Proof.
  intros BK d m0 l R0 RL n H1 H2 p. pose proof (bpow_gt_0 radix2 (-22)). pose proof (pos_INR (length l)) as PN. fold n in PN. pose proof (rigid_d _ _ (proj2 R0)) as D0.
  destruct (rigid_chain BK m0 d R0 l RL H1 H2) as (F & E & RG & _). fold p in F, E. fold n in E.
  assert (U2 : (1 + d) ^ length l <= 1.5). { eapply Rle_trans; [apply Props_Drift.pow_up; auto; fold n; nra|]. fold n. nra. }
  assert (E14 : fro (rdif (ent p) (exact m0 l)) <= 14 * n * bpow radix2 (-22)).
  { eapply Rle_trans; [exact E|]. assert (n * (1 + d) ^ length l <= n * 1.5) by (apply Rmult_le_compat_l; auto). apply Rle_trans with (9 * bpow radix2 (-22) * (n * 1.5)); [apply Rmult_le_compat_l; [lra|auto]|]. nra. }
  split; auto. split; auto. intros v. specialize (RG v). pose proof (vnorm_pos v) as PV.
  assert (U1 : (1 + d) ^ (length l + 1) <= 1 + 2 * (n + 1) * d). { eapply Rle_trans; [apply Props_Drift.pow_up; auto|]; rewrite plus_INR; cbn [INR]; fold n; lra. }
  assert (U3 : 1 - (n + 1) * d <= (1 - d) ^ (length l + 1)). { eapply Rle_trans; [|apply Props_Drift.pow_down; nra]. rewrite plus_INR; cbn [INR]; fold n; lra. }
  pose proof (vmul_dif v (ent p) (exact m0 l)) as V1. pose proof (vmul_dif v (exact m0 l) (ent p)) as V2.
  assert (SY : fro (rdif (exact m0 l) (ent p)) = fro (rdif (ent p) (exact m0 l))). { unfold fro, rdif. f_equal. apply sum_ext; intros; apply sum_ext; intros; ring. } rewrite SY in V2.
  assert (VE : vnorm v * fro (rdif (ent p) (exact m0 l)) <= vnorm v * (14 * n * bpow radix2 (-22))) by (apply Rmult_le_compat_l; auto).
  assert (A1 : (1 + d) ^ (length l + 1) * vnorm v <= (1 + 2 * (n + 1) * d) * vnorm v) by (apply Rmult_le_compat_r; auto).
  assert (A2 : (1 - (n + 1) * d) * vnorm v <= (1 - d) ^ (length l + 1) * vnorm v) by (apply Rmult_le_compat_r; auto).
  assert (A3 : 0 <= (n + 1) * d * vnorm v) by (repeat apply Rmult_le_pos; lra).
  split; lra.
Qed.
(** ** matrices of unit quaternions are nearly rigid *)
(** the textbook matrix of N times a rotation, for N the squared length *)
Definition homog (x y z w : R) (r c : nat) : R :=
  match r, c with
  | 0%nat, 0%nat => w * w + x * x - y * y - z * z | 0%nat, 1%nat => 2 * (x * y + w * z)     | 0%nat, 2%nat => 2 * (x * z - w * y)
  | 1%nat, 0%nat => 2 * (x * y - w * z)     | 1%nat, 1%nat => w * w - x * x + y * y - z * z | 1%nat, 2%nat => 2 * (y * z + w * x)
  | 2%nat, 0%nat => 2 * (x * z + w * y)     | 2%nat, 1%nat => 2 * (y * z - w * x)     | 2%nat, 2%nat => w * w - x * x - y * y + z * z
  | 3%nat, 3%nat => 1 | _, _ => 0 end.
Lemma vscale k v : 0 <= k -> vnorm (fun i => k * v i) = k * vnorm v.
Proof. intros H. unfold vnorm. replace (sum_rows (fun i => k * v i * (k * v i))) with (k * k * sum_rows (fun i => v i * v i)) by (unfold sum_rows; ring). rewrite sqrt_mult_alt by nra. now rewrite sqrt_square. Qed.
Lemma homog_rigid x y z w e : let N := x * x + y * y + z * z + w * w in Rabs (N - 1) <= e -> e <= 1 -> near_rigid e (homog x y z w).
Proof.
  intros N HN He v. apply Rabs_le_inv in HN.
  assert (E : sum_rows (fun k => vmul v (homog x y z w) k * vmul v (homog x y z w) k) = N * N * (v 0%nat * v 0%nat + v 1%nat * v 1%nat + v 2%nat * v 2%nat) + v 3%nat * v 3%nat) by (unfold vmul, homog, sum_rows, N; ring).
  pose proof (vnorm_pos v) as PV. pose proof (vnorm_sq v) as SV. unfold sum_rows in SV.
  assert (P3 : 0 <= v 0%nat * v 0%nat + v 1%nat * v 1%nat + v 2%nat * v 2%nat) by nra. set (t := v 0%nat * v 0%nat + v 1%nat * v 1%nat + v 2%nat * v 2%nat) in * .
  assert (P4 : 0 <= v 3%nat * v 3%nat) by nra. set (s := v 3%nat * v 3%nat) in * .
  unfold vnorm at 2 3. rewrite E. clear E. split.
  - rewrite <- (sqrt_square ((1 - e) * vnorm v)) by (apply Rmult_le_pos; lra). apply sqrt_le_1_alt.
    replace ((1 - e) * vnorm v * ((1 - e) * vnorm v)) with (((1 - e) * (1 - e)) * (t + s)) by (rewrite <- SV; ring).
    assert ((1 - e) * (1 - e) * t <= N * N * t) by (apply Rmult_le_compat_r; auto; nra). assert ((1 - e) * (1 - e) * s <= 1 * s) by (apply Rmult_le_compat_r; auto; nra). lra.
  - rewrite <- (sqrt_square ((1 + e) * vnorm v)) by (apply Rmult_le_pos; lra). apply sqrt_le_1_alt.
    replace ((1 + e) * vnorm v * ((1 + e) * vnorm v)) with (((1 + e) * (1 + e)) * (t + s)) by (rewrite <- SV; ring).
    assert (N * N * t <= (1 + e) * (1 + e) * t) by (apply Rmult_le_compat_r; auto; nra). assert (1 * s <= (1 + e) * (1 + e) * s) by (apply Rmult_le_compat_r; auto; nra). lra.
Qed.
(** graphene_quaternion_to_matrix of a quaternion whose squared length is within e of 1 *)
Theorem C85_quaternion_rigid : forall (q : quat b32) (e : R), let x := real (qx q) in let y := real (qy q) in let z := real (qz q) in let w := real (qw q) in
  fin (qx q) -> fin (qy q) -> fin (qz q) -> fin (qw q) -> Rabs (x * x + y * y + z * z + w * w - 1) <= e -> e <= / 4 -> rigid_mat (2 * e + bpow radix2 (-18)) (quaternion_to_matrix q).
Proof.
  intros q e x y z w FX FY FZ FW HN He. set (N := x * x + y * y + z * z + w * w) in * . pose proof (Rabs_le_inv _ _ HN) as HN'.
  assert (UQ : uptoq 40 q).
  { assert (B : 2 <= bpow radix2 40) by (change 2 with (bpow radix2 1); apply bpow_le; lia).
    assert (K : forall t, t * t <= N -> Rabs t <= bpow radix2 40) by (intros t Ht; apply Rabs_le; split; nra). repeat split; auto; apply K; unfold N, x, y, z, w; nra. }
  assert (W : forall r c, (r < 4)%nat -> (c < 4)%nat -> fin (matrix_get_value (quaternion_to_matrix q) r c) /\ Rabs (real (matrix_get_value (quaternion_to_matrix q) r c) - rotm x y z w r c) <= 16 * bpow radix2 (-24)).
  { intros r c Hr Hc. destruct (C83_quaternion_to_matrix q r c UQ Hr Hc) as [F Q]. fold x y z w in Q. fold N in Q. split; auto. eapply Rle_trans; [exact Q|]. unfold slack.
    assert (bpow radix2 (-100) <= bpow radix2 (-24)) by (apply bpow_le; lia). pose proof (bpow_gt_0 radix2 (-24)). nra. }
  set (m := quaternion_to_matrix q) in * . split; [apply fin_get; intros; apply W; auto|].
  assert (FD : fro (rdif (ent m) (rotm x y z w)) <= bpow radix2 (-18)).
  { eapply Rle_trans; [apply (fro_mono _ (fun _ _ => 16 * bpow radix2 (-24)))|].
    - intros r c Hr Hc. unfold rdif. rewrite <- (proj1 (get_ent m r c Hr Hc)). apply W; auto.
    - rewrite fro_const by (pose proof (bpow_gt_0 radix2 (-24)); lra). change (-18)%Z with (6 + -24)%Z. rewrite bpow_plus. change (bpow radix2 6) with 64. lra. }
  assert (E0 : 0 <= e) by (pose proof (Rabs_pos (N - 1)); lra).
  intros v. pose proof (vnorm_pos v) as PV. pose proof (homog_rigid x y z w e HN ltac:(lra) v) as HG.
  assert (SY : fro (rdif (rotm x y z w) (ent m)) = fro (rdif (ent m) (rotm x y z w))). { unfold fro, rdif. f_equal. apply sum_ext; intros; apply sum_ext; intros; ring. }
  pose proof (vmul_dif v (ent m) (rotm x y z w)) as V1. pose proof (vmul_dif v (rotm x y z w) (ent m)) as V2. rewrite SY in V2.
  assert (VE : vnorm v * fro (rdif (ent m) (rotm x y z w)) <= vnorm v * bpow radix2 (-18)) by (apply Rmult_le_compat_l; auto).
  assert (DG : forall k, (k < 4)%nat -> Rabs (vmul v (rotm x y z w) k - vmul v (homog x y z w) k) <= e * Rabs (v k)).
  { intros k Hk. do 3 (destruct k as [|k]; [match goal with |- Rabs ?t <= e * Rabs ?s => replace t with ((1 - N) * s) by (unfold vmul, rotm, homog, sum_rows, N; ring) end; rewrite Rabs_mult, Rabs_minus_sym; apply Rmult_le_compat_r; auto using Rabs_pos|]).
    destruct k as [|k]; [|lia]. replace (_ - _) with 0 by (unfold vmul, rotm, homog, sum_rows; ring). rewrite Rabs_R0. apply Rmult_le_pos; auto using Rabs_pos. }
  assert (DN : vnorm (fun k => e * Rabs (v k)) = e * vnorm v). { rewrite vscale by auto. f_equal. unfold vnorm. f_equal. apply sum_ext. intros k _. rewrite <- Rabs_mult. apply Rabs_pos_eq. nra. }
  assert (V3 : vnorm (vmul v (rotm x y z w)) <= vnorm (vmul v (homog x y z w)) + e * vnorm v).
  { rewrite <- DN. eapply Rle_trans; [|apply Rplus_le_compat_l, (vnorm_mono (fun k => vmul v (rotm x y z w) k - vmul v (homog x y z w) k)); exact DG].
    eapply Rle_trans; [|apply vnorm_tri]. apply Req_le, vnorm_ext. intros; ring. }
  assert (V4 : vnorm (vmul v (homog x y z w)) <= vnorm (vmul v (rotm x y z w)) + e * vnorm v).
  { rewrite <- DN. eapply Rle_trans; [|apply Rplus_le_compat_l, (vnorm_mono (fun k => vmul v (homog x y z w) k - vmul v (rotm x y z w) k)); intros k Hk; rewrite Rabs_minus_sym; exact (DG k Hk)].
    eapply Rle_trans; [|apply vnorm_tri]. apply Req_le, vnorm_ext. intros; ring. }
  split; lra.
Qed.
(** ** non-vacuity: a quarter turn about z is exactly rigid; twice is not the identity *)
Example C85_ex : let m : mat b32 := M4 (V4 fzero fone fzero fzero) (V4 (fneg fone) fzero fzero fzero) (V4 fzero fzero fone fzero) (V4 fzero fzero fzero fone) in
  rigid_mat 0 m /\ rows_upto 1 m /\ exact m [m] 0%nat 0%nat = -1 /\ 14 * INR (length [m]) * bpow radix2 (-22) <= 1.
Proof.
  intros m. assert (Z : real fzero = 0) by apply fin_of_X, fzero_X. assert (O : real fone = 1) by apply fin_of_X, fone_X.
  assert (NO : B2X (fneg (fone : b32)) = Fin (-1)) by (rewrite fneg_X, fone_X; reflexivity). apply fin_of_X in NO as [FN NO].
  assert (F : finite_mat m). { pose proof (proj1 (fin_of_X _ _ fzero_X)). pose proof (proj1 (fin_of_X _ _ fone_X)). unfold finite_mat, finite4, m; cbn [mx my mz mw vx vy vz vw]. tauto. }
  assert (E : forall r c, (r < 4)%nat -> (c < 4)%nat -> ent m r c = match r, c with 0%nat, 1%nat => 1 | 1%nat, 0%nat => -1 | 2%nat, 2%nat => 1 | 3%nat, 3%nat => 1 | _, _ => 0 end).
  { intros r c Hr Hc. do 4 (destruct r as [|r]; [do 4 (destruct c as [|c]; [unfold ent; cbn; first [exact Z|exact O|exact NO]|]); lia|]); lia. }
  split; [split; [exact F|]|split; [split; [exact F|]|split]].
  - intros v. assert (Q : vnorm (vmul v (ent m)) = vnorm v). { unfold vnorm, vmul, sum_rows. rewrite !E by lia. f_equal. ring. } rewrite Q. lra.
  - intros r Hr. unfold row_sum, rabs, sum_rows. rewrite !E by lia. do 4 (destruct r as [|r]; [rewrite ?Rabs_Ropp, ?Rabs_R1, ?Rabs_R0; try replace (Rabs (-1)) with 1 by (rewrite Rabs_left; lra); lra|]). lia.
  - unfold exact, rmul, sum_rows; cbn [fold_left]. rewrite !E by lia. ring.
  - cbn [length INR]. change (bpow radix2 (-22)) with (/ 4194304). lra.
Qed.
