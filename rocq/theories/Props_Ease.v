(** * Props_Ease: easing towards a target by repeated interpolation, in binary32 and binary64 (C116). *)
From Coq Require Import ZArith Reals Bool List Lra Lia Psatz.
From Flocq Require Import Core BinarySingleNaN.
From Verif Require Import Num Simd Vec Rect OrdThy FloatThy B32Setup FloatLem ErrThy Props_Vec Props_Rect Props_Err Props_Lerp.
Import ListNotations.
Local Open Scope R_scope.

(** ** specification *)
(** moving from p a part of the way to q, again and again *)
Definition ease {P : Type} (interpolate : P -> P -> b64 -> P) (p q : P) (l : list b64) : P := fold_left (fun p t => interpolate p q t) l p.
(** a factor between tau and 1 *)
Definition factor (tau : R) (t : b64) : Prop := exists T, B2X t = Fin T /\ tau <= T <= 1.
(** r lies between x and q, both ends included *)
Definition between (x q r : b32) : Prop := fin r /\ Rmin (real x) (real q) <= real r <= Rmax (real x) (real q).
(** what is left of the way after n steps of at least tau, up to the rounding of a step divided by tau *)
Definition settled (tau : R) (n : nat) (x q r : b32) : Prop :=
  let big := Rmax (Rabs (real x)) (Rabs (real q)) in big <= bpow radix2 126 ->
  Rabs (real r - real q) <= (1 - tau) ^ n * Rabs (real x - real q) + (bpow radix2 (-23) * big + bpow radix2 (-149)) / tau.

Lemma between_refl (x q : b32) : fin x -> between x q x.
Proof. intros F. split; auto. pose proof (Rmin_l (real x) (real q)). pose proof (Rmax_l (real x) (real q)). lra. Qed.
Lemma between_trans (x q y r : b32) : between x q y -> between y q r -> between x q r.
Proof.
  intros [_ [A B]] [F [C D]]. split; auto. unfold Rmin, Rmax in * . destruct (Rle_dec (real x) (real q)), (Rle_dec (real y) (real q)); lra.
Qed.
Lemma chain_between (x q : b32) l : fin x -> fin q -> Forall (factor 0) l -> between x q (ease flerpf x q l).
Proof.
  intros FX FQ. induction l as [|t l IH] using rev_ind; intros FA; [now apply between_refl|].
  apply Forall_app in FA as [FL Ft]. inversion Ft as [|? ? (T & ET & HT) _]; subst. specialize (IH FL). unfold ease in * . rewrite fold_left_app. cbn [fold_left]. set (y := fold_left _ l x) in * .
  apply (between_trans x q y); [exact IH|]. destruct IH as [Fy _]. exact (flerpf_between y q t T Fy FQ ET HT).
Qed.
Lemma weaken tau l : 0 <= tau -> Forall (factor tau) l -> Forall (factor 0) l.
Proof. intros H. apply Forall_impl. intros t (T & E & B). exists T. split; auto. lra. Qed.
Lemma chain_settled (x q : b32) tau l : fin x -> fin q -> 0 < tau <= 1 -> Forall (factor tau) l -> settled tau (length l) x q (ease flerpf x q l).
Proof.
  intros FX FQ HT FA. unfold settled. set (big := Rmax _ _). intros OV. set (dl := bpow radix2 (-23) * big + bpow radix2 (-149)). pose proof (bpow_gt_0 radix2 (-149)) as E0. pose proof (bpow_gt_0 radix2 (-23)) as E1. assert (BP : 0 <= big) by (eapply Rle_trans; [apply Rabs_pos|apply Rmax_l]).
  assert (D0 : 0 <= dl) by (unfold dl; pose proof (Rmult_le_pos _ _ (Rlt_le _ _ E1) BP); lra).
  assert (DT : 0 <= dl / tau) by (apply Rmult_le_pos; [auto|left; apply Rinv_0_lt_compat; lra]).
  induction l as [|t l IH] using rev_ind; [cbn; fold dl; lra|].
  apply Forall_app in FA as [FL Ft]. inversion Ft as [|? ? (T & ET & HB) _]; subst. specialize (IH FL). fold dl in IH |- * . rewrite app_length; cbn [length]. replace (length l + 1)%nat with (Datatypes.S (length l)) by lia. rewrite <- tech_pow_Rmult.
  pose proof (chain_between x q l FX FQ (weaken tau l ltac:(lra) FL)) as [Fy By]. unfold ease in * . rewrite fold_left_app. cbn [fold_left]. set (y := fold_left _ l x) in * . clearbody y.
  assert (B8 : 1 <= bpow radix2 800) by (change 1 with (bpow radix2 0); apply bpow_le; lia).
  pose proof (flerpf_near y q t T Fy FQ ET ltac:(rewrite Rabs_pos_eq; lra)) as N. set (r := flerpf y q t) in * . clearbody r. set (a := real y) in * . set (b := real q) in * . set (c := real x) in * .
  assert (AB : Rabs a <= big). { unfold big. apply Rabs_le. pose proof (Rmax_l (Rabs c) (Rabs b)) as M1. pose proof (Rmax_r (Rabs c) (Rabs b)) as M2. set (B := Rmax _ _) in * . apply Rabs_le_inv in M1, M2. unfold Rmin, Rmax in By. destruct (Rle_dec c b); lra. }
  assert (BB : Rabs b <= big) by apply Rmax_r.
  assert (SS : Rabs ((1 - T) * a) + Rabs (T * b) <= big). { rewrite !Rabs_mult, (Rabs_pos_eq (1 - T)), (Rabs_pos_eq T) by lra. assert ((1 - T) * Rabs a <= (1 - T) * big) by (apply Rmult_le_compat_l; lra). assert (T * Rabs b <= T * big) by (apply Rmult_le_compat_l; lra). lra. }
  assert (SX : Rabs ((1 - T) * a + T * b) <= big) by (eapply Rle_trans; [apply Rabs_triang|exact SS]).
  unfold lerp_near in N. fold a b in N. destruct (N (Rle_trans _ _ _ SS OV)) as [_ NE]. unfold lerp_tol in NE.
  assert (NE' : Rabs (real r - ((1 - T) * a + T * b)) <= dl).
  { eapply Rle_trans; [exact NE|]. unfold dl. assert (Q1 : bpow radix2 (-24) * Rabs ((1 - T) * a + T * b) <= bpow radix2 (-24) * big) by (apply Rmult_le_compat_l; [apply bpow_ge_0|auto]).
    assert (Q2 : bpow radix2 (-50) * (Rabs ((1 - T) * a) + Rabs (T * b)) <= bpow radix2 (-24) * big) by (apply Rmult_le_compat; [apply bpow_ge_0| |apply bpow_le; lia|auto]; pose proof (Rabs_pos ((1 - T) * a)); pose proof (Rabs_pos (T * b)); lra).
    replace (bpow radix2 (-23)) with (2 * bpow radix2 (-24)) by (change (-23)%Z with (1 + -24)%Z; rewrite (bpow_plus radix2 1); reflexivity). lra. }
  assert (AQ : Rabs ((1 - T) * a + T * b - b) = (1 - T) * Rabs (a - b)). { replace ((1 - T) * a + T * b - b) with ((1 - T) * (a - b)) by ring. rewrite Rabs_mult, (Rabs_pos_eq (1 - T)) by lra. reflexivity. }
  replace (real r - b) with ((real r - ((1 - T) * a + T * b)) + ((1 - T) * a + T * b - b)) by ring. eapply Rle_trans; [apply Rabs_triang|]. rewrite AQ.
  assert (W : (1 - T) * Rabs (a - b) <= (1 - tau) * Rabs (a - b)) by (apply Rmult_le_compat_r; [apply Rabs_pos|lra]).
  assert (W2 : (1 - tau) * Rabs (a - b) <= (1 - tau) * ((1 - tau) ^ length l * Rabs (c - b) + dl / tau)) by (apply Rmult_le_compat_l; lra).
  assert (TD : tau * (dl / tau) = dl) by (field; lra). lra.
Qed.

(** the coordinates of an eased point are eased numbers *)
Lemma ease_hom {P : Type} (f : P -> b32) (interp : P -> P -> b64 -> P) : (forall p q t, f (interp p q t) = flerpf (f p) (f q) t) -> forall p q l, f (ease interp p q l) = ease flerpf (f p) (f q) l.
Proof. intros H p q l. revert p. induction l as [|t l IH]; intros p; [reflexivity|]. unfold ease in * . cbn [fold_left]. now rewrite IH, H. Qed.

(** ** easing never overshoots, and from any moment on never moves away from the target *)
Theorem C116_no_overshoot : forall (BK : Backend b32) (l1 l2 : list b64), Forall (factor 0) (l1 ++ l2) ->
  (forall a b, pt_fin a -> pt_fin b -> let s := ease point_interpolate a b l1 in let r := ease point_interpolate a b (l1 ++ l2) in between (px a) (px b) (px r) /\ between (px s) (px b) (px r) /\ between (py a) (py b) (py r) /\ between (py s) (py b) (py r)) /\
  (forall a b, sz_fin a -> sz_fin b -> let s := ease size_interpolate a b l1 in let r := ease size_interpolate a b (l1 ++ l2) in between (swidth a) (swidth b) (swidth r) /\ between (swidth s) (swidth b) (swidth r) /\ between (sheight a) (sheight b) (sheight r) /\ between (sheight s) (sheight b) (sheight r)) /\
  (forall a b, p3_fin a -> p3_fin b -> let s := ease point3d_interpolate a b l1 in let r := ease point3d_interpolate a b (l1 ++ l2) in between (p3x a) (p3x b) (p3x r) /\ between (p3x s) (p3x b) (p3x r) /\ between (p3y a) (p3y b) (p3y r) /\ between (p3y s) (p3y b) (p3y r) /\ between (p3z a) (p3z b) (p3z r) /\ between (p3z s) (p3z b) (p3z r)).
Proof.
  intros BK l1 l2 FA. pose proof FA as FF. apply Forall_app in FF as [F1 F2].
  assert (K : forall x q : b32, fin x -> fin q -> between x q (ease flerpf x q (l1 ++ l2)) /\ between (ease flerpf x q l1) q (ease flerpf x q (l1 ++ l2))).
  { intros x q FX FQ. split; [now apply chain_between|]. destruct (chain_between x q l1 FX FQ F1) as [FS _].
    replace (ease flerpf x q (l1 ++ l2)) with (ease flerpf (ease flerpf x q l1) q l2) by (unfold ease; now rewrite fold_left_app). now apply chain_between. }
  split; [|split].
  - intros a b [A1 A2] [B1 B2] s r. unfold s, r. rewrite !(ease_hom px), !(ease_hom py) by reflexivity. pose proof (K _ _ A1 B1). pose proof (K _ _ A2 B2). tauto.
  - intros a b [A1 A2] [B1 B2] s r. unfold s, r. rewrite !(ease_hom swidth), !(ease_hom sheight) by reflexivity. pose proof (K _ _ A1 B1). pose proof (K _ _ A2 B2). tauto.
  - intros a b (A1 & A2 & A3) (B1 & B2 & B3) s r. unfold s, r. rewrite !(ease_hom p3x), !(ease_hom p3y), !(ease_hom p3z) by reflexivity. pose proof (K _ _ A1 B1). pose proof (K _ _ A2 B2). pose proof (K _ _ A3 B3). tauto.
Qed.

(** ** and it arrives: the way left shrinks geometrically down to the rounding *)
Theorem C116_arrives : forall (BK : Backend b32) (tau : R) (l : list b64), 0 < tau <= 1 -> Forall (factor tau) l -> let n := length l in
  (forall a b, pt_fin a -> pt_fin b -> let r := ease point_interpolate a b l in settled tau n (px a) (px b) (px r) /\ settled tau n (py a) (py b) (py r)) /\
  (forall a b, sz_fin a -> sz_fin b -> let r := ease size_interpolate a b l in settled tau n (swidth a) (swidth b) (swidth r) /\ settled tau n (sheight a) (sheight b) (sheight r)) /\
  (forall a b, p3_fin a -> p3_fin b -> let r := ease point3d_interpolate a b l in settled tau n (p3x a) (p3x b) (p3x r) /\ settled tau n (p3y a) (p3y b) (p3y r) /\ settled tau n (p3z a) (p3z b) (p3z r)).
Proof.
  intros BK tau l HT FA n. split; [|split].
  - intros a b [A1 A2] [B1 B2] r. unfold r. rewrite !(ease_hom px), !(ease_hom py) by reflexivity. split; now apply chain_settled.
  - intros a b [A1 A2] [B1 B2] r. unfold r. rewrite !(ease_hom swidth), !(ease_hom sheight) by reflexivity. split; now apply chain_settled.
  - intros a b (A1 & A2 & A3) (B1 & B2 & B3) r. unfold r. rewrite !(ease_hom p3x), !(ease_hom p3y), !(ease_hom p3z) by reflexivity. split; [|split]; now apply chain_settled.
Qed.

(** ** the hypotheses can be met: a quarter of the way a hundred times *)
Example C116_ex : let t : b64 := flit 1 (-2) in Forall (factor (/ 4)) (repeat t 100) /\ Forall (factor 0) (repeat t 100) /\ pt_fin (Pt (fone : b32) fzero).
Proof.
  intros t. destruct C86_ex as (E & _). assert (F : Forall (factor (/ 4)) (repeat t 100)). { apply Forall_forall. intros x I. apply repeat_spec in I. subst x. exists (/ 4). split; [exact E|lra]. }
  split; [exact F|split; [apply (weaken (/ 4)); [lra|exact F]|]]. split; [apply fin_of_X with 1; apply fone_X|apply fin_of_X with 0; apply fzero_X].
Qed.
