(** * Props_Damage: accumulating the union of any number of rectangles, in binary32 (C117). *)
From Coq Require Import ZArith Reals Bool List Lra Lia Psatz.
From Flocq Require Import Core BinarySingleNaN.
From Verif Require Import Num Simd Vec Rect OrdThy FloatThy B32Setup FloatLem ErrThy Props_Err Props_Rect Props_Dec.
Import ListNotations.
Local Open Scope R_scope.

(** ** specification *)
Definition damage (r0 : rect b32) (l : list (rect b32)) : rect b32 := fold_left rect_union l r0.
(** the extreme edges of all the rectangles *)
Definition least (edge : rect b32 -> R) (r0 : rect b32) (l : list (rect b32)) : R := fold_right (fun r m => Rmin (edge r) m) (edge r0) l.
Definition most (edge : rect b32 -> R) (r0 : rect b32) (l : list (rect b32)) : R := fold_right (fun r m => Rmax (edge r) m) (edge r0) l.

Lemma least_snoc f r0 l r : least f r0 (l ++ [r]) = Rmin (least f r0 l) (f r).
Proof. unfold least. induction l as [|a l IH]; cbn in * ; [apply Rmin_comm|]. rewrite IH. now rewrite Rmin_assoc. Qed.
Lemma most_snoc f r0 l r : most f r0 (l ++ [r]) = Rmax (most f r0 l) (f r).
Proof. unfold most. induction l as [|a l IH]; cbn in * ; [apply Rmax_comm|]. rewrite IH. now rewrite Rmax_assoc. Qed.
Lemma least_le f r0 l r : In r (r0 :: l) -> least f r0 l <= f r.
Proof.
  unfold least. induction l as [|a l IH]; cbn [In fold_right] in * ; [intros [<-|[]]; lra|]. intros [<-|[<-|I]].
  - eapply Rle_trans; [apply Rmin_r|apply IH; now left].
  - apply Rmin_l.
  - eapply Rle_trans; [apply Rmin_r|apply IH; now right].
Qed.
Lemma most_le f r0 l r : In r (r0 :: l) -> f r <= most f r0 l.
Proof.
  unfold most. induction l as [|a l IH]; cbn [In fold_right] in * ; [intros [<-|[]]; lra|]. intros [<-|[<-|I]].
  - eapply Rle_trans; [apply IH; now left|apply Rmax_r].
  - apply Rmax_l.
  - eapply Rle_trans; [apply IH; now right|apply Rmax_r].
Qed.
Lemma least_bound f r0 l M : Rabs (f r0) <= M -> Forall (fun r => Rabs (f r) <= M) l -> Rabs (least f r0 l) <= M.
Proof. intros H0. unfold least. induction 1 as [|a l Ha HL IH]; cbn; [exact H0|]. unfold Rmin. now destruct Rle_dec. Qed.
Lemma most_bound f r0 l M : Rabs (f r0) <= M -> Forall (fun r => Rabs (f r) <= M) l -> Rabs (most f r0 l) <= M.
Proof. intros H0. unfold most. induction 1 as [|a l Ha HL IH]; cbn; [exact H0|]. unfold Rmax. now destruct Rle_dec. Qed.
Lemma sized_edges M c : sized M c -> Rabs (left_of c) <= M /\ Rabs (right_of c) <= M /\ Rabs (top_of c) <= M /\ Rabs (bottom_of c) <= M.
Proof.
  intros (_ & U1 & U2). pose proof (Rabs_triang (real (rx c)) (real (rw c))). pose proof (Rabs_triang (real (ry c)) (real (rh c))).
  pose proof (Rabs_pos (real (rw c))). pose proof (Rabs_pos (real (rh c))).
  unfold left_of, right_of, top_of, bottom_of, Rmin, Rmax. repeat split; match goal with |- context [Rle_dec ?s ?t] => destruct (Rle_dec s t) end; lra.
Qed.
Lemma sized_more M M' c : sized M c -> M <= M' -> sized M' c.
Proof. intros (A & B & C) H. split; [exact A|split; lra]. Qed.
Lemma edges_size (B : R) (r : rect b32) : rfin r -> 0 <= real (rw r) -> 0 <= real (rh r) -> Rabs (left_of r) <= B -> Rabs (right_of r) <= B -> Rabs (top_of r) <= B -> Rabs (bottom_of r) <= B -> sized (3 * B) r.
Proof.
  intros F W H. unfold left_of, right_of, top_of, bottom_of. rewrite Rmin_left, Rmax_right, Rmin_left, Rmax_right by lra. intros L R_ T Bo. apply Rabs_le_inv in L as L', R_ as R', T as T', Bo as B'.
  split; [exact F|]. rewrite (Rabs_pos_eq (real (rw r))), (Rabs_pos_eq (real (rh r))) by lra. split; lra.
Qed.

(** ** every edge of the accumulated rectangle is the extreme edge up to one rounding per rectangle *)
Theorem C117_damage : forall (r0 : rect b32) (l : list (rect b32)) (M : R), sized M r0 -> Forall (sized M) l -> M <= bpow radix2 121 -> l <> [] ->
  let n := INR (length l) in n * bpow radix2 (-19) <= / 8 ->
  let d := damage r0 l in let e := n * bpow radix2 (-19) * M in
  rfin d /\ 0 <= real (rw d) /\ 0 <= real (rh d) /\
  Rabs (left_of d - least left_of r0 l) <= e /\ Rabs (top_of d - least top_of r0 l) <= e /\
  Rabs (right_of d - most right_of r0 l) <= e /\ Rabs (bottom_of d - most bottom_of r0 l) <= e.
Proof.
  intros r0 l M S0 SL HM NE n HN d e. assert (M0 : 0 <= M) by (destruct (sized_edges _ _ S0) as [Q _]; pose proof (Rabs_pos (left_of r0)); lra).
  assert (G : forall l, Forall (sized M) l -> INR (length l) * bpow radix2 (-19) <= / 8 -> let d := damage r0 l in let e := INR (length l) * bpow radix2 (-19) * M in
    sized (4 * M) d /\ (l <> [] -> rfin d /\ 0 <= real (rw d) /\ 0 <= real (rh d)) /\
    Rabs (left_of d - least left_of r0 l) <= e /\ Rabs (top_of d - least top_of r0 l) <= e /\ Rabs (right_of d - most right_of r0 l) <= e /\ Rabs (bottom_of d - most bottom_of r0 l) <= e).
  { clear l SL NE n HN d e. induction l as [|r l IH] using rev_ind; intros SL HN d e.
    - unfold d, e, damage, least, most; cbn [fold_left fold_right length INR]. rewrite !Rminus_diag_eq, !Rabs_R0 by reflexivity. split; [apply (sized_more M); auto; lra|]. split; [congruence|]. repeat split; lra.
    - assert (EE : e = (INR (length l) + 1) * bpow radix2 (-19) * M) by (unfold e; rewrite app_length; cbn [length]; rewrite plus_INR; cbn [INR]; reflexivity). clearbody e.
      apply Forall_app in SL as [SL Sr]. pose proof (Forall_inv Sr) as Sr'. rewrite app_length in * . cbn [length] in * . replace (length l + 1)%nat with (Datatypes.S (length l)) in * by lia. rewrite S_INR in * . pose proof (bpow_gt_0 radix2 (-19)) as B0.
      destruct (IH SL ltac:(lra)) as (SD & _ & L & T & R_ & Bo). unfold d, damage in * . rewrite fold_left_app. cbn [fold_left]. set (c := fold_left rect_union l r0) in * . rewrite !least_snoc, !most_snoc.
      assert (HB : 4 * M <= bpow radix2 123) by (replace (bpow radix2 123) with (4 * bpow radix2 121) by (change 123%Z with (2 + 121)%Z; rewrite (bpow_plus radix2 2); reflexivity); lra).
      destruct (C77_rect_union c r (4 * M) SD (sized_more M (4 * M) r Sr' ltac:(lra)) HB) as (F & W & H & L1 & T1 & R1' & B1). set (x := rect_union c r) in * .
      assert (E1 : bpow radix2 (-21) * (4 * M) = bpow radix2 (-19) * M) by (replace (bpow radix2 (-19)) with (4 * bpow radix2 (-21)) by (change (-19)%Z with (2 + -21)%Z; rewrite (bpow_plus radix2 2); reflexivity); ring). rewrite E1 in L1, T1, R1', B1.
      assert (N0 : 0 <= INR (length l) * bpow radix2 (-19) * M) by (apply Rmult_le_pos; [apply Rmult_le_pos; [apply pos_INR|lra]|lra]).
      assert (KMIN : forall a b t y, Rabs (a - b) <= INR (length l) * bpow radix2 (-19) * M -> Rabs (y - Rmin a t) <= bpow radix2 (-19) * M -> Rabs (y - Rmin b t) <= e).
      { intros a b t y A Y. assert (Z : Rabs (t - t) <= INR (length l) * bpow radix2 (-19) * M) by (rewrite Rminus_diag_eq, Rabs_R0 by reflexivity; lra). pose proof (Rmin_close _ _ _ _ _ A Z) as Q. apply Rabs_le_inv in Q, Y. rewrite EE. apply Rabs_le. lra. }
      assert (KMAX : forall a b t y, Rabs (a - b) <= INR (length l) * bpow radix2 (-19) * M -> Rabs (y - Rmax a t) <= bpow radix2 (-19) * M -> Rabs (y - Rmax b t) <= e).
      { intros a b t y A Y. assert (Z : Rabs (t - t) <= INR (length l) * bpow radix2 (-19) * M) by (rewrite Rminus_diag_eq, Rabs_R0 by reflexivity; lra). pose proof (Rmax_close _ _ _ _ _ A Z) as Q. apply Rabs_le_inv in Q, Y. rewrite EE. apply Rabs_le. lra. }
      pose proof (KMIN _ _ _ _ L L1) as L2. pose proof (KMIN _ _ _ _ T T1) as T2. pose proof (KMAX _ _ _ _ R_ R1') as R2. pose proof (KMAX _ _ _ _ Bo B1) as B2. clear KMIN KMAX.
      split; [|split; [intros _; auto|auto]].
      assert (EM : e <= / 8 * M) by (rewrite EE; apply Rmult_le_compat_r; lra).
      assert (ALL : forall f, (forall s, sized M s -> Rabs (f s) <= M) -> Rabs (least f r0 (l ++ [r])) <= M /\ Rabs (most f r0 (l ++ [r])) <= M).
      { intros f Hf. assert (FA : Forall (fun s => Rabs (f s) <= M) (l ++ [r])) by (apply Forall_app; split; [eapply Forall_impl; [|exact SL]; auto|constructor; auto]). split; [apply least_bound|apply most_bound]; auto. }
      destruct (ALL left_of ltac:(intros s Q; apply (sized_edges _ _ Q))) as [BL _]. destruct (ALL top_of ltac:(intros s Q; apply (sized_edges _ _ Q))) as [BT _].
      destruct (ALL right_of ltac:(intros s Q; apply (sized_edges _ _ Q))) as [_ BR]. destruct (ALL bottom_of ltac:(intros s Q; apply (sized_edges _ _ Q))) as [_ BB]. clear ALL. rewrite least_snoc in BL, BT. rewrite most_snoc in BR, BB.
      apply (sized_more (3 * (9 / 8 * M))); [|lra]. apply Rabs_le_inv in BL, BT, BR, BB, L2, T2, R2, B2. apply edges_size; auto; apply Rabs_le; lra. }
  destruct (G l SL HN) as (_ & Q & L & T & R_ & Bo). destruct (Q NE) as (F & W & H). fold d in F, W, H, L, T, R_, Bo. fold n e in L, T, R_, Bo. auto 10.
Qed.
(** so it covers every one of them, up to that rounding *)
Theorem C117_covers : forall (r0 : rect b32) (l : list (rect b32)) (M : R) (r : rect b32), sized M r0 -> Forall (sized M) l -> M <= bpow radix2 121 -> l <> [] ->
  let n := INR (length l) in n * bpow radix2 (-19) <= / 8 -> In r (r0 :: l) ->
  let d := damage r0 l in let e := n * bpow radix2 (-19) * M in
  left_of d - e <= left_of r /\ right_of r <= right_of d + e /\ top_of d - e <= top_of r /\ bottom_of r <= bottom_of d + e.
Proof.
  intros r0 l M r S0 SL HM NE n HN I d e. destruct (C117_damage r0 l M S0 SL HM NE HN) as (_ & _ & _ & L & T & R_ & Bo). fold d in L, T, R_, Bo. fold n in L, T, R_, Bo. fold e in L, T, R_, Bo.
  apply Rabs_le_inv in L, T, R_, Bo. pose proof (least_le left_of r0 l r I). pose proof (least_le top_of r0 l r I). pose proof (most_le right_of r0 l r I). pose proof (most_le bottom_of r0 l r I). lra.
Qed.

(** ** the hypotheses can be met: a thousand unit squares *)
Example C117_ex : let r : rect b32 := mkrect fone fone fone fone in sized 4 r /\ Forall (sized 4) (repeat r 1000) /\ repeat r 1000 <> [] /\ INR (length (repeat r 1000)) * bpow radix2 (-19) <= / 8.
Proof.
  assert (FO : fin fone) by (apply fin_of_X with 1; apply fone_X). assert (ON : real fone = 1) by apply fin_of_X, fone_X.
  intros r. assert (S1 : sized 4 r). { split; [repeat split; exact FO|]. unfold r, rx, rw, ry, rh, mkrect; cbn -[B2R fone]. rewrite ON, Rabs_R1. lra. }
  split; [exact S1|split; [apply Forall_forall; intros x I; apply repeat_spec in I; now subst x|split; [discriminate|]]]. rewrite repeat_length. assert (E1 : INR 1000 = 1000) by (rewrite INR_IZR_INZ; f_equal). rewrite E1. change (bpow radix2 (-19)) with (/ 524288). lra.
Qed.
