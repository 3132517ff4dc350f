(** * Props_Quat: quaternion equality in binary32 (C46). *)

From Coq Require Import ZArith Reals Bool List Lra Lia Psatz.
From Flocq Require Import Core BinarySingleNaN.
From Verif Require Import Num Simd Vec Rect Box Mat Geo Quat OrdThy FloatThy BoxThy B32Setup FloatLem Hist Props_Vec.
Import ListNotations.

Definition quat_fin (q : quat b32) : Prop := fin (qx q) /\ fin (qy q) /\ fin (qz q) /\ fin (qw q).
Notation lit5 := (flit 5902958103587057 (-69) : b64).

Lemma fuzzy_X (a b : b32) : fuzzy_d a b = xlt (if xlt (B2X b) (B2X a) then B2X (fsub a b) else B2X (fsub b a)) (B2X lit5).
Proof.
  unfold fuzzy_d. rewrite flt_X.
  change (flt (f2d (if xlt (B2X b) (B2X a) then fsub a b else fsub b a)) lit5) with (Bltb (f2d (if xlt (B2X b) (B2X a) then fsub a b else fsub b a)) lit5).
  rewrite Bltb_X, f2d_X. now destruct (xlt (B2X b) (B2X a)).
Qed.
Lemma sub_both_X (a b : b32) : xlt (B2X b) (B2X a) = false -> xlt (B2X a) (B2X b) = false -> B2X (fsub a b) = B2X (fsub b a).
Proof.
  intros L1 L2. rewrite !fsub_X. f_equal. revert L1 L2. destruct (B2X a), (B2X b); simpl; try easy. bdes; try easy. intros; f_equal; lra.
Qed.
Lemma xlt_asym (a b : xreal) : xlt a b = true -> xlt b a = true -> False.
Proof. destruct a, b; simpl; try easy. bdes; try easy. intros; lra. Qed.
Lemma fuzzy_sym (a b : b32) : fuzzy_d a b = fuzzy_d b a.
Proof.
  rewrite !fuzzy_X. destruct (xlt (B2X b) (B2X a)) eqn:L1, (xlt (B2X a) (B2X b)) eqn:L2; auto.
  - exfalso. eauto using xlt_asym.
  - now rewrite sub_both_X.
Qed.
Lemma fuzzy_neg (a b : b32) : fuzzy_d (fneg a) b = fuzzy_d (fneg b) a.
Proof.
  rewrite !fuzzy_X, !fsub_X, !fneg_X.
  assert (C1 : xlt (B2X b) (xneg (B2X a)) = xlt (B2X a) (xneg (B2X b))).
  { destruct (B2X a), (B2X b); simpl; auto. bdes; auto; exfalso; lra. }
  assert (C2 : xsub (xneg (B2X a)) (B2X b) = xsub (xneg (B2X b)) (B2X a)).
  { destruct (B2X a), (B2X b); simpl; auto. f_equal; lra. }
  assert (C3 : xsub (B2X b) (xneg (B2X a)) = xsub (B2X a) (xneg (B2X b))).
  { destruct (B2X a), (B2X b); simpl; auto. f_equal; lra. }
  now rewrite C1, C2, C3.
Qed.
Lemma fuzzy_refl (a : b32) : fin a -> fuzzy_d a a = true.
Proof.
  intros Fa. rewrite fuzzy_X. rewrite (fin_X a Fa) at 1 2.
  replace (xlt (Fin (B2R a)) (Fin (B2R a))) with false by (symmetry; apply xlt_fin_f; lra).
  rewrite sub_self_X by auto. rewrite <- fzero_X, <- (f2d_X fzero), <- Bltb_X. vm_compute. reflexivity.
Qed.

(** Two bounds around 0.00001: the floats next to it. *)
Notation below5 := (lit 10995116 (-40)).
Notation above5 := (lit 10995117 (-40)).
Lemma below5_R : B2R below5 = (10995116 / 1099511627776)%R.
Proof. unfold lit. vm_compute B2R. unfold F2R, Fnum, Fexp, bpow. simpl. lra. Qed.
Lemma above5_R : B2R above5 = (10995117 / 1099511627776)%R.
Proof. unfold lit. vm_compute B2R. unfold F2R, Fnum, Fexp, bpow. simpl. lra. Qed.
Lemma rnd_sub_le (a b e : b32) : fin a -> fin b -> fin e -> (B2R a - B2R b <= B2R e)%R -> xle (B2X (fsub a b)) (B2X e) = true.
Proof.
  intros Fa Fb Fe G. rewrite fsub_X, (fin_X a Fa), (fin_X b Fb), <- (xrnd_B2X e), (fin_X e Fe). apply xrnd_mono, xle_fin, G.
Qed.
Lemma rnd_sub_ge (a b e : b32) : fin a -> fin b -> fin e -> (B2R e <= B2R a - B2R b)%R -> xle (B2X e) (B2X (fsub a b)) = true.
Proof.
  intros Fa Fb Fe G. rewrite fsub_X, (fin_X a Fa), (fin_X b Fb), <- (xrnd_B2X e), (fin_X e Fe). apply xrnd_mono, xle_fin, G.
Qed.
Lemma xle_lt_trans (a b c : xreal) : xle a b = true -> xlt b c = true -> xlt a c = true.
Proof. destruct a, b, c; try easy. rewrite xle_fin, !xlt_fin. lra. Qed.
Lemma xlt_not_le (a b : xreal) : xlt a b = true -> xle b a = true -> False.
Proof. destruct a, b; try easy. rewrite xle_fin, xlt_fin. lra. Qed.
Lemma xle_trans (a b c : xreal) : xle a b = true -> xle b c = true -> xle a c = true.
Proof. destruct a, b, c; try easy. rewrite !xle_fin. lra. Qed.
Lemma lit_bracket : xlt (B2X below5) (B2X lit5) = true /\ xle (B2X lit5) (B2X above5) = true.
Proof.
  split.
  - rewrite <- f2d_X, <- Bltb_X. vm_compute. reflexivity.
  - rewrite <- (f2d_X above5), <- Bleb_X. vm_compute. reflexivity.
Qed.
Lemma fuzzy_close (a b : b32) : fin a -> fin b -> (Rabs (B2R a - B2R b) <= B2R below5)%R -> fuzzy_d a b = true.
Proof.
  intros Fa Fb G. rewrite fuzzy_X. eapply xle_lt_trans; [|apply lit_bracket].
  apply Rabs_le_inv in G. destruct (xlt (B2X b) (B2X a)); apply rnd_sub_le; auto; try reflexivity; lra.
Qed.
Lemma fuzzy_apart (a b : b32) : fin a -> fin b -> fuzzy_d a b = true -> (Rabs (B2R a - B2R b) < B2R above5)%R.
Proof.
  intros Fa Fb G. rewrite fuzzy_X in G. destruct (Rlt_le_dec (Rabs (B2R a - B2R b)) (B2R above5)) as [|H]; auto. exfalso.
  apply (xlt_not_le _ _ G). assert (P : (0 < B2R above5)%R) by (rewrite above5_R; lra).
  assert (W : xle (B2X above5) (if xlt (B2X b) (B2X a) then B2X (fsub a b) else B2X (fsub b a)) = true).
  { rewrite (fin_X a Fa) at 1. rewrite (fin_X b Fb) at 1. cbn [xlt].
    destruct (Rlt_dec (B2R b) (B2R a)); apply rnd_sub_ge; auto; try reflexivity.
    - rewrite Rabs_pos_eq in H; lra.
    - rewrite Rabs_left1 in H; lra. }
  eapply xle_trans; [apply lit_bracket|exact W].
Qed.

(** ** C46: quaternion equality *)
Theorem C46_symmetric : forall same : bool, exch (quaternion_equal (F := b32) same).
Proof.
  intros same [a|] [b|]; destruct same; auto. unfold quaternion_equal, pointer_equal, quaternion_equal_fn, quat_fuzzy, quaternion_invert; cbn [qx qy qz qw].
  rewrite (fuzzy_sym (qx a)), (fuzzy_sym (qy a)), (fuzzy_sym (qz a)), (fuzzy_sym (qw a)), (fuzzy_neg (qx a)), (fuzzy_neg (qy a)), (fuzzy_neg (qz a)). reflexivity.
Qed.
Theorem C46_reflexive : forall q : quat b32, quat_fin q -> quaternion_equal false (Some q) (Some q) = true.
Proof.
  intros q (X & Y & Z & W). unfold quaternion_equal, pointer_equal, quaternion_equal_fn, quat_fuzzy. now rewrite !fuzzy_refl.
Qed.
(** The tolerance: below 0.00001 on every component (up to the float next to it) is
    accepted, and whatever is accepted is within it of the other quaternion or of its
    conjugate. *)
Definition within (t : R) (a b : quat b32) : Prop :=
  (Rabs (B2R (qx a) - B2R (qx b)) <= t /\ Rabs (B2R (qy a) - B2R (qy b)) <= t /\
   Rabs (B2R (qz a) - B2R (qz b)) <= t /\ Rabs (B2R (qw a) - B2R (qw b)) <= t)%R.
Definition within_conj (t : R) (a b : quat b32) : Prop :=
  (Rabs (B2R (qx a) + B2R (qx b)) <= t /\ Rabs (B2R (qy a) + B2R (qy b)) <= t /\
   Rabs (B2R (qz a) + B2R (qz b)) <= t /\ Rabs (B2R (qw a) - B2R (qw b)) <= t)%R.
Lemma fin_neg (a : b32) : fin a -> fin (fneg a).
Proof. destruct a; easy. Qed.
Lemma B2R_neg (a : b32) : B2R (fneg a) = (- B2R a)%R.
Proof. apply B2R_Bopp. Qed.
Theorem C46_tolerance : forall a b : quat b32, quat_fin a -> quat_fin b ->
  (within (10995116 / 2 ^ 40) a b \/ within_conj (10995116 / 2 ^ 40) a b -> quaternion_equal false (Some a) (Some b) = true) /\
  (quaternion_equal false (Some a) (Some b) = true -> within (10995117 / 2 ^ 40) a b \/ within_conj (10995117 / 2 ^ 40) a b).
Proof.
  intros a b (AX & AY & AZ & AW) (BX & BY & BZ & BW).
  assert (E1 : (10995116 / 2 ^ 40 = B2R below5)%R) by (rewrite below5_R; lra).
  assert (E2 : (10995117 / 2 ^ 40 = B2R above5)%R) by (rewrite above5_R; lra).
  assert (N : forall x y : b32, (Rabs (B2R x + B2R y) = Rabs (B2R (fneg x) - B2R y))%R).
  { intros. rewrite B2R_neg, <- Rabs_Ropp. f_equal. ring. }
  unfold quaternion_equal, pointer_equal, quaternion_equal_fn, quat_fuzzy, quaternion_invert; cbn [qx qy qz qw].
  rewrite E1, E2. unfold within, within_conj. rewrite !N. split.
  - intros [(H1 & H2 & H3 & H4)|(H1 & H2 & H3 & H4)].
    + rewrite (fuzzy_close (qx a)), (fuzzy_close (qy a)), (fuzzy_close (qz a)), (fuzzy_close (qw a)) by auto. reflexivity.
    + rewrite (fuzzy_close (fneg (qx a))), (fuzzy_close (fneg (qy a))), (fuzzy_close (fneg (qz a))), (fuzzy_close (qw a)) by auto using fin_neg.
      now destruct (_ && _).
  - assert (T : forall x y : b32, fin x -> fin y -> fuzzy_d x y = true -> (Rabs (B2R x - B2R y) <= B2R above5)%R) by (intros; apply Rlt_le, fuzzy_apart; auto).
    destruct (fuzzy_d (qx a) (qx b) && fuzzy_d (qy a) (qy b) && fuzzy_d (qz a) (qz b) && fuzzy_d (qw a) (qw b)) eqn:Q1.
    + intros _. left. rewrite !andb_true_iff in Q1. destruct Q1 as [[[Q1 Q2] Q3] Q4]. repeat split; apply T; auto.
    + destruct (fuzzy_d (fneg (qx a)) (qx b) && fuzzy_d (fneg (qy a)) (qy b) && fuzzy_d (fneg (qz a)) (qz b) && fuzzy_d (qw a) (qw b)) eqn:Q5; [|discriminate].
      intros _. right. rewrite !andb_true_iff in Q5. destruct Q5 as [[[Q6 Q2] Q3] Q4]. repeat split; apply T; auto using fin_neg.
Qed.
(** So a quaternion equals its conjugate, the opposite rotation, and does not equal its
    negation, the same rotation: the quaternion below turns by an angle whose half has
    cosine 3/5. *)
Theorem C46_opposite_refuted : forall BK : Backend b32,
  let q := Qt fzero fzero (lit 13421773 (-24)) (lit 10066330 (-24)) : quat b32 in
  quat_fin q /\ quaternion_equal false (Some q) (Some (quaternion_invert q)) = true /\
  quaternion_equal false (Some q) (Some (quaternion_scale q fm1)) = false.
Proof. intros BK. cbv zeta. split; [repeat split; vm_compute; reflexivity|]. split; beq. Qed.
Example C46_ex : let a := Qt fzero fzero (lit 13421773 (-24)) (lit 10066330 (-24)) : quat b32 in
  let b := Qt fzero (lit 1 (-17)) (lit 13421780 (-24)) (lit 10066330 (-24)) : quat b32 in
  quat_fin a /\ quat_fin b /\ quaternion_equal false (Some a) (Some b) = true /\
  quaternion_equal false (Some a) (Some (Qt fzero (lit 3 (-18)) (lit 13421780 (-24)) (lit 10066330 (-24)))) = false.
Proof. cbv zeta. split; [repeat split; vm_compute; reflexivity|]. split; [repeat split; vm_compute; reflexivity|]. split; beq. Qed.
