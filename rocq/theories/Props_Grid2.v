(** * Props_Grid2: whole-pixel matrix transformations are exact (C88). *)
From Coq Require Import ZArith Reals Bool List Lra Lia Psatz.
From Flocq Require Import Core BinarySingleNaN.
From Verif Require Import Num Simd Vec Rect Box Mat Geo OrdThy FloatThy B32Setup FloatLem ErrThy Props_Err Props_Err2 Props_Err3 Props_Rect Props_Dec BoxThy Props_Mat Props_Bounds Props_Drift2 Props_Grid.
Import ListNotations.
Local Open Scope R_scope.
Notation reach := Props_Grid.reach.

(** ** the specification *)
(** a real 4x4 matrix that is affine, with whole-number factors and translations on the grid *)
Definition pixel_matrix (k : Z) (A : nat -> nat -> R) : Prop :=
  (forall r c, (r < 3)%nat -> (c < 3)%nat -> grid 0 (A r c)) /\ (forall c, (c < 3)%nat -> grid k (A 3%nat c)) /\
  (forall r, (r < 3)%nat -> A r 3%nat = 0) /\ A 3%nat 3%nat = 1.
Definition rdiag (a b c d : R) : nat -> nat -> R := fun i j => if Nat.eqb i j then nth i [a; b; c; d] 0 else 0.
Definition rtrans (x y z : R) : nat -> nat -> R := fun i j => if Nat.eqb i j then 1 else if Nat.eqb i 3 then nth j [x; y; z] 0 else 0.
(** the product's terms: at most 2^24 for the factors, 2^24 grid steps for the translations *)
Definition room (k : Z) (A B : nat -> nat -> R) : Prop :=
  (forall r c, (r < 3)%nat -> (c < 3)%nat -> rmul (rabs A) (rabs B) r c <= bpow radix2 24) /\
  (forall c, (c < 3)%nat -> rmul (rabs A) (rabs B) 3%nat c <= bpow radix2 (24 + k)).
Inductive mexp :=
  | MIdentity
  | MTrans (x y z : b32)
  | MScaled (x y z : b32)
  | MRaw (m : mat b32)
  | MMul (a b : mexp)
  | MTranslate (e : mexp) (x y z : b32)
  | MScale (e : mexp) (x y z : b32).
Fixpoint mrun {BK : Backend b32} (e : mexp) : mat b32 := match e with
  | MIdentity => matrix_init_identity
  | MTrans x y z => matrix_init_translate (P3 x y z)
  | MScaled x y z => matrix_init_scale x y z
  | MRaw m => m
  | MMul a b => matrix_multiply (mrun a) (mrun b)
  | MTranslate e x y z => matrix_translate (mrun e) (P3 x y z)
  | MScale e x y z => matrix_scale (mrun e) x y z end.
Fixpoint mideal (e : mexp) : nat -> nat -> R := match e with
  | MIdentity => rdiag 1 1 1 1
  | MTrans x y z => rtrans (real x) (real y) (real z)
  | MScaled x y z => rdiag (real x) (real y) (real z) 1
  | MRaw m => ent m
  | MMul a b => rmul (mideal a) (mideal b)
  | MTranslate e x y z => rmul (mideal e) (rtrans (real x) (real y) (real z))
  | MScale e x y z => rmul (mideal e) (rdiag (real x) (real y) (real z) 1) end.
Definition on_grid3 (k : Z) (x y z : b32) : Prop := on_grid k x /\ on_grid k y /\ on_grid k z.
Fixpoint mtame (k : Z) (e : mexp) : Prop := match e with
  | MIdentity => True
  | MTrans x y z => on_grid3 k x y z
  | MScaled x y z => on_grid3 0 x y z
  | MRaw m => finite_mat m /\ pixel_matrix k (ent m)
  | MMul a b => mtame k a /\ mtame k b /\ room k (mideal a) (mideal b)
  | MTranslate e x y z => mtame k e /\ on_grid3 k x y z /\ room k (mideal e) (rtrans (real x) (real y) (real z))
  | MScale e x y z => mtame k e /\ on_grid3 0 x y z /\ room k (mideal e) (rdiag (real x) (real y) (real z) 1) end.
(** the float matrix holds exactly these entries *)
Definition mexact (m : mat b32) (A : nat -> nat -> R) : Prop :=
  finite_mat m /\ forall r c, (r < 4)%nat -> (c < 4)%nat -> ent m r c = A r c.

(** ** sums of four products *)
Lemma sum4_exact j (a1 a2 a3 a4 b1 b2 b3 b4 : b32) x1 x2 x3 x4 y1 y2 y3 y4 : (-149 <= j <= 100)%Z ->
  holds a1 x1 -> holds a2 x2 -> holds a3 x3 -> holds a4 x4 -> holds b1 y1 -> holds b2 y2 -> holds b3 y3 -> holds b4 y4 ->
  grid j (x1 * y1) -> grid j (x2 * y2) -> grid j (x3 * y3) -> grid j (x4 * y4) ->
  Rabs (x1 * y1) + Rabs (x2 * y2) + Rabs (x3 * y3) + Rabs (x4 * y4) <= bpow radix2 (24 + j) ->
  holds (fadd (fadd (fmul a1 b1) (fmul a2 b2)) (fadd (fmul a3 b3) (fmul a4 b4))) (x1 * y1 + x2 * y2 + x3 * y3 + x4 * y4).
Proof.
  intros J A1 A2 A3 A4 B1 B2 B3 B4 G1 G2 G3 G4 H.
  pose proof (Rabs_pos (x1 * y1)). pose proof (Rabs_pos (x2 * y2)). pose proof (Rabs_pos (x3 * y3)). pose proof (Rabs_pos (x4 * y4)).
  pose proof (Rabs_triang (x1 * y1) (x2 * y2)). pose proof (Rabs_triang (x3 * y3) (x4 * y4)). pose proof (Rabs_triang (x1 * y1 + x2 * y2) (x3 * y3 + x4 * y4)).
  replace (x1 * y1 + x2 * y2 + x3 * y3 + x4 * y4) with ((x1 * y1 + x2 * y2) + (x3 * y3 + x4 * y4)) by ring.
  apply (hadd j); auto using grid_add; [apply (hadd j)|apply (hadd j)|]; auto using grid_add; try lra; apply (hmul j); auto; lra.
Qed.
Lemma sum31_exact j (a1 a2 a3 b1 b2 b3 t : b32) x1 x2 x3 y1 y2 y3 w : (-149 <= j <= 100)%Z ->
  holds a1 x1 -> holds a2 x2 -> holds a3 x3 -> holds b1 y1 -> holds b2 y2 -> holds b3 y3 -> holds t w ->
  grid j (x1 * y1) -> grid j (x2 * y2) -> grid j (x3 * y3) -> grid j w ->
  Rabs (x1 * y1) + Rabs (x2 * y2) + Rabs (x3 * y3) + Rabs w <= bpow radix2 (24 + j) ->
  holds (fadd (fadd (fmul a1 b1) (fmul a2 b2)) (fadd (fmul a3 b3) t)) (x1 * y1 + x2 * y2 + x3 * y3 + w).
Proof.
  intros J A1 A2 A3 B1 B2 B3 B4 G1 G2 G3 G4 H.
  pose proof (Rabs_pos (x1 * y1)). pose proof (Rabs_pos (x2 * y2)). pose proof (Rabs_pos (x3 * y3)). pose proof (Rabs_pos w).
  pose proof (Rabs_triang (x1 * y1) (x2 * y2)). pose proof (Rabs_triang (x3 * y3) w). pose proof (Rabs_triang (x1 * y1 + x2 * y2) (x3 * y3 + w)).
  replace (x1 * y1 + x2 * y2 + x3 * y3 + w) with ((x1 * y1 + x2 * y2) + (x3 * y3 + w)) by ring.
  apply (hadd j); auto using grid_add; [apply (hadd j)|apply (hadd j)|]; auto using grid_add; try lra; apply (hmul j); auto; lra.
Qed.
Lemma sum3_exact j (a1 a2 a3 b1 b2 b3 : b32) x1 x2 x3 y1 y2 y3 : (-149 <= j <= 100)%Z ->
  holds a1 x1 -> holds a2 x2 -> holds a3 x3 -> holds b1 y1 -> holds b2 y2 -> holds b3 y3 ->
  grid j (x1 * y1) -> grid j (x2 * y2) -> grid j (x3 * y3) ->
  Rabs (x1 * y1) + Rabs (x2 * y2) + Rabs (x3 * y3) <= bpow radix2 (24 + j) ->
  holds (fadd (fadd (fmul a1 b1) (fmul a2 b2)) (fmul a3 b3)) (x1 * y1 + x2 * y2 + x3 * y3).
Proof.
  intros J A1 A2 A3 B1 B2 B3 G1 G2 G3 H.
  pose proof (Rabs_pos (x1 * y1)). pose proof (Rabs_pos (x2 * y2)). pose proof (Rabs_pos (x3 * y3)).
  pose proof (Rabs_triang (x1 * y1) (x2 * y2)). pose proof (Rabs_triang (x1 * y1 + x2 * y2) (x3 * y3)).
  apply (hadd j); auto using grid_add; [apply (hadd j)| |]; auto using grid_add; try lra; apply (hmul j); auto; lra.
Qed.
Definition row (m : mat b32) (r : nat) : V := nth r [mx m; my m; mz m; mw m] (mw m).
Lemma ent_fin m r c : finite_mat m -> (r < 4)%nat -> (c < 4)%nat -> holds (g_get (row m r) c) (ent m r c).
Proof.
  intros ((A & B & C & D) & (E & F & G & H) & (I & J & K & L) & (M & N & O & P)) Hr Hc. split; [|reflexivity].
  do 4 (destruct r as [|r]; [do 4 (destruct c as [|c]; [assumption|]); lia|]); lia.
Qed.
Lemma vec4_exact (BK : Backend b32) b (v : V) c j : (-149 <= j <= 100)%Z -> (c < 4)%nat -> finite_mat b -> finite4 v ->
  (forall r, (r < 4)%nat -> grid j (ent b r c * comp v r)) -> sum_rows (fun r => Rabs (ent b r c * comp v r)) <= bpow radix2 (24 + j) ->
  holds (g_get (gm_vec4_mul b v) c) (sum_rows (fun r => ent b r c * comp v r)).
Proof.
  intros J Hc FB FV G H.
  pose proof (fun r Hr => ent_fin b r c FB Hr Hc) as E. destruct FV as (V1 & V2 & V3 & V4).
  pose proof (sum4_exact j _ _ _ _ (vx v) (vy v) (vz v) (vw v) _ _ _ _ _ _ _ _ J (E 0%nat ltac:(lia)) (E 1%nat ltac:(lia)) (E 2%nat ltac:(lia)) (E 3%nat ltac:(lia)) (conj V1 eq_refl) (conj V2 eq_refl) (conj V3 eq_refl) (conj V4 eq_refl)
    (G 0%nat ltac:(lia)) (G 1%nat ltac:(lia)) (G 2%nat ltac:(lia)) (G 3%nat ltac:(lia)) H) as R.
  do 4 (destruct c as [|c]; [exact R|]). lia.
Qed.
Lemma g0 j x : x = 0 -> grid j x. Proof. intros ->. apply grid_0. Qed.
Lemma row_comp m r l : comp (row m r) l = ent m r l. Proof. reflexivity. Qed.
Lemma row_mul (BK : Backend b32) a b r : (r < 4)%nat -> row (matrix_multiply a b) r = gm_vec4_mul b (row a r).
Proof. intros H. do 4 (destruct r as [|r]; [reflexivity|]). lia. Qed.
Lemma row_fin m r : finite_mat m -> (r < 4)%nat -> finite4 (row m r).
Proof. intros (A & B & C & D) H. do 4 (destruct r as [|r]; [assumption|]). lia. Qed.
Lemma mat_of_rows m A : (forall r c, (r < 4)%nat -> (c < 4)%nat -> holds (g_get (row m r) c) (A r c)) -> mexact m A.
Proof.
  intros H. split.
  - unfold finite_mat, finite4.
    pose proof (fun c Hc => proj1 (H 0%nat c ltac:(lia) Hc)) as H0. pose proof (fun c Hc => proj1 (H 1%nat c ltac:(lia) Hc)) as H1.
    pose proof (fun c Hc => proj1 (H 2%nat c ltac:(lia) Hc)) as H2. pose proof (fun c Hc => proj1 (H 3%nat c ltac:(lia) Hc)) as H3.
    repeat split; first [exact (H0 0%nat ltac:(lia))|exact (H0 1%nat ltac:(lia))|exact (H0 2%nat ltac:(lia))|exact (H0 3%nat ltac:(lia))|exact (H1 0%nat ltac:(lia))|exact (H1 1%nat ltac:(lia))|exact (H1 2%nat ltac:(lia))|exact (H1 3%nat ltac:(lia))
     |exact (H2 0%nat ltac:(lia))|exact (H2 1%nat ltac:(lia))|exact (H2 2%nat ltac:(lia))|exact (H2 3%nat ltac:(lia))|exact (H3 0%nat ltac:(lia))|exact (H3 1%nat ltac:(lia))|exact (H3 2%nat ltac:(lia))|exact (H3 3%nat ltac:(lia))].
  - intros r c Hr Hc. exact (proj2 (H r c Hr Hc)).
Qed.
Lemma term_grid k A B r c l : pixel_matrix k A -> pixel_matrix k B -> (r < 4)%nat -> (c < 4)%nat -> (l < 4)%nat ->
  grid (if (Nat.eqb r 3 && negb (Nat.eqb c 3))%bool then k else 0) (A r l * B l c).
Proof.
  intros (A1 & A2 & A3 & A4) (B1 & B2 & B3 & B4) Hr Hc Hl.
  destruct (Nat.eqb_spec c 3) as [->|Nc]; cbn [negb]; [rewrite andb_false_r|rewrite andb_true_r].
  - destruct (Nat.eq_dec l 3) as [->|Nl].
    + rewrite B4, Rmult_1_r. destruct (Nat.eq_dec r 3) as [->|Nr]; [rewrite A4; exists 1%Z; simpl; ring|rewrite A3 by lia; apply grid_0].
    + rewrite B3 by lia. apply g0. ring.
  - destruct (Nat.eqb_spec r 3) as [->|Nr].
    + destruct (Nat.eq_dec l 3) as [->|Nl].
      * rewrite A4, Rmult_1_l. apply B2. lia.
      * apply grid_mul0; [apply A2; lia|apply B1; lia].
    + destruct (Nat.eq_dec l 3) as [->|Nl].
      * rewrite A3 by lia. apply g0. ring.
      * apply grid_mul0; [apply A1; lia|apply B1; lia].
Qed.
Lemma rmul_abs A B r c : rmul (rabs A) (rabs B) r c = sum_rows (fun l => Rabs (B l c * A r l)).
Proof. apply sum_ext. intros l _. unfold rabs. rewrite Rabs_mult. ring. Qed.
Lemma col3 k A B r : pixel_matrix k A -> pixel_matrix k B -> (r < 4)%nat -> rmul A B r 3%nat = (if Nat.eqb r 3 then 1 else 0) /\ rmul (rabs A) (rabs B) r 3%nat <= 1.
Proof.
  intros (A1 & A2 & A3 & A4) (B1 & B2 & B3 & B4) Hr. unfold rmul, rabs, sum_rows. rewrite !B3, B4, !Rabs_R0, Rabs_R1 by lia.
  destruct (Nat.eqb_spec r 3) as [->|N]; [rewrite A4, Rabs_R1|rewrite A3, Rabs_R0 by lia]; split; ring_simplify; lra.
Qed.
Lemma mmul_exact (BK : Backend b32) k a b A B : (-100 <= k <= 0)%Z -> mexact a A -> mexact b B -> pixel_matrix k A -> pixel_matrix k B -> room k A B ->
  mexact (matrix_multiply a b) (rmul A B).
Proof.
  intros K [FA EA] [FB EB] PA PB [R1 R2]. apply mat_of_rows. intros r c Hr Hc. rewrite row_mul by auto.
  assert (ES : rmul A B r c = sum_rows (fun l => ent b l c * comp (row a r) l)).
  { apply sum_ext. intros l Hl. rewrite row_comp, EA, EB by auto. ring. }
  rewrite ES. apply (vec4_exact BK b (row a r) c (if (Nat.eqb r 3 && negb (Nat.eqb c 3))%bool then k else 0)); auto.
  - destruct (_ && _); lia.
  - now apply row_fin.
  - intros l Hl. rewrite row_comp, EA, EB by auto. rewrite Rmult_comm. now apply term_grid.
  - replace (sum_rows (fun l => Rabs (ent b l c * comp (row a r) l))) with (rmul (rabs A) (rabs B) r c)
      by (rewrite rmul_abs; apply sum_ext; intros l Hl; rewrite row_comp, EA, EB by auto; reflexivity).
    destruct (Nat.eqb_spec c 3) as [->|Nc]; cbn [negb]; [rewrite andb_false_r|rewrite andb_true_r].
    + eapply Rle_trans; [apply (col3 k); auto|]. change 1 with (bpow radix2 0). apply bpow_le. lia.
    + destruct (Nat.eqb_spec r 3) as [->|Nr]; [apply R2; lia|]. apply R1; lia.
Qed.
Lemma mmul_pixel k A B : (k <= 0)%Z -> pixel_matrix k A -> pixel_matrix k B -> pixel_matrix k (rmul A B).
Proof.
  intros K PA PB. pose proof (fun r c l Hr Hc Hl => term_grid k A B r c l PA PB Hr Hc Hl) as T.
  assert (S : forall j r c, (forall l, (l < 4)%nat -> grid j (A r l * B l c)) -> grid j (rmul A B r c)).
  { intros j r c H. unfold rmul, sum_rows. repeat apply grid_add; apply H; lia. }
  repeat split.
  - intros r c Hr Hc. apply S. intros l Hl. specialize (T r c l ltac:(lia) ltac:(lia) Hl). replace (Nat.eqb r 3) with false in T by (symmetry; apply Nat.eqb_neq; lia). exact T.
  - intros c Hc. apply S. intros l Hl. specialize (T 3%nat c l ltac:(lia) ltac:(lia) Hl). replace (Nat.eqb c 3) with false in T by (symmetry; apply Nat.eqb_neq; lia). exact T.
  - intros r Hr. destruct (col3 k A B r PA PB ltac:(lia)) as [-> _]. replace (Nat.eqb r 3) with false by (symmetry; apply Nat.eqb_neq; lia). reflexivity.
  - destruct (col3 k A B 3%nat PA PB ltac:(lia)) as [-> _]. reflexivity.
Qed.
Lemma one_holds : holds fone 1. Proof. split; [reflexivity|compute; lra]. Qed.
Ltac lanes r c := destruct r as [|[|[|[|r]]]]; try lia; destruct c as [|[|[|[|c]]]]; try lia; cbn.
Lemma trans_exact (x y z : b32) : fin x -> fin y -> fin z -> mexact (gm_translation x y z) (rtrans (real x) (real y) (real z)).
Proof.
  intros X Y Z. apply mat_of_rows. intros r c Hr Hc. lanes r c; first [apply one_holds|apply hzero|now split].
Qed.
Lemma scale_exact (x y z : b32) : fin x -> fin y -> fin z -> mexact (gm_scale x y z) (rdiag (real x) (real y) (real z) 1).
Proof.
  intros X Y Z. apply mat_of_rows. intros r c Hr Hc. lanes r c; first [apply one_holds|apply hzero|now split].
Qed.
Lemma grid01 k : (k <= 0)%Z -> grid k 1. Proof. apply (grid_int k 1). Qed.
Lemma trans_pixel k x y z : (k <= 0)%Z -> grid k x -> grid k y -> grid k z -> pixel_matrix k (rtrans x y z).
Proof.
  intros K X Y Z. repeat split.
  - intros r c Hr Hc. lanes r c; first [apply grid_0|apply grid01; lia].
  - intros c Hc. do 3 (destruct c as [|c]; [cbn; assumption|]); lia.
  - intros r Hr. do 3 (destruct r as [|r]; [reflexivity|]); lia.
Qed.
Lemma diag_pixel k x y z : (k <= 0)%Z -> grid 0 x -> grid 0 y -> grid 0 z -> pixel_matrix k (rdiag x y z 1).
Proof.
  intros K X Y Z. repeat split.
  - intros r c Hr Hc. lanes r c; first [assumption|apply grid_0].
  - intros c Hc. do 3 (destruct c as [|c]; [cbn; apply grid_0|]); lia.
  - intros r Hr. do 3 (destruct r as [|r]; [reflexivity|]); lia.
Qed.
Lemma mideal_pixel k e : (k <= 0)%Z -> mtame k e -> pixel_matrix k (mideal e).
Proof.
  intros K. induction e; cbn [mtame mideal].
  - intros _. apply diag_pixel; auto; apply grid01; lia.
  - intros ((_ & ?) & (_ & ?) & (_ & ?)). now apply trans_pixel.
  - intros ((_ & ?) & (_ & ?) & (_ & ?)). now apply diag_pixel.
  - now intros [_ H].
  - intros (A & B & _). apply mmul_pixel; auto.
  - intros (A & ((_ & ?) & (_ & ?) & (_ & ?)) & _). apply mmul_pixel; auto. now apply trans_pixel.
  - intros (A & ((_ & ?) & (_ & ?) & (_ & ?)) & _). apply mmul_pixel; auto. now apply diag_pixel.
Qed.

Theorem C88_history_exact : forall (BK : Backend b32) (k : Z) (e : mexp), (-100 <= k <= 0)%Z -> mtame k e -> mexact (mrun e) (mideal e).
Proof.
  intros BK k e K. induction e; cbn [mtame mrun mideal].
  - intros _. apply mat_of_rows. intros r c Hr Hc. lanes r c; first [apply one_holds|apply hzero].
  - intros ((? & ?) & (? & ?) & (? & ?)). now apply trans_exact.
  - intros ((? & ?) & (? & ?) & (? & ?)). now apply scale_exact.
  - intros [F _]. split; auto.
  - intros (A & B & R). apply (mmul_exact BK k); auto; apply mideal_pixel; auto; lia.
  - intros (A & ((? & ?) & (? & ?) & (? & ?)) & R). apply (mmul_exact BK k); auto; [now apply trans_exact|apply mideal_pixel; auto; lia|apply trans_pixel; auto; lia].
  - intros (A & ((? & ?) & (? & ?) & (? & ?)) & R). apply (mmul_exact BK k); auto; [now apply scale_exact|apply mideal_pixel; auto; lia|apply diag_pixel; auto; lia].
Qed.

(** ** points *)
Definition aff (A : nat -> nat -> R) (x y z : R) (c : nat) : R := A 0%nat c * x + A 1%nat c * y + A 2%nat c * z + A 3%nat c.
Definition affmag (A : nat -> nat -> R) (x y z : R) (c : nat) : R := Rabs (A 0%nat c * x) + Rabs (A 1%nat c * y) + Rabs (A 2%nat c * z) + Rabs (A 3%nat c).
Lemma aff_grid k A x y z c : pixel_matrix k A -> grid k x -> grid k y -> grid k z -> (c < 3)%nat -> grid k (aff A x y z c).
Proof.
  intros (A1 & A2 & _) X Y Z Hc. unfold aff. repeat apply grid_add; auto; rewrite Rmult_comm; apply grid_mul0; auto; apply A1; lia.
Qed.
Lemma point3_exact (BK : Backend b32) k m A (x y z w : b32) c : (-100 <= k <= 0)%Z -> mexact m A -> pixel_matrix k A -> on_grid k x -> on_grid k y -> on_grid k z -> (c < 3)%nat ->
  affmag A (real x) (real y) (real z) c <= bpow radix2 (24 + k) ->
  holds (g_get (gm_point3_mul m (g_init x y z w)) c) (aff A (real x) (real y) (real z) c).
Proof.
  intros K [F E] P [FX X] [FY Y] [FZ Z] Hc B. pose proof P as (A1 & A2 & _).
  pose proof (fun r Hr => ent_fin m r c F Hr ltac:(lia)) as EN.
  pose proof (EN 0%nat ltac:(lia)) as E0. pose proof (EN 1%nat ltac:(lia)) as E1. pose proof (EN 2%nat ltac:(lia)) as E2. pose proof (EN 3%nat ltac:(lia)) as E3. rewrite E in E0, E1, E2, E3 by lia.
  assert (G : forall r v, (r < 3)%nat -> grid k v -> grid k (A r c * v)) by (intros; rewrite Rmult_comm; apply grid_mul0; auto).
  pose proof (sum31_exact k _ _ _ x y z _ _ _ _ _ _ _ _ ltac:(lia) E0 E1 E2 (conj FX eq_refl) (conj FY eq_refl) (conj FZ eq_refl) E3 (G 0%nat _ ltac:(lia) X) (G 1%nat _ ltac:(lia) Y) (G 2%nat _ ltac:(lia) Z) (A2 c Hc) B) as R.
  do 3 (destruct c as [|c]; [exact R|]). lia.
Qed.
Lemma zero_grid k : on_grid k fzero. Proof. split; [reflexivity|]. apply (grid_0 k). Qed.

Theorem C88_transform_point_exact : forall (BK : Backend b32) (k : Z) (e : mexp) (p : point b32), (-100 <= k <= 0)%Z -> mtame k e ->
  on_grid k (px p) -> on_grid k (py p) -> let A := mideal e in let x := real (px p) in let y := real (py p) in
  (forall c, (c < 2)%nat -> affmag A x y 0 c <= bpow radix2 (24 + k)) ->
  hpoint (matrix_transform_point (mrun e) p) (aff A x y 0 0%nat) (aff A x y 0 1%nat).
Proof.
  intros BK k e p K T X Y A x y B. pose proof (C88_history_exact BK k e K T) as M. pose proof (mideal_pixel k e (proj2 K) T) as P.
  pose proof (fun c Hc => point3_exact BK k (mrun e) A (px p) (py p) fzero fone c K M P X Y (zero_grid k) Hc) as Q. rewrite fzero_R in Q.
  split; [apply (Q 0%nat)|apply (Q 1%nat)]; try lia; apply B; lia.
Qed.
Theorem C88_transform_point3d_exact : forall (BK : Backend b32) (k : Z) (e : mexp) (p : point3d b32), (-100 <= k <= 0)%Z -> mtame k e ->
  on_grid3 k (p3x p) (p3y p) (p3z p) -> let A := mideal e in let x := real (p3x p) in let y := real (p3y p) in let z := real (p3z p) in
  (forall c, (c < 3)%nat -> affmag A x y z c <= bpow radix2 (24 + k)) -> let q := matrix_transform_point3d (mrun e) p in
  holds (p3x q) (aff A x y z 0%nat) /\ holds (p3y q) (aff A x y z 1%nat) /\ holds (p3z q) (aff A x y z 2%nat).
Proof.
  intros BK k e p K T (X & Y & Z) A x y z B q. pose proof (C88_history_exact BK k e K T) as M. pose proof (mideal_pixel k e (proj2 K) T) as P.
  split; [|split]; [apply (point3_exact BK k (mrun e) A (p3x p) (p3y p) (p3z p) fone 0%nat)|apply (point3_exact BK k (mrun e) A (p3x p) (p3y p) (p3z p) fone 1%nat)|apply (point3_exact BK k (mrun e) A (p3x p) (p3y p) (p3z p) fone 2%nat)]; auto; apply B; lia.
Qed.

(** ** rectangles *)
Definition inE (E : edges) (x y : R) : Prop := eL E <= x <= eR E /\ eT E <= y <= eB E.
(** [E'] is the smallest upright rectangle around the image of [E] *)
Definition is_bbox (A : nat -> nat -> R) (E E' : edges) : Prop :=
  (forall x y, inE E x y -> inE E' (aff A x y 0 0%nat) (aff A x y 0 1%nat)) /\
  (exists x y, inE E x y /\ aff A x y 0 0%nat = eL E') /\ (exists x y, inE E x y /\ aff A x y 0 0%nat = eR E') /\
  (exists x y, inE E x y /\ aff A x y 0 1%nat = eT E') /\ (exists x y, inE E x y /\ aff A x y 0 1%nat = eB E').
(** the images of the corners, term by term, stay within 2^23 steps *)
Definition corner_room (k : Z) (A : nat -> nat -> R) (E : edges) : Prop :=
  forall x y c, In x [eL E; eR E] -> In y [eT E; eB E] -> (c < 2)%nat -> affmag A x y 0 c <= reach k.
Lemma corner_exact (BK : Backend b32) k m A (q : point b32) x y : (-100 <= k <= 0)%Z -> mexact m A -> pixel_matrix k A -> hpoint q x y -> grid k x -> grid k y ->
  (forall c, (c < 2)%nat -> affmag A x y 0 c <= reach k) -> hpoint (transform_corner m q) (aff A x y 0 0%nat) (aff A x y 0 1%nat).
Proof.
  intros K [F E] P [[FX <-] [FY <-]] GX GY B. pose proof (reach_pos k). pose proof P as (A1 & A2 & _).
  assert (Q : forall c, (c < 2)%nat -> holds (g_get (gm_vec4_mul m (g_init (px q) (py q) fzero fone)) c) (aff A (real (px q)) (real (py q)) 0 c)).
  { intros c Hc. set (v := g_init (px q) (py q) fzero fone : V).
    assert (ES : forall g : R -> R, sum_rows (fun r => g (ent m r c * comp v r)) = g (A 0%nat c * real (px q)) + g (A 1%nat c * real (py q)) + g (A 2%nat c * 0) + g (A 3%nat c)).
    { intros g. unfold sum_rows. rewrite !E by lia. unfold comp, v, g_init; cbn [g_get vx vy vz vw]. rewrite (proj2 one_holds), (proj2 hzero), Rmult_1_r. reflexivity. }
    pose proof (ES (fun t => t)) as E1. cbv beta in E1. unfold aff. rewrite <- E1. apply (vec4_exact BK m v c k); auto; try lia.
    - repeat split; auto.
    - intros r Hr. rewrite E by lia. unfold comp, v, g_init; destruct r as [|[|[|[|r]]]]; try lia; cbn [g_get vx vy vz vw].
      + rewrite Rmult_comm. apply grid_mul0; auto.
      + rewrite Rmult_comm. apply grid_mul0; auto.
      + apply g0. rewrite fzero_R. ring.
      + rewrite (proj2 one_holds), Rmult_1_r. apply A2. lia.
    - rewrite (ES Rabs). rewrite Props_Grid.reach2. eapply Rle_trans; [apply (B c Hc)|]. lra. }
  split; [apply (Q 0%nat); lia|apply (Q 1%nat); lia].
Qed.
Lemma min4 {BK : Backend b32} (a b c d : b32) x y z t : holds a x -> holds b y -> holds c z -> holds d t ->
  let lo := g_get_x (g_min_val (g_init a b c d)) in let hi := g_get_x (g_max_val (g_init a b c d)) in
  exists l h, holds lo l /\ holds hi h /\ In l [x; y; z; t] /\ In h [x; y; z; t] /\ (forall v, In v [x; y; z; t] -> l <= v <= h).
Proof.
  intros [Fa <-] [Fb <-] [Fc <-] [Fd <-] lo hi.
  assert (N : nonnan a /\ nonnan b /\ nonnan c /\ nonnan d) by (repeat split; now apply fin_nonnan). destruct N as (Na & Nb & Nc & Nd).
  destruct (minval_le (g_init a b c d) Na Nb Nc Nd) as (L1 & L2 & L3 & L4). fold lo in L1, L2, L3, L4. cbn [g_init vx vy vz vw] in * .
  destruct (minval_max (g_init a b c d) Na Nb Nc Nd) as (_ & H1 & H2 & H3 & H4). fold hi in H1, H2, H3, H4. cbn [g_init vx vy vz vw] in * .
  pose proof (minval_in (g_init a b c d)) as I. cbv zeta in I. fold lo in I. cbn [g_init vx vy vz vw] in I.
  pose proof (maxval_in (g_init a b c d)) as J. cbv zeta in J. fold hi in J. cbn [g_init vx vy vz vw] in J.
  assert (FL : fin lo) by (destruct I as [->|[->|[->| ->]]]; assumption). assert (FH : fin hi) by (destruct J as [->|[->|[->| ->]]]; assumption).
  exists (real lo), (real hi). split; [now split|]. split; [now split|].
  split; [destruct I as [->|[->|[->| ->]]]; simpl; tauto|]. split; [destruct J as [->|[->|[->| ->]]]; simpl; tauto|].
  apply fle_real in L1, L2, L3, L4, H1, H2, H3, H4; auto. intros v [<-|[<-|[<-|[<-|[]]]]]; lra.
Qed.
Lemma end_lo a l x r : l <= x <= r -> exists v, In v [l; r] /\ a * v <= a * x.
Proof. intros H. destruct (Rle_lt_dec 0 a); [exists l|exists r]; split; simpl; auto; nra. Qed.
Lemma end_hi a l x r : l <= x <= r -> exists v, In v [l; r] /\ a * x <= a * v.
Proof. intros H. destruct (Rle_lt_dec 0 a); [exists r|exists l]; split; simpl; auto; nra. Qed.

Lemma affmag_abs A x y z c : Rabs (aff A x y z c) <= affmag A x y z c.
Proof.
  unfold aff, affmag. pose proof (Rabs_triang (A 0%nat c * x + A 1%nat c * y + A 2%nat c * z) (A 3%nat c)). pose proof (Rabs_triang (A 0%nat c * x + A 1%nat c * y) (A 2%nat c * z)). pose proof (Rabs_triang (A 0%nat c * x) (A 1%nat c * y)). lra.
Qed.
Theorem C88_transform_bounds_exact : forall (BK : Backend b32) (k : Z) (e : mexp) (r : rexp), (-23 <= k <= 0)%Z -> mtame k e -> tame k r ->
  corner_room k (mideal e) (ideal r) ->
  exists E', is_bbox (mideal e) (ideal r) E' /\ exactly (matrix_transform_bounds (mrun e) (run r)) E' /\ edges_on_grid k E' /\ within_reach k E'.
Proof.
  intros BK k e r K T R B. assert (K' : (-100 <= k <= 0)%Z) by lia.
  pose proof (C88_history_exact BK k e K' T) as M. pose proof (mideal_pixel k e (proj2 K) T) as P.
  pose proof (C87_history_exact k r K R) as X. pose proof (tame_fits k r (proj2 K) R) as Ft. destruct (exactly_ord _ _ X) as [O1 O2].
  set (A := mideal e) in * . set (E := ideal r) in * . set (q := run r) in * .
  destruct (norm_exact k q E ltac:(lia) X Ft) as (N1 & N2 & N3 & N4 & N5 & N6).
  assert (C : forall x y, In x [eL E; eR E] -> In y [eT E; eB E] -> grid k x /\ grid k y).
  { destruct Ft as [(G1 & G2 & G3 & G4) _]. intros x y [<-|[<-|[]]] [<-|[<-|[]]]; auto. }
  assert (CE : forall p x y, In x [eL E; eR E] -> In y [eT E; eB E] -> hpoint p x y -> hpoint (transform_corner (mrun e) p) (aff A x y 0 0%nat) (aff A x y 0 1%nat)).
  { intros p x y HX HY HP. destruct (C x y HX HY). apply (corner_exact BK k); auto. }
  set (n := rect_normalize q) in * .
  assert (I1 : In (eL E) [eL E; eR E]) by (simpl; auto). assert (I2 : In (eR E) [eL E; eR E]) by (simpl; auto). assert (I3 : In (eT E) [eT E; eB E]) by (simpl; auto). assert (I4 : In (eB E) [eT E; eB E]) by (simpl; auto).
  assert (T1 : hpoint (rect_get_top_left n) (eL E) (eT E)) by (unfold rect_get_top_left, n; rewrite norm_idem; split; [exact N1|exact N2]).
  assert (T2 : hpoint (rect_get_top_right n) (eR E) (eT E)) by (unfold rect_get_top_right, n; rewrite norm_idem; split; [exact N5|exact N2]).
  assert (T3 : hpoint (rect_get_bottom_right n) (eR E) (eB E)) by (unfold rect_get_bottom_right, n; rewrite norm_idem; split; [exact N5|exact N6]).
  assert (T4 : hpoint (rect_get_bottom_left n) (eL E) (eB E)) by (unfold rect_get_bottom_left, n; rewrite norm_idem; split; [exact N1|exact N6]).
  apply CE in T1, T2, T3, T4; auto.
  destruct (min4 _ _ _ _ _ _ _ _ (proj1 T1) (proj1 T2) (proj1 T3) (proj1 T4)) as (lx & hx & LX & HX & JLX & JHX & BX).
  destruct (min4 _ _ _ _ _ _ _ _ (proj2 T1) (proj2 T2) (proj2 T3) (proj2 T4)) as (ly & hy & LY & HY & JLY & JHY & BY).
  assert (CO : forall c v, In v [aff A (eL E) (eT E) 0 c; aff A (eR E) (eT E) 0 c; aff A (eR E) (eB E) 0 c; aff A (eL E) (eB E) 0 c] -> (c < 2)%nat ->
    (exists x y, inE E x y /\ aff A x y 0 c = v) /\ grid k v /\ Rabs v <= reach k).
  { intros c v Hv Hc.
    assert (Q : forall x y, In x [eL E; eR E] -> In y [eT E; eB E] -> (exists x' y', inE E x' y' /\ aff A x' y' 0 c = aff A x y 0 c) /\ grid k (aff A x y 0 c) /\ Rabs (aff A x y 0 c) <= reach k).
    { intros x y HX' HY'. destruct (C x y HX' HY') as [GX GY]. split; [|split].
      - exists x, y. split; auto. destruct HX' as [<-|[<-|[]]], HY' as [<-|[<-|[]]]; repeat split; lra.
      - apply aff_grid; auto using grid_0.
      - eapply Rle_trans; [apply affmag_abs|]. now apply B. }
    destruct Hv as [<-|[<-|[<-|[<-|[]]]]]; apply Q; auto. }
  destruct (CO 0%nat lx JLX ltac:(lia)) as (PLX & GLX & RLX). destruct (CO 0%nat hx JHX ltac:(lia)) as (PHX & GHX & RHX).
  destruct (CO 1%nat ly JLY ltac:(lia)) as (PLY & GLY & RLY). destruct (CO 1%nat hy JHY ltac:(lia)) as (PHY & GHY & RHY).
  exists (Ed lx ly hx hy). split; [|split; [|split]].
  - split; [|auto]. intros x y [QX QY].
    assert (EN : forall c l h, (forall v, In v [aff A (eL E) (eT E) 0 c; aff A (eR E) (eT E) 0 c; aff A (eR E) (eB E) 0 c; aff A (eL E) (eB E) 0 c] -> l <= v <= h) -> l <= aff A x y 0 c <= h).
    { intros c l h HV. assert (HV' : forall x y, In x [eL E; eR E] -> In y [eT E; eB E] -> l <= aff A x y 0 c <= h) by (intros x' y' [<-|[<-|[]]] [<-|[<-|[]]]; apply HV; simpl; auto 6).
      destruct (end_lo (A 0%nat c) _ _ _ QX) as (x1 & J1 & Q1). destruct (end_hi (A 0%nat c) _ _ _ QX) as (x2 & J2 & Q2).
      destruct (end_lo (A 1%nat c) _ _ _ QY) as (y1 & J3 & Q3). destruct (end_hi (A 1%nat c) _ _ _ QY) as (y2 & J4 & Q4).
      pose proof (HV' _ _ J1 J3). pose proof (HV' _ _ J2 J4). unfold aff in * . lra. }
    split; [apply EN, BX|apply EN, BY].
  - unfold matrix_transform_bounds. cbv zeta. fold n. unfold points_bounds, rect_init. cbv zeta.
    assert (LHX : lx <= hx) by (destruct (BX _ JHX); lra). assert (LHY : ly <= hy) by (destruct (BY _ JHY); lra).
    assert (DX := hdist k _ _ _ _ ltac:(lia) HX LX GHX GLX RHX RLX). assert (DY := hdist k _ _ _ _ ltac:(lia) HY LY GHY GLY RHY RLY).
    rewrite norm_pos.
    + apply mk_exact; auto.
    + apply flt_Rf; [apply DX|apply fzero_fin|]. destruct DX as [_ ->]. rewrite fzero_R. lra.
    + apply flt_Rf; [apply DY|apply fzero_fin|]. destruct DY as [_ ->]. rewrite fzero_R. lra.
  - repeat split; auto.
  - repeat split; auto.
Qed.

(** graphene_matrix_transform_rect: the images of the corners, clockwise from the top left *)
Theorem C88_transform_rect_exact : forall (BK : Backend b32) (k : Z) (e : mexp) (r : rexp), (-23 <= k <= 0)%Z -> mtame k e -> tame k r ->
  corner_room k (mideal e) (ideal r) -> let A := mideal e in let E := ideal r in let q := matrix_transform_rect (mrun e) (run r) in
  let img p x y := hpoint p (aff A x y 0 0%nat) (aff A x y 0 1%nat) in
  img (q0 q) (eL E) (eT E) /\ img (q1 q) (eR E) (eT E) /\ img (q2 q) (eR E) (eB E) /\ img (q3 q) (eL E) (eB E).
Proof.
  intros BK k e r K T R B A E q img. assert (K' : (-100 <= k <= 0)%Z) by lia.
  pose proof (C88_history_exact BK k e K' T) as M. pose proof (mideal_pixel k e (proj2 K) T) as P.
  pose proof (C87_history_exact k r K R) as X. pose proof (tame_fits k r (proj2 K) R) as Ft.
  destruct (norm_exact k (run r) E ltac:(lia) X Ft) as (N1 & N2 & N3 & N4 & N5 & N6).
  assert (C : forall x y, In x [eL E; eR E] -> In y [eT E; eB E] -> grid k x /\ grid k y).
  { destruct Ft as [(G1 & G2 & G3 & G4) _]. intros x y [<-|[<-|[]]] [<-|[<-|[]]]; auto. }
  assert (CE : forall p x y, In x [eL E; eR E] -> In y [eT E; eB E] -> hpoint p x y -> img (transform_corner (mrun e) p) x y).
  { intros p x y HX HY HP. destruct (C x y HX HY). apply (corner_exact BK k); auto. }
  split; [|split; [|split]]; apply CE; try (simpl; auto; fail); unfold rect_get_top_left, rect_get_top_right, rect_get_bottom_right, rect_get_bottom_left; rewrite norm_idem; split; assumption.
Qed.

(** a scroll-and-zoom history on the half-pixel grid: identity, times three flipped in y, moved by (100.5, -20),
    composed with a translation *)
Definition ex_mat : mexp := MMul (MTranslate (MScale MIdentity (lit 3 0) (lit (-3) 0) fone) (lit 201 (-1)) (lit (-20) 0) fzero) (MTrans (lit 1 (-1)) (lit 7 0) fzero).
Lemma lit1 : (fone : b32) = lit 1 0. Proof. beq. Qed.
Lemma lit0 : (fzero : b32) = lit 0 0. Proof. beq. Qed.
Example C88_ex : mtame (-1) ex_mat /\ mideal ex_mat 0%nat 0%nat = 3 /\ mideal ex_mat 1%nat 1%nat = -3 /\ mideal ex_mat 3%nat 0%nat = 101 /\ mideal ex_mat 3%nat 1%nat = -13 /\
  corner_room (-1) (mideal ex_mat) (ideal ex_hist).
Proof.
  assert (V : forall r c, (r < 4)%nat -> (c < 4)%nat -> mideal (MScale MIdentity (lit 3 0) (lit (-3) 0) fone) r c = rdiag 3 (-3) 1 1 r c).
  { intros r c Hr Hc. cbn [mideal]. rewrite lit1. unfold rmul, sum_rows. lits. lanes r c; lra. }
  assert (V2 : forall r c, (r < 4)%nat -> (c < 4)%nat -> mideal (MTranslate (MScale MIdentity (lit 3 0) (lit (-3) 0) fone) (lit 201 (-1)) (lit (-20) 0) fzero) r c = 
    rdiag 3 (-3) 1 1 r c + (if Nat.eqb r 3 then nth c [201 / 2; -20; 0; 0] 0 else 0)).
  { intros r c Hr Hc. change (mideal (MTranslate ?e ?x ?y ?z)) with (rmul (mideal e) (rtrans (real x) (real y) (real z))). unfold rmul, sum_rows. rewrite !V by lia. rewrite lit0. lits. lanes r c; lra. }
  assert (V3 : forall r c, (r < 4)%nat -> (c < 4)%nat -> mideal ex_mat r c = rdiag 3 (-3) 1 1 r c + (if Nat.eqb r 3 then nth c [101; -13; 0; 0] 0 else 0)).
  { intros r c Hr Hc. unfold ex_mat. change (mideal (MMul ?a ?b)) with (rmul (mideal a) (mideal b)). unfold rmul, sum_rows. rewrite !V2 by lia. cbn [mideal]. rewrite lit0. lits. lanes r c; lra. }
  assert (RM : forall A B, (forall r c, (r < 4)%nat -> (c < 4)%nat -> -1000 <= A r c <= 1000) -> (forall r c, (r < 4)%nat -> (c < 4)%nat -> -1000 <= B r c <= 1000) -> room (-1) A B).
  { intros A B HA HB.
    assert (Q : forall r c, (r < 4)%nat -> (c < 4)%nat -> rmul (rabs A) (rabs B) r c <= 4000000).
    { intros r c Hr Hc. unfold rmul, rabs, sum_rows.
      assert (W : forall l, (l < 4)%nat -> Rabs (A r l) * Rabs (B l c) <= 1000000).
      { intros l Hl. pose proof (HA r l Hr Hl). pose proof (HB l c Hl Hc). assert (Rabs (A r l) <= 1000) by (apply Rabs_le; lra). assert (Rabs (B l c) <= 1000) by (apply Rabs_le; lra).
        pose proof (Rabs_pos (A r l)). pose proof (Rabs_pos (B l c)). nra. }
      pose proof (W 0%nat ltac:(lia)). pose proof (W 1%nat ltac:(lia)). pose proof (W 2%nat ltac:(lia)). pose proof (W 3%nat ltac:(lia)). lra. }
    split; intros; (eapply Rle_trans; [apply Q; lia|]); simpl; lra. }
  assert (BT : forall x y z r c, -1000 <= x <= 1000 -> -1000 <= y <= 1000 -> -1000 <= z <= 1000 -> (r < 4)%nat -> (c < 4)%nat -> -1000 <= rtrans x y z r c <= 1000) by (intros; lanes r c; lra).
  assert (BD : forall x y z r c, -1000 <= x <= 1000 -> -1000 <= y <= 1000 -> -1000 <= z <= 1000 -> (r < 4)%nat -> (c < 4)%nat -> -1000 <= rdiag x y z 1 r c <= 1000) by (intros; lanes r c; lra).
  split; [|do 4 (split; [rewrite V3 by lia; cbn; lra|])].
  - unfold ex_mat. cbn [mtame]. repeat match goal with |- _ /\ _ => split end; rewrite ?lit1, ?lit0; try (repeat split; apply lit_grid; lia); auto.
    + apply RM; intros r c Hr Hc; lits; apply BD; try lra; assumption.
    + rewrite <- lit1. apply RM; intros r c Hr Hc; [rewrite V by assumption; apply BD; try lra; assumption|]. lits. apply BT; try lra; assumption.
    + rewrite <- lit1, <- lit0. apply RM; intros r c Hr Hc; [rewrite V2 by assumption; lanes r c; lra|]. rewrite lit0. cbn [mideal]. lits. apply BT; try lra; assumption.
  - destruct C87_history_ex as [_ ->]. assert (RE : reach (-1) = 4194304) by (unfold reach; simpl; lra).
    intros x y c HX HY Hc. cbn [eL eR eT eB In] in HX, HY. rewrite RE.
    assert (BX : -100 <= x <= 100) by (destruct HX as [<-|[<-|[]]]; lra). assert (BY : -100 <= y <= 100) by (destruct HY as [<-|[<-|[]]]; lra).
    unfold affmag. rewrite !V3 by lia.
    assert (W : forall a v, -1000 <= a <= 1000 -> -100 <= v <= 100 -> Rabs (a * v) <= 100000) by (intros; apply Rabs_le; nra).
    assert (W1 : forall a, -1000 <= a <= 1000 -> Rabs a <= 1000) by (intros; apply Rabs_le; lra).
    destruct c as [|[|c]]; try lia; cbn;
    match goal with |- Rabs (?a * _) + Rabs (?b * _) + Rabs (?d * _) + Rabs ?f <= _ => pose proof (W a x ltac:(lra) BX); pose proof (W b y ltac:(lra) BY); pose proof (W d 0 ltac:(lra) ltac:(lra)); pose proof (W1 f ltac:(lra)) end; lra.
Qed.
