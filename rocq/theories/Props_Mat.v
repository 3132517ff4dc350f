(** * Props_Mat: matrices in binary32, every back end (C23, C24, C26, C33, C34, C38, C40). *)

From Coq Require Import ZArith Reals Bool List Lra Lia.
From Flocq Require Import Core BinarySingleNaN.
From Verif Require Import Num Simd Vec Rect Box Mat OrdThy FloatThy B32Setup FloatLem BoxThy Hist Props_Vec Props_Rect.
Import ListNotations.

Notation Mb := (mat b32).
Notation P3b := (point3d b32).
Notation V := (simd4f b32).

(** ** helpers: rounded sums and products are monotone *)
Lemma nn_X (x : b32) : nonnan x <-> fisnan (FOps:=xreal_ops) (B2X x) = false.
Proof. unfold nonnan. now rewrite fisnan_X. Qed.
Lemma fadd_nn_inv (a b : b32) : nonnan (fadd a b) -> nonnan a /\ nonnan b.
Proof. rewrite !nn_X, fadd_X, xrnd_nan. destruct (B2X a), (B2X b); easy. Qed.
Lemma fmul_nn_fin (a b : b32) : fin a -> fin b -> nonnan (fmul a b).
Proof. intros Fa Fb. rewrite nn_X, fmul_X, xrnd_nan, (fin_X a Fa), (fin_X b Fb). reflexivity. Qed.
(** the sum of two enclosed numbers is enclosed, if the two extreme sums and the two mixed
    ones are numbers *)
Lemma fadd_between (a0 a a1 b0 b b1 : b32) :
  fle a0 a = true -> fle a a1 = true -> fle b0 b = true -> fle b b1 = true ->
  nonnan (fadd a0 b0) -> nonnan (fadd a1 b1) -> nonnan (fadd a1 b0) -> nonnan (fadd a0 b1) ->
  fle (fadd a0 b0) (fadd a b) = true /\ fle (fadd a b) (fadd a1 b1) = true.
Proof.
  rewrite !nn_X, !fle_X, !fadd_X, !xrnd_nan. intros A0 A1 B0 B1 N0 N1 N2 N3.
  assert (N : fisnan (FOps:=xreal_ops) (xadd (B2X a) (B2X b)) = false).
  { destruct (B2X a), (B2X b), (B2X a0), (B2X a1), (B2X b0), (B2X b1); easy. }
  split; apply xrnd_mono, xadd_mono; auto.
Qed.
(** the product with a finite number of an enclosed finite number *)
Lemma fmul_between (c p0 p p1 : b32) : fin c -> fin p0 -> fin p1 -> fle p0 p = true -> fle p p1 = true ->
  (fle (fmul c p0) (fmul c p) = true /\ fle (fmul c p) (fmul c p1) = true) \/
  (fle (fmul c p1) (fmul c p) = true /\ fle (fmul c p) (fmul c p0) = true).
Proof.
  intros Fc F0 F1. rewrite !fle_X, !fmul_X, (fin_X c Fc), (fin_X p0 F0), (fin_X p1 F1).
  destruct (B2X p) as [r| | |] eqn:E; try easy. rewrite !xle_fin. intros H0 H1.
  destruct (Rle_dec 0 (B2R c)).
  - left. split; apply xrnd_mono, xmul_mono_pos; auto; now apply xle_fin.
  - right. split; apply xrnd_mono, xmul_mono_neg; auto; try lra; now apply xle_fin.
Qed.

(** one coordinate of a transformed point *)
Definition alane (x y z w px py pz : b32) : b32 := fadd (fadd (fmul x px) (fmul y py)) (fadd (fmul z pz) w).
Section Lane.
Context (x y z w lx ly lz hx hy hz px py pz : b32).
Context (Fx : fin x) (Fy : fin y) (Fz : fin z).
Context (Flx : fin lx) (Fly : fin ly) (Flz : fin lz) (Fhx : fin hx) (Fhy : fin hy) (Fhz : fin hz).
Context (Bx : fle lx px = true) (Bx' : fle px hx = true) (By : fle ly py = true) (By' : fle py hy = true) (Bz : fle lz pz = true) (Bz' : fle pz hz = true).
Context (NN : forall cx cy cz, In cx [lx; hx] -> In cy [ly; hy] -> In cz [lz; hz] -> nonnan (alane x y z w cx cy cz)).
Lemma alane_between : exists cx cy cz dx dy dz,
  In cx [lx; hx] /\ In cy [ly; hy] /\ In cz [lz; hz] /\ In dx [lx; hx] /\ In dy [ly; hy] /\ In dz [lz; hz] /\
  fle (alane x y z w cx cy cz) (alane x y z w px py pz) = true /\ fle (alane x y z w px py pz) (alane x y z w dx dy dz) = true.
Proof.
  assert (E : forall c p0 p p1, fin c -> fin p0 -> fin p1 -> fle p0 p = true -> fle p p1 = true ->
    exists a b, In a [p0; p1] /\ In b [p0; p1] /\ fle (fmul c a) (fmul c p) = true /\ fle (fmul c p) (fmul c b) = true).
  { intros c p0 p p1 Fc F0 F1 H0 H1. destruct (fmul_between c p0 p p1 Fc F0 F1 H0 H1) as [[? ?]|[? ?]].
    - exists p0, p1. simpl; auto. - exists p1, p0. simpl; auto. }
  destruct (E x lx px hx) as (cx & dx & Icx & Idx & X0 & X1); auto.
  destruct (E y ly py hy) as (cy & dy & Icy & Idy & Y0 & Y1); auto.
  destruct (E z lz pz hz) as (cz & dz & Icz & Idz & Z0 & Z1); auto.
  exists cx, cy, cz, dx, dy, dz. do 6 (split; [assumption|]).
  assert (Nw : nonnan w). { specialize (NN lx ly lz ltac:(simpl; auto) ltac:(simpl; auto) ltac:(simpl; auto)). apply fadd_nn_inv in NN as [_ N]. now apply fadd_nn_inv in N. }
  assert (N1 : forall a b, In a [lx; hx] -> In b [ly; hy] -> nonnan (fadd (fmul x a) (fmul y b))).
  { intros a b Ia Ib. apply (fadd_nn_inv _ _ (NN a b lz Ia Ib ltac:(simpl; auto))). }
  assert (N2 : forall c, In c [lz; hz] -> nonnan (fadd (fmul z c) w)).
  { intros c Ic. apply (fadd_nn_inv _ _ (NN lx ly c ltac:(simpl; auto) ltac:(simpl; auto) Ic)). }
  destruct (fadd_between _ _ _ _ _ _ X0 X1 Y0 Y1) as [S0 S1]; auto.
  destruct (fadd_between _ _ _ _ _ _ Z0 Z1 (ol_refl w Nw) (ol_refl w Nw)) as [T0 T1]; auto.
  apply fadd_between; auto; apply NN; auto.
Qed.
End Lane.

(** ** C23: transforming a box *)
(** The corners of a box and a matrix without infinities or NaN. *)
Definition vfin (v : V) : Prop := fin (vx v) /\ fin (vy v) /\ fin (vz v) /\ fin (vw v).
Definition mfin (m : Mb) : Prop := vfin (mx m) /\ vfin (my m) /\ vfin (mz m) /\ vfin (mw m).
Definition p3fin (p : P3b) : Prop := fin (p3x p) /\ fin (p3y p) /\ fin (p3z p).
Definition corner (b : box b32) (c : P3b) : Prop :=
  In (p3x c) [p3x (box_get_min b); p3x (box_get_max b)] /\
  In (p3y c) [p3y (box_get_min b); p3y (box_get_max b)] /\
  In (p3z c) [p3z (box_get_min b); p3z (box_get_max b)].

Section Fold.
Context {BK : Backend b32}.
Lemma fold_lane (g : V -> b32) (vs : list V) : forall b : box b32,
  (forall u v, g (g_min u v) = lane_min (g u) (g v)) -> (forall u v, g (g_max u v) = lane_max (g u) (g v)) ->
  nonnan (g (bmin b)) -> nonnan (g (bmax b)) -> (forall v, In v vs -> nonnan (g v)) ->
  let r := fold_left box_expand_vec3 vs b in
  nonnan (g (bmin r)) /\ nonnan (g (bmax r)) /\ fle (g (bmin r)) (g (bmin b)) = true /\ fle (g (bmax b)) (g (bmax r)) = true /\
  forall v, In v vs -> fle (g (bmin r)) (g v) = true /\ fle (g v) (g (bmax r)) = true.
Proof.
  induction vs as [|v vs IH]; intros b G1 G2 N1 N2 Nv; cbv zeta; simpl.
  - repeat split; auto using ol_refl; contradiction.
  - assert (Nv0 : nonnan (g v)) by (apply Nv; simpl; auto).
    assert (M1 : nonnan (g (bmin (box_expand_vec3 b v)))) by (simpl; rewrite G1; now apply lane_min_nn).
    assert (M2 : nonnan (g (bmax (box_expand_vec3 b v)))) by (simpl; rewrite G2; now apply lane_max_nn).
    destruct (IH (box_expand_vec3 b v) G1 G2 M1 M2) as (I1 & I2 & I3 & I4 & I5). { intros; apply Nv; simpl; auto. }
    simpl in I3, I4. rewrite G1 in I3. rewrite G2 in I4.
    split; [exact I1|]. split; [exact I2|]. split; [eapply ol_trans; [exact I3|]; now apply lane_min_l|].
    split; [eapply ol_trans; [|exact I4]; now apply lane_max_l|].
    intros u [<-|Hu]; [|auto]. split; [eapply ol_trans; [exact I3|]; now apply lane_min_r|eapply ol_trans; [|exact I4]; now apply lane_max_r].
Qed.
End Fold.
Lemma corner_vertex (b : box b32) (c : P3b) : corner b c -> In (vec3_init (p3x c) (p3y c) (p3z c)) (box_get_vertices b).
Proof.
  intros (Hx & Hy & Hz). unfold box_get_vertices. cbv zeta. simpl in Hx, Hy, Hz.
  destruct Hx as [<-|[<-|[]]], Hy as [<-|[<-|[]]], Hz as [<-|[<-|[]]]; simpl; tauto.
Qed.
(** the image of a point, all four lanes *)
Definition image (m : Mb) (p : P3b) : V := gm_point3_mul m (vec3_init (p3x p) (p3y p) (p3z p)).
Theorem C23_transform_box_conservative : forall (BK : Backend b32) (m : Mb) (b : box b32) (p : P3b),
  mfin m -> p3fin (box_get_min b) -> p3fin (box_get_max b) ->
  between3 (box_get_min b) (box_get_max b) p ->
  (forall c, corner b c -> p3_nn (matrix_transform_point3d m c) /\ nonnan (vw (image m c))) ->
  between3 (box_get_min (matrix_transform_box m b)) (box_get_max (matrix_transform_box m b)) (matrix_transform_point3d m p) /\
  box_contains_point (matrix_transform_box m b) (matrix_transform_point3d m p) = true.
Proof.
  intros BK m b p ((X1 & X2 & X3 & X4) & (Y1 & Y2 & Y3 & Y4) & (Z1 & Z2 & Z3 & Z4) & (W1 & W2 & W3 & W4)) (L1 & L2 & L3) (H1 & H2 & H3) (B1 & B2 & B3 & B4 & B5 & B6) NN.
  set (r := matrix_transform_box m b).
  assert (VX : forall v, In v (map (gm_point3_mul m) (box_get_vertices b)) -> exists c, corner b c /\ v = image m c).
  { intros v Hv. apply in_map_iff in Hv as (u & <- & Hu). unfold box_get_vertices in Hu. cbv zeta in Hu.
    set (mn := box_get_min b) in * . set (mx := box_get_max b) in * .
    simpl in Hu. decompose [or] Hu; clear Hu; try contradiction; subst u;
    match goal with |- exists c, _ /\ gm_point3_mul m (vec3_init ?a ?b' ?c') = _ => exists (P3 a b' c'); split; [|reflexivity] end;
    unfold corner; cbn [p3x p3y p3z]; fold mn mx; simpl; auto. }
  assert (VI : forall c, corner b c -> In (image m c) (map (gm_point3_mul m) (box_get_vertices b))).
  { intros c Hc. apply in_map_iff. exists (vec3_init (p3x c) (p3y c) (p3z c)). split; [reflexivity|]. now apply corner_vertex. }
  assert (F : forall g : V -> b32, In g [vx; vy; vz; vw] ->
    (forall u v, g (g_min u v) = lane_min (g u) (g v)) /\ (forall u v, g (g_max u v) = lane_max (g u) (g v)) /\ nonnan (g (bmin box_empty)) /\ nonnan (g (bmax box_empty)) /\
    (forall c, corner b c -> nonnan (g (image m c)))).
  { intros g Hg. simpl in Hg. split; [destruct Hg as [<-|[<-|[<-|[<-|[]]]]]; reflexivity|]. split; [destruct Hg as [<-|[<-|[<-|[<-|[]]]]]; reflexivity|].
    split; [destruct Hg as [<-|[<-|[<-|[<-|[]]]]]; reflexivity|]. split; [destruct Hg as [<-|[<-|[<-|[<-|[]]]]]; reflexivity|].
    intros c Hc. destruct (NN c Hc) as ((N1 & N2 & N3) & N4). destruct Hg as [<-|[<-|[<-|[<-|[]]]]]; auto. }
  assert (K : forall g : V -> b32, In g [vx; vy; vz; vw] ->
    fle (g (bmin r)) (g (bmin box_empty)) = true /\ fle (g (bmax box_empty)) (g (bmax r)) = true /\
    forall c, corner b c -> fle (g (bmin r)) (g (image m c)) = true /\ fle (g (image m c)) (g (bmax r)) = true).
  { intros g Hg. destruct (F g Hg) as (G1 & G2 & G3 & G4 & G5).
    destruct (fold_lane g (map (gm_point3_mul m) (box_get_vertices b)) box_empty G1 G2 G3 G4) as (_ & _ & K3 & K4 & K5).
    { intros v Hv. destruct (VX v Hv) as (c & Hc & ->). auto. }
    split; [exact K3|]. split; [exact K4|]. intros c Hc. apply K5. auto. }
  assert (PB : forall (g : V -> b32), In g [vx; vy; vz] -> fle (g (bmin r)) (g (image m p)) = true /\ fle (g (image m p)) (g (bmax r)) = true).
  { intros g Hg. assert (Hg' : In g [vx; vy; vz; vw]) by (simpl in Hg |- *; tauto). destruct (K g Hg') as (_ & _ & KK). destruct (F g Hg') as (_ & _ & _ & _ & FN).
    assert (AL : forall q, g (image m q) = alane (g (mx m)) (g (my m)) (g (mz m)) (g (mw m)) (p3x q) (p3y q) (p3z q)).
    { intros q. simpl in Hg. destruct Hg as [<-|[<-|[<-|[]]]]; reflexivity. }
    assert (Fx : fin (g (mx m)) /\ fin (g (my m)) /\ fin (g (mz m))) by (simpl in Hg; destruct Hg as [<-|[<-|[<-|[]]]]; auto).
    destruct Fx as (Fx & Fy & Fz).
    destruct (alane_between (g (mx m)) (g (my m)) (g (mz m)) (g (mw m)) (p3x (box_get_min b)) (p3y (box_get_min b)) (p3z (box_get_min b))
      (p3x (box_get_max b)) (p3y (box_get_max b)) (p3z (box_get_max b)) (p3x p) (p3y p) (p3z p)) as (cx & cy & cz & dx & dy & dz & I1 & I2 & I3 & I4 & I5 & I6 & S0 & S1); auto.
    { intros cx cy cz Ix Iy Iz. change cx with (p3x (P3 cx cy cz)). change cy with (p3y (P3 cx cy cz)) at 2. change cz with (p3z (P3 cx cy cz)) at 3. rewrite <- AL. apply FN. repeat split; assumption. }
    assert (Cc : corner b (P3 cx cy cz)) by (repeat split; assumption). assert (Cd : corner b (P3 dx dy dz)) by (repeat split; assumption).
    destruct (KK _ Cc) as [Q0 _]. destruct (KK _ Cd) as [_ Q1]. rewrite AL in Q0, Q1 |- * . cbn [p3x p3y p3z] in Q0, Q1.
    split; eapply ol_trans; eauto. }
  assert (T : matrix_transform_point3d m p = P3 (vx (image m p)) (vy (image m p)) (vz (image m p))) by reflexivity.
  rewrite T.
  destruct (PB vx) as [Px Px']; [simpl; auto|]. destruct (PB vy) as [Py Py']; [simpl; auto|]. destruct (PB vz) as [Pz Pz']; [simpl; auto|].
  assert (BT : between3 (box_get_min r) (box_get_max r) (P3 (vx (image m p)) (vy (image m p)) (vz (image m p)))).
  { exact (conj Px (conj Px' (conj Py (conj Py' (conj Pz Pz'))))). }
  split; [exact BT|]. unfold box_contains_point.
  destruct (box_is_empty r) eqn:E; [exfalso; eapply no_point_empty; eauto|]. destruct (box_is_infinity r); auto.
  destruct (K vw) as (Q0 & Q1 & _); [simpl; auto|].
  unfold g_cmp_ge, g_cmp_le, all2, g_init; cbn [vx vy vz vw p3x p3y p3z]. rewrite Px, Px', Py, Py', Pz, Pz'.
  change (vw (bmin (box_empty : box b32))) with (fzero : b32) in Q0. change (vw (bmax (box_empty : box b32))) with (fzero : b32) in Q1.
  rewrite Q0, Q1. reflexivity.
Qed.

(** The hidden fourth lane of the result is not zero: the box of a transformed box is not
    recognised as contained in the box it equals. *)
Lemma P3_ext {F} (a b : point3d F) : p3x a = p3x b -> p3y a = p3y b -> p3z a = p3z b -> a = b.
Proof. destruct a as [a1 a2 a3], b as [b1 b2 b3]; cbn [p3x p3y p3z]; congruence. Qed.
Theorem C23_identity_box_refuted : forall BK : Backend b32,
  let b := box_init (Some (P3 fzero fzero fzero)) (Some (P3 fone fone fone)) : box b32 in
  let t := matrix_transform_box matrix_init_identity b in
  box_get_min t = box_get_min b /\ box_get_max t = box_get_max b /\
  box_contains_box b t = false /\ box_contains_box t b = true.
Proof.
  intros BK. destruct BK as [[]| |[] [] rcp rsq|rec rsq sq]; cbv zeta; (split; [apply P3_ext; beq|split; [apply P3_ext; beq|split; beq]]).
Qed.
(** the hypotheses of the conservativeness theorem on that box, with a rotation-like matrix *)
Example C23_hypotheses_met : let BK : Backend b32 := Gcc in
  let m := M4 (V4 (lit 3 (-1)) (lit 1 0) fzero fzero) (V4 (lit (-1) 0) (lit 3 (-1)) fzero fzero) (V4 fzero fzero fone fzero) (V4 (lit 5 0) fzero fzero fone) : Mb in
  let b := box_init (Some (P3 (lit (-1) 0) fzero fzero)) (Some (P3 fone fone fone)) : box b32 in
  mfin m /\ p3fin (box_get_min b) /\ p3fin (box_get_max b) /\
  (forall c, corner b c -> p3_nn (matrix_transform_point3d m c) /\ nonnan (vw (image m c))) /\
  between3 (box_get_min b) (box_get_max b) (P3 fzero fzero fzero).
Proof.
  cbv zeta. split; [repeat split|]. split; [repeat split|]. split; [repeat split|]. split.
  - intros [x y z] (Hx & Hy & Hz). cbn [p3x p3y p3z] in * .
    destruct Hx as [<-|[<-|[]]], Hy as [<-|[<-|[]]], Hz as [<-|[<-|[]]]; repeat split; beq.
  - repeat split; beq.
Qed.

(** ** C24: the near edges of transformed bounds, in binary32 *)
Section Bounds.
Context {BK : Backend b32}.
Lemma minval_le (v : V) : nonnan (vx v) -> nonnan (vy v) -> nonnan (vz v) -> nonnan (vw v) ->
  let m := g_get_x (g_min_val v) in
  fle m (vx v) = true /\ fle m (vy v) = true /\ fle m (vz v) = true /\ fle m (vw v) = true.
Proof.
  intros A B C D. cbv zeta. destruct v as [a b c d]. cbn [vx vy vz vw] in * .
  change (g_get_x (g_min_val (V4 a b c d))) with (lane_min (lane_min a d) (lane_min c b)).
  assert (N1 : nonnan (lane_min a d)) by now apply lane_min_nn. assert (N2 : nonnan (lane_min c b)) by now apply lane_min_nn.
  pose proof (lane_min_l _ _ N1 N2) as L1. pose proof (lane_min_r _ _ N1 N2) as L2.
  split; [exact (ol_trans _ _ _ L1 (lane_min_l _ _ A D))|]. split; [exact (ol_trans _ _ _ L2 (lane_min_r _ _ C B))|].
  split; [exact (ol_trans _ _ _ L2 (lane_min_l _ _ C B))|exact (ol_trans _ _ _ L1 (lane_min_r _ _ A D))].
Qed.
Lemma minval_max (v : V) : nonnan (vx v) -> nonnan (vy v) -> nonnan (vz v) -> nonnan (vw v) ->
  let m := g_get_x (g_max_val v) in nonnan m /\
  fle (vx v) m = true /\ fle (vy v) m = true /\ fle (vz v) m = true /\ fle (vw v) m = true.
Proof.
  intros A B C D. cbv zeta. destruct v as [a b c d]. cbn [vx vy vz vw] in * .
  change (g_get_x (g_max_val (V4 a b c d))) with (lane_max (lane_max a d) (lane_max c b)).
  assert (N1 : nonnan (lane_max a d)) by now apply lane_max_nn. assert (N2 : nonnan (lane_max c b)) by now apply lane_max_nn.
  pose proof (lane_max_l _ _ N1 N2) as L1. pose proof (lane_max_r _ _ N1 N2) as L2.
  split; [now apply lane_max_nn|].
  split; [exact (ol_trans _ _ _ (lane_max_l _ _ A D) L1)|]. split; [exact (ol_trans _ _ _ (lane_max_r _ _ C B) L2)|].
  split; [exact (ol_trans _ _ _ (lane_max_l _ _ C B) L2)|exact (ol_trans _ _ _ (lane_max_r _ _ A D) L1)].
Qed.
Lemma sub_not_neg (a b : b32) : fle b a = true -> flt (fsub a b) fzero = false.
Proof.
  rewrite fle_X, flt_X, fsub_X, fzero_X. intros H.
  destruct (B2X a) as [x| | |], (B2X b) as [y| | |]; try easy.
  rewrite xle_fin in H. simpl xsub.
  pose proof (xrnd_mono (prec:=24) (emax:=128) (Fin 0) (Fin (x - y)%R)) as M.
  rewrite <- fzero_X in M at 2. rewrite xrnd_B2X, fzero_X in M. specialize (M ltac:(apply xle_fin; lra)).
  destruct (xrnd (Fin (x - y)%R)); try easy. apply xle_fin in M. apply xlt_fin_f. lra.
Qed.
(** the near edges of the bounds of four points *)
Lemma points_bounds_near (a b c d : point b32) :
  (forall p, In p [a; b; c; d] -> nonnan (px p) /\ nonnan (py p)) ->
  forall p, In p [a; b; c; d] -> fle (rx (points_bounds a b c d)) (px p) = true /\ fle (ry (points_bounds a b c d)) (py p) = true.
Proof.
  intros N. destruct (N a) as [Na1 Na2]; [simpl; auto|]. destruct (N b) as [Nb1 Nb2]; [simpl; auto|]. destruct (N c) as [Nc1 Nc2]; [simpl; auto|]. destruct (N d) as [Nd1 Nd2]; [simpl; auto|].
  unfold points_bounds. cbv zeta.
  destruct (minval_le (g_init (px a) (px b) (px c) (px d)) Na1 Nb1 Nc1 Nd1) as (X1 & X2 & X3 & X4).
  destruct (minval_le (g_init (py a) (py b) (py c) (py d)) Na2 Nb2 Nc2 Nd2) as (Y1 & Y2 & Y3 & Y4).
  destruct (minval_max (g_init (px a) (px b) (px c) (px d)) Na1 Nb1 Nc1 Nd1) as (_ & X5 & _).
  destruct (minval_max (g_init (py a) (py b) (py c) (py d)) Na2 Nb2 Nc2 Nd2) as (_ & Y5 & _).
  unfold rect_init. rewrite norm_id.
  2: { rewrite rw_mk. apply sub_not_neg. exact (ol_trans _ _ _ X1 X5). }
  2: { rewrite rh_mk. apply sub_not_neg. exact (ol_trans _ _ _ Y1 Y5). }
  rewrite rx_mk, ry_mk. intros p Hp. simpl in Hp. destruct Hp as [<-|[<-|[<-|[<-|[]]]]]; auto.
Qed.
End Bounds.
Lemma mul1_X (w : b32) : B2X (fmul w fone) = B2X w.
Proof. rewrite fmul_X, fone_X, xmul_comm. rewrite <- (xrnd_B2X w) at 2. f_equal. destruct (B2X w); simpl; auto; try (f_equal; ring); unfold xsgn_inf; destruct (Rlt_dec 0 1); auto; lra. Qed.
Lemma alane_mul1 x y z w a b c : B2X (alane x y z (fmul w fone) a b c) = B2X (alane x y z w a b c).
Proof. unfold alane. rewrite !fadd_X. now rewrite mul1_X. Qed.
(** No corner coordinate overflows. *)
Definition corners_fin (r : Rb) : Prop :=
  fin (px (rect_get_top_left r)) /\ fin (py (rect_get_top_left r)) /\
  fin (px (rect_get_bottom_right r)) /\ fin (py (rect_get_bottom_right r)).
Definition rect_corners (r : Rb) : list (point b32) :=
  [rect_get_top_left r; rect_get_top_right r; rect_get_bottom_right r; rect_get_bottom_left r].
Lemma rect_corners_in (r : Rb) (q : point b32) : In q (rect_corners r) <->
  In (px q) [px (rect_get_top_left r); px (rect_get_bottom_right r)] /\ In (py q) [py (rect_get_top_left r); py (rect_get_bottom_right r)].
Proof.
  unfold rect_corners, rect_get_top_left, rect_get_top_right, rect_get_bottom_right, rect_get_bottom_left. cbv zeta.
  set (n := rect_normalize r). destruct n as [[a b] [w h]]. unfold rx, ry, rw, rh. cbn [px py rorigin rsize swidth sheight].
  destruct q as [qx qy]. cbn [px py]. simpl. split.
  - intros [E|[E|[E|[E|[]]]]]; injection E as <- <-; auto.
  - intros [[<-|[<-|[]]] [<-|[<-|[]]]]; auto.
Qed.
Theorem C24_transform_bounds_near_edges : forall (BK : Backend b32) (m : Mb) (r : Rb) (p : point b32),
  mfin m -> corners_fin r -> rect_contains_point r p = true ->
  (forall c, In c (rect_corners r) -> nonnan (px (matrix_transform_point m c)) /\ nonnan (py (matrix_transform_point m c))) ->
  fle (rect_get_x (matrix_transform_bounds m r)) (px (matrix_transform_point m p)) = true /\
  fle (rect_get_y (matrix_transform_bounds m r)) (py (matrix_transform_point m p)) = true.
Proof.
  intros BK m r p ((X1 & X2 & X3 & X4) & (Y1 & Y2 & Y3 & Y4) & (Z1 & Z2 & Z3 & Z4) & (W1 & W2 & W3 & W4)) (Fx & Fy & Fx' & Fy') C NN.
  assert (B : fle (px (rect_get_top_left r)) (px p) = true /\ fle (px p) (px (rect_get_bottom_right r)) = true /\
              fle (py (rect_get_top_left r)) (py p) = true /\ fle (py p) (py (rect_get_bottom_right r)) = true).
  { unfold rect_contains_point in C. cbv zeta in C. rewrite !andb_true_iff in C. destruct C as (((A1 & A2) & A3) & A4). repeat split; assumption. }
  destruct B as (B1 & B2 & B3 & B4).
  assert (LX : forall q, px (matrix_transform_point m q) = alane (vx (mx m)) (vx (my m)) (vx (mz m)) (vx (mw m)) (px q) (py q) fzero) by reflexivity.
  assert (LY : forall q, py (matrix_transform_point m q) = alane (vy (mx m)) (vy (my m)) (vy (mz m)) (vy (mw m)) (px q) (py q) fzero) by reflexivity.
  assert (CX : forall q, px (transform_corner m q) = alane (vx (mx m)) (vx (my m)) (vx (mz m)) (fmul (vx (mw m)) fone) (px q) (py q) fzero) by reflexivity.
  assert (CY : forall q, py (transform_corner m q) = alane (vy (mx m)) (vy (my m)) (vy (mz m)) (fmul (vy (mw m)) fone) (px q) (py q) fzero) by reflexivity.
  assert (ZZ : forall c, In c [fzero; fzero : b32] -> c = fzero) by (simpl; intros c [<-|[<-|[]]]; reflexivity).
  assert (Z0 : fle (fzero : b32) fzero = true) by reflexivity.
  assert (F0 : fin (fzero : b32)) by reflexivity.
  (* the bounds are below the corners' images *)
  assert (K : forall c, In c (rect_corners r) ->
    fle (rect_get_x (matrix_transform_bounds m r)) (px (transform_corner m c)) = true /\
    fle (rect_get_y (matrix_transform_bounds m r)) (py (transform_corner m c)) = true).
  { intros c Hc. unfold matrix_transform_bounds. cbv zeta.
    assert (E : rect_get_top_left (rect_normalize r) = rect_get_top_left r /\ rect_get_top_right (rect_normalize r) = rect_get_top_right r /\
      rect_get_bottom_right (rect_normalize r) = rect_get_bottom_right r /\ rect_get_bottom_left (rect_normalize r) = rect_get_bottom_left r).
    { unfold rect_get_top_left, rect_get_top_right, rect_get_bottom_right, rect_get_bottom_left. rewrite norm_idem. auto. }
    destruct E as (-> & -> & -> & ->).
    set (bd := points_bounds _ _ _ _).
    assert (I : rect_normalize bd = bd) by (unfold bd, points_bounds, rect_init; cbv zeta; apply norm_idem).
    unfold rect_get_x, rect_get_y. rewrite I. apply points_bounds_near.
    - intros q Hq. change [transform_corner m (rect_get_top_left r); transform_corner m (rect_get_top_right r); transform_corner m (rect_get_bottom_right r); transform_corner m (rect_get_bottom_left r)]
        with (map (transform_corner m) (rect_corners r)) in Hq. apply in_map_iff in Hq as (u & <- & Hu).
      destruct (NN u Hu) as [N1 N2]. rewrite nn_X in N1, N2 |- * . rewrite nn_X. rewrite CX, CY, !alane_mul1, <- LX, <- LY. auto.
    - apply (in_map (transform_corner m) (rect_corners r)). exact Hc. }
  split.
  - rewrite LX.
    destruct (alane_between (vx (mx m)) (vx (my m)) (vx (mz m)) (vx (mw m)) (px (rect_get_top_left r)) (py (rect_get_top_left r)) fzero
      (px (rect_get_bottom_right r)) (py (rect_get_bottom_right r)) fzero (px p) (py p) fzero) as (cx & cy & cz & _ & _ & _ & I1 & I2 & I3 & _ & _ & _ & S0 & _); auto.
    { intros cx cy cz Ix Iy Iz. rewrite (ZZ cz Iz). change cx with (px (Pt cx cy)). change cy with (py (Pt cx cy)) at 2. rewrite <- LX. destruct (NN (Pt cx cy)) as [N1 _]; [apply rect_corners_in; split; assumption|exact N1]. }
    rewrite (ZZ cz I3) in S0. eapply ol_trans; [|exact S0].
    destruct (K (Pt cx cy)) as [Q _]. { apply rect_corners_in. split; assumption. }
    rewrite CX in Q. cbn [px py] in Q. rewrite fle_X in Q |- * . rewrite alane_mul1 in Q. exact Q.
  - rewrite LY.
    destruct (alane_between (vy (mx m)) (vy (my m)) (vy (mz m)) (vy (mw m)) (px (rect_get_top_left r)) (py (rect_get_top_left r)) fzero
      (px (rect_get_bottom_right r)) (py (rect_get_bottom_right r)) fzero (px p) (py p) fzero) as (cx & cy & cz & _ & _ & _ & I1 & I2 & I3 & _ & _ & _ & S0 & _); auto.
    { intros cx cy cz Ix Iy Iz. rewrite (ZZ cz Iz). change cx with (px (Pt cx cy)). change cy with (py (Pt cx cy)) at 2. rewrite <- LY. destruct (NN (Pt cx cy)) as [_ N2]; [apply rect_corners_in; split; assumption|exact N2]. }
    rewrite (ZZ cz I3) in S0. eapply ol_trans; [|exact S0].
    destruct (K (Pt cx cy)) as [_ Q]. { apply rect_corners_in. split; assumption. }
    rewrite CY in Q. cbn [px py] in Q. rewrite fle_X in Q |- * . rewrite alane_mul1 in Q. exact Q.
Qed.
(** The far edges can cut a point off: x + (max_x - x) rounds below max_x. *)
Theorem C24_far_edge_refuted : forall BK : Backend b32, exists (m : Mb) (r : Rb) (p : point b32),
  mfin m /\ corners_fin r /\ rect_contains_point r p = true /\
  rect_contains_point (matrix_transform_bounds m r) (matrix_transform_point m p) = false.
Proof.
  intros BK. exists (M4 (V4 (lit 7 0) fzero fzero fzero) (V4 fzero fone fzero fzero) (V4 fzero fzero fone fzero) (V4 (lit (-1) (-19)) fzero fzero fone)),
    (mkrect (lit (-11) (-20)) fzero (lit 3 0) fone), (Pt (lit 3145717 (-20)) fzero).
  split; [repeat split|]. split; [repeat split|].
  destruct BK as [[]| |[] [] rcp rsq|rec rsq sq]; split; beq.
Qed.
Example C24_hypotheses_met : let BK : Backend b32 := Gcc in
  let m := M4 (V4 (lit 7 0) fone fzero fzero) (V4 fone (lit 5 0) fzero fzero) (V4 fzero fzero fone fzero) (V4 (lit (-1) (-19)) fzero fzero fone) : Mb in
  let r := mkrect (lit (-11) (-20)) fzero (lit (-3) 0) fone : Rb in
  mfin m /\ corners_fin r /\ rect_contains_point r (Pt fm1 fone) = true /\
  (forall c, In c (rect_corners r) -> nonnan (px (matrix_transform_point m c)) /\ nonnan (py (matrix_transform_point m c))).
Proof.
  cbv zeta. split; [repeat split|]. split; [repeat split|]. split; [beq|].
  intros c Hc. unfold rect_corners in Hc. destruct Hc as [<-|[<-|[<-|[<-|[]]]]]; unfold nonnan; split; beq.
Qed.

(** ** C26: transposition, bit for bit *)
Theorem C26_transpose_involution : forall m : Mb, matrix_transpose (matrix_transpose m) = m.
Proof. intros [[] [] [] []]. reflexivity. Qed.
Theorem C26_transpose_moves_entries : forall (m : Mb) (i j : nat),
  matrix_get_value (matrix_transpose m) i j = matrix_get_value m j i.
Proof.
  intros m i j. unfold matrix_get_value.
  destruct i as [|[|[|[|i]]]], j as [|[|[|[|j]]]]; reflexivity.
Qed.

(** ** C34: the entries of a matrix are addressable *)
(** [entry l i j] is the row-major entry of an array of sixteen floats. *)
Definition entry (l : list b32) (i j : nat) : option b32 := nth_error l (4 * i + j).
Theorem C34_init_from_float : forall l : list b32, (16 <= length l)%nat ->
  exists m : Mb, matrix_init_from_float l = Some m /\
  forall i j, (i < 4)%nat -> (j < 4)%nat -> entry l i j = Some (matrix_get_value m i j).
Proof.
  intros l Hl. do 16 (destruct l as [|? l]; [simpl in Hl; lia|]). eexists. split; [reflexivity|].
  intros i j Hi Hj. destruct i as [|[|[|[|i]]]]; [| | | |lia]; (destruct j as [|[|[|[|j]]]]; [| | | |lia]); reflexivity.
Qed.
(** Fewer than sixteen floats is out of bounds (the model answers [None]). *)
Theorem C34_init_from_short : forall l : list b32, matrix_init_from_float l = None <-> (length l < 16)%nat.
Proof.
  intros l. split.
  - intros H. destruct (Nat.lt_ge_cases (length l) 16) as [|G]; auto. destruct (C34_init_from_float l G) as (m & E & _). congruence.
  - intros H. do 16 (destruct l as [|? l]; [reflexivity|]). simpl in H. lia.
Qed.
Theorem C34_to_float : forall (m : Mb) (d : list b32), (16 <= length d)%nat ->
  exists d', matrix_to_float m d = Some d' /\ length d' = length d /\
  (forall i j, (i < 4)%nat -> (j < 4)%nat -> entry d' i j = Some (matrix_get_value m i j)) /\
  (forall k, (16 <= k)%nat -> nth_error d' k = nth_error d k).
Proof.
  intros m d Hd. do 16 (destruct d as [|? d]; [simpl in Hd; lia|]). eexists. split; [reflexivity|]. split; [reflexivity|]. split.
  - intros i j Hi Hj. destruct i as [|[|[|[|i]]]]; [| | | |lia]; (destruct j as [|[|[|[|j]]]]; [| | | |lia]); reflexivity.
  - intros k Hk. do 16 (destruct k as [|k]; [lia|]). reflexivity.
Qed.
Theorem C34_float_round_trip : forall (l d : list b32), (16 <= length l)%nat -> (16 <= length d)%nat -> exists m,
  matrix_init_from_float l = Some m /\ matrix_to_float m d = Some (firstn 16 l ++ skipn 16 d).
Proof.
  intros l d Hl Hd. do 16 (destruct l as [|? l]; [simpl in Hl; lia|]). eexists. split; [reflexivity|].
  unfold matrix_to_float, gm_to_float. destruct (Nat.ltb_spec (length d) 16); [lia|]. reflexivity.
Qed.
Theorem C34_rows : forall (r0 r1 r2 r3 : V) (i j : nat), let m := matrix_init_from_vec4 r0 r1 r2 r3 in
  nth_error [r0; r1; r2; r3] i = (if (i <? 4)%nat then Some (matrix_get_row m i) else None) /\
  ((i < 4)%nat -> (j < 4)%nat -> nth_error [vx (matrix_get_row m i); vy (matrix_get_row m i); vz (matrix_get_row m i); vw (matrix_get_row m i)] j = Some (matrix_get_value m i j)).
Proof.
  intros r0 r1 r2 r3 i j m. split.
  - destruct i as [|[|[|[|[|i]]]]]; reflexivity.
  - intros Hi Hj. destruct i as [|[|[|[|i]]]]; [| | | |lia]; (destruct j as [|[|[|[|j]]]]; [| | | |lia]); reflexivity.
Qed.
(** An index out of range reads zero, never memory beyond the matrix. *)
Theorem C34_out_of_range : forall (m : Mb) (i j : nat), (4 <= i \/ 4 <= j)%nat ->
  matrix_get_value m i j = fzero /\ (4 <= i -> matrix_get_row m i = vec4_init fzero fzero fzero fzero)%nat.
Proof.
  intros m i j H. split.
  - unfold matrix_get_value. replace ((3 <? i) || (3 <? j))%nat with true; [reflexivity|]. symmetry. apply orb_true_iff. destruct H; [left|right]; apply Nat.ltb_lt; lia.
  - intros Hi. do 4 (destruct i as [|i]; [lia|]). reflexivity.
Qed.

(** ** C33: affine 2D matrices *)
Lemma abs0_eps : flt (fabs (fzero : b32)) feps = true. Proof. beq. Qed.
Lemma one_eps : flt (fsub fone (fabs (fone : b32))) feps = true. Proof. beq. Qed.
Theorem C33_2d_round_trip : forall xx yx xy yy x0 y0 : b64,
  matrix_to_2d (matrix_init_from_2d xx yx xy yy x0 y0 : Mb) =
  Some (f2d (d2f xx), f2d (d2f yx), f2d (d2f xy), f2d (d2f yy), f2d (d2f x0), f2d (d2f y0)).
Proof.
  intros. unfold matrix_to_2d. replace (gm_is_2d _) with true; [reflexivity|]. symmetry.
  unfold matrix_init_from_2d, gm_is_2d, g_init. cbn [mx my mz mw vx vy vz vw]. rewrite !abs0_eps, !one_eps. reflexivity.
Qed.
(** converting to float and back: the correctly rounded value, which is the number itself
    when it is representable as a float *)
Theorem C33_conversion : forall d : b64,
  (forall f : b32, B2X d = B2X f -> B2X (f2d (d2f d)) = B2X d) /\
  (is_finite d = true -> fin (d2f d) ->
     B2R (f2d (d2f d)) = round radix2 (SpecFloat.fexp 24 128) ZnearestE (B2R d)).
Proof.
  intros d. split.
  - intros f E. rewrite f2d_X, d2f_X, E. apply xrnd_B2X.
  - intros Fd Ff. assert (E : Fin (B2R (d2f d : b32)) = xrnd (prec:=24) (emax:=128) (Fin (B2R d))).
    { rewrite <- (B2X_finite d Fd). etransitivity; [symmetry; exact (fin_X (d2f d) Ff)|apply d2f_X]. }
    symmetry in E. apply xrnd_fin_inv in E as [E _].
    assert (G : B2X (f2d (d2f d) : b64) = Fin (B2R (d2f d : b32))) by (etransitivity; [apply f2d_X|exact (fin_X (d2f d) Ff)]).
    rewrite E in G. revert G. change (B2X (f2d (d2f d) : b64) = Fin (round radix2 (SpecFloat.fexp 24 128) ZnearestE (B2R d)) -> B2R (f2d (d2f d) : b64) = round radix2 (SpecFloat.fexp 24 128) ZnearestE (B2R d)). generalize (f2d (d2f d) : b64). intros x. destruct x as [s|[]| |s mm e H]; intros G; try discriminate; injection G as G; exact G.
Qed.

(** ** C38: matrix equality *)
Definition sf_dec (x y : SpecFloat.spec_float) : {x = y} + {x <> y}.
Proof. decide equality; try apply Z.eq_dec; try apply Pos.eq_dec; apply Bool.bool_dec. Defined.
(** bitwise comparison of two floats (NaNs are one value in the model) *)
Definition b32_dec (x y : b32) : ({x = y} + {x <> y})%type :=
  match sf_dec (B2SF x) (B2SF y) with
  | left e => left (B2SF_inj _ _ x y e)
  | right n => right (fun e => n (f_equal B2SF e)) end.
Lemma near4_refl {BK : Backend b32} (v : V) (e : b32) : vfin v -> xlt (Fin 0) (B2X (fmul e e)) = true -> vec4_near v v e = true.
Proof.
  intros (F1 & F2 & F3 & F4) He. unfold vec4_near. rewrite flt_X. rewrite <- He. f_equal. simpl.
  repeat first [apply add0_X | apply sq0_X | apply sub_self_X; assumption].
Qed.
Lemma matrix_near_rows {BK : Backend b32} (a b : Mb) (e : b32) : matrix_near false (Some a) (Some b) e =
  vec4_near (mx a) (mx b) e && (vec4_near (my a) (my b) e && (vec4_near (mz a) (mz b) e && (vec4_near (mw a) (mw b) e && true))).
Proof. reflexivity. Qed.
Theorem C38_symmetric : forall (BK : Backend b32) (same : bool) (a b : option Mb) (e : b32),
  matrix_near same a b e = matrix_near same b a e /\ matrix_equal same a b = matrix_equal same b a.
Proof.
  intros BK same a b. assert (S : forall e, matrix_near same a b e = matrix_near same b a e).
  { intros e. destruct same, a as [a|], b as [b|]; try reflexivity. rewrite !matrix_near_rows. now rewrite (near4_sym (mx a)), (near4_sym (my a)), (near4_sym (mz a)), (near4_sym (mw a)). }
  intros e. split; [apply S|apply S].
Qed.
Theorem C38_reflexive_finite : forall (BK : Backend b32) (m : Mb) (e : b32), mfin m -> flt fzero (fmul e e) = true ->
  matrix_near false (Some m) (Some m) e = true /\ matrix_equal false (Some m) (Some m) = true.
Proof.
  intros BK m e (F1 & F2 & F3 & F4) He. rewrite flt_X, fzero_X in He.
  unfold matrix_equal. rewrite !matrix_near_rows. split; [rewrite !near4_refl by assumption; reflexivity|]. rewrite !near4_refl by (assumption || apply feps2). reflexivity.
Qed.
(** equal bits, as memcmp compares them *)
Theorem C38_equal_fast_is_identity : forall a b : Mb, matrix_equal_fast b32_dec a b = true <-> a = b.
Proof.
  intros [[a1 a2 a3 a4] [a5 a6 a7 a8] [a9 a10 a11 a12] [a13 a14 a15 a16]] [[c1 c2 c3 c4] [c5 c6 c7 c8] [c9 c10 c11 c12] [c13 c14 c15 c16]].
  unfold matrix_equal_fast. cbn [mx my mz mw vx vy vz vw]. cbv zeta.
  split.
  - repeat match goal with |- context [b32_dec ?x ?y] => destruct (b32_dec x y); [subst|simpl; try discriminate] end; try reflexivity;
      repeat match goal with |- context [if ?c then _ else _] => destruct c end; simpl; discriminate.
  - intros E. injection E. intros. subst. repeat match goal with |- context [b32_dec ?x ?x] => destruct (b32_dec x x); [|congruence] end. reflexivity.
Qed.
Theorem C38_equal_fast_implies_equal : forall (BK : Backend b32) (a b : Mb), mfin a -> matrix_equal_fast b32_dec a b = true ->
  matrix_equal false (Some a) (Some b) = true.
Proof.
  intros BK a b Fa H. apply C38_equal_fast_is_identity in H. subst b.
  apply (C38_reflexive_finite BK a feps Fa). beq.
Qed.
(** a positive answer bounds the difference of every entry *)
Theorem C38_near_sound : forall (BK : Backend b32) (a b : Mb) (e : b32), mfin a -> mfin b -> fin e -> fle fzero e = true ->
  matrix_near false (Some a) (Some b) e = true ->
  forall i j, (i < 4)%nat -> (j < 4)%nat -> (Rabs (B2R (matrix_get_value a i j) - B2R (matrix_get_value b i j)) < B2R e)%R.
Proof.
  intros BK a b e (A1 & A2 & A3 & A4) (B1 & B2 & B3 & B4) Fe E0 H. rewrite matrix_near_rows in H. rewrite !andb_true_iff in H. destruct H as (H1 & H2 & H3 & H4 & _).
  assert (K : forall u v, vfin u -> vfin v -> vec4_near u v e = true -> forall j, (j < 4)%nat -> (Rabs (B2R (g_get u j) - B2R (g_get v j)) < B2R e)%R).
  { intros u v Fu Fv N j Hj. destruct (C05_near_sound BK u v e Fe E0) as (_ & _ & S).
    destruct j as [|[|[|[|j]]]]; [| | | |lia].
    - apply (S Fu Fv N vec4_get_x). simpl; auto. - apply (S Fu Fv N vec4_get_y). simpl; auto.
    - apply (S Fu Fv N vec4_get_z). simpl; auto. - apply (S Fu Fv N vec4_get_w). simpl; auto. }
  intros i j Hi Hj. unfold matrix_get_value. replace ((3 <? i) || (3 <? j))%nat with false.
  2: { symmetry. apply orb_false_iff. split; apply Nat.ltb_ge; lia. }
  destruct i as [|[|[|[|i]]]]; [| | | |lia]; apply K; auto.
Qed.
(** +0 and -0 differ for equal_fast, and a matrix with an infinity is not equal to its copy *)
Theorem C38_refuted : forall BK : Backend b32, let z := matrix_init_scale fone fone fzero : Mb in let nz := matrix_init_scale fone fone (fneg fzero) : Mb in let i := matrix_init_scale finf fone fone : Mb in
  matrix_equal false (Some z) (Some nz) = true /\ matrix_equal_fast b32_dec z nz = false /\
  matrix_equal_fast b32_dec i i = true /\ matrix_equal false (Some i) (Some i) = false.
Proof. intros BK. destruct BK as [[]| |[] [] rcp rsq|rec rsq sq]; cbv zeta; repeat split; beq. Qed.
Example C38_hypotheses_met : mfin (matrix_init_scale fone (lit 3 (-5)) (lit (-7) 9)) /\ flt fzero (fmul (feps : b32) feps) = true.
Proof. split; [repeat split|beq]. Qed.

(** ** C40, C27, C28, C32: in binary32 *)
Theorem C40_accepted : forall (BK : Backend b32) (xx yx xy yy x0 y0 : b64),
  matrix_is_2d (matrix_init_from_2d xx yx xy yy x0 y0 : Mb) = true /\
  matrix_is_identity (matrix_init_identity : Mb) = true /\ matrix_is_2d (matrix_init_identity : Mb) = true.
Proof.
  intros. split; [|destruct BK as [[]| |[] [] rcp rsq|rec rsq sq]; split; beq].
  unfold matrix_is_2d, matrix_init_from_2d, gm_is_2d, g_init. cbn [mx my mz mw vx vy vz vw]. rewrite !abs0_eps, !one_eps. reflexivity.
Qed.
Theorem C27_identity_b32_refuted : forall BK : Backend b32, matrix_determinant (matrix_init_identity : Mb) = fm1.
Proof. intros BK. destruct BK as [[]| |[] [] rcp rsq|rec rsq sq]; beq. Qed.
(** Looking along the up vector: the tweak that is to avoid the degenerate frame is too small
    for the scalar back end's reciprocal square root, and the view matrix is singular. *)
Theorem C32_degenerate_up_refuted : forall b : bool, let BK : Backend b32 := Scalar b in
  let m := matrix_init_look_at (vec3_init fzero fzero fzero) (vec3_init fzero fone fzero) (vec3_init fzero fone fzero) : Mb in
  matrix_is_identity m = false /\ matrix_is_singular m = true /\ feqb (matrix_get_value m 0 0) fzero = true /\
  feqb (matrix_get_value m 0 1) fzero = true /\ feqb (matrix_get_value m 0 2) fzero = true.
Proof. intros b. cbv zeta. destruct b; repeat split; beq. Qed.
(** Rotating about an axis whose squared length is at most FLT_EPSILON: the scalar back end
    normalises the axis to zero and returns cos (angle) times the identity block, for every libm. *)
Theorem C30_degenerate_axis_refuted : forall (b : bool) (LM : LibM b32) (deg : b32), let BK : Backend b32 := Scalar b in
  let m := matrix_init_rotate deg (vec3_init (lit 1 (-12)) fzero fzero) : Mb in
  fin (fcos (fneg (deg_to_rad deg))) ->
  B2X (matrix_get_value m 0 0) = B2X (fcos (fneg (deg_to_rad deg))) /\
  B2X (matrix_get_value m 1 1) = B2X (fcos (fneg (deg_to_rad deg))) /\
  B2X (matrix_get_value m 2 2) = B2X (fcos (fneg (deg_to_rad deg))).
Proof.
  intros b LM deg BK m Fc. set (c := fcos _) in * .
  set (ax := g_normalize3 (vec3_init (lit 1 (-12)) fzero fzero : V)).
  assert (A : vx ax = fzero /\ vy ax = fzero /\ vz ax = fzero) by (unfold ax, BK; destruct b; split; [|split| |split]; beq).
  destruct A as (A1 & A2 & A3).
  assert (K : forall t : b32, t = fmul fzero fzero -> B2X (fadd t (fmul c (fsub fone t))) = B2X c).
  { intros t ->. assert (T0 : B2X (fmul (fzero : b32) fzero) = Fin 0) by (apply sq0_X; apply fzero_X).
    assert (T1 : B2X (fsub fone (fmul (fzero : b32) fzero)) = Fin 1).
    { rewrite fsub_X, T0, fone_X. simpl xsub. rewrite Rminus_0_r, <- fone_X. apply xrnd_B2X. }
    rewrite fadd_X, T0, fmul_X, T1, (fin_X c Fc). simpl xmul. rewrite Rmult_1_r, <- (fin_X c Fc), xrnd_B2X, (fin_X c Fc). simpl xadd. rewrite Rplus_0_l, <- (fin_X c Fc). apply xrnd_B2X. }
  split; [|split].
  - change (matrix_get_value m 0 0) with (fadd (fmul (vx ax) (vx ax)) (fmul c (fsub fone (fmul (vx ax) (vx ax))))). apply K. now rewrite A1.
  - change (matrix_get_value m 1 1) with (fadd (fmul (vy ax) (vy ax)) (fmul c (fsub fone (fmul (vy ax) (vy ax))))). apply K. now rewrite A2.
  - change (matrix_get_value m 2 2) with (fadd (fmul (vz ax) (vz ax)) (fmul c (fsub fone (fmul (vz ax) (vz ax))))). apply K. now rewrite A3.
Qed.
