(** * Props_Rect: rectangles in binary32 (C10-C14, C16), every back end. *)

From Coq Require Import ZArith Reals Bool List Lra Lia.
From Flocq Require Import Core BinarySingleNaN.
From Verif Require Import Num Simd Vec Rect Box Mat OrdThy FloatThy B32Setup FloatLem.
Import ListNotations.

Notation Rb := (rect b32).
Definition rfin (r : Rb) : Prop := fin (rx r) /\ fin (ry r) /\ fin (rw r) /\ fin (rh r).

(** ** helpers *)
Lemma rx_mk (a b c d : b32) : rx (mkrect a b c d) = a. Proof. reflexivity. Qed.
Lemma ry_mk (a b c d : b32) : ry (mkrect a b c d) = b. Proof. reflexivity. Qed.
Lemma rw_mk (a b c d : b32) : rw (mkrect a b c d) = c. Proof. reflexivity. Qed.
Lemma rh_mk (a b c d : b32) : rh (mkrect a b c d) = d. Proof. reflexivity. Qed.
Lemma abs_nonneg (x : b32) : flt (fabs x) fzero = false.
Proof. rewrite flt_X, fabs_X, fzero_X. destruct (B2X x); simpl; auto. destruct (Rlt_dec (Rabs r) 0); auto. pose proof (Rabs_pos r). lra. Qed.
Lemma norm_idem (r : Rb) : rect_normalize (rect_normalize r) = rect_normalize r.
Proof.
  unfold rect_normalize. destruct r as [[x y] [w h]]. unfold rx, ry, rw, rh, mkrect; cbn [px py swidth sheight rorigin rsize].
  destruct (flt w fzero) eqn:Hw, (flt h fzero) eqn:Hh; cbn [px py swidth sheight rorigin rsize];
  rewrite ?Hw, ?Hh; cbn [px py swidth sheight rorigin rsize]; rewrite ?Hw, ?Hh, ?abs_nonneg; cbn [px py swidth sheight rorigin rsize]; rewrite ?Hw, ?Hh, ?abs_nonneg; reflexivity.
Qed.
Lemma norm_nonneg (r : Rb) : flt (rw (rect_normalize r)) fzero = false /\ flt (rh (rect_normalize r)) fzero = false.
Proof.
  unfold rect_normalize. destruct r as [[x y] [w h]]. unfold rx, ry, rw, rh, mkrect; cbn [px py swidth sheight rorigin rsize].
  destruct (flt w fzero) eqn:Hw, (flt h fzero) eqn:Hh; cbn [px py swidth sheight rorigin rsize];
  rewrite ?Hw, ?Hh; cbn [px py swidth sheight rorigin rsize]; rewrite ?Hw, ?Hh, ?abs_nonneg; cbn [px py swidth sheight rorigin rsize]; rewrite ?Hw, ?Hh, ?abs_nonneg; split; auto using abs_nonneg.
Qed.
Lemma norm_id (r : Rb) : flt (rw r) fzero = false -> flt (rh r) fzero = false -> rect_normalize r = r.
Proof. intros E1 E2. unfold rect_normalize. rewrite E1. now rewrite E2. Qed.

Lemma fin_nonneg (x : b32) : fin x -> flt x fzero = false -> (0 <= B2R x)%R.
Proof. intros F. rewrite flt_X, fzero_X, (fin_X x F), xlt_fin_f. auto. Qed.
Lemma fin_abs (x : b32) : fin x -> fin (fabs x).
Proof. destruct x; easy. Qed.
Lemma nn_sub (x y : b32) : fin x -> fin y -> nonnan (fsub x y).
Proof.
  intros Fx Fy. unfold nonnan. rewrite fisnan_X, fsub_X, xrnd_nan, (fin_X x Fx), (fin_X y Fy). reflexivity.
Qed.
Lemma le_add (x w : b32) : nonnan x -> fin w -> flt w fzero = false ->
  fle x (fadd x w) = true /\ nonnan (fadd x w).
Proof.
  intros Nx Fw Hw. pose proof (fin_nonneg w Fw Hw). rewrite fle_X, fadd_X, (fin_X w Fw). unfold nonnan. rewrite fisnan_X, fadd_X, xrnd_nan, (fin_X w Fw).
  unfold nonnan in Nx. rewrite fisnan_X in Nx.
  assert (N : fisnan (FOps:=xreal_ops) (xadd (B2X x) (Fin (B2R w))) = false) by (destruct (B2X x); easy). split; auto.
  rewrite <- (xrnd_B2X x) at 1. apply xrnd_mono. destruct (B2X x); try easy. simpl xadd. apply xle_fin. lra.
Qed.
Lemma add_mono (x w w' : b32) : nonnan x -> fin w -> fin w' -> (B2R w <= B2R w')%R -> fle (fadd x w) (fadd x w') = true.
Proof.
  intros Nx Fw Fw' L. unfold nonnan in Nx. rewrite fisnan_X in Nx.
  rewrite fle_X, !fadd_X, (fin_X w Fw), (fin_X w' Fw'). apply xrnd_mono. destruct (B2X x); try easy. simpl xadd. apply xle_fin. lra.
Qed.
Lemma half_bounds (w : b32) : fin w -> flt w fzero = false ->
  fin (fdiv w ftwo) /\ (0 <= B2R (fdiv w ftwo) <= B2R w)%R.
Proof.
  intros Fw Hw. pose proof (fin_nonneg w Fw Hw) as P.
  assert (D : B2X (fdiv w ftwo) = xrnd (prec:=24) (emax:=128) (Fin (B2R w / 2))).
  { change (fdiv w ftwo) with (Bdiv mode_NE w (ftwo : b32)). rewrite Bdiv_X by (rewrite ftwo_X; intros E; injection E; lra).
    rewrite ftwo_X, (fin_X w Fw). simpl xdiv. destruct (Req_EM_T 2 0); [lra|reflexivity]. }
  assert (L1 : xle (Fin 0) (B2X (fdiv w ftwo)) = true).
  { rewrite D. replace (Fin 0) with (B2X (fzero : b32)) by reflexivity. rewrite <- (xrnd_B2X (fzero : b32)). apply xrnd_mono.
    rewrite fzero_X. apply xle_fin. lra. }
  assert (L2 : xle (B2X (fdiv w ftwo)) (Fin (B2R w)) = true).
  { rewrite D, <- (fin_X w Fw), <- (xrnd_B2X w), (fin_X w Fw). apply xrnd_mono. apply xle_fin. lra. }
  destruct (B2X (fdiv w ftwo)) as [r| | |] eqn:E; try easy. destruct (fin_of_X _ _ E) as [F <-]. split; auto.
  apply xle_fin in L1. apply xle_fin in L2. lra.
Qed.
(** a finite rectangle's normalised origin is not NaN and its size is finite *)
Lemma norm_fields (r : Rb) : rfin r ->
  let n := rect_normalize r in
  nonnan (rx n) /\ nonnan (ry n) /\ fin (rw n) /\ fin (rh n) /\ flt (rw n) fzero = false /\ flt (rh n) fzero = false.
Proof.
  intros (F1 & F2 & F3 & F4) n. destruct (norm_nonneg r) as [N1 N2].
  split; [|split; [|split; [|split; [|split]]]]; auto; unfold n, rect_normalize;
  destruct r as [[x y] [w h]]; unfold rx, ry, rw, rh, mkrect in * ; cbn [px py swidth sheight rorigin rsize] in * ;
  destruct (flt w fzero); cbn [px py swidth sheight rorigin rsize]; destruct (flt h fzero); cbn [px py swidth sheight rorigin rsize];
  auto using nn_sub, fin_abs, fin_nn.
Qed.

Section S.
Context (BK : Backend b32).

(** ** C10: the sign convention does not matter *)
Theorem C10_normalize_idempotent : forall r : Rb, rect_normalize (rect_normalize r) = rect_normalize r.
Proof. exact norm_idem. Qed.
Theorem C10_normalize_nonnegative : forall r : Rb, rfin r ->
  fle fzero (rw (rect_normalize r)) = true /\ fle fzero (rh (rect_normalize r)) = true.
Proof.
  intros r F. destruct (norm_fields r F) as (_ & _ & Fw & Fh & Hw & Hh). split; apply fle_of_nlt; auto using fin_nn; reflexivity.
Qed.
Theorem C10_init_normalizes : forall x y w h : b32, rect_init x y w h = rect_normalize (rect_init x y w h).
Proof. intros. unfold rect_init. now rewrite norm_idem. Qed.
(** Every query and every operation gives the same bits for r and for normalize(r). *)
Theorem C10_queries_invariant : forall (r : Rb) (p : point b32) (x y : b32) (f : b64),
  let n := rect_normalize r in
  rect_get_center n = rect_get_center r /\ rect_get_top_left n = rect_get_top_left r /\
  rect_get_top_right n = rect_get_top_right r /\ rect_get_bottom_left n = rect_get_bottom_left r /\
  rect_get_bottom_right n = rect_get_bottom_right r /\ rect_get_vertices n = rect_get_vertices r /\
  rect_get_x n = rect_get_x r /\ rect_get_y n = rect_get_y r /\ rect_get_width n = rect_get_width r /\
  rect_get_height n = rect_get_height r /\ rect_get_area n = rect_get_area r /\
  rect_contains_point n p = rect_contains_point r p /\ rect_offset n x y = rect_offset r x y /\
  rect_inset n x y = rect_inset r x y /\ rect_round n = rect_round r /\
  rect_round_extents n = rect_round_extents r /\ rect_expand n p = rect_expand r p /\
  rect_scale n x y = rect_scale r x y /\ rect_init_from_rect n = rect_init_from_rect r.
Proof.
  intros r p x y f n. unfold rect_get_center, rect_get_top_left, rect_get_top_right, rect_get_bottom_left, rect_get_bottom_right,
    rect_get_vertices, rect_get_x, rect_get_y, rect_get_width, rect_get_height, rect_get_area, rect_contains_point, rect_offset,
    rect_inset, rect_round, rect_round_extents, rect_expand, rect_scale, rect_init_from_rect, rect_union. unfold n. rewrite !norm_idem. repeat split.
Qed.
Theorem C10_pairs_invariant : forall (a b : Rb) (f : b64),
  let na := rect_normalize a in let nb := rect_normalize b in
  rect_union na nb = rect_union a b /\ rect_intersection na nb = rect_intersection a b /\
  rect_interpolate na nb f = rect_interpolate a b f /\
  rect_equal false (Some na) (Some nb) = rect_equal false (Some a) (Some b) /\
  rect_contains_rect na nb = rect_contains_rect a b.
Proof.
  intros a b f na nb. unfold rect_contains_rect, rect_equal, pointer_equal, rect_equal_fn, rect_union, rect_intersection, rect_interpolate.
  unfold na, nb. rewrite !norm_idem. repeat split.
Qed.

(** ** C11: the corners a finite rectangle reports are inside it *)
Theorem C11_corners_contained : forall r : Rb, rfin r ->
  forall p, In p [rect_get_top_left r; rect_get_top_right r; rect_get_bottom_left r; rect_get_bottom_right r; rect_get_center r] ->
  rect_contains_point r p = true.
Proof.
  intros r F p. destruct (norm_fields r F) as (Nx & Ny & Fw & Fh & Hw & Hh).
  unfold rect_contains_point, rect_get_top_left, rect_get_top_right, rect_get_bottom_left, rect_get_bottom_right, rect_get_center.
  set (n := rect_normalize r) in * . change (rorigin n) with (Pt (rx n) (ry n)) || destruct n as [[nx ny] [nw nh]]; unfold rx, ry, rw, rh in * ; cbn [rorigin rsize px py swidth sheight] in * .
  destruct (le_add nx nw Nx Fw Hw) as [A1 A2]. destruct (le_add ny nh Ny Fh Hh) as [B1 B2].
  destruct (half_bounds nw Fw Hw) as [Fw2 Bw2]. destruct (half_bounds nh Fh Hh) as [Fh2 Bh2].
  assert (Hw2 : flt (fdiv nw ftwo) fzero = false) by (rewrite flt_X, (fin_X _ Fw2), fzero_X; apply xlt_fin_f; lra).
  assert (Hh2 : flt (fdiv nh ftwo) fzero = false) by (rewrite flt_X, (fin_X _ Fh2), fzero_X; apply xlt_fin_f; lra).
  destruct (le_add nx _ Nx Fw2 Hw2) as [C1 C2]. destruct (le_add ny _ Ny Fh2 Hh2) as [D1 D2].
  pose proof (add_mono nx _ _ Nx Fw2 Fw (proj2 Bw2)). pose proof (add_mono ny _ _ Ny Fh2 Fh (proj2 Bh2)).
  simpl In. intros [<-|[<-|[<-|[<-|[<-|[]]]]]]; cbn [px py]; rewrite !andb_true_iff; repeat split; auto using ol_refl.
Qed.

(** ** C12: union *)
Lemma cMIN_le (a b : b32) : nonnan a -> nonnan b -> fle (cMIN a b) a = true /\ fle (cMIN a b) b = true /\ (cMIN a b = a \/ cMIN a b = b).
Proof.
  intros Na Nb. unfold cMIN. destruct (flt a b) eqn:L.
  - split; [now apply ol_refl|]. split; [now apply fle_of_lt|auto].
  - split; [now apply fle_of_nlt|]. split; [now apply ol_refl|auto].
Qed.
Lemma cMAX_le (a b : b32) : nonnan a -> nonnan b -> fle a (cMAX a b) = true /\ fle b (cMAX a b) = true /\ (cMAX a b = a \/ cMAX a b = b).
Proof.
  intros Na Nb. unfold cMAX. destruct (flt b a) eqn:L.
  - split; [now apply ol_refl|]. split; [now apply fle_of_lt|auto].
  - split; [now apply fle_of_nlt|]. split; [now apply ol_refl|auto].
Qed.
(** The union's origin never cuts off a point of either rectangle. *)
Theorem C12_union_near_edges : forall (a b : Rb) (p : point b32), rfin a -> rfin b ->
  rect_contains_point a p = true \/ rect_contains_point b p = true ->
  fle (rx (rect_union a b)) (px p) = true /\ fle (ry (rect_union a b)) (py p) = true.
Proof.
  intros a b p Fa Fb. destruct (norm_fields a Fa) as (Ax & Ay & _). destruct (norm_fields b Fb) as (Bx & By & _).
  unfold rect_contains_point, rect_union. unfold mkrect, rx at 5, ry at 5; cbn [rorigin px py].
  destruct (cMIN_le _ _ Ax Bx) as (M1 & M2 & _). destruct (cMIN_le _ _ Ay By) as (M3 & M4 & _).
  rewrite !andb_true_iff. intros [(((H1 & H2) & _) & _)|(((H1 & H2) & _) & _)]; split; eapply ol_trans; try apply H1; try apply H2; auto.
Qed.
Theorem C12_union_far_edge_refuted : exists (a b : Rb) (p : point b32), rfin a /\ rfin b /\
  rect_contains_point a p = true /\ rect_contains_point (rect_union a b) p = false.
Proof.
  exists (mkrect fzero fzero fone fone), (mkrect (lit (-3) (-26)) fzero fzero fone), (Pt fone fone).
  split; [|split; [|split]]; [repeat split| repeat split|vm_compute; reflexivity|vm_compute; reflexivity].
Qed.
(** Union is commutative up to the sign of zero. *)
Lemma cMIN_comm_X (a b : b32) : nonnan a -> nonnan b -> B2X (cMIN a b) = B2X (cMIN b a).
Proof.
  intros Na Nb. unfold cMIN. rewrite !flt_X. unfold nonnan in * . rewrite fisnan_X in * .
  destruct (xlt (B2X a) (B2X b)) eqn:L1, (xlt (B2X b) (B2X a)) eqn:L2; auto.
  - destruct (B2X a), (B2X b); try easy. apply xlt_fin in L1. apply xlt_fin in L2. lra.
  - destruct (B2X a), (B2X b); try easy. apply xlt_fin_f in L1. apply xlt_fin_f in L2. f_equal. lra.
Qed.
Lemma cMAX_comm_X (a b : b32) : nonnan a -> nonnan b -> B2X (cMAX a b) = B2X (cMAX b a).
Proof.
  intros Na Nb. unfold cMAX. rewrite !flt_X. unfold nonnan in * . rewrite fisnan_X in * .
  destruct (xlt (B2X a) (B2X b)) eqn:L1, (xlt (B2X b) (B2X a)) eqn:L2; auto.
  - destruct (B2X a), (B2X b); try easy. apply xlt_fin in L1. apply xlt_fin in L2. lra.
  - destruct (B2X a), (B2X b); try easy. apply xlt_fin_f in L1. apply xlt_fin_f in L2. f_equal. lra.
Qed.
Theorem C12_union_commutes : forall a b : Rb, rfin a -> rfin b ->
  B2X (rx (rect_union a b)) = B2X (rx (rect_union b a)) /\ B2X (ry (rect_union a b)) = B2X (ry (rect_union b a)) /\
  B2X (rw (rect_union a b)) = B2X (rw (rect_union b a)) /\ B2X (rh (rect_union a b)) = B2X (rh (rect_union b a)).
Proof.
  intros a b Fa Fb. destruct (norm_fields a Fa) as (Ax & Ay & Aw & Ah & Aw' & Ah'). destruct (norm_fields b Fb) as (Bx & By & Bw & Bh & Bw' & Bh').
  unfold rect_union. set (na := rect_normalize a) in * . set (nb := rect_normalize b) in * .
  destruct (le_add (rx na) (rw na)) as [_ N1]; auto. destruct (le_add (ry na) (rh na)) as [_ N2]; auto.
  destruct (le_add (rx nb) (rw nb)) as [_ N3]; auto. destruct (le_add (ry nb) (rh nb)) as [_ N4]; auto.
  rewrite !rx_mk, !ry_mk, !rw_mk, !rh_mk, !fsub_X.
  rewrite (cMIN_comm_X (rx na) (rx nb)), (cMIN_comm_X (ry na) (ry nb)), (cMAX_comm_X (fadd (rx na) (rw na))), (cMAX_comm_X (fadd (ry na) (rh na))) by auto.
  repeat split.
Qed.

(** ** C13: intersection *)
(** p is strictly between the edges the getters of r report *)
Definition strictly_inside (r : Rb) (p : point b32) : Prop :=
  flt (px (rect_get_top_left r)) (px p) = true /\ flt (px p) (px (rect_get_bottom_right r)) = true /\
  flt (py (rect_get_top_left r)) (py p) = true /\ flt (py p) (py (rect_get_bottom_right r)) = true.
Lemma flt_iff (a b : b32) : nonnan a -> nonnan b -> (flt a b = true <-> fle b a = false).
Proof. intros Na Nb. rewrite ol_lt by auto. destruct (fle b a); simpl; split; congruence. Qed.
Theorem C13_intersection_false : forall (a b : Rb), rfin a -> rfin b ->
  fst (rect_intersection a b) = false -> forall p, ~ (strictly_inside a p /\ strictly_inside b p).
Proof.
  intros a b Fa Fb. destruct (norm_fields a Fa) as (Ax & Ay & Aw & Ah & Aw' & Ah'). destruct (norm_fields b Fb) as (Bx & By & Bw & Bh & Bw' & Bh').
  unfold rect_intersection, strictly_inside, rect_get_top_left, rect_get_bottom_right. cbn [px py].
  change (px (rorigin (rect_normalize a))) with (rx (rect_normalize a)). change (py (rorigin (rect_normalize a))) with (ry (rect_normalize a)).
  change (px (rorigin (rect_normalize b))) with (rx (rect_normalize b)). change (py (rorigin (rect_normalize b))) with (ry (rect_normalize b)).
  set (na := rect_normalize a) in * . set (nb := rect_normalize b) in * .
  destruct (le_add (rx na) (rw na)) as [_ N1]; auto. destruct (le_add (ry na) (rh na)) as [_ N2]; auto.
  destruct (le_add (rx nb) (rw nb)) as [_ N3]; auto. destruct (le_add (ry nb) (rh nb)) as [_ N4]; auto.
  destruct (_ || _) eqn:E; [|discriminate]. intros _ p ((P1 & P2 & P3 & P4) & (Q1 & Q2 & Q3 & Q4)).
  assert (K : forall l1 l2 h1 h2 q : b32, nonnan l1 -> nonnan l2 -> nonnan h1 -> nonnan h2 ->
    flt l1 q = true -> flt l2 q = true -> flt q h1 = true -> flt q h2 = true -> fle (cMIN h1 h2) (cMAX l1 l2) = true -> False).
  { intros l1 l2 h1 h2 q M1 M2 M3 M4 I1 I2 I3 I4. 
    assert (Nq : nonnan q) by (apply ol_lt_nn in I1; tauto).
    destruct (cMIN_le h1 h2 M3 M4) as (_ & _ & [-> | ->]), (cMAX_le l1 l2 M1 M2) as (_ & _ & [-> | ->]); intros L;
    match goal with H1 : flt ?l q = true, H2 : flt q ?h = true, H3 : fle ?h ?l = true |- _ =>
      apply flt_iff in H1; auto; apply fle_of_lt in H2; rewrite (ol_trans _ _ _ H2 H3) in H1; discriminate end. }
  apply orb_true_iff in E. destruct E as [E|E]; [apply (K (rx na) (rx nb) (fadd (rx na) (rw na)) (fadd (rx nb) (rw nb)) (px p))|
    apply (K (ry na) (ry nb) (fadd (ry na) (rh na)) (fadd (ry nb) (rh nb)) (py p))]; auto.
Qed.
(** When it answers true, the origin of the result lies in both rectangles. *)
Theorem C13_intersection_true : forall (a b : Rb), rfin a -> rfin b ->
  fst (rect_intersection a b) = true ->
  let o := rorigin (snd (rect_intersection a b)) in
  rect_contains_point a o = true /\ rect_contains_point b o = true.
Proof.
  intros a b Fa Fb. destruct (norm_fields a Fa) as (Ax & Ay & Aw & Ah & Aw' & Ah'). destruct (norm_fields b Fb) as (Bx & By & Bw & Bh & Bw' & Bh').
  unfold rect_intersection, rect_contains_point.
  set (na := rect_normalize a) in * . set (nb := rect_normalize b) in * .
  destruct (le_add (rx na) (rw na)) as [_ N1]; auto. destruct (le_add (ry na) (rh na)) as [_ N2]; auto.
  destruct (le_add (rx nb) (rw nb)) as [_ N3]; auto. destruct (le_add (ry nb) (rh nb)) as [_ N4]; auto.
  destruct (_ || _) eqn:E; [discriminate|]. intros _. cbn [snd]. apply orb_false_iff in E. destruct E as [E1 E2].
  set (x1 := cMAX (rx na) (rx nb)) in * . set (x2 := cMIN (fadd (rx na) (rw na)) (fadd (rx nb) (rw nb))) in * .
  set (y1 := cMAX (ry na) (ry nb)) in * . set (y2 := cMIN (fadd (ry na) (rh na)) (fadd (ry nb) (rh nb))) in * .
  destruct (cMAX_le (rx na) (rx nb) Ax Bx) as (X1 & X2 & Xc). destruct (cMAX_le (ry na) (ry nb) Ay By) as (Y1 & Y2 & Yc).
  destruct (cMIN_le (fadd (rx na) (rw na)) (fadd (rx nb) (rw nb)) N1 N3) as (X3 & X4 & Xd).
  destruct (cMIN_le (fadd (ry na) (rh na)) (fadd (ry nb) (rh nb)) N2 N4) as (Y3 & Y4 & Yd).
  assert (Nx1 : nonnan x1) by (unfold x1; destruct Xc as [-> | ->]; auto). assert (Ny1 : nonnan y1) by (unfold y1; destruct Yc as [-> | ->]; auto).
  assert (Nx2 : nonnan x2) by (unfold x2; destruct Xd as [-> | ->]; auto). assert (Ny2 : nonnan y2) by (unfold y2; destruct Yd as [-> | ->]; auto).
  assert (L1 : fle x1 x2 = true) by (apply fle_of_lt, flt_iff; auto). assert (L2 : fle y1 y2 = true) by (apply fle_of_lt, flt_iff; auto).
  assert (P : forall u v : b32, nonnan u -> nonnan v -> fle u v = true -> flt (fsub v u) fzero = false).
  { intros u v Nu Nv L. rewrite fle_X in L. rewrite flt_X, fsub_X, fzero_X. unfold nonnan in * . rewrite fisnan_X in Nu, Nv.
    assert (Z0 : xrnd (prec:=24) (emax:=128) (Fin 0) = Fin 0) by (rewrite <- fzero_X; apply xrnd_B2X).
    destruct (B2X u) as [ru| | |], (B2X v) as [rv| | |]; try easy.
    apply xle_fin in L. simpl xsub. assert (M : xle (Fin 0) (xrnd (prec:=24) (emax:=128) (Fin (rv - ru))) = true).
    { rewrite <- Z0. apply xrnd_mono, xle_fin. lra. }
    destruct (xrnd (Fin (rv - ru))); try easy. apply xle_fin in M. apply xlt_fin_f. lra. }
  assert (Eo : rorigin (rect_init x1 y1 (fsub x2 x1) (fsub y2 y1)) = Pt x1 y1).
  { unfold rect_init. rewrite norm_id; [reflexivity| |]; apply P; auto. }
  rewrite Eo. cbn [px py]. rewrite !andb_true_iff.
  repeat split; auto; eapply ol_trans; eauto.
Qed.

(** ** C14: rounding to extents *)
Lemma int_fmt (z : Z) : (Z.abs z <= 2 ^ 24)%Z -> generic_format radix2 (SpecFloat.fexp 24 128) (IZR z) /\ (Rabs (IZR z) < bpow radix2 128)%R.
Proof.
  intros Hz. split.
  - destruct (Z.eq_dec (Z.abs z) (2 ^ 24)) as [E|E].
    + apply (generic_format_FLT radix2 (-149) 24). exists (Float radix2 (Z.sgn z * 2 ^ 23) 1); simpl; try lia.
      unfold F2R; simpl. assert (z = (Z.sgn z * 2 ^ 23) * 2)%Z by lia. rewrite H at 1. rewrite mult_IZR. reflexivity.
    + apply (generic_format_FLT radix2 (-149) 24). exists (Float radix2 z 0); simpl; try lia. unfold F2R; simpl. lra.
  - rewrite <- abs_IZR. apply Rle_lt_trans with (IZR (2 ^ 24)); [now apply IZR_le|].
    change (IZR (2 ^ 24)) with (bpow radix2 24). apply bpow_lt. lia.
Qed.
(** the float z, when it is the value of x *)
Definition isint (x : b32) (z : Z) : Prop := B2X x = Fin (IZR z).
Lemma isint_sub x y a b : isint x a -> isint y b -> (Z.abs (a - b) <= 2 ^ 24)%Z -> isint (fsub x y) (a - b).
Proof.
  unfold isint. intros Hx Hy Hb. rewrite fsub_X, Hx, Hy. simpl xsub. rewrite <- minus_IZR. destruct (int_fmt _ Hb). now apply xrnd_fmt.
Qed.
Lemma isint_add x y a b : isint x a -> isint y b -> (Z.abs (a + b) <= 2 ^ 24)%Z -> isint (fadd x y) (a + b).
Proof.
  unfold isint. intros Hx Hy Hb. rewrite fadd_X, Hx, Hy. simpl xadd. rewrite <- plus_IZR. destruct (int_fmt _ Hb). now apply xrnd_fmt.
Qed.
Lemma floor_X (x : b32) : B2X (ffloor x) = xfloor (B2X x). Proof. apply Bfloor_X. Qed.
Lemma ceil_X (x : b32) : B2X (fceil x) = xceil (B2X x). Proof. apply Bceil_X. Qed.
Definition small (x : b32) : Prop := exists r, B2X x = Fin r /\ (Rabs r <= IZR (2 ^ 23))%R.
Lemma small_floor x : small x -> exists z r, isint (ffloor x) z /\ (Z.abs z <= 2 ^ 23)%Z /\ B2X x = Fin r /\ (IZR z <= r)%R /\ z = Zfloor r.
Proof.
  intros (r & E & Hr). apply Rabs_le_inv in Hr. exists (Zfloor r), r. unfold isint. rewrite floor_X, E. split; [reflexivity|].
  pose proof (Zfloor_lb r). split; [|auto]. apply Z.abs_le. split.
  - apply Zfloor_lub. rewrite opp_IZR. lra.
  - apply le_IZR. lra.
Qed.
Lemma small_ceil x : small x -> exists z r, isint (fceil x) z /\ (Z.abs z <= 2 ^ 23)%Z /\ B2X x = Fin r /\ (r <= IZR z)%R /\ z = Zceil r.
Proof.
  intros (r & E & Hr). apply Rabs_le_inv in Hr. exists (Zceil r), r. unfold isint. rewrite ceil_X, E. split; [reflexivity|].
  pose proof (Zceil_ub r). split; [|auto]. apply Z.abs_le. split.
  - apply le_IZR. rewrite opp_IZR. lra.
  - apply Zceil_glb. lra.
Qed.
(** With all four edges at most 2^23 = 8388608 in magnitude, the rounded rectangle has
    integer fields and contains every point of the original. *)
Theorem C14_round_extents_covers : forall r : Rb,
  small (px (rect_get_top_left r)) -> small (py (rect_get_top_left r)) ->
  small (px (rect_get_bottom_right r)) -> small (py (rect_get_bottom_right r)) ->
  let e := rect_round_extents r in
  (exists x y w h, isint (rx e) x /\ isint (ry e) y /\ isint (rw e) w /\ isint (rh e) h) /\
  forall p, rect_contains_point r p = true -> rect_contains_point e p = true.
Proof.
  intros r S1 S2 S3 S4 e. unfold rect_get_top_left, rect_get_bottom_right in * . cbn [px py] in * .
  unfold e, rect_round_extents, rect_contains_point. set (n := rect_normalize r) in * .
  change (px (rorigin n)) with (rx n) in S1. change (py (rorigin n)) with (ry n) in S2.
  destruct (small_floor _ S1) as (a & ra & A1 & A2 & A3 & A4 & _). destruct (small_floor _ S2) as (b & rb & B1 & B2 & B3 & B4 & _).
  destruct (small_ceil _ S3) as (c & rc & C1 & C2 & C3 & C4 & _). destruct (small_ceil _ S4) as (d & rd & D1 & D2 & D3 & D4 & _).
  assert (W1 : isint (fsub (fceil (fadd (rx n) (rw n))) (ffloor (rx n))) (c - a)) by (apply isint_sub; auto; lia).
  assert (H1 : isint (fsub (fceil (fadd (ry n) (rh n))) (ffloor (ry n))) (d - b)) by (apply isint_sub; auto; lia).
  split.
  { exists a, b, (c - a)%Z, (d - b)%Z. unfold mkrect, rx, ry, rw, rh in * ; cbn [rorigin rsize px py swidth sheight]. auto. }
  intros p. rewrite !andb_true_iff. rewrite (fle_X (rx n)), (fle_X (ry n)), (fle_X (px p)), (fle_X (py p)), A3, B3, C3, D3. intros (((P1 & P2) & P3) & P4).
  assert (E1 : exists qx, B2X (px p) = Fin qx /\ (ra <= qx <= rc)%R).
  { destruct (B2X (px p)); try easy. apply xle_fin in P1. apply xle_fin in P3. eauto. }
  assert (E2 : exists qy, B2X (py p) = Fin qy /\ (rb <= qy <= rd)%R).
  { destruct (B2X (py p)); try easy. apply xle_fin in P2. apply xle_fin in P4. eauto. }
  destruct E1 as (qx & E1 & L1), E2 as (qy & E2 & L2).
  assert (Hac : (a <= c)%Z) by (apply le_IZR; lra). assert (Hbd : (b <= d)%Z) by (apply le_IZR; lra).
  rewrite norm_id.
  2:{ unfold mkrect, rw at 1; cbn [rsize swidth]. rewrite flt_X, fzero_X, W1. apply xlt_fin_f, IZR_le. lia. }
  2:{ unfold mkrect, rh at 1; cbn [rsize sheight]. rewrite flt_X, fzero_X, H1. apply xlt_fin_f, IZR_le. lia. }
  rewrite !rx_mk, !ry_mk, !rw_mk, !rh_mk.
  pose proof (isint_add _ _ _ _ A1 W1 ltac:(lia)) as X2. pose proof (isint_add _ _ _ _ B1 H1 ltac:(lia)) as Y2.
  rewrite !fle_X, E1, E2.
  unfold isint in A1, B1, X2, Y2.
  replace (a + (c - a))%Z with c in X2 by lia. replace (b + (d - b))%Z with d in Y2 by lia.
  rewrite A1, B1, X2, Y2, !xle_fin. repeat split; lra.
Qed.
(** Beyond that bound it can lose the far edge: x = -0.5, width = 2^24. *)
Theorem C14_round_extents_refuted : exists (r : Rb) (p : point b32), rfin r /\
  rect_contains_point r p = true /\ rect_contains_point (rect_round_extents r) p = false.
Proof.
  exists (mkrect (lit (-1) (-1)) fzero (lit 16777216 0) fone), (Pt (lit 16777216 0) fzero).
  repeat split; vm_compute; reflexivity.
Qed.

(** ** C16: containment between rectangles *)
(** In binary32 a rectangle need not contain itself: x = 1e8, width 1. *)
Theorem C16_not_reflexive_refuted : exists r : Rb, rfin r /\ rect_contains_rect r r = false.
Proof.
  exists (mkrect (lit 390625 8) fzero fone fone). repeat split; vm_compute; reflexivity.
Qed.
End S.

(** ** the hypotheses above are satisfiable *)
Example rfin_ex : rfin (rect_init (lit 3 0) (lit (-5) (-1)) (lit (-7) 0) (lit 9 0)). Proof. repeat split. Qed.
Example inter_ex : fst (rect_intersection (mkrect fzero fzero ftwo ftwo) (mkrect fone fone ftwo ftwo) : bool * Rb) = true.
Proof. vm_compute. reflexivity. Qed.
Example inter_ex_f : fst (rect_intersection (mkrect fzero fzero fone fone) (mkrect fone fone ftwo ftwo) : bool * Rb) = false.
Proof. vm_compute. reflexivity. Qed.
Example small_ex : small (lit (-8388607) (-1)) /\ small (lit 8388607 0).
Proof.
  split; eexists; (split; [lazymatch goal with |- B2X (lit ?m ?e) = _ =>
    apply (proj1 (lit_exact m e ltac:(reflexivity) ltac:(discriminate) ltac:(discriminate))) end|]);
  unfold F2R; simpl; apply Rabs_le; lra.
Qed.
