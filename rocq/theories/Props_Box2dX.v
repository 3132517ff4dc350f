(** * Props_Box2dX: graphene_box2d_t in exact arithmetic (C22).

    Specification: the box with corners (x1, y1) and (x2, y2) stands for the closed set
    x1 <= px <= x2, y1 <= py <= y2 (empty when x2 < x1 or y2 < y1). *)
From Coq Require Import ZArith Reals Bool List Lra Lia Psatz.
From Flocq Require Import Core.
From Verif Require Import Num Simd Vec Rect Box OrdThy XSetup Props_VecX Props_RectX RMat Mat Props_MatX.
Import ListNotations.
Local Open Scope R_scope.

Record rbox := RB { X1 : R; Y1 : R; X2 : R; Y2 : R }.
Definition inb (b : rbox) (x y : R) : Prop := X1 b <= x <= X2 b /\ Y1 b <= y <= Y2 b.
(** the API value, built with the API's initialiser *)
Definition bx (b : rbox) : @box2d xreal := box2d_init (Some (Pt (Fin (X1 b)) (Fin (Y1 b)))) (Some (Pt (Fin (X2 b)) (Fin (Y2 b)))).
Definition pt (x y : R) : point xreal := Pt (Fin x) (Fin y).

Lemma bx_v b : bx b = V4 (Fin (X1 b)) (Fin (Y1 b)) (Fin (X2 b)) (Fin (Y2 b)). Proof. reflexivity. Qed.
Lemma bx_ne b : box2d_is_empty (bx b) = false. Proof. reflexivity. Qed.
Lemma bx_ni b : box2d_is_infinity (bx b) = false. Proof. reflexivity. Qed.

Theorem C22_contains_point_exact : forall (b : rbox) (x y : R), box2d_contains_point (bx b) (pt x y) = true <-> inb b x y.
Proof.
  intros b x y. unfold box2d_contains_point. rewrite bx_ne, bx_ni.
  change (g_cmp_ge (g_init (px (pt x y)) (py (pt x y)) fzero fzero) (box2d_min_v (bx b))) with (fle (Fin (X1 b)) (Fin x) && fle (Fin (Y1 b)) (Fin y) && fle (Fin 0) (Fin 0) && fle (Fin 0) (Fin 0)).
  change (g_cmp_le (g_init (px (pt x y)) (py (pt x y)) fzero fzero) (box2d_max_v (bx b))) with (fle (Fin x) (Fin (X2 b)) && fle (Fin y) (Fin (Y2 b)) && fle (Fin 0) (Fin 0) && fle (Fin 0) (Fin 0)).
  match goal with |- (if ?c then true else false) = true <-> _ => replace (if c then true else false) with c by (destruct c; reflexivity) end.
  rewrite !andb_true_iff, !Xle_iff. unfold inb. intuition lra.
Qed.
(** ** rectangles *)
Theorem C22_rect_round_trip : forall (r : rrect) (b : rbox),
  box2d_to_rect (box2d_init_from_rect (rct r)) = rct r /\ box2d_init_from_rect (box2d_to_rect (bx b)) = bx b.
Proof.
  intros r b. split.
  - change (box2d_to_rect _) with (mkrect (Fin (X r)) (Fin (Y r)) (Fin (X r + W r - X r)) (Fin (Y r + H r - Y r))). unfold rct. do 2 f_equal; f_equal; f_equal; ring.
  - change (box2d_init_from_rect _) with (V4 (Fin (X1 b)) (Fin (Y1 b)) (Fin (X1 b + (X2 b - X1 b))) (Fin (Y1 b + (Y2 b - Y1 b)))). rewrite bx_v. f_equal; f_equal; ring.
Qed.
Theorem C22_init_from_rect_exact : forall (r : rrect) (x y : R), 0 <= W r -> 0 <= H r ->
  (box2d_contains_point (box2d_init_from_rect (rct r)) (pt x y) = true <-> inr r x y).
Proof.
  intros r x y Hw Hh. change (box2d_init_from_rect (rct r)) with (bx (RB (X r) (Y r) (X r + W r) (Y r + H r))).
  rewrite C22_contains_point_exact. unfold inb, inr. rewrite !seg_lohi, !lo_pos, !hi_pos by assumption. cbn [X1 Y1 X2 Y2]. tauto.
Qed.
(** contains_rect is set inclusion whatever the sign convention of the rectangle *)
Theorem C22_contains_rect_exact : forall (b : rbox) (r : rrect),
  box2d_contains_rect (bx b) (rct r) = true <-> (forall x y, inr r x y -> inb b x y).
Proof.
  intros b r. unfold box2d_contains_rect. rewrite bx_ne, bx_ni.
  change (rorigin (rct r)) with (pt (X r) (Y r)). change (Pt _ _) with (pt (X r + W r) (Y r + H r)).
  assert (D : forall p q : bool, (if negb p then false else if negb q then false else true) = true <-> p = true /\ q = true) by (intros [] []; simpl; intuition discriminate).
  rewrite D, !C22_contains_point_exact. unfold inb, inr, seg. split.
  - intros [[A B] [C E]] x y [I J]. revert I J. unfold Rmin, Rmax. destruct (Rle_dec (X r) (X r + W r)), (Rle_dec (Y r) (Y r + H r)); lra.
  - intros G. split; apply G; unfold Rmin, Rmax; destruct (Rle_dec (X r) (X r + W r)), (Rle_dec (Y r) (Y r + H r)); lra.
Qed.
(** ** scaling and translating the corners *)
Theorem C22_scale_offset : forall (BK : Backend xreal) (b : rbox) (sx sy dx dy : R), 0 < sx -> 0 < sy ->
  (forall x y, box2d_contains_point (box2d_scale_offset (bx b) (Some (vec2_init (Fin sx) (Fin sy))) (Some (pt dx dy))) (pt (x * sx + dx) (y * sy + dy)) = true <-> inb b x y) /\
  (forall x y, box2d_contains_point (box2d_scale_offset (bx b) None (Some (pt dx dy))) (pt (x + dx) (y + dy)) = true <-> inb b x y) /\
  (forall x y, box2d_contains_point (box2d_scale_offset (bx b) (Some (vec2_init (Fin sx) (Fin sy))) None) (pt (x * sx) (y * sy)) = true <-> inb b x y) /\
  box2d_scale_offset (bx b) None None = bx b.
Proof.
  intros BK b sx sy dx dy Hx Hy.
  assert (G : forall s o, let S := match s with Some (sx, sy) => Some (vec2_init (Fin sx) (Fin sy)) | None => None end in
     let O := match o with Some (dx, dy) => Some (pt dx dy) | None => None end in
     let '(sx, sy) := match s with Some p => p | None => (1, 1) end in let '(dx, dy) := match o with Some p => p | None => (0, 0) end in
     box2d_scale_offset (bx b) S O = bx (RB (X1 b * sx + dx) (Y1 b * sy + dy) (X2 b * sx + dx) (Y2 b * sy + dy))).
  { intros [[s1 s2]|] [[o1 o2]|]; cbv zeta; rewrite !bx_v; unfold box2d_scale_offset, pt; cbn [X1 Y1 X2 Y2 px py].
    all: try change (g_add _ _) with (rv (s1 + 0) (s2 + 0) (0 + s1) (0 + s2)).
    all: try change (g_init fone fone fone fone) with (rv 1 1 1 1); try change (g_init _ _ _ _) with (rv o1 o2 o1 o2); try change g_init_zero with (rv 0 0 0 0).
    all: change (V4 (Fin (X1 b)) (Fin (Y1 b)) (Fin (X2 b)) (Fin (Y2 b))) with (rv (X1 b) (Y1 b) (X2 b) (Y2 b)); rewrite rv_madd; match goal with |- rv ?a ?b ?c ?d = _ => change (rv a b c d) with (V4 (Fin a) (Fin b) (Fin c) (Fin d)) end; f_equal; f_equal; ring. }
  split; [|split; [|split]].
  - intros x y. rewrite (G (Some (sx, sy)) (Some (dx, dy))), C22_contains_point_exact. unfold inb; cbn [X1 Y1 X2 Y2].
    split; intros; repeat split; nra.
  - intros x y. rewrite (G None (Some (dx, dy))), C22_contains_point_exact. unfold inb; cbn [X1 Y1 X2 Y2]. lra.
  - intros x y. rewrite (G (Some (sx, sy)) None), C22_contains_point_exact. unfold inb; cbn [X1 Y1 X2 Y2].
    split; intros; repeat split; nra.
  - rewrite (G None None). rewrite !bx_v. cbn [X1 Y1 X2 Y2]. f_equal; f_equal; ring.
Qed.
(** expanding by a scalar s moves every edge by s; width, height, size and centre *)
Theorem C22_expand_scalar_exact : forall (b : rbox) (s x y : R),
  box2d_contains_point (box2d_expand_scalar (bx b) (Fin s)) (pt x y) = true <->
  X1 b - s <= x <= X2 b + s /\ Y1 b - s <= y <= Y2 b + s.
Proof.
  intros b s x y. replace (box2d_expand_scalar (bx b) (Fin s)) with (bx (RB (X1 b - s) (Y1 b - s) (X2 b + s) (Y2 b + s))).
  - rewrite C22_contains_point_exact. reflexivity.
  - change (box2d_expand_scalar (bx b) (Fin s)) with (V4 (fadd (Fin (X1 b)) (fmul (Fin s) fm1)) (fadd (Fin (Y1 b)) (fmul (Fin s) fm1)) (Fin (X2 b + s)) (Fin (Y2 b + s))).
    rewrite bx_v, xm1, Xmul, !Xadd. cbn [X1 Y1 X2 Y2]. f_equal; f_equal; ring.
Qed.
Theorem C22_dimensions : forall (b : rbox),
  box2d_get_width (bx b) = Fin (Rabs (X2 b - X1 b)) /\ box2d_get_height (bx b) = Fin (Rabs (Y2 b - Y1 b)) /\
  vec2_get_x (box2d_get_size (bx b)) = Fin (X2 b - X1 b) /\ vec2_get_y (box2d_get_size (bx b)) = Fin (Y2 b - Y1 b) /\
  box2d_get_center (bx b) = pt ((X1 b + X2 b) / 2) ((Y1 b + Y2 b) / 2).
Proof.
  intros b. repeat split.
  unfold box2d_get_center. rewrite bx_ne, bx_ni. cbv zeta beta iota delta [orb].
  change (Pt _ _) with (Pt (fmul (Fin (X1 b + X2 b)) fhalf) (fmul (Fin (Y1 b + Y2 b)) fhalf)). rewrite xhalf, !Xmul. reflexivity.
Qed.
Example C22_exact_ex : inb (RB 0 0 1 2) (1 / 2) 1 /\ ~ inb (RB 0 0 1 2) 2 1 /\ inr (RR 1 1 (-1) (-1)) (1 / 2) (1 / 2).
Proof. unfold inb, inr, seg, Rmin, Rmax; cbn [X1 Y1 X2 Y2 X Y W H]. destruct (Rle_dec 1 (1 + -1)); lra. Qed.
