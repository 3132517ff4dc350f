(** * C62: output arguments may alias inputs.

    Memory is an array of floats ([Alias.mem]); an object occupies consecutive cells.  For every
    function [f] with an output parameter, [computes] says: after the call the cells of [res] hold
    [f] of what the arguments held BEFORE the call, and no other cell has changed.  "Before" is
    what makes the statement about aliasing: it must hold when [res] is one of the arguments.
    Two address hypotheses are used:
    - none: [res] may be anywhere, even partly overlapping its arguments;
    - [same_or_apart]: [res] is exactly the argument, or shares no cell with it. *)
From Coq Require Import ZArith Bool List Lia Reals.
From Verif Require Import Num Simd Vec Rect Box Mat Geo Quat Alias.
Import ListNotations.
Open Scope Z_scope.

(** ** specification *)
Definition untouched {F} (res len : Z) (m m' : Z -> F) : Prop :=
  forall x, x < res \/ res + len <= x -> m' x = m x.
Definition computes {F T} (load : Z -> (Z -> F) -> T) (res len : Z) (m m' : Z -> F) (value : T) : Prop :=
  load res m' = value /\ untouched res len m m'.
Definition same_or_apart (p n q k : Z) : Prop := p = q \/ p + n <= q \/ q + k <= p.

Section C62.
Context {F D : Type} {O : FOps F} {DD : DOps F D} {L : LibM F} {LD : LibM D} {B : Backend F}.
Notation mem := (Z -> F).
Implicit Types m : mem.

Lemma set_eq m p v x : x = p -> set m p v x = v.
Proof. intros ->. unfold set. now rewrite Z.eqb_refl. Qed.
Lemma set_ne m p v x : x <> p -> set m p v x = m x.
Proof. intros H. unfold set. destruct (Z.eqb_spec x p); congruence. Qed.
Ltac cell := repeat first [rewrite set_eq by lia | rewrite set_ne by lia].
Ltac spl := match goal with H : same_or_apart _ _ _ _ |- _ => destruct H as [H|H]; [subst|] end.

Lemma vec_same m p v : ld_vec p (st_vec p v m) = v.
Proof. destruct v. unfold ld_vec, st_vec. cell. reflexivity. Qed.
Lemma vec_other m p q v : q + 4 <= p \/ p + 4 <= q -> ld_vec q (st_vec p v m) = ld_vec q m.
Proof. intros H. unfold ld_vec, st_vec. cell. reflexivity. Qed.
Lemma vec_out m p v x : x < p \/ p + 4 <= x -> st_vec p v m x = m x.
Proof. intros H. unfold st_vec. cell. reflexivity. Qed.
Lemma ld_vec_ext m m' p : (forall x, p <= x < p + 4 -> m' x = m x) -> ld_vec p m' = ld_vec p m.
Proof. intros H. unfold ld_vec. rewrite !H by lia. reflexivity. Qed.
Ltac vl := repeat first [rewrite vec_same | rewrite vec_other by lia].
Lemma mat_same m p v : ld_mat p (st_mat p v m) = v.
Proof. destruct v as [a b c d]. unfold ld_mat, st_mat. cbn [mx my mz mw]. vl. reflexivity. Qed.
Lemma mat_out m p v x : x < p \/ p + 16 <= x -> st_mat p v m x = m x.
Proof. intros H. unfold st_mat. rewrite !vec_out by lia. reflexivity. Qed.
Lemma ld_mat_ext m m' p : (forall x, p <= x < p + 16 -> m' x = m x) -> ld_mat p m' = ld_mat p m.
Proof. intros H. unfold ld_mat. rewrite !(ld_vec_ext m m') by (intros; apply H; lia). reflexivity. Qed.

(** ** vectors: vec2, vec3 and vec4 operations *)
Theorem C62_vector_unary (f : simd4f F -> simd4f F) a res m :
  computes ld_vec res 4 m (c_vec_op1 f a res m) (f (ld_vec a m)).
Proof. split; [apply vec_same|intros x H; now apply vec_out]. Qed.
Theorem C62_vector_binary (f : simd4f F -> simd4f F -> simd4f F) a b res m :
  computes ld_vec res 4 m (c_vec_op2 f a b res m) (f (ld_vec a m) (ld_vec b m)).
Proof. split; [apply vec_same|intros x H; now apply vec_out]. Qed.
Theorem C62_vec3_normalize v res m :
  computes ld_vec res 4 m (c_vec3_normalize v res m) (vec3_normalize (ld_vec v m)).
Proof.
  unfold c_vec3_normalize, vec3_normalize.
  destruct (flt feps _); (split; [apply vec_same|intros x H; now apply vec_out]).
Qed.

(** ** points and sizes *)
Ltac fr := intros x Hx; cell; reflexivity.
Theorem C62_point_interpolate a b factor res m :
  same_or_apart a 2 res 2 -> same_or_apart b 2 res 2 ->
  computes ld_point res 2 m (c_point_interpolate a b factor res m) (point_interpolate (ld_point a m) (ld_point b m) factor).
Proof.
  intros Ha Hb. unfold c_point_interpolate, point_interpolate, ld_point. split; [|fr].
  cell. cbn [px py]. f_equal. f_equal; (rewrite set_ne; [reflexivity|]); unfold same_or_apart in * ; lia.
Qed.
Theorem C62_size_interpolate a b factor res m :
  same_or_apart a 2 res 2 -> same_or_apart b 2 res 2 ->
  computes ld_size res 2 m (c_size_interpolate a b factor res m) (size_interpolate (ld_size a m) (ld_size b m) factor).
Proof.
  intros Ha Hb. unfold c_size_interpolate, c_point_interpolate, size_interpolate, ld_size. split; [|fr].
  cell. cbn [swidth sheight]. f_equal. f_equal; (rewrite set_ne; [reflexivity|]); unfold same_or_apart in * ; lia.
Qed.
Theorem C62_size_scale s factor res m :
  computes ld_size res 2 m (c_size_scale s factor res m) (size_scale (ld_size s m) factor).
Proof.
  unfold c_size_scale, size_scale, ld_size, st_size. cbn [swidth sheight]. split; [|fr].
  cell. reflexivity.
Qed.
Theorem C62_point3d_scale p factor res m :
  computes ld_point3d res 3 m (c_point3d_scale p factor res m) (point3d_scale (ld_point3d p m) factor).
Proof. split; [|unfold c_point3d_scale, c_point3d_init_from_simd4f; fr]. unfold c_point3d_scale, c_point3d_init_from_simd4f, ld_point3d. cell. reflexivity. Qed.
Theorem C62_point3d_cross a b res m :
  computes ld_point3d res 3 m (c_point3d_cross a b res m) (point3d_cross (ld_point3d a m) (ld_point3d b m)).
Proof. split; [|unfold c_point3d_cross, c_point3d_init_from_simd4f; fr]. unfold c_point3d_cross, c_point3d_init_from_simd4f, ld_point3d. cell. reflexivity. Qed.
Theorem C62_point3d_normalize p res m :
  computes ld_point3d res 3 m (c_point3d_normalize p res m) (point3d_normalize (ld_point3d p m)).
Proof. split; [|unfold c_point3d_normalize, c_point3d_init_from_simd4f; fr]. unfold c_point3d_normalize, c_point3d_init_from_simd4f, ld_point3d. cell. reflexivity. Qed.
Theorem C62_point3d_interpolate a b factor res m :
  same_or_apart a 3 res 3 -> same_or_apart b 3 res 3 ->
  computes ld_point3d res 3 m (c_point3d_interpolate a b factor res m) (point3d_interpolate (ld_point3d a m) (ld_point3d b m) factor).
Proof.
  intros Ha Hb. unfold c_point3d_interpolate, point3d_interpolate, ld_point3d. split; [|fr].
  cbn [p3x p3y p3z]. unfold same_or_apart in * .
  rewrite (set_ne _ (res + 1) _ (a + 2)), (set_ne _ (res + 1) _ (b + 2)), (set_ne _ res _ (a + 2)), (set_ne _ res _ (b + 2)),
    (set_ne _ res _ (a + 1)), (set_ne _ res _ (b + 1)) by lia.
  cell. reflexivity.
Qed.
(* the viewport is a rectangle, so it is only required to share no cell with the output *)
Theorem C62_point3d_normalize_viewport p viewport z_near z_far res m :
  same_or_apart p 3 res 3 -> viewport + 4 <= res \/ res + 3 <= viewport ->
  computes ld_point3d res 3 m (c_point3d_normalize_viewport p viewport z_near z_far res m)
    (point3d_normalize_viewport (ld_point3d p m) (ld_rect viewport m) z_near z_far).
Proof.
  intros Hp Hv. unfold c_point3d_normalize_viewport, point3d_normalize_viewport. split.
  - unfold ld_point3d, ld_rect, ld_point, ld_size. cbn [p3x p3y p3z rorigin rsize px py swidth sheight].
    replace (viewport + 2 + 1) with (viewport + 3) by lia.
    destruct Hp as [->|Hp]; cell; reflexivity.
  - cbv zeta. fr.
Qed.

(** ** rectangles *)
Lemma rect_cells r m (R : rect F) : ld_rect r m = R ->
  m r = rx R /\ m (r + 1) = ry R /\ m (r + 2) = rw R /\ m (r + 2 + 1) = rh R.
Proof. intros <-. repeat split. Qed.
Lemma ld_rect_cells r m : ld_rect r m = mkrect (m r) (m (r + 1)) (m (r + 2)) (m (r + 2 + 1)).
Proof. reflexivity. Qed.
Lemma normalize_in_place r m :
  computes ld_rect r 4 m (c_rect_normalize_in_place r m) (rect_normalize (ld_rect r m)).
Proof.
  unfold c_rect_normalize_in_place, rect_normalize. rewrite !ld_rect_cells.
  unfold mkrect, rx, ry, rw, rh. cbn [rorigin rsize px py swidth sheight].
  split.
  - destruct (flt (m (r + 2)) fzero); cbv zeta; cell; cbn [rorigin rsize px py swidth sheight];
      destruct (flt (m (r + 2 + 1)) fzero); rewrite ?ld_rect_cells; unfold mkrect; cell; reflexivity.
  - intros x Hx. destruct (flt (m (r + 2)) fzero); cbv zeta; cell;
      destruct (flt (m (r + 2 + 1)) fzero); cell; reflexivity.
Qed.
Lemma st_rect_spec r v m : computes ld_rect r 4 m (st_rect r v m) v.
Proof.
  split; [|unfold st_rect, st_size, st_point; fr].
  destruct v as [[x0 y0] [w0 h0]]. rewrite ld_rect_cells. unfold mkrect, st_rect, st_size, st_point. cbn [rorigin rsize px py swidth sheight].
  cell. reflexivity.
Qed.
Theorem C62_rect_init_from_rect r src m :
  computes ld_rect r 4 m (c_rect_init_from_rect r src m) (rect_init_from_rect (ld_rect src m)).
Proof.
  unfold c_rect_init_from_rect, rect_init_from_rect.
  destruct (st_rect_spec r (ld_rect src m) m) as [E1 U1].
  destruct (normalize_in_place r (st_rect r (ld_rect src m) m)) as [E2 U2].
  split; [now rewrite E2, E1|]. intros x Hx. now rewrite U2, U1.
Qed.
Lemma rect_init_spec r x y w h m : computes ld_rect r 4 m (c_rect_init r x y w h m) (rect_init x y w h).
Proof.
  unfold c_rect_init, rect_init.
  destruct (st_rect_spec r (mkrect x y w h) m) as [E1 U1].
  unfold st_rect in E1, U1. cbn [mkrect rorigin rsize] in E1, U1.
  destruct (normalize_in_place r (st_size (r + 2) (Sz w h) (st_point r (Pt x y) m))) as [E2 U2].
  split; [rewrite E2, E1; reflexivity|]. intros z Hz. now rewrite U2, U1.
Qed.
Theorem C62_rect_normalize r res m :
  computes ld_rect res 4 m (c_rect_normalize_r r res m) (rect_normalize (ld_rect r m)).
Proof.
  unfold c_rect_normalize_r. destruct (Z.eqb_spec res r) as [->|N]; [apply normalize_in_place|].
  apply C62_rect_init_from_rect.
Qed.
Theorem C62_rect_get_center r p m : computes ld_point p 2 m (c_rect_get_center r p m) (rect_get_center (ld_rect r m)).
Proof. split; [|unfold c_rect_get_center, st_point; fr]. unfold c_rect_get_center, ld_point, st_point. cell. reflexivity. Qed.
Theorem C62_rect_get_corner f r p m :
  computes ld_point p 2 m (c_rect_get_corner f r p m) (f (rect_normalize (ld_rect r m))).
Proof. split; [|unfold c_rect_get_corner, st_point; fr]. unfold c_rect_get_corner, ld_point, st_point. cell. destruct (f _). reflexivity. Qed.
Theorem C62_rect_union a b res m :
  computes ld_rect res 4 m (c_rect_union a b res m) (rect_union (ld_rect a m) (ld_rect b m)).
Proof.
  unfold c_rect_union, rect_union. cbv zeta. generalize (rect_normalize (ld_rect a m)) (rect_normalize (ld_rect b m)). intros ra rb.
  split; [rewrite ld_rect_cells; cell; reflexivity|fr].
Qed.
Theorem C62_rect_intersection a b res m :
  fst (c_rect_intersection a b res m) = fst (rect_intersection (ld_rect a m) (ld_rect b m)) /\
  match res with
  | Some res => computes ld_rect res 4 m (snd (c_rect_intersection a b (Some res) m)) (snd (rect_intersection (ld_rect a m) (ld_rect b m)))
  | None => snd (c_rect_intersection a b None m) = m
  end.
Proof.
  unfold c_rect_intersection, rect_intersection.
  destruct (_ || _); cbn [fst snd]; (split; [reflexivity|]); destruct res; try reflexivity; apply rect_init_spec.
Qed.
Ltac normd r res m :=
  destruct (C62_rect_normalize r res m) as [E U];
  generalize dependent (c_rect_normalize_r r res m); intros m1 E U;
  destruct (rect_cells _ _ _ E) as (E1 & E2 & E3 & E4).
Ltac fru U := intros x Hx; cell; apply U; exact Hx.
Theorem C62_rect_offset r d_x d_y res m :
  computes ld_rect res 4 m (c_rect_offset_r r d_x d_y res m) (rect_offset (ld_rect r m) d_x d_y).
Proof.
  unfold c_rect_offset_r, rect_offset. normd r res m. cbv zeta.
  split; [rewrite ld_rect_cells; cell; rewrite E1, E2, E3, E4; reflexivity|fru U].
Qed.
Theorem C62_rect_inset r d_x d_y res m :
  computes ld_rect res 4 m (c_rect_inset_r r d_x d_y res m) (rect_inset (ld_rect r m) d_x d_y).
Proof.
  unfold c_rect_inset_r, rect_inset. normd r res m. cbv zeta.
  split.
  - rewrite ld_rect_cells.
    destruct (fle fzero d_x), (fle fzero d_y);
      (match goal with |- context [if flt ?w fzero then set _ (res + 2) fzero else _] => destruct (flt w fzero) eqn:W end);
      (match goal with |- context [if flt ?w fzero then set _ (res + 2 + 1) fzero else _] => destruct (flt w fzero) eqn:W2 end);
      repeat (rewrite ?set_eq, ?set_ne in W by lia); repeat (rewrite ?set_eq, ?set_ne in W2 by lia);
      cell; rewrite E1, E2, ?E3, ?E4 in * ; rewrite ?W, ?W2; reflexivity.
  - intros x Hx. destruct (fle fzero d_x), (fle fzero d_y);
      (match goal with |- context [if flt ?w fzero then set _ (res + 2) fzero else _] => destruct (flt w fzero) end);
      (match goal with |- context [if flt ?w fzero then set _ (res + 2 + 1) fzero else _] => destruct (flt w fzero) end);
      cell; apply U; exact Hx.
Qed.
Theorem C62_rect_round r res m :
  computes ld_rect res 4 m (c_rect_round r res m) (rect_round (ld_rect r m)).
Proof.
  unfold c_rect_round, rect_round. normd r res m. cbv zeta.
  split; [rewrite ld_rect_cells; cell; rewrite E1, E2, E3, E4; reflexivity|fru U].
Qed.
Theorem C62_rect_round_extents r res m :
  computes ld_rect res 4 m (c_rect_round_extents r res m) (rect_round_extents (ld_rect r m)).
Proof.
  unfold c_rect_round_extents, rect_round_extents. normd r res m. cbv zeta.
  split; [rewrite ld_rect_cells; cell; rewrite E1, E2, E3, E4; reflexivity|fru U].
Qed.
Theorem C62_rect_expand r p res m :
  computes ld_rect res 4 m (c_rect_expand r p res m) (rect_expand (ld_rect r m) (ld_point p m)).
Proof.
  unfold c_rect_expand, rect_expand, rect_union, ld_point. cbn [px py].
  generalize (rect_normalize (ld_rect r m)) (rect_normalize (rect_init (m p) (m (p + 1)) fzero fzero)). intros ra rb. cbv zeta.
  match goal with |- computes _ _ _ _ (c_rect_normalize_in_place _ ?M) _ => destruct (normalize_in_place res M) as [E U] end.
  split; [rewrite E; f_equal; rewrite ld_rect_cells; cell; reflexivity|].
  intros x Hx. rewrite U by exact Hx. cell. reflexivity.
Qed.
Theorem C62_rect_interpolate a b factor res m :
  computes ld_rect res 4 m (c_rect_interpolate a b factor res m) (rect_interpolate (ld_rect a m) (ld_rect b m) factor).
Proof.
  unfold c_rect_interpolate, rect_interpolate. cbv zeta. generalize (rect_normalize (ld_rect a m)) (rect_normalize (ld_rect b m)). intros ra rb.
  split; [rewrite ld_rect_cells; cell; reflexivity|fr].
Qed.
Theorem C62_rect_scale r s_h s_v res m :
  computes ld_rect res 4 m (c_rect_scale r s_h s_v res m) (rect_scale (ld_rect r m) s_h s_v).
Proof.
  unfold c_rect_scale, rect_scale. normd r res m. cbv zeta.
  match goal with |- computes _ _ _ _ (c_rect_normalize_r _ _ ?M) _ => destruct (C62_rect_normalize res res M) as [E' U'] end.
  split; [rewrite E'; f_equal; rewrite ld_rect_cells; cell; rewrite E1, E2, E3, E4; reflexivity|].
  intros x Hx. rewrite U' by exact Hx. cell. apply U. exact Hx.
Qed.

(** ** boxes *)
Lemma box_same m p v : ld_box p (st_box p v m) = v.
Proof. destruct v as [a b]. unfold ld_box, st_box. cbn [bmin bmax]. vl. reflexivity. Qed.
Lemma box_out m p v x : x < p \/ p + 8 <= x -> st_box p v m x = m x.
Proof. intros H. unfold st_box. rewrite !vec_out by lia. reflexivity. Qed.
Ltac fro := intros x Hx; first [apply vec_out; exact Hx | repeat rewrite vec_out by lia; reflexivity].
Lemma box_expand_simd4f_spec box v res m : same_or_apart box 8 res 8 ->
  computes ld_box res 8 m (c_box_expand_simd4f box v res m) (box_expand_simd4f (ld_box box m) v).
Proof.
  intros H. unfold c_box_expand_simd4f, box_expand_simd4f. cbv zeta. split; [|fro].
  unfold ld_box. cbn [bmin bmax]. destruct H as [->|H]; vl; reflexivity.
Qed.
Theorem C62_box_expand_vec3 box vec res m : same_or_apart box 8 res 8 ->
  computes ld_box res 8 m (c_box_expand_vec3 box vec res m) (box_expand_vec3 (ld_box box m) (ld_vec vec m)).
Proof. apply box_expand_simd4f_spec. Qed.
Theorem C62_box_expand box p res m : same_or_apart box 8 res 8 ->
  computes ld_box res 8 m (c_box_expand box p res m) (box_expand (ld_box box m) (ld_point3d p m)).
Proof. apply box_expand_simd4f_spec. Qed.
Theorem C62_box_expand_scalar box scalar res m : same_or_apart box 8 res 8 ->
  computes ld_box res 8 m (c_box_expand_scalar box scalar res m) (box_expand_scalar (ld_box box m) scalar).
Proof.
  intros H. unfold c_box_expand_scalar, box_expand_scalar. cbv zeta. split; [|fro].
  unfold ld_box. cbn [bmin bmax]. destruct H as [->|H]; vl; reflexivity.
Qed.
Theorem C62_box_union a b res m : same_or_apart a 8 res 8 -> same_or_apart b 8 res 8 ->
  computes ld_box res 8 m (c_box_union a b res m) (box_union (ld_box a m) (ld_box b m)).
Proof.
  intros H H'. unfold c_box_union, box_union. cbv zeta. split; [|fro].
  unfold ld_box. cbn [bmin bmax]. destruct H as [->|H], H' as [->|H']; vl; reflexivity.
Qed.
Theorem C62_box_intersection a b res m :
  fst (c_box_intersection a b res m) = fst (box_intersection (ld_box a m) (ld_box b m)) /\
  match res with
  | Some res => computes ld_box res 8 m (snd (c_box_intersection a b (Some res) m)) (snd (box_intersection (ld_box a m) (ld_box b m)))
  | None => snd (c_box_intersection a b None m) = m
  end.
Proof.
  unfold c_box_intersection, box_intersection. cbn [ld_box bmin bmax].
  destruct (negb _); cbn [fst snd]; (split; [reflexivity|]); destruct res; try reflexivity.
  - split; [apply box_same|intros x Hx; now apply box_out].
  - split; [apply (box_same m z (Bx _ _))|fro].
Qed.
Theorem C62_box_init_from_vec3 box mn mx m :
  (mx + 4 <= box \/ box + 4 <= mx \/ mx = box /\ mn = box) ->
  computes ld_box box 8 m (c_box_init_from_vec3 box mn mx m) (box_init_from_vec3 (Some (ld_vec mn m)) (Some (ld_vec mx m))).
Proof.
  intros H. unfold c_box_init_from_vec3, box_init_from_vec3. cbv zeta. split; [|fro].
  unfold ld_box. vl. f_equal. destruct H as [H|[H|[-> ->]]]; vl; reflexivity.
Qed.
Theorem C62_box2d_expand_vec2 box vec res m :
  computes ld_vec res 4 m (c_box2d_expand_vec2 box vec res m) (box2d_expand_vec2 (ld_vec box m) (ld_vec vec m)).
Proof. split; [apply vec_same|fro]. Qed.
Theorem C62_box2d_expand box p res m :
  computes ld_vec res 4 m (c_box2d_expand box p res m) (box2d_expand (ld_vec box m) (ld_point p m)).
Proof. split; [apply vec_same|fro]. Qed.
Theorem C62_box2d_expand_scalar box scalar res m :
  computes ld_vec res 4 m (c_box2d_expand_scalar box scalar res m) (box2d_expand_scalar (ld_vec box m) scalar).
Proof. split; [apply vec_same|fro]. Qed.
Theorem C62_box2d_union a b res m :
  computes ld_vec res 4 m (c_box2d_union a b res m) (box2d_union (ld_vec a m) (ld_vec b m)).
Proof. split; [apply vec_same|fro]. Qed.
Theorem C62_box2d_intersection a b res m :
  fst (c_box2d_intersection a b res m) = fst (box2d_intersection (ld_vec a m) (ld_vec b m)) /\
  match res with
  | Some res => computes ld_vec res 4 m (snd (c_box2d_intersection a b (Some res) m)) (snd (box2d_intersection (ld_vec a m) (ld_vec b m)))
  | None => snd (c_box2d_intersection a b None m) = m
  end.
Proof.
  unfold c_box2d_intersection, box2d_intersection, box2d_min_v, box2d_max_v. cbv zeta.
  destruct (negb _); cbn [fst snd]; (split; [reflexivity|]); destruct res; try reflexivity; (split; [apply vec_same|fro]).
Qed.

(** ** quaternions: four floats, loaded into a vector and stored back *)
Lemma quat_of_vec p m : ld_quat p m = quaternion_init_from_simd4f (ld_vec p m).
Proof. reflexivity. Qed.
Lemma quat_same p q m : ld_quat p (st_quat p q m) = q.
Proof. destruct q. unfold ld_quat, st_quat. cell. reflexivity. Qed.
Theorem C62_quaternion_multiply a b res m :
  computes ld_quat res 4 m (c_quaternion_multiply a b res m) (quaternion_multiply (ld_quat a m) (ld_quat b m)).
Proof. split; [apply quat_same|]. unfold c_quaternion_multiply, st_quat. generalize (quaternion_multiply (ld_quat a m) (ld_quat b m)). intros q. fr. Qed.
Theorem C62_quaternion_invert q res m : same_or_apart q 4 res 4 ->
  computes ld_quat res 4 m (c_quaternion_invert q res m) (quaternion_invert (ld_quat q m)).
Proof.
  intros H. unfold c_quaternion_invert, quaternion_invert. cbv zeta. split; [|fr].
  unfold ld_quat. cbn [qx qy qz qw]. destruct H as [->|H]; cell; reflexivity.
Qed.
Theorem C62_quaternion_normalize q res m :
  computes ld_quat res 4 m (c_quaternion_normalize q res m) (quaternion_normalize (ld_quat q m)).
Proof. split; [|fro]. rewrite quat_of_vec. unfold c_quaternion_normalize. rewrite vec_same. reflexivity. Qed.
Theorem C62_quaternion_scale q factor res m :
  computes ld_quat res 4 m (c_quaternion_scale q factor res m) (quaternion_scale (ld_quat q m) factor).
Proof. split; [|fro]. rewrite quat_of_vec. unfold c_quaternion_scale. rewrite vec_same. reflexivity. Qed.
Theorem C62_quaternion_add a b res m :
  computes ld_quat res 4 m (c_quaternion_add a b res m) (quaternion_add (ld_quat a m) (ld_quat b m)).
Proof. split; [|fro]. rewrite quat_of_vec. unfold c_quaternion_add. rewrite vec_same. reflexivity. Qed.
Theorem C62_quaternion_slerp a b factor res m :
  computes ld_quat res 4 m (c_quaternion_slerp a b factor res m) (quaternion_slerp (ld_quat a m) (ld_quat b m) factor).
Proof.
  unfold c_quaternion_slerp, quaternion_slerp.
  change (quaternion_to_vec4 (ld_quat a m)) with (ld_vec a m). change (quaternion_to_vec4 (ld_quat b m)) with (ld_vec b m).
  destruct (flt _ fzero); cbv zeta beta; (destruct (approx_val _ fone);
    [split; [apply quat_same|unfold st_quat; generalize (ld_quat a m); intros q; fr]
    |split; [rewrite quat_of_vec, vec_same; reflexivity|fro]]).
Qed.

(** ** matrices *)
Ltac fm := intros x Hx; first [apply mat_out; exact Hx | repeat rewrite mat_out by lia; reflexivity].
Theorem C62_matrix_multiply a b res m :
  computes ld_mat res 16 m (c_matrix_multiply a b res m) (matrix_multiply (ld_mat a m) (ld_mat b m)).
Proof. split; [apply mat_same|fm]. Qed.
Theorem C62_matrix_transpose s res m :
  computes ld_mat res 16 m (c_matrix_transpose s res m) (matrix_transpose (ld_mat s m)).
Proof. unfold c_matrix_transpose. cbv zeta. rewrite mat_same. split; [apply mat_same|fm]. Qed.
Theorem C62_matrix_inverse s res m :
  match matrix_inverse (ld_mat s m) with
  | Some i => fst (c_matrix_inverse s res m) = true /\ computes ld_mat res 16 m (snd (c_matrix_inverse s res m)) i
  | None => fst (c_matrix_inverse s res m) = false /\ snd (c_matrix_inverse s res m) = m
  end.
Proof.
  unfold c_matrix_inverse, matrix_inverse. destruct (gm_inverse _) as [i|]; cbn [fst snd]; [|split; reflexivity].
  split; [reflexivity|]. split; [apply mat_same|fm].
Qed.
Theorem C62_matrix_perspective s depth res m :
  computes ld_mat res 16 m (c_matrix_perspective s depth res m) (matrix_perspective (ld_mat s m) depth).
Proof. unfold c_matrix_perspective. cbv zeta. rewrite mat_same. split; [apply mat_same|fm]. Qed.
Theorem C62_matrix_normalize s res m : same_or_apart s 16 res 16 ->
  match matrix_normalize (ld_mat s m) with
  | Some r => computes ld_mat res 16 m (c_matrix_normalize s res m) r
  | None => c_matrix_normalize s res m = m
  end.
Proof.
  intros H. unfold c_matrix_normalize, matrix_normalize.
  change (g_get_w (mw (ld_mat s m))) with (m (s + 12 + 3)). cbv zeta.
  destruct (approx_val _ fzero); [reflexivity|]. split; [|fro].
  unfold ld_mat. cbn [mx my mz mw]. destruct H as [->|H]; vl; reflexivity.
Qed.
Theorem C62_matrix_translate s pos m :
  computes ld_mat s 16 m (c_matrix_translate s pos m) (matrix_translate (ld_mat s m) (ld_point3d pos m)).
Proof. split; [apply mat_same|fm]. Qed.
Theorem C62_matrix_skew_xy s factor m :
  computes ld_mat s 16 m (c_matrix_skew_xy s factor m) (matrix_skew_xy (ld_mat s m) factor).
Proof.
  unfold c_matrix_skew_xy, matrix_skew_xy. cbv zeta. split; [|fro].
  unfold ld_mat. cbn [mx my mz mw]. vl. reflexivity.
Qed.
Theorem C62_matrix_transform_vec3 s v res m :
  computes ld_vec res 4 m (c_matrix_transform_vec3 s v res m) (matrix_transform_vec3 (ld_mat s m) (ld_vec v m)).
Proof. split; [apply vec_same|fro]. Qed.
Theorem C62_matrix_transform_vec4 s v res m :
  computes ld_vec res 4 m (c_matrix_transform_vec4 s v res m) (matrix_transform_vec4 (ld_mat s m) (ld_vec v m)).
Proof. split; [apply vec_same|fro]. Qed.
Theorem C62_matrix_transform_point s p res m :
  computes ld_point res 2 m (c_matrix_transform_point s p res m) (matrix_transform_point (ld_mat s m) (ld_point p m)).
Proof. unfold c_matrix_transform_point. cbv zeta. split; [|fr]. unfold ld_point. cell. reflexivity. Qed.
Theorem C62_matrix_transform_point3d s p res m :
  computes ld_point3d res 3 m (c_matrix_transform_point3d s p res m) (matrix_transform_point3d (ld_mat s m) (ld_point3d p m)).
Proof. unfold c_matrix_transform_point3d. cbv zeta. split; [|fr]. unfold ld_point3d. cell. reflexivity. Qed.
(* the matrix is read again after the centre has been written, so it must lie apart from the result *)
Theorem C62_matrix_transform_sphere s p res m : s + 16 <= res \/ res + 5 <= s -> same_or_apart p 5 res 5 ->
  computes ld_sphere res 5 m (c_matrix_transform_sphere s p res m) (matrix_transform_sphere (ld_mat s m) (ld_sphere p m)).
Proof.
  intros H H'. unfold c_matrix_transform_sphere, matrix_transform_sphere. cbv zeta. split.
  - unfold ld_sphere. cbn [scenter sradius]. rewrite set_eq by lia.
    rewrite (ld_vec_ext (st_vec res (gm_point3_mul (ld_mat s m) (ld_vec p m)) m)) by (intros; cell; reflexivity).
    vl. unfold ld_mat at 2 3 4. cbn [mx my mz]. f_equal. f_equal.
    destruct H' as [->|H']; rewrite vec_out by lia; reflexivity.
  - intros x Hx. cell. rewrite vec_out by lia. reflexivity.
Qed.
Theorem C62_matrix_transform_ray s r res m :
  computes ld_ray res 8 m (c_matrix_transform_ray s r res m) (matrix_transform_ray (ld_mat s m) (ld_ray r m)).
Proof.
  unfold c_matrix_transform_ray, matrix_transform_ray. cbv zeta. split; [|fro].
  unfold ld_ray. cbn [ray_o ray_d]. vl. reflexivity.
Qed.
Lemma box_init_from_vectors_spec res vs : forall m,
  computes ld_box res 8 m (c_box_init_from_vectors res vs m) (box_init_from_vectors vs).
Proof.
  unfold c_box_init_from_vectors, box_init_from_vectors.
  assert (G : forall m b, ld_box res m = b ->
     computes ld_box res 8 m (fold_left (fun m v => c_box_expand_simd4f res v res m) vs m) (fold_left box_expand_vec3 vs b)).
  { induction vs as [|v vs IH]; intros m b E; cbn [fold_left]; [split; [exact E|intros x _; reflexivity]|].
    destruct (box_expand_simd4f_spec res v res m (or_introl eq_refl)) as [E1 U1]. rewrite E in E1.
    destruct (IH _ _ E1) as [E2 U2]. split; [exact E2|]. intros x Hx. rewrite U2, U1; auto. }
  intros m. destruct (G _ _ (box_same m res box_empty)) as [E U]. split; [exact E|].
  intros x Hx. rewrite U by exact Hx. now apply box_out.
Qed.
Theorem C62_matrix_transform_box s b res m :
  computes ld_box res 8 m (c_matrix_transform_box s b res m) (matrix_transform_box (ld_mat s m) (ld_box b m)).
Proof. apply box_init_from_vectors_spec. Qed.
Theorem C62_matrix_transform_bounds s r res m :
  computes ld_rect res 4 m (c_matrix_transform_bounds s r res m) (matrix_transform_bounds (ld_mat s m) (ld_rect r m)).
Proof. apply rect_init_spec. Qed.
Lemma st_point_spec p v m : computes ld_point p 2 m (st_point p v m) v.
Proof. unfold st_point. split; [|fr]. destruct v. unfold ld_point. cell. reflexivity. Qed.
Theorem C62_matrix_project_point s p res m :
  computes ld_point res 2 m (c_matrix_project_point s p res m) (matrix_project_point (ld_mat s m) (ld_point p m)).
Proof. apply st_point_spec. Qed.
Theorem C62_matrix_untransform_point s p bounds res m :
  match matrix_untransform_point (ld_mat s m) (ld_point p m) (ld_rect bounds m) with
  | Some q => fst (c_matrix_untransform_point s p bounds res m) = true /\
              computes ld_point res 2 m (snd (c_matrix_untransform_point s p bounds res m)) q
  | None => c_matrix_untransform_point s p bounds res m = (false, m)
  end.
Proof.
  unfold c_matrix_untransform_point, matrix_untransform_point, matrix_inverse.
  destruct (matrix_is_2d _); [|destruct (negb _); [reflexivity|]]; (destruct (gm_inverse _) as [i|]; [|reflexivity]);
    cbn [fst snd]; (split; [reflexivity|]); [|apply st_point_spec].
  split; [|fr]. unfold ld_point. cell. reflexivity.
Qed.
Theorem C62_matrix_unproject_point3d projection modelview p res m :
  match matrix_unproject_point3d (ld_mat projection m) (ld_mat modelview m) (ld_point3d p m) with
  | Some q => computes ld_point3d res 3 m (c_matrix_unproject_point3d projection modelview p res m) q
  | None => c_matrix_unproject_point3d projection modelview p res m = m
  end.
Proof.
  unfold c_matrix_unproject_point3d, matrix_unproject_point3d. destruct (gm_inverse _); [|reflexivity].
  cbv zeta. split; [|fr]. unfold ld_point3d. cell. reflexivity.
Qed.
(* *res is set to the identity before anything is read: both operands must lie apart from it *)
Theorem C62_matrix_interpolate_apart a b factor res m :
  a + 16 <= res \/ res + 16 <= a -> b + 16 <= res \/ res + 16 <= b ->
  match matrix_interpolate (ld_mat a m) (ld_mat b m) factor with
  | Some r => exists m', c_matrix_interpolate a b factor res m = Some m' /\ computes ld_mat res 16 m m' r
  | None => c_matrix_interpolate a b factor res m = None
  end.
Proof.
  intros H H'. unfold c_matrix_interpolate. cbv zeta.
  rewrite (ld_mat_ext m (st_mat res gm_identity m) a), (ld_mat_ext m (st_mat res gm_identity m) b) by (intros; apply mat_out; lia).
  destruct (matrix_interpolate _ _ _) as [r|]; [|reflexivity].
  eexists. split; [reflexivity|]. split; [apply mat_same|fm].
Qed.

(** ** planes, spheres, rays, quads, triangles *)
Theorem C62_plane_normalize p res m : same_or_apart p 5 res 5 ->
  computes ld_plane res 5 m (c_plane_normalize p res m) (plane_normalize (ld_plane p m)).
Proof.
  intros H. unfold c_plane_normalize, plane_normalize. cbv zeta.
  destruct (C62_vec3_normalize p res m) as [E U]. split.
  - unfold ld_plane. cbn [pl_n pl_c]. rewrite set_eq by lia.
    rewrite (ld_vec_ext (c_vec3_normalize p res m)) by (intros; cell; reflexivity).
    rewrite E. f_equal. f_equal. apply U. destruct H as [->|H]; lia.
  - intros x Hx. cell. apply U. lia.
Qed.
Theorem C62_plane_negate p res m : same_or_apart p 5 res 5 ->
  computes ld_plane res 5 m (c_plane_negate p res m) (plane_negate (ld_plane p m)).
Proof.
  intros H. unfold c_plane_negate, plane_negate. cbv zeta.
  destruct (C62_vector_unary vec3_negate p res m) as [E U]. split.
  - unfold ld_plane. cbn [pl_n pl_c]. rewrite set_eq by lia.
    rewrite (ld_vec_ext (c_vec_op1 vec3_negate p res m)) by (intros; cell; reflexivity).
    rewrite E. f_equal. f_equal. apply U. destruct H as [->|H]; lia.
  - intros x Hx. cell. apply U. lia.
Qed.
Theorem C62_sphere_translate s point res m :
  computes ld_sphere res 5 m (c_sphere_translate s point res m) (sphere_translate (ld_sphere s m) (ld_point3d point m) (ld_sphere res m)).
Proof.
  unfold c_sphere_translate, sphere_translate. cbv zeta. split; [|intros x Hx; apply vec_out; lia].
  unfold ld_sphere. rewrite vec_same, vec_out by lia. reflexivity.
Qed.
Theorem C62_ray_get_closest_point_to_point r p res m :
  computes ld_point3d res 3 m (c_ray_get_closest_point_to_point r p res m) (ray_get_closest_point_to_point (ld_ray r m) (ld_point3d p m)).
Proof.
  unfold c_ray_get_closest_point_to_point, ray_get_closest_point_to_point, point3d_init_from_vec3, c_point3d_init_from_simd4f. cbv zeta.
  unfold ld_ray. cbn [ray_o ray_d]. destruct (flt _ fzero); (split; [unfold ld_point3d at 1; cell; reflexivity|fr]).
Qed.
(* graphene_ray_init_from_vec3 stores the origin first: the direction must not be the old origin *)
Theorem C62_ray_init_from_vec3 r origin direction m : direction + 4 <= r \/ r + 4 <= direction ->
  computes ld_ray r 8 m (c_ray_init_from_vec3 r origin direction m) (Ry (ld_vec origin m) (vec3_normalize (ld_vec direction m))).
Proof.
  intros H. unfold c_ray_init_from_vec3. cbv zeta.
  destruct (C62_vec3_normalize direction (r + 4) (st_vec r (ld_vec origin m) m)) as [E U]. split.
  - unfold ld_ray. rewrite E. rewrite (ld_vec_ext (st_vec r (ld_vec origin m) m)) by (intros; apply U; lia).
    rewrite vec_same, vec_other by lia. reflexivity.
  - intros x Hx. rewrite U, vec_out by lia. reflexivity.
Qed.
(* reusing point i of the quad as argument i is fine; reusing an earlier one is not (below) *)
Theorem C62_quad_init q p1 p2 p3 p4 m :
  (p2 + 2 <= q \/ q + 2 <= p2) -> (p3 + 2 <= q \/ q + 4 <= p3) -> (p4 + 2 <= q \/ q + 6 <= p4) ->
  computes ld_quad q 8 m (c_quad_init q p1 p2 p3 p4 m) (quad_init (ld_point p1 m) (ld_point p2 m) (ld_point p3 m) (ld_point p4 m)).
Proof.
  intros H2 H3 H4. unfold c_quad_init, quad_init. cbv zeta. split.
  - unfold ld_quad, st_point, ld_point. cbn [px py]. cell. reflexivity.
  - intros x Hx. unfold st_point. cell. reflexivity.
Qed.
Theorem C62_triangle_get_uv t p uv_a uv_b uv_c res m :
  uv_a + 4 <= res \/ res + 4 <= uv_a -> uv_b + 4 <= res \/ res + 4 <= uv_b -> uv_c + 4 <= res \/ res + 4 <= uv_c ->
  fst (c_triangle_get_uv t p uv_a uv_b uv_c res m) = fst (triangle_get_uv t p (ld_vec uv_a m) (ld_vec uv_b m) (ld_vec uv_c m)) /\
  computes ld_vec res 4 m (snd (c_triangle_get_uv t p uv_a uv_b uv_c res m))
    (snd (triangle_get_uv t p (ld_vec uv_a m) (ld_vec uv_b m) (ld_vec uv_c m))).
Proof.
  intros Ha Hb Hc. unfold c_triangle_get_uv, triangle_get_uv.
  destruct (triangle_get_barycoords t p) as [bc|]; cbv zeta; cbn [fst snd]; (split; [reflexivity|]); (split; [|fro]); vl; reflexivity.
Qed.

(** ** exceptions: call patterns that do not compute from the old contents *)
(* rotating a quad by passing it its own points: every corner becomes the old last one *)
Theorem C62_quad_rotate_refuted q m :
  ld_quad q (c_quad_init q (q + 6) q (q + 2) (q + 4) m) =
  quad_init (ld_point (q + 6) m) (ld_point (q + 6) m) (ld_point (q + 6) m) (ld_point (q + 6) m).
Proof. unfold c_quad_init, ld_quad, quad_init, st_point, ld_point. cbn [px py]. cell. repeat f_equal; lia. Qed.
(* swapping the corners of a box through init_from_vec3: the minimum is lost *)
Theorem C62_box_swap_refuted box m :
  ld_box box (c_box_init_from_vec3 box (box + 4) box m) = box_init_from_vec3 (Some (ld_vec (box + 4) m)) (Some (ld_vec (box + 4) m)).
Proof. unfold c_box_init_from_vec3, ld_box, box_init_from_vec3. cbv zeta. vl. reflexivity. Qed.
(* turning a ray's direction into its origin and vice versa: the origin is lost *)
Theorem C62_ray_swap_refuted r m :
  ld_ray r (c_ray_init_from_vec3 r (r + 4) r m) = Ry (ld_vec (r + 4) m) (vec3_normalize (ld_vec (r + 4) m)).
Proof.
  unfold c_ray_init_from_vec3. cbv zeta.
  destruct (C62_vec3_normalize r (r + 4) (st_vec r (ld_vec (r + 4) m) m)) as [E U].
  unfold ld_ray. rewrite E. rewrite (ld_vec_ext (st_vec r (ld_vec (r + 4) m) m)) by (intros; apply U; lia).
  rewrite vec_same. reflexivity.
Qed.
(* storing the texture coordinates over those of the first vertex: that vertex counts as (0, 0) *)
Lemma triangle_get_uv_in_place t p uv_b uv_c res m :
  uv_b + 4 <= res \/ res + 4 <= uv_b -> uv_c + 4 <= res \/ res + 4 <= uv_c ->
  ld_vec res (snd (c_triangle_get_uv t p res uv_b uv_c res m)) =
  snd (triangle_get_uv t p (vec2_init fzero fzero) (ld_vec uv_b m) (ld_vec uv_c m)).
Proof.
  intros Hb Hc. unfold c_triangle_get_uv, triangle_get_uv.
  destruct (triangle_get_barycoords t p) as [bc|]; cbv zeta; cbn [snd]; vl; reflexivity.
Qed.
(* interpolating in place: the first matrix counts as the identity *)
Lemma matrix_interpolate_in_place a b factor m : b + 16 <= a \/ a + 16 <= b ->
  match matrix_interpolate gm_identity (ld_mat b m) factor with
  | Some r => exists m', c_matrix_interpolate a b factor a m = Some m' /\ ld_mat a m' = r
  | None => c_matrix_interpolate a b factor a m = None
  end.
Proof.
  intros H. unfold c_matrix_interpolate. cbv zeta. rewrite mat_same.
  rewrite (ld_mat_ext m (st_mat a gm_identity m) b) by (intros; apply mat_out; lia).
  destruct (matrix_interpolate _ _ _) as [r|]; [|reflexivity]. eexists. split; [reflexivity|apply mat_same].
Qed.
End C62.

(** ** concrete cases *)
From Flocq Require Import BinarySingleNaN.
From Verif Require Import B32Setup.
(* two overlapping rectangles at addresses 0 and 4 *)
Definition ex_mem : Z -> b32 := fun x => lit (if x =? 0 then 1 else if x =? 1 then 2 else if x =? 2 then -3 else if x =? 4 then 5 else if x =? 6 then 7 else x) 0.
Example ex_union_in_place (BK : Backend b32) :
  ld_rect 0 (c_rect_union 0 4 0 ex_mem) = rect_union (ld_rect 0 ex_mem) (ld_rect 4 ex_mem) /\
  rw (ld_rect 0 (c_rect_union 0 4 0 ex_mem)) = lit 14 0 /\ rw (ld_rect 4 (c_rect_union 0 4 0 ex_mem)) = lit 7 0.
Proof. split; [apply C62_rect_union|]. split; beq. Qed.
Example ex_same_or_apart : same_or_apart 0 8 0 8 /\ same_or_apart 0 8 8 8 /\ ~ same_or_apart 0 8 4 8.
Proof. unfold same_or_apart. lia. Qed.
(* the vertex where the first texture coordinate should come back *)
Definition ex_tri {BK : Backend b32} : triangle b32 :=
  triangle_init_from_point3d (Some (P3 fzero fzero fzero)) (Some (P3 fone fzero fzero)) (Some (P3 fzero fone fzero)).
Theorem C62_triangle_get_uv_refuted (BK : Backend b32) :
  exists (t : triangle b32) p m, let uv := vec2_get_x (ld_vec 0 (snd (c_triangle_get_uv t (Some p) 0 4 8 0 m))) in
    fst (triangle_get_uv t (Some p) (ld_vec 0 m) (ld_vec 4 m) (ld_vec 8 m)) = true /\
    vec2_get_x (snd (triangle_get_uv t (Some p) (ld_vec 0 m) (ld_vec 4 m) (ld_vec 8 m))) = lit 1 0 /\ uv = lit 0 0.
Proof.
  exists ex_tri, (P3 fzero fzero fzero), ex_mem. cbv zeta. rewrite triangle_get_uv_in_place by lia.
  destruct BK as [[]| |[] [] rcp rsq|rec rsq sq]; (split; [|split]); beq.
Qed.
