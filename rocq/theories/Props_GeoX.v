(** * Props_GeoX: frusta and quads in exact arithmetic (C57, C58). *)
From Coq Require Import ZArith Reals Bool List Lra Lia Psatz.
From Flocq Require Import Core.
From Verif Require Import Num Simd Vec Rect Box Mat Geo OrdThy XSetup Props_VecX Props_RectX RMat Props_MatX Props_MatX4 RGeo GeoBase Props_PlaneX.
Import ListNotations.
Local Open Scope R_scope.

Section S.
Context (BK : Backend xreal).
(** ** C57: frusta *)
(** A frustum contains exactly the points on the non-negative side of its six planes. *)
Theorem C57_contains_point : forall (f : frustum xreal) (p : R3) (ns : list (R3 * R)),
  Forall2 (fun pl nc => rplane pl (fst nc) (snd nc)) (frustum_planes f) ns ->
  (frustum_contains_point f (Some (at3 p)) = true <-> Forall (fun nc => 0 <= dot (fst nc) p + snd nc) ns).
Proof.
  intros f p ns H. unfold frustum_contains_point. induction H as [|pl [n c] l l' Hp Hl IH]; cbn [forallb]; [split; constructor|].
  rewrite andb_true_iff, IH, (C50_distance BK pl n c p Hp), Xzero. cbn [fst snd]. rewrite negb_true_iff, Xlt_iff_f. split.
  - intros [A B]. constructor; auto.
  - intros A. inversion A; subst; auto.
Qed.
(** Culling a sphere is conservative when the normals are unit vectors. *)
Theorem C57_sphere_conservative : forall (f : frustum xreal) (s : sphere xreal) (c p : R3) (r : R),
  Forall (fun pl => exists n k, rplane pl n k /\ norm n = 1) (frustum_planes f) -> rsphere s c r -> 0 <= r ->
  sphere_contains_point s (at3 p) = true -> frustum_contains_point f (Some (at3 p)) = true ->
  frustum_intersects_sphere f s = true.
Proof.
  intros f s c p r U [Hc Hr] R0 C D. unfold sphere_get_radius in Hr.
  assert (CP : dist c p <= r).
  { unfold sphere_contains_point, distance_sq in C. cbv zeta in C. assert (V1 := is3_sub _ _ _ _ Hc (is3_of_at3 p)).
    rewrite (is3_dot BK _ _ _ _ V1 V1), Hr, Xmul in C. destruct (fle _ _) eqn:E; [|discriminate]. apply Xle_iff in E. unfold dist. now apply norm_le. }
  unfold frustum_contains_point in D. unfold frustum_intersects_sphere. cbv zeta. rewrite (at3_of_is3 _ _ Hc), Hr, Xneg.
  rewrite forallb_forall in D |- * . rewrite Forall_forall in U. intros pl I. specialize (D pl I). destruct (U pl I) as (n & k & P & N).
  rewrite (C50_distance BK pl n k p P), Xzero, negb_true_iff, Xlt_iff_f in D. rewrite (C50_distance BK pl n k c P), negb_true_iff, Xlt_iff_f.
  assert (K := cauchy_abs n (vminus c p)). rewrite N, Rmult_1_l in K. fold (dist c p) in K. rewrite dot_minus_r in K.
  apply Rabs_le_inv in K. lra.
Qed.
(** Without unit normals it drops visible spheres: frustum_init takes the planes as they are. *)
Theorem C57_sphere_unnormalized_refuted : exists (f : frustum xreal) (s : sphere xreal) (p : point3d xreal),
  frustum_contains_point f (Some p) = true /\ sphere_contains_point s p = true /\ frustum_intersects_sphere f s = false.
Proof.
  set (pl := plane_init (Some (rv 4 0 0 0)) (Fin 0)). assert (P : rplane pl (mk3 4 0 0) 0) by (repeat split).
  exists (frustum_init pl pl pl pl pl pl), (sphere_init (Some (at3 (mk3 (-1) 0 0))) (Fin 1)), (at3 vzero). split; [|split].
  - unfold frustum_contains_point, frustum_planes, frustum_init. cbn [forallb fr0 fr1 fr2 fr3 fr4 fr5]. rewrite (C50_distance BK pl _ _ vzero P), Xzero, Xlt_f; [reflexivity|]. unfold dot; simpl; lra.
  - unfold sphere_contains_point, distance_sq. cbv zeta. cbn [sphere_init scenter sradius].
    assert (V1 := is3_sub _ _ _ _ (is3_of_at3 (mk3 (-1) 0 0)) (is3_of_at3 vzero)). rewrite (is3_dot BK _ _ _ _ V1 V1), Xmul, Xle_t; [reflexivity|]. unfold dot; simpl; lra.
  - unfold frustum_intersects_sphere. cbv zeta. cbn [sphere_init scenter sradius]. rewrite (at3_of_is3 _ _ (is3_of_at3 (mk3 (-1) 0 0))).
    unfold frustum_planes, frustum_init. cbn [forallb fr0 fr1 fr2 fr3 fr4 fr5]. rewrite (C50_distance BK pl _ _ _ P), Xneg, Xlt_t; [reflexivity|]. unfold dot; simpl; lra.
Qed.

(** The frustum of a projection matrix: a point is inside iff its clip coordinates
    (x, y, z, 1) * A = (X, Y, Z, W) satisfy -W <= X, Y, Z <= W. *)
Definition clip (A : RM) (p : R3) : RV := vmul (vec (X3 p) (Y3 p) (Z3 p) 1) A.
(** normal of W + s * column j *)
Definition clip_normal (A : RM) (j : nat) (s : R) : R3 := mk3 (A 0%nat 3%nat + s * A 0%nat j) (A 1%nat 3%nat + s * A 1%nat j) (A 2%nat 3%nat + s * A 2%nat j).
Definition clip_proper (A : RM) : Prop := forall j s, (j < 3)%nat -> s = 1 \/ s = -1 ->
  eps < norm (clip_normal A j s) /\ above_cutoff BK (dot (clip_normal A j s) (clip_normal A j s)).
Lemma clip_plane (EB : exact_backend BK) A j s v : (j < 3)%nat -> s = 1 \/ s = -1 -> clip_proper A ->
  v = rv (A 0%nat 3%nat + s * A 0%nat j) (A 1%nat 3%nat + s * A 1%nat j) (A 2%nat 3%nat + s * A 2%nat j) (A 3%nat 3%nat + s * A 3%nat j) ->
  let pl := plane_normalize (plane_init_from_vec4 v) in
  (exists n k, rplane pl n k /\ norm n = 1) /\
  forall p, negb (flt (plane_distance pl (at3 p)) fzero) = true <-> 0 <= clip A p 3%nat + s * clip A p j.
Proof.
  intros Hj Hs HP -> pl. destruct (HP j s Hj Hs) as [Hn Hc]. set (n := clip_normal A j s) in * . set (k := A 3%nat 3%nat + s * A 3%nat j).
  assert (P : rplane (plane_init_from_vec4 (rv (X3 n) (Y3 n) (Z3 n) k)) n k) by (repeat split).
  change (rv _ _ _ _) with (rv (X3 n) (Y3 n) (Z3 n) k) in pl.
  destruct (C50_normalize BK _ n k EB P Hn Hc) as (U & _ & _ & S). split; [exact U|].
  intros p. destruct U as (n' & c' & P' & _). specialize (S p). fold pl in S, P'. rewrite (C50_distance BK _ _ _ p P') in S |- * . rewrite (C50_distance BK _ _ _ p P) in S.
  specialize (S _ eq_refl _ eq_refl). rewrite Xzero, negb_true_iff, Xlt_iff_f, S.
  replace (clip A p 3%nat + s * clip A p j) with (dot n p + k); [tauto|]. unfold clip, vmul, sum4, vec, n, k, clip_normal, dot; cbn [X3 Y3 Z3]. ring.
Qed.
Theorem C57_init_from_matrix : forall A, exact_backend BK -> clip_proper A ->
  let f := frustum_init_from_matrix (mt A) in
  Forall (fun pl => exists n k, rplane pl n k /\ norm n = 1) (frustum_planes f) /\
  forall p, frustum_contains_point f (Some (at3 p)) = true <->
    (let w := clip A p 3%nat in - w <= clip A p 0%nat <= w /\ - w <= clip A p 1%nat <= w /\ - w <= clip A p 2%nat <= w).
Proof.
  intros A EB HP f.
  set (mk := fun v => plane_normalize (plane_init_from_vec4 v)).
  set (cv := fun j s => rv (A 0%nat 3%nat + s * A 0%nat j) (A 1%nat 3%nat + s * A 1%nat j) (A 2%nat 3%nat + s * A 2%nat j) (A 3%nat 3%nat + s * A 3%nat j)).
  assert (E : f = Fr (mk (cv 0%nat (-1))) (mk (cv 0%nat 1)) (mk (cv 1%nat (-1))) (mk (cv 1%nat 1)) (mk (cv 2%nat (-1))) (mk (cv 2%nat 1))).
  { unfold f, frustum_init_from_matrix. cbv zeta. fold mk. change (matrix_transpose (mt A)) with (mt (mtr A)).
    cbn [mt matrix_get_row mx my mz mw nth]. unfold vec4_subtract, vec4_add, matrix_get_row. cbn [mt mx my mz mw]. unfold vv. rewrite !rv_add, !rv_sub. unfold mtr, cv, mk.
    f_equal; f_equal; f_equal; apply rv_eq; ring. }
  rewrite E. clear E f.
  assert (Q : forall j s, (j < 3)%nat -> s = 1 \/ s = -1 -> (exists n k, rplane (mk (cv j s)) n k /\ norm n = 1) /\
     forall p, negb (flt (plane_distance (mk (cv j s)) (at3 p)) fzero) = true <-> 0 <= clip A p 3%nat + s * clip A p j).
  { intros j s Hj Hs. apply clip_plane; auto. }
  split.
  - unfold frustum_planes; cbn [fr0 fr1 fr2 fr3 fr4 fr5]. repeat (apply Forall_cons; [apply Q; [lia|auto]|]). constructor.
  - intros p. unfold frustum_contains_point, frustum_planes; cbn [fr0 fr1 fr2 fr3 fr4 fr5 forallb]. rewrite !andb_true_iff.
    rewrite (proj2 (Q 0%nat (-1) ltac:(lia) ltac:(auto)) p), (proj2 (Q 0%nat 1 ltac:(lia) ltac:(auto)) p), (proj2 (Q 1%nat (-1) ltac:(lia) ltac:(auto)) p), (proj2 (Q 1%nat 1 ltac:(lia) ltac:(auto)) p), (proj2 (Q 2%nat (-1) ltac:(lia) ltac:(auto)) p), (proj2 (Q 2%nat 1 ltac:(lia) ltac:(auto)) p).
    cbv zeta. intuition lra.
Qed.

(** ** C58: quads in exact arithmetic *)
(** Twice the signed area of the triangle a b p. *)
Definition orient (a b p : R * R) : R := (fst b - fst a) * (snd p - snd a) - (snd b - snd a) * (fst p - fst a).
Definition at2 (p : R * R) : point xreal := p2 (fst p) (snd p).
(** [p] is a weighted average of the four vertices. *)
Definition in_hull (a b c d p : R * R) : Prop := exists wa wb wc wd, 0 <= wa /\ 0 <= wb /\ 0 <= wc /\ 0 <= wd /\ wa + wb + wc + wd = 1 /\
  fst p = wa * fst a + wb * fst b + wc * fst c + wd * fst d /\ snd p = wa * snd a + wb * snd b + wc * snd c + wd * snd d.
(** Walking a b c d a always turns the same way (left when s = 1, right when s = -1). *)
Definition convex_quad (a b c d : R * R) : Prop := exists s, (s = 1 \/ s = -1) /\
  0 < s * orient a b c /\ 0 < s * orient b c d /\ 0 < s * orient c d a /\ 0 < s * orient d a b.
Lemma same_side_spec a b p c : points_on_same_side (at2 a) (at2 b) (at2 p) (at2 c) = true <-> 0 <= orient a b p * orient a b c.
Proof.
  unfold points_on_same_side. cbv zeta. cbn [at2 p2 px py]. rewrite !Xsub, !Xmul, !Xsub, !Xzero. fold (orient a b p) (orient a b c).
  rewrite orb_true_iff, !andb_true_iff, !Xle_iff. fold (orient a b p). fold (orient a b c).
  set (u := orient a b p). set (v := orient a b c). split.
  - intros [[A B]|[A B]]; nra.
  - intros K. destruct (Rle_dec 0 u), (Rle_dec 0 v); [left; auto| | |right; split; lra].
    + assert (u = 0) by nra. right; split; lra.
    + assert (v = 0) by nra. right; split; lra.
Qed.
Lemma quad_contains_spec a b c d p : quad_contains (quad_init (at2 a) (at2 b) (at2 c) (at2 d)) (at2 p) = true <->
  0 <= orient a b p * orient a b c /\ 0 <= orient b c p * orient b c d /\ 0 <= orient c d p * orient c d a /\ 0 <= orient d a p * orient d a b.
Proof. unfold quad_contains, quad_init. cbn [q0 q1 q2 q3]. rewrite !andb_true_iff, !same_side_spec. tauto. Qed.
Lemma in_tri a b c p : 0 <= orient a b p -> 0 <= orient b c p -> 0 <= orient c a p -> 0 < orient a b c ->
  exists u v w, 0 <= u /\ 0 <= v /\ 0 <= w /\ u + v + w = 1 /\ fst p = u * fst a + v * fst b + w * fst c /\ snd p = u * snd a + v * snd b + w * snd c.
Proof.
  intros A B C D. exists (orient b c p / orient a b c), (orient c a p / orient a b c), (orient a b p / orient a b c).
  split; [|split; [|split]]; try (apply Rmult_le_pos; [lra|]; left; apply Rinv_0_lt_compat; lra).
  split; [|split]; apply (Rmult_eq_reg_r (orient a b c)); try lra; unfold orient in * ; field; intros Z; revert D; rewrite Z; lra.
Qed.
Theorem C58_contains_convex : forall a b c d p, convex_quad a b c d ->
  (quad_contains (quad_init (at2 a) (at2 b) (at2 c) (at2 d)) (at2 p) = true <-> in_hull a b c d p).
Proof.
  intros a b c d p (s & Hs & A & B & C & D). rewrite quad_contains_spec.
  assert (SG : forall u v, 0 < s * v -> (0 <= u * v <-> 0 <= s * u)) by (intros u v P; destruct Hs; subst s; split; intro; nra).
  rewrite (SG _ _ A), (SG _ _ B), (SG _ _ C), (SG _ _ D). split.
  - intros (PA & PB & PC & PD). unfold in_hull.
    destruct Hs; subst s.
    + destruct (Rle_dec 0 (orient a c p)) as [L|L].
      * destruct (in_tri a c d p) as (u & v & w & U & V & W & S & X & Y); try lra.
        { unfold orient in * ; lra. }
        exists u, 0, v, w. repeat split; lra.
      * destruct (in_tri a b c p) as (u & v & w & U & V & W & S & X & Y); try lra.
        { unfold orient in * ; lra. }
        exists u, v, w, 0. repeat split; lra.
    + destruct (Rle_dec 0 (orient c a p)) as [L|L].
      * destruct (in_tri a d c p) as (u & v & w & U & V & W & S & X & Y); try (unfold orient in * ; lra).
        exists u, 0, w, v. repeat split; lra.
      * destruct (in_tri a c b p) as (u & v & w & U & V & W & S & X & Y); try (unfold orient in * ; lra).
        exists u, w, v, 0. repeat split; lra.
  - intros (wa & wb & wc & wd & Wa & Wb & Wc & Wd & Sm & X & Y).
    assert (wa = 1 - wb - wc - wd) by lra. subst wa.
    assert (O : forall u v, orient u v p = (1 - wb - wc - wd) * orient u v a + wb * orient u v b + wc * orient u v c + wd * orient u v d).
    { intros u v. unfold orient. rewrite X, Y. ring. }
    assert (Z1 : forall u v, orient u v u = 0) by (intros; unfold orient; ring).
    assert (Z2 : forall u v, orient u v v = 0) by (intros; unfold orient; ring).
    assert (RO : forall u v w, orient u v w = orient v w u) by (intros; unfold orient; ring).
    rewrite !O, !Z1, !Z2. rewrite (RO a b d), (RO b d a), (RO b c a), (RO c a b), (RO c d b), (RO d b c), (RO d a c), (RO a c d).
    set (o1 := orient a b c) in * . set (o2 := orient b c d) in * . set (o3 := orient c d a) in * . set (o4 := orient d a b) in * .
    clearbody o1 o2 o3 o4. clear -A B C D Wa Wb Wc Wd.
    assert (M : forall w o, 0 <= w -> 0 < s * o -> 0 <= s * (w * o)) by (intros w o P Q; replace (s * (w * o)) with (w * (s * o)) by ring; apply Rmult_le_pos; lra).
    assert (M2 := fun w P => M w o1 P A). assert (M3 := fun w P => M w o2 P B). assert (M4 := fun w P => M w o3 P C). assert (M5 := fun w P => M w o4 P D). cbn beta in * .
    assert (Q1 := M2 _ Wa). assert (Q2 := M2 _ Wb). assert (Q3 := M2 _ Wc). assert (Q4 := M2 _ Wd).
    assert (Q5 := M3 _ Wa). assert (Q6 := M3 _ Wb). assert (Q7 := M3 _ Wc). assert (Q8 := M3 _ Wd).
    assert (Q9 := M4 _ Wa). assert (Qa := M4 _ Wb). assert (Qb := M4 _ Wc). assert (Qc := M4 _ Wd).
    assert (Qd := M5 _ Wa). assert (Qe := M5 _ Wb). assert (Qf := M5 _ Wc). assert (Qg := M5 _ Wd).
    rewrite !Rmult_plus_distr_l, !Rmult_0_r. repeat split; lra.
Qed.
(** A rectangle with a non-zero extent on both axes is a convex quad: the quad of the rectangle contains what the rectangle does. *)
Theorem C58_from_rect : forall r x y, W r <> 0 -> H r <> 0 ->
  (quad_contains (quad_init_from_rect (rct r)) (p2 x y) = true <-> inr r x y).
Proof.
  intros r x y NW NH. unfold quad_init_from_rect. pose proof (C11_corners_exact r) as C. cbv zeta in C. destruct C as (-> & -> & -> & -> & _).
  rewrite inr_lohi. fold (lo (X r) (W r)) (hi (X r) (W r)) (lo (Y r) (H r)) (hi (Y r) (H r)).
  assert (Lx : lo (X r) (W r) < hi (X r) (W r)) by (unfold lo, hi, Rmin, Rmax; destruct Rle_dec; lra).
  assert (Ly : lo (Y r) (H r) < hi (Y r) (H r)) by (unfold lo, hi, Rmin, Rmax; destruct Rle_dec; lra).
  set (x0 := lo (X r) (W r)) in * . set (x1 := hi (X r) (W r)) in * . set (y0 := lo (Y r) (H r)) in * . set (y1 := hi (Y r) (H r)) in * .
  change (Qd ?a ?b ?c ?d) with (quad_init a b c d).
  change (p2 x0 y0) with (at2 (x0, y0)). change (p2 x1 y0) with (at2 (x1, y0)). change (p2 x1 y1) with (at2 (x1, y1)). change (p2 x0 y1) with (at2 (x0, y1)).
  change (p2 x y) with (at2 (x, y)). rewrite quad_contains_spec. unfold orient; cbn [fst snd].
  assert (D1 : 0 < x1 - x0) by lra. assert (D2 : 0 < y1 - y0) by lra.
  assert (D3 : 0 < (x1 - x0) * (y1 - y0)) by (apply Rmult_lt_0_compat; auto).
  assert (SG : forall a b c, 0 < a -> 0 < b -> (0 <= (a * c) * b <-> 0 <= c)).
  { intros a b c P Q. replace (a * c * b) with ((a * b) * c) by ring. assert (0 < a * b) by (apply Rmult_lt_0_compat; auto). split; intro; nra. }
  rewrite <- (and_assoc (_ <= _ * _)).
  replace (((x1 - x0) * (y - y0) - (y0 - y0) * (x - x0)) * ((x1 - x0) * (y1 - y0) - (y0 - y0) * (x1 - x0)))
    with ((x1 - x0) * (y - y0) * ((x1 - x0) * (y1 - y0))) by ring.
  replace (((x1 - x1) * (y - y0) - (y1 - y0) * (x - x1)) * ((x1 - x1) * (y1 - y0) - (y1 - y0) * (x0 - x1)))
    with ((y1 - y0) * (x1 - x) * ((x1 - x0) * (y1 - y0))) by ring.
  replace (((x0 - x1) * (y - y1) - (y1 - y1) * (x - x1)) * ((x0 - x1) * (y0 - y1) - (y1 - y1) * (x0 - x1)))
    with ((x1 - x0) * (y1 - y) * ((x1 - x0) * (y1 - y0))) by ring.
  replace (((x0 - x0) * (y - y1) - (y0 - y1) * (x - x0)) * ((x0 - x0) * (y0 - y1) - (y0 - y1) * (x1 - x0)))
    with ((y1 - y0) * (x - x0) * ((x1 - x0) * (y1 - y0))) by ring.
  rewrite !SG by assumption. lra.
Qed.
(** The quad of an empty rectangle contains every point of the plane. *)
Theorem C58_from_empty_rect_refuted : forall r x y, W r = 0 \/ H r = 0 -> quad_contains (quad_init_from_rect (rct r)) (p2 x y) = true.
Proof.
  intros r x y HE. unfold quad_init_from_rect. pose proof (C11_corners_exact r) as C. cbv zeta in C. destruct C as (-> & -> & -> & -> & _).
  change (Qd ?a ?b ?c ?d) with (quad_init a b c d).
  set (x0 := Rmin (X r) (X r + W r)). set (x1 := Rmax (X r) (X r + W r)). set (y0 := Rmin (Y r) (Y r + H r)). set (y1 := Rmax (Y r) (Y r + H r)).
  assert (HE' : (x1 - x0) * (y1 - y0) = 0).
  { destruct HE as [E|E]; [replace (x1 - x0) with 0; [ring|]|replace (y1 - y0) with 0; [ring|]]; unfold x0, x1, y0, y1; rewrite E, Rplus_0_r, Rmin_left, Rmax_left; lra. }
  change (p2 x y) with (at2 (x, y)). change (p2 x0 y0) with (at2 (x0, y0)). change (p2 x1 y0) with (at2 (x1, y0)). change (p2 x1 y1) with (at2 (x1, y1)). change (p2 x0 y1) with (at2 (x0, y1)).
  rewrite quad_contains_spec. unfold orient; cbn [fst snd].
  assert (Z : forall u v, v = (x1 - x0) * (y1 - y0) -> 0 <= u * v) by (intros u v ->; rewrite HE', Rmult_0_r; lra).
  repeat split; apply Z; ring.
Qed.
(** For a quad that is not convex the answer is not the inside of the polygon: (2, 3/5) is a weighted average
    of (0, 0), (4, 0) and (1, 1), which is inside the polygon (0,0) (4,0) (1,1) (0,4), and is not contained. *)
Theorem C58_concave_refuted : let a := (0, 0) in let b := (4, 0) in let c := (1, 1) in let d := (0, 4) in
  exists p u v w, 0 < u /\ 0 < v /\ 0 < w /\ u + v + w = 1 /\ p = (u * fst a + v * fst b + w * fst c, u * snd a + v * snd b + w * snd c) /\
  quad_contains (quad_init (at2 a) (at2 b) (at2 c) (at2 d)) (at2 p) = false.
Proof.
  cbv zeta. exists (2, 3/5), (1/20), (7/20), (12/20). cbn [fst snd]. repeat split; try lra.
  - f_equal; lra.
  - apply not_true_is_false. rewrite quad_contains_spec. unfold orient; cbn [fst snd]. lra.
Qed.
(** The bounds of a quad are the smallest rectangle containing its four vertices. *)
Theorem C58_bounds_exact : forall a b c d, exists r,
  quad_bounds (quad_init (at2 a) (at2 b) (at2 c) (at2 d)) = rct r /\
  (forall p, In p [a; b; c; d] -> inr r (fst p) (snd p)) /\
  (forall r', (forall p, In p [a; b; c; d] -> inr r' (fst p) (snd p)) -> forall x y, inr r x y -> inr r' x y).
Proof.
  intros a b c d. unfold quad_bounds, quad_init, at2. cbn [q0 q1 q2 q3]. rewrite X_points_bounds. eexists. split; [reflexivity|].
  assert (M1 := min4_le (fst a) (fst b) (fst c) (fst d)). assert (M2 := max4_ge (fst a) (fst b) (fst c) (fst d)).
  assert (M3 := min4_le (snd a) (snd b) (snd c) (snd d)). assert (M4 := max4_ge (snd a) (snd b) (snd c) (snd d)).
  assert (L1 : min4 (fst a) (fst b) (fst c) (fst d) <= max4 (fst a) (fst b) (fst c) (fst d)) by lra.
  assert (L2 : min4 (snd a) (snd b) (snd c) (snd d) <= max4 (snd a) (snd b) (snd c) (snd d)) by lra. split.
  - intros p I. rewrite inr_lohi. cbn [X Y W H]. rewrite !lo_d, !hi_d by assumption.
    cbn [In] in I. destruct I as [<-|[<-|[<-|[<-|[]]]]]; lra.
  - intros r' Hr x y Hi. rewrite inr_lohi in Hi |- * . cbn [X Y W H] in Hi. rewrite !lo_d, !hi_d in Hi by assumption.
    assert (Ia := Hr a ltac:(cbn; auto)). assert (Ib := Hr b ltac:(cbn; auto)). assert (Ic := Hr c ltac:(cbn; auto)). assert (Id := Hr d ltac:(cbn; auto)).
    rewrite inr_lohi in Ia, Ib, Ic, Id.
    assert (N1 := min4_in (fst a) (fst b) (fst c) (fst d)). assert (N2 := max4_in (fst a) (fst b) (fst c) (fst d)).
    assert (N3 := min4_in (snd a) (snd b) (snd c) (snd d)). assert (N4 := max4_in (snd a) (snd b) (snd c) (snd d)). lra.
Qed.
Example C58_ex : convex_quad (0, 0) (4, 1) (5, 5) (1, 3) /\ convex_quad (0, 0) (1, 3) (5, 5) (4, 1) /\
  in_hull (0, 0) (4, 1) (5, 5) (1, 3) (2, 2) /\ ~ in_hull (0, 0) (4, 1) (5, 5) (1, 3) (0, 1).
Proof.
  split; [|split; [|split]].
  - exists 1. unfold orient; cbn [fst snd]. split; [auto|]. repeat split; lra.
  - exists (-1). unfold orient; cbn [fst snd]. split; [auto|]. repeat split; lra.
  - exists (3/5), 0, (2/5), 0. cbn [fst snd]. repeat split; lra.
  - intros (u & v & w & t & A & B & C & D & E & P & Q). cbn [fst snd] in * . lra.
Qed.
(** clip_proper: the OpenGL cube is the frustum of the identity. *)
Example C57_ex : exact_backend BK -> clip_proper mI.
Proof.
  intros EB j s Hj Hs. assert (N : norm (clip_normal mI j s) = 1).
  { unfold norm. replace (dot _ _) with 1; [apply sqrt_1|]. unfold dot, clip_normal, mI; cbn [X3 Y3 Z3].
    destruct j as [|[|[|j]]]; [| | |lia]; cbn; destruct Hs; subst s; lra. }
  assert (D : dot (clip_normal mI j s) (clip_normal mI j s) = 1).
  { unfold dot, clip_normal, mI; cbn [X3 Y3 Z3]. destruct j as [|[|[|j]]]; [| | |lia]; cbn; destruct Hs; subst s; lra. }
  rewrite N, D. unfold above_cutoff, eps. split; [lra|intros; lra].
Qed.
End S.
