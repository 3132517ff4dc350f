(** * Props_TriX: triangles (C52) in exact arithmetic. *)
From Coq Require Import ZArith Reals Bool List Lra Lia Psatz.
From Flocq Require Import Core.
From Verif Require Import Num Simd Vec Rect Box Mat Geo OrdThy XSetup Props_VecX RGeo GeoBase Props_PlaneX.
Import ListNotations.
Local Open Scope R_scope.

(** the triangle t has vertices a, b, c *)
Definition rtri (t : triangle xreal) (a b c : R3) : Prop :=
  let '(va, vb, vc) := triangle_get_vertices t in is3 va a /\ is3 vb b /\ is3 vc c.
(** a + u (c - a) + v (b - a): the point with barycentric coordinates (1-u-v, v, u) *)
Definition bary (a b c : R3) (u v : R) : R3 := vplus a (vplus (vscal u (vminus c a)) (vscal v (vminus b a))).
(** the Gram determinant of the edges from a: four times the squared area *)
Definition gram (a b c : R3) : R :=
  dot (vminus c a) (vminus c a) * dot (vminus b a) (vminus b a) - dot (vminus c a) (vminus b a) * dot (vminus c a) (vminus b a).
Lemma gram_cross a b c : gram a b c = dot (cross (vminus c b) (vminus a b)) (cross (vminus c b) (vminus a b)).
Proof. unfold gram, dot, cross, vminus; simpl; ring. Qed.
Lemma gram_nonneg a b c : 0 <= gram a b c.
Proof. rewrite gram_cross. apply dot_nonneg. Qed.

Section S.
Context (BK : Backend xreal).
Lemma tri_cross t a b c : rtri t a b c -> is3 (triangle_cross t) (cross (vminus c b) (vminus a b)).
Proof. intros (A & B & C). apply is3_cross; apply is3_sub; auto. Qed.

Theorem C52_area : forall t a b c, exact_backend BK -> rtri t a b c -> exists s, triangle_get_area t = Fin s /\ 0 <= s /\ 4 * (s * s) = gram a b c.
Proof.
  intros t a b c EB T. exists (norm (cross (vminus c b) (vminus a b)) * / 2). unfold triangle_get_area.
  rewrite (is3_len BK EB _ _ (tri_cross t a b c T)), xhalf, Xmul. split; [reflexivity|]. pose proof (norm_nonneg (cross (vminus c b) (vminus a b))).
  split; [lra|]. rewrite gram_cross, <- norm_sq. field.
Qed.
Theorem C52_normal : forall t a b c, rtri t a b c -> exists n, is3 (triangle_get_normal t) n /\
  dot n (vminus b a) = 0 /\ dot n (vminus c a) = 0 /\
  (0 < gram a b c -> norm n = 1 /\ 0 < dot n (cross (vminus b a) (vminus c a))) /\ (gram a b c = 0 -> n = vzero).
Proof.
  intros t a b c T. pose proof (tri_cross t a b c T) as C. set (m := cross (vminus c b) (vminus a b)) in * . pose proof (gram_cross a b c) as G. fold m in G.
  assert (O : dot m (vminus b a) = 0 /\ dot m (vminus c a) = 0) by (unfold m, dot, cross, vminus; simpl; split; ring).
  assert (Em : cross (vminus b a) (vminus c a) = m) by (unfold m; r3).
  unfold triangle_get_normal. cbv zeta. rewrite (is3_dot BK _ _ _ _ C C), Xzero, <- G. pose proof (gram_nonneg a b c) as G0.
  destruct (Rle_lt_or_eq_dec _ _ G0) as [GP|GZ].
  - rewrite Xlt_t by assumption. rewrite Xsqrt, Xone by lra. pose proof (sqrt_lt_R0 _ GP). rewrite Xdiv by lra.
    exists (vscal (1 / sqrt (gram a b c)) m). split; [now apply is3_scale|]. rewrite !dot_scal_l. destruct O as [-> ->]. split; [ring|]. split; [ring|].
    assert (0 < 1 / sqrt (gram a b c)) by (apply Rdiv_lt_0_compat; lra).
    split; [intros _|lra]. split.
    + rewrite norm_scal, Rabs_pos_eq by lra. rewrite G. fold (norm m). field. apply Rgt_not_eq. unfold norm. rewrite <- G. lra.
    + rewrite Em, <- G. nra.
  - rewrite <- GZ, Xlt_f by lra. exists vzero. split; [apply is3_zero|]. unfold dot, vzero; simpl. repeat split; try ring; intros; exfalso; lra.
Qed.
(** ** barycentric coordinates *)
Lemma bary_core t a b c p : rtri t a b c -> eps < Rabs (gram a b c) ->
  exists u v, triangle_get_barycoords t (Some (at3 p)) = Some (vec2_init (Fin u) (Fin v)) /\
    dot (vminus p (bary a b c u v)) (vminus c a) = 0 /\ dot (vminus p (bary a b c u v)) (vminus b a) = 0.
Proof.
  intros (A & B & C) G. unfold triangle_get_barycoords. cbv zeta. pose proof (is3_of_at3 p) as P.
  pose proof (is3_sub _ _ _ _ C A) as V0. pose proof (is3_sub _ _ _ _ B A) as V1. pose proof (is3_sub _ _ _ _ P A) as V2.
  rewrite (is3_dot BK _ _ _ _ V0 V0), (is3_dot BK _ _ _ _ V0 V1), (is3_dot BK _ _ _ _ V0 V2), (is3_dot BK _ _ _ _ V1 V1), (is3_dot BK _ _ _ _ V1 V2).
  rewrite !Xmul, !Xsub, !Xabs, xeps. change (_ * _ - _ * _) with (gram a b c) at 1. rewrite Xle_f by assumption.
  assert (G0 : gram a b c <> 0). { intros E. rewrite E, Rabs_R0 in G. pose proof eps_pos. lra. }
  rewrite Xone. unfold gram in G0 |- * . rewrite Xdiv by assumption. rewrite !Xmul. eexists _, _. split; [reflexivity|].
  unfold bary, dot, vminus, vplus, vscal in * ; cbn [X3 Y3 Z3] in * . split; field; exact G0.
Qed.
Theorem C52_barycoords_none : forall t a b c p, rtri t a b c -> (triangle_get_barycoords t (Some (at3 p)) = None <-> gram a b c <= eps).
Proof.
  intros t a b c p T. pose proof (gram_nonneg a b c) as G0. split.
  - intros H. destruct (Rle_or_lt (gram a b c) eps) as [|L]; auto. exfalso. destruct (bary_core t a b c p T) as (u & v & E & _); [rewrite Rabs_pos_eq; lra|congruence].
  - intros L. destruct T as (A & B & C). unfold triangle_get_barycoords. cbv zeta.
    pose proof (is3_sub _ _ _ _ C A) as V0. pose proof (is3_sub _ _ _ _ B A) as V1.
    rewrite (is3_dot BK _ _ _ _ V0 V0), (is3_dot BK _ _ _ _ V0 V1), (is3_dot BK _ _ _ _ V1 V1).
    rewrite !Xmul, !Xsub, !Xabs, xeps. change (_ * _ - _ * _) with (gram a b c) at 1. now rewrite Xle_t by (rewrite Rabs_pos_eq; lra).
Qed.
(** The coordinates are those of the orthogonal projection on the triangle's plane ... *)
Theorem C52_barycoords_projection : forall t a b c p, rtri t a b c -> eps < gram a b c ->
  exists u v, triangle_get_barycoords t (Some (at3 p)) = Some (vec2_init (Fin u) (Fin v)) /\
    dot (vminus p (bary a b c u v)) (vminus c a) = 0 /\ dot (vminus p (bary a b c u v)) (vminus b a) = 0.
Proof. intros t a b c p T G. apply bary_core; auto. rewrite Rabs_pos_eq; auto. apply gram_nonneg. Qed.
Lemma bary_unique a b c u v u' v' : gram a b c <> 0 ->
  dot (vminus (bary a b c u v) (bary a b c u' v')) (vminus c a) = 0 -> dot (vminus (bary a b c u v) (bary a b c u' v')) (vminus b a) = 0 -> u = u' /\ v = v'.
Proof.
  intros G H1 H2. assert (E1 : (u - u') * gram a b c = 0).
  { transitivity (dot (vminus b a) (vminus b a) * dot (vminus (bary a b c u v) (bary a b c u' v')) (vminus c a) - dot (vminus c a) (vminus b a) * dot (vminus (bary a b c u v) (bary a b c u' v')) (vminus b a)).
    - unfold gram, bary, dot, vminus, vplus, vscal; simpl; ring. - rewrite H1, H2; ring. }
  assert (E2 : (v - v') * gram a b c = 0).
  { transitivity (dot (vminus c a) (vminus c a) * dot (vminus (bary a b c u v) (bary a b c u' v')) (vminus b a) - dot (vminus c a) (vminus b a) * dot (vminus (bary a b c u v) (bary a b c u' v')) (vminus c a)).
    - unfold gram, bary, dot, vminus, vplus, vscal; simpl; ring. - rewrite H1, H2; ring. }
  apply Rmult_integral in E1, E2. split; [destruct E1|destruct E2]; lra.
Qed.
(** ... so a point of the plane is recovered from them, and they are recovered from it. *)
Theorem C52_barycoords_of_point : forall t a b c u v, rtri t a b c -> eps < gram a b c ->
  triangle_get_barycoords t (Some (at3 (bary a b c u v))) = Some (vec2_init (Fin u) (Fin v)).
Proof.
  intros t a b c u v T G. destruct (C52_barycoords_projection t a b c (bary a b c u v) T G) as (u' & v' & E & H1 & H2).
  rewrite E. destruct (bary_unique a b c u v u' v') as [-> ->]; auto. pose proof eps_pos. lra.
Qed.
Theorem C52_barycoords_reproduce : forall t a b c p, rtri t a b c -> eps < gram a b c -> dot (vminus p a) (cross (vminus c a) (vminus b a)) = 0 ->
  exists u v, triangle_get_barycoords t (Some (at3 p)) = Some (vec2_init (Fin u) (Fin v)) /\ p = bary a b c u v.
Proof.
  intros t a b c p T G Co. destruct (C52_barycoords_projection t a b c p T G) as (u & v & E & H1 & H2). exists u, v. split; auto.
  set (m := cross (vminus c a) (vminus b a)) in * . set (q := vminus p (bary a b c u v)) in * .
  assert (H3 : dot q m = 0).
  { transitivity (dot (vminus p a) m); [|exact Co]. unfold q, m, bary, dot, cross, vminus, vplus, vscal; simpl; ring. }
  assert (Z : q = vzero).
  { apply dot_zero_iff. apply (Rmult_eq_reg_r (gram a b c)); [|pose proof eps_pos; lra]. rewrite Rmult_0_l.
    (* |q|^2 |m|^2 = (q.m)^2 + |q x m|^2 and q x m is a combination of q.(c-a), q.(b-a) *)
    transitivity (dot q m * dot q m + dot (vminus (vscal (dot q (vminus b a)) (vminus c a)) (vscal (dot q (vminus c a)) (vminus b a))) (vminus (vscal (dot q (vminus b a)) (vminus c a)) (vscal (dot q (vminus c a)) (vminus b a)))).
    - unfold m, gram. generalize (vminus c a) (vminus b a). intros x y. unfold dot, cross, vminus, vscal; simpl; ring.
    - rewrite H1, H2, H3. unfold dot, vminus, vscal; simpl; ring. }
  unfold q in Z. apply R3_ext; [apply (f_equal X3) in Z|apply (f_equal Y3) in Z|apply (f_equal Z3) in Z]; simpl in Z |- * ; lra.
Qed.
(** ** containment *)
Theorem C52_contains_point : forall t a b c p, rtri t a b c -> eps < gram a b c ->
  (triangle_contains_point t (at3 p) = true <->
   exists u v, 0 <= u /\ 0 <= v /\ u + v < 1 /\ dot (vminus p (bary a b c u v)) (vminus c a) = 0 /\ dot (vminus p (bary a b c u v)) (vminus b a) = 0).
Proof.
  intros t a b c p T G. destruct (C52_barycoords_projection t a b c p T G) as (u & v & E & H1 & H2). unfold triangle_contains_point. rewrite E.
  change (vec2_get_x (vec2_init (Fin u) (Fin v))) with (Fin u). change (vec2_get_y (vec2_init (Fin u) (Fin v))) with (Fin v).
  rewrite !Xzero, !Xone, Xadd, !andb_true_iff, !Xle_iff, Xlt_iff. split.
  - intros [[U0 V0] S]. exists u, v. auto.
  - intros (u' & v' & U0 & V0 & S & K1 & K2).
    assert (Q : u' = u /\ v' = v).
    { apply (bary_unique a b c); [pose proof eps_pos; lra| |].
      - replace (vminus (bary a b c u' v') (bary a b c u v)) with (vminus (vminus p (bary a b c u v)) (vminus p (bary a b c u' v'))) by r3. rewrite dot_minus_l. lra.
      - replace (vminus (bary a b c u' v') (bary a b c u v)) with (vminus (vminus p (bary a b c u v)) (vminus p (bary a b c u' v'))) by r3. rewrite dot_minus_l. lra. }
    destruct Q as [<- <-]. lra.
Qed.
(** For points of the triangle's plane: the half-open triangle. *)
Theorem C52_contains_coplanar : forall t a b c u v, rtri t a b c -> eps < gram a b c ->
  (triangle_contains_point t (at3 (bary a b c u v)) = true <-> 0 <= u /\ 0 <= v /\ u + v < 1).
Proof.
  intros t a b c u v T G. unfold triangle_contains_point. rewrite C52_barycoords_of_point by assumption.
  change (vec2_get_x (vec2_init (Fin u) (Fin v))) with (Fin u). change (vec2_get_y (vec2_init (Fin u) (Fin v))) with (Fin v).
  rewrite !Xzero, !Xone, Xadd, !andb_true_iff, !Xle_iff, Xlt_iff. tauto.
Qed.
(** Vertex a is inside; vertices b and c, and the whole edge between them, are not; and a
    point far off the plane is inside when its projection is. *)
Theorem C52_contains_vertices_refuted : forall t a b c, rtri t a b c -> eps < gram a b c ->
  triangle_contains_point t (at3 a) = true /\ triangle_contains_point t (at3 b) = false /\ triangle_contains_point t (at3 c) = false /\
  (forall k, triangle_contains_point t (at3 (vplus a (vscal k (cross (vminus c a) (vminus b a))))) = true).
Proof.
  intros t a b c T G.
  assert (Ea : a = bary a b c 0 0) by (unfold bary; r3). assert (Eb : b = bary a b c 0 1) by (unfold bary; r3). assert (Ec : c = bary a b c 1 0) by (unfold bary; r3).
  split; [rewrite Ea; apply (C52_contains_coplanar t); auto; lra|]. split; [|split].
  - destruct (triangle_contains_point t (at3 b)) eqn:H; auto. rewrite Eb in H. apply C52_contains_coplanar in H; auto. lra.
  - destruct (triangle_contains_point t (at3 c)) eqn:H; auto. rewrite Ec in H. apply C52_contains_coplanar in H; auto. lra.
  - intros k. apply (C52_contains_point t a b c); auto. exists 0, 0. repeat (split; [lra|]). unfold bary, dot, cross, vplus, vminus, vscal; simpl. split; ring.
Qed.
Theorem C52_midpoint : forall t a b c, rtri t a b c ->
  triangle_get_midpoint t = at3 (vscal (/ 3) (vplus (vplus a b) c)) /\ (eps < gram a b c -> triangle_contains_point t (triangle_get_midpoint t) = true).
Proof.
  intros t a b c T. pose proof T as (A & B & C). assert (E : triangle_get_midpoint t = at3 (vscal (/ 3) (vplus (vplus a b) c))).
  { unfold triangle_get_midpoint. apply at3_of_is3. rewrite Xone, xthree, Xdiv by lra. replace (1 / 3) with (/ 3) by field. apply is3_scale. apply is3_add; [apply is3_add|]; auto. }
  split; [exact E|]. intros G. rewrite E. replace (vscal (/ 3) (vplus (vplus a b) c)) with (bary a b c (/ 3) (/ 3)) by (unfold bary; r3; field).
  apply C52_contains_coplanar; auto. lra.
Qed.
(** ** texture coordinates *)
Theorem C52_uv : forall t a b c u v ax ay bx by_ cx cy z1 w1 z2 w2 z3 w3, rtri t a b c -> eps < gram a b c ->
  exists r, triangle_get_uv t (Some (at3 (bary a b c u v))) (v2 ax ay z1 w1) (v2 bx by_ z2 w2) (v2 cx cy z3 w3) = (true, r) /\
    vec2_get_x r = Fin ((1 - u - v) * ax + v * bx + u * cx) /\ vec2_get_y r = Fin ((1 - u - v) * ay + v * by_ + u * cy).
Proof.
  intros t a b c u v ax ay bx by_ cx cy z1 w1 z2 w2 z3 w3 T G. unfold triangle_get_uv. rewrite C52_barycoords_of_point by assumption. cbv zeta.
  eexists. split; [reflexivity|]. unfold vec2_get_x, vec2_get_y, vec2_init, vec2_add, vec2_scale, g_get_x, g_get_y, g_add, g_mul, g_splat, map2, v2, g_init. cbn [vx vy].
  rewrite !Xone, !Xzero, !Xsub, !Xmul, !Xadd. split; f_equal; ring.
Qed.
Theorem C52_uv_degenerate : forall t a b c p ua ub uc, rtri t a b c -> gram a b c <= eps ->
  triangle_get_uv t (Some (at3 p)) ua ub uc = (false, vec2_init fzero fzero).
Proof. intros t a b c p ua ub uc T G. unfold triangle_get_uv. apply (C52_barycoords_none t a b c p T) in G. now rewrite G. Qed.
(** ** the plane of the triangle *)
Theorem C52_plane : forall t a b c, exact_backend BK -> rtri t a b c -> eps < sqrt (gram a b c) -> above_cutoff BK (gram a b c) ->
  forall p, plane_distance (triangle_get_plane t) (at3 p) = Fin 0 <-> exists u v, p = bary a b c u v.
Proof.
  intros t a b c EB T G Cut p. pose proof T as (A & B & C). unfold triangle_get_plane. unfold rtri in A, B, C. cbn [triangle_get_vertices] in A, B, C.
  rewrite (at3_of_is3 _ _ A), (at3_of_is3 _ _ B), (at3_of_is3 _ _ C). rewrite gram_cross in G, Cut.
  destruct (C50_init_from_points BK a b c EB G Cut) as (_ & _ & _ & _ & D). rewrite D. clear D.
  assert (E : dot (cross (vminus c b) (vminus a b)) (vminus p a) = - dot (vminus p a) (cross (vminus c a) (vminus b a))) by (unfold dot, cross, vminus; simpl; ring).
  rewrite E. split.
  - intros Z. assert (Gp : 0 < gram a b c). { rewrite gram_cross. apply sqrt_gt_eps. exact G. }
    set (x := vminus c a). set (y := vminus b a). set (d := vminus p a).
    exists ((dot y y * dot x d - dot x y * dot y d) / gram a b c), ((dot x x * dot y d - dot x y * dot x d) / gram a b c).
    assert (Z' : dot d (cross x y) = 0) by (unfold d, x, y; lra). assert (Gx : gram a b c = dot x x * dot y y - dot x y * dot x y) by reflexivity. rewrite Gx in * .
    assert (K : vscal (dot x x * dot y y - dot x y * dot x y) d = vplus (vscal (dot d (cross x y)) (cross x y)) (vplus (vscal (dot y y * dot x d - dot x y * dot y d) x) (vscal (dot x x * dot y d - dot x y * dot x d) y))).
    { clear. destruct x, y, d. unfold dot, cross, vplus, vscal; simpl. r3. }
    rewrite Z' in K. set (g := dot x x * dot y y - dot x y * dot x y) in * .
    assert (P : p = vplus a (vscal (/ g) (vscal g d))). { unfold d. r3; field; lra. }
    rewrite P, K at 1. unfold bary. fold x y. r3; field; lra.
  - intros (u & v & ->). unfold bary, dot, cross, vplus, vminus, vscal; simpl. ring.
Qed.
End S.
Example C52_ex : rtri (triangle_init_from_point3d (Some (at3 (mk3 0 0 0))) (Some (at3 (mk3 1 0 0))) (Some (at3 (mk3 0 1 0)))) (mk3 0 0 0) (mk3 1 0 0) (mk3 0 1 0) /\
  eps < gram (mk3 0 0 0) (mk3 1 0 0) (mk3 0 1 0) /\ eps < sqrt (gram (mk3 0 0 0) (mk3 1 0 0) (mk3 0 1 0)).
Proof. assert (E : gram (mk3 0 0 0) (mk3 1 0 0) (mk3 0 1 0) = 1) by (unfold gram, dot, vminus; simpl; ring). rewrite E, sqrt_1. split; [repeat split|]. unfold eps; lra. Qed.
