(** * Props_BackendX: the back ends compute the same exact functions (C64).

    "The same function" is literal: the two sides of each equation are the same model
    function instantiated at two arbitrary back ends B1 and B2.  The operations that do
    not appear here do not mention the back end at all in the model (their code is the
    same lane arithmetic in every back end), so there is nothing to prove for them.

    Group 1 needs no hypothesis: any operands (infinities and undefined values included),
    any hardware estimates.  Group 2 needs operands with a value (not NaN).  Group 3
    needs real operands, exact estimates, and operands above the thresholds below which
    only the scalar back end answers zero.  The [_refuted] theorems show what differs. *)
From Coq Require Import ZArith Reals Bool List Lra Lia Psatz.
From Flocq Require Import Core.
From Verif Require Import Num Simd Vec Rect Box Mat Geo Quat OrdThy XSetup RMat RGeo Props_VecX Props_MatX GeoBase.
Import ListNotations.
Local Open Scope R_scope.

(** ** the primitives *)
Lemma xadd_comm a b : fadd (a : xreal) b = fadd b a.
Proof. destruct a, b; try reflexivity. rewrite !Xadd. f_equal. ring. Qed.
Lemma xadd_assoc a b c : fadd (fadd (a : xreal) b) c = fadd a (fadd b c).
Proof. destruct a, b, c; try reflexivity. rewrite !Xadd. f_equal. ring. Qed.
Lemma xadd_0 a : fadd (a : xreal) fzero = a.
Proof. destruct a; try reflexivity. rewrite Xzero, Xadd. f_equal. ring. Qed.
Definition sum3 (a b : simd4f xreal) : xreal := fadd (fadd (fmul (vx a) (vx b)) (fmul (vy a) (vy b))) (fmul (vz a) (vz b)).
Lemma bk_dot3 (B : Backend xreal) a b : g_dot3_scalar a b = sum3 a b.
Proof.
  unfold g_dot3_scalar, sum3, backend. destruct B as [i| |[] f rcp rsq|rec rsq sq]; try reflexivity; rewrite xadd_0.
  - reflexivity.
  - rewrite !xadd_assoc. f_equal. apply xadd_comm.
Qed.
Lemma bk_dot3v (B : Backend xreal) a b : g_dot3 a b = g_splat (sum3 a b).
Proof. unfold g_dot3. now rewrite bk_dot3. Qed.
Lemma bk_neg1 (B : Backend xreal) (x : xreal) : lane_neg x = fneg x.
Proof.
  unfold lane_neg, backend. destruct B; try reflexivity. destruct x; try reflexivity.
  - rewrite xm1, Xmul, Xneg. f_equal. ring.
  - unfold fm1. rewrite Xone, Xneg. change (xsgn_inf (- (1)) PInf = NInf). unfold xsgn_inf. destruct (Rlt_dec 0 (- (1))); [exfalso; lra|]. destruct (Rlt_dec (- (1)) 0); [reflexivity|exfalso; lra].
  - unfold fm1. rewrite Xone, Xneg. change (xsgn_inf (- (1)) NInf = PInf). unfold xsgn_inf. destruct (Rlt_dec 0 (- (1))); [exfalso; lra|]. destruct (Rlt_dec (- (1)) 0); [reflexivity|exfalso; lra].
Qed.
Lemma bk_neg (B : Backend xreal) v : g_neg v = map1 fneg v.
Proof. unfold g_neg, map1. now rewrite !bk_neg1. Qed.
Lemma bk_madd (B : Backend xreal) a b c : g_madd a b c = g_add (g_mul a b) c.
Proof. unfold g_madd, backend. destruct B as [i| |s [] rcp rsq|rec rsq sq]; reflexivity. Qed.
Lemma xmul_comm a b : fmul (a : xreal) b = fmul b a.
Proof. destruct a, b; try reflexivity. rewrite !Xmul. f_equal. ring. Qed.
Definition cross_x (a b : simd4f xreal) := fsub (fmul (vy a) (vz b)) (fmul (vz a) (vy b)).
Definition cross_y (a b : simd4f xreal) := fsub (fmul (vz a) (vx b)) (fmul (vx a) (vz b)).
Definition cross_z (a b : simd4f xreal) := fsub (fmul (vx a) (vy b)) (fmul (vy a) (vx b)).
Lemma bk_cross (B : Backend xreal) a b : vx (g_cross3 a b) = cross_x a b /\ vy (g_cross3 a b) = cross_y a b /\ vz (g_cross3 a b) = cross_z a b.
Proof.
  unfold g_cross3, cross_x, cross_y, cross_z, backend. destruct B; cbn [vx vy vz]; repeat split; auto.
  - now rewrite (xmul_comm (vz b)).
  - now rewrite (xmul_comm (vx b)).
  - now rewrite (xmul_comm (vy b)).
Qed.
Lemma bk_cross_w (B : Backend xreal) a b r s : vw a = Fin r -> vw b = Fin s -> vw (g_cross3 a b) = Fin 0.
Proof.
  intros H1 H2. unfold g_cross3, backend. destruct B; cbn [vw]; auto. rewrite H1, H2, Xmul, Xsub. f_equal. ring.
Qed.

Ltac bk := rewrite ?bk_dot3, ?bk_dot3v, ?bk_neg, ?bk_madd.

(** ** Group 1: no hypothesis *)
Section Same.
Context (B1 B2 : Backend xreal).

Theorem C64_negate : forall v,
  vec2_negate (B:=B1) v = vec2_negate (B:=B2) v /\ vec3_negate (B:=B1) v = vec3_negate (B:=B2) v /\
  vec4_negate (B:=B1) v = vec4_negate (B:=B2) v.
Proof. intros v. unfold vec2_negate, vec3_negate, vec4_negate. now rewrite !bk_neg. Qed.
Lemma dot_same a b : vec3_dot (B:=B1) a b = vec3_dot (B:=B2) a b.
Proof. unfold vec3_dot. now bk. Qed.
Theorem C64_dot : forall a b p q,
  vec3_dot (B:=B1) a b = vec3_dot (B:=B2) a b /\ point3d_dot (B:=B1) p q = point3d_dot (B:=B2) p q.
Proof. intros. split; [apply dot_same|]. unfold point3d_dot. now bk. Qed.
Theorem C64_near : forall a b e, vec3_near (B:=B1) a b e = vec3_near (B:=B2) a b e.
Proof. intros. unfold vec3_near. now bk. Qed.
Theorem C64_cross : forall a b,
  vec3_get_x (vec3_cross (B:=B1) a b) = vec3_get_x (vec3_cross (B:=B2) a b) /\
  vec3_get_y (vec3_cross (B:=B1) a b) = vec3_get_y (vec3_cross (B:=B2) a b) /\
  vec3_get_z (vec3_cross (B:=B1) a b) = vec3_get_z (vec3_cross (B:=B2) a b).
Proof.
  intros a b. unfold vec3_get_x, vec3_get_y, vec3_get_z, g_get_x, g_get_y, g_get_z, vec3_cross.
  destruct (bk_cross B1 a b) as (-> & -> & ->). destruct (bk_cross B2 a b) as (-> & -> & ->). auto.
Qed.
Theorem C64_point3d_cross : forall p q, point3d_cross (B:=B1) p q = point3d_cross (B:=B2) p q.
Proof.
  intros p q. unfold point3d_cross, point3d_init_from_simd4f.
  match goal with |- context[@g_cross3 _ _ B1 ?a ?b] => destruct (bk_cross B1 a b) as (-> & -> & ->); destruct (bk_cross B2 a b) as (-> & -> & ->) end.
  reflexivity.
Qed.
Theorem C64_scale_offset : forall b s o, box2d_scale_offset (B:=B1) b s o = box2d_scale_offset (B:=B2) b s o.
Proof. intros. unfold box2d_scale_offset. now bk. Qed.
Theorem C64_skew : forall m k,
  matrix_skew_xy (B:=B1) m k = matrix_skew_xy (B:=B2) m k /\
  matrix_skew_xz (B:=B1) m k = matrix_skew_xz (B:=B2) m k /\
  matrix_skew_yz (B:=B1) m k = matrix_skew_yz (B:=B2) m k.
Proof. intros. unfold matrix_skew_xy, matrix_skew_xz, matrix_skew_yz. bk. auto. Qed.
Lemma det_same m : gm_determinant (B:=B1) m = gm_determinant (B:=B2) m.
Proof. unfold gm_determinant, gm_det_v, gm_r1_sum, sum_b. now rewrite !bk_madd. Qed.
Theorem C64_determinant : forall m,
  matrix_determinant (B:=B1) m = matrix_determinant (B:=B2) m /\
  matrix_is_singular (B:=B1) m = matrix_is_singular (B:=B2) m.
Proof. intros. unfold matrix_determinant, matrix_is_singular. now rewrite det_same. Qed.
(** whether the inverse exists *)
Theorem C64_inverse_answer : forall m, matrix_inverse (B:=B1) m = None <-> matrix_inverse (B:=B2) m = None.
Proof.
  intros m. unfold matrix_inverse, gm_inverse, sum_b. cbv zeta. rewrite !bk_madd.
  match goal with |- context[if ?c then _ else _] => destruct c end; split; auto; discriminate.
Qed.
Theorem C64_transform_sphere : forall m s, matrix_transform_sphere (B:=B1) m s = matrix_transform_sphere (B:=B2) m s.
Proof. intros. unfold matrix_transform_sphere. now rewrite !bk_dot3. Qed.
Lemma plane_distance_same p q : plane_distance (B:=B1) p q = plane_distance (B:=B2) p q.
Proof. unfold plane_distance. now rewrite dot_same. Qed.
Theorem C64_plane : forall n c p q,
  plane_init_from_point (B:=B1) n q = plane_init_from_point (B:=B2) n q /\
  plane_negate (B:=B1) p = plane_negate (B:=B2) p /\
  plane_distance (B:=B1) (Pl n c) q = plane_distance (B:=B2) (Pl n c) q.
Proof.
  intros. unfold plane_init_from_point, plane_negate, vec3_negate. rewrite plane_distance_same, !bk_neg, dot_same. auto.
Qed.
Lemma distance_sq_same p q : distance_sq (B:=B1) p q = distance_sq (B:=B2) p q.
Proof. unfold distance_sq. now rewrite dot_same. Qed.
Theorem C64_sphere : forall s p,
  sphere_contains_point (B:=B1) s p = sphere_contains_point (B:=B2) s p /\
  sphere_distance (B:=B1) s p = sphere_distance (B:=B2) s p.
Proof. intros. unfold sphere_contains_point, sphere_distance. now rewrite !distance_sq_same. Qed.
(** an explicit centre: otherwise the centre of the points' bounding box, group 2 *)
Theorem C64_sphere_from_points : forall pts vs c,
  sphere_init_from_points (B:=B1) pts (Some c) = sphere_init_from_points (B:=B2) pts (Some c) /\
  sphere_init_from_vectors (B:=B1) vs (Some c) = sphere_init_from_vectors (B:=B2) vs (Some c).
Proof.
  intros. unfold sphere_init_from_points, sphere_init_from_vectors. split; f_equal; f_equal.
  - generalize (fzero : xreal). induction pts as [|p l IH]; intros m; [reflexivity|]. cbn [fold_left]. now rewrite distance_sq_same, IH.
  - generalize (fzero : xreal). induction vs as [|p l IH]; intros m; [reflexivity|]. cbn [fold_left]. now rewrite distance_sq_same, IH.
Qed.
Lemma bary_same t p : triangle_get_barycoords (B:=B1) t p = triangle_get_barycoords (B:=B2) t p.
Proof. unfold triangle_get_barycoords. now rewrite !dot_same. Qed.
Theorem C64_triangle : forall t p q ua ub uc,
  triangle_get_barycoords (B:=B1) t p = triangle_get_barycoords (B:=B2) t p /\
  triangle_get_uv (B:=B1) t p ua ub uc = triangle_get_uv (B:=B2) t p ua ub uc /\
  triangle_contains_point (B:=B1) t q = triangle_contains_point (B:=B2) t q.
Proof. intros. unfold triangle_get_uv, triangle_contains_point. now rewrite !bary_same. Qed.
Lemma sum3_cross_r v a b : sum3 v (vec3_cross (B:=B1) a b) = sum3 v (vec3_cross (B:=B2) a b).
Proof.
  unfold sum3, vec3_cross. destruct (bk_cross B1 a b) as (-> & -> & ->). now destruct (bk_cross B2 a b) as (-> & -> & ->).
Qed.
Lemma sum3_cross2 a b : sum3 (vec3_cross (B:=B1) a b) (vec3_cross (B:=B1) a b) = sum3 (vec3_cross (B:=B2) a b) (vec3_cross (B:=B2) a b).
Proof.
  unfold sum3, vec3_cross. destruct (bk_cross B1 a b) as (-> & -> & ->). now destruct (bk_cross B2 a b) as (-> & -> & ->).
Qed.
Theorem C64_ray_plane : forall r p q,
  ray_get_distance_to_plane (B:=B1) r p = ray_get_distance_to_plane (B:=B2) r p /\
  ray_get_closest_point_to_point (B:=B1) r q = ray_get_closest_point_to_point (B:=B2) r q.
Proof.
  intros. unfold ray_get_distance_to_plane, ray_get_closest_point_to_point. now rewrite !plane_distance_same, !dot_same.
Qed.
Theorem C64_ray_sphere : forall r s,
  ray_intersect_sphere (B:=B1) r s = ray_intersect_sphere (B:=B2) r s /\
  ray_intersects_sphere (B:=B1) r s = ray_intersects_sphere (B:=B2) r s.
Proof.
  intros. assert (E : ray_intersect_sphere (B:=B1) r s = ray_intersect_sphere (B:=B2) r s).
  { unfold ray_intersect_sphere. now rewrite !dot_same. }
  split; [exact E|]. unfold ray_intersects_sphere. now rewrite E.
Qed.
Theorem C64_ray_triangle : forall r t old,
  ray_intersect_triangle (B:=B1) r t old = ray_intersect_triangle (B:=B2) r t old /\
  ray_intersects_triangle (B:=B1) r t = ray_intersects_triangle (B:=B2) r t.
Proof.
  intros. assert (E : forall old, ray_intersect_triangle (B:=B1) r t old = ray_intersect_triangle (B:=B2) r t old).
  { clear. intros old. unfold ray_intersect_triangle, vec3_dot. cbv zeta. rewrite !bk_dot3, !sum3_cross_r. reflexivity. }
  split; [apply E|]. unfold ray_intersects_triangle. now rewrite E.
Qed.
Theorem C64_frustum : forall f p s b,
  frustum_contains_point (B:=B1) f p = frustum_contains_point (B:=B2) f p /\
  frustum_intersects_sphere (B:=B1) f s = frustum_intersects_sphere (B:=B2) f s /\
  frustum_intersects_box (B:=B1) f b = frustum_intersects_box (B:=B2) f b.
Proof.
  intros. unfold frustum_contains_point, frustum_intersects_sphere, frustum_intersects_box, frustum_planes. cbn [forallb].
  rewrite !plane_distance_same. repeat split. now destruct p; rewrite ?plane_distance_same.
Qed.
Theorem C64_triangle_normal : forall t,
  vec3_get_x (triangle_get_normal (B:=B1) t) = vec3_get_x (triangle_get_normal (B:=B2) t) /\
  vec3_get_y (triangle_get_normal (B:=B1) t) = vec3_get_y (triangle_get_normal (B:=B2) t) /\
  vec3_get_z (triangle_get_normal (B:=B1) t) = vec3_get_z (triangle_get_normal (B:=B2) t).
Proof.
  intros t. unfold triangle_get_normal, triangle_cross, vec3_dot. cbv zeta. rewrite !bk_dot3, sum3_cross2.
  match goal with |- context[if ?c then _ else _] => destruct c end; [|auto].
  unfold vec3_get_x, vec3_get_y, vec3_get_z, g_get_x, g_get_y, g_get_z, vec3_scale, g_mul, map2. cbn [vx vy vz].
  match goal with |- context[@vec3_cross _ _ B1 ?a ?b] => destruct (C64_cross a b) as (X & Y & Z) end.
  unfold vec3_get_x, vec3_get_y, vec3_get_z, g_get_x, g_get_y, g_get_z in X, Y, Z. now rewrite X, Y, Z.
Qed.
(** interpolating 2D matrices *)
Theorem C64_interpolate_2d : forall a b (t : xreal), matrix_is_2d a = true -> matrix_is_2d b = true ->
  matrix_interpolate (B:=B1) a b t = matrix_interpolate (B:=B2) a b t.
Proof.
  intros a b t Ha Hb. unfold matrix_interpolate. rewrite Ha, Hb. cbn [andb].
  destruct (matrix_decompose_2d a) as [[[[? ?] ?] ?]|], (matrix_decompose_2d b) as [[[[? ?] ?] ?]|]; try reflexivity.
  unfold vec2_negate. cbv zeta. now rewrite !bk_neg.
Qed.
End Same.

(** ** Group 2: minima and maxima of operands that have a value *)
Definition valued (x : xreal) : Prop := x <> Undef.
Definition valued4 (v : simd4f xreal) : Prop := valued (vx v) /\ valued (vy v) /\ valued (vz v) /\ valued (vw v).
Definition valued_box (b : box xreal) : Prop := valued4 (bmin b) /\ valued4 (bmax b).
Lemma val_nan x : valued x -> fisnan x = false.
Proof. unfold valued. destruct x; try reflexivity. congruence. Qed.
Lemma xlt_antisym_eq (a b : xreal) : valued a -> valued b -> flt a b = false -> flt b a = false -> a = b.
Proof.
  unfold valued, flt; destruct a as [x| | |], b as [y| | |]; cbn; intros; try congruence.
  destruct (Rlt_dec x y), (Rlt_dec y x); try discriminate. f_equal. lra.
Qed.
Lemma bk_min1 (B : Backend xreal) a b : valued a -> valued b -> lane_min a b = if flt a b then a else b.
Proof.
  intros Ha Hb. unfold lane_min, backend. destruct B; auto. rewrite !val_nan by auto.
  destruct (flt a b) eqn:E; auto. destruct (flt b a) eqn:E'; auto. rewrite (xlt_antisym_eq a b) by auto. now destruct (fsignbit b).
Qed.
Lemma bk_max1 (B : Backend xreal) a b : valued a -> valued b -> lane_max a b = if flt b a then a else b.
Proof.
  intros Ha Hb. unfold lane_max, backend. destruct B; auto. rewrite !val_nan by auto.
  destruct (flt b a) eqn:E; auto. destruct (flt a b) eqn:E'; auto. rewrite (xlt_antisym_eq a b) by auto. now destruct (fsignbit b).
Qed.
Definition vmin4 (a b : simd4f xreal) := map2 (fun x y => if flt x y then x else y) a b.
Definition vmax4 (a b : simd4f xreal) := map2 (fun x y => if flt y x then x else y) a b.
Lemma bk_min (B : Backend xreal) a b : valued4 a -> valued4 b -> g_min a b = vmin4 a b.
Proof. intros (A1 & A2 & A3 & A4) (D1 & D2 & D3 & D4). unfold g_min, vmin4, map2. now rewrite !bk_min1. Qed.
Lemma bk_max (B : Backend xreal) a b : valued4 a -> valued4 b -> g_max a b = vmax4 a b.
Proof. intros (A1 & A2 & A3 & A4) (D1 & D2 & D3 & D4). unfold g_max, vmax4, map2. now rewrite !bk_max1. Qed.
Lemma valued_vmin a b : valued4 a -> valued4 b -> valued4 (vmin4 a b).
Proof.
  intros (A1 & A2 & A3 & A4) (D1 & D2 & D3 & D4). unfold valued4, vmin4, map2; cbn [vx vy vz vw].
  repeat split; match goal with |- context[if ?c then _ else _] => destruct c end; auto.
Qed.
Lemma valued_vmax a b : valued4 a -> valued4 b -> valued4 (vmax4 a b).
Proof.
  intros (A1 & A2 & A3 & A4) (D1 & D2 & D3 & D4). unfold valued4, vmax4, map2; cbn [vx vy vz vw].
  repeat split; match goal with |- context[if ?c then _ else _] => destruct c end; auto.
Qed.
Lemma valued_rv x y z w : valued4 (rv x y z w).
Proof. unfold valued4. rewrite rv_x, rv_y, rv_z, rv_w. repeat split; discriminate. Qed.
Lemma valued_fin4 x y z w : valued4 (V4 (Fin x) (Fin y) (Fin z) (Fin w)).
Proof. repeat split; discriminate. Qed.
Lemma valued_init x y z w : valued x -> valued y -> valued z -> valued w -> valued4 (g_init x y z w).
Proof. now repeat split. Qed.
Lemma valued_0 : valued fzero. Proof. discriminate. Qed.
Lemma valued_empty : valued_box box_empty.
Proof. repeat split; discriminate. Qed.
Lemma valued_expand (B : Backend xreal) b v : valued_box b -> valued4 v -> valued_box (box_expand_vec3 b v).
Proof.
  intros [H1 H2] Hv. unfold box_expand_vec3, box_expand_simd4f. rewrite bk_min, bk_max by auto.
  split; [now apply valued_vmin|now apply valued_vmax].
Qed.
Definition valued_p3 (p : point3d xreal) : Prop := valued (p3x p) /\ valued (p3y p) /\ valued (p3z p).
Definition valued_p (p : point xreal) : Prop := valued (px p) /\ valued (py p).

Section Same2.
Context (B1 B2 : Backend xreal).
Theorem C64_min_max : forall a b, valued4 a -> valued4 b ->
  vec2_min (B:=B1) a b = vec2_min (B:=B2) a b /\ vec2_max (B:=B1) a b = vec2_max (B:=B2) a b /\
  vec3_min (B:=B1) a b = vec3_min (B:=B2) a b /\ vec3_max (B:=B1) a b = vec3_max (B:=B2) a b /\
  vec4_min (B:=B1) a b = vec4_min (B:=B2) a b /\ vec4_max (B:=B1) a b = vec4_max (B:=B2) a b.
Proof.
  intros a b Ha Hb. unfold vec2_min, vec2_max, vec3_min, vec3_max, vec4_min, vec4_max.
  rewrite !bk_min, !bk_max by auto. repeat split.
Qed.
Lemma expand_same b v : valued_box b -> valued4 v -> box_expand_vec3 (B:=B1) b v = box_expand_vec3 (B:=B2) b v.
Proof. intros [H1 H2] Hv. unfold box_expand_vec3, box_expand_simd4f. now rewrite !bk_min, !bk_max by auto. Qed.
Lemma fold_expand_same vs b : valued_box b -> Forall valued4 vs ->
  fold_left (box_expand_vec3 (B:=B1)) vs b = fold_left (box_expand_vec3 (B:=B2)) vs b.
Proof.
  intros Hb Hv. revert b Hb. induction Hv as [|v vs Hv Hs IH]; intros b Hb; [reflexivity|]. cbn [fold_left].
  rewrite <- expand_same by auto. apply IH. now apply valued_expand.
Qed.
Theorem C64_box : forall a b v vs, valued_box a -> valued_box b -> valued4 v -> Forall valued4 vs ->
  box_union (B:=B1) a b = box_union (B:=B2) a b /\
  box_intersection (B:=B1) a b = box_intersection (B:=B2) a b /\
  box_expand_vec3 (B:=B1) a v = box_expand_vec3 (B:=B2) a v /\
  box_init_from_vectors (B:=B1) vs = box_init_from_vectors (B:=B2) vs.
Proof.
  intros a b v vs [A1 A2] [D1 D2] Hv Hs. unfold box_union, box_intersection, box_init_from_vectors.
  rewrite !bk_min, !bk_max by auto. repeat split.
  - apply expand_same; auto. now split.
  - apply fold_expand_same; auto. apply valued_empty.
Qed.
Lemma from_points_vectors (B : Backend xreal) pts : box_init_from_points pts = box_init_from_vectors (map point3d_to_vec3 pts).
Proof.
  unfold box_init_from_points, box_init_from_vectors. generalize (box_empty : box xreal).
  induction pts as [|p l IH]; intros b; [reflexivity|]. cbn [fold_left map]. apply IH.
Qed.
Lemma valued_p3_v p : valued_p3 p -> valued4 (point3d_to_vec3 p).
Proof. intros (X & Y & Z). apply valued_init; auto. apply valued_0. Qed.
Lemma valued_p3_map pts : Forall valued_p3 pts -> Forall valued4 (map point3d_to_vec3 pts).
Proof. induction 1; constructor; auto. now apply valued_p3_v. Qed.
Lemma from_points_same pts : Forall valued_p3 pts -> box_init_from_points (B:=B1) pts = box_init_from_points (B:=B2) pts.
Proof. intros H. rewrite !from_points_vectors. apply fold_expand_same; [apply valued_empty|now apply valued_p3_map]. Qed.
Theorem C64_box_points : forall b p pts t, valued_box b -> valued_p3 p -> Forall valued_p3 pts ->
  valued4 (tr_a t) -> valued4 (tr_b t) -> valued4 (tr_c t) ->
  box_expand (B:=B1) b p = box_expand (B:=B2) b p /\
  box_init_from_points (B:=B1) pts = box_init_from_points (B:=B2) pts /\
  triangle_get_bounding_box (B:=B1) t = triangle_get_bounding_box (B:=B2) t /\
  sphere_init_from_points (B:=B1) pts None = sphere_init_from_points (B:=B2) pts None.
Proof.
  intros b p pts t Hb Hp Hs Ta Tb Tc. repeat split.
  - unfold box_expand. apply (expand_same b (g_init (p3x p) (p3y p) (p3z p) fzero)); auto. now apply valued_p3_v.
  - now apply from_points_same.
  - apply (fold_expand_same [tr_a t; tr_b t; tr_c t] box_empty); auto. apply valued_empty.
  - assert (E := C64_sphere_from_points B1 B2 pts [] (box_get_center (box_init_from_points (B:=B1) pts))). destruct E as [E _].
    unfold sphere_init_from_points in * . rewrite <- from_points_same by auto. exact E.
Qed.
Lemma low_valued b : valued4 b -> valued4 (box2d_min_v b).
Proof. intros (X & Y & Z & W). apply valued_init; auto; apply valued_0. Qed.
Lemma high_valued b : valued4 b -> valued4 (box2d_max_v b).
Proof. intros (X & Y & Z & W). apply valued_init; auto; apply valued_0. Qed.
Lemma expand2_same b v : valued4 b -> valued4 v -> box2d_expand_vec2 (B:=B1) b v = box2d_expand_vec2 (B:=B2) b v.
Proof.
  intros Hb Hv. unfold box2d_expand_vec2, box2d_expand_simd4f.
  rewrite !bk_min, !bk_max by auto using low_valued, high_valued. reflexivity.
Qed.
Lemma expand2_valued (B : Backend xreal) b v : valued4 b -> valued4 v -> valued4 (box2d_expand_vec2 b v).
Proof.
  intros Hb Hv. unfold box2d_expand_vec2, box2d_expand_simd4f.
  rewrite !bk_min, !bk_max by auto using low_valued, high_valued.
  destruct (valued_vmin (box2d_min_v b) v) as (X & Y & _); auto using low_valued.
  destruct (valued_vmax (box2d_max_v b) v) as (X' & Y' & _); auto using high_valued. now repeat split.
Qed.
Lemma fold2_same vs b : valued4 b -> Forall valued4 vs ->
  fold_left (box2d_expand_vec2 (B:=B1)) vs b = fold_left (box2d_expand_vec2 (B:=B2)) vs b.
Proof.
  intros Hb Hv. revert b Hb. induction Hv as [|v vs Hv Hs IH]; intros b Hb; [reflexivity|]. cbn [fold_left].
  rewrite <- expand2_same by auto. apply IH. now apply expand2_valued.
Qed.
Lemma from_points2 (B : Backend xreal) pts : box2d_init_from_points pts = fold_left box2d_expand_vec2 (map point_to_vec2 pts) box2d_empty.
Proof.
  unfold box2d_init_from_points. generalize (box2d_empty : @box2d xreal).
  induction pts as [|p l IH]; intros b; [reflexivity|]. cbn [fold_left map]. apply IH.
Qed.
Theorem C64_box2d : forall a b p pts vs, valued4 a -> valued4 b -> valued_p p -> Forall valued_p pts -> Forall valued4 vs ->
  box2d_union (B:=B1) a b = box2d_union (B:=B2) a b /\
  box2d_intersection (B:=B1) a b = box2d_intersection (B:=B2) a b /\
  box2d_intersects (B:=B1) a b = box2d_intersects (B:=B2) a b /\
  box2d_expand (B:=B1) a p = box2d_expand (B:=B2) a p /\
  box2d_init_from_points (B:=B1) pts = box2d_init_from_points (B:=B2) pts /\
  box2d_init_from_vectors (B:=B1) vs = box2d_init_from_vectors (B:=B2) vs.
Proof.
  intros a b p pts vs Ha Hb [Px Py] Hpts Hvs.
  assert (V0 := valued_0).
  assert (G : forall x y, valued x -> valued y -> valued4 (g_init x y fzero fzero)) by (intros; now apply valued_init).
  assert (HE : valued4 (box2d_empty : @box2d xreal)) by (repeat split; discriminate).
  split; [|split; [|split; [|split; [|split]]]].
  - unfold box2d_union. now rewrite !bk_min, !bk_max by auto using low_valued, high_valued.
  - unfold box2d_intersection. now rewrite !bk_min, !bk_max by auto using low_valued, high_valued.
  - unfold box2d_intersects. destruct (low_valued a Ha) as (X1 & Y1 & _), (low_valued b Hb) as (X2 & Y2 & _),
      (high_valued a Ha) as (X3 & Y3 & _), (high_valued b Hb) as (X4 & Y4 & _).
    now rewrite !bk_min, !bk_max by (apply G; assumption).
  - apply (expand2_same a (g_init (px p) (py p) fzero fzero)); auto.
  - rewrite !from_points2. apply fold2_same; auto. clear -Hpts V0. induction Hpts as [|q l [Qx Qy] H IH]; constructor; auto.
    now apply valued_init.
  - now apply fold2_same.
Qed.
Lemma min_val_same v : valued4 v -> g_min_val (B:=B1) v = g_min_val (B:=B2) v.
Proof.
  intros Hv. assert (Hs : valued4 (g_shuffle_wxyz v)) by (destruct Hv as (X & Y & Z & W); now repeat split).
  unfold g_min_val. rewrite !(bk_min _ v) by auto. assert (Hm := valued_vmin _ _ Hv Hs). cbv zeta.
  rewrite !bk_min; auto; destruct Hm as (X & Y & Z & W); now repeat split.
Qed.
Lemma max_val_same v : valued4 v -> g_max_val (B:=B1) v = g_max_val (B:=B2) v.
Proof.
  intros Hv. assert (Hs : valued4 (g_shuffle_wxyz v)) by (destruct Hv as (X & Y & Z & W); now repeat split).
  unfold g_max_val. rewrite !(bk_max _ v) by auto. assert (Hm := valued_vmax _ _ Hv Hs). cbv zeta.
  rewrite !bk_max; auto; destruct Hm as (X & Y & Z & W); now repeat split.
Qed.
Lemma points_bounds_same a b c d : valued_p a -> valued_p b -> valued_p c -> valued_p d ->
  points_bounds (B:=B1) a b c d = points_bounds (B:=B2) a b c d.
Proof.
  intros [Ax Ay] [Bx By] [Cx Cy] [Dx Dy]. unfold points_bounds.
  assert (H : valued4 (g_init (px a) (px b) (px c) (px d))) by (now apply valued_init).
  assert (H' : valued4 (g_init (py a) (py b) (py c) (py d))) by (now apply valued_init).
  rewrite !(min_val_same _ H), !(max_val_same _ H), !(min_val_same _ H'), !(max_val_same _ H'). reflexivity.
Qed.
Theorem C64_quad_bounds : forall q, valued_p (q0 q) -> valued_p (q1 q) -> valued_p (q2 q) -> valued_p (q3 q) ->
  quad_bounds (B:=B1) q = quad_bounds (B:=B2) q.
Proof. intros. unfold quad_bounds. now apply points_bounds_same. Qed.
Lemma corner_val m p x y : px p = Fin x -> py p = Fin y -> valued_p (transform_corner (mt m) p).
Proof.
  intros Hx Hy. unfold transform_corner. rewrite Hx, Hy. change (g_init (Fin x) (Fin y) fzero fone) with (vv (vec x y 0 1)).
  rewrite mt_vec4. split; discriminate.
Qed.
Lemma norm_fin x y w h : exists x' y' w' h', rect_normalize (mkrect (Fin x) (Fin y) (Fin w) (Fin h)) = mkrect (Fin x') (Fin y') (Fin w') (Fin h').
Proof. rewrite X_norm. eauto. Qed.
Theorem C64_transform_bounds : forall M x y w h,
  matrix_transform_bounds (B:=B1) (mt M) (mkrect (Fin x) (Fin y) (Fin w) (Fin h)) =
  matrix_transform_bounds (B:=B2) (mt M) (mkrect (Fin x) (Fin y) (Fin w) (Fin h)).
Proof.
  intros. unfold matrix_transform_bounds. destruct (norm_fin x y w h) as (x' & y' & w' & h' & ->).
  destruct (norm_fin x' y' w' h') as (x2 & y2 & w2 & h2 & E).
  apply points_bounds_same; eapply corner_val; unfold rect_get_top_left, rect_get_top_right, rect_get_bottom_left, rect_get_bottom_right; rewrite E; reflexivity.
Qed.
Theorem C64_transform_box : forall M x y z w x' y' z' w',
  matrix_transform_box (B:=B1) (mt M) (Bx (rv x y z w) (rv x' y' z' w')) =
  matrix_transform_box (B:=B2) (mt M) (Bx (rv x y z w) (rv x' y' z' w')).
Proof.
  intros. unfold matrix_transform_box, box_init_from_vectors. apply fold_expand_same; [apply valued_empty|].
  unfold box_get_vertices, box_get_min, box_get_max. cbn [bmin bmax].
  change (point3d_init_from_vec3 (rv x y z w)) with (P3 (Fin x) (Fin y) (Fin z)).
  change (point3d_init_from_vec3 (rv x' y' z' w')) with (P3 (Fin x') (Fin y') (Fin z')). cbn [p3x p3y p3z map].
  assert (G : forall a b c, valued4 (gm_point3_mul (mt M) (vec3_init (Fin a) (Fin b) (Fin c)))).
  { intros a b c. change (vec3_init (Fin a) (Fin b) (Fin c)) with (vv (vec a b c 0)). rewrite mt_point3. apply valued_rv. }
  do 8 (apply Forall_cons; [apply G|]). apply Forall_nil.
Qed.
End Same2.
