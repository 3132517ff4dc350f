(** * Props_Init: constants, constructors and copies, in binary32, every back end (C72). *)
From Coq Require Import ZArith Reals Bool List Lra Lia Psatz.
From Flocq Require Import Core BinarySingleNaN.
From Verif Require Import Num Simd Vec Rect Box Mat Geo Quat OrdThy FloatThy B32Setup FloatLem ErrThy Props_Eq.
From Verif Require Props_Rect Props_Err Props_Err2 Props_Err3.
Import ListNotations.
Local Open Scope R_scope.

(** ** the constants *)
(** the floats [l] are finite and hold exactly the numbers [r] *)
Definition hold (l : list b32) (r : list R) : Prop := Forall2 (fun x v => fin x /\ B2R x = v) l r.
Definition pinf : b32 := B754_infinity false.
Definition ninf : b32 := B754_infinity true.
Lemma h0 : fin (fzero : b32) /\ B2R (fzero : b32) = 0. Proof. exact (fin_of_X _ _ fzero_X). Qed.
Lemma h1 : fin (fone : b32) /\ B2R (fone : b32) = 1. Proof. exact (fin_of_X _ _ fone_X). Qed.
Lemma hm1 : fin (fm1 : b32) /\ B2R (fm1 : b32) = -1.
Proof. split; [reflexivity|]. unfold B2R; simpl. unfold F2R; simpl. lra. Qed.
Ltac hold := repeat apply Forall2_cons; try apply Forall2_nil; first [exact h0|exact h1|exact hm1].
Theorem C72_vector_constants :
  hold (p_vec2 vec2_zero) [0; 0] /\ hold (p_vec2 vec2_one) [1; 1] /\ hold (p_vec2 vec2_x_axis) [1; 0] /\ hold (p_vec2 vec2_y_axis) [0; 1] /\
  hold (p_vec3 vec3_zero) [0; 0; 0] /\ hold (p_vec3 vec3_one) [1; 1; 1] /\ hold (p_vec3 vec3_x_axis) [1; 0; 0] /\
  hold (p_vec3 vec3_y_axis) [0; 1; 0] /\ hold (p_vec3 vec3_z_axis) [0; 0; 1] /\
  hold (p_vec4 vec4_zero) [0; 0; 0; 0] /\ hold (p_vec4 vec4_one) [1; 1; 1; 1] /\ hold (p_vec4 vec4_x_axis) [1; 0; 0; 0] /\
  hold (p_vec4 vec4_y_axis) [0; 1; 0; 0] /\ hold (p_vec4 vec4_z_axis) [0; 0; 1; 0] /\ hold (p_vec4 vec4_w_axis) [0; 0; 0; 1].
Proof. repeat (split; [hold|]). hold. Qed.
Theorem C72_constants : forall BK : Backend b32,
  hold (p_point point_zero) [0; 0] /\ hold (p_point3d point3d_zero) [0; 0; 0] /\ hold (p_size size_zero) [0; 0] /\ hold (p_rect rect_zero) [0; 0; 0; 0] /\
  hold (p_box box_zero) [0; 0; 0; 0; 0; 0] /\ hold (p_box box_one) [0; 0; 0; 1; 1; 1] /\
  hold (p_box box_minus_one) [-1; -1; -1; 0; 0; 0] /\ hold (p_box box_one_minus_one) [-1; -1; -1; 1; 1; 1] /\
  hold (p_box2d box2d_zero) [0; 0; 0; 0] /\ hold (p_box2d box2d_one) [0; 0; 1; 1] /\
  hold (p_box2d box2d_minus_one) [-1; -1; 0; 0] /\ hold (p_box2d box2d_one_minus_one) [-1; -1; 1; 1] /\
  hold (p_matrix matrix_init_identity) [1; 0; 0; 0;  0; 1; 0; 0;  0; 0; 1; 0;  0; 0; 0; 1] /\
  hold (p_vec4 (quaternion_to_vec4 quaternion_init_identity)) [0; 0; 0; 1] /\
  p_box box_infinite = [ninf; ninf; ninf; pinf; pinf; pinf] /\ p_box box_empty = [pinf; pinf; pinf; ninf; ninf; ninf] /\
  p_box2d box2d_infinite = [ninf; ninf; pinf; pinf] /\ p_box2d box2d_empty = [pinf; pinf; ninf; ninf].
Proof.
  intros BK. repeat match goal with |- _ /\ _ => split; [try hold|] end; try reflexivity.
  all: unfold p_rect, rect_get_x, rect_get_y, rect_get_width, rect_get_height; replace (rect_normalize rect_zero) with (rect_zero : rect b32) by reflexivity; hold.
Qed.

(** ** what is put in comes out; a NULL argument is the documented default *)
Definition or_default {A} (d : A) (o : option A) : A := match o with Some a => a | None => d end.
Definition origin3 : point3d b32 := point3d_zero.
Theorem C72_init_get : forall (BK : Backend b32),
  (forall x y, p_point (point_init x y) = [x; y]) /\ (forall w h, p_size (size_init w h) = [w; h]) /\
  (forall x y z, p_point3d (point3d_init x y z) = [x; y; z]) /\
  (forall v, p_point (point_init_from_vec2 v) = p_vec2 v) /\ (forall p, p_vec2 (point_to_vec2 p) = p_point p) /\
  (forall v, p_point3d (point3d_init_from_vec3 v) = p_vec3 v) /\ (forall p, p_vec3 (point3d_to_vec3 p) = p_point3d p) /\
  (forall a b, box_get_min (box_init a b) = or_default origin3 a /\ box_get_max (box_init a b) = or_default origin3 b) /\
  (forall a b, p_point3d (box_get_min (box_init_from_vec3 a b)) = p_vec3 (or_default vec3_zero a) /\
               p_point3d (box_get_max (box_init_from_vec3 a b)) = p_vec3 (or_default vec3_zero b)) /\
  (forall a b, box2d_get_min (box2d_init a b) = or_default point_zero a /\ box2d_get_max (box2d_init a b) = or_default point_zero b) /\
  (forall a b, p_point (box2d_get_min (box2d_init_from_vec2 a b)) = p_vec2 (or_default vec2_zero a) /\
               p_point (box2d_get_max (box2d_init_from_vec2 a b)) = p_vec2 (or_default vec2_zero b)) /\
  (forall n c, p_plane (plane_init n c) = p_vec3 (or_default vec3_x_axis n) ++ [c]) /\
  (forall v, p_plane (plane_init_from_vec4 v) = p_vec4 v) /\
  (forall c r, sphere_get_center (sphere_init c r) = or_default origin3 c /\ sphere_get_radius (sphere_init c r) = r) /\
  (forall a b c, triangle_get_points (triangle_init_from_point3d a b c) = (or_default origin3 a, or_default origin3 b, or_default origin3 c)) /\
  (forall a b c, triangle_get_vertices (triangle_init_from_vec3 a b c) = (or_default vec3_zero a, or_default vec3_zero b, or_default vec3_zero c)) /\
  (forall o d, ray_get_origin (ray_init o d) = or_default origin3 o) /\
  (forall o d, p_point3d (ray_get_origin (ray_init_from_vec3 o d)) = p_vec3 (or_default vec3_zero o)) /\
  (forall o, p_vec3 (ray_get_direction (ray_init o None)) = p_vec3 vec3_zero) /\
  (forall p0 p1 p2 p3 p4 p5, frustum_planes (frustum_init p0 p1 p2 p3 p4 p5) = [p0; p1; p2; p3; p4; p5] :> list (plane b32)) /\
  (forall x y z w, p_vec4 (quaternion_to_vec4 (quaternion_init x y z w)) = [x; y; z; w]) /\
  (forall v, p_vec4 (quaternion_to_vec4 (quaternion_init_from_vec4 v)) = p_vec4 v).
Proof.
  intros BK. repeat match goal with |- _ /\ _ => split end; intros; try reflexivity;
    repeat match goal with o : option _ |- _ => destruct o end; try (split; reflexivity); try reflexivity;
    repeat match goal with p : point3d b32 |- _ => destruct p | p : point b32 |- _ => destruct p end; try (split; reflexivity); reflexivity.
Qed.
(** A NULL point is in no frustum, a NULL sphere is not empty, and the barycentric and texture
    coordinates of a NULL point are those of the origin. *)
Theorem C72_null_queries : forall (BK : Backend b32) (f : frustum b32) (t : triangle b32) (uva uvb uvc : simd4f b32),
  frustum_contains_point f None = false /\ sphere_is_empty (F := b32) None = false /\
  triangle_get_barycoords t None = triangle_get_barycoords t (Some point3d_zero) /\
  triangle_get_uv t None uva uvb uvc = triangle_get_uv t (Some point3d_zero) uva uvb uvc.
Proof. intros. repeat split; reflexivity. Qed.
(** from arrays of floats, which must be long enough ([None] = out of bounds) *)
Theorem C72_from_float : forall (BK : Backend b32) (a0 a1 a2 b0 b1 b2 c0 c1 c2 : b32) (ta tb tc : list b32),
  option_map p_triangle (triangle_init_from_float (a0 :: a1 :: a2 :: ta) (b0 :: b1 :: b2 :: tb) (c0 :: c1 :: c2 :: tc)) = Some [a0; a1; a2; b0; b1; b2; c0; c1; c2].
Proof. reflexivity. Qed.
Theorem C72_matrix_from_float : forall (l t : list b32), length l = 16%nat ->
  option_map p_matrix (matrix_init_from_float (l ++ t)) = Some l.
Proof. intros l t L. do 16 (destruct l as [|? l]; [discriminate L|]). destruct l; [reflexivity|discriminate L]. Qed.

(** ** copies *)
Theorem C72_copies : forall (BK : Backend b32),
  (forall v : V, vec2_init_from_vec2 v = v /\ vec3_init_from_vec3 v = v /\ vec4_init_from_vec4 v = v) /\
  (forall b : box b32, p_box (box_init_from_box b) = p_box b) /\ (forall m : mat b32, p_matrix (matrix_init_from_matrix m) = p_matrix m) /\
  (forall p : plane b32, p_plane (plane_init_from_plane p) = p_plane p) /\ (forall f : frustum b32, p_frustum (frustum_init_from_frustum f) = p_frustum f) /\
  (forall e : euler b32, euler_init_from_euler (Some e) = e) /\
  (forall r : rect b32, p_rect (rect_init_from_rect r) = p_rect r).
Proof.
  intros BK. repeat match goal with |- _ /\ _ => split end; intros; repeat split; try reflexivity.
  unfold p_rect, rect_get_x, rect_get_y, rect_get_width, rect_get_height, rect_init_from_rect. now rewrite Props_Rect.C10_normalize_idempotent.
Qed.

Theorem C72_more_copies : forall (BK : Backend b32),
  (forall p : point b32, p_point (point_init_from_point p) = p_point p) /\ (forall p : size b32, p_size (size_init_from_size p) = p_size p) /\
  (forall p : point3d b32, p_point3d (point3d_init_from_point p) = p_point3d p) /\ (forall b : V, p_box2d (box2d_init_from_box b) = p_box2d b) /\
  (forall q : quat b32, quaternion_to_vec4 (quaternion_init_from_quaternion q) = quaternion_to_vec4 q).
Proof. repeat split; intros; reflexivity. Qed.

(** the optional results of get_minmax: a NULL is skipped, anything else receives what the
    separate getters return; a frustum's planes come out in the order they were put in *)
Theorem C72_minmax : forall (BK : Backend b32) (b : box b32) (mn mx : option (point3d b32)) (c : V) (pn pm : option (point b32)),
  box_get_minmax b mn mx = (option_map (fun _ => box_get_min b) mn, option_map (fun _ => box_get_max b) mx) /\
  box2d_get_minmax c pn pm = (option_map (fun _ => box2d_get_min c) pn, option_map (fun _ => box2d_get_max c) pm) /\
  (forall p q : point b32, box2d_get_minmax (box2d_init (Some p) (Some q)) pn pm = (option_map (fun _ => p) pn, option_map (fun _ => q) pm)) /\
  (forall p q : point3d b32, box_get_minmax (box_init (Some p) (Some q)) mn mx = (option_map (fun _ => p) mn, option_map (fun _ => q) mx)) /\
  (forall p0 p1 p2 p3 p4 p5 : plane b32, map p_plane (frustum_get_planes (frustum_init p0 p1 p2 p3 p4 p5)) = map p_plane [p0; p1; p2; p3; p4; p5]).
Proof. intros BK b mn mx c pn pm. repeat split; try (intros; destruct mn, mx; reflexivity); try (intros; destruct pn, pm; reflexivity).
  - intros [? ?] [? ?]. destruct pn, pm; reflexivity.
  - intros [? ? ?] [? ? ?]. destruct mn, mx; reflexivity.
Qed.

(** Rays are the exception: graphene_ray_init_from_ray normalises the direction again.  The
    origin is copied exactly; the direction of the copy of a ray whose direction has unit length
    up to 2^-18 (as the constructors guarantee: C70_normalize_unit) is within 2^-18 of the
    original in each component... *)
Theorem C72_ray_copy : forall (BK : Backend b32) (r : ray b32), Props_Err3.estimates_ok BK ->
  Props_Err.finite3 (ray_get_direction r) -> Rabs (Props_Err.dot3 (ray_get_direction r) (ray_get_direction r) - 1) <= bpow radix2 (-18) ->
  ray_get_origin (ray_init_from_ray r) = ray_get_origin r /\
  Forall2 (fun x y => fin x /\ Rabs (B2R x - B2R y) <= bpow radix2 (-18)) (p_vec3 (ray_get_direction (ray_init_from_ray r))) (p_vec3 (ray_get_direction r)).
Proof.
  intros BK r HB F U. split; [reflexivity|]. set (d := ray_get_direction r) in * .
  set (S := Props_Err.dot3 d d) in * . assert (E18 : bpow radix2 (-18) = / 262144) by reflexivity. rewrite E18 in * .
  assert (US : 1 - / 262144 <= S <= 1 + / 262144) by (apply Rabs_le_inv in U; lra).
  assert (N : Props_Err3.normal_range BK S).
  { split. split; [apply Rle_trans with (bpow radix2 (-1)); [apply bpow_le; lia|simpl; lra]|apply Rle_trans with (bpow radix2 1); [simpl; lra|apply bpow_le; lia]].
    unfold Props_Err3.scalar_cutoff. destruct BK; auto. simpl. lra. }
  pose proof (Props_Err3.C70_normalize3 BK d HB F N) as Q. fold S in Q.
  assert (SQ : 1 - / 262144 <= sqrt S <= 1 + / 262144).
  { split; [apply Rsqr_incr_0_var; [unfold Rsqr; rewrite sqrt_sqrt by lra; nra|apply sqrt_pos]|].
    apply Rsqr_incr_0_var; [unfold Rsqr; rewrite sqrt_sqrt by lra; nra|lra]. }
  assert (S1 : Rabs (sqrt S - 1) <= 1.01 / 524288).
  { assert (E : (sqrt S - 1) * (sqrt S + 1) = S - 1) by (pose proof (sqrt_sqrt S); nra).
    apply Rabs_le. split; nra. }
  assert (I : / sqrt S <= 1.00001) by (rewrite <- (Rinv_inv 1.00001); apply Rinv_le; lra).
  assert (I0 : 0 < / sqrt S) by (apply Rinv_0_lt_compat; lra).
  assert (Z : bpow radix2 (-150) <= / 1073741824) by (apply (bpow_le radix2 (-150) (-30)); lia).
  assert (E20 : bpow radix2 (-20) = / 1048576) by reflexivity.
  assert (K : forall x n : b32, fin x -> B2R x * B2R x <= S ->
    Props_Err.within (bpow radix2 (-20) * (Rabs (B2R x) * / sqrt S) + bpow radix2 (-150)) n (B2R x * / sqrt S) -> fin n /\ Rabs (B2R n - B2R x) <= / 262144).
  { intros x n Fx Hx [Fn W]. split; auto. rewrite E20 in W.
    assert (X : Rabs (B2R x) <= sqrt S). { rewrite <- sqrt_Rsqr_abs. apply sqrt_le_1_alt. exact Hx. }
    assert (D : Rabs (B2R x * / sqrt S - B2R x) <= 1.02 / 524288).
    { replace (B2R x * / sqrt S - B2R x) with (B2R x * / sqrt S * (1 - sqrt S)) by (field; lra). rewrite !Rabs_mult.
      rewrite <- Rabs_Ropp in S1. replace (- (sqrt S - 1)) with (1 - sqrt S) in S1 by ring.
      assert (A : Rabs (B2R x) * Rabs (/ sqrt S) <= 1).
      { rewrite (Rabs_pos_eq (/ sqrt S)) by lra. apply Rmult_le_reg_r with (sqrt S); [lra|]. rewrite Rmult_assoc, Rinv_l by lra. lra. }
      pose proof (Rabs_pos (1 - sqrt S)). pose proof (Rabs_pos (B2R x)). pose proof (Rabs_pos (/ sqrt S)). nra. }
    assert (A : Rabs (B2R x) * / sqrt S <= 1) by (apply Rmult_le_reg_r with (sqrt S); [lra|rewrite Rmult_assoc, Rinv_l by lra; lra]).
    replace (B2R n - B2R x) with ((B2R n - B2R x * / sqrt S) + (B2R x * / sqrt S - B2R x)) by ring.
    eapply Rle_trans; [apply Rabs_triang|]. lra. }
  inversion Q as [|? ? Q1 R1]; subst. inversion R1 as [|? ? Q2 R2]; subst. inversion R2 as [|? ? Q3 R3]; subst.
  destruct F as (F1 & F2 & F3).
  assert (SE : S = B2R (vx d) * B2R (vx d) + B2R (vy d) * B2R (vy d) + B2R (vz d) * B2R (vz d)) by reflexivity.
  apply Forall2_cons; [|apply Forall2_cons; [|apply Forall2_cons; [|apply Forall2_nil]]]; eapply K; eauto; unfold vec3_get_x, vec3_get_y, vec3_get_z, g_get_x, g_get_y, g_get_z; nra.
Qed.
(** ... but not always equal to it *)
Theorem C72_ray_copy_refuted :
  (forall ie, let BK : Backend b32 := Scalar ie in let r : ray b32 := ray_init None (Some (vec3_init fone fone fzero)) in
     vec3_get_x (ray_get_direction (ray_init_from_ray r)) <> vec3_get_x (ray_get_direction r)) /\
  (let BK : Backend b32 := Gcc in let r : ray b32 := ray_init None (Some (vec3_init fone fone fzero)) in
     vec3_get_x (ray_get_direction (ray_init_from_ray r)) <> vec3_get_x (ray_get_direction r)).
Proof.
  assert (K : forall x y : b32, B2SF x <> B2SF y -> x <> y) by (intros x y H E; apply H; now rewrite E).
  split; [intros []|]; cbv zeta; apply K; vm_compute; discriminate.
Qed.
(** ** the hypotheses can be met *)
Example C72_ex : forall BK : Backend b32, let r : ray b32 := Ry (V4 fone ftwo fone fzero) (V4 (lit 5033165 (-23)) (lit 13421773 (-24)) fzero fzero) in
  Props_Err.finite3 (ray_get_direction r) /\ Rabs (Props_Err.dot3 (ray_get_direction r) (ray_get_direction r) - 1) <= bpow radix2 (-18).
Proof.
  intros BK r. split; [repeat split|]. unfold Props_Err.dot3, Props_Err.dot2, r. cbn [ray_get_direction ray_d vx vy vz].
  replace (B2R (lit 5033165 (-23))) with (5033165 / 8388608) by (unfold B2R; simpl; unfold F2R; simpl; lra).
  replace (B2R (lit 13421773 (-24))) with (13421773 / 16777216) by (unfold B2R; simpl; unfold F2R; simpl; lra).
  replace (B2R (fzero : b32)) with 0 by reflexivity. change (bpow radix2 (-18)) with (/ 262144). apply Rabs_le. split; lra.
Qed.
