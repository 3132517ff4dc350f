(** * Geo: planes, spheres, triangles, rays, frusta and quads.

    Models src/graphene-plane.c, graphene-sphere.c, graphene-triangle.c,
    graphene-ray.c, graphene-frustum.c, graphene-quad.c and
    src/graphene-line-segment-private.h. *)

From Coq Require Import ZArith Bool List.
From Verif Require Import Num Simd Vec Rect Box Mat.
Import ListNotations.
Local Open Scope f_scope.

(* include/graphene-plane.h, graphene-triangle.h, graphene-frustum.h (six planes) *)
Record plane (F : Type) := Pl { pl_n : simd4f F; pl_c : F }.
Arguments Pl {F}. Arguments pl_n {F}. Arguments pl_c {F}.
(* include/graphene-triangle.h:44-50 *)
Record triangle (F : Type) := Tr { tr_a : simd4f F; tr_b : simd4f F; tr_c : simd4f F }.
Arguments Tr {F}. Arguments tr_a {F}. Arguments tr_b {F}. Arguments tr_c {F}.
(* include/graphene-frustum.h:47-51 *)
Record frustum (F : Type) := Fr { fr0 : plane F; fr1 : plane F; fr2 : plane F;
                                  fr3 : plane F; fr4 : plane F; fr5 : plane F }.
Arguments Fr {F}. Arguments fr0 {F}. Arguments fr1 {F}. Arguments fr2 {F}.
Arguments fr3 {F}. Arguments fr4 {F}. Arguments fr5 {F}.
(* include/graphene-ray.h, graphene_ray_intersection_kind_t *)
Inductive hit := HitNone | HitEnter | HitLeave.
(* the comparison != GRAPHENE_RAY_INTERSECTION_KIND_NONE in src/graphene-ray.c:458-463 *)
Definition hit_any (h : hit) : bool := match h with HitNone => false | _ => true end.

Section Geo.
Context {F : Type} {O : FOps F} {B : Backend F}.
Notation V := (simd4f F). Notation mat := (mat F).
Notation point := (point F). Notation point3d := (point3d F). Notation rect := (rect F).
Notation sphere := (sphere F). Notation box := (box F). Notation plane := (plane F).
Notation triangle := (triangle F). Notation ray := (ray F). Notation frustum := (frustum F).
Notation quad := (quad F).
(* the NULL tests of the *_init functions: a NULL vector is vec3_zero *)
Definition or_zero3 (o : option V) : V := match o with Some v => v | None => vec3_zero end.

(** ** plane: src/graphene-plane.c *)
(* src/graphene-plane.c:99-112, graphene_plane_init *)
Definition plane_init (normal : option V) (constant : F) : plane :=
  Pl (match normal with Some n => n | None => vec3_x_axis end) constant.
(* src/graphene-plane.c:127-135, graphene_plane_init_from_vec4 *)
Definition plane_init_from_vec4 (src : V) : plane :=
  Pl (vec4_get_xyz src) (vec4_get_w src).
(* src/graphene-plane.c:149-157, graphene_plane_init_from_plane *)
Definition plane_init_from_plane (src : plane) : plane := Pl (pl_n src) (pl_c src).
(* src/graphene-plane.c:172-185, graphene_plane_init_from_point *)
Definition plane_init_from_point (normal : V) (point : point3d) : plane :=
  Pl normal (vec3_dot (point3d_to_vec3 point) normal *. fm1).
(* src/graphene-plane.c:204-224, graphene_plane_init_from_points *)
Definition plane_init_from_points (a b c : point3d) : plane :=
  let v_a := point3d_to_vec3 a in let v_b := point3d_to_vec3 b in let v_c := point3d_to_vec3 c in
  let v1 := vec3_subtract v_c v_b in
  let v2 := vec3_subtract v_a v_b in
  let normal := vec3_normalize (vec3_cross v1 v2) in
  plane_init_from_point normal a.
(* src/graphene-plane.c:236-244, graphene_plane_normalize *)
Definition plane_normalize (p : plane) : plane :=
  Pl (vec3_normalize (pl_n p)) (pl_c p /. vec3_length (pl_n p)).
(* src/graphene-plane.c:256-262, graphene_plane_negate *)
Definition plane_negate (p : plane) : plane :=
  Pl (vec3_negate (pl_n p)) (pl_c p *. fm1).
(* src/graphene-plane.c:275-284, graphene_plane_distance *)
Definition plane_distance (p : plane) (point : point3d) : F :=
  vec3_dot (pl_n p) (point3d_to_vec3 point) +. pl_c p.
(* src/graphene-plane.c:296-301, graphene_plane_get_normal *)
Definition plane_get_normal (p : plane) : V := pl_n p.
(* src/graphene-plane.c:314-318, graphene_plane_get_constant *)
Definition plane_get_constant (p : plane) : F := pl_c p.
(* src/graphene-plane.c:320-329, plane_equal *)
Definition plane_equal_fn (a b : plane) : bool :=
  vec3_equal false (Some (pl_n a)) (Some (pl_n b)) && approx_val (pl_c a) (pl_c b).
(* src/graphene-plane.c:342-347, graphene_plane_equal *)
Definition plane_equal (same : bool) (a b : option plane) : bool :=
  pointer_equal same a b plane_equal_fn.
(* 367-407; [None]: the inverse fails and the code goes on with an uninitialised
   normal matrix (undefined behaviour) *)
(* src/graphene-plane.c:367-407, graphene_plane_transform *)
Definition plane_transform (p : plane) (matrix : mat) (normal_matrix : option mat) : option plane :=
  let constant := plane_get_constant p in
  let coplanar_point := vec3_scale (pl_n p) (-. constant) in
  let reference_point_v4 := matrix_transform_vec4 matrix (vec4_init_from_vec3 coplanar_point fone) in
  let reference_point := vec4_get_xyz reference_point_v4 in
  let normal_m := match normal_matrix with
    | Some n => Some n
    | None => match matrix_inverse matrix with
              | Some i => Some (matrix_transpose i) | None => None end end in
  match normal_m with
  | None => None
  | Some normal_m =>
      let normal := vec3_normalize (matrix_transform_vec3 normal_m (pl_n p)) in
      let constant := -. vec3_dot normal reference_point in
      Some (plane_init (Some normal) constant)
  end.

(** ** sphere: src/graphene-sphere.c *)
(* src/graphene-sphere.c:91-104, graphene_sphere_init *)
Definition sphere_init (center : option point3d) (radius : F) : sphere :=
  Sp (match center with Some c => point3d_to_vec3 c | None => vec3_zero end) radius.
(* src/graphene-sphere.c:106-114, distance_sq *)
Definition distance_sq (p1 p2 : V) : F :=
  let delta := vec3_subtract p1 p2 in vec3_dot delta delta.
(* src/graphene-sphere.c:185-212, graphene_sphere_init_from_vectors *)
Definition sphere_init_from_vectors (vs : list V) (center : option point3d) : sphere :=
  let c := match center with
    | Some c => point3d_to_vec3 c
    | None => point3d_to_vec3 (box_get_center (box_init_from_vectors vs)) end in
  Sp c (fsqrt (fold_left (fun m v => ffmax m (distance_sq c v)) vs fzero)).
(* src/graphene-sphere.c:133-166, graphene_sphere_init_from_points *)
Definition sphere_init_from_points (pts : list point3d) (center : option point3d) : sphere :=
  let c := match center with
    | Some c => point3d_to_vec3 c
    | None => point3d_to_vec3 (box_get_center (box_init_from_points pts)) end in
  Sp c (fsqrt (fold_left (fun m p => ffmax m (distance_sq c (point3d_to_vec3 p))) pts fzero)).
(* src/graphene-sphere.c:224-229, graphene_sphere_get_center *)
Definition sphere_get_center (s : sphere) : point3d := point3d_init_from_vec3 (scenter s).
(* src/graphene-sphere.c:239-243, graphene_sphere_get_radius *)
Definition sphere_get_radius (s : sphere) : F := sradius s.
(* src/graphene-sphere.c:255-259, graphene_sphere_is_empty *)
Definition sphere_is_empty (s : option sphere) : bool :=
  match s with Some s => sradius s <=. fzero | None => false end.
(* src/graphene-sphere.c:273-287, graphene_sphere_contains_point *)
Definition sphere_contains_point (s : sphere) (p : point3d) : bool :=
  let radius_sq := sradius s *. sradius s in
  if distance_sq (scenter s) (point3d_to_vec3 p) <=. radius_sq then true else false.
(* src/graphene-sphere.c:301-310, graphene_sphere_distance *)
Definition sphere_distance (s : sphere) (p : point3d) : F :=
  fsqrt (distance_sq (scenter s) (point3d_to_vec3 p)) -. sradius s.
(* src/graphene-sphere.c:322-328, graphene_sphere_get_bounding_box *)
Definition sphere_get_bounding_box (s : sphere) : box :=
  box_expand_scalar (box_init_from_vec3 (Some (scenter s)) (Some (scenter s))) (sradius s).
(* 341-350; [res] is the previous contents of *res, whose radius the code does not write *)
(* src/graphene-sphere.c:341-350, graphene_sphere_translate *)
Definition sphere_translate (s : sphere) (p : point3d) (res : sphere) : sphere :=
  Sp (vec3_add (scenter s) (point3d_to_vec3 p)) (sradius res).
(* src/graphene-sphere.c:352-361, sphere_equal *)
Definition sphere_equal_fn (a b : sphere) : bool :=
  vec3_equal false (Some (scenter a)) (Some (scenter b)) && approx_val (sradius a) (sradius b).
(* src/graphene-sphere.c:374-379, graphene_sphere_equal *)
Definition sphere_equal (same : bool) (a b : option sphere) : bool :=
  pointer_equal same a b sphere_equal_fn.

(** ** triangle: src/graphene-triangle.c *)
Definition p3_or_zero (p : option point3d) : V :=
  match p with Some p => point3d_to_vec3 p | None => vec3_zero end.
(* src/graphene-triangle.c:93-115, graphene_triangle_init_from_point3d *)
Definition triangle_init_from_point3d (a b c : option point3d) : triangle :=
  Tr (p3_or_zero a) (p3_or_zero b) (p3_or_zero c).
(* src/graphene-triangle.c:130-152, graphene_triangle_init_from_vec3 *)
Definition triangle_init_from_vec3 (a b c : option V) : triangle :=
  Tr (or_zero3 a) (or_zero3 b) (or_zero3 c).
(* 169-181; reading past a too short array is undefined behaviour *)
(* src/graphene-triangle.c:169-181, graphene_triangle_init_from_float *)
Definition triangle_init_from_float (a b c : list F) : option triangle :=
  match vec3_init_from_float a, vec3_init_from_float b, vec3_init_from_float c with
  | Some a, Some b, Some c => Some (triangle_init_from_vec3 (Some a) (Some b) (Some c))
  | _, _, _ => None end.
(* src/graphene-triangle.c:198-210, graphene_triangle_get_points *)
Definition triangle_get_points (t : triangle) : point3d * point3d * point3d :=
  (point3d_init_from_vec3 (tr_a t), point3d_init_from_vec3 (tr_b t), point3d_init_from_vec3 (tr_c t)).
(* src/graphene-triangle.c:223-235, graphene_triangle_get_vertices *)
Definition triangle_get_vertices (t : triangle) : V * V * V := (tr_a t, tr_b t, tr_c t).
(* the cross product both get_area and get_normal start from: 252-255, 302-305 *)
Definition triangle_cross (t : triangle) : V :=
  vec3_cross (vec3_subtract (tr_c t) (tr_b t)) (vec3_subtract (tr_a t) (tr_b t)).
(* src/graphene-triangle.c:247-258, graphene_triangle_get_area *)
Definition triangle_get_area (t : triangle) : F := vec3_length (triangle_cross t) *. fhalf.
(* src/graphene-triangle.c:273-284, graphene_triangle_get_midpoint *)
Definition triangle_get_midpoint (t : triangle) : point3d :=
  point3d_init_from_vec3
    (vec3_scale (vec3_add (vec3_add (tr_a t) (tr_b t)) (tr_c t)) (fone /. fthree)).
(* src/graphene-triangle.c:295-312, graphene_triangle_get_normal *)
Definition triangle_get_normal (t : triangle) : V :=
  let tmp := triangle_cross t in
  let length_sq := vec3_dot tmp tmp in
  if length_sq >. fzero then vec3_scale tmp (fone /. fsqrt length_sq) else vec3_zero.
(* src/graphene-triangle.c:323-334, graphene_triangle_get_plane *)
Definition triangle_get_plane (t : triangle) : plane :=
  plane_init_from_points (point3d_init_from_vec3 (tr_a t)) (point3d_init_from_vec3 (tr_b t))
                         (point3d_init_from_vec3 (tr_c t)).
(* src/graphene-triangle.c:345-353, graphene_triangle_get_bounding_box *)
Definition triangle_get_bounding_box (t : triangle) : box :=
  box_expand_vec3 (box_expand_vec3 (box_expand_vec3 box_empty (tr_a t)) (tr_b t)) (tr_c t).
(* 449-488; [None] is the return value false, *res untouched *)
(* src/graphene-triangle.c:449-488, graphene_triangle_get_barycoords *)
Definition triangle_get_barycoords (t : triangle) (p : option point3d) : option V :=
  let pt := match p with Some p => point3d_to_vec3 p | None => vec3_init fzero fzero fzero end in
  let v0 := vec3_subtract (tr_c t) (tr_a t) in
  let v1 := vec3_subtract (tr_b t) (tr_a t) in
  let v2 := vec3_subtract pt (tr_a t) in
  let dot00 := vec3_dot v0 v0 in
  let dot01 := vec3_dot v0 v1 in
  let dot02 := vec3_dot v0 v2 in
  let dot11 := vec3_dot v1 v1 in
  let dot12 := vec3_dot v1 v2 in
  let denom := dot00 *. dot11 -. dot01 *. dot01 in
  if fabs denom <=. feps then None
  else let inv_denom := fone /. denom in
    let u := (dot11 *. dot02 -. dot01 *. dot12) *. inv_denom in
    let v := (dot00 *. dot12 -. dot01 *. dot02) *. inv_denom in
    Some (vec2_init u v).
(* 382-419; the returned boolean and *res *)
(* src/graphene-triangle.c:382-419, graphene_triangle_get_uv *)
Definition triangle_get_uv (t : triangle) (p : option point3d) (uv_a uv_b uv_c : V) : bool * V :=
  let res := vec2_init fzero fzero in
  match triangle_get_barycoords t p with
  | None => (false, res)
  | Some bc =>
      let u := vec2_get_x bc in let v := vec2_get_y bc in
      let bx := fone -. u -. v in
      let res := vec2_add res (vec2_scale uv_a bx) in
      let res := vec2_add res (vec2_scale uv_b v) in
      let res := vec2_add res (vec2_scale uv_c u) in
      (true, res)
  end.
(* src/graphene-triangle.c:501-519, graphene_triangle_contains_point *)
Definition triangle_contains_point (t : triangle) (p : point3d) : bool :=
  match triangle_get_barycoords t (Some p) with
  | None => false
  | Some res => let u := vec2_get_x res in let v := vec2_get_y res in
      (u >=. fzero) && (v >=. fzero) && (u +. v <. fone)
  end.
(* src/graphene-triangle.c:521-531, triangle_equal *)
Definition triangle_equal_fn (a b : triangle) : bool :=
  vec3_equal false (Some (tr_a a)) (Some (tr_a b)) && vec3_equal false (Some (tr_b a)) (Some (tr_b b)) &&
  vec3_equal false (Some (tr_c a)) (Some (tr_c b)).
(* src/graphene-triangle.c:544-549, graphene_triangle_equal *)
Definition triangle_equal (same : bool) (a b : option triangle) : bool :=
  pointer_equal same a b triangle_equal_fn.

(** ** ray: src/graphene-ray.c *)
(* src/graphene-ray.c:101-117, graphene_ray_init *)
Definition ray_init (origin : option point3d) (direction : option V) : ray :=
  Ry (p3_or_zero origin) (match direction with Some d => vec3_normalize d | None => vec3_zero end).
(* src/graphene-ray.c:131-136, graphene_ray_init_from_ray *)
Definition ray_init_from_ray (src : ray) : ray :=
  ray_init_from_vec3 (Some (ray_o src)) (Some (ray_d src)).
(* src/graphene-ray.c:177-182, graphene_ray_get_origin *)
Definition ray_get_origin (r : ray) : point3d := point3d_init_from_vec3 (ray_o r).
(* src/graphene-ray.c:193-198, graphene_ray_get_direction *)
Definition ray_get_direction (r : ray) : V := ray_d r.
(* src/graphene-ray.c:211-222, graphene_ray_get_position_at *)
Definition ray_get_position_at (r : ray) (t : F) : point3d :=
  point3d_init_from_vec3 (vec3_add (vec3_scale (ray_d r) t) (ray_o r)).
(* src/graphene-ray.c:240-267, graphene_ray_get_distance_to_point *)
Definition ray_get_distance_to_point (r : ray) (p : point3d) : F :=
  let point := point3d_to_vec3 p in
  let distance := vec3_dot (vec3_subtract point (ray_o r)) (ray_d r) in
  if distance <. fzero then vec3_length (vec3_subtract (ray_o r) point)
  else vec3_length (vec3_subtract (vec3_add (vec3_scale (ray_d r) distance) (ray_o r)) point).
(* src/graphene-ray.c:283-307, graphene_ray_get_distance_to_plane *)
Definition ray_get_distance_to_plane (r : ray) (p : plane) : F :=
  let denom := vec3_dot (pl_n p) (ray_d r) in
  if fabs denom <. feps then
    if fabs (plane_distance p (point3d_init_from_vec3 (ray_o r))) <. feps then fzero else finf
  else
    let t := fm1 *. (vec3_dot (ray_o r) (pl_n p) +. pl_c p) /. denom in
    if t >=. fzero then t else finf.
(* src/graphene-ray.c:309-318, ray_equal *)
Definition ray_equal_fn (a b : ray) : bool :=
  vec3_equal false (Some (ray_o a)) (Some (ray_o b)) && vec3_equal false (Some (ray_d a)) (Some (ray_d b)).
(* src/graphene-ray.c:331-336, graphene_ray_equal *)
Definition ray_equal (same : bool) (a b : option ray) : bool :=
  pointer_equal same a b ray_equal_fn.
(* src/graphene-ray.c:349-370, graphene_ray_get_closest_point_to_point *)
Definition ray_get_closest_point_to_point (r : ray) (p : point3d) : point3d :=
  let point := point3d_to_vec3 p in
  let distance := vec3_dot (vec3_subtract point (ray_o r)) (ray_d r) in
  point3d_init_from_vec3
    (if distance <. fzero then ray_o r else vec3_add (vec3_scale (ray_d r) distance) (ray_o r)).
(* 385-442: the returned kind and *t_out (t_out non-NULL) *)
(* src/graphene-ray.c:385-442, graphene_ray_intersect_sphere *)
Definition ray_intersect_sphere (r : ray) (s : sphere) : hit * F :=
  let v1 := vec3_subtract (scenter s) (ray_o r) in
  let tca := vec3_dot v1 (ray_d r) in
  let d2 := vec3_dot v1 v1 -. tca *. tca in
  let radius2 := sradius s *. sradius s in
  if d2 >. radius2 then (HitNone, fzero)
  else
    let thc := fsqrt (radius2 -. d2) in
    let t0 := tca -. thc in
    let t1 := tca +. thc in
    if (t0 <. fzero) && (t1 <. fzero) then (HitNone, fzero)
    else if t0 <. fzero then (HitLeave, t1)
    else (HitEnter, t0).
(* src/graphene-ray.c:458-463, graphene_ray_intersects_sphere *)
Definition ray_intersects_sphere (r : ray) (s : sphere) : bool :=
  hit_any (fst (ray_intersect_sphere r s)).
(* 478-570: the returned kind and *t_out (t_out non-NULL) *)
(* src/graphene-ray.c:478-570, graphene_ray_intersect_box *)
Definition ray_intersect_box (r : ray) (b : box) : hit * F :=
  let inv_dir := g_reciprocal (ray_d r) in
  let inv_min := vec3_multiply (vec3_subtract (bmin b) (ray_o r)) inv_dir in
  let inv_max := vec3_multiply (vec3_subtract (bmax b) (ray_o r)) inv_dir in
  let '(tx_min, tx_max) :=
    if vec3_get_x inv_dir >=. fzero then (vec3_get_x inv_min, vec3_get_x inv_max)
    else (vec3_get_x inv_max, vec3_get_x inv_min) in
  let '(ty_min, ty_max) :=
    if vec3_get_y inv_dir >=. fzero then (vec3_get_y inv_min, vec3_get_y inv_max)
    else (vec3_get_y inv_max, vec3_get_y inv_min) in
  if (tx_min >. ty_max) || (ty_min >. tx_max) then (HitNone, fzero)
  else
    let tx_min := if (ty_min >. tx_min) || fisnan tx_min then ty_min else tx_min in
    let tx_max := if (ty_max <. tx_max) || fisnan tx_max then ty_max else tx_max in
    let '(tz_min, tz_max) :=
      if vec3_get_z inv_dir >=. fzero then (vec3_get_z inv_min, vec3_get_z inv_max)
      else (vec3_get_z inv_max, vec3_get_z inv_min) in
    if (tx_min >. tz_max) || (tz_min >. tx_max) then (HitNone, fzero)
    else
      let tx_min := if (tz_min >. tx_min) || fisnan tx_min then tz_min else tx_min in
      let tx_max := if (tz_max <. tx_max) || fisnan tx_max then tz_max else tx_max in
      if tx_max <. fzero then (HitNone, fzero)
      else if tx_min >=. fzero then (HitEnter, tx_min)
      else (HitLeave, tx_max).
(* src/graphene-ray.c:586-591, graphene_ray_intersects_box *)
Definition ray_intersects_box (r : ray) (b : box) : bool := hit_any (fst (ray_intersect_box r b)).
(* 606-691: the returned kind and *t_out; [t_old] is the previous contents of *t_out,
   which the function does not write when it answers NONE *)
(* src/graphene-ray.c:606-691, graphene_ray_intersect_triangle *)
Definition ray_intersect_triangle (r : ray) (t : triangle) (t_old : F) : hit * F :=
  let edge1 := vec3_subtract (tr_b t) (tr_a t) in
  let edge2 := vec3_subtract (tr_c t) (tr_a t) in
  let normal := vec3_cross edge1 edge2 in
  let DdN := vec3_dot (ray_d r) normal in
  if approx_val DdN fzero then (HitNone, t_old)
  else
    let '(kind, sign, DdN) := if DdN >. fzero then (HitLeave, fone, DdN) else (HitEnter, fm1, -. DdN) in
    let diff := vec3_subtract (ray_o r) (tr_a t) in
    let edge2 := vec3_cross diff edge2 in
    let DdQxE2 := sign *. vec3_dot (ray_d r) edge2 in
    if DdQxE2 <. fzero then (HitNone, t_old)
    else
      let edge1 := vec3_cross edge1 diff in
      let DdE1xQ := sign *. vec3_dot (ray_d r) edge1 in
      if DdE1xQ <. fzero then (HitNone, t_old)
      else if DdQxE2 +. DdE1xQ >. DdN then (HitNone, t_old)
      else
        let QdN := -. sign *. vec3_dot diff normal in
        if QdN <. fzero then (HitNone, t_old)
        else (kind, QdN /. DdN).
(* src/graphene-ray.c:707-712, graphene_ray_intersects_triangle *)
Definition ray_intersects_triangle (r : ray) (t : triangle) : bool :=
  hit_any (fst (ray_intersect_triangle r t fzero)).

(** ** frustum: src/graphene-frustum.c *)
Definition frustum_planes (f : frustum) : list plane :=                   (* 204-210 *)
  [fr0 f; fr1 f; fr2 f; fr3 f; fr4 f; fr5 f].
(* src/graphene-frustum.c:100-117, graphene_frustum_init *)
Definition frustum_init (p0 p1 p2 p3 p4 p5 : plane) : frustum := Fr p0 p1 p2 p3 p4 p5.
(* src/graphene-frustum.c:204-210, graphene_frustum_get_planes *)
Definition frustum_get_planes (f : frustum) : list plane := map plane_init_from_plane (frustum_planes f).
(* src/graphene-frustum.c:131-139, graphene_frustum_init_from_frustum *)
Definition frustum_init_from_frustum (src : frustum) : frustum := src.
(* src/graphene-frustum.c:152-192, graphene_frustum_init_from_matrix *)
Definition frustum_init_from_matrix (matrix : mat) : frustum :=
  let m := matrix_transpose matrix in
  let r1 := matrix_get_row m 0 in let r2 := matrix_get_row m 1 in
  let r3 := matrix_get_row m 2 in let r4 := matrix_get_row m 3 in
  let mk := fun t => plane_normalize (plane_init_from_vec4 t) in
  Fr (mk (vec4_subtract r4 r1)) (mk (vec4_add r4 r1))
     (mk (vec4_subtract r4 r2)) (mk (vec4_add r4 r2))
     (mk (vec4_subtract r4 r3)) (mk (vec4_add r4 r3)).
(* src/graphene-frustum.c:224-240, graphene_frustum_contains_point *)
Definition frustum_contains_point (f : frustum) (p : option point3d) : bool :=
  match p with
  | None => false
  | Some p => forallb (fun pl => negb (plane_distance pl p <. fzero)) (frustum_planes f) end.
(* src/graphene-frustum.c:254-271, graphene_frustum_intersects_sphere *)
Definition frustum_intersects_sphere (f : frustum) (s : sphere) : bool :=
  let center := point3d_init_from_vec3 (scenter s) in
  forallb (fun pl => negb (plane_distance pl center <. -. sradius s)) (frustum_planes f).
(* src/graphene-frustum.c:285-320, graphene_frustum_intersects_box *)
Definition frustum_intersects_box (f : frustum) (b : box) : bool :=
  let mn := box_get_min b in let mx := box_get_max b in
  forallb (fun pl =>
    let normal := point3d_init_from_vec3 (pl_n pl) in
    let p0 := P3 (if p3x normal >. fzero then p3x mn else p3x mx)
                 (if p3y normal >. fzero then p3y mn else p3y mx)
                 (if p3z normal >. fzero then p3z mn else p3z mx) in
    let p1 := P3 (if p3x normal >. fzero then p3x mx else p3x mn)
                 (if p3y normal >. fzero then p3y mx else p3y mn)
                 (if p3z normal >. fzero then p3z mx else p3z mn) in
    negb ((plane_distance pl p0 <. fzero) && (plane_distance pl p1 <. fzero)))
  (frustum_planes f).
(* src/graphene-frustum.c:322-335, frustum_equal *)
Definition frustum_equal_fn (a b : frustum) : bool :=
  forallb (fun pq => plane_equal false (Some (fst pq)) (Some (snd pq)))
          (combine (frustum_planes a) (frustum_planes b)).
(* src/graphene-frustum.c:348-353, graphene_frustum_equal *)
Definition frustum_equal (same : bool) (a b : option frustum) : bool :=
  pointer_equal same a b frustum_equal_fn.

(** ** quad: src/graphene-quad.c *)
(* src/graphene-quad.c:89-102, graphene_quad_init *)
Definition quad_init (p1 p2 p3 p4 : point) : quad := Qd p1 p2 p3 p4.
(* src/graphene-quad.c:116-126, graphene_quad_init_from_rect *)
Definition quad_init_from_rect (r : rect) : quad :=
  Qd (rect_get_top_left r) (rect_get_top_right r) (rect_get_bottom_right r) (rect_get_bottom_left r).
(* 139-146; fewer than four points is undefined behaviour *)
(* src/graphene-quad.c:139-146, graphene_quad_init_from_points *)
Definition quad_init_from_points (l : list point) : option quad :=
  match l with a :: b :: c :: d :: _ => Some (Qd a b c d) | _ => None end.
(* src/graphene-line-segment-private.h:46-61 *)
Definition points_on_same_side (s_start s_end a b : point) : bool :=
  let delta_x := px s_end -. px s_start in
  let delta_y := py s_end -. py s_start in
  let one := delta_x *. (py a -. py s_start) -. delta_y *. (px a -. px s_start) in
  let two := delta_x *. (py b -. py s_start) -. delta_y *. (px b -. px s_start) in
  ((one >=. fzero) && (two >=. fzero)) || ((one <=. fzero) && (two <=. fzero)).
(* src/graphene-quad.c:159-174, graphene_quad_contains *)
Definition quad_contains (q : quad) (p : point) : bool :=
  points_on_same_side (q0 q) (q1 q) p (q2 q) &&
  points_on_same_side (q1 q) (q2 q) p (q3 q) &&
  points_on_same_side (q2 q) (q3 q) p (q0 q) &&
  points_on_same_side (q3 q) (q0 q) p (q1 q).
(* src/graphene-quad.c:185-203, graphene_quad_bounds *)
Definition quad_bounds (q : quad) : rect := points_bounds (q0 q) (q1 q) (q2 q) (q3 q).
(* 216-221; an index above 3 is an out of bounds access *)
(* src/graphene-quad.c:216-221, graphene_quad_get_point *)
Definition quad_get_point (q : quad) (i : nat) : option point :=
  match i with 0 => Some (q0 q) | 1 => Some (q1 q) | 2 => Some (q2 q) | 3 => Some (q3 q) | _ => None end%nat.
End Geo.
