(** * Rect: graphene_point_t, graphene_size_t, graphene_point3d_t, graphene_rect_t.

    Models src/graphene-point.c, src/graphene-size.c, src/graphene-point3d.c and
    src/graphene-rect.c.  Output parameters become returned values; the functions
    that have an in-place variant ([graphene_rect_offset] ...) are the same code
    with res == r (see Alias.v for the aliasing question). *)

From Coq Require Import ZArith Bool List.
From Verif Require Import Num Simd Vec.
Import ListNotations.
Local Open Scope f_scope.

Record point (F : Type) := Pt { px : F; py : F }.                 (* include/graphene-point.h *)
Record size (F : Type) := Sz { swidth : F; sheight : F }.         (* include/graphene-size.h *)
Record point3d (F : Type) := P3 { p3x : F; p3y : F; p3z : F }.    (* include/graphene-point3d.h *)
Record rect (F : Type) := Rc { rorigin : point F; rsize : size F }. (* include/graphene-rect.h *)
Arguments Pt {F}. Arguments px {F}. Arguments py {F}.
Arguments Sz {F}. Arguments swidth {F}. Arguments sheight {F}.
Arguments P3 {F}. Arguments p3x {F}. Arguments p3y {F}. Arguments p3z {F}.
Arguments Rc {F}. Arguments rorigin {F}. Arguments rsize {F}.

Section Lerp.
Context {F D : Type} {O : FOps F} {DD : DOps F D}.
(* src/graphene-private.h:122-126, graphene_flerpf: computed in double *)
(* src/graphene-private.h:122-126, graphene_flerpf *)
Definition flerpf (a b : F) (factor : D) : F :=
  d2f (((fone -. factor) *. f2d a) +. (factor *. f2d b)).
End Lerp.

Section Geom.
Context {F : Type} {O : FOps F} {B : Backend F}.
Notation V := (simd4f F).
Notation point := (point F). Notation size := (size F).
Notation point3d := (point3d F). Notation rect := (rect F).

(** ** point: src/graphene-point.c *)
(* src/graphene-point.c:111-120, graphene_point_init *)
Definition point_init (x y : F) : point := Pt x y.
(* src/graphene-point.c:133-140, graphene_point_init_from_point *)
Definition point_init_from_point (src : point) : point := src.
(* src/graphene-point.c:153-161, graphene_point_init_from_vec2 *)
Definition point_init_from_vec2 (src : V) : point := Pt (g_get_x src) (g_get_y src).
(* src/graphene-point.c:318-323, graphene_point_to_vec2 *)
Definition point_to_vec2 (p : point) : V := g_init (px p) (py p) fzero fzero.
(* src/graphene-point.c:336-340, graphene_point_zero *)
Definition point_zero : point := Pt fzero fzero.

(* the subtraction in src/graphene-point.c:207-229, 243-256 and near/equal *)
Definition point_diff (a b : point) : V :=
  g_sub (g_init (px a) (py a) fzero fzero) (g_init (px b) (py b) fzero fzero).
(* 269-285; [same] is a == b *)
(* src/graphene-point.c:269-283, graphene_point_near *)
Definition point_near (same : bool) (a b : point) (epsilon : F) : bool :=
  if same then true
  else let v_res := point_diff a b in
    (fabs (g_get_x v_res) <. epsilon) && (fabs (g_get_y v_res) <. epsilon).
(* src/graphene-point.c:189-194, graphene_point_equal *)
Definition point_equal (same : bool) (p1 p2 : option point) : bool :=
  pointer_equal same p1 p2 (fun a b => point_near false a b feps).
(* 209-230; [d_x], [d_y] are the previous contents of the optional out parameters *)
(* src/graphene-point.c:209-229, graphene_point_distance *)
Definition point_distance (same : bool) (a b : point) (d_x d_y : option F)
  : F * option F * option F :=
  if same then (fzero, d_x, d_y)
  else let v_res := point_diff a b in
    (g_get_x (g_length2 v_res),
     match d_x with Some _ => Some (fabs (g_get_x v_res)) | None => None end,
     match d_y with Some _ => Some (fabs (g_get_y v_res)) | None => None end).
(* src/graphene-point.c:242-254, graphene_point_distance_squared *)
Definition point_distance_squared (same : bool) (a b : point) : F :=
  if same then fzero
  else let v_res := point_diff a b in g_get_x (g_dot2 v_res v_res).
(* src/graphene-point.c:298-306, graphene_point_interpolate *)
Definition point_interpolate {D} {DD : DOps F D} (a b : point) (factor : D) : point :=
  Pt (flerpf (px a) (px b) factor) (flerpf (py a) (py b) factor).

(** ** size: src/graphene-size.c *)
(* src/graphene-size.c:83-92, graphene_size_init *)
Definition size_init (w h : F) : size := Sz w h.
(* src/graphene-size.c:106-113, graphene_size_init_from_size *)
Definition size_init_from_size (src : size) : size := src.
(* src/graphene-size.c:137-142, graphene_size_equal *)
Definition size_equal (same : bool) (p1 p2 : option size) : bool :=
  pointer_equal same p1 p2 (fun a b =>
    approx_val (swidth a) (swidth b) && approx_val (sheight a) (sheight b)).
(* src/graphene-size.c:154-163, graphene_size_scale *)
Definition size_scale (s : size) (factor : F) : size :=
  Sz (swidth s *. factor) (sheight s *. factor).
(* src/graphene-size.c:177-185, graphene_size_interpolate *)
Definition size_interpolate {D} {DD : DOps F D} (a b : size) (factor : D) : size :=
  Sz (flerpf (swidth a) (swidth b) factor) (flerpf (sheight a) (sheight b) factor).
(* src/graphene-size.c:199-203, graphene_size_zero *)
Definition size_zero : size := Sz fzero fzero.

(** ** point3d: src/graphene-point3d.c *)
(* src/graphene-point3d.c:91-102, graphene_point3d_init *)
Definition point3d_init (x y z : F) : point3d := P3 x y z.
(* src/graphene-point3d.c:137-144, graphene_point3d_init_from_point *)
Definition point3d_init_from_point (src : point3d) : point3d := src.
(* src/graphene-point3d.c:104-123, graphene_point3d_init_from_simd4f *)
Definition point3d_init_from_simd4f (v : V) : point3d := P3 (vx v) (vy v) (vz v).
(* src/graphene-point3d.c:158-163, graphene_point3d_init_from_vec3 *)
Definition point3d_init_from_vec3 (v : V) : point3d := point3d_init_from_simd4f v.
(* src/graphene-point3d.c:175-180, graphene_point3d_to_vec3 *)
Definition point3d_to_vec3 (p : point3d) : V := g_init (p3x p) (p3y p) (p3z p) fzero.
(* the load that opens src/graphene-point3d.c:251-262, 275-285, 338-348 *)
Definition point3d_simd (p : point3d) : V := g_init (p3x p) (p3y p) (p3z p) fzero.
(* src/graphene-point3d.c:223-238, graphene_point3d_near *)
Definition point3d_near (same : bool) (a b : point3d) (epsilon : F) : bool :=
  if same then true
  else let v_res := g_sub (point3d_simd a) (point3d_simd b) in
    (fabs (g_get_x v_res) <. epsilon) && (fabs (g_get_y v_res) <. epsilon) &&
    (fabs (g_get_z v_res) <. epsilon).
(* src/graphene-point3d.c:203-208, graphene_point3d_equal *)
Definition point3d_equal (same : bool) (p1 p2 : option point3d) : bool :=
  pointer_equal same p1 p2 (fun a b => point3d_near false a b feps).
(* src/graphene-point3d.c:251-262, graphene_point3d_scale *)
Definition point3d_scale (p : point3d) (factor : F) : point3d :=
  point3d_init_from_simd4f (g_mul (point3d_simd p) (g_splat factor)).
(* src/graphene-point3d.c:275-285, graphene_point3d_cross *)
Definition point3d_cross (a b : point3d) : point3d :=
  point3d_init_from_simd4f (g_cross3 (point3d_simd a) (point3d_simd b)).
(* src/graphene-point3d.c:298-306, graphene_point3d_dot *)
Definition point3d_dot (a b : point3d) : F :=
  g_dot3_scalar (point3d_simd a) (point3d_simd b).
(* src/graphene-point3d.c:319-325, graphene_point3d_length *)
Definition point3d_length (p : point3d) : F := g_get_x (g_length3 (point3d_simd p)).
(* src/graphene-point3d.c:338-348, graphene_point3d_normalize *)
Definition point3d_normalize (p : point3d) : point3d :=
  point3d_init_from_simd4f (g_normalize3 (point3d_simd p)).
(* src/graphene-point3d.c:363-383, graphene_point3d_distance *)
Definition point3d_distance (a b : point3d) : F * V :=                    (* 363-383; delta <> NULL *)
  let res := vec3_subtract (point3d_to_vec3 a) (point3d_to_vec3 b) in
  (vec3_length res,
   vec3_init (fabs (vec3_get_x res)) (fabs (vec3_get_y res)) (fabs (vec3_get_z res))).
(* src/graphene-point3d.c:398-407, graphene_point3d_interpolate *)
Definition point3d_interpolate {D} {DD : DOps F D} (a b : point3d) (factor : D) : point3d :=
  P3 (flerpf (p3x a) (p3x b) factor) (flerpf (p3y a) (p3y b) factor) (flerpf (p3z a) (p3z b) factor).
(* src/graphene-point3d.c:428-442, graphene_point3d_normalize_viewport *)
Definition point3d_normalize_viewport (p : point3d) (viewport : rect) (z_near z_far : F) : point3d :=
  let x := (p3x p -. px (rorigin viewport)) /. swidth (rsize viewport) in
  let y := (p3y p -. py (rorigin viewport)) /. sheight (rsize viewport) in
  let z := (p3z p -. z_near) /. (z_far -. z_near) in
  P3 (cCLAMP (x *. ftwo -. fone) fm1 fone)
     (cCLAMP (y *. ftwo -. fone) fm1 fone)
     (cCLAMP (z *. ftwo -. fone) fm1 fone).
(* src/graphene-point3d.c:455-459, graphene_point3d_zero *)
Definition point3d_zero : point3d := P3 fzero fzero fzero.

(** ** rect: src/graphene-rect.c *)
(* the four fields, in order *)
Definition mkrect (x y w h : F) : rect := Rc (Pt x y) (Sz w h).
(* field access r->origin.x *)
Definition rx (r : rect) : F := px (rorigin r).
(* field access r->origin.y *)
Definition ry (r : rect) : F := py (rorigin r).
(* field access r->size.width *)
Definition rw (r : rect) : F := swidth (rsize r).
(* field access r->size.height *)
Definition rh (r : rect) : F := sheight (rsize r).

(* src/graphene-rect.c:209-215, graphene_rect_normalize *)
Definition rect_normalize (r : rect) : rect :=
  let r1 := if rw r <. fzero
            then let s := fabs (rw r) in mkrect (rx r -. s) (ry r) s (rh r) else r in
  if rh r1 <. fzero
  then let s := fabs (rh r1) in mkrect (rx r1) (ry r1 -. s) (rw r1) s else r1.

(* src/graphene-rect.c:121-134, graphene_rect_init *)
Definition rect_init (x y w h : F) : rect := rect_normalize (mkrect x y w h).
(* src/graphene-rect.c:150-159, graphene_rect_init_from_rect *)
Definition rect_init_from_rect (src : rect) : rect := rect_normalize src.
(* src/graphene-rect.c:161-175, rect_equal *)
Definition rect_equal_fn (a b : rect) : bool :=
  let r_a := rect_normalize a in let r_b := rect_normalize b in
  point_equal false (Some (rorigin r_a)) (Some (rorigin r_b)) &&
  size_equal false (Some (rsize r_a)) (Some (rsize r_b)).
(* src/graphene-rect.c:188-193, graphene_rect_equal *)
Definition rect_equal (same : bool) (p1 p2 : option rect) : bool :=
  pointer_equal same p1 p2 rect_equal_fn.
(* src/graphene-rect.c:250-262, graphene_rect_get_center *)
Definition rect_get_center (r : rect) : point :=
  let rr := rect_normalize r in
  Pt (rx rr +. rw rr /. ftwo) (ry rr +. rh rr /. ftwo).
(* src/graphene-rect.c:273-283, graphene_rect_get_top_left *)
Definition rect_get_top_left (r : rect) : point := rorigin (rect_normalize r).
(* src/graphene-rect.c:294-304, graphene_rect_get_top_right *)
Definition rect_get_top_right (r : rect) : point :=
  let rr := rect_normalize r in Pt (rx rr +. rw rr) (ry rr).
(* src/graphene-rect.c:315-325, graphene_rect_get_bottom_left *)
Definition rect_get_bottom_left (r : rect) : point :=
  let rr := rect_normalize r in Pt (rx rr) (ry rr +. rh rr).
(* src/graphene-rect.c:336-348, graphene_rect_get_bottom_right *)
Definition rect_get_bottom_right (r : rect) : point :=
  let rr := rect_normalize r in Pt (rx rr +. rw rr) (ry rr +. rh rr).
(* src/graphene-rect.c:360-372, graphene_rect_get_vertices *)
Definition rect_get_vertices (r : rect) : list V :=
  let rr := rect_normalize r in
  [ vec2_init (rx rr) (ry rr);
    vec2_init (rx rr +. rw rr) (ry rr);
    vec2_init (rx rr +. rw rr) (ry rr +. rh rr);
    vec2_init (rx rr) (ry rr +. rh rr) ].
Definition rect_get_x (r : rect) : F := rx (rect_normalize r).            (* 374-397 *)
Definition rect_get_y (r : rect) : F := ry (rect_normalize r).            (* 399-410 *)
Definition rect_get_width (r : rect) : F := rw (rect_normalize r).        (* 412-422 *)
Definition rect_get_height (r : rect) : F := rh (rect_normalize r).       (* 424-434 *)
Definition rect_get_area (r : rect) : F :=                                (* 448-456 *)
  let rr := rect_normalize r in rw rr *. rh rr.
(* src/graphene-rect.c:472-490, graphene_rect_union *)
Definition rect_union (a b : rect) : rect :=
  let ra := rect_normalize a in let rb := rect_normalize b in
  let ox := cMIN (rx ra) (rx rb) in
  let oy := cMIN (ry ra) (ry rb) in
  mkrect ox oy
    (cMAX (rx ra +. rw ra) (rx rb +. rw rb) -. ox)
    (cMAX (ry ra +. rh ra) (ry rb +. rh rb) -. oy).
(* 512-544; the returned boolean and the contents of *res *)
(* src/graphene-rect.c:512-543, graphene_rect_intersection *)
Definition rect_intersection (a b : rect) : bool * rect :=
  let ra := rect_normalize a in let rb := rect_normalize b in
  let x_1 := cMAX (rx ra) (rx rb) in
  let y_1 := cMAX (ry ra) (ry rb) in
  let x_2 := cMIN (rx ra +. rw ra) (rx rb +. rw rb) in
  let y_2 := cMIN (ry ra +. rh ra) (ry rb +. rh rb) in
  if (x_1 >=. x_2) || (y_1 >=. y_2)
  then (false, rect_init fzero fzero fzero fzero)
  else (true, rect_init x_1 y_1 (x_2 -. x_1) (y_2 -. y_1)).
(* src/graphene-rect.c:556-569, graphene_rect_contains_point *)
Definition rect_contains_point (r : rect) (p : point) : bool :=
  let rr := rect_normalize r in
  (px p >=. rx rr) && (py p >=. ry rr) &&
  (px p <=. rx rr +. rw rr) && (py p <=. ry rr +. rh rr).
(* src/graphene-rect.c:583-592, graphene_rect_contains_rect *)
Definition rect_contains_rect (a b : rect) : bool :=
  rect_equal false (Some a) (Some (rect_union a b)).
(* src/graphene-rect.c:608-616, graphene_rect_offset *)
Definition rect_offset (r : rect) (d_x d_y : F) : rect :=
  let res := rect_normalize r in
  mkrect (rx res +. d_x) (ry res +. d_y) (rw res) (rh res).
(* src/graphene-rect.c:669-677, graphene_rect_inset *)
Definition rect_inset (r : rect) (d_x d_y : F) : rect :=
  let res := rect_normalize r in
  let ox := rx res +. d_x in
  let oy := ry res +. d_y in
  let w1 := if d_x >=. fzero then rw res -. d_x *. ftwo else rw res +. d_x *. (-. ftwo) in
  let h1 := if d_y >=. fzero then rh res -. d_y *. ftwo else rh res +. d_y *. (-. ftwo) in
  let w2 := if w1 <. fzero then fzero else w1 in
  let h2 := if h1 <. fzero then fzero else h1 in
  mkrect ox oy w2 h2.
(* src/graphene-rect.c:773-784, graphene_rect_round *)
Definition rect_round (r : rect) : rect :=
  let res := rect_normalize r in
  mkrect (ffloor (rx res)) (ffloor (ry res)) (fceil (rw res)) (fceil (rh res)).
(* src/graphene-rect.c:745-751, graphene_rect_round_to_pixel: rounds in place *)
Definition rect_round_to_pixel (r : rect) : rect := rect_round r.
(* src/graphene-rect.c:816-832, graphene_rect_round_extents *)
Definition rect_round_extents (r : rect) : rect :=
  let res := rect_normalize r in
  let x2 := rx res +. rw res in
  let y2 := ry res +. rh res in
  let ox := ffloor (rx res) in
  let oy := ffloor (ry res) in
  mkrect ox oy (fceil x2 -. ox) (fceil y2 -. oy).
(* src/graphene-rect.c:844-855, graphene_rect_expand *)
Definition rect_expand (r : rect) (p : point) : rect :=
  rect_normalize (rect_union r (rect_init (px p) (py p) fzero fzero)).
(* src/graphene-rect.c:870-888, graphene_rect_interpolate *)
Definition rect_interpolate {D} {DD : DOps F D} (a b : rect) (factor : D) : rect :=
  let ra := rect_normalize a in let rb := rect_normalize b in
  mkrect (flerpf (rx ra) (rx rb) factor) (flerpf (ry ra) (ry rb) factor)
         (flerpf (rw ra) (rw rb) factor) (flerpf (rh ra) (rh rb) factor).
(* src/graphene-rect.c:902-906, graphene_rect_zero *)
Definition rect_zero : rect := mkrect fzero fzero fzero fzero.
(* src/graphene-rect.c:921-935, graphene_rect_scale *)
Definition rect_scale (r : rect) (s_h s_v : F) : rect :=
  let res := rect_normalize r in
  rect_normalize (mkrect (rx res *. s_h) (ry res *. s_v) (rw res *. s_h) (rh res *. s_v)).
End Geom.
