(** * Box: graphene_box_t (3D) and graphene_box2d_t.

    Models src/graphene-box.c, src/graphene-box2d.c and the inline in
    include/graphene-box2d.h. *)

From Coq Require Import ZArith Bool List.
From Verif Require Import Num Simd Vec Rect.
Import ListNotations.
Local Open Scope f_scope.

(* include/graphene-box.h: two vec3, each a four-lane vector *)
Record box (F : Type) := Bx { bmin : simd4f F; bmax : simd4f F }.
Arguments Bx {F}. Arguments bmin {F}. Arguments bmax {F}.
(* graphene_sphere_t, include/graphene-sphere.h *)
Record sphere (F : Type) := Sp { scenter : simd4f F; sradius : F }.
Arguments Sp {F}. Arguments scenter {F}. Arguments sradius {F}.

Section Box.
Context {F : Type} {O : FOps F} {B : Backend F}.
Notation V := (simd4f F). Notation box := (box F).
Notation point := (point F). Notation point3d := (point3d F). Notation rect := (rect F).

(* src/graphene-box.c:435, isinf (x) && !signbit (x) *)
Definition is_pinf (x : F) : bool := fisinf x && negb (fsignbit x).
(* src/graphene-box.c:439, isinf (x) && signbit (x) *)
Definition is_ninf (x : F) : bool := fisinf x && fsignbit x.

(** ** constants: contents src/graphene-box.c:737-757, accessors below *)
(* src/graphene-box.c:827-833, graphene_box_zero *)
Definition box_zero : box := Bx g_init_zero g_init_zero.
(* src/graphene-box.c:847-853, graphene_box_one *)
Definition box_one : box := Bx g_init_zero (g_init fone fone fone fzero).
(* src/graphene-box.c:867-873, graphene_box_minus_one *)
Definition box_minus_one : box := Bx (g_init fm1 fm1 fm1 fzero) g_init_zero.
(* src/graphene-box.c:887-893, graphene_box_one_minus_one *)
Definition box_one_minus_one : box := Bx (g_init fm1 fm1 fm1 fzero) (g_init fone fone fone fzero).
(* src/graphene-box.c:906-912, graphene_box_infinite *)
Definition box_infinite : box := Bx (g_init fninf fninf fninf fzero) (g_init finf finf finf fzero).
(* src/graphene-box.c:925-931, graphene_box_empty *)
Definition box_empty : box := Bx (g_init finf finf finf fzero) (g_init fninf fninf fninf fzero).

(** ** construction *)
(* src/graphene-box.c:97-113, graphene_box_init *)
Definition box_init (mn mx : option point3d) : box :=
  Bx (match mn with Some p => point3d_to_vec3 p | None => vec3_zero end)
     (match mx with Some p => point3d_to_vec3 p | None => vec3_zero end).
(* src/graphene-box.c:190-198, graphene_box_init_from_box *)
Definition box_init_from_box (src : box) : box := src.
(* src/graphene-box.c:213-229, graphene_box_init_from_vec3 *)
Definition box_init_from_vec3 (mn mx : option V) : box :=
  Bx (match mn with Some v => v | None => vec3_zero end)
     (match mx with Some v => v | None => vec3_zero end).
(* src/graphene-box.c:231-240, graphene_box_init_from_simd4f *)
Definition box_init_from_simd4f (mn mx : V) : box := Bx mn mx.
(* src/graphene-box.c:242-249, graphene_box_expand_simd4f *)
Definition box_expand_simd4f (b : box) (v : V) : box :=
  Bx (g_min (bmin b) v) (g_max (bmax b) v).
(* src/graphene-box.c:262-268, graphene_box_expand_vec3 *)
Definition box_expand_vec3 (b : box) (v : V) : box := box_expand_simd4f b v.
(* src/graphene-box.c:280-288, graphene_box_expand *)
Definition box_expand (b : box) (p : point3d) : box :=
  box_expand_simd4f b (g_init (p3x p) (p3y p) (p3z p) fzero).
(* src/graphene-box.c:131-147, graphene_box_init_from_points *)
Definition box_init_from_points (pts : list point3d) : box :=
  fold_left (fun b p => box_expand_vec3 b (point3d_to_vec3 p)) pts box_empty.
(* src/graphene-box.c:165-176, graphene_box_init_from_vectors *)
Definition box_init_from_vectors (vs : list V) : box :=
  fold_left box_expand_vec3 vs box_empty.
(* src/graphene-box.c:303-313, graphene_box_expand_scalar *)
Definition box_expand_scalar (b : box) (scalar : F) : box :=
  Bx (g_add (bmin b) (g_splat (scalar *. fm1))) (g_add (bmax b) (g_splat scalar)).

(** ** set operations *)
(* src/graphene-box.c:325-332, graphene_box_union *)
Definition box_union (a b : box) : box :=
  Bx (g_min (bmin a) (bmin b)) (g_max (bmax a) (bmax b)).
(* src/graphene-box.c:349-371, graphene_box_intersection *)
Definition box_intersection (a b : box) : bool * box :=
  let mn := g_max (bmin a) (bmin b) in
  let mx := g_min (bmax a) (bmax b) in
  if negb (g_cmp_le mn mx) then (false, box_empty)
  else (true, box_init_from_simd4f mn mx).

(** ** queries *)
(* src/graphene-box.c:383-389, graphene_box_get_width *)
Definition box_get_width (b : box) : F := fabs (g_get_x (g_sub (bmax b) (bmin b))).
(* src/graphene-box.c:401-407, graphene_box_get_height *)
Definition box_get_height (b : box) : F := fabs (g_get_y (g_sub (bmax b) (bmin b))).
(* src/graphene-box.c:419-425, graphene_box_get_depth *)
Definition box_get_depth (b : box) : F := fabs (g_get_z (g_sub (bmax b) (bmin b))).
(* src/graphene-box.c:427-444, graphene_box_is_empty *)
Definition box_is_empty (b : box) : bool :=
  (is_pinf (vx (bmin b)) && is_pinf (vy (bmin b)) && is_pinf (vz (bmin b))) &&
  (is_ninf (vx (bmax b)) && is_ninf (vy (bmax b)) && is_ninf (vz (bmax b))).
(* src/graphene-box.c:446-463, graphene_box_is_infinity *)
Definition box_is_infinity (b : box) : bool :=
  (is_ninf (vx (bmin b)) && is_ninf (vy (bmin b)) && is_ninf (vz (bmin b))) &&
  (is_pinf (vx (bmax b)) && is_pinf (vy (bmax b)) && is_pinf (vz (bmax b))).
(* src/graphene-box.c:475-485, graphene_box_get_size *)
Definition box_get_size (b : box) : V :=
  if box_is_empty b then g_init_zero
  else if box_is_infinity b then g_init finf finf finf fzero
  else g_sub (bmax b) (bmin b).
(* src/graphene-box.c:497-513, graphene_box_get_center *)
Definition box_get_center (b : box) : point3d :=
  if box_is_empty b || box_is_infinity b then P3 fzero fzero fzero
  else point3d_init_from_vec3 (vec3_scale (vec3_add (bmin b) (bmax b)) fhalf).
(* src/graphene-box.c:547-552, graphene_box_get_min *)
Definition box_get_min (b : box) : point3d := point3d_init_from_vec3 (bmin b).
(* src/graphene-box.c:564-569, graphene_box_get_max *)
Definition box_get_max (b : box) : point3d := point3d_init_from_vec3 (bmax b).
(* src/graphene-box.c:526-535, graphene_box_get_minmax; [mn], [mx] are the previous
   contents of the optional out parameters, None for NULL *)
Definition box_get_minmax (b : box) (mn mx : option point3d) : option point3d * option point3d :=
  (match mn with Some _ => Some (point3d_init_from_vec3 (bmin b)) | None => None end,
   match mx with Some _ => Some (point3d_init_from_vec3 (bmax b)) | None => None end).
(* src/graphene-box.c:581-598, graphene_box_get_vertices *)
Definition box_get_vertices (b : box) : list V :=
  let mn := box_get_min b in let mx := box_get_max b in
  [ vec3_init (p3x mn) (p3y mn) (p3z mn);
    vec3_init (p3x mn) (p3y mn) (p3z mx);
    vec3_init (p3x mn) (p3y mx) (p3z mn);
    vec3_init (p3x mn) (p3y mx) (p3z mx);
    vec3_init (p3x mx) (p3y mn) (p3z mn);
    vec3_init (p3x mx) (p3y mn) (p3z mx);
    vec3_init (p3x mx) (p3y mx) (p3z mn);
    vec3_init (p3x mx) (p3y mx) (p3z mx) ].
(* src/graphene-box.c:611-628, graphene_box_contains_point *)
Definition box_contains_point (b : box) (p : point3d) : bool :=
  if box_is_empty b then false
  else if box_is_infinity b then true
  else let v := g_init (p3x p) (p3y p) (p3z p) fzero in
    if g_cmp_ge v (bmin b) && g_cmp_le v (bmax b) then true else false.
(* src/graphene-box.c:642-658, graphene_box_contains_box *)
Definition box_contains_box (a b : box) : bool :=
  if box_is_empty a || box_is_infinity b then false
  else if box_is_infinity a || box_is_empty b then true
  else if g_cmp_ge (bmin b) (bmin a) && g_cmp_le (bmax b) (bmax a) then true else false.
(* src/graphene-box.c:660-679; src/graphene-box2d.c:865-883, box_equal *)
Definition box_equal_fn (a b : box) : bool :=
  if box_is_empty a && box_is_empty b then true
  else if box_is_empty a || box_is_empty b then false
  else if box_is_infinity a && box_is_infinity b then true
  else if box_is_infinity a || box_is_infinity b then false
  else vec3_equal false (Some (bmin a)) (Some (bmin b)) &&
       vec3_equal false (Some (bmax a)) (Some (bmax b)).
(* src/graphene-box.c:692-697, graphene_box_equal *)
Definition box_equal (same : bool) (p1 p2 : option box) : bool :=
  pointer_equal same p1 p2 box_equal_fn.
(* src/graphene-box.c:709-722, graphene_box_get_bounding_sphere *)
Definition box_get_bounding_sphere (b : box) : sphere F :=                (* 709-722; sphere_init: graphene-sphere.c *)
  let center := box_get_center b in
  let size := box_get_size b in
  let radius := vec3_length size *. fhalf in
  Sp (point3d_to_vec3 center) radius.
End Box.

(** ** graphene_box2d_t: one vec4 holding (min_x, min_y, max_x, max_y) *)
Section Box2d.
Context {F : Type} {O : FOps F} {B : Backend F}.
Notation V := (simd4f F).
Notation point := (point F). Notation rect := (rect F).
(* include/graphene-box2d.h:29-33: minmax = (min.x, min.y, max.x, max.y) *)
Definition box2d := simd4f F.
Notation zero4 := (@g_init_zero F O).

(* src/graphene-box2d.c:1000-1006, graphene_box2d_zero *)
Definition box2d_zero : box2d := g_init_zero.
(* src/graphene-box2d.c:1020-1026, graphene_box2d_one *)
Definition box2d_one : box2d := g_init fzero fzero fone fone.
(* src/graphene-box2d.c:1040-1046, graphene_box2d_minus_one *)
Definition box2d_minus_one : box2d := g_init fm1 fm1 fzero fzero.
(* src/graphene-box2d.c:1060-1066, graphene_box2d_one_minus_one *)
Definition box2d_one_minus_one : box2d := g_init fm1 fm1 fone fone.
(* src/graphene-box2d.c:1079-1085, graphene_box2d_infinite *)
Definition box2d_infinite : box2d := g_init fninf fninf finf finf.
(* src/graphene-box2d.c:1098-1104, graphene_box2d_empty *)
Definition box2d_empty : box2d := g_init finf finf fninf fninf.

(* the recurring pair of statements [merge_low (minmax, zero)], [merge_high (minmax, zero)] *)
Definition box2d_min_v (b : box2d) : V := g_merge_low b zero4.
(* src/graphene-box2d.c: graphene_simd4f_merge_high (minmax, zero), as used by the functions below *)
Definition box2d_max_v (b : box2d) : V := g_merge_high b zero4.

(* src/graphene-box2d.c:81-92, graphene_box2d_init *)
Definition box2d_init (mn mx : option point) : box2d :=
  vec4_init (match mn with Some p => px p | None => fzero end)
            (match mn with Some p => py p | None => fzero end)
            (match mx with Some p => px p | None => fzero end)
            (match mx with Some p => py p | None => fzero end).
(* src/graphene-box2d.c:178-186, graphene_box2d_init_from_simd4f *)
Definition box2d_init_from_simd4f (mn mx : V) : box2d := g_merge_low mn mx.
(* src/graphene-box2d.c:201-209, graphene_box2d_init_from_vec2 *)
Definition box2d_init_from_vec2 (mn mx : option V) : box2d :=
  box2d_init_from_simd4f (match mn with Some v => v | None => zero4 end)
                         (match mx with Some v => v | None => zero4 end).
(* src/graphene-box2d.c:223-234, graphene_box2d_init_from_rect *)
Definition box2d_init_from_rect (src : rect) : box2d :=
  g_init (rx src) (ry src) (rx src +. rw src) (ry src +. rh src).
(* src/graphene-box2d.c:236-250, graphene_box2d_expand_simd4f *)
Definition box2d_expand_simd4f (b : box2d) (v : V) : box2d :=
  box2d_init_from_simd4f (g_min (box2d_min_v b) v) (g_max (box2d_max_v b) v).
(* src/graphene-box2d.c:263-269, graphene_box2d_expand_vec2 *)
Definition box2d_expand_vec2 (b : box2d) (v : V) : box2d := box2d_expand_simd4f b v.
(* src/graphene-box2d.c:281-289, graphene_box2d_expand *)
Definition box2d_expand (b : box2d) (p : point) : box2d :=
  box2d_expand_simd4f b (g_init (px p) (py p) fzero fzero).
(* src/graphene-box2d.c:110-126, graphene_box2d_init_from_points *)
Definition box2d_init_from_points (pts : list point) : box2d :=
  fold_left (fun b p => box2d_expand_vec2 b (point_to_vec2 p)) pts box2d_empty.
(* src/graphene-box2d.c:144-155, graphene_box2d_init_from_vectors *)
Definition box2d_init_from_vectors (vs : list V) : box2d :=
  fold_left box2d_expand_vec2 vs box2d_empty.
(* src/graphene-box2d.c:304-320, graphene_box2d_expand_scalar *)
Definition box2d_expand_scalar (b : box2d) (scalar : F) : box2d :=
  box2d_init_from_simd4f (g_add (box2d_min_v b) (g_splat (scalar *. fm1)))
                         (g_add (box2d_max_v b) (g_splat scalar)).
(* src/graphene-box2d.c:337-362, graphene_box2d_scale_offset *)
Definition box2d_scale_offset (b : box2d) (scale : option V) (offset : option point) : box2d :=
  let scale_full := match scale with
    | Some s => g_add s (g_shuffle_zwxy s)
    | None => g_init fone fone fone fone end in
  let offset_full := match offset with
    | Some p => g_init (px p) (py p) (px p) (py p)
    | None => zero4 end in
  g_madd b scale_full offset_full.
(* src/graphene-box2d.c:382-387, graphene_box2d_to_float *)
Definition box2d_to_float (b : box2d) (dst : list F) := g_dup_4f b dst.
(* src/graphene-box2d.c:688-693, graphene_box2d_get_min *)
Definition box2d_get_min (b : box2d) : point := Pt (vx (box2d_min_v b)) (vy (box2d_min_v b)).
(* src/graphene-box2d.c:705-710, graphene_box2d_get_max *)
Definition box2d_get_max (b : box2d) : point := Pt (vx (box2d_max_v b)) (vy (box2d_max_v b)).
(* src/graphene-box2d.c:723-736, graphene_box2d_get_minmax *)
Definition box2d_get_minmax (b : box2d) (mn mx : option point) : option point * option point :=
  let min_v := box2d_min_v b in let max_v := box2d_max_v b in
  (match mn with Some _ => Some (Pt (vx min_v) (vy min_v)) | None => None end,
   match mx with Some _ => Some (Pt (vx max_v) (vy max_v)) | None => None end).
(* src/graphene-box2d.c:169-176, graphene_box2d_init_from_box *)
Definition box2d_init_from_box (src : box2d) : box2d := src.
(* src/graphene-box2d.c:399-411, graphene_box2d_to_rect *)
Definition box2d_to_rect (b : box2d) : rect :=
  let mn := box2d_get_min b in let mx := box2d_get_max b in
  mkrect (px mn) (py mn) (px mx -. px mn) (py mx -. py mn).
(* src/graphene-box2d.c:423-441, graphene_box2d_union *)
Definition box2d_union (a b : box2d) : box2d :=
  box2d_init_from_simd4f (g_min (box2d_min_v a) (box2d_min_v b))
                         (g_max (box2d_max_v a) (box2d_max_v b)).
(* src/graphene-box2d.c:458-487, graphene_box2d_intersection *)
Definition box2d_intersection (a b : box2d) : bool * box2d :=
  let min_v := g_max (box2d_min_v a) (box2d_min_v b) in
  let max_v := g_min (box2d_max_v a) (box2d_max_v b) in
  if negb (g_cmp_le min_v max_v) then (false, box2d_empty)
  else (true, box2d_init_from_simd4f min_v max_v).
(* include/graphene-box2d.h:157-178, src/graphene-box2d.c:502-507 *)
(* include/graphene-box2d.h:154-155, graphene_box2d_intersects *)
Definition box2d_intersects (a b : box2d) : bool :=
  let min_a := box2d_get_min a in let max_a := box2d_get_max a in
  let min_b := box2d_get_min b in let max_b := box2d_get_max b in
  let min_v := g_max (g_init (px min_a) (py min_a) fzero fzero)
                     (g_init (px min_b) (py min_b) fzero fzero) in
  let max_v := g_min (g_init (px max_a) (py max_a) fzero fzero)
                     (g_init (px max_b) (py max_b) fzero fzero) in
  if negb (g_cmp_le min_v max_v) then false else true.
(* src/graphene-box2d.c:519-529, graphene_box2d_get_width *)
Definition box2d_get_width (b : box2d) : F :=
  fabs (g_get_x (g_sub (box2d_max_v b) (box2d_min_v b))).
(* src/graphene-box2d.c:541-551, graphene_box2d_get_height *)
Definition box2d_get_height (b : box2d) : F :=
  fabs (g_get_y (g_sub (box2d_max_v b) (box2d_min_v b))).
(* 553-584 and 586-617, the HAVE_ISINFF branch; the other branch compares the same
   lanes bitwise with the same infinities, which for non-NaN lanes is the same test *)
(* src/graphene-box2d.c:553-584, graphene_box2d_is_empty *)
Definition box2d_is_empty (b : box2d) : bool :=
  (is_pinf (vx (box2d_min_v b)) && is_pinf (vy (box2d_min_v b))) &&
  (is_ninf (vx (box2d_max_v b)) && is_ninf (vy (box2d_max_v b))).
(* src/graphene-box2d.c:586-617, graphene_box2d_is_infinity *)
Definition box2d_is_infinity (b : box2d) : bool :=
  (is_ninf (vx (box2d_min_v b)) && is_ninf (vy (box2d_min_v b))) &&
  (is_pinf (vx (box2d_max_v b)) && is_pinf (vy (box2d_max_v b))).
(* src/graphene-box2d.c:629-645, graphene_box2d_get_size *)
Definition box2d_get_size (b : box2d) : V :=
  if box2d_is_empty b then zero4
  else if box2d_is_infinity b then g_init finf finf fzero fzero
  else g_sub (box2d_max_v b) (box2d_min_v b).
(* src/graphene-box2d.c:657-676, graphene_box2d_get_center *)
Definition box2d_get_center (b : box2d) : point :=
  if box2d_is_empty b || box2d_is_infinity b then Pt fzero fzero
  else let res := g_mul (g_add (box2d_min_v b) (box2d_max_v b)) (g_splat fhalf) in
    Pt (vx res) (vy res).
(* src/graphene-box2d.c:748-760, graphene_box2d_get_vertices *)
Definition box2d_get_vertices (b : box2d) : list V :=
  let mn := box2d_get_min b in let mx := box2d_get_max b in
  [ vec2_init (px mn) (py mn); vec2_init (px mn) (py mx);
    vec2_init (px mx) (py mn); vec2_init (px mx) (py mx) ].
(* src/graphene-box2d.c:773-793, graphene_box2d_contains_point *)
Definition box2d_contains_point (b : box2d) (p : point) : bool :=
  if box2d_is_empty b then false
  else if box2d_is_infinity b then true
  else let v := g_init (px p) (py p) fzero fzero in
    if g_cmp_ge v (box2d_min_v b) && g_cmp_le v (box2d_max_v b) then true else false.
(* src/graphene-box2d.c:807-829, graphene_box2d_contains_box *)
Definition box2d_contains_box (a b : box2d) : bool :=
  if box2d_is_empty a || box2d_is_infinity b then false
  else if box2d_is_infinity a || box2d_is_empty b then true
  else if g_cmp_ge (box2d_min_v b) (box2d_min_v a)
       then (if g_cmp_le (box2d_max_v b) (box2d_max_v a) then true else false)
       else false.
(* src/graphene-box2d.c:842-863, graphene_box2d_contains_rect *)
Definition box2d_contains_rect (b : box2d) (r : rect) : bool :=
  if box2d_is_empty b then false
  else if box2d_is_infinity b then true
  else if negb (box2d_contains_point b (rorigin r)) then false
  else if negb (box2d_contains_point b (Pt (rx r +. rw r) (ry r +. rh r))) then false
  else true.
(* src/graphene-box2d.c:896-901, graphene_box2d_equal *)
Definition box2d_equal_fn (a b : box2d) : bool :=
  if box2d_is_empty a && box2d_is_empty b then true
  else if box2d_is_empty a || box2d_is_empty b then false
  else if box2d_is_infinity a && box2d_is_infinity b then true
  else if box2d_is_infinity a || box2d_is_infinity b then false
  else vec4_equal false (Some a) (Some b).
(* src/graphene-box2d.c:896-901, graphene_box2d_equal *)
Definition box2d_equal (same : bool) (p1 p2 : option box2d) : bool :=
  pointer_equal same p1 p2 box2d_equal_fn.
End Box2d.
