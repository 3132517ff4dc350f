(** * Alias: the functions with output parameters, on memory.

    The other model files return results as values.  Here memory is an array of floats
    indexed by integers (one cell per 4 bytes), objects live at addresses, and each function is
    written as the C code's sequence of loads and stores, so that what happens when the output
    object is also an input is explicit.  A vector member (simd4f) is loaded and stored whole.
    Layouts follow the structure declarations in include/. *)
From Coq Require Import ZArith Bool List.
From Verif Require Import Num Simd Vec Rect Box Mat Geo Quat.
Import ListNotations.
Open Scope Z_scope.

Section Alias.
Context {F D : Type} {O : FOps F} {DD : DOps F D} {L : LibM F} {LD : LibM D} {B : Backend F}.
Notation V := (simd4f F).
(* flat memory of floats *)
Definition mem := Z -> F.
(* a store *)
Definition set (m : mem) (p : Z) (v : F) : mem := fun x => if x =? p then v else m x.

(** ** objects *)
Definition ld_vec (p : Z) (m : mem) : V := V4 (m p) (m (p + 1)) (m (p + 2)) (m (p + 3)).
(* store of the struct in include/graphene-vec4.h, consecutive floats *)
Definition st_vec (p : Z) (v : V) (m : mem) : mem := set (set (set (set m p (vx v)) (p + 1) (vy v)) (p + 2) (vz v)) (p + 3) (vw v).
(* load of the struct in include/graphene-point.h, consecutive floats *)
Definition ld_point (p : Z) (m : mem) : point F := Pt (m p) (m (p + 1)).
(* store of the struct in include/graphene-point.h, consecutive floats *)
Definition st_point (p : Z) (v : point F) (m : mem) : mem := set (set m p (px v)) (p + 1) (py v).
(* load of the struct in include/graphene-size.h, consecutive floats *)
Definition ld_size (p : Z) (m : mem) : size F := Sz (m p) (m (p + 1)).
(* store of the struct in include/graphene-size.h, consecutive floats *)
Definition st_size (p : Z) (v : size F) (m : mem) : mem := set (set m p (swidth v)) (p + 1) (sheight v).
(* load of the struct in include/graphene-point3d.h, consecutive floats *)
Definition ld_point3d (p : Z) (m : mem) : point3d F := P3 (m p) (m (p + 1)) (m (p + 2)).
(* store of the struct in include/graphene-point3d.h, consecutive floats *)
Definition st_point3d (p : Z) (v : point3d F) (m : mem) : mem := set (set (set m p (p3x v)) (p + 1) (p3y v)) (p + 2) (p3z v).
(* load of the struct in include/graphene-rect.h, consecutive floats *)
Definition ld_rect (p : Z) (m : mem) : rect F := Rc (ld_point p m) (ld_size (p + 2) m).
(* store of the struct in include/graphene-rect.h, consecutive floats *)
Definition st_rect (p : Z) (v : rect F) (m : mem) : mem := st_size (p + 2) (rsize v) (st_point p (rorigin v) m).
(* load of the struct in include/graphene-quaternion.h, consecutive floats *)
Definition ld_quat (p : Z) (m : mem) : quat F := Qt (m p) (m (p + 1)) (m (p + 2)) (m (p + 3)).
(* store of the struct in include/graphene-quaternion.h, consecutive floats *)
Definition st_quat (p : Z) (v : quat F) (m : mem) : mem := set (set (set (set m p (qx v)) (p + 1) (qy v)) (p + 2) (qz v)) (p + 3) (qw v).
(* load of the struct in include/graphene-box.h, consecutive floats *)
Definition ld_box (p : Z) (m : mem) : box F := Bx (ld_vec p m) (ld_vec (p + 4) m).
(* store of the struct in include/graphene-box.h, consecutive floats *)
Definition st_box (p : Z) (v : box F) (m : mem) : mem := st_vec (p + 4) (bmax v) (st_vec p (bmin v) m).
(* load of the struct in include/graphene-matrix.h, consecutive floats *)
Definition ld_mat (p : Z) (m : mem) : mat F := M4 (ld_vec p m) (ld_vec (p + 4) m) (ld_vec (p + 8) m) (ld_vec (p + 12) m).
(* store of the struct in include/graphene-matrix.h, consecutive floats *)
Definition st_mat (p : Z) (v : mat F) (m : mem) : mem :=
  st_vec (p + 12) (mw v) (st_vec (p + 8) (mz v) (st_vec (p + 4) (my v) (st_vec p (mx v) m))).
(* load of the struct in include/graphene-ray.h, consecutive floats *)
Definition ld_ray (p : Z) (m : mem) : ray F := Ry (ld_vec p m) (ld_vec (p + 4) m).
(* plane and sphere: a vector, then a float (and padding) *)
Definition ld_plane (p : Z) (m : mem) : plane F := Pl (ld_vec p m) (m (p + 4)).
(* load of the struct in include/graphene-sphere.h, consecutive floats *)
Definition ld_sphere (p : Z) (m : mem) : sphere F := Sp (ld_vec p m) (m (p + 4)).
(* load of the struct in include/graphene-quad.h, consecutive floats *)
Definition ld_quad (p : Z) (m : mem) : quad F := Qd (ld_point p m) (ld_point (p + 2) m) (ld_point (p + 4) m) (ld_point (p + 6) m).

(** ** vectors: all of vectors.c has one of these shapes, [res->value = f (a->value, ...)] *)
Definition c_vec_op1 (f : V -> V) (a res : Z) (m : mem) : mem := st_vec res (f (ld_vec a m)) m.
(* every two-operand vector operation of src/graphene-vectors.c: res->value = op (a->value, b->value) *)
Definition c_vec_op2 (f : V -> V -> V) (a b res : Z) (m : mem) : mem := st_vec res (f (ld_vec a m) (ld_vec b m)) m.
(* vectors.c:936-944 (and 326-334, 1708-1716) *)
(* src/graphene-vectors.c:936-944, graphene_vec3_normalize *)
Definition c_vec3_normalize (v res : Z) (m : mem) : mem :=
  if flt feps (fabs (vec3_length (ld_vec v m))) then st_vec res (g_normalize3 (ld_vec v m)) m
  else st_vec res g_init_zero m.

(** ** point, size, point3d *)
(* point.c:298-306 *)
(* src/graphene-point.c:298-306, graphene_point_interpolate *)
Definition c_point_interpolate (a b : Z) (factor : D) (res : Z) (m : mem) : mem :=
  let m := set m res (flerpf (m a) (m b) factor) in set m (res + 1) (flerpf (m (a + 1)) (m (b + 1)) factor).
(* size.c:154-163 *)
(* src/graphene-size.c:154-163, graphene_size_scale *)
Definition c_size_scale (s : Z) (factor : F) (res : Z) (m : mem) : mem :=
  let m := st_size res (ld_size s m) m in
  let m := set m res (fmul (m res) factor) in set m (res + 1) (fmul (m (res + 1)) factor).
(* size.c:177-185 *)
(* src/graphene-size.c:177-185, graphene_size_interpolate *)
Definition c_size_interpolate := c_point_interpolate.
(* point3d.c:104-123 *)
(* src/graphene-point3d.c:104-123, graphene_point3d_init_from_simd4f *)
Definition c_point3d_init_from_simd4f (p : Z) (v : V) (m : mem) : mem := set (set (set m p (vx v)) (p + 1) (vy v)) (p + 2) (vz v).
(* src/graphene-point3d.c:251-262, graphene_point3d_scale *)
Definition c_point3d_scale (p : Z) (factor : F) (res : Z) (m : mem) : mem :=
  let v := g_init (m p) (m (p + 1)) (m (p + 2)) fzero in let v := g_mul v (g_splat factor) in c_point3d_init_from_simd4f res v m.
(* src/graphene-point3d.c:275-285, graphene_point3d_cross *)
Definition c_point3d_cross (a b res : Z) (m : mem) : mem :=
  let v_a := g_init (m a) (m (a + 1)) (m (a + 2)) fzero in let v_b := g_init (m b) (m (b + 1)) (m (b + 2)) fzero in
  c_point3d_init_from_simd4f res (g_cross3 v_a v_b) m.
(* src/graphene-point3d.c:338-348, graphene_point3d_normalize *)
Definition c_point3d_normalize (p res : Z) (m : mem) : mem :=
  c_point3d_init_from_simd4f res (g_normalize3 (g_init (m p) (m (p + 1)) (m (p + 2)) fzero)) m.
(* src/graphene-point3d.c:398-407, graphene_point3d_interpolate *)
Definition c_point3d_interpolate (a b : Z) (factor : D) (res : Z) (m : mem) : mem :=
  let m := set m res (flerpf (m a) (m b) factor) in let m := set m (res + 1) (flerpf (m (a + 1)) (m (b + 1)) factor) in
  set m (res + 2) (flerpf (m (a + 2)) (m (b + 2)) factor).
(* src/graphene-point3d.c:428-442, graphene_point3d_normalize_viewport *)
Definition c_point3d_normalize_viewport (p viewport : Z) (z_near z_far : F) (res : Z) (m : mem) : mem :=
  let m := set m res (fdiv (fsub (m p) (m viewport)) (m (viewport + 2))) in
  let m := set m (res + 1) (fdiv (fsub (m (p + 1)) (m (viewport + 1))) (m (viewport + 3))) in
  let m := set m (res + 2) (fdiv (fsub (m (p + 2)) z_near) (fsub z_far z_near)) in
  let m := set m res (cCLAMP (fsub (fmul (m res) ftwo) fone) fm1 fone) in
  let m := set m (res + 1) (cCLAMP (fsub (fmul (m (res + 1)) ftwo) fone) fm1 fone) in
  set m (res + 2) (cCLAMP (fsub (fmul (m (res + 2)) ftwo) fone) fm1 fone).

(** ** rect: src/graphene-rect.c *)
(* src/graphene-rect.c:53-71, graphene_rect_normalize_in_place *)
Definition c_rect_normalize_in_place (r : Z) (m : mem) : mem :=
  let m := if flt (m (r + 2)) fzero
           then let size := fabs (m (r + 2)) in let m := set m r (fsub (m r) size) in set m (r + 2) size else m in
  if flt (m (r + 2 + 1)) fzero
  then let size := fabs (m (r + 2 + 1)) in let m := set m (r + 1) (fsub (m (r + 1)) size) in set m (r + 2 + 1) size else m.
(* src/graphene-rect.c:121-134, graphene_rect_init *)
Definition c_rect_init (r : Z) (x y w h : F) (m : mem) : mem :=
  let m := st_point r (Pt x y) m in let m := st_size (r + 2) (Sz w h) m in c_rect_normalize_in_place r m.
(* src/graphene-rect.c:150-159, graphene_rect_init_from_rect *)
Definition c_rect_init_from_rect (r src : Z) (m : mem) : mem := let m := st_rect r (ld_rect src m) m in c_rect_normalize_in_place r m.
(* src/graphene-rect.c:231-239, graphene_rect_normalize_r *)
Definition c_rect_normalize_r (r res : Z) (m : mem) : mem :=
  let m := if res =? r then m else st_rect res (ld_rect r m) m in c_rect_normalize_in_place res m.
(* 250-262: [rr] is a local copy; normalising it is the value function *)
(* src/graphene-rect.c:250-262, graphene_rect_get_center *)
Definition c_rect_get_center (r p : Z) (m : mem) : mem :=
  let rr := rect_normalize (ld_rect r m) in
  st_point p (Pt (fadd (rx rr) (fdiv (rw rr) ftwo)) (fadd (ry rr) (fdiv (rh rr) ftwo))) m.
(* 273-348 *)
Definition c_rect_get_corner (f : rect F -> point F) (r p : Z) (m : mem) : mem := st_point p (f (rect_normalize (ld_rect r m))) m.
(* src/graphene-rect.c:472-490, graphene_rect_union *)
Definition c_rect_union (a b res : Z) (m : mem) : mem :=
  let ra := rect_normalize (ld_rect a m) in let rb := rect_normalize (ld_rect b m) in
  let m := set m res (cMIN (rx ra) (rx rb)) in
  let m := set m (res + 1) (cMIN (ry ra) (ry rb)) in
  let m := set m (res + 2) (fsub (cMAX (fadd (rx ra) (rw ra)) (fadd (rx rb) (rw rb))) (m res)) in
  set m (res + 2 + 1) (fsub (cMAX (fadd (ry ra) (rh ra)) (fadd (ry rb) (rh rb))) (m (res + 1))).
(* 512-544; [res] may be NULL *)
(* src/graphene-rect.c:512-543, graphene_rect_intersection *)
Definition c_rect_intersection (a b : Z) (res : option Z) (m : mem) : bool * mem :=
  let ra := rect_normalize (ld_rect a m) in let rb := rect_normalize (ld_rect b m) in
  let x_1 := cMAX (rx ra) (rx rb) in let y_1 := cMAX (ry ra) (ry rb) in
  let x_2 := cMIN (fadd (rx ra) (rw ra)) (fadd (rx rb) (rw rb)) in let y_2 := cMIN (fadd (ry ra) (rh ra)) (fadd (ry rb) (rh rb)) in
  if fle x_2 x_1 || fle y_2 y_1
  then (false, match res with Some r => c_rect_init r fzero fzero fzero fzero m | None => m end)
  else (true, match res with Some r => c_rect_init r x_1 y_1 (fsub x_2 x_1) (fsub y_2 y_1) m | None => m end).
(* src/graphene-rect.c:632-642, graphene_rect_offset_r *)
Definition c_rect_offset_r (r : Z) (d_x d_y : F) (res : Z) (m : mem) : mem :=
  let m := c_rect_normalize_r r res m in
  let m := set m res (fadd (m res) d_x) in set m (res + 1) (fadd (m (res + 1)) d_y).
(* src/graphene-rect.c:703-729, graphene_rect_inset_r *)
Definition c_rect_inset_r (r : Z) (d_x d_y : F) (res : Z) (m : mem) : mem :=
  let m := c_rect_normalize_r r res m in
  let m := set m res (fadd (m res) d_x) in
  let m := set m (res + 1) (fadd (m (res + 1)) d_y) in
  let m := if fle fzero d_x then set m (res + 2) (fsub (m (res + 2)) (fmul d_x ftwo)) else set m (res + 2) (fadd (m (res + 2)) (fmul d_x (fneg ftwo))) in
  let m := if fle fzero d_y then set m (res + 2 + 1) (fsub (m (res + 2 + 1)) (fmul d_y ftwo))
           else set m (res + 2 + 1) (fadd (m (res + 2 + 1)) (fmul d_y (fneg ftwo))) in
  let m := if flt (m (res + 2)) fzero then set m (res + 2) fzero else m in
  if flt (m (res + 2 + 1)) fzero then set m (res + 2 + 1) fzero else m.
(* src/graphene-rect.c:773-784, graphene_rect_round *)
Definition c_rect_round (r res : Z) (m : mem) : mem :=
  let m := c_rect_normalize_r r res m in
  let m := set m res (ffloor (m res)) in let m := set m (res + 1) (ffloor (m (res + 1))) in
  let m := set m (res + 2) (fceil (m (res + 2))) in set m (res + 2 + 1) (fceil (m (res + 2 + 1))).
(* src/graphene-rect.c:816-832, graphene_rect_round_extents *)
Definition c_rect_round_extents (r res : Z) (m : mem) : mem :=
  let m := c_rect_normalize_r r res m in
  let x2 := fadd (m res) (m (res + 2)) in let y2 := fadd (m (res + 1)) (m (res + 2 + 1)) in
  let m := set m res (ffloor (m res)) in let m := set m (res + 1) (ffloor (m (res + 1))) in
  let m := set m (res + 2) (fsub (fceil x2) (m res)) in set m (res + 2 + 1) (fsub (fceil y2) (m (res + 1))).
(* 844-855; tmp is local, so the union reads it as a value *)
(* src/graphene-rect.c:844-855, graphene_rect_expand *)
Definition c_rect_expand (r p res : Z) (m : mem) : mem :=
  let tmp := rect_init (m p) (m (p + 1)) fzero fzero in
  let ra := rect_normalize (ld_rect r m) in let rb := rect_normalize tmp in
  let m := set m res (cMIN (rx ra) (rx rb)) in
  let m := set m (res + 1) (cMIN (ry ra) (ry rb)) in
  let m := set m (res + 2) (fsub (cMAX (fadd (rx ra) (rw ra)) (fadd (rx rb) (rw rb))) (m res)) in
  let m := set m (res + 2 + 1) (fsub (cMAX (fadd (ry ra) (rh ra)) (fadd (ry rb) (rh rb))) (m (res + 1))) in
  c_rect_normalize_in_place res m.
(* src/graphene-rect.c:870-888, graphene_rect_interpolate *)
Definition c_rect_interpolate (a b : Z) (factor : D) (res : Z) (m : mem) : mem :=
  let ra := rect_normalize (ld_rect a m) in let rb := rect_normalize (ld_rect b m) in
  let m := set m res (flerpf (rx ra) (rx rb) factor) in let m := set m (res + 1) (flerpf (ry ra) (ry rb) factor) in
  let m := set m (res + 2) (flerpf (rw ra) (rw rb) factor) in set m (res + 2 + 1) (flerpf (rh ra) (rh rb) factor).
(* src/graphene-rect.c:921-935, graphene_rect_scale *)
Definition c_rect_scale (r : Z) (s_h s_v : F) (res : Z) (m : mem) : mem :=
  let m := c_rect_normalize_r r res m in
  let m := set m res (fmul (m res) s_h) in let m := set m (res + 1) (fmul (m (res + 1)) s_v) in
  let m := set m (res + 2) (fmul (m (res + 2)) s_h) in let m := set m (res + 2 + 1) (fmul (m (res + 2 + 1)) s_v) in
  c_rect_normalize_r res res m.

(** ** box: src/graphene-box.c *)
(* 242-249; [v] is passed by value *)
(* src/graphene-box.c:242-249, graphene_box_expand_simd4f *)
Definition c_box_expand_simd4f (box : Z) (v : V) (res : Z) (m : mem) : mem :=
  let m := st_vec res (g_min (ld_vec box m) v) m in st_vec (res + 4) (g_max (ld_vec (box + 4) m) v) m.
(* 262-268, 280-288 *)
(* src/graphene-box.c:262-268, graphene_box_expand_vec3 *)
Definition c_box_expand_vec3 (box vec res : Z) (m : mem) : mem := c_box_expand_simd4f box (ld_vec vec m) res m.
(* src/graphene-box.c:280-288, graphene_box_expand *)
Definition c_box_expand (box p res : Z) (m : mem) : mem := c_box_expand_simd4f box (g_init (m p) (m (p + 1)) (m (p + 2)) fzero) res m.
(* src/graphene-box.c:303-313, graphene_box_expand_scalar *)
Definition c_box_expand_scalar (box : Z) (scalar : F) (res : Z) (m : mem) : mem :=
  let m := st_vec res (g_add (ld_vec box m) (g_splat (fmul scalar fm1))) m in
  st_vec (res + 4) (g_add (ld_vec (box + 4) m) (g_splat scalar)) m.
(* src/graphene-box.c:325-332, graphene_box_union *)
Definition c_box_union (a b res : Z) (m : mem) : mem :=
  let m := st_vec res (g_min (ld_vec a m) (ld_vec b m)) m in st_vec (res + 4) (g_max (ld_vec (a + 4) m) (ld_vec (b + 4) m)) m.
(* src/graphene-box.c:349-371, graphene_box_intersection *)
Definition c_box_intersection (a b : Z) (res : option Z) (m : mem) : bool * mem :=
  let mn := g_max (ld_vec a m) (ld_vec b m) in let mx := g_min (ld_vec (a + 4) m) (ld_vec (b + 4) m) in
  if negb (g_cmp_le mn mx)
  then (false, match res with Some r => st_box r box_empty m | None => m end)
  else (true, match res with Some r => st_vec (r + 4) mx (st_vec r mn m) | None => m end).
(* 216-230: graphene_box_init_from_vec3 with both pointers non-NULL *)
(* src/graphene-box.c:213-229, graphene_box_init_from_vec3 *)
Definition c_box_init_from_vec3 (box mn mx : Z) (m : mem) : mem := let m := st_vec box (ld_vec mn m) m in st_vec (box + 4) (ld_vec mx m) m.

(** ** quaternion: src/graphene-quaternion.c *)
(* src/graphene-quaternion.c:278-317, graphene_quaternion_slerp *)
Definition c_quaternion_slerp (a b : Z) (factor : F) (res : Z) (m : mem) : mem :=
  let v_a := ld_vec a m in let v_b := ld_vec b m in
  let dot := cCLAMP (g_get_x (g_dot4 v_a v_b)) fm1 fone in
  let '(left_sign, dot) := if flt dot fzero then (fm1, fneg dot) else (fone, dot) in
  if approx_val dot fone then st_quat res (ld_quat a m) m
  else
    let theta := facos dot in
    let r_sin_theta := fdiv fone (fsqrt (fsub fone (fmul dot dot))) in
    let right_v := fmul (fsin (fmul factor theta)) r_sin_theta in
    let left_v := fsub (fcos (fmul factor theta)) (fmul dot right_v) in
    let left := g_mul (ld_vec a m) (g_splat (fmul left_v left_sign)) in
    let right := g_mul (ld_vec b m) (g_splat right_v) in
    st_vec res (g_add left right) m.
(* src/graphene-quaternion.c:629-637, graphene_quaternion_invert *)
Definition c_quaternion_invert (q res : Z) (m : mem) : mem :=
  let m := set m res (fneg (m q)) in let m := set m (res + 1) (fneg (m (q + 1))) in
  let m := set m (res + 2) (fneg (m (q + 2))) in set m (res + 3) (m (q + 3)).
(* 649-659, 699-709, 721-731 *)
(* src/graphene-quaternion.c:649-659, graphene_quaternion_normalize *)
Definition c_quaternion_normalize (q res : Z) (m : mem) : mem := st_vec res (g_normalize4 (ld_vec q m)) m.
(* src/graphene-quaternion.c:699-709, graphene_quaternion_scale *)
Definition c_quaternion_scale (q : Z) (factor : F) (res : Z) (m : mem) : mem := st_vec res (g_mul (ld_vec q m) (g_splat factor)) m.
(* src/graphene-quaternion.c:721-731, graphene_quaternion_add *)
Definition c_quaternion_add (a b res : Z) (m : mem) : mem := st_vec res (g_add (ld_vec a m) (ld_vec b m)) m.
(* 671-686: x, y, z, w are locals *)
(* src/graphene-quaternion.c:671-686, graphene_quaternion_multiply *)
Definition c_quaternion_multiply (a b res : Z) (m : mem) : mem := st_quat res (quaternion_multiply (ld_quat a m) (ld_quat b m)) m.

(** ** matrix *)
(* simd4x4f.h:486-545: x, y, z, w are locals *)
(* src/graphene-matrix.c:825-831, graphene_matrix_multiply *)
Definition c_matrix_multiply (a b res : Z) (m : mem) : mem :=
  let x := gm_vec4_mul (ld_mat b m) (ld_vec a m) in let y := gm_vec4_mul (ld_mat b m) (ld_vec (a + 4) m) in
  let z := gm_vec4_mul (ld_mat b m) (ld_vec (a + 8) m) in let w := gm_vec4_mul (ld_mat b m) (ld_vec (a + 12) m) in
  st_mat res (M4 x y z w) m.
(* simd4x4f.h:397-403 *)
(* src/graphene-matrix.c:1672-1677, graphene_matrix_transpose *)
Definition c_matrix_transpose (s res : Z) (m : mem) : mem :=
  let m := st_mat res (ld_mat s m) m in st_mat res (gm_transpose (ld_mat res m)) m.
(* simd4x4f.h:966-1054: all rows are read first; nothing is written when the determinant is small *)
(* src/graphene-matrix.c:1691-1696, graphene_matrix_inverse *)
Definition c_matrix_inverse (s res : Z) (m : mem) : bool * mem :=
  match gm_inverse (ld_mat s m) with Some i => (true, st_mat res i m) | None => (false, m) end.
(* matrix.c:1709-1718 *)
(* src/graphene-matrix.c:1709-1718, graphene_matrix_perspective *)
Definition c_matrix_perspective (s : Z) (depth : F) (res : Z) (m : mem) : mem :=
  let m := st_mat res (ld_mat s m) m in st_mat res (gm_perspective (ld_mat res m) depth) m.
(* src/graphene-matrix.c:1729-1745, graphene_matrix_normalize *)
Definition c_matrix_normalize (s res : Z) (m : mem) : mem :=
  let ww := m (s + 12 + 3) in
  if approx_val ww fzero then m
  else let n := g_splat (fdiv fone ww) in
    let m := st_vec res (g_mul (ld_vec s m) n) m in let m := st_vec (res + 4) (g_mul (ld_vec (s + 4) m) n) m in
    let m := st_vec (res + 8) (g_mul (ld_vec (s + 8) m) n) m in st_vec (res + 12) (g_mul (ld_vec (s + 12) m) n) m.
(* 1426-1434: the translation matrix is local *)
(* src/graphene-matrix.c:1426-1434, graphene_matrix_translate *)
Definition c_matrix_translate (s pos : Z) (m : mem) : mem :=
  st_mat s (gm_mul (ld_mat s m) (gm_translation (m pos) (m (pos + 1)) (m (pos + 2)))) m.
(* src/graphene-matrix.c:1608-1618, graphene_matrix_skew_xy *)
Definition c_matrix_skew_xy (s : Z) (factor : F) (m : mem) : mem :=
  let m_x := ld_vec s m in let m_y := ld_vec (s + 4) m in st_vec (s + 4) (g_madd m_x (g_splat factor) m_y) m.
(* 914-926, 944-957: vec3 is a local *)
(* src/graphene-matrix.c:914-926, graphene_matrix_transform_point *)
Definition c_matrix_transform_point (s p res : Z) (m : mem) : mem :=
  let v := gm_point3_mul (ld_mat s m) (g_init (m p) (m (p + 1)) fzero fone) in set (set m res (g_get_x v)) (res + 1) (g_get_y v).
(* src/graphene-matrix.c:944-957, graphene_matrix_transform_point3d *)
Definition c_matrix_transform_point3d (s p res : Z) (m : mem) : mem :=
  let v := gm_point3_mul (ld_mat s m) (g_init (m p) (m (p + 1)) (m (p + 2)) fone) in
  set (set (set m res (g_get_x v)) (res + 1) (g_get_y v)) (res + 2) (g_get_z v).
(* 1092-1106: the centre is written before the matrix and the radius are read again. *)
(* src/graphene-matrix.c:1092-1106, graphene_matrix_transform_sphere *)
Definition c_matrix_transform_sphere (s p res : Z) (m : mem) : mem :=
  let m := st_vec res (gm_point3_mul (ld_mat s m) (ld_vec p m)) m in
  let max_scale := g_dot3_scalar (ld_vec s m) (ld_vec s m) in
  let max_scale := ffmax max_scale (g_dot3_scalar (ld_vec (s + 4) m) (ld_vec (s + 4) m)) in
  let max_scale := ffmax max_scale (g_dot3_scalar (ld_vec (s + 8) m) (ld_vec (s + 8) m)) in
  set m (res + 4) (fmul (m (p + 4)) (fsqrt max_scale)).
(* 1148-1163: origin and direction are locals *)
(* src/graphene-matrix.c:1148-1163, graphene_matrix_transform_ray *)
Definition c_matrix_transform_ray (s r res : Z) (m : mem) : mem :=
  let origin := vec4_get_xyz (gm_vec4_mul (ld_mat s m) (vec4_init_from_vec3 (ld_vec r m) fone)) in
  let direction := gm_vec3_mul (ld_mat s m) (ld_vec (r + 4) m) in
  let m := st_vec res origin m in st_vec (res + 4) (vec3_normalize direction) m.
(* 1019-1078: everything before graphene_rect_init works on locals *)
(* src/graphene-matrix.c:1019-1078, graphene_matrix_transform_bounds *)
Definition c_matrix_transform_bounds (s r res : Z) (m : mem) : mem :=
  let rr := rect_normalize (ld_rect r m) in let M := ld_mat s m in
  let c0 := transform_corner M (rect_get_top_left rr) in let c1 := transform_corner M (rect_get_top_right rr) in
  let c2 := transform_corner M (rect_get_bottom_right rr) in let c3 := transform_corner M (rect_get_bottom_left rr) in
  let v_x := g_init (px c0) (px c1) (px c2) (px c3) in let v_y := g_init (py c0) (py c1) (py c2) (py c3) in
  let min_x := g_get_x (g_min_val v_x) in let min_y := g_get_x (g_min_val v_y) in
  let max_x := g_get_x (g_max_val v_x) in let max_y := g_get_x (g_max_val v_y) in
  c_rect_init res min_x min_y (fsub max_x min_x) (fsub max_y min_y) m.
(* 2115-2279: *res is set to the identity before anything is read; the rest reads a and b and writes res
   at the end.  [None]: undefined behaviour, see Quat.matrix_interpolate *)
(* src/graphene-matrix.c:2115-2279, graphene_matrix_interpolate *)
Definition c_matrix_interpolate (a b : Z) (factor : D) (res : Z) (m : mem) : option mem :=
  let m := st_mat res gm_identity m in
  match matrix_interpolate (ld_mat a m) (ld_mat b m) factor with Some r => Some (st_mat res r m) | None => None end.

(** ** plane, sphere, ray, triangle, quad *)
(* plane.c:236-244, 256-262 *)
(* src/graphene-plane.c:236-244, graphene_plane_normalize *)
Definition c_plane_normalize (p res : Z) (m : mem) : mem :=
  let normal_length := vec3_length (ld_vec p m) in
  let m := c_vec3_normalize p res m in set m (res + 4) (fdiv (m (p + 4)) normal_length).
(* src/graphene-plane.c:256-262, graphene_plane_negate *)
Definition c_plane_negate (p res : Z) (m : mem) : mem :=
  let m := c_vec_op1 vec3_negate p res m in set m (res + 4) (fmul (m (p + 4)) fm1).
(* sphere.c:341-350: the radius of *res is not written *)
(* src/graphene-sphere.c:341-350, graphene_sphere_translate *)
Definition c_sphere_translate (s point res : Z) (m : mem) : mem :=
  let tmp := point3d_to_vec3 (ld_point3d point m) in st_vec res (vec3_add (ld_vec s m) tmp) m.
(* ray.c:150-166 with both pointers non-NULL *)
(* src/graphene-ray.c:150-166, graphene_ray_init_from_vec3 *)
Definition c_ray_init_from_vec3 (r origin direction : Z) (m : mem) : mem :=
  let m := st_vec r (ld_vec origin m) m in c_vec3_normalize direction (r + 4) m.
(* quad.c:89-102 *)
(* src/graphene-quad.c:89-102, graphene_quad_init *)
Definition c_quad_init (q p1 p2 p3 p4 : Z) (m : mem) : mem :=
  let m := st_point q (ld_point p1 m) m in let m := st_point (q + 2) (ld_point p2 m) m in
  let m := st_point (q + 4) (ld_point p3 m) m in st_point (q + 6) (ld_point p4 m) m.
(* triangle.c:382-419; the triangle and the point are values here (they are other objects) *)
(* src/graphene-triangle.c:382-419, graphene_triangle_get_uv *)
Definition c_triangle_get_uv (t : triangle F) (p : option (point3d F)) (uv_a uv_b uv_c res : Z) (m : mem) : bool * mem :=
  let m := st_vec res (vec2_init fzero fzero) m in
  match triangle_get_barycoords t p with
  | None => (false, m)
  | Some bc =>
      let u := vec2_get_x bc in let v := vec2_get_y bc in
      let m := st_vec res (vec2_add (ld_vec res m) (vec2_scale (ld_vec uv_a m) (fsub (fsub fone u) v))) m in
      let m := st_vec res (vec2_add (ld_vec res m) (vec2_scale (ld_vec uv_b m) v)) m in
      let m := st_vec res (vec2_add (ld_vec res m) (vec2_scale (ld_vec uv_c m) u)) m in (true, m) end.
(* matrix.c:869-875, 889-895 with simd4x4f.h:269-284, 320-334: *res is assigned once, at the end *)
(* src/graphene-matrix.c:869-875, graphene_matrix_transform_vec3 *)
Definition c_matrix_transform_vec3 (s v res : Z) (m : mem) : mem := st_vec res (gm_vec3_mul (ld_mat s m) (ld_vec v m)) m.
(* src/graphene-matrix.c:889-895, graphene_matrix_transform_vec4 *)
Definition c_matrix_transform_vec4 (s v res : Z) (m : mem) : mem := st_vec res (gm_vec4_mul (ld_mat s m) (ld_vec v m)) m.
(* box.c:162-173, expanding res in place from a local array *)
(* src/graphene-box.c:165-176, graphene_box_init_from_vectors *)
Definition c_box_init_from_vectors (res : Z) (vs : list V) (m : mem) : mem :=
  fold_left (fun m v => c_box_expand_simd4f res v res m) vs (st_box res box_empty m).
(* matrix.c:1122-1135: the transformed vertices are a local array *)
(* src/graphene-matrix.c:1122-1135, graphene_matrix_transform_box *)
Definition c_matrix_transform_box (s b res : Z) (m : mem) : mem :=
  let points := map (gm_point3_mul (ld_mat s m)) (box_get_vertices (ld_box b m)) in c_box_init_from_vectors res points m.
(* 1176-1197: a, b, t are locals *)
(* src/graphene-matrix.c:1176-1197, graphene_matrix_project_point *)
Definition c_matrix_project_point (s p res : Z) (m : mem) : mem := st_point res (matrix_project_point (ld_mat s m) (ld_point p m)) m.
(* 1298-1326: inverse and bounds_t are locals *)
(* src/graphene-matrix.c:1298-1326, graphene_matrix_untransform_point *)
Definition c_matrix_untransform_point (s p bounds res : Z) (m : mem) : bool * mem :=
  if matrix_is_2d (ld_mat s m) then
    match gm_inverse (ld_mat s m) with
    | None => (false, m)
    | Some inverse =>
        let v := gm_point3_mul inverse (g_init (m p) (m (p + 1)) fzero fone) in (true, set (set m res (g_get_x v)) (res + 1) (g_get_y v)) end
  else if negb (rect_contains_point (matrix_transform_bounds (ld_mat s m) (ld_rect bounds m)) (ld_point p m)) then (false, m)
  else match gm_inverse (ld_mat s m) with
       | None => (false, m)
       | Some inverse => (true, st_point res (matrix_project_point inverse (ld_point p m)) m) end.
(* 1387-1411: tmp, v, values are locals *)
(* src/graphene-matrix.c:1387-1411, graphene_matrix_unproject_point3d *)
Definition c_matrix_unproject_point3d (projection modelview p res : Z) (m : mem) : mem :=
  match gm_inverse (ld_mat projection m) with
  | None => m
  | Some tmp =>
      let tmp := gm_mul tmp (ld_mat modelview m) in
      let v := gm_vec4_mul tmp (g_init (m p) (m (p + 1)) (m (p + 2)) fone) in
      let v := g_mul v (g_splat (fdiv fone (g_get_w v))) in
      set (set (set m res (vx v)) (res + 1) (vy v)) (res + 2) (vz v) end.

(** ** box2d: one vec4, always stored whole: src/graphene-box2d.c *)
(* src/graphene-box2d.c:236-250, graphene_box2d_expand_simd4f *)
Definition c_box2d_expand_simd4f (box : Z) (v : V) (res : Z) (m : mem) : mem :=
  let min_v := g_min (g_merge_low (ld_vec box m) g_init_zero) v in
  let max_v := g_max (g_merge_high (ld_vec box m) g_init_zero) v in st_vec res (g_merge_low min_v max_v) m.
(* 263-269, 281-289 *)
(* src/graphene-box2d.c:263-269, graphene_box2d_expand_vec2 *)
Definition c_box2d_expand_vec2 (box vec res : Z) (m : mem) : mem := c_box2d_expand_simd4f box (ld_vec vec m) res m.
(* src/graphene-box2d.c:281-289, graphene_box2d_expand *)
Definition c_box2d_expand (box p res : Z) (m : mem) : mem := c_box2d_expand_simd4f box (g_init (m p) (m (p + 1)) fzero fzero) res m.
(* src/graphene-box2d.c:304-320, graphene_box2d_expand_scalar *)
Definition c_box2d_expand_scalar (box : Z) (scalar : F) (res : Z) (m : mem) : mem :=
  let min_v := g_add (g_merge_low (ld_vec box m) g_init_zero) (g_splat (fmul scalar fm1)) in
  let max_v := g_add (g_merge_high (ld_vec box m) g_init_zero) (g_splat scalar) in st_vec res (g_merge_low min_v max_v) m.
(* src/graphene-box2d.c:423-441, graphene_box2d_union *)
Definition c_box2d_union (a b res : Z) (m : mem) : mem :=
  let min_v := g_min (g_merge_low (ld_vec a m) g_init_zero) (g_merge_low (ld_vec b m) g_init_zero) in
  let max_v := g_max (g_merge_high (ld_vec a m) g_init_zero) (g_merge_high (ld_vec b m) g_init_zero) in st_vec res (g_merge_low min_v max_v) m.
(* src/graphene-box2d.c:458-487, graphene_box2d_intersection *)
Definition c_box2d_intersection (a b : Z) (res : option Z) (m : mem) : bool * mem :=
  let min_v := g_max (g_merge_low (ld_vec a m) g_init_zero) (g_merge_low (ld_vec b m) g_init_zero) in
  let max_v := g_min (g_merge_high (ld_vec a m) g_init_zero) (g_merge_high (ld_vec b m) g_init_zero) in
  if negb (g_cmp_le min_v max_v)
  then (false, match res with Some r => st_vec r box2d_empty m | None => m end)
  else (true, match res with Some r => st_vec r (g_merge_low min_v max_v) m | None => m end).
(* ray.c:349-370: point and result are locals *)
(* src/graphene-ray.c:349-370, graphene_ray_get_closest_point_to_point *)
Definition c_ray_get_closest_point_to_point (r p res : Z) (m : mem) : mem :=
  let point := point3d_to_vec3 (ld_point3d p m) in
  let distance := vec3_dot (vec3_subtract point (ld_vec r m)) (ld_vec (r + 4) m) in
  c_point3d_init_from_simd4f res
    (if flt distance fzero then ld_vec r m else vec3_add (vec3_scale (ld_vec (r + 4) m) distance) (ld_vec r m)) m.
End Alias.
