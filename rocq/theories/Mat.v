(** * Mat: graphene_simd4x4f_t and graphene_matrix_t.

    Models include/graphene-simd4x4f.h, src/graphene-simd4x4f.c and the parts of
    src/graphene-matrix.c that do not need quaternions (decomposition and interpolation are in Quat.v).
    A matrix is four row vectors; graphene transforms ROW vectors, v * M. *)

From Coq Require Import ZArith Bool List.
From Verif Require Import Num Simd Vec Rect Box.
Import ListNotations.
Local Open Scope f_scope.

(* graphene-config.h.meson:114-116 (graphene_simd4x4f_t), include/graphene-matrix.h *)
Record mat (F : Type) := M4 { mx : simd4f F; my : simd4f F; mz : simd4f F; mw : simd4f F }.
Arguments M4 {F}. Arguments mx {F}. Arguments my {F}. Arguments mz {F}. Arguments mw {F}.
(* graphene_ray_t (include/graphene-ray.h), graphene_quad_t (include/graphene-quad.h) *)
Record ray (F : Type) := Ry { ray_o : simd4f F; ray_d : simd4f F }.
Arguments Ry {F}. Arguments ray_o {F}. Arguments ray_d {F}.
(* include/graphene-quad.h:43-47 *)
Record quad (F : Type) := Qd { q0 : point F; q1 : point F; q2 : point F; q3 : point F }.
Arguments Qd {F}. Arguments q0 {F}. Arguments q1 {F}. Arguments q2 {F}. Arguments q3 {F}.

Section Simd4x4.
Context {F : Type} {O : FOps F} {B : Backend F}.
Notation V := (simd4f F). Notation mat := (mat F).

(* include/graphene-simd4x4f.h:72-86, graphene_simd4x4f_init *)
Definition gm_init (x y z w : V) : mat := M4 x y z w.
Definition gm_identity : mat :=                                           (* h:96-103 *)
  M4 (g_init fone fzero fzero fzero) (g_init fzero fone fzero fzero)
     (g_init fzero fzero fone fzero) (g_init fzero fzero fzero fone).
(* h:115-123: reads 16 floats; fewer is undefined behaviour *)
(* include/graphene-simd4x4f.h:115-123, graphene_simd4x4f_init_from_float *)
Definition gm_init_from_float (f : list F) : option mat :=
  match g_init_4f f, g_init_4f (skipn 4 f), g_init_4f (skipn 8 f), g_init_4f (skipn 12 f) with
  | Some x, Some y, Some z, Some w => Some (M4 x y z w)
  | _, _, _, _ => None end.
(* h:135-143: writes 16 floats *)
(* include/graphene-simd4x4f.h:135-143, graphene_simd4x4f_to_float *)
Definition gm_to_float (m : mat) (v : list F) : option (list F) :=
  if (length v <? 16)%nat then None
  else Some ([vx (mx m); vy (mx m); vz (mx m); vw (mx m);
              vx (my m); vy (my m); vz (my m); vw (my m);
              vx (mz m); vy (mz m); vz (mz m); vw (mz m);
              vx (mw m); vy (mw m); vz (mw m); vw (mw m)] ++ skipn 16 v).
(* h:145-215 and 397-403, simd4x4f.c:46-90 *)
(* include/graphene-simd4x4f.h:397-403, graphene_simd4x4f_transpose *)
Definition gm_transpose (m : mat) : mat :=
  M4 (V4 (vx (mx m)) (vx (my m)) (vx (mz m)) (vx (mw m)))
     (V4 (vy (mx m)) (vy (my m)) (vy (mz m)) (vy (mw m)))
     (V4 (vz (mx m)) (vz (my m)) (vz (mz m)) (vz (mw m)))
     (V4 (vw (mx m)) (vw (my m)) (vw (mz m)) (vw (mw m))).
(* include/graphene-simd4x4f.h:226-234, graphene_simd4x4f_sum *)
Definition gm_sum (a : mat) : V :=
  g_add (g_add (g_add (mx a) (my a)) (mz a)) (mw a).
(* include/graphene-simd4x4f.h:269-284, graphene_simd4x4f_vec4_mul *)
Definition gm_vec4_mul (a : mat) (v : V) : V :=
  g_add (g_add (g_mul (mx a) (g_splat_x v)) (g_mul (my a) (g_splat_y v)))
        (g_add (g_mul (mz a) (g_splat_z v)) (g_mul (mw a) (g_splat_w v))).
(* include/graphene-simd4x4f.h:320-334, graphene_simd4x4f_vec3_mul *)
Definition gm_vec3_mul (m : mat) (v : V) : V :=
  g_zero_w (g_add (g_add (g_mul (mx m) (g_splat_x v)) (g_mul (my m) (g_splat_y v)))
                  (g_mul (mz m) (g_splat_z v))).
(* include/graphene-simd4x4f.h:372-386, graphene_simd4x4f_point3_mul *)
Definition gm_point3_mul (m : mat) (v : V) : V :=
  g_add (g_add (g_mul (mx m) (g_splat_x v)) (g_mul (my m) (g_splat_y v)))
        (g_add (g_mul (mz m) (g_splat_z v)) (mw m)).
(* the transposed matrix with a zero last row built in include/graphene-simd4x4f.h:417-458 *)
Definition gm_zero_last (a : mat) : mat := M4 (mx a) (my a) (mz a) g_init_zero.
(* include/graphene-simd4x4f.h:417-429, graphene_simd4x4f_inv_ortho_vec3_mul *)
Definition gm_inv_ortho_vec3_mul (a : mat) (b : V) : V :=
  gm_vec3_mul (gm_transpose (gm_zero_last a)) b.
(* include/graphene-simd4x4f.h:446-458, graphene_simd4x4f_inv_ortho_point3_mul *)
Definition gm_inv_ortho_point3_mul (a : mat) (b : V) : V :=
  gm_point3_mul (gm_transpose (gm_zero_last a)) (g_sub b (mw a)).
(* include/graphene-simd4x4f.h:486-545, graphene_simd4x4f_matrix_mul *)
Definition gm_mul (a b : mat) : mat :=                                    (* the #else branch, the one compiled *)
  M4 (gm_vec4_mul b (mx a)) (gm_vec4_mul b (my a)) (gm_vec4_mul b (mz a)) (gm_vec4_mul b (mw a)).
(* include/graphene-simd4x4f.h:559-578, graphene_simd4x4f_init_perspective *)
Definition gm_init_perspective {L : LibM F} (fovy_rad aspect z_near z_far : F) : mat :=
  let delta_z := z_far -. z_near in
  let cotangent := ftan (fpi_2 -. fovy_rad *. fhalf) in
  let a := cotangent /. aspect in
  let b := cotangent in
  let c := -. (z_far +. z_near) /. delta_z in
  let d := (-. ftwo *. z_near) *. z_far /. delta_z in
  M4 (g_init a fzero fzero fzero) (g_init fzero b fzero fzero)
     (g_init fzero fzero c fm1) (g_init fzero fzero d fzero).
(* include/graphene-simd4x4f.h:594-618, graphene_simd4x4f_init_ortho *)
Definition gm_init_ortho (left right bottom top z_near z_far : F) : mat :=
  let delta_x := right -. left in
  let delta_y := top -. bottom in
  let delta_z := z_far -. z_near in
  let a := ftwo /. delta_x in
  let b := -. (right +. left) /. delta_x in
  let c := ftwo /. delta_y in
  let d := -. (top +. bottom) /. delta_y in
  let e := -. ftwo /. delta_z in
  let f := -. (z_far +. z_near) /. delta_z in
  M4 (g_init a fzero fzero fzero) (g_init fzero c fzero fzero)
     (g_init fzero fzero e fzero) (g_init b d f fone).
Definition f0001 : F := flit 13743895 (-37).                              (* 0.0001f *)
(* include/graphene-simd4x4f.h:634-678, graphene_simd4x4f_init_look_at *)
Definition gm_init_look_at {D} {DD : DOps F D} (eye center up : V) : mat :=
  let direction := g_sub center eye in
  let z_axis := if g_get_x (g_dot3 direction direction) <. feps
                then g_init fzero fzero fone fzero else g_normalize3 direction in
  let cross := g_cross3 z_axis up in
  let '(z_axis, cross) :=
    if g_get_x (g_dot3 cross cross) <. feps then
      let tweak_z := if fabs (f2d (g_get_z up) -. fone) <. f2d feps
                     then g_init f0001 fzero fzero fzero
                     else g_init fzero fzero f0001 fzero in
      let z_axis := g_normalize3 (g_add z_axis tweak_z) in
      (z_axis, g_cross3 z_axis up)
    else (z_axis, cross) in
  let x_axis := g_normalize3 cross in
  let y_axis := g_cross3 x_axis z_axis in
  M4 x_axis y_axis (g_neg z_axis) (g_init (-. vx eye) (-. vy eye) (-. vz eye) fone).
(* include/graphene-simd4x4f.h:695-716, graphene_simd4x4f_init_frustum *)
Definition gm_init_frustum (left right bottom top z_near z_far : F) : mat :=
  let x := ftwo *. z_near /. (right -. left) in
  let y := ftwo *. z_near /. (top -. bottom) in
  let a := (right +. left) /. (right -. left) in
  let b := (top +. bottom) /. (top -. bottom) in
  let c := fm1 *. (z_far +. z_near) /. (z_far -. z_near) in
  let d := (-. ftwo *. z_far) *. z_near /. (z_far -. z_near) in
  M4 (g_init x fzero fzero fzero) (g_init fzero y fzero fzero)
     (g_init a b c fm1) (g_init fzero fzero d fzero).
(* include/graphene-simd4x4f.h:727-769, graphene_simd4x4f_perspective *)
Definition gm_perspective (m : mat) (depth : F) : mat :=                  (* h:727-769, #if 1 *)
  let row (v : V) := let p := g_get_z v +. (fm1 /. depth) *. g_get_w v in
                     g_merge_w v (g_get_w v +. p) in
  M4 (row (mx m)) (row (my m)) (row (mz m)) (row (mw m)).
(* include/graphene-simd4x4f.h:782-792, graphene_simd4x4f_translation *)
Definition gm_translation (x y z : F) : mat :=
  M4 (g_init fone fzero fzero fzero) (g_init fzero fone fzero fzero)
     (g_init fzero fzero fone fzero) (g_init x y z fone).
(* include/graphene-simd4x4f.h:806-817, graphene_simd4x4f_scale *)
Definition gm_scale (x y z : F) : mat :=
  M4 (g_init x fzero fzero fzero) (g_init fzero y fzero fzero)
     (g_init fzero fzero z fzero) (g_init fzero fzero fzero fone).
(* include/graphene-simd4x4f.h:830-867, graphene_simd4x4f_rotation *)
Definition gm_rotation {L : LibM F} (rad : F) (axis : V) : mat :=
  let rad := -. rad in
  let axis := g_normalize3 axis in
  let sine := fsin rad in
  let cosine := fcos rad in
  let x := g_get_x axis in let y := g_get_y axis in let z := g_get_z axis in
  let ab := (x *. y) *. (fone -. cosine) in
  let bc := (y *. z) *. (fone -. cosine) in
  let ca := (z *. x) *. (fone -. cosine) in
  let tx := x *. x in let ty := y *. y in let tz := z *. z in
  M4 (g_init (tx +. cosine *. (fone -. tx)) (ab -. z *. sine) (ca +. y *. sine) fzero)
     (g_init (ab +. z *. sine) (ty +. cosine *. (fone -. ty)) (bc -. x *. sine) fzero)
     (g_init (ca -. y *. sine) (bc +. x *. sine) (tz +. cosine *. (fone -. tz)) fzero)
     (g_init fzero fzero fzero fone).
(* the four row operations of include/graphene-simd4x4f.h:879-953 *)
Definition gm_lift2 (f : V -> V -> V) (a b : mat) : mat :=
  M4 (f (mx a) (mx b)) (f (my a) (my b)) (f (mz a) (mz b)) (f (mw a) (mw b)).
(* include/graphene-simd4x4f.h:879-888, graphene_simd4x4f_add *)
Definition gm_add := gm_lift2 g_add.
(* include/graphene-simd4x4f.h:900-909, graphene_simd4x4f_sub *)
Definition gm_sub := gm_lift2 g_sub.
Definition gm_hadamard := gm_lift2 g_mul.                                 (* include/graphene-simd4x4f.h:923-932, graphene_simd4x4f_mul *)
(* include/graphene-simd4x4f.h:944-953, graphene_simd4x4f_div *)
Definition gm_div := gm_lift2 g_div.

(* h:966-1054 and 1067-1117 share the following subexpressions *)
(* ar1,ar2,ar3 for rows (r2,r3); br1.. for rows (r0,r1): h:993-1013, 1088-1097 *)
Definition minor1 (p q : V) : V :=
  g_sub (g_shuffle_wxyz (g_mul (g_shuffle_wxyz p) (g_shuffle_zwxy q)))
        (g_shuffle_zwxy (g_mul (g_shuffle_wxyz p) q)).
(* include/graphene-simd4x4f.h:991-1117, the second product pattern of the 2x2 minors *)
Definition minor2 (p q : V) : V :=
  g_sub (g_shuffle_zwxy (g_mul (g_shuffle_wxyz p) (g_shuffle_yzwx q)))
        (g_mul (g_shuffle_wxyz p) (g_shuffle_yzwx q)).
(* include/graphene-simd4x4f.h:991-1117, the third product pattern of the 2x2 minors *)
Definition minor3 (p q : V) : V :=
  g_sub (g_mul (g_shuffle_wxyz p) (g_shuffle_zwxy q))
        (g_shuffle_wxyz (g_mul (g_shuffle_wxyz p) q)).
(* r0_sum, r2_sum, r3_sum: h:1015-1018, 1023-1030 *)
Definition sum_a (r n1 n2 n3 : V) : V :=
  g_madd (g_shuffle_yzwx r) n3 (g_madd (g_shuffle_zwxy r) n2 (g_mul (g_shuffle_wxyz r) n1)).
(* r1_sum: h:1019-1022, 1099-1102 *)
Definition sum_b (r n1 n2 n3 : V) : V :=
  g_madd (g_shuffle_wxyz r) n1 (g_madd (g_shuffle_zwxy r) n2 (g_mul (g_shuffle_yzwx r) n3)).
(* include/graphene-simd4x4f.h:991-1117, the row sums shared by inverse and determinant *)
Definition gm_r1_sum (m : mat) : V :=
  sum_b (my m) (minor1 (mz m) (mw m)) (minor2 (mz m) (mw m)) (minor3 (mz m) (mw m)).
Definition gm_det_v (m : mat) : V :=                                      (* h:1033-1035, 1105-1108 *)
  let d0 := g_mul (gm_r1_sum m) (mx m) in
  let d1 := g_add d0 (g_merge_high d0 d0) in
  g_sub d1 (g_splat_y d1).
(* h:966-1054; [None] is the return value false, with *res untouched *)
(* include/graphene-simd4x4f.h:966-1054, graphene_simd4x4f_inverse *)
Definition gm_inverse (m : mat) : option mat :=
  let r0 := mx m in let r1 := my m in let r2 := mz m in let r3 := mw m in
  let ar1 := minor1 r2 r3 in let ar2 := minor2 r2 r3 in let ar3 := minor3 r2 r3 in
  let br1 := minor1 r0 r1 in let br2 := minor2 r0 r1 in let br3 := minor3 r0 r1 in
  let r0_sum := sum_a r0 ar1 ar2 ar3 in
  let r1_sum := sum_b r1 ar1 ar2 ar3 in
  let r2_sum := sum_a r2 br1 br2 br3 in
  let r3_sum := sum_a r3 br1 br2 br3 in
  let d0 := g_mul r1_sum r0 in
  let d1 := g_add d0 (g_merge_high d0 d0) in
  let det := g_sub d1 (g_splat_y d1) in
  if fabs (g_get_x det) >=. feps then
    let invdet := g_splat_x (g_div (g_splat fone) det) in
    let o0 := g_mul (g_flip_sign_0101 r1_sum) invdet in
    let o1 := g_mul (g_flip_sign_1010 r0_sum) invdet in
    let o2 := g_mul (g_flip_sign_0101 r3_sum) invdet in
    let o3 := g_mul (g_flip_sign_1010 r2_sum) invdet in
    Some (gm_transpose (gm_init o0 o1 o2 o3))
  else None.
(* include/graphene-simd4x4f.h:1067-1117, graphene_simd4x4f_determinant *)
Definition gm_determinant (m : mat) : V := gm_det_v m.                    (* h:1067-1117, *det_r *)
Definition gm_invdet (m : mat) : V :=                                     (* h:1110, *invdet_r *)
  g_splat_x (g_div (g_splat fone) (gm_det_v m)).
(* include/graphene-simd4x4f.h:1129-1141, graphene_simd4x4f_is_identity *)
Definition gm_is_identity (m : mat) : bool :=
  g_cmp_eq (mx m) (g_init fone fzero fzero fzero) && g_cmp_eq (my m) (g_init fzero fone fzero fzero) &&
  g_cmp_eq (mz m) (g_init fzero fzero fone fzero) && g_cmp_eq (mw m) (g_init fzero fzero fzero fone).
(* include/graphene-simd4x4f.h:1155-1177, graphene_simd4x4f_is_2d *)
Definition gm_is_2d (m : mat) : bool :=
  (fabs (vz (mx m)) <. feps) && (fabs (vw (mx m)) <. feps) &&
  (fabs (vz (my m)) <. feps) && (fabs (vw (my m)) <. feps) &&
  ((fabs (vx (mz m)) <. feps) && (fabs (vy (mz m)) <. feps) &&
   (fone -. fabs (vz (mz m)) <. feps) && (fabs (vw (mz m)) <. feps)) &&
  ((fabs (vz (mw m)) <. feps) && (fone -. fabs (vw (mw m)) <. feps)).
End Simd4x4.

(** ** graphene_matrix_t: src/graphene-matrix.c *)
Section Matrix.
Context {F : Type} {O : FOps F} {B : Backend F}.
Notation V := (simd4f F). Notation mat := (mat F).
Notation point := (point F). Notation point3d := (point3d F). Notation rect := (rect F).
Notation sphere := (sphere F). Notation box := (box F).

(* src/graphene-matrix.c:148-153, graphene_matrix_to_float *)
Definition matrix_to_float (m : mat) (v : list F) := gm_to_float m v.
(* src/graphene-matrix.c:172-178, graphene_matrix_init_identity *)
Definition matrix_init_identity : mat := gm_identity.
(* src/graphene-matrix.c:193-200, graphene_matrix_init_from_float *)
Definition matrix_init_from_float (v : list F) : option mat := gm_init_from_float v.
(* src/graphene-matrix.c:217-230, graphene_matrix_init_from_vec4 *)
Definition matrix_init_from_vec4 (v0 v1 v2 v3 : V) : mat := gm_init v0 v1 v2 v3.
(* src/graphene-matrix.c:244-251, graphene_matrix_init_from_matrix *)
Definition matrix_init_from_matrix (src : mat) : mat := src.
(* src/graphene-matrix.c:267-279, graphene_matrix_init_perspective *)
Definition matrix_init_perspective {L : LibM F} (fovy aspect z_near z_far : F) : mat :=
  gm_init_perspective (deg_to_rad fovy) aspect z_near z_far.
(* 297-309; the caller's top and bottom arrive as the callee's bottom and top *)
(* src/graphene-matrix.c:297-309, graphene_matrix_init_ortho *)
Definition matrix_init_ortho (left right top bottom z_near z_far : F) : mat :=
  gm_init_ortho left right top bottom z_near z_far.
(* src/graphene-matrix.c:340-349, graphene_matrix_init_look_at *)
Definition matrix_init_look_at {D} {DD : DOps F D} (eye center up : V) : mat :=
  gm_init_look_at eye center up.
(* src/graphene-matrix.c:369-381, graphene_matrix_init_frustum *)
Definition matrix_init_frustum (left right bottom top z_near z_far : F) : mat :=
  gm_init_frustum left right bottom top z_near z_far.
(* src/graphene-matrix.c:396-409, graphene_matrix_init_scale *)
Definition matrix_init_scale (x y z : F) : mat := gm_scale x y z.
(* src/graphene-matrix.c:423-434, graphene_matrix_init_translate *)
Definition matrix_init_translate (p : point3d) : mat :=
  gm_translation (p3x p) (p3y p) (p3z p).
(* src/graphene-matrix.c:449-466, graphene_matrix_init_skew *)
Definition matrix_init_skew {L : LibM F} (x_skew y_skew : F) : mat :=
  let t_x := ftan x_skew in let t_y := ftan y_skew in
  M4 (g_init fone t_y fzero fzero) (g_init t_x fone fzero fzero)
     (g_init fzero fzero fone fzero) (g_init fzero fzero fzero fone).
(* src/graphene-matrix.c:481-491, graphene_matrix_init_rotate *)
Definition matrix_init_rotate {L : LibM F} (angle : F) (axis : V) : mat :=
  gm_rotation (deg_to_rad angle) axis.
(* src/graphene-matrix.c:503-507, graphene_matrix_is_identity *)
Definition matrix_is_identity (m : mat) : bool := gm_is_identity m.
(* src/graphene-matrix.c:521-553, graphene_matrix_is_2d *)
Definition matrix_is_2d (m : mat) : bool := gm_is_2d m.
(* src/graphene-matrix.c:565-575, graphene_matrix_is_backface_visible *)
Definition matrix_is_backface_visible (m : mat) : bool :=
  match gm_inverse m with None => false | Some tmp => g_get_z (mz tmp) <. fzero end.
(* src/graphene-matrix.c:843-851, graphene_matrix_determinant *)
Definition matrix_determinant (m : mat) : F := g_get_x (gm_determinant m).
(* src/graphene-matrix.c:587-595, graphene_matrix_is_singular *)
Definition matrix_is_singular (m : mat) : bool :=
  fabs (g_get_x (gm_determinant m)) <=. feps.
(* src/graphene-matrix.c:625-640, graphene_matrix_init_from_2d *)
Definition matrix_init_from_2d {D} {DD : DOps F D} (xx yx xy yy x_0 y_0 : D) : mat :=
  M4 (g_init (d2f xx) (d2f yx) fzero fzero) (g_init (d2f xy) (d2f yy) fzero fzero)
     (g_init fzero fzero fone fzero) (g_init (d2f x_0) (d2f y_0) fzero fone).
(* 671-704; [None] is the return value false; the outputs in order xx yx xy yy x_0 y_0
   (all out parameters non-NULL) *)
(* src/graphene-matrix.c:671-704, graphene_matrix_to_2d *)
Definition matrix_to_2d {D} {DD : DOps F D} (m : mat) : option (D * D * D * D * D * D) :=
  if negb (gm_is_2d m) then None
  else Some (f2d (vx (mx m)), f2d (vy (mx m)), f2d (vx (my m)), f2d (vy (my m)),
             f2d (vx (mw m)), f2d (vy (mw m))).
(* src/graphene-matrix.c:717-744, graphene_matrix_get_row *)
Definition matrix_get_row (m : mat) (i : nat) : V :=
  match i with 0 => mx m | 1 => my m | 2 => mz m | 3 => mw m | _ => g_init_zero end%nat.
(* src/graphene-matrix.c:758-809, graphene_matrix_get_value *)
Definition matrix_get_value (m : mat) (row col : nat) : F :=
  if ((3 <? row) || (3 <? col))%nat then fzero else g_get (matrix_get_row m row) col.
(* src/graphene-matrix.c:825-831, graphene_matrix_multiply *)
Definition matrix_multiply (a b : mat) : mat := gm_mul a b.
(* src/graphene-matrix.c:869-875, graphene_matrix_transform_vec3 *)
Definition matrix_transform_vec3 (m : mat) (v : V) : V := gm_vec3_mul m v.
(* src/graphene-matrix.c:889-895, graphene_matrix_transform_vec4 *)
Definition matrix_transform_vec4 (m : mat) (v : V) : V := gm_vec4_mul m v.
(* src/graphene-matrix.c:914-926, graphene_matrix_transform_point *)
Definition matrix_transform_point (m : mat) (p : point) : point :=
  let r := gm_point3_mul m (g_init (px p) (py p) fzero fone) in Pt (g_get_x r) (g_get_y r).
(* src/graphene-matrix.c:944-957, graphene_matrix_transform_point3d *)
Definition matrix_transform_point3d (m : mat) (p : point3d) : point3d :=
  let r := gm_point3_mul m (g_init (p3x p) (p3y p) (p3z p) fone) in
  P3 (g_get_x r) (g_get_y r) (g_get_z r).
(* TRANSFORM_POINT, 984-991 and 1032-1039 *)
Definition transform_corner (m : mat) (p : point) : point :=
  let s := gm_vec4_mul m (g_init (px p) (py p) fzero fone) in Pt (g_get_x s) (g_get_y s).
(* src/graphene-matrix.c:974-1001, graphene_matrix_transform_rect *)
Definition matrix_transform_rect (m : mat) (r : rect) : quad F :=
  let rr := rect_normalize r in
  Qd (transform_corner m (rect_get_top_left rr)) (transform_corner m (rect_get_top_right rr))
     (transform_corner m (rect_get_bottom_right rr)) (transform_corner m (rect_get_bottom_left rr)).
(* the bounds of four points: 1065-1077, 1234-1242 and src/graphene-quad.c:185-203 *)
Definition points_bounds (a b c d : point) : rect :=
  let v_x := g_init (px a) (px b) (px c) (px d) in
  let v_y := g_init (py a) (py b) (py c) (py d) in
  let min_x := g_get_x (g_min_val v_x) in let min_y := g_get_x (g_min_val v_y) in
  let max_x := g_get_x (g_max_val v_x) in let max_y := g_get_x (g_max_val v_y) in
  rect_init min_x min_y (max_x -. min_x) (max_y -. min_y).
(* src/graphene-matrix.c:1019-1078, graphene_matrix_transform_bounds *)
Definition matrix_transform_bounds (m : mat) (r : rect) : rect :=
  let rr := rect_normalize r in
  points_bounds (transform_corner m (rect_get_top_left rr)) (transform_corner m (rect_get_top_right rr))
     (transform_corner m (rect_get_bottom_right rr)) (transform_corner m (rect_get_bottom_left rr)).
(* src/graphene-matrix.c:1092-1106, graphene_matrix_transform_sphere *)
Definition matrix_transform_sphere (m : mat) (s : sphere) : sphere :=
  let max_scale := ffmax (ffmax (g_dot3_scalar (mx m) (mx m)) (g_dot3_scalar (my m) (my m)))
                         (g_dot3_scalar (mz m) (mz m)) in
  Sp (gm_point3_mul m (scenter s)) (sradius s *. fsqrt max_scale).
(* src/graphene-matrix.c:1122-1135, graphene_matrix_transform_box *)
Definition matrix_transform_box (m : mat) (b : box) : box :=
  box_init_from_vectors (map (gm_point3_mul m) (box_get_vertices b)).
(* src/graphene-ray.c:150-166, graphene_ray_init_from_vec3 *)
Definition ray_init_from_vec3 (origin direction : option V) : ray F :=
  Ry (match origin with Some o => o | None => vec3_zero end)
     (match direction with Some d => vec3_normalize d | None => vec3_zero end).
(* src/graphene-matrix.c:1148-1163, graphene_matrix_transform_ray *)
Definition matrix_transform_ray (m : mat) (r : ray F) : ray F :=
  let origin4 := matrix_transform_vec4 m (vec4_init_from_vec3 (ray_o r) fone) in
  let origin := vec4_get_xyz origin4 in
  let direction := matrix_transform_vec3 m (ray_d r) in
  ray_init_from_vec3 (Some origin) (Some direction).
(* src/graphene-matrix.c:1176-1197, graphene_matrix_project_point *)
Definition matrix_project_point (m : mat) (p : point) : point :=
  let pa := gm_vec3_mul m (g_init (px p) (py p) fzero fzero) in
  let pb := gm_vec3_mul m (g_init (px p) (py p) fone fzero) in
  let pc := g_sub pa pb in
  let t := -. vz pa /. vz pc in
  Pt (vx pa +. t *. vx pc) (vy pa +. t *. vy pc).
(* src/graphene-matrix.c:1213-1243, graphene_matrix_project_rect_bounds *)
Definition matrix_project_rect_bounds (m : mat) (r : rect) : rect :=
  let rr := rect_normalize r in
  points_bounds (matrix_project_point m (rect_get_top_left rr))
    (matrix_project_point m (rect_get_top_right rr))
    (matrix_project_point m (rect_get_bottom_left rr))
    (matrix_project_point m (rect_get_bottom_right rr)).
(* src/graphene-matrix.c:1258-1281, graphene_matrix_project_rect *)
Definition matrix_project_rect (m : mat) (r : rect) : quad F :=
  let rr := rect_normalize r in
  Qd (matrix_project_point m (rect_get_top_left rr))
    (matrix_project_point m (rect_get_top_right rr))
    (matrix_project_point m (rect_get_bottom_left rr))
    (matrix_project_point m (rect_get_bottom_right rr)).
(* src/graphene-matrix.c:1691-1696, graphene_matrix_inverse *)
Definition matrix_inverse (m : mat) : option mat := gm_inverse m.
(* 1298-1326; [None] is the return value false, *res untouched *)
(* src/graphene-matrix.c:1298-1326, graphene_matrix_untransform_point *)
Definition matrix_untransform_point (m : mat) (p : point) (bounds : rect) : option point :=
  if matrix_is_2d m then
    match matrix_inverse m with
    | None => None
    | Some inverse => Some (matrix_transform_point inverse p) end
  else if negb (rect_contains_point (matrix_transform_bounds m bounds) p) then None
  else match matrix_inverse m with
    | None => None
    | Some inverse => Some (matrix_project_point inverse p) end.
(* 1341-1371; [None]: returns without writing *res *)
(* src/graphene-matrix.c:1341-1371, graphene_matrix_untransform_bounds *)
Definition matrix_untransform_bounds (m : mat) (r bounds : rect) : option rect :=
  if matrix_is_2d m then
    match matrix_inverse m with
    | None => None
    | Some inverse => Some (matrix_transform_bounds inverse r) end
  else let (ok, rect) := rect_intersection r (matrix_transform_bounds m bounds) in
    if negb ok then Some (rect_init fzero fzero fzero fzero)
    else match matrix_inverse m with
      | None => None
      | Some inverse => Some (matrix_project_rect_bounds inverse rect) end.
(* 1387-1411; [None]: returns without writing *res *)
(* src/graphene-matrix.c:1387-1411, graphene_matrix_unproject_point3d *)
Definition matrix_unproject_point3d (projection modelview : mat) (point : point3d) : option point3d :=
  match gm_inverse projection with
  | None => None
  | Some tmp =>
      let tmp := gm_mul tmp modelview in
      let v := gm_vec4_mul tmp (g_init (p3x point) (p3y point) (p3z point) fone) in
      let inv_w := fone /. g_get_w v in
      let v := g_mul v (g_splat inv_w) in
      Some (P3 (vx v) (vy v) (vz v))
  end.
(* src/graphene-matrix.c:1426-1434, graphene_matrix_translate *)
Definition matrix_translate (m : mat) (pos : point3d) : mat :=
  gm_mul m (gm_translation (p3x pos) (p3y pos) (p3z pos)).
(* src/graphene-matrix.c:1479-1488, graphene_matrix_rotate_internal *)
Definition matrix_rotate_internal {L : LibM F} (m : mat) (rad : F) (axis : V) : mat :=
  gm_mul m (gm_rotation rad axis).
(* src/graphene-matrix.c:1504-1510, graphene_matrix_rotate *)
Definition matrix_rotate {L : LibM F} (m : mat) (angle : F) (axis : V) : mat :=
  matrix_rotate_internal m (deg_to_rad angle) axis.
(* src/graphene-matrix.c:1524-1530, graphene_matrix_rotate_x *)
Definition matrix_rotate_x {L : LibM F} (m : mat) (angle : F) : mat :=
  matrix_rotate_internal m (deg_to_rad angle) (g_init fone fzero fzero fzero).
(* src/graphene-matrix.c:1544-1550, graphene_matrix_rotate_y *)
Definition matrix_rotate_y {L : LibM F} (m : mat) (angle : F) : mat :=
  matrix_rotate_internal m (deg_to_rad angle) (g_init fzero fone fzero fzero).
(* src/graphene-matrix.c:1564-1570, graphene_matrix_rotate_z *)
Definition matrix_rotate_z {L : LibM F} (m : mat) (angle : F) : mat :=
  matrix_rotate_internal m (deg_to_rad angle) (g_init fzero fzero fone fzero).
(* src/graphene-matrix.c:1587-1597, graphene_matrix_scale *)
Definition matrix_scale (m : mat) (fx fy fz : F) : mat := gm_mul m (gm_scale fx fy fz).
(* src/graphene-matrix.c:1608-1618, graphene_matrix_skew_xy *)
Definition matrix_skew_xy (m : mat) (factor : F) : mat :=
  M4 (mx m) (g_madd (mx m) (g_splat factor) (my m)) (mz m) (mw m).
(* src/graphene-matrix.c:1629-1639, graphene_matrix_skew_xz *)
Definition matrix_skew_xz (m : mat) (factor : F) : mat :=
  M4 (mx m) (my m) (g_madd (mx m) (g_splat factor) (mz m)) (mw m).
(* src/graphene-matrix.c:1650-1660, graphene_matrix_skew_yz *)
Definition matrix_skew_yz (m : mat) (factor : F) : mat :=
  M4 (mx m) (my m) (g_madd (my m) (g_splat factor) (mz m)) (mw m).
(* src/graphene-matrix.c:1672-1677, graphene_matrix_transpose *)
Definition matrix_transpose (m : mat) : mat := gm_transpose m.
(* src/graphene-matrix.c:1709-1718, graphene_matrix_perspective *)
Definition matrix_perspective (m : mat) (depth : F) : mat := gm_perspective m depth.
(* 1729-1745; [None]: returns without writing *res *)
(* src/graphene-matrix.c:1729-1745, graphene_matrix_normalize *)
Definition matrix_normalize (m : mat) : option mat :=
  let ww := g_get_w (mw m) in
  if approx_val ww fzero then None
  else let n := g_splat (fone /. ww) in
    Some (M4 (g_mul (mx m) n) (g_mul (my m) n) (g_mul (mz m) n) (g_mul (mw m) n)).
(* src/graphene-matrix.c:1757-1761, graphene_matrix_get_x_translation *)
Definition matrix_get_x_translation (m : mat) : F := g_get_x (mw m).
(* src/graphene-matrix.c:1773-1777, graphene_matrix_get_y_translation *)
Definition matrix_get_y_translation (m : mat) : F := g_get_y (mw m).
(* src/graphene-matrix.c:1789-1793, graphene_matrix_get_z_translation *)
Definition matrix_get_z_translation (m : mat) : F := g_get_z (mw m).
(* src/graphene-matrix.c:1805-1809, graphene_matrix_get_x_scale *)
Definition matrix_get_x_scale (m : mat) : F := g_get_x (mx m).
(* src/graphene-matrix.c:1821-1825, graphene_matrix_get_y_scale *)
Definition matrix_get_y_scale (m : mat) : F := g_get_y (my m).
(* src/graphene-matrix.c:1837-1841, graphene_matrix_get_z_scale *)
Definition matrix_get_z_scale (m : mat) : F := g_get_z (mz m).
(* src/graphene-matrix.c:2329-2352, graphene_matrix_near *)
Definition matrix_near (same : bool) (a b : option mat) (epsilon : F) : bool :=
  if same then true
  else match a, b with
  | Some a, Some b =>
      forallb (fun i => vec4_near (matrix_get_row a i) (matrix_get_row b i) epsilon) [0;1;2;3]%nat
  | _, _ => false end.
(* src/graphene-matrix.c:2365-2370, graphene_matrix_equal *)
Definition matrix_equal (same : bool) (a b : option mat) : bool := matrix_near same a b feps.
End Matrix.

(* 2405-2410, memcmp: bitwise equality of the sixteen floats.  In the binary32
   model equal bits are equal values of the type, except that all NaN bit patterns
   are one value (so this model answers "equal" for two NaNs of different payload). *)
(* src/graphene-matrix.c:2405-2410, graphene_matrix_equal_fast *)
Definition matrix_equal_fast {F} (dec : forall x y : F, {x = y} + {x <> y}) (a b : mat F) : bool :=
  let e := fun x y => if dec x y then true else false in
  let ev := fun u v => e (vx u) (vx v) && e (vy u) (vy v) && e (vz u) (vz v) && e (vw u) (vw v) in
  ev (mx a) (mx b) && ev (my a) (my b) && ev (mz a) (mz b) && ev (mw a) (mw b).
