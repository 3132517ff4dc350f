(** * Vec: graphene_vec2_t, graphene_vec3_t, graphene_vec4_t.

    Models src/graphene-vectors.c.  All three types wrap one four-lane vector
    ([value]); a vec2 "is" the lanes x,y and a vec3 the lanes x,y,z, the remaining
    lanes being hidden state.  An output parameter becomes the returned value. *)

From Coq Require Import ZArith Bool List.
From Verif Require Import Num Simd.
Local Open Scope f_scope.

Section Vec.
Context {F : Type} {O : FOps F} {B : Backend F}.
Notation V := (simd4f F).

(* src/graphene-private.h:172-189, graphene_pointer_equal.  [same] says whether the
   two pointers are equal; a NULL pointer is [None].  (func is never NULL here.) *)
(* src/graphene-private.h:174-189, graphene_pointer_equal *)
Definition pointer_equal {A} (same : bool) (p1 p2 : option A) (func : A -> A -> bool) : bool :=
  if same then true
  else match p1, p2 with Some a, Some b => func a b | _, _ => false end.

(** ** vec2: src/graphene-vectors.c:50-625 *)
(* src/graphene-vectors.c:104-112, graphene_vec2_init *)
Definition vec2_init (x y : F) : V := g_init x y fzero fzero.
(* src/graphene-vectors.c:125-132, graphene_vec2_init_from_vec2 *)
Definition vec2_init_from_vec2 (src : V) : V := src.
(* src/graphene-vectors.c:146-153, graphene_vec2_init_from_float *)
Definition vec2_init_from_float (src : list F) : option V := g_init_2f src.
(* src/graphene-vectors.c:165-169, graphene_vec2_get_x *)
Definition vec2_get_x (v : V) : F := g_get_x v.
(* src/graphene-vectors.c:181-185, graphene_vec2_get_y *)
Definition vec2_get_y (v : V) : F := g_get_y v.
(* src/graphene-vectors.c:197-202, graphene_vec2_to_float *)
Definition vec2_to_float (v : V) (dst : list F) := g_dup_2f v dst.
(* src/graphene-vectors.c:215-221, graphene_vec2_add *)
Definition vec2_add (a b : V) : V := g_add a b.
(* src/graphene-vectors.c:235-241, graphene_vec2_subtract *)
Definition vec2_subtract (a b : V) : V := g_sub a b.
(* src/graphene-vectors.c:254-260, graphene_vec2_multiply *)
Definition vec2_multiply (a b : V) : V := g_mul a b.
(* src/graphene-vectors.c:274-280, graphene_vec2_divide *)
Definition vec2_divide (a b : V) : V := g_div a b.
(* src/graphene-vectors.c:293-298, graphene_vec2_dot *)
Definition vec2_dot (a b : V) : F := g_get_x (g_dot2 a b).
(* src/graphene-vectors.c:310-314, graphene_vec2_length *)
Definition vec2_length (v : V) : F := g_get_x (g_length2 v).
(* src/graphene-vectors.c:326-334, graphene_vec2_normalize *)
Definition vec2_normalize (v : V) : V :=
  if fabs (vec2_length v) >. feps then g_normalize2 v else g_init_zero.
(* src/graphene-vectors.c:347-353, graphene_vec2_min *)
Definition vec2_min (a b : V) : V := g_min a b.
(* src/graphene-vectors.c:366-372, graphene_vec2_max *)
Definition vec2_max (a b : V) : V := g_max a b.
(* src/graphene-vectors.c:384-390, graphene_vec2_scale *)
Definition vec2_scale (v : V) (factor : F) : V := g_mul v (g_splat factor).
(* src/graphene-vectors.c:401-406, graphene_vec2_negate *)
Definition vec2_negate (v : V) : V := g_neg v.
(* src/graphene-vectors.c:452-461, graphene_vec2_near *)
Definition vec2_near (v1 v2 : V) (epsilon : F) : bool :=
  let d := g_sub v1 v2 in
  let epsilon_sq := epsilon *. epsilon in
  g_get_x (g_dot2 d d) <. epsilon_sq.
(* src/graphene-vectors.c:408-419, vec2_equal *)
Definition vec2_equal_fn (v1 v2 : V) : bool :=
  if g_cmp_eq v1 v2 then true else vec2_near v1 v2 feps.
(* src/graphene-vectors.c:432-437, graphene_vec2_equal *)
Definition vec2_equal (same : bool) (p1 p2 : option V) : bool :=
  pointer_equal same p1 p2 vec2_equal_fn.
(* src/graphene-vectors.c:474-481, graphene_vec2_interpolate *)
Definition vec2_interpolate {D} {DD : DOps F D} (v1 v2 : V) (factor : D) : V :=
  g_interpolate v1 v2 (d2f factor).

(** ** vec3: src/graphene-vectors.c:628-1348 *)
(* src/graphene-vectors.c:682-691, graphene_vec3_init *)
Definition vec3_init (x y z : F) : V := g_init x y z fzero.
(* src/graphene-vectors.c:705-712, graphene_vec3_init_from_vec3 *)
Definition vec3_init_from_vec3 (src : V) : V := src.
(* src/graphene-vectors.c:725-732, graphene_vec3_init_from_float *)
Definition vec3_init_from_float (src : list F) : option V := g_init_3f src.
(* src/graphene-vectors.c:744-748, graphene_vec3_get_x *)
Definition vec3_get_x (v : V) : F := g_get_x v.
(* src/graphene-vectors.c:760-764, graphene_vec3_get_y *)
Definition vec3_get_y (v : V) : F := g_get_y v.
(* src/graphene-vectors.c:776-780, graphene_vec3_get_z *)
Definition vec3_get_z (v : V) : F := g_get_z v.
(* src/graphene-vectors.c:792-797, graphene_vec3_to_float *)
Definition vec3_to_float (v : V) (dst : list F) := g_dup_3f v dst.
(* src/graphene-vectors.c:809-815, graphene_vec3_add *)
Definition vec3_add (a b : V) : V := g_add a b.
(* src/graphene-vectors.c:829-835, graphene_vec3_subtract *)
Definition vec3_subtract (a b : V) : V := g_sub a b.
(* src/graphene-vectors.c:847-853, graphene_vec3_multiply *)
Definition vec3_multiply (a b : V) : V := g_mul a b.
(* src/graphene-vectors.c:867-873, graphene_vec3_divide *)
Definition vec3_divide (a b : V) : V := g_div a b.
(* src/graphene-vectors.c:885-891, graphene_vec3_cross *)
Definition vec3_cross (a b : V) : V := g_cross3 a b.
(* src/graphene-vectors.c:904-909, graphene_vec3_dot *)
Definition vec3_dot (a b : V) : F := g_dot3_scalar a b.
(* src/graphene-vectors.c:921-925, graphene_vec3_length *)
Definition vec3_length (v : V) : F := g_get_x (g_length3 v).
(* src/graphene-vectors.c:936-944, graphene_vec3_normalize *)
Definition vec3_normalize (v : V) : V :=
  if fabs (vec3_length v) >. feps then g_normalize3 v else g_init_zero.
(* src/graphene-vectors.c:957-963, graphene_vec3_min *)
Definition vec3_min (a b : V) : V := g_min a b.
(* src/graphene-vectors.c:976-982, graphene_vec3_max *)
Definition vec3_max (a b : V) : V := g_max a b.
(* src/graphene-vectors.c:994-1000, graphene_vec3_scale *)
Definition vec3_scale (v : V) (factor : F) : V := g_mul v (g_splat factor).
(* src/graphene-vectors.c:1012-1017, graphene_vec3_get_xy *)
Definition vec3_get_xy (v : V) : V := g_zero_zw v.
(* src/graphene-vectors.c:1029-1034, graphene_vec3_get_xy0 *)
Definition vec3_get_xy0 (v : V) : V := g_zero_zw v.
(* src/graphene-vectors.c:1046-1051, graphene_vec3_get_xyz0 *)
Definition vec3_get_xyz0 (v : V) : V := g_zero_w v.
(* src/graphene-vectors.c:1063-1069, graphene_vec3_get_xyz1 *)
Definition vec3_get_xyz1 (v : V) : V :=
  g_add (g_zero_w v) (g_init fzero fzero fzero fone).
(* src/graphene-vectors.c:1082-1089, graphene_vec3_get_xyzw *)
Definition vec3_get_xyzw (v : V) (w : F) : V :=
  g_add (g_zero_w v) (g_init fzero fzero fzero w).
(* src/graphene-vectors.c:1100-1105, graphene_vec3_negate *)
Definition vec3_negate (v : V) : V := g_neg v.
(* src/graphene-vectors.c:1151-1160, graphene_vec3_near *)
Definition vec3_near (v1 v2 : V) (epsilon : F) : bool :=
  let d := g_sub v1 v2 in
  let epsilon_sq := epsilon *. epsilon in
  g_dot3_scalar d d <. epsilon_sq.
(* src/graphene-vectors.c:1107-1118, vec3_equal *)
Definition vec3_equal_fn (v1 v2 : V) : bool :=
  if g_cmp_eq v1 v2 then true else vec3_near v1 v2 feps.
(* src/graphene-vectors.c:1131-1136, graphene_vec3_equal *)
Definition vec3_equal (same : bool) (p1 p2 : option V) : bool :=
  pointer_equal same p1 p2 vec3_equal_fn.
(* src/graphene-vectors.c:1173-1180, graphene_vec3_interpolate *)
Definition vec3_interpolate {D} {DD : DOps F D} (v1 v2 : V) (factor : D) : V :=
  g_interpolate v1 v2 (d2f factor).

(** ** vec4: src/graphene-vectors.c:1350-2086 *)
(* src/graphene-vectors.c:1405-1415, graphene_vec4_init *)
Definition vec4_init (x y z w : F) : V := g_init x y z w.
(* src/graphene-vectors.c:1429-1436, graphene_vec4_init_from_vec4 *)
Definition vec4_init_from_vec4 (src : V) : V := src.
(* src/graphene-vectors.c:1451-1459, graphene_vec4_init_from_vec3 *)
Definition vec4_init_from_vec3 (src : V) (w : F) : V := g_merge_w src w.
(* src/graphene-vectors.c:1475-1484, graphene_vec4_init_from_vec2 *)
Definition vec4_init_from_vec2 (src : V) (z w : F) : V :=
  g_merge_low src (g_init z w fzero fzero).
(* src/graphene-vectors.c:1497-1504, graphene_vec4_init_from_float *)
Definition vec4_init_from_float (src : list F) : option V := g_init_4f src.
(* src/graphene-vectors.c:1516-1520, graphene_vec4_get_x *)
Definition vec4_get_x (v : V) : F := g_get_x v.
(* src/graphene-vectors.c:1532-1536, graphene_vec4_get_y *)
Definition vec4_get_y (v : V) : F := g_get_y v.
(* src/graphene-vectors.c:1548-1552, graphene_vec4_get_z *)
Definition vec4_get_z (v : V) : F := g_get_z v.
(* src/graphene-vectors.c:1564-1568, graphene_vec4_get_w *)
Definition vec4_get_w (v : V) : F := g_get_w v.
(* src/graphene-vectors.c:1581-1586, graphene_vec4_to_float *)
Definition vec4_to_float (v : V) (dst : list F) := g_dup_4f v dst.
(* src/graphene-vectors.c:1598-1604, graphene_vec4_add *)
Definition vec4_add (a b : V) : V := g_add a b.
(* src/graphene-vectors.c:1618-1624, graphene_vec4_subtract *)
Definition vec4_subtract (a b : V) : V := g_sub a b.
(* src/graphene-vectors.c:1636-1642, graphene_vec4_multiply *)
Definition vec4_multiply (a b : V) : V := g_mul a b.
(* src/graphene-vectors.c:1656-1662, graphene_vec4_divide *)
Definition vec4_divide (a b : V) : V := g_div a b.
(* src/graphene-vectors.c:1675-1680, graphene_vec4_dot *)
Definition vec4_dot (a b : V) : F := g_get_x (g_dot4 a b).
(* src/graphene-vectors.c:1692-1696, graphene_vec4_length *)
Definition vec4_length (v : V) : F := g_get_x (g_length4 v).
(* src/graphene-vectors.c:1708-1716, graphene_vec4_normalize *)
Definition vec4_normalize (v : V) : V :=
  if fabs (vec4_length v) >. feps then g_normalize4 v else g_init_zero.
(* src/graphene-vectors.c:1729-1735, graphene_vec4_min *)
Definition vec4_min (a b : V) : V := g_min a b.
(* src/graphene-vectors.c:1748-1754, graphene_vec4_max *)
Definition vec4_max (a b : V) : V := g_max a b.
(* src/graphene-vectors.c:1766-1772, graphene_vec4_scale *)
Definition vec4_scale (v : V) (factor : F) : V := g_mul v (g_splat factor).
(* src/graphene-vectors.c:1784-1789, graphene_vec4_get_xy *)
Definition vec4_get_xy (v : V) : V := g_zero_zw v.
(* src/graphene-vectors.c:1801-1806, graphene_vec4_get_xyz *)
Definition vec4_get_xyz (v : V) : V := g_zero_w v.
(* src/graphene-vectors.c:1817-1822, graphene_vec4_negate *)
Definition vec4_negate (v : V) : V := g_neg v.
(* src/graphene-vectors.c:1868-1877, graphene_vec4_near *)
Definition vec4_near (v1 v2 : V) (epsilon : F) : bool :=
  let d := g_sub v1 v2 in
  let epsilon_sq := epsilon *. epsilon in
  g_get_x (g_dot4 d d) <. epsilon_sq.
(* src/graphene-vectors.c:1824-1835, vec4_equal *)
Definition vec4_equal_fn (v1 v2 : V) : bool :=
  if g_cmp_eq v1 v2 then true else vec4_near v1 v2 feps.
(* src/graphene-vectors.c:1848-1853, graphene_vec4_equal *)
Definition vec4_equal (same : bool) (p1 p2 : option V) : bool :=
  pointer_equal same p1 p2 vec4_equal_fn.
(* src/graphene-vectors.c:1890-1897, graphene_vec4_interpolate *)
Definition vec4_interpolate {D} {DD : DOps F D} (v1 v2 : V) (factor : D) : V :=
  g_interpolate v1 v2 (d2f factor).

(** The library's constants (what the static tables hold once initialised). *)
(* src/graphene-vectors.c:568-574, graphene_vec2_zero *)
Definition vec2_zero : V := g_init_zero.                                  (* 497 *)
(* src/graphene-vectors.c:585-591, graphene_vec2_one *)
Definition vec2_one : V := g_init fone fone fzero fzero.                  (* 498 *)
(* src/graphene-vectors.c:602-608, graphene_vec2_x_axis *)
Definition vec2_x_axis : V := g_init fone fzero fzero fzero.              (* 499 *)
(* src/graphene-vectors.c:619-625, graphene_vec2_y_axis *)
Definition vec2_y_axis : V := g_init fzero fone fzero fzero.              (* 500 *)
(* src/graphene-vectors.c:1270-1276, graphene_vec3_zero *)
Definition vec3_zero : V := g_init_zero.                                  (* 1197 *)
(* src/graphene-vectors.c:1288-1294, graphene_vec3_one *)
Definition vec3_one : V := g_init fone fone fone fzero.                   (* 1198 *)
(* src/graphene-vectors.c:1306-1312, graphene_vec3_x_axis *)
Definition vec3_x_axis : V := g_init fone fzero fzero fzero.              (* 1199 *)
(* src/graphene-vectors.c:1324-1330, graphene_vec3_y_axis *)
Definition vec3_y_axis : V := g_init fzero fone fzero fzero.              (* 1200 *)
(* src/graphene-vectors.c:1342-1348, graphene_vec3_z_axis *)
Definition vec3_z_axis : V := g_init fzero fzero fone fzero.              (* 1201 *)
(* src/graphene-vectors.c:1990-1996, graphene_vec4_zero *)
Definition vec4_zero : V := g_init_zero.                                  (* 1915 *)
(* src/graphene-vectors.c:2008-2014, graphene_vec4_one *)
Definition vec4_one : V := g_splat fone.                                  (* 1916 *)
(* src/graphene-vectors.c:2026-2032, graphene_vec4_x_axis *)
Definition vec4_x_axis : V := g_init fone fzero fzero fzero.              (* 1917 *)
(* src/graphene-vectors.c:2044-2050, graphene_vec4_y_axis *)
Definition vec4_y_axis : V := g_init fzero fone fzero fzero.              (* 1918 *)
(* src/graphene-vectors.c:2062-2068, graphene_vec4_z_axis *)
Definition vec4_z_axis : V := g_init fzero fzero fone fzero.              (* 1919 *)
(* src/graphene-vectors.c:2080-2086, graphene_vec4_w_axis *)
Definition vec4_w_axis : V := g_init fzero fzero fzero fone.              (* 1920 *)
End Vec.
