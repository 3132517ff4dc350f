(** * Quat: quaternions, Euler angles and matrix decomposition.

    Models src/graphene-quaternion.c, src/graphene-euler.c and the decomposition and
    interpolation part of src/graphene-matrix.c (1449-1477, 1843-2279). *)

From Coq Require Import ZArith Bool List.
From Verif Require Import Num Simd Vec Rect Box Mat.
Import ListNotations.
Local Open Scope f_scope.

(* include/graphene-quaternion.h *)
Record quat (F : Type) := Qt { qx : F; qy : F; qz : F; qw : F }.
Arguments Qt {F}. Arguments qx {F}. Arguments qy {F}. Arguments qz {F}. Arguments qw {F}.

Section Quat.
Context {F D : Type} {O : FOps F} {L : LibM F} {DD : DOps F D} {B : Backend F}.
Notation V := (simd4f F). Notation mat := (mat F). Notation quat := (quat F).

(* src/graphene-quaternion.c:98-111, graphene_quaternion_init *)
Definition quaternion_init (x y z w : F) : quat := Qt x y z w.
(* src/graphene-quaternion.c:124-131, graphene_quaternion_init_identity *)
Definition quaternion_init_identity : quat := Qt fzero fzero fzero fone.
(* src/graphene-quaternion.c:144-151, graphene_quaternion_init_from_quaternion *)
Definition quaternion_init_from_quaternion (src : quat) : quat := src.
(* src/graphene-quaternion.c:153-160, graphene_quaternion_init_from_simd4f *)
Definition quaternion_init_from_simd4f (v : V) : quat := Qt (vx v) (vy v) (vz v) (vw v).
(* src/graphene-quaternion.c:173-178, graphene_quaternion_init_from_vec4 *)
Definition quaternion_init_from_vec4 (v : V) : quat := quaternion_init_from_simd4f v.
(* src/graphene-quaternion.c:191-196, graphene_quaternion_to_vec4 *)
Definition quaternion_to_vec4 (q : quat) : V := g_init (qx q) (qy q) (qz q) (qw q).
(* src/graphene-quaternion.c:210-233, graphene_quaternion_init_from_matrix *)
Definition quaternion_init_from_matrix (m : mat) : quat :=
  let xx := matrix_get_value m 0 0 in
  let yy := matrix_get_value m 1 1 in
  let zz := matrix_get_value m 2 2 in
  let w := fhalf *. fsqrt (cMAX (fone +. xx +. yy +. zz) fzero) in
  let x := fhalf *. fsqrt (cMAX (fone +. xx -. yy -. zz) fzero) in
  let y := fhalf *. fsqrt (cMAX (fone -. xx +. yy -. zz) fzero) in
  let z := fhalf *. fsqrt (cMAX (fone -. xx -. yy +. zz) fzero) in
  Qt (if matrix_get_value m 2 1 >. matrix_get_value m 1 2 then -. x else x)
     (if matrix_get_value m 0 2 >. matrix_get_value m 2 0 then -. y else y)
     (if matrix_get_value m 1 0 >. matrix_get_value m 0 1 then -. z else z)
     w.
(* src/graphene-quaternion.c:245-262, graphene_quaternion_to_matrix *)
Definition quaternion_to_matrix (q : quat) : mat :=
  let x := qx q in let y := qy q in let z := qz q in let w := qw q in
  M4 (g_init (fone -. ftwo *. (y *. y +. z *. z)) (ftwo *. (x *. y +. w *. z))
             (ftwo *. (x *. z -. w *. y)) fzero)
     (g_init (ftwo *. (x *. y -. w *. z)) (fone -. ftwo *. (x *. x +. z *. z))
             (ftwo *. (y *. z +. w *. x)) fzero)
     (g_init (ftwo *. (x *. z +. w *. y)) (ftwo *. (y *. z -. w *. x))
             (fone -. ftwo *. (x *. x +. y *. y)) fzero)
     (g_init fzero fzero fzero fone).
(* src/graphene-quaternion.c:278-317, graphene_quaternion_slerp *)
Definition quaternion_slerp (a b : quat) (factor : F) : quat :=
  let v_a := quaternion_to_vec4 a in let v_b := quaternion_to_vec4 b in
  let dot := cCLAMP (g_get_x (g_dot4 v_a v_b)) fm1 fone in
  let '(left_sign, dot) := if dot <. fzero then (fm1, -. dot) else (fone, dot) in
  if approx_val dot fone then a
  else
    let theta := facos dot in
    let r_sin_theta := fone /. fsqrt (fone -. dot *. dot) in
    let right_v := fsin (factor *. theta) *. r_sin_theta in
    let left_v := fcos (factor *. theta) -. dot *. right_v in
    let left := g_mul v_a (g_splat (left_v *. left_sign)) in
    let right := g_mul v_b (g_splat right_v) in
    quaternion_init_from_simd4f (g_add left right).
(* src/graphene-quaternion.c:365-384, graphene_quaternion_init_from_radians *)
Definition quaternion_init_from_radians (rad_x rad_y rad_z : F) : quat :=
  let sin_x := fsin (rad_x *. fhalf) in let cos_x := fcos (rad_x *. fhalf) in
  let sin_y := fsin (rad_y *. fhalf) in let cos_y := fcos (rad_y *. fhalf) in
  let sin_z := fsin (rad_z *. fhalf) in let cos_z := fcos (rad_z *. fhalf) in
  Qt (sin_x *. cos_y *. cos_z +. cos_x *. sin_y *. sin_z)
     (cos_x *. sin_y *. cos_z -. sin_x *. cos_y *. sin_z)
     (cos_x *. cos_y *. sin_z +. sin_x *. sin_y *. cos_z)
     (cos_x *. cos_y *. cos_z -. sin_x *. sin_y *. sin_z).
(* src/graphene-quaternion.c:336-346, graphene_quaternion_init_from_angles *)
Definition quaternion_init_from_angles (deg_x deg_y deg_z : F) : quat :=
  quaternion_init_from_radians (deg_to_rad deg_x) (deg_to_rad deg_y) (deg_to_rad deg_z).
(* 436-462; the three out parameters non-NULL *)
(* src/graphene-quaternion.c:436-462, graphene_quaternion_to_radians *)
Definition quaternion_to_radians (q : quat) : F * F * F :=
  let x := qx q in let y := qy q in let z := qz q in let w := qw q in
  let sx := x *. x in let sy := y *. y in let sz := z *. z in let sw := w *. w in
  (fatan2 (ftwo *. (x *. w -. y *. z)) (sw -. sx -. sy +. sz),
   fasin (cCLAMP (ftwo *. (x *. z +. y *. w)) fm1 fone),
   fatan2 (ftwo *. (z *. w -. x *. y)) (sw +. sx -. sy -. sz)).
(* src/graphene-quaternion.c:402-418, graphene_quaternion_to_angles *)
Definition quaternion_to_angles (q : quat) : F * F * F :=
  let '(x, y, z) := quaternion_to_radians q in (rad_to_deg x, rad_to_deg y, rad_to_deg z).
(* src/graphene-quaternion.c:477-497, graphene_quaternion_init_from_angle_vec3 *)
Definition quaternion_init_from_angle_vec3 (angle : F) (axis : V) : quat :=
  let rad := deg_to_rad angle /. ftwo in
  let sin_a := fsin rad in let cos_a := fcos rad in
  let axis_n := g_mul (g_normalize3 axis) (g_splat sin_a) in
  Qt (vx axis_n) (vy axis_n) (vz axis_n) cos_a.
(* src/graphene-quaternion.c:649-659, graphene_quaternion_normalize *)
Definition quaternion_normalize (q : quat) : quat :=
  quaternion_init_from_simd4f (g_normalize4 (quaternion_to_vec4 q)).
(* 509-533; both out parameters non-NULL; the literal 0.00005 is a double *)
(* src/graphene-quaternion.c:509-533, graphene_quaternion_to_angle_vec3 *)
Definition quaternion_to_angle_vec3 (q : quat) : F * V :=
  let q_n := quaternion_normalize q in
  let cos_a := qw q_n in
  let sin_a := fsqrt (fone -. cos_a *. cos_a) in
  let sin_a := if f2d (fabs sin_a) <. flit 7378697629483821 (-67) then fone else sin_a in
  (rad_to_deg (facos cos_a *. ftwo), vec3_init (qx q_n /. sin_a) (qy q_n /. sin_a) (qz q_n /. sin_a)).
(* src/graphene-quaternion.c:629-637, graphene_quaternion_invert *)
Definition quaternion_invert (q : quat) : quat := Qt (-. qx q) (-. qy q) (-. qz q) (qw q).
(* graphene_fuzzy_equals with the double literal 0.00001: the float difference is promoted *)
Definition fuzzy_d (a b : F) : bool :=
  f2d (if b <. a then a -. b else b -. a) <. flit 5902958103587057 (-69).
(* the four component tests of src/graphene-quaternion.c:555-577 *)
Definition quat_fuzzy (a b : quat) : bool :=
  fuzzy_d (qx a) (qx b) && fuzzy_d (qy a) (qy b) && fuzzy_d (qz a) (qz b) && fuzzy_d (qw a) (qw b).
(* src/graphene-quaternion.c:555-577, quaternion_equal *)
Definition quaternion_equal_fn (a b : quat) : bool :=
  if quat_fuzzy a b then true else if quat_fuzzy (quaternion_invert a) b then true else false.
(* src/graphene-quaternion.c:590-595, graphene_quaternion_equal *)
Definition quaternion_equal (same : bool) (a b : option quat) : bool :=
  pointer_equal same a b quaternion_equal_fn.
(* src/graphene-quaternion.c:608-616, graphene_quaternion_dot *)
Definition quaternion_dot (a b : quat) : F :=
  g_get_x (g_dot4 (quaternion_to_vec4 a) (quaternion_to_vec4 b)).
(* src/graphene-quaternion.c:671-686, graphene_quaternion_multiply *)
Definition quaternion_multiply (a b : quat) : quat :=
  Qt (qx a *. qw b +. qw a *. qx b +. qy a *. qz b -. qz a *. qy b)
     (qy a *. qw b +. qw a *. qy b +. qz a *. qx b -. qx a *. qz b)
     (qz a *. qw b +. qw a *. qz b +. qx a *. qy b -. qy a *. qx b)
     (qw a *. qw b -. qx a *. qx b -. qy a *. qy b -. qz a *. qz b).
(* src/graphene-quaternion.c:699-709, graphene_quaternion_scale *)
Definition quaternion_scale (q : quat) (factor : F) : quat :=
  quaternion_init_from_simd4f (g_mul (quaternion_to_vec4 q) (g_splat factor)).
(* src/graphene-quaternion.c:721-731, graphene_quaternion_add *)
Definition quaternion_add (a b : quat) : quat :=
  quaternion_init_from_simd4f (g_add (quaternion_to_vec4 a) (quaternion_to_vec4 b)).
End Quat.

(** ** Euler angles: include/graphene-euler.h:85-123, src/graphene-euler.c *)
Inductive eorder :=
| ODefault | OXYZ | OYZX | OZXY | OXZY | OYXZ | OZYX          (* DEFAULT and the deprecated names *)
| SXYZ | SXYX | SXZY | SXZX | SYZX | SYZY | SYXZ | SYXY | SZXY | SZXZ | SZYX | SZYZ
| RZYX | RXYX | RYZX | RXZX | RXZY | RYZY | RZXY | RYXY | RYXZ | RZXZ | RXYZ | RZYZ.
(* src/graphene-euler.c: the 0, 1, 2 of struct axis_param *)
Inductive axis := AX | AY | AZ.
(* src/graphene-euler.c:144-154: first_axis, parity, repetition, frame *)
Record axis_param := AP { ap_first : axis; ap_parity : bool; ap_rep : bool; ap_frame : bool }.
(* src/graphene-euler.c:410-441 *)
Definition euler_real_order (o : eorder) : eorder :=
  match o with
  | OXYZ => SXYZ | OYXZ => SYXZ | OZXY => SZXY | OZYX => SZYX | OYZX => SYZX | OXZY => SXZY
  | ODefault => SXYZ
  | o => o end.
(* src/graphene-euler.c:157-189, indexed by ORDER_OFFSET of a real order; the other enumerators would index
   outside the table and are never used as an index (every use goes through
   euler_real_order) *)
Definition order_parameters (o : eorder) : axis_param :=
  match o with
  | SXYZ => AP AX false false false | SXYX => AP AX false true false | SXZY => AP AX true false false
  | SXZX => AP AX true true false   | SYZX => AP AY false false false | SYZY => AP AY false true false
  | SYXZ => AP AY true false false  | SYXY => AP AY true true false  | SZXY => AP AZ false false false
  | SZXZ => AP AZ false true false  | SZYX => AP AZ true false false | SZYZ => AP AZ true true false
  | RZYX => AP AX false false true  | RXYX => AP AX false true true  | RYZX => AP AX true false true
  | RXZX => AP AX true true true    | RXZY => AP AY false false true | RYZY => AP AY false true true
  | RZXY => AP AY true false true   | RYXY => AP AY true true true   | RYXZ => AP AZ false false true
  | RZXZ => AP AZ false true true   | RXYZ => AP AZ true false true  | RZYZ => AP AZ true true true
  | _ => AP AX false false false end.
(* src/graphene-euler.c:192: next_axis[i], next_axis[i+1] *)
Definition next_axis (a : axis) : axis := match a with AX => AY | AY => AZ | AZ => AX end.
(* src/graphene-euler.c:209-210: j = next_axis[i + parity], k = next_axis[i - parity + 1] *)
Definition axis_j (i : axis) (parity : bool) : axis := if parity then next_axis (next_axis i) else next_axis i.
(* src/graphene-euler.c:210, k = next_axis[i - parity + 1] *)
Definition axis_k (i : axis) (parity : bool) : axis := if parity then next_axis i else next_axis (next_axis i).
(* comparison of axis numbers *)
Definition axis_eqb (a b : axis) : bool :=
  match a, b with AX, AX | AY, AY | AZ, AZ => true | _, _ => false end.

(* include/graphene-euler.h: angles (radians) and order *)
Record euler (F : Type) := Eu { eu_v : simd4f F; eu_o : eorder }.
Arguments Eu {F}. Arguments eu_v {F}. Arguments eu_o {F}.

Section Euler.
Context {F D : Type} {O : FOps F} {L : LibM F} {DD : DOps F D} {B : Backend F}.
Notation V := (simd4f F). Notation mat := (mat F). Notation quat := (quat F). Notation euler := (euler F).

(* a 3x3 table m[r][c] addressed through the macro M (m, r, c) = m[(c << 2) + r], then
   handed to matrix_init_from_float: entry (r, c) lands in row c, lane r *)
Definition mat_of_table (m : axis -> axis -> F) : mat :=
  M4 (g_init (m AX AX) (m AY AX) (m AZ AX) fzero) (g_init (m AX AY) (m AY AY) (m AZ AY) fzero)
     (g_init (m AX AZ) (m AY AZ) (m AZ AZ) fzero) (g_init fzero fzero fzero fone).
(* src/graphene-euler.c: the float m[16] a matrix is read into *)
Definition table_of_mat (m : mat) (r c : axis) : F :=
  let row := match c with AX => mx m | AY => my m | AZ => mz m end in
  match r with AX => vx row | AY => vy row | AZ => vz row end.

(* src/graphene-euler.c:201-282 *)
Definition euler_to_matrix_internal (ai aj ak : F) (p : axis_param) : mat :=
  let i := ap_first p in
  let j := axis_j i (ap_parity p) in
  let k := axis_k i (ap_parity p) in
  let '(ai, ak) := if ap_frame p then (ak, ai) else (ai, ak) in
  let '(ai, aj, ak) := if ap_parity p then (ai *. fm1, aj *. fm1, ak *. fm1) else (ai, aj, ak) in
  let si := fsin ai in let sj := fsin aj in let sk := fsin ak in
  let ci := fcos ai in let cj := fcos aj in let ck := fcos ak in
  let cc := ci *. ck in let cs := ci *. sk in let sc := si *. ck in let ss := si *. sk in
  let entry (r c : axis) : F :=
    if ap_rep p then
      if axis_eqb r i then
        if axis_eqb c i then cj else if axis_eqb c j then sj *. si else sj *. ci
      else if axis_eqb r j then
        if axis_eqb c i then sj *. sk else if axis_eqb c j then -. cj *. ss +. cc else -. cj *. cs -. sc
      else
        if axis_eqb c i then -. sj *. ck else if axis_eqb c j then cj *. sc +. cs else cj *. cc -. ss
    else
      if axis_eqb r i then
        if axis_eqb c i then cj *. ck else if axis_eqb c j then sj *. sc -. cs else sj *. cc +. ss
      else if axis_eqb r j then
        if axis_eqb c i then cj *. sk else if axis_eqb c j then sj *. ss +. cc else sj *. cs -. sc
      else
        if axis_eqb c i then -. sj else if axis_eqb c j then cj *. si else cj *. ci in
  mat_of_table entry.

(* src/graphene-euler.c:284-368, matrix_to_euler *)
Definition matrix_to_euler (matrix : mat) (p : axis_param) : F * F * F :=
  let i := ap_first p in
  let j := axis_j i (ap_parity p) in
  let k := axis_k i (ap_parity p) in
  let m := table_of_mat matrix in
  let eps16 := flit 16 0 *. feps in
  let '(ax, ay, az) :=
    if ap_rep p then
      let sy := fsqrt (m i j *. m i j +. m i k *. m i j) in
      if sy >=. eps16 then
        (fatan2 (m i j) (m i k), fatan2 sy (m i i), fatan2 (m j i) (m k i *. fm1))
      else (fatan2 (m j k *. fm1) (m j j), fatan2 sy (m i i), fzero)
    else
      let cy := fsqrt (m i i *. m i i +. m j i *. m j i) in
      if cy >=. eps16 then
        (fatan2 (m k j) (m k k), fatan2 (m k i *. fm1) cy, fatan2 (m j i) (m i i))
      else (fatan2 (m j k *. fm1) (m j j), fatan2 (m k i *. fm1) cy, fzero) in
  let '(ax, ay, az) := if ap_parity p then (ax *. fm1, ay *. fm1, az *. fm1) else (ax, ay, az) in
  if ap_frame p then (az, ay, ax) else (ax, ay, az).

(* src/graphene-euler.c:456-467, graphene_euler_init_internal *)
Definition euler_init_internal (rad_x rad_y rad_z : F) (order : eorder) : euler :=
  Eu (vec3_init rad_x rad_y rad_z) (euler_real_order order).
(* src/graphene-euler.c:511-523, graphene_euler_init_with_order *)
Definition euler_init_with_order (x y z : F) (order : eorder) : euler :=
  euler_init_internal (deg_to_rad x) (deg_to_rad y) (deg_to_rad z) order.
(* src/graphene-euler.c:484-495, graphene_euler_init *)
Definition euler_init (x y z : F) : euler := euler_init_with_order x y z ODefault.
(* src/graphene-euler.c:540-555, graphene_euler_init_from_matrix *)
Definition euler_init_from_matrix (m : option mat) (order : eorder) : euler :=
  match m with
  | None => euler_init_with_order fzero fzero fzero order
  | Some m =>
      if matrix_is_identity m then euler_init_with_order fzero fzero fzero order
      else let order := euler_real_order order in
        let '(x, y, z) := matrix_to_euler m (order_parameters order) in
        euler_init_internal x y z order
  end.
(* src/graphene-euler.c:572-585, graphene_euler_init_from_quaternion *)
Definition euler_init_from_quaternion (q : option quat) (order : eorder) : euler :=
  match q with
  | None => euler_init_with_order fzero fzero fzero order
  | Some q => euler_init_from_matrix (Some (quaternion_to_matrix q)) (euler_real_order order) end.
(* src/graphene-euler.c:604-617, graphene_euler_init_from_vec3 *)
Definition euler_init_from_vec3 (v : option V) (order : eorder) : euler :=
  Eu (match v with Some v => vec3_scale v (fpi /. flit 180 0) | None => vec3_zero end)
     (euler_real_order order).
(* src/graphene-euler.c:634-644, graphene_euler_init_from_euler *)
Definition euler_init_from_euler (src : option euler) : euler :=
  match src with None => euler_init fzero fzero fzero | Some e => e end.
(* src/graphene-euler.c:661-669, graphene_euler_init_from_radians *)
Definition euler_init_from_radians (x y z : F) (order : eorder) : euler :=
  euler_init_internal x y z order.
(* src/graphene-euler.c:671-679, euler_equal *)
Definition euler_equal_fn (order_eqb : eorder -> eorder -> bool) (a b : euler) : bool :=
  vec3_equal false (Some (eu_v a)) (Some (eu_v b)) && order_eqb (eu_o a) (eu_o b).
(* src/graphene-euler.c:692-697, graphene_euler_equal *)
Definition euler_equal (order_eqb : eorder -> eorder -> bool) (same : bool) (a b : option euler) : bool :=
  pointer_equal same a b (euler_equal_fn order_eqb).
(* src/graphene-euler.c:709-713, graphene_euler_get_x *)
Definition euler_get_x (e : euler) : F := rad_to_deg (vec3_get_x (eu_v e)).
(* src/graphene-euler.c:725-729, graphene_euler_get_y *)
Definition euler_get_y (e : euler) : F := rad_to_deg (vec3_get_y (eu_v e)).
(* src/graphene-euler.c:741-745, graphene_euler_get_z *)
Definition euler_get_z (e : euler) : F := rad_to_deg (vec3_get_z (eu_v e)).
(* src/graphene-euler.c:763-770, graphene_euler_get_order *)
Definition euler_get_order (e : euler) : eorder :=
  match eu_o e with ODefault => SXYZ | o => o end.
(* src/graphene-euler.c:782-788, graphene_euler_to_vec3 *)
Definition euler_to_vec3 (e : euler) : V :=
  vec3_scale (eu_v e) (flit 180 0 /. fpi).
(* src/graphene-euler.c:803-845, graphene_euler_get_alpha *)
Definition euler_get_alpha (e : euler) : F :=
  match euler_real_order (eu_o e) with
  | SXYZ | SXYX | SXZY | SXZX | RXYX | RXZX | RXZY | RXYZ => vec3_get_x (eu_v e)
  | SYZX | SYZY | SYXZ | SYXY | RYZX | RYZY | RYXY | RYXZ => vec3_get_y (eu_v e)
  | SZXY | SZXZ | SZYX | SZYZ | RZYX | RZXY | RZXZ | RZYZ => vec3_get_z (eu_v e)
  | _ => fzero end.
(* src/graphene-euler.c:860-902, graphene_euler_get_beta *)
Definition euler_get_beta (e : euler) : F :=
  match euler_real_order (eu_o e) with
  | SYXZ | SYXY | SZXY | SZXZ | RZXY | RYXY | RYXZ | RZXZ => vec3_get_x (eu_v e)
  | SXYZ | SXYX | SZYX | SZYZ | RZYX | RXYX | RXYZ | RZYZ => vec3_get_y (eu_v e)
  | SYZX | SYZY | SXZY | SXZX | RYZX | RXZX | RXZY | RYZY => vec3_get_z (eu_v e)
  | _ => fzero end.
(* src/graphene-euler.c:917-959, graphene_euler_get_gamma *)
Definition euler_get_gamma (e : euler) : F :=
  match euler_real_order (eu_o e) with
  | SXYX | SZYX | SYZX | SXZX | RZYX | RXYX | RYZX | RXZX => vec3_get_x (eu_v e)
  | SYZY | SXZY | SYXY | SZXY | RXZY | RYZY | RZXY | RYXY => vec3_get_y (eu_v e)
  | SZYZ | SYXZ | SXYZ | SZXZ | RYXZ | RZXZ | RXYZ | RZYZ => vec3_get_z (eu_v e)
  | _ => fzero end.
(* src/graphene-euler.c:985-999, graphene_euler_to_matrix *)
Definition euler_to_matrix (e : euler) : mat :=
  euler_to_matrix_internal (euler_get_alpha e) (euler_get_beta e) (euler_get_gamma e)
    (order_parameters (euler_real_order (eu_o e))).
(* src/graphene-euler.c:1010-1050, graphene_euler_to_quaternion *)
Definition euler_to_quaternion (e : euler) : quat :=
  let ti := vec3_get_x (eu_v e) *. fhalf in
  let tj := vec3_get_y (eu_v e) *. fhalf in
  let tk := vec3_get_z (eu_v e) *. fhalf in
  let si := fsin ti in let ci := fcos ti in
  let sj := fsin tj in let cj := fcos tj in
  let sk := fsin tk in let ck := fcos tk in
  let cc := ci *. ck in let cs := ci *. sk in let sc := si *. ck in let ss := si *. sk in
  let params := order_parameters (euler_real_order (eu_o e)) in
  let '(x, y, z, w) :=
    if ap_rep params then
      (cj *. (cs +. cc), sj *. (cc +. ss), sj *. (cs -. sc), cj *. (cc -. ss))
    else
      (cj *. sc -. sj *. cs, cj *. ss +. sj *. cc, cj *. cs -. sj *. sc, cj *. cc +. sj *. ss) in
  Qt x (if ap_parity params then y *. fm1 else y) z w.
(* src/graphene-quaternion.c:546-553, graphene_quaternion_init_from_euler *)
Definition quaternion_init_from_euler (e : euler) : quat := euler_to_quaternion e. (* quaternion.c:546-553 *)
(* src/graphene-euler.c:1067-1076, graphene_euler_reorder *)
Definition euler_reorder (e : euler) (order : eorder) : euler :=
  euler_init_from_quaternion (Some (quaternion_init_from_euler e)) (euler_real_order order).

(** ** matrix rotation, decomposition, interpolation: src/graphene-matrix.c *)
(* src/graphene-matrix.c:1449-1457, graphene_matrix_rotate_quaternion *)
Definition matrix_rotate_quaternion (m : mat) (q : quat) : mat :=
  matrix_multiply m (quaternion_to_matrix q).
(* src/graphene-matrix.c:1469-1477, graphene_matrix_rotate_euler *)
Definition matrix_rotate_euler (m : mat) (e : euler) : mat :=
  matrix_rotate_quaternion m (quaternion_init_from_euler e).

(* 1852-1922: translate (vec2), scale (vec2), angle (double), m_r[4] as a simd4f
   (M_11, M_12, M_21, M_22); [None]: returns false, nothing written *)
(* src/graphene-matrix.c:1852-1922, matrix_decompose_2d *)
Definition matrix_decompose_2d (m : mat) : option (V * V * D * V) :=
  let row0x := matrix_get_value m 0 0 in
  let row0y := matrix_get_value m 1 0 in
  let row1x := matrix_get_value m 0 1 in
  let row1y := matrix_get_value m 1 1 in
  if fabs (row0x *. row1y -. row0y *. row1x) <. feps then None
  else
    let translate := vec2_init (matrix_get_value m 3 0) (matrix_get_value m 3 1) in
    let scale_x := fsqrt (row0x *. row0x +. row0y *. row0y) in
    let scale_y := fsqrt (row1x *. row1x +. row1y *. row1y) in
    let det := row0x *. row1y -. row0y *. row1x in
    let '(scale_x, scale_y) :=
      if det <. fzero then
        if row0x <. row1y then (-. scale_x, scale_y) else (scale_x, -. scale_y)
      else (scale_x, scale_y) in
    let '(row0x, row0y) :=
      if negb (approx_val scale_x fzero)
      then (row0x *. (fone /. scale_x), row0y *. (fone /. scale_y)) else (row0x, row0y) in
    let '(row1x, row1y) :=
      if negb (approx_val scale_y fzero)
      then (row1x *. (fone /. scale_x), row1y *. (fone /. scale_y)) else (row1x, row1y) in
    let angle := fatan2 row0y row0x in
    let m_r :=
      if fabs angle >. feps then
        let sn := -. f2d row0y in let cs := f2d row0x in
        let m11 := f2d row0x in let m12 := f2d row0y in
        let m21 := f2d row1x in let m22 := f2d row1y in
        V4 (d2f (cs *. m11 +. sn *. m21)) (d2f (cs *. m12 +. sn *. m22))
           (d2f (-. sn *. m11 +. cs *. m21)) (d2f (-. sn *. m12 +. cs *. m22))
      else V4 row0x row0y row1x row1y in
    Some (translate, vec2_init scale_x scale_y, f2d (rad_to_deg angle), m_r).

(* outputs of matrix_decompose_3d *)
Record decomp := Dc { dc_scale : V; dc_shear : V; dc_rotate : quat; dc_translate : V; dc_persp : V }.
(* the Gram-Schmidt part, 1984-2031: scale, shear, and the three orthonormal rows *)
Definition decompose_rows (rx0 ry0 rz0 : V) : V * V * V * V * V :=
  let scale_x := g_get_x (g_length4 rx0) in
  let x := g_normalize4 rx0 in
  let shear_xy := g_get_x (g_dot4 x ry0) in
  let y := g_sub ry0 (g_mul x (g_splat shear_xy)) in
  let scale_y := g_get_x (g_length4 y) in
  let y := g_normalize4 y in
  let shear_xy := shear_xy /. scale_y in
  let shear_xz := g_get_x (g_dot4 x rz0) in
  let z := g_sub rz0 (g_mul x (g_splat shear_xz)) in
  let shear_yz := g_get_x (g_dot4 y z) in
  let z := g_sub z (g_mul y (g_splat shear_yz)) in
  let scale_z := g_get_x (g_length4 z) in
  let z := g_normalize4 z in
  let shear_xz := shear_xz /. scale_z in
  let shear_yz := shear_yz /. scale_z in
  let shear := vec3_init shear_xy shear_xz shear_yz in
  let cross := g_dot3 x (g_cross3 y z) in
  if g_get_x cross <. fzero
  then (vec3_init (scale_x *. fm1) (scale_y *. fm1) (scale_z *. fm1), shear, g_neg x, g_neg y, g_neg z)
  else (vec3_init scale_x scale_y scale_z, shear, x, y, z).
(* 1924-2039; [None]: returns false, nothing written *)
(* src/graphene-matrix.c:1924-2039, matrix_decompose_3d *)
Definition matrix_decompose_3d (m : mat) : option decomp :=
  if approx_val (g_get_w (mw m)) fzero then None
  else
    let local := match matrix_normalize m with Some n => n | None => m end in
    let perspective_v := g_init (g_get_w (mx local)) (g_get_w (my local)) (g_get_w (mz local)) (g_get_w (mw local)) in
    let local := M4 (g_merge_w (mx local) fzero) (g_merge_w (my local) fzero)
                    (g_merge_w (mz local) fzero) (g_merge_w (mw local) fone) in
    if approx_val (matrix_determinant local) fzero then None
    else
      let persp :=
        if negb (g_is_zero3 perspective_v) then
          match matrix_inverse local with
          | Some tmp => Some (matrix_transform_vec4 tmp perspective_v)
          | None => None   (* tmp uninitialised *)
          end
        else Some (vec4_init fzero fzero fzero fone) in
      match persp with
      | None => None
      | Some persp =>
        let translate := g_merge_w (mw local) fzero in
        let lw := g_init fzero fzero fzero (g_get_w (mw local)) in
        let '(scale, shear, x, y, z) := decompose_rows (mx local) (my local) (mz local) in
        Some (Dc scale shear (quaternion_init_from_matrix (M4 x y z lw)) translate persp)
      end.
(* src/graphene-matrix.c:2060-2096, graphene_matrix_decompose *)
Definition matrix_decompose (m : mat) : option decomp :=
  if matrix_is_identity m then
    Some (Dc (g_init fone fone fone fzero) g_init_zero (quaternion_init_from_angles fzero fzero fzero)
             g_init_zero g_init_zero)
  else if matrix_is_2d m then
    match matrix_decompose_2d m with
    | None => None
    | Some (t, s, rotate, _) =>
        Some (Dc s vec3_zero (quaternion_init_from_angles fzero fzero (d2f rotate)) t vec4_zero)
    end
  else matrix_decompose_3d m.

(* src/graphene-private.h:128-132, graphene_flerp *)
Definition flerp (a b factor : D) : D := ((fone -. factor) *. a) +. (factor *. b).
(* outcome of graphene_matrix_interpolate: a matrix, or undefined behaviour because one
   of the two decompositions failed and its outputs are read uninitialised *)
(* src/graphene-matrix.c:2115-2279, graphene_matrix_interpolate *)
Definition matrix_interpolate (a b : mat) (factor : D) : option mat :=
  if matrix_is_2d a && matrix_is_2d b then
    match matrix_decompose_2d a, matrix_decompose_2d b with
    | None, None => Some matrix_init_identity
    | Some (translate_a, scale_a, rotate_a, m_a), Some (translate_b, scale_b, rotate_b, m_b) =>
        let neg := ((vec2_get_x scale_a <. fzero) && (vec2_get_y scale_b <. fzero)) ||
                   ((vec2_get_y scale_a <. fzero) && (vec2_get_x scale_b <. fzero)) in
        let scale_a := if neg then vec2_negate scale_a else scale_a in
        let rotate_a := if neg then rotate_a +. (if rotate_a <. fzero then flit 180 0 else -. flit 180 0)
                        else rotate_a in
        let dbl_eps := flit 1 (-52) in
        let d360 := flit 360 0 in
        let rotate_a := if fabs rotate_a <=. dbl_eps then d360 else rotate_a in
        let rotate_b := if fabs rotate_b <=. dbl_eps then d360 else rotate_b in
        let '(rotate_a, rotate_b) :=
          if fabs (rotate_a -. rotate_b) >. flit 180 0 then
            if rotate_a >. rotate_b then (rotate_a -. d360, rotate_b) else (rotate_a, rotate_b -. d360)
          else (rotate_a, rotate_b) in
        let translate_res := vec2_interpolate translate_a translate_b factor in
        let scale_res := vec2_interpolate scale_a scale_b factor in
        let rotate_res := flerp rotate_a rotate_b factor in
        let m_res := g_interpolate m_a m_b (d2f factor) in
        let m11 := vx m_res in let m12 := vy m_res in let m21 := vz m_res in let m22 := vw m_res in
        let translate_x := vec2_get_x translate_res in
        let translate_y := vec2_get_y translate_res in
        let res := M4 (g_init m11 m21 fzero fzero) (g_init m12 m22 fzero fzero)
                      (g_init fzero fzero fone fzero)
                      (g_init (translate_x *. m11 +. translate_y *. m21)
                              (translate_x *. m12 +. translate_y *. m22) fzero fone) in
        let rad := deg_to_rad (d2f rotate_res) in
        let rot_sin := fsin rad in let rot_cos := fcos rad in
        let tmp_m := M4 (g_init rot_cos (-. rot_sin) fzero fzero) (g_init rot_sin rot_cos fzero fzero)
                        (g_init fzero fzero fone fzero) (g_init fzero fzero fzero fone) in
        let res := gm_mul res tmp_m in
        let res := gm_mul res (gm_scale (vec2_get_x scale_res) (vec2_get_y scale_res) fone) in
        Some res
    | _, _ => None
    end
  else
    match matrix_decompose_3d a, matrix_decompose_3d b with
    | None, None => Some matrix_init_identity
    | Some da, Some db =>
        let tmp := g_interpolate (dc_persp da) (dc_persp db) (d2f factor) in
        let res := M4 (g_init fone fzero fzero (vx tmp)) (g_init fzero fone fzero (vy tmp))
                      (g_init fzero fzero fone (vz tmp)) (g_init fzero fzero fzero (vw tmp)) in
        let t := point3d_init_from_vec3 (vec3_interpolate (dc_translate da) (dc_translate db) factor) in
        let res := matrix_translate res t in
        let res := matrix_rotate_quaternion res (quaternion_slerp (dc_rotate da) (dc_rotate db) (d2f factor)) in
        let shear_r := vec3_interpolate (dc_shear da) (dc_shear db) factor in
        let res := if negb (approx_val (g_get shear_r 2) fzero) then matrix_skew_yz res (g_get shear_r 2) else res in
        let res := if negb (approx_val (g_get shear_r 1) fzero) then matrix_skew_xz res (g_get shear_r 1) else res in
        let res := if negb (approx_val (g_get shear_r 0) fzero) then matrix_skew_xy res (g_get shear_r 0) else res in
        let s := point3d_init_from_vec3 (vec3_interpolate (dc_scale da) (dc_scale db) factor) in
        let res := if negb (approx_val (p3x s) fone) || negb (approx_val (p3y s) fone) || negb (approx_val (p3z s) fone)
                   then matrix_scale res (p3x s) (p3y s) (p3z s) else res in
        Some res
    | _, _ => None
    end.
End Euler.
