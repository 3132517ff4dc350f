(** * Gobject: model of src/graphene-gobject.c (the GObject boxed types).

    The macro GRAPHENE_DEFINE_BOXED_TYPE (graphene-gobject.c:127-153) defines, for each of the 18
    types of lines 155-189, a copy function and a thread-safe type registration.  Copying runs on
    the heap of Alloc.v.  GLib's g_once_init_enter / g_once_init_leave and the type registry are
    taken at their documented behaviour; the registry is shared with the rest of the process.
    The enum macro (109-125) has no instance and is not modelled. *)
From Coq Require Import ZArith List Bool String Arith.
From Verif Require Import Alloc.
Import ListNotations.
Open Scope Z_scope.

(** ** Structure assignment and the boxed copy function *)
(** Bytes of a structure that belong to a member.  A plane, a sphere and an Euler angle are a 16-byte
    vector and a 4-byte scalar, padded to 32 (include/graphene-plane.h:47-52, graphene-sphere.h:44-49,
    graphene-euler.h:135-140); a frustum is six planes (graphene-frustum.h:47-51).  The others have no padding. *)
Definition member (t : otype) (off : Z) : bool :=
  match t with
  | TPlane | TSphere | TEuler | TFrustum => (0 <=? off) && (off <? osize t) && (off mod 32 <? 20)
  | _ => (0 <=? off) && (off <? osize t) end.
(** [*dst = *src;] for two objects of type [t] (graphene-gobject.c:135): members are copied, padding bytes of
    [dst] become anything, no other byte changes *)
Definition assign (H : heap) (t : otype) (dst src : Z) (pad : Z -> Z) : heap :=
  Heap (live H) (fun x => if member t (x - dst) then byte H (src + (x - dst))
                          else if (0 <=? x - dst) && (x - dst <? osize t) then pad x else byte H x).
(* how a call of the copy function ends *)
Inductive copied := CNull | CPtr (p : Z) | CCrash | CAbort.
(** graphene-gobject.c:128-138, type_name_copy_internal; a store through the NULL that a failed allocation
    returns is a crash *)
Inductive boxed_copy (c : config) (H : heap) (t : otype) (v : Z) : copied -> heap -> Prop :=
| bc_null : v = 0 -> boxed_copy c H t v CNull H                                     (* 131-132 *)
| bc_ok p H' pad : v <> 0 -> obj_alloc c H t (RPtr p) H' ->                         (* 134-135 *)
    boxed_copy c H t v (CPtr p) (assign H' t p v pad)
| bc_crash H' : v <> 0 -> obj_alloc c H t RNull H' -> boxed_copy c H t v CCrash H'
| bc_abort H' : v <> 0 -> obj_alloc c H t RAbort H' -> boxed_copy c H t v CAbort H'.
(* graphene-gobject.c:149, the registered free function is type_name_free *)
Definition boxed_free (c : config) (H : heap) (t : otype) (v : Z) : option heap := obj_free c H t v.

(** ** Type registration *)
(* the TypeName argument of each instance, graphene-gobject.c:155-189 *)
Definition gname (t : otype) : string :=
  match t with
  | TPoint => "GraphenePoint" | TPoint3d => "GraphenePoint3D" | TSize => "GrapheneSize" | TRect => "GrapheneRect"
  | TVec2 => "GrapheneVec2" | TVec3 => "GrapheneVec3" | TVec4 => "GrapheneVec4" | TQuad => "GrapheneQuad"
  | TQuaternion => "GrapheneQuaternion" | TMatrix => "GrapheneMatrix" | TPlane => "GraphenePlane"
  | TFrustum => "GrapheneFrustum" | TSphere => "GrapheneSphere" | TBox => "GrapheneBox" | TTriangle => "GrapheneTriangle"
  | TEuler => "GrapheneEuler" | TRay => "GrapheneRay" | TBox2d => "GrapheneBox2D" end%string.
(** an entry of GLib's type registry; [None] is a type that is not one of Graphene's *)
Record reg := Reg { r_id : Z; r_name : string; r_copy : option otype; r_free : option otype }.
(** where a thread is in type_name_get_type, graphene-gobject.c:140-153 *)
Inductive gpc :=
| GOut                           (* outside *)
| GCheck (t : otype)             (* 144, about to call g_once_init_enter *)
| GWait (t : otype)              (* inside g_once_init_enter, waiting for the thread that initialises *)
| GInside (t : otype)            (* 146, about to register *)
| GLeave (t : otype) (id : Z)    (* 150, about to call g_once_init_leave *)
| GRemove (t : otype)            (* inside g_once_init_leave, value stored, about to wake the waiters *)
| GReturn (t : otype).           (* 152, about to read the static variable *)
(* program state *)
Record gst := GSt {
  gvar : otype -> Z;               (* the static variable of each get_type, 143 *)
  busy : otype -> bool;            (* GLib's list of variables under initialisation *)
  registry : list reg;
  gthr : nat -> gpc;
  returned : list (otype * Z)      (* results handed to callers so far *)
}.
(* zero static variables; whatever the process registered before is in [rs] *)
Definition gstart (rs : list reg) : gst := GSt (fun _ => 0) (fun _ => false) rs (fun _ => GOut) [].
(* decidable equality; no C counterpart *)
Definition otype_eq_dec (a b : otype) : {a = b} + {a <> b}. Proof. decide equality. Defined.
(* function update; no C counterpart *)
Definition setT {B} (f : otype -> B) (t : otype) (v : B) : otype -> B := fun u => if otype_eq_dec u t then v else f u.
(* function update; no C counterpart *)
Definition setI {B} (f : nat -> B) (i : nat) (v : B) : nat -> B := fun j => if Nat.eq_dec j i then v else f j.
(* specification of g_type_register: a new name gets a new non-zero identifier *)
Definition fresh_reg (rs : list reg) (r : reg) : Prop :=
  r_id r <> 0 /\ ~ In (r_id r) (map r_id rs) /\ ~ In (r_name r) (map r_name rs).
(** what type_name_get_type registers, 146-149 *)
Definition own_reg (t : otype) (id : Z) : reg := Reg id (gname t) (Some t) (Some t).

(** thread [i] takes a step *)
Inductive gstep (i : nat) : gst -> gst -> Prop :=
| g_call s t : gthr s i = GOut -> gstep i s (GSt (gvar s) (busy s) (registry s) (setI (gthr s) i (GCheck t)) (returned s))
(* g_once_init_enter: initialised; nobody initialises; somebody does *)
| g_fast s t : gthr s i = GCheck t -> gvar s t <> 0 ->
    gstep i s (GSt (gvar s) (busy s) (registry s) (setI (gthr s) i (GReturn t)) (returned s))
| g_first s t : gthr s i = GCheck t -> gvar s t = 0 -> busy s t = false ->
    gstep i s (GSt (gvar s) (setT (busy s) t true) (registry s) (setI (gthr s) i (GInside t)) (returned s))
| g_block s t : gthr s i = GCheck t -> gvar s t = 0 -> busy s t = true ->
    gstep i s (GSt (gvar s) (busy s) (registry s) (setI (gthr s) i (GWait t)) (returned s))
| g_woken s t : gthr s i = GWait t -> busy s t = false ->
    gstep i s (GSt (gvar s) (busy s) (registry s) (setI (gthr s) i (GReturn t)) (returned s))
(* g_boxed_type_register_static: 0 if the name is taken *)
| g_register s t id : gthr s i = GInside t -> fresh_reg (registry s) (own_reg t id) ->
    gstep i s (GSt (gvar s) (busy s) (own_reg t id :: registry s) (setI (gthr s) i (GLeave t id)) (returned s))
| g_taken s t : gthr s i = GInside t -> In (gname t) (map r_name (registry s)) ->
    gstep i s (GSt (gvar s) (busy s) (registry s) (setI (gthr s) i (GLeave t 0)) (returned s))
(* g_once_init_leave: refuses 0 (g_return_if_fail), otherwise stores, then wakes *)
| g_store s t id : gthr s i = GLeave t id -> id <> 0 ->
    gstep i s (GSt (setT (gvar s) t id) (busy s) (registry s) (setI (gthr s) i (GRemove t)) (returned s))
| g_refuse s t : gthr s i = GLeave t 0 ->
    gstep i s (GSt (gvar s) (busy s) (registry s) (setI (gthr s) i (GReturn t)) (returned s))
| g_wake s t : gthr s i = GRemove t ->
    gstep i s (GSt (gvar s) (setT (busy s) t false) (registry s) (setI (gthr s) i (GReturn t)) (returned s))
| g_return s t : gthr s i = GReturn t ->
    gstep i s (GSt (gvar s) (busy s) (registry s) (setI (gthr s) i GOut) ((t, gvar s t) :: returned s)).
(** the rest of the process registers a type whose name satisfies [ok] *)
Inductive other (ok : string -> Prop) : gst -> gst -> Prop :=
| o_register s r : ok (r_name r) -> fresh_reg (registry s) r ->
    other ok s (GSt (gvar s) (busy s) (r :: registry s) (gthr s) (returned s)).
(* executions that start in [s0]: any number of threads, any schedule *)
Inductive greach (ok : string -> Prop) (s0 : gst) : gst -> Prop :=
| gr_0 : greach ok s0 s0
| gr_S i s s' : greach ok s0 s -> gstep i s s' -> greach ok s0 s'
| gr_O s s' : greach ok s0 s -> other ok s s' -> greach ok s0 s'.

(** g_boxed_copy / g_boxed_free (GLib): run the function registered under the identifier *)
Definition lookup (rs : list reg) (x : Z) : option reg := find (fun r => r_id r =? x) rs.
(* g_boxed_copy (x, v) on one of Graphene's types *)
Definition g_boxed_copy (c : config) (rs : list reg) (x : Z) (H : heap) (v : Z) (o : copied) (H' : heap) : Prop :=
  exists r t, lookup rs x = Some r /\ r_copy r = Some t /\ boxed_copy c H t v o H'.
(* g_boxed_free (x, v) on one of Graphene's types; [None] is undefined behaviour *)
Definition g_boxed_free (c : config) (rs : list reg) (x : Z) (H : heap) (v : Z) : option heap :=
  match lookup rs x with
  | Some r => match r_free r with Some t => boxed_free c H t v | None => None end
  | None => None end.
