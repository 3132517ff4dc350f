(** * Once: the lazily initialised constant tables, and threads that call their accessors.

    Models src/graphene-vectors.c:484-625, 1182-1348, 1899-2086, src/graphene-box.c:724-931
    and src/graphene-box2d.c:903-1104.  Memory is sequentially consistent and a 16-byte
    store is one step; Props_Once proves that the once-builds have no data race, which
    is what makes that view of memory legitimate for a C11 program.  pthread_once and
    InitOnceExecuteOnce are taken at their specification (one caller runs the function,
    the others block until it has returned) and do not fail. *)
From Coq Require Import ZArith List Bool Arith.
From Verif Require Import Num Simd.
Import ListNotations.

(* the five static tables: static_vec2, static_vec3, static_vec4, static_box, static_box2d *)
Inductive tbl := Tvec2 | Tvec3 | Tvec4 | Tbox | Tbox2d.
(** the 27 accessors *)
Inductive acc :=
| vec2_zero | vec2_one | vec2_x_axis | vec2_y_axis
| vec3_zero | vec3_one | vec3_x_axis | vec3_y_axis | vec3_z_axis
| vec4_zero | vec4_one | vec4_x_axis | vec4_y_axis | vec4_z_axis | vec4_w_axis
| box_zero | box_one | box_minus_one | box_one_minus_one | box_infinite | box_empty
| box2d_zero | box2d_one | box2d_minus_one | box2d_one_minus_one | box2d_infinite | box2d_empty.
(** A 16-byte cell of static storage: entry of a table, and false/true for the first/second
    vector of the entry (min and max of a box; only the first elsewhere). *)
Record cell := Cell { c_tbl : tbl; c_idx : nat; c_snd : bool }.
(* decidable equality; no C counterpart *)
Definition tbl_eq_dec (a b : tbl) : {a = b} + {a <> b}. Proof. decide equality. Defined.
(* decidable equality; no C counterpart *)
Definition cell_eq_dec (a b : cell) : {a = b} + {a <> b}.
Proof. decide equality; [apply bool_dec|apply Nat.eq_dec|apply tbl_eq_dec]. Defined.

(** which initialiser an accessor runs and which entry it returns the address of *)
Definition entry (a : acc) : tbl * nat :=
  match a with
  | vec2_zero => (Tvec2, 0) | vec2_one => (Tvec2, 1) | vec2_x_axis => (Tvec2, 2) | vec2_y_axis => (Tvec2, 3) (* vectors.c:484-491, 568-625 *)
  | vec3_zero => (Tvec3, 0) | vec3_one => (Tvec3, 1) | vec3_x_axis => (Tvec3, 2) | vec3_y_axis => (Tvec3, 3)
  | vec3_z_axis => (Tvec3, 4)                                             (* 1182-1190, 1270-1348 *)
  | vec4_zero => (Tvec4, 0) | vec4_one => (Tvec4, 1) | vec4_x_axis => (Tvec4, 2) | vec4_y_axis => (Tvec4, 3)
  | vec4_z_axis => (Tvec4, 4) | vec4_w_axis => (Tvec4, 5)                 (* 1899-1908, 1990-2086 *)
  | box_zero => (Tbox, 0) | box_one => (Tbox, 1) | box_minus_one => (Tbox, 2) | box_one_minus_one => (Tbox, 3)
  | box_infinite => (Tbox, 4) | box_empty => (Tbox, 5)                    (* box.c:724-733, 827-931 *)
  | box2d_zero => (Tbox2d, 0) | box2d_one => (Tbox2d, 1) | box2d_minus_one => (Tbox2d, 2)
  | box2d_one_minus_one => (Tbox2d, 3) | box2d_infinite => (Tbox2d, 4)
  | box2d_empty => (Tbox2d, 5)                                            (* box2d.c:903-912, 1000-1104 *)
  end%nat.
(* box.c entries are two vectors, the others one *)
Definition wide (t : tbl) : bool := match t with Tbox => true | _ => false end.
(** the cells a caller can read through the returned pointer *)
Definition cells_of (a : acc) : list cell :=
  let (t, i) := entry a in Cell t i false :: if wide t then [Cell t i true] else [].

Section Once.
Context {F : Type} {O : FOps F}.
Notation V := (simd4f F).

(** the initialisers: assignments in program order *)
Definition script (t : tbl) : list (cell * V) :=
  let w i v := (Cell t i false, v) in let lo i v := (Cell t i false, v) in let hi i v := (Cell t i true, v) in
  match t with
  | Tvec2 => [w 0 g_init_zero; w 1 (g_init fone fone fzero fzero); w 2 (g_init fone fzero fzero fzero); w 3 (g_init fzero fone fzero fzero)] (* vectors.c:494-501 *)
  | Tvec3 => [w 0 g_init_zero; w 1 (g_init fone fone fone fzero); w 2 (g_init fone fzero fzero fzero); w 3 (g_init fzero fone fzero fzero);
              w 4 (g_init fzero fzero fone fzero)]                        (* 1194-1202 *)
  | Tvec4 => [w 0 g_init_zero; w 1 (g_splat fone); w 2 (g_init fone fzero fzero fzero); w 3 (g_init fzero fone fzero fzero);
              w 4 (g_init fzero fzero fone fzero); w 5 (g_init fzero fzero fzero fone)] (* 1912-1921 *)
  | Tbox => [lo 0 g_init_zero; hi 0 g_init_zero; lo 1 g_init_zero; hi 1 (g_init fone fone fone fzero);
             lo 2 (g_init fm1 fm1 fm1 fzero); hi 2 g_init_zero; lo 3 (g_init fm1 fm1 fm1 fzero); hi 3 (g_init fone fone fone fzero);
             lo 4 (g_init fninf fninf fninf fzero); hi 4 (g_init finf finf finf fzero);
             lo 5 (g_init finf finf finf fzero); hi 5 (g_init fninf fninf fninf fzero)] (* box.c:737-757 *)
  | Tbox2d => [w 0 g_init_zero; w 1 (g_init fzero fzero fone fone); w 2 (g_init fm1 fm1 fzero fzero); w 3 (g_init fm1 fm1 fone fone);
               w 4 (g_init fninf fninf finf finf); w 5 (g_init finf finf fninf fninf)] (* box2d.c:916-930 *)
  end%nat.

(** pthread_once (vectors.c:503-519 and its four siblings), InitOnceExecuteOnce (521-543), or a plain flag (545-558) *)
Inductive mech := PthreadOnce | InitOnce | PlainFlag.
(* pthread_once and InitOnce block late callers, the plain flag does not *)
Definition blocking (m : mech) : bool := match m with PlainFlag => false | _ => true end.
(** state of a pthread_once_t / INIT_ONCE *)
Inductive once := Fresh | Running (i : nat) | Done.
(** where a thread is: outside the library; about to call init_static_*; inside the initialiser with
    these assignments left *)
Inductive pc := Outside | Enter (a : acc) | Init (a : acc) (rest : list (cell * V)).
(* program state *)
Record st := St {
  ctl : tbl -> once;
  flag : tbl -> bool;
  mem : cell -> V;
  thr : nat -> pc;
  handed : list acc;       (* accessors that have returned so far: their entry may be read by anybody *)
  runs : tbl -> nat        (* how often the initialiser was started *)
}.
(* zero-initialised static storage, no thread inside an accessor *)
Definition start : st := St (fun _ => Fresh) (fun _ => false) (fun _ => g_init_zero) (fun _ => Outside) [] (fun _ => 0%nat).
(* function update; no C counterpart *)
Definition upd {A B} (dec : forall a b : A, {a = b} + {a <> b}) (f : A -> B) (a : A) (v : B) : A -> B := fun x => if dec x a then v else f x.
Notation updT := (upd tbl_eq_dec). Notation updC := (upd cell_eq_dec). Notation updI := (upd Nat.eq_dec).
(* the table an accessor reads *)
Definition tab (a : acc) : tbl := fst (entry a).

(** thread [i] takes a step *)
Inductive step (m : mech) (i : nat) : st -> st -> Prop :=
| s_call s a : thr s i = Outside -> step m i s (St (ctl s) (flag s) (mem s) (updI (thr s) i (Enter a)) (handed s) (runs s))
(* pthread_once / InitOnceExecuteOnce *)
| s_first s a : blocking m = true -> thr s i = Enter a -> ctl s (tab a) = Fresh ->
    step m i s (St (updT (ctl s) (tab a) (Running i)) (flag s) (mem s) (updI (thr s) i (Init a (script (tab a)))) (handed s) (updT (runs s) (tab a) (S (runs s (tab a)))))
| s_done s a : blocking m = true -> thr s i = Enter a -> ctl s (tab a) = Done ->
    step m i s (St (ctl s) (flag s) (mem s) (updI (thr s) i Outside) (a :: handed s) (runs s))
(* [if (static_vec2_init) return;] *)
| s_flag_set s a : blocking m = false -> thr s i = Enter a -> flag s (tab a) = true ->
    step m i s (St (ctl s) (flag s) (mem s) (updI (thr s) i Outside) (a :: handed s) (runs s))
| s_flag_clear s a : blocking m = false -> thr s i = Enter a -> flag s (tab a) = false ->
    step m i s (St (ctl s) (flag s) (mem s) (updI (thr s) i (Init a (script (tab a)))) (handed s) (updT (runs s) (tab a) (S (runs s (tab a)))))
| s_write s a c v rest : thr s i = Init a ((c, v) :: rest) ->
    step m i s (St (ctl s) (flag s) (updC (mem s) c v) (updI (thr s) i (Init a rest)) (handed s) (runs s))
(* the initialiser has returned *)
| s_finish s a : blocking m = true -> thr s i = Init a [] ->
    step m i s (St (updT (ctl s) (tab a) Done) (flag s) (mem s) (updI (thr s) i Outside) (a :: handed s) (runs s))
| s_flag_finish s a : blocking m = false -> thr s i = Init a [] ->
    step m i s (St (ctl s) (updT (flag s) (tab a) true) (mem s) (updI (thr s) i Outside) (a :: handed s) (runs s)).

(** all executions; [who] limits which threads exist *)
Inductive reach (m : mech) (who : nat -> Prop) : st -> Prop :=
| r_start : reach m who start
| r_step s i s' : reach m who s -> who i -> step m i s s' -> reach m who s'.
(** a data race: thread [i]'s next step writes a cell, and another thread can access it right now,
    by its own write or by a read through a pointer that has been returned *)
Definition about_to_write (s : st) (i : nat) (c : cell) : Prop := exists a v rest, thr s i = Init a ((c, v) :: rest).
(* specification: a write concurrent with another access to the same cell *)
Definition race (s : st) : Prop :=
  exists i c, about_to_write s i c /\ ((exists j, j <> i /\ about_to_write s j c) \/ (exists a, In a (handed s) /\ In c (cells_of a))).
End Once.
