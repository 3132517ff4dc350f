(** * Alloc: model of src/graphene-alloc.c and of the *_alloc / *_free functions.

    size_t values are integers between 0 and [size_max]; arithmetic is modulo size_max+1.
    The heap is a list of live blocks and a byte map.  The C library's allocators are
    nondeterministic: they fail, or return any block that satisfies their specification. *)
From Coq Require Import ZArith List Bool Lia.
Import ListNotations.
Open Scope Z_scope.

(** Which allocator meson.build:164-177 found (graphene-alloc.c:98-116). *)
Inductive akind := PosixMemalign | AlignedAlloc | MsAlignedMalloc | Memalign | Malloc.
(* build configuration of src/graphene-alloc.c *)
Record config := Cfg {
  ak : akind;
  asserts : bool;         (* G_DISABLE_ASSERT is not defined *)
  size_max : Z;           (* SIZE_MAX *)
  malloc_align : Z        (* alignment that plain malloc and calloc guarantee *)
}.
(** The function a block must be released with. *)
Inductive dealloc := DFree | DAlignedFree.
(* specification: the function that releases what each allocator handed out *)
Definition owed (k : akind) : dealloc :=
  match k with MsAlignedMalloc => DAlignedFree | PosixMemalign | AlignedAlloc | Memalign | Malloc => DFree end.
(* specification of the C allocator: a live block *)
Record block := Blk { b_addr : Z; b_len : Z; b_by : dealloc }.
(* specification of the C allocator: live blocks and memory contents *)
Record heap := Heap { live : list block; byte : Z -> Z }.

(* specification *)
Definition inside (a n x : Z) : Prop := a <= x < a + n.
(* specification: distinct addresses, disjoint ranges *)
Definition apart (a n b m : Z) : Prop := a <> b /\ (a + n <= b \/ b + m <= a).
(* specification: what the C library promises about a fresh block *)
Definition is_free (c : config) (H : heap) (a n : Z) : Prop :=
  0 < a /\ a + n <= size_max c + 1 /\ forall b, In b (live H) -> apart a n (b_addr b) (b_len b).
(** C library: fail, or hand out [n] free bytes at a multiple of [al] with unspecified
    contents ([zeroed]: with contents 0).  Blocks already live keep their bytes. *)
Inductive sys_alloc (c : config) (H : heap) (al n : Z) (by_ : dealloc) (zeroed : bool) : option Z -> heap -> Prop :=
| sys_fail : sys_alloc c H al n by_ zeroed None H
| sys_ok a f : is_free c H a n -> a mod al = 0 -> (forall x, ~ inside a n x -> f x = byte H x) ->
    (zeroed = true -> forall x, inside a n x -> f x = 0) ->
    sys_alloc c H al n by_ zeroed (Some a) (Heap (Blk a n by_ :: live H) f).

(** ** graphene_aligned_alloc, graphene-alloc.c:69-125 *)
Inductive plan := PNull | PAbort | PAsk (req : Z).
(* 103-108 *)
Definition round_up (c : config) (real alignment : Z) : Z :=
  if real mod alignment =? 0 then real
  else (real + (alignment - real mod alignment)) mod (size_max c + 1).
(* src/graphene-alloc.c, graphene_aligned_alloc up to the system call *)
Definition alloc_plan (c : config) (size number alignment : Z) : plan :=
  if (size =? 0) || (number =? 0) then PNull                              (* 78-79 *)
  else if (0 <? size) && (size_max c / size <? number)                    (* 81-92 *)
       then if asserts c then PAbort else PNull
  else let real := (size * number) mod (size_max c + 1) in                (* 94 *)
    PAsk (match ak c with
          | AlignedAlloc | MsAlignedMalloc => round_up c real alignment   (* 102-110 *)
          | PosixMemalign | Memalign | Malloc => real end).               (* 100-101, 111-115 *)
Definition sys_alignment (c : config) (alignment : Z) : Z :=
  match ak c with Malloc => malloc_align c | _ => alignment end.
(* 30-46: aligned_free is free, except on Windows *)
Definition aligned_dealloc (c : config) : dealloc := match ak c with MsAlignedMalloc => DAlignedFree | _ => DFree end.
(* outcome of an allocation call *)
Inductive result := RNull | RAbort | RPtr (p : Z).
(* src/graphene-alloc.c:69-126, graphene_aligned_alloc *)
Inductive aligned_alloc (c : config) (H : heap) (size number alignment : Z) : result -> heap -> Prop :=
| aa_null : alloc_plan c size number alignment = PNull -> aligned_alloc c H size number alignment RNull H
| aa_abort : alloc_plan c size number alignment = PAbort -> aligned_alloc c H size number alignment RAbort H
| aa_fail req : alloc_plan c size number alignment = PAsk req ->           (* 117-124 *)
    sys_alloc c H (sys_alignment c alignment) req (owed (ak c)) false None H ->
    aligned_alloc c H size number alignment (if asserts c then RAbort else RNull) H
| aa_ok req p H' : alloc_plan c size number alignment = PAsk req ->
    sys_alloc c H (sys_alignment c alignment) req (owed (ak c)) false (Some p) H' ->
    aligned_alloc c H size number alignment (RPtr p) H'.

(** memset (p, 0, n) *)
Definition clear (H : heap) (p n : Z) : heap :=
  Heap (live H) (fun x => if (p <=? x) && (x <? p + n) then 0 else byte H x).
(** graphene_aligned_alloc0, 139-150 *)
(* src/graphene-alloc.c:139-150, graphene_aligned_alloc0 *)
Inductive aligned_alloc0 (c : config) (H : heap) (size number alignment : Z) : result -> heap -> Prop :=
| a0_ptr p H' : aligned_alloc c H size number alignment (RPtr p) H' ->
    aligned_alloc0 c H size number alignment (RPtr p) (clear H' p ((size * number) mod (size_max c + 1)))
| a0_null H' : aligned_alloc c H size number alignment RNull H' -> aligned_alloc0 c H size number alignment RNull H'
| a0_abort H' : aligned_alloc c H size number alignment RAbort H' -> aligned_alloc0 c H size number alignment RAbort H'.
(** calloc (1, n) *)
Inductive sys_calloc (c : config) (H : heap) (n : Z) : result -> heap -> Prop :=
| calloc_null : sys_calloc c H n RNull H
| calloc_ok p H' : sys_alloc c H (malloc_align c) n DFree true (Some p) H' -> sys_calloc c H n (RPtr p) H'.
(** free / _aligned_free: [None] is undefined behaviour (not a live block of that allocator) *)
Definition release (d : dealloc) (H : heap) (p : Z) : option heap :=
  if p =? 0 then Some H
  else match find (fun b => b_addr b =? p) (live H) with
       | Some b => match b_by b, d with
                   | DFree, DFree | DAlignedFree, DAlignedFree =>
                       Some (Heap (filter (fun b => negb (b_addr b =? p)) (live H)) (byte H))
                   | _, _ => None end
       | None => None end.

(** ** The object types and their constructors and destructors *)
Inductive otype := TBox | TBox2d | TEuler | TFrustum | TMatrix | TPlane | TPoint | TPoint3d | TQuad
  | TQuaternion | TRay | TRect | TSize | TSphere | TTriangle | TVec2 | TVec3 | TVec4.
(* sizeof, from the structure declarations in include/ (4-byte float and enum, 16-byte aligned simd4f) *)
Definition osize (t : otype) : Z :=
  match t with
  | TBox => 32 | TBox2d => 16 | TEuler => 32 | TFrustum => 192 | TMatrix => 64 | TPlane => 32
  | TPoint => 8 | TPoint3d => 12 | TQuad => 32 | TQuaternion => 16 | TRay => 32 | TRect => 16 | TSize => 8
  | TSphere => 32 | TTriangle => 48 | TVec2 | TVec3 | TVec4 => 16 end.
(* which allocator a *_alloc function calls *)
Inductive how := HAligned | HAligned0 | HCalloc.
(* the body of each graphene_*_alloc *)
Definition oalloc (t : otype) : how :=
  match t with
  | TBox (* box.c:68 *) | TBox2d (* box2d.c:52 *) | TEuler (* euler.c:384 *) | TFrustum (* frustum.c:66 *)
  | TPlane (* plane.c:66 *) | TSphere (* sphere.c:61 *) | TTriangle (* triangle.c:63 *) => HAligned0
  | TMatrix (* matrix.c:119 *) | TRay (* ray.c:71 *) | TVec2 (* vectors.c:73 *) | TVec3 (* 649 *) | TVec4 (* 1371 *) => HAligned
  | TPoint (* point.c:80 *) | TPoint3d (* point3d.c:61 *) | TQuad (* quad.c:58 *) | TQuaternion (* quaternion.c:67 *)
  | TRect (* rect.c:87 *) | TSize (* size.c:54 *) => HCalloc end.
(* the type named by the sizeof in each constructor (same lines) *)
Definition asked (t : otype) : otype :=
  match t with
  | TBox => TBox | TBox2d => TBox2d | TEuler => TEuler | TFrustum => TFrustum | TMatrix => TMatrix | TPlane => TPlane
  | TPoint => TPoint | TPoint3d => TPoint3d | TQuad => TQuad | TQuaternion => TQuaternion | TRay => TRay | TRect => TRect
  | TSize => TSize | TSphere => TSphere | TTriangle => TTriangle | TVec2 => TVec2 | TVec3 => TVec3 | TVec4 => TVec4 end.
(* the function each *_free calls *)
Definition ofree (c : config) (t : otype) : dealloc :=
  match t with
  | TBox (* box.c:82 *) | TBox2d (* box2d.c:66 *) | TEuler (* euler.c:398 *) | TFrustum (* frustum.c:80 *)
  | TPlane (* plane.c:80 *) | TSphere (* sphere.c:75 *) | TTriangle (* triangle.c:77 *)
  | TMatrix (* matrix.c:133 *) | TRay (* ray.c:85 *) | TVec2 (* vectors.c:87 *) | TVec3 (* 663 *) | TVec4 (* 1385 *) => aligned_dealloc c
  | TPoint (* point.c:94 *) | TPoint3d (* point3d.c:75 *) | TQuad (* quad.c:72 *) | TQuaternion (* quaternion.c:81 *)
  | TRect (* rect.c:101 *) | TSize (* size.c:68 *) => DFree end.
Definition obj_alloc (c : config) (H : heap) (t : otype) (r : result) (H' : heap) : Prop :=
  match oalloc t with
  | HAligned => aligned_alloc c H (osize (asked t)) 1 16 r H'
  | HAligned0 => aligned_alloc0 c H (osize (asked t)) 1 16 r H'
  | HCalloc => sys_calloc c H (osize (asked t)) r H' end.
(* the body of each graphene_*_free *)
Definition obj_free (c : config) (H : heap) (t : otype) (p : Z) : option heap := release (ofree c t) H p.

(** ** Clients: any sequence of allocations, releases of objects still allocated, and writes
    inside such objects. *)
Record state := St { hp : heap; objs : list (otype * Z) }.
(* a store through a pointer the caller holds *)
Definition put (H : heap) (a v : Z) : heap := Heap (live H) (fun x => if x =? a then v else byte H x).
(* one call or store by the program *)
Inductive step (c : config) : state -> state -> Prop :=
| st_alloc H os t p H' : obj_alloc c H t (RPtr p) H' -> step c (St H os) (St H' ((t, p) :: os))
| st_null H os t H' : obj_alloc c H t RNull H' -> step c (St H os) (St H' os)
| st_free H os t p H' : In (t, p) os -> obj_free c H t p = Some H' ->
    step c (St H os) (St H' (filter (fun o => negb (snd o =? p)) os))
| st_free_null H os t H' : obj_free c H t 0 = Some H' -> step c (St H os) (St H' os)
| st_write H os t p off v : In (t, p) os -> 0 <= off < osize t -> step c (St H os) (St (put H (p + off) v) os).
(* a history of calls and stores *)
Inductive steps (c : config) : state -> state -> Prop :=
| steps_0 s : steps c s s
| steps_S s s' s'' : steps c s s' -> step c s' s'' -> steps c s s''.
