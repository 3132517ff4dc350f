(** * Neon: the estimate-and-refine sequences of the NEON back end.

    [Simd] leaves NEON's reciprocal, reciprocal square root and square root as
    arbitrary lane functions.  Here they are the instruction sequences of
    include/graphene-simd4f.h; only the hardware's first estimates (vrecpeq_f32,
    vrsqrteq_f32) stay arbitrary functions.  Simplification: flush-to-zero of
    subnormals (ARMv7) is not modelled. *)
From Coq Require Import ZArith Bool List.
From Verif Require Import Num Simd.
Local Open Scope f_scope.

Section Neon.
Context {F : Type} {O : FOps F}.
(** [fused]: ARMv8 computes the step instructions with one rounding, ARMv7 with two *)
Context (fused : bool) (rece rsqe : F -> F).

(* 0 * infinity, for which the step instructions have a special result; no C counterpart *)
Definition zero_times_inf (a b : F) : bool := (a ==. fzero) && fisinf b || fisinf a && (b ==. fzero).
(* vrecpsq_f32 (h:1294-1295): 2 - a * b, and 2 for 0 * infinity *)
Definition neon_recps (a b : F) : F :=
  if zero_times_inf a b then ftwo
  else if fused then ffma (-. a) b ftwo else ftwo -. a *. b.
(* vrsqrtsq_f32 (h:1322): (3 - a * b) / 2, and 1.5 for 0 * infinity; the halving is exact *)
Definition neon_rsqrts (a b : F) : F :=
  if zero_times_inf a b then fthree *. fhalf
  else (if fused then ffma (-. a) b fthree else fthree -. a *. b) *. fhalf.
(* include/graphene-simd4f.h:1291-1296, graphene_simd4f_reciprocal, one lane *)
Definition neon_reciprocal (s : F) : F :=
  let est := rece s in
  let est := neon_recps est s *. est in
  neon_recps est s *. est.
(* include/graphene-simd4f.h:1319-1323, _simd4f_rsqrt_iter, one lane *)
Definition neon_rsqrt_iter (v estimate : F) : F :=
  let est1 := estimate *. v in
  estimate *. neon_rsqrts est1 estimate.
(* include/graphene-simd4f.h:1325-1331, graphene_simd4f_rsqrt, one lane *)
Definition neon_rsqrt (s : F) : F :=
  let estimate := rsqe s in
  let estimate := neon_rsqrt_iter s estimate in
  let estimate := neon_rsqrt_iter s estimate in
  neon_rsqrt_iter s estimate.
(* include/graphene-simd4f.h:1333-1339, graphene_simd4f_sqrt, one lane: vtstq_u32 masks
   the lanes whose bits are all zero, that is +0 *)
Definition neon_sqrt (s : F) : F :=
  if (s ==. fzero) && negb (fsignbit s) then fzero else neon_reciprocal (neon_rsqrt s).
(* the back end of include/graphene-simd4f.h:1197-1541 *)
Definition neon : Backend F := Neon neon_reciprocal neon_rsqrt neon_sqrt.
End Neon.
