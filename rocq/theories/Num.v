(** * Num: the number systems the model is interpreted in.

    Graphene computes in C [float] (IEEE-754 binary32) with occasional [double]
    intermediates.  The model of the code (files Simd.v, Vec.v, Rect.v, ...) is
    written ONCE, over an abstract record of floating point operations [FOps],
    and interpreted in two instances:

    - [b32] : Flocq's IEEE-754 binary32 (round to nearest even, infinities,
      signed zeros, a single NaN).  This is the number system of the compiled C
      code (assuming no FMA contraction, no excess precision, default rounding
      mode; NaN payloads and signs are not distinguished).
    - [xreal] : exact real arithmetic extended with infinities and a distinct
      [Undef] outcome (NaN, x/0, sqrt of a negative number ...).  Algebraic
      identities that no floating point program satisfies exactly (associativity
      of matrix products, inverses, ...) are stated here: it is the code with
      "rounding removed", and nothing is totalised to a normal-looking value. *)

From Coq Require Import ZArith Reals Bool List.
From Flocq Require Import Core BinarySingleNaN.

(** The C operators and <math.h> functions used by the sources that IEEE-754
    specifies exactly. *)
Class FOps (F : Type) := mkFOps {
  fzero : F;                      (* 0.f                                   *)
  fone  : F;                      (* 1.f                                   *)
  flit  : Z -> Z -> F;            (* the literal m * 2^e                   *)
  finf  : F;                      (* INFINITY                              *)
  fpi   : F;                      (* GRAPHENE_PI,   include/graphene-macros.h:108: the
                                     nearest float to pi; pi itself in the exact model *)
  fpi_2 : F;                      (* GRAPHENE_PI_2, include/graphene-macros.h:109 *)
  fneg  : F -> F;                 (* unary -                               *)
  fabs  : F -> F;                 (* fabsf                                 *)
  fadd  : F -> F -> F;
  fsub  : F -> F -> F;
  fmul  : F -> F -> F;
  fdiv  : F -> F -> F;
  ffma  : F -> F -> F -> F;       (* _mm_fmadd_ps lane: a*b+c, one rounding *)
  fsqrt : F -> F;                 (* sqrtf                                 *)
  ffloor : F -> F;                (* floorf                                *)
  fceil : F -> F;                 (* ceilf                                 *)
  flt   : F -> F -> bool;         (* a < b,  false on NaN                  *)
  fle   : F -> F -> bool;         (* a <= b, false on NaN                  *)
  feqb  : F -> F -> bool;         (* a == b, false on NaN                  *)
  fisnan : F -> bool;             (* isnan                                 *)
  fisinf : F -> bool;             (* isinf, fpclassify == FP_INFINITE      *)
  fsignbit : F -> bool            (* signbit                               *)
}.

Declare Scope f_scope.
Delimit Scope f_scope with f.
Infix "+." := fadd (at level 50, left associativity) : f_scope.
Infix "-." := fsub (at level 50, left associativity) : f_scope.
Infix "*." := fmul (at level 40, left associativity) : f_scope.
Infix "/." := fdiv (at level 40, left associativity) : f_scope.
Notation "-. x" := (fneg x) (at level 35, right associativity) : f_scope.
Infix "<." := flt (at level 70, no associativity) : f_scope.
Infix "<=." := fle (at level 70, no associativity) : f_scope.
Infix "==." := feqb (at level 70, no associativity) : f_scope.
(* C's a > b is b < a, a >= b is b <= a; IEEE comparisons make these equal. *)
Notation "a >. b" := (flt b a) (at level 70, no associativity, only parsing) : f_scope.
Notation "a >=. b" := (fle b a) (at level 70, no associativity, only parsing) : f_scope.

Section Derived.
Context {F : Type} {O : FOps F}.
Definition ftwo  : F := flit 1 1.       (* 2.f  *)
Definition fthree : F := flit 3 0.      (* 3.f  *)
Definition ffour : F := flit 1 2.       (* 4.f  *)
Definition fhalf : F := flit 1 (-1).    (* 0.5f *)
Definition fm1   : F := fneg fone.      (* -1.f *)
Definition feps  : F := flit 1 (-23).   (* FLT_EPSILON, = GRAPHENE_FLOAT_EPSILON (src/graphene-private.h:38) *)
Definition fninf : F := fneg finf.      (* -INFINITY *)
(* copysignf *)
Definition fcopysign (a b : F) : F := if fsignbit b then fneg (fabs a) else fabs a.
(* src/graphene-private.h:40-64, MIN and MAX *)
Definition cMIN (a b : F) : F := if flt a b then a else b.
(* src/graphene-private.h:53-64, MAX *)
Definition cMAX (a b : F) : F := if flt b a then a else b.
(* fmaxf: a NaN argument is ignored *)
Definition ffmax (a b : F) : F :=
  if fisnan a then b else if fisnan b then a else if flt a b then b else a.
(* src/graphene-private.h:88-89, GRAPHENE_DEG_TO_RAD and GRAPHENE_RAD_TO_DEG *)
Definition deg_to_rad (x : F) : F := fmul x (fdiv fpi (flit 180 0)).
(* src/graphene-private.h:89, GRAPHENE_RAD_TO_DEG *)
Definition rad_to_deg (x : F) : F := fmul x (fdiv (flit 180 0) fpi).
(* src/graphene-private.h:66-78, CLAMP *)
Definition cCLAMP (v lo hi : F) : F := if flt v lo then lo else if flt hi v then hi else v.
(* src/graphene-private.h:91-104, graphene_fuzzy_equals *)
Definition fuzzy_equals (n1 n2 eps : F) : bool :=
  flt (if flt n2 n1 then fsub n1 n2 else fsub n2 n1) eps.
(* src/graphene-private.h:116-120, graphene_approx_val *)
Definition approx_val (a b : F) : bool := fuzzy_equals a b feps.
End Derived.

(** <math.h> functions IEEE-754 does not specify.  The binary32 model takes an
    arbitrary record of them (an oracle: every binary32 theorem that mentions a
    function using them holds for every libm); the exact model uses the real
    functions. *)
Class LibM (F : Type) := mkLibM {
  fsin : F -> F; fcos : F -> F; ftan : F -> F;
  fasin : F -> F; facos : F -> F; fatan2 : F -> F -> F
}.

(** [double] intermediates: a second [FOps] with the conversions. *)
Class DOps (F D : Type) := mkDOps {
  dops : FOps D;
  f2d : F -> D;      (* (double) x *)
  d2f : D -> F       (* (float) x  *)
}.
#[global] Existing Instance dops.

(** ** binary32 / binary64 *)
Definition b32 : Type := binary_float 24 128.
(* C double *)
Definition b64 : Type := binary_float 53 1024.
#[global] Instance prec32 : Prec_gt_0 24 := eq_refl.
#[global] Instance emax32 : Prec_lt_emax 24 128 := eq_refl.
#[global] Instance prec64 : Prec_gt_0 53 := eq_refl.
#[global] Instance emax64 : Prec_lt_emax 53 1024 := eq_refl.

Section BInst.
Context (prec emax : Z) {Hp : Prec_gt_0 prec} {He : Prec_lt_emax prec emax}.
Notation B := (binary_float prec emax).
(* the IEEE-754 operations of the C implementation, from Flocq; no C source line *)
Definition bfops : FOps B := {|
  fzero := B754_zero false;
  fone := Bone;
  flit := fun m e => binary_normalize prec emax Hp He mode_NE m e false;
  finf := B754_infinity false;
  fpi := binary_normalize prec emax Hp He mode_NE 13176795 (-22) false;
  fpi_2 := binary_normalize prec emax Hp He mode_NE 13176795 (-23) false;
  fneg := Bopp;
  fabs := Babs;
  fadd := Bplus mode_NE;
  fsub := Bminus mode_NE;
  fmul := Bmult mode_NE;
  fdiv := Bdiv mode_NE;
  ffma := Bfma mode_NE;
  fsqrt := Bsqrt mode_NE;
  ffloor := Bnearbyint mode_DN;
  fceil := Bnearbyint mode_UP;
  flt := Bltb;
  fle := Bleb;
  feqb := Beqb;
  fisnan := is_nan;
  fisinf := fun x => match x with B754_infinity _ => true | _ => false end;
  fsignbit := Bsign
|}.
End BInst.

#[global] Instance b32_ops : FOps b32 := bfops 24 128.
(* C double arithmetic; no C source line *)
Definition b64_ops : FOps b64 := bfops 53 1024.

(* C conversions between float and double: exact when widening, one rounding to
   nearest even when narrowing. *)
Definition bconv (p1 e1 p2 e2 : Z) {H1 : Prec_gt_0 p2} {H2 : Prec_lt_emax p2 e2}
  (x : binary_float p1 e1) : binary_float p2 e2 :=
  match x with
  | B754_zero s => B754_zero s
  | B754_infinity s => B754_infinity s
  | B754_nan => B754_nan
  | B754_finite s m e _ => binary_normalize p2 e2 H1 H2 mode_NE (cond_Zopp s (Zpos m)) e s
  end.
#[global] Instance b32_dops : DOps b32 b64 := {|
  dops := b64_ops;
  f2d := bconv 24 128 53 1024;
  d2f := bconv 53 1024 24 128
|}.

(** ** exact extended reals *)
Inductive xreal : Type := Fin (r : R) | PInf | NInf | Undef.

(* exact counterparts of the C operators (number system, no C source lines): -a *)
Definition xneg a := match a with Fin r => Fin (- r) | PInf => NInf | NInf => PInf | Undef => Undef end.
(* fabsf *)
Definition xabs a := match a with Fin r => Fin (Rabs r) | PInf | NInf => PInf | Undef => Undef end.
(* a + b *)
Definition xadd a b := match a, b with
  | Fin x, Fin y => Fin (x + y)
  | PInf, Fin _ | Fin _, PInf | PInf, PInf => PInf
  | NInf, Fin _ | Fin _, NInf | NInf, NInf => NInf
  | _, _ => Undef end.
(* a - b *)
Definition xsub a b := match a, b with
  | Fin x, Fin y => Fin (x - y)
  | _, _ => xadd a (xneg b) end.
(* infinity of the sign of [r] scaled by [s]; 0 * inf is Undef *)
Definition xsgn_inf (r : R) (s : xreal) : xreal :=
  if Rlt_dec 0 r then s else if Rlt_dec r 0 then xneg s else Undef.
(* a * b *)
Definition xmul a b := match a, b with
  | Fin x, Fin y => Fin (x * y)
  | Fin x, PInf | PInf, Fin x => xsgn_inf x PInf
  | Fin x, NInf | NInf, Fin x => xsgn_inf x NInf
  | PInf, PInf | NInf, NInf => PInf
  | PInf, NInf | NInf, PInf => NInf
  | _, _ => Undef end.
(* the exact model has no signed zero, so x/0 is Undef rather than an infinity *)
Definition xdiv a b := match a, b with
  | Fin x, Fin y => if Req_EM_T y 0 then Undef else Fin (x / y)
  | Fin _, PInf | Fin _, NInf => Fin 0
  | PInf, Fin y => xsgn_inf y PInf
  | NInf, Fin y => xsgn_inf y NInf
  | _, _ => Undef end.
(* sqrtf *)
Definition xsqrt a := match a with
  | Fin x => if Rlt_dec x 0 then Undef else Fin (sqrt x)
  | PInf => PInf | _ => Undef end.
(* floorf *)
Definition xfloor a := match a with Fin x => Fin (IZR (Zfloor x)) | _ => a end.
(* ceilf *)
Definition xceil a := match a with Fin x => Fin (IZR (Zceil x)) | _ => a end.
(* a < b *)
Definition xlt a b := match a, b with
  | Fin x, Fin y => if Rlt_dec x y then true else false
  | NInf, Fin _ | NInf, PInf | Fin _, PInf => true
  | _, _ => false end.
(* a == b *)
Definition xeqb a b := match a, b with
  | Fin x, Fin y => if Req_EM_T x y then true else false
  | PInf, PInf | NInf, NInf => true
  | _, _ => false end.
(* a <= b *)
Definition xle a b := xlt a b || xeqb a b.

#[global] Instance xreal_ops : FOps xreal := {|
  fzero := Fin 0;
  fone := Fin 1;
  flit := fun m e => Fin (IZR m * bpow radix2 e);
  finf := PInf;
  fpi := Fin PI;
  fpi_2 := Fin (PI / 2);
  fneg := xneg; fabs := xabs; fadd := xadd; fsub := xsub; fmul := xmul; fdiv := xdiv;
  ffma := fun a b c => xadd (xmul a b) c;
  fsqrt := xsqrt; ffloor := xfloor; fceil := xceil;
  flt := xlt; fle := xle; feqb := xeqb;
  fisnan := fun a => match a with Undef => true | _ => false end;
  fisinf := fun a => match a with PInf | NInf => true | _ => false end;
  fsignbit := fun a => match a with Fin r => if Rlt_dec r 0 then true else false | NInf => true | _ => false end
|}.
#[global] Instance xreal_dops : DOps xreal xreal :=
  {| dops := xreal_ops; f2d := fun x => x; d2f := fun x => x |}.

(** The exact model's <math.h>: the real functions, [Undef] outside their domain.
    There is no signed zero, so atan2 (0, 0) is 0 and atan2 (0, x<0) is pi. *)
Definition ratan2 (y x : R) : R :=
  if Rlt_dec 0 x then atan (y / x)
  else if Rlt_dec x 0 then (if Rlt_dec y 0 then atan (y / x) - PI else atan (y / x) + PI)
  else if Rlt_dec 0 y then PI / 2 else if Rlt_dec y 0 then - (PI / 2) else 0.
(* a real function lifted to xreal *)
Definition xmap (f : R -> R) (a : xreal) : xreal := match a with Fin r => Fin (f r) | _ => Undef end.
(* domain test of asin and acos *)
Definition in_unit (r : R) : bool := if Rle_dec (-1) r then if Rle_dec r 1 then true else false else false.
#[global] Instance xreal_libm : LibM xreal := {|
  fsin := xmap sin;
  fcos := xmap cos;
  ftan := fun a => match a with Fin r => if Req_EM_T (cos r) 0 then Undef else Fin (tan r) | _ => Undef end;
  fasin := fun a => match a with Fin r => if in_unit r then Fin (asin r) else Undef | _ => Undef end;
  facos := fun a => match a with Fin r => if in_unit r then Fin (acos r) else Undef | _ => Undef end;
  fatan2 := fun a b => match a, b with Fin y, Fin x => Fin (ratan2 y x) | _, _ => Undef end
|}.

(** The value of a float in the exact number system (NaN maps to [Undef]). *)
Definition B2X {p e} (x : binary_float p e) : xreal :=
  match x with
  | B754_nan => Undef
  | B754_infinity false => PInf
  | B754_infinity true => NInf
  | _ => Fin (B2R x)
  end.
