(** * B32Setup: common set-up of the binary32 property files (no definitions of the
    model): which instances are found automatically, which constants [simpl] leaves
    alone, and two tactics for closed computations. *)
From Coq Require Import ZArith Reals Bool List.
From Flocq Require Import Core BinarySingleNaN.
From Verif Require Import Num Simd OrdThy.

#[export] Remove Hints xreal_ops xreal_ord xreal_dops xreal_libm : typeclass_instances.
#[global] Arguments fadd : simpl never.
#[global] Arguments fsub : simpl never.
#[global] Arguments fmul : simpl never.
#[global] Arguments fneg : simpl never.
#[global] Arguments fdiv : simpl never.
#[global] Arguments fabs : simpl never.
#[global] Arguments fle : simpl never.
#[global] Arguments flt : simpl never.
#[global] Arguments feqb : simpl never.
#[global] Arguments fisnan : simpl never.
#[global] Arguments fisinf : simpl never.
#[global] Arguments fsignbit : simpl never.
#[global] Arguments fzero : simpl never.
#[global] Arguments fone : simpl never.
#[global] Arguments flit : simpl never.
#[global] Arguments finf : simpl never.
#[global] Arguments fsqrt : simpl never.
#[global] Arguments ffma : simpl never.
#[global] Arguments ffloor : simpl never.
#[global] Arguments fceil : simpl never.
#[global] Arguments fpi : simpl never.
#[global] Arguments fpi_2 : simpl never.
#[global] Arguments fm1 : simpl never.
#[global] Arguments fhalf : simpl never.
#[global] Arguments ftwo : simpl never.
#[global] Arguments fthree : simpl never.
#[global] Arguments ffour : simpl never.
#[global] Arguments feps : simpl never.
#[global] Arguments fninf : simpl never.
#[global] Arguments B2X : simpl never.
#[global] Arguments d2f : simpl never.
#[global] Arguments f2d : simpl never.

(** closed binary32 computations *)
Ltac beq := lazymatch goal with
  | |- @eq bool _ _ => vm_compute; reflexivity
  | |- @eq _ _ _ => apply B2SF_inj; vm_compute; reflexivity end.
(** the float m * 2^e *)
Definition lit (m e : Z) : b32 := flit m e.
