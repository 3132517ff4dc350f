(** * Props_Simd4x4: the simd4x4f API in binary32, every back end (C74). *)

From Coq Require Import ZArith Reals Bool List Lra Lia Psatz.
From Flocq Require Import Core BinarySingleNaN.
From Verif Require Import Num Simd Vec Rect Box Mat OrdThy FloatThy B32Setup FloatLem Props_VecOps.
Import ListNotations.
Local Notation V := (simd4f b32).

(** the entries of a matrix, by row and column *)
Definition rows {F} : list (mat F -> simd4f F) := [mx; my; mz; mw].
Definition cols {F} : list (simd4f F -> F) := [vx; vy; vz; vw].
Definition entry {F} (m : mat F) (i j : nat) : option F :=
  match nth_error rows i, nth_error cols j with Some r, Some c => Some (c (r m)) | _, _ => None end.

(** ** add, sub, mul and div work entry by entry *)
Theorem C74_entrywise : forall (BK : Backend b32) (a b : mat b32) (row : mat b32 -> V) (col : V -> b32), In row rows -> In col cols ->
  value (col (row (gm_add a b))) = nearest (xadd (value (col (row a))) (value (col (row b)))) /\
  value (col (row (gm_sub a b))) = nearest (xsub (value (col (row a))) (value (col (row b)))) /\
  value (col (row (gm_hadamard a b))) = nearest (xmul (value (col (row a))) (value (col (row b)))) /\
  divides BK (col (row a)) (col (row b)) (col (row (gm_div a b))).
Proof.
  intros BK a b row col R C.
  destruct R as [<-|[<-|[<-|[<-|[]]]]]; destruct C as [<-|[<-|[<-|[<-|[]]]]];
  (split; [apply fadd_X|split; [apply fsub_X|split; [apply fmul_X|apply lane_divides]]]).
Qed.
(** ** sum adds the four rows, from the first to the last *)
Theorem C74_sum : forall (m : mat b32) (col : V -> b32), In col cols ->
  value (col (gm_sum m)) =
  nearest (xadd (nearest (xadd (nearest (xadd (value (col (mx m))) (value (col (my m))))) (value (col (mz m))))) (value (col (mw m)))).
Proof.
  intros m col C. destruct C as [<-|[<-|[<-|[<-|[]]]]]; unfold gm_sum, g_add, map2; cbn [vx vy vz vw]; now rewrite !fadd_X.
Qed.
(** ** moving entries around: bit for bit, NaN included *)
Theorem C74_transpose : forall (m : mat b32) (i j : nat), entry (gm_transpose m) i j = entry m j i.
Proof.
  intros m i j. unfold entry. do 4 (destruct i as [|i]; [do 4 (destruct j as [|j]; [reflexivity|]); destruct j; reflexivity|]).
  do 4 (destruct j as [|j]; [destruct i; reflexivity|]). destruct i, j; reflexivity.
Qed.
Theorem C74_init : forall (x y z w : V) (m : mat b32),
  mx (gm_init x y z w) = x /\ my (gm_init x y z w) = y /\ mz (gm_init x y z w) = z /\ mw (gm_init x y z w) = w /\
  gm_transpose (gm_transpose m) = m.
Proof. intros x y z w [[] [] [] []]. repeat split. Qed.
(** entry (i, j) is float number 4 i + j, for every array of at least 16 floats, and storing a
    matrix changes the first 16 floats of the array and no other *)
Theorem C74_load : forall (f : list b32), (16 <= length f)%nat -> exists m, gm_init_from_float f = Some m /\
  forall i j, (i < 4)%nat -> (j < 4)%nat -> entry m i j = nth_error f (4 * i + j).
Proof.
  intros f L. do 16 (destruct f as [|? f]; [exfalso; simpl in L; lia|]). eexists. split; [reflexivity|].
  intros i j I J. do 4 (destruct i as [|i]; [do 4 (destruct j as [|j]; [reflexivity|]); lia|]). lia.
Qed.
Theorem C74_store : forall (m : mat b32) (v : list b32), (16 <= length v)%nat -> exists v', gm_to_float m v = Some v' /\ length v' = length v /\
  (forall i j, (i < 4)%nat -> (j < 4)%nat -> nth_error v' (4 * i + j) = entry m i j) /\
  (forall k, (16 <= k)%nat -> nth_error v' k = nth_error v k).
Proof.
  intros m v L. do 16 (destruct v as [|? v]; [exfalso; simpl in L; lia|]). eexists. split; [reflexivity|]. split; [reflexivity|]. split.
  - intros i j I J. do 4 (destruct i as [|i]; [do 4 (destruct j as [|j]; [reflexivity|]); lia|]). lia.
  - intros k K. do 16 (destruct k as [|k]; [exfalso; lia|]). reflexivity.
Qed.
Theorem C74_identity : forall i j, (i < 4)%nat -> (j < 4)%nat -> option_map (fun x : b32 => value x) (entry gm_identity i j) = Some (Fin (if Nat.eqb i j then 1%R else 0%R)).
Proof.
  intros i j I J. do 4 (destruct i as [|i]; [do 4 (destruct j as [|j]; [unfold entry; cbn [nth_error rows cols option_map]; simpl Nat.eqb; cbv iota; f_equal; apply fone_X || apply fzero_X|]); lia|]). lia.
Qed.

Example C74_ex : let m := gm_translation fone ftwo (fhalf : b32) in
  vx (mw (gm_add m m)) = ftwo /\ vy (gm_sum m) = flit 3 0 /\ entry (gm_transpose m) 1 3 = Some ftwo /\
  (exists m', gm_init_from_float (repeat (fone : b32) 17) = Some m') /\ (16 <= length (repeat (fone : b32) 17))%nat.
Proof. cbv zeta. split; [beq|split; [beq|split; [reflexivity|split; [eexists; reflexivity|simpl; lia]]]]. Qed.
