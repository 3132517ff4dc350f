(** * Props_AliasX: matrix interpolation in place (C62), exact arithmetic. *)
From Coq Require Import ZArith Reals Bool List Lra Lia.
From Flocq Require Import Core.
From Verif Require Import Num Simd Vec Rect Box Mat Geo Quat Alias Props_Alias OrdThy XSetup RMat Props_VecX Props_MatX Props_MatX2 Props_MatX3 Props_MatX4 RQuat TrigThy Props_QuatX Props_QuatX2 Props_DecompX.
Import ListNotations.

Section AliasX.
Context {BK : Backend xreal}.
Definition tr (z : R) : mat xreal := mt (mtrans 0 0 z).
(* halfway between the translations by 4 and by 8 is the translation by 6; written over the first
   operand, the code returns the translation by 4 *)
Theorem C62_matrix_interpolate_in_place_refuted : exact_backend BK -> exists m : Z -> xreal,
  ld_mat 0 m = tr 4 /\ ld_mat 16 m = tr 8 /\
  matrix_interpolate (ld_mat 0 m) (ld_mat 16 m) (Fin (/ 2)) = Some (tr 6) /\
  exists m', c_matrix_interpolate 0 16 (Fin (/ 2)) 0 m = Some m' /\ ld_mat 0 m' = tr 4.
Proof.
  intros EB. exists (st_mat 0 (tr 4) (st_mat 16 (tr 8) (fun _ => Fin 0))).
  set (m := st_mat 0 (tr 4) (st_mat 16 (tr 8) (fun _ => Fin 0))).
  assert (E0 : ld_mat 0 m = tr 4) by apply mat_same.
  assert (E1 : ld_mat 16 m = tr 8).
  { unfold m. rewrite (ld_mat_ext (st_mat 16 (tr 8) (fun _ => Fin 0))) by (intros; apply mat_out; lia). apply mat_same. }
  assert (I : forall z z', (eps <= Rabs z' -> matrix_interpolate (tr z) (tr z') (Fin (/ 2)) = Some (tr (lerp (/ 2) z z')))%R).
  { intros z z' H. unfold tr. pose proof (C68_translations BK (V3 0 0 z) (V3 0 0 z') (/ 2)%R EB) as T; cbn [r3x r3y r3z] in T; rewrite T by auto.
    unfold lerp3; cbn [r3x r3y r3z]. replace (lerp (/ 2)%R 0%R 0%R) with 0%R by (unfold lerp; ring). reflexivity. }
  assert (A8 : (eps <= Rabs 8)%R) by (rewrite Rabs_pos_eq; unfold eps; lra).
  split; [exact E0|]. split; [exact E1|]. rewrite E0, E1. split.
  - rewrite I by exact A8. f_equal. f_equal. unfold lerp. lra.
  - assert (ID : gm_identity = tr 0) by (rewrite mt_I; apply mt_ext; intros i j Hi Hj; unfold mtrans, of_rows, vec, mI; idx4 i Hi; idx4 j Hj; reflexivity).
    pose proof (matrix_interpolate_in_place 0 16 (Fin (/ 2)) m ltac:(lia)) as P. rewrite ID, E1, I in P by exact A8.
    destruct P as (m' & C & L). exists m'. split; [exact C|]. rewrite L. f_equal. unfold lerp. lra.
Qed.
End AliasX.
