(** * RMat: textbook 4x4 real matrices, the specification side of the matrix theorems.
    Nothing here refers to the code.  A matrix is a function of the row and the column
    index; only indices below 4 matter.  Points and vectors are ROW vectors. *)
From Coq Require Import Reals Lra Lia Arith.
Local Open Scope R_scope.

Definition RM := nat -> nat -> R.
Definition RV := nat -> R.
Definition sum4 (f : nat -> R) : R := f 0%nat + f 1%nat + f 2%nat + f 3%nat.
Definition meq (A B : RM) : Prop := forall i j, (i < 4)%nat -> (j < 4)%nat -> A i j = B i j.
Definition veq (u v : RV) : Prop := forall i, (i < 4)%nat -> u i = v i.
Definition mmul (A B : RM) : RM := fun i j => sum4 (fun k => A i k * B k j).
Definition mI : RM := fun i j => if Nat.eqb i j then 1 else 0.
Definition mtr (A : RM) : RM := fun i j => A j i.
Definition vmul (v : RV) (A : RM) : RV := fun j => sum4 (fun k => v k * A k j).
Definition vec (x y z w : R) : RV := fun i => match i with 0 => x | 1 => y | 2 => z | _ => w end%nat.

(** The determinant of the leading n x n block by expansion along the first row. *)
Fixpoint sumn (n : nat) (f : nat -> R) : R :=
  match n with 0%nat => 0 | S n => sumn n f + f n end.
Fixpoint det (n : nat) (A : RM) : R :=
  match n with
  | 0%nat => 1
  | S n => sumn (S n) (fun j => (-1) ^ j * A 0%nat j * det n (fun i k => A (S i) (if Nat.ltb k j then k else S k)))
  end.

(** affine: the last column is (0,0,0,1) *)
Definition affine (A : RM) : Prop := A 0%nat 3%nat = 0 /\ A 1%nat 3%nat = 0 /\ A 2%nat 3%nat = 0 /\ A 3%nat 3%nat = 1.

Lemma mmul_assoc A B C : meq (mmul (mmul A B) C) (mmul A (mmul B C)).
Proof. intros i j _ _. unfold mmul, sum4. ring. Qed.
Ltac idx4 i H := destruct i as [|[|[|[|i]]]]; [| | | |exfalso; clear - H; lia].
Lemma mmul_1_l A : meq (mmul mI A) A.
Proof. intros i j Hi _. unfold mmul, sum4, mI. idx4 i Hi; simpl; ring. Qed.
Lemma mmul_1_r A : meq (mmul A mI) A.
Proof. intros i j _ Hj. unfold mmul, sum4, mI. idx4 j Hj; simpl; ring. Qed.
Lemma vmul_mmul v A B : veq (vmul v (mmul A B)) (vmul (vmul v A) B).
Proof. intros j _. unfold mmul, vmul, sum4. ring. Qed.
Lemma det4 A : det 4 A =
  let a := A 0%nat in let b := A 1%nat in let c := A 2%nat in let d := A 3%nat in
  a 0%nat * (b 1%nat * (c 2%nat * d 3%nat - c 3%nat * d 2%nat) - b 2%nat * (c 1%nat * d 3%nat - c 3%nat * d 1%nat) + b 3%nat * (c 1%nat * d 2%nat - c 2%nat * d 1%nat))
  - a 1%nat * (b 0%nat * (c 2%nat * d 3%nat - c 3%nat * d 2%nat) - b 2%nat * (c 0%nat * d 3%nat - c 3%nat * d 0%nat) + b 3%nat * (c 0%nat * d 2%nat - c 2%nat * d 0%nat))
  + a 2%nat * (b 0%nat * (c 1%nat * d 3%nat - c 3%nat * d 1%nat) - b 1%nat * (c 0%nat * d 3%nat - c 3%nat * d 0%nat) + b 3%nat * (c 0%nat * d 1%nat - c 1%nat * d 0%nat))
  - a 3%nat * (b 0%nat * (c 1%nat * d 2%nat - c 2%nat * d 1%nat) - b 1%nat * (c 0%nat * d 2%nat - c 2%nat * d 0%nat) + b 2%nat * (c 0%nat * d 1%nat - c 1%nat * d 0%nat)).
Proof. cbn. ring. Qed.
Lemma det_mul A B : det 4 (mmul A B) = det 4 A * det 4 B.
Proof. rewrite !det4. unfold mmul, sum4. cbv zeta. ring. Qed.
Lemma det_tr A : det 4 (mtr A) = det 4 A.
Proof. rewrite !det4. unfold mtr. cbv zeta. ring. Qed.
Lemma det_I : det 4 mI = 1.
Proof. rewrite det4. unfold mI; simpl. ring. Qed.
Lemma det3 A : det 3 A =
  A 0%nat 0%nat * (A 1%nat 1%nat * A 2%nat 2%nat - A 1%nat 2%nat * A 2%nat 1%nat)
  - A 0%nat 1%nat * (A 1%nat 0%nat * A 2%nat 2%nat - A 1%nat 2%nat * A 2%nat 0%nat)
  + A 0%nat 2%nat * (A 1%nat 0%nat * A 2%nat 1%nat - A 1%nat 1%nat * A 2%nat 0%nat).
Proof. cbn. ring. Qed.
#[global] Opaque det.
