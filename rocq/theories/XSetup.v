(** * XSetup: common set-up of the exact-arithmetic property files.

    Statements there are about the same model functions as the binary32 ones,
    interpreted over [xreal].  [Fin r] is the real number r. *)
From Coq Require Import ZArith Reals Bool List Lra Lia Psatz.
From Flocq Require Import Core.
From Verif Require Import Num Simd OrdThy.

#[export] Remove Hints b32_ops b32_ord b32_dops : typeclass_instances.

(** a vector of four real numbers *)
Definition rv (x y z w : R) : simd4f xreal := V4 (Fin x) (Fin y) (Fin z) (Fin w).

(** Back ends whose hardware estimates are exact: nothing is required of the scalar and
    GCC ones. *)
Definition exact_backend (BK : Backend xreal) : Prop :=
  match BK with
  | Scalar _ | Gcc => True
  | Sse _ _ rcp rsq =>
      (forall x, x <> 0%R -> rcp (Fin x) = Fin (/ x)) /\ (forall x, (0 < x)%R -> rsq (Fin x) = Fin (/ sqrt x))
  | Neon rec rsq sq =>
      (forall x, x <> 0%R -> rec (Fin x) = Fin (/ x)) /\ (forall x, (0 < x)%R -> rsq (Fin x) = Fin (/ sqrt x)) /\
      (forall x, (0 <= x)%R -> sq (Fin x) = Fin (sqrt x))
  end.
Definition is_scalar (BK : Backend xreal) : bool := match BK with Scalar _ => true | _ => false end.

Lemma xlit (m e : Z) : flit m e = Fin (IZR m * bpow radix2 e).
Proof. reflexivity. Qed.
Lemma xtwo : ftwo = Fin 2.       Proof. unfold ftwo; simpl; f_equal; lra. Qed.
Lemma xthree : fthree = Fin 3.   Proof. unfold fthree; simpl; f_equal; lra. Qed.
Lemma xfour : ffour = Fin 4.     Proof. unfold ffour; simpl; f_equal; lra. Qed.
Lemma xhalf : fhalf = Fin (/ 2). Proof. unfold fhalf; simpl; f_equal; lra. Qed.
Lemma xm1 : fm1 = Fin (-1).      Proof. unfold fm1; simpl; f_equal; lra. Qed.
Definition eps : R := / 8388608.
Lemma xeps : feps = Fin eps.     Proof. unfold feps, eps; simpl; f_equal; lra. Qed.
Lemma eps_pos : (0 < eps)%R.     Proof. unfold eps. lra. Qed.
Lemma x180 : flit 180 0 = Fin 180. Proof. simpl. f_equal. lra. Qed.

(** The exact operations on real operands. *)
Lemma Xadd a b : fadd (Fin a) (Fin b) = Fin (a + b). Proof. reflexivity. Qed.
Lemma Xsub a b : fsub (Fin a) (Fin b) = Fin (a - b). Proof. reflexivity. Qed.
Lemma Xmul a b : fmul (Fin a) (Fin b) = Fin (a * b). Proof. reflexivity. Qed.
Lemma Xneg a : fneg (Fin a) = Fin (- a). Proof. reflexivity. Qed.
Lemma Xabs a : fabs (Fin a) = Fin (Rabs a). Proof. reflexivity. Qed.
Lemma Xdiv a b : b <> 0%R -> fdiv (Fin a) (Fin b) = Fin (a / b).
Proof. intros H. simpl. now destruct (Req_EM_T b 0). Qed.
Lemma Xsqrt a : (0 <= a)%R -> fsqrt (Fin a) = Fin (sqrt a).
Proof. intros H. simpl. destruct (Rlt_dec a 0); auto. exfalso; lra. Qed.
Lemma Xone : fone = Fin 1. Proof. reflexivity. Qed.
Lemma Xzero : fzero = Fin 0. Proof. reflexivity. Qed.
Lemma Xfma a b c : ffma (Fin a) (Fin b) (Fin c) = Fin (a * b + c). Proof. reflexivity. Qed.

(** Decisions. *)
Lemma Xlt_t a b : (a < b)%R -> flt (Fin a) (Fin b) = true.  Proof. apply xlt_fin. Qed.
Lemma Xlt_f a b : (b <= a)%R -> flt (Fin a) (Fin b) = false. Proof. apply xlt_fin_f. Qed.
Lemma Xle_t a b : (a <= b)%R -> fle (Fin a) (Fin b) = true. Proof. apply xle_fin. Qed.
Lemma Xle_f a b : (b < a)%R -> fle (Fin a) (Fin b) = false. Proof. apply xle_fin_f. Qed.
Lemma Xeq_t a b : a = b -> feqb (Fin a) (Fin b) = true. Proof. apply xeq_fin. Qed.
Lemma Xeq_f a b : a <> b -> feqb (Fin a) (Fin b) = false. Proof. intros H; simpl. now destruct (Req_EM_T a b). Qed.
Lemma Xlt_iff a b : flt (Fin a) (Fin b) = true <-> (a < b)%R. Proof. apply xlt_fin. Qed.
Lemma Xle_iff a b : fle (Fin a) (Fin b) = true <-> (a <= b)%R. Proof. apply xle_fin. Qed.
Lemma Xlt_iff_f a b : flt (Fin a) (Fin b) = false <-> (b <= a)%R. Proof. apply xlt_fin_f. Qed.
Lemma Xle_iff_f a b : fle (Fin a) (Fin b) = false <-> (b < a)%R. Proof. apply xle_fin_f. Qed.

#[global] Arguments fadd : simpl never.
#[global] Arguments fsub : simpl never.
#[global] Arguments fmul : simpl never.
#[global] Arguments fdiv : simpl never.
#[global] Arguments fneg : simpl never.
#[global] Arguments fabs : simpl never.
#[global] Arguments fsqrt : simpl never.
#[global] Arguments ffma : simpl never.
#[global] Arguments flt : simpl never.
#[global] Arguments fle : simpl never.
#[global] Arguments feqb : simpl never.
#[global] Arguments flit : simpl never.
#[global] Arguments fone : simpl never.
#[global] Arguments fzero : simpl never.
#[global] Arguments ftwo : simpl never.
#[global] Arguments fthree : simpl never.
#[global] Arguments ffour : simpl never.
#[global] Arguments fhalf : simpl never.
#[global] Arguments fm1 : simpl never.
#[global] Arguments feps : simpl never.
#[global] Arguments fninf : simpl never.
#[global] Arguments finf : simpl never.

#[global] Arguments approx_val : simpl never.
#[global] Arguments fsin : simpl never.
#[global] Arguments fcos : simpl never.
#[global] Arguments ftan : simpl never.
#[global] Arguments fasin : simpl never.
#[global] Arguments facos : simpl never.
#[global] Arguments fatan2 : simpl never.
#[global] Arguments deg_to_rad : simpl never.
#[global] Arguments rad_to_deg : simpl never.
#[global] Arguments fpi : simpl never.
#[global] Arguments fpi_2 : simpl never.
Lemma X_approx a b : approx_val (Fin a) (Fin b) = true <-> (Rabs (a - b) < eps)%R.
Proof.
  unfold approx_val, fuzzy_equals. rewrite xeps. destruct (flt (Fin b) (Fin a)) eqn:L.
  - apply Xlt_iff in L. rewrite Xsub, Xlt_iff, Rabs_pos_eq by lra. tauto.
  - apply Xlt_iff_f in L. rewrite Xsub, Xlt_iff, Rabs_left1 by lra. replace (- (a - b))%R with (b - a)%R by ring. tauto.
Qed.
Lemma X_approx_f a b : approx_val (Fin a) (Fin b) = false <-> (eps <= Rabs (a - b))%R.
Proof.
  pose proof (X_approx a b). destruct (approx_val (Fin a) (Fin b)); split; intros; try easy.
  - assert (Rabs (a - b) < eps)%R by (now apply H). lra.
  - destruct (Rlt_or_le (Rabs (a - b)) eps) as [L|L]; auto. apply H in L. discriminate.
Qed.
Lemma Xsin a : fsin (Fin a) = Fin (sin a). Proof. reflexivity. Qed.
Lemma Xcos a : fcos (Fin a) = Fin (cos a). Proof. reflexivity. Qed.
Lemma Xtan a : cos a <> 0%R -> ftan (Fin a) = Fin (tan a).
Proof. intros H. unfold ftan; simpl. now destruct (Req_EM_T (cos a) 0). Qed.
Lemma Xatan2 a b : fatan2 (Fin a) (Fin b) = Fin (ratan2 a b). Proof. reflexivity. Qed.
Lemma in_unit_t a : (-1 <= a <= 1)%R -> in_unit a = true.
Proof. intros [H H']. unfold in_unit. destruct (Rle_dec (-1) a); [|easy]. now destruct (Rle_dec a 1). Qed.
Lemma Xasin a : (-1 <= a <= 1)%R -> fasin (Fin a) = Fin (asin a).
Proof. intros H. unfold fasin; simpl. now rewrite in_unit_t. Qed.
Lemma Xacos a : (-1 <= a <= 1)%R -> facos (Fin a) = Fin (acos a).
Proof. intros H. unfold facos; simpl. now rewrite in_unit_t. Qed.
Lemma Xpi : fpi = Fin PI. Proof. reflexivity. Qed.
Lemma Xpi_2 : fpi_2 = Fin (PI / 2). Proof. reflexivity. Qed.
Lemma X_d2r a : deg_to_rad (Fin a) = Fin (a * (PI / 180)).
Proof. unfold deg_to_rad. rewrite Xpi, x180, Xdiv, Xmul by lra. reflexivity. Qed.
Lemma X_r2d a : rad_to_deg (Fin a) = Fin (a * (180 / PI)).
Proof. unfold rad_to_deg. rewrite Xpi, x180, Xdiv, Xmul by (pose proof PI_RGT_0; lra). reflexivity. Qed.

(** push real arithmetic through *)
Ltac xs := repeat (simpl; rewrite ?Xone, ?Xzero, ?xtwo, ?xthree, ?xfour, ?xhalf, ?xm1, ?xeps, ?x180, ?Xadd, ?Xsub, ?Xmul, ?Xneg, ?Xabs, ?Xfma).
Ltac xs_in H := repeat (simpl in H; rewrite ?Xone, ?Xzero, ?xtwo, ?xthree, ?xfour, ?xhalf, ?xm1, ?xeps, ?x180, ?Xadd, ?Xsub, ?Xmul, ?Xneg, ?Xabs, ?Xfma in H).
Ltac feq := repeat f_equal.
(** equalities of structures of reals, up to ring equations between the reals *)
Ltac xring := first [reflexivity | ring | f_equal; xring].
Ltac xfield := first [reflexivity | ring | field; lra | f_equal; xfield].

Section Lanes.
Context (BK : Backend xreal) (EB : exact_backend BK).
Lemma X_lane_sqrt a : (0 <= a)%R -> lane_sqrt (Fin a) = Fin (sqrt a).
Proof.
  intros H. unfold lane_sqrt, backend. destruct BK; try (now apply Xsqrt). now apply EB.
Qed.
Lemma X_rsqrt a : (0 < a)%R -> (is_scalar BK = true -> eps < a)%R -> lane_rsqrt (Fin a) = Fin (/ sqrt a).
Proof.
  intros H Hs. unfold lane_rsqrt, backend. pose proof (sqrt_lt_R0 a H) as Sp.
  destruct BK as [i| |s f rcp rsq|rec rsq sq]; simpl in EB.
  - rewrite Xabs, xeps, Xlt_t. 2:{ rewrite Rabs_pos_eq by lra. now apply Hs. }
    rewrite Xsqrt, Xone, Xdiv by lra. f_equal. unfold Rdiv. ring.
  - rewrite Xzero, Xeq_f by lra. rewrite Xsqrt, Xone, Xdiv by lra. f_equal. unfold Rdiv. ring.
  - cbv zeta. destruct EB as [_ E]. rewrite E by auto. rewrite xhalf, xthree, !Xmul, Xsub, Xmul. f_equal.
    rewrite <- (sqrt_sqrt a) at 3 by lra. field. lra.
  - now apply EB.
Qed.
Lemma X_rsqrt0 : lane_rsqrt (Fin 0) = Fin 0 \/ is_scalar BK = false.
Proof.
  destruct BK as [i| |s f rcp rsq|rec rsq sq]; auto. left. unfold lane_rsqrt, backend.
  rewrite Xabs, xeps, Rabs_R0, Xlt_f; auto. unfold eps; lra.
Qed.
Lemma X_reciprocal a : a <> 0%R -> (eps < Rabs a)%R -> lane_reciprocal (Fin a) = Fin (/ a).
Proof.
  intros H He. unfold lane_reciprocal, backend, rcp_guard.
  assert (D : fdiv fone (Fin a) = Fin (/ a)) by (rewrite Xone, Xdiv by easy; f_equal; unfold Rdiv; ring).
  destruct BK as [[]| |s f rcp rsq|rec rsq sq]; simpl in EB; rewrite ?Xabs, ?xeps, ?Xlt_t by easy; auto.
  - cbv zeta. destruct EB as [E _]. rewrite E by easy. rewrite Xzero, Xeq_f, Xmul, xtwo, Xsub, Xmul by easy. f_equal. field. easy.
  - now apply EB.
Qed.
Lemma X_div a b : b <> 0%R -> (is_scalar BK = true -> eps < Rabs b)%R -> lane_div (Fin a) (Fin b) = Fin (a / b).
Proof.
  intros H He. unfold lane_div, backend. destruct BK as [i| |s f rcp rsq|rec rsq sq]; simpl in EB.
  - rewrite Xabs, xeps, Xlt_t by (now apply He). now apply Xdiv.
  - now apply Xdiv.
  - now apply Xdiv.
  - destruct EB as [E _]. rewrite E by easy. now rewrite Xmul.
Qed.
End Lanes.
