(** * OrdThy: order laws shared by binary32 and the exact reals.

    Everything that only compares numbers is proved once from these laws. *)

From Coq Require Import ZArith Reals Bool List Lra Lia.
From Flocq Require Import Core BinarySingleNaN.
From Verif Require Import Num Simd.

Definition nonnan {F} {O : FOps F} (x : F) : Prop := fisnan x = false.

Class OrdLaws (F : Type) {O : FOps F} : Prop := {
  ol_refl : forall x : F, nonnan x -> fle x x = true;
  ol_trans : forall x y z : F, fle x y = true -> fle y z = true -> fle x z = true;
  ol_total : forall x y : F, nonnan x -> nonnan y -> fle x y = true \/ fle y x = true;
  ol_lt : forall x y : F, nonnan x -> nonnan y -> flt x y = negb (fle y x);
  ol_le_nn : forall x y : F, fle x y = true -> nonnan x /\ nonnan y;
  ol_lt_nn : forall x y : F, flt x y = true -> nonnan x /\ nonnan y;
  ol_zero : nonnan (fzero : F);
  ol_inf : nonnan (finf : F);
  ol_ninf : nonnan (fninf : F);
  ol_le_inf : forall x : F, nonnan x -> fle x finf = true;
  ol_ninf_le : forall x : F, nonnan x -> fle fninf x = true;
  ol_pinf : forall x : F, fisinf x && negb (fsignbit x) = fle finf x;
  ol_ninf_eq : forall x : F, fisinf x && fsignbit x = fle x fninf;
  ol_ninf_zero : fle fzero (fninf : F) = false;
  ol_zero_inf : fle finf (fzero : F) = false;
  ol_eqb : forall x y : F, feqb x y = fle x y && fle y x
}.

Ltac bdes := repeat match goal with
  | |- context [Rlt_dec ?a ?b] => destruct (Rlt_dec a b)
  | H : context [Rlt_dec ?a ?b] |- _ => destruct (Rlt_dec a b)
  | |- context [Req_EM_T ?a ?b] => destruct (Req_EM_T a b)
  | H : context [Req_EM_T ?a ?b] |- _ => destruct (Req_EM_T a b)
  end.

Lemma xle_fin a b : xle (Fin a) (Fin b) = true <-> (a <= b)%R.
Proof. unfold xle; simpl; bdes; simpl; split; intros; try easy; try discriminate; lra. Qed.
Lemma xlt_fin a b : xlt (Fin a) (Fin b) = true <-> (a < b)%R.
Proof. simpl; bdes; split; intros; try easy; try discriminate. Qed.
Lemma xle_fin_f a b : xle (Fin a) (Fin b) = false <-> (b < a)%R.
Proof. unfold xle; simpl; bdes; simpl; split; intros; try easy; try discriminate; lra. Qed.
Lemma xlt_fin_f a b : xlt (Fin a) (Fin b) = false <-> (b <= a)%R.
Proof. simpl; bdes; split; intros; try easy; try discriminate; lra. Qed.
Lemma xeq_fin a b : xeqb (Fin a) (Fin b) = true <-> a = b.
Proof. simpl; bdes; split; intros; try easy; try discriminate. Qed.

#[global] Instance xreal_ord : OrdLaws xreal.
Proof.
  constructor; unfold nonnan, fninf; simpl; intros;
  repeat match goal with x : xreal |- _ => destruct x end;
  unfold xle in *; simpl in *; bdes; simpl in *; try easy; try discriminate; try lra; auto;
  exfalso; lra.
Qed.

(** Comparisons of floats are comparisons of their values. *)
Section B.
Context {prec emax : Z} {Hp : Prec_gt_0 prec} {He : Prec_lt_emax prec emax}.
Notation B := (binary_float prec emax).

Lemma B2X_finite (x : B) : is_finite x = true -> B2X x = Fin (B2R x).
Proof. destruct x; try destruct s; easy. Qed.

Lemma Bcompare_X (x y : B) : Bcompare x y =
  match B2X x, B2X y with
  | Undef, _ | _, Undef => None
  | Fin a, Fin b => Some (Rcompare a b)
  | NInf, NInf | PInf, PInf => Some Eq
  | NInf, _ | _, PInf => Some Lt
  | _, _ => Some Gt end.
Proof.
  destruct (is_finite x) eqn:Fx, (is_finite y) eqn:Fy.
  - rewrite (Bcompare_correct _ _ x y Fx Fy), !B2X_finite by easy. easy.
  - rewrite (B2X_finite x Fx). destruct y as [|[]| |]; destruct x as [| | |[]]; easy.
  - rewrite (B2X_finite y Fy). destruct x as [|[]| |]; destruct y as [| | |[]]; easy.
  - destruct x as [|[]| |]; destruct y as [|[]| |]; easy.
Qed.

Lemma Bltb_X (x y : B) : Bltb x y = xlt (B2X x) (B2X y).
Proof.
  replace (Bltb x y) with (match Bcompare x y with Some Lt => true | _ => false end) by (destruct x, y; reflexivity).
  rewrite Bcompare_X. destruct (B2X x), (B2X y); try easy.
  simpl. destruct (Rlt_dec r r0).
  - now rewrite Rcompare_Lt.
  - destruct (Rcompare_spec r r0); try easy; lra.
Qed.
Lemma Beqb_X (x y : B) : Beqb x y = xeqb (B2X x) (B2X y).
Proof.
  replace (Beqb x y) with (match Bcompare x y with Some Eq => true | _ => false end) by (destruct x, y; reflexivity).
  rewrite Bcompare_X. destruct (B2X x), (B2X y); try easy.
  simpl. destruct (Req_EM_T r r0).
  - now rewrite Rcompare_Eq.
  - destruct (Rcompare_spec r r0); try easy; lra.
Qed.
Lemma Bleb_X (x y : B) : Bleb x y = xle (B2X x) (B2X y).
Proof.
  replace (Bleb x y) with (match Bcompare x y with Some (Lt | Eq) => true | _ => false end) by (destruct x, y; reflexivity).
  rewrite Bcompare_X. unfold xle. destruct (B2X x), (B2X y); try easy.
  simpl. destruct (Rlt_dec r r0), (Req_EM_T r r0); simpl; destruct (Rcompare_spec r r0); try easy; lra.
Qed.
Lemma is_nan_X (x : B) : is_nan x = fisnan (B2X x).
Proof. destruct x as [|[]| |]; easy. Qed.
End B.

#[global] Instance b32_ord : OrdLaws b32.
Proof.
  constructor; unfold nonnan, fninf; simpl; intros *; rewrite ?Bleb_X, ?Bltb_X, ?Beqb_X, ?is_nan_X.
  - exact (ol_refl (F:=xreal) (B2X x)).
  - exact (ol_trans (F:=xreal) (B2X x) (B2X y) (B2X z)).
  - exact (ol_total (F:=xreal) (B2X x) (B2X y)).
  - exact (ol_lt (F:=xreal) (B2X x) (B2X y)).
  - exact (ol_le_nn (F:=xreal) (B2X x) (B2X y)).
  - exact (ol_lt_nn (F:=xreal) (B2X x) (B2X y)).
  - easy.
  - easy.
  - easy.
  - exact (ol_le_inf (F:=xreal) (B2X x)).
  - exact (ol_ninf_le (F:=xreal) (B2X x)).
  - destruct x as [s|[]| |s m e H]; try easy; simpl; rewrite ?andb_false_r; try easy.
  - destruct x as [s|[]| |s m e H]; try easy.
  - easy.
  - easy.
  - exact (ol_eqb (F:=xreal) (B2X x) (B2X y)).
Qed.

(** Minimum and maximum of two lanes, in every back end. *)
Section MinMax.
Context {F : Type} {O : FOps F} {OL : OrdLaws F} {B : Backend F}.

Lemma lane_min_cases (a b : F) : lane_min a b = a \/ lane_min a b = b.
Proof. unfold lane_min. destruct backend;
  repeat match goal with |- context [if ?c then _ else _] => destruct c end; auto. Qed.
Lemma lane_max_cases (a b : F) : lane_max a b = a \/ lane_max a b = b.
Proof. unfold lane_max. destruct backend;
  repeat match goal with |- context [if ?c then _ else _] => destruct c end; auto. Qed.
Lemma lane_min_nn (a b : F) : nonnan a -> nonnan b -> nonnan (lane_min a b).
Proof. destruct (lane_min_cases a b) as [->| ->]; auto. Qed.
Lemma lane_max_nn (a b : F) : nonnan a -> nonnan b -> nonnan (lane_max a b).
Proof. destruct (lane_max_cases a b) as [->| ->]; auto. Qed.

Lemma fle_of_lt (x y : F) : flt x y = true -> fle x y = true.
Proof.
  intros H. destruct (ol_lt_nn _ _ H) as [Hx Hy]. rewrite (ol_lt _ _ Hx Hy) in H.
  destruct (ol_total x y Hx Hy) as [E|E]; auto. rewrite E in H; discriminate. Qed.
Lemma fle_of_nlt (x y : F) : nonnan x -> nonnan y -> flt x y = false -> fle y x = true.
Proof. intros Hx Hy. rewrite ol_lt by easy. now destruct (fle y x). Qed.
Lemma fle_refl' (x : F) : nonnan x -> fle x x = true. Proof. apply ol_refl. Qed.

Ltac nanf := match goal with H : nonnan ?a, H' : fisnan ?a = true |- _ => unfold nonnan in H; congruence end.

Lemma lane_min_l (a b : F) : nonnan a -> nonnan b -> fle (lane_min a b) a = true.
Proof.
  intros Ha Hb. unfold lane_min. destruct backend;
  repeat match goal with |- context [if ?c then _ else _] => destruct c eqn:? end; try nanf;
  auto using ol_refl, fle_of_lt, fle_of_nlt.
Qed.
Lemma lane_min_r (a b : F) : nonnan a -> nonnan b -> fle (lane_min a b) b = true.
Proof.
  intros Ha Hb. unfold lane_min. destruct backend;
  repeat match goal with |- context [if ?c then _ else _] => destruct c eqn:? end; try nanf;
  auto using ol_refl, fle_of_lt, fle_of_nlt.
Qed.
Lemma lane_max_l (a b : F) : nonnan a -> nonnan b -> fle a (lane_max a b) = true.
Proof.
  intros Ha Hb. unfold lane_max. destruct backend;
  repeat match goal with |- context [if ?c then _ else _] => destruct c eqn:? end; try nanf;
  auto using ol_refl, fle_of_lt, fle_of_nlt.
Qed.
Lemma lane_max_r (a b : F) : nonnan a -> nonnan b -> fle b (lane_max a b) = true.
Proof.
  intros Ha Hb. unfold lane_max. destruct backend;
  repeat match goal with |- context [if ?c then _ else _] => destruct c eqn:? end; try nanf;
  auto using ol_refl, fle_of_lt, fle_of_nlt.
Qed.
(** glb / lub characterisations *)
Lemma fle_min_iff (a b x : F) : nonnan a -> nonnan b ->
  fle x (lane_min a b) = fle x a && fle x b.
Proof.
  intros Ha Hb. apply eq_true_iff_eq. rewrite andb_true_iff. split.
  - intros H. split; (eapply ol_trans; [exact H|]); auto using lane_min_l, lane_min_r.
  - intros [H1 H2]. destruct (lane_min_cases a b) as [->| ->]; auto.
Qed.
Lemma max_fle_iff (a b x : F) : nonnan a -> nonnan b ->
  fle (lane_max a b) x = fle a x && fle b x.
Proof.
  intros Ha Hb. apply eq_true_iff_eq. rewrite andb_true_iff. split.
  - intros H. split; (eapply ol_trans; [|exact H]); auto using lane_max_l, lane_max_r.
  - intros [H1 H2]. destruct (lane_max_cases a b) as [->| ->]; auto.
Qed.
Lemma min_fle (a b x : F) : nonnan a -> nonnan b -> fle a x = true \/ fle b x = true -> fle (lane_min a b) x = true.
Proof. intros Ha Hb [H|H]; (eapply ol_trans; [|exact H]); auto using lane_min_l, lane_min_r. Qed.
Lemma fle_max (a b x : F) : nonnan a -> nonnan b -> fle x a = true \/ fle x b = true -> fle x (lane_max a b) = true.
Proof. intros Ha Hb [H|H]; (eapply ol_trans; [exact H|]); auto using lane_max_l, lane_max_r. Qed.
End MinMax.
