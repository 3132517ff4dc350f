(** * Props_Err: forward error bounds in binary32 (C70). *)
From Coq Require Import ZArith Reals Bool List Lra Lia Psatz.
From Flocq Require Import Core BinarySingleNaN.
From Verif Require Import Num Simd Vec Rect Box Mat OrdThy FloatThy B32Setup FloatLem ErrThy.
Import ListNotations.
Local Open Scope R_scope.

Notation V := (simd4f b32).
(** the real number held by a finite float *)
Notation real x := (B2R (x : b32)).
(** [r] is a finite float within [e] of the real number [t] *)
Definition within (e : R) (r : b32) (t : R) : Prop := fin r /\ Rabs (real r - t) <= e.
Definition finite4 (v : V) : Prop := fin (vx v) /\ fin (vy v) /\ fin (vz v) /\ fin (vw v).
Definition finite3 (v : V) : Prop := fin (vx v) /\ fin (vy v) /\ fin (vz v).
Definition finite2 (v : V) : Prop := fin (vx v) /\ fin (vy v).

Lemma P126 : bpow radix2 127 = 2 * bpow radix2 126. Proof. change 127%Z with (1 + 126)%Z. now rewrite bpow_plus. Qed.
Lemma P126_1 : 1 <= bpow radix2 126. Proof. apply (bpow_le radix2 0 126). lia. Qed.
Lemma eta_1 : eta <= / 1024. Proof. apply (bpow_le radix2 (-150) (-10)). lia. Qed.
Lemma E147 : bpow radix2 (-147) = 8 * eta. Proof. change (-147)%Z with (3 + -150)%Z. now rewrite bpow_plus. Qed.
Lemma U22 : bpow radix2 (-22) = / 4194304. Proof. reflexivity. Qed.
Ltac facts := pose proof P126; pose proof P126_1; pose proof eta_1; pose proof eta_pos; rewrite ?E147, ?U22, ?u32_val in * .
Ltac absfacts := repeat match goal with |- context [Rabs ?a] => lazymatch goal with _ : 0 <= Rabs a |- _ => fail | _ => pose proof (Rabs_pos a) end end.

Lemma prods2 (p q : b32) a b ea eb : ap p a ea -> ap q b eb -> 0 <= ea -> 0 <= eb ->
  Rabs a + Rabs b + ea + eb <= bpow radix2 127 -> ap (fadd p q) (a + b) (ea + eb + u32 * (Rabs a + Rabs b + ea + eb)).
Proof. intros P Q A B M. apply ap_add; auto. pose proof (Rabs_triang a b). lra. Qed.
Lemma ap_within x r e e' : ap x r e -> e <= e' -> within e' x r.
Proof. intros H E. apply ap_fin in H as [F L]. split; auto. lra. Qed.

Lemma sum2 (a b c d : b32) : fin a -> fin b -> fin c -> fin d ->
  let s := Rabs (real a * real b) + Rabs (real c * real d) in s <= bpow radix2 126 ->
  within (bpow radix2 (-22) * s + bpow radix2 (-147)) (fadd (fmul a b) (fmul c d)) (real a * real b + real c * real d).
Proof.
  intros Fa Fb Fc Fd s H. unfold s in * . absfacts. facts.
  eapply ap_within; [eapply prods2; [apply ap_mul0; auto; lra|apply ap_mul0; auto; lra| | |]|]; rewrite ?u32_val; lra.
Qed.
Lemma ap_zero : ap (fzero : b32) 0 0.
Proof. exists 0. split; [apply fzero_X|]. rewrite Rminus_0_r, Rabs_R0. lra. Qed.
Lemma ap_eq x r r' e : ap x r e -> r = r' -> ap x r' e. Proof. now intros H <-. Qed.
(** three and four products, however they are associated *)
Lemma sum3l (a b c d e f : b32) : fin a -> fin b -> fin c -> fin d -> fin e -> fin f ->
  let s := Rabs (real a * real b) + Rabs (real c * real d) + Rabs (real e * real f) in s <= bpow radix2 126 ->
  within (bpow radix2 (-22) * s + bpow radix2 (-147)) (fadd (fadd (fmul a b) (fmul c d)) (fmul e f))
    (real a * real b + real c * real d + real e * real f).
Proof.
  intros Fa Fb Fc Fd Fe Ff s H. unfold s in * . pose proof (Rabs_triang (real a * real b) (real c * real d)). absfacts. facts.
  eapply ap_within; [eapply prods2; [eapply prods2; [apply ap_mul0; auto; lra|apply ap_mul0; auto; lra| | |]|apply ap_mul0; auto; lra| | |]|];
    rewrite ?u32_val; lra.
Qed.
Lemma sum3z (a b c d e f : b32) : fin a -> fin b -> fin c -> fin d -> fin e -> fin f ->
  let s := Rabs (real a * real b) + Rabs (real c * real d) + Rabs (real e * real f) in s <= bpow radix2 126 ->
  within (bpow radix2 (-22) * s + bpow radix2 (-147)) (fadd (fadd (fmul a b) (fmul c d)) (fadd (fmul e f) fzero))
    (real a * real b + real c * real d + real e * real f).
Proof.
  intros Fa Fb Fc Fd Fe Ff s H. unfold s in * . pose proof (Rabs_triang (real a * real b) (real c * real d)). absfacts. facts.
  assert (Z : ap (fadd (fmul e f) fzero) (real e * real f) (u32 * Rabs (real e * real f) + eta)).
  { assert (E : B2X (fadd (fmul e f) fzero) = B2X (fmul e f)).
    { rewrite fadd_X, fzero_X. rewrite <- (xrnd_B2X (fmul e f)) at 2. f_equal. destruct (B2X (fmul e f)); simpl; auto. f_equal; ring. }
    destruct (ap_mul0 e f Fe Ff) as (q & Q & L); [lra|]. exists q. now rewrite E. }
  eapply ap_within; [eapply prods2; [eapply prods2; [apply ap_mul0; auto; lra|apply ap_mul0; auto; lra| | |]|exact Z| | |]|];
    rewrite ?u32_val; lra.
Qed.
Lemma sum4 (a b c d e f g h : b32) : fin a -> fin b -> fin c -> fin d -> fin e -> fin f -> fin g -> fin h ->
  let s := Rabs (real a * real b) + Rabs (real c * real d) + Rabs (real e * real f) + Rabs (real g * real h) in s <= bpow radix2 126 ->
  within (bpow radix2 (-22) * s + bpow radix2 (-147)) (fadd (fadd (fmul a b) (fmul c d)) (fadd (fmul e f) (fmul g h)))
    (real a * real b + real c * real d + real e * real f + real g * real h).
Proof.
  intros Fa Fb Fc Fd Fe Ff Fg Fh s H. unfold s in * .
  pose proof (Rabs_triang (real a * real b) (real c * real d)). pose proof (Rabs_triang (real e * real f) (real g * real h)). absfacts. facts.
  eapply ap_within; [eapply ap_eq; [eapply prods2; [eapply prods2; [apply ap_mul0; auto; lra|apply ap_mul0; auto; lra| | |]|eapply prods2; [apply ap_mul0; auto; lra|apply ap_mul0; auto; lra| | |]| | |]|]|];
    rewrite ?u32_val; lra.
Qed.
(** three products and a plain term: (ab + cd) + (ef + g) *)
Lemma sum31 (a b c d e f g : b32) : fin a -> fin b -> fin c -> fin d -> fin e -> fin f -> fin g ->
  let s := Rabs (real a * real b) + Rabs (real c * real d) + Rabs (real e * real f) + Rabs (real g) in s <= bpow radix2 126 ->
  within (bpow radix2 (-22) * s + bpow radix2 (-147)) (fadd (fadd (fmul a b) (fmul c d)) (fadd (fmul e f) g))
    (real a * real b + real c * real d + real e * real f + real g).
Proof.
  intros Fa Fb Fc Fd Fe Ff Fg s H. unfold s in * .
  pose proof (Rabs_triang (real a * real b) (real c * real d)). pose proof (Rabs_triang (real e * real f) (real g)). absfacts. facts.
  eapply ap_within; [eapply ap_eq; [eapply prods2; [eapply prods2; [apply ap_mul0; auto; lra|apply ap_mul0; auto; lra| | |]|eapply prods2; [apply ap_mul0; auto; lra|apply ap_refl; auto| | |]| | |]|]|];
    rewrite ?u32_val; lra.
Qed.

(** ** dot products: on every back end, whatever the order of the additions *)
Definition dot2 (a b : V) : R := real (vx a) * real (vx b) + real (vy a) * real (vy b).
Definition dot3 (a b : V) : R := dot2 a b + real (vz a) * real (vz b).
Definition dot4 (a b : V) : R := dot3 a b + real (vw a) * real (vw b).
(** the same sums with every product's absolute value *)
Definition adot2 (a b : V) : R := Rabs (real (vx a) * real (vx b)) + Rabs (real (vy a) * real (vy b)).
Definition adot3 (a b : V) : R := adot2 a b + Rabs (real (vz a) * real (vz b)).
Definition adot4 (a b : V) : R := adot3 a b + Rabs (real (vw a) * real (vw b)).
Definition tol (s : R) : R := bpow radix2 (-22) * s + bpow radix2 (-147).

Theorem C70_dot2 : forall (BK : Backend b32) (a b : V), finite2 a -> finite2 b -> adot2 a b <= bpow radix2 126 ->
  within (tol (adot2 a b)) (vec2_dot a b) (dot2 a b).
Proof. intros BK a b (A1 & A2) (B1 & B2) H. now apply sum2. Qed.
Theorem C70_dot3 : forall (BK : Backend b32) (a b : V), finite3 a -> finite3 b -> adot3 a b <= bpow radix2 126 ->
  within (tol (adot3 a b)) (vec3_dot a b) (dot3 a b).
Proof.
  intros BK a b (A1 & A2 & A3) (B1 & B2 & B3) H. unfold vec3_dot, g_dot3_scalar, adot3, adot2, dot3, dot2, tol in * .
  destruct BK as [ie| |[] fma rcp rsq|rec rsq sq]; cbv [backend]; try (now apply sum3l); [now apply sum3z|].
  replace (real (vx a) * real (vx b) + real (vy a) * real (vy b) + real (vz a) * real (vz b)) with
    (real (vx a) * real (vx b) + real (vz a) * real (vz b) + real (vy a) * real (vy b)) by ring.
  replace (Rabs (real (vx a) * real (vx b)) + Rabs (real (vy a) * real (vy b)) + Rabs (real (vz a) * real (vz b))) with
    (Rabs (real (vx a) * real (vx b)) + Rabs (real (vz a) * real (vz b)) + Rabs (real (vy a) * real (vy b))) in * by ring.
  now apply sum3z.
Qed.
Theorem C70_dot4 : forall (BK : Backend b32) (a b : V), finite4 a -> finite4 b -> adot4 a b <= bpow radix2 126 ->
  within (tol (adot4 a b)) (vec4_dot a b) (dot4 a b).
Proof. intros BK a b (A1 & A2 & A3 & A4) (B1 & B2 & B3 & B4) H. now apply sum4. Qed.

(** ** matrices: entry (r, c) of m, rows first; vectors are rows *)
Definition ent (m : mat b32) (r c : nat) : R :=
  real (g_get (nth r [mx m; my m; mz m; mw m] (mw m)) c).
Definition finite_mat (m : mat b32) : Prop := finite4 (mx m) /\ finite4 (my m) /\ finite4 (mz m) /\ finite4 (mw m).
(** sum over the four rows *)
Definition sum_rows (f : nat -> R) : R := f 0%nat + f 1%nat + f 2%nat + f 3%nat.
Definition comp (v : V) (i : nat) : R := real (g_get v i).

Theorem C70_transform_vec4 : forall (BK : Backend b32) (m : mat b32) (v : V) (c : nat), (c < 4)%nat ->
  finite_mat m -> finite4 v -> let s := sum_rows (fun r => Rabs (ent m r c * comp v r)) in s <= bpow radix2 126 ->
  within (tol s) (g_get (matrix_transform_vec4 m v) c) (sum_rows (fun r => ent m r c * comp v r)).
Proof.
  intros BK m v c Hc ((M1 & M2 & M3 & M4) & (M5 & M6 & M7 & M8) & (M9 & M10 & M11 & M12) & (M13 & M14 & M15 & M16)) (V1 & V2 & V3 & V4) s H.
  unfold s, tol, sum_rows, ent, comp, nth in * .
  do 4 (destruct c as [|c]; [now apply sum4|]). lia.
Qed.
(** every entry of a product is the dot product of a row and a column *)
Theorem C70_multiply : forall (BK : Backend b32) (a b : mat b32) (r c : nat), (r < 4)%nat -> (c < 4)%nat ->
  finite_mat a -> finite_mat b -> let s := sum_rows (fun k => Rabs (ent a r k * ent b k c)) in s <= bpow radix2 126 ->
  within (tol s) (matrix_get_value (matrix_multiply a b) r c) (sum_rows (fun k => ent a r k * ent b k c)).
Proof.
  intros BK a b r c Hr Hc A B s H.
  assert (Fr : finite4 (nth r [mx a; my a; mz a; mw a] (mw a))).
  { destruct A as (A1 & A2 & A3 & A4). do 4 (destruct r as [|r]; [assumption|]). lia. }
  assert (S : forall f g, (forall k, f k = g k) -> sum_rows f = sum_rows g) by (intros f g E; unfold sum_rows; now rewrite !E).
  assert (E1 : s = sum_rows (fun k => Rabs (ent b k c * comp (nth r [mx a; my a; mz a; mw a] (mw a)) k))).
  { apply S. intros k. f_equal. unfold ent, comp. ring. }
  rewrite (S (fun k => ent a r k * ent b k c) (fun k => ent b k c * comp (nth r [mx a; my a; mz a; mw a] (mw a)) k)) by (intros k; unfold ent, comp; ring).
  rewrite E1 in * . pose proof (C70_transform_vec4 BK b _ c Hc B Fr H) as T.
  destruct c as [|[|[|[|c]]]]; try lia; (destruct r as [|[|[|[|r]]]]; [exact T|exact T|exact T|exact T|lia]).
Qed.
Theorem C70_transform_point3d : forall (BK : Backend b32) (m : mat b32) (p : point3d b32),
  finite_mat m -> fin (p3x p) -> fin (p3y p) -> fin (p3z p) ->
  let x := real (p3x p) in let y := real (p3y p) in let z := real (p3z p) in
  let q := matrix_transform_point3d m p in
  let s c := Rabs (ent m 0 c * x) + Rabs (ent m 1 c * y) + Rabs (ent m 2 c * z) + Rabs (ent m 3 c) in
  let t c := ent m 0 c * x + ent m 1 c * y + ent m 2 c * z + ent m 3 c in
  (s 0%nat <= bpow radix2 126 -> within (tol (s 0%nat)) (p3x q) (t 0%nat)) /\
  (s 1%nat <= bpow radix2 126 -> within (tol (s 1%nat)) (p3y q) (t 1%nat)) /\
  (s 2%nat <= bpow radix2 126 -> within (tol (s 2%nat)) (p3z q) (t 2%nat)).
Proof.
  intros BK m p ((M1 & M2 & M3 & M4) & (M5 & M6 & M7 & M8) & (M9 & M10 & M11 & M12) & (M13 & M14 & M15 & M16)) X Y Z x y z q s t.
  split; [|split]; intros H; now apply sum31.
Qed.
Theorem C70_transform_point : forall (BK : Backend b32) (m : mat b32) (p : point b32),
  finite_mat m -> fin (px p) -> fin (py p) ->
  let x := real (px p) in let y := real (py p) in
  let q := matrix_transform_point m p in
  let s c := Rabs (ent m 0 c * x) + Rabs (ent m 1 c * y) + Rabs (ent m 3 c) in
  let t c := ent m 0 c * x + ent m 1 c * y + ent m 3 c in
  (s 0%nat <= bpow radix2 126 -> within (tol (s 0%nat)) (px q) (t 0%nat)) /\
  (s 1%nat <= bpow radix2 126 -> within (tol (s 1%nat)) (py q) (t 1%nat)).
Proof.
  intros BK m p M X Y x y q s t.
  assert (E0 : real fzero = 0) by (apply fin_of_X, fzero_X).
  destruct (C70_transform_point3d BK m (P3 (px p) (py p) fzero) M X Y ltac:(apply fin_of_X with 0; apply fzero_X)) as (A & B & _). cbn [p3x p3y p3z] in * .
  assert (S : forall c, Rabs (ent m 0 c * real (px p)) + Rabs (ent m 1 c * real (py p)) + Rabs (ent m 2 c * real fzero) + Rabs (ent m 3 c) = s c).
  { intros c. rewrite E0, Rmult_0_r, Rabs_R0. unfold s, x, y. ring. }
  assert (T : forall c, ent m 0 c * real (px p) + ent m 1 c * real (py p) + ent m 2 c * real fzero + ent m 3 c = t c).
  { intros c. rewrite E0, Rmult_0_r. unfold t, x, y. ring. }
  rewrite !S in A, B. rewrite T in A, B. split; [exact A|exact B].
Qed.
Theorem C70_transform_vec3 : forall (BK : Backend b32) (m : mat b32) (v : V) (c : nat), (c < 3)%nat ->
  finite_mat m -> finite3 v ->
  let s := Rabs (ent m 0 c * comp v 0) + Rabs (ent m 1 c * comp v 1) + Rabs (ent m 2 c * comp v 2) in s <= bpow radix2 126 ->
  within (tol s) (g_get (matrix_transform_vec3 m v) c) (ent m 0 c * comp v 0 + ent m 1 c * comp v 1 + ent m 2 c * comp v 2).
Proof.
  intros BK m v c Hc ((M1 & M2 & M3 & M4) & (M5 & M6 & M7 & M8) & (M9 & M10 & M11 & M12) & _) (V1 & V2 & V3) s H.
  unfold s, tol, ent, comp, nth in * . do 3 (destruct c as [|c]; [now apply sum3l|]). lia.
Qed.
