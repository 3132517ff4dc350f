(** * Props_Simd: the public four-lane type graphene_simd4f_t in binary32, every back end (C59). *)

From Coq Require Import ZArith Reals Bool List Lra Lia Psatz.
From Flocq Require Import Core BinarySingleNaN.
From Verif Require Import Num Simd OrdThy FloatThy B32Setup FloatLem.
Import ListNotations.
Notation V := (simd4f b32).
(** The value of a float ([Undef]: NaN), and the closest float to an exact result. *)
Notation value x := (B2X (x : b32)).
Notation nearest e := (xrnd (prec:=24) (emax:=128) e).
(** what a caller reads lane by lane *)
Definition lanes {BK : Backend b32} (s : V) : list b32 := map (g_get s) [0; 1; 2; 3]%nat.
Definition values {BK : Backend b32} (s : V) : list xreal := map (fun x => value x) (lanes s).
(** a property of the lanes of two vectors at the same index *)
Definition lanewise {BK : Backend b32} (P : xreal -> xreal -> Prop) (a b : V) : Prop := Forall2 P (values a) (values b).

Theorem C59_rearrange : forall (BK : Backend b32) (x y z w a b c d : b32),
  let s := g_init x y z w in let t := g_init a b c d in
  lanes s = [x; y; z; w] /\ lanes g_init_zero = [fzero; fzero; fzero; fzero] /\ lanes (g_splat x) = [x; x; x; x] /\
  [g_get_x s; g_get_y s; g_get_z s; g_get_w s] = [x; y; z; w] /\
  lanes (g_splat_x s) = [x; x; x; x] /\ lanes (g_splat_y s) = [y; y; y; y] /\
  lanes (g_splat_z s) = [z; z; z; z] /\ lanes (g_splat_w s) = [w; w; w; w] /\
  lanes (g_shuffle_wxyz s) = [w; x; y; z] /\ lanes (g_shuffle_zwxy s) = [z; w; x; y] /\ lanes (g_shuffle_yzwx s) = [y; z; w; x] /\
  lanes (g_zero_w s) = [x; y; z; fzero] /\ lanes (g_zero_zw s) = [x; y; fzero; fzero] /\ lanes (g_merge_w s a) = [x; y; z; a] /\
  lanes (g_merge_low s t) = [x; y; a; b] /\ lanes (g_merge_high s t) = [z; w; c; d].
Proof. repeat split. Qed.
(** an index above 3 reads 0 *)
Theorem C59_get_out_of_range : forall (BK : Backend b32) (s : V) (i : nat), (4 <= i)%nat -> g_get s i = fzero.
Proof. intros BK s i H. do 4 (destruct i as [|i]; [lia|]). reflexivity. Qed.
Theorem C59_signs : forall (BK : Backend b32) (x y z w : b32), let s := g_init x y z w in
  values (g_neg s) = [xneg (value x); xneg (value y); xneg (value z); xneg (value w)] /\
  values (g_flip_sign_0101 s) = [value x; xneg (value y); value z; xneg (value w)] /\
  values (g_flip_sign_1010 s) = [xneg (value x); value y; xneg (value z); value w].
Proof.
  intros. unfold values, lanes, s, g_neg, map1, g_flip_sign_0101, g_flip_sign_1010, g_init; cbn [map g_get vx vy vz vw].
  rewrite !fneg_X. split; [|split]; auto.
  assert (N : forall t : b32, value (lane_neg t) = xneg (value t)).
  { intros t. unfold lane_neg. destruct backend; try apply fneg_X. rewrite fmul_X, fm1_X.
    assert (E : xmul (value t) (Fin (-1)) = xneg (value t)).
    { destruct (B2X t); simpl; auto; try (unfold xsgn_inf; bdes; auto; lra). f_equal; lra. }
    rewrite E, <- fneg_X. apply xrnd_B2X. }
  now rewrite !N.
Qed.

(** ** comparisons hold when they hold in all four lanes; a NaN lane fails every one *)
Lemma all2_lanewise (BK : Backend b32) (f : b32 -> b32 -> bool) (P : xreal -> xreal -> Prop) :
  (forall x y, f x y = true <-> P (value x) (value y)) -> forall a b, all2 f a b = true <-> lanewise P a b.
Proof.
  intros H a b. unfold all2, lanewise, values, lanes; cbn [map g_get]. rewrite !andb_true_iff, !H. split.
  - intros [[[? ?] ?] ?]. repeat (apply Forall2_cons; auto).
  - intros K. inversion_clear K as [|? ? ? ? K1 K']. inversion_clear K' as [|? ? ? ? K2 K'']. inversion_clear K'' as [|? ? ? ? K3 K3'].
    inversion_clear K3' as [|? ? ? ? K4 ?]. auto.
Qed.
Theorem C59_compare : forall (BK : Backend b32) (a b : V),
  (g_cmp_lt a b = true <-> lanewise (fun x y => xlt x y = true) a b) /\
  (g_cmp_le a b = true <-> lanewise (fun x y => xle x y = true) a b) /\
  (g_cmp_gt a b = true <-> lanewise (fun x y => xlt y x = true) a b) /\
  (g_cmp_ge a b = true <-> lanewise (fun x y => xle y x = true) a b).
Proof.
  intros. split; [|split; [|split]]; apply all2_lanewise; intros; rewrite ?flt_X, ?fle_X; reflexivity.
Qed.
Theorem C59_compare_eq : forall (BK : Backend b32) (a b : V),
  ((forall i, BK <> Scalar i) -> (g_cmp_eq a b = true <-> lanewise (fun x y => x = y /\ x <> Undef) a b)) /\
  g_cmp_neq a b = negb (g_cmp_eq a b).
Proof.
  intros BK a b. split.
  - intros HB. apply all2_lanewise. intros x y. unfold lane_eq. destruct BK; cbv [backend]; try (now elim (HB ieee));
    rewrite feqb_X; destruct (B2X x), (B2X y); simpl; split; try easy; bdes; try easy; try (intros [E _]; congruence);
    intros _; split; congruence.
  - unfold g_cmp_neq, g_cmp_eq, all2. now rewrite !negb_andb.
Qed.
(** the scalar back end's equality accepts lanes within FLT_EPSILON, absolutely or relatively,
    two infinities of any sign, and any lane whose difference is NaN *)
Theorem C59_scalar_equality_refuted : let BK : Backend b32 := Scalar true in
  g_cmp_eq (g_splat (finf : b32)) (g_splat fninf) = true /\ g_cmp_eq (g_splat (B754_nan : b32)) (g_splat fone) = true /\
  g_cmp_eq (g_splat (lit 1 (-24))) (g_splat fzero) = true.
Proof. repeat split; vm_compute; reflexivity. Qed.

(** ** smallest and largest lane, clamping *)
Definition valued (x : b32) : Prop := value x <> Undef.
Lemma valued_nn x : valued x <-> nonnan x.
Proof. unfold valued, nonnan. rewrite fisnan_X. destruct (B2X x); simpl; split; intros; try easy; congruence. Qed.
Lemma fle_value (x y : b32) : fle x y = true -> xle (value x) (value y) = true.
Proof. now rewrite fle_X. Qed.
Definition is_least (l : list b32) (m : b32) : Prop := In m l /\ forall x, In x l -> xle (value m) (value x) = true.
Definition is_greatest (l : list b32) (m : b32) : Prop := In m l /\ forall x, In x l -> xle (value x) (value m) = true.
Lemma min2 {BK : Backend b32} (a b : b32) : nonnan a -> nonnan b ->
  nonnan (lane_min a b) /\ (lane_min a b = a \/ lane_min a b = b) /\ fle (lane_min a b) a = true /\ fle (lane_min a b) b = true.
Proof. intros. repeat split; [now apply lane_min_nn|apply lane_min_cases|now apply lane_min_l|now apply lane_min_r]. Qed.
Lemma max2 {BK : Backend b32} (a b : b32) : nonnan a -> nonnan b ->
  nonnan (lane_max a b) /\ (lane_max a b = a \/ lane_max a b = b) /\ fle a (lane_max a b) = true /\ fle b (lane_max a b) = true.
Proof. intros. repeat split; [now apply lane_max_nn|apply lane_max_cases|now apply lane_max_l|now apply lane_max_r]. Qed.
Lemma fle_tr (x y z : b32) : fle x y = true -> fle y z = true -> fle x z = true.
Proof. apply ol_trans. Qed.
Lemma min4 {BK : Backend b32} (a b c d : b32) : nonnan a -> nonnan b -> nonnan c -> nonnan d ->
  is_least [a; b; c; d] (lane_min (lane_min a b) (lane_min c d)).
Proof.
  intros A B C D. destruct (min2 a b A B) as (N1 & I1 & L1 & L2), (min2 c d C D) as (N2 & I2 & L3 & L4).
  destruct (min2 _ _ N1 N2) as (_ & I & L5 & L6). split.
  - simpl. destruct I as [-> | ->]; [destruct I1 as [-> | ->]|destruct I2 as [-> | ->]]; auto.
  - intros x [<-|[<-|[<-|[<-|[]]]]]; apply fle_value; eauto using fle_tr.
Qed.
Lemma max4 {BK : Backend b32} (a b c d : b32) : nonnan a -> nonnan b -> nonnan c -> nonnan d ->
  is_greatest [a; b; c; d] (lane_max (lane_max a b) (lane_max c d)).
Proof.
  intros A B C D. destruct (max2 a b A B) as (N1 & I1 & L1 & L2), (max2 c d C D) as (N2 & I2 & L3 & L4).
  destruct (max2 _ _ N1 N2) as (_ & I & L5 & L6). split.
  - simpl. destruct I as [-> | ->]; [destruct I1 as [-> | ->]|destruct I2 as [-> | ->]]; auto.
  - intros x [<-|[<-|[<-|[<-|[]]]]]; apply fle_value; eauto using fle_tr.
Qed.
(** every lane of the result is the extreme lane of the operand *)
Theorem C59_min_max_val : forall (BK : Backend b32) (s : V), Forall valued (lanes s) ->
  Forall (is_least (lanes s)) (lanes (g_min_val s)) /\ Forall (is_greatest (lanes s)) (lanes (g_max_val s)).
Proof.
  intros BK s H. unfold lanes in * ; cbn [map g_get] in * .
  inversion_clear H as [|? ? X H']. inversion_clear H' as [|? ? Y H'']. inversion_clear H'' as [|? ? Z H3]. inversion_clear H3 as [|? ? W _].
  apply valued_nn in X, Y, Z, W.
  assert (P1 : forall m, is_least [vx s; vw s; vz s; vy s] m -> is_least [vx s; vy s; vz s; vw s] m).
  { intros m [I L]. split; [simpl in * ; tauto|]. intros x Hx. apply L. simpl in * ; tauto. }
  assert (P2 : forall m, is_least [vy s; vx s; vw s; vz s] m -> is_least [vx s; vy s; vz s; vw s] m).
  { intros m [I L]. split; [simpl in * ; tauto|]. intros x Hx. apply L. simpl in * ; tauto. }
  assert (P3 : forall m, is_least [vz s; vy s; vx s; vw s] m -> is_least [vx s; vy s; vz s; vw s] m).
  { intros m [I L]. split; [simpl in * ; tauto|]. intros x Hx. apply L. simpl in * ; tauto. }
  assert (P4 : forall m, is_least [vw s; vz s; vy s; vx s] m -> is_least [vx s; vy s; vz s; vw s] m).
  { intros m [I L]. split; [simpl in * ; tauto|]. intros x Hx. apply L. simpl in * ; tauto. }
  assert (Q1 : forall m, is_greatest [vx s; vw s; vz s; vy s] m -> is_greatest [vx s; vy s; vz s; vw s] m).
  { intros m [I L]. split; [simpl in * ; tauto|]. intros x Hx. apply L. simpl in * ; tauto. }
  assert (Q2 : forall m, is_greatest [vy s; vx s; vw s; vz s] m -> is_greatest [vx s; vy s; vz s; vw s] m).
  { intros m [I L]. split; [simpl in * ; tauto|]. intros x Hx. apply L. simpl in * ; tauto. }
  assert (Q3 : forall m, is_greatest [vz s; vy s; vx s; vw s] m -> is_greatest [vx s; vy s; vz s; vw s] m).
  { intros m [I L]. split; [simpl in * ; tauto|]. intros x Hx. apply L. simpl in * ; tauto. }
  assert (Q4 : forall m, is_greatest [vw s; vz s; vy s; vx s] m -> is_greatest [vx s; vy s; vz s; vw s] m).
  { intros m [I L]. split; [simpl in * ; tauto|]. intros x Hx. apply L. simpl in * ; tauto. }
  split; (apply Forall_cons; [|apply Forall_cons; [|apply Forall_cons; [|apply Forall_cons; [|apply Forall_nil]]]]);
  [apply P1|apply P2|apply P3|apply P4|apply Q1|apply Q2|apply Q3|apply Q4];
  unfold g_min_val, g_max_val, g_min, g_max, map2, g_shuffle_wxyz, g_shuffle_zwxy; cbn [vx vy vz vw]; (apply min4 || apply max4); auto.
Qed.
(** clamping: inside the bounds a lane is unchanged in value, otherwise it is the nearer bound *)
Definition clamped (lo hi x r : xreal) : Prop :=
  (xle lo x = true -> xle x hi = true -> r = x) /\ (xle x lo = true -> r = lo) /\ (xle hi x = true -> r = hi).
Lemma value_anti (x y : b32) : fle x y = true -> fle y x = true -> value x = value y.
Proof.
  rewrite !fle_X. destruct (B2X x), (B2X y); intros A B; simpl in A, B; try discriminate; auto.
  apply xle_fin in A, B. f_equal; lra.
Qed.
Lemma lane_clamped {BK : Backend b32} (lo hi x : b32) : nonnan x -> xle (value lo) (value hi) = true ->
  clamped (value lo) (value hi) (value x) (value (lane_min (lane_max lo x) hi)).
Proof.
  intros X LH. assert (Nl : nonnan lo) by (apply valued_nn; unfold valued; intros E; rewrite E in LH; simpl in LH; discriminate).
  assert (Nh : nonnan hi) by (apply valued_nn; unfold valued; intros E; rewrite E in LH; destruct (value lo); simpl in LH; discriminate).
  rewrite <- fle_X in LH. destruct (max2 lo x Nl X) as (N1 & I1 & L1 & L2), (min2 _ _ N1 Nh) as (N2 & I2 & L3 & L4).
  assert (R : forall a b c : b32, nonnan a -> fle a b = true -> fle b c = true -> fle a c = true) by (intros; eauto using fle_tr).
  assert (RF : forall a : b32, nonnan a -> fle a a = true) by (intros; now apply fle_refl').
  assert (MX : forall u, fle lo u = true -> fle x u = true -> fle (lane_max lo x) u = true) by (intros u; destruct I1 as [-> | ->]; auto).
  assert (MN : forall u, fle u (lane_max lo x) = true -> fle u hi = true -> fle u (lane_min (lane_max lo x) hi) = true) by (intros u; destruct I2 as [-> | ->]; auto).
  unfold clamped. rewrite <- !fle_X. split; [|split].
  - intros A B. apply value_anti; [eauto using fle_tr|auto].
  - intros A. apply value_anti; [eapply fle_tr; [exact L3|]; auto|auto].
  - intros A. apply value_anti; [auto|]. apply MN; auto. eapply fle_tr; [exact A|auto].
Qed.
Theorem C59_clamp : forall (BK : Backend b32) (v lo hi : V) (i : nat), (i < 4)%nat ->
  valued (g_get v i) -> xle (value (g_get lo i)) (value (g_get hi i)) = true ->
  clamped (value (g_get lo i)) (value (g_get hi i)) (value (g_get v i)) (value (g_get (g_clamp v lo hi) i)).
Proof.
  intros BK v lo hi i Hi. rewrite valued_nn.
  do 4 (destruct i as [|i]; [intros X H; now apply lane_clamped|]). lia.
Qed.
Theorem C59_clamp_scalar : forall (BK : Backend b32) (v : V) (lo hi : b32) (i : nat), (i < 4)%nat ->
  valued (g_get v i) -> xle (value lo) (value hi) = true ->
  clamped (value lo) (value hi) (value (g_get v i)) (value (g_get (g_clamp_scalar v lo hi) i)).
Proof.
  intros BK v lo hi i Hi. rewrite valued_nn.
  do 4 (destruct i as [|i]; [intros X H; now apply lane_clamped|]). lia.
Qed.

(** ** lane arithmetic *)
Theorem C59_arithmetic : forall (BK : Backend b32) (a b : V) (i : nat), (i < 4)%nat ->
  value (g_get (g_add a b) i) = nearest (xadd (value (g_get a i)) (value (g_get b i))) /\
  value (g_get (g_sub a b) i) = nearest (xsub (value (g_get a i)) (value (g_get b i))) /\
  value (g_get (g_mul a b) i) = nearest (xmul (value (g_get a i)) (value (g_get b i))) /\
  value (g_get (g_floor a) i) = xfloor (value (g_get a i)) /\
  value (g_get (g_ceil a) i) = xceil (value (g_get a i)).
Proof.
  intros BK a b i Hi.
  do 4 (destruct i as [|i]; [repeat split; [apply fadd_X|apply fsub_X|apply fmul_X|apply Bfloor_X|apply Bceil_X]|]). lia.
Qed.
(** multiply-add: rounded twice, or once when built with FMA *)
Theorem C59_madd : forall (BK : Backend b32) (a b c : V) (i : nat), (i < 4)%nat ->
  match BK with
  | Sse _ true _ _ =>
      fin (g_get a i) -> fin (g_get b i) -> fin (g_get c i) ->
      value (g_get (g_madd a b c) i) = nearest (xadd (xmul (value (g_get a i)) (value (g_get b i))) (value (g_get c i)))
  | _ => value (g_get (g_madd a b c) i) = nearest (xadd (nearest (xmul (value (g_get a i)) (value (g_get b i)))) (value (g_get c i)))
  end.
Proof.
  intros BK a b c i Hi. unfold g_madd. destruct BK as [ieee| |s41 [] rcp rsq|rec rsq sq]; cbv [backend].
  1,2,4,5: do 4 (destruct i as [|i]; [unfold g_add, g_mul, map2; cbn [g_get vx vy vz vw]; rewrite fadd_X, fmul_X; reflexivity|]); lia.
  do 4 (destruct i as [|i]; [intros A B C; cbn [g_get vx vy vz vw] in * ; rewrite (fin_X _ A), (fin_X _ B), (fin_X _ C); now apply Bfma_X|]). lia.
Qed.
Theorem C59_sum : forall (BK : Backend b32) (x y z w : b32), let s := g_init x y z w in
  let total := nearest (xadd (nearest (xadd (value x) (value y))) (nearest (xadd (value z) (value w)))) in
  values (g_sum s) = [total; total; total; total] /\ value (g_sum_scalar s) = total.
Proof.
  intros. unfold values, lanes, g_sum_scalar, g_sum, g_add, map2, g_splat_x, g_splat_y, g_splat_z, g_splat_w, g_splat, g_get_x, s, g_init; cbn [map g_get vx vy vz vw].
  rewrite !fadd_X. auto.
Qed.
(** square root: correctly rounded, except on NEON *)
Theorem C59_sqrt : forall (BK : Backend b32) (a : V) (i : nat), (i < 4)%nat -> (forall r q s, BK <> Neon r q s) ->
  value (g_get (g_sqrt a) i) = nearest (xsqrt (value (g_get a i))).
Proof.
  intros BK a i Hi HN. do 4 (destruct i as [|i]; [unfold g_sqrt, map1, lane_sqrt; cbn [g_get vx vy vz vw];
    destruct BK; cbv [backend]; try (now elim (HN rec rsq sq)); apply fsqrt_X|]). lia.
Qed.
(** the zero tests *)
Theorem C59_is_zero : forall (BK : Backend b32) (s : V),
  let small i := xle (xabs (value (g_get s i))) (Fin (/ 8388608)) = true in
  (g_is_zero2 s = true <-> small 0%nat /\ small 1%nat) /\
  (g_is_zero3 s = true <-> small 0%nat /\ small 1%nat /\ small 2%nat) /\
  ((forall i, BK <> Scalar i) -> (g_is_zero4 s = true <-> Forall (fun v => v = Fin 0) (values s))).
Proof.
  intros BK s small. subst small. cbn [g_get]. split; [|split].
  - unfold g_is_zero2. now rewrite andb_true_iff, !fle_X, feps_X, !fabs_X.
  - unfold g_is_zero3. now rewrite !andb_true_iff, !fle_X, feps_X, !fabs_X, and_assoc.
  - intros HB. unfold g_is_zero4. rewrite (proj1 (C59_compare_eq BK s g_init_zero) HB). unfold lanewise, values, lanes; cbn [map g_get g_init_zero vx vy vz vw].
    rewrite !fzero_X. split; intros K.
    + inversion_clear K as [|? ? ? ? [K1 _] K']. inversion_clear K' as [|? ? ? ? [K2 _] K'']. inversion_clear K'' as [|? ? ? ? [K3 _] K3'].
      inversion_clear K3' as [|? ? ? ? [K4 _] _]. auto.
    + inversion_clear K as [|? ? K1 K']. inversion_clear K' as [|? ? K2 K'']. inversion_clear K'' as [|? ? K3 K3']. inversion_clear K3' as [|? ? K4 _].
      repeat (apply Forall2_cons; [split; congruence|]). apply Forall2_nil.
Qed.

(** Concrete cases that meet the hypotheses. *)
Example C59_ex : forall BK : Backend b32, let s := g_init (lit 3 0) (lit (-1) 0) (lit 2 0) (lit 5 0) in
  Forall valued (lanes s) /\ g_get (g_min_val s) 2 = lit (-1) 0 /\ g_get (g_max_val s) 1 = lit 5 0.
Proof.
  intros. split.
  - repeat (apply Forall_cons; [apply valued_nn; unfold nonnan; vm_compute; reflexivity|]). apply Forall_nil.
  - split; destruct BK as [[]| |[] [] rcp rsq|rec rsq sq]; beq.
Qed.
