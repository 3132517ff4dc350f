(** * Props_Vec: vectors, points and sizes in binary32, every back end
    (C01, C02, C05, C07, C08, C63, C65, C66). *)

From Coq Require Import ZArith Reals Bool List Lra Lia Psatz.
From Flocq Require Import Core BinarySingleNaN Mult_error.
From Verif Require Import Num Simd Vec Rect Box Mat Geo Quat OrdThy FloatThy BoxThy B32Setup FloatLem Hist.
Import ListNotations.
Notation V := (simd4f b32).
Notation P2b := (point b32).

(** ** C01: storing and reading back *)
Theorem C01_get_init : forall (BK : Backend b32) (x y z w : b32),
  (vec2_get_x (vec2_init x y) = x /\ vec2_get_y (vec2_init x y) = y) /\
  (vec3_get_x (vec3_init x y z) = x /\ vec3_get_y (vec3_init x y z) = y /\ vec3_get_z (vec3_init x y z) = z) /\
  (vec4_get_x (vec4_init x y z w) = x /\ vec4_get_y (vec4_init x y z w) = y /\
   vec4_get_z (vec4_init x y z w) = z /\ vec4_get_w (vec4_init x y z w) = w).
Proof. repeat split. Qed.
(** Reading n floats and writing them to another array: exactly the first n cells of
    the destination change, the source may not be shorter than n ([None] = read or
    write out of bounds). *)
Definition roundtrip (n : nat) (init : list b32 -> option V) (tof : V -> list b32 -> option (list b32)) : Prop :=
  forall src dst, (n <= length src)%nat -> (n <= length dst)%nat ->
    exists v, init src = Some v /\ tof v dst = Some (firstn n src ++ skipn n dst).
Definition exact_bound (n : nat) (init : list b32 -> option V) (tof : V -> list b32 -> option (list b32)) : Prop :=
  (forall src, init src = init (firstn n src)) /\
  (forall src, (length src < n)%nat -> init src = None) /\
  (forall v dst, (length dst < n)%nat -> tof v dst = None).
Theorem C01_float_roundtrip : forall BK : Backend b32,
  roundtrip 2 vec2_init_from_float vec2_to_float /\
  roundtrip 3 vec3_init_from_float vec3_to_float /\
  roundtrip 4 vec4_init_from_float vec4_to_float.
Proof.
  intros BK. split; [|split]; intros [|a [|b [|c [|d src]]]] [|a' [|b' [|c' [|d' dst]]]]; simpl; intros; try lia;
    eexists; split; reflexivity.
Qed.
Theorem C01_float_bounds : forall BK : Backend b32,
  exact_bound 2 vec2_init_from_float vec2_to_float /\
  exact_bound 3 vec3_init_from_float vec3_to_float /\
  exact_bound 4 vec4_init_from_float vec4_to_float.
Proof.
  intros BK. split; [|split]; (split; [|split]).
  1,4,7: intros [|? [|? [|? [|? ?]]]]; reflexivity.
  1,3,5: intros [|? [|? [|? [|? ?]]]]; simpl; intros; try lia; reflexivity.
  all: intros ? [|? [|? [|? [|? ?]]]]; simpl; intros; try lia; reflexivity.
Qed.
(** Conversions between the vector types keep the visible components and never expose
    a hidden lane (here hx, hy... are whatever the hidden lanes contain). *)
Theorem C01_conversions : forall (BK : Backend b32) (x y z hz hw w : b32),
  vec4_init_from_vec3 (V4 x y z hw) w = vec4_init x y z w /\
  vec4_init_from_vec2 (V4 x y hz hw) z w = vec4_init x y z w /\
  vec3_get_xy (V4 x y z hw) = vec2_init x y /\
  vec3_get_xy0 (V4 x y z hw) = vec3_init x y fzero /\
  vec3_get_xyz0 (V4 x y z hw) = vec4_init x y z fzero /\
  vec4_get_xy (V4 x y z w) = vec2_init x y /\
  vec4_get_xyz (V4 x y z w) = vec3_init x y z /\
  point_to_vec2 (point_init_from_vec2 (V4 x y hz hw)) = vec2_init x y /\
  point3d_to_vec3 (point3d_init_from_vec3 (V4 x y z hw)) = vec3_init x y z.
Proof. repeat split. Qed.
(** get_xyz1 and get_xyzw go through an addition of zero: the values are kept (the
    sign of a zero component may not be). *)
Theorem C01_xyzw_values : forall (BK : Backend b32) (x y z hw w : b32),
  let v := vec3_get_xyzw (V4 x y z hw) w in
  let u := vec3_get_xyz1 (V4 x y z hw) in
  B2X (vec4_get_x v) = B2X x /\ B2X (vec4_get_y v) = B2X y /\ B2X (vec4_get_z v) = B2X z /\ B2X (vec4_get_w v) = B2X w /\
  B2X (vec4_get_x u) = B2X x /\ B2X (vec4_get_y u) = B2X y /\ B2X (vec4_get_z u) = B2X z /\ B2X (vec4_get_w u) = Fin 1.
Proof.
  intros BK x y z hw w v u.
  assert (A : forall a : b32, B2X (fadd a fzero) = B2X a).
  { intros a. rewrite fadd_X, fzero_X. rewrite <- (xrnd_B2X a) at 2. f_equal. destruct (B2X a); simpl; auto. f_equal; ring. }
  assert (A' : forall a : b32, B2X (fadd fzero a) = B2X a) by (intros; rewrite fadd_comm; apply A).
  repeat split; try apply A; try apply A'. unfold u; simpl. rewrite A'. apply fone_X.
Qed.

(** ** C02: min and max *)
Definition is_min (x y m : b32) : Prop := (m = x \/ m = y) /\ fle m x = true /\ fle m y = true.
Definition is_max (x y m : b32) : Prop := (m = x \/ m = y) /\ fle x m = true /\ fle y m = true.
Lemma lane_is_min {BK : Backend b32} (x y : b32) : nonnan x -> nonnan y -> is_min x y (lane_min x y).
Proof. intros. split; [apply lane_min_cases|split; [apply lane_min_l|apply lane_min_r]; auto]. Qed.
Lemma lane_is_max {BK : Backend b32} (x y : b32) : nonnan x -> nonnan y -> is_max x y (lane_max x y).
Proof. intros. split; [apply lane_max_cases|split; [apply lane_max_l|apply lane_max_r]; auto]. Qed.
Theorem C02_vec2_minmax : forall (BK : Backend b32) (a b : V) (get : V -> b32),
  In get [vec2_get_x; vec2_get_y] -> nonnan (get a) -> nonnan (get b) ->
  is_min (get a) (get b) (get (vec2_min a b)) /\ is_max (get a) (get b) (get (vec2_max a b)).
Proof.
  intros BK a b g Hg Ha Hb. simpl in Hg.
  destruct Hg as [<-|[<-|[]]]; split; (apply lane_is_min || apply lane_is_max); assumption.
Qed.
Theorem C02_vec3_minmax : forall (BK : Backend b32) (a b : V) (get : V -> b32),
  In get [vec3_get_x; vec3_get_y; vec3_get_z] -> nonnan (get a) -> nonnan (get b) ->
  is_min (get a) (get b) (get (vec3_min a b)) /\ is_max (get a) (get b) (get (vec3_max a b)).
Proof.
  intros BK a b g Hg Ha Hb. simpl in Hg.
  destruct Hg as [<-|[<-|[<-|[]]]]; split; (apply lane_is_min || apply lane_is_max); assumption.
Qed.
Theorem C02_vec4_minmax : forall (BK : Backend b32) (a b : V) (get : V -> b32),
  In get [vec4_get_x; vec4_get_y; vec4_get_z; vec4_get_w] -> nonnan (get a) -> nonnan (get b) ->
  is_min (get a) (get b) (get (vec4_min a b)) /\ is_max (get a) (get b) (get (vec4_max a b)).
Proof.
  intros BK a b g Hg Ha Hb. simpl in Hg.
  destruct Hg as [<-|[<-|[<-|[<-|[]]]]]; split; (apply lane_is_min || apply lane_is_max); assumption.
Qed.
(** With a NaN the result depends on the argument order and on the back end. *)
Theorem C02_nan_refuted :
  let nan : b32 := B754_nan in
  let m (BK : Backend b32) a b := fisnan (vec2_get_x (vec2_min (vec2_init a fzero) (vec2_init b fzero))) in
  m Gcc fone nan = true /\ m Gcc nan fone = false /\ m (Neon (fun x => x) (fun x => x) (fun x => x)) nan fone = true.
Proof. repeat split; vm_compute; reflexivity. Qed.

(** ** C05: equality and nearness *)
Definition exch {A} (f : A -> A -> bool) : Prop := forall a b, f a b = f b a.
Lemma feqb_sym (a b : b32) : feqb a b = feqb b a.
Proof. rewrite !feqb_X. destruct (B2X a), (B2X b); auto. simpl. bdes; auto; congruence. Qed.
Lemma approx_sym (a b e : b32) : approx_equal a b e = approx_equal b a e.
Proof.
  unfold approx_equal. rewrite (andb_comm (fisinf b)). destruct (fisinf a && fisinf b); auto.
  rewrite !fisnan_X, !fle_X, !fmul_X, (fabs_sub_sym_X b a).
  destruct (fisnan (B2X (fabs (fsub a b)))) eqn:En; auto. destruct (xle (B2X (fabs (fsub a b))) (B2X e)); auto.
  assert (L : B2X (if flt (fabs a) (fabs b) then fabs b else fabs a) = B2X (if flt (fabs b) (fabs a) then fabs a else fabs b)).
  { rewrite !flt_X, !fabs_X. rewrite fabs_X, fsub_X in En.
    destruct (xlt (xabs (B2X a)) (xabs (B2X b))) eqn:L1, (xlt (xabs (B2X b)) (xabs (B2X a))) eqn:L2; rewrite ?fabs_X; auto;
    destruct (B2X a), (B2X b); simpl in * ; try discriminate; auto; bdes; try discriminate; try (exfalso; lra); f_equal; lra. }
  apply (f_equal (fun t => xle (B2X (fabs (fsub a b))) (xrnd (prec:=24) (emax:=128) (xmul t (B2X e)))) L).
Qed.
Lemma lane_eq_sym {BK : Backend b32} (a b : b32) : lane_eq a b = lane_eq b a.
Proof. unfold lane_eq. destruct backend; auto using feqb_sym, approx_sym. Qed.
Lemma cmp_eq_sym {BK : Backend b32} (a b : V) : g_cmp_eq a b = g_cmp_eq b a.
Proof. unfold g_cmp_eq, all2. now rewrite (lane_eq_sym (vx a)), (lane_eq_sym (vy a)), (lane_eq_sym (vz a)), (lane_eq_sym (vw a)). Qed.
Ltac sqsym := rewrite ?fadd_X, ?sq_sub_sym_X; repeat (rewrite ?fadd_X, sq_sub_sym_X); reflexivity.
Lemma near2_sym {BK : Backend b32} (a b : V) e : vec2_near a b e = vec2_near b a e.
Proof.
  unfold vec2_near. rewrite !flt_X. f_equal. simpl. rewrite !fadd_X.
  now rewrite (sq_sub_sym_X (vx a)), (sq_sub_sym_X (vy a)).
Qed.
Lemma dot3_X {BK : Backend b32} (u v u' v' : V) :
  B2X (fmul (vx u) (vx v)) = B2X (fmul (vx u') (vx v')) -> B2X (fmul (vy u) (vy v)) = B2X (fmul (vy u') (vy v')) ->
  B2X (fmul (vz u) (vz v)) = B2X (fmul (vz u') (vz v')) -> B2X (g_dot3_scalar u v) = B2X (g_dot3_scalar u' v').
Proof. intros H1 H2 H3. unfold g_dot3_scalar. destruct backend as [| |[]|]; rewrite !fadd_X, H1, H2, H3; reflexivity. Qed.
Lemma near3_sym {BK : Backend b32} (a b : V) e : vec3_near a b e = vec3_near b a e.
Proof.
  unfold vec3_near. rewrite !flt_X. f_equal. apply dot3_X; apply sq_sub_sym_X.
Qed.
Lemma near4_sym {BK : Backend b32} (a b : V) e : vec4_near a b e = vec4_near b a e.
Proof.
  unfold vec4_near. rewrite !flt_X. f_equal. simpl. rewrite !fadd_X.
  now rewrite (sq_sub_sym_X (vx a)), (sq_sub_sym_X (vy a)), (sq_sub_sym_X (vz a)), (sq_sub_sym_X (vw a)).
Qed.
Theorem C05_near_symmetric : forall (BK : Backend b32) (e : b32),
  exch (fun a b => vec2_near a b e) /\ exch (fun a b => vec3_near a b e) /\ exch (fun a b => vec4_near a b e).
Proof. intros BK e. repeat split; intros a b; [apply near2_sym|apply near3_sym|apply near4_sym]. Qed.
Theorem C05_equal_symmetric : forall (BK : Backend b32) (same : bool),
  exch (vec2_equal same) /\ exch (vec3_equal same) /\ exch (vec4_equal same).
Proof.
  intros BK same. repeat split; intros [a|] [b|]; destruct same; simpl; auto;
    unfold vec2_equal_fn, vec3_equal_fn, vec4_equal_fn; rewrite cmp_eq_sym;
    destruct (g_cmp_eq b a); auto using near2_sym, near3_sym, near4_sym.
Qed.

Lemma sub_self_X (x : b32) : fin x -> B2X (fsub x x) = Fin 0.
Proof. intros H. rewrite fsub_X, (fin_X x H). simpl. rewrite Rminus_diag_eq by reflexivity. apply xround_0. Qed.
Lemma sq0_X (x : b32) : B2X x = Fin 0 -> B2X (fmul x x) = Fin 0.
Proof. intros H. rewrite fmul_X, H. simpl. rewrite Rmult_0_r. apply xround_0. Qed.
Lemma add0_X (x y : b32) : B2X x = Fin 0 -> B2X y = Fin 0 -> B2X (fadd x y) = Fin 0.
Proof. intros H1 H2. rewrite fadd_X, H1, H2. simpl. rewrite Rplus_0_r. apply xround_0. Qed.
Lemma feps2 : xlt (Fin 0) (B2X (fmul feps feps : b32)) = true.
Proof. rewrite <- fzero_X, <- flt_X. vm_compute. reflexivity. Qed.
Theorem C05_reflexive_finite : forall (BK : Backend b32) (v : V),
  (fin (vx v) -> fin (vy v) -> vec2_equal false (Some v) (Some v) = true) /\
  (fin (vx v) -> fin (vy v) -> fin (vz v) -> vec3_equal false (Some v) (Some v) = true) /\
  (fin (vx v) -> fin (vy v) -> fin (vz v) -> fin (vw v) -> vec4_equal false (Some v) (Some v) = true).
Proof.
  intros BK v. split; [|split]; intros; simpl; [unfold vec2_equal_fn, vec2_near|unfold vec3_equal_fn, vec3_near|unfold vec4_equal_fn, vec4_near];
    (destruct (g_cmp_eq v v); [reflexivity|]); rewrite flt_X; rewrite <- feps2; f_equal;
    unfold g_dot3_scalar; try destruct backend as [| |[]|]; simpl;
    repeat first [apply add0_X | apply sq0_X | apply sub_self_X; assumption | apply fzero_X].
Qed.
Theorem C05_reflexive_nonnan : forall (BK : Backend b32) (v : V),
  nonnan (vx v) -> nonnan (vy v) -> nonnan (vz v) -> nonnan (vw v) ->
  vec2_equal false (Some v) (Some v) = true /\ vec3_equal false (Some v) (Some v) = true /\
  vec4_equal false (Some v) (Some v) = true.
Proof.
  intros BK v H1 H2 H3 H4.
  assert (A : forall x : b32, nonnan x -> lane_eq x x = true).
  { intros x Hx. unfold lane_eq. destruct backend; try (rewrite ol_eqb, !ol_refl; auto; fail).
    unfold approx_equal. destruct (fisinf x) eqn:I; auto.
    assert (Fx : fin x) by (destruct x; easy). simpl.
    rewrite fisnan_X, fle_X, fabs_X, sub_self_X by auto. simpl.
    rewrite Rabs_R0. replace (xle _ _) with true; auto. symmetry. rewrite feps_X. apply xle_fin. lra. }
  assert (C : g_cmp_eq v v = true) by (unfold g_cmp_eq, all2; rewrite !A; auto).
  simpl. unfold vec2_equal_fn, vec3_equal_fn, vec4_equal_fn. rewrite C. auto.
Qed.
(** NaN: unequal to itself except on the scalar back end, where it equals everything. *)
Theorem C05_nan_refuted :
  let n : V := vec3_init B754_nan fzero fzero in
  (vec3_equal (B:=Gcc) false (Some n) (Some n) = false) /\
  (vec3_equal (B:=Scalar true) false (Some n) (Some (vec3_init (lit 5 0) fzero fzero)) = true) /\
  (vec3_equal (B:=Scalar true) false (Some (vec3_init finf fzero fzero)) (Some (vec3_init (lit 5 0) fzero fzero)) = true).
Proof. repeat split; vm_compute; reflexivity. Qed.

(** soundness: near means near *)
Lemma nn_le0 (x : b32) : fle fzero x = true -> nonnan x.
Proof. intros H. apply (ol_le_nn _ _ H). Qed.
Lemma fadd_ge_l (x y : b32) : fle fzero x = true -> fle fzero y = true -> fle x (fadd x y) = true.
Proof.
  rewrite !fle_X, fadd_X, fzero_X. intros Hx Hy. rewrite <- (xrnd_B2X x) at 1. apply xrnd_mono.
  destruct (B2X x), (B2X y); try easy. apply xle_fin in Hy. apply xle_fin. lra.
Qed.
Lemma fadd_ge0 (x y : b32) : fle fzero x = true -> fle fzero y = true -> fle fzero (fadd x y) = true.
Proof. intros Hx Hy. eapply ol_trans; [exact Hx|]. now apply fadd_ge_l. Qed.
Lemma fadd_ge_r (x y : b32) : fle fzero x = true -> fle fzero y = true -> fle y (fadd x y) = true.
Proof. intros. rewrite fadd_comm. now apply fadd_ge_l. Qed.
Lemma sq_ge0 (x : b32) : nonnan x -> fle fzero (fmul x x) = true.
Proof.
  intros H. rewrite fle_X, fmul_X, fzero_X. rewrite <- (xround_0). change (xround 0) with (xrnd (prec:=24) (emax:=128) (Fin 0)).
  apply xrnd_mono. unfold nonnan in H. rewrite fisnan_X in H. destruct (B2X x); try easy. apply xle_fin. nra.
Qed.
Lemma sub_fin_nn (a b : b32) : fin a -> fin b -> nonnan (fsub a b).
Proof. intros Ha Hb. unfold nonnan. rewrite fisnan_X, fsub_X, xrnd_nan, (fin_X a Ha), (fin_X b Hb). reflexivity. Qed.
Lemma sq_sub_ge (a b e : b32) : fin a -> fin b -> fin e -> fle fzero e = true ->
  (B2R e <= Rabs (B2R a - B2R b))%R -> fle (fmul e e) (fmul (fsub a b) (fsub a b)) = true.
Proof.
  intros Ha Hb He E0 H.
  assert (E0' : (0 <= B2R e)%R). { rewrite fle_X, fzero_X, (fin_X e He) in E0. now apply xle_fin in E0. }
  assert (S : forall d : b32, xle (B2X e) (B2X d) = true -> fle (fmul e e) (fmul d d) = true).
  { intros d Hd. rewrite fle_X, !fmul_X. apply xrnd_mono. rewrite (fin_X e He) in * .
    destruct (B2X d); try easy. apply xle_fin in Hd. apply xle_fin. nra. }
  destruct (Rle_dec 0 (B2R a - B2R b)) as [D|D].
  - rewrite Rabs_pos_eq in H by easy. apply S. rewrite fsub_X, <- (xrnd_B2X e). apply xrnd_mono.
    rewrite (fin_X a Ha), (fin_X b Hb), (fin_X e He). now apply xle_fin.
  - rewrite Rabs_left in H by lra. rewrite fle_X, sq_sub_sym_X, <- fle_X. apply S.
    rewrite fsub_X, <- (xrnd_B2X e). apply xrnd_mono.
    rewrite (fin_X a Ha), (fin_X b Hb), (fin_X e He). apply xle_fin. lra.
Qed.
Lemma lt_not_le (x y : b32) : flt x y = true -> fle y x = true -> False.
Proof. intros H1 H2. destruct (ol_lt_nn _ _ H1). rewrite ol_lt in H1 by easy. rewrite H2 in H1. discriminate. Qed.
Definition fin2 (v : V) := fin (vec2_get_x v) /\ fin (vec2_get_y v).
Definition fin3 (v : V) := fin (vec3_get_x v) /\ fin (vec3_get_y v) /\ fin (vec3_get_z v).
Definition fin4 (v : V) := fin (vec4_get_x v) /\ fin (vec4_get_y v) /\ fin (vec4_get_z v) /\ fin (vec4_get_w v).
Ltac sqs := repeat match goal with
  | |- fle fzero (fadd _ _) = true => apply fadd_ge0
  | |- fle fzero (fmul ?x ?x) = true => apply sq_ge0
  | |- fle fzero fzero = true => reflexivity
  | |- nonnan (fsub _ _) => apply sub_fin_nn; assumption
  end.
Ltac dsum := solve [apply ol_refl; apply nn_le0; sqs
  | eapply ol_trans; [|apply fadd_ge_l; sqs]; dsum
  | eapply ol_trans; [|apply fadd_ge_r; sqs]; dsum].
Theorem C05_near_sound : forall (BK : Backend b32) (a b : V) (e : b32), fin e -> fle fzero e = true ->
  (fin2 a -> fin2 b -> vec2_near a b e = true -> forall get, In get [vec2_get_x; vec2_get_y] ->
     (Rabs (B2R (get a) - B2R (get b)) < B2R e)%R) /\
  (fin3 a -> fin3 b -> vec3_near a b e = true -> forall get, In get [vec3_get_x; vec3_get_y; vec3_get_z] ->
     (Rabs (B2R (get a) - B2R (get b)) < B2R e)%R) /\
  (fin4 a -> fin4 b -> vec4_near a b e = true -> forall get, In get [vec4_get_x; vec4_get_y; vec4_get_z; vec4_get_w] ->
     (Rabs (B2R (get a) - B2R (get b)) < B2R e)%R).
Proof.
  intros BK a b e He E0.
  assert (K : forall (s x y : b32), flt s (fmul e e) = true -> fin x -> fin y ->
    fle (fmul (fsub x y) (fsub x y)) s = true -> (Rabs (B2R x - B2R y) < B2R e)%R).
  { intros s x y Hs Hx Hy Hl. destruct (Rlt_le_dec (Rabs (B2R x - B2R y)) (B2R e)) as [|G]; auto. exfalso.
    apply (lt_not_le _ _ Hs). eapply ol_trans; [|exact Hl]. now apply sq_sub_ge. }
  split; [|split]; intros Fa Fb H g Hg; simpl in Hg.
  - destruct Fa as [Ax Ay], Fb as [Bx By]. unfold vec2_get_x, vec2_get_y, g_get_x, g_get_y in * .
    unfold vec2_near in H. simpl in H.
    destruct Hg as [<-|[<-|[]]]; apply (K _ _ _ H); auto; dsum.
  - destruct Fa as (Ax & Ay & Az), Fb as (Bx & By & Bz).
    unfold vec3_get_x, vec3_get_y, vec3_get_z, g_get_x, g_get_y, g_get_z in * .
    unfold vec3_near in H. cbv zeta in H.
    destruct Hg as [<-|[<-|[<-|[]]]]; apply (K _ _ _ H); auto; unfold g_dot3_scalar; destruct backend as [| |[]|]; simpl; dsum.
  - destruct Fa as (Ax & Ay & Az & Aw), Fb as (Bx & By & Bz & Bw).
    unfold vec4_get_x, vec4_get_y, vec4_get_z, vec4_get_w, g_get_x, g_get_y, g_get_z, g_get_w in * .
    unfold vec4_near in H. simpl in H.
    destruct Hg as [<-|[<-|[<-|[<-|[]]]]]; apply (K _ _ _ H); auto; dsum.
Qed.

(** equal means equal up to rounding: 2^-22 relative to the larger of 1, |a|, |b| *)
Definition close (x y : R) : Prop := (Rabs (x - y) < / 4194304 * Rmax 1 (Rmax (Rabs x) (Rabs y)))%R.
Lemma big_scaled (x : b32) : fin x -> exists t : R,
  (t = / 4194304 * Rmax 1 (Rabs (B2R x)))%R /\ xrnd (prec:=24) (emax:=128) (Fin t) = Fin t.
Proof.
  intros Fx. exists (/ 4194304 * Rmax 1 (Rabs (B2R x)))%R. split; auto.
  assert (G : generic_format radix2 (SpecFloat.fexp 24 128) (/ 4194304 * Rmax 1 (Rabs (B2R x)))).
  { replace (/ 4194304)%R with (bpow radix2 (-22)) by (simpl; lra). rewrite Rmult_comm.
    unfold Rmax. destruct (Rle_dec 1 (Rabs (B2R x))) as [H|H].
    - apply mult_bpow_exact_FLT; [apply generic_format_abs, (generic_format_B2R 24 128 x)|].
      rewrite mag_abs. pose proof (mag_ge_bpow radix2 (B2R x) 1). simpl in H0. specialize (H0 ltac:(lra)). unfold SpecFloat.emin. lia.
    - rewrite Rmult_1_l. apply (generic_format_bpow radix2 (SpecFloat.fexp 24 128)). unfold SpecFloat.fexp, SpecFloat.emin. lia. }
  simpl. unfold xround. rewrite round_generic by auto with typeclass_instances.
  rewrite Rlt_bool_true; auto.
  rewrite Rabs_pos_eq.
  2:{ pose proof (Rmax_l 1 (Rabs (B2R x))). nra. }
  pose proof (abs_B2R_lt_emax 24 128 x) as L. unfold Rmax. destruct (Rle_dec 1 (Rabs (B2R x))); simpl in * ; lra.
Qed.
Lemma close_refl (x : b32) : close (B2R x) (B2R x).
Proof. unfold close. rewrite Rminus_diag_eq, Rabs_R0 by reflexivity. pose proof (Rmax_l 1 (Rmax (Rabs (B2R x)) (Rabs (B2R x)))). nra. Qed.
Lemma xle_abs t z : xle (Fin t) z = true -> xle (Fin t) (xabs z) = true.
Proof. destruct z; try easy. intros M. apply xle_fin in M. apply xle_fin. pose proof (Rle_abs r). lra. Qed.
Lemma approx_close (x y : b32) : fin x -> fin y -> approx_equal x y feps = true -> close (B2R x) (B2R y).
Proof.
  intros Fx Fy. unfold approx_equal.
  assert (I : forall z : b32, fin z -> fisinf z = false) by (intros [] ?; easy).
  rewrite !I by auto. simpl.
  replace (fisnan (fabs (fsub x y))) with false.
  2:{ symmetry. pose proof (sub_fin_nn x y Fx Fy) as N. unfold nonnan in N. rewrite fisnan_X in * . rewrite fabs_X. now destruct (B2X (fsub x y)). }
  set (L := if flt (fabs x) (fabs y) then fabs y else fabs x).
  assert (Lm : B2X L = Fin (Rmax (Rabs (B2R x)) (Rabs (B2R y)))).
  { unfold L. rewrite flt_X, !fabs_X, (fin_X x Fx), (fin_X y Fy). simpl. unfold Rmax.
    destruct (Rlt_dec _ _); rewrite ?fabs_X, ?(fin_X x Fx), ?(fin_X y Fy); simpl; f_equal; destruct (Rle_dec _ _); auto; lra. }
  destruct (fin_of_X _ _ Lm) as [FL RL].
  destruct (big_scaled L FL) as (t & Ht & Hr).
  assert (E : (t = / 4194304 * Rmax 1 (Rmax (Rabs (B2R x)) (Rabs (B2R y))))%R).
  { rewrite Ht, RL. f_equal. f_equal. apply Rabs_pos_eq. eapply Rle_trans; [apply Rabs_pos|apply Rmax_l]. }
  assert (T : (/ 4194304 <= t)%R). { rewrite Ht. pose proof (Rmax_l 1 (Rabs (B2R L))). nra. }
  intros H. destruct (Rlt_le_dec (Rabs (B2R x - B2R y)) t) as [G|G]; [unfold close; now rewrite <- E|]. exfalso.
  assert (D : xle (Fin t) (B2X (fabs (fsub x y))) = true).
  { destruct (Rle_dec 0 (B2R x - B2R y)) as [P|P].
    - rewrite Rabs_pos_eq in G by easy. rewrite fabs_X, fsub_X, (fin_X x Fx), (fin_X y Fy).
      assert (M : xle (xrnd (prec:=24) (emax:=128) (Fin t)) (xrnd (prec:=24) (emax:=128) (xsub (Fin (B2R x)) (Fin (B2R y)))) = true)
        by (apply xrnd_mono, xle_fin; exact G).
      rewrite Hr in M. apply xle_abs, M.
    - rewrite Rabs_left in G by lra. rewrite fabs_sub_sym_X. rewrite fabs_X, fsub_X, (fin_X x Fx), (fin_X y Fy).
      assert (M : xle (xrnd (prec:=24) (emax:=128) (Fin t)) (xrnd (prec:=24) (emax:=128) (xsub (Fin (B2R y)) (Fin (B2R x)))) = true)
        by (apply xrnd_mono, xle_fin; lra).
      rewrite Hr in M. apply xle_abs, M. }
  assert (U : forall s : b32, fle (fabs (fsub x y)) s = true -> xle (Fin t) (B2X s) = true).
  { intros s Hs. rewrite fle_X in Hs. exact (ol_trans (F:=xreal) (OrdLaws:=xreal_ord) _ _ _ D Hs). }
  destruct (fle (fabs (fsub x y)) feps) eqn:H1.
  - apply U in H1. rewrite feps_X in H1. apply xle_fin in H1. lra.
  - apply U in H. rewrite fmul_X, Lm, feps_X in H. simpl xmul in H.
    assert (M : xle (xrnd (prec:=24) (emax:=128) (Fin (Rmax (Rabs (B2R x)) (Rabs (B2R y)) * / 8388608)))
                    (xrnd (prec:=24) (emax:=128) (Fin (t / 2))) = true).
    { apply xrnd_mono, xle_fin. rewrite E. pose proof (Rmax_r 1 (Rmax (Rabs (B2R x)) (Rabs (B2R y)))). lra. }
    pose proof (ol_trans (F:=xreal) (OrdLaws:=xreal_ord) _ _ _ H M) as Q.
    (* the threshold halved is rounded to something strictly below t *)
    assert (Hh : xrnd (prec:=24) (emax:=128) (Fin (t / 2)) = Fin (t / 2)).
    { destruct (xrnd_fin_inv _ _ Hr) as [Hr1 Hr2]. rewrite <- Hr1 in Hr2. rewrite Rabs_pos_eq in Hr2 by lra.
      apply xrnd_fmt; [|rewrite Rabs_pos_eq by lra; lra].
      rewrite Ht. replace (/ 4194304 * Rmax 1 (Rabs (B2R L)) / 2)%R with (Rmax 1 (Rabs (B2R L)) * bpow radix2 (-23))%R by (simpl; lra).
      unfold Rmax. destruct (Rle_dec 1 (Rabs (B2R L))) as [K|K].
        + apply mult_bpow_exact_FLT; [apply generic_format_abs, (generic_format_B2R 24 128 L)|].
          rewrite mag_abs. pose proof (mag_ge_bpow radix2 (B2R L) 1) as W. simpl in W. specialize (W ltac:(lra)). unfold SpecFloat.emin. lia.
        + rewrite Rmult_1_l. apply (generic_format_bpow radix2 (SpecFloat.fexp 24 128)). unfold SpecFloat.fexp, SpecFloat.emin. lia. }
    rewrite Hh in Q. apply xle_fin in Q. lra.
Qed.
Lemma lane_eq_close {BK : Backend b32} (x y : b32) : fin x -> fin y -> lane_eq x y = true -> close (B2R x) (B2R y).
Proof.
  intros Fx Fy. unfold lane_eq. destruct backend; try (apply approx_close; assumption);
    rewrite feqb_X, (fin_X x Fx), (fin_X y Fy); intros H; apply xeq_fin in H; rewrite H; apply close_refl.
Qed.
Lemma lt_close (x y : b32) : (Rabs (B2R x - B2R y) < B2R (feps : b32))%R -> close (B2R x) (B2R y).
Proof.
  destruct (fin_of_X _ _ feps_X) as [_ ->]. unfold close. intros H.
  pose proof (Rmax_l 1 (Rmax (Rabs (B2R x)) (Rabs (B2R y)))). lra.
Qed.
Theorem C05_equal_sound : forall (BK : Backend b32) (a b : V),
  (fin2 a -> fin2 b -> vec2_equal false (Some a) (Some b) = true -> forall get, In get [vec2_get_x; vec2_get_y] ->
     close (B2R (get a)) (B2R (get b))) /\
  (fin3 a -> fin3 b -> vec3_equal false (Some a) (Some b) = true -> forall get, In get [vec3_get_x; vec3_get_y; vec3_get_z] ->
     close (B2R (get a)) (B2R (get b))) /\
  (fin4 a -> fin4 b -> vec4_equal false (Some a) (Some b) = true -> forall get, In get [vec4_get_x; vec4_get_y; vec4_get_z; vec4_get_w] ->
     close (B2R (get a)) (B2R (get b))).
Proof.
  intros BK a b.
  assert (Fe : fin (feps : b32)) by apply (fin_of_X _ _ feps_X).
  assert (E0 : fle fzero (feps : b32) = true) by (vm_compute; reflexivity).
  destruct (C05_near_sound BK a b feps Fe E0) as (N2 & N3 & N4).
  split; [|split]; intros Fa Fb H g Hg; simpl in H.
  - unfold vec2_equal_fn in H. destruct (g_cmp_eq a b) eqn:C; [|apply lt_close; auto].
    unfold g_cmp_eq, all2 in C. rewrite !andb_true_iff in C. destruct C as [[[? ?] ?] ?], Fa, Fb.
    simpl in Hg. destruct Hg as [<-|[<-|[]]]; apply lane_eq_close; assumption.
  - unfold vec3_equal_fn in H. destruct (g_cmp_eq a b) eqn:C; [|apply lt_close; auto].
    unfold g_cmp_eq, all2 in C. rewrite !andb_true_iff in C. destruct C as [[[? ?] ?] ?], Fa as (?&?&?), Fb as (?&?&?).
    simpl in Hg. destruct Hg as [<-|[<-|[<-|[]]]]; apply lane_eq_close; assumption.
  - unfold vec4_equal_fn in H. destruct (g_cmp_eq a b) eqn:C; [|apply lt_close; auto].
    unfold g_cmp_eq, all2 in C. rewrite !andb_true_iff in C. destruct C as [[[? ?] ?] ?], Fa as (?&?&?&?), Fb as (?&?&?&?).
    simpl in Hg. destruct Hg as [<-|[<-|[<-|[<-|[]]]]]; apply lane_eq_close; assumption.
Qed.

(** ** C07: dot products are symmetric, bit for bit *)
Theorem C07_dot_symmetric : forall (BK : Backend b32) (a b : V),
  vec2_dot a b = vec2_dot b a /\ vec3_dot a b = vec3_dot b a /\ vec4_dot a b = vec4_dot b a.
Proof.
  intros BK a b. split; [|split]; unfold vec2_dot, vec3_dot, vec4_dot, g_dot3_scalar; try destruct backend as [| |[]|]; simpl;
    now rewrite (fmul_comm (vx a)), (fmul_comm (vy a)), ?(fmul_comm (vz a)), ?(fmul_comm (vw a)).
Qed.
(** ... but addition of three products is not associative: the GCC and the SSE builds
    disagree on the same input. *)
Theorem C07_backends_differ_refuted :
  let a := vec3_init (lit 1 30) (lit (-1) 30) (lit 1 0) in let one : V := vec3_init fone fone fone in
  feqb (vec3_dot (B:=Gcc) a one) (vec3_dot (B:=Sse false false (fun x => x) (fun x => x)) a one) = false.
Proof. vm_compute. reflexivity. Qed.

(** ** C08: end points of interpolation (values; finite operands) *)
Lemma d1_X : B2X (fone : b64) = Fin 1.
Proof. change (fone : b64) with (Bone : b64). rewrite B2X_finite by apply is_finite_Bone. f_equal. apply Bone_correct. Qed.
Lemma xround64_0 : xround (prec:=53) (emax:=1024) 0 = Fin 0.
Proof. unfold xround. rewrite rnd_0, Rabs_R0, Rlt_bool_true; auto. apply bpow_gt_0. Qed.
Lemma xround64_1 : xround (prec:=53) (emax:=1024) 1 = Fin 1.
Proof. change (xround 1) with (xrnd (prec:=53) (emax:=1024) (Fin 1)). rewrite <- d1_X. apply xrnd_B2X. Qed.
Lemma flerpf_0 (a b : b32) (t : b64) : fin a -> fin b -> B2X t = Fin 0 -> B2X (flerpf a b t) = B2X a.
Proof.
  intros Ha Hb Ht. unfold flerpf. rewrite d2f_X, dadd_X, !dmul_X, dsub_X, d1_X, !f2d_X, Ht, (fin_X b Hb).
  cbn [xsub xmul]. rewrite Rminus_0_r, Rmult_0_l. cbn [xrnd]. rewrite xround64_1, xround64_0.
  rewrite (fin_X a Ha). cbn [xmul]. rewrite Rmult_1_l, <- (fin_X a Ha), xrnd64_b32, (fin_X a Ha). cbn [xadd].
  rewrite Rplus_0_r, <- (fin_X a Ha), xrnd64_b32. apply xrnd_B2X.
Qed.
Lemma flerpf_1 (a b : b32) (t : b64) : fin a -> fin b -> B2X t = Fin 1 -> B2X (flerpf a b t) = B2X b.
Proof.
  intros Ha Hb Ht. unfold flerpf. rewrite d2f_X, dadd_X, !dmul_X, dsub_X, d1_X, !f2d_X, Ht, (fin_X a Ha).
  cbn [xsub xmul]. rewrite Rminus_diag_eq by reflexivity. cbn [xrnd]. rewrite xround64_0. cbn [xmul]. rewrite Rmult_0_l. cbn [xrnd]. rewrite xround64_0.
  rewrite (fin_X b Hb). cbn [xmul]. rewrite Rmult_1_l, <- (fin_X b Hb), xrnd64_b32, (fin_X b Hb). cbn [xadd].
  rewrite Rplus_0_l, <- (fin_X b Hb), xrnd64_b32. apply xrnd_B2X.
Qed.
Definition ptX (p : P2b) := (B2X (px p), B2X (py p)).
Definition szX (p : size b32) := (B2X (swidth p), B2X (sheight p)).
Definition p3X (p : point3d b32) := (B2X (p3x p), B2X (p3y p), B2X (p3z p)).
Definition rcX (r : rect b32) := (ptX (rorigin r), szX (rsize r)).
Definition pt_fin (p : P2b) := fin (px p) /\ fin (py p).
Definition sz_fin (p : size b32) := fin (swidth p) /\ fin (sheight p).
Definition p3_fin (p : point3d b32) := fin (p3x p) /\ fin (p3y p) /\ fin (p3z p).
Definition rc_fin (r : rect b32) := pt_fin (rorigin r) /\ sz_fin (rsize r).
Theorem C08_endpoints : forall (BK : Backend b32) (zero one : b64), B2X zero = Fin 0 -> B2X one = Fin 1 ->
  (forall a b, pt_fin a -> pt_fin b -> ptX (point_interpolate a b zero) = ptX a /\ ptX (point_interpolate a b one) = ptX b) /\
  (forall a b, sz_fin a -> sz_fin b -> szX (size_interpolate a b zero) = szX a /\ szX (size_interpolate a b one) = szX b) /\
  (forall a b, p3_fin a -> p3_fin b -> p3X (point3d_interpolate a b zero) = p3X a /\ p3X (point3d_interpolate a b one) = p3X b) /\
  (forall a b, rc_fin (rect_normalize a) -> rc_fin (rect_normalize b) ->
     rcX (rect_interpolate a b zero) = rcX (rect_normalize a) /\ rcX (rect_interpolate a b one) = rcX (rect_normalize b)).
Proof.
  intros BK t0 t1 H0 H1. split; [|split; [|split]].
  - intros a b [? ?] [? ?]. split; cbv [ptX point_interpolate px py]; f_equal; (apply flerpf_0 || apply flerpf_1); assumption.
  - intros a b [? ?] [? ?]. split; cbv [szX size_interpolate swidth sheight]; f_equal; (apply flerpf_0 || apply flerpf_1); assumption.
  - intros a b (? & ? & ?) (? & ? & ?). split; cbv [p3X point3d_interpolate p3x p3y p3z]; f_equal; [f_equal| |f_equal|]; (apply flerpf_0 || apply flerpf_1); assumption.
  - intros a b [[? ?] [? ?]] [[? ?] [? ?]]. unfold rect_interpolate.
    set (ra := rect_normalize a) in * . set (rb := rect_normalize b) in * . clearbody ra rb.
    split; cbv [rcX ptX szX rx ry rw rh mkrect rorigin rsize px py swidth sheight]; f_equal; f_equal; (apply flerpf_0 || apply flerpf_1); assumption.
Qed.
Lemma lerp_lane_0 (a b f : b32) : fin a -> fin b -> B2X f = Fin 0 ->
  B2X (fadd (fmul (fsub fone f) a) (fmul f b)) = B2X a.
Proof.
  intros Ha Hb Hf. rewrite fadd_X, !fmul_X, fsub_X, fone_X, Hf, (fin_X b Hb). cbn [xsub xmul].
  rewrite Rminus_0_r, Rmult_0_l. cbn [xrnd]. rewrite xround_0.
  replace (xround (prec:=24) (emax:=128) 1) with (Fin 1) by (symmetry; change (xround 1) with (xrnd (prec:=24) (emax:=128) (Fin 1)); rewrite <- fone_X; apply xrnd_B2X).
  rewrite (fin_X a Ha). cbn [xmul]. rewrite Rmult_1_l, <- (fin_X a Ha), xrnd_B2X, (fin_X a Ha). cbn [xadd].
  rewrite Rplus_0_r, <- (fin_X a Ha). apply xrnd_B2X.
Qed.
Lemma lerp_lane_1 (a b f : b32) : fin a -> fin b -> B2X f = Fin 1 ->
  B2X (fadd (fmul (fsub fone f) a) (fmul f b)) = B2X b.
Proof.
  intros Ha Hb Hf. rewrite fadd_X, !fmul_X, fsub_X, fone_X, Hf, (fin_X a Ha). cbn [xsub xmul].
  rewrite Rminus_diag_eq by reflexivity. cbn [xrnd]. rewrite xround_0. cbn [xmul]. rewrite Rmult_0_l. cbn [xrnd]. rewrite xround_0.
  rewrite (fin_X b Hb). cbn [xmul]. rewrite Rmult_1_l, <- (fin_X b Hb), xrnd_B2X, (fin_X b Hb). cbn [xadd].
  rewrite Rplus_0_l, <- (fin_X b Hb). apply xrnd_B2X.
Qed.
(** The three vector types share one interpolation function; each component that is
    finite in both operands is hit exactly. *)
Theorem C08_vec_endpoints : forall (BK : Backend b32) (a b : V) (zero one : b64) (get : V -> b32)
  (interpolate : V -> V -> b64 -> V),
  B2X zero = Fin 0 -> B2X one = Fin 1 ->
  In interpolate [vec2_interpolate; vec3_interpolate; vec4_interpolate] ->
  In get [vec4_get_x; vec4_get_y; vec4_get_z; vec4_get_w] -> fin (get a) -> fin (get b) ->
  B2X (get (interpolate a b zero)) = B2X (get a) /\ B2X (get (interpolate a b one)) = B2X (get b).
Proof.
  intros BK a b t0 t1 g itp H0 H1 Hi Hg Fa Fb.
  assert (D0 : B2X (d2f t0 : b32) = Fin 0) by (rewrite d2f_X, H0; apply xround_0).
  assert (D1 : B2X (d2f t1 : b32) = Fin 1)
    by (rewrite d2f_X, H1; rewrite <- fone_X; apply xrnd_B2X).
  assert (Ei : itp = vec4_interpolate) by (simpl in Hi; destruct Hi as [<-|[<-|[<-|[]]]]; reflexivity). rewrite Ei.
  simpl in Hg. destruct Hg as [<-|[<-|[<-|[<-|[]]]]];
    split; (apply lerp_lane_0 || apply lerp_lane_1); assumption.
Qed.

(** ** C63: NULL and identical pointers *)
Definition null_safe {A} (eq : bool -> option A -> option A -> bool) : Prop :=
  (forall p q, eq true p q = true) /\ (forall x, eq false None (Some x) = false) /\ (forall x, eq false (Some x) None = false).
Theorem C63_null_and_same_pointer : forall (BK : Backend b32) (oeq : eorder -> eorder -> bool),
  null_safe vec2_equal /\ null_safe vec3_equal /\ null_safe vec4_equal /\ null_safe point_equal /\
  null_safe size_equal /\ null_safe point3d_equal /\ null_safe rect_equal /\ null_safe box_equal /\
  null_safe box2d_equal /\ null_safe plane_equal /\ null_safe sphere_equal /\ null_safe triangle_equal /\
  null_safe ray_equal /\ null_safe frustum_equal /\ null_safe matrix_equal /\ null_safe quaternion_equal /\
  null_safe (euler_equal oeq).
Proof. intros BK oeq. repeat split; intros; try destruct p; try destruct q; reflexivity. Qed.

(** ** C65: points and sizes (binary32 part) *)
Theorem C65_near_symmetric : forall (BK : Backend b32) (same : bool) (e : b32),
  exch (fun a b => point_near same a b e) /\ exch (fun a b => point3d_near same a b e) /\
  exch (point_equal same) /\ exch (point3d_equal same) /\ exch (size_equal same).
Proof.
  intros BK same e.
  assert (A : forall x y z : b32, flt (fabs (fsub x y)) z = flt (fabs (fsub y x)) z)
    by (intros; rewrite !flt_X; now rewrite fabs_sub_sym_X).
  assert (P : forall s e, exch (fun a b : P2b => point_near s a b e)).
  { intros s e' a b. unfold point_near. destruct s; auto. simpl. now rewrite (A (px a)), (A (py a)). }
  assert (P3 : forall s e, exch (fun a b : point3d b32 => point3d_near s a b e)).
  { intros s e' a b. unfold point3d_near. destruct s; auto. simpl. now rewrite (A (p3x a)), (A (p3y a)), (A (p3z a)). }
  assert (Z : forall x y : b32, approx_val x y = approx_val y x).
  { intros x y. unfold approx_val, fuzzy_equals. rewrite !flt_X.
    destruct (xlt (B2X y) (B2X x)) eqn:L1, (xlt (B2X x) (B2X y)) eqn:L2; auto.
    - exfalso. revert L1 L2. destruct (B2X x), (B2X y); simpl; try easy. bdes; try easy. intros; lra.
    - f_equal. rewrite !fsub_X. f_equal. destruct (B2X x), (B2X y); simpl in * ; try easy. revert L1 L2; bdes; try easy. intros. f_equal; lra. }
  split; [apply P|split; [apply P3|split; [|split]]].
  - intros [a|] [b|]; destruct same; simpl; auto; apply (P false feps a b).
  - intros [a|] [b|]; destruct same; simpl; auto; apply (P3 false feps a b).
  - intros [a|] [b|]; destruct same; unfold size_equal, pointer_equal; auto. now rewrite (Z (swidth a)), (Z (sheight a)).
Qed.
Lemma self_near (x e : b32) : fin x -> flt fzero e = true -> flt (fabs (fsub x x)) e = true.
Proof. intros Hx He. rewrite flt_X, fabs_X, sub_self_X by auto. cbn [xabs]. rewrite Rabs_R0, <- fzero_X, <- flt_X. exact He. Qed.
Theorem C65_reflexive_finite : forall (BK : Backend b32),
  (forall p, pt_fin p -> point_equal false (Some p) (Some p) = true) /\
  (forall p, p3_fin p -> point3d_equal false (Some p) (Some p) = true) /\
  (forall s, sz_fin s -> size_equal false (Some s) (Some s) = true).
Proof.
  intros BK. assert (E : flt fzero (feps : b32) = true) by (vm_compute; reflexivity).
  split; [|split].
  - intros p [Hx Hy]. simpl. unfold point_near. simpl. now rewrite !self_near.
  - intros p (Hx & Hy & Hz). simpl. unfold point3d_near. simpl. now rewrite !self_near.
  - assert (Z : forall x : b32, fin x -> approx_val x x = true).
    { intros x Fx. unfold approx_val, fuzzy_equals. rewrite !flt_X. rewrite (fin_X x Fx) at 1 2.
      replace (xlt (Fin (B2R x)) (Fin (B2R x))) with false by (symmetry; apply xlt_fin_f; lra).
      rewrite sub_self_X by auto. rewrite <- fzero_X, <- flt_X. exact E. }
    intros s [Hw Hh]. unfold size_equal, pointer_equal. now rewrite !Z.
Qed.
(** graphene_point_equal/near and graphene_size_equal: the coordinates differ by less
    than epsilon, exactly (no rounding slack). *)
Lemma abs_lt_sound (x y e : b32) : fin x -> fin y -> fin e -> flt (fabs (fsub x y)) e = true -> (Rabs (B2R x - B2R y) < B2R e)%R.
Proof.
  intros Fx Fy Fe H. destruct (Rlt_le_dec (Rabs (B2R x - B2R y)) (B2R e)) as [|G]; auto. exfalso.
  apply (lt_not_le _ _ H).
  assert (W : forall u v : b32, fin u -> fin v -> (B2R e <= B2R u - B2R v)%R -> fle e (fabs (fsub u v)) = true).
  { intros u v Fu Fv G'. rewrite fle_X, fabs_X, fsub_X, (fin_X u Fu), (fin_X v Fv).
    assert (M : xle (xrnd (prec:=24) (emax:=128) (B2X e)) (xrnd (prec:=24) (emax:=128) (xsub (Fin (B2R u)) (Fin (B2R v)))) = true)
      by (rewrite (fin_X e Fe); apply xrnd_mono, xle_fin; exact G').
    rewrite xrnd_B2X, (fin_X e Fe) in M. rewrite (fin_X e Fe). apply xle_abs, M. }
  destruct (Rle_dec 0 (B2R x - B2R y)).
  - rewrite Rabs_pos_eq in G by easy. now apply W.
  - rewrite Rabs_left in G by lra. rewrite fle_X, fabs_sub_sym_X, <- fle_X. apply W; auto. lra.
Qed.
Theorem C65_near_sound : forall (BK : Backend b32) (e : b32), fin e ->
  (forall a b, pt_fin a -> pt_fin b -> point_near false a b e = true ->
     (Rabs (B2R (px a) - B2R (px b)) < B2R e /\ Rabs (B2R (py a) - B2R (py b)) < B2R e)%R) /\
  (forall a b, p3_fin a -> p3_fin b -> point3d_near false a b e = true ->
     (Rabs (B2R (p3x a) - B2R (p3x b)) < B2R e /\ Rabs (B2R (p3y a) - B2R (p3y b)) < B2R e /\ Rabs (B2R (p3z a) - B2R (p3z b)) < B2R e)%R).
Proof.
  intros BK e Fe. split.
  - intros a b [? ?] [? ?] HH. unfold point_near in HH. simpl in HH. apply andb_true_iff in HH as [HA HB]. split; now apply abs_lt_sound.
  - intros a b (? & ? & ?) (? & ? & ?) HH. unfold point3d_near in HH. simpl in HH. rewrite !andb_true_iff in HH. destruct HH as [[HA HB] HC].
    repeat split; now apply abs_lt_sound.
Qed.
(** Infinite coordinates: a point is not equal to its own copy. *)
Theorem C65_infinite_refuted : forall BK : Backend b32,
  point_equal false (Some (Pt (finf : b32) fzero)) (Some (Pt finf fzero)) = false /\
  size_equal false (Some (Sz (finf : b32) fzero)) (Some (Sz finf fzero)) = false.
Proof. intros BK. split; vm_compute; reflexivity. Qed.
(** The optional out parameters are not written when both pointers are the same. *)
Theorem C65_distance_same_pointer_refuted : forall (BK : Backend b32) (a : P2b) (old : b32),
  snd (fst (point_distance true a a (Some old) None)) = Some old.
Proof. reflexivity. Qed.

(** ** C66: clamping of viewport coordinates *)
Lemma clamp_range (v : b32) : nonnan v -> fle fm1 (cCLAMP v fm1 fone) = true /\ fle (cCLAMP v fm1 fone) fone = true.
Proof.
  intros Hv. unfold cCLAMP.
  assert (N1 : nonnan (fm1 : b32)) by reflexivity. assert (N2 : nonnan (fone : b32)) by reflexivity.
  assert (L : fle (fm1 : b32) fone = true) by (vm_compute; reflexivity).
  destruct (flt v fm1) eqn:L1; [auto using ol_refl|]. destruct (flt fone v) eqn:L2; [auto using ol_refl|].
  split; apply fle_of_nlt; auto.
Qed.
Theorem C66_clamped : forall (BK : Backend b32) (p : point3d b32) (vp : rect b32) (n f : b32),
  let q := point3d_normalize_viewport p vp n f in
  forall get, In get [p3x; p3y; p3z] -> nonnan (get q) ->
  fle fm1 (get q) = true /\ fle (get q) fone = true.
Proof.
  intros BK p vp n f q g Hg Hn.
  assert (C : forall v : b32, nonnan (cCLAMP v fm1 fone) -> fle fm1 (cCLAMP v fm1 fone) = true /\ fle (cCLAMP v fm1 fone) fone = true).
  { intros v H. apply clamp_range. destruct v as [s|s| |s m e H']; try easy. }
  simpl in Hg. destruct Hg as [<-|[<-|[<-|[]]]]; apply C; exact Hn.
Qed.

(** ** Non-vacuity *)
Example ex_vec_fin : fin3 (vec3_init (lit 3 (-1)) (lit (-7) 2) fone) /\ fin2 (vec2_init fone (lit 1 100)).
Proof. repeat split; vm_compute; reflexivity. Qed.
Example ex_near : forall BK : Backend b32,
  vec2_near (vec2_init fone fone) (vec2_init (lit 8388609 (-23)) fone) (lit 1 (-20)) = true /\
  vec2_near (vec2_init fone fone) (vec2_init (lit 3 (-1)) fone) (lit 1 (-20)) = false.
Proof. intros; split; vm_compute; reflexivity. Qed.
