(** * Props_Eq: the equality functions of every type, in binary32, every back end (C71). *)
From Coq Require Import ZArith Reals Bool List Lra Lia Psatz.
From Flocq Require Import Core BinarySingleNaN.
From Verif Require Import Num Simd Vec Rect Box Mat Geo Quat OrdThy FloatThy BoxThy B32Setup FloatLem ErrThy.
From Verif Require Props_Vec Props_Mat.
Import ListNotations.
Local Open Scope R_scope.
Import Props_Vec (exch, close, C05_equal_sound, C05_equal_symmetric, C65_near_symmetric, C65_near_sound, abs_lt_sound, lt_close).

Notation V := (simd4f b32).
(** The specification.  An equality function [eq] on a type whose values are determined by the
    floats [parts] and a [tag] (unit, except for the rotation order of Euler angles):
    - does not depend on the order of its arguments,
    - on finite values, true only if the tags agree and each pair of floats differs by less than
      2^-22 times the larger of 1 and their magnitudes,
    - on finite values, true if the tags agree and no pair of floats differs by more than 2^-25
      (in particular if they are equal numbers). *)
Definition near_enough (x y : b32) : Prop := Rabs (B2R x - B2R y) <= bpow radix2 (-25).
Definition not_far (x y : b32) : Prop :=
  Rabs (B2R x - B2R y) < bpow radix2 (-22) * Rmax 1 (Rmax (Rabs (B2R x)) (Rabs (B2R y))).
Definition good_equality {A T} (eq : bool -> option A -> option A -> bool) (parts : A -> list b32) (tag : A -> T) : Prop :=
  (forall same p q, eq same p q = eq same q p) /\
  (forall a b, Forall fin (parts a) -> Forall fin (parts b) ->
     (eq false (Some a) (Some b) = true -> tag a = tag b /\ Forall2 not_far (parts a) (parts b)) /\
     (tag a = tag b /\ Forall2 near_enough (parts a) (parts b) -> eq false (Some a) (Some b) = true)).

(** the numbers in each type, by its public accessors *)
Definition p_vec2 (v : V) := [vec2_get_x v; vec2_get_y v].
Definition p_vec3 (v : V) := [vec3_get_x v; vec3_get_y v; vec3_get_z v].
Definition p_vec4 (v : V) := [vec4_get_x v; vec4_get_y v; vec4_get_z v; vec4_get_w v].
Definition p_point (p : point b32) := [px p; py p].
Definition p_size (s : size b32) := [swidth s; sheight s].
Definition p_point3d (p : point3d b32) := [p3x p; p3y p; p3z p].
Definition p_rect (r : rect b32) := [rect_get_x r; rect_get_y r; rect_get_width r; rect_get_height r].
Definition p_box {BK : Backend b32} (b : box b32) := p_point3d (box_get_min b) ++ p_point3d (box_get_max b).
Definition p_box2d {BK : Backend b32} (b : V) := p_point (box2d_get_min b) ++ p_point (box2d_get_max b).
Definition p_plane (p : plane b32) := p_vec3 (plane_get_normal p) ++ [plane_get_constant p].
Definition p_sphere {BK : Backend b32} (s : sphere b32) := p_point3d (sphere_get_center s) ++ [sphere_get_radius s].
Definition p_triangle {BK : Backend b32} (t : triangle b32) :=
  let '(a, b, c) := triangle_get_points t in p_point3d a ++ p_point3d b ++ p_point3d c.
Definition p_ray {BK : Backend b32} (r : ray b32) := p_point3d (ray_get_origin r) ++ p_vec3 (ray_get_direction r).
Definition p_frustum (f : frustum b32) := flat_map p_plane (frustum_planes f).
Definition p_matrix (m : mat b32) := flat_map (fun i => map (matrix_get_value m i) [0; 1; 2; 3]%nat) [0; 1; 2; 3]%nat.
Definition p_euler (e : euler b32) := p_vec3 (eu_v e).
Definition none {A} (_ : A) := tt.

(** ** scalars *)
Definition tiny (k : Z) (t : b32) : Prop := exists v, B2X t = Fin v /\ 0 <= v <= IZR k * bpow radix2 (-50).
Lemma rnd_le_gen r s : generic_format radix2 (SpecFloat.fexp 24 128) s -> r <= s -> rnd32 r <= s.
Proof. intros G H. apply round_le_generic; auto; try apply (fexp_correct 24 128); try apply valid_rnd_round_mode; reflexivity. Qed.
Lemma rnd_ge_gen r s : generic_format radix2 (SpecFloat.fexp 24 128) s -> s <= r -> s <= rnd32 r.
Proof. intros G H. apply round_ge_generic; auto; try apply (fexp_correct 24 128); try apply valid_rnd_round_mode; reflexivity. Qed.
Lemma small_fmt k e : (0 < k < 16)%Z -> (-100 <= e <= 0)%Z -> generic_format radix2 (SpecFloat.fexp 24 128) (IZR k * bpow radix2 e).
Proof.
  intros K E. change (IZR k * bpow radix2 e) with (F2R (Float radix2 k e)).
  apply generic_format_F2R. intros _. unfold cexp, SpecFloat.fexp, SpecFloat.emin.
  assert (M : (mag radix2 (F2R (Float radix2 k e)) <= e + 4)%Z).
  { apply mag_le_bpow. apply Rgt_not_eq. unfold F2R; simpl. apply Rmult_lt_0_compat; [apply IZR_lt; lia|apply bpow_gt_0].
    unfold F2R; simpl. rewrite Rabs_pos_eq. rewrite bpow_plus. rewrite (Rmult_comm (bpow radix2 e)). apply Rmult_lt_compat_r; [apply bpow_gt_0|]. simpl. apply IZR_lt; lia.
    apply Rmult_le_pos; [apply IZR_le; lia|apply bpow_ge_0]. }
  lia.
Qed.
Lemma fmt0 : generic_format radix2 (SpecFloat.fexp 24 128) 0. Proof. apply generic_format_0. Qed.
Lemma big r : Rabs r <= 1 -> Rabs r <= bpow radix2 127.
Proof. intros H. eapply Rle_trans; [exact H|]. apply (bpow_le radix2 0 127). lia. Qed.
Lemma e50 : bpow radix2 (-50) = / 1125899906842624. Proof. reflexivity. Qed.
Lemma e25 : bpow radix2 (-25) = / 33554432. Proof. reflexivity. Qed.
Lemma tiny_add k l (x y : b32) : (0 < k)%Z -> (0 <= l)%Z -> (k + l < 16)%Z -> tiny k x -> tiny l y -> tiny (k + l) (fadd x y).
Proof.
  intros K L S (a & A & Ha) (b & B & Hb).
  assert (H : (k + l <= 16)%Z) by lia. apply IZR_le in H. rewrite plus_IZR in H.
  assert (0 <= IZR k) by (apply IZR_le; lia). assert (0 <= IZR l) by (apply IZR_le; lia).
  assert (D : 0 <= a + b <= IZR (k + l) * bpow radix2 (-50)) by (rewrite plus_IZR; nra).
  exists (rnd32 (a + b)). rewrite fadd_X, A, B. split.
  - apply xrnd_ok, big. rewrite Rabs_pos_eq by lra. rewrite plus_IZR, e50 in D. lra.
  - split; [apply rnd_ge_gen; [apply fmt0|lra]|apply rnd_le_gen; [apply small_fmt; lia|lra]].
Qed.
Lemma sub_small (x y : b32) : fin x -> fin y -> near_enough x y -> exists v, B2X (fsub x y) = Fin v /\ Rabs v <= bpow radix2 (-25).
Proof.
  intros X Y N. exists (rnd32 (B2R x - B2R y)). rewrite fsub_X, (fin_X x X), (fin_X y Y). unfold near_enough in N. split.
  - apply xrnd_ok, big. rewrite e25 in N. lra.
  - pose proof (Rabs_def2 _ _ (Rle_lt_trans _ _ (bpow radix2 (-24)) N (bpow_lt radix2 (-25) (-24) ltac:(lia)))) as _.
    assert (G := small_fmt 1 (-25) ltac:(lia) ltac:(lia)). rewrite Rmult_1_l in G.
    apply Rabs_le. apply Rabs_le_inv in N. split; [apply rnd_ge_gen; [now apply generic_format_opp|lra]|apply rnd_le_gen; [auto|lra]].
Qed.
Lemma tiny_sq (x y : b32) : fin x -> fin y -> near_enough x y -> tiny 1 (fmul (fsub x y) (fsub x y)).
Proof.
  intros X Y N. destruct (sub_small x y X Y N) as (v & E & B).
  assert (D : 0 <= v * v <= 1 * bpow radix2 (-50)).
  { change (bpow radix2 (-50)) with (bpow radix2 (-25 + -25)). rewrite bpow_plus. apply Rabs_le_inv in B. nra. }
  exists (rnd32 (v * v)). rewrite fmul_X, E. split.
  - apply xrnd_ok, big. rewrite Rabs_pos_eq by lra. rewrite e50 in D. lra.
  - split; [apply rnd_ge_gen; [apply fmt0|lra]|apply rnd_le_gen; [apply (small_fmt 1); lia|lra]].
Qed.
Lemma tiny_0 : tiny 0 fzero. Proof. exists 0. split; [apply fzero_X|lra]. Qed.
Lemma tiny_lt k (t : b32) : (k <= 4)%Z -> tiny k t -> flt t (fmul feps feps) = true.
Proof.
  intros K (v & E & B). apply IZR_le in K. rewrite flt_X, E.
  assert (S : B2X (fmul feps feps : b32) = Fin (bpow radix2 (-46))).
  { rewrite fmul_X, feps_X. change (/ 8388608) with (bpow radix2 (-23)). unfold xmul. rewrite <- bpow_plus. simpl Z.add. unfold xrnd, xround.
    assert (G : generic_format radix2 (SpecFloat.fexp 24 128) (bpow radix2 (-46))) by (apply generic_format_bpow; cbv; discriminate).
    rewrite round_generic by (auto; apply valid_rnd_round_mode). rewrite Rlt_bool_true; auto.
    rewrite Rabs_pos_eq by apply bpow_ge_0. apply bpow_lt. lia. }
  rewrite S. apply xlt_fin. change (bpow radix2 (-46)) with (bpow radix2 (4 + -50)). rewrite bpow_plus. pose proof (bpow_gt_0 radix2 (-50)).
  simpl (bpow radix2 4). nra.
Qed.
Lemma approx_val_sym (x y : b32) : approx_val x y = approx_val y x.
Proof.
  unfold approx_val, fuzzy_equals. rewrite !flt_X.
  destruct (xlt (B2X y) (B2X x)) eqn:L1, (xlt (B2X x) (B2X y)) eqn:L2; auto.
  - exfalso. revert L1 L2. destruct (B2X x), (B2X y); simpl; try easy. bdes; try easy. intros; lra.
  - f_equal. rewrite !fsub_X. f_equal. destruct (B2X x), (B2X y); simpl in * ; try easy. revert L1 L2; bdes; try easy. intros. f_equal; lra.
Qed.
Lemma abs_not_far (x y : b32) : Rabs (B2R x - B2R y) < B2R (feps : b32) -> not_far x y.
Proof. apply lt_close. Qed.
Lemma xrnd_0 : xrnd (prec:=24) (emax:=128) (Fin 0) = Fin 0. Proof. apply Hist.xround_0. Qed.
Lemma approx_val_abs (x y : b32) : fin x -> fin y -> approx_val x y = flt (fabs (fsub x y)) feps.
Proof.
  intros X Y. unfold approx_val, fuzzy_equals. rewrite !flt_X. destruct (xlt (B2X y) (B2X x)) eqn:L.
  - rewrite (fin_X x X), (fin_X y Y) in L. apply xlt_fin in L. f_equal. rewrite fabs_X, fsub_X, (fin_X x X), (fin_X y Y).
    assert (Q : xle (xrnd (prec:=24) (emax:=128) (Fin 0)) (xrnd (prec:=24) (emax:=128) (xsub (Fin (B2R x)) (Fin (B2R y)))) = true) by (apply xrnd_mono, xle_fin; lra).
    rewrite xrnd_0 in Q.
    destruct (xrnd _); simpl in * ; try easy. rewrite Rabs_pos_eq; auto. now apply xle_fin in Q.
  - rewrite <- fabs_sub_sym_X. rewrite (fin_X x X), (fin_X y Y) in L. apply xlt_fin_f in L. f_equal. rewrite fabs_X, fsub_X, (fin_X x X), (fin_X y Y).
    assert (Q : xle (xrnd (prec:=24) (emax:=128) (Fin 0)) (xrnd (prec:=24) (emax:=128) (xsub (Fin (B2R y)) (Fin (B2R x)))) = true) by (apply xrnd_mono, xle_fin; lra).
    rewrite xrnd_0 in Q.
    destruct (xrnd _); simpl in * ; try easy. rewrite Rabs_pos_eq; auto. now apply xle_fin in Q.
Qed.
Lemma abs_complete (x y : b32) : fin x -> fin y -> near_enough x y -> flt (fabs (fsub x y)) feps = true.
Proof.
  intros X Y N. destruct (sub_small x y X Y N) as (v & E & B). rewrite flt_X, fabs_X, E, feps_X. apply xlt_fin. rewrite e25 in B. lra.
Qed.
Definition ok1 (eq : b32 -> b32 -> bool) : Prop := forall x y, eq x y = eq y x /\
  (fin x -> fin y -> (eq x y = true -> not_far x y) /\ (near_enough x y -> eq x y = true)).
Lemma approx_ok : ok1 approx_val.
Proof.
  intros x y. split; [apply approx_val_sym|]. intros X Y. rewrite approx_val_abs by auto. split.
  - intros H. apply abs_not_far, abs_lt_sound; auto. apply (fin_of_X _ _ feps_X).
  - now apply abs_complete.
Qed.
Lemma absdiff_ok : ok1 (fun x y => flt (fabs (fsub x y)) feps).
Proof.
  intros x y. split; [now rewrite !flt_X, fabs_sub_sym_X|]. intros X Y. split.
  - intros H. apply abs_not_far, abs_lt_sound; auto. apply (fin_of_X _ _ feps_X).
  - now apply abs_complete.
Qed.
(** ** vectors *)
Ltac inv_all := repeat match goal with H : Forall _ (_ :: _) |- _ => apply Forall_cons_iff in H as [? H] | H : Forall2 _ (_ :: _) (_ :: _) |- _ => inversion H; clear H; subst end.
Lemma near_to_equal2 {BK : Backend b32} (a b : V) : vec2_near a b feps = true -> vec2_equal false (Some a) (Some b) = true.
Proof. intros H. unfold vec2_equal, pointer_equal, vec2_equal_fn. rewrite H. now destruct (g_cmp_eq a b). Qed.
Lemma near_to_equal3 {BK : Backend b32} (a b : V) : vec3_near a b feps = true -> vec3_equal false (Some a) (Some b) = true.
Proof. intros H. unfold vec3_equal, pointer_equal, vec3_equal_fn. rewrite H. now destruct (g_cmp_eq a b). Qed.
Lemma near_to_equal4 {BK : Backend b32} (a b : V) : vec4_near a b feps = true -> vec4_equal false (Some a) (Some b) = true.
Proof. intros H. unfold vec4_equal, pointer_equal, vec4_equal_fn. rewrite H. now destruct (g_cmp_eq a b). Qed.
Lemma near2_complete {BK : Backend b32} (a b : V) : Forall fin (p_vec2 a) -> Forall fin (p_vec2 b) -> Forall2 near_enough (p_vec2 a) (p_vec2 b) -> vec2_near a b feps = true.
Proof.
  intros A B N. unfold p_vec2 in * . inv_all. unfold vec2_near. cbv zeta. simpl. apply tiny_lt with 2%Z; [lia|].
  apply (tiny_add 1 1); try lia; now apply tiny_sq.
Qed.
Lemma near4_complete {BK : Backend b32} (a b : V) : Forall fin (p_vec4 a) -> Forall fin (p_vec4 b) -> Forall2 near_enough (p_vec4 a) (p_vec4 b) -> vec4_near a b feps = true.
Proof.
  intros A B N. unfold p_vec4 in * . inv_all. unfold vec4_near. cbv zeta. simpl. apply tiny_lt with 4%Z; [lia|].
  apply (tiny_add 2 2); try lia; apply (tiny_add 1 1); try lia; now apply tiny_sq.
Qed.
Lemma near3_complete {BK : Backend b32} (a b : V) : Forall fin (p_vec3 a) -> Forall fin (p_vec3 b) -> Forall2 near_enough (p_vec3 a) (p_vec3 b) -> vec3_near a b feps = true.
Proof.
  intros A B N. unfold p_vec3 in * . inv_all. unfold vec3_near. cbv zeta. apply tiny_lt with 3%Z; [lia|].
  unfold g_dot3_scalar. destruct backend as [| |[]|]; simpl;
    (apply (tiny_add 2 1); [lia|lia|lia|apply (tiny_add 1 1); try lia; now apply tiny_sq|try (apply (tiny_add 1 0); [lia|lia|lia| |apply tiny_0]); now apply tiny_sq]).
Qed.
Lemma good_vec2 (BK : Backend b32) : good_equality vec2_equal p_vec2 none.
Proof.
  split; [intros same p q; apply (C05_equal_symmetric BK same)|]. intros a b Fa Fb. split.
  - intros H. split; [reflexivity|]. destruct (C05_equal_sound BK a b) as (S & _ & _). unfold p_vec2 in * . inv_all.
    specialize (S ltac:(repeat split; assumption) ltac:(repeat split; assumption) H).
    repeat constructor; apply S; simpl; auto.
  - intros [_ H]. now apply near_to_equal2, near2_complete.
Qed.
Lemma good_vec3 (BK : Backend b32) : good_equality vec3_equal p_vec3 none.
Proof.
  split; [intros same p q; apply (C05_equal_symmetric BK same)|]. intros a b Fa Fb. split.
  - intros H. split; [reflexivity|]. destruct (C05_equal_sound BK a b) as (_ & S & _). unfold p_vec3 in * . inv_all.
    specialize (S ltac:(repeat split; assumption) ltac:(repeat split; assumption) H).
    repeat constructor; apply S; simpl; auto.
  - intros [_ H]. now apply near_to_equal3, near3_complete.
Qed.
Lemma good_vec4 (BK : Backend b32) : good_equality vec4_equal p_vec4 none.
Proof.
  split; [intros same p q; apply (C05_equal_symmetric BK same)|]. intros a b Fa Fb. split.
  - intros H. split; [reflexivity|]. destruct (C05_equal_sound BK a b) as (_ & _ & S). unfold p_vec4 in * . inv_all.
    specialize (S ltac:(repeat split; assumption) ltac:(repeat split; assumption) H).
    repeat constructor; apply S; simpl; auto 6.
  - intros [_ H]. now apply near_to_equal4, near4_complete.
Qed.
(** symmetry of the pointer wrapper *)
Lemma ptr_sym {A} (f : A -> A -> bool) : (forall a b, f a b = f b a) -> forall same p q, pointer_equal same p q f = pointer_equal same q p f.
Proof. intros S [] [a|] [b|]; try reflexivity. apply S. Qed.
Lemma good_size : good_equality size_equal p_size none.
Proof.
  split.
  - apply ptr_sym. intros a b. now rewrite approx_val_sym, (approx_val_sym (sheight a)).
  - intros a b Fa Fb. unfold p_size in * . inv_all. unfold size_equal, pointer_equal.
    destruct (approx_ok (swidth a) (swidth b)) as [_ W]. destruct (approx_ok (sheight a) (sheight b)) as [_ X].
    destruct (W ltac:(assumption) ltac:(assumption)), (X ltac:(assumption) ltac:(assumption)). split.
    + intros E. apply andb_true_iff in E as [E1 E2]. split; auto.
    + intros [_ N]. inv_all. apply andb_true_iff; auto.
Qed.
Lemma good_point (BK : Backend b32) : good_equality point_equal p_point none.
Proof.
  split.
  - intros same p q. apply (C65_near_symmetric BK same feps).
  - intros a b Fa Fb. unfold p_point in * . inv_all. simpl. unfold point_near. simpl.
    destruct (absdiff_ok (px a) (px b)) as [_ W]. destruct (absdiff_ok (py a) (py b)) as [_ X].
    destruct (W ltac:(assumption) ltac:(assumption)), (X ltac:(assumption) ltac:(assumption)). split.
    + intros E. apply andb_true_iff in E as [E1 E2]. split; auto.
    + intros [_ N]. inv_all. apply andb_true_iff; auto.
Qed.
Lemma good_point3d (BK : Backend b32) : good_equality point3d_equal p_point3d none.
Proof.
  split.
  - intros same p q. apply (C65_near_symmetric BK same feps).
  - intros a b Fa Fb. unfold p_point3d in * . inv_all. simpl. unfold point3d_near. simpl.
    destruct (absdiff_ok (p3x a) (p3x b)) as [_ W]. destruct (absdiff_ok (p3y a) (p3y b)) as [_ X]. destruct (absdiff_ok (p3z a) (p3z b)) as [_ Y].
    destruct (W ltac:(assumption) ltac:(assumption)), (X ltac:(assumption) ltac:(assumption)), (Y ltac:(assumption) ltac:(assumption)). split.
    + intros E. rewrite !andb_true_iff in E. destruct E as [[E1 E2] E3]. split; auto.
    + intros [_ N]. inv_all. rewrite !andb_true_iff; auto.
Qed.
(** conjunctions *)
Lemma Forall2_len {A B} (P : A -> B -> Prop) l l' : Forall2 P l l' -> length l = length l'.
Proof. induction 1; simpl; congruence. Qed.
Lemma good_app {A B C} (f : A -> A -> bool) (g : B -> B -> bool) (pa : A -> list b32) (pb : B -> list b32) (ga : C -> A) (gb : C -> B)
  (eq : bool -> option C -> option C -> bool) :
  good_equality (fun s p q => pointer_equal s p q f) pa (@none A) -> good_equality (fun s p q => pointer_equal s p q g) pb (@none B) ->
  (forall s p q, eq s p q = pointer_equal s p q (fun a b => f (ga a) (ga b) && g (gb a) (gb b))) ->
  (forall x y, length (pa x) = length (pa y)) ->
  good_equality eq (fun c => pa (ga c) ++ pb (gb c)) none.
Proof.
  intros [SA A1] [SB B1] E L. split.
  - intros s p q. rewrite !E. apply ptr_sym. intros a b. f_equal; [apply (SA false (Some _) (Some _))|apply (SB false (Some _) (Some _))].
  - intros a b Fa Fb. apply Forall_app in Fa as [Fa1 Fa2]. apply Forall_app in Fb as [Fb1 Fb2].
    destruct (A1 (ga a) (ga b) Fa1 Fb1) as [AS AC], (B1 (gb a) (gb b) Fa2 Fb2) as [BS BC]. rewrite E. simpl in * . split.
    + intros H. apply andb_true_iff in H as [H1 H2]. split; [reflexivity|]. apply Forall2_app; [apply AS|apply BS]; auto.
    + intros [_ H]. apply Forall2_app_inv_l in H as (l1 & l2 & H1 & H2 & H3).
      assert (LL : length (pa (ga b)) = length l1) by (rewrite <- (Forall2_len _ _ _ H1); apply L).
      assert (l1 = pa (ga b) /\ l2 = pb (gb b)) as [-> ->].
      { revert LL H3. generalize (pa (ga b)), (pb (gb b)). clear. intros l. revert l1. induction l as [|x l IH]; intros [|y l1]; simpl; try easy.
        intros l0 LL H. injection H as -> H. injection LL as LL. destruct (IH l1 l0 LL H) as [-> ->]. auto. }
      apply andb_true_iff. auto.
Qed.
Lemma good_scalar : good_equality (fun s p q => pointer_equal s p q approx_val) (fun x : b32 => [x]) none.
Proof.
  split; [apply ptr_sym, approx_val_sym|]. intros a b Fa Fb. inv_all. simpl.
  destruct (approx_ok a b) as [_ W]. destruct (W ltac:(assumption) ltac:(assumption)). split.
  - intros E. split; auto.
  - intros [_ N]. inv_all. auto.
Qed.
Lemma good_plane (BK : Backend b32) : good_equality plane_equal p_plane none.
Proof. refine (good_app _ _ _ _ (fun p : plane b32 => pl_n p) (fun p => pl_c p) _ (good_vec3 BK) good_scalar _ _); reflexivity. Qed.
Lemma good_sphere (BK : Backend b32) : good_equality sphere_equal p_sphere none.
Proof. refine (good_app _ _ _ _ (fun p : sphere b32 => scenter p) (fun p => sradius p) _ (good_vec3 BK) good_scalar _ _); reflexivity. Qed.
Lemma good_ray (BK : Backend b32) : good_equality ray_equal p_ray none.
Proof. refine (good_app _ _ _ _ (fun p : ray b32 => ray_o p) (fun p => ray_d p) _ (good_vec3 BK) (good_vec3 BK) _ _); reflexivity. Qed.
Lemma good_rect (BK : Backend b32) : good_equality rect_equal p_rect none.
Proof. refine (good_app _ _ _ _ (fun r : rect b32 => rorigin (rect_normalize r)) (fun r => rsize (rect_normalize r)) _ (good_point BK) good_size _ _); reflexivity. Qed.
Lemma ptr_ext {A} (f g : A -> A -> bool) : (forall a b, f a b = g a b) -> forall s p q, pointer_equal s p q f = pointer_equal s p q g.
Proof. intros E [] [a|] [b|]; try reflexivity. apply E. Qed.
Lemma good_triangle (BK : Backend b32) : good_equality triangle_equal p_triangle none.
Proof.
  assert (G : good_equality (fun s p q => pointer_equal s p q (fun a b : V * V => vec3_equal_fn (fst a) (fst b) && vec3_equal_fn (snd a) (snd b))) (fun c => p_vec3 (fst c) ++ p_vec3 (snd c)) none)
    by (refine (good_app _ _ _ _ fst snd _ (good_vec3 BK) (good_vec3 BK) _ _); reflexivity).
  refine (good_app _ _ _ _ (fun t : triangle b32 => tr_a t) (fun t => (tr_b t, tr_c t)) _ (good_vec3 BK) G _ _); [|reflexivity].
  intros s p q. apply ptr_ext. intros a b. unfold triangle_equal_fn. simpl. now rewrite andb_assoc.
Qed.
Lemma good_nil {A} : good_equality (fun s p q => pointer_equal s p q (fun _ _ : A => true)) (fun _ => []) none.
Proof. split; [now apply ptr_sym|]. intros a b _ _. simpl. split; auto. Qed.
Lemma good_cons {A B} (f : A -> A -> bool) (pa : A -> list b32) : good_equality (fun s p q => pointer_equal s p q f) pa (@none A) ->
  (forall x y, length (pa x) = length (pa y)) -> forall (gs : list (B -> A)),
  good_equality (fun s p q => pointer_equal s p q (fun a b => forallb (fun g => f (g a) (g b)) gs)) (fun c => flat_map (fun g => pa (g c)) gs) none.
Proof.
  intros G L gs. induction gs as [|g gs IH]; [apply good_nil|].
  refine (good_app _ _ _ _ g (fun c => c) _ G IH _ L). reflexivity.
Qed.
Lemma good_frustum (BK : Backend b32) : good_equality frustum_equal p_frustum none.
Proof.
  exact (good_cons (B := frustum b32) _ _ (good_plane BK) ltac:(reflexivity) [fr0; fr1; fr2; fr3; fr4; fr5]).
Qed.
Lemma good_near4 (BK : Backend b32) : good_equality (fun s p q => pointer_equal s p q (fun a b => vec4_near a b feps)) p_vec4 none.
Proof.
  split; [apply ptr_sym; intros a b; apply (Props_Vec.C05_near_symmetric BK feps)|]. intros a b Fa Fb. split.
  - intros H. refine (proj1 (proj2 (good_vec4 BK) a b Fa Fb) _). now apply near_to_equal4.
  - intros [_ H]. now apply near4_complete.
Qed.
Lemma good_matrix (BK : Backend b32) : good_equality matrix_equal p_matrix none.
Proof.
  refine (let G := good_cons (B := mat b32) _ _ (good_near4 BK) ltac:(reflexivity) [mx; my; mz; mw] in _).
  destruct G as [S G]. split.
  - intros same p q. apply (Props_Mat.C38_symmetric BK same p q feps).
  - exact G.
Qed.
(** ** boxes *)
Lemma fin_pinf (x : b32) : fin x -> is_pinf x = false. Proof. now destruct x. Qed.
Lemma fin_ninf (x : b32) : fin x -> is_ninf x = false. Proof. now destruct x. Qed.
Lemma box_equal_sym (BK : Backend b32) (a b : box b32) : box_equal_fn a b = box_equal_fn b a.
Proof.
  unfold box_equal_fn. destruct (box_is_empty a), (box_is_empty b), (box_is_infinity a), (box_is_infinity b); cbn [andb orb]; try reflexivity.
  f_equal; apply (C05_equal_symmetric BK false).
Qed.
Lemma good_box (BK : Backend b32) : good_equality box_equal p_box none.
Proof.
  assert (G : good_equality (fun s p q => pointer_equal s p q (fun a b : box b32 => vec3_equal_fn (bmin a) (bmin b) && vec3_equal_fn (bmax a) (bmax b))) p_box none)
    by (refine (good_app _ _ _ _ (fun b => bmin b) (fun b => bmax b) _ (good_vec3 BK) (good_vec3 BK) _ _); reflexivity).
  split; [apply ptr_sym, box_equal_sym|]. intros a b Fa Fb. destruct (proj2 G a b Fa Fb) as [S C].
  replace (box_equal false (Some a) (Some b)) with (vec3_equal_fn (bmin a) (bmin b) && vec3_equal_fn (bmax a) (bmax b)); [split; assumption|].
  unfold p_box, p_point3d in Fa, Fb. simpl in Fa, Fb. inv_all. simpl. unfold box_equal_fn, box_is_empty, box_is_infinity.
  rewrite (fin_pinf (vx (bmin a))), (fin_pinf (vx (bmin b))), (fin_ninf (vx (bmin a))), (fin_ninf (vx (bmin b))) by assumption. reflexivity.
Qed.
Lemma good_box2d (BK : Backend b32) : good_equality box2d_equal p_box2d none.
Proof.
  split.
  - apply ptr_sym. intros a b. unfold box2d_equal_fn.
    destruct (box2d_is_empty a), (box2d_is_empty b), (box2d_is_infinity a), (box2d_is_infinity b); cbn [andb orb]; try reflexivity. apply (C05_equal_symmetric BK false).
  - intros a b Fa Fb. destruct (proj2 (good_vec4 BK) a b Fa Fb) as [S C].
    replace (box2d_equal false (Some a) (Some b)) with (vec4_equal false (Some a) (Some b)); [split; assumption|].
    unfold p_box2d, p_point in Fa, Fb. simpl in Fa, Fb. inv_all. simpl. unfold box2d_equal_fn, box2d_is_empty, box2d_is_infinity. simpl.
    rewrite (fin_pinf (vx a)), (fin_pinf (vx b)), (fin_ninf (vx a)), (fin_ninf (vx b)) by assumption. reflexivity.
Qed.
Lemma good_euler (BK : Backend b32) (oeq : eorder -> eorder -> bool) : (forall o o', oeq o o' = true <-> o = o') -> good_equality (euler_equal oeq) p_euler (fun e => eu_o e).
Proof.
  intros O. destruct (good_vec3 BK) as [S G].
  assert (Y : forall o o', oeq o o' = oeq o' o).
  { intros o o'. destruct (oeq o o') eqn:E. apply O in E. subst. symmetry. now apply O.
    destruct (oeq o' o) eqn:E'; auto. apply O in E'. subst. rewrite (proj2 (O o o) eq_refl) in E. discriminate. }
  split.
  - apply ptr_sym. intros a b. unfold euler_equal_fn. f_equal; [apply S|apply Y].
  - intros a b Fa Fb. destruct (G (eu_v a) (eu_v b) Fa Fb) as [GS GC]. unfold euler_equal, pointer_equal, euler_equal_fn. split.
    + intros H. apply andb_true_iff in H as [H1 H2]. split; [now apply O|]. now apply GS.
    + intros [H1 H2]. apply andb_true_iff. split; [apply GC; auto|now apply O].
Qed.
(** ** C71 *)
Theorem C71_equality : forall (BK : Backend b32),
  good_equality vec2_equal p_vec2 none /\ good_equality vec3_equal p_vec3 none /\ good_equality vec4_equal p_vec4 none /\
  good_equality point_equal p_point none /\ good_equality size_equal p_size none /\ good_equality point3d_equal p_point3d none /\
  good_equality rect_equal p_rect none /\ good_equality box_equal p_box none /\ good_equality box2d_equal p_box2d none /\
  good_equality plane_equal p_plane none /\ good_equality sphere_equal p_sphere none /\ good_equality triangle_equal p_triangle none /\
  good_equality ray_equal p_ray none /\ good_equality frustum_equal p_frustum none /\ good_equality matrix_equal p_matrix none.
Proof.
  intros BK. pose proof (good_vec2 BK). pose proof (good_vec3 BK). pose proof (good_vec4 BK). pose proof (good_point BK). pose proof good_size.
  pose proof (good_point3d BK). pose proof (good_rect BK). pose proof (good_box BK). pose proof (good_box2d BK). pose proof (good_plane BK).
  pose proof (good_sphere BK). pose proof (good_triangle BK). pose proof (good_ray BK). pose proof (good_frustum BK). pose proof (good_matrix BK).
  tauto.
Qed.
(** Euler angles: [oeq] is C's comparison of two enumerators, the tag is the order they were created with *)
Theorem C71_equality_euler : forall (BK : Backend b32) (oeq : eorder -> eorder -> bool),
  (forall o o', oeq o o' = true <-> o = o') -> good_equality (euler_equal oeq) p_euler (fun e => eu_o e).
Proof. exact good_euler. Qed.
(** two values created with the same finite angles compare equal exactly if their effective orders
    agree, whichever of an order's names they were created with *)
Theorem C71_euler_orders : forall (BK : Backend b32) (oeq : eorder -> eorder -> bool) (x y z : b32) (o o' : eorder),
  (forall o o', oeq o o' = true <-> o = o') -> fin x -> fin y -> fin z ->
  let a := euler_init_from_radians x y z o in let b := euler_init_from_radians x y z o' in
  euler_equal oeq false (Some a) (Some b) = true <-> euler_get_order a = euler_get_order b.
Proof.
  intros BK oeq x y z o o' O X Y Z a b.
  destruct (proj2 (good_euler BK oeq O) a b) as [S C]; [repeat constructor; assumption|repeat constructor; assumption|].
  assert (G : forall e o, eu_o (euler_init_from_radians x y z o) = e -> euler_get_order (euler_init_from_radians x y z o) = e).
  { intros e o1 <-. destruct o1; reflexivity. }
  rewrite (G _ o eq_refl : euler_get_order a = eu_o a), (G _ o' eq_refl : euler_get_order b = eu_o b). split.
  - intros H. now apply S.
  - intros H. apply C. split; auto. assert (N : forall t, near_enough t t) by (intros t; unfold near_enough; rewrite Rminus_eq_0, Rabs_R0; apply bpow_ge_0).
    unfold a, b, p_euler, p_vec3. simpl. auto.
Qed.
(** ** the hypotheses can be met, on both sides of the tolerance *)
Example C71_ex : forall BK : Backend b32,
  let s : sphere b32 := Sp (V4 fone ftwo fone fzero) fone in let s' := Sp (V4 fone ftwo fone fzero) ftwo in let s'' := Sp (V4 fone ftwo (lit 16777217 (-24)) fzero) (lit 16777217 (-24)) in
  Forall fin (p_sphere s) /\ Forall fin (p_sphere s') /\ Forall fin (p_sphere s'') /\
  sphere_equal false (Some s) (Some s') = false /\ sphere_equal false (Some s) (Some s'') = true /\
  Forall fin (p_box box_one) /\ Forall fin (p_matrix matrix_init_identity).
Proof.
  intros BK s s' s''. split; [repeat constructor|split; [repeat constructor|split; [repeat constructor|]]].
  destruct BK as [[]| |[] [] rcp rsq|rec rsq sq]; (split; [beq|split; [beq|split; repeat constructor]]).
Qed.
