(** * Hist: the values a program can obtain from the API (binary32, any back end).

    [vec2_api], [vec3_api] and [box_api] are the sets of values reachable by finite
    sequences of API calls with arbitrary binary32 arguments.  Left out on purpose,
    because they break the invariant (witnesses in Props_Box.v):
    graphene_vec2_divide/vec3_divide, graphene_box_expand_scalar,
    graphene_matrix_transform_box, graphene_sphere_get_bounding_box, and
    multiplication by a non-finite scalar. *)

From Coq Require Import ZArith Reals Bool List Lra.
From Flocq Require Import Core BinarySingleNaN.
From Verif Require Import Num Simd Vec Rect Box Mat Geo OrdThy FloatThy BoxThy.
Import ListNotations.

Section Hist.
Context {BK : Backend b32}.
Notation V := (simd4f b32).

Inductive vec3_api : V -> Prop :=
| v3_init x y z : vec3_api (vec3_init x y z)
| v3_copy v : vec3_api v -> vec3_api (vec3_init_from_vec3 v)
| v3_float l v : vec3_init_from_float l = Some v -> vec3_api v
| v3_point p : vec3_api (point3d_to_vec3 p)
| v3_add a b : vec3_api a -> vec3_api b -> vec3_api (vec3_add a b)
| v3_subtract a b : vec3_api a -> vec3_api b -> vec3_api (vec3_subtract a b)
| v3_multiply a b : vec3_api a -> vec3_api b -> vec3_api (vec3_multiply a b)
| v3_cross a b : vec3_api a -> vec3_api b -> vec3_api (vec3_cross a b)
| v3_min a b : vec3_api a -> vec3_api b -> vec3_api (vec3_min a b)
| v3_max a b : vec3_api a -> vec3_api b -> vec3_api (vec3_max a b)
| v3_negate a : vec3_api a -> vec3_api (vec3_negate a)
| v3_scale a f : vec3_api a -> fin f -> vec3_api (vec3_scale a f)
| v3_normalize a : vec3_api a -> fin (lane_rsqrt (g_dot3_scalar a a)) -> vec3_api (vec3_normalize a)
| v3_interpolate a b (f : b64) : vec3_api a -> vec3_api b ->
    fin (d2f f) -> fin (fsub fone (d2f f)) -> vec3_api (vec3_interpolate a b f)
| v3_xy0 v : vec3_api (vec3_get_xy0 v)
| v3_of_vec4 v : vec3_api (vec4_get_xyz v)
| v3_transform m v : vec3_api (matrix_transform_vec3 m v)
| v3_normal t : vec3_api (tr_a t) -> vec3_api (tr_b t) -> vec3_api (tr_c t) ->
    fin (fdiv fone (fsqrt (vec3_dot (triangle_cross t) (triangle_cross t)))) ->
    vec3_api (triangle_get_normal t)
| v3_const v : In v [vec3_zero; vec3_one; vec3_x_axis; vec3_y_axis; vec3_z_axis] -> vec3_api v.

(** The same for two-component vectors: both unused lanes. *)
Inductive vec2_api : V -> Prop :=
| v2_init x y : vec2_api (vec2_init x y)
| v2_copy v : vec2_api v -> vec2_api (vec2_init_from_vec2 v)
| v2_float l v : vec2_init_from_float l = Some v -> vec2_api v
| v2_point p : vec2_api (point_to_vec2 p)
| v2_add a b : vec2_api a -> vec2_api b -> vec2_api (vec2_add a b)
| v2_subtract a b : vec2_api a -> vec2_api b -> vec2_api (vec2_subtract a b)
| v2_multiply a b : vec2_api a -> vec2_api b -> vec2_api (vec2_multiply a b)
| v2_min a b : vec2_api a -> vec2_api b -> vec2_api (vec2_min a b)
| v2_max a b : vec2_api a -> vec2_api b -> vec2_api (vec2_max a b)
| v2_negate a : vec2_api a -> vec2_api (vec2_negate a)
| v2_scale a f : vec2_api a -> fin f -> vec2_api (vec2_scale a f)
| v2_normalize a : vec2_api a -> fin (lane_rsqrt (vec2_dot a a)) -> vec2_api (vec2_normalize a)
| v2_interpolate a b (f : b64) : vec2_api a -> vec2_api b ->
    fin (d2f f) -> fin (fsub fone (d2f f)) -> vec2_api (vec2_interpolate a b f)
| v2_of_vec3 v : vec2_api (vec3_get_xy v)
| v2_of_vec4 v : vec2_api (vec4_get_xy v)
| v2_const v : In v [vec2_zero; vec2_one; vec2_x_axis; vec2_y_axis] -> vec2_api v.

Inductive box_api : box b32 -> Prop :=
| b_init mn mx : box_api (box_init mn mx)
| b_points l : box_api (box_init_from_points l)
| b_vectors l : Forall vec3_api l -> box_api (box_init_from_vectors l)
| b_vec3 mn mx : (forall v, mn = Some v -> vec3_api v) -> (forall v, mx = Some v -> vec3_api v) ->
    box_api (box_init_from_vec3 mn mx)
| b_copy b : box_api b -> box_api (box_init_from_box b)
| b_expand b p : box_api b -> box_api (box_expand b p)
| b_expand_vec3 b v : box_api b -> vec3_api v -> box_api (box_expand_vec3 b v)
| b_union a b : box_api a -> box_api b -> box_api (box_union a b)
| b_intersection a b : box_api a -> box_api b -> box_api (snd (box_intersection a b))
| b_triangle t : vec3_api (tr_a t) -> vec3_api (tr_b t) -> vec3_api (tr_c t) ->
    box_api (triangle_get_bounding_box t)
| b_const b : In b [box_zero; box_one; box_minus_one; box_one_minus_one; box_infinite; box_empty] -> box_api b.

(** No NaN in what graphene_box_get_min and graphene_box_get_max return. *)
Definition box_nn (b : box b32) : Prop := p3_nn (box_get_min b) /\ p3_nn (box_get_max b).

(** ** zero lanes *)
#[local] Arguments fadd : simpl never.
#[local] Arguments fsub : simpl never.
#[local] Arguments fmul : simpl never.
#[local] Arguments fdiv : simpl never.
#[local] Arguments fneg : simpl never.
#[local] Arguments d2f : simpl never.

Lemma is0_X (x : b32) : is0 x <-> B2X x = Fin 0.
Proof.
  unfold is0. rewrite !fle_X. simpl (B2X fzero). split.
  - intros [H1 H2]. destruct (B2X x); try easy. apply xle_fin in H1. apply xle_fin in H2. f_equal; lra.
  - intros ->. split; apply xle_fin; lra.
Qed.
Lemma xround_0 : xround (prec:=24) (emax:=128) 0 = Fin 0.
Proof. unfold xround. rewrite rnd_0, Rabs_R0, Rlt_bool_true; auto. apply bpow_gt_0. Qed.
Lemma is0_add (x y : b32) : is0 x -> is0 y -> is0 (fadd x y).
Proof. rewrite !is0_X, fadd_X. intros -> ->. simpl. rewrite Rplus_0_r. apply xround_0. Qed.
Lemma is0_sub (x y : b32) : is0 x -> is0 y -> is0 (fsub x y).
Proof. rewrite !is0_X, fsub_X. intros -> ->. simpl. rewrite Rminus_0_r. apply xround_0. Qed.
Lemma is0_mul_l (x y : b32) : is0 x -> fin y -> is0 (fmul x y).
Proof. rewrite !is0_X, fmul_X. intros -> H. rewrite (fin_X y H). simpl. rewrite Rmult_0_l. apply xround_0. Qed.
Lemma is0_mul_r (x y : b32) : is0 y -> fin x -> is0 (fmul x y).
Proof. rewrite !is0_X, fmul_X. intros -> H. rewrite (fin_X x H). simpl. rewrite Rmult_0_r. apply xround_0. Qed.
Lemma is0_mul (x y : b32) : is0 x -> is0 y -> is0 (fmul x y).
Proof. intros Hx Hy. apply is0_mul_l; auto. apply is0_X in Hy. destruct y; try easy. destruct s; easy. Qed.
Lemma is0_neg (x : b32) : is0 x -> is0 (lane_neg x).
Proof.
  intros H. unfold lane_neg. destruct backend; [| |auto..].
  all: try (rewrite is0_X in * ; rewrite fneg_X, H; simpl; now rewrite Ropp_0).
  apply is0_mul_l; auto; reflexivity.
Qed.
Lemma is0_fzero : is0 (fzero : b32). Proof. apply is0_zero. Qed.

Lemma vec3_api_clean v : vec3_api v -> vec3_clean v.
Proof.
  unfold vec3_clean. induction 1; simpl; try apply is0_fzero; auto using is0_add, is0_sub, is0_mul, is0_min, is0_max, is0_neg, is0_mul_l.
  - unfold vec3_init_from_float, g_init_3f in H. destruct l as [|? [|? [|? ?]]]; inversion H; subst; apply is0_fzero.
  - unfold vec3_cross, g_cross3. destruct backend; simpl; try apply is0_fzero. auto using is0_sub, is0_mul.
  - unfold vec3_normalize. destruct (flt _ _); [|apply is0_fzero]. apply is0_mul_l; assumption.
  - auto using is0_add, is0_mul_r.
  - unfold triangle_get_normal. destruct (flt _ _); [|apply is0_fzero].
    apply is0_mul_l; [|assumption]. unfold triangle_cross, vec3_cross, g_cross3. destruct backend; simpl; try apply is0_fzero.
    repeat first [assumption|apply is0_sub|apply is0_mul].
  - simpl in H. destruct H as [<-|[<-|[<-|[<-|[<-|[]]]]]]; apply is0_fzero.
Qed.

Definition vec2_clean (v : V) : Prop := is0 (vz v) /\ is0 (vw v).
Lemma vec2_api_clean v : vec2_api v -> vec2_clean v.
Proof.
  unfold vec2_clean. induction 1; simpl; try (split; apply is0_fzero);
    repeat match goal with H : is0 _ /\ is0 _ |- _ => destruct H end;
    auto 6 using is0_add, is0_sub, is0_mul, is0_min, is0_max, is0_neg, is0_mul_l.
  - unfold vec2_init_from_float, g_init_2f in H. destruct l as [|? [|? ?]]; inversion H; subst; split; apply is0_fzero.
  - unfold vec2_normalize. destruct (flt _ _); [|split; apply is0_fzero]. split; apply is0_mul_l; assumption.
  - auto using is0_add, is0_mul_r.
  - simpl in H. destruct H as [<-|[<-|[<-|[<-|[]]]]]; split; apply is0_fzero.
Qed.

Definition box_clean (b : box b32) : Prop := vec3_clean (bmin b) /\ vec3_clean (bmax b).
Lemma expand_clean b v : box_clean b -> vec3_clean v -> box_clean (box_expand_vec3 b v).
Proof. intros [H1 H2] H. split; unfold vec3_clean; simpl; auto using is0_min, is0_max. Qed.
Lemma fold_clean l b : box_clean b -> Forall vec3_clean l -> box_clean (fold_left box_expand_vec3 l b).
Proof. revert b. induction l; simpl; auto. intros b Hb Hl. inversion Hl; subst. apply IHl; auto using expand_clean. Qed.

Lemma box_api_clean b : box_api b -> box_clean b.
Proof.
  induction 1.
  - destruct mn, mx; split; apply is0_fzero.
  - rewrite from_points_vectors. apply fold_clean. { split; apply is0_fzero. }
    apply Forall_map, Forall_forall. intros; apply to_vec3_clean.
  - apply fold_clean. { split; apply is0_fzero. } eapply Forall_impl; [|exact H]. apply vec3_api_clean.
  - split; [destruct mn|destruct mx]; simpl; try apply is0_fzero; auto using vec3_api_clean.
  - auto.
  - apply expand_clean; auto. apply to_vec3_clean.
  - apply expand_clean; auto using vec3_api_clean.
  - destruct IHbox_api1, IHbox_api2. split; unfold vec3_clean; simpl; auto using is0_min, is0_max.
  - destruct IHbox_api1, IHbox_api2. unfold box_intersection. destruct (negb _); simpl.
    + split; apply is0_fzero.
    + split; unfold vec3_clean; simpl; auto using is0_min, is0_max.
  - unfold triangle_get_bounding_box. repeat apply expand_clean; auto using vec3_api_clean. split; apply is0_fzero.
  - simpl in H. destruct H as [<-|[<-|[<-|[<-|[<-|[<-|[]]]]]]]; split; apply is0_fzero.
Qed.
Lemma box_api_ok b : box_api b -> box_nn b -> box_ok b.
Proof. intros H [N N']. destruct (box_api_clean b H). repeat split; auto; try apply N; try apply N'. all: apply H0 || apply H1. Qed.
End Hist.
