(** * Props_Dim: dimensions and centres of boxes in binary32, every back end (C76). *)

From Coq Require Import ZArith Reals Bool List Lra Lia Psatz.
From Flocq Require Import Core BinarySingleNaN.
From Verif Require Import Num Simd Vec Rect Box OrdThy FloatThy B32Setup FloatLem Props_VecOps ErrThy.
Import ListNotations.
Local Open Scope R_scope.
Local Notation V := (simd4f b32).

(** [size_of lo hi w]: w is the magnitude of the correctly rounded difference *)
Definition size_of (lo hi w : b32) : Prop := value w = xabs (nearest (xsub (value hi) (value lo))).
Theorem C76_box_dimensions : forall (BK : Backend b32) (b : box b32), let lo := box_get_min b in let hi := box_get_max b in
  size_of (p3x lo) (p3x hi) (box_get_width b) /\ size_of (p3y lo) (p3y hi) (box_get_height b) /\ size_of (p3z lo) (p3z hi) (box_get_depth b).
Proof. intros BK b lo hi. unfold size_of. repeat split; (etransitivity; [apply fabs_X|]; f_equal; apply fsub_X). Qed.
Theorem C76_box2d_dimensions : forall (BK : Backend b32) (b : V), let lo := box2d_get_min b in let hi := box2d_get_max b in
  size_of (px lo) (px hi) (box2d_get_width b) /\ size_of (py lo) (py hi) (box2d_get_height b).
Proof. intros BK b lo hi. unfold size_of. repeat split; (etransitivity; [apply fabs_X|]; f_equal; apply fsub_X). Qed.

(** the two special boxes: minimum +inf and maximum -inf on every axis (no points); the opposite *)
Definition no_points3 (b : box b32) : Prop :=
  map (fun x : b32 => value x) [vx (bmin b); vy (bmin b); vz (bmin b); vx (bmax b); vy (bmax b); vz (bmax b)] = [PInf; PInf; PInf; NInf; NInf; NInf].
Definition all_points3 (b : box b32) : Prop :=
  map (fun x : b32 => value x) [vx (bmin b); vy (bmin b); vz (bmin b); vx (bmax b); vy (bmax b); vz (bmax b)] = [NInf; NInf; NInf; PInf; PInf; PInf].
Lemma is_pinf_iff (x : b32) : is_pinf x = true <-> value x = PInf.
Proof. unfold is_pinf. destruct x as [s|s| |s m e]; try destruct s; simpl; split; try discriminate; auto. Qed.
Lemma is_ninf_iff (x : b32) : is_ninf x = true <-> value x = NInf.
Proof. unfold is_ninf. destruct x as [s|s| |s m e]; try destruct s; simpl; split; try discriminate; auto. Qed.
Lemma empty_iff b : box_is_empty b = true <-> no_points3 b.
Proof.
  unfold box_is_empty, no_points3. rewrite !andb_true_iff, !is_pinf_iff, !is_ninf_iff. cbn [map]. split.
  - intros (((-> & ->) & ->) & ((-> & ->) & ->)). reflexivity.
  - intros H. injection H. intros. repeat split; assumption.
Qed.
Lemma infinity_iff b : box_is_infinity b = true <-> all_points3 b.
Proof.
  unfold box_is_infinity, all_points3. rewrite !andb_true_iff, !is_pinf_iff, !is_ninf_iff. cbn [map]. split.
  - intros (((-> & ->) & ->) & ((-> & ->) & ->)). reflexivity.
  - intros H. injection H. intros. repeat split; assumption.
Qed.
(** the 2D box keeps min x, min y, max x, max y *)
Definition corners2 (b : V) : list xreal := map (fun x : b32 => value x) [px (box2d_get_min b); py (box2d_get_min b); px (box2d_get_max b); py (box2d_get_max b)].
Definition no_points2 (b : V) : Prop := corners2 b = [PInf; PInf; NInf; NInf].
Definition all_points2 (b : V) : Prop := corners2 b = [NInf; NInf; PInf; PInf].
Lemma empty2_iff b : box2d_is_empty b = true <-> no_points2 b.
Proof.
  unfold box2d_is_empty, no_points2, corners2, box2d_get_min, box2d_get_max. rewrite !andb_true_iff, !is_pinf_iff, !is_ninf_iff. cbn [map px py]. split.
  - intros ((-> & ->) & (-> & ->)). reflexivity.
  - intros H. injection H. intros. repeat split; assumption.
Qed.
Lemma infinity2_iff b : box2d_is_infinity b = true <-> all_points2 b.
Proof.
  unfold box2d_is_infinity, all_points2, corners2, box2d_get_min, box2d_get_max. rewrite !andb_true_iff, !is_pinf_iff, !is_ninf_iff. cbn [map px py]. split.
  - intros ((-> & ->) & (-> & ->)). reflexivity.
  - intros H. injection H. intros. repeat split; assumption.
Qed.

(** ** get_size *)
Theorem C76_box_size : forall (BK : Backend b32) (b : box b32), let s := box_get_size b in
  (no_points3 b -> map (fun x : b32 => value x) [vec3_get_x s; vec3_get_y s; vec3_get_z s] = [Fin 0; Fin 0; Fin 0]) /\
  (all_points3 b -> map (fun x : b32 => value x) [vec3_get_x s; vec3_get_y s; vec3_get_z s] = [PInf; PInf; PInf]) /\
  (~ no_points3 b -> ~ all_points3 b ->
   Forall (fun get => value (get s) = nearest (xsub (value (get (bmax b))) (value (get (bmin b))))) [vec3_get_x; vec3_get_y; vec3_get_z]).
Proof.
  intros BK b s. unfold s, box_get_size. split; [|split].
  - intros N. rewrite (proj2 (empty_iff b) N). reflexivity.
  - intros A. rewrite (proj2 (infinity_iff b) A). destruct (box_is_empty b) eqn:E; [|reflexivity].
    apply empty_iff in E. unfold no_points3, all_points3 in * . rewrite E in A. discriminate.
  - intros N A. rewrite <- empty_iff in N. rewrite <- infinity_iff in A. destruct (box_is_empty b); [easy|]. destruct (box_is_infinity b); [easy|].
    repeat (apply Forall_cons; [apply fsub_X|]). apply Forall_nil.
Qed.
Theorem C76_box2d_size : forall (BK : Backend b32) (b : V), let s := box2d_get_size b in
  (no_points2 b -> map (fun x : b32 => value x) [vec2_get_x s; vec2_get_y s] = [Fin 0; Fin 0]) /\
  (all_points2 b -> map (fun x : b32 => value x) [vec2_get_x s; vec2_get_y s] = [PInf; PInf]) /\
  (~ no_points2 b -> ~ all_points2 b ->
   value (vec2_get_x s) = nearest (xsub (value (px (box2d_get_max b))) (value (px (box2d_get_min b)))) /\
   value (vec2_get_y s) = nearest (xsub (value (py (box2d_get_max b))) (value (py (box2d_get_min b))))).
Proof.
  intros BK b s. unfold s, box2d_get_size. split; [|split].
  - intros N. rewrite (proj2 (empty2_iff b) N). reflexivity.
  - intros A. rewrite (proj2 (infinity2_iff b) A). destruct (box2d_is_empty b) eqn:E; [|reflexivity].
    apply empty2_iff in E. unfold no_points2, all_points2 in * . rewrite E in A. discriminate.
  - intros N A. rewrite <- empty2_iff in N. rewrite <- infinity2_iff in A. destruct (box2d_is_empty b); [easy|]. destruct (box2d_is_infinity b); [easy|].
    split; apply fsub_X.
Qed.
(** ** get_center *)
Definition midpoint (lo hi c : b32) : Prop := value c = nearest (xmul (nearest (xadd (value lo) (value hi))) (Fin (/ 2))).
Lemma mid (x y : b32) : value (fmul (fadd x y) fhalf) = nearest (xmul (nearest (xadd (value x) (value y))) (Fin (/ 2))).
Proof. now rewrite fmul_X, fadd_X, fhalf_X. Qed.
Theorem C76_box_center : forall (BK : Backend b32) (b : box b32), let c := box_get_center b in let lo := box_get_min b in let hi := box_get_max b in
  (no_points3 b \/ all_points3 b -> map (fun x : b32 => value x) [p3x c; p3y c; p3z c] = [Fin 0; Fin 0; Fin 0]) /\
  (~ no_points3 b -> ~ all_points3 b -> midpoint (p3x lo) (p3x hi) (p3x c) /\ midpoint (p3y lo) (p3y hi) (p3y c) /\ midpoint (p3z lo) (p3z hi) (p3z c)).
Proof.
  intros BK b c lo hi. unfold c, box_get_center. split.
  - intros H. assert (E : (box_is_empty b || box_is_infinity b)%bool = true) by (rewrite orb_true_iff, empty_iff, infinity_iff; auto). rewrite E. reflexivity.
  - intros N A. rewrite <- empty_iff in N. rewrite <- infinity_iff in A. destruct (box_is_empty b); [easy|]. destruct (box_is_infinity b); [easy|].
    cbn [orb]. unfold midpoint. repeat split; apply mid.
Qed.
Theorem C76_box2d_center : forall (BK : Backend b32) (b : V), let c := box2d_get_center b in let lo := box2d_get_min b in let hi := box2d_get_max b in
  (no_points2 b \/ all_points2 b -> map (fun x : b32 => value x) [px c; py c] = [Fin 0; Fin 0]) /\
  (~ no_points2 b -> ~ all_points2 b -> midpoint (px lo) (px hi) (px c) /\ midpoint (py lo) (py hi) (py c)).
Proof.
  intros BK b c lo hi. unfold c, box2d_get_center. split.
  - intros H. assert (E : (box2d_is_empty b || box2d_is_infinity b)%bool = true) by (rewrite orb_true_iff, empty2_iff, infinity2_iff; auto). rewrite E. reflexivity.
  - intros N A. rewrite <- empty2_iff in N. rewrite <- infinity2_iff in A. destruct (box2d_is_empty b); [easy|]. destruct (box2d_is_infinity b); [easy|].
    cbn [orb]. unfold midpoint. repeat split; apply mid.
Qed.
(** a point is at distance 0 from itself *)
Theorem C76_same_point : forall (BK : Backend b32) (p : point b32) (dx dy : option b32),
  value (point_distance_squared true p p) = Fin 0 /\ value (fst (fst (point_distance true p p dx dy))) = Fin 0.
Proof. intros. split; reflexivity. Qed.
Example C76_ex : forall BK : Backend b32, let b := box_init (Some (P3 fzero fone fzero)) (Some (P3 ftwo ftwo fone)) in
  ~ no_points3 b /\ ~ all_points3 b /\ box_get_width b = ftwo /\ box_get_height b = fone /\ p3x (box_get_center b) = fone /\
  no_points3 (box_empty : box b32) /\ all_points3 (box_infinite : box b32).
Proof. intros BK b. split; [discriminate|]. split; [discriminate|]. split; [beq|split; [beq|split; [beq|split; reflexivity]]]. Qed.
