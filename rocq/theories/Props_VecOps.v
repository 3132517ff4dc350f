(** * Props_VecOps: component-wise vector arithmetic in binary32, every back end (C09). *)

From Coq Require Import ZArith Reals Bool List Lra Lia Psatz.
From Flocq Require Import Core BinarySingleNaN.
From Verif Require Import Num Simd Vec Rect OrdThy FloatThy B32Setup FloatLem.
Import ListNotations.
Notation V := (simd4f b32).

(** The value of a float: [Fin r], [PInf], [NInf], and [Undef] for NaN. *)
Notation value x := (B2X (x : b32)).
(** [nearest e]: the value of the float closest to the exact result [e] (ties to even,
    infinite beyond the largest float). *)
Notation nearest e := (xrnd (prec:=24) (emax:=128) e).

(** [f] computes, in the component read by [get], the correctly rounded sum, difference and
    product. *)
Definition rounds (op : xreal -> xreal -> xreal) (f : V -> V -> V) (get : V -> b32) : Prop :=
  forall a b, value (get (f a b)) = nearest (op (value (get a)) (value (get b))).

Theorem C09_vec2_arithmetic : forall (BK : Backend b32) (get : V -> b32), In get [vec2_get_x; vec2_get_y] ->
  rounds xadd vec2_add get /\ rounds xsub vec2_subtract get /\ rounds xmul vec2_multiply get.
Proof.
  intros BK get Hg. destruct Hg as [<-|[<-|[]]]; (split; [|split]); intros a b;
  (apply fadd_X || apply fsub_X || apply fmul_X).
Qed.
Theorem C09_vec3_arithmetic : forall (BK : Backend b32) (get : V -> b32), In get [vec3_get_x; vec3_get_y; vec3_get_z] ->
  rounds xadd vec3_add get /\ rounds xsub vec3_subtract get /\ rounds xmul vec3_multiply get.
Proof.
  intros BK get Hg. destruct Hg as [<-|[<-|[<-|[]]]]; (split; [|split]); intros a b;
  (apply fadd_X || apply fsub_X || apply fmul_X).
Qed.
Theorem C09_vec4_arithmetic : forall (BK : Backend b32) (get : V -> b32),
  In get [vec4_get_x; vec4_get_y; vec4_get_z; vec4_get_w] ->
  rounds xadd vec4_add get /\ rounds xsub vec4_subtract get /\ rounds xmul vec4_multiply get.
Proof.
  intros BK get Hg. destruct Hg as [<-|[<-|[<-|[<-|[]]]]]; (split; [|split]); intros a b;
  (apply fadd_X || apply fsub_X || apply fmul_X).
Qed.
(** scaling, and negation (exact) *)
Lemma neg_lane_X (BK : Backend b32) (x : b32) : value (lane_neg x) = xneg (value x).
Proof.
  unfold lane_neg. destruct backend; try apply fneg_X. rewrite fmul_X, fm1_X.
  assert (E : xmul (value x) (Fin (-1)) = xneg (value x)).
  { destruct (B2X x); simpl; auto; try (unfold xsgn_inf; bdes; auto; lra). f_equal; lra. }
  rewrite E, <- fneg_X. apply xrnd_B2X.
Qed.
Theorem C09_scale_negate : forall (BK : Backend b32) (v : V) (s : b32),
  Forall (fun get => value (get (vec2_scale v s)) = nearest (xmul (value (get v)) (value s)) /\
                     value (get (vec2_negate v)) = xneg (value (get v))) [vec2_get_x; vec2_get_y] /\
  Forall (fun get => value (get (vec3_scale v s)) = nearest (xmul (value (get v)) (value s)) /\
                     value (get (vec3_negate v)) = xneg (value (get v))) [vec3_get_x; vec3_get_y; vec3_get_z] /\
  Forall (fun get => value (get (vec4_scale v s)) = nearest (xmul (value (get v)) (value s)) /\
                     value (get (vec4_negate v)) = xneg (value (get v))) [vec4_get_x; vec4_get_y; vec4_get_z; vec4_get_w].
Proof.
  intros. split; [|split]; repeat (apply Forall_cons; [split; [apply fmul_X|apply neg_lane_X]|]); apply Forall_nil.
Qed.
Theorem C09_point_size_scale : forall (BK : Backend b32) (p : point3d b32) (z : size b32) (s : b32),
  value (p3x (point3d_scale p s)) = nearest (xmul (value (p3x p)) (value s)) /\
  value (p3y (point3d_scale p s)) = nearest (xmul (value (p3y p)) (value s)) /\
  value (p3z (point3d_scale p s)) = nearest (xmul (value (p3z p)) (value s)) /\
  value (swidth (size_scale z s)) = nearest (xmul (value (swidth z)) (value s)) /\
  value (sheight (size_scale z s)) = nearest (xmul (value (sheight z)) (value s)).
Proof. intros. repeat split; apply fmul_X. Qed.

(** Division.  Gcc and SSE: correctly rounded quotient.  Scalar: likewise for divisors above
    FLT_EPSILON in magnitude, 0 for the others (also for 0, and for a NaN divisor).  NEON
    multiplies by the refined estimate of the reciprocal, whatever its precision. *)
Definition divides (BK : Backend b32) (a b q : b32) : Prop :=
  match BK with
  | Gcc | Sse _ _ _ _ => value b <> Fin 0 -> value q = nearest (xdiv (value a) (value b))
  | Scalar _ =>
      (xlt (Fin (/ 8388608)) (xabs (value b)) = true -> value q = nearest (xdiv (value a) (value b))) /\
      (xlt (Fin (/ 8388608)) (xabs (value b)) = false -> value q = Fin 0)
  | Neon rec _ _ => value q = nearest (xmul (value a) (value (rec b)))
  end.
Lemma lane_divides (BK : Backend b32) (a b : b32) : divides BK a b (lane_div a b).
Proof.
  unfold divides, lane_div. destruct BK; cbv [backend].
  - rewrite flt_X, feps_X, fabs_X. split; intros H; rewrite H.
    + apply Bdiv_X. intros E. rewrite E in H. simpl in H. rewrite Rabs_R0 in H. bdes; try discriminate. lra.
    + apply fzero_X.
  - apply Bdiv_X.
  - apply Bdiv_X.
  - apply fmul_X.
Qed.
Theorem C09_divide : forall (BK : Backend b32) (a b : V),
  Forall (fun get => divides BK (get a) (get b) (get (vec2_divide a b))) [vec2_get_x; vec2_get_y] /\
  Forall (fun get => divides BK (get a) (get b) (get (vec3_divide a b))) [vec3_get_x; vec3_get_y; vec3_get_z] /\
  Forall (fun get => divides BK (get a) (get b) (get (vec4_divide a b))) [vec4_get_x; vec4_get_y; vec4_get_z; vec4_get_w].
Proof.
  intros. split; [|split]; repeat (apply Forall_cons; [apply (lane_divides BK)|]); apply Forall_nil.
Qed.
(** One divided by a positive number below FLT_EPSILON is 0 with the scalar back end and
    large with the others. *)
Theorem C09_scalar_divide_refuted :
  let tiny := lit 1 (-30) in let q (BK : Backend b32) := vec2_get_x (vec2_divide (vec2_init fone fone) (vec2_init tiny fone)) in
  value (q (Scalar true)) = Fin 0 /\ q Gcc = lit 1 30.
Proof.
  cbv zeta. split; [|beq].
  assert (E : (let BK : Backend b32 := Scalar true in vec2_get_x (vec2_divide (vec2_init fone fone) (vec2_init (lit 1 (-30)) fone))) = fzero) by beq.
  cbv zeta in E. rewrite E. apply fzero_X.
Qed.

(** Swizzles keep components and clear the others. *)
Theorem C09_swizzles : forall (BK : Backend b32) (x y z w : b32),
  vec3_get_xy (vec3_init x y z) = vec2_init x y /\
  vec3_get_xy0 (vec3_init x y z) = vec3_init x y fzero /\
  vec3_get_xyz0 (vec3_init x y z) = vec4_init x y z fzero /\
  vec4_get_xy (vec4_init x y z w) = vec2_init x y /\
  vec4_get_xyz (vec4_init x y z w) = vec3_init x y z /\
  vec4_init_from_vec3 (vec3_init x y z) w = vec4_init x y z w /\
  vec2_init_from_vec2 (vec2_init x y) = vec2_init x y /\
  vec3_init_from_vec3 (vec3_init x y z) = vec3_init x y z /\
  vec4_init_from_vec4 (vec4_init x y z w) = vec4_init x y z w.
Proof. repeat split. Qed.
(** the getters return what the initialisers stored *)
Theorem C09_getters : forall (BK : Backend b32) (x y z w : b32),
  map (fun get => get (vec2_init x y)) [vec2_get_x; vec2_get_y] = [x; y] /\
  map (fun get => get (vec3_init x y z)) [vec3_get_x; vec3_get_y; vec3_get_z] = [x; y; z] /\
  map (fun get => get (vec4_init x y z w)) [vec4_get_x; vec4_get_y; vec4_get_z; vec4_get_w] = [x; y; z; w].
Proof. repeat split. Qed.
(** vec4_init_from_vec2 adds the third and fourth coordinate *)
Theorem C09_vec4_from_vec2 : forall (BK : Backend b32) (x y z w : b32),
  map (fun get => get (vec4_init_from_vec2 (vec2_init x y) z w)) [vec4_get_x; vec4_get_y; vec4_get_z; vec4_get_w] = [x; y; z; w].
Proof. repeat split. Qed.
(** the constant vectors *)
Theorem C09_constants : forall BK : Backend b32,
  let v2 v := map (fun get => get v) [vec2_get_x; vec2_get_y] in
  let v3 v := map (fun get => get v) [vec3_get_x; vec3_get_y; vec3_get_z] in
  let v4 v := map (fun get => get v) [vec4_get_x; vec4_get_y; vec4_get_z; vec4_get_w] in
  let o := fone in let z := fzero in
  v2 vec2_zero = [z; z] /\ v2 vec2_one = [o; o] /\ v2 vec2_x_axis = [o; z] /\ v2 vec2_y_axis = [z; o] /\
  v3 vec3_zero = [z; z; z] /\ v3 vec3_one = [o; o; o] /\ v3 vec3_x_axis = [o; z; z] /\ v3 vec3_y_axis = [z; o; z] /\
  v3 vec3_z_axis = [z; z; o] /\
  v4 vec4_zero = [z; z; z; z] /\ v4 vec4_one = [o; o; o; o] /\ v4 vec4_x_axis = [o; z; z; z] /\ v4 vec4_y_axis = [z; o; z; z] /\
  v4 vec4_z_axis = [z; z; o; z] /\ v4 vec4_w_axis = [z; z; z; o].
Proof. repeat split. Qed.
(** reading from and writing to arrays of floats: exactly the first 2/3/4 entries are used; too short an
    array has no defined result (the C code reads or writes out of bounds) *)
Theorem C09_float_arrays : forall (BK : Backend b32) (x y z w : b32) (rest : list b32) (a b c d : b32),
  vec2_init_from_float (x :: y :: rest) = Some (vec2_init x y) /\
  vec3_init_from_float (x :: y :: z :: rest) = Some (vec3_init x y z) /\
  vec4_init_from_float (x :: y :: z :: w :: rest) = Some (vec4_init x y z w) /\
  vec2_to_float (vec2_init x y) (a :: b :: rest) = Some (x :: y :: rest) /\
  vec3_to_float (vec3_init x y z) (a :: b :: c :: rest) = Some (x :: y :: z :: rest) /\
  vec4_to_float (vec4_init x y z w) (a :: b :: c :: d :: rest) = Some (x :: y :: z :: w :: rest).
Proof. repeat split. Qed.
Theorem C09_float_arrays_bounds : forall (BK : Backend b32) (v : V) (src : list b32),
  (vec2_init_from_float src = None <-> (length src < 2)%nat) /\ (vec3_init_from_float src = None <-> (length src < 3)%nat) /\
  (vec4_init_from_float src = None <-> (length src < 4)%nat) /\
  (vec2_to_float v src = None <-> (length src < 2)%nat) /\ (vec3_to_float v src = None <-> (length src < 3)%nat) /\
  (vec4_to_float v src = None <-> (length src < 4)%nat).
Proof.
  intros BK v [|? [|? [|? [|? r]]]]; cbn; repeat split; intros; try discriminate; try lia; auto.
Qed.

(** Concrete cases. *)
Example C09_ex : forall BK : Backend b32,
  vec2_get_x (vec2_add (vec2_init (lit 3 (-1)) fone) (vec2_init (lit 1 0) fone)) = lit 5 (-1) /\
  vec3_get_z (vec3_subtract (vec3_init fone fone (lit 1 0)) (vec3_init fone fone (lit 3 (-1)))) = lit (-1) (-1).
Proof. intros. split; beq. Qed.
