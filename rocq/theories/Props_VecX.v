(** * Props_VecX: vectors, points and boxes in exact arithmetic
    (C04, C06, C07, C08, C20, C21, C65, C66).  [w], [z'], ... of type [xreal] are the
    hidden lanes: anything, even undefined. *)

From Coq Require Import ZArith Reals Bool List Lra Lia Psatz.
From Flocq Require Import Core.
From Verif Require Import Num Simd Vec Rect Box OrdThy XSetup.
Import ListNotations.
Local Open Scope R_scope.

Notation V := (simd4f xreal).
(** vectors with real visible components *)
Definition v2 (x y : R) (z w : xreal) : V := V4 (Fin x) (Fin y) z w.
Definition v3 (x y z : R) (w : xreal) : V := V4 (Fin x) (Fin y) (Fin z) w.
Definition v4 := rv.

Lemma X_dot3 (BK : Backend xreal) (x y z x' y' z' : R) (w w' : xreal) :
  g_dot3_scalar (v3 x y z w) (v3 x' y' z' w') = Fin (x * x' + y * y' + z * z').
Proof. unfold g_dot3_scalar, v3, backend. destruct BK as [| |[]|]; xs; f_equal; ring. Qed.
Lemma X_len3 (BK : Backend xreal) (EB : exact_backend BK) (x y z : R) (w : xreal) :
  vec3_length (v3 x y z w) = Fin (sqrt (x * x + y * y + z * z)).
Proof.
  unfold vec3_length, g_length3, g_dot3. rewrite X_dot3. unfold g_get_x, g_sqrt, g_splat, map1, vx.
  apply X_lane_sqrt; auto. nra.
Qed.
Lemma X_len2 (BK : Backend xreal) (EB : exact_backend BK) (x y : R) (z w : xreal) :
  vec2_length (v2 x y z w) = Fin (sqrt (x * x + y * y)).
Proof.
  unfold vec2_length, g_length2, g_dot2. simpl. rewrite !Xmul, Xadd. apply X_lane_sqrt; auto. nra.
Qed.
Lemma X_len4 (BK : Backend xreal) (EB : exact_backend BK) (x y z w : R) :
  vec4_length (v4 x y z w) = Fin (sqrt (x * x + y * y + (z * z + w * w))).
Proof. unfold vec4_length, g_length4, g_dot4. simpl. rewrite !Xmul, !Xadd. apply X_lane_sqrt; auto. nra. Qed.

(** ** C04: normalize *)
Lemma unit_scale (n : R) : 0 < n -> / sqrt n * / sqrt n * n = 1.
Proof. intros H. pose proof (sqrt_lt_R0 n H). pose proof (sqrt_sqrt n ltac:(lra)) as E. rewrite <- E at 3. field. lra. Qed.
Lemma sqrt_gt_eps (n : R) : eps < sqrt n -> 0 < n.
Proof. intros H. destruct (Rlt_le_dec 0 n); auto. rewrite sqrt_neg_0 in H by auto. unfold eps in H; lra. Qed.
(** "not below the scalar back end's cut-off" *)
Definition above_cutoff (BK : Backend xreal) (sq : R) : Prop := is_scalar BK = true -> eps < sq.

Theorem C04_vec3_normalize : forall (BK : Backend xreal) (x y z : R) (w : xreal),
  exact_backend BK ->
  let n := x * x + y * y + z * z in
  eps < sqrt n -> above_cutoff BK n ->
  exists k x' y' z', 0 < k /\
    vec3_get_x (vec3_normalize (v3 x y z w)) = Fin x' /\
    vec3_get_y (vec3_normalize (v3 x y z w)) = Fin y' /\
    vec3_get_z (vec3_normalize (v3 x y z w)) = Fin z' /\
    x' = k * x /\ y' = k * y /\ z' = k * z /\ x' * x' + y' * y' + z' * z' = 1.
Proof.
  intros BK x y z w EB n Hn Hc. pose proof (sqrt_gt_eps n Hn) as Hp.
  unfold vec3_normalize. rewrite X_len3, Xabs, xeps by auto. fold n.
  rewrite Xlt_t by (rewrite Rabs_pos_eq by apply sqrt_pos; exact Hn).
  unfold g_normalize3, g_dot3. rewrite X_dot3. fold n. unfold g_rsqrt, g_splat, map1. simpl vx; simpl vy; simpl vz; simpl vw.
  rewrite (X_rsqrt BK EB n Hp Hc). exists (/ sqrt n), (/ sqrt n * x), (/ sqrt n * y), (/ sqrt n * z).
  split; [apply Rinv_0_lt_compat, sqrt_lt_R0; auto|]. unfold vec3_get_x, vec3_get_y, vec3_get_z, g_get_x, g_get_y, g_get_z, g_mul, map2, v3; simpl. rewrite !Xmul.
  repeat split; try (f_equal; ring).
  transitivity (/ sqrt n * / sqrt n * n); [unfold n; ring|now apply unit_scale].
Qed.
Theorem C04_vec2_normalize : forall (BK : Backend xreal) (x y : R) (z w : xreal),
  exact_backend BK ->
  let n := x * x + y * y in
  eps < sqrt n -> above_cutoff BK n ->
  exists k x' y', 0 < k /\
    vec2_get_x (vec2_normalize (v2 x y z w)) = Fin x' /\
    vec2_get_y (vec2_normalize (v2 x y z w)) = Fin y' /\
    x' = k * x /\ y' = k * y /\ x' * x' + y' * y' = 1.
Proof.
  intros BK x y z w EB n Hn Hc. pose proof (sqrt_gt_eps n Hn) as Hp.
  unfold vec2_normalize. rewrite X_len2, Xabs, xeps by auto. fold n.
  rewrite Xlt_t by (rewrite Rabs_pos_eq by apply sqrt_pos; exact Hn).
  assert (D : g_dot2 (v2 x y z w) (v2 x y z w) = g_splat (Fin n)).
  { unfold g_dot2, g_splat_x, g_splat_y, g_splat, g_add, g_mul, map2, v2; simpl. rewrite !Xmul, !Xadd. reflexivity. }
  unfold g_normalize2. rewrite D. unfold g_rsqrt, g_splat, map1. simpl vx; simpl vy; simpl vz; simpl vw.
  rewrite (X_rsqrt BK EB n Hp Hc). exists (/ sqrt n), (/ sqrt n * x), (/ sqrt n * y).
  split; [apply Rinv_0_lt_compat, sqrt_lt_R0; auto|]. unfold vec2_get_x, vec2_get_y, g_get_x, g_get_y, g_mul, map2, v2; simpl. rewrite !Xmul.
  repeat split; try (f_equal; ring).
  transitivity (/ sqrt n * / sqrt n * n); [unfold n; ring|now apply unit_scale].
Qed.
Theorem C04_vec4_normalize : forall (BK : Backend xreal) (x y z w : R),
  exact_backend BK ->
  let n := x * x + y * y + (z * z + w * w) in
  eps < sqrt n -> above_cutoff BK n ->
  exists k x' y' z' w', 0 < k /\
    vec4_normalize (v4 x y z w) = v4 x' y' z' w' /\
    x' = k * x /\ y' = k * y /\ z' = k * z /\ w' = k * w /\ x' * x' + y' * y' + z' * z' + w' * w' = 1.
Proof.
  intros BK x y z w EB n Hn Hc. pose proof (sqrt_gt_eps n Hn) as Hp.
  unfold vec4_normalize. rewrite X_len4, Xabs, xeps by auto. fold n.
  rewrite Xlt_t by (rewrite Rabs_pos_eq by apply sqrt_pos; exact Hn).
  assert (D : g_dot4 (v4 x y z w) (v4 x y z w) = g_splat (Fin n)).
  { unfold g_dot4, g_sum, g_splat_x, g_splat_y, g_splat_z, g_splat_w, g_splat, g_add, g_mul, map2, v4, rv; simpl. rewrite !Xmul, !Xadd. reflexivity. }
  unfold g_normalize4. rewrite D. unfold g_rsqrt, g_splat, map1. simpl vx; simpl vy; simpl vz; simpl vw.
  rewrite (X_rsqrt BK EB n Hp Hc). exists (/ sqrt n), (/ sqrt n * x), (/ sqrt n * y), (/ sqrt n * z), (/ sqrt n * w).
  split; [apply Rinv_0_lt_compat, sqrt_lt_R0; auto|]. unfold g_mul, map2, v4, rv; simpl. rewrite !Xmul.
  repeat split; try (repeat (f_equal; try ring)).
  transitivity (/ sqrt n * / sqrt n * n); [unfold n; ring|now apply unit_scale].
Qed.
Theorem C04_tiny_is_zero : forall (BK : Backend xreal) (x y z w : R) (hz hw : xreal), exact_backend BK ->
  (sqrt (x * x + y * y) <= eps -> vec2_normalize (v2 x y hz hw) = vec2_zero) /\
  (sqrt (x * x + y * y + z * z) <= eps -> vec3_normalize (v3 x y z hw) = vec3_zero) /\
  (sqrt (x * x + y * y + (z * z + w * w)) <= eps -> vec4_normalize (v4 x y z w) = vec4_zero).
Proof.
  intros BK x y z w hz hw EB. unfold vec2_normalize, vec3_normalize, vec4_normalize. rewrite X_len2, X_len3, X_len4, !Xabs, xeps by auto.
  rewrite !Rabs_pos_eq by apply sqrt_pos. split; [|split]; intros H; now rewrite Xlt_f.
Qed.
(** The scalar back end silently drops every vector of length between 2^-23 and 2^-11.5. *)
Theorem C04_scalar_cutoff_refuted : forall (ieee : bool) (x y z : R),
  let n := x * x + y * y + z * z in
  eps < sqrt n -> n <= eps ->
  let BK : Backend xreal := Scalar ieee in
  vec3_normalize (v3 x y z (Fin 0)) = vec3_zero.
Proof.
  intros i x y z n H1 H2 BK. unfold vec3_normalize. rewrite X_len3, Xabs, xeps by exact I. fold n.
  rewrite Xlt_t by (rewrite Rabs_pos_eq by apply sqrt_pos; exact H1).
  unfold g_normalize3, g_dot3. rewrite X_dot3. fold n. unfold g_rsqrt, g_splat, map1, lane_rsqrt, backend, BK. simpl vx; simpl vy; simpl vz; simpl vw.
  rewrite Xabs, xeps, Xlt_f. 2:{ rewrite Rabs_pos_eq; auto. unfold n; nra. }
  unfold g_mul, map2, v3; simpl. rewrite !Xzero, !Xmul, !Rmult_0_r. reflexivity.
Qed.
Example ex_cutoff : let x := / 4096 in eps < sqrt (x * x + 0 * 0 + 0 * 0) /\ x * x + 0 * 0 + 0 * 0 <= eps.
Proof. simpl. unfold eps. replace (/ 4096 * / 4096 + 0 * 0 + 0 * 0) with (/ 4096 * / 4096) by ring. rewrite sqrt_square by lra. lra. Qed.
Example ex_norm : let n := 3 * 3 + 4 * 4 + 12 * 12 in eps < sqrt n /\ eps < n.
Proof. simpl. replace (3 * 3 + 4 * 4 + 12 * 12) with (13 * 13) by ring. rewrite sqrt_square by lra. unfold eps; lra. Qed.

(** ** C06: cross product *)
Lemma X_cross (BK : Backend xreal) x y z x' y' z' w w' : exists h,
  vec3_cross (v3 x y z w) (v3 x' y' z' w') = v3 (y * z' - z * y') (z * x' - x * z') (x * y' - y * x') h.
Proof.
  unfold vec3_cross, g_cross3, v3, backend. destruct BK; eexists; xs; repeat (f_equal; try ring).
Qed.
Theorem C06_cross_formula : forall (BK : Backend xreal) x y z x' y' z' w w',
  let c := vec3_cross (v3 x y z w) (v3 x' y' z' w') in
  vec3_get_x c = Fin (y * z' - z * y') /\ vec3_get_y c = Fin (z * x' - x * z') /\ vec3_get_z c = Fin (x * y' - y * x').
Proof. intros. subst c. destruct (X_cross BK x y z x' y' z' w w') as [h ->]. auto. Qed.
Theorem C06_orthogonal : forall (BK : Backend xreal) x y z x' y' z' w w',
  let a := v3 x y z w in let b := v3 x' y' z' w' in
  vec3_dot a (vec3_cross a b) = Fin 0 /\ vec3_dot b (vec3_cross a b) = Fin 0.
Proof.
  intros BK x y z x' y' z' w w' a b. unfold a, b. destruct (X_cross BK x y z x' y' z' w w') as [h ->].
  unfold vec3_dot. rewrite !X_dot3. split; f_equal; ring.
Qed.
Theorem C06_lagrange : forall (BK : Backend xreal) x y z x' y' z' w w',
  let a := v3 x y z w in let b := v3 x' y' z' w' in let c := vec3_cross a b in
  vec3_dot c c = fsub (fmul (vec3_dot a a) (vec3_dot b b)) (fmul (vec3_dot a b) (vec3_dot a b)).
Proof.
  intros BK x y z x' y' z' w w' a b c. unfold c, a, b. destruct (X_cross BK x y z x' y' z' w w') as [h ->].
  unfold vec3_dot. rewrite !X_dot3, !Xmul, Xsub. f_equal. ring.
Qed.
Theorem C06_anticommutative : forall (BK : Backend xreal) x y z x' y' z' w w' get,
  In get [vec3_get_x; vec3_get_y; vec3_get_z] ->
  get (vec3_cross (v3 x' y' z' w') (v3 x y z w)) = fneg (get (vec3_cross (v3 x y z w) (v3 x' y' z' w'))).
Proof.
  intros BK x y z x' y' z' w w' g Hg. destruct (X_cross BK x y z x' y' z' w w') as [h ->].
  destruct (X_cross BK x' y' z' x y z w' w) as [h' ->]. simpl in Hg.
  destruct Hg as [<-|[<-|[<-|[]]]]; unfold vec3_get_x, vec3_get_y, vec3_get_z, g_get_x, g_get_y, g_get_z, v3; simpl; rewrite Xneg; f_equal; ring.
Qed.

(** ** C07: Euclidean length *)
Theorem C07_length : forall (BK : Backend xreal) (x y z w : R) (hz hw : xreal), exact_backend BK ->
  vec2_length (v2 x y hz hw) = Fin (sqrt (x ^ 2 + y ^ 2)) /\
  vec3_length (v3 x y z hw) = Fin (sqrt (x ^ 2 + y ^ 2 + z ^ 2)) /\
  vec4_length (v4 x y z w) = Fin (sqrt (x ^ 2 + y ^ 2 + z ^ 2 + w ^ 2)).
Proof.
  intros BK x y z w hz hw EB. rewrite X_len2, X_len3, X_len4 by auto. repeat split; do 2 f_equal; ring.
Qed.
Theorem C07_dot : forall (BK : Backend xreal) (x y z w x' y' z' w' : R) (hz hw hz' hw' : xreal),
  vec2_dot (v2 x y hz hw) (v2 x' y' hz' hw') = Fin (x * x' + y * y') /\
  vec3_dot (v3 x y z hw) (v3 x' y' z' hw') = Fin (x * x' + y * y' + z * z') /\
  vec4_dot (v4 x y z w) (v4 x' y' z' w') = Fin (x * x' + y * y' + z * z' + w * w').
Proof.
  intros. split; [|split].
  - unfold vec2_dot, v2; xs. reflexivity.
  - apply X_dot3.
  - unfold vec4_dot, v4, rv; xs. f_equal; ring.
Qed.
Lemma sqrt_le_of_sq a b : 0 <= b -> a * a <= b * b -> a <= b.
Proof. intros. nra. Qed.
(** Cauchy-Schwarz and the triangle inequality, in terms of the API's results. *)
Theorem C07_cauchy_schwarz : forall (BK : Backend xreal) (x y z x' y' z' : R) (w w' : xreal), exact_backend BK ->
  exists d l l', vec3_dot (v3 x y z w) (v3 x' y' z' w') = Fin d /\
    vec3_length (v3 x y z w) = Fin l /\ vec3_length (v3 x' y' z' w') = Fin l' /\ Rabs d <= l * l'.
Proof.
  intros BK x y z x' y' z' w w' EB. do 3 eexists. split; [apply X_dot3|]. split; [apply X_len3; auto|]. split; [apply X_len3; auto|].
  rewrite <- sqrt_mult by nra. rewrite <- sqrt_Rsqr_abs. apply sqrt_le_1_alt. unfold Rsqr.
  pose proof (Rle_0_sqr (x * y' - y * x')). pose proof (Rle_0_sqr (x * z' - z * x')). pose proof (Rle_0_sqr (y * z' - z * y')).
  unfold Rsqr in * . nra.
Qed.
Theorem C07_triangle_inequality : forall (BK : Backend xreal) (x y z x' y' z' : R) (w w' : xreal), exact_backend BK ->
  exists s l l', vec3_length (vec3_add (v3 x y z w) (v3 x' y' z' w')) = Fin s /\
    vec3_length (v3 x y z w) = Fin l /\ vec3_length (v3 x' y' z' w') = Fin l' /\ s <= l + l'.
Proof.
  intros BK x y z x' y' z' w w' EB.
  assert (Ea : vec3_add (v3 x y z w) (v3 x' y' z' w') = v3 (x + x') (y + y') (z + z') (fadd w w')) by reflexivity.
  rewrite Ea. do 3 eexists. split; [apply X_len3; auto|]. split; [apply X_len3; auto|]. split; [apply X_len3; auto|].
  destruct (C07_cauchy_schwarz BK x y z x' y' z' w w' EB) as (d & l & l' & Hd & Hl & Hl' & CS).
  rewrite X_len3 in Hl, Hl' by auto. unfold vec3_dot in Hd. rewrite X_dot3 in Hd.
  injection Hd as <-. injection Hl as <-. injection Hl' as <-.
  set (A := x * x + y * y + z * z) in * . set (B := x' * x' + y' * y' + z' * z') in * .
  assert (0 <= A) by (unfold A; nra). assert (0 <= B) by (unfold B; nra).
  pose proof (sqrt_pos A). pose proof (sqrt_pos B). pose proof (sqrt_sqrt A ltac:(auto)). pose proof (sqrt_sqrt B ltac:(auto)).
  apply sqrt_le_of_sq; [lra|]. rewrite sqrt_sqrt by (pose proof (Rle_0_sqr (x+x')); pose proof (Rle_0_sqr (y+y')); pose proof (Rle_0_sqr (z+z')); unfold Rsqr in * ; lra).
  pose proof (Rle_abs (x * x' + y * y' + z * z')).
  replace ((x + x') * (x + x') + (y + y') * (y + y') + (z + z') * (z + z')) with (A + 2 * (x * x' + y * y' + z * z') + B) by (unfold A, B; ring).
  nra.
Qed.

(** ** C08: interpolation stays between its end points *)
Definition btw (a b t : R) : Prop := Rmin a b <= t <= Rmax a b.
Lemma lerp_btw a b t : 0 <= t <= 1 -> btw a b ((1 - t) * a + t * b).
Proof. intros H. unfold btw, Rmin, Rmax. destruct (Rle_dec a b); nra. Qed.
Lemma X_flerpf a b t : flerpf (Fin a) (Fin b) (Fin t) = Fin ((1 - t) * a + t * b).
Proof. reflexivity. Qed.
Theorem C08_between : forall (BK : Backend xreal) (t : R), 0 <= t <= 1 ->
  (forall ax ay bx by_, exists x y, point_interpolate (Pt (Fin ax) (Fin ay)) (Pt (Fin bx) (Fin by_)) (Fin t) = Pt (Fin x) (Fin y) /\
     btw ax bx x /\ btw ay by_ y) /\
  (forall aw ah bw bh, exists w h, size_interpolate (Sz (Fin aw) (Fin ah)) (Sz (Fin bw) (Fin bh)) (Fin t) = Sz (Fin w) (Fin h) /\
     btw aw bw w /\ btw ah bh h) /\
  (forall ax ay az bx by_ bz, exists x y z, point3d_interpolate (P3 (Fin ax) (Fin ay) (Fin az)) (P3 (Fin bx) (Fin by_) (Fin bz)) (Fin t) = P3 (Fin x) (Fin y) (Fin z) /\
     btw ax bx x /\ btw ay by_ y /\ btw az bz z) /\
  (forall ax ay az aw bx by_ bz bw interpolate, In interpolate [vec2_interpolate; vec3_interpolate; vec4_interpolate] ->
     exists x y z w, interpolate (v4 ax ay az aw) (v4 bx by_ bz bw) (Fin t) = v4 x y z w /\
     btw ax bx x /\ btw ay by_ y /\ btw az bz z /\ btw aw bw w).
Proof.
  intros BK t Ht. split; [|split; [|split]].
  - intros. unfold point_interpolate; cbn [px py]. rewrite !X_flerpf. do 2 eexists. split; [reflexivity|]. auto using lerp_btw.
  - intros. unfold size_interpolate; cbn [swidth sheight]. rewrite !X_flerpf. do 2 eexists. split; [reflexivity|]. auto using lerp_btw.
  - intros. unfold point3d_interpolate; cbn [p3x p3y p3z]. rewrite !X_flerpf. do 3 eexists. split; [reflexivity|]. auto using lerp_btw.
  - intros ax ay az aw bx by_ bz bw itp Hi.
    assert (E : itp = (vec4_interpolate (D:=xreal))) by (simpl in Hi; destruct Hi as [<-|[<-|[<-|[]]]]; reflexivity). subst itp.
    exists ((1 - t) * ax + t * bx), ((1 - t) * ay + t * by_), ((1 - t) * az + t * bz), ((1 - t) * aw + t * bw).
    split; [reflexivity|]. auto using lerp_btw.
Qed.
(** Interpolating rectangles interpolates the normalised rectangles, and the result is
    again normalised. *)
Lemma X_norm x y w h : rect_normalize (mkrect (Fin x) (Fin y) (Fin w) (Fin h)) =
  mkrect (Fin (x + Rmin w 0)) (Fin (y + Rmin h 0)) (Fin (Rabs w)) (Fin (Rabs h)).
Proof.
  unfold rect_normalize, mkrect, rx, ry, rw, rh; simpl. rewrite !Xzero.
  destruct (flt (Fin w) (Fin 0)) eqn:Hw; [apply Xlt_iff in Hw|apply Xlt_iff_f in Hw]; simpl;
  (destruct (flt (Fin h) (Fin 0)) eqn:Hh; [apply Xlt_iff in Hh|apply Xlt_iff_f in Hh]); simpl; rewrite ?Xabs, ?Xsub;
  rewrite ?(Rmin_left w 0), ?(Rmin_right w 0), ?(Rmin_left h 0), ?(Rmin_right h 0) by lra;
  rewrite ?(Rabs_left w), ?(Rabs_pos_eq w), ?(Rabs_left h), ?(Rabs_pos_eq h) by lra; repeat (f_equal; try ring).
Qed.
Theorem C08_rect_between : forall (BK : Backend xreal) (t x y w h x' y' w' h' : R), 0 <= t <= 1 ->
  exists X Y W H, rect_interpolate (mkrect (Fin x) (Fin y) (Fin w) (Fin h)) (mkrect (Fin x') (Fin y') (Fin w') (Fin h')) (Fin t) =
    mkrect (Fin X) (Fin Y) (Fin W) (Fin H) /\
  btw (x + Rmin w 0) (x' + Rmin w' 0) X /\ btw (y + Rmin h 0) (y' + Rmin h' 0) Y /\
  btw (Rabs w) (Rabs w') W /\ btw (Rabs h) (Rabs h') H /\ 0 <= W /\ 0 <= H.
Proof.
  intros BK t x y w h x' y' w' h' Ht. unfold rect_interpolate. rewrite !X_norm.
  unfold rx, ry, rw, rh, mkrect; cbn [px py swidth sheight rorigin rsize]. rewrite !X_flerpf. do 4 eexists. split; [reflexivity|].
  repeat (split; [apply lerp_btw; auto|]).
  pose proof (Rabs_pos w). pose proof (Rabs_pos w'). pose proof (Rabs_pos h). pose proof (Rabs_pos h'). split; nra.
Qed.

(** ** C65: distances between points *)
Definition p2 x y : point xreal := Pt (Fin x) (Fin y).
Definition p3 x y z : point3d xreal := P3 (Fin x) (Fin y) (Fin z).
Theorem C65_distance : forall (BK : Backend xreal) (x y x' y' : R) (ox oy : xreal), exact_backend BK ->
  let d := sqrt ((x - x') ^ 2 + (y - y') ^ 2) in
  point_distance false (p2 x y) (p2 x' y') (Some ox) (Some oy) = (Fin d, Some (Fin (Rabs (x - x'))), Some (Fin (Rabs (y - y')))) /\
  point_distance_squared false (p2 x y) (p2 x' y') = Fin (d * d) /\
  (point_near false (p2 x y) (p2 x' y') (Fin 0) = false).
Proof.
  intros BK x y x' y' ox oy EB d.
  assert (P : 0 <= (x - x') ^ 2 + (y - y') ^ 2) by (pose proof (pow2_ge_0 (x - x')); pose proof (pow2_ge_0 (y - y')); lra).
  split; [|split].
  - unfold point_distance, point_diff, p2; simpl. rewrite !Xsub. rewrite !Xmul, !Xadd, !Xabs.
    rewrite X_lane_sqrt by (auto; replace ((x - x') * (x - x') + (y - y') * (y - y')) with ((x - x') ^ 2 + (y - y') ^ 2) by ring; auto). unfold d. repeat f_equal; ring.
  - unfold point_distance_squared, point_diff, p2, g_dot2; simpl. rewrite !Xsub, !Xmul, !Xadd. f_equal.
    unfold d. rewrite sqrt_sqrt by auto. ring.
  - unfold point_near, point_diff, p2; simpl. rewrite !Xsub, !Xabs, Xlt_f; auto. apply Rabs_pos.
Qed.
Theorem C65_near_exact : forall (BK : Backend xreal) (x y z x' y' z' e : R),
  (point_near false (p2 x y) (p2 x' y') (Fin e) = true <-> Rabs (x - x') < e /\ Rabs (y - y') < e) /\
  (point3d_near false (p3 x y z) (p3 x' y' z') (Fin e) = true <-> Rabs (x - x') < e /\ Rabs (y - y') < e /\ Rabs (z - z') < e) /\
  (size_equal false (Some (Sz (Fin x) (Fin y))) (Some (Sz (Fin x') (Fin y'))) = true <-> Rabs (x - x') < eps /\ Rabs (y - y') < eps).
Proof.
  intros. split; [|split].
  - unfold point_near, point_diff, p2; simpl. rewrite !Xsub, !Xabs, andb_true_iff, !Xlt_iff. tauto.
  - unfold point3d_near, p3; simpl. rewrite !Xsub, !Xabs, !andb_true_iff, !Xlt_iff. tauto.
  - unfold size_equal, pointer_equal; cbn [swidth sheight]. rewrite andb_true_iff, !X_approx. tauto.
Qed.
Theorem C65_point3d_distance : forall (BK : Backend xreal) (x y z x' y' z' : R), exact_backend BK ->
  exists h, point3d_distance (p3 x y z) (p3 x' y' z') =
    (Fin (sqrt ((x - x') ^ 2 + (y - y') ^ 2 + (z - z') ^ 2)), v3 (Rabs (x - x')) (Rabs (y - y')) (Rabs (z - z')) h).
Proof.
  intros BK x y z x' y' z' EB. eexists. unfold point3d_distance.
  assert (E : vec3_subtract (point3d_to_vec3 (p3 x y z)) (point3d_to_vec3 (p3 x' y' z')) = v3 (x - x') (y - y') (z - z') (Fin (0 - 0))) by reflexivity.
  rewrite E, X_len3 by auto. unfold vec3_get_x, vec3_get_y, vec3_get_z, g_get_x, g_get_y, g_get_z, v3, vec3_init, g_init; simpl. rewrite !Xabs.
  f_equal. do 2 f_equal. ring.
Qed.
Theorem C65_scale : forall (BK : Backend xreal) (w h k x y z : R),
  size_scale (Sz (Fin w) (Fin h)) (Fin k) = Sz (Fin (w * k)) (Fin (h * k)) /\
  point3d_scale (p3 x y z) (Fin k) = p3 (x * k) (y * k) (z * k).
Proof. intros; split; reflexivity. Qed.

(** ** C66: viewport *)
Lemma X_clamp v : cCLAMP (Fin v) fm1 fone = Fin (Rmax (-1) (Rmin v 1)).
Proof.
  unfold cCLAMP. rewrite xm1, Xone. destruct (flt (Fin v) (Fin (-1))) eqn:L; [apply Xlt_iff in L|apply Xlt_iff_f in L].
  - f_equal. rewrite Rmin_left, Rmax_left by lra. lra.
  - destruct (flt (Fin 1) (Fin v)) eqn:L'; [apply Xlt_iff in L'|apply Xlt_iff_f in L']; f_equal.
    + rewrite Rmin_right, Rmax_right by lra. lra.
    + rewrite Rmin_left, Rmax_right by lra. lra.
Qed.
(** inside the viewport the map is the affine one sending the lower edge to -1 and the
    upper edge to 1 *)
Theorem C66_affine_inside : forall (BK : Backend xreal) (x y z vx vy vw vh n f : R),
  vw <> 0 -> vh <> 0 -> n <> f ->
  0 <= (x - vx) / vw <= 1 -> 0 <= (y - vy) / vh <= 1 -> 0 <= (z - n) / (f - n) <= 1 ->
  point3d_normalize_viewport (p3 x y z) (mkrect (Fin vx) (Fin vy) (Fin vw) (Fin vh)) (Fin n) (Fin f) =
  p3 (2 * ((x - vx) / vw) - 1) (2 * ((y - vy) / vh) - 1) (2 * ((z - n) / (f - n)) - 1).
Proof.
  intros BK x y z vx vy vw vh n f Hw Hh Hz Ix Iy Iz. unfold point3d_normalize_viewport, p3, mkrect. simpl.
  rewrite !Xsub, !Xdiv, xtwo, !Xmul, Xone, !Xsub by lra. rewrite <- Xone, !X_clamp.
  rewrite !Rmin_left, !Rmax_right by lra. xring.
Qed.

(** ** C20: the bounding sphere of a box contains the box *)
Theorem C20_bounding_sphere : forall (BK : Backend xreal) (ax ay az bx by_ bz : R) (w w' : xreal) (px py pz : R),
  exact_backend BK ->
  ax <= px <= bx -> ay <= py <= by_ -> az <= pz <= bz ->
  exists cx cy cz r, 0 <= r /\
    box_get_bounding_sphere (Bx (v3 ax ay az w) (v3 bx by_ bz w')) = Sp (rv cx cy cz 0) (Fin r) /\
    sqrt ((px - cx) ^ 2 + (py - cy) ^ 2 + (pz - cz) ^ 2) <= r.
Proof.
  intros BK ax ay az bx by_ bz w w' px py pz EB Hx Hy Hz.
  unfold box_get_bounding_sphere, box_get_center, box_get_size.
  assert (E1 : box_is_empty (Bx (v3 ax ay az w) (v3 bx by_ bz w')) = false) by reflexivity.
  assert (E2 : box_is_infinity (Bx (v3 ax ay az w) (v3 bx by_ bz w')) = false) by reflexivity.
  rewrite E1, E2. cbn [orb bmin bmax].
  assert (S : g_sub (v3 bx by_ bz w') (v3 ax ay az w) = v3 (bx - ax) (by_ - ay) (bz - az) (fsub w' w)) by reflexivity.
  rewrite S, X_len3, xhalf, Xmul by auto.
  set (n := (bx - ax) * (bx - ax) + (by_ - ay) * (by_ - ay) + (bz - az) * (bz - az)).
  exists ((ax + bx) * / 2), ((ay + by_) * / 2), ((az + bz) * / 2), (sqrt n * / 2).
  pose proof (sqrt_pos n). split; [lra|]. split; [reflexivity|].
  assert (Hn : 0 <= n) by (unfold n; nra).
  replace (sqrt n * / 2) with (sqrt (n * / 4)).
  2:{ rewrite sqrt_mult by lra. f_equal. replace (/ 4) with (/ 2 * / 2) by lra. apply sqrt_square. lra. }
  apply sqrt_le_1_alt. unfold n.
  assert (Q : forall a b p, a <= p <= b -> (p - (a + b) * / 2) ^ 2 <= (b - a) * (b - a) * / 4).
  { intros a b p Hp. replace ((b - a) * (b - a) * / 4) with (((b - a) / 2) ^ 2) by field.
    assert (- ((b - a) / 2) <= p - (a + b) * / 2 <= (b - a) / 2) by lra. nra. }
  pose proof (Q ax bx px Hx). pose proof (Q ay by_ py Hy). pose proof (Q az bz pz Hz). lra.
Qed.

(** ** C21: expand by a scalar, exactly *)
Theorem C21_expand_scalar_exact : forall (BK : Backend xreal) (ax ay az bx by_ bz s px py pz : R), 0 <= s ->
  (box_contains_point (box_expand_scalar (Bx (rv ax ay az 0) (rv bx by_ bz 0)) (Fin s)) (p3 px py pz) = true <->
   ax - s <= px <= bx + s /\ ay - s <= py <= by_ + s /\ az - s <= pz <= bz + s).
Proof.
  intros BK ax ay az bx by_ bz s px py pz Hs.
  assert (E : box_expand_scalar (Bx (rv ax ay az 0) (rv bx by_ bz 0)) (Fin s) =
    Bx (rv (ax + s * -1) (ay + s * -1) (az + s * -1) (0 + s * -1)) (rv (bx + s) (by_ + s) (bz + s) (0 + s))).
  { unfold box_expand_scalar. rewrite xm1. reflexivity. }
  rewrite E. unfold box_contains_point.
  assert (E1 : box_is_empty (Bx (rv (ax + s * -1) (ay + s * -1) (az + s * -1) (0 + s * -1)) (rv (bx + s) (by_ + s) (bz + s) (0 + s))) = false) by reflexivity.
  assert (E2 : box_is_infinity (Bx (rv (ax + s * -1) (ay + s * -1) (az + s * -1) (0 + s * -1)) (rv (bx + s) (by_ + s) (bz + s) (0 + s))) = false) by reflexivity.
  rewrite E1, E2. unfold g_cmp_ge, g_cmp_le, all2, rv, p3, g_init; cbn [bmin bmax vx vy vz vw p3x p3y p3z]. rewrite Xzero.
  match goal with |- (if ?c then true else false) = true <-> _ => transitivity (c = true); [destruct c; tauto|] end.
  rewrite !andb_true_iff, !Xle_iff. split; [intros; repeat split; tauto || lra|]. intros ((?&?)&(?&?)&(?&?)). repeat split; lra.
Qed.
