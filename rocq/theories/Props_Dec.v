(** * Props_Dec: binary32 decisions are right away from the boundary (C77). *)
From Coq Require Import ZArith Reals Bool List Lra Lia Psatz.
From Flocq Require Import Core BinarySingleNaN.
From Verif Require Import Num Simd Vec Rect Box Mat Geo OrdThy FloatThy B32Setup FloatLem ErrThy Props_Err Props_Err2 Props_Err3 Props_Err4 Props_Rect.
Import ListNotations.
Local Open Scope R_scope.

Lemma fle_R (x y : b32) : fin x -> fin y -> (fle x y = true <-> real x <= real y).
Proof. intros X Y. rewrite fle_X, (fin_X x X), (fin_X y Y). apply xle_fin. Qed.
Lemma flt_R (x y : b32) : fin x -> fin y -> (flt x y = true <-> real x < real y).
Proof. intros X Y. rewrite flt_X, (fin_X x X), (fin_X y Y). apply xlt_fin. Qed.
Lemma flt_Rf (x y : b32) : fin x -> fin y -> (flt x y = false <-> real y <= real x).
Proof. intros X Y. rewrite flt_X, (fin_X x X), (fin_X y Y). apply xlt_fin_f. Qed.
Lemma fzero_R : real fzero = 0. Proof. reflexivity. Qed.
Lemma fzero_fin : fin (fzero : b32). Proof. reflexivity. Qed.
Lemma fneg_R (x : b32) : fin x -> fin (fneg x) /\ real (fneg x) = - real x.
Proof. intros X. apply fin_of_X. now rewrite fneg_X, (fin_X x X). Qed.
Definition finite_p3 (q : point3d b32) : Prop := fin (p3x q) /\ fin (p3y q) /\ fin (p3z q).

(** ** planes and frustums *)
Definition finite_plane (p : plane b32) : Prop := finite3 (plane_get_normal p) /\ fin (plane_get_constant p).
(** the exact signed value of the plane's equation at a real point *)
Definition plane_at (p : plane b32) (x y z : R) : R :=
  let n := plane_get_normal p in real (vx n) * x + real (vy n) * y + real (vz n) * z + real (plane_get_constant p).
(** the sum of the absolute values of its terms, and the uncertainty of the computed value *)
Definition plane_mag (p : plane b32) (x y z : R) : R :=
  let n := plane_get_normal p in Rabs (real (vx n) * x) + Rabs (real (vy n) * y) + Rabs (real (vz n) * z) + Rabs (real (plane_get_constant p)).
Definition plane_tol (p : plane b32) (x y z : R) : R := bpow radix2 (-21) * plane_mag p x y z + bpow radix2 (-146).
Notation at_p3 f q := (f (real (p3x q)) (real (p3y q)) (real (p3z q))).

Lemma plane_within (BK : Backend b32) p q : finite_plane p -> finite_p3 q -> at_p3 (plane_mag p) q <= bpow radix2 125 ->
  within (at_p3 (plane_tol p) q) (plane_distance p q) (at_p3 (plane_at p) q).
Proof. intros [A B] (X & Y & Z) H. now apply C70_plane_distance. Qed.

Theorem C77_plane_side : forall (BK : Backend b32) (p : plane b32) (q : point3d b32), finite_plane p -> finite_p3 q ->
  at_p3 (plane_mag p) q <= bpow radix2 125 ->
  (at_p3 (plane_at p) q < - at_p3 (plane_tol p) q -> flt (plane_distance p q) fzero = true) /\
  (at_p3 (plane_tol p) q < at_p3 (plane_at p) q -> flt fzero (plane_distance p q) = true).
Proof.
  intros BK p q P Q M. destruct (plane_within BK p q P Q M) as [F L]. apply Rabs_le_inv in L.
  split; intros H; (apply flt_R; [first [exact F|reflexivity]|first [exact F|reflexivity]|rewrite fzero_R; lra]).
Qed.

Definition finite_frustum (f : frustum b32) : Prop := forall p, In p (frustum_planes f) -> finite_plane p.
Definition moderate_at (f : frustum b32) (q : point3d b32) : Prop := forall p, In p (frustum_planes f) -> at_p3 (plane_mag p) q <= bpow radix2 125.

Theorem C77_frustum_contains_point : forall (BK : Backend b32) (f : frustum b32) (q : point3d b32),
  finite_frustum f -> finite_p3 q -> moderate_at f q ->
  ((forall p, In p (frustum_planes f) -> at_p3 (plane_tol p) q <= at_p3 (plane_at p) q) -> frustum_contains_point f (Some q) = true) /\
  (frustum_contains_point f (Some q) = true -> forall p, In p (frustum_planes f) -> - at_p3 (plane_tol p) q <= at_p3 (plane_at p) q).
Proof.
  intros BK f q P Q M. unfold frustum_contains_point. rewrite forallb_forall.
  assert (W : forall p, In p (frustum_planes f) -> within (at_p3 (plane_tol p) q) (plane_distance p q) (at_p3 (plane_at p) q)).
  { intros p I. apply plane_within; auto. }
  split; intros H p I; destruct (W p I) as [F L]; apply Rabs_le_inv in L; specialize (H p I).
  - apply negb_true_iff, flt_Rf; [exact F|reflexivity|rewrite fzero_R; lra].
  - apply negb_true_iff, flt_Rf in H; [rewrite fzero_R in H; lra|exact F|reflexivity].
Qed.

(** a culled box lies outside one of the planes, up to the uncertainty *)
Definition in_box (b : box b32) (x y z : R) : Prop := let lo := box_get_min b in let hi := box_get_max b in
  real (p3x lo) <= x <= real (p3x hi) /\ real (p3y lo) <= y <= real (p3y hi) /\ real (p3z lo) <= z <= real (p3z hi).
Theorem C77_frustum_sphere : forall (BK : Backend b32) (f : frustum b32) (s : sphere b32),
  let c := sphere_get_center s in let r := real (sphere_get_radius s) in
  finite_frustum f -> finite_p3 c -> fin (sphere_get_radius s) -> moderate_at f c ->
  ((forall p, In p (frustum_planes f) -> at_p3 (plane_tol p) c - r <= at_p3 (plane_at p) c) -> frustum_intersects_sphere f s = true) /\
  (frustum_intersects_sphere f s = true -> forall p, In p (frustum_planes f) -> - at_p3 (plane_tol p) c - r <= at_p3 (plane_at p) c).
Proof.
  intros BK f s c r P Q R M. unfold frustum_intersects_sphere. change (point3d_init_from_vec3 (scenter s)) with c. rewrite forallb_forall.
  destruct (fneg_R _ R) as [FR NR]. change (sphere_get_radius s) with (sradius s) in * . fold r in NR.
  assert (W : forall p, In p (frustum_planes f) -> within (at_p3 (plane_tol p) c) (plane_distance p c) (at_p3 (plane_at p) c)).
  { intros p I. apply plane_within; auto. }
  split; intros H p I; destruct (W p I) as [F L]; apply Rabs_le_inv in L; specialize (H p I).
  - apply negb_true_iff, flt_Rf; [exact F|exact FR|rewrite NR; lra].
  - apply negb_true_iff, flt_Rf in H; [rewrite NR in H; lra|exact F|exact FR].
Qed.
(** the eight corners *)
Definition corner (b : box b32) (sx sy sz : bool) : point3d b32 := let lo := box_get_min b in let hi := box_get_max b in
  P3 (if sx then p3x hi else p3x lo) (if sy then p3y hi else p3y lo) (if sz then p3z hi else p3z lo).
Lemma term_max (n lo hi x : R) : lo <= x <= hi -> n * x <= n * (if Rlt_dec 0 n then hi else lo).
Proof. intros H. destruct (Rlt_dec 0 n); nra. Qed.
Lemma sel (n : b32) (a b : b32) : fin n -> (if flt fzero n then a else b) = (if Rlt_dec 0 (real n) then a else b).
Proof.
  intros F. destruct (flt fzero n) eqn:E, (Rlt_dec 0 (real n)) as [D|D]; auto.
  - apply (flt_R fzero n fzero_fin F) in E. rewrite fzero_R in E. contradiction.
  - apply (flt_Rf fzero n fzero_fin F) in E. rewrite fzero_R in E. lra.
Qed.
Theorem C77_frustum_box : forall (BK : Backend b32) (f : frustum b32) (b : box b32) (M : R),
  finite_frustum f -> finite_p3 (box_get_min b) -> finite_p3 (box_get_max b) ->
  (forall p sx sy sz, In p (frustum_planes f) -> at_p3 (plane_mag p) (corner b sx sy sz) <= M) -> M <= bpow radix2 125 ->
  let e := bpow radix2 (-21) * M + bpow radix2 (-146) in
  (frustum_intersects_box f b = false -> exists p, In p (frustum_planes f) /\ forall x y z, in_box b x y z -> plane_at p x y z < e) /\
  (frustum_intersects_box f b = true -> forall p, In p (frustum_planes f) -> exists sx sy sz, - e <= at_p3 (plane_at p) (corner b sx sy sz)).
Proof.
  intros BK f b M P (L1 & L2 & L3) (H1 & H2 & H3) HM MB e.
  assert (FC : forall sx sy sz, finite_p3 (corner b sx sy sz)) by (intros [] [] []; repeat split; auto).
  assert (W : forall p sx sy sz, In p (frustum_planes f) -> within e (plane_distance p (corner b sx sy sz)) (at_p3 (plane_at p) (corner b sx sy sz))).
  { intros p sx sy sz I. specialize (HM p sx sy sz I). destruct (plane_within BK p _ (P p I) (FC sx sy sz)) as [F L]; [lra|]. split; auto.
    eapply Rle_trans; [exact L|]. unfold e, plane_tol. pose proof (bpow_gt_0 radix2 (-21)). apply Rplus_le_compat_r, Rmult_le_compat_l; lra. }
  unfold frustum_intersects_box. cbv zeta.
  assert (E0 : forall p : plane b32, P3 (if flt fzero (p3x (point3d_init_from_vec3 (pl_n p))) then p3x (box_get_min b) else p3x (box_get_max b))
                 (if flt fzero (p3y (point3d_init_from_vec3 (pl_n p))) then p3y (box_get_min b) else p3y (box_get_max b))
                 (if flt fzero (p3z (point3d_init_from_vec3 (pl_n p))) then p3z (box_get_min b) else p3z (box_get_max b)) =
                 corner b (negb (flt fzero (vx (pl_n p)))) (negb (flt fzero (vy (pl_n p)))) (negb (flt fzero (vz (pl_n p))))).
  { intros p. unfold corner. change (p3x (point3d_init_from_vec3 (pl_n p))) with (vx (pl_n p)). change (p3y (point3d_init_from_vec3 (pl_n p))) with (vy (pl_n p)).
    change (p3z (point3d_init_from_vec3 (pl_n p))) with (vz (pl_n p)). destruct (flt fzero (vx (pl_n p))), (flt fzero (vy (pl_n p))), (flt fzero (vz (pl_n p))); reflexivity. }
  assert (E1 : forall p : plane b32, P3 (if flt fzero (p3x (point3d_init_from_vec3 (pl_n p))) then p3x (box_get_max b) else p3x (box_get_min b))
                 (if flt fzero (p3y (point3d_init_from_vec3 (pl_n p))) then p3y (box_get_max b) else p3y (box_get_min b))
                 (if flt fzero (p3z (point3d_init_from_vec3 (pl_n p))) then p3z (box_get_max b) else p3z (box_get_min b)) =
                 corner b (flt fzero (vx (pl_n p))) (flt fzero (vy (pl_n p))) (flt fzero (vz (pl_n p)))).
  { intros p. reflexivity. }
  split.
  - intros H. apply not_true_iff_false in H. rewrite forallb_forall in H.
    assert (K : exists p, In p (frustum_planes f) /\ flt (plane_distance p (corner b (flt fzero (vx (pl_n p))) (flt fzero (vy (pl_n p))) (flt fzero (vz (pl_n p))))) fzero = true).
    { destruct (existsb (fun p => flt (plane_distance p (corner b (flt fzero (vx (pl_n p))) (flt fzero (vy (pl_n p))) (flt fzero (vz (pl_n p))))) fzero) (frustum_planes f)) eqn:X.
      - apply existsb_exists in X. exact X.
      - exfalso. apply H. intros p I. rewrite E0, E1. apply negb_true_iff, andb_false_iff. right.
        destruct (flt (plane_distance p _) fzero) eqn:Y; auto. rewrite <- X. symmetry. apply existsb_exists. now exists p. }
    destruct K as (p & I & K). exists p. split; auto. intros x y z (BX & BY & BZ).
    destruct (P p I) as ((N1 & N2 & N3) & NC).
    destruct (W p (flt fzero (vx (pl_n p))) (flt fzero (vy (pl_n p))) (flt fzero (vz (pl_n p))) I) as [F L].
    apply flt_R in K; auto using fzero_fin. rewrite fzero_R in K. apply Rabs_le_inv in L. revert L K.
    generalize (plane_distance p (corner b (flt fzero (vx (pl_n p))) (flt fzero (vy (pl_n p))) (flt fzero (vz (pl_n p))))). intros d L K.
    assert (U : at_p3 (plane_at p) (corner b (flt fzero (vx (pl_n p))) (flt fzero (vy (pl_n p))) (flt fzero (vz (pl_n p)))) < e) by lra.
    eapply Rle_lt_trans; [|exact U]. unfold plane_at, corner; cbn [p3x p3y p3z]. change (plane_get_normal p) with (pl_n p) in * . rewrite !sel by auto.
    pose proof (term_max (real (vx (pl_n p))) _ _ _ BX). pose proof (term_max (real (vy (pl_n p))) _ _ _ BY). pose proof (term_max (real (vz (pl_n p))) _ _ _ BZ).
    destruct (Rlt_dec 0 (real (vx (pl_n p)))), (Rlt_dec 0 (real (vy (pl_n p)))), (Rlt_dec 0 (real (vz (pl_n p)))); lra.
  - intros H p I. rewrite forallb_forall in H. specialize (H p I). rewrite E0, E1 in H. apply negb_true_iff, andb_false_iff in H.
    destruct H as [H|H]; match type of H with flt (plane_distance p (corner b ?a ?c ?d)) _ = _ => exists a, c, d; destruct (W p a c d I) as [F L] end;
    apply flt_Rf in H; auto using fzero_fin; rewrite fzero_R in H; apply Rabs_le_inv in L; lra.
Qed.

(** ** spheres *)
Lemma dist_within (BK : Backend b32) (a b : point3d b32) : finite_p3 a -> finite_p3 b -> dist3 a b <= bpow radix2 117 ->
  within (bpow radix2 (-21) * dist3 a b + bpow radix2 (-147)) (distance_sq (point3d_to_vec3 a) (point3d_to_vec3 b)) (dist3 a b).
Proof.
  intros (A1 & A2 & A3) (B1 & B2 & B3) RB. unfold distance_sq. set (v := vec3_subtract (point3d_to_vec3 a) (point3d_to_vec3 b)). cbv zeta.
  set (X := real (p3x a) - real (p3x b)). set (Y := real (p3y a) - real (p3y b)). set (Z := real (p3z a) - real (p3z b)).
  pose proof (pow2_ge_0 X). pose proof (pow2_ge_0 Y). pose proof (pow2_ge_0 Z).
  assert (SX : X ^ 2 <= dist3 a b) by (unfold dist3; fold X Y Z; lra). assert (SY : Y ^ 2 <= dist3 a b) by (unfold dist3; fold X Y Z; lra).
  assert (SZ : Z ^ 2 <= dist3 a b) by (unfold dist3; fold X Y Z; lra).
  assert (HX : ap (vx v) X (u * Rabs X)) by (apply diff_ap; auto; eapply small_of_sq; eauto).
  assert (HY : ap (vy v) Y (u * Rabs Y)) by (apply diff_ap; auto; eapply small_of_sq; eauto).
  assert (HZ : ap (vz v) Z (u * Rabs Z)) by (apply diff_ap; auto; eapply small_of_sq; eauto).
  assert (F : finite3 v) by (split; [apply (ap_fin _ _ _ HX)|split; [apply (ap_fin _ _ _ HY)|apply (ap_fin _ _ _ HZ)]]).
  pose proof (sq_ap _ _ HX) as QX. pose proof (sq_ap _ _ HY) as QY. pose proof (sq_ap _ _ HZ) as QZ.
  assert (Q : Rabs (dot3 v v - dist3 a b) <= 2.01 * u * dist3 a b).
  { unfold dot3, dot2, dist3. fold X Y Z. apply Rabs_le_inv in QX, QY, QZ. apply Rabs_le. lra. }
  assert (P : 0 <= dist3 a b) by (unfold dist3; fold X Y Z; lra).
  pose proof (C70_dot3 BK v v F F) as D. rewrite adot3_self in D. apply Rabs_le_inv in Q. bp 118%Z 126%Z.
  assert (E118 : bpow radix2 118 = 2 * bpow radix2 117) by (change 118%Z with (1 + 117)%Z; now rewrite bpow_plus).
  specialize (D ltac:(lra)). destruct D as [D1 D2]. split; [exact D1|]. unfold tol in D2. rewrite U21. rewrite U22 in D2. apply Rabs_le_inv in D2. apply Rabs_le. lra.
Qed.
(** the sphere test agrees with the real distance, except within a relative 2^-20 (and an absolute 2^-72) of the radius *)
Theorem C77_sphere_contains_point : forall (BK : Backend b32) (s : sphere b32) (q : point3d b32),
  let c := sphere_get_center s in let r := Rabs (real (sphere_get_radius s)) in let d := sqrt (dist3 c q) in
  finite_p3 c -> finite_p3 q -> fin (sphere_get_radius s) -> dist3 c q <= bpow radix2 117 -> r <= bpow radix2 58 ->
  (d <= r * (1 - bpow radix2 (-20)) - bpow radix2 (-72) -> sphere_contains_point s q = true) /\
  (sphere_contains_point s q = true -> d <= r * (1 + bpow radix2 (-20)) + bpow radix2 (-72)).
Proof.
  intros BK s q c r d C Q FR DB RB. change (sphere_get_radius s) with (sradius s) in * .
  pose proof (dist_within BK c q C Q DB) as [F L]. unfold sphere_contains_point.
  assert (E : distance_sq (scenter s) (point3d_to_vec3 q) = distance_sq (point3d_to_vec3 c) (point3d_to_vec3 q)) by reflexivity || fail.
  cbv zeta. rewrite E. clear E. set (x := distance_sq (point3d_to_vec3 c) (point3d_to_vec3 q)) in * .
  assert (Pd : 0 <= dist3 c q). { unfold dist3. pose proof (pow2_ge_0 (real (p3x c) - real (p3x q))). pose proof (pow2_ge_0 (real (p3y c) - real (p3y q))). pose proof (pow2_ge_0 (real (p3z c) - real (p3z q))). lra. }
  assert (D2 : d * d = dist3 c q) by (apply sqrt_sqrt, Pd). assert (Dp : 0 <= d) by apply sqrt_pos.
  assert (Rp : 0 <= r) by apply Rabs_pos. assert (R2 : Rabs (real (sradius s) * real (sradius s)) = r * r) by (unfold r; now rewrite Rabs_mult).
  assert (R2' : real (sradius s) * real (sradius s) = r * r) by (rewrite <- R2; symmetry; apply Rabs_pos_eq; nra).
  assert (RM : r * r <= bpow radix2 127). { assert (K : r * r <= bpow radix2 58 * bpow radix2 58) by (apply Rmult_le_compat; auto). rewrite <- bpow_plus in K. bp (58 + 58)%Z 127%Z. lra. }
  destruct (ap_fin _ _ _ (ap_mul0 (sradius s) (sradius s) FR FR ltac:(rewrite R2; exact RM))) as [F2 L2]. rewrite R2, R2' in L2.
  apply Rabs_le_inv in L, L2. set (y := fmul (sradius s) (sradius s)) in * .
  rewrite E147, U21 in L. rewrite u32_val in * . assert (E72 : bpow radix2 (-72) * bpow radix2 (-72) = 64 * eta).
  { rewrite <- bpow_plus. change (-72 + -72)%Z with (6 + -150)%Z. now rewrite bpow_plus. }
  assert (E20 : bpow radix2 (-20) = / 1048576) by reflexivity. rewrite E20. pose proof eta_pos. assert (0 < bpow radix2 (-72)) by apply bpow_gt_0. set (b := bpow radix2 (-72)) in * .
  split.
  - intros HH. replace (fle x y) with true; [reflexivity|]. symmetry. apply fle_R; auto. set (m := r * (1 - / 1048576)) in * .
    assert (K : d * d <= (m - b) * (m - b)) by (apply Rmult_le_compat; lra).
    assert (MB : b * b <= m * b) by (apply Rmult_le_compat_r; lra).
    replace ((m - b) * (m - b)) with (m * m - 2 * (m * b) + b * b) in K by ring.
    assert (MM : m * m = (r * r) * ((1 - / 1048576) * (1 - / 1048576))) by (unfold m; ring). assert (0 <= r * r) by nra. set (rr := r * r) in * . lra.
  - intros HH. destruct (fle x y) eqn:G; [|discriminate]. apply fle_R in G; auto.
    destruct (Rle_dec d (r * (1 + / 1048576) + b)) as [|N]; auto. exfalso. set (m := r * (1 + / 1048576)) in * . assert (0 <= m) by (unfold m; nra).
    assert (K : (m + b) * (m + b) <= d * d) by (apply Rmult_le_compat; lra).
    assert (MB : 0 <= m * b) by (apply Rmult_le_pos; lra).
    replace ((m + b) * (m + b)) with (m * m + 2 * (m * b) + b * b) in K by ring.
    assert (MM : m * m = (r * r) * ((1 + / 1048576) * (1 + / 1048576))) by (unfold m; ring). assert (0 <= r * r) by nra. set (rr := r * r) in * . lra.
Qed.

(** ** quads *)
Definition finite_p (a : point b32) : Prop := fin (px a) /\ fin (py a).
(** twice the signed area of the triangle (s, e, a), and the sum of the absolute values of its two terms *)
Definition orient (s e a : point b32) : R :=
  (real (px e) - real (px s)) * (real (py a) - real (py s)) - (real (py e) - real (py s)) * (real (px a) - real (px s)).
Definition orient_mag (s e a : point b32) : R :=
  Rabs ((real (px e) - real (px s)) * (real (py a) - real (py s))) + Rabs ((real (py e) - real (py s)) * (real (px a) - real (px s))).
Definition orient_tol (s e a : point b32) : R := bpow radix2 (-21) * orient_mag s e a + bpow radix2 (-147).
Definition moderate (a : b32) : Prop := fin a /\ Rabs (real a) <= bpow radix2 60.
Lemma mod_diff (x y : b32) : moderate x -> moderate y -> ap (fsub x y) (real x - real y) (u * Rabs (real x - real y)) /\ Rabs (real x - real y) <= bpow radix2 61.
Proof.
  intros [X HX] [Y HY]. assert (E : bpow radix2 61 = 2 * bpow radix2 60) by (change 61%Z with (1 + 60)%Z; now rewrite bpow_plus).
  assert (K : Rabs (real x - real y) <= bpow radix2 61). { eapply Rle_trans; [apply Rabs_triang|]. rewrite Rabs_Ropp. lra. }
  split; auto. apply diff_ap; auto. bp 61%Z 127%Z. lra.
Qed.
Lemma prod_ap (x y : b32) a b : ap x a (u * Rabs a) -> ap y b (u * Rabs b) -> Rabs a <= bpow radix2 61 -> Rabs b <= bpow radix2 61 ->
  ap (fmul x y) (a * b) (3.01 * u * Rabs (a * b) + eta) /\ Rabs (a * b) <= bpow radix2 122.
Proof.
  intros X Y A B. pose proof (Rabs_pos a). pose proof (Rabs_pos b).
  assert (K : Rabs (a * b) <= bpow radix2 122). { rewrite Rabs_mult. change 122%Z with (61 + 61)%Z. rewrite bpow_plus. apply Rmult_le_compat; auto. }
  split; auto. assert (P := Rabs_pos (a * b)). rewrite Rabs_mult in K, P |- * . bp 123%Z 127%Z. assert (E : bpow radix2 123 = 2 * bpow radix2 122) by (change 123%Z with (1 + 122)%Z; now rewrite bpow_plus).
  set (t := Rabs a * Rabs b) in * .
  eapply ap_weak; [eapply (ap_mul x y a b); [exact X|exact Y|apply Rle_refl|]|]; rewrite ?u32_val;
  replace (Rabs a * (u * Rabs b)) with (u * t) by (unfold t; ring); replace (Rabs b * (u * Rabs a)) with (u * t) by (unfold t; ring);
  replace (u * Rabs a * (u * Rabs b)) with (u * u * t) by (unfold t; ring); fold t; lra.
Qed.
Lemma orient_within (s e a : point b32) : moderate (px s) -> moderate (py s) -> moderate (px e) -> moderate (py e) -> moderate (px a) -> moderate (py a) ->
  within (orient_tol s e a) (fsub (fmul (fsub (px e) (px s)) (fsub (py a) (py s))) (fmul (fsub (py e) (py s)) (fsub (px a) (px s)))) (orient s e a).
Proof.
  intros S1 S2 E1 E2 A1 A2.
  destruct (mod_diff _ _ E1 S1) as [P1 B1]. destruct (mod_diff _ _ A2 S2) as [P2 B2]. destruct (mod_diff _ _ E2 S2) as [P3 B3]. destruct (mod_diff _ _ A1 S1) as [P4 B4].
  destruct (prod_ap _ _ _ _ P1 P2 B1 B2) as [Q1 C1]. destruct (prod_ap _ _ _ _ P3 P4 B3 B4) as [Q2 C2].
  unfold orient, orient_tol, orient_mag.
  set (t1 := (real (px e) - real (px s)) * (real (py a) - real (py s))) in * . set (t2 := (real (py e) - real (py s)) * (real (px a) - real (px s))) in * .
  pose proof (Rabs_triang t1 (- t2)) as T. rewrite Rabs_Ropp in T. pose proof (Rabs_pos t1). pose proof (Rabs_pos t2). pose proof (Rabs_pos (t1 - t2)). bp 122%Z 126%Z. bp 124%Z 126%Z.
  assert (E124 : bpow radix2 124 = 4 * bpow radix2 122) by (change 124%Z with (2 + 122)%Z; now rewrite bpow_plus).
  rewrite E147, U21. facts. bp 0%Z 122%Z. change (bpow radix2 0) with 1 in * .
  eapply ap_within; [eapply (ap_sub _ _ t1 t2); [exact Q1|exact Q2|apply Rle_refl|]|]; rewrite ?u32_val; unfold Rminus in * ; lra.
Qed.
Definition moderate_p (a : point b32) : Prop := moderate (px a) /\ moderate (py a).
(** each edge with the vertex it is compared with *)
Definition quad_edges (q : quad b32) : list (point b32 * point b32 * point b32) :=
  let v i := match quad_get_point q i with Some p => p | None => q0 q end in
  [(v 0, v 1, v 2); (v 1, v 2, v 3); (v 2, v 3, v 0); (v 3, v 0, v 1)]%nat.
Definition surely_same (s e a b : point b32) : Prop :=
  (orient_tol s e a <= orient s e a /\ orient_tol s e b <= orient s e b) \/ (orient s e a <= - orient_tol s e a /\ orient s e b <= - orient_tol s e b).
Definition nearly_same (s e a b : point b32) : Prop :=
  (- orient_tol s e a <= orient s e a /\ - orient_tol s e b <= orient s e b) \/ (orient s e a <= orient_tol s e a /\ orient s e b <= orient_tol s e b).
Lemma same_side (s e a b : point b32) : moderate_p s -> moderate_p e -> moderate_p a -> moderate_p b ->
  (surely_same s e a b -> points_on_same_side s e a b = true) /\ (points_on_same_side s e a b = true -> nearly_same s e a b).
Proof.
  intros [S1 S2] [E1 E2] [A1 A2] [B1 B2]. unfold points_on_same_side, surely_same, nearly_same.
  destruct (orient_within s e a S1 S2 E1 E2 A1 A2) as [FA LA]. destruct (orient_within s e b S1 S2 E1 E2 B1 B2) as [FB LB].
  cbv zeta. revert FA LA FB LB.
  generalize (fsub (fmul (fsub (px e) (px s)) (fsub (py a) (py s))) (fmul (fsub (py e) (py s)) (fsub (px a) (px s)))).
  generalize (fsub (fmul (fsub (px e) (px s)) (fsub (py b) (py s))) (fmul (fsub (py e) (py s)) (fsub (px b) (px s)))).
  intros y x FA LA FB LB. apply Rabs_le_inv in LA, LB. rewrite orb_true_iff, !andb_true_iff, !fle_R, fzero_R by auto using fzero_fin.
  split; intros [[H K]|[H K]]; [left|right|left|right]; split; lra.
Qed.
Theorem C77_quad_contains : forall (q : quad b32) (p : point b32), moderate_p p ->
  (forall i v, quad_get_point q i = Some v -> moderate_p v) ->
  ((forall s e v, In (s, e, v) (quad_edges q) -> surely_same s e p v) -> quad_contains q p = true) /\
  (quad_contains q p = true -> forall s e v, In (s, e, v) (quad_edges q) -> nearly_same s e p v).
Proof.
  intros q p P Q. assert (Q0 := Q 0%nat _ eq_refl). assert (Q1 := Q 1%nat _ eq_refl). assert (Q2 := Q 2%nat _ eq_refl). assert (Q3 := Q 3%nat _ eq_refl).
  unfold quad_contains. rewrite !andb_true_iff. split.
  - intros H. repeat split; (apply same_side; auto; apply H; cbn; auto).
  - intros [[[H0 H1] H2] H3] s e v [I|[I|[I|[I|[]]]]]; injection I as <- <- <-; (apply same_side; auto).
Qed.

(** ** rectangles *)
Lemma add_rnd (x w : b32) : fin x -> fin w -> B2X (fadd x w) = xrnd (prec:=24) (emax:=128) (Fin (real x + real w)).
Proof. intros X W. now rewrite fadd_X, (fin_X x X), (fin_X w W). Qed.
Lemma le_far (p x w : b32) : fin p -> fin x -> fin w -> real p <= real x + real w -> fle p (fadd x w) = true.
Proof. intros P X W H. rewrite fle_X, add_rnd by auto. rewrite <- (xrnd_B2X p), (fin_X p P). apply xrnd_mono, xle_fin, H. Qed.
Lemma far_ap (x w : b32) : fin x -> fin w -> Rabs (real x + real w) <= bpow radix2 127 -> ap (fadd x w) (real x + real w) (u * Rabs (real x + real w)).
Proof. intros X W H. eapply ap_weak; [eapply ap_add; [apply ap_refl, X|apply ap_refl, W|apply Rle_refl|]|]; rewrite ?u32_val; lra. Qed.
Definition fmod127 (r : rect b32) : Prop := Rabs (real (rx r) + real (rw r)) <= bpow radix2 127 /\ Rabs (real (ry r) + real (rh r)) <= bpow radix2 127.
(** For a rectangle with non-negative sizes: every float point of the exact rectangle is accepted, and an
    accepted point is beyond an exact far edge by at most that edge's own rounding error. *)
Theorem C77_rect_contains_point_exact : forall (r : rect b32) (p : point b32), rfin r -> finite_p p -> 0 <= real (rw r) -> 0 <= real (rh r) ->
  (real (rx r) <= real (px p) <= real (rx r) + real (rw r) -> real (ry r) <= real (py p) <= real (ry r) + real (rh r) -> rect_contains_point r p = true) /\
  (fmod127 r -> rect_contains_point r p = true ->
     let over e := e + bpow radix2 (-24) * Rabs e in
     real (rx r) <= real (px p) <= over (real (rx r) + real (rw r)) /\ real (ry r) <= real (py p) <= over (real (ry r) + real (rh r))).
Proof.
  intros r p (X & Y & W & H) [PX PY] W0 H0. unfold rect_contains_point.
  rewrite norm_id by (apply flt_Rf; auto using fzero_fin). cbv zeta. rewrite !andb_true_iff. split.
  - intros [A B] [C D]. repeat split; first [apply fle_R; auto; fail|apply le_far; auto].
  - intros [M1 M2] [[[A B] C] D]. apply fle_R in A; auto. apply fle_R in B; auto.
    destruct (ap_fin _ _ _ (far_ap _ _ X W M1)) as [F1 L1]. destruct (ap_fin _ _ _ (far_ap _ _ Y H M2)) as [F2 L2].
    apply fle_R in C; auto. apply fle_R in D; auto. apply Rabs_le_inv in L1, L2. change (bpow radix2 (-24)) with u. lra.
Qed.

(** the exact edges of a rectangle, whatever the signs of its sizes *)
Definition left_of (r : rect b32) : R := Rmin (real (rx r)) (real (rx r) + real (rw r)).
Definition right_of (r : rect b32) : R := Rmax (real (rx r)) (real (rx r) + real (rw r)).
Definition top_of (r : rect b32) : R := Rmin (real (ry r)) (real (ry r) + real (rh r)).
Definition bottom_of (r : rect b32) : R := Rmax (real (ry r)) (real (ry r) + real (rh r)).
(** coordinates and sizes bounded by M *)
Definition sized (M : R) (r : rect b32) : Prop := rfin r /\
  Rabs (real (rx r)) + Rabs (real (rw r)) <= M /\ Rabs (real (ry r)) + Rabs (real (rh r)) <= M.

Definition norm1 (x w : b32) : b32 * b32 := if flt w fzero then (fsub x (fabs w), fabs w) else (x, w).
Lemma norm_axes (r : rect b32) : let n := rect_normalize r in
  rx n = fst (norm1 (rx r) (rw r)) /\ rw n = snd (norm1 (rx r) (rw r)) /\ ry n = fst (norm1 (ry r) (rh r)) /\ rh n = snd (norm1 (ry r) (rh r)).
Proof.
  unfold rect_normalize, norm1. destruct r as [[x y] [w h]]; unfold rx, ry, rw, rh, mkrect; cbn [px py swidth sheight rorigin rsize].
  destruct (flt w fzero); cbn [px py swidth sheight rorigin rsize]; destruct (flt h fzero); cbn; auto.
Qed.
Lemma norm1_err (x w : b32) M : fin x -> fin w -> Rabs (real x) + Rabs (real w) <= M -> M <= bpow radix2 125 ->
  let (x', w') := norm1 x w in
  within (u * M) x' (Rmin (real x) (real x + real w)) /\ fin w' /\ real w' = Rabs (real w) /\
  within (2.01 * u * M) (fadd x' w') (Rmax (real x) (real x + real w)).
Proof.
  intros X W HM HB. bp 125%Z 127%Z. assert (E : bpow radix2 127 = 4 * bpow radix2 125) by (change 127%Z with (2 + 125)%Z; now rewrite bpow_plus).
  pose proof (Rabs_pos (real x)). pose proof (Rabs_pos (real w)). pose proof (Rabs_triang (real x) (real w)) as T. 
  assert (UM : 0 <= u * M) by nra. unfold norm1. destruct (flt w fzero) eqn:S.
  - apply flt_R in S; auto using fzero_fin. rewrite fzero_R in S.
    assert (FA : fin (fabs w) /\ real (fabs w) = Rabs (real w)) by (apply fin_of_X; now rewrite fabs_X, (fin_X w W)).
    destruct FA as [FA RA]. rewrite Rmin_right, Rmax_left by lra.
    assert (A : ap (fsub x (fabs w)) (real x - real (fabs w)) (u * Rabs (real x - real (fabs w)))) by (apply diff_ap; auto; rewrite RA, (Rabs_left (real w)) by lra; replace (real x - - real w) with (real x + real w) by ring; lra).
    assert (EQ : real x - real (fabs w) = real x + real w) by (rewrite RA, (Rabs_left (real w)) by lra; ring).
    rewrite EQ in A. assert (U1 : u * Rabs (real x + real w) <= u * M) by lra.
    split; [|split; [auto|split; [auto|]]].
    + eapply ap_within; [exact A|exact U1].
    + eapply ap_within; [eapply ap_eq; [eapply (ap_add _ _ (real x + real w) (real (fabs w))); [exact A|apply ap_refl, FA| |]|]|].
      * rewrite RA, (Rabs_left (real w)) by lra. replace (real x + real w + - real w) with (real x) by ring. apply Rle_refl.
      * lra.
      * rewrite RA, (Rabs_left (real w)) by lra. ring.
      * rewrite u32_val. lra.
  - apply flt_Rf in S; auto using fzero_fin. rewrite fzero_R in S. rewrite Rmin_left, Rmax_right, (Rabs_pos_eq (real w)) by lra.
    split; [|split; [auto|split; [auto|]]].
    + split; auto. rewrite Rminus_eq_0, Rabs_R0. exact UM.
    + eapply ap_within; [apply far_ap; auto; lra|]. lra.
Qed.
Lemma norm_err (r : rect b32) M : sized M r -> M <= bpow radix2 125 -> let n := rect_normalize r in
  within (u * M) (rx n) (left_of r) /\ within (u * M) (ry n) (top_of r) /\ fin (rw n) /\ fin (rh n) /\ 0 <= real (rw n) /\ 0 <= real (rh n) /\
  within (2.01 * u * M) (fadd (rx n) (rw n)) (right_of r) /\ within (2.01 * u * M) (fadd (ry n) (rh n)) (bottom_of r).
Proof.
  intros ((X & Y & W & H) & MX & MY) HB n. unfold n. destruct (norm_axes r) as (-> & -> & -> & ->).
  pose proof (norm1_err _ _ M X W MX HB) as A. pose proof (norm1_err _ _ M Y H MY HB) as B.
  destruct (norm1 (rx r) (rw r)) as [x' w']. destruct (norm1 (ry r) (rh r)) as [y' h']. cbn [fst snd].
  destruct A as (A1 & A2 & A3 & A4), B as (B1 & B2 & B3 & B4). pose proof (Rabs_pos (real (rw r))). pose proof (Rabs_pos (real (rh r))).
  repeat (split; [first [assumption|lra]|]). assumption.
Qed.
Lemma cMIN_R (x y : b32) : fin x -> fin y -> fin (cMIN x y) /\ real (cMIN x y) = Rmin (real x) (real y).
Proof.
  intros X Y. unfold cMIN. destruct (flt x y) eqn:E.
  - apply flt_R in E; auto. rewrite Rmin_left by lra. auto.
  - apply flt_Rf in E; auto. rewrite Rmin_right by lra. auto.
Qed.
Lemma cMAX_R (x y : b32) : fin x -> fin y -> fin (cMAX x y) /\ real (cMAX x y) = Rmax (real x) (real y).
Proof.
  intros X Y. unfold cMAX. destruct (flt y x) eqn:E.
  - apply flt_R in E; auto. rewrite Rmax_left by lra. auto.
  - apply flt_Rf in E; auto. rewrite Rmax_right by lra. auto.
Qed.
Lemma Rmin_close a b a' b' e : Rabs (a' - a) <= e -> Rabs (b' - b) <= e -> Rabs (Rmin a' b' - Rmin a b) <= e.
Proof. intros A B. apply Rabs_le_inv in A, B. apply Rabs_le. unfold Rmin. destruct (Rle_dec a' b'), (Rle_dec a b); lra. Qed.
Lemma Rmax_close a b a' b' e : Rabs (a' - a) <= e -> Rabs (b' - b) <= e -> Rabs (Rmax a' b' - Rmax a b) <= e.
Proof. intros A B. apply Rabs_le_inv in A, B. apply Rabs_le. unfold Rmax. destruct (Rle_dec a' b'), (Rle_dec a b); lra. Qed.
(** the uncertainty of a far edge: a relative 2^-22 of the coordinates *)
Definition rect_tol (M : R) : R := bpow radix2 (-22) * M.

Theorem C77_rect_contains_point : forall (r : rect b32) (p : point b32) (M : R), sized M r -> M <= bpow radix2 125 -> finite_p p ->
  let e := rect_tol M in
  (left_of r + e <= real (px p) <= right_of r - e -> top_of r + e <= real (py p) <= bottom_of r - e -> rect_contains_point r p = true) /\
  (rect_contains_point r p = true -> left_of r - e <= real (px p) <= right_of r + e /\ top_of r - e <= real (py p) <= bottom_of r + e).
Proof.
  intros r p M S HB [PX PY] e. destruct (norm_err r M S HB) as ([F1 L1] & [F2 L2] & _ & _ & _ & _ & [F3 L3] & [F4 L4]).
  assert (M0 : 0 <= M) by (destruct S as (_ & S & _); pose proof (Rabs_pos (real (rx r))); pose proof (Rabs_pos (real (rw r))); lra).
  assert (UM : 0 <= u * M) by nra. assert (E : e = 4 * (u * M)) by (unfold e, rect_tol; rewrite U22; lra).
  unfold rect_contains_point. cbv zeta. apply Rabs_le_inv in L1, L2, L3, L4. rewrite !andb_true_iff, !fle_R by auto.
  split; [intros A B; repeat split|intros [[[A B] C] D]]; lra.
Qed.

Theorem C77_rect_union : forall (a b : rect b32) (M : R), sized M a -> sized M b -> M <= bpow radix2 123 ->
  let r := rect_union a b in let e := bpow radix2 (-21) * M in
  rfin r /\ 0 <= real (rw r) /\ 0 <= real (rh r) /\
  Rabs (left_of r - Rmin (left_of a) (left_of b)) <= e /\ Rabs (top_of r - Rmin (top_of a) (top_of b)) <= e /\
  Rabs (right_of r - Rmax (right_of a) (right_of b)) <= e /\ Rabs (bottom_of r - Rmax (bottom_of a) (bottom_of b)) <= e.
Proof.
  intros a b M SA SB HB r e. bp 123%Z 125%Z.
  destruct (norm_err a M SA ltac:(lra)) as ([A1 A1'] & [A2 A2'] & A3 & A4 & A5 & A6 & [A7 A7'] & [A8 A8']).
  destruct (norm_err b M SB ltac:(lra)) as ([B1 B1'] & [B2 B2'] & B3 & B4 & B5 & B6 & [B7 B7'] & [B8 B8']).
  assert (BND : forall c, sized M c -> Rabs (left_of c) <= M /\ Rabs (right_of c) <= M /\ Rabs (top_of c) <= M /\ Rabs (bottom_of c) <= M).
  { intros c (_ & U1 & U2). pose proof (Rabs_triang (real (rx c)) (real (rw c))). pose proof (Rabs_triang (real (ry c)) (real (rh c))).
    pose proof (Rabs_pos (real (rw c))). pose proof (Rabs_pos (real (rh c))).
    unfold left_of, right_of, top_of, bottom_of, Rmin, Rmax. repeat split; match goal with |- context [Rle_dec ?s ?t] => destruct (Rle_dec s t) end; lra. }
  assert (M0 : 0 <= M) by (destruct (BND a SA) as [Q _]; pose proof (Rabs_pos (left_of a)); lra).
  assert (UM : 0 <= u * M) by nra. assert (E127 : bpow radix2 127 = 16 * bpow radix2 123) by (change 127%Z with (4 + 123)%Z; now rewrite bpow_plus).
  assert (ONE : forall xa wa xb wb la ha lb hb, fin xa -> fin xb -> fin (fadd xa wa) -> fin (fadd xb wb) -> fin wa -> fin wb -> 0 <= real wa -> 0 <= real wb ->
     Rabs (real xa - la) <= u * M -> Rabs (real xb - lb) <= u * M -> Rabs (real (fadd xa wa) - ha) <= 2.01 * u * M -> Rabs (real (fadd xb wb) - hb) <= 2.01 * u * M ->
     Rabs la <= M -> Rabs ha <= M -> Rabs lb <= M -> Rabs hb <= M ->
     let x := cMIN xa xb in let w := fsub (cMAX (fadd xa wa) (fadd xb wb)) (cMIN xa xb) in
     fin x /\ fin w /\ 0 <= real w /\ Rabs (Rmin (real x) (real x + real w) - Rmin la lb) <= e /\ Rabs (Rmax (real x) (real x + real w) - Rmax ha hb) <= e).
  { clear - M0 UM HB E127 e. intros xa wa xb wb la ha lb hb FA FB GA GB WA WB PA PB LA LB HA HB' BLA BHA BLB BHB x w.
    destruct (cMIN_R xa xb FA FB) as [FX RX]. destruct (cMAX_R _ _ GA GB) as [FY RY]. fold x in FX, RX. set (y := cMAX (fadd xa wa) (fadd xb wb)) in * .
    pose proof (Rmin_close _ _ _ _ _ LA LB) as CL. pose proof (Rmax_close _ _ _ _ _ HA HB') as CH. rewrite <- RX in CL. rewrite <- RY in CH.
    assert (ML : Rabs (Rmin la lb) <= M) by (unfold Rmin; destruct (Rle_dec la lb); auto). assert (MH : Rabs (Rmax ha hb) <= M) by (unfold Rmax; destruct (Rle_dec ha hb); auto).
    assert (XY : real x <= real y).
    { apply fle_R; auto. assert (GE : fle xa (fadd xa wa) = true) by (apply le_far; auto; lra). apply fle_R in GE; auto. apply fle_R; auto. rewrite RX, RY.
      eapply Rle_trans; [apply Rmin_l|]. eapply Rle_trans; [exact GE|apply Rmax_l]. }
    apply Rabs_le_inv in CL, CH, ML, MH.
    assert (DB : Rabs (real y - real x) <= 2.1 * M) by (apply Rabs_le; lra).
    destruct (ap_fin _ _ _ (diff_ap y x FY FX ltac:(lra))) as [FW LW]. change (fsub y x) with w in FW, LW. apply Rabs_le_inv in LW.
    assert (W0 : 0 <= real w).
    { change (real w) with (real (fsub y x)). assert (Z : fle fzero w = true).
      { unfold w. fold x y. rewrite fle_X, fzero_X, fsub_X, (fin_X y FY), (fin_X x FX). rewrite <- fzero_X, <- (xrnd_B2X (fzero : b32)), fzero_X. apply xrnd_mono. simpl. apply xle_fin. lra. }
      apply fle_R in Z; auto using fzero_fin. }
    assert (ED : u * Rabs (real y - real x) <= 2.1 * (u * M)) by lra. assert (EE : e = 8 * (u * M)) by (unfold e; rewrite U21; ring).
    split; [auto|split; [auto|split; [auto|]]]. rewrite Rmin_left, Rmax_right by lra. split; apply Rabs_le; lra. }
  destruct (BND a SA) as (BA1 & BA2 & BA3 & BA4). destruct (BND b SB) as (BB1 & BB2 & BB3 & BB4).
  destruct (ONE _ _ _ _ _ _ _ _ A1 B1 A7 B7 A3 B3 A5 B5 A1' B1' A7' B7' BA1 BA2 BB1 BB2) as (X1 & X2 & X3 & X4 & X5).
  destruct (ONE _ _ _ _ _ _ _ _ A2 B2 A8 B8 A4 B4 A6 B6 A2' B2' A8' B8' BA3 BA4 BB3 BB4) as (Y1 & Y2 & Y3 & Y4 & Y5).
  split; [split; [exact X1|split; [exact Y1|split; [exact X2|exact Y2]]]|]. split; [exact X3|]. split; [exact Y3|]. split; [exact X4|]. split; [exact Y4|]. split; [exact X5|exact Y5].
Qed.

(** the intersection: decided by the exact overlaps when they exceed the uncertainty, and with edges within it *)
Definition overlap_x (a b : rect b32) : R := Rmin (right_of a) (right_of b) - Rmax (left_of a) (left_of b).
Definition overlap_y (a b : rect b32) : R := Rmin (bottom_of a) (bottom_of b) - Rmax (top_of a) (top_of b).
Lemma sized_bounds M c : sized M c -> Rabs (left_of c) <= M /\ Rabs (right_of c) <= M /\ Rabs (top_of c) <= M /\ Rabs (bottom_of c) <= M.
Proof.
  intros (_ & U1 & U2). pose proof (Rabs_triang (real (rx c)) (real (rw c))). pose proof (Rabs_triang (real (ry c)) (real (rh c))).
  pose proof (Rabs_pos (real (rw c))). pose proof (Rabs_pos (real (rh c))).
  unfold left_of, right_of, top_of, bottom_of, Rmin, Rmax. repeat split; match goal with |- context [Rle_dec ?s ?t] => destruct (Rle_dec s t) end; lra.
Qed.
Theorem C77_rect_intersection : forall (a b : rect b32) (M : R), sized M a -> sized M b -> M <= bpow radix2 123 ->
  let e := bpow radix2 (-21) * M in
  (e < overlap_x a b -> e < overlap_y a b -> fst (rect_intersection a b) = true) /\
  (fst (rect_intersection a b) = true ->
     - e < overlap_x a b /\ - e < overlap_y a b /\
     let r := snd (rect_intersection a b) in rfin r /\ 0 <= real (rw r) /\ 0 <= real (rh r) /\
     Rabs (left_of r - Rmax (left_of a) (left_of b)) <= e /\ Rabs (top_of r - Rmax (top_of a) (top_of b)) <= e /\
     Rabs (right_of r - Rmin (right_of a) (right_of b)) <= e /\ Rabs (bottom_of r - Rmin (bottom_of a) (bottom_of b)) <= e).
Proof.
  intros a b M SA SB HB e. bp 123%Z 125%Z.
  destruct (norm_err a M SA ltac:(lra)) as ([A1 A1'] & [A2 A2'] & A3 & A4 & A5 & A6 & [A7 A7'] & [A8 A8']).
  destruct (norm_err b M SB ltac:(lra)) as ([B1 B1'] & [B2 B2'] & B3 & B4 & B5 & B6 & [B7 B7'] & [B8 B8']).
  destruct (sized_bounds M a SA) as (BA1 & BA2 & BA3 & BA4). destruct (sized_bounds M b SB) as (BB1 & BB2 & BB3 & BB4).
  assert (M0 : 0 <= M) by (pose proof (Rabs_pos (left_of a)); lra).
  assert (UM : 0 <= u * M) by nra. assert (E127 : bpow radix2 127 = 16 * bpow radix2 123) by (change 127%Z with (4 + 123)%Z; now rewrite bpow_plus).
  assert (EE : e = 8 * (u * M)) by (unfold e; rewrite U21; ring).
  assert (ONE : forall xa wa xb wb la ha lb hb, fin xa -> fin xb -> fin (fadd xa wa) -> fin (fadd xb wb) ->
     Rabs (real xa - la) <= u * M -> Rabs (real xb - lb) <= u * M -> Rabs (real (fadd xa wa) - ha) <= 2.01 * u * M -> Rabs (real (fadd xb wb) - hb) <= 2.01 * u * M ->
     Rabs la <= M -> Rabs ha <= M -> Rabs lb <= M -> Rabs hb <= M ->
     let x := cMAX xa xb in let y := cMIN (fadd xa wa) (fadd xb wb) in let w := fsub y x in
     fin x /\ (e < Rmin ha hb - Rmax la lb -> fle y x = false) /\
     (fle y x = false -> - e < Rmin ha hb - Rmax la lb /\ fin w /\ 0 <= real w /\
       Rabs (Rmin (real x) (real x + real w) - Rmax la lb) <= e /\ Rabs (Rmax (real x) (real x + real w) - Rmin ha hb) <= e)).
  { clear - M0 UM HB E127 e EE. intros xa wa xb wb la ha lb hb FA FB GA GB LA LB HA HB' BLA BHA BLB BHB x y w.
    destruct (cMAX_R xa xb FA FB) as [FX RX]. destruct (cMIN_R _ _ GA GB) as [FY RY]. fold x in FX, RX. fold y in FY, RY.
    pose proof (Rmax_close _ _ _ _ _ LA LB) as CL. pose proof (Rmin_close _ _ _ _ _ HA HB') as CH. rewrite <- RX in CL. rewrite <- RY in CH.
    assert (ML : Rabs (Rmax la lb) <= M) by (unfold Rmax; destruct (Rle_dec la lb); auto). assert (MH : Rabs (Rmin ha hb) <= M) by (unfold Rmin; destruct (Rle_dec ha hb); auto).
    apply Rabs_le_inv in CL, CH, ML, MH. split; [auto|]. split.
    - intros H. destruct (fle y x) eqn:G; auto. apply fle_R in G; auto. exfalso. lra.
    - intros H. apply not_true_iff_false in H. rewrite fle_R in H by auto.
      assert (DB : Rabs (real y - real x) <= 2.1 * M) by (apply Rabs_le; lra).
      destruct (ap_fin _ _ _ (diff_ap y x FY FX ltac:(lra))) as [FW LW]. change (fsub y x) with w in FW, LW. apply Rabs_le_inv in LW.
      assert (W0 : 0 <= real w).
      { assert (Z : fle fzero w = true).
        { unfold w. rewrite fle_X, fzero_X, fsub_X, (fin_X y FY), (fin_X x FX). rewrite <- fzero_X, <- (xrnd_B2X (fzero : b32)), fzero_X. apply xrnd_mono. simpl. apply xle_fin. lra. }
        apply fle_R in Z; auto using fzero_fin. }
      assert (ED : u * Rabs (real y - real x) <= 2.1 * (u * M)) by lra.
      split; [lra|]. split; [auto|split; [auto|]]. rewrite (Rmin_left (real x)), (Rmax_right (real x)) by lra. split; apply Rabs_le; lra. }
  pose proof (ONE _ _ _ _ _ _ _ _ A1 B1 A7 B7 A1' B1' A7' B7' BA1 BA2 BB1 BB2) as X.
  pose proof (ONE _ _ _ _ _ _ _ _ A2 B2 A8 B8 A2' B2' A8' B8' BA3 BA4 BB3 BB4) as Y. clear ONE.
  unfold rect_intersection. cbv zeta in X, Y |- * . unfold overlap_x, overlap_y.
  set (ra := rect_normalize a) in * . set (rb := rect_normalize b) in * .
  set (x1 := cMAX (rx ra) (rx rb)) in * . set (x2 := cMIN (fadd (rx ra) (rw ra)) (fadd (rx rb) (rw rb))) in * .
  set (y1 := cMAX (ry ra) (ry rb)) in * . set (y2 := cMIN (fadd (ry ra) (rh ra)) (fadd (ry rb) (rh rb))) in * .
  destruct X as (FX & X1 & X2), Y as (FY & Y1 & Y2). split.
  - intros HX HY. rewrite (X1 HX), (Y1 HY). reflexivity.
  - destruct (fle x2 x1) eqn:GX; [discriminate|]. destruct (fle y2 y1) eqn:GY; [discriminate|]. intros _. cbn [orb snd].
    destruct (X2 eq_refl) as (X3 & X4 & X5 & X6 & X7). destruct (Y2 eq_refl) as (Y3 & Y4 & Y5 & Y6 & Y7).
    unfold rect_init. rewrite norm_id by (apply flt_Rf; [assumption|apply fzero_fin|assumption]).
    split; [exact X3|]. split; [exact Y3|]. split; [repeat split; assumption|]. split; [exact X5|]. split; [exact Y5|].
    split; [exact X6|]. split; [exact Y6|]. split; [exact X7|exact Y7].
Qed.

(** ** the hypotheses are met *)
Example C77_rect_ex : let r : rect b32 := mkrect (flit 3 0) (flit 1 0) (flit (-2) 0) (flit 4 0) in
  sized 8 r /\ left_of r = 1 /\ right_of r = 3 /\ top_of r = 1 /\ bottom_of r = 5 /\ rect_contains_point r (Pt (flit 2 0) (flit 2 0)) = true.
Proof.
  intros r. assert (L : forall z : Z, (Z.abs z < 100)%Z -> real (flit z 0) = IZR z /\ fin (flit z 0 : b32)).
  { intros z Hz. destruct (lit_real z 0 ltac:(lia) ltac:(lia) ltac:(lia)) as [A B]. split; auto. rewrite B. simpl bpow. ring. }
  destruct (L 3%Z ltac:(lia)) as [R3 F3], (L 1%Z ltac:(lia)) as [R1 F1], (L (-2)%Z ltac:(lia)) as [R2 F2], (L 4%Z ltac:(lia)) as [R4 F4].
  unfold sized, rfin, left_of, right_of, top_of, bottom_of, r. rewrite !rx_mk, !ry_mk, !rw_mk, !rh_mk, R3, R1, R2, R4.
  repeat split; auto; try (rewrite ?Rabs_pos_eq, ?(Rabs_left (-2)) by lra; lra); unfold Rmin, Rmax;
  try (match goal with |- context [Rle_dec ?s ?t] => destruct (Rle_dec s t) end; lra).
Qed.
Lemma lit_small (z : Z) : (Z.abs z < 100)%Z -> real (flit z 0) = IZR z /\ fin (flit z 0 : b32).
Proof. intros Hz. destruct (lit_real z 0 ltac:(lia) ltac:(lia) ltac:(lia)) as [A B]. split; auto. rewrite B. simpl bpow. ring. Qed.
Lemma lit_mod (z : Z) : (Z.abs z < 100)%Z -> moderate (flit z 0).
Proof.
  intros H. destruct (lit_small z H) as [E F]. split; auto. rewrite E. bp 7%Z 60%Z. change (bpow radix2 7) with 128 in * .
  rewrite <- abs_IZR. assert (IZR (Z.abs z) < 100) by (now apply IZR_lt). lra.
Qed.
(** the unit square and the point (1/2, 1/2) scaled by two *)
Example C77_quad_ex : let v x y : point b32 := Pt (flit x 0) (flit y 0) in
  let q := quad_init (v 0%Z 0%Z) (v 2%Z 0%Z) (v 2%Z 2%Z) (v 0%Z 2%Z) in let p := v 1%Z 1%Z in
  moderate_p p /\ (forall i w, quad_get_point q i = Some w -> moderate_p w) /\ (forall s e w, In (s, e, w) (quad_edges q) -> surely_same s e p w).
Proof.
  intros v q p. assert (MV : forall x y, (Z.abs x < 100)%Z -> (Z.abs y < 100)%Z -> moderate_p (v x y)) by (intros; split; apply lit_mod; auto).
  split; [apply MV; lia|]. split.
  - intros [|[|[|[|i]]]] w E; try discriminate E; injection E as <-; apply MV; lia.
  - destruct (lit_small 0%Z ltac:(lia)) as [R0 _], (lit_small 1%Z ltac:(lia)) as [R1 _], (lit_small 2%Z ltac:(lia)) as [R2 _].
    assert (B : bpow radix2 (-147) <= / 1024) by (apply (bpow_le radix2 (-147) (-10)); lia). assert (B' : bpow radix2 (-21) = / 2097152) by reflexivity.
    intros s e w [I|[I|[I|[I|[]]]]]; injection I as <- <- <-; left; unfold orient_tol, orient, orient_mag, p, v; cbn [px py]; rewrite ?R0, ?R1, ?R2, B', !Rabs_mult;
    split; unfold Rabs; repeat match goal with |- context [Rcase_abs ?t] => destruct (Rcase_abs t) end; lra.
Qed.
Example C77_sphere_ex : let c : point3d b32 := P3 (flit 1 0) (flit 2 0) (flit 3 0) in let s := sphere_init (Some c) (flit 5 0) in
  let q : point3d b32 := P3 (flit 4 0) (flit 2 0) (flit 3 0) in
  finite_p3 (sphere_get_center s) /\ finite_p3 q /\ fin (sphere_get_radius s) /\ dist3 (sphere_get_center s) q = 9 /\
  9 <= bpow radix2 117 /\ Rabs (real (sphere_get_radius s)) = 5 /\ sqrt 9 <= 5 * (1 - bpow radix2 (-20)) - bpow radix2 (-72).
Proof.
  intros c s q. destruct (lit_small 1%Z ltac:(lia)) as [R1 F1], (lit_small 2%Z ltac:(lia)) as [R2 F2], (lit_small 3%Z ltac:(lia)) as [R3 F3], (lit_small 4%Z ltac:(lia)) as [R4 F4], (lit_small 5%Z ltac:(lia)) as [R5 F5].
  split; [split; [exact F1|split; [exact F2|exact F3]]|]. split; [split; [exact F4|split; [exact F2|exact F3]]|]. split; [exact F5|].
  split. { change (sphere_get_center s) with c. unfold dist3, c, q; cbn [p3x p3y p3z]. rewrite R1, R2, R3, R4. ring. }
  split. { bp 4%Z 117%Z. change (bpow radix2 4) with 16 in * . lra. }
  split. { change (sphere_get_radius s) with (flit 5 0 : b32). rewrite R5. apply Rabs_pos_eq. lra. }
  replace 9 with (3 * 3) by ring. rewrite sqrt_square by lra. bp (-72)%Z (-20)%Z. change (bpow radix2 (-20)) with (/ 1048576) in * . lra.
Qed.
From Verif Require Props_Geo.
Example C77_frustum_ex : forall BK : Backend b32, let f := Props_Geo.ex_frustum in let q : point3d b32 := P3 fzero fzero fzero in
  finite_frustum f /\ finite_p3 q /\ moderate_at f q /\ (forall p, In p (frustum_planes f) -> at_p3 (plane_tol p) q <= at_p3 (plane_at p) q).
Proof.
  intros BK f q. assert (O : real fone = 1) by (pose proof (fone_X); now apply fin_of_X in H).
  split; [intros p [<-|[<-|[<-|[<-|[<-|[<-|[]]]]]]]; repeat split|]. split; [repeat split|].
  assert (K : forall p, In p (frustum_planes f) -> at_p3 (plane_mag p) q = 1 /\ at_p3 (plane_at p) q = 1).
  { intros p [<-|[<-|[<-|[<-|[<-|[<-|[]]]]]]]; unfold plane_mag, plane_at, q; cbn [p3x p3y p3z]; rewrite fzero_R; 
    change (plane_get_constant _) with (fone : b32); rewrite O, !Rmult_0_r, Rabs_R0, (Rabs_pos_eq 1) by lra; lra. }
  split.
  - intros p I. rewrite (proj1 (K p I)). bp 0%Z 125%Z. change (bpow radix2 0) with 1 in * . lra.
  - intros p I. unfold plane_tol. rewrite (proj1 (K p I)), (proj2 (K p I)). bp (-146)%Z (-1)%Z. change (bpow radix2 (-1)) with (/ 2) in * . change (bpow radix2 (-21)) with (/ 2097152). lra.
Qed.
