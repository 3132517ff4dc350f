(** * Props_Euler: Euler angles in binary32: accessors, orders, degrees and radians (C73). *)
From Coq Require Import ZArith Reals Bool List Lra Lia Psatz Machin.
From Flocq Require Import Core BinarySingleNaN.
From Verif Require Import Num Simd Vec Rect Box Mat Quat OrdThy FloatThy B32Setup FloatLem ErrThy Props_Err.
From Verif Require Props_EulerX Props_Init.
Import ListNotations.
Local Open Scope R_scope.
Import Props_EulerX (order_spec).

(** [order_spec] is the meaning of an order's name: static or relative axes, and the axes in the
    order of its letters *)
Definition named (x y z : b32) (a : axis) : b32 := match a with AX => x | AY => y | AZ => z end.

(** ** alpha, beta, gamma: the stored angles of the first, second and third letter, to the bit *)
Theorem C73_letters : forall (x y z : b32) (o : eorder),
  let e := euler_init_from_radians x y z o in let '(_, (a, b, c)) := order_spec o in
  euler_get_alpha e = named x y z a /\ euler_get_beta e = named x y z b /\ euler_get_gamma e = named x y z c.
Proof. intros x y z []; repeat split; reflexivity. Qed.

(** ** the order: never the default or a deprecated name, always the same axes and frame *)
Definition effective (o o' : eorder) : Prop := order_spec o' = order_spec o /\ ~ In o' [ODefault; OXYZ; OYZX; OZXY; OXZY; OYXZ; OZYX].
Theorem C73_order : forall (L : LibM b32) (BK : Backend b32) (o : eorder),
  (forall x y z : b32, effective o (euler_get_order (euler_init_from_radians x y z o)) /\ effective o (euler_get_order (euler_init_with_order x y z o)) /\
     effective ODefault (euler_get_order (euler_init x y z))) /\
  (forall v : option V, effective o (euler_get_order (euler_init_from_vec3 v o))) /\
  (forall m : option (mat b32), effective o (euler_get_order (euler_init_from_matrix m o))) /\
  (forall q : option (quat b32), effective o (euler_get_order (euler_init_from_quaternion q o))) /\
  (forall e : euler b32, effective o (euler_get_order (euler_reorder e o))).
Proof.
  intros L BK o.
  assert (R : forall v, effective o (euler_get_order (Eu (F := b32) v (euler_real_order o)))) by (intros v; destruct o; (split; [reflexivity|simpl; intuition discriminate])).
  assert (R2 : euler_real_order (euler_real_order o) = euler_real_order o) by (destruct o; reflexivity).
  split; [intros x y z; split; [apply R|split; [apply R|split; [reflexivity|simpl; intuition discriminate]]]|].
  split; [intros v; apply R|].
  assert (M : forall m : option (mat b32), effective o (euler_get_order (euler_init_from_matrix m o))).
  { intros [m|]; [|apply R]. unfold euler_init_from_matrix. destruct (matrix_is_identity m); [apply R|]. destruct (matrix_to_euler _ _) as [[? ?] ?]. unfold euler_init_internal. rewrite ?R2. apply R. }
  split; [exact M|].
  assert (Q : forall q : option (quat b32), effective o (euler_get_order (euler_init_from_quaternion q o))).
  { intros [q|]; [|apply R]. unfold euler_init_from_quaternion. unfold euler_init_from_matrix. destruct (matrix_is_identity _).
    unfold euler_init_with_order, euler_init_internal. rewrite R2. apply R. rewrite R2. destruct (matrix_to_euler _ _) as [[? ?] ?]. unfold euler_init_internal. rewrite ?R2. apply R. }
  split; [exact Q|]. intros e. unfold euler_reorder. unfold euler_init_from_quaternion. rewrite R2. apply (Q (Some _)).
Qed.

(** ** degrees and radians *)
Lemma PI_bounds : 3.14159265 <= PI <= 3.14159266.
Proof.
  pose proof (PI_2_3_7_ineq 4) as [A B]. unfold tg_alt, PI_2_3_7_tg, Ratan_seq in A, B.
  simpl (2 * 4)%nat in A, B. cbn [sum_f_R0] in A, B. simpl pow in A, B. cbn [INR Nat.mul Nat.add] in A, B. split; lra.
Qed.
Lemma c1_X : B2X (fdiv fpi (flit 180 0) : b32) = Fin (9370165 / 536870912).
Proof.
  replace (fdiv fpi (flit 180 0) : b32) with (lit 9370165 (-29)) by beq.
  rewrite fin_X by reflexivity. f_equal.
Qed.
Lemma c2_X : B2X (fdiv (flit 180 0) fpi : b32) = Fin (15019744 / 262144).
Proof.
  replace (fdiv (flit 180 0) fpi : b32) with (lit 15019744 (-18)) by beq.
  rewrite fin_X by reflexivity. f_equal.
Qed.
Lemma scale_err (x c : b32) (k k' : R) : fin x -> Rabs (B2R x) <= bpow radix2 120 -> B2X c = Fin k -> 0 < k <= 64 -> 0 < k' -> Rabs (k - k') <= 0.99 * u32 * k' ->
  within (bpow radix2 (-23) * Rabs (B2R x * k') + eta) (fmul x c) (B2R x * k').
Proof.
  intros F B C K K' D. pose proof (fin_of_X _ _ C) as [Fc <-]. set (k := B2R c) in * .
  assert (H : Rabs (B2R x * k) <= bpow radix2 127).
  { rewrite Rabs_mult, (Rabs_pos_eq k) by lra. change (bpow radix2 127) with (bpow radix2 (7 + 120)). rewrite bpow_plus. simpl (bpow radix2 7).
    pose proof (Rabs_pos (B2R x)). pose proof (bpow_gt_0 radix2 120). nra. }
  destruct (ap_fin _ _ _ (ap_mul0 x c F Fc H)) as [FM E]. split; auto. fold k in E.
  replace (B2R (fmul x c) - B2R x * k') with ((B2R (fmul x c) - B2R x * k) + B2R x * (k - k')) by ring.
  eapply Rle_trans; [apply Rabs_triang|]. rewrite (Rabs_mult (B2R x) (k - k')). rewrite Rabs_mult in E. rewrite Rabs_mult.
  rewrite (Rabs_pos_eq k) in E by lra. rewrite (Rabs_pos_eq k') by lra.
  assert (KK : k <= k' * (1 + 0.99 * u32)) by (apply Rabs_le_inv in D; lra).
  change (bpow radix2 (-23)) with (bpow radix2 (1 + -24)). rewrite bpow_plus. simpl (bpow radix2 1).
  pose proof (Rabs_pos (B2R x)) as X0. rewrite u32_val in * .
  assert (Rabs (B2R x) * k <= Rabs (B2R x) * (k' * (1 + 0.99 * / 16777216))) by (apply Rmult_le_compat_l; auto).
  assert (Rabs (B2R x) * Rabs (k - k') <= Rabs (B2R x) * (0.99 * / 16777216 * k')) by (apply Rmult_le_compat_l; auto).
  assert (0 <= Rabs (B2R x) * k') by (apply Rmult_le_pos; lra). nra.
Qed.
Definition moderate (x : b32) : Prop := fin x /\ Rabs (B2R x) <= bpow radix2 100.
Lemma p120 x : moderate x -> Rabs (B2R x) <= bpow radix2 120.
Proof. intros [_ H]. eapply Rle_trans; [exact H|]. apply bpow_le. lia. Qed.
Lemma d2r_err (x : b32) : fin x -> Rabs (B2R x) <= bpow radix2 120 -> within (bpow radix2 (-23) * Rabs (B2R x * (PI / 180)) + eta) (deg_to_rad x) (B2R x * (PI / 180)).
Proof.
  intros F B. pose proof PI_bounds. apply (scale_err x _ _ _ F B c1_X); try lra. rewrite u32_val. apply Rabs_le. split; lra.
Qed.
Lemma r2d_err (x : b32) : fin x -> Rabs (B2R x) <= bpow radix2 120 -> within (bpow radix2 (-23) * Rabs (B2R x * (180 / PI)) + eta) (rad_to_deg x) (B2R x * (180 / PI)).
Proof.
  intros F B. pose proof PI_bounds as P. assert (I : 0 < / PI) by (apply Rinv_0_lt_compat; lra).
  assert (M : / PI * PI = 1) by (apply Rinv_l; lra).
  apply (scale_err x _ _ _ F B c2_X); [lra|unfold Rdiv; lra|]. unfold Rdiv. rewrite u32_val.
  assert (U : / PI <= / 3.14159265) by (apply Rinv_le; lra). assert (W : / 3.14159266 <= / PI) by (apply Rinv_le; lra).
  apply Rabs_le. split; lra.
Qed.
(** angles given in degrees: alpha, beta and gamma are in radians, within 2^-23 (relative) of the
    true conversion; get_x, get_y, get_z give the degrees back within 2^-21 *)
Theorem C73_degrees : forall (x y z : b32) (o : eorder), moderate x -> moderate y -> moderate z ->
  let e := euler_init_with_order x y z o in
  (let '(_, (a, b, c)) := order_spec o in
   Forall2 (fun r t => within (bpow radix2 (-23) * Rabs (B2R t * (PI / 180)) + bpow radix2 (-150)) r (B2R t * (PI / 180)))
     [euler_get_alpha e; euler_get_beta e; euler_get_gamma e] [named x y z a; named x y z b; named x y z c]) /\
  Forall2 (fun r t => within (bpow radix2 (-21) * Rabs (B2R t) + bpow radix2 (-143)) r (B2R t)) [euler_get_x e; euler_get_y e; euler_get_z e] [x; y; z].
Proof.
  intros x y z o X Y Z e. split.
  - pose proof (d2r_err x (proj1 X) (p120 x X)). pose proof (d2r_err y (proj1 Y) (p120 y Y)). pose proof (d2r_err z (proj1 Z) (p120 z Z)).
    destruct o; cbn [order_spec named]; repeat apply Forall2_cons; try apply Forall2_nil; assumption.
  - assert (K : forall t, moderate t -> within (bpow radix2 (-21) * Rabs (B2R t) + bpow radix2 (-143)) (rad_to_deg (deg_to_rad t)) (B2R t)).
    { intros t [F B]. destruct (d2r_err t F (p120 t (conj F B))) as [F1 E1]. set (r := deg_to_rad t) in * .
      pose proof PI_bounds as P.
      assert (I : 0 < / PI) by (apply Rinv_0_lt_compat; lra). assert (U : / PI <= / 3.14159265) by (apply Rinv_le; lra).
      assert (A : Rabs (B2R t * (PI / 180)) <= Rabs (B2R t) * 0.02).
      { rewrite Rabs_mult, (Rabs_pos_eq (PI / 180)) by lra. apply Rmult_le_compat_l; [apply Rabs_pos|lra]. }
      assert (R : Rabs (B2R r) <= bpow radix2 120).
      { replace (B2R r) with ((B2R r - B2R t * (PI / 180)) + B2R t * (PI / 180)) by ring. eapply Rle_trans; [apply Rabs_triang|].
        change (bpow radix2 120) with (bpow radix2 (20 + 100)). rewrite bpow_plus. simpl (bpow radix2 20).
        pose proof eta_1. pose proof (bpow_le radix2 0 100 ltac:(lia)) as P1. simpl (bpow radix2 0) in P1. change (bpow radix2 (-23)) with (/ 8388608) in E1.
        pose proof (Rabs_pos (B2R t)). lra. }
      destruct (r2d_err r F1 R) as [F2 E2]. split; auto.
      assert (Q : B2R t * (PI / 180) * (180 / PI) = B2R t) by (field; lra).
      assert (E1' : Rabs (B2R r * (180 / PI) - B2R t) <= (bpow radix2 (-23) * Rabs (B2R t * (PI / 180)) + eta) * (180 / PI)).
      { rewrite <- Q at 1. rewrite <- Rmult_minus_distr_r, Rabs_mult. rewrite (Rabs_pos_eq (180 / PI)) by (unfold Rdiv; lra).
        apply Rmult_le_compat_r; [unfold Rdiv; lra|exact E1]. }
      rewrite Rmult_plus_distr_r, Rmult_assoc in E1'.
      replace (Rabs (B2R t * (PI / 180)) * (180 / PI)) with (Rabs (B2R t)) in E1'.
      2: { rewrite Rabs_mult, (Rabs_pos_eq (PI / 180)) by lra. field. lra. }
      assert (S : Rabs (B2R r * (180 / PI)) <= Rabs (B2R t) + (bpow radix2 (-23) * Rabs (B2R t) + eta * (180 / PI))).
      { replace (B2R r * (180 / PI)) with (B2R t + (B2R r * (180 / PI) - B2R t)) by ring. eapply Rle_trans; [apply Rabs_triang|]. lra. }
      replace (B2R (rad_to_deg r) - B2R t) with ((B2R (rad_to_deg r) - B2R r * (180 / PI)) + (B2R r * (180 / PI) - B2R t)) by ring.
      eapply Rle_trans; [apply Rabs_triang|].
      change (bpow radix2 (-143)) with (bpow radix2 (7 + -150)). rewrite (bpow_plus radix2 7). simpl (bpow radix2 7).
      change (bpow radix2 (-21)) with (/ 2097152). change (bpow radix2 (-23)) with (/ 8388608) in * .
      pose proof (Rabs_pos (B2R t)). pose proof eta_pos. assert (C : eta * (180 / PI) <= 58 * eta) by (unfold Rdiv; nra). lra. }
    repeat apply Forall2_cons; try apply Forall2_nil; now apply K.
Qed.
(** angles given in radians: get_x, get_y, get_z are degrees, within 2^-23 *)
Theorem C73_radians : forall (x y z : b32) (o : eorder), moderate x -> moderate y -> moderate z ->
  let e := euler_init_from_radians x y z o in
  Forall2 (fun r t => within (bpow radix2 (-23) * Rabs (B2R t * (180 / PI)) + bpow radix2 (-150)) r (B2R t * (180 / PI))) [euler_get_x e; euler_get_y e; euler_get_z e] [x; y; z].
Proof. intros x y z o X Y Z e. repeat apply Forall2_cons; try apply Forall2_nil; apply r2d_err; try (now apply p120); now apply X || apply Y || apply Z. Qed.
(** the vector forms agree with the scalar ones to the bit, on every back end *)
Theorem C73_vec3 : forall (BK : Backend b32) (e : euler b32) (v : V) (o : eorder),
  (vec3_get_x (euler_to_vec3 e) = euler_get_x e /\ vec3_get_y (euler_to_vec3 e) = euler_get_y e /\ vec3_get_z (euler_to_vec3 e) = euler_get_z e) /\
  (let a := euler_init_from_vec3 (Some v) o in let b := euler_init_with_order (vec3_get_x v) (vec3_get_y v) (vec3_get_z v) o in
   (euler_get_x a = euler_get_x b /\ euler_get_y a = euler_get_y b /\ euler_get_z a = euler_get_z b) /\
   (euler_get_alpha a = euler_get_alpha b /\ euler_get_beta a = euler_get_beta b /\ euler_get_gamma a = euler_get_gamma b) /\
   euler_get_order a = euler_get_order b).
Proof. intros BK e v o. repeat split; destruct o; reflexivity. Qed.
Example C73_ex : moderate (lit 45 0) /\ moderate (lit (-179) 0) /\ fin (euler_get_x (euler_init_with_order (lit 45 0) (lit (-179) 0) fone RZYX)).
Proof.
  assert (B : forall t : b32, fin t -> Rabs (B2R t) <= bpow radix2 100 -> moderate t) by (split; auto).
  split; [|split; [|reflexivity]]; (apply B; [reflexivity|]).
  - replace (B2R (lit 45 0)) with 45 by (unfold B2R; simpl; unfold F2R; simpl; lra). rewrite Rabs_pos_eq by lra. apply Rle_trans with (bpow radix2 8); [simpl; lra|apply bpow_le; lia].
  - replace (B2R (lit (-179) 0)) with (-179) by (unfold B2R; simpl; unfold F2R; simpl; lra). rewrite Rabs_left by lra. apply Rle_trans with (bpow radix2 8); [simpl; lra|apply bpow_le; lia].
Qed.

(** ** NULL arguments of the Euler constructors *)
(** A NULL matrix, quaternion, vector or source gives no rotation: the three angles read in degrees
    and in radians are exactly zero. *)
Definition no_rotation (e : euler b32) : Prop :=
  Props_Init.hold [euler_get_x e; euler_get_y e; euler_get_z e] [0; 0; 0] /\
  Props_Init.hold [euler_get_alpha e; euler_get_beta e; euler_get_gamma e] [0; 0; 0].
Theorem C73_null : forall (L : LibM b32) (BK : Backend b32) (o : eorder),
  no_rotation (euler_init_from_matrix None o) /\ no_rotation (euler_init_from_quaternion None o) /\
  no_rotation (euler_init_from_vec3 None o) /\ no_rotation (euler_init_from_euler None) /\
  euler_get_order (euler_init_from_euler (F := b32) None) = SXYZ.
Proof.
  assert (Z : fin (fzero : b32) /\ B2R (fzero : b32) = 0) by (split; reflexivity).
  assert (D : (deg_to_rad fzero : b32) = fzero) by beq.
  assert (G : (rad_to_deg fzero : b32) = fzero) by beq.
  assert (R : forall o, no_rotation (Eu (vec3_init fzero fzero fzero) (euler_real_order o))).
  { intros o. split.
    - unfold euler_get_x, euler_get_y, euler_get_z. cbn [eu_v vec3_get_x vec3_get_y vec3_get_z g_get_x g_get_y g_get_z vec3_init g_init vx vy vz]. rewrite G.
      repeat apply Forall2_cons; try apply Forall2_nil; exact Z.
    - unfold euler_get_alpha, euler_get_beta, euler_get_gamma. cbn [eu_v eu_o]. destruct o; repeat apply Forall2_cons; try apply Forall2_nil; exact Z. }
  intros L BK o. unfold euler_init_from_matrix, euler_init_from_quaternion, euler_init_from_vec3, euler_init_from_euler, euler_init, euler_init_with_order, euler_init_internal.
  rewrite D. repeat split; try apply R. 
Qed.
