(** * Props_RayX: rays (C53-C56) in exact arithmetic.  The ray from o along d is the set
    of points o + t d with t >= 0. *)
From Coq Require Import ZArith Reals Bool List Lra Lia Psatz.
From Flocq Require Import Core.
From Verif Require Import Num Simd Vec Rect Box Mat Geo OrdThy XSetup Props_VecX RGeo GeoBase Props_PlaneX Props_TriX.
Import ListNotations.
Local Open Scope R_scope.

Definition rray (r : ray xreal) (o d : R3) : Prop := is3 (ray_o r) o /\ is3 (ray_get_direction r) d.
Definition along (o d : R3) (t : R) : R3 := vplus o (vscal t d).

Section S.
Context (BK : Backend xreal).

(** ** C53: points of the ray *)
Theorem C53_init : forall o dv d, exact_backend BK -> is3 dv d -> eps < norm d -> above_cutoff BK (dot d d) ->
  let r := ray_init (Some (at3 o)) (Some dv) in ray_get_origin r = at3 o /\ exists k, 0 < k /\ rray r o (vscal k d) /\ norm (vscal k d) = 1.
Proof.
  intros o dv d EB Hd Hn Hc r. split; [reflexivity|]. exists (/ norm d). pose proof eps_pos. split; [apply Rinv_0_lt_compat; lra|].
  split; [|now apply unit_norm]. split; [apply is3_of_at3|apply is3_normalize; auto].
Qed.
Theorem C53_position_at : forall r o d t, rray r o d -> ray_get_position_at r (Fin t) = at3 (along o d t).
Proof.
  intros r o d t [Ho Hd]. unfold ray_get_position_at. apply at3_of_is3. replace (along o d t) with (vplus (vscal t d) o) by (unfold along; r3).
  apply is3_add; auto. now apply is3_scale.
Qed.
Lemma closest_core (o d p : R3) : norm d = 1 -> let s := dot (vminus p o) d in
  let t := if Rlt_dec s 0 then 0 else s in forall t', 0 <= t' -> dist p (along o d t) <= dist p (along o d t').
Proof.
  intros U s t t' T'. apply unit_dot in U. unfold dist. apply norm_le; [apply norm_nonneg|]. rewrite norm_sq.
  assert (E : forall k, dot (vminus p (along o d k)) (vminus p (along o d k)) = dot (vminus p o) (vminus p o) - s * s + (k - s) * (k - s)).
  { intros k. transitivity (dot (vminus p o) (vminus p o) - 2 * k * s + k * k * dot d d); [unfold s, along, dot, vminus, vplus, vscal; simpl; ring|]. rewrite U. ring. }
  rewrite !E. clear E. clearbody s. unfold t. pose proof (Rle_0_sqr (t' - s)) as K. unfold Rsqr in K. destruct (Rlt_dec s 0); [nra|]. replace ((s - s) * (s - s)) with 0 by ring. lra.
Qed.
Theorem C53_closest_point : forall r o d p, rray r o d -> norm d = 1 ->
  exists t, 0 <= t /\ ray_get_closest_point_to_point r (at3 p) = at3 (along o d t) /\
    (forall t', 0 <= t' -> dist p (along o d t) <= dist p (along o d t')).
Proof.
  intros r o d p [Ho Hd] U. set (s := dot (vminus p o) d). exists (if Rlt_dec s 0 then 0 else s). split; [destruct (Rlt_dec s 0); lra|].
  split; [|apply closest_core; auto]. unfold ray_get_closest_point_to_point, ray_get_direction in * . cbv zeta.
  rewrite (is3_dot BK _ _ (vminus p o) d) by (auto; apply is3_sub; auto using is3_of_at3). fold s. rewrite Xzero.
  destruct (Rlt_dec s 0) as [L|L]; [rewrite Xlt_t by lra|rewrite Xlt_f by lra]; apply at3_of_is3.
  - replace (along o d 0) with o by (unfold along; r3). auto.
  - replace (along o d s) with (vplus (vscal s d) o) by (unfold along; r3). apply is3_add; auto. now apply is3_scale.
Qed.
Theorem C53_distance_to_point : forall r o d p, exact_backend BK -> rray r o d -> norm d = 1 ->
  exists t, 0 <= t /\ ray_get_distance_to_point r (at3 p) = Fin (dist p (along o d t)) /\
    (forall t', 0 <= t' -> dist p (along o d t) <= dist p (along o d t')).
Proof.
  intros r o d p EB [Ho Hd] U. set (s := dot (vminus p o) d). exists (if Rlt_dec s 0 then 0 else s). split; [destruct (Rlt_dec s 0); lra|].
  split; [|apply closest_core; auto]. unfold ray_get_distance_to_point, ray_get_direction in * . cbv zeta.
  rewrite (is3_dot BK _ _ (vminus p o) d) by (auto; apply is3_sub; auto using is3_of_at3). fold s. rewrite Xzero.
  destruct (Rlt_dec s 0) as [L|L]; [rewrite Xlt_t by lra|rewrite Xlt_f by lra]; rewrite dist_sym; apply is3_len; auto.
  - replace (along o d 0) with o by (unfold along; r3). apply is3_sub; auto using is3_of_at3.
  - replace (along o d s) with (vplus (vscal s d) o) by (unfold along; r3). apply is3_sub; auto using is3_of_at3. apply is3_add; auto. now apply is3_scale.
Qed.
(** distance_to_plane: the parameter of the intersection, or infinity when the ray misses *)
Theorem C53_distance_to_plane : forall r o d pl n c, rray r o d -> rplane pl n c -> eps <= Rabs (dot n d) ->
  (forall t, ray_get_distance_to_plane r pl = Fin t <-> 0 <= t /\ dot n (along o d t) + c = 0) /\
  (ray_get_distance_to_plane r pl = PInf <-> forall t, 0 <= t -> dot n (along o d t) + c <> 0).
Proof.
  intros r o d pl n c [Ho Hd] [Hn Hc] D. unfold ray_get_direction, plane_get_normal, plane_get_constant in * . pose proof eps_pos as E0.
  assert (D0 : dot n d <> 0). { intros E. rewrite E, Rabs_R0 in D. lra. }
  unfold ray_get_distance_to_plane. cbv zeta. rewrite (is3_dot BK _ _ _ _ Hn Hd), (is3_dot BK _ _ _ _ Ho Hn), Hc, Xabs, xeps, Xlt_f, xm1, Xadd, Xmul, Xdiv by auto.
  set (t0 := -1 * (dot o n + c) / dot n d).
  assert (Z : forall t, dot n (along o d t) + c = 0 <-> t = t0).
  { intros t. unfold along. rewrite dot_plus_r, dot_scal_r, (dot_sym n o). unfold t0. split; intros H.
    - apply (Rmult_eq_reg_r (dot n d)); auto. field_simplify; auto. lra.
    - subst t. field. auto. }
  rewrite Xzero. destruct (Rle_or_lt 0 t0) as [L|L].
  - rewrite Xle_t by auto. split.
    + intros t. rewrite Z. split; [intros E; injection E; intros <-; auto|intros [_ ->]; reflexivity].
    + split; [discriminate|]. intros H. exfalso. apply (H t0 L). now apply Z.
  - rewrite Xle_f by auto. split.
    + intros t. rewrite Z. split; [discriminate|]. intros [T ->]. lra.
    + split; [|reflexivity]. intros _ t T H. apply Z in H. lra.
Qed.
(** For a ray almost parallel to the plane (|n.d| < 2^-23) the answer is 0 or infinity. *)
Theorem C53_distance_to_plane_parallel : forall r o d pl n c, rray r o d -> rplane pl n c -> Rabs (dot n d) < eps ->
  (Rabs (dot n o + c) < eps -> ray_get_distance_to_plane r pl = Fin 0) /\
  (eps <= Rabs (dot n o + c) -> ray_get_distance_to_plane r pl = PInf).
Proof.
  intros r o d pl n c [Ho Hd] P D. pose proof P as [Hn Hc]. unfold ray_get_direction, plane_get_normal, plane_get_constant in * .
  unfold ray_get_distance_to_plane. cbv zeta. rewrite (is3_dot BK _ _ _ _ Hn Hd), Xabs, xeps, Xlt_t by auto.
  rewrite (at3_of_is3 _ _ Ho), (C50_distance BK pl n c o P), Xabs. split; intros H; [rewrite Xlt_t by auto|rewrite Xlt_f by auto]; reflexivity.
Qed.

(** ** C54: ray-sphere *)
Theorem C54_intersect_sphere : forall r o d s c rad, rray r o d -> norm d = 1 -> rsphere s c rad -> 0 <= rad ->
  let hits t := 0 <= t /\ dist c (along o d t) = rad in
  (ray_intersects_sphere r s = true <-> exists t, hits t) /\
  match ray_intersect_sphere r s with
  | (HitNone, t) => t = Fin 0 /\ forall t', ~ hits t'
  | (HitEnter, t) => exists t0, t = Fin t0 /\ hits t0 /\ rad <= dist c o /\ (forall t', hits t' -> t0 <= t')
  | (HitLeave, t) => exists t0, t = Fin t0 /\ hits t0 /\ dist c o <= rad /\ (forall t', hits t' -> t' = t0)
  end.
Proof.
  intros r o d s c rad [Ho Hd] U [Hc Hr] R0 hits. unfold ray_get_direction, sphere_get_radius in * . apply unit_dot in U.
  set (v := vminus c o). set (tca := dot v d). set (d2 := dot v v - tca * tca).
  assert (Q : forall t, dot (vminus c (along o d t)) (vminus c (along o d t)) = d2 + (t - tca) * (t - tca)).
  { intros t. transitivity (dot v v - 2 * t * tca + t * t * dot d d); [unfold tca, v, along, dot, vminus, vplus, vscal; simpl; ring|]. rewrite U. unfold d2. ring. }
  assert (HQ : forall t, dist c (along o d t) = rad <-> d2 + (t - tca) * (t - tca) = rad * rad).
  { intros t. rewrite <- Q. unfold dist. split; [intros <-; symmetry; apply norm_sq|intros E; apply norm_unique; auto]. }
  assert (Q0 : forall k, dist c o < k \/ k <= dist c o) by (intros k; lra).
  assert (OO : dot v v = d2 + tca * tca) by (unfold d2; ring).
  assert (DO : (rad <= dist c o <-> rad * rad <= dot v v) /\ (dist c o <= rad <-> dot v v <= rad * rad)).
  { unfold dist. fold v. rewrite <- (norm_sq v). pose proof (norm_nonneg v). split; split; intros; nra. }
  assert (RES : match ray_intersect_sphere r s with
  | (HitNone, t) => t = Fin 0 /\ forall t', ~ hits t'
  | (HitEnter, t) => exists t0, t = Fin t0 /\ hits t0 /\ rad <= dist c o /\ (forall t', hits t' -> t0 <= t')
  | (HitLeave, t) => exists t0, t = Fin t0 /\ hits t0 /\ dist c o <= rad /\ (forall t', hits t' -> t' = t0)
  end).
  { unfold ray_intersect_sphere. cbv zeta. pose proof (is3_sub _ _ _ _ Hc Ho) as V1. fold v in V1.
    rewrite (is3_dot BK _ _ _ _ V1 Hd), (is3_dot BK _ _ _ _ V1 V1), Hr, !Xmul, Xsub. fold tca. fold d2.
    destruct (Rlt_or_le (rad * rad) d2) as [L|L].
    - rewrite Xlt_t by auto. split; [reflexivity|]. intros t' [T' E]. apply HQ in E. pose proof (Rle_0_sqr (t' - tca)) as K. unfold Rsqr in K. clearbody d2 tca. lra.
    - rewrite Xlt_f by auto. rewrite Xsub, Xsqrt, Xsub, Xadd, Xzero by lra. set (h := sqrt (rad * rad - d2)).
      assert (H0 : 0 <= h) by apply sqrt_pos. assert (HH : h * h = rad * rad - d2) by (apply sqrt_sqrt; lra).
      assert (R : forall t, d2 + (t - tca) * (t - tca) = rad * rad <-> t = tca - h \/ t = tca + h).
      { intros t. clearbody h d2 tca. split; [intros E; assert (F : (t - tca - h) * (t - tca + h) = 0) by nra; apply Rmult_integral in F as [F|F]; lra|intros [-> | ->]; nra]. }
      destruct (Rlt_or_le (tca - h) 0) as [A|A]; [rewrite (Xlt_t _ _ A)|rewrite (Xlt_f _ _ A)]; cbn [andb].
      + destruct (Rlt_or_le (tca + h) 0) as [B|B]; [rewrite (Xlt_t _ _ B)|rewrite (Xlt_f _ _ B)].
        * split; [reflexivity|]. intros t' [T' E]. apply HQ, R in E. lra.
        * exists (tca + h). split; [reflexivity|]. split; [split; [lra|apply HQ, R; auto]|]. split; [apply DO; rewrite OO; clear - A B H0 HH; clearbody h; nra|]. intros t' [T' E]. apply HQ, R in E. lra.
      + exists (tca - h). split; [reflexivity|]. split; [split; [lra|apply HQ, R; auto]|]. split; [apply DO; rewrite OO; clear - A H0 HH; clearbody h; nra|]. intros t' [T' E]. apply HQ, R in E. lra. }
  split; [|exact RES]. unfold ray_intersects_sphere. destruct (ray_intersect_sphere r s) as [[] t]; cbn [fst hit_any].
  - split; [discriminate|]. intros [t' H]. exfalso. destruct RES as [_ N]. eapply N; eauto.
  - split; [|reflexivity]. intros _. destruct RES as (t0 & _ & H & _). eauto.
  - split; [|reflexivity]. intros _. destruct RES as (t0 & _ & H & _). eauto.
Qed.

(** ** C55: ray-box *)
(** the reciprocal of a zero component is an infinity: so on IEEE hardware on every back
    end.  (The exact model's [1/0] is Undef, so the inlined scalar build is excluded when
    a component is zero.) *)
Definition recip_zero_inf : Prop := lane_reciprocal (Fin 0) = PInf \/ lane_reciprocal (Fin 0) = NInf.
Definition lbx (l : xreal) (t : R) : Prop := match l with Fin x => x <= t | PInf => False | _ => True end.
Definition ubx (u : xreal) (t : R) : Prop := match u with Fin x => t <= x | NInf => False | _ => True end.
Definition isFx (l u : xreal) : Prop := (exists x, l = Fin x) /\ (exists y, u = Fin y).
Definition slab (o d lo hi : R) (l u : xreal) : Prop :=
  (forall t, lbx l t /\ ubx u t <-> lo <= o + t * d <= hi) /\ flt u l = false /\ (d <> 0 -> isFx l u).

Lemma xmul_inf_p x : fmul (Fin x) PInf = xsgn_inf x PInf. Proof. reflexivity. Qed.
Lemma xmul_inf_n x : fmul (Fin x) NInf = xsgn_inf x NInf. Proof. reflexivity. Qed.
Lemma slab_axis (EB : exact_backend BK) (o d lo hi : R) :
  lo <= hi -> d = 0 \/ eps < Rabs d -> (d = 0 -> recip_zero_inf) ->
  let inv := lane_reciprocal (Fin d) in
  let mn := fmul (Fin (lo - o)) inv in let mx := fmul (Fin (hi - o)) inv in
  if fle fzero inv then slab o d lo hi mn mx else slab o d lo hi mx mn.
Proof.
  intros LH [-> |D] RZ inv mn mx.
  - destruct (RZ eq_refl) as [E|E]; unfold mn, mx, inv; rewrite E; clear RZ mn mx inv; change (fle fzero PInf) with true || change (fle fzero NInf) with false; cbv iota;
    rewrite ?xmul_inf_p, ?xmul_inf_n; unfold xsgn_inf; repeat split; cbn [xneg]; repeat match goal with |- context [Rlt_dec ?a ?b] => destruct (Rlt_dec a b) end; cbn [lbx ubx xneg]; try reflexivity; try tauto; try lra; try (intros H; lra);
    repeat match goal with H : context [Rlt_dec ?a ?b] |- _ => destruct (Rlt_dec a b) end; cbn [lbx ubx xneg] in * ; try tauto; try lra.
  - assert (D0 : d <> 0) by (intros ->; rewrite Rabs_R0 in D; pose proof eps_pos; lra).
    unfold mn, mx, inv. rewrite (X_reciprocal BK EB d D0 D), !Xmul, Xzero.
    assert (DI : d * / d = 1) by (now apply Rinv_r).
    assert (EH : (hi - o) * / d * d = hi - o) by (rewrite Rmult_assoc, Rinv_l; lra). assert (EL : (lo - o) * / d * d = lo - o) by (rewrite Rmult_assoc, Rinv_l; lra).
    set (p := (hi - o) * / d) in * . set (q := (lo - o) * / d) in * . clearbody p q.
    destruct (Rtotal_order d 0) as [N|[Z|P]]; [|easy|].
    + assert (/ d < 0) by (now apply Rinv_lt_0_compat). rewrite Xle_f by auto. clear - EH EL N LH. unfold slab. cbn [lbx ubx].
      split; [intros t; split; intros [A B]; split; nra|]. split; [apply Xlt_f; nra|]. intros _. split; eexists; reflexivity.
    + assert (0 < / d) by (now apply Rinv_0_lt_compat). rewrite Xle_t by lra. clear - EH EL P LH. unfold slab. cbn [lbx ubx].
      split; [intros t; split; intros [A B]; split; nra|]. split; [apply Xlt_f; nra|]. intros _. split; eexists; reflexivity.
Qed.
Lemma slab_pair (EB : exact_backend BK) (o d lo hi : R) : lo <= hi -> d = 0 /\ recip_zero_inf \/ eps < Rabs d ->
  exists l u, (if fle fzero (lane_reciprocal (Fin d)) then (fmul (Fin (lo - o)) (lane_reciprocal (Fin d)), fmul (Fin (hi - o)) (lane_reciprocal (Fin d)))
    else (fmul (Fin (hi - o)) (lane_reciprocal (Fin d)), fmul (Fin (lo - o)) (lane_reciprocal (Fin d)))) = (l, u) /\ slab o d lo hi l u.
Proof.
  intros L Q. assert (P := slab_axis EB o d lo hi L ltac:(tauto)). cbv zeta in P.
  assert (Z : d = 0 -> recip_zero_inf). { destruct Q as [[? ?]|Q]; auto. intros E. pose proof eps_pos. rewrite E, Rabs_R0 in Q. lra. }
  specialize (P Z). destruct (fle fzero (lane_reciprocal (Fin d))); do 2 eexists; (split; [reflexivity|exact P]).
Qed.
Lemma slab_reject l u t : flt u l = true -> lbx l t -> ubx u t -> False.
Proof. destruct l, u; try (cbv [flt xreal_ops xlt lbx ubx]; (tauto || discriminate)). cbn. rewrite Xlt_iff. intros; lra. Qed.
Lemma slab_lo l1 l2 t : lbx (if flt l1 l2 || fisnan l1 then l2 else l1) t <-> lbx l1 t /\ lbx l2 t.
Proof.
  destruct l1 as [x| | |], l2 as [y| | |]; try (cbv [flt fisnan xreal_ops xlt orb lbx]; tauto). cbn. destruct (Rlt_or_le x y) as [L|L]; [rewrite Xlt_t by auto|rewrite Xlt_f by auto]; cbn; intuition lra.
Qed.
Lemma slab_hi u1 u2 t : ubx (if flt u2 u1 || fisnan u1 then u2 else u1) t <-> ubx u1 t /\ ubx u2 t.
Proof.
  destruct u1 as [x| | |], u2 as [y| | |]; try (cbv [flt fisnan xreal_ops xlt orb ubx]; tauto). cbn. destruct (Rlt_or_le y x) as [L|L]; [rewrite Xlt_t by auto|rewrite Xlt_f by auto]; cbn; intuition lra.
Qed.
Lemma slab_ok l1 u1 l2 u2 : flt u1 l1 = false -> flt u2 l2 = false -> flt u2 l1 || flt u1 l2 = false ->
  flt (if flt u2 u1 || fisnan u1 then u2 else u1) (if flt l1 l2 || fisnan l1 then l2 else l1) = false.
Proof. intros A B C. apply orb_false_iff in C as [C D]. destruct (flt u2 u1 || _), (flt l1 l2 || _); auto. Qed.
Lemma slab_fin l1 u1 l2 u2 : flt u2 l1 || flt u1 l2 = false -> isFx l1 u1 \/ isFx l2 u2 ->
  isFx (if flt l1 l2 || fisnan l1 then l2 else l1) (if flt u2 u1 || fisnan u1 then u2 else u1).
Proof.
  intros C. apply orb_false_iff in C as [C D]. unfold isFx. intros [[[x ->] [y ->]]|[[x ->] [y ->]]].
  - split; [destruct l2 as [z| | |]|destruct u2 as [z| | |]]; cbv [flt fisnan xreal_ops xlt orb] in * ; try discriminate; eauto; match goal with |- context [Rlt_dec ?a ?b] => destruct (Rlt_dec a b) end; eauto.
  - split; [destruct l1 as [z| | |]|destruct u1 as [z| | |]]; cbv [flt fisnan xreal_ops xlt orb] in * ; try discriminate; eauto; match goal with |- context [Rlt_dec ?a ?b] => destruct (Rlt_dec a b) end; eauto.
Qed.

Theorem C55_intersect_box : forall r o d lo hi, exact_backend BK -> rray r o d -> d <> vzero ->
  (forall k, k = X3 d \/ k = Y3 d \/ k = Z3 d -> k = 0 /\ recip_zero_inf \/ eps < Rabs k) ->
  X3 lo <= X3 hi /\ Y3 lo <= Y3 hi /\ Z3 lo <= Z3 hi ->
  let hits t := 0 <= t /\ in_box lo hi (along o d t) in
  let b := box_init (Some (at3 lo)) (Some (at3 hi)) in
  (ray_intersects_box r b = true <-> exists t, hits t) /\
  match ray_intersect_box r b with
  | (HitNone, t) => t = Fin 0 /\ forall t', ~ hits t'
  | (HitEnter, t) => exists t0, t = Fin t0 /\ hits t0 /\ (forall t', hits t' -> t0 <= t')
  | (HitLeave, t) => exists t0, t = Fin t0 /\ hits t0 /\ (forall t', hits t' -> t' <= t0) /\ in_box lo hi o
  end.
Proof.
  intros r o d lo hi EB [Ho Hd] DZ DC (Lx & Ly & Lz) hits b. unfold ray_get_direction in Hd.
  assert (RES : match ray_intersect_box r b with
  | (HitNone, t) => t = Fin 0 /\ forall t', ~ hits t'
  | (HitEnter, t) => exists t0, t = Fin t0 /\ hits t0 /\ (forall t', hits t' -> t0 <= t')
  | (HitLeave, t) => exists t0, t = Fin t0 /\ hits t0 /\ (forall t', hits t' -> t' <= t0) /\ in_box lo hi o
  end).
  { unfold ray_intersect_box. cbv zeta. apply is3_v3 in Ho. apply is3_v3 in Hd. rewrite Ho, Hd.
    set (ox := X3 o) in * . set (oy := Y3 o) in * . set (oz := Z3 o) in * . set (dx := X3 d) in * . set (dy := Y3 d) in * . set (dz := Z3 d) in * .
    change (vec3_get_x (g_reciprocal _)) with (lane_reciprocal (Fin dx)). change (vec3_get_y (g_reciprocal _)) with (lane_reciprocal (Fin dy)). change (vec3_get_z (g_reciprocal _)) with (lane_reciprocal (Fin dz)).
    change (vec3_get_x (vec3_multiply (vec3_subtract (bmin b) _) _)) with (fmul (Fin (X3 lo - ox)) (lane_reciprocal (Fin dx))).
    change (vec3_get_x (vec3_multiply (vec3_subtract (bmax b) _) _)) with (fmul (Fin (X3 hi - ox)) (lane_reciprocal (Fin dx))).
    change (vec3_get_y (vec3_multiply (vec3_subtract (bmin b) _) _)) with (fmul (Fin (Y3 lo - oy)) (lane_reciprocal (Fin dy))).
    change (vec3_get_y (vec3_multiply (vec3_subtract (bmax b) _) _)) with (fmul (Fin (Y3 hi - oy)) (lane_reciprocal (Fin dy))).
    change (vec3_get_z (vec3_multiply (vec3_subtract (bmin b) _) _)) with (fmul (Fin (Z3 lo - oz)) (lane_reciprocal (Fin dz))).
    change (vec3_get_z (vec3_multiply (vec3_subtract (bmax b) _) _)) with (fmul (Fin (Z3 hi - oz)) (lane_reciprocal (Fin dz))).
    assert (GX := slab_pair EB ox dx (X3 lo) (X3 hi) Lx (DC dx ltac:(auto))). assert (GY := slab_pair EB oy dy (Y3 lo) (Y3 hi) Ly (DC dy ltac:(auto))).
    assert (GZ := slab_pair EB oz dz (Z3 lo) (Z3 hi) Lz (DC dz ltac:(auto))).
    destruct GX as (lx & ux & -> & SX). destruct GY as (ly & uy & -> & SY). destruct GZ as (lz & uz & -> & SZ). cbv iota beta.
    destruct SX as (SX & OX & FX). destruct SY as (SY & OY & FY). destruct SZ as (SZ & OZ & FZ).
    assert (IB : forall t, in_box lo hi (along o d t) <-> (lbx lx t /\ ubx ux t) /\ (lbx ly t /\ ubx uy t) /\ (lbx lz t /\ ubx uz t)).
    { intros t. rewrite SX, SY, SZ. reflexivity. }
    assert (ANY : isFx lx ux \/ isFx ly uy \/ isFx lz uz).
    { destruct (Req_dec dx 0) as [E1|E1]; [|auto]. destruct (Req_dec dy 0) as [E2|E2]; [|auto]. destruct (Req_dec dz 0) as [E3|E3]; [|auto].
      exfalso. apply DZ. apply R3_ext; auto. }
    destruct (flt uy lx || flt ux ly) eqn:R1.
    { split; [reflexivity|]. intros t' [_ H]. apply IB in H. apply orb_true_iff in R1 as [R1|R1]; apply (slab_reject _ _ t' R1); tauto. }
    set (l2 := if flt lx ly || fisnan lx then ly else lx). set (u2 := if flt uy ux || fisnan ux then uy else ux).
    destruct (flt uz l2 || flt u2 lz) eqn:R2.
    { split; [reflexivity|]. intros t' [_ H]. apply IB in H. apply orb_true_iff in R2 as [R2|R2]; apply (slab_reject _ _ t' R2); try tauto; [apply slab_lo|apply slab_hi]; tauto. }
    assert (O2 : flt u2 l2 = false) by (apply slab_ok; auto).
    assert (O3 := slab_ok _ _ _ _ O2 OZ R2).
    assert (F3 := slab_fin _ _ _ _ R2 (ltac:(destruct ANY as [A|[A|A]]; [left; apply slab_fin; auto|left; apply slab_fin; auto|right; exact A]))).
    assert (I3 : forall t, in_box lo hi (along o d t) <-> lbx (if flt l2 lz || fisnan l2 then lz else l2) t /\ ubx (if flt uz u2 || fisnan u2 then uz else u2) t).
    { intros t. rewrite IB, slab_lo, slab_hi. unfold l2, u2. rewrite slab_lo, slab_hi. tauto. }
    set (l3 := if flt l2 lz || fisnan l2 then lz else l2) in * . set (u3 := if flt uz u2 || fisnan u2 then uz else u2) in * .
    destruct F3 as [[l El] [u Eu]]. rewrite El, Eu in * . cbn [lbx ubx] in I3. apply Xlt_iff_f in O3. rewrite Xzero.
    destruct (Rlt_or_le u 0) as [U0|U0].
    { rewrite Xlt_t by auto. split; [reflexivity|]. intros t' [T' H]. apply I3 in H. lra. }
    rewrite Xlt_f by auto. destruct (Rle_or_lt 0 l) as [L0|L0].
    - rewrite Xle_t by auto. exists l. split; [reflexivity|]. split; [split; [auto|apply I3; lra]|]. intros t' [_ H]. apply I3 in H. lra.
    - rewrite Xle_f by auto. exists u. split; [reflexivity|]. split; [split; [auto|apply I3; lra]|]. split; [intros t' [_ H]; apply I3 in H; lra|].
      replace o with (along o d 0) by (unfold along; r3). apply I3. lra. }
  split; [|exact RES]. unfold ray_intersects_box. destruct (ray_intersect_box r b) as [[] t]; cbn [fst hit_any].
  - split; [discriminate|]. intros [t' H]. exfalso. destruct RES as [_ N]. eapply N; eauto.
  - split; [|reflexivity]. intros _. destruct RES as (t0 & _ & H & _). eauto.
  - split; [|reflexivity]. intros _. destruct RES as (t0 & _ & H & _). eauto.
Qed.

(** ** C56: ray-triangle *)
Definition in_tri (a b c p : R3) : Prop :=
  exists u v, 0 <= u /\ 0 <= v /\ u + v <= 1 /\ p = vplus a (vplus (vscal u (vminus b a)) (vscal v (vminus c a))).
Theorem C56_intersect_triangle : forall r o d t a b c t_old, rray r o d -> rtri t a b c ->
  let N := cross (vminus b a) (vminus c a) in
  eps <= Rabs (dot d N) ->
  let hits k := 0 <= k /\ in_tri a b c (along o d k) in
  (ray_intersects_triangle r t = true <-> exists k, hits k) /\
  match ray_intersect_triangle r t t_old with
  | (HitNone, k) => k = t_old /\ forall k', ~ hits k'
  | (h, k) => exists k0, k = Fin k0 /\ hits k0 /\ (forall k', hits k' -> k' = k0) /\ (h = HitLeave <-> 0 < dot d N)
  end.
Proof.
  intros r o d t a b c t_old [Ho Hd] (Ha & Hb & Hc) N HN hits. unfold ray_get_direction in Hd.
  set (e1 := vminus b a). set (e2 := vminus c a). set (q := vminus o a).
  set (D := dot d N). set (U := dot d (cross q e2)). set (W := dot d (cross e1 q)). set (T := - dot q N).
  assert (D0 : D <> 0). { intros E. unfold D in E. rewrite E, Rabs_R0 in HN. pose proof eps_pos. lra. }
  assert (HIT : forall k, hits k <-> 0 <= k /\ k * D = T /\ exists u v, 0 <= u /\ 0 <= v /\ u + v <= 1 /\ u * D = U /\ v * D = W).
  { intros k. unfold hits, in_tri. split.
    - intros [K (u & v & u0 & v0 & uv & E)]. split; auto.
      assert (E' : vplus q (vscal k d) = vplus (vscal u e1) (vscal v e2)).
      { assert (Ex := f_equal X3 E). assert (Ey := f_equal Y3 E). assert (Ez := f_equal Z3 E). unfold along, q, e1, e2 in * .
        cbn [X3 Y3 Z3 vplus vminus vscal] in * . apply R3_ext; cbn [X3 Y3 Z3 vplus vminus vscal]; lra. }
      split; [|exists u, v; repeat split; auto].
      + transitivity (dot (vplus q (vscal k d)) N - dot q N). { unfold D. rewrite dot_plus_l, dot_scal_l. ring. }
        rewrite E'. unfold T, N. fold e1 e2. unfold dot, cross, vplus, vscal; simpl; ring.
      + transitivity (dot d (cross (vplus (vscal u e1) (vscal v e2)) e2)). { unfold D, N. fold e1 e2. unfold dot, cross, vplus, vscal; simpl; ring. }
        rewrite <- E'. unfold U. unfold dot, cross, vplus, vscal; simpl; ring.
      + transitivity (dot d (cross e1 (vplus (vscal u e1) (vscal v e2)))). { unfold D, N. fold e1 e2. unfold dot, cross, vplus, vscal; simpl; ring. }
        rewrite <- E'. unfold W. unfold dot, cross, vplus, vscal; simpl; ring.
    - intros (K & ET & u & v & u0 & v0 & uv & EU & EV). split; auto. exists u, v. repeat split; auto.
      assert (ID : vplus (vscal D q) (vscal T d) = vplus (vscal U e1) (vscal W e2)).
      { unfold D, T, U, W, N. fold e1 e2. apply R3_ext; unfold dot, cross, vplus, vscal; simpl; ring. }
      assert (E' : vplus q (vscal k d) = vplus (vscal u e1) (vscal v e2)).
      { rewrite <- ET, <- EU, <- EV in ID. assert (Ex := f_equal X3 ID). assert (Ey := f_equal Y3 ID). assert (Ez := f_equal Z3 ID).
        cbn [X3 Y3 Z3 vplus vscal] in * . apply R3_ext; cbn [X3 Y3 Z3 vplus vscal]; apply (Rmult_eq_reg_r D); auto; lra. }
      unfold along. fold e1 e2. rewrite <- E'. unfold q. r3. }
  assert (V1 := is3_sub _ _ _ _ Hb Ha). assert (V2 := is3_sub _ _ _ _ Hc Ha). assert (VQ := is3_sub _ _ _ _ Ho Ha). fold e1 in V1. fold e2 in V2. fold q in VQ.
  assert (VN := is3_cross BK _ _ _ _ V1 V2). change (cross e1 e2) with N in VN.
  assert (EXX : forall k', hits k' -> k' = T / D). { intros k' H. apply HIT in H as (_ & E & _). rewrite <- E. field. auto. }
  assert (G : forall s s', s = 1 /\ 0 < D /\ s' = Fin 1 \/ s = -1 /\ D < 0 /\ s' = Fin (-1) ->
     (exists k, hits k) <-> 0 <= s * U /\ 0 <= s * W /\ s * U + s * W <= s * D /\ 0 <= s * T).
  { intros s s' HS. split.
    - intros [k H]. apply HIT in H as (K & ET & u & v & u0 & v0 & uv & EU & EV). rewrite <- ET, <- EU, <- EV. destruct HS as [(-> & S & _)|(-> & S & _)]; repeat split; nra.
    - intros (A & B & C & E). exists (T / D). apply HIT.
      assert (P : 0 < s * D) by (destruct HS as [(-> & S & _)|(-> & S & _)]; lra).
      assert (s <> 0) by (destruct HS as [(-> & S & _)|(-> & S & _)]; lra).
      assert (P' : 0 < / (s * D)) by (now apply Rinv_0_lt_compat).
      assert (FR : forall x, x / D = (s * x) * / (s * D)) by (intros; field; auto).
      split; [rewrite FR; nra|]. split; [field; auto|]. exists (U / D), (W / D).
      repeat split; try (field; auto); [rewrite FR; nra|rewrite FR; nra|]. rewrite !FR, <- Rmult_plus_distr_r.
      apply (Rmult_le_reg_r (s * D)); auto. rewrite Rmult_assoc, Rinv_l by lra. lra. }
  assert (EQ0 : forall sg, fmul (fneg (Fin sg)) (Fin (dot q N)) = Fin (sg * T)) by (intros; rewrite Xneg, Xmul; f_equal; unfold T; ring).
  assert (RES : forall told, match ray_intersect_triangle r t told with
  | (HitNone, k) => k = told /\ forall k', ~ hits k'
  | (h, k) => exists k0, k = Fin k0 /\ hits k0 /\ (forall k', hits k' -> k' = k0) /\ (h = HitLeave <-> 0 < D)
  end).
  { intros told. unfold ray_intersect_triangle. cbv zeta. rewrite (is3_dot BK _ _ _ _ Hd VN). change (dot d N) with D. rewrite Xzero.
    replace (approx_val (Fin D) (Fin 0)) with false by (symmetry; apply X_approx_f; rewrite Rminus_0_r; exact HN).
    rewrite (is3_dot BK _ _ _ _ Hd (is3_cross BK _ _ _ _ VQ V2)), (is3_dot BK _ _ _ _ Hd (is3_cross BK _ _ _ _ V1 VQ)), (is3_dot BK _ _ _ _ VQ VN). fold U W.
    destruct (Rlt_or_le 0 D) as [P|P]; [rewrite Xlt_t by auto|rewrite Xlt_f by auto].
    - assert (G1 := G 1 (Fin 1) (ltac:(auto))). rewrite Xone, !Xmul, EQ0, Xadd.
      destruct (Rlt_or_le (1 * U) 0) as [A|A]; [rewrite Xlt_t by auto; split; [reflexivity|intros k' H]; assert (Q : exists k, hits k) by eauto; apply G1 in Q; lra|rewrite (Xlt_f (1 * U)) by auto].
      destruct (Rlt_or_le (1 * W) 0) as [B|B]; [rewrite Xlt_t by auto; split; [reflexivity|intros k' H]; assert (Q : exists k, hits k) by eauto; apply G1 in Q; lra|rewrite (Xlt_f (1 * W)) by auto].
      destruct (Rlt_or_le D (1 * U + 1 * W)) as [C|C]; [rewrite Xlt_t by auto; split; [reflexivity|intros k' H]; assert (Q : exists k, hits k) by eauto; apply G1 in Q; lra|rewrite (Xlt_f D) by auto].
      destruct (Rlt_or_le (1 * T) 0) as [E|E]; [rewrite Xlt_t by auto; split; [reflexivity|intros k' H]; assert (Q : exists k, hits k) by eauto; apply G1 in Q; lra|rewrite (Xlt_f (1 * T)) by auto].
      assert (Q : exists k, hits k) by (apply G1; repeat split; lra). destruct Q as [k Hk]. exists (T / D).
      split; [rewrite Xdiv by auto; f_equal; field; auto|]. split; [rewrite <- (EXX k Hk); auto|]. split; [exact EXX|tauto].
    - assert (D < 0) by lra. assert (G1 := G (-1) (Fin (-1)) (ltac:(auto))). rewrite xm1, !Xmul, EQ0, Xadd, (Xneg D).
      destruct (Rlt_or_le (-1 * U) 0) as [A|A]; [rewrite Xlt_t by auto; split; [reflexivity|intros k' Hk]; assert (Q : exists k, hits k) by eauto; apply G1 in Q; lra|rewrite (Xlt_f (-1 * U)) by auto].
      destruct (Rlt_or_le (-1 * W) 0) as [B|B]; [rewrite Xlt_t by auto; split; [reflexivity|intros k' Hk]; assert (Q : exists k, hits k) by eauto; apply G1 in Q; lra|rewrite (Xlt_f (-1 * W)) by auto].
      destruct (Rlt_or_le (- D) (-1 * U + -1 * W)) as [C|C]; [rewrite Xlt_t by auto; split; [reflexivity|intros k' Hk]; assert (Q : exists k, hits k) by eauto; apply G1 in Q; lra|rewrite (Xlt_f (- D)) by auto].
      destruct (Rlt_or_le (-1 * T) 0) as [E|E]; [rewrite Xlt_t by auto; split; [reflexivity|intros k' Hk]; assert (Q : exists k, hits k) by eauto; apply G1 in Q; lra|rewrite (Xlt_f (-1 * T)) by auto].
      assert (Q : exists k, hits k) by (apply G1; repeat split; lra). destruct Q as [k Hk]. exists (T / D).
      split; [rewrite Xdiv by lra; f_equal; field; auto|]. split; [rewrite <- (EXX k Hk); auto|]. split; [exact EXX|]. split; [discriminate|lra]. }
  split; [|exact (RES t_old)]. unfold ray_intersects_triangle. specialize (RES fzero). destruct (ray_intersect_triangle r t fzero) as [[] k]; cbn [fst hit_any].
  - split; [discriminate|]. intros [t' H]. exfalso. destruct RES as [_ NN]. eapply NN; eauto.
  - split; [|reflexivity]. intros _. destruct RES as (t0 & _ & H & _). eauto.
  - split; [|reflexivity]. intros _. destruct RES as (t0 & _ & H & _). eauto.
Qed.
(** A ray almost parallel to the triangle's plane always misses, and *t_out keeps what the
    caller left there. *)
Theorem C56_parallel_misses : forall r o d t a b c t_old, rray r o d -> rtri t a b c ->
  Rabs (dot d (cross (vminus b a) (vminus c a))) < eps -> ray_intersect_triangle r t t_old = (HitNone, t_old) /\ ray_intersects_triangle r t = false.
Proof.
  intros r o d t a b c t_old [Ho Hd] (Ha & Hb & Hc) HN. unfold ray_get_direction in Hd.
  assert (E : forall told, ray_intersect_triangle r t told = (HitNone, told)).
  { intros told. unfold ray_intersect_triangle. cbv zeta.
    rewrite (is3_dot BK _ _ _ _ Hd (is3_cross BK _ _ _ _ (is3_sub _ _ _ _ Hb Ha) (is3_sub _ _ _ _ Hc Ha))). rewrite Xzero.
    replace (approx_val _ _) with true; [reflexivity|]. symmetry. apply X_approx. rewrite Rminus_0_r. exact HN. }
  split; [apply E|]. unfold ray_intersects_triangle. now rewrite E.
Qed.
End S.

(** ** concrete cases *)
Definition ex_ray : ray xreal := Ry (rv 0 0 0 0) (rv 1 0 0 0).
Example ex_ray_ok : rray ex_ray vzero (mk3 1 0 0) /\ norm (mk3 1 0 0) = 1.
Proof. split; [repeat split|apply norm_unique; [lra|unfold dot; simpl; ring]]. Qed.
Example ex_hits_sphere (BK : Backend xreal) : exists t, ray_intersect_sphere ex_ray (sphere_init (Some (at3 (mk3 5 0 0))) (Fin 1)) = (HitEnter, Fin t) /\ dist (mk3 5 0 0) (along vzero (mk3 1 0 0) t) = 1.
Proof.
  assert (SP : rsphere (sphere_init (Some (at3 (mk3 5 0 0))) (Fin 1)) (mk3 5 0 0) 1) by (repeat split).
  destruct (C54_intersect_sphere BK ex_ray vzero (mk3 1 0 0) _ (mk3 5 0 0) 1 (proj1 ex_ray_ok) (proj2 ex_ray_ok) SP ltac:(lra)) as [_ H].
  assert (D4 : dist (mk3 5 0 0) (along vzero (mk3 1 0 0) 4) = 1) by (apply norm_unique; [lra|unfold dot; simpl; ring]).
  assert (DO : dist (mk3 5 0 0) vzero = 5) by (apply norm_unique; [lra|unfold dot; simpl; ring]).
  destruct (ray_intersect_sphere _ _) as [[] t].
  - exfalso. destruct H as [_ H]. apply (H 4). split; [lra|exact D4].
  - destruct H as (t0 & -> & [_ H] & _). eauto.
  - exfalso. destruct H as (t0 & _ & _ & H & _). lra.
Qed.
Example ex_hits_box : ray_intersects_box (B:=Gcc) ex_ray (box_init (Some (at3 (mk3 1 (-1) 0))) (Some (at3 (mk3 2 1 0)))) = true.
Proof.
  assert (DZ : mk3 1 0 0 <> vzero) by (intros E; assert (Q := f_equal X3 E); simpl in Q; lra).
  refine (proj2 (proj1 (C55_intersect_box Gcc ex_ray vzero (mk3 1 0 0) (mk3 1 (-1) 0) (mk3 2 1 0) I (proj1 ex_ray_ok) DZ _ _)) _).
  - intros k [-> |[-> | ->]]; simpl; [right; rewrite Rabs_pos_eq by lra; unfold eps; lra|left|left]; (split; [reflexivity|]); left; unfold lane_reciprocal, backend, rcp_guard;
    rewrite Xabs, xeps, Rabs_R0, Xlt_f by (pose proof eps_pos; lra); unfold fcopysign; simpl; destruct (Rlt_dec 0 0); try lra; reflexivity.
  - simpl; lra.
  - exists 1. split; [lra|]. repeat split; simpl; lra.
Qed.
Example ex_hits_triangle (BK : Backend xreal) : ray_intersects_triangle ex_ray (triangle_init_from_point3d (Some (at3 (mk3 2 (-1) (-1)))) (Some (at3 (mk3 2 3 (-1)))) (Some (at3 (mk3 2 (-1) 3)))) = true.
Proof.
  assert (TR : rtri (triangle_init_from_point3d (Some (at3 (mk3 2 (-1) (-1)))) (Some (at3 (mk3 2 3 (-1)))) (Some (at3 (mk3 2 (-1) 3)))) (mk3 2 (-1) (-1)) (mk3 2 3 (-1)) (mk3 2 (-1) 3)) by (repeat split).
  refine (proj2 (proj1 (C56_intersect_triangle BK ex_ray vzero (mk3 1 0 0) _ _ _ _ (Fin 7) (proj1 ex_ray_ok) TR _)) _).
  - unfold dot, cross, vminus; cbn [X3 Y3 Z3]. rewrite Rabs_pos_eq by lra. unfold eps; lra.
  - exists 2. split; [lra|]. exists (/4), (/4). repeat split; try lra. r3; lra.
Qed.
(** C55 without its lower bound on the direction's components fails: a component of
    modulus at most 2^-23 is treated as zero, so a ray that meets a far box is reported to
    miss it. *)
Theorem C55_tiny_component_refuted : exists (r : ray xreal) o d lo hi, rray r o d /\ X3 lo <= X3 hi /\ Y3 lo <= Y3 hi /\ Z3 lo <= Z3 hi /\
  ray_intersects_box (B:=Gcc) r (box_init (Some (at3 lo)) (Some (at3 hi))) = false /\ exists t, 0 <= t /\ in_box lo hi (along o d t).
Proof.
  exists (Ry (rv 0 0 0 0) (rv (eps / 2) 1 0 0)), vzero, (mk3 (eps / 2) 1 0), (mk3 1 16777215 (-1)), (mk3 2 16777217 1). simpl.
  split; [repeat split|]. split; [lra|]. split; [lra|]. split; [lra|]. split.
  - unfold ray_intersects_box, ray_intersect_box. cbv zeta.
    change (vec3_get_x (g_reciprocal _)) with (lane_reciprocal (B:=Gcc) (Fin (eps / 2))). change (vec3_get_y (g_reciprocal _)) with (lane_reciprocal (B:=Gcc) (Fin 1)).
    change (vec3_get_x (vec3_multiply (vec3_subtract (bmin _) _) _)) with (fmul (Fin (1 - 0)) (lane_reciprocal (B:=Gcc) (Fin (eps / 2)))).
    change (vec3_get_x (vec3_multiply (vec3_subtract (bmax _) _) _)) with (fmul (Fin (2 - 0)) (lane_reciprocal (B:=Gcc) (Fin (eps / 2)))).
    change (vec3_get_y (vec3_multiply (vec3_subtract (bmin _) _) _)) with (fmul (Fin (16777215 - 0)) (lane_reciprocal (B:=Gcc) (Fin 1))).
    change (vec3_get_y (vec3_multiply (vec3_subtract (bmax _) _) _)) with (fmul (Fin (16777217 - 0)) (lane_reciprocal (B:=Gcc) (Fin 1))).
    replace (lane_reciprocal (B:=Gcc) (Fin (eps / 2))) with PInf.
    2:{ unfold lane_reciprocal, backend, rcp_guard. pose proof eps_pos. rewrite Xabs, xeps, Xlt_f by (rewrite Rabs_pos_eq; lra). unfold fcopysign; cbn. destruct (Rlt_dec (eps / 2) 0); [lra|reflexivity]. }
    rewrite (X_reciprocal Gcc I 1) by (try (rewrite Rabs_pos_eq by lra); unfold eps; lra).
    change (fle fzero PInf) with true. rewrite Xzero, Xle_t by lra. rewrite !xmul_inf_p, !Xmul. unfold xsgn_inf. destruct (Rlt_dec 0 (1 - 0)); [|lra]. reflexivity.
  - exists 16777216. split; [lra|]. unfold in_box, along; simpl. unfold eps. lra.
Qed.
