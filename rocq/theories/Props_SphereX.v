(** * Props_SphereX: spheres (C51) in exact arithmetic. [rsphere s c r]: the sphere s has
    centre c and radius r. *)
From Coq Require Import ZArith Reals Bool List Lra Lia Psatz.
From Flocq Require Import Core.
From Verif Require Import Num Simd Vec Rect Box Mat Geo OrdThy XSetup Props_VecX RMat Props_MatX RGeo GeoBase.
Import ListNotations.
Local Open Scope R_scope.

Section S.
Context (BK : Backend xreal).
Lemma X_dsq u v a b : is3 u a -> is3 v b -> distance_sq u v = Fin (dot (vminus a b) (vminus a b)).
Proof. intros A B. unfold distance_sq. cbv zeta. apply is3_dot; apply is3_sub; auto. Qed.

Lemma X_dot3rv a b c d a' b' c' d' : g_dot3_scalar (rv a b c d) (rv a' b' c' d') = Fin (a * a' + b * b' + c * c').
Proof. exact (X_dot3 BK a b c a' b' c' (Fin d) (Fin d')). Qed.
Theorem C51_init : forall c r, rsphere (sphere_init (Some (at3 c)) (Fin r)) c r /\ sphere_get_center (sphere_init (Some (at3 c)) (Fin r)) = at3 c.
Proof. intros c r. repeat split. Qed.
(** contains_point: the closed ball *)
Theorem C51_contains_point : forall s c r p, rsphere s c r -> 0 <= r -> (sphere_contains_point s (at3 p) = true <-> dist c p <= r).
Proof.
  intros s c r p [Hc Hr] R0. unfold sphere_contains_point, sphere_get_radius in * . rewrite Hr, (X_dsq _ _ c p) by (auto using is3_of_at3). rewrite Xmul.
  unfold dist. rewrite norm_le by assumption. rewrite <- Xle_iff. destruct (fle _ _); tauto.
Qed.
(** A negative radius behaves like its absolute value for contains_point, while is_empty
    calls the sphere empty. *)
Theorem C51_negative_radius_refuted : forall s c r p, rsphere s c r -> r < 0 ->
  sphere_is_empty (Some s) = true /\ (sphere_contains_point s (at3 p) = true <-> dist c p <= - r).
Proof.
  intros s c r p [Hc Hr] R0. unfold sphere_is_empty, sphere_contains_point, sphere_get_radius in * . rewrite Hr, (X_dsq _ _ c p) by (auto using is3_of_at3). rewrite Xmul.
  split; [apply Xle_t; lra|]. unfold dist. rewrite norm_le by lra. replace (- r * - r) with (r * r) by ring. rewrite <- Xle_iff. destruct (fle _ _); tauto.
Qed.
Theorem C51_is_empty : forall s c r, rsphere s c r -> (sphere_is_empty (Some s) = true <-> r <= 0).
Proof. intros s c r [Hc Hr]. unfold sphere_is_empty, sphere_get_radius in * . rewrite Hr. apply Xle_iff. Qed.
Theorem C51_distance : forall s c r p, rsphere s c r -> sphere_distance s (at3 p) = Fin (dist c p - r).
Proof.
  intros s c r p [Hc Hr]. unfold sphere_distance, sphere_get_radius in * . rewrite Hr, (X_dsq _ _ c p) by (auto using is3_of_at3).
  rewrite Xsqrt by apply dot_nonneg. reflexivity.
Qed.
(** distance is non-positive exactly on the sphere's points *)
Theorem C51_distance_sign : forall s c r p, rsphere s c r -> 0 <= r ->
  (sphere_contains_point s (at3 p) = true <-> fle (sphere_distance s (at3 p)) fzero = true).
Proof.
  intros s c r p S R0. rewrite (C51_distance s c r p S), (C51_contains_point s c r p S R0). rewrite (Xle_iff _ 0). split; intros; lra.
Qed.
(** ** construction from any number of points *)
Lemma X_lmin a b : lane_min (Fin a) (Fin b) = Fin (Rmin a b).
Proof.
  unfold lane_min, backend, Rmin. assert (T : (if flt (Fin a) (Fin b) then Fin a else Fin b) = Fin (if Rle_dec a b then a else b)).
  { destruct (Rle_dec a b) as [L|L]; [|rewrite Xlt_f by lra; reflexivity]. destruct (Rle_lt_or_eq_dec _ _ L) as [L'|L']; [now rewrite Xlt_t|]. subst. destruct (flt (Fin b) (Fin b)); reflexivity. }
  destruct BK; auto. change (fisnan (Fin a)) with false; change (fisnan (Fin b)) with false; cbv iota. destruct (Rle_dec a b) as [L|L].
  - destruct (Rle_lt_or_eq_dec _ _ L) as [L'|L']; [now rewrite Xlt_t|]. subst. rewrite !Xlt_f by lra. destruct (fsignbit _); reflexivity.
  - rewrite Xlt_f, Xlt_t by lra. reflexivity.
Qed.
Lemma X_lmax a b : lane_max (Fin a) (Fin b) = Fin (Rmax a b).
Proof.
  unfold lane_max, backend, Rmax. assert (T : (if flt (Fin b) (Fin a) then Fin a else Fin b) = Fin (if Rle_dec a b then b else a)).
  { destruct (Rle_dec a b) as [L|L]; [rewrite Xlt_f by lra; reflexivity|]. rewrite Xlt_t by lra. reflexivity. }
  destruct BK; auto. change (fisnan (Fin a)) with false; change (fisnan (Fin b)) with false; cbv iota. destruct (Rle_dec a b) as [L|L].
  - destruct (Rle_lt_or_eq_dec _ _ L) as [L'|L']; [now rewrite Xlt_f, Xlt_t by lra|]. subst. rewrite !Xlt_f by lra. destruct (fsignbit _); reflexivity.
  - rewrite Xlt_t by lra. reflexivity.
Qed.
Lemma expand_real b v lo hi a : is3 (bmin b) lo -> is3 (bmax b) hi -> is3 v a ->
  exists lo' hi', is3 (bmin (box_expand_vec3 b v)) lo' /\ is3 (bmax (box_expand_vec3 b v)) hi'.
Proof.
  intros (A1 & A2 & A3) (B1 & B2 & B3) (C1 & C2 & C3).
  exists (mk3 (Rmin (X3 lo) (X3 a)) (Rmin (Y3 lo) (Y3 a)) (Rmin (Z3 lo) (Z3 a))), (mk3 (Rmax (X3 hi) (X3 a)) (Rmax (Y3 hi) (Y3 a)) (Rmax (Z3 hi) (Z3 a))).
  unfold vec3_get_x, vec3_get_y, vec3_get_z, g_get_x, g_get_y, g_get_z in * .
  unfold box_expand_vec3, box_expand_simd4f, g_min, g_max, map2, is3, vec3_get_x, vec3_get_y, vec3_get_z, g_get_x, g_get_y, g_get_z. cbn [bmin bmax vx vy vz X3 Y3 Z3].
  rewrite A1, A2, A3, B1, B2, B3, C1, C2, C3, !X_lmin, !X_lmax. repeat split.
Qed.
Lemma expand_first v a : is3 v a -> is3 (bmin (box_expand_vec3 box_empty v)) a /\ is3 (bmax (box_expand_vec3 box_empty v)) a.
Proof.
  intros (C1 & C2 & C3). unfold vec3_get_x, vec3_get_y, vec3_get_z, g_get_x, g_get_y, g_get_z in * .
  unfold box_expand_vec3, box_expand_simd4f, g_min, g_max, map2, is3, vec3_get_x, vec3_get_y, vec3_get_z, g_get_x, g_get_y, g_get_z, box_empty, g_init. cbn [bmin bmax vx vy vz].
  rewrite C1, C2, C3. unfold lane_min, lane_max, backend. destruct BK; repeat split.
Qed.
Lemma fold_real vs : forall l b lo hi, Forall2 is3 vs l -> is3 (bmin b) lo -> is3 (bmax b) hi ->
  exists lo' hi', is3 (bmin (fold_left box_expand_vec3 vs b)) lo' /\ is3 (bmax (fold_left box_expand_vec3 vs b)) hi'.
Proof.
  induction vs as [|v vs IH]; intros l b lo hi F A B; [eauto|]. inversion F; subst. simpl. edestruct expand_real as (lo' & hi' & A' & B'); eauto.
Qed.
Lemma center_real vs l : Forall2 is3 vs l -> exists c, box_get_center (box_init_from_vectors vs) = at3 c.
Proof.
  intros F. destruct F as [|v a vs l Ha F]; [exists vzero; reflexivity|]. unfold box_init_from_vectors. simpl.
  destruct (expand_first v a Ha) as [A B]. destruct (fold_real vs l _ a a F A B) as (lo & hi & L & H). set (b := fold_left _ _ _) in * .
  exists (vscal (/ 2) (vplus lo hi)). unfold box_get_center.
  assert (E1 : box_is_empty b = false /\ box_is_infinity b = false).
  { destruct L as (L1 & _). unfold vec3_get_x, g_get_x in L1. unfold box_is_empty, box_is_infinity. rewrite L1. split; reflexivity. }
  destruct E1 as [-> ->]. cbn [orb]. apply at3_of_is3. rewrite xhalf. apply is3_scale, is3_add; auto.
Qed.
Lemma fold_max (c : V) (cr : R3) vs : is3 c cr -> forall l m, Forall2 is3 vs l ->
  exists m', fold_left (fun m v => ffmax m (distance_sq c v)) vs (Fin m) = Fin m' /\ m <= m' /\
    (forall p, In p l -> dot (vminus cr p) (vminus cr p) <= m') /\ (m' = m \/ exists p, In p l /\ dot (vminus cr p) (vminus cr p) = m').
Proof.
  intros Hc. induction vs as [|v vs IH]; intros l m F; inversion F as [|? a ? l' Ha F']; subst.
  - exists m. simpl. split; [reflexivity|]. split; [lra|]. split; [contradiction|auto].
  - simpl. rewrite (X_dsq _ _ _ _ Hc Ha), X_ffmax. destruct (IH l' (Rmax m (dot (vminus cr a) (vminus cr a))) F') as (m' & E & L & P & D).
    exists m'. split; [exact E|]. split; [eapply Rle_trans; [apply Rmax_l|exact L]|]. split.
    + intros p [<-|Hp]; [eapply Rle_trans; [apply Rmax_r|exact L]|auto].
    + destruct D as [->|(p & Hp & Ep)]; [|right; exists p; simpl; auto]. unfold Rmax. destruct (Rle_dec m _); [right; exists a; simpl; auto|left; reflexivity].
Qed.
Theorem C51_init_from_vectors : forall (vs : list V) (l : list R3) (center : option R3), Forall2 is3 vs l ->
  let s := sphere_init_from_vectors vs (option_map at3 center) in
  exists c r, rsphere s c r /\ 0 <= r /\
    (forall p, In p l -> sphere_contains_point s (at3 p) = true) /\
    (l <> [] -> exists p, In p l /\ dist c p = r) /\
    match center with Some c0 => c = c0 | None => at3 c = box_get_center (box_init_from_vectors vs) end.
Proof.
  intros vs l center F s.
  assert (G : forall cv c, is3 cv c -> exists r, sradius (Sp cv (fsqrt (fold_left (fun m v => ffmax m (distance_sq cv v)) vs fzero))) = Fin r /\ 0 <= r /\ (forall p, In p l -> dist c p <= r) /\ (l <> [] -> exists p, In p l /\ dist c p = r)).
  { intros cv c Hc. destruct (fold_max cv c vs Hc l 0 F) as (m & E & L & P & D). exists (sqrt m). cbn [sradius]. rewrite Xzero, E, Xsqrt by lra. pose proof (sqrt_pos m). pose proof (sqrt_sqrt m L).
    split; [reflexivity|]. split; [assumption|]. split.
    - intros p Hp. unfold dist. apply norm_le; auto. rewrite H0. auto.
    - intros Hl. destruct D as [D|(p & Hp & Ep)].
      + destruct l as [|a l']; [congruence|]. exists a. split; [left; reflexivity|]. subst m. pose proof (P a (or_introl eq_refl)). pose proof (dot_nonneg (vminus c a)).
        rewrite sqrt_0. apply norm_unique; lra.
      + exists p. split; auto. unfold dist. apply norm_unique; auto. lra. }
  assert (Q : exists cv c, is3 cv c /\ s = Sp cv (fsqrt (fold_left (fun m v => ffmax m (distance_sq cv v)) vs fzero)) /\ match center with Some c0 => c = c0 | None => at3 c = box_get_center (box_init_from_vectors vs) end).
  { unfold s, sphere_init_from_vectors. destruct center as [c0|]; cbn [option_map].
    - exists (point3d_to_vec3 (at3 c0)), c0. split; [apply is3_of_at3|]. auto.
    - destruct (center_real vs l F) as [c Ec]. rewrite Ec. exists (point3d_to_vec3 (at3 c)), c. split; [apply is3_of_at3|]. auto. }
  destruct Q as (cv & c & Hc & Es & Hm). destruct (G cv c Hc) as (r & Hr & R0 & P & D). exists c, r. rewrite <- Es in Hr.
  assert (S : rsphere s c r) by (split; [rewrite Es; exact Hc|exact Hr]).
  split; [exact S|]. split; [exact R0|]. split; [intros p Hp; apply (C51_contains_point s c r p S R0); auto|]. auto.
Qed.
Lemma points_vectors l center : sphere_init_from_points (map at3 l) center = sphere_init_from_vectors (map (fun a => point3d_to_vec3 (at3 a)) l) center.
Proof.
  unfold sphere_init_from_points, sphere_init_from_vectors, box_init_from_points, box_init_from_vectors.
  assert (E : forall b, fold_left (fun b p => box_expand_vec3 b (point3d_to_vec3 p)) (map at3 l) b = fold_left box_expand_vec3 (map (fun a => point3d_to_vec3 (at3 a)) l) b).
  { induction l as [|a l IH]; intros b; [reflexivity|]. simpl. apply IH. }
  rewrite E. f_equal. f_equal. generalize (match center with Some c => point3d_to_vec3 c | None => point3d_to_vec3 (box_get_center (fold_left box_expand_vec3 (map (fun a => point3d_to_vec3 (at3 a)) l) box_empty)) end). intros c. clear E.
  generalize (fzero : xreal). induction l as [|a l IH]; intros m; [reflexivity|]. simpl. apply IH.
Qed.
Theorem C51_init_from_points : forall (l : list R3) (center : option R3),
  let s := sphere_init_from_points (map at3 l) (option_map at3 center) in
  exists c r, rsphere s c r /\ 0 <= r /\
    (forall p, In p l -> sphere_contains_point s (at3 p) = true) /\
    (l <> [] -> exists p, In p l /\ dist c p = r) /\
    match center with Some c0 => c = c0 | None => at3 c = box_get_center (box_init_from_points (map at3 l)) end.
Proof.
  intros l center s. unfold s. rewrite points_vectors.
  replace (box_init_from_points (map at3 l)) with (box_init_from_vectors (map (fun a => point3d_to_vec3 (at3 a)) l)).
  - apply C51_init_from_vectors. induction l; constructor; auto using is3_of_at3.
  - unfold box_init_from_points, box_init_from_vectors. generalize (box_empty : box xreal). induction l as [|a l IH]; intros b; [reflexivity|]. simpl. apply IH.
Qed.
(** ** bounding box *)
(** the API keeps the hidden lane of the centre at zero for spheres built from points *)
Theorem C51_bounding_box : forall c r, 0 <= r -> let s := sphere_init (Some (at3 c)) (Fin r) in
  (forall p, box_contains_point (sphere_get_bounding_box s) (at3 p) = true <-> X3 c - r <= X3 p <= X3 c + r /\ Y3 c - r <= Y3 p <= Y3 c + r /\ Z3 c - r <= Z3 p <= Z3 c + r) /\
  (forall p, sphere_contains_point s (at3 p) = true -> box_contains_point (sphere_get_bounding_box s) (at3 p) = true) /\
  (forall lo hi, (forall p, sphere_contains_point s (at3 p) = true -> in_box lo hi p) ->
     forall p, box_contains_point (sphere_get_bounding_box s) (at3 p) = true -> in_box lo hi p).
Proof.
  intros c r R0 s. assert (S : rsphere s c r) by (apply C51_init).
  assert (A : forall p, box_contains_point (sphere_get_bounding_box s) (at3 p) = true <-> X3 c - r <= X3 p <= X3 c + r /\ Y3 c - r <= Y3 p <= Y3 c + r /\ Z3 c - r <= Z3 p <= Z3 c + r).
  { intros p. replace (sphere_get_bounding_box s) with (Bx (rv (X3 c - r) (Y3 c - r) (Z3 c - r) (- r)) (rv (X3 c + r) (Y3 c + r) (Z3 c + r) r)).
    - rewrite (box_contains_gen (mk3 (X3 c - r) (Y3 c - r) (Z3 c - r)) (mk3 (X3 c + r) (Y3 c + r) (Z3 c + r))). unfold in_box; cbn [X3 Y3 Z3]. intuition lra.
    - unfold sphere_get_bounding_box, box_expand_scalar, s, sphere_init, box_init_from_vec3. cbn [scenter sradius bmin bmax]. rewrite xm1, Xmul.
      change (point3d_to_vec3 (at3 c)) with (rv (X3 c) (Y3 c) (Z3 c) 0). rewrite !rv_splat, !rv_add. f_equal; apply rv_eq; ring. }
  split; [exact A|].
  assert (IN : forall p, sphere_contains_point s (at3 p) = true -> Rabs (X3 p - X3 c) <= r /\ Rabs (Y3 p - Y3 c) <= r /\ Rabs (Z3 p - Z3 c) <= r).
  { intros p Hp. apply (C51_contains_point s c r p S R0) in Hp. unfold dist in Hp. apply norm_le in Hp; auto. unfold dot, vminus in Hp; simpl in Hp.
    assert (B : forall x, x * x <= r * r -> Rabs x <= r) by (intros x Hx; apply Rabs_le; nra).
    pose proof (Rle_0_sqr (X3 c - X3 p)); pose proof (Rle_0_sqr (Y3 c - Y3 p)); pose proof (Rle_0_sqr (Z3 c - Z3 p)). unfold Rsqr in * .
    split; [|split]; apply B; lra. }
  split.
  - intros p Hp. apply A. destruct (IN p Hp) as (B1 & B2 & B3). apply Rabs_le_inv in B1, B2, B3. lra.
  - intros lo hi H p Hp. apply A in Hp.
    assert (E : forall dx dy dz, dx * dx + dy * dy + dz * dz = r * r -> in_box lo hi (mk3 (X3 c + dx) (Y3 c + dy) (Z3 c + dz))).
    { intros dx dy dz E. apply H, (C51_contains_point s c r _ S R0). unfold dist. apply norm_le; auto. unfold dot, vminus; simpl. nra. }
    pose proof (E r 0 0 ltac:(ring)) as E1. pose proof (E (- r) 0 0 ltac:(ring)) as E2. pose proof (E 0 r 0 ltac:(ring)) as E3.
    pose proof (E 0 (- r) 0 ltac:(ring)) as E4. pose proof (E 0 0 r ltac:(ring)) as E5. pose proof (E 0 0 (- r) ltac:(ring)) as E6.
    unfold in_box in * ; cbn [X3 Y3 Z3] in * . lra.
Qed.
(** The bounding box of a sphere of positive radius is not contained in any box built by
    box_init, however large: expanding it also expanded the hidden lane. *)
Theorem C51_bounding_box_containment_refuted : forall c r lo hi, 0 < r ->
  box_contains_box (box_init (Some (at3 lo)) (Some (at3 hi))) (sphere_get_bounding_box (sphere_init (Some (at3 c)) (Fin r))) = false.
Proof.
  intros c r lo hi R0. unfold box_contains_box. replace (box_is_empty _) with false by reflexivity. replace (box_is_infinity _) with false by reflexivity.
  replace (box_is_infinity _) with false by reflexivity. replace (box_is_empty _) with false by reflexivity. cbn [orb].
  change (g_cmp_ge (bmin ?x) (bmin ?y)) with (fle (vx (bmin y)) (vx (bmin x)) && fle (vy (bmin y)) (vy (bmin x)) && fle (vz (bmin y)) (vz (bmin x)) && fle (vw (bmin y)) (vw (bmin x))).
  replace (fle (vw (bmin (box_init (Some (at3 lo)) (Some (at3 hi))))) _) with false; [rewrite andb_false_r; reflexivity|].
  symmetry. cbn. rewrite xm1, Xzero, Xmul, Xadd, Xle_f; [reflexivity|lra].
Qed.
(** matrix_transform_sphere leaves 1 in the hidden lane of the centre: the bounding box of a
    transformed sphere of radius below 1 contains no point at all. *)
Theorem C51_transformed_bounding_box_refuted : forall c r p, 0 <= r < 1 ->
  sphere_contains_point (matrix_transform_sphere (matrix_init_identity : mat xreal) (sphere_init (Some (at3 c)) (Fin r))) (at3 c) = true /\
  box_contains_point (sphere_get_bounding_box (matrix_transform_sphere matrix_init_identity (sphere_init (Some (at3 c)) (Fin r)))) (at3 p) = false.
Proof.
  intros c r p R0. assert (E : matrix_transform_sphere (matrix_init_identity : mat xreal) (sphere_init (Some (at3 c)) (Fin r)) = Sp (rv (X3 c) (Y3 c) (Z3 c) 1) (Fin r)).
  { unfold matrix_transform_sphere. change matrix_init_identity with (mt mI). cbn [sphere_init scenter sradius]. change (point3d_to_vec3 (at3 c)) with (vv (vec (X3 c) (Y3 c) (Z3 c) 0)). rewrite mt_point3.
    cbn [mt mx my mz]. unfold vv, mI; cbn [Nat.eqb]. rewrite !X_dot3rv, !X_ffmax. replace (Rmax _ _) with 1. 2:{ unfold Rmax. repeat destruct (Rle_dec _ _); lra. }
    rewrite Xsqrt, sqrt_1, Xmul by lra. unfold vmul, sum4, vec; cbn. f_equal; [apply rv_eq; ring|f_equal; ring]. }
  rewrite E. split.
  - apply (C51_contains_point _ c r); [repeat split| lra|]. unfold dist. replace (norm _) with 0; [lra|]. symmetry. apply norm_unique; [lra|]. unfold dot, vminus; simpl; ring.
  - match goal with |- ?b = false => destruct b eqn:Q; [|reflexivity] end. exfalso.
    replace (sphere_get_bounding_box _) with (Bx (rv (X3 c - r) (Y3 c - r) (Z3 c - r) (1 - r)) (rv (X3 c + r) (Y3 c + r) (Z3 c + r) (1 + r))) in Q.
    + apply (box_contains_gen (mk3 (X3 c - r) (Y3 c - r) (Z3 c - r)) (mk3 (X3 c + r) (Y3 c + r) (Z3 c + r))) in Q. lra.
    + unfold sphere_get_bounding_box, box_expand_scalar, box_init_from_vec3. cbn [scenter sradius bmin bmax]. rewrite xm1, Xmul. rewrite !rv_splat, !rv_add. f_equal; apply rv_eq; ring.
Qed.
(** translate moves the centre; the radius of the result is whatever res held before *)
Theorem C51_translate : forall s c r d old, rsphere s c r ->
  is3 (scenter (sphere_translate s (at3 d) old)) (vplus c d) /\ sphere_get_radius (sphere_translate s (at3 d) old) = sphere_get_radius old.
Proof. intros s c r d old [Hc Hr]. split; [apply is3_add; auto using is3_of_at3|reflexivity]. Qed.
Theorem C51_translate_radius_refuted : exists s d old, sphere_get_radius (sphere_translate s d old) <> sphere_get_radius s.
Proof. exists (sphere_init None (Fin 1)), (at3 vzero), (sphere_init None (Fin 0)). cbn. intros E; injection E; lra. Qed.
End S.
Example C51_ex : Forall2 is3 [v3 1 2 3 Undef; v3 0 0 0 (Fin 5)] [mk3 1 2 3; mk3 0 0 0].
Proof. repeat constructor. Qed.
