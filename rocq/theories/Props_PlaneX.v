(** * Props_PlaneX: planes (C50) in exact arithmetic.  The plane with normal n and
    constant c is the set of points p with n.p + c = 0 (RGeo's [dot]). *)
From Coq Require Import ZArith Reals Bool List Lra Lia Psatz.
From Flocq Require Import Core.
From Verif Require Import Num Simd Vec Rect Box Mat Geo OrdThy XSetup Props_VecX RMat Props_MatX RGeo GeoBase.
Import ListNotations.
Local Open Scope R_scope.

(** d is the Euclidean distance from p to the set S: attained, and nothing is nearer *)
Definition distance_to (S : R3 -> Prop) (p : R3) (d : R) : Prop :=
  (exists q, S q /\ dist p q = d) /\ (forall q, S q -> d <= dist p q).

(** the image of a point under an affine matrix, as a row vector *)
Definition aff_pt (A : RM) (a : R3) : R3 := mk3
    (X3 a * A 0%nat 0%nat + Y3 a * A 1%nat 0%nat + Z3 a * A 2%nat 0%nat + A 3%nat 0%nat)
    (X3 a * A 0%nat 1%nat + Y3 a * A 1%nat 1%nat + Z3 a * A 2%nat 1%nat + A 3%nat 1%nat)
    (X3 a * A 0%nat 2%nat + Y3 a * A 1%nat 2%nat + Z3 a * A 2%nat 2%nat + A 3%nat 2%nat).
Lemma aff_pt_ok A a : matrix_transform_point3d (mt A) (at3 a) = at3 (aff_pt A a).
Proof. apply (C25_transform_point3d_exact A). Qed.

(** the image of a direction *)
Definition lin_pt (A : RM) (a : R3) : R3 := mk3
    (X3 a * A 0%nat 0%nat + Y3 a * A 1%nat 0%nat + Z3 a * A 2%nat 0%nat)
    (X3 a * A 0%nat 1%nat + Y3 a * A 1%nat 1%nat + Z3 a * A 2%nat 1%nat)
    (X3 a * A 0%nat 2%nat + Y3 a * A 1%nat 2%nat + Z3 a * A 2%nat 2%nat).
Local Transparent rv.
Lemma is3_lin A v a : is3 v a -> is3 (matrix_transform_vec3 (mt A) v) (lin_pt A a).
Proof.
  rewrite (is3_v3 v). intros ->. unfold matrix_transform_vec3, gm_vec3_mul, mt, vv, rv, v3, lin_pt. repeat split; cbn; rewrite !Xmul, !Xadd; f_equal; ring.
Qed.
Section S.
Context (BK : Backend xreal).

Theorem C50_distance : forall pl n c p, rplane pl n c -> plane_distance pl (at3 p) = Fin (dot n p + c).
Proof. intros pl n c p [Hn Hc]. unfold plane_distance. unfold plane_get_normal, plane_get_constant in * . rewrite (is3_dot BK _ _ n p), Hc by (auto using is3_of_at3). reflexivity. Qed.
(** the plane through a point: exactly the points q with (q - p) orthogonal to the normal *)
Theorem C50_init_from_point : forall nv n p q, is3 nv n ->
  plane_distance (plane_init_from_point nv (at3 p)) (at3 q) = Fin (dot n (vminus q p)) /\ is3 (plane_get_normal (plane_init_from_point nv (at3 p))) n.
Proof.
  intros nv n p q Hn. assert (P : rplane (plane_init_from_point nv (at3 p)) n (dot p n * -1)).
  { split; [exact Hn|]. cbn. rewrite (is3_dot BK _ _ p n), xm1 by (auto using is3_of_at3). reflexivity. }
  rewrite (C50_distance _ _ _ q P), dot_minus_r, (dot_sym p n). split; [f_equal; ring|apply P].
Qed.
(** ** three points *)
Theorem C50_init_from_points : forall a b c : R3, exact_backend BK ->
  let m := cross (vminus c b) (vminus a b) in
  eps < norm m -> above_cutoff BK (dot m m) ->
  let pl := plane_init_from_points (at3 a) (at3 b) (at3 c) in
  (exists n, is3 (plane_get_normal pl) n /\ norm n = 1 /\ dot n (vminus b a) = 0 /\ dot n (vminus c a) = 0) /\
  plane_distance pl (at3 a) = Fin 0 /\ plane_distance pl (at3 b) = Fin 0 /\ plane_distance pl (at3 c) = Fin 0 /\
  (forall q, plane_distance pl (at3 q) = Fin 0 <-> dot m (vminus q a) = 0).
Proof.
  intros a b c EB m Hm Hc pl. pose proof eps_pos as E0.
  assert (Hn : is3 (vec3_normalize (vec3_cross (vec3_subtract (point3d_to_vec3 (at3 c)) (point3d_to_vec3 (at3 b))) (vec3_subtract (point3d_to_vec3 (at3 a)) (point3d_to_vec3 (at3 b))))) (vscal (/ norm m) m)).
  { apply is3_normalize; auto. apply is3_cross; apply is3_sub; apply is3_of_at3. }
  assert (D : forall q, plane_distance pl (at3 q) = Fin (/ norm m * dot m (vminus q a))).
  { intros q. destruct (C50_init_from_point _ _ a q Hn) as [E _]. unfold pl, plane_init_from_points. cbv zeta. rewrite E, dot_scal_l. reflexivity. }
  assert (M1 : dot m (vminus b a) = 0) by (unfold m, dot, cross, vminus; simpl; ring).
  assert (M2 : dot m (vminus c a) = 0) by (unfold m, dot, cross, vminus; simpl; ring).
  assert (M0 : dot m (vminus a a) = 0) by (unfold m, dot, cross, vminus; simpl; ring).
  split; [|split; [|split; [|split]]].
  - exists (vscal (/ norm m) m). split; [exact Hn|]. split; [now apply unit_norm|]. rewrite !dot_scal_l, M1, M2. split; ring.
  - rewrite D, M0. f_equal; ring.
  - rewrite D, M1. f_equal; ring.
  - rewrite D, M2. f_equal; ring.
  - intros q. rewrite D. split; [|intros ->; f_equal; ring]. intros E. injection E. intros E'.
    apply Rmult_integral in E' as [E'|E']; auto. exfalso. assert (0 < / norm m) by (apply Rinv_0_lt_compat; lra). lra.
Qed.
(** Collinear points give a plane with a zero normal that every point lies on. *)
Theorem C50_collinear_refuted : forall a b c q : R3, exact_backend BK ->
  cross (vminus c b) (vminus a b) = vzero -> plane_distance (plane_init_from_points (at3 a) (at3 b) (at3 c)) (at3 q) = Fin 0.
Proof.
  intros a b c q EB H. unfold plane_init_from_points. cbv zeta.
  destruct (C50_init_from_point (vec3_normalize (vec3_cross (vec3_subtract (point3d_to_vec3 (at3 c)) (point3d_to_vec3 (at3 b))) (vec3_subtract (point3d_to_vec3 (at3 a)) (point3d_to_vec3 (at3 b))))) vzero a q) as [E _].
  - apply (is3_normalize0 BK EB _ vzero).
    + rewrite <- H. apply is3_cross; apply is3_sub; apply is3_of_at3.
    + pose proof eps_pos. rewrite (norm_unique vzero 0); unfold dot; simpl; lra.
  - rewrite E. f_equal. unfold dot; simpl; ring.
Qed.
(** ** normalisation *)
Theorem C50_normalize : forall pl n c, exact_backend BK -> rplane pl n c -> eps < norm n -> above_cutoff BK (dot n n) ->
  (exists n' c', rplane (plane_normalize pl) n' c' /\ norm n' = 1) /\
  (forall p, plane_distance (plane_normalize pl) (at3 p) = Fin 0 <-> plane_distance pl (at3 p) = Fin 0) /\
  (forall p d, plane_distance (plane_normalize pl) (at3 p) = Fin d -> distance_to (fun q => plane_distance pl (at3 q) = Fin 0) p (Rabs d)) /\
  (forall p d, plane_distance (plane_normalize pl) (at3 p) = Fin d -> forall e, plane_distance pl (at3 p) = Fin e -> (0 <= d <-> 0 <= e)).
Proof.
  intros pl n c EB [Hn Hc] Hl Hcut. pose proof eps_pos as E0. pose proof norm_sq n as NS.
  assert (P : rplane (plane_normalize pl) (vscal (/ norm n) n) (c / norm n)).
  { split; [apply is3_normalize; auto|]. unfold plane_normalize, plane_get_constant, plane_get_normal in * . cbn [pl_c]. rewrite Hc, (is3_len BK EB _ n) by auto. apply Xdiv. lra. }
  assert (I : 0 < / norm n) by (apply Rinv_0_lt_compat; lra).
  assert (D : forall p, plane_distance (plane_normalize pl) (at3 p) = Fin ((dot n p + c) * / norm n)).
  { intros p. rewrite (C50_distance _ _ _ p P), dot_scal_l. f_equal. unfold Rdiv. ring. }
  assert (D0 : forall p, plane_distance pl (at3 p) = Fin (dot n p + c)) by (intros p; apply C50_distance; split; auto).
  split; [|split; [|split]].
  - exists (vscal (/ norm n) n), (c / norm n). split; auto. now apply unit_norm.
  - intros p. rewrite D, D0. split; intros E; injection E; intros E'; f_equal; [|rewrite E'; ring].
    apply Rmult_integral in E' as [E'|E']; lra.
  - intros p d. rewrite D. intros E. injection E. intros <-. clear E. split.
    + set (k := (dot n p + c) * / norm n). exists (vminus p (vscal (k * / norm n) n)). split.
      * rewrite D0. f_equal. rewrite dot_minus_r, dot_scal_r, <- NS. unfold k. field. lra.
      * unfold dist. replace (vminus p (vminus p (vscal (k * / norm n) n))) with (vscal (k * / norm n) n) by r3.
        rewrite norm_scal, Rabs_mult, (Rabs_pos_eq (/ norm n)) by lra. field. lra.
    + intros q Hq. rewrite D0 in Hq. injection Hq. intros Hq'. replace (dot n p + c) with (dot n (vminus p q)) by (rewrite dot_minus_r; lra).
      rewrite Rabs_mult, (Rabs_pos_eq (/ norm n)) by lra. pose proof (cauchy_abs n (vminus p q)) as CS. fold (dist p q) in CS.
      apply (Rmult_le_compat_r (/ norm n)) in CS; [|lra]. replace (norm n * dist p q * / norm n) with (dist p q) in CS by (field; lra). exact CS.
  - intros p d. rewrite D, D0. intros E e E'. injection E. injection E'. intros <- <-. split; intros; nra.
Qed.
(** A plane whose normal is shorter than 2^-23 loses its normal but not its constant. *)
Theorem C50_normalize_tiny_refuted : forall pl n c, exact_backend BK -> rplane pl n c -> 0 < norm n <= eps ->
  forall p, plane_distance (plane_normalize pl) (at3 p) = Fin (c / norm n).
Proof.
  intros pl n c EB [Hn Hc] Hl p. assert (P : rplane (plane_normalize pl) vzero (c / norm n)).
  { split; [apply (is3_normalize0 BK EB _ n); auto; lra|]. unfold plane_normalize, plane_get_constant, plane_get_normal in * . cbn [pl_c]. rewrite Hc, (is3_len BK EB _ n) by auto. apply Xdiv. lra. }
  rewrite (C50_distance _ _ _ p P). f_equal. unfold dot; simpl; ring.
Qed.
Theorem C50_negate : forall pl n c p d, rplane pl n c -> plane_distance pl (at3 p) = Fin d -> plane_distance (plane_negate pl) (at3 p) = Fin (- d).
Proof.
  intros pl n c p d P. assert (P' : rplane (plane_negate pl) (vscal (-1) n) (c * -1)).
  { destruct P as [Hn Hc]. split; [now apply is3_neg|]. cbn. unfold plane_get_constant in Hc. now rewrite Hc, xm1, Xmul. }
  rewrite (C50_distance _ _ _ p P), (C50_distance _ _ _ p P'). intros E; injection E; intros <-. f_equal. rewrite dot_scal_l. ring.
Qed.
(** ** transformation *)
(** by an invertible affine matrix, for a plane with a unit normal; the normal matrix is
    either left to the library or given as the transposed inverse *)
Theorem C50_transform : forall pl n c A, exact_backend BK -> rplane pl n c -> norm n = 1 -> affine A -> eps < Rabs (det 4 A) ->
  exists I, matrix_inverse (mt A) = Some (mt I) /\
  forall m nm, nm = None \/ nm = Some (matrix_transpose (mt I)) ->
    is3 (matrix_transform_vec3 (matrix_transpose (mt I)) (plane_get_normal pl)) m -> eps < norm m -> above_cutoff BK (dot m m) ->
  exists pl', plane_transform pl (mt A) nm = Some pl' /\
    (exists n', is3 (plane_get_normal pl') n' /\ norm n' = 1) /\
    (forall p, plane_distance pl' (matrix_transform_point3d (mt A) (at3 p)) = Fin 0 <-> plane_distance pl (at3 p) = Fin 0).
Proof.
  intros pl n c A EB P Un Af D. pose proof eps_pos as E0. pose proof P as [Hn Hc]. unfold plane_get_normal, plane_get_constant in Hn, Hc.
  destruct (C28_inverse_points BK A EB Af D) as (I & EI & AI & RT). exists I. split; [exact EI|].
  intros m nm Hnm Hm Hl Hcut.
  pose proof (aff_pt_ok A) as TP. set (T := aff_pt A) in * . set (U := aff_pt I).
  assert (UT : forall a, U (T a) = a).
  { intros a. destruct (RT (X3 a) (Y3 a) (Z3 a)) as [R1 _]. change (pt3 (X3 a) (Y3 a) (Z3 a)) with (at3 a) in R1. rewrite TP, aff_pt_ok in R1.
    injection R1. intros. apply R3_ext; assumption. }
  assert (Em : m = lin_pt (mtr I) n).
  { eapply is3_inj; [exact Hm|]. unfold plane_get_normal. change (matrix_transpose (mt I)) with (mt (mtr I)). now apply is3_lin. }
  set (q := vscal (- c) n).
  assert (Hq : is3 (vec4_get_xyz (matrix_transform_vec4 (mt A) (vec4_init_from_vec3 (vec3_scale (pl_n pl) (fneg (plane_get_constant pl))) fone))) (T q)).
  { unfold plane_get_constant. rewrite Hc, Xneg. pose proof (is3_scale _ _ (- c) Hn) as Hs. fold q in Hs. rewrite is3_v3 in Hs. rewrite Hs.
    change (vec4_init_from_vec3 _ fone) with (vv (vec (X3 q) (Y3 q) (Z3 q) 1)). unfold matrix_transform_vec4. rewrite mt_vec4.
    unfold vmul, sum4, vec, vv, is3, T, aff_pt. repeat split; cbn; f_equal; ring. }
  set (pl' := plane_init (Some (vec3_normalize (matrix_transform_vec3 (matrix_transpose (mt I)) (pl_n pl))))
     (fneg (vec3_dot (vec3_normalize (matrix_transform_vec3 (matrix_transpose (mt I)) (pl_n pl)))
        (vec4_get_xyz (matrix_transform_vec4 (mt A) (vec4_init_from_vec3 (vec3_scale (pl_n pl) (fneg (plane_get_constant pl))) fone)))))).
  assert (Nm : is3 (vec3_normalize (matrix_transform_vec3 (matrix_transpose (mt I)) (pl_n pl))) (vscal (/ norm m) m)) by (apply is3_normalize; auto).
  assert (P' : rplane pl' (vscal (/ norm m) m) (- dot (vscal (/ norm m) m) (T q))).
  { split; [exact Nm|]. cbn. now rewrite (is3_dot BK _ _ _ _ Nm Hq), Xneg. }
  exists pl'. split.
  { unfold plane_transform. cbv zeta. destruct Hnm as [->| ->]; [rewrite EI|]; reflexivity. }
  split; [exists (vscal (/ norm m) m); split; [exact Nm|now apply unit_norm]|].
  intros p. rewrite TP, (C50_distance _ _ _ (T p) P'), (C50_distance _ _ _ p P).
  assert (KEY : dot m (vminus (T p) (T q)) = dot n (vminus p q)).
  { transitivity (dot n (vminus (U (T p)) (U (T q)))); [|now rewrite !UT]. rewrite Em. generalize (T p) (T q). intros a b. unfold U, lin_pt, mtr, aff_pt, dot, vminus; cbn [X3 Y3 Z3]. ring. }
  assert (Q : dot n q + c = 0). { unfold q. rewrite dot_scal_r. apply unit_dot in Un. rewrite Un. ring. }
  assert (E : dot (vscal (/ norm m) m) (T p) + - dot (vscal (/ norm m) m) (T q) = / norm m * (dot n p + c)).
  { rewrite !dot_scal_l. transitivity (/ norm m * dot m (vminus (T p) (T q))); [rewrite dot_minus_r; ring|]. rewrite KEY, dot_minus_r. f_equal. lra. }
  rewrite E. assert (0 < / norm m) by (apply Rinv_0_lt_compat; lra). split; intros G; injection G; intros G'; f_equal; [|rewrite G'; ring].
  apply Rmult_integral in G' as [G'|G']; lra.
Qed.
(** Without a unit normal even the identity matrix moves the plane: 2x - 2 = 0. *)
Theorem C50_transform_non_unit_refuted : exact_backend BK -> exists pl n c p, rplane pl n c /\ plane_distance pl (at3 p) = Fin 0 /\
  exists pl', plane_transform pl matrix_init_identity (Some matrix_init_identity) = Some pl' /\ plane_distance pl' (matrix_transform_point3d matrix_init_identity (at3 p)) = Fin (-3).
Proof.
  intros EB. exists (Pl (v3 2 0 0 (Fin 0)) (Fin (-2))), (mk3 2 0 0), (-2), (mk3 1 0 0).
  assert (P : rplane (Pl (v3 2 0 0 (Fin 0)) (Fin (-2))) (mk3 2 0 0) (-2)) by (repeat split). split; [exact P|].
  split; [rewrite (C50_distance _ _ _ _ P); f_equal; unfold dot; simpl; ring|].
  eexists. split; [reflexivity|].
  assert (N2 : norm (mk3 2 0 0) = 2) by (apply norm_unique; unfold dot; simpl; lra).
  assert (H1 : is3 (matrix_transform_vec3 matrix_init_identity (v3 2 0 0 (Fin 0))) (mk3 2 0 0)).
  { repeat split; cbn; rewrite ?Xone, ?Xzero, ?Xmul, ?Xadd; f_equal; ring. }
  assert (H2 : is3 (vec3_normalize (matrix_transform_vec3 matrix_init_identity (v3 2 0 0 (Fin 0)))) (vscal (/ 2) (mk3 2 0 0))).
  { replace (/ 2) with (/ norm (mk3 2 0 0)) by now rewrite N2. apply is3_normalize; auto; [rewrite N2|intros _; unfold dot; simpl]; unfold eps; lra. }
  assert (H3 : is3 (vec4_get_xyz (matrix_transform_vec4 matrix_init_identity (vec4_init_from_vec3 (vec3_scale (v3 2 0 0 (Fin 0)) (fneg (Fin (-2)))) fone))) (mk3 4 0 0)).
  { repeat split; cbn; rewrite ?Xone, ?Xzero, ?Xneg, ?Xmul, ?Xadd; f_equal; ring. }
  set (pl' := plane_init _ _). assert (P' : rplane pl' (vscal (/ 2) (mk3 2 0 0)) (- dot (vscal (/ 2) (mk3 2 0 0)) (mk3 4 0 0))).
  { split; [exact H2|]. cbn. now rewrite (is3_dot BK _ _ _ _ H2 H3), Xneg. }
  replace (matrix_transform_point3d matrix_init_identity (at3 (mk3 1 0 0))) with (at3 (mk3 1 0 0)).
  - rewrite (C50_distance _ _ _ _ P'). f_equal. unfold dot, vscal; simpl. field.
  - change matrix_init_identity with (mt mI). rewrite aff_pt_ok. unfold at3, aff_pt, mI; cbn. f_equal; f_equal; ring.
Qed.
End S.
(** the hypotheses can be met *)
Example C50_ex : let m := cross (vminus (mk3 0 1 0) (mk3 0 0 0)) (vminus (mk3 1 0 0) (mk3 0 0 0)) in eps < norm m /\ forall BK, above_cutoff BK (dot m m).
Proof. cbv zeta. replace (norm _) with 1 by (symmetry; apply norm_unique; unfold dot, cross, vminus; simpl; lra). split; [|intros BK _]; unfold eps, dot, cross, vminus; simpl; lra. Qed.
