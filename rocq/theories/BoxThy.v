(** * BoxThy: axis-aligned boxes as sets of points (generic in the number system). *)

From Coq Require Import ZArith Reals Bool List Lia Permutation.
From Verif Require Import Num Simd Vec Rect Box OrdThy.
Import ListNotations.

(** ** Specification vocabulary *)
Section Spec.
Context {F : Type} {O : FOps F}.

(** The point [p] has no NaN coordinate. *)
Definition p3_nn (p : point3d F) : Prop := nonnan (p3x p) /\ nonnan (p3y p) /\ nonnan (p3z p).
(** [lo <= p <= hi] in each of the three coordinates (C's [<=]). *)
Definition between3 (lo hi p : point3d F) : Prop :=
  fle (p3x lo) (p3x p) = true /\ fle (p3x p) (p3x hi) = true /\
  fle (p3y lo) (p3y p) = true /\ fle (p3y p) (p3y hi) = true /\
  fle (p3z lo) (p3z p) = true /\ fle (p3z p) (p3z hi) = true.
(** A lane holding zero (either sign). *)
Definition is0 (x : F) : Prop := fle x fzero = true /\ fle fzero x = true.
(** A three-component vector as the API leaves it: the unused fourth lane is zero. *)
Definition vec3_clean (v : simd4f F) : Prop := is0 (vw v).
Definition vec3_nn (v : simd4f F) : Prop := nonnan (vx v) /\ nonnan (vy v) /\ nonnan (vz v).
(** A box whose corners are clean vectors without NaN. *)
Definition box_ok (b : box F) : Prop :=
  vec3_clean (bmin b) /\ vec3_clean (bmax b) /\ vec3_nn (bmin b) /\ vec3_nn (bmax b).
End Spec.

Ltac tr := match goal with |- fle ?a ?c = true =>
  match goal with H : fle a ?b = true |- _ =>
    match goal with H' : fle b c = true |- _ => exact (ol_trans _ _ _ H H') end end end.

Section BoxThy.
Context {F : Type} {O : FOps F} {OL : OrdLaws F} {B : Backend F}.
Notation V := (simd4f F).

Lemma is0_zero : is0 (fzero : F).
Proof. split; apply ol_refl, ol_zero. Qed.
Lemma is0_nn (x : F) : is0 x -> nonnan x.
Proof. intros [H _]. apply (ol_le_nn _ _ H). Qed.
Lemma is0_min (a b : F) : is0 a -> is0 b -> is0 (lane_min a b).
Proof. intros. destruct (lane_min_cases a b) as [->| ->]; auto. Qed.
Lemma is0_max (a b : F) : is0 a -> is0 b -> is0 (lane_max a b).
Proof. intros. destruct (lane_max_cases a b) as [->| ->]; auto. Qed.
Lemma is0_le (a b : F) : is0 a -> is0 b -> fle a b = true.
Proof. intros [H _] [_ H']. eapply ol_trans; eauto. Qed.

Lemma is_pinf_le (x : F) : is_pinf x = fle finf x.
Proof. apply ol_pinf. Qed.
Lemma is_ninf_le (x : F) : is_ninf x = fle x fninf.
Proof. apply ol_ninf_eq. Qed.
Lemma inf_not_ninf : fle (finf : F) fninf = false.
Proof. destruct (fle finf fninf) eqn:E; auto. exfalso.
  assert (fle fzero (fninf : F) = true) by (eapply ol_trans; [|exact E]; apply ol_le_inf, ol_zero).
  rewrite ol_ninf_zero in H; discriminate. Qed.

(** The visible corners. *)
Definition blo (b : box F) : point3d F := box_get_min b.
Definition bhi (b : box F) : point3d F := box_get_max b.

Definition bitween3 (lo hi p : point3d F) : bool :=
  fle (p3x lo) (p3x p) && fle (p3x p) (p3x hi) &&
  (fle (p3y lo) (p3y p) && fle (p3y p) (p3y hi)) &&
  (fle (p3z lo) (p3z p) && fle (p3z p) (p3z hi)).
Lemma between_iff lo hi p : bitween3 lo hi p = true <-> between3 lo hi p.
Proof. unfold bitween3, between3. rewrite !andb_true_iff. tauto. Qed.

Lemma between3_nn lo hi p : between3 lo hi p -> p3_nn p.
Proof. intros (k1&_&k2&_&k3&_). split; [|split]; [apply (ol_le_nn _ _ k1)|apply (ol_le_nn _ _ k2)|apply (ol_le_nn _ _ k3)]. Qed.
Lemma no_point_empty (b : box F) (p : point3d F) : box_is_empty b = true -> ~ between3 (blo b) (bhi b) p.
Proof.
  unfold box_is_empty, between3, blo, bhi, box_get_min, box_get_max; simpl. rewrite !andb_true_iff, !is_pinf_le, !is_ninf_le.
  intros [[[H _] _] [[H' _] _]] (Hx & Hx' & _).
  assert (fle (finf:F) fninf = true) by (repeat (eapply ol_trans; [eassumption|]); apply ol_refl, ol_ninf).
  rewrite inf_not_ninf in * ; discriminate.
Qed.

Lemma infinite_all (b : box F) (p : point3d F) : box_is_infinity b = true -> p3_nn p -> between3 (blo b) (bhi b) p.
Proof.
  unfold box_is_infinity, between3, blo, bhi, box_get_min, box_get_max; simpl. rewrite !andb_true_iff, !is_pinf_le, !is_ninf_le.
  intros [[[Hx Hy] Hz] [[Hx' Hy'] Hz']] (Px & Py & Pz).
  repeat split; first [ eapply (ol_trans _ fninf); [assumption|apply ol_ninf_le; assumption]
                      | eapply (ol_trans _ finf); [apply ol_le_inf; assumption|assumption] ].
Qed.

(** What containment means: the closed box between the visible corners; the infinite
    box also accepts NaN. *)
Lemma contains_point_iff (b : box F) (p : point3d F) : box_ok b ->
  (box_contains_point b p = true <-> between3 (blo b) (bhi b) p \/ box_is_infinity b = true).
Proof.
  intros (Hc & Hc' & Hn & Hn'). unfold box_contains_point.
  destruct (box_is_empty b) eqn:He.
  - split; [discriminate|]. intros [H|H].
    + exfalso; eapply no_point_empty; eauto.
    + exfalso. unfold box_is_empty, box_is_infinity in * .
      rewrite !andb_true_iff, ?is_pinf_le, ?is_ninf_le in * . destruct He as [[[He _] _] _], H as [[[H _] _] _].
      assert (fle (finf:F) fninf = true) by (eapply ol_trans; eauto). rewrite inf_not_ninf in * ; discriminate.
  - destruct (box_is_infinity b) eqn:Hi; [tauto|].
    unfold g_cmp_ge, g_cmp_le, all2; simpl. unfold between3, blo, bhi, box_get_min, box_get_max; simpl.
    destruct Hc as [Hc1 Hc2], Hc' as [Hc1' Hc2'].
    match goal with |- ((if ?c then true else false) = true) <-> _ => replace (if c then true else false) with c by (destruct c; auto) end.
    rewrite !andb_true_iff, Hc1, Hc2'. intuition discriminate.
Qed.
Lemma contains_point_nn (b : box F) (p : point3d F) : box_ok b -> p3_nn p ->
  (box_contains_point b p = true <-> between3 (blo b) (bhi b) p).
Proof. intros Hb Hp. rewrite contains_point_iff by easy. split; auto. intros [H|H]; auto using infinite_all. Qed.

(** ** building boxes *)
Lemma box_empty_ok : box_ok (box_empty : box F).
Proof. unfold box_ok, vec3_clean, vec3_nn; simpl. repeat split; auto using ol_inf, ol_ninf; apply is0_zero. Qed.
Lemma box_infinite_ok : box_ok (box_infinite : box F).
Proof. unfold box_ok, vec3_clean, vec3_nn; simpl. repeat split; auto using ol_inf, ol_ninf; apply is0_zero. Qed.
Lemma expand_ok (b : box F) (v : V) : box_ok b -> vec3_clean v -> vec3_nn v -> box_ok (box_expand_vec3 b v).
Proof.
  intros (Hc & Hc' & (Hx&Hy&Hz) & (Hx'&Hy'&Hz')) Hv (Vx&Vy&Vz).
  repeat split; simpl; auto using lane_min_nn, lane_max_nn; try (apply is0_min; auto); try (apply is0_max; auto).
Qed.
Lemma union_ok (a b : box F) : box_ok a -> box_ok b -> box_ok (box_union a b).
Proof.
  intros (Hc & Hc' & (Hx&Hy&Hz) & (Hx'&Hy'&Hz')) (Gc & Gc' & (Gx&Gy&Gz) & (Gx'&Gy'&Gz')).
  repeat split; simpl; auto using lane_min_nn, lane_max_nn; try (apply is0_min; auto); try (apply is0_max; auto).
Qed.
Lemma intersection_ok (a b : box F) : box_ok a -> box_ok b -> box_ok (snd (box_intersection a b)).
Proof.
  intros (Hc & Hc' & (Hx&Hy&Hz) & (Hx'&Hy'&Hz')) (Gc & Gc' & (Gx&Gy&Gz) & (Gx'&Gy'&Gz')).
  unfold box_intersection. destruct (negb _); [apply box_empty_ok|].
  repeat split; simpl; auto using lane_min_nn, lane_max_nn; try (apply is0_min; auto); try (apply is0_max; auto).
Qed.
Lemma box_init_ok (mn mx : point3d F) : p3_nn mn -> p3_nn mx -> box_ok (box_init (Some mn) (Some mx)).
Proof. intros (?&?&?) (?&?&?). repeat split; simpl; auto; apply is0_zero. Qed.
Lemma to_vec3_clean (p : point3d F) : vec3_clean (point3d_to_vec3 p).
Proof. apply is0_zero. Qed.

(** order between corners *)
Definition lower (b b' : box F) : Prop :=  (* b' extends at least as far as b *)
  fle (vx (bmin b')) (vx (bmin b)) = true /\ fle (vy (bmin b')) (vy (bmin b)) = true /\ fle (vz (bmin b')) (vz (bmin b)) = true /\
  fle (vx (bmax b)) (vx (bmax b')) = true /\ fle (vy (bmax b)) (vy (bmax b')) = true /\ fle (vz (bmax b)) (vz (bmax b')) = true.
Lemma lower_trans a b c : lower a b -> lower b c -> lower a c.
Proof. unfold lower. intros (?&?&?&?&?&?) (?&?&?&?&?&?). repeat split; tr. Qed.
Lemma lower_between a b p : lower a b -> between3 (blo a) (bhi a) p -> between3 (blo b) (bhi b) p.
Proof. unfold lower, between3; simpl. intros (?&?&?&?&?&?) (?&?&?&?&?&?). repeat split; tr. Qed.
Lemma lower_refl a : box_ok a -> lower a a.
Proof. intros (_&_&(?&?&?)&(?&?&?)). repeat split; apply ol_refl; auto. Qed.
Lemma infinite_lower a b : lower a b -> box_ok b -> box_is_infinity a = true -> box_is_infinity b = true.
Proof.
  unfold lower, box_is_infinity. rewrite !andb_true_iff, ?is_pinf_le, ?is_ninf_le.
  intros (?&?&?&?&?&?) _ (((?&?)&?)&((?&?)&?)). repeat split; tr.
Qed.
Lemma lower_contains a b p : box_ok a -> box_ok b -> lower a b ->
  box_contains_point a p = true -> box_contains_point b p = true.
Proof.
  intros Ha Hb L. rewrite !contains_point_iff by easy. intros [H|H].
  - left; eauto using lower_between.
  - right; eauto using infinite_lower.
Qed.
Lemma expand_lower b v : box_ok b -> vec3_nn v -> lower b (box_expand_vec3 b v).
Proof.
  intros (_&_&(?&?&?)&(?&?&?)) (?&?&?). repeat split; simpl; auto using lane_min_l, lane_max_l.
Qed.
Lemma expand_in b v : box_ok b -> vec3_nn v ->
  between3 (blo (box_expand_vec3 b v)) (bhi (box_expand_vec3 b v)) (P3 (vx v) (vy v) (vz v)).
Proof.
  intros (_&_&(?&?&?)&(?&?&?)) (?&?&?). repeat split; simpl; auto using lane_min_r, lane_max_r.
Qed.
Lemma expand_least b v c : box_ok b -> vec3_nn v -> lower b c ->
  between3 (blo c) (bhi c) (P3 (vx v) (vy v) (vz v)) -> lower (box_expand_vec3 b v) c.
Proof.
  intros (_&_&(?&?&?)&(?&?&?)) (?&?&?) (?&?&?&?&?&?) (?&?&?&?&?&?); simpl in * .
  repeat split; simpl; rewrite ?fle_min_iff, ?max_fle_iff by easy; apply andb_true_iff; auto.
Qed.

Definition as_point (v : V) : point3d F := P3 (vx v) (vy v) (vz v).

Lemma fold_expand_spec (vs : list V) : forall b,
  box_ok b -> Forall (fun v => vec3_clean v /\ vec3_nn v) vs ->
  let r := fold_left box_expand_vec3 vs b in
  box_ok r /\ lower b r /\ Forall (fun v => between3 (blo r) (bhi r) (as_point v)) vs /\
  (forall c, lower b c -> Forall (fun v => between3 (blo c) (bhi c) (as_point v)) vs -> lower r c).
Proof.
  induction vs as [|v vs IH]; intros b Hb Hvs r; subst r; simpl.
  - split; [exact Hb|]. split; [exact (lower_refl b Hb)|]. split; [constructor|]. intros; assumption.
  - inversion Hvs as [|? ? [Hc Hn] Hvs']; subst.
    specialize (IH (box_expand_vec3 b v) (expand_ok b v Hb Hc Hn) Hvs').
    destruct IH as (I1 & I2 & I3 & I4). split; [auto|]. split; [|split].
    + eapply lower_trans; [|exact I2]. now apply expand_lower.
    + constructor; auto. eapply lower_between; [exact I2|]. now apply expand_in.
    + intros c Lc Hcs. inversion Hcs; subst. apply I4; auto. apply expand_least; auto.
Qed.

Lemma empty_lower b : box_ok b -> lower box_empty b.
Proof. intros (_&_&(?&?&?)&(?&?&?)). repeat split; simpl; auto using ol_le_inf, ol_ninf_le. Qed.
Lemma lower_infinite b : box_ok b -> lower b box_infinite.
Proof. intros (_&_&(?&?&?)&(?&?&?)). repeat split; simpl; auto using ol_le_inf, ol_ninf_le. Qed.

Lemma from_vectors_spec (vs : list V) : Forall (fun v => vec3_clean v /\ vec3_nn v) vs ->
  let r := box_init_from_vectors vs in
  box_ok r /\ Forall (fun v => between3 (blo r) (bhi r) (as_point v)) vs /\
  (forall c, box_ok c -> Forall (fun v => between3 (blo c) (bhi c) (as_point v)) vs -> lower r c).
Proof.
  intros H r. destruct (fold_expand_spec vs box_empty box_empty_ok H) as (I1 & I2 & I3 & I4).
  split; [exact I1|]. split; [exact I3|]. intros c Hc Hcs. apply I4; auto using empty_lower.
Qed.

Lemma from_points_vectors (pts : list (point3d F)) :
  box_init_from_points pts = box_init_from_vectors (map point3d_to_vec3 pts).
Proof.
  unfold box_init_from_points, box_init_from_vectors. generalize (box_empty : box F).
  induction pts; simpl; auto.
Qed.

Lemma from_points_spec (pts : list (point3d F)) : Forall p3_nn pts ->
  let r := box_init_from_points pts in
  box_ok r /\ (forall p, In p pts -> between3 (blo r) (bhi r) p) /\
  (forall c, box_ok c -> (forall p, In p pts -> between3 (blo c) (bhi c) p) -> lower r c).
Proof.
  intros H r. subst r. rewrite from_points_vectors.
  assert (H' : Forall (fun v => vec3_clean v /\ vec3_nn v) (map point3d_to_vec3 pts)).
  { apply Forall_map. eapply Forall_impl; [|exact H]. intros p Hp. split; [apply to_vec3_clean|exact Hp]. }
  destruct (from_vectors_spec _ H') as (I1 & I2 & I3). split; [exact I1|]. split.
  - intros p Hp. rewrite Forall_map in I2. rewrite Forall_forall in I2. specialize (I2 p Hp). destruct p; exact I2.
  - intros c Hc Hcs. apply I3; auto. apply Forall_map, Forall_forall. intros p Hp. specialize (Hcs p Hp).
    destruct p; exact Hcs.
Qed.

(** ** lattice laws *)
Lemma union_l a b : box_ok a -> box_ok b -> lower a (box_union a b).
Proof.
  intros (_&_&(?&?&?)&(?&?&?)) (_&_&(?&?&?)&(?&?&?)). repeat split; simpl; auto using lane_min_l, lane_max_l.
Qed.
Lemma union_r a b : box_ok a -> box_ok b -> lower b (box_union a b).
Proof.
  intros (_&_&(?&?&?)&(?&?&?)) (_&_&(?&?&?)&(?&?&?)). repeat split; simpl; auto using lane_min_r, lane_max_r.
Qed.
Lemma union_least a b c : box_ok a -> box_ok b -> lower a c -> lower b c -> lower (box_union a b) c.
Proof.
  intros (_&_&(?&?&?)&(?&?&?)) (_&_&(?&?&?)&(?&?&?)) (?&?&?&?&?&?) (?&?&?&?&?&?).
  repeat split; simpl; rewrite ?fle_min_iff, ?max_fle_iff by easy; apply andb_true_iff; auto.
Qed.

Definition imin (a b : box F) : V := g_max (bmin a) (bmin b).
Definition imax (a b : box F) : V := g_min (bmax a) (bmax b).

Lemma inter_between a b p : box_ok a -> box_ok b ->
  (between3 (as_point (imin a b)) (as_point (imax a b)) p <->
   between3 (blo a) (bhi a) p /\ between3 (blo b) (bhi b) p).
Proof.
  intros (_&_&(?&?&?)&(?&?&?)) (_&_&(?&?&?)&(?&?&?)). unfold between3; simpl.
  rewrite ?fle_min_iff, ?max_fle_iff by easy. rewrite !andb_true_iff. tauto.
Qed.

Lemma inter_infinite a b : box_ok a -> box_ok b ->
  box_is_infinity (Bx (imin a b) (imax a b)) = box_is_infinity a && box_is_infinity b.
Proof.
  intros (_&_&(?&?&?)&(?&?&?)) (_&_&(?&?&?)&(?&?&?)). unfold box_is_infinity; simpl.
  rewrite !is_pinf_le, !is_ninf_le. rewrite ?fle_min_iff, ?max_fle_iff by easy.
  apply eq_true_iff_eq. rewrite !andb_true_iff. tauto.
Qed.

Lemma inter_cmp a b : box_ok a -> box_ok b ->
  (g_cmp_le (imin a b) (imax a b) = true <-> exists p, p3_nn p /\ between3 (blo a) (bhi a) p /\ between3 (blo b) (bhi b) p).
Proof.
  intros Ha Hb. split.
  - intros H. exists (as_point (imin a b)).
    pose proof (inter_between a b (as_point (imin a b)) Ha Hb) as I.
    destruct Ha as (_&_&(?&?&?)&(?&?&?)), Hb as (_&_&(?&?&?)&(?&?&?)).
    split; [repeat split; simpl; apply lane_max_nn; easy|]. apply I.
    unfold g_cmp_le, all2 in H. rewrite !andb_true_iff in H. destruct H as [[[Q1 Q2] Q3] Q4].
    repeat split; simpl; auto; apply ol_refl, lane_max_nn; auto.
  - intros (p & _ & H1 & H2). pose proof (proj2 (inter_between a b p Ha Hb) (conj H1 H2)) as (?&?&?&?&?&?).
    unfold g_cmp_le, all2. rewrite !andb_true_iff. repeat split; try (eapply ol_trans; eassumption).
    destruct Ha as (?&?&_), Hb as (?&?&_). simpl. apply is0_le; [apply is0_max|apply is0_min]; auto.
Qed.

Lemma intersection_spec a b : box_ok a -> box_ok b ->
  (fst (box_intersection a b) = true <-> exists p, box_contains_point a p = true /\ box_contains_point b p = true) /\
  (forall p, box_contains_point (snd (box_intersection a b)) p = true <->
             box_contains_point a p = true /\ box_contains_point b p = true).
Proof.
  intros Ha Hb. pose proof (intersection_ok a b Ha Hb) as Hok. revert Hok.
  unfold box_intersection. fold (imin a b) (imax a b).
  pose proof (inter_cmp a b Ha Hb) as I. destruct (g_cmp_le (imin a b) (imax a b)) eqn:E; simpl; intros Hok.
  - split.
    + split; auto. intros _. destruct (proj1 I eq_refl) as (p & Hp & H1 & H2). exists p.
      now rewrite !contains_point_nn by easy.
    + intros p. rewrite (contains_point_iff _ _ Hok), !contains_point_iff by easy.
      rewrite inter_infinite by easy. rewrite andb_true_iff.
      pose proof (inter_between a b p Ha Hb) as J. unfold blo at 1, bhi at 1, box_get_min, box_get_max.
      simpl. change (between3 (as_point (imin a b)) (as_point (imax a b)) p \/ box_is_infinity a = true /\ box_is_infinity b = true <->
        (between3 (blo a) (bhi a) p \/ box_is_infinity a = true) /\ (between3 (blo b) (bhi b) p \/ box_is_infinity b = true)).
      rewrite J. split; [tauto|]. intros [[K1|K1] [K2|K2]]; auto.
      * left. split; auto. apply infinite_all; auto. eauto using between3_nn.
      * left. split; auto. apply infinite_all; auto. eauto using between3_nn.
  - assert (N : forall p, ~ (box_contains_point a p = true /\ box_contains_point b p = true)).
    { intros p [H1 H2]. rewrite contains_point_iff in H1, H2 by easy.
      assert (K : between3 (blo a) (bhi a) p /\ between3 (blo b) (bhi b) p \/ box_is_infinity a = true /\ box_is_infinity b = true).
      { destruct H1 as [H1|H1], H2 as [H2|H2]; auto.
        - left; split; auto. apply infinite_all; auto. eauto using between3_nn.
        - left; split; auto. apply infinite_all; auto. eauto using between3_nn. }
      destruct K as [[K1 K2]|[K1 K2]].
      - assert (X : false = true) by (apply I; exists p; split; [|split]; eauto using between3_nn). discriminate.
      - assert (X : false = true). { apply I. exists (P3 fzero fzero fzero).
          assert (p3_nn (P3 (fzero : F) fzero fzero)) by (repeat split; apply ol_zero).
          split; [|split]; auto; apply infinite_all; auto. } discriminate. }
    split.
    + split; [discriminate|]. intros [p Hp]. exfalso; eapply N; eauto.
    + intros p. split; [|intros Hp; exfalso; eapply N; eauto].
      intros Hp. exfalso. revert Hp. unfold box_contains_point.
      replace (box_is_empty (box_empty : box F)) with true; [discriminate|].
      symmetry. unfold box_is_empty; simpl. rewrite !is_pinf_le, !is_ninf_le.
      rewrite !ol_refl; auto using ol_inf, ol_ninf.
Qed.

Lemma contains_box_lower a b : box_contains_box a b = true -> box_ok a -> box_ok b ->
  lower b a \/ box_is_empty b = true.
Proof.
  unfold box_contains_box. intros H Ha Hb.
  destruct (box_is_empty a || box_is_infinity b) eqn:E1; [discriminate|].
  destruct (box_is_infinity a || box_is_empty b) eqn:E2.
  - apply orb_true_iff in E2. destruct E2 as [E2|E2]; auto. left.
    eapply lower_trans; [apply lower_infinite; auto|]. unfold box_is_infinity in E2.
    rewrite !andb_true_iff, ?is_pinf_le, ?is_ninf_le in E2. unfold lower; simpl. tauto.
  - left. unfold g_cmp_ge, g_cmp_le, all2 in H.
    match goal with H : (if ?c then true else false) = true |- _ => assert (K : c = true) by (destruct c; auto); clear H end.
    rewrite !andb_true_iff in K. unfold lower; tauto.
Qed.

Lemma contains_box_points a b : box_ok a -> box_ok b -> box_contains_box a b = true ->
  forall p, box_contains_point b p = true -> box_contains_point a p = true.
Proof.
  intros Ha Hb H p Hp. destruct (contains_box_lower a b H Ha Hb) as [L|E].
  - eapply lower_contains; eauto.
  - unfold box_contains_point in Hp. rewrite E in Hp. discriminate.
Qed.

Definition box_nonempty (b : box F) : Prop :=
  fle (p3x (blo b)) (p3x (bhi b)) = true /\ fle (p3y (blo b)) (p3y (bhi b)) = true /\ fle (p3z (blo b)) (p3z (bhi b)) = true.

Lemma contains_box_complete a b : box_ok a -> box_ok b -> box_nonempty b -> box_is_infinity b = false ->
  (forall p, box_contains_point b p = true -> box_contains_point a p = true) -> box_contains_box a b = true.
Proof.
  intros Ha Hb (Nx & Ny & Nz) Hi H.
  assert (Hlo : p3_nn (blo b)) by apply Hb. assert (Hhi : p3_nn (bhi b)) by apply Hb.
  pose proof Hb as (Hc & Hc' & (Rx & Ry & Rz) & (Rx' & Ry' & Rz')).
  assert (Blo : between3 (blo b) (bhi b) (blo b)) by (repeat split; auto; apply ol_refl; assumption).
  assert (Bhi : between3 (blo b) (bhi b) (bhi b)) by (repeat split; auto; apply ol_refl; assumption).
  assert (Alo : between3 (blo a) (bhi a) (blo b)) by (apply contains_point_nn; auto; apply H, contains_point_nn; auto).
  assert (Ahi : between3 (blo a) (bhi a) (bhi b)) by (apply contains_point_nn; auto; apply H, contains_point_nn; auto).
  unfold box_contains_box. rewrite Hi, orb_false_r.
  destruct (box_is_empty a) eqn:Ea; [exfalso; eapply no_point_empty; eauto|].
  destruct (box_is_infinity a || box_is_empty b); auto.
  replace (g_cmp_ge (bmin b) (bmin a) && g_cmp_le (bmax b) (bmax a)) with true; auto. symmetry.
  unfold g_cmp_ge, g_cmp_le, all2. rewrite !andb_true_iff.
  destruct Alo as (?&_&?&_&?&_), Ahi as (_&?&_&?&_&?). destruct Ha as (?&?&_).
  repeat split; auto; apply is0_le; auto.
Qed.

Lemma contains_box_trans a b c : box_contains_box a b = true -> box_contains_box b c = true -> box_contains_box a c = true.
Proof.
  unfold box_contains_box.
  destruct (box_is_empty a), (box_is_infinity b) eqn:Ib; simpl; try discriminate.
  destruct (box_is_empty b) eqn:Eb, (box_is_infinity c) eqn:Ic; simpl; try discriminate.
  destruct (box_is_infinity a) eqn:Ia; simpl; auto.
  destruct (box_is_empty c) eqn:Ec; simpl; auto.
  unfold g_cmp_ge, g_cmp_le, all2.
  intros H1 H2.
  match goal with H : (if ?c then true else false) = true, H' : (if ?c' then true else false) = true |- _ =>
    assert (K : c = true) by (destruct c; auto); assert (K' : c' = true) by (destruct c'; auto); clear H H' end.
  rewrite !andb_true_iff in K, K'.
  match goal with |- (if ?c then true else false) = true => replace c with true; auto end.
  symmetry. rewrite !andb_true_iff. destruct K as [[[[? ?] ?] ?] [[[? ?] ?] ?]], K' as [[[[? ?] ?] ?] [[[? ?] ?] ?]]. repeat split; tr.
Qed.

Lemma contains_box_refl a : box_ok a -> box_is_empty a = false -> box_is_infinity a = false -> box_contains_box a a = true.
Proof.
  intros Ha E I. unfold box_contains_box. rewrite E, I; simpl.
  unfold g_cmp_ge, g_cmp_le, all2. destruct Ha as (?&?&(?&?&?)&(?&?&?)).
  rewrite !ol_refl; auto using is0_nn.
Qed.
End BoxThy.
