(** * Props_Box: properties of graphene_box_t (C03, C17-C21), binary32, every back end.

    Vocabulary: [box_api b] - b was obtained by a finite sequence of API calls
    (Hist.v); [box_nn b] - its corners as reported by graphene_box_get_min/max hold no
    NaN; [p3_nn p] - p holds no NaN; [between3 lo hi p] - lo <= p <= hi in each
    coordinate (BoxThy.v). *)

From Coq Require Import ZArith Reals Bool List Lra Lia Permutation.
From Flocq Require Import Core BinarySingleNaN Mult_error.
From Verif Require Import Num Simd Vec Rect Box Mat Geo OrdThy FloatThy BoxThy Hist B32Setup.
Import ListNotations.

Notation P3b := (point3d b32).

(** ** C03: unused lanes *)
Theorem C03_vec3_unused_lane : forall (BK : Backend b32) (v : simd4f b32), vec3_api v -> is0 (vw v).
Proof. intros BK v H. exact (vec3_api_clean v H). Qed.
Theorem C03_vec2_unused_lanes : forall (BK : Backend b32) (v : simd4f b32), vec2_api v -> is0 (vz v) /\ is0 (vw v).
Proof. intros BK v H. exact (vec2_api_clean v H). Qed.
Theorem C03_box_unused_lanes : forall (BK : Backend b32) (b : box b32),
  box_api b -> is0 (vw (bmin b)) /\ is0 (vw (bmax b)).
Proof. intros BK b H. exact (box_api_clean b H). Qed.

(** Division leaves NaN in the unused lane on the GCC and SSE back ends, and a box
    made of such vectors contains no point. *)
Theorem C03_divide_refuted : forall BK : Backend b32,
  (BK = Gcc \/ exists a b c d, BK = Sse a b c d) ->
  exists u v : simd4f b32, vec3_api u /\ vec3_api v /\
    let q := vec3_divide u v in
    vec3_get_x q = fone /\ vec3_get_y q = fone /\ vec3_get_z q = fone /\
    box_contains_point (box_init_from_vec3 (Some vec3_zero) (Some q)) (P3 fone fone fone) = false /\
    box_contains_point (box_init_from_vec3 (Some vec3_zero) (Some vec3_one)) (P3 (fone : b32) fone fone) = true.
Proof.
  intros BK H. exists (vec3_init fone fone fone), (vec3_init fone fone fone).
  split; [constructor|]. split; [constructor|].
  destruct H as [->|(a & b & c & d & ->)]; cbv zeta; (split; [|split; [|split; [|split]]]); beq.
Qed.

(** ** What containment means *)
Theorem C18_contains_point_meaning : forall (BK : Backend b32) (b : box b32) (p : P3b),
  box_api b -> box_nn b -> p3_nn p ->
  (box_contains_point b p = true <-> between3 (box_get_min b) (box_get_max b) p).
Proof. intros BK b p Ha Hn Hp. apply (contains_point_nn b p (box_api_ok b Ha Hn) Hp). Qed.

(** ** C17: boxes from points *)
Lemma from_points_ok {BK : Backend b32} (pts : list P3b) : (forall p, In p pts -> p3_nn p) -> box_ok (box_init_from_points pts).
Proof. intros H. apply from_points_spec. now apply Forall_forall. Qed.

Theorem C17_points_contained : forall (BK : Backend b32) (pts : list P3b),
  (forall p, In p pts -> p3_nn p) ->
  forall p, In p pts -> box_contains_point (box_init_from_points pts) p = true.
Proof.
  intros BK pts H p Hp. destruct (from_points_spec pts (proj2 (Forall_forall _ _) H)) as (I1 & I2 & _).
  apply contains_point_iff; auto.
Qed.
Theorem C17_points_least : forall (BK : Backend b32) (pts : list P3b) (c : box b32),
  (forall p, In p pts -> p3_nn p) -> box_api c -> box_nn c ->
  (forall p, In p pts -> box_contains_point c p = true) ->
  forall q, box_contains_point (box_init_from_points pts) q = true -> box_contains_point c q = true.
Proof.
  intros BK pts c H Hc Hn Hin q. pose proof (box_api_ok c Hc Hn) as Ok.
  destruct (from_points_spec pts (proj2 (Forall_forall _ _) H)) as (I1 & _ & I3).
  apply lower_contains; auto. apply I3; auto. intros p Hp. apply contains_point_nn; auto.
Qed.
Theorem C17_points_order_irrelevant : forall (BK : Backend b32) (pts pts' : list P3b),
  (forall p, In p pts -> p3_nn p) -> Permutation pts pts' ->
  forall q, box_contains_point (box_init_from_points pts) q = box_contains_point (box_init_from_points pts') q.
Proof.
  assert (A : forall (BK : Backend b32) (pts pts' : list P3b), (forall p, In p pts -> p3_nn p) -> Permutation pts pts' ->
    forall q, box_contains_point (box_init_from_points pts) q = true -> box_contains_point (box_init_from_points pts') q = true).
  { intros BK pts pts' H Pm q.
    assert (H' : forall p, In p pts' -> p3_nn p) by (intros; apply H; eapply Permutation_in; [apply Permutation_sym|]; eauto).
    destruct (from_points_spec pts (proj2 (Forall_forall _ _) H)) as (I1 & _ & I3).
    destruct (from_points_spec pts' (proj2 (Forall_forall _ _) H')) as (J1 & J2 & _).
    apply lower_contains; auto. apply I3; auto. intros p Hp. apply J2. eapply Permutation_in; eauto. }
  intros BK pts pts' H Pm q. apply eq_true_iff_eq. split; apply A; auto using Permutation_sym.
  intros; apply H; eapply Permutation_in; [apply Permutation_sym|]; eauto.
Qed.
(** The same for arrays of vectors. *)
Theorem C17_vectors_contained : forall (BK : Backend b32) (vs : list (simd4f b32)),
  (forall v, In v vs -> vec3_api v /\ p3_nn (point3d_init_from_vec3 v)) ->
  forall v, In v vs -> box_contains_point (box_init_from_vectors vs) (point3d_init_from_vec3 v) = true.
Proof.
  intros BK vs H v Hv.
  assert (H' : Forall (fun v => vec3_clean v /\ vec3_nn v) vs).
  { apply Forall_forall. intros u Hu. destruct (H u Hu). split; auto using vec3_api_clean. }
  destruct (from_vectors_spec vs H') as (I1 & I2 & _). rewrite Forall_forall in I2.
  apply contains_point_iff; [assumption|]. left. exact (I2 v Hv).
Qed.
Theorem C17_vectors_least : forall (BK : Backend b32) (vs : list (simd4f b32)) (c : box b32),
  (forall v, In v vs -> vec3_api v /\ p3_nn (point3d_init_from_vec3 v)) -> box_api c -> box_nn c ->
  (forall v, In v vs -> box_contains_point c (point3d_init_from_vec3 v) = true) ->
  forall q, box_contains_point (box_init_from_vectors vs) q = true -> box_contains_point c q = true.
Proof.
  intros BK vs c H Hc Hn Hin q. pose proof (box_api_ok c Hc Hn) as Ok.
  assert (H' : Forall (fun v => vec3_clean v /\ vec3_nn v) vs).
  { apply Forall_forall. intros u Hu. destruct (H u Hu). split; auto using vec3_api_clean. }
  destruct (from_vectors_spec vs H') as (I1 & _ & I3).
  apply lower_contains; auto. apply I3; auto. apply Forall_forall. intros v Hv.
  apply (contains_point_nn c (point3d_init_from_vec3 v) Ok); [apply H; auto|]. now apply Hin.
Qed.
(** expand: the least box containing the old box and the new point *)
Theorem C17_expand : forall (BK : Backend b32) (b : box b32) (p : P3b),
  box_api b -> box_nn b -> p3_nn p ->
  box_contains_point (box_expand b p) p = true /\
  (forall q, box_contains_point b q = true -> box_contains_point (box_expand b p) q = true) /\
  (forall c, box_api c -> box_nn c -> (forall q, box_contains_point b q = true -> box_contains_point c q = true) ->
     fle (p3x (box_get_min b)) (p3x (box_get_max b)) = true -> fle (p3y (box_get_min b)) (p3y (box_get_max b)) = true ->
     fle (p3z (box_get_min b)) (p3z (box_get_max b)) = true ->
     box_contains_point c p = true ->
     forall q, box_contains_point (box_expand b p) q = true -> box_contains_point c q = true).
Proof.
  intros BK b p Ha Hn Hp. pose proof (box_api_ok b Ha Hn) as Ok.
  assert (Vn : vec3_nn (point3d_to_vec3 p)) by exact Hp.
  assert (Oe : box_ok (box_expand b p)) by exact (expand_ok b (point3d_to_vec3 p) Ok (to_vec3_clean p) Vn).
  assert (L : lower b (box_expand b p)) by exact (expand_lower b (point3d_to_vec3 p) Ok Vn).
  split; [|split].
  - apply contains_point_iff; auto. left. pose proof (expand_in b (point3d_to_vec3 p) Ok Hp) as I. destruct p; exact I.
  - intros q. now apply lower_contains.
  - intros c Hc Hcn Hall Nx Ny Nz Hcp q. pose proof (box_api_ok c Hc Hcn) as Okc. apply lower_contains; auto.
    apply (expand_least b (point3d_to_vec3 p)); auto.
    + assert (In1 : between3 (blo c) (bhi c) (blo b)).
      { apply contains_point_nn; auto; [apply Hn|]. apply Hall, contains_point_nn; auto; [apply Hn|].
        repeat split; auto; apply ol_refl; apply Hn. }
      assert (In2 : between3 (blo c) (bhi c) (bhi b)).
      { apply contains_point_nn; auto; [apply Hn|]. apply Hall, contains_point_nn; auto; [apply Hn|].
        repeat split; auto; apply ol_refl; apply Hn. }
      unfold between3, lower in * ; simpl in * ; tauto.
    + pose proof (proj1 (contains_point_nn c p Okc Hp) Hcp). destruct p; exact H.
Qed.
(** One NaN coordinate makes the box forget the points seen before it (not on NEON). *)
Theorem C17_nan_point_refuted :
  let BK : Backend b32 := Gcc in
  let p := P3 (lit 5 0) fzero fzero in
  let q := P3 (B754_nan : b32) fzero fzero in
  box_contains_point (box_init_from_points [p; q; P3 fzero fzero fzero]) p = false.
Proof. vm_compute. reflexivity. Qed.

(** ** C18: lattice *)
Theorem C18_intersection : forall (BK : Backend b32) (a b : box b32),
  box_api a -> box_nn a -> box_api b -> box_nn b ->
  (fst (box_intersection a b) = true <->
     exists p, box_contains_point a p = true /\ box_contains_point b p = true) /\
  (forall p, box_contains_point (snd (box_intersection a b)) p = true <->
     box_contains_point a p = true /\ box_contains_point b p = true).
Proof. intros BK a b Ha Na Hb Nb. apply intersection_spec; auto using box_api_ok. Qed.
Theorem C18_union_upper : forall (BK : Backend b32) (a b : box b32) (p : P3b),
  box_api a -> box_nn a -> box_api b -> box_nn b ->
  box_contains_point a p = true \/ box_contains_point b p = true -> box_contains_point (box_union a b) p = true.
Proof.
  intros BK a b p Ha Na Hb Nb. pose proof (box_api_ok a Ha Na). pose proof (box_api_ok b Hb Nb).
  intros [Hp|Hp]; revert Hp; apply lower_contains; auto using union_ok, union_l, union_r.
Qed.
Lemma nonempty_lower {BK : Backend b32} (b c : box b32) : box_ok b -> box_ok c -> box_nonempty b ->
  (forall p, box_contains_point b p = true -> box_contains_point c p = true) -> lower b c.
Proof.
  intros Hb Hc (Nx & Ny & Nz) H.
  assert (Q1 : p3_nn (blo b)) by apply Hb. assert (Q2 : p3_nn (bhi b)) by apply Hb.
  pose proof Q1 as (?&?&?). pose proof Q2 as (?&?&?).
  assert (I1 : between3 (blo c) (bhi c) (blo b)).
  { apply contains_point_nn; auto. apply H, contains_point_nn; auto. repeat split; auto; apply ol_refl; assumption. }
  assert (I2 : between3 (blo c) (bhi c) (bhi b)).
  { apply contains_point_nn; auto. apply H, contains_point_nn; auto. repeat split; auto; apply ol_refl; assumption. }
  unfold between3, lower in * ; simpl in * ; tauto.
Qed.
(** least: among boxes containing all points of two non-empty boxes *)
Theorem C18_union_least : forall (BK : Backend b32) (a b c : box b32),
  box_api a -> box_nn a -> box_api b -> box_nn b -> box_api c -> box_nn c ->
  (exists p, box_contains_point a p = true) -> (exists p, box_contains_point b p = true) ->
  (forall p, box_contains_point a p = true \/ box_contains_point b p = true -> box_contains_point c p = true) ->
  forall q, box_contains_point (box_union a b) q = true -> box_contains_point c q = true.
Proof.
  intros BK a b c Ha Na Hb Nb Hc Nc Ea Eb Hall q.
  pose proof (box_api_ok a Ha Na). pose proof (box_api_ok b Hb Nb). pose proof (box_api_ok c Hc Nc).
  assert (NE : forall x : box b32, box_ok x -> (exists p, box_contains_point x p = true) -> box_nonempty x).
  { intros x Hx [p Hp]. apply contains_point_iff in Hp; auto. destruct Hp as [(?&?&?&?&?&?)|I].
    - split; [|split]; tr.
    - pose proof (infinite_all x (P3 fzero fzero fzero) I ltac:(repeat split; apply ol_zero)) as (?&?&?&?&?&?).
      split; [|split]; tr. }
  apply lower_contains; auto using union_ok. apply union_least; auto; apply nonempty_lower; auto.
Qed.
Theorem C18_contains_box_sound : forall (BK : Backend b32) (a b : box b32),
  box_api a -> box_nn a -> box_api b -> box_nn b -> box_contains_box a b = true ->
  forall p, box_contains_point b p = true -> box_contains_point a p = true.
Proof. intros BK a b Ha Na Hb Nb. apply contains_box_points; auto using box_api_ok. Qed.
Theorem C18_contains_box_complete : forall (BK : Backend b32) (a b : box b32),
  box_api a -> box_nn a -> box_api b -> box_nn b ->
  (exists p, box_contains_point b p = true) -> box_equal_fn b box_infinite = false ->
  (forall p, box_contains_point b p = true -> box_contains_point a p = true) ->
  box_contains_box a b = true.
Proof.
  intros BK a b Ha Na Hb Nb [p Hp] Hi Hall.
  pose proof (box_api_ok a Ha Na). pose proof (box_api_ok b Hb Nb).
  assert (Ib : box_is_infinity b = false).
  { destruct (box_is_infinity b) eqn:I; auto. exfalso. revert Hi. unfold box_equal_fn. rewrite I.
    replace (box_is_empty (box_infinite : box b32)) with false by reflexivity.
    replace (box_is_infinity (box_infinite : box b32)) with true by reflexivity.
    rewrite andb_false_r. destruct (box_is_empty b) eqn:Ee; simpl; [|discriminate].
    unfold box_contains_point in Hp. rewrite Ee in Hp. discriminate. }
  apply contains_box_complete; auto.
  apply contains_point_iff in Hp; auto. destruct Hp as [(?&?&?&?&?&?)|I]; [|congruence]. split; [|split]; tr.
Qed.
Theorem C18_contains_box_transitive : forall (BK : Backend b32) (a b c : box b32),
  box_contains_box a b = true -> box_contains_box b c = true -> box_contains_box a c = true.
Proof. intros BK a b c. apply contains_box_trans. Qed.
Theorem C18_contains_box_reflexive : forall (BK : Backend b32) (a : box b32),
  box_api a -> box_nn a -> box_equal_fn a box_empty = false -> box_equal_fn a box_infinite = false ->
  box_contains_box a a = true.
Proof.
  intros BK a Ha Na He Hi. apply contains_box_refl; auto using box_api_ok.
  - destruct (box_is_empty a) eqn:E; auto. exfalso; revert He. unfold box_equal_fn. rewrite E. simpl. discriminate.
  - destruct (box_is_infinity a) eqn:I; auto. exfalso; revert Hi. unfold box_equal_fn. rewrite I.
    replace (box_is_empty (box_infinite : box b32)) with false by reflexivity.
    replace (box_is_infinity (box_infinite : box b32)) with true by reflexivity.
    rewrite andb_false_r. destruct (box_is_empty a) eqn:E; simpl; [|discriminate].
    intros _. revert He. unfold box_equal_fn. rewrite E. simpl. discriminate.
Qed.

(** ** C19: empty and infinite *)
Theorem C19_empty_contains_nothing : forall (BK : Backend b32) (p : P3b), box_contains_point box_empty p = false.
Proof. reflexivity. Qed.
Theorem C19_infinite_contains_everything : forall (BK : Backend b32) (p : P3b), box_contains_point box_infinite p = true.
Proof. reflexivity. Qed.
Theorem C19_union_empty : forall (BK : Backend b32) (b : box b32) (p : P3b), box_api b -> box_nn b ->
  box_contains_point (box_union b box_empty) p = box_contains_point b p /\
  box_contains_point (box_union box_empty b) p = box_contains_point b p.
Proof.
  intros BK b p Hb Nb. pose proof (box_api_ok b Hb Nb) as Ok. pose proof box_empty_ok (F:=b32) as Oe.
  split; apply eq_true_iff_eq; split; apply lower_contains; auto using union_ok, union_l, union_r;
    apply union_least; auto; solve [apply lower_refl; auto | apply empty_lower; auto].
Qed.
Theorem C19_intersection_infinite : forall (BK : Backend b32) (b : box b32) (p : P3b), box_api b -> box_nn b ->
  (box_contains_point (snd (box_intersection b box_infinite)) p = box_contains_point b p) /\
  (fst (box_intersection b box_infinite) = true <-> exists q, box_contains_point b q = true).
Proof.
  intros BK b p Hb Nb. pose proof (box_api_ok b Hb Nb) as Ok. pose proof box_infinite_ok (F:=b32) as Oe.
  destruct (intersection_spec b box_infinite Ok Oe) as [I1 I2]. split.
  - apply eq_true_iff_eq. rewrite I2. split; [tauto|]. auto.
  - rewrite I1. split; intros [q Hq]; exists q; [tauto|]; auto.
Qed.
Theorem C19_empty_contained : forall (BK : Backend b32) (b : box b32),
  box_equal_fn b box_empty = false -> box_contains_box b box_empty = true.
Proof.
  intros BK b H. unfold box_contains_box. replace (box_is_empty (box_empty : box b32)) with true by reflexivity.
  replace (box_is_infinity (box_empty : box b32)) with false by reflexivity. rewrite orb_true_r, orb_false_r.
  destruct (box_is_empty b) eqn:E; auto. revert H. unfold box_equal_fn. rewrite E. simpl. discriminate.
Qed.
Theorem C19_self_containment_refuted : forall BK : Backend b32,
  box_contains_box box_infinite (box_infinite : box b32) = false /\
  box_contains_box box_empty (box_empty : box b32) = false /\
  box_equal false (Some box_infinite) (Some (box_infinite : box b32)) = true /\
  box_equal false (Some box_empty) (Some (box_empty : box b32)) = true.
Proof. intros. repeat split; reflexivity. Qed.

(** ** C20: vertices and centre *)
Theorem C20_vertices_contained : forall (BK : Backend b32) (b : box b32) (v : simd4f b32),
  box_api b -> box_nn b -> (exists p, box_contains_point b p = true) ->
  In v (box_get_vertices b) -> box_contains_point b (point3d_init_from_vec3 v) = true.
Proof.
  intros BK b v Hb Nb [p Hp] Hv. pose proof (box_api_ok b Hb Nb) as Ok.
  apply contains_point_iff; auto. apply contains_point_iff in Hp; auto.
  destruct Hp as [(?&?&?&?&?&?)|Hp]; auto. left.
  pose proof Nb as [(?&?&?) (?&?&?)].
  simpl in Hv. unfold between3; simpl in * .
  repeat (destruct Hv as [<-|Hv]); try easy; simpl; repeat split; try (apply ol_refl; assumption); tr.
Qed.
Theorem C20_box_of_vertices : forall (BK : Backend b32) (b : box b32) (q : P3b),
  box_api b -> box_nn b -> (exists p, box_contains_point b p = true) ->
  box_contains_point (box_init_from_vectors (box_get_vertices b)) q = box_contains_point b q.
Proof.
  intros BK b q Hb Nb E. pose proof (box_api_ok b Hb Nb) as Ok. pose proof Nb as [(?&?&?) (?&?&?)].
  assert (H' : Forall (fun v => vec3_clean v /\ vec3_nn v) (box_get_vertices b)).
  { repeat constructor; simpl; auto; apply is0_fzero. }
  destruct (from_vectors_spec _ H') as (I1 & I2 & I3).
  assert (L1 : lower (box_init_from_vectors (box_get_vertices b)) b).
  { apply I3; auto. destruct E as [p Hp]. apply contains_point_iff in Hp; auto.
    assert (Ne : fle (vx (bmin b)) (vx (bmax b)) = true /\ fle (vy (bmin b)) (vy (bmax b)) = true /\ fle (vz (bmin b)) (vz (bmax b)) = true).
    { destruct Hp as [(?&?&?&?&?&?)|Hp]; [simpl in * ; split; [|split]; tr|].
      pose proof (infinite_all b (P3 fzero fzero fzero) Hp ltac:(repeat split; apply ol_zero)) as (?&?&?&?&?&?).
      simpl in * ; split; [|split]; tr. }
    destruct Ne as (?&?&?). simpl in * .
    repeat constructor; simpl; auto; apply ol_refl; assumption. }
  assert (L2 : lower b (box_init_from_vectors (box_get_vertices b))).
  { assert (V1 : In (vec3_init (vx (bmin b)) (vy (bmin b)) (vz (bmin b))) (box_get_vertices b)) by (simpl; auto).
    assert (V2 : In (vec3_init (vx (bmax b)) (vy (bmax b)) (vz (bmax b))) (box_get_vertices b)) by (simpl; auto 10).
    rewrite Forall_forall in I2. pose proof (I2 _ V1) as K1. pose proof (I2 _ V2) as K2.
    set (r := box_init_from_vectors (box_get_vertices b)) in * . clearbody r.
    unfold between3, lower in * ; simpl in * ; tauto. }
  apply eq_true_iff_eq; split; apply lower_contains; auto.
Qed.

Lemma half_sum_between (lo hi : b32) : fin lo -> fin hi -> fle lo hi = true -> fin (fadd lo hi) ->
  fle lo (fmul (fadd lo hi) fhalf) = true /\ fle (fmul (fadd lo hi) fhalf) hi = true.
Proof.
  intros Fl Fh Hle Fs. rewrite fle_X, (fin_X _ Fl), (fin_X _ Fh) in Hle. apply xle_fin in Hle.
  rewrite !fle_X, !fmul_X. pose proof (fadd_X lo hi) as S. rewrite (fin_X _ Fs) in * .
  rewrite (fin_X _ Fl), (fin_X _ Fh) in * . simpl in S. unfold xround in S.
  destruct (Rlt_bool _ _); [|destruct (Rlt_dec _ _); discriminate]. inversion S as [S']. clear S.
  rewrite fhalf_X. cbn [xmul]. rewrite S'.
  assert (D : forall x : b32, round radix2 (SpecFloat.fexp 24 128) (round_mode mode_NE) (B2R x * 2) = (B2R x * 2)%R).
  { intros x. apply round_generic; auto with typeclass_instances.
    apply (mult_bpow_pos_exact_FLT radix2 (-149) 24 (B2R x) 1); [|lia]. apply (generic_format_B2R 24 128 x). }
  change ZnearestE with (round_mode mode_NE) in * .
  set (rnd := round radix2 (SpecFloat.fexp 24 128) (round_mode mode_NE)) in * .
  assert (G1 : (B2R lo * 2 <= rnd (B2R lo + B2R hi))%R) by (rewrite <- D; apply rnd_mono; lra).
  assert (G2 : (rnd (B2R lo + B2R hi) <= B2R hi * 2)%R) by (rewrite <- D; apply rnd_mono; lra).
  rewrite <- (fin_X _ Fl), <- (fin_X _ Fh), <- (xrnd_B2X lo), <- (xrnd_B2X hi), (fin_X _ Fl), (fin_X _ Fh).
  split; apply xrnd_mono; apply xle_fin; lra.
Qed.
(** The centre of a finite box lies in it, provided min + max does not overflow. *)
Theorem C20_center_inside : forall (BK : Backend b32) (b : box b32),
  box_api b ->
  (forall x, In x [vx (bmin b); vy (bmin b); vz (bmin b); vx (bmax b); vy (bmax b); vz (bmax b)] -> fin x) ->
  (exists p, box_contains_point b p = true) ->
  fin (fadd (vx (bmin b)) (vx (bmax b))) -> fin (fadd (vy (bmin b)) (vy (bmax b))) -> fin (fadd (vz (bmin b)) (vz (bmax b))) ->
  box_contains_point b (box_get_center b) = true.
Proof.
  intros BK b Hb Hf [p Hp] Sx Sy Sz.
  assert (Nb : box_nn b) by (split; repeat split; apply fin_nn, Hf; simpl; auto 10).
  pose proof (box_api_ok b Hb Nb) as Ok.
  apply contains_point_iff; auto. apply contains_point_iff in Hp; auto.
  destruct Hp as [Hp|Hp]; auto. left.
  assert (X : forall x, fin x -> fisinf x = false) by (intros x Hx; destruct x; easy).
  unfold box_get_center. unfold box_is_empty, box_is_infinity, is_pinf, is_ninf.
  rewrite !X by (apply Hf; simpl; auto 10). cbv [andb orb].
  destruct Hp as (?&?&?&?&?&?).
  assert (M : forall lo x hi : b32, fin lo -> fin hi -> fle lo x = true -> fle x hi = true -> fin (fadd lo hi) ->
    fle lo (fmul (fadd lo hi) fhalf) = true /\ fle (fmul (fadd lo hi) fhalf) hi = true).
  { intros lo x hi ? ? ? ? ?. apply half_sum_between; auto. tr. }
  destruct (M (vx (bmin b)) (p3x p) (vx (bmax b))) as [A1 A2]; [apply Hf; simpl; auto 10 | apply Hf; simpl; auto 10 | assumption .. |].
  destruct (M (vy (bmin b)) (p3y p) (vy (bmax b))) as [B1 B2]; [apply Hf; simpl; auto 10 | apply Hf; simpl; auto 10 | assumption .. |].
  destruct (M (vz (bmin b)) (p3z p) (vz (bmax b))) as [C1 C2]; [apply Hf; simpl; auto 10 | apply Hf; simpl; auto 10 | assumption .. |].
  exact (conj A1 (conj A2 (conj B1 (conj B2 (conj C1 C2))))).
Qed.
Theorem C20_center_overflow_refuted :
  let BK : Backend b32 := Gcc in
  let b := box_init (Some (P3 (lit 1 127) fzero fzero)) (Some (P3 (lit 1 127) fzero fzero)) in
  box_contains_point b (P3 (lit 1 127) fzero fzero) = true /\
  box_contains_point b (box_get_center b) = false.
Proof. vm_compute. split; reflexivity. Qed.
(** graphene_box_get_width of the empty box is infinite while get_size is zero. *)
Theorem C20_empty_size_refuted : forall BK : Backend b32,
  box_get_width (box_empty : box b32) = finf /\ box_get_size (box_empty : box b32) = vec3_zero.
Proof. intros; split; reflexivity. Qed.

(** ** C21: expand by a scalar *)
Lemma neg_scalar_X (s : b32) : fin s -> B2X (fmul s fm1) = Fin (- B2R s).
Proof.
  intros Fs. rewrite fmul_X, fm1_X, (fin_X _ Fs). simpl xmul.
  replace (B2R s * -1)%R with (B2R (Bopp s)) by (rewrite B2R_Bopp; ring).
  rewrite <- B2X_finite, xrnd_B2X by (rewrite is_finite_Bopp; exact Fs).
  rewrite B2X_finite by (rewrite is_finite_Bopp; exact Fs). now rewrite B2R_Bopp.
Qed.
Lemma add_ge (x s : b32) : nonnan x -> B2X s = Fin (B2R s) -> (0 <= B2R s)%R -> fle x (fadd x s) = true.
Proof.
  intros Nx Hs H. rewrite fle_X, fadd_X, Hs. rewrite <- (xrnd_B2X x) at 1. apply xrnd_mono.
  unfold nonnan in Nx. rewrite fisnan_X in Nx. destruct (B2X x); try easy. apply xle_fin. lra.
Qed.
Lemma add_le (x s : b32) (r : R) : nonnan x -> B2X s = Fin r -> (r <= 0)%R -> fle (fadd x s) x = true.
Proof.
  intros Nx Hs H. rewrite fle_X, fadd_X, Hs. rewrite <- (xrnd_B2X x) at 2. apply xrnd_mono.
  unfold nonnan in Nx. rewrite fisnan_X in Nx. destruct (B2X x); try easy. apply xle_fin. lra.
Qed.
Theorem C21_expand_scalar_keeps_points : forall (BK : Backend b32) (b : box b32) (s : b32) (p : P3b),
  box_api b -> box_nn b -> fin s -> fle fzero s = true ->
  box_contains_point b p = true -> box_contains_point (box_expand_scalar b s) p = true.
Proof.
  intros BK b s p Hb Nb Fs Hs Hp. pose proof (box_api_ok b Hb Nb) as Ok.
  assert (S0 : (0 <= B2R s)%R). { rewrite fle_X, (fin_X s Fs) in Hs. now apply xle_fin in Hs. }
  apply contains_point_iff in Hp; auto.
  destruct Ok as (Hc & Hc' & (?&?&?) & (?&?&?)).
  set (e := box_expand_scalar b s).
  assert (L : lower b e).
  { assert (Al : forall x, nonnan x -> fle (fadd x (fmul s fm1)) x = true)
      by (intros x Hx; apply (add_le x _ (- B2R s) Hx (neg_scalar_X s Fs)); lra).
    assert (Ag : forall x, nonnan x -> fle x (fadd x s) = true) by (intros x Hx; apply (add_ge x s Hx (fin_X s Fs) S0)).
    unfold lower. split; [|split; [|split; [|split; [|split]]]]; (apply Al || apply Ag); assumption. }
  assert (Wmin : fle (vw (bmin e)) fzero = true).
  { eapply ol_trans; [|apply (proj1 Hc)]. 
    apply (add_le (vw (bmin b)) _ (- B2R s) (is0_nn _ Hc) (neg_scalar_X s Fs)); lra. }
  assert (Wmax : fle fzero (vw (bmax e)) = true).
  { eapply ol_trans; [apply (proj2 Hc')|]. 
    apply (add_ge (vw (bmax b)) _ (is0_nn _ Hc') (fin_X s Fs) S0). }
  unfold box_contains_point. fold e.
  destruct (box_is_infinity e) eqn:Ie.
  - destruct (box_is_empty e) eqn:Ee; auto. exfalso. destruct Hp as [Hp|Hp].
    + exact (no_point_empty e p Ee (lower_between _ _ _ L Hp)).
    + unfold box_is_empty, box_is_infinity in * . rewrite !andb_true_iff, ?is_pinf_le, ?is_ninf_le in * .
      destruct Ee as [[[Ee _] _] _], Ie as [[[Ie _] _] _].
      pose proof (ol_trans _ _ _ Ee Ie) as X. rewrite inf_not_ninf in X; discriminate.
  - destruct Hp as [Hp|Hp].
    + pose proof (lower_between _ _ _ L Hp) as Hp'.
      destruct (box_is_empty e) eqn:Ee; [exfalso; eapply no_point_empty; eauto|].
      destruct Hp' as (?&?&?&?&?&?).
      replace (g_cmp_ge _ _ && g_cmp_le _ _) with true; auto. symmetry.
      unfold g_cmp_ge, g_cmp_le, all2. rewrite !andb_true_iff. repeat split; assumption.
    + exfalso. unfold lower in L. unfold box_is_infinity in * . rewrite !andb_true_iff, ?is_pinf_le, ?is_ninf_le in * .
      destruct L as (?&?&?&?&?&?), Hp as [[[? ?] ?] [[? ?] ?]].
      assert (T : fle (vx (bmin e)) fninf && fle (vy (bmin e)) fninf && fle (vz (bmin e)) fninf &&
        (fle finf (vx (bmax e)) && fle finf (vy (bmax e)) && fle finf (vz (bmax e))) = true).
      { rewrite !andb_true_iff. repeat split; tr. }
      rewrite T in Ie; discriminate.
Qed.
(** Shrinking by any amount empties every finite box: no point at all is contained. *)
Theorem C21_shrink_refuted : forall (BK : Backend b32) (b : box b32) (s : b32) (p : P3b),
  box_api b -> fin s -> flt s fzero = true ->
  box_equal_fn (box_expand_scalar b s) box_infinite = false ->
  box_contains_point (box_expand_scalar b s) p = false.
Proof.
  intros BK b s p Hb Fs Hs Hi. pose proof (box_api_clean b Hb) as [Hc Hc'].
  set (e := box_expand_scalar b s) in * .
  assert (S0 : (B2R s < 0)%R). { rewrite flt_X, (fin_X s Fs) in Hs. now apply xlt_fin in Hs. }
  unfold box_contains_point. destruct (box_is_empty e) eqn:Ee; auto.
  destruct (box_is_infinity e) eqn:Ie.
  - exfalso. revert Hi. unfold box_equal_fn. rewrite Ee, Ie.
    replace (box_is_empty (box_infinite : box b32)) with false by reflexivity.
    replace (box_is_infinity (box_infinite : box b32)) with true by reflexivity. simpl. discriminate.
  - replace (g_cmp_ge _ _) with false; auto. symmetry. unfold g_cmp_ge, all2; simpl.
    apply andb_false_intro2. rewrite fle_X, fadd_X. pose proof (proj1 (is0_X _) Hc) as Hc0. rewrite Hc0, neg_scalar_X, fzero_X by auto.
    cbn [xadd]. rewrite Rplus_0_l. replace (- B2R s)%R with (B2R (Bopp s)) by apply B2R_Bopp.
    change (xrnd (Fin (B2R (Bopp s)))) with (xrnd (prec:=24) (emax:=128) (Fin (B2R (Bopp s)))).
    rewrite <- (B2X_finite (Bopp s)) by (rewrite is_finite_Bopp; exact Fs). rewrite xrnd_B2X.
    rewrite B2X_finite by (rewrite is_finite_Bopp; exact Fs). rewrite B2R_Bopp. apply xle_fin_f. lra.
Qed.

(** ** Non-vacuity *)
Example ex_box : box b32 := box_init (Some (P3 (lit (-1) 0) (lit (-2) 0) fzero)) (Some (P3 (lit 3 0) (lit 1 0) (lit 7 0))).
Example ex_box_api : forall BK : Backend b32, box_api ex_box /\ box_nn ex_box /\
  box_contains_point ex_box (P3 (fone : b32) fone fone) = true /\ box_contains_point ex_box (P3 (lit 4 0) fone fone) = false.
Proof. intros BK. split; [constructor|]. repeat split; reflexivity. Qed.
Example ex_hist : forall BK : Backend b32,
  vec3_api (vec3_cross (vec3_scale (vec3_add (vec3_init fone fone fone) vec3_x_axis) (lit 5 (-1))) (vec3_negate vec3_y_axis)).
Proof. intros. apply v3_cross; [apply v3_scale; [apply v3_add|]|apply v3_negate]; try constructor; simpl; auto. Qed.
