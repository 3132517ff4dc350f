(** * C79, C80: the GObject boxed types *)
From Coq Require Import ZArith List Bool String Arith Lia.
From Verif Require Import Alloc Props_Alloc Gobject.
Import ListNotations.
Open Scope Z_scope.

(** ** C79: copying a boxed value *)
Lemma assign_live H t d s pad : live (assign H t d s pad) = live H. Proof. reflexivity. Qed.
Lemma member_range t off : member t off = true -> 0 <= off < osize t.
Proof. unfold member. destruct t; rewrite ?andb_true_iff, ?Z.leb_le, ?Z.ltb_lt; tauto. Qed.
Lemma assign_outside H t d s pad x : ~ inside d (osize t) x -> byte (assign H t d s pad) x = byte H x.
Proof.
  intros N. cbn. destruct (member t (x - d)) eqn:M. { apply member_range in M. exfalso. apply N. unfold inside. lia. }
  destruct ((0 <=? x - d) && (x - d <? osize t)) eqn:E; auto. rewrite andb_true_iff, Z.leb_le, Z.ltb_lt in E. exfalso. apply N. unfold inside. lia.
Qed.
Lemma assign_member H t d s pad off : member t off = true -> byte (assign H t d s pad) (d + off) = byte H (s + off).
Proof. intros M. cbn. replace (d + off - d) with off by lia. rewrite M. reflexivity. Qed.

(** stores into an object, one byte at a time *)
Lemma steps_fill c s0 H os t p (f : Z -> Z) : In (t, p) os -> steps c s0 (St H os) -> forall n, Z.of_nat n <= osize t ->
  exists H1, steps c s0 (St H1 os) /\ live H1 = live H /\ (forall x, byte H1 x = if (0 <=? x - p) && (x - p <? Z.of_nat n) then f x else byte H x).
Proof.
  intros I S. induction n as [|n IH]; intros L.
  - exists H. split; auto. split; auto. intros x. destruct (_ && _) eqn:E; auto. rewrite andb_true_iff, Z.leb_le, Z.ltb_lt in E. lia.
  - destruct IH as (H1 & S1 & L1 & B1); [lia|]. exists (put H1 (p + Z.of_nat n) (f (p + Z.of_nat n))). split; [|split].
    + eapply steps_S; [exact S1|]. eapply st_write; eauto. lia.
    + exact L1.
    + intros x. cbn [put byte]. rewrite B1. destruct (Z.eqb_spec x (p + Z.of_nat n)) as [->|N].
      * replace (_ && _) with true; auto. symmetry. rewrite andb_true_iff, Z.leb_le, Z.ltb_lt. lia.
      * replace ((0 <=? x - p) && (x - p <? Z.of_nat (Datatypes.S n))) with ((0 <=? x - p) && (x - p <? Z.of_nat n)); auto.
        f_equal. destruct (Z.ltb_spec (x - p) (Z.of_nat n)), (Z.ltb_spec (x - p) (Z.of_nat (Datatypes.S n))); auto; lia.
Qed.

(** A successful copy: [v] is an object of type [t] inside any live block (the program's own memory included).
    Every member byte of the copy is that of the original; the copy is a separate object; no live memory changed;
    the new state is one that allocating and storing could have produced, so that every guarantee about histories
    of allocations (C69) extends to it; and the registered free function takes the copy away again. *)
Theorem C79_copy : forall c s0 s t v b p H', sane c -> initial s0 -> steps c s0 s ->
  In b (live (hp s)) -> b_addr b <= v -> v + osize t <= b_addr b + b_len b ->
  boxed_copy c (hp s) t v (CPtr p) H' ->
  (forall off, member t off = true -> byte H' (p + off) = byte (hp s) (v + off)) /\
  (p + osize t <= v \/ v + osize t <= p) /\
  (forall b', In b' (live (hp s)) -> In b' (live H') /\ forall x, inside (b_addr b') (b_len b') x -> byte H' x = byte (hp s) x) /\
  (exists s', steps c s0 s' /\ objs s' = (t, p) :: objs s /\ live (hp s') = live H' /\ forall x, byte (hp s') x = byte H' x) /\
  (exists H'', boxed_free c H' t p = Some H'' /\ (forall b', In b' (live H'') <-> In b' (live (hp s))) /\ byte H'' = byte H').
Proof.
  intros c s0 s t v b p H' SA I S Ib B1 B2 C. inversion C as [|p1 H1 pad Nv A| |]; subst.
  destruct (obj_alloc_spec _ _ _ _ _ SA A) as (n & L & LV & (F1 & F2 & F3) & KB & _ & _).
  destruct (inv_steps c s0 s SA I S) as (PW & PP & OW & ND & AL & FO).
  pose proof (osize_pos t) as OP. destruct (F3 b Ib) as [FN FA].
  assert (NB : forall b' x, In b' (live (hp s)) -> inside (b_addr b') (b_len b') x -> ~ inside p n x).
  { intros b' x Hb X. destruct (F3 b' Hb) as [_ D]. unfold inside in * . lia. }
  assert (NB2 : forall x, ~ inside p n x -> ~ inside p (osize t) x). { intros x N X. apply N. unfold inside in * . lia. }
  split; [|split; [|split; [|split]]].
  - intros off M. rewrite assign_member by auto. apply KB. apply (NB b); auto. apply member_range in M. unfold inside. lia.
  - lia.
  - intros b' Hb. split. { rewrite assign_live, LV. right; auto. } intros x X. rewrite assign_outside by (apply NB2; eapply NB; eauto). apply KB. eapply NB; eauto.
  - assert (S1 : steps c s0 (St H1 ((t, p) :: objs s))). { eapply steps_S; [exact S|]. destruct s as [h os]. apply st_alloc. exact A. }
    destruct (steps_fill c s0 H1 ((t, p) :: objs s) t p (byte (assign H1 t p v pad)) (or_introl eq_refl) S1 (Z.to_nat (osize t))) as (H2 & S2 & L2 & E2); [lia|].
    eexists. split; [exact S2|]. split; auto. split; auto. intros x. cbn [hp]. rewrite E2, Z2Nat.id by lia.
    destruct (_ && _) eqn:E; auto. symmetry. apply assign_outside. intros X. unfold inside in X.
    apply not_true_iff_false in E. apply E. rewrite andb_true_iff, Z.leb_le, Z.ltb_lt. lia.
  - unfold boxed_free. pose proof (release_owned c (St (assign H1 t p v pad) ((t, p) :: objs s)) (t, p)) as R. cbn [hp fst snd] in R. rewrite R; clear R.
    + eexists. split; [reflexivity|]. split; [|reflexivity]. intros b'. cbn [live]. rewrite assign_live, LV. rewrite filter_In, negb_true_iff, Z.eqb_neq. cbn [In]. split.
      * intros [[<-|Hb] N]; auto. cbn in N. congruence.
      * intros Hb. split; auto. destruct (F3 b' Hb). congruence.
    + rewrite assign_live, LV. split; auto.
    + rewrite assign_live, LV. intros b' [<-|Hb]; cbn; auto.
    + exists (Blk p n (ofree c t)). cbn [hp fst snd]. rewrite assign_live, LV. cbn. auto.
Qed.
(** How a copy can end: NULL is copied to NULL, and only NULL is; the copy of an object is an object, unless the
    allocation failed, and then the call does not return. *)
Theorem C79_outcomes : forall c H t v o H', sane c -> boxed_copy c H t v o H' ->
  match o with
  | CNull => v = 0 /\ H' = H
  | CPtr p => v <> 0 /\ p <> 0
  | CCrash => v <> 0 /\ obj_alloc c H t RNull H'
  | CAbort => v <> 0 /\ obj_alloc c H t RAbort H' end.
Proof.
  intros c H t v o H' SA C. inversion C as [|p1 H1 pad Nv A| |]; subst; auto. split; auto.
  destruct (obj_alloc_spec _ _ _ _ _ SA A) as (n & L & LV & (F1 & _) & _). lia.
Qed.
(** The copy function does not handle a failed allocation: running out of memory ends the process, by an abort
    in the allocator where it has assertions, by a store through NULL otherwise. *)
Theorem C79_oom_refuted : forall c H t v, sane c -> v <> 0 ->
  boxed_copy c H t v (if asserts c && match oalloc t with HCalloc => false | _ => true end then CAbort else CCrash) H.
Proof.
  intros c H t v [SM _] Nv.
  assert (P : exists req, alloc_plan c (osize (asked t)) 1 16 = PAsk req).
  { unfold alloc_plan. pose proof (osize_pos (asked t)). destruct (Z.eqb_spec (osize (asked t)) 0); [lia|]. cbn [orb Z.eqb].
    destruct (Z.ltb_spec 0 (osize (asked t))); [|lia]. destruct (Z.ltb_spec (size_max c / osize (asked t)) 1).
    - exfalso. assert (1 <= size_max c / osize (asked t)) by (apply Z.div_le_lower_bound; lia). lia.
    - cbn [andb]. eauto. }
  destruct P as [req P]. pose proof (aa_fail c H _ _ _ _ P (sys_fail _ _ _ _ _ _)) as A.
  destruct (oalloc t) eqn:E, (asserts c) eqn:Ea; cbn [andb].
  all: try (apply bc_abort; auto; unfold obj_alloc; rewrite E; auto; apply a0_abort; auto).
  all: apply bc_crash; auto; unfold obj_alloc; rewrite E; auto; try (apply a0_null; auto); apply calloc_null.
Qed.

(** the hypotheses are met: a plane at 64 in the program's own memory is copied to 256 *)
Definition ex79 : state := St (Heap [Blk 64 32 DFree] (fun x => x mod 7)) [].
Example C79_copy_met : exists H', initial ex79 /\ boxed_copy ex_cfg (hp ex79) TPlane 64 (CPtr 256) H' /\ byte H' 259 = 4 /\ byte H' 280 = 99.
Proof.
  eexists. split; [|split; [|split]].
  - split; auto. split; cbn; auto. split; auto. intros b' []. intros b [<-|[]]; cbn; lia.
  - eapply (bc_ok _ _ _ _ 256) with (pad := fun _ => 99); [lia|]. unfold obj_alloc. cbn [oalloc]. apply a0_ptr. eapply (aa_ok _ _ _ _ _ 32); [reflexivity|].
    apply (sys_ok _ _ _ _ _ _ 256 (fun x => x mod 7)); auto; try easy. unfold is_free. split; [lia|]. split; [cbn; lia|]. intros b [<-|[]]. cbn. unfold apart. lia.
  - reflexivity. - reflexivity.
Qed.

(** ** C80: type registration, any number of threads, any schedule *)
(** the rest of the process does not use Graphene's type names *)
Definition polite (n : string) : Prop := forall t, n <> gname t.
Definition polite_start (s : gst) : Prop := exists rs, s = gstart rs /\ forall r, In r rs -> polite (r_name r).
Definition holder (p : gpc) (t : otype) : Prop := match p with GInside u | GLeave u _ | GRemove u => u = t | _ => False end.
Definition ginv (s : gst) : Prop :=
  (forall t, gvar s t <> 0 -> lookup (registry s) (gvar s t) = Some (own_reg t (gvar s t))) /\
  (forall i t id, gthr s i = GLeave t id -> id <> 0 /\ lookup (registry s) id = Some (own_reg t id) /\ gvar s t = 0) /\
  (forall i t, gthr s i = GInside t -> ~ In (gname t) (map r_name (registry s)) /\ gvar s t = 0) /\
  (forall i j t, holder (gthr s i) t -> holder (gthr s j) t -> i = j) /\
  (forall t, busy s t = true <-> exists i, holder (gthr s i) t) /\
  (forall i t, gthr s i = GReturn t \/ gthr s i = GRemove t -> gvar s t <> 0) /\
  (forall i t, gthr s i = GWait t -> busy s t = true \/ gvar s t <> 0) /\
  (forall t x, In (t, x) (returned s) -> gvar s t = x /\ x <> 0) /\
  (forall t, In (gname t) (map r_name (registry s)) -> gvar s t <> 0 \/ exists i id, gthr s i = GLeave t id) /\
  (forall t, (count_occ string_dec (map r_name (registry s)) (gname t) <= 1)%nat).
Lemma gname_inj t u : gname t = gname u -> t = u.
Proof. destruct t, u; intros E; try reflexivity; discriminate E. Qed.
Lemma setT_same {B} (f : otype -> B) t v : setT f t v t = v. Proof. unfold setT. destruct (otype_eq_dec t t); congruence. Qed.
Lemma setT_other {B} (f : otype -> B) t v u : u <> t -> setT f t v u = f u. Proof. unfold setT. destruct (otype_eq_dec u t); congruence. Qed.
Lemma setI_same {B} (f : nat -> B) t v : setI f t v t = v. Proof. unfold setI. destruct (Nat.eq_dec t t); congruence. Qed.
Lemma setI_other {B} (f : nat -> B) t v u : u <> t -> setI f t v u = f u. Proof. unfold setI. destruct (Nat.eq_dec u t); congruence. Qed.
Lemma lookup_fresh rs r x q : fresh_reg rs r -> lookup rs x = Some q -> lookup (r :: rs) x = Some q.
Proof.
  intros (_ & NI & _) L. unfold lookup in * . cbn [find]. destruct (Z.eqb_spec (r_id r) x) as [E|E]; auto. exfalso. apply NI. rewrite E.
  apply find_some in L. destruct L as [I Ex]. apply Z.eqb_eq in Ex. rewrite <- Ex. apply in_map; auto.
Qed.
Lemma lookup_new rs r : lookup (r :: rs) (r_id r) = Some r.
Proof. unfold lookup. cbn [find]. rewrite Z.eqb_refl. reflexivity. Qed.
Lemma ginv_start s : polite_start s -> ginv s.
Proof.
  intros (rs & -> & P).
  assert (N : forall t, ~ In (gname t) (map r_name rs)). { intros t I. apply in_map_iff in I. destruct I as (r & E & I). exact (P r I t E). }
  unfold ginv; cbn. repeat split; try (intros; first [contradiction|congruence]); try easy.
  - intros [i []]. - intros i t [E|E]; discriminate. - intros t I. elim (N t I).
  - intros t. rewrite (proj1 (count_occ_not_In string_dec _ _) (N t)). lia.
Qed.

Ltac ithr i j := destruct (Nat.eq_dec j i) as [->|?]; [rewrite ?setI_same in * |rewrite ?setI_other in * by auto].
(** steps that neither acquire nor release anything *)
Lemma ginv_move s i q rt : ginv s -> (forall t, ~ holder (gthr s i) t) -> (forall t, ~ holder q t) ->
  (forall t, q = GReturn t -> gvar s t <> 0) -> (forall t, q = GWait t -> busy s t = true \/ gvar s t <> 0) ->
  (forall t x, In (t, x) rt -> In (t, x) (returned s) \/ gvar s t = x /\ x <> 0) ->
  ginv (GSt (gvar s) (busy s) (registry s) (setI (gthr s) i q) rt).
Proof.
  intros (V & L & IN & U & B & R & W & RT & NM & CT) H0 H1 Q1 Q2 Q3. unfold ginv; cbn [gvar busy registry gthr returned].
  split; [exact V|]. split; [|split; [|split; [|split; [|split; [|split; [|split; [|split; [|exact CT]]]]]]]].
  - intros j t id E. ithr i j; [|eauto]. subst q. exfalso. apply (H1 t). reflexivity.
  - intros j t E. ithr i j; [|eauto]. subst q. exfalso. apply (H1 t). reflexivity.
  - intros j k t E1 E2. ithr i j; [elim (H1 t E1)|]. ithr i k; [elim (H1 t E2)|]. eauto.
  - intros t. rewrite B. split; intros [j E]; exists j.
    + ithr i j; auto. elim (H0 t E). + ithr i j; auto. elim (H1 t E).
  - intros j t E. ithr i j; [|eauto]. destruct E as [E|E]; auto. exfalso. apply (H1 t). rewrite E. reflexivity.
  - intros j t E. ithr i j; [|eauto]. auto.
  - intros t x I. destruct (Q3 t x I); auto.
  - intros t I. destruct (NM t I) as [?|(j & id & E)]; auto. right. exists j, id. ithr i j; auto. exfalso. apply (H0 t). rewrite E. reflexivity.
Qed.
Lemma ginv_step i s s' : ginv s -> gstep i s s' -> ginv s'.
Proof.
  intros GI S. pose proof GI as (V & L & IN & U & B & R & W & RT & NM & CT).
  destruct S as [s t P|s t P E|s t P E1 E2|s t P E1 E2|s t P E|s t id P Fr|s t P T|s t id P N|s t P|s t P|s t P].
  - apply ginv_move; auto; try discriminate. rewrite P; easy.
  - apply ginv_move; auto; try discriminate; [rewrite P; easy|]. intros u [= <-]; auto.
  - (* g_first *) assert (NH : forall j, ~ holder (gthr s j) t). { intros j Hj. enough (busy s t = true) by congruence. apply B. eauto. }
    assert (NN : ~ In (gname t) (map r_name (registry s))).
    { intros I. destruct (NM t I) as [?|(j & id & E)]; auto. apply (NH j). rewrite E. reflexivity. }
    unfold ginv; cbn [gvar busy registry gthr returned].
    split; [exact V|]. split; [|split; [|split; [|split; [|split; [|split; [|split; [exact RT|split; [|exact CT]]]]]]]].
    + intros j u id E. ithr i j; [discriminate|eauto].
    + intros j u E. ithr i j; [|eauto]. injection E as <-. auto.
    + intros j k u Hj Hk. ithr i j; ithr i k; auto; cbn [holder] in * ; subst; try (exfalso; eapply NH; eassumption). eauto.
    + intros u. destruct (otype_eq_dec u t) as [->|Nu].
      * rewrite setT_same. split; auto. intros _. exists i. rewrite setI_same. reflexivity.
      * rewrite setT_other by auto. rewrite B. split; intros [j Hj]; exists j; ithr i j; auto. { rewrite P in Hj. elim Hj. } cbn in Hj. congruence.
    + intros j u E. ithr i j; [destruct E; discriminate|eauto].
    + intros j u E. ithr i j; [discriminate|]. destruct (otype_eq_dec u t) as [->|Nu]; [left; apply setT_same|rewrite setT_other by auto; eauto].
    + intros u I. destruct (NM u I) as [?|(j & id & E)]; auto. right. exists j, id. ithr i j; auto. congruence.
  - apply ginv_move; auto; try discriminate; [rewrite P; easy|]. intros u [= <-]; auto.
  - apply ginv_move; auto; try discriminate; [rewrite P; easy|]. intros u [= <-]; auto. destruct (W i t P); congruence.
  - (* g_register *) destruct (IN i t P) as [NN V0]. pose proof Fr as (F1 & F2 & F3). cbn [own_reg r_id r_name] in * .
    assert (HI : holder (gthr s i) t) by (rewrite P; reflexivity).
    unfold ginv; cbn [gvar busy registry gthr returned].
    split; [|split; [|split; [|split; [|split; [|split; [|split; [|split; [exact RT|split]]]]]]]].
    + intros u Hu. apply lookup_fresh; auto.
    + intros j u id' E. ithr i j.
      * injection E as <- <-. split; auto. split; auto. apply (lookup_new _ (own_reg t id)).
      * destruct (L j u id' E) as (Z1 & Z2 & Z3). split; auto. split; auto. apply lookup_fresh; auto.
    + intros j u E. ithr i j; [discriminate|]. destruct (IN j u E) as [N1 N2]. split; auto. cbn [map In]. intros [E'|E']; auto.
      apply gname_inj in E'. subst u. enough (j = i) by congruence. apply (U j i t); auto. rewrite E. reflexivity.
    + intros j k u Hj Hk. ithr i j; ithr i k; auto; cbn [holder] in * ; subst; eauto.
    + intros u. rewrite B. split; intros [j Hj]; exists j; ithr i j; auto. { rewrite P in Hj. exact Hj. } rewrite P. exact Hj.
    + intros j u E. ithr i j; [destruct E; discriminate|eauto].
    + intros j u E. ithr i j; [discriminate|eauto].
    + intros u [E|I].
      * apply gname_inj in E. subst u. right. exists i, id. apply setI_same.
      * destruct (NM u I) as [?|(j & id' & E)]; auto. right. exists j, id'. ithr i j; auto. congruence.
    + intros u. cbn [map count_occ own_reg r_name]. destruct (string_dec (gname t) (gname u)) as [E|E]; auto.
      apply gname_inj in E. subst u. rewrite (proj1 (count_occ_not_In string_dec _ _) F3). lia.
  - (* g_taken: cannot happen *) destruct (IN i t P). contradiction.
  - (* g_store *) destruct (L i t id P) as (_ & LK & V0). assert (HI : holder (gthr s i) t) by (rewrite P; reflexivity).
    assert (NH : forall j, j <> i -> ~ holder (gthr s j) t). { intros j Nj Hj. apply Nj. eauto. }
    unfold ginv; cbn [gvar busy registry gthr returned].
    split; [|split; [|split; [|split; [|split; [|split; [|split; [|split; [|split; [|exact CT]]]]]]]]].
    + intros u. destruct (otype_eq_dec u t) as [->|Nu]; [rewrite setT_same; auto|rewrite setT_other by auto; auto].
    + intros j u id' E. ithr i j; [discriminate|]. destruct (otype_eq_dec u t) as [->|Nu]; [|rewrite setT_other by auto; eauto].
      exfalso. apply (NH j); auto. rewrite E. reflexivity.
    + intros j u E. ithr i j; [discriminate|]. destruct (otype_eq_dec u t) as [->|Nu]; [|rewrite setT_other by auto; eauto].
      exfalso. apply (NH j); auto. rewrite E. reflexivity.
    + intros j k u Hj Hk. ithr i j; ithr i k; auto; cbn [holder] in * ; subst; eauto.
    + intros u. rewrite B. split; intros [j Hj]; exists j; ithr i j; auto. { rewrite P in Hj. exact Hj. } rewrite P. exact Hj.
    + intros j u E. destruct (otype_eq_dec u t) as [->|Nu]; [rewrite setT_same; auto|rewrite setT_other by auto]. ithr i j; [|eauto]. destruct E; congruence.
    + intros j u E. destruct (otype_eq_dec u t) as [->|Nu]; [rewrite setT_same; auto|rewrite setT_other by auto]. ithr i j; [congruence|eauto].
    + intros u x I. destruct (RT u x I) as [E N']. split; auto. destruct (otype_eq_dec u t) as [->|Nu]; [congruence|rewrite setT_other by auto; auto].
    + intros u I. destruct (otype_eq_dec u t) as [->|Nu]; [rewrite setT_same; auto|rewrite setT_other by auto].
      destruct (NM u I) as [?|(j & id' & E)]; auto. right. exists j, id'. ithr i j; auto. congruence.
  - (* g_refuse: cannot happen *) destruct (L i t 0 P). congruence.
  - (* g_wake *) assert (HI : holder (gthr s i) t) by (rewrite P; reflexivity).
    assert (NH : forall j, j <> i -> ~ holder (gthr s j) t). { intros j Nj Hj. apply Nj. eauto. }
    assert (VN : gvar s t <> 0) by eauto.
    unfold ginv; cbn [gvar busy registry gthr returned].
    split; [exact V|]. split; [|split; [|split; [|split; [|split; [|split; [|split; [exact RT|split; [|exact CT]]]]]]]].
    + intros j u id E. ithr i j; [discriminate|eauto].
    + intros j u E. ithr i j; [discriminate|eauto].
    + intros j k u Hj Hk. ithr i j; [elim Hj|]. ithr i k; [elim Hk|]. eauto.
    + intros u. destruct (otype_eq_dec u t) as [->|Nu].
      * rewrite setT_same. split; [discriminate|]. intros [j Hj]. ithr i j; [elim Hj|]. elim (NH j); auto.
      * rewrite setT_other by auto. rewrite B. split; intros [j Hj]; exists j; ithr i j; auto. { rewrite P in Hj. cbn in Hj. congruence. } elim Hj.
    + intros j u E. ithr i j; [|eauto]. destruct E as [E|E]; congruence.
    + intros j u E. ithr i j; [discriminate|]. destruct (otype_eq_dec u t) as [->|Nu]; auto. rewrite setT_other by auto. eauto.
    + intros u I. destruct (NM u I) as [?|(j & id & E)]; auto. right. exists j, id. ithr i j; auto. congruence.
  - apply ginv_move; auto; try discriminate; [rewrite P; easy|]. intros u x [[= <- <-]|I]; auto. right. split; auto. apply (R i). auto.
Qed.
Lemma ginv_other s s' : ginv s -> other polite s s' -> ginv s'.
Proof.
  intros (V & L & IN & U & B & R & W & RT & NM & CT) S. destruct S as [s r OK Fr].
  unfold ginv; cbn [gvar busy registry gthr returned].
  split; [|split; [|split; [|split; [exact U|split; [exact B|split; [exact R|split; [exact W|split; [exact RT|split]]]]]]]].
  - intros t Ht. apply lookup_fresh; auto.
  - intros i t id E. destruct (L i t id E) as (Z1 & Z2 & Z3). split; auto. split; auto. apply lookup_fresh; auto.
  - intros i t E. destruct (IN i t E) as [N1 N2]. split; auto. cbn [map In]. intros [E'|E']; auto. elim (OK t E').
  - intros t [E|I]; auto. elim (OK t E).
  - intros t. cbn [map count_occ]. destruct (string_dec (r_name r) (gname t)) as [E|E]; auto. elim (OK t E).
Qed.
Lemma ginv_reach s0 s : polite_start s0 -> greach polite s0 s -> ginv s.
Proof. intros P S. induction S; [apply ginv_start; auto|eapply ginv_step; eauto|eapply ginv_other; eauto]. Qed.
Lemma returned_later ok s s' o : greach ok s s' -> In o (returned s) -> In o (returned s').
Proof. intros S I. induction S as [|i s1 s2 S IH G|s1 s2 S IH G]; auto; destruct G; cbn [returned]; auto. right; auto. Qed.
Lemma greach_trans ok s0 s s' : greach ok s0 s -> greach ok s s' -> greach ok s0 s'.
Proof. intros A S. induction S; auto; [eapply gr_S|eapply gr_O]; eauto. Qed.

(** All calls of one type's get_type, by whatever threads and whenever, return the same identifier, and never 0. *)
Theorem C80_same_id : forall s0 s t x y, polite_start s0 -> greach polite s0 s -> In (t, x) (returned s) -> In (t, y) (returned s) -> x = y /\ x <> 0.
Proof. intros s0 s t x y P S X Y. destruct (ginv_reach s0 s P S) as (_ & _ & _ & _ & _ & _ & _ & RT & _). destruct (RT t x X), (RT t y Y). split; congruence. Qed.
(** Different types have different identifiers. *)
Theorem C80_distinct : forall s0 s t u x, polite_start s0 -> greach polite s0 s -> In (t, x) (returned s) -> In (u, x) (returned s) -> t = u.
Proof.
  intros s0 s t u x P S X Y. destruct (ginv_reach s0 s P S) as (V & _ & _ & _ & _ & _ & _ & RT & _). destruct (RT t x X) as [E1 N1], (RT u x Y) as [E2 N2].
  pose proof (V t ltac:(congruence)) as L1. pose proof (V u ltac:(congruence)) as L2. rewrite E1 in L1. rewrite E2, L1 in L2. injection L2. auto.
Qed.
(** Each name is registered at most once, however many threads race. *)
Theorem C80_registered_once : forall s0 s t, polite_start s0 -> greach polite s0 s -> (count_occ string_dec (map r_name (registry s)) (gname t) <= 1)%nat.
Proof. intros s0 s t P S. apply (ginv_reach s0 s P S). Qed.
(** From the moment a call has returned, its identifier names the right type for ever: it is registered under the
    documented name, g_boxed_copy runs this type's copy and g_boxed_free this type's free. *)
Theorem C80_identifies : forall s0 s s' t x, polite_start s0 -> greach polite s0 s -> In (t, x) (returned s) -> greach polite s s' ->
  (exists r, lookup (registry s') x = Some r /\ r_name r = gname t) /\
  (forall c H v o H', g_boxed_copy c (registry s') x H v o H' <-> boxed_copy c H t v o H') /\
  (forall c H v, g_boxed_free c (registry s') x H v = boxed_free c H t v).
Proof.
  intros s0 s s' t x P S X S'. pose proof (returned_later _ _ _ _ S' X) as X'. pose proof (greach_trans _ _ _ _ S S') as S2.
  destruct (ginv_reach s0 s' P S2) as (V & _ & _ & _ & _ & _ & _ & RT & _). destruct (RT t x X') as [E N]. pose proof (V t ltac:(congruence)) as L. rewrite E in L. split; [|split].
  - eauto.
  - intros c H v o H'. unfold g_boxed_copy. rewrite L. split.
    + intros (r & u & [= <-] & [= <-] & C). exact C. + intros C. exists (own_reg t x), t. auto.
  - intros c H v. unfold g_boxed_free. rewrite L. reflexivity.
Qed.

(** No call blocks for ever: whatever has happened so far, there is a way on in which it returns. *)
Definition nobody (n : string) : Prop := False.
Lemma fresh_id (l : list Z) : exists id, id <> 0 /\ ~ In id l.
Proof.
  assert (M : exists m, 0 <= m /\ forall x, In x l -> x <= m).
  { induction l as [|a l (m & M0 & M1)]; [exists 0; split; [lia|easy]|]. exists (Z.max a m). split; [lia|]. intros x [<-|I]; [lia|]. specialize (M1 x I). lia. }
  destruct M as (m & M0 & M1). exists (m + 1). split; [lia|]. intros I. specialize (M1 _ I). lia.
Qed.
Lemma run_holder s i t : ginv s -> holder (gthr s i) t ->
  exists s', greach nobody s s' /\ gvar s' t <> 0 /\ busy s' t = false /\ gthr s' i = GReturn t /\ forall j, j <> i -> gthr s' j = gthr s j.
Proof.
  intros GI H.
  assert (R3 : forall s, gthr s i = GRemove t -> gvar s t <> 0 ->
    exists s', greach nobody s s' /\ gvar s' t <> 0 /\ busy s' t = false /\ gthr s' i = GReturn t /\ forall j, j <> i -> gthr s' j = gthr s j).
  { intros s1 E V. eexists. split; [eapply gr_S; [apply gr_0|]; apply g_wake; exact E|]. cbn. split; auto. split; [apply setT_same|]. split; [apply setI_same|]. intros; apply setI_other; auto. }
  assert (R2 : forall s id, gthr s i = GLeave t id -> id <> 0 ->
    exists s', greach nobody s s' /\ gvar s' t <> 0 /\ busy s' t = false /\ gthr s' i = GReturn t /\ forall j, j <> i -> gthr s' j = gthr s j).
  { intros s1 id E V. pose proof (g_store i s1 t id E V) as G. match type of G with gstep _ _ ?s2 => destruct (R3 s2) as (s3 & A & B & C & D & K) end; cbn.
    - apply setI_same. - rewrite setT_same; auto.
    - exists s3. split; [eapply greach_trans; [eapply gr_S; [apply gr_0|exact G]|exact A]|]. split; auto. split; auto. split; auto.
      intros j Nj. rewrite K by auto. cbn. apply setI_other; auto. }
  pose proof GI as (V & L & IN & U & B & R & W & RT & NM & CT).
  destruct (gthr s i) as [|u|u|u|u id|u|u] eqn:E; try (elim H; fail); cbn in H; subst u.
  - destruct (IN i t E) as [NN V0]. destruct (fresh_id (map r_id (registry s))) as (id & Ni & Fi).
    assert (Fr : fresh_reg (registry s) (own_reg t id)) by (split; auto). pose proof (g_register i s t id E Fr) as G.
    match type of G with gstep _ _ ?s2 => destruct (R2 s2 id) as (s3 & A & B' & C & D & K) end; cbn; auto using setI_same.
    exists s3. split; [eapply greach_trans; [eapply gr_S; [apply gr_0|exact G]|exact A]|]. split; auto. split; auto. split; auto.
    intros j Nj. rewrite K by auto. cbn. apply setI_other; auto.
  - destruct (L i t id E) as (Z1 & _). apply (R2 s id); auto.
  - apply R3; auto. apply (R i). auto.
Qed.
Theorem C80_completes : forall s0 s i, polite_start s0 -> greach polite s0 s ->
  exists s', greach nobody s s' /\ gthr s' i = GOut.
Proof.
  intros s0 s i P S. pose proof (ginv_reach s0 s P S) as GI. clear P S s0.
  assert (RET : forall s t, gthr s i = GReturn t -> exists s', greach nobody s s' /\ gthr s' i = GOut).
  { intros s1 t E. eexists. split; [eapply gr_S; [apply gr_0|]; apply (g_return i s1 t E)|]. cbn. apply setI_same. }
  assert (HOLD : forall s t, ginv s -> holder (gthr s i) t -> exists s', greach nobody s s' /\ gthr s' i = GOut).
  { intros s1 t G H. destruct (run_holder s1 i t G H) as (s2 & A & _ & _ & D & _). destruct (RET s2 t D) as (s3 & A' & D'). exists s3. split; auto. eapply greach_trans; eauto. }
  assert (WAIT : forall s t, ginv s -> gthr s i = GWait t -> exists s', greach nobody s s' /\ gthr s' i = GOut).
  { intros s1 t G E. assert (C : exists s2, greach nobody s1 s2 /\ gthr s2 i = GWait t /\ busy s2 t = false).
    { destruct (busy s1 t) eqn:Eb; [|exists s1; split; [apply gr_0|auto]]. pose proof G as (_ & _ & _ & _ & B & _). apply B in Eb. destruct Eb as [j Hj].
      destruct (run_holder s1 j t G Hj) as (s2 & A & _ & C & _ & K). exists s2. split; auto. split; auto. rewrite K; auto. intros ->. rewrite E in Hj. elim Hj. }
    destruct C as (s2 & A & E2 & Eb). pose proof (g_woken i s2 t E2 Eb) as G2. match type of G2 with gstep _ _ ?s3 => destruct (RET s3 t) as (s4 & A' & D') end; [cbn; apply setI_same|].
    exists s4. split; auto. eapply greach_trans; [eapply gr_S; [exact A|exact G2]|exact A']. }
  destruct (gthr s i) as [|t|t|t|t id|t|t] eqn:E.
  - exists s. split; [apply gr_0|auto].
  - destruct (Z.eq_dec (gvar s t) 0) as [V0|V0]; [destruct (busy s t) eqn:Eb|].
    + pose proof (g_block i s t E V0 Eb) as G. pose proof (ginv_step _ _ _ GI G) as GI2. match type of G with gstep _ _ ?s2 => destruct (WAIT s2 t GI2) as (s3 & A & D) end; [cbn; apply setI_same|].
      exists s3. split; auto. eapply greach_trans; [eapply gr_S; [apply gr_0|exact G]|exact A].
    + pose proof (g_first i s t E V0 Eb) as G. pose proof (ginv_step _ _ _ GI G) as GI2. match type of G with gstep _ _ ?s2 => destruct (HOLD s2 t GI2) as (s3 & A & D) end; [cbn; rewrite setI_same; reflexivity|].
      exists s3. split; auto. eapply greach_trans; [eapply gr_S; [apply gr_0|exact G]|exact A].
    + pose proof (g_fast i s t E V0) as G. match type of G with gstep _ _ ?s2 => destruct (RET s2 t) as (s3 & A & D) end; [cbn; apply setI_same|].
      exists s3. split; auto. eapply greach_trans; [eapply gr_S; [apply gr_0|exact G]|exact A].
  - eauto.
  - apply (HOLD s t); auto. rewrite E. reflexivity.
  - apply (HOLD s t); auto. rewrite E. reflexivity.
  - apply (HOLD s t); auto. rewrite E. reflexivity.
  - eauto.
Qed.

Definition anything (n : string) : Prop := True.
Definition stuck (s : gst) : Prop := gthr s 1%nat = GWait TRect /\ busy s TRect = true /\ gvar s TRect = 0 /\ forall i, ~ holder (gthr s i) TRect.
Lemma stuck_forever s s' : stuck s -> greach anything s s' -> stuck s'.
Proof.
  intros ST R. induction R as [|i s1 s2 R IH G|s1 s2 R IH G]; auto; [|destruct G; exact IH].
  destruct IH as (I1 & I2 & I3 & I4). clear R ST.
  destruct G as [s1 t P|s1 t P E|s1 t P E1 E2|s1 t P E1 E2|s1 t P E|s1 t id P Fr|s1 t P T|s1 t id P N|s1 t P|s1 t P|s1 t P]; unfold stuck; cbn [gthr busy gvar].
  all: assert (NT : holder (gthr s1 i) t -> t <> TRect) by (intros Hh ->; exact (I4 i Hh)); rewrite P in NT; cbn [holder] in NT.
  all: split; [destruct (Nat.eq_dec 1 i) as [<-|?]; [exfalso; congruence|rewrite setI_other; auto]|].
  all: split; [first [exact I2|rewrite setT_other; [exact I2|apply not_eq_sym; auto]|idtac]|split; [first [exact I3|rewrite setT_other; [exact I3|apply not_eq_sym; auto]]|]].
  all: try (intros j Hj; ithr i j; [first [elim Hj; fail|cbn in Hj; apply NT; auto; fail|idtac]|exact (I4 j Hj)]).
  all: try congruence.
Qed.
(** If the rest of the process has taken one of the names, the guarantee is lost: the first caller gets 0, and a
    second caller that arrived meanwhile blocks for ever. *)
Theorem C80_name_clash_refuted : exists rs s, greach anything (gstart rs) s /\ In (TRect, 0) (returned s) /\
  forall s', greach anything s s' -> gthr s' 1%nat = GWait TRect.
Proof.
  assert (R : greach anything (gstart [Reg 7 "GrapheneRect" None None]) (gstart [Reg 7 "GrapheneRect" None None])) by apply gr_0. unfold gstart at 2 in R.
  match type of R with greach _ _ ?z => eassert (G : gstep 0%nat z _) by (apply (g_call 0%nat z TRect); reflexivity) end; apply (gr_S _ _ _ _ _ R) in G; clear R; rename G into R; cbn [gvar busy registry gthr returned] in R.
  match type of R with greach _ _ ?z => eassert (G : gstep 0%nat z _) by (apply (g_first 0%nat z TRect); reflexivity) end; apply (gr_S _ _ _ _ _ R) in G; clear R; rename G into R; cbn [gvar busy registry gthr returned] in R.
  match type of R with greach _ _ ?z => eassert (G : gstep 1%nat z _) by (apply (g_call 1%nat z TRect); reflexivity) end; apply (gr_S _ _ _ _ _ R) in G; clear R; rename G into R; cbn [gvar busy registry gthr returned] in R.
  match type of R with greach _ _ ?z => eassert (G : gstep 1%nat z _) by (apply (g_block 1%nat z TRect); reflexivity) end; apply (gr_S _ _ _ _ _ R) in G; clear R; rename G into R; cbn [gvar busy registry gthr returned] in R.
  match type of R with greach _ _ ?z => eassert (G : gstep 0%nat z _) by (apply (g_taken 0%nat z TRect); [reflexivity|left; reflexivity]) end; apply (gr_S _ _ _ _ _ R) in G; clear R; rename G into R; cbn [gvar busy registry gthr returned] in R.
  match type of R with greach _ _ ?z => eassert (G : gstep 0%nat z _) by (apply (g_refuse 0%nat z TRect); reflexivity) end; apply (gr_S _ _ _ _ _ R) in G; clear R; rename G into R; cbn [gvar busy registry gthr returned] in R.
  match type of R with greach _ _ ?z => eassert (G : gstep 0%nat z _) by (apply (g_return 0%nat z TRect); reflexivity) end; apply (gr_S _ _ _ _ _ R) in G; clear R; rename G into R; cbn [gvar busy registry gthr returned] in R.
  eexists. eexists. split; [exact R|]. split; [left; reflexivity|]. clear R.
  intros s' R. refine (proj1 (stuck_forever _ s' _ R)). split; [reflexivity|]. split; [reflexivity|]. split; [reflexivity|].
  intros i. destruct i as [|[|i]]; intros [].
Qed.

(** the hypotheses are met: two threads race for the rectangle type, a third asks for the box type *)
Example C80_race_met : exists s, polite_start (gstart [Reg 7 "GtkWidget" None None]) /\ greach polite (gstart [Reg 7 "GtkWidget" None None]) s /\
  returned s = [(TBox, 9); (TRect, 8); (TRect, 8)].
Proof.
  assert (R : greach polite (gstart [Reg 7 "GtkWidget" None None]) (gstart [Reg 7 "GtkWidget" None None])) by apply gr_0. unfold gstart at 2 in R.
  match type of R with greach _ _ ?z => eassert (G : gstep 0%nat z _) by (apply (g_call 0%nat z TRect); reflexivity) end; apply (gr_S _ _ _ _ _ R) in G; clear R; rename G into R; cbn [gvar busy registry gthr returned] in R.
  match type of R with greach _ _ ?z => eassert (G : gstep 1%nat z _) by (apply (g_call 1%nat z TRect); reflexivity) end; apply (gr_S _ _ _ _ _ R) in G; clear R; rename G into R; cbn [gvar busy registry gthr returned] in R.
  match type of R with greach _ _ ?z => eassert (G : gstep 0%nat z _) by (apply (g_first 0%nat z TRect); reflexivity) end; apply (gr_S _ _ _ _ _ R) in G; clear R; rename G into R; cbn [gvar busy registry gthr returned] in R.
  match type of R with greach _ _ ?z => eassert (G : gstep 1%nat z _) by (apply (g_block 1%nat z TRect); reflexivity) end; apply (gr_S _ _ _ _ _ R) in G; clear R; rename G into R; cbn [gvar busy registry gthr returned] in R.
  match type of R with greach _ _ ?z => eassert (G : gstep 0%nat z _) by (apply (g_register 0%nat z TRect 8); [reflexivity|split; [discriminate|split; cbn; intuition discriminate]]) end; apply (gr_S _ _ _ _ _ R) in G; clear R; rename G into R; cbn [gvar busy registry gthr returned] in R.
  match type of R with greach _ _ ?z => eassert (G : gstep 0%nat z _) by (apply (g_store 0%nat z TRect 8); [reflexivity|discriminate]) end; apply (gr_S _ _ _ _ _ R) in G; clear R; rename G into R; cbn [gvar busy registry gthr returned] in R.
  match type of R with greach _ _ ?z => eassert (G : gstep 0%nat z _) by (apply (g_wake 0%nat z TRect); reflexivity) end; apply (gr_S _ _ _ _ _ R) in G; clear R; rename G into R; cbn [gvar busy registry gthr returned] in R.
  match type of R with greach _ _ ?z => eassert (G : gstep 1%nat z _) by (apply (g_woken 1%nat z TRect); reflexivity) end; apply (gr_S _ _ _ _ _ R) in G; clear R; rename G into R; cbn [gvar busy registry gthr returned] in R.
  match type of R with greach _ _ ?z => eassert (G : gstep 1%nat z _) by (apply (g_return 1%nat z TRect); reflexivity) end; apply (gr_S _ _ _ _ _ R) in G; clear R; rename G into R; cbn [gvar busy registry gthr returned] in R.
  match type of R with greach _ _ ?z => eassert (G : gstep 2%nat z _) by (apply (g_call 2%nat z TBox); reflexivity) end; apply (gr_S _ _ _ _ _ R) in G; clear R; rename G into R; cbn [gvar busy registry gthr returned] in R.
  match type of R with greach _ _ ?z => eassert (G : gstep 0%nat z _) by (apply (g_return 0%nat z TRect); reflexivity) end; apply (gr_S _ _ _ _ _ R) in G; clear R; rename G into R; cbn [gvar busy registry gthr returned] in R.
  match type of R with greach _ _ ?z => eassert (G : gstep 2%nat z _) by (apply (g_first 2%nat z TBox); reflexivity) end; apply (gr_S _ _ _ _ _ R) in G; clear R; rename G into R; cbn [gvar busy registry gthr returned] in R.
  match type of R with greach _ _ ?z => eassert (G : gstep 2%nat z _) by (apply (g_register 2%nat z TBox 9); [reflexivity|split; [discriminate|split; cbn; intuition discriminate]]) end; apply (gr_S _ _ _ _ _ R) in G; clear R; rename G into R; cbn [gvar busy registry gthr returned] in R.
  match type of R with greach _ _ ?z => eassert (G : gstep 2%nat z _) by (apply (g_store 2%nat z TBox 9); [reflexivity|discriminate]) end; apply (gr_S _ _ _ _ _ R) in G; clear R; rename G into R; cbn [gvar busy registry gthr returned] in R.
  match type of R with greach _ _ ?z => eassert (G : gstep 2%nat z _) by (apply (g_wake 2%nat z TBox); reflexivity) end; apply (gr_S _ _ _ _ _ R) in G; clear R; rename G into R; cbn [gvar busy registry gthr returned] in R.
  match type of R with greach _ _ ?z => eassert (G : gstep 2%nat z _) by (apply (g_return 2%nat z TBox); reflexivity) end; apply (gr_S _ _ _ _ _ R) in G; clear R; rename G into R; cbn [gvar busy registry gthr returned] in R.
  eexists. split; [exists [Reg 7 "GtkWidget" None None]; split; auto; intros r [<-|[]] t; destruct t; discriminate|]. split; [exact R|reflexivity].
Qed.
