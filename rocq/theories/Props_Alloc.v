(** * Props_Alloc: allocation (C60). *)
From Coq Require Import ZArith List Bool Lia.
From Verif Require Import Alloc.
Import ListNotations.
Open Scope Z_scope.

Definition sane (c : config) : Prop := 65535 <= size_max c /\ 0 < malloc_align c.
Definition is_size (c : config) (n : Z) : Prop := 0 <= n <= size_max c.
Definition word64 (k : akind) : config := Cfg k true (2 ^ 64 - 1) 16.

(** ** One call *)
(** the request: exactly size*number or, where the allocator wants a multiple of the alignment, the next multiple *)
Lemma plan_ask c size number al req : sane c -> is_size c size -> is_size c number -> 0 < al ->
  alloc_plan c size number al = PAsk req ->
  0 < size * number <= size_max c /\
  (match ak c with AlignedAlloc | MsAlignedMalloc => size * number + (al - 1) <= size_max c | _ => True end -> size * number <= req <= size_max c).
Proof.
  intros [SM _] [S0 S1] [N0 N1] AL. unfold alloc_plan. destruct (Z.eqb_spec size 0); [easy|]. destruct (Z.eqb_spec number 0); [easy|]. cbn [orb].
  destruct (Z.ltb_spec 0 size) as [SP|]; [|lia]. cbn [andb]. destruct (Z.ltb_spec (size_max c / size) number) as [|L]; [destruct (asserts c); easy|].
  assert (P : size * number <= size_max c). { pose proof (Z.mul_div_le (size_max c) size SP). nia. }
  rewrite Z.mod_small by nia. intros E. injection E as <-. split; [nia|].
  assert (R : size * number + (al - 1) <= size_max c -> size * number <= round_up c (size * number) al <= size_max c).
  { intros W. unfold round_up. pose proof (Z.mod_pos_bound (size * number) al AL). destruct (Z.eqb_spec ((size * number) mod al) 0); [lia|]. rewrite Z.mod_small by nia. lia. }
  destruct (ak c); auto; lia.
Qed.
(** no rounding overflow: always true except for aligned_alloc with a total within [alignment] of SIZE_MAX *)
Definition no_wrap (c : config) (size number al : Z) : Prop :=
  match ak c with AlignedAlloc | MsAlignedMalloc => size * number + (al - 1) <= size_max c | _ => True end.
Theorem C60_aligned_alloc : forall c H size number al r H', sane c -> is_size c size -> is_size c number -> 0 < al -> no_wrap c size number al ->
  aligned_alloc c H size number al r H' ->
  match r with
  | RPtr p =>
      (* room for all the elements, at an address of the right alignment, away from everything else; other bytes untouched *)
      0 < size * number /\ 0 < p /\ p + size * number <= size_max c + 1 /\ (ak c <> Malloc -> p mod al = 0) /\
      (exists b, In b (live H') /\ b_addr b = p /\ size * number <= b_len b /\ b_by b = owed (ak c)) /\
      (forall b, In b (live H) -> In b (live H') /\ apart p (size * number) (b_addr b) (b_len b) /\
         forall x, inside (b_addr b) (b_len b) x -> byte H' x = byte H x)
  | RNull => H' = H /\ (size = 0 \/ number = 0 \/ asserts c = false)
  | RAbort => H' = H /\ asserts c = true end.
Proof.
  intros c H size number al r H' SA IS IN AL NW A. destruct A as [E|E|req E F|req p H' E F].
  - split; auto. unfold alloc_plan in E. destruct (Z.eqb_spec size 0); [auto|]. destruct (Z.eqb_spec number 0); [auto|]. cbn [orb] in E.
    destruct (_ && _); [|easy]. destruct (asserts c); easy || auto.
  - split; auto. unfold alloc_plan in E. destruct (_ || _); [easy|]. destruct (_ && _); [|easy]. destruct (asserts c); easy.
  - destruct (asserts c) eqn:Q; auto.
  - destruct (plan_ask _ _ _ _ _ SA IS IN AL E) as [P R]. specialize (R NW). inversion F as [|a f (FA & FB & FC) FM FO FZ]; subst.
    split; [lia|]. split; [auto|]. split; [lia|]. split; [|split].
    + intros NM. unfold sys_alignment in FM. destruct (ak c); congruence.
    + eexists. split; [left; reflexivity|]. cbn [b_addr b_len b_by live]. repeat split; lia.
    + intros b Hb. destruct (FC b Hb) as [D1 D2]. split; [right; auto|]. split; [unfold apart; lia|]. intros x X. cbn [byte]. apply FO. unfold inside in * . lia.
Qed.
(** alloc0: the same, and the whole array reads as zero *)
Theorem C60_aligned_alloc0 : forall c H size number al p H', sane c -> is_size c size -> is_size c number -> 0 < al -> no_wrap c size number al ->
  aligned_alloc0 c H size number al (RPtr p) H' ->
  (exists b, In b (live H') /\ b_addr b = p /\ size * number <= b_len b) /\
  (forall x, inside p (size * number) x -> byte H' x = 0) /\
  (forall b, In b (live H) -> In b (live H') /\ forall x, inside (b_addr b) (b_len b) x -> byte H' x = byte H x).
Proof.
  intros c H size number al p H' SA IS IN AL NW A. inversion A as [q H1 A1 E1 E2| |]; subst.
  pose proof (C60_aligned_alloc _ _ _ _ _ _ _ SA IS IN AL NW A1) as (S0 & P0 & PM & _ & (b & Hb & E & L & _) & O).
  rewrite Z.mod_small by lia. split; [|split].
  - exists b. cbn [clear live]. auto.
  - intros x X. unfold inside in X. cbn [clear byte]. replace (_ && _) with true; auto. symmetry. apply andb_true_iff. rewrite Z.leb_le, Z.ltb_lt. lia.
  - intros b' Hb'. destruct (O b' Hb') as (I & D & B). split; [exact I|]. intros x X. cbn [clear byte]. rewrite <- (B x X).
    replace (_ && _) with false; auto. symmetry. apply andb_false_iff. rewrite Z.leb_gt, Z.ltb_ge. unfold apart, inside in * . lia.
Qed.
(** overflow of size*number is detected, never a short block *)
Theorem C60_overflow_detected : forall c H size number al r H', sane c -> is_size c size -> is_size c number -> size_max c < size * number ->
  aligned_alloc c H size number al r H' -> H' = H /\ r = if asserts c then RAbort else RNull.
Proof.
  intros c H size number al r H' [SM _] [S0 S1] [N0 N1] OV A.
  assert (E0 : alloc_plan c size number al = if asserts c then PAbort else PNull).
  { unfold alloc_plan. destruct (Z.eqb_spec size 0); [nia|]. destruct (Z.eqb_spec number 0); [nia|]. cbn [orb].
    destruct (Z.ltb_spec 0 size) as [SP|]; [|lia]. cbn [andb]. destruct (Z.ltb_spec (size_max c / size) number) as [|L]; auto.
    exfalso. pose proof (Z.mul_div_le (size_max c) size SP). nia. }
  destruct A as [E|E|req E F|req p H' E F]; rewrite E0 in E; destruct (asserts c); try easy; auto.
Qed.
(** ** The exception: aligned_alloc (or _aligned_malloc) and a total within the alignment of SIZE_MAX *)
Theorem C60_wrap_refuted : exists c H H' size number p b,
  c = word64 AlignedAlloc /\ is_size c size /\ is_size c number /\ size * number <= size_max c /\
  In b (live H) /\ (exists x, inside (b_addr b) (b_len b) x /\ byte H x = 7 /\ byte H' x = 0) /\
  aligned_alloc0 c H size number 16 (RPtr p) H'.
Proof.
  set (c := word64 AlignedAlloc). set (H := Heap [Blk 4096 16 DFree] (fun _ => 7)).
  exists c, H, (clear (Heap [Blk 16 0 DFree; Blk 4096 16 DFree] (fun _ => 7)) 16 (2 ^ 64 - 1)), 1, (2 ^ 64 - 1), 16, (Blk 4096 16 DFree).
  split; auto. unfold is_size. change (size_max c) with (2 ^ 64 - 1). split; [lia|]. split; [lia|]. split; [lia|]. split; [left; auto|]. split.
  - exists 4096. unfold inside; cbn [b_addr b_len]. split; [lia|]. split; auto.
  - change (2 ^ 64 - 1) with ((1 * (2 ^ 64 - 1)) mod (size_max c + 1)) at 2. apply a0_ptr. eapply (aa_ok _ _ _ _ _ 0); [reflexivity|].
    change (owed (ak c)) with DFree. change (Blk 4096 16 DFree :: nil) with (live H). apply sys_ok.
    + unfold is_free. change (size_max c) with (2 ^ 64 - 1). split; [lia|]. split; [lia|]. intros b [<-|[]]. unfold apart; cbn [b_addr b_len]. lia.
    + reflexivity. + reflexivity. + discriminate.
Qed.
(** and where only malloc is available the alignment is not met *)
Theorem C60_malloc_alignment_refuted : exists c H H' p, sane c /\ ak c = Malloc /\ aligned_alloc c H 16 1 16 (RPtr p) H' /\ p mod 16 <> 0.
Proof.
  exists (Cfg Malloc true (2 ^ 32 - 1) 8), (Heap [] (fun _ => 0)), (Heap [Blk 8 16 DFree] (fun _ => 0)), 8. split; [unfold sane; cbn; lia|]. split; auto. split; [|discriminate].
  eapply (aa_ok _ _ _ _ _ 16); [reflexivity|]. apply (sys_ok _ (Heap [] (fun _ => 0))).
  - unfold is_free. cbn [size_max]. split; [lia|]. split; [lia|]. intros b [].
  - reflexivity. - reflexivity. - discriminate.
Qed.

(** ** Whole executions *)
Fixpoint pairwise (l : list block) : Prop :=
  match l with [] => True | b :: r => (forall b', In b' r -> apart (b_addr b) (b_len b) (b_addr b') (b_len b')) /\ pairwise r end.
(** starting point: any heap whose blocks do not overlap, owned by the rest of the program *)
Definition initial (s : state) : Prop := objs s = [] /\ pairwise (live (hp s)) /\ forall b, In b (live (hp s)) -> 0 < b_addr b.
Definition owns (c : config) (s : state) (o : otype * Z) : Prop :=
  exists b, In b (live (hp s)) /\ b_addr b = snd o /\ osize (fst o) <= b_len b /\ b_by b = ofree c (fst o).
Definition inv (c : config) (s0 s : state) : Prop :=
  pairwise (live (hp s)) /\ (forall b, In b (live (hp s)) -> 0 < b_addr b) /\
  (forall o, In o (objs s) -> owns c s o) /\
  NoDup (map snd (objs s)) /\
  (forall o, In o (objs s) -> oalloc (fst o) <> HCalloc -> ak c <> Malloc -> snd o mod 16 = 0) /\
  (forall b, In b (live (hp s0)) -> In b (live (hp s)) /\ (forall o, In o (objs s) -> snd o <> b_addr b) /\ forall x, inside (b_addr b) (b_len b) x -> byte (hp s) x = byte (hp s0) x).
Lemma osize_pos t : 0 < osize t <= 192. Proof. destruct t; cbn; lia. Qed.
Lemma pairwise_apart l b b' : pairwise l -> In b l -> In b' l -> b_addr b <> b_addr b' -> apart (b_addr b) (b_len b) (b_addr b') (b_len b').
Proof.
  induction l as [|d l IH]; intros P Hb Hb' N; [easy|]. destruct P as [P1 P2]. destruct Hb as [<-|Hb], Hb' as [<-|Hb']; try congruence; auto.
  specialize (P1 b Hb). unfold apart in * . lia.
Qed.
Lemma pairwise_unique l b b' : pairwise l -> In b l -> In b' l -> b_addr b = b_addr b' -> b = b'.
Proof.
  induction l as [|d l IH]; intros P Hb Hb' N; [easy|]. destruct P as [P1 P2]. destruct Hb as [<-|Hb], Hb' as [<-|Hb']; auto.
  - exfalso. destruct (P1 b' Hb'). auto. - exfalso. destruct (P1 b Hb). auto.
Qed.
Lemma pairwise_filter f l : pairwise l -> pairwise (filter f l).
Proof. induction l as [|d l IH]; cbn; auto. intros [P1 P2]. destruct (f d); cbn; auto. split; auto. intros b' Hb'. apply filter_In in Hb'. apply P1. tauto. Qed.
(** an object allocation: a new block at the end of the list, nothing else touched *)
Lemma obj_alloc_spec c H t p H' : sane c -> obj_alloc c H t (RPtr p) H' ->
  exists n, osize t <= n /\ live H' = Blk p n (ofree c t) :: live H /\ is_free c H p n /\
    (forall x, ~ inside p n x -> byte H' x = byte H x) /\ (oalloc t <> HAligned -> forall x, inside p (osize t) x -> byte H' x = 0) /\
    (oalloc t <> HCalloc -> ak c <> Malloc -> p mod 16 = 0).
Proof.
  intros SA A. pose proof (osize_pos t) as OP. pose proof SA as [SM _].
  assert (AAC : forall q H1, aligned_alloc c H (osize t) 1 16 (RPtr q) H1 -> exists n f, osize t <= n /\ H1 = Heap (Blk q n (owed (ak c)) :: live H) f /\ is_free c H q n /\
     (forall x, ~ inside q n x -> f x = byte H x) /\ (ak c <> Malloc -> q mod 16 = 0)).
  { intros q H1 A1. inversion A1 as [| | E'|req q' H1' E F]; subst. { destruct (asserts c); discriminate. }
    destruct (plan_ask c (osize t) 1 16 req SA) as [P R]; auto; try (unfold is_size; lia); try lia.
    assert (no_wrap c (osize t) 1 16) as NW by (unfold no_wrap; destruct (ak c); auto; lia). specialize (R NW).
    inversion F as [|a f FI FM FO FZ]; subst. exists req, f. split; [lia|]. split; auto. split; auto. split; auto. unfold sys_alignment in FM. destruct (ak c); auto; congruence. }
  assert (OD : owed (ak c) = aligned_dealloc c) by (unfold owed, aligned_dealloc; destruct (ak c); reflexivity). rewrite OD in AAC. clear OD.
  assert (AK : asked t = t) by (destruct t; reflexivity).
  unfold obj_alloc in A. rewrite AK in A. destruct (oalloc t) eqn:HT.
  - destruct (AAC _ _ A) as (n & f & L & -> & FI & FO & AL). exists n. cbn [live byte]. repeat split; try tauto; try apply FI; try congruence; auto. now destruct t.
  - inversion A as [q H1 A1 E1 E2| |]; subst. destruct (AAC _ _ A1) as (n & f & L & -> & FI & FO & AL). exists n. cbn [clear live byte]. rewrite Z.mul_1_r, Z.mod_small by lia.
    split; auto. split; [now destruct t|]. split; auto. split; [|split; auto].
    + intros x X. rewrite <- FO by auto. replace (_ && _) with false; auto. symmetry. apply andb_false_iff. rewrite Z.leb_gt, Z.ltb_ge. unfold inside in X. lia.
    + intros _ x X. replace (_ && _) with true; auto. symmetry. apply andb_true_iff. rewrite Z.leb_le, Z.ltb_lt. unfold inside in X. lia.
  - inversion A as [|q H1 F]; subst. inversion F as [|a f FI FM FO FZ]; subst. exists (osize t). cbn [live byte]. split; [lia|]. split; [now destruct t|]. split; auto. split; auto. split; auto. congruence.
Qed.
Lemma obj_null_same c H t H' : obj_alloc c H t RNull H' -> H' = H.
Proof.
  unfold obj_alloc. intros A. assert (AA : forall sz H1, aligned_alloc c H sz 1 16 RNull H1 -> H1 = H).
  { intros sz H1 A1. inversion A1; subst; auto. }
  destruct (oalloc t). - eauto. - inversion A; subst; eauto. - inversion A; auto.
Qed.
Lemma find_block l p b : pairwise l -> In b l -> b_addr b = p -> find (fun b => b_addr b =? p) l = Some b.
Proof.
  intros PW I E. destruct (find _ l) as [b'|] eqn:F.
  - apply find_some in F. destruct F as [I' E']. apply Z.eqb_eq in E'. f_equal. eapply pairwise_unique; eauto. lia.
  - exfalso. pose proof (find_none _ _ F b I) as N. cbn in N. apply Z.eqb_neq in N. auto.
Qed.
Lemma release_owned c s o : pairwise (live (hp s)) -> (forall b, In b (live (hp s)) -> 0 < b_addr b) -> owns c s o ->
  obj_free c (hp s) (fst o) (snd o) = Some (Heap (filter (fun b => negb (b_addr b =? snd o)) (live (hp s))) (byte (hp s))).
Proof.
  intros PW PP (b & I & E & L & D). unfold obj_free, release. pose proof (PP b I). destruct (Z.eqb_spec (snd o) 0); [lia|].
  rewrite (find_block _ _ b PW I E), D. destruct (ofree c (fst o)); reflexivity.
Qed.
Lemma inv_step c s0 s s' : sane c -> inv c s0 s -> step c s s' -> inv c s0 s'.
Proof.
  intros SA (PW & PP & OW & ND & AL & FO) S. destruct S as [H os t p H' A|H os t H' A|H os t p H' I E|H os t H' E|H os t p off v I O]; cbn [hp objs] in * .
  - destruct (obj_alloc_spec _ _ _ _ _ SA A) as (n & L & LV & (F1 & F2 & F3) & KB & _ & AL').
    assert (NW : forall o, In o os -> snd o <> p). { intros o Ho. destruct (OW o Ho) as (b & Hb & E & _). destruct (F3 b Hb). cbn [hp] in * . lia. }
    unfold inv; cbn [hp objs]. rewrite LV. split; [split; auto|]. split. { intros b [<-|Hb]; auto. } split.
    { intros o [<-|Ho]. - exists (Blk p n (ofree c t)). cbn [hp fst snd]. rewrite LV. cbn [b_addr b_len b_by]. repeat split; auto. left; auto.
      - destruct (OW o Ho) as (b & Hb & E). exists b. cbn [hp] in * . rewrite LV. split; auto. right; auto. }
    split. { cbn [map snd]. constructor; auto. intros J. apply in_map_iff in J. destruct J as (o & E & Ho). exact (NW o Ho E). }
    split. { intros o [<-|Ho]; auto. }
    intros b Hb. destruct (FO b Hb) as (I & NO & KP). split; [right; auto|]. split.
    { intros o [<-|Ho]; auto. cbn [snd]. destruct (F3 b I). auto. }
    intros x X. rewrite <- KP by auto. apply KB. destruct (F3 b I) as [_ D]. unfold inside in * . lia.
  - rewrite (obj_null_same _ _ _ _ A). repeat split; auto; apply FO; auto.
  - pose proof (OW _ I) as OWI. pose proof (release_owned c (St H os) (t, p) PW PP OWI) as RO. cbn [hp fst snd] in RO. rewrite RO in E. injection E as <-.
    unfold inv; cbn [hp objs live byte]. split; [apply pairwise_filter; auto|]. split. { intros b Hb. apply filter_In in Hb. apply PP. tauto. }
    split. { intros o Ho. apply filter_In in Ho. destruct Ho as [Ho NE]. destruct (OW o Ho) as (b & Hb & E & R). exists b. cbn [hp live] in * . split; auto. apply filter_In. split; auto. rewrite E. auto. }
    split. { clear -ND. induction os as [|o os IH]; cbn; auto. inversion ND; subst. destruct (negb _); cbn; auto. constructor; auto. intros J. apply H1. apply in_map_iff in J. destruct J as (o' & E & J). apply filter_In in J. apply in_map_iff. exists o'. tauto. }
    split. { intros o Ho. apply filter_In in Ho. apply AL. tauto. }
    intros b Hb. destruct (FO b Hb) as (IB & NO & KP). split. { apply filter_In. split; auto. pose proof (NO _ I) as N. cbn [snd] in N. apply negb_true_iff, Z.eqb_neq. auto. }
    split; auto. intros o Ho. apply filter_In in Ho. apply NO. tauto.
  - unfold obj_free, release in E. cbn in E. injection E as <-. repeat split; auto; apply FO; auto.
  - unfold inv; cbn [hp objs live byte put]. repeat (split; [first [assumption|intros o Ho; destruct (OW o Ho) as (b & Hb & E); exists b; auto]|]).
    intros b Hb. destruct (FO b Hb) as (IB & NO & KP). split; auto. split; auto. intros x X. rewrite <- KP by auto.
    destruct (Z.eqb_spec x (p + off)) as [->|]; auto. exfalso. destruct (OW _ I) as (b' & Hb' & E & L & _). cbn [fst snd hp] in * .
    assert (NE : b_addr b <> b_addr b') by (rewrite E; intros Q; apply (NO _ I); auto).
    pose proof (pairwise_apart _ _ _ PW IB Hb' NE) as [_ D]. unfold inside in * . lia.
Qed.
Lemma inv_initial c s : initial s -> inv c s s.
Proof. intros (E & PW & PP). unfold inv. rewrite E. repeat split; auto; try (intros o []); constructor. Qed.
Lemma inv_steps c s0 s : sane c -> initial s0 -> steps c s0 s -> inv c s0 s.
Proof. intros SA I S. induction S. - apply inv_initial; auto. - eapply inv_step; eauto. Qed.

(** Every object still allocated can be released: its *_free hands the block to the deallocator of the
    allocator it came from, and takes exactly that block away. *)
Theorem C69_free_matches_alloc : forall c s0 s t p, sane c -> initial s0 -> steps c s0 s -> In (t, p) (objs s) ->
  exists H', obj_free c (hp s) t p = Some H' /\ (forall b, In b (live H') <-> In b (live (hp s)) /\ b_addr b <> p) /\ byte H' = byte (hp s).
Proof.
  intros c s0 s t p SA I S O. destruct (inv_steps c s0 s SA I S) as (PW & PP & OW & _). eexists. split; [|split].
  - apply (release_owned c s (t, p)); auto. - intros b. cbn [live fst snd]. rewrite filter_In, negb_true_iff, Z.eqb_neq. tauto. - reflexivity.
Qed.
(** *_free (NULL) does nothing, in any state. *)
Theorem C69_free_null : forall c H t, obj_free c H t 0 = Some H.
Proof. reflexivity. Qed.
(** Two objects alive at the same time never share a byte; objects with vector members are 16-aligned. *)
Theorem C69_objects_disjoint : forall c s0 s t p u q, sane c -> initial s0 -> steps c s0 s -> In (t, p) (objs s) -> In (u, q) (objs s) ->
  p = q /\ t = u \/ p + osize t <= q \/ q + osize u <= p.
Proof.
  intros c s0 s t p u q SA I S O1 O2. destruct (inv_steps c s0 s SA I S) as (PW & PP & OW & ND & _). destruct (Z.eq_dec p q) as [->|N].
  - left. split; auto. clear -ND O1 O2. induction (objs s) as [|o l IH]; [easy|]. cbn in ND. inversion ND; subst.
    destruct O1 as [->|O1], O2 as [E|O2]; auto; try congruence; exfalso; apply H1; apply in_map_iff; [exists (u, q)|exists (t, q); rewrite E]; auto.
  - right. destruct (OW _ O1) as (b & Hb & E & L & _), (OW _ O2) as (b' & Hb' & E' & L' & _). cbn [fst snd] in * .
    destruct (pairwise_apart _ b b' PW Hb Hb') as [_ D]; lia.
Qed.
Theorem C69_objects_aligned : forall c s0 s t p, sane c -> ak c <> Malloc -> initial s0 -> steps c s0 s -> In (t, p) (objs s) -> oalloc t <> HCalloc -> p mod 16 = 0.
Proof. intros c s0 s t p SA NM I S O NC. destruct (inv_steps c s0 s SA I S) as (_ & _ & _ & _ & AL & _). exact (AL _ O NC NM). Qed.
(** Memory the rest of the program owns is neither released nor written by any history of the API. *)
Theorem C69_foreign_untouched : forall c s0 s b, sane c -> initial s0 -> steps c s0 s -> In b (live (hp s0)) ->
  In b (live (hp s)) /\ (forall x, inside (b_addr b) (b_len b) x -> byte (hp s) x = byte (hp s0) x) /\
  forall t p, In (t, p) (objs s) -> p + osize t <= b_addr b \/ b_addr b + b_len b <= p.
Proof.
  intros c s0 s b SA I S Hb. destruct (inv_steps c s0 s SA I S) as (PW & _ & OW & _ & _ & FO). destruct (FO b Hb) as (IB & NO & KP). repeat split; auto.
  intros t p O. destruct (OW _ O) as (b' & Hb' & E & L & _). cbn [fst snd] in * . pose proof (NO _ O) as N. cbn [snd] in N.
  destruct (pairwise_apart _ b b' PW IB Hb') as [_ D]; lia.
Qed.
(** One more step never changes the bytes of an object other than by a write to that object; new zeroed objects read 0. *)
Theorem C69_bytes_stable : forall c s0 s s' t p x, sane c -> initial s0 -> steps c s0 s -> step c s s' -> In (t, p) (objs s) -> In (t, p) (objs s') ->
  inside p (osize t) x -> byte (hp s') x = byte (hp s) x \/ exists v, s' = St (put (hp s) x v) (objs s).
Proof.
  intros c s0 s s' t p x SA I S ST O O' X. destruct (inv_steps c s0 s SA I S) as (PW & PP & OW & ND & _). destruct ST as [H os u q H' A|H os u H' A|H os u q H' J E|H os u H' E|H os u q off v J L]; cbn [hp objs] in * .
  - left. destruct (obj_alloc_spec _ _ _ _ _ SA A) as (n & L & LV & (F1 & F2 & F3) & KB & _). apply KB. destruct (OW _ O) as (b & Hb & E & LB & _). destruct (F3 b Hb) as [_ D]. cbn [fst snd] in * . unfold inside in * . lia.
  - left. now rewrite (obj_null_same _ _ _ _ A).
  - left. pose proof (release_owned c (St H os) (u, q) PW PP (OW _ J)) as RO. cbn [hp fst snd] in RO. rewrite RO in E. injection E as <-. reflexivity.
  - left. injection E as <-. reflexivity.
  - cbn [put byte]. destruct (Z.eqb_spec x (q + off)) as [->|]; auto. right. exists v. reflexivity.
Qed.
Theorem C69_zeroed : forall c H t p H', sane c -> obj_alloc c H t (RPtr p) H' -> oalloc t <> HAligned -> forall x, inside p (osize t) x -> byte H' x = 0.
Proof. intros c H t p H' SA A N. destruct (obj_alloc_spec _ _ _ _ _ SA A) as (n & _ & _ & _ & _ & Z & _). auto. Qed.

(** ** The hypotheses are met: on Windows (two deallocators) allocate a quaternion and a matrix, write, free the quaternion *)
Definition ex_cfg : config := word64 MsAlignedMalloc.
Definition ex0 : state := St (Heap [Blk 64 8 DFree] (fun _ => 3)) [].
Example C69_initial_met : initial ex0.
Proof. split; auto. split; cbn; auto. split; auto. intros b' []. intros b [<-|[]]; cbn; lia. Qed.
Example C69_sane_met : forall k, sane (word64 k). Proof. intros k. unfold sane; cbn; lia. Qed.
Example C69_run_met : exists s, steps ex_cfg ex0 s /\ objs s = [(TMatrix, 256)] /\ byte (hp s) 260 = 5.
Proof.
  eexists. split; [|split].
  - eapply steps_S; [eapply steps_S; [eapply steps_S; [eapply steps_S; [apply steps_0|]|]|]|].
    + apply (st_alloc _ _ _ TQuaternion 128). apply calloc_ok. apply (sys_ok _ _ _ _ _ _ 128 (fun x => if (128 <=? x) && (x <? 144) then 0 else 3)).
      * split; [lia|]. split; [cbn; lia|]. intros b [<-|[]]; unfold apart; cbn; lia.
      * reflexivity.
      * intros x X. cbn. unfold inside in X. cbn in X. replace (_ && _) with false; auto. symmetry. apply andb_false_iff. rewrite Z.leb_gt, Z.ltb_ge. lia.
      * intros _ x X. unfold inside in X. cbn in X. replace (_ && _) with true; auto. symmetry. apply andb_true_iff. rewrite Z.leb_le, Z.ltb_lt. lia.
    + apply (st_alloc _ _ _ TMatrix 256). eapply (aa_ok _ _ _ _ _ 64); [reflexivity|]. apply sys_ok with (f := fun x => if (128 <=? x) && (x <? 144) then 0 else 3).
      * split; [lia|]. split; [cbn; lia|]. intros b [<-|[<-|[]]]; unfold apart; cbn; lia.
      * reflexivity. * reflexivity. * discriminate.
    + apply (st_write _ _ _ TMatrix 256 4 5); [left; auto|cbn; lia].
    + apply (st_free _ _ _ TQuaternion 128); [right; left; auto|]. reflexivity.
  - reflexivity.
  - reflexivity.
Qed.
