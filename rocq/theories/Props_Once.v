(** * Props_Once: the library's constants under every schedule (C61). *)
From Coq Require Import ZArith List Bool Arith Lia.
From Verif Require Import Num Simd Once.
From Verif Require Vec Box.
Import ListNotations.

Section P.
Context {F : Type} {O : FOps F}.
Notation V := (simd4f F). Notation st := (@st F).
Implicit Types s : st.

(** What the documentation of each accessor promises. *)
Definition meaning (a : acc) : list V :=
  match a with
  | vec2_zero => [V4 fzero fzero fzero fzero] | vec2_one => [V4 fone fone fzero fzero]
  | vec2_x_axis => [V4 fone fzero fzero fzero] | vec2_y_axis => [V4 fzero fone fzero fzero]
  | vec3_zero => [V4 fzero fzero fzero fzero] | vec3_one => [V4 fone fone fone fzero]
  | vec3_x_axis => [V4 fone fzero fzero fzero] | vec3_y_axis => [V4 fzero fone fzero fzero] | vec3_z_axis => [V4 fzero fzero fone fzero]
  | vec4_zero => [V4 fzero fzero fzero fzero] | vec4_one => [V4 fone fone fone fone]
  | vec4_x_axis => [V4 fone fzero fzero fzero] | vec4_y_axis => [V4 fzero fone fzero fzero]
  | vec4_z_axis => [V4 fzero fzero fone fzero] | vec4_w_axis => [V4 fzero fzero fzero fone]
  | box_zero => [V4 fzero fzero fzero fzero; V4 fzero fzero fzero fzero]
  | box_one => [V4 fzero fzero fzero fzero; V4 fone fone fone fzero]
  | box_minus_one => [V4 (fneg fone) (fneg fone) (fneg fone) fzero; V4 fzero fzero fzero fzero]
  | box_one_minus_one => [V4 (fneg fone) (fneg fone) (fneg fone) fzero; V4 fone fone fone fzero]
  | box_infinite => [V4 (fneg finf) (fneg finf) (fneg finf) fzero; V4 finf finf finf fzero]
  | box_empty => [V4 finf finf finf fzero; V4 (fneg finf) (fneg finf) (fneg finf) fzero]
  | box2d_zero => [V4 fzero fzero fzero fzero]
  | box2d_one => [V4 fzero fzero fone fone]
  | box2d_minus_one => [V4 (fneg fone) (fneg fone) fzero fzero]
  | box2d_one_minus_one => [V4 (fneg fone) (fneg fone) fone fone]
  | box2d_infinite => [V4 (fneg finf) (fneg finf) finf finf]
  | box2d_empty => [V4 finf finf (fneg finf) (fneg finf)] end.
(** the constants the rest of the model uses are these *)
Theorem C61_model_constants : 
  meaning vec3_one = [Vec.vec3_one] /\ meaning vec3_x_axis = [Vec.vec3_x_axis] /\ meaning vec3_zero = [Vec.vec3_zero] /\
  meaning box_empty = [Box.bmin Box.box_empty; Box.bmax Box.box_empty] /\ meaning box_infinite = [Box.bmin Box.box_infinite; Box.bmax Box.box_infinite] /\
  meaning box2d_empty = [Box.box2d_empty] /\ meaning box2d_infinite = [Box.box2d_infinite].
Proof. repeat split. Qed.

Definition complete (s : st) (t : tbl) : Prop := forall c v, In (c, v) (script t) -> mem s c = v.
Lemma script_fun t c v u w : In (c, v) (script t) -> In (c, w) (script u) -> v = w.
Proof.
  intros H1 H2. assert (t = u).
  { assert (forall t (x : cell * V), In x (script t) -> c_tbl (fst x) = t) as T by (intros [] x; cbn; intuition (subst; reflexivity)). rewrite <- (T _ _ H1). exact (T _ _ H2). }
  subst u. destruct t; cbn in H1, H2; intuition congruence.
Qed.
Lemma complete_meaning s a : complete s (tab a) -> map (mem s) (cells_of a) = meaning a.
Proof. intros C. destruct a; cbn; repeat (apply f_equal2; [apply C; cbn; auto 20|]); reflexivity. Qed.

(** ** values: all mechanisms *)
Definition inv (s : st) : Prop :=
  (forall i a rest, thr s i = Init a rest -> incl rest (script (tab a)) /\ forall c v, In (c, v) (script (tab a)) -> In (c, v) rest \/ mem s c = v) /\
  (forall a, In a (handed s) -> complete s (tab a)) /\
  (forall t, ctl s t = Done -> complete s t) /\ (forall t, flag s t = true -> complete s t).
Lemma updI_same {B} (f : nat -> B) i v : upd Nat.eq_dec f i v i = v.
Proof. unfold upd. destruct (Nat.eq_dec i i); congruence. Qed.
Lemma updI_other {B} (f : nat -> B) i j v : j <> i -> upd Nat.eq_dec f i v j = f j.
Proof. unfold upd. destruct (Nat.eq_dec j i); congruence. Qed.
Lemma inv_start : inv start.
Proof. repeat split; cbn; try discriminate; try easy. Qed.
Lemma inv_step m i s s' : inv s -> step m i s s' -> inv s'.
Proof.
  intros (I1 & I2 & I3 & I4) S. destruct S as [s a E|s a B E C|s a B E C|s a B E C|s a B E C|s a c v rest E|s a B E|s a B E]; unfold inv, complete; cbn [thr ctl flag mem handed].
  - split; [|auto]. intros j b rest. unfold upd. destruct (Nat.eq_dec j i); [discriminate|]. apply I1.
  - split; [|split; [auto|split; [|auto]]].
    + intros j b rest. unfold upd. destruct (Nat.eq_dec j i); [|apply I1]. intros Q. injection Q as <- <-. split; [apply incl_refl|]. auto.
    + intros t. unfold upd. destruct (tbl_eq_dec t (tab a)); [discriminate|]. apply I3.
  - split; [|split; [|auto]].
    + intros j b rest. unfold upd. destruct (Nat.eq_dec j i); [discriminate|]. apply I1.
    + intros b [<-|Hb]; [apply I3; auto|apply I2; auto].
  - split; [|split; [|auto]].
    + intros j b rest. unfold upd. destruct (Nat.eq_dec j i); [discriminate|]. apply I1.
    + intros b [<-|Hb]; [apply I4; auto|apply I2; auto].
  - split; [|auto]. intros j b rest. unfold upd. destruct (Nat.eq_dec j i); [|apply I1]. intros Q. injection Q as <- <-. split; [apply incl_refl|]. auto.
  - destruct (I1 i a _ E) as [INC OR]. assert (CV : In (c, v) (script (tab a))) by (apply INC; left; auto).
    assert (K : forall t c' v', In (c', v') (script t) -> mem s c' = v' -> upd cell_eq_dec (mem s) c v c' = v').
    { intros t c' v' H1 H2. unfold upd. destruct (cell_eq_dec c' c) as [->|]; auto. eapply script_fun; eauto. }
    split; [|split; [|split]].
    + intros j b rest'. unfold upd at 1. destruct (Nat.eq_dec j i) as [->|].
      * intros Q. injection Q as <- <-. split. { intros x Hx. apply INC. right; auto. }
        intros c' v' Hc'. destruct (OR c' v' Hc') as [[Q|Hr]|M]; auto. { injection Q as <- <-. right. unfold upd. destruct (cell_eq_dec c c); congruence. } right. eapply K; eauto.
      * intros Q. destruct (I1 j b rest' Q) as [INC' OR']. split; auto. intros c' v' Hc'. destruct (OR' c' v' Hc'); auto. right. eapply K; eauto.
    + intros b Hb c' v' Hc'. eapply K; eauto. apply (I2 b Hb); auto.
    + intros t Ht c' v' Hc'. eapply K; eauto. apply (I3 t Ht); auto.
    + intros t Ht c' v' Hc'. eapply K; eauto. apply (I4 t Ht); auto.
  - destruct (I1 i a _ E) as [_ OR]. assert (CC : complete s (tab a)) by (intros c v Hc; destruct (OR c v Hc) as [[]|]; auto). split; [|split; [|split; [|auto]]].
    + intros j b rest. unfold upd. destruct (Nat.eq_dec j i); [discriminate|]. apply I1.
    + intros b [<-|Hb]; [exact CC|apply I2; auto].
    + intros t. unfold upd. destruct (tbl_eq_dec t (tab a)) as [->|]; [intros _; exact CC|]. apply I3.
  - destruct (I1 i a _ E) as [_ OR]. assert (CC : complete s (tab a)) by (intros c v Hc; destruct (OR c v Hc) as [[]|]; auto). split; [|split; [|split; [auto|]]].
    + intros j b rest. unfold upd. destruct (Nat.eq_dec j i); [discriminate|]. apply I1.
    + intros b [<-|Hb]; [exact CC|apply I2; auto].
    + intros t. unfold upd. destruct (tbl_eq_dec t (tab a)) as [->|]; [intros _; exact CC|]. apply I4.
Qed.
Lemma inv_reach m who s : reach m who s -> inv s.
Proof. induction 1; [apply inv_start|eapply inv_step; eauto]. Qed.
(** Once an accessor has returned, reading through its pointer gives the documented constant, whatever
    the other threads are doing, now and for ever. *)
Theorem C61_constant_values : forall m who s a, reach m who s -> In a (handed s) -> map (mem s) (cells_of a) = meaning a.
Proof. intros m who s a R H. apply complete_meaning. destruct (inv_reach m who s R) as (_ & I2 & _). auto. Qed.

(** ** once builds: at most one initialiser run, no data race *)
Definition binv (s : st) : Prop :=
  (forall i a rest, thr s i = Init a rest -> ctl s (tab a) = Running i) /\
  (forall a, In a (handed s) -> ctl s (tab a) = Done) /\
  (forall t i, ctl s t = Running i -> exists a rest, thr s i = Init a rest /\ tab a = t) /\
  (forall t, runs s t = match ctl s t with Fresh => 0 | _ => 1 end).
Lemma binv_start : binv start.
Proof. repeat split; cbn; try discriminate; easy. Qed.
Lemma binv_step m i s s' : blocking m = true -> binv s -> step m i s s' -> binv s'.
Proof.
  intros BM (I1 & I2 & I3 & I4) S. destruct S as [s a E|s a B E C|s a B E C|s a B E C|s a B E C|s a c v rest E|s a B E|s a B E]; try congruence; unfold binv; cbn [thr ctl flag mem handed runs].
  - repeat split; auto.
    + intros j b rest. unfold upd. destruct (Nat.eq_dec j i); [discriminate|]. apply I1.
    + intros t j Hj. destruct (I3 t j Hj) as (b & rest & T & Q). exists b, rest. split; auto. rewrite updI_other; auto. congruence.
  - repeat split.
    + intros j b rest. unfold upd. destruct (Nat.eq_dec j i) as [->|N]. { intros Q. injection Q as <- <-. destruct (tbl_eq_dec _ _); congruence. }
      intros Q. pose proof (I1 _ _ _ Q). destruct (tbl_eq_dec _ _) as [Z|]; congruence.
    + intros b Hb. pose proof (I2 b Hb). unfold upd. destruct (tbl_eq_dec _ _); congruence.
    + intros t j. unfold upd. destruct (tbl_eq_dec t (tab a)) as [->|N]. { intros Q. injection Q as <-. exists a, (script (tab a)). destruct (Nat.eq_dec i i); [auto|congruence]. }
      intros Q. destruct (I3 t j Q) as (b & rest & T & Q'). exists b, rest. destruct (Nat.eq_dec j i); [congruence|auto].
    + intros t. unfold upd. destruct (tbl_eq_dec t (tab a)) as [->|N]; auto. rewrite I4, C. reflexivity.
  - repeat split; auto.
    + intros j b rest. unfold upd. destruct (Nat.eq_dec j i); [discriminate|]. apply I1.
    + intros b [<-|Hb]; auto.
    + intros t j Hj. destruct (I3 t j Hj) as (b & rest & T & Q). exists b, rest. split; auto. rewrite updI_other; auto. congruence.
  - repeat split; auto.
    + intros j b rest'. unfold upd. destruct (Nat.eq_dec j i) as [->|]; [|apply I1]. intros Q. injection Q as <- <-. eapply I1; eauto.
    + intros t j Hj. destruct (I3 t j Hj) as (b & rest' & T & Q). destruct (Nat.eq_dec j i) as [->|N]. { exists a, rest. rewrite updI_same. split; auto. congruence. }
      exists b, rest'. rewrite updI_other; auto.
  - pose proof (I1 _ _ _ E) as RI. repeat split.
    + intros j b rest. unfold upd. destruct (Nat.eq_dec j i) as [->|N]; [discriminate|]. intros Q. pose proof (I1 _ _ _ Q). destruct (tbl_eq_dec _ _); congruence.
    + intros b [<-|Hb]; unfold upd. { destruct (tbl_eq_dec _ _); congruence. } destruct (tbl_eq_dec _ _); auto.
    + intros t j. unfold upd. destruct (tbl_eq_dec t (tab a)) as [->|N]; [discriminate|]. intros Q. destruct (I3 t j Q) as (b & rest & T & Q'). exists b, rest. destruct (Nat.eq_dec j i); [congruence|auto].
    + intros t. unfold upd. destruct (tbl_eq_dec t (tab a)) as [->|N]; auto. rewrite I4, RI. reflexivity.
Qed.
Lemma binv_reach m who s : blocking m = true -> reach m who s -> binv s.
Proof. intros B. induction 1; [apply binv_start|eapply binv_step; eauto]. Qed.
Lemma cell_tab (t : tbl) (c : cell) (v : V) : In (c, v) (script t) -> c_tbl c = t.
Proof. destruct t; cbn; intros H; repeat (destruct H as [H|H]; [injection H; intros; subst c; reflexivity|]); destruct H. Qed.
Lemma cells_tab a c : In c (cells_of a) -> c_tbl c = tab a.
Proof. destruct a; cbn; intuition (subst; reflexivity). Qed.
Theorem C61_initialised_once : forall m who s t, m <> PlainFlag -> reach m who s ->
  runs s t <= 1 /\ forall a, In a (handed s) -> tab a = t -> runs s t = 1.
Proof.
  intros m who s t M R. assert (B : blocking m = true) by (destruct m; reflexivity || congruence). destruct (binv_reach m who s B R) as (_ & I2 & _ & I4). rewrite (I4 t). split; [destruct (ctl s t); lia|].
  intros a Ha <-. now rewrite (I2 a Ha).
Qed.
Theorem C61_no_data_race : forall m who s, m <> PlainFlag -> reach m who s -> ~ race s.
Proof.
  intros m who s M R (i & c & (a & v & rest & T) & X). assert (B : blocking m = true) by (destruct m; reflexivity || congruence).
  destruct (binv_reach m who s B R) as (I1 & I2 & _). destruct (inv_reach m who s R) as (J1 & _).
  assert (CT : c_tbl c = tab a) by (eapply cell_tab; apply (proj1 (J1 _ _ _ T)); left; reflexivity).
  pose proof (I1 _ _ _ T) as RI. destruct X as [(j & N & b & w & rest' & T')|(b & Hb & Hc)].
  - assert (CT' : c_tbl c = tab b) by (eapply cell_tab; apply (proj1 (J1 _ _ _ T')); left; reflexivity). pose proof (I1 _ _ _ T'). congruence.
  - pose proof (I2 _ Hb). rewrite <- (cells_tab _ _ Hc) in H. congruence.
Qed.

(** ** no call hangs: from any reachable state the pending call of any thread can be completed by the threads
    that exist, without any new call *)
Inductive runs_to (m : mech) (who : nat -> Prop) : st -> st -> Prop :=
| rt_0 s : runs_to m who s s
| rt_S s i s' s'' : who i -> thr s i <> Outside -> step m i s s' -> runs_to m who s' s'' -> runs_to m who s s''.
Lemma rt_trans m who s1 s2 s3 : runs_to m who s1 s2 -> runs_to m who s2 s3 -> runs_to m who s1 s3.
Proof. induction 1; auto. intros. eapply rt_S; eauto. Qed.
(* running an initialiser to its end *)
Lemma run_init m (who : nat -> Prop) i a : blocking m = true -> who i -> forall rest s, thr s i = Init a rest ->
  exists s', runs_to m who s s' /\ thr s' i = Outside /\ In a (handed s') /\ ctl s' (tab a) = Done /\ forall j, j <> i -> thr s' j = thr s j.
Proof.
  intros B W. induction rest as [|[c v] rest IH]; intros s T.
  - eexists. split; [eapply rt_S; [exact W| |apply (s_finish m i s a B T)|apply rt_0]; congruence|]. cbn [thr handed ctl]. rewrite updI_same. repeat split; auto. { left; auto. }
    { unfold upd. destruct (tbl_eq_dec _ _); congruence. } intros j N. now rewrite updI_other.
  - destruct (IH (St (ctl s) (flag s) (upd cell_eq_dec (mem s) c v) (upd Nat.eq_dec (thr s) i (Init a rest)) (handed s) (runs s))) as (s' & R & T' & H & D & K).
    { cbn [thr]. apply updI_same. }
    exists s'. split; [eapply rt_S; [exact W| |apply (s_write m i s a c v rest T)|exact R]; congruence|]. repeat split; auto. intros j N. rewrite K by auto. cbn [thr]. now apply updI_other.
Qed.
Theorem C61_calls_return : forall m who s i a, m <> PlainFlag -> reach m who s -> who i -> thr s i = Enter a \/ (exists rest, thr s i = Init a rest) ->
  exists s', runs_to m who s s' /\ thr s' i = Outside /\ In a (handed s').
Proof.
  intros m who s i a M R W P. assert (B : blocking m = true) by (destruct m; reflexivity || congruence). destruct (binv_reach m who s B R) as (I1 & I2 & I3 & _).
  assert (LIVE : forall j, thr s j <> Outside -> who j).
  { clear -R. induction R as [|s k s' R IH W ST]; intros j. { cbn. congruence. } destruct (Nat.eq_dec j k) as [->|N]; auto. intros T. apply IH. intros Q. apply T. rewrite <- Q.
    destruct ST; cbn [thr]; apply updI_other; auto. }
  destruct P as [T|[rest T]].
  2:{ destruct (run_init m who i a B W rest s T) as (s' & RR & T' & H & _). eauto. }
  destruct (ctl s (tab a)) as [|j|] eqn:C.
  - pose proof (s_first m i s a B T C) as ST. match type of ST with step _ _ _ ?s1 => destruct (run_init m who i a B W (script (tab a)) s1) as (s' & RR & T' & H & _) end.
    { cbn [thr]. apply updI_same. }
    exists s'. split; [|auto]. eapply rt_S; [exact W| |exact ST|exact RR]. congruence.
  - destruct (I3 _ _ C) as (b & rest & TJ & TB). assert (N : i <> j) by congruence.
    destruct (run_init m who j b B (LIVE j ltac:(congruence)) rest s TJ) as (s1 & R1 & _ & _ & D & K).
    assert (T1 : thr s1 i = Enter a) by (rewrite K; auto).
    eexists. split; [eapply rt_trans; [exact R1|]; eapply rt_S; [exact W| |apply (s_done m i s1 a B T1); congruence|apply rt_0]; congruence|].
    cbn [thr handed]. rewrite updI_same. split; auto. left; auto.
  - eexists. split; [eapply rt_S; [exact W| |apply (s_done m i s a B T C)|apply rt_0]; congruence|]. cbn [thr handed]. rewrite updI_same. split; auto. left; auto.
Qed.

(** ** the plain-flag build: fine for one thread, a data race for two *)
Definition finv (i0 : nat) (s : st) : Prop :=
  (forall j, j <> i0 -> thr s j = Outside) /\
  (forall a rest, thr s i0 = Init a rest -> flag s (tab a) = false /\ runs s (tab a) = 1) /\
  (forall a, In a (handed s) -> flag s (tab a) = true) /\
  (forall t, flag s t = true -> runs s t = 1) /\
  (forall t, flag s t = false -> runs s t = 0 \/ exists a rest, thr s i0 = Init a rest /\ tab a = t).
Lemma finv_reach i0 s : reach PlainFlag (eq i0) s -> finv i0 s.
Proof.
  induction 1 as [|s i s' R (I0 & I1 & I2 & I3 & I4) <- S]. { repeat split; cbn; try discriminate; auto; easy. }
  destruct S as [s a E|s a B E C|s a B E C|s a B E C|s a B E C|s a c v rest E|s a B E|s a B E]; try discriminate; unfold finv; cbn [thr ctl flag mem handed runs]; rewrite ?updI_same.
  - repeat split; try easy; auto. { intros j N. rewrite updI_other; auto. } intros t Ht. destruct (I4 t Ht) as [|(b & r & Q & _)]; auto. congruence.
  - repeat split; try easy; auto. { intros j N. rewrite updI_other; auto. } { intros b [<-|Hb]; auto. } intros t Ht. destruct (I4 t Ht) as [|(b & r & Q & _)]; auto. congruence.
  - assert (Z : runs s (tab a) = 0) by (destruct (I4 _ C) as [|(b & r & Q & _)]; auto; congruence). repeat split; auto.
    + intros j N. rewrite updI_other; auto.
    + injection H as <- _. auto. + injection H as <- _. unfold upd. destruct (tbl_eq_dec _ _); congruence.
    + intros t Ht. unfold upd. destruct (tbl_eq_dec t (tab a)) as [->|]; [congruence|auto].
    + intros t Ht. unfold upd. destruct (tbl_eq_dec t (tab a)) as [->|]. { right. eauto. } destruct (I4 t Ht) as [|(b & r & Q & _)]; auto. congruence.
  - destruct (I1 _ _ E) as [F0 R0]. repeat split; auto.
    + intros j N. rewrite updI_other; auto.
    + injection H as <- _. auto. + injection H as <- _. auto.
    + intros t Ht. destruct (I4 t Ht) as [|(b & r & Q & TB)]; auto. right. exists a, rest. split; auto. congruence.
  - destruct (I1 _ _ E) as [F0 R0]. repeat split; try easy; auto.
    + intros j N. rewrite updI_other; auto.
    + intros b [<-|Hb]; unfold upd; destruct (tbl_eq_dec _ _); auto.
    + intros t. unfold upd. destruct (tbl_eq_dec t (tab a)) as [->|]; auto.
    + intros t. unfold upd. destruct (tbl_eq_dec t (tab a)) as [->|]; [discriminate|]. intros Ht. destruct (I4 t Ht) as [|(b & r & Q & TB)]; auto. left. congruence.
Qed.
Theorem C61_flag_single_thread : forall i0 s t, reach PlainFlag (eq i0) s -> ~ race s /\ runs s t <= 1.
Proof.
  intros i0 s t R. destruct (finv_reach i0 s R) as (I0 & I1 & I2 & I3 & I4). destruct (inv_reach _ _ s R) as (J1 & _). split.
  - intros (i & c & (a & v & rest & T) & X). assert (i = i0) as -> by (destruct (Nat.eq_dec i i0); auto; rewrite I0 in T by auto; discriminate).
    assert (CT : c_tbl c = tab a) by (eapply cell_tab; apply (proj1 (J1 _ _ _ T)); left; reflexivity).
    destruct X as [(j & N & b & w & r' & T')|(b & Hb & Hc)]. { rewrite I0 in T' by auto. discriminate. }
    pose proof (I2 _ Hb) as F1. destruct (I1 _ _ T) as [F2 _]. rewrite <- (cells_tab _ _ Hc), CT in F1. congruence.
  - destruct (flag s t) eqn:E. { rewrite (I3 t E). auto. } destruct (I4 t E) as [->|(a & r & T & <-)]; auto. destruct (I1 _ _ T) as [_ ->]. auto.
Qed.
Theorem C61_flag_race_refuted : exists s, reach PlainFlag (fun i => i < 2) s /\ race s /\ runs s Tvec3 = 2.
Proof.
  eexists. split; [|split].
  - eapply r_step with (i := 1); [eapply r_step with (i := 0); [eapply r_step with (i := 1); [eapply r_step with (i := 0); [apply r_start|lia|]|lia|]|lia|]|lia|].
    + apply (s_call _ _ _ vec3_one). reflexivity.
    + apply (s_call _ _ _ vec3_x_axis). reflexivity.
    + eapply (s_flag_clear _ _ _ vec3_one); reflexivity.
    + eapply (s_flag_clear _ _ _ vec3_x_axis); reflexivity.
  - exists 0, (Cell Tvec3 0 false). split. { unfold about_to_write. cbn. eauto. } left. exists 1. split; [discriminate|]. unfold about_to_write. cbn. eauto.
  - reflexivity.
Qed.
(** ** the hypotheses are met: two threads, one runs the box initialiser while the other waits, then both return *)
Example C61_schedule_met : exists s, reach PthreadOnce (fun i => i < 2) s /\ handed s = [box_one; box_empty] /\ thr s 0 = Outside /\ runs s Tbox = 1.
Proof.
  set (two := fun i => i < 2). assert (W0 : two 0) by (unfold two; lia). assert (W1 : two 1) by (unfold two; lia).
  pose proof (r_start PthreadOnce two) as R.
  Ltac go R i W c := match type of R with reach ?m _ ?s => let T := fresh in
    epose proof (T := r_step m _ s i _ R W (ltac:(c; reflexivity))); clear R; rename T into R; cbn [ctl flag mem thr handed runs start tab entry fst script] in R end.
  go R 0 W0 ltac:(eapply (s_call _ _ _ box_one)).
  go R 1 W1 ltac:(eapply (s_call _ _ _ box_empty)).
  go R 1 W1 ltac:(eapply (s_first _ _ _ box_empty)).
  do 12 (go R 1 W1 ltac:(eapply (s_write _ _ _ box_empty))).
  go R 1 W1 ltac:(eapply (s_finish _ _ _ box_empty)).
  go R 0 W0 ltac:(eapply (s_done _ _ _ box_one)).
  eexists. split; [exact R|]. repeat split.
Qed.
End P.
