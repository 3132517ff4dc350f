(** * Props_Walk: adding up any number of moves, in binary32 (C115). *)
From Coq Require Import ZArith Reals Bool List Lra Lia Psatz Permutation.
From Flocq Require Import Core BinarySingleNaN.
From Verif Require Import Num Simd Vec Rect OrdThy FloatThy B32Setup FloatLem ErrThy.
Import ListNotations.
Local Open Scope R_scope.
Local Notation u := (/ 16777216).
Local Notation V := (simd4f b32). Local Notation real x := (B2R (x : b32)).

(** ** specification *)
(** a list of numbers added (true) or subtracted (false) *)
Definition signed (m : bool * R) : R := if fst m then snd m else - snd m.
Definition endpoint (x : R) (l : list (bool * R)) : R := fold_right (fun m s => s + signed m) x l.
Definition travelled (x : R) (l : list (bool * R)) : R := fold_right (fun m s => s + Rabs (snd m)) (Rabs x) l.
(** the relative error of n roundings *)
Definition drift (n : nat) : R := (1 + bpow radix2 (-24)) ^ n - 1.
(** vectors walking along a list of moves *)
Section Walks.
Context {BK : Backend b32}.
Definition walk (add sub : V -> V -> V) (p : V) (l : list (bool * V)) : V := fold_left (fun p m => if fst m : bool then add p (snd m) else sub p (snd m)) l p.
Definition walk2 := walk vec2_add vec2_subtract.
Definition walk3 := walk vec3_add vec3_subtract.
Definition walk4 := walk vec4_add vec4_subtract.
End Walks.
Definition lane (i : nat) (v : V) : R := real (g_get v i).
Definition lanes (i : nat) (l : list (bool * V)) : list (bool * R) := map (fun m => (fst m, lane i (snd m))) l.
Definition finite_lane (i : nat) (v : V) : Prop := fin (g_get v i).

Lemma endpoint_snoc x l m : endpoint x (l ++ [m]) = endpoint x l + signed m.
Proof. unfold endpoint. induction l as [|a l IH]; cbn in * ; [ring|]. rewrite IH. ring. Qed.
Lemma travelled_snoc x l m : travelled x (l ++ [m]) = travelled x l + Rabs (snd m).
Proof. unfold travelled. induction l as [|a l IH]; cbn in * ; [ring|]. rewrite IH. ring. Qed.
Lemma endpoint_le x l : Rabs (endpoint x l) <= travelled x l.
Proof.
  unfold endpoint, travelled. induction l as [|[b a] l IH]; cbn in * ; [lra|]. eapply Rle_trans; [apply Rabs_triang|]. assert (Rabs (signed (b, a)) = Rabs a) by (destruct b; [reflexivity|apply Rabs_Ropp]). lra.
Qed.
Lemma travelled_pos x l : 0 <= travelled x l. Proof. eapply Rle_trans; [apply Rabs_pos|apply (endpoint_le x l)]. Qed.

(** a chain of float additions and subtractions *)
Definition fchain (x : b32) (l : list (bool * b32)) : b32 := fold_left (fun s m => if fst m : bool then fadd s (snd m) else fsub s (snd m)) l x.
Definition reals (l : list (bool * b32)) : list (bool * R) := map (fun m => (fst m, real (snd m))) l.
Lemma fchain_near (x : b32) l : fin x -> Forall (fun m => fin (snd m)) l -> (1 + u) ^ length l * travelled (real x) (reals l) <= bpow radix2 127 ->
  ap (fchain x l) (endpoint (real x) (reals l)) (((1 + u) ^ length l - 1) * travelled (real x) (reals l)).
Proof.
  intros FX. induction l as [|[b a] l IH] using rev_ind; intros FA OV.
  - cbn. eapply ap_weak; [now apply ap_refl|]. lra.
  - apply Forall_app in FA as [FL Fa]. inversion Fa as [|? ? Fa' _]; subst. cbn [snd] in Fa'. unfold reals in * . rewrite map_app in * . cbn [map] in * . rewrite endpoint_snoc, travelled_snoc in * . cbn [snd fst] in * . rewrite app_length in * . cbn [length] in * .
    replace (length l + 1)%nat with (Datatypes.S (length l)) in * by lia. rewrite <- tech_pow_Rmult in * . set (R_ := map _ l) in * . set (T := travelled _ R_) in * . set (E := endpoint _ R_) in * . pose proof (Rabs_pos (real a)) as PA. set (A := Rabs (real a)) in * .
    assert (PT : 0 <= T) by apply travelled_pos. assert (P1 : 1 <= (1 + u) ^ length l) by (apply pow_R1_Rle; lra). set (P := (1 + u) ^ length l) in * .
    assert (EL : Rabs E <= T) by apply endpoint_le.
    assert (PTA : 0 <= P * (T + A)) by (apply Rmult_le_pos; lra). assert (PA2 : 0 <= P * A) by (apply Rmult_le_pos; lra).
    assert (X1 : 0 <= (P - 1) * A) by (apply Rmult_le_pos; lra). specialize (IH FL ltac:(lra)).
    unfold fchain. rewrite fold_left_app. cbn [fold_left fst snd]. fold (fchain x l).
    assert (M1 : A + T + (P - 1) * T <= P * (T + A)) by lra. assert (M2 : P * (T + A) <= bpow radix2 127) by lra.
    destruct b; unfold signed; cbn [fst snd].
    + eapply ap_weak; [apply (ap_add _ _ _ _ _ _ (P * (T + A)) IH (ap_refl a Fa')); auto; pose proof (Rabs_triang E (real a)); fold A in H; lra|]. change (bpow radix2 (-24)) with u. lra.
    + eapply ap_weak; [apply (ap_sub _ _ _ _ _ _ (P * (T + A)) IH (ap_refl a Fa')); auto; pose proof (Rabs_triang E (- real a)) as H; rewrite Rabs_Ropp in H; fold A in H; unfold Rminus in * ; lra|]. change (bpow radix2 (-24)) with u. lra.
Qed.

(** ** vectors: any number of additions and subtractions *)
Lemma walk_lane (BK : Backend b32) i p (l : list (bool * V)) : (i < 4)%nat -> g_get (walk g_add g_sub p l) i = fchain (g_get p i) (map (fun m => (fst m, g_get (snd m) i)) l).
Proof.
  intros Hi. revert p. induction l as [|[b v] l IH]; intros p; [reflexivity|]. unfold walk, fchain in * . cbn [fold_left map fst snd]. rewrite IH. f_equal.
  do 4 (destruct i as [|i]; [destruct b; reflexivity|]). lia.
Qed.
Theorem C115_walk : forall (BK : Backend b32) (p : V) (l : list (bool * V)) (i : nat), (i < 4)%nat -> finite_lane i p -> Forall (fun m => finite_lane i (snd m)) l ->
  let n := length l in let far := travelled (lane i p) (lanes i l) in (1 + drift n) * far <= bpow radix2 127 ->
  let ok := fun q : V => fin (g_get q i) /\ Rabs (lane i q - endpoint (lane i p) (lanes i l)) <= drift n * far in
  ok (walk2 p l) /\ ok (walk3 p l) /\ ok (walk4 p l).
Proof.
  intros BK p l i Hi FP FL n far OV ok.
  assert (K : ok (walk g_add g_sub p l)).
  { unfold ok, lane at 1. rewrite walk_lane by auto. set (l' := map _ l).
    assert (EL : lanes i l = reals l') by (unfold lanes, reals, l'; rewrite map_map; reflexivity). assert (LL : length l' = n) by (unfold l'; now rewrite map_length).
    assert (FL' : Forall (fun m => fin (snd m)) l') by (unfold l'; rewrite Forall_map; exact FL).
    unfold far, drift in * . change (bpow radix2 (-24)) with u in * . rewrite EL in * . apply ap_fin. rewrite <- LL in * . apply fchain_near; auto. unfold lane in OV. lra. }
  split; [exact K|split; exact K].
Qed.

(** ** the order of the moves matters no more than the rounding *)
Lemma endpoint_perm x l l' : Permutation l l' -> endpoint x l = endpoint x l'.
Proof. unfold endpoint. induction 1; cbn; [reflexivity|now f_equal|ring|congruence]. Qed.
Lemma travelled_perm x l l' : Permutation l l' -> travelled x l = travelled x l'.
Proof. unfold travelled. induction 1; cbn; [reflexivity|now f_equal|ring|congruence]. Qed.
Theorem C115_any_order : forall (BK : Backend b32) (p : V) (l l' : list (bool * V)) (i : nat), (i < 4)%nat -> Permutation l l' -> finite_lane i p -> Forall (fun m => finite_lane i (snd m)) l ->
  let n := length l in let far := travelled (lane i p) (lanes i l) in (1 + drift n) * far <= bpow radix2 127 ->
  Rabs (lane i (walk2 p l) - lane i (walk2 p l')) <= 2 * drift n * far /\ Rabs (lane i (walk3 p l) - lane i (walk3 p l')) <= 2 * drift n * far /\ Rabs (lane i (walk4 p l) - lane i (walk4 p l')) <= 2 * drift n * far.
Proof.
  intros BK p l l' i Hi HP FP FL n far OV. assert (PL : Permutation (lanes i l) (lanes i l')) by now apply Permutation_map.
  destruct (C115_walk BK p l i Hi FP FL OV) as ((_ & A2) & (_ & A3) & (_ & A4)).
  assert (FL' : Forall (fun m => finite_lane i (snd m)) l'). { rewrite Forall_forall in * . intros x I. apply FL. apply Permutation_sym in HP. eapply Permutation_in; eauto. }
  pose proof (C115_walk BK p l' i Hi FP FL') as C. cbv zeta in C. rewrite <- (Permutation_length HP), <- (travelled_perm _ _ _ PL), <- (endpoint_perm _ _ _ PL) in C. destruct (C OV) as ((_ & B2) & (_ & B3) & (_ & B4)). clear C.
  fold n far in A2, A3, A4, B2, B3, B4. set (E := endpoint _ _) in * .
  assert (K : forall a b, Rabs (a - E) <= drift n * far -> Rabs (b - E) <= drift n * far -> Rabs (a - b) <= 2 * drift n * far).
  { intros a b A B. apply Rabs_le_inv in A, B. apply Rabs_le. lra. }
  split; [|split]; apply K; assumption.
Qed.

(** ** going out and coming back by the same moves, in any order *)
Lemma endpoint_app x l l' : endpoint x (l ++ l') = endpoint x l + endpoint 0 l'.
Proof. unfold endpoint. induction l as [|a l IH]; cbn in * ; [|rewrite IH; ring]. induction l' as [|a l' IH']; cbn in * ; [ring|rewrite IH'; ring]. Qed.
Lemma endpoint_flip x l : endpoint x (map (fun m => (negb (fst m), snd m)) l) = 2 * x - endpoint x l.
Proof. unfold endpoint. induction l as [|[b a] l IH]; cbn in * ; [ring|]. rewrite IH. destruct b; unfold signed at 1 3; cbn; ring. Qed.
Lemma travelled_app x l l' : travelled x (l ++ l') = travelled x l + travelled 0 l'.
Proof. unfold travelled. induction l as [|a l IH]; cbn in * ; [|rewrite IH; ring]. induction l' as [|a l' IH']; cbn in * ; [rewrite Rabs_R0; ring|rewrite IH'; ring]. Qed.
Lemma travelled_flip x l : travelled x (map (fun m => (negb (fst m), snd m)) l) = travelled x l.
Proof. unfold travelled. induction l as [|[b a] l IH]; cbn in * ; [ring|]. now rewrite IH. Qed.
Definition undo (l : list (bool * V)) : list (bool * V) := map (fun m => (negb (fst m), snd m)) l.
Theorem C115_out_and_back : forall (BK : Backend b32) (p : V) (out back : list (bool * V)) (i : nat), (i < 4)%nat -> Permutation (undo out) back -> finite_lane i p -> Forall (fun m => finite_lane i (snd m)) out ->
  let n := (2 * length out)%nat in let far := Rabs (lane i p) + 2 * travelled 0 (lanes i out) in (1 + drift n) * far <= bpow radix2 127 ->
  let ok := fun q : V => fin (g_get q i) /\ Rabs (lane i q - lane i p) <= drift n * far in
  ok (walk2 p (out ++ back)) /\ ok (walk3 p (out ++ back)) /\ ok (walk4 p (out ++ back)).
Proof.
  intros BK p out back i Hi HP FP FO n far OV ok. assert (PL : Permutation (lanes i (undo out)) (lanes i back)) by now apply Permutation_map.
  assert (EU : lanes i (undo out) = map (fun m => (negb (fst m), snd m)) (lanes i out)) by (unfold lanes, undo; rewrite !map_map; reflexivity).
  assert (FB : Forall (fun m => finite_lane i (snd m)) (out ++ back)).
  { apply Forall_app. split; auto. rewrite Forall_forall in * . intros x I. apply Permutation_sym in HP. apply (Permutation_in _ HP) in I. unfold undo in I. apply in_map_iff in I as (m & <- & I). exact (FO m I). }
  pose proof (C115_walk BK p (out ++ back) i Hi FP FB) as C. cbv zeta in C.
  assert (EA : lanes i (out ++ back) = lanes i out ++ lanes i back) by apply map_app.
  assert (LN : length (out ++ back) = n). { rewrite app_length, <- (Permutation_length HP). unfold undo, n. rewrite map_length. lia. }
  assert (T0 : travelled (lane i p) (lanes i out) = Rabs (lane i p) + travelled 0 (lanes i out)). { generalize (lanes i out). intros l. unfold travelled. induction l as [|a l IH]; cbn in * ; [rewrite Rabs_R0; ring|]. rewrite IH. ring. }
  assert (TF : travelled (lane i p) (lanes i (out ++ back)) = far). { rewrite EA, travelled_app, <- (travelled_perm _ _ _ PL), EU, travelled_flip, T0. unfold far. ring. }
  assert (EF : endpoint (lane i p) (lanes i (out ++ back)) = lane i p).
  { rewrite EA, endpoint_app, <- (endpoint_perm _ _ _ PL), EU, endpoint_flip. generalize (lanes i out). intros l. unfold endpoint. induction l as [|a l IH]; cbn in * ; [ring|]. lra. }
  rewrite LN, TF, EF in C. exact (C OV).
Qed.

(** ** scrolling a rectangle: the origin walks, the size keeps its bits *)
Definition scroll (r : rect b32) (l : list (b32 * b32)) : rect b32 := fold_left (fun r d => rect_offset r (fst d) (snd d)) l r.
Theorem C115_scroll : forall (r : rect b32) (l : list (b32 * b32)), flt (rw r) fzero = false -> flt (rh r) fzero = false -> fin (rx r) -> fin (ry r) -> Forall (fun d => fin (fst d) /\ fin (snd d)) l ->
  let n := length l in let dx := map (fun d => (true, real (fst d))) l in let dy := map (fun d => (true, real (snd d))) l in
  (1 + drift n) * travelled (real (rx r)) dx <= bpow radix2 127 -> (1 + drift n) * travelled (real (ry r)) dy <= bpow radix2 127 ->
  let s := scroll r l in rw s = rw r /\ rh s = rh r /\
  (fin (rx s) /\ Rabs (real (rx s) - endpoint (real (rx r)) dx) <= drift n * travelled (real (rx r)) dx) /\
  (fin (ry s) /\ Rabs (real (ry s) - endpoint (real (ry r)) dy) <= drift n * travelled (real (ry r)) dy).
Proof.
  intros r l HW HH FX FY FL n dx dy OX OY s.
  assert (G : rw s = rw r /\ rh s = rh r /\ rx s = fchain (rx r) (map (fun d => (true, fst d)) l) /\ ry s = fchain (ry r) (map (fun d => (true, snd d)) l)).
  { unfold s. clear - HW HH. revert r HW HH. induction l as [|[a b] l IH]; intros r HW HH; [repeat split|]. unfold scroll in * . cbn [fold_left fst snd].
    assert (EO : rect_offset r a b = mkrect (fadd (rx r) a) (fadd (ry r) b) (rw r) (rh r)). { unfold rect_offset, rect_normalize. rewrite HW. rewrite HH. reflexivity. }
    rewrite EO. destruct (IH (mkrect (fadd (rx r) a) (fadd (ry r) b) (rw r) (rh r)) HW HH) as (A & B & C & D). rewrite A, B, C, D. repeat split. }
  destruct G as (A & B & C & D). split; [exact A|split; [exact B|]]. rewrite C, D. unfold drift in * . change (bpow radix2 (-24)) with u in * .
  assert (K : forall (x : b32) (f : b32 * b32 -> b32), fin x -> Forall (fun d => fin (f d)) l -> (1 + ((1 + u) ^ n - 1)) * travelled (real x) (map (fun d => (true, real (f d))) l) <= bpow radix2 127 ->
    fin (fchain x (map (fun d => (true, f d)) l)) /\ Rabs (real (fchain x (map (fun d => (true, f d)) l)) - endpoint (real x) (map (fun d => (true, real (f d))) l)) <= ((1 + u) ^ n - 1) * travelled (real x) (map (fun d => (true, real (f d))) l)).
  { intros x f F0 F1 O. pose proof (fchain_near x (map (fun d => (true, f d)) l) F0) as Q. unfold reals in Q. rewrite map_map, map_length in Q. cbn [fst snd] in Q. apply ap_fin. apply Q; [rewrite Forall_map; exact F1|]. fold n. lra. }
  split; apply K; auto; eapply Forall_impl; try exact FL; cbn; tauto.
Qed.

(** ** the hypotheses can be met, and the drift is small: a thousand moves of (1, -1, 0) out, and back *)
Theorem C115_drift_is_linear n : INR n <= 8000000 -> drift n <= 2 * INR n * bpow radix2 (-24).
Proof.
  unfold drift. change (bpow radix2 (-24)) with u. induction n as [|n IH]; intros H; [cbn; lra|]. rewrite S_INR in * . rewrite <- tech_pow_Rmult. pose proof (pos_INR n). specialize (IH ltac:(lra)). lra.
Qed.
Example C115_ex : forall BK : Backend b32, let v : V := vec3_init fone (fneg fone) fzero in let p : V := vec3_init fzero fone fone in let out := repeat (true, v) 1000 in
  (forall i, (i < 4)%nat -> finite_lane i p /\ Forall (fun m => finite_lane i (snd m)) out) /\ (forall i, (i < 4)%nat -> (1 + drift (2 * length out)) * (Rabs (lane i p) + 2 * travelled 0 (lanes i out)) <= bpow radix2 127) /\ Permutation (undo out) (undo out).
Proof.
  assert (Z : real fzero = 0) by apply fin_of_X, fzero_X. assert (FZ : fin fzero) by (apply fin_of_X with 0; apply fzero_X). assert (FO : fin fone) by (apply fin_of_X with 1; apply fone_X). assert (ON : real fone = 1) by apply fin_of_X, fone_X.
  assert (MX : B2X (fneg fone : b32) = Fin (-1)). { rewrite fneg_X. rewrite fone_X. cbn. f_equal. } apply fin_of_X in MX as [FM ME].
  intros BK v p out. split; [|split; [|apply Permutation_refl]].
  - intros i Hi. split; [do 4 (destruct i as [|i]; [assumption|]); lia|]. apply Forall_forall. intros x I. apply repeat_spec in I. subst x. cbn [snd]. do 4 (destruct i as [|i]; [assumption|]). lia.
  - intros i Hi. unfold out. rewrite repeat_length. assert (D := C115_drift_is_linear (2 * 1000)). assert (EI : INR (2 * 1000) = 2000). { rewrite INR_IZR_INZ. f_equal. } rewrite EI in D. specialize (D ltac:(lra)). change (bpow radix2 (-24)) with u in D.
    assert (LP : Rabs (lane i p) <= 1). { do 4 (destruct i as [|i]; [unfold lane, p; cbn -[B2R fone fzero]; rewrite ?Z, ?ON; apply Rabs_le; lra|]). lia. }
    assert (LV : Rabs (lane i v) <= 1). { do 4 (destruct i as [|i]; [unfold lane, v; cbn -[B2R fone fzero fneg]; rewrite ?Z, ?ON, ?ME; apply Rabs_le; lra|]). lia. }
    assert (TR : forall k, travelled 0 (lanes i (repeat (true, v) k)) <= INR k).
    { unfold travelled, lanes. induction k as [|k IH]; [cbn; rewrite Rabs_R0; lra|]. rewrite S_INR. cbn [repeat map fold_right snd fst]. lra. }
    specialize (TR 1000%nat). assert (E1 : INR 1000 = 1000). { rewrite INR_IZR_INZ. f_equal. } rewrite E1 in TR. apply Rle_trans with (bpow radix2 12); [|apply bpow_le; lia]. change (bpow radix2 12) with 4096.
    pose proof (travelled_pos 0 (lanes i (repeat (true, v) 1000))). pose proof (Rabs_pos (lane i p)).
    apply Rle_trans with ((1 + / 1000) * (1 + 2 * 1000)); [apply Rmult_le_compat; try lra|lra]. unfold drift. change (bpow radix2 (-24)) with u. assert (1 <= (1 + u) ^ (2 * 1000)) by (apply pow_R1_Rle; lra). lra.
Qed.
