(** * Props_MatEul: the Euler angles read off a matrix, in binary32 (C112). *)
From Coq Require Import ZArith Reals Bool List Lra Lia Psatz.
From Flocq Require Import Core BinarySingleNaN.
From Verif Require Import Num Simd Vec Rect Box Mat Geo Quat OrdThy FloatThy B32Setup FloatLem ErrThy Props_Err Props_Err2 Props_Err3 Props_Rot Props_Slerp Props_FromMat Props_QAng Props_ToAxis TrigThy Props_ToEul.
From Verif Require Props_EulF Props_MatX2 RQuat Props_QuatX Props_QuatX2 Props_RaySph Props_EulerX Props_Euler.
From Verif Require Props_MatX Props_Box.
Import ListNotations.
Local Open Scope R_scope.

Notation nine := Props_EulerX.nine.
Notation facts := Props_EulerX.facts.
(** the nine entries depend on the sines and cosines only *)
Lemma nine_polar T i j k A B G c : facts T i j k -> 0 < c -> c * c = 1 - T k i * T k i ->
  T k k = c * cos A -> T k j = c * sin A -> c = 1 * cos B -> - T k i = 1 * sin B -> T i i = c * cos G -> T j i = c * sin G -> nine T i j k A B G.
Proof.
  intros (F1 & F2 & F3 & F4 & F5 & F6 & F7 & F8 & F9) C CC A1 A2 B1 B2 G1 G2.
  assert (P : 0 < T i i * T i i + T j i * T j i) by nra.
  assert (W := Props_EulerX.euler_core (T i i) (T i j) (T i k) (T j i) (T j j) (T j k) (T k i) (T k j) (T k k)).
  specialize (W F1 F2). repeat match type of W with ?H -> _ => first [specialize (W ltac:(assumption))|fail 1] end. cbv zeta in W.
  set (cy := sqrt (T i i * T i i + T j i * T j i)) in W. assert (EC : cy = c) by (unfold cy; replace (T i i * T i i + T j i * T j i) with (c * c) by lra; apply sqrt_square; lra). rewrite EC in W. clear EC cy.
  assert (TR : forall y x t r, 0 < r -> x = r * cos t -> y = r * sin t -> cos (ratan2 y x) = cos t /\ sin (ratan2 y x) = sin t).
  { intros y x t r R0 X Y. pose proof (sin2_cos2 t) as S. unfold Rsqr in S. assert (E : x * x + y * y = r * r) by (rewrite X, Y; transitivity (r * r * (sin t * sin t + cos t * cos t)); [ring|rewrite S; ring]).
    destruct (ratan2_cos_sin y x) as (_ & H1 & H2); [rewrite E; nra|]. rewrite E, sqrt_square in H1, H2 by lra. split; apply (Rmult_eq_reg_l r); lra. }
  destruct (TR _ _ A c C A1 A2) as [CA SA]. destruct (TR _ _ B 1 Rlt_0_1 B1 B2) as [CB SB]. destruct (TR _ _ G c C G1 G2) as [CG SG].
  rewrite CA, SA, CB, SB, CG, SG in W. exact W.
Qed.

(** the length the code computes, and its guard *)
Lemma length_float (p q : b32) P Q c e : 0 <= e <= 256 * u -> within e p P -> within e q Q -> / 64 <= c -> c <= 1 -> c * c = P * P + Q * Q ->
  ap (fsqrt (fadd (fmul p p) (fmul q q))) c (4.1 * e + 3 * u).
Proof.
  intros E [Fp Ep] [Fq Eq] CL C1 CC. assert (ETA : eta <= / 1000000 * (u * / 4096)). { change eta with (bpow radix2 (-150)). apply Rle_trans with (bpow radix2 (-60)); [apply bpow_le; lia|simpl; lra]. } assert (E0 : 0 <= eta) by apply bpow_ge_0.
  assert (P127 : 64 <= bpow radix2 127) by (change 64 with (bpow radix2 6); apply bpow_le; lia). assert (P126 : 64 <= bpow radix2 126) by (change 64 with (bpow radix2 6); apply bpow_le; lia). assert (U : u32 = u) by apply u32_val.
  assert (BP : Rabs P <= c) by (apply Rabs_le; split; nra). assert (BQ : Rabs Q <= c) by (apply Rabs_le; split; nra). assert (EE : e * e <= e * / 1000) by (apply Rmult_le_compat_l; lra). assert (EC : e * e <= 256 * u * e) by (apply Rmult_le_compat_r; lra).
  pose proof (prod_dev e _ _ P P ltac:(lra) Ep Ep) as DP. pose proof (prod_dev e _ _ Q Q ltac:(lra) Eq Eq) as DQ.
  assert (KP : e * (Rabs P + Rabs P) <= e * (2 * c)) by (apply Rmult_le_compat_l; lra). assert (KQ : e * (Rabs Q + Rabs Q) <= e * (2 * c)) by (apply Rmult_le_compat_l; lra).
  set (a := real p * real p) in * . set (b := real q * real q) in * . assert (A0 : 0 <= a) by (unfold a; nra). assert (B0 : 0 <= b) by (unfold b; nra).
  assert (EC2 : e * c <= e * 1) by (apply Rmult_le_compat_l; lra). assert (SAB : Rabs (a + b - c * c) <= 4 * (e * c) + 2 * (e * e)). { apply Rabs_le_inv in DP, DQ. apply Rabs_le. lra. }
  assert (S1 : a + b <= 1.002) by (apply Rabs_le_inv in SAB; nra).
  pose proof (ap_mul0 p p Fp Fp ltac:(fold a; rewrite Rabs_pos_eq; lra)) as M1. pose proof (ap_mul0 q q Fq Fq ltac:(fold b; rewrite Rabs_pos_eq; lra)) as M2. fold a in M1. fold b in M2. rewrite (Rabs_pos_eq a), U in M1 by lra. rewrite (Rabs_pos_eq b), U in M2 by lra.
  pose proof (ap_add _ _ _ _ _ _ ((a + b) * 1.0001 + 2 * eta) M1 M2 ltac:(rewrite Rabs_pos_eq by lra; lra) ltac:(lra)) as S. rewrite U in S. destruct (ap_fin _ _ _ S) as [FS ES]. set (s := fadd (fmul p p) (fmul q q)) in * .
  assert (CB : / 4096 <= c * c <= 1) by nra. assert (ES2 : Rabs (real s - (a + b)) <= 2.002 * u * (a + b)). { eapply Rle_trans; [exact ES|]. assert (ab : 0.7 * / 4096 <= a + b) by (apply Rabs_le_inv in SAB; lra). lra. }
  apply Rabs_le_inv in ES2, SAB. assert (EC0 : 0 <= e * c) by (apply Rmult_le_pos; lra).
  destruct (Props_RaySph.sqrt_w s FS ltac:(nra) ltac:(nra)) as (FR & R0 & ER). apply Rabs_le_inv in ER. set (r := real (fsqrt s)) in * .
  assert (K : Rabs (r * r - c * c) <= 4.001 * (e * c) + 2.02 * (e * e) + 4.1 * u * (c * c)). { assert (EE0 : 0 <= e * e) by nra. assert (X1 : 2.01 * u * real s <= 2.0101 * u * (a + b)) by lra. apply Rabs_le. lra. }
  exists r. split; [apply fin_X; exact FR|].
  assert (PC : 0 < r + c) by lra. assert (EQ : (r - c) * (r + c) = r * r - c * c) by ring.
  assert (RB : 0.93 * c <= r). { apply Rsqr_incr_0_var; [unfold Rsqr|lra]. apply Rabs_le_inv in K. assert (e * c <= 256 * u * c) by (apply Rmult_le_compat_r; lra). assert (c * 1 <= c * (64 * c)) by (apply Rmult_le_compat_l; lra). assert (e * e <= e * c) by (apply Rmult_le_compat_l; lra). lra. }
  assert (TG : 4.001 * (e * c) + 2.02 * (e * e) + 4.1 * u * (c * c) <= (4.1 * e + 3 * u) * (1.93 * c)).
  { assert (e * e <= e * (0.001 * c)) by (apply Rmult_le_compat_l; lra). assert (c * c <= c * 1) by (apply Rmult_le_compat_l; lra). lra. }
  apply Rabs_le. apply Rabs_le_inv in K. assert (TP : 0 <= 4.1 * e + 3 * u) by lra. assert (T2 : (4.1 * e + 3 * u) * (1.93 * c) <= (4.1 * e + 3 * u) * (r + c)) by (apply Rmult_le_compat_l; lra). split; apply (Rmult_le_reg_r (r + c)); try exact PC; lra.
Qed.
Lemma cy_guard (r : b32) : fin r -> / 100 <= real r -> fle (fmul (flit 16 0 : b32) feps) r = true.
Proof.
  intros F P. rewrite fle_X, (fin_X r F).
  assert (H : xle (B2X (fmul (flit 16 0 : b32) feps)) (Fin (1 * bpow radix2 (-7))) = true). { destruct (lit_real 1 (-7)) as [F1 R1]; try lia. replace (Fin (1 * bpow radix2 (-7))) with (B2X (flit 1 (-7) : b32)); [rewrite <- fle_X; vm_compute; reflexivity|]. rewrite (fin_X _ F1). f_equal. exact R1. }
  assert (P7 : 1 * bpow radix2 (-7) < real r) by (simpl; lra). destruct (B2X (fmul (flit 16 0 : b32) feps)); try easy. apply xle_fin in H. apply xle_fin. lra.
Qed.
Lemma core_float (L : LibM b32) (m : mat b32) T i j k e c : atan2_accurate L -> facts T i j k -> (forall r s, within e (table_of_mat m r s) (T r s)) -> 0 <= e <= 256 * u -> / 64 <= c -> c * c = 1 - T k i * T k i ->
  let t := table_of_mat m in let cy := fsqrt (fadd (fmul (t i i) (t i i)) (fmul (t j i) (t j i))) in let err := (10 * e + 11 * u) / c in
  fle (fmul (flit 16 0 : b32) feps) cy = true /\ exists A B G, nine T i j k A B G /\
  let near := fun (v : b32) t => fin v /\ Rabs (real v) <= PI + bpow radix2 (-22) /\ Rabs (real v - t) <= err in
  near (fatan2 (t k j) (t k k)) A /\ near (fatan2 (fmul (t k i) fm1) cy) B /\ near (fatan2 (t j i) (t i i)) G.
Proof.
  intros HA FT H E CL CC t cy err. pose proof FT as (F1 & F2 & _). assert (C0 : 0 < c) by lra. assert (C1 : c <= 1) by nra.
  assert (IC : 0 < / c) by (apply Rinv_0_lt_compat; lra). assert (IC1 : 1 <= / c) by (rewrite <- Rinv_1; apply Rinv_le_contravar; lra).
  assert (AP : forall r s, ap (t r s) (T r s) e). { intros r s. destruct (H r s) as [F D]. exists (real (t r s)). split; [now apply fin_X|exact D]. }
  pose proof (length_float _ _ _ _ c e E (H i i) (H j i) CL C1 ltac:(lra)) as LF. fold t in LF. fold cy in LF. destruct (ap_fin _ _ _ LF) as [FC EC].
  split; [apply cy_guard; [exact FC|apply Rabs_le_inv in EC; lra]|].
  assert (DE : 0 <= e <= c / 16) by lra. assert (DE1 : 0 <= 4.1 * e + 3 * u <= 1 / 16) by lra.
  destruct (atan2_near L (t k j) (t k k) (T k j) (T k k) e c HA C0 ltac:(lra) DE (AP k j) (AP k k)) as (FA & BA & A & A1 & A2 & DA).
  destruct (atan2_near L (t j i) (t i i) (T j i) (T i i) e c HA C0 ltac:(lra) DE (AP j i) (AP i i)) as (FG & BG & G & G1 & G2 & DG).
  assert (AN : ap (fmul (t k i) fm1) (- T k i) (4.1 * e + 3 * u)). { destruct (H k i) as [F D]. pose proof (Props_Box.neg_scalar_X (t k i) F) as X. exists (- real (t k i)). split; [exact X|]. replace (- real (t k i) - - T k i) with (- (real (t k i) - T k i)) by ring. rewrite Rabs_Ropp. unfold t. lra. }
  destruct (atan2_near L (fmul (t k i) fm1) cy (- T k i) c (4.1 * e + 3 * u) 1 HA Rlt_0_1 ltac:(lra) DE1 AN LF) as (FB & BB & B & B1 & B2 & DB).
  exists A, B, G. split; [apply (nine_polar T i j k A B G c FT C0 CC A1 A2 B1 B2 G1 G2)|]. cbv zeta.
  assert (W : 2.3 * e / c + 4 * u <= err). { unfold err, Rdiv. assert (4 * u * 1 <= 4 * u * / c) by (apply Rmult_le_compat_l; lra). assert (0 <= e * / c) by (apply Rmult_le_pos; lra). lra. }
  assert (W2 : 2.3 * (4.1 * e + 3 * u) / 1 + 4 * u <= err). { unfold err, Rdiv. rewrite Rinv_1. assert ((9.43 * e + 10.9 * u) * 1 <= (9.43 * e + 10.9 * u) * / c) by (apply Rmult_le_compat_l; lra). assert (0 <= e * / c) by (apply Rmult_le_pos; lra). lra. }
  refine (conj (conj FA (conj BA _)) (conj (conj FB (conj BB _)) (conj FG (conj BG _)))); lra.
Qed.

(** ** C112 *)
Notation R3 := Props_MatX2.R3.
Notation mrows := Props_QuatX.mrows.
Definition near_mat (e : R) (m : mat b32) (a b c : R3) : Prop := forall r s, (r < 3)%nat -> (s < 3)%nat -> within e (matrix_get_value m r s) (mrows a b c r s).
Lemma turn_entries o a b c t1 t2 t3 : @euler_to_matrix_internal xreal xreal_ops xreal_libm (Fin t1) (Fin t2) (Fin t3) (order_parameters (euler_real_order o)) = Props_MatX.mt (mrows a b c) -> forall r s, (r < 4)%nat -> (s < 4)%nat -> Props_EulerX.mturn_by o t1 t2 t3 r s = mrows a b c r s.
Proof.
  rewrite Props_EulerX.internal_turn. intros E. exact (Props_MatX.mt_inj _ _ E).
Qed.
Lemma from_matrix_raw (BK : Backend b32) (L : LibM b32) (o : eorder) (m : mat b32) (a b c : R3) (e : R) : atan2_accurate L -> Props_QuatX.rotation_rows a b c -> Props_EulerX.repeats o = false ->
  near_mat e m a b c -> 0 <= e <= bpow radix2 (-16) -> matrix_is_identity m = false -> let s := Props_EulerX.lock_entry o a b c in let w := sqrt (1 - s * s) in / 64 <= w ->
  exists v1 v2 v3 t1 t2 t3, euler_init_from_matrix (Some m) o = euler_init_from_radians v1 v2 v3 o /\ (forall r s, (r < 4)%nat -> (s < 4)%nat -> Props_EulerX.mturn_by o t1 t2 t3 r s = mrows a b c r s) /\
  let near := fun (v : b32) t => fin v /\ Rabs (real v) <= PI + bpow radix2 (-22) /\ Rabs (real v - t) <= (10 * e + 11 * u) / w in near v1 t1 /\ near v2 t2 /\ near v3 t3.
Proof.
  intros HA RR NR NM E ID s w WL. assert (U : bpow radix2 (-16) = 256 * u) by (simpl; lra). rewrite U in E.
  destruct (Props_EulerX.lock_index o a b c NR) as [RP LE]. fold s in LE. set (p := order_parameters (euler_real_order o)) in * .
  set (T := fun r s => Props_EulerX.comp (Props_EulerX.rowof a b c s) r). set (i := ap_first p) in * . set (j := axis_j i (ap_parity p)). set (k := axis_k i (ap_parity p)) in * .
  assert (FT : facts T i j k) by exact (Props_EulerX.rot_table a b c RR i (ap_parity p)).
  assert (H : forall r s, within e (table_of_mat m r s) (T r s)).
  { intros r q. destruct r, q; first [exact (NM 0%nat 0%nat ltac:(lia) ltac:(lia))|exact (NM 0%nat 1%nat ltac:(lia) ltac:(lia))|exact (NM 0%nat 2%nat ltac:(lia) ltac:(lia))|exact (NM 1%nat 0%nat ltac:(lia) ltac:(lia))|exact (NM 1%nat 1%nat ltac:(lia) ltac:(lia))|exact (NM 1%nat 2%nat ltac:(lia) ltac:(lia))|exact (NM 2%nat 0%nat ltac:(lia) ltac:(lia))|exact (NM 2%nat 1%nat ltac:(lia) ltac:(lia))|exact (NM 2%nat 2%nat ltac:(lia) ltac:(lia))]. }
  assert (LT : T k i = s) by (unfold T; symmetry; exact LE). assert (S1 : 0 <= 1 - s * s). { destruct (Rle_or_lt 0 (1 - s * s)); [assumption|]. unfold w in WL. rewrite sqrt_neg_0 in WL by lra. lra. }
  assert (WW : w * w = 1 - T k i * T k i) by (rewrite LT; apply sqrt_sqrt; exact S1).
  pose proof (core_float L m T i j k e w HA FT H E WL WW) as C. cbv zeta in C. destruct C as (G & A & B & G0 & N & NA & NB & NG).
  pose proof (Props_EulerX.nine_matrix T p A B G0 RP N) as M.
  change (@mat_of_table xreal xreal_ops (fun r s : axis => Fin (T r s))) with (Props_MatX.mt (mrows a b c)) in M.
  assert (FL : forall (v : b32) t, (fin v /\ Rabs (real v) <= PI + bpow radix2 (-22) /\ Rabs (real v - t) <= (10 * e + 11 * u) / w) -> (fin (fmul v fm1) /\ Rabs (real (fmul v fm1)) <= PI + bpow radix2 (-22) /\ Rabs (real (fmul v fm1) - t * -1) <= (10 * e + 11 * u) / w)).
  { intros v t (F & B1 & D). destruct (Props_EulF.flip_close v t _ F D) as [F' D']. split; [exact F'|split; [|exact D']]. destruct (fin_of_X _ _ (Props_Box.neg_scalar_X v F)) as [_ EN]. rewrite EN, Rabs_Ropp. exact B1. }
  assert (OR : euler_init_from_matrix (Some m) o = let '(x, y, z) := matrix_to_euler m p in euler_init_from_radians x y z o).
  { unfold euler_init_from_matrix. rewrite ID. fold p. destruct (matrix_to_euler m p) as [[x y] z]. unfold euler_init_from_radians, euler_init_internal. destruct o; reflexivity. }
  rewrite OR. unfold matrix_to_euler. rewrite RP. cbv zeta. fold i. fold j. fold k. rewrite G. 
  destruct (ap_parity p), (ap_frame p); cbv beta iota zeta in M |- *; do 6 eexists; (split; [reflexivity|split; [exact (turn_entries o a b c _ _ _ M)|]]); auto 10.
Qed.
Theorem C112_from_matrix : forall (BK : Backend b32) (L : LibM b32) (o : eorder) (m : mat b32) (a b c : R3) (e : R), atan2_accurate L -> Props_QuatX.rotation_rows a b c -> Props_EulerX.repeats o = false ->
  near_mat e m a b c -> 0 <= e <= bpow radix2 (-16) -> matrix_is_identity m = false -> let s := Props_EulerX.lock_entry o a b c in let w := sqrt (1 - s * s) in / 64 <= w ->
  let r := euler_init_from_matrix (Some m) o in let err := (10 * e + 18 * u) / w in
  exists x y z, (forall i j, (i < 4)%nat -> (j < 4)%nat -> Props_EulerX.mturn_by o x y z i j = mrows a b c i j) /\
  near_turn err (euler_get_x r) x /\ near_turn err (euler_get_y r) y /\ near_turn err (euler_get_z r) z.
Proof.
  intros BK L o m a b c e HA RR NR NM E ID s w WL r err. destruct (from_matrix_raw BK L o m a b c e HA RR NR NM E ID WL) as (v1 & v2 & v3 & t1 & t2 & t3 & EQ & TE & N1 & N2 & N3). fold s in N1, N2, N3. fold w in N1, N2, N3. fold r in EQ.
  exists t1, t2, t3. split; [exact TE|]. pose proof Props_Euler.PI_bounds as PB. change (bpow radix2 (-22)) with (/ 4194304) in * .
  assert (W1 : w <= 1). { unfold w. apply Rle_trans with (sqrt 1); [|rewrite sqrt_1; lra]. apply sqrt_le_1_alt. pose proof (Rle_0_sqr s) as Q. unfold Rsqr in Q. lra. } assert (IC : 0 < / w) by (apply Rinv_0_lt_compat; lra). assert (IC1 : 1 <= / w) by (rewrite <- Rinv_1; apply Rinv_le_contravar; lra).
  assert (W : (10 * e + 11 * u) / w + 7 * u <= err). { unfold err, Rdiv. assert (7 * u * 1 <= 7 * u * / w) by (apply Rmult_le_compat_l; lra). lra. }
  assert (K : forall v t, (fin v /\ Rabs (real v) <= PI + / 4194304 /\ Rabs (real v - t) <= (10 * e + 11 * u) / w) -> near_turn err (rad_to_deg v) t).
  { intros v t (F & B & D). destruct (degrees_near v t _ F ltac:(lra) D) as [F' D']. split; [exact F'|lra]. }
  rewrite EQ. split; [exact (K v1 t1 N1)|split; [exact (K v2 t2 N2)|exact (K v3 t3 N3)]].
Qed.
Theorem C112_round_trip : forall (BK : Backend b32) (L : LibM b32) (o : eorder) (m : mat b32) (a b c : R3) (e : R), libm_accurate L -> atan2_accurate L -> Props_QuatX.rotation_rows a b c -> In o [SXYZ; RXYZ; OXYZ; ODefault] ->
  near_mat e m a b c -> 0 <= e <= bpow radix2 (-16) -> matrix_is_identity m = false -> let s := Props_EulerX.lock_entry o a b c in let w := sqrt (1 - s * s) in / 64 <= w -> (10 * e + 13 * u) / w <= / 1000 ->
  forall i j, (i < 4)%nat -> (j < 4)%nat -> within ((51 * e + 72 * u) / w) (matrix_get_value (euler_to_matrix (euler_init_from_matrix (Some m) o)) i j) (mrows a b c i j).
Proof.
  intros BK L o m a b c e HL HA RR IN NM E ID s w WL WB i j Hi Hj. assert (NR : Props_EulerX.repeats o = false) by (simpl in IN; destruct IN as [<-|[<-|[<-|[<-|[]]]]]; reflexivity).
  destruct (from_matrix_raw BK L o m a b c e HA RR NR NM E ID WL) as (v1 & v2 & v3 & t1 & t2 & t3 & EQ & TE & (F1 & _ & D1) & (F2 & _ & D2) & (F3 & _ & D3)). fold s in D1, D2, D3. fold w in D1, D2, D3.
  assert (W1 : w <= 1). { unfold w. apply Rle_trans with (sqrt 1); [|rewrite sqrt_1; lra]. apply sqrt_le_1_alt. pose proof (Rle_0_sqr s) as Q. unfold Rsqr in Q. lra. } assert (IC : 0 < / w) by (apply Rinv_0_lt_compat; lra). assert (IC1 : 1 <= / w) by (rewrite <- Rinv_1; apply Rinv_le_contravar; lra).
  assert (U1 : 2 * u * 1 <= 2 * u * / w) by (apply Rmult_le_compat_l; lra). assert (E0 : 0 <= e * / w) by (apply Rmult_le_pos; lra).
  destruct (Props_EulF.internal_close L o v1 v2 v3 t1 t2 t3 ((10 * e + 11 * u) / w) i j HL ltac:(unfold Rdiv in * ; lra) F1 F2 F3 D1 D2 D3 Hi Hj) as [F D]. rewrite TE in D by assumption. rewrite EQ.
  assert (EM : euler_to_matrix (euler_init_from_radians v1 v2 v3 o) = euler_to_matrix_internal v1 v2 v3 (order_parameters (euler_real_order o))) by (simpl in IN; destruct IN as [<-|[<-|[<-|[<-|[]]]]]; reflexivity).
  rewrite EM. split; [exact F|]. eapply Rle_trans; [exact D|]. unfold Rdiv in * . lra.
Qed.

(** ** the hypotheses can be met: the rotation x -> y -> z -> x, in an order about x, y, z *)
Example C112_ex : forall BK : Backend b32, let z := flit 0 0 : b32 in let n := flit 1 0 : b32 in let m := M4 (V4 z n z z) (V4 z z n z) (V4 n z z z) (V4 z z z n) in
  let a := Props_MatX2.V3 0 1 0 in let b := Props_MatX2.V3 0 0 1 in let c := Props_MatX2.V3 1 0 0 in
  libm_accurate libm_eul /\ atan2_accurate libm_eul /\ Props_QuatX.rotation_rows a b c /\ Props_EulerX.repeats SXYZ = false /\ near_mat 0 m a b c /\ matrix_is_identity m = false /\
  sqrt (1 - Props_EulerX.lock_entry SXYZ a b c * Props_EulerX.lock_entry SXYZ a b c) = 1.
Proof.
  intros BK z n m a b c. destruct libm_eul_ok as (A & _ & C). destruct Props_EulerX.C48_ex as (R1 & L1 & _).
  refine (conj A (conj C (conj R1 (conj eq_refl (conj _ (conj _ _)))))).
  - destruct (lit_real 0 0) as [F0 R0]; try lia. destruct (lit_real 1 0) as [F1 R1']; try lia. change (bpow radix2 0) with 1 in * .
    intros r s Hr Hs. destruct r as [|[|[|r]]]; [..|lia]; (destruct s as [|[|[|s]]]; [..|lia]); (split; [first [exact F0|exact F1]|]);
      first [match goal with |- Rabs (_ - ?q) <= 0 => change (Rabs (real z - 0) <= 0) end; unfold z; rewrite R0; apply Rabs_le; lra|match goal with |- Rabs (_ - ?q) <= 0 => change (Rabs (real n - 1) <= 0) end; unfold n; rewrite R1'; apply Rabs_le; lra].
  - destruct BK; vm_compute; reflexivity.
  - unfold a, b, c. rewrite L1. replace (1 - 0 * 0) with 1 by ring. apply sqrt_1.
Qed.

(** ** from a quaternion: its matrix is near its rotation (C107), so its Euler angles are those of the rotation *)
Lemma near_rot_mat d m Q : near_rot d m Q -> near_mat d m (RQuat.qrot Q Props_QuatX2.ex) (RQuat.qrot Q Props_QuatX2.ey) (RQuat.qrot Q Props_QuatX2.ez).
Proof.
  intros [UQ H] r s Hr Hs. pose proof (unit_sum Q UQ) as SU. destruct (ap_fin _ _ _ (H r s Hr Hs)) as [F D]. split; [exact F|].
  assert (E : mrows (RQuat.qrot Q Props_QuatX2.ex) (RQuat.qrot Q Props_QuatX2.ey) (RQuat.qrot Q Props_QuatX2.ez) r s = rot_of Q r s); [|now rewrite E].
  destruct Q as [w [x y z]]. unfold Props_QuatX2.ex, Props_QuatX2.ey, Props_QuatX2.ez. destruct (Props_QuatX2.qrot_rows w x y z) as (-> & -> & ->).
  unfold rcomp in SU; cbn [nth RQuat.qs RQuat.qv Props_MatX2.r3x Props_MatX2.r3y Props_MatX2.r3z] in SU. assert (S2 : w * w = 1 - x * x - y * y - z * z) by lra.
  unfold rot_of, rcomp; cbn [nth RQuat.qs RQuat.qv Props_MatX2.r3x Props_MatX2.r3y Props_MatX2.r3z].
  destruct r as [|[|[|r]]]; [..|lia]; (destruct s as [|[|[|s]]]; [..|lia]); cbn; ring [S2].
Qed.
Lemma turn_linear o x y z v : Props_MatX2.add3 (Props_MatX2.add3 (Props_MatX2.scl3 (Props_MatX2.r3x v) (Props_EulerX.turn_by o x y z Props_QuatX2.ex)) (Props_MatX2.scl3 (Props_MatX2.r3y v) (Props_EulerX.turn_by o x y z Props_QuatX2.ey))) (Props_MatX2.scl3 (Props_MatX2.r3z v) (Props_EulerX.turn_by o x y z Props_QuatX2.ez)) = Props_EulerX.turn_by o x y z v.
Proof.
  assert (B : v = Props_EulerX.lin3 (Props_MatX2.r3x v) (Props_MatX2.r3y v) (Props_MatX2.r3z v) Props_QuatX2.ex Props_QuatX2.ey Props_QuatX2.ez).
  { destruct v as [p q r]. unfold Props_EulerX.lin3, Props_QuatX2.ex, Props_QuatX2.ey, Props_QuatX2.ez, Props_MatX2.add3, Props_MatX2.scl3; cbn [Props_MatX2.r3x Props_MatX2.r3y Props_MatX2.r3z]. apply Props_MatX2.V3_eq; ring. }
  rewrite B at 4. unfold Props_EulerX.turn_by. destruct (Props_EulerX.order_spec o) as [[] [[k1 k2] k3]]; rewrite !Props_EulerX.rod_lin; reflexivity.
Qed.
Theorem C113_from_quaternion : forall (BK : Backend b32) (L : LibM b32) (o : eorder) (q : quat b32) (Q : RQ) (e : R), atan2_accurate L -> Props_EulerX.repeats o = false ->
  nearby e q Q -> 0 <= e <= bpow radix2 (-19) -> matrix_is_identity (quaternion_to_matrix q) = false ->
  let a := RQuat.qrot Q Props_QuatX2.ex in let b := RQuat.qrot Q Props_QuatX2.ey in let c := RQuat.qrot Q Props_QuatX2.ez in
  let s := Props_EulerX.lock_entry o a b c in let w := sqrt (1 - s * s) in / 64 <= w ->
  let r := euler_init_from_quaternion (Some q) o in let err := (60 * e + 148 * u) / w in
  exists x y z, (forall v, Props_EulerX.turn_by o x y z v = RQuat.qrot Q v) /\ near_turn err (euler_get_x r) x /\ near_turn err (euler_get_y r) y /\ near_turn err (euler_get_z r) z.
Proof.
  intros BK L o q Q e HA NR NQ E ID a b c s w WL r err. assert (U19 : bpow radix2 (-19) = 32 * u) by (simpl; lra). assert (U16 : bpow radix2 (-16) = 256 * u) by (simpl; lra). rewrite U19 in E.
  pose proof (matrix_nearby e q Q ltac:(lra) NQ) as NM. pose proof (near_rot_mat _ _ _ NM) as NR2. pose proof (Props_QuatX2.mquat_rotation Q (proj1 NQ)) as RR.
  assert (OR : r = euler_init_from_matrix (Some (quaternion_to_matrix q)) o). { unfold r, euler_init_from_quaternion, euler_init_from_matrix. rewrite ID. destruct o; reflexivity. }
  destruct (C112_from_matrix BK L o _ a b c (6 * e + 13 * u) HA RR NR NR2 ltac:(rewrite U16; lra) ID WL) as (x & y & z & TE & H1 & H2 & H3). fold s in H1, H2, H3. fold w in H1, H2, H3. rewrite <- OR in H1, H2, H3.
  exists x, y, z. split.
  - assert (EX : Props_EulerX.turn_by o x y z Props_QuatX2.ex = a /\ Props_EulerX.turn_by o x y z Props_QuatX2.ey = b /\ Props_EulerX.turn_by o x y z Props_QuatX2.ez = c).
    { pose proof (TE 0%nat 0%nat ltac:(lia) ltac:(lia)) as G00. pose proof (TE 0%nat 1%nat ltac:(lia) ltac:(lia)) as G01. pose proof (TE 0%nat 2%nat ltac:(lia) ltac:(lia)) as G02. pose proof (TE 1%nat 0%nat ltac:(lia) ltac:(lia)) as G10. pose proof (TE 1%nat 1%nat ltac:(lia) ltac:(lia)) as G11. pose proof (TE 1%nat 2%nat ltac:(lia) ltac:(lia)) as G12. pose proof (TE 2%nat 0%nat ltac:(lia) ltac:(lia)) as G20. pose proof (TE 2%nat 1%nat ltac:(lia) ltac:(lia)) as G21. pose proof (TE 2%nat 2%nat ltac:(lia) ltac:(lia)) as G22.
      assert (RE : forall p q : R3, Props_MatX2.r3x p = Props_MatX2.r3x q -> Props_MatX2.r3y p = Props_MatX2.r3y q -> Props_MatX2.r3z p = Props_MatX2.r3z q -> p = q) by (intros [p0 p1 p2] [q0 q1 q2]; cbn; intros; subst; reflexivity).
      split; [|split]; apply RE; assumption. }
    intros v. destruct EX as (X1 & X2 & X3). rewrite (qrot_basis Q v). fold a b c. change (RQuat.qrot Q (Props_MatX2.V3 1 0 0)) with a. change (RQuat.qrot Q (Props_MatX2.V3 0 1 0)) with b. change (RQuat.qrot Q (Props_MatX2.V3 0 0 1)) with c. rewrite <- X1, <- X2, <- X3.
    symmetry. apply turn_linear.
  - assert (W : (10 * (6 * e + 13 * u) + 18 * u) / w <= err). { unfold err, Rdiv. apply Rmult_le_compat_r; [left; apply Rinv_0_lt_compat; lra|lra]. }
    repeat split; first [apply H1|apply H2|apply H3|eapply Rle_trans; [first [apply H1|apply H2|apply H3]|exact W]].
Qed.

Lemma R3_comp (p q : R3) : Props_MatX2.r3x p = Props_MatX2.r3x q -> Props_MatX2.r3y p = Props_MatX2.r3y q -> Props_MatX2.r3z p = Props_MatX2.r3z q -> p = q.
Proof. destruct p, q. cbn. intros; subst; reflexivity. Qed.
Example C113_ex : forall BK : Backend b32, let h := flit 1 (-1) : b32 in let q := Qt h h h h in let Q := RQuat.Q4 (/ 2) (Props_MatX2.V3 (/ 2) (/ 2) (/ 2)) in
  let a := RQuat.qrot Q Props_QuatX2.ex in let b := RQuat.qrot Q Props_QuatX2.ey in let c := RQuat.qrot Q Props_QuatX2.ez in
  nearby 0 q Q /\ matrix_is_identity (quaternion_to_matrix q) = false /\ a = Props_MatX2.V3 0 1 0 /\ b = Props_MatX2.V3 0 0 1 /\ c = Props_MatX2.V3 1 0 0 /\
  sqrt (1 - Props_EulerX.lock_entry SXYZ a b c * Props_EulerX.lock_entry SXYZ a b c) = 1.
Proof.
  intros BK h q Q a b c. destruct (lit_real 1 (-1)) as [F1 R1']; try lia. change (flit 1 (-1)) with h in F1, R1'. change (bpow radix2 (-1)) with (/ 2) in R1'.
  destruct (Props_QuatX2.qrot_rows (/ 2) (/ 2) (/ 2) (/ 2)) as (QA & QB & QC).
  assert (EA : a = Props_MatX2.V3 0 1 0) by (etransitivity; [exact QA|apply Props_MatX2.V3_eq; lra]).
  assert (EB : b = Props_MatX2.V3 0 0 1) by (etransitivity; [exact QB|apply Props_MatX2.V3_eq; lra]).
  assert (EC : c = Props_MatX2.V3 1 0 0) by (etransitivity; [exact QC|apply Props_MatX2.V3_eq; lra]).
  refine (conj _ (conj _ (conj EA (conj EB (conj EC _))))).
  - split; [unfold unit_q, RQuat.qdot, Props_MatX2.dot, Q; cbn [RQuat.qs RQuat.qv Props_MatX2.r3x Props_MatX2.r3y Props_MatX2.r3z]; lra|]. intros k. split.
    + destruct k as [|[|[|[|k]]]]; exact F1.
    + assert (E : real (qcomp k q) = / 2) by (destruct k as [|[|[|[|k]]]]; cbn -[B2R]; rewrite R1'; lra). assert (E2 : rcomp k Q = / 2) by (destruct k as [|[|[|[|k]]]]; reflexivity). rewrite E, E2. apply Rabs_le; lra.
  - destruct BK; vm_compute; reflexivity.
  - rewrite EA, EB, EC. destruct Props_EulerX.C48_ex as (_ & L1 & _). rewrite L1. replace (1 - 0 * 0) with 1 by ring. apply sqrt_1.
Qed.
