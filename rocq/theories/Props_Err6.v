(** * Props_Err6: rounding errors of determinants and of quaternion rotation matrices (C83). *)
From Coq Require Import ZArith Reals Bool List Lra Lia Psatz.
From Flocq Require Import Core BinarySingleNaN.
From Verif Require Import Num Simd Vec Rect Box Mat Geo Quat OrdThy FloatThy B32Setup FloatLem ErrThy Props_Err Props_Err2 Props_Err3 ErrEx Props_Err5.
From Verif Require RMat Props_MatX.
Import ListNotations.
Local Open Scope R_scope.
Notation det := RMat.det.

(** ** running the model on expression trees
    The model is generic in its numbers: interpreted over trees it returns the tree of the
    operations it performs, whose float value is the result of the float model. *)
Definition fxops : FOps fx := {|
  fzero := XL fzero; fone := XL fone; flit m e := XL (flit m e); finf := XL finf; fpi := XL fpi; fpi_2 := XL fpi_2;
  fneg := XN; fabs a := a; fadd := XP; fsub := XS; fmul := XM; fdiv a _ := a (* numerator *); ffma := XF; fsqrt a := a; ffloor a := a; fceil a := a;
  flt _ _ := true; fle _ _ := true; feqb _ _ := false; fisnan _ := false; fisinf _ := false; fsignbit _ := false |}.
Definition fxb : Backend fx := Sse true true (fun a => a) (fun a => a).
Definition fusing (BK : Backend b32) : bool := match BK with Sse _ true _ _ => true | _ => false end.
Definition vleaf (v : V) : simd4f fx := V4 (XL (vx v)) (XL (vy v)) (XL (vz v)) (XL (vw v)).
Definition mleaf (m : mat b32) : mat fx := M4 (vleaf (mx m)) (vleaf (my m)) (vleaf (mz m)) (vleaf (mw m)).

(** ** the determinant *)
(** the permanent: the determinant's expansion with every sign positive *)
Fixpoint perm (n : nat) (A : nat -> nat -> R) : R :=
  match n with
  | 0%nat => 1
  | Datatypes.S n => RMat.sumn (Datatypes.S n) (fun j => A 0%nat j * perm n (fun i k => A (Datatypes.S i) (if Nat.ltb k j then k else Datatypes.S k)))
  end.
Definition upto_mat (k : Z) (m : mat b32) : Prop := upto4 k (mx m) /\ upto4 k (my m) /\ upto4 k (mz m) /\ upto4 k (mw m).
Definition aent (m : mat b32) (r c : nat) : R := Rabs (ent m r c).

Definition det_tree (m : mat b32) : fx := @matrix_determinant fx fxops fxb (mleaf m).
Lemma det_tree_ok (BK : Backend b32) m : xev (fusing BK) (det_tree m) = matrix_determinant m.
Proof.
  destruct m as [[a0 a1 a2 a3] [b0 b1 b2 b3] [c0 c1 c2 c3] [d0 d1 d2 d3]].
  match goal with |- xev _ ?t = _ => let t' := eval cbv [det_tree mleaf vleaf fxb fxops fadd fmul fsub ffma matrix_determinant gm_determinant gm_det_v gm_r1_sum sum_b minor1 minor2 minor3 mx my mz mw g_get_x
    g_mul g_add g_sub g_madd g_splat_y g_merge_high g_shuffle_wxyz g_shuffle_zwxy g_shuffle_yzwx map2 vx vy vz vw backend] in t in change t with t' end.
  destruct BK as [ie| |s4 [] rcp rsq|rec rsq sq]; cbn [fusing xev]; cbv [matrix_determinant gm_determinant gm_det_v gm_r1_sum sum_b minor1 minor2 minor3 mx my mz mw g_get_x
    g_mul g_add g_sub g_madd g_splat_y g_merge_high g_shuffle_wxyz g_shuffle_zwxy g_shuffle_yzwx map2 vx vy vz vw backend]; reflexivity.
Qed.
Lemma det_within (BK : Backend b32) m : upto_mat 30 m -> within (slack 8.25 (perm 4 (aent m)) (-80)) (matrix_determinant m) (- det 4 (ent m)).
Proof.
  intros (((A1 & A2 & A3) & A4) & ((B1 & B2 & B3) & B4) & ((C1 & C2 & C3) & C4) & ((D1 & D2 & D3) & D4)).
  rewrite <- (det_tree_ok BK). destruct m as [[a0 a1 a2 a3] [b0 b1 b2 b3] [c0 c1 c2 c3] [d0 d1 d2 d3]]. cbn [mx my mz mw vx vy vz vw] in * .
  cbv [det_tree matrix_determinant gm_determinant gm_det_v gm_r1_sum sum_b minor1 minor2 minor3 mleaf vleaf mx my mz mw g_get_x
    g_mul g_add g_sub g_madd g_splat_y g_merge_high g_shuffle_wxyz g_shuffle_zwxy g_shuffle_yzwx map2 vx vy vz vw backend fxb fxops fadd fmul fsub ffma].
  match goal with |- within _ (xev _ ?t) _ => pose (T := t) end.
  apply (to_slack 30%Z (fusing BK) T); cbv [T].
  - lia.
  - cbn [ds leaves]. repeat split; first [apply A1|apply A2|apply A3|apply A4|apply B1|apply B2|apply B3|apply B4|apply C1|apply C2|apply C3|apply C4|apply D1|apply D2|apply D3|apply D4].
  - cbn. lia.
  - vm_compute. congruence.
  - vm_compute. congruence.
  - cbn. lra.
  - cbn [ds aev]. cbn. unfold aent, ent. cbn. ring.
  - cbn [ds rev]. rewrite RMat.det4. cbv zeta. unfold ent; cbn. ring.
  - vm_compute. congruence.
Qed.

Theorem C83_determinant : forall (BK : Backend b32) (m : mat b32), upto_mat 30 m ->
  within (slack 8.25 (perm 4 (aent m)) (-80)) (matrix_determinant m) (- det 4 (ent m)).
Proof. exact det_within. Qed.

(** ** the singularity test *)
Definition det_err (m : mat b32) : R := slack 8.25 (perm 4 (aent m)) (-80).
Lemma real_eps : real feps = / 8388608. Proof. apply fin_of_X, feps_X. Qed.
Lemma near_abs x y e : Rabs (x - - y) <= e -> Rabs y - e <= Rabs x <= Rabs y + e.
Proof. intros H. apply Rabs_le_inv in H. unfold Rabs. destruct (Rcase_abs x), (Rcase_abs y); lra. Qed.
Lemma eps_le (x : b32) : fin x -> fle feps (fabs x) = true <-> / 8388608 <= Rabs (real x).
Proof. intros F. rewrite fle_X, feps_X, fabs_X, (fin_X x F). cbn [xabs]. apply xle_fin. Qed.
Lemma eps_lt (x : b32) : fin x -> flt feps (fabs x) = true <-> / 8388608 < Rabs (real x).
Proof. intros F. rewrite flt_X, feps_X, fabs_X, (fin_X x F). cbn [xabs]. apply xlt_fin. Qed.
Lemma le_eps (x : b32) : fin x -> fle (fabs x) feps = true <-> Rabs (real x) <= / 8388608.
Proof. intros F. rewrite fle_X, feps_X, fabs_X, (fin_X x F). cbn [xabs]. apply xle_fin. Qed.
Theorem C83_is_singular : forall (BK : Backend b32) (m : mat b32), upto_mat 30 m ->
  (real feps + det_err m < Rabs (det 4 (ent m)) -> matrix_is_singular m = false) /\
  (Rabs (det 4 (ent m)) + det_err m <= real feps -> matrix_is_singular m = true).
Proof.
  intros BK m U. destruct (det_within BK m U) as [F Q]. fold (det_err m) in Q. apply near_abs in Q. rewrite real_eps.
  unfold matrix_is_singular. fold (matrix_determinant m). split; intros H.
  - apply not_true_iff_false. rewrite le_eps by auto. lra.
  - apply le_eps; auto. lra.
Qed.

(** ** the inverse *)
Definition cof_tree (m : mat b32) (i j : nat) : fx :=
  match @gm_inverse fx fxops fxb (mleaf m) with
  | Some n => match @matrix_get_value fx fxops n i j with XM a _ => a | e => e end
  | None => XL fzero end.
Definition cof_val (BK : Backend b32) (m : mat b32) (i j : nat) : b32 := xev (fusing BK) (cof_tree m i j).
Ltac inv_case BK :=
  match goal with |- _ = fmul (xev _ ?t) _ => let t' := eval cbv [cof_tree mleaf vleaf fxb fxops fneg fadd fmul fsub ffma fdiv fle matrix_get_value matrix_get_row gm_inverse gm_transpose gm_init sum_a sum_b minor1 minor2 minor3 mx my mz mw g_get_x g_get g_splat g_splat_x g_init g_div g_flip_sign_0101 g_flip_sign_1010
    g_mul g_add g_sub g_madd g_splat_y g_merge_high g_merge_low g_shuffle_wxyz g_shuffle_zwxy g_shuffle_yzwx map1 map2 vx vy vz vw backend Nat.ltb Nat.leb orb] in t in change t with t' end;
  destruct BK as [ie| |s4 [] rcp rsq|rec rsq sq]; cbn [fusing xev]; cbv [matrix_get_value matrix_get_row gm_inverse gm_transpose gm_init sum_a sum_b minor1 minor2 minor3 mx my mz mw g_get_x g_get g_splat g_splat_x g_init g_div g_flip_sign_0101 g_flip_sign_1010
    g_mul g_add g_sub g_madd g_splat_y g_merge_high g_merge_low g_shuffle_wxyz g_shuffle_zwxy g_shuffle_yzwx map1 map2 vx vy vz vw backend Nat.ltb Nat.leb orb]; reflexivity.
Lemma inverse_eq (BK : Backend b32) m : fle feps (fabs (matrix_determinant m)) = true ->
  exists n, matrix_inverse m = Some n /\ forall i j, (i < 4)%nat -> (j < 4)%nat ->
  matrix_get_value n i j = fmul (cof_val BK m i j) (lane_div fone (matrix_determinant m)).
Proof.
  intros H. unfold matrix_inverse, gm_inverse.
  match goal with |- context [fle feps (fabs (g_get_x ?d))] => change (g_get_x d) with (matrix_determinant m); set (dd := d) end. cbv zeta. rewrite H. eexists. split; [reflexivity|].
  assert (ED : vx dd = matrix_determinant m) by reflexivity. rewrite <- ED. clearbody dd. clear H ED.
  intros i j Hi Hj. destruct m as [[a0 a1 a2 a3] [b0 b1 b2 b3] [c0 c1 c2 c3] [d0 d1 d2 d3]].
  unfold cof_val.
  do 4 (destruct i as [|i]; [do 4 (destruct j as [|j]; [inv_case BK|]); lia|]). lia.
Qed.

(** the permanent of the absolute values of the entries left when row [j] and column [i] are struck out *)
Definition cof_abs (m : mat b32) (i j : nat) : R :=
  perm 3 (fun r c => aent m (if Nat.ltb r j then r else Datatypes.S r) (if Nat.ltb c i then c else Datatypes.S c)).
Definition cof_err (m : mat b32) (i j : nat) : R := slack 5.25 (cof_abs m i j) (-110).
Lemma cof_within (BK : Backend b32) m i j : upto_mat 30 m -> (i < 4)%nat -> (j < 4)%nat ->
  within (cof_err m i j) (cof_val BK m i j) (- Props_MatX.adj (ent m) i j).
Proof.
  intros (((A1 & A2 & A3) & A4) & ((B1 & B2 & B3) & B4) & ((C1 & C2 & C3) & C4) & ((D1 & D2 & D3) & D4)) Hi Hj.
  destruct m as [[a0 a1 a2 a3] [b0 b1 b2 b3] [c0 c1 c2 c3] [d0 d1 d2 d3]]. cbn [mx my mz mw vx vy vz vw] in * . unfold cof_val, cof_err.
  assert (Q : forall T : fx, leaves (le_B (bpow radix2 30)) (ds T) -> (dep (ds T) <= 5)%nat -> (wt (ds T) <=? 2 ^ 38)%Z = true -> (tm (ds T) <=? 16)%Z = true -> (dg (ds T) <=? 3)%nat = true ->
    aev (ds T) = cof_abs (M4 (V4 a0 a1 a2 a3) (V4 b0 b1 b2 b3) (V4 c0 c1 c2 c3) (V4 d0 d1 d2 d3)) i j ->
    rev (ds T) = - Props_MatX.adj (ent (M4 (V4 a0 a1 a2 a3) (V4 b0 b1 b2 b3) (V4 c0 c1 c2 c3) (V4 d0 d1 d2 d3))) i j ->
    (Z.log2_up (wt (ds T)) <=? 9)%Z = true ->
    within (slack 5.25 (cof_abs (M4 (V4 a0 a1 a2 a3) (V4 b0 b1 b2 b3) (V4 c0 c1 c2 c3) (V4 d0 d1 d2 d3)) i j) (-110)) (xev (fusing BK) T) (- Props_MatX.adj (ent (M4 (V4 a0 a1 a2 a3) (V4 b0 b1 b2 b3) (V4 c0 c1 c2 c3) (V4 d0 d1 d2 d3))) i j)).
  { intros T H1 H2 H3 H4 H5 H6 H7 H8. apply Z.leb_le in H3, H4, H8. apply Nat.leb_le in H5. apply (to_slack 30%Z (fusing BK) T); auto; try lia.
    - assert (Z.log2_up (tm (ds T)) <= 4)%Z by (change 4%Z with (Z.log2_up 16); now apply Z.log2_up_le_mono). lia.
    - apply Rle_trans with (INR 5 + / 4); [apply Rplus_le_compat_r, le_INR, H2|cbn; lra]. }
  do 4 (destruct i as [|i]; [do 4 (destruct j as [|j]; [
    match goal with |- within _ (xev _ ?t) _ => let t' := eval cbv [cof_tree mleaf vleaf fxb fxops fneg fadd fmul fsub ffma fdiv fle matrix_get_value matrix_get_row gm_inverse gm_transpose gm_init sum_a sum_b minor1 minor2 minor3 mx my mz mw g_get_x g_get g_splat g_splat_x g_init g_div g_flip_sign_0101 g_flip_sign_1010
    g_mul g_add g_sub g_madd g_splat_y g_merge_high g_merge_low g_shuffle_wxyz g_shuffle_zwxy g_shuffle_yzwx map1 map2 vx vy vz vw backend Nat.ltb Nat.leb orb] in t in change t with t' end;
    apply Q; [cbn [ds leaves]; repeat split; first [apply A1|apply A2|apply A3|apply A4|apply B1|apply B2|apply B3|apply B4|apply C1|apply C2|apply C3|apply C4|apply D1|apply D2|apply D3|apply D4]
      |cbn; lia|reflexivity|reflexivity|reflexivity
      |cbn [ds aev]; unfold cof_abs, aent, ent; cbn; ring
      |cbn [ds rev]; unfold Props_MatX.adj; rewrite RMat.det3; cbv zeta; unfold ent; cbn; ring|reflexivity]|]); lia|]). lia.
Qed.

(** back ends whose division is the IEEE one (all but NEON, which multiplies by an estimate) *)
Definition ieee_div (BK : Backend b32) : Prop := match BK with Neon _ _ _ => False | _ => True end.
Lemma perm_bound n A b : 0 <= b -> (forall i j, (i < n)%nat -> (j < n)%nat -> 0 <= A i j <= b) -> 0 <= perm n A <= INR (fact n) * b ^ n.
Proof.
  intros Pb. revert A. induction n as [|n IH]; intros A HA; [cbn; lra|].
  cbn [perm]. set (N := Datatypes.S n) in * .
  assert (G : forall k, (k <= N)%nat -> 0 <= RMat.sumn k (fun j => A 0%nat j * perm n (fun i l => A (Datatypes.S i) (if Nat.ltb l j then l else Datatypes.S l))) <= INR k * (INR (fact n) * b ^ N)).
  { induction k as [|k IHk]; intros Hk; [cbn; lra|]. cbn [RMat.sumn]. specialize (IHk ltac:(lia)). rewrite S_INR.
    assert (Q : 0 <= perm n (fun i l => A (Datatypes.S i) (if Nat.ltb l k then l else Datatypes.S l)) <= INR (fact n) * b ^ n).
    { apply IH. intros i j Hi Hj. apply HA; [unfold N; lia|]. destruct (Nat.ltb j k) eqn:E; unfold N in * ; lia. }
    specialize (HA 0%nat k ltac:(unfold N; lia) ltac:(lia)).
    assert (A 0%nat k * perm n (fun i l => A (Datatypes.S i) (if Nat.ltb l k then l else Datatypes.S l)) <= b * (INR (fact n) * b ^ n)) by (apply Rmult_le_compat; lra).
    assert (0 <= A 0%nat k * perm n (fun i l => A (Datatypes.S i) (if Nat.ltb l k then l else Datatypes.S l))) by (apply Rmult_le_pos; lra).
    unfold N in * ; cbn [pow] in * . lra. }
  specialize (G N ltac:(lia)). change (fact N) with (N * fact n)%nat. rewrite mult_INR. lra.
Qed.
Lemma abs_m1 : Rabs (-1) = 1. Proof. rewrite Rabs_left; lra. Qed.
Lemma det_le_perm n : forall A, Rabs (det n A) <= perm n (fun i j => Rabs (A i j)).
Proof.
  induction n as [|n IH]; intros A; [cbn [RMat.det perm]; rewrite Rabs_R1; lra|]. cbn [RMat.det perm]. generalize (Datatypes.S n) as N. intros N. induction N as [|N IHN]; cbn [RMat.sumn]; [rewrite Rabs_R0; lra|].
  eapply Rle_trans; [apply Rabs_triang|]. apply Rplus_le_compat; auto. rewrite !Rabs_mult. rewrite <- RPow_abs, abs_m1, pow1, Rmult_1_l. apply Rmult_le_compat_l; [apply Rabs_pos|]. apply IH.
Qed.
Lemma aent_upto m k i j : upto_mat k m -> (i < 4)%nat -> (j < 4)%nat -> 0 <= aent m i j <= bpow radix2 k.
Proof.
  intros (((A1 & A2 & A3) & A4) & ((B1 & B2 & B3) & B4) & ((C1 & C2 & C3) & C4) & ((D1 & D2 & D3) & D4)) Hi Hj.
  split; [apply Rabs_pos|]. unfold aent, ent. destruct m as [[a0 a1 a2 a3] [b0 b1 b2 b3] [c0 c1 c2 c3] [d0 d1 d2 d3]]. cbn [mx my mz mw vx vy vz vw] in * .
  do 4 (destruct i as [|i]; [do 4 (destruct j as [|j]; [cbn; unfold upto in * ; tauto|]); lia|]). lia.
Qed.
Lemma perm4_upto m : upto_mat 30 m -> Rabs (det 4 (ent m)) <= perm 4 (aent m) <= bpow radix2 125 - bpow radix2 122.
Proof.
  intros U. split; [apply det_le_perm|]. apply Rle_trans with (24 * bpow radix2 30 ^ 4).
  { replace 24 with (INR (fact 4)) by (cbn; lra). apply perm_bound; [apply bpow_ge_0|]. intros; now apply aent_upto. }
  replace (bpow radix2 30 ^ 4) with (bpow radix2 120) by (cbn [pow]; rewrite Rmult_1_r, <- !bpow_plus; reflexivity).
  change 125%Z with (5 + 120)%Z. change 122%Z with (2 + 120)%Z. rewrite !bpow_plus. pose proof (bpow_gt_0 radix2 120). change (bpow radix2 5) with 32. change (bpow radix2 2) with 4. lra.
Qed.
Lemma cof_upto m i j : upto_mat 30 m -> (i < 4)%nat -> (j < 4)%nat -> Rabs (Props_MatX.adj (ent m) i j) <= cof_abs m i j <= bpow radix2 93.
Proof.
  intros U Hi Hj. split.
  - unfold Props_MatX.adj. rewrite Rabs_mult, <- RPow_abs, abs_m1, pow1, Rmult_1_l. apply det_le_perm.
  - apply Rle_trans with (6 * bpow radix2 30 ^ 3).
    { replace 6 with (INR (fact 3)) by (cbn; lra). apply perm_bound; [apply bpow_ge_0|]. intros a b Ha Hb. apply aent_upto; auto; [destruct (Nat.ltb a j)|destruct (Nat.ltb b i)]; lia. }
    replace (bpow radix2 30 ^ 3) with (bpow radix2 90) by (cbn [pow]; rewrite Rmult_1_r, <- !bpow_plus; reflexivity).
    change 93%Z with (3 + 90)%Z. rewrite !bpow_plus. pose proof (bpow_gt_0 radix2 90). change (bpow radix2 3) with 8. lra.
Qed.
(** [c/d] computed as [C * (1/D)] *)
Lemma quot_err (C D : b32) c d ec ed : within ec C c -> within ed D d -> 2 * ed <= Rabs d -> / 8388608 < Rabs (real D) -> Rabs (real D) <= bpow radix2 125 -> 8.25 * u32 * Rabs d <= ed ->
  Rabs (real C) <= bpow radix2 94 -> within (3 * (ec + Rabs (c / d) * ed) / Rabs d + bpow radix2 (-149)) (fmul C (fdiv fone D)) (c / d).
Proof.
  intros [FC QC] [FD QD] W LO HI REL CU.
  assert (ND : real D <> 0) by (intros E; rewrite E, Rabs_R0 in LO; lra).
  set (x := real C) in * . set (y := real D) in * . pose proof u32_pos as U0. pose proof eta_pos as E0.
  assert (Y0 : 0 < Rabs y) by lra.
  assert (IY : Rabs (/ y) = / Rabs y) by (apply Rabs_inv).
  assert (IH : / Rabs y <= 8388608) by (rewrite <- (Rinv_inv 8388608); apply Rinv_le_contravar; lra).
  assert (IL : bpow radix2 (-125) <= / Rabs y). { change (-125)%Z with (- (125))%Z. rewrite bpow_opp. apply Rinv_le_contravar; auto. }
  assert (I1 : B2X (fdiv fone D) = Fin (rnd32 (/ y))).
  { change (fdiv fone D) with (Bdiv mode_NE fone D). rewrite Bdiv_X by (fold b32; rewrite (fin_X D FD); intros [= E]; auto). fold b32. rewrite fone_X, (fin_X D FD).
    replace (xdiv (Fin 1) (Fin (B2R D))) with (Fin (/ y)).
    - apply (xrnd_ok (/ y)). rewrite IY. bp 24%Z 127%Z. change (bpow radix2 24) with 16777216 in * . lra.
    - unfold xdiv. fold y. destruct (Req_EM_T y 0); [contradiction|]. f_equal. unfold Rdiv. ring. }
  assert (RE : Rabs (rnd32 (/ y) - / y) <= u32 * Rabs (/ y)) by (apply rnd_err_rel; rewrite IY; bp (-126)%Z (-125)%Z; lra).
  rewrite IY in RE. set (v := rnd32 (/ y)) in * . set (iy := / Rabs y) in * .
  assert (AV : Rabs v <= (1 + u32) * iy). { replace v with ((v - / y) + / y) by ring. eapply Rle_trans; [apply Rabs_triang|]. rewrite IY. fold iy. lra. }
  apply fin_of_X in I1 as [FI VI]. pose proof (Rabs_pos x) as PX.
  assert (PR : Rabs (x * v) <= bpow radix2 120).
  { rewrite Rabs_mult. apply Rle_trans with (bpow radix2 94 * bpow radix2 26); [|rewrite <- bpow_plus; apply bpow_le; lia].
    apply Rmult_le_compat; auto using Rabs_pos. rewrite u32_val in * . change (bpow radix2 26) with 67108864. lra. }
  destruct (ap_mul0 C (fdiv fone D) FC FI) as (s & ES & QS). { rewrite VI. fold x. bp 120%Z 127%Z. lra. }
  apply fin_of_X in ES as [FS VS]. split; auto. rewrite VS. rewrite VI in QS. fold x in QS.
  set (q := c / d) in * .
  assert (EC : 0 <= ec) by (pose proof (Rabs_pos (x - c)); lra). assert (D0 : 0 < Rabs d) by (pose proof (Rabs_pos (y - d)); destruct (Req_dec d 0) as [Z|Z]; [|now apply Rabs_pos_lt]; subst d; rewrite Rabs_R0 in * ; replace (y - 0) with y in * by ring; lra).
  assert (ED : 0 <= ed) by (pose proof (Rabs_pos (y - d)); lra).
  assert (N0 : d <> 0) by (intros Z; rewrite Z, Rabs_R0 in D0; lra).
  assert (IYd : iy <= 2 * / Rabs d).
  { unfold iy. assert (H : Rabs d / 2 <= Rabs y). { assert (Rabs d <= Rabs y + Rabs (y - d)). { replace d with (y - (y - d)) at 1 by ring. unfold Rminus at 1. eapply Rle_trans; [apply Rabs_triang|]. rewrite Rabs_Ropp. lra. } lra. }
    apply Rle_trans with (/ (Rabs d / 2)); [apply Rinv_le_contravar; lra|]. apply Req_le. field. lra. }
  assert (IY0 : 0 < iy) by (apply Rinv_0_lt_compat; auto).
  assert (T1 : Rabs (x * / y - q) <= iy * (ec + Rabs q * ed)).
  { replace (x * / y - q) with (/ y * ((x - c) + q * (d - y))) by (unfold q; field; auto). rewrite Rabs_mult, IY. fold iy. apply Rmult_le_compat_l; [lra|].
    eapply Rle_trans; [apply Rabs_triang|]. rewrite Rabs_mult, (Rabs_minus_sym d y). apply Rplus_le_compat; auto. apply Rmult_le_compat_l; auto using Rabs_pos. }
  assert (T2 : Rabs (x * v - x * / y) <= u32 * (Rabs x * iy)).
  { replace (x * v - x * / y) with (x * (v - / y)) by ring. rewrite Rabs_mult. replace (u32 * (Rabs x * iy)) with (Rabs x * (u32 * iy)) by ring. now apply Rmult_le_compat_l. }
  assert (XQ : Rabs x <= Rabs q * Rabs d + ec).
  { rewrite <- Rabs_mult. replace (q * d) with c by (unfold q; field; auto). replace x with ((x - c) + c) by ring. eapply Rle_trans; [apply Rabs_triang|]. lra. }
  assert (XI : Rabs x * iy <= iy * (Rabs q * Rabs d + ec)) by (rewrite Rmult_comm; apply Rmult_le_compat_l; lra).
  assert (XV : Rabs (x * v) <= (1 + u32) * (Rabs x * iy)) by (rewrite Rabs_mult; replace ((1 + u32) * (Rabs x * iy)) with (Rabs x * ((1 + u32) * iy)) by ring; apply Rmult_le_compat_l; auto).
  assert (G : u32 * (iy * (Rabs q * Rabs d + ec)) <= 0.13 * (iy * (ec + Rabs q * ed))).
  { replace (u32 * (iy * (Rabs q * Rabs d + ec))) with (iy * (Rabs q * (u32 * Rabs d) + u32 * ec)) by ring. replace (0.13 * (iy * (ec + Rabs q * ed))) with (iy * (Rabs q * (0.13 * ed) + 0.13 * ec)) by ring.
    apply Rmult_le_compat_l; [lra|]. apply Rplus_le_compat; [apply Rmult_le_compat_l; [apply Rabs_pos|lra]|apply Rmult_le_compat_r; auto; rewrite u32_val; lra]. }
  set (k := iy * (ec + Rabs q * ed)) in * .
  assert (K0 : 0 <= ec + Rabs q * ed) by (pose proof (Rabs_pos q); assert (0 <= Rabs q * ed) by nra; lra).
  assert (KK : k <= 2 * (ec + Rabs q * ed) / Rabs d). { unfold k, Rdiv. apply Rle_trans with (2 * / Rabs d * (ec + Rabs q * ed)); [now apply Rmult_le_compat_r|apply Req_le; ring]. }
  assert (K1 : 0 <= k) by (unfold k; nra).
  assert (S1 : Rabs (s - q) <= Rabs (s - x * v) + Rabs (x * v - x * / y) + Rabs (x * / y - q)).
  { replace (s - q) with ((s - x * v) + (x * v - x * / y) + (x * / y - q)) by ring. eapply Rle_trans; [apply Rabs_triang|]. apply Rplus_le_compat_r. apply Rabs_triang. }
  assert (UX : u32 * (Rabs x * iy) <= 0.13 * k) by (eapply Rle_trans; [|exact G]; apply Rmult_le_compat_l; lra).
  assert (UV : u32 * Rabs (x * v) <= 0.14 * k).
  { apply Rle_trans with (u32 * ((1 + u32) * (Rabs x * iy))); [apply Rmult_le_compat_l; lra|]. replace (u32 * ((1 + u32) * (Rabs x * iy))) with ((1 + u32) * (u32 * (Rabs x * iy))) by ring.
    apply Rle_trans with ((1 + u32) * (0.13 * k)); [apply Rmult_le_compat_l; lra|]. rewrite u32_val. lra. }
  assert (EE : eta <= bpow radix2 (-149)) by (apply bpow_le; lia).
  replace (3 * (ec + Rabs q * ed) / Rabs d) with (1.5 * (2 * (ec + Rabs q * ed) / Rabs d)) by (unfold Rdiv; lra). lra.
Qed.

(** graphene_matrix_inverse: when the determinant is clear of the threshold and of its own rounding error, every entry is the
    exact inverse's up to 3/|det| times the rounding errors of its cofactor and (relatively) of the determinant *)
Theorem C83_inverse : forall (BK : Backend b32) (m : mat b32), ieee_div BK -> upto_mat 30 m ->
  real feps + det_err m < Rabs (det 4 (ent m)) -> 2 * det_err m <= Rabs (det 4 (ent m)) ->
  exists n, matrix_inverse m = Some n /\ forall i j, (i < 4)%nat -> (j < 4)%nat ->
  let x := Props_MatX.adj (ent m) i j / det 4 (ent m) in
  within (3 * (cof_err m i j + Rabs x * det_err m) / Rabs (det 4 (ent m)) + bpow radix2 (-149)) (matrix_get_value n i j) x.
Proof.
  intros BK m IE U H1 H2. rewrite real_eps in H1. pose proof (det_within BK m U) as W. fold (det_err m) in W. pose proof W as [F Q]. apply near_abs in Q.
  destruct (inverse_eq BK m) as (n & En & Vn). { apply eps_le; auto. lra. }
  exists n. split; auto. intros i j Hi Hj x. rewrite Vn by auto.
  assert (LD : lane_div fone (matrix_determinant m) = fdiv fone (matrix_determinant m)).
  { unfold lane_div. destruct BK as [ie| |s4 fm rcp rsq|rec rsq sq]; cbv [backend]; auto; [|destruct IE]. replace (flt feps (fabs (matrix_determinant m))) with true; auto. symmetry. apply eps_lt; auto. lra. }
  rewrite LD. pose proof (cof_within BK m i j U Hi Hj) as C.
  assert (ND : det 4 (ent m) <> 0). { intros Z. rewrite Z, Rabs_R0 in * . unfold det_err, slack in * . pose proof (perm4_upto m U). rewrite Z, Rabs_R0 in * . pose proof (bpow_gt_0 radix2 (-80)). pose proof (bpow_gt_0 radix2 (-24)). nra. }
  replace x with (- Props_MatX.adj (ent m) i j / - det 4 (ent m)) by (unfold x; field; auto). rewrite <- (Rabs_Ropp (det 4 (ent m))).
  destruct (perm4_upto m U) as [P1 P2]. destruct (cof_upto m i j U Hi Hj) as [P3 P4]. pose proof (bpow_gt_0 radix2 (-80)). 
  apply quot_err; auto.
  - now rewrite Rabs_Ropp.
  - lra.
  - apply Rle_trans with (Rabs (det 4 (ent m)) + det_err m); [lra|]. unfold det_err, slack. assert (E1 : bpow radix2 (-80) <= bpow radix2 120) by (apply bpow_le; lia). change (bpow radix2 (-24)) with u32. rewrite u32_val.
    assert (E2 : bpow radix2 122 = 4 * bpow radix2 120) by (change 122%Z with (2 + 120)%Z; now rewrite bpow_plus). assert (E3 : bpow radix2 125 = 32 * bpow radix2 120) by (change 125%Z with (5 + 120)%Z; now rewrite bpow_plus).
    pose proof (bpow_gt_0 radix2 120). lra.
  - rewrite Rabs_Ropp. unfold det_err, slack. change (bpow radix2 (-24)) with u32. pose proof u32_pos. apply Rle_trans with (8.25 * u32 * perm 4 (aent m)); [apply Rmult_le_compat_l; lra|lra].
  - destruct C as [_ QC]. apply near_abs in QC. apply Rle_trans with (Rabs (Props_MatX.adj (ent m) i j) + cof_err m i j); [lra|]. unfold cof_err, slack. change (bpow radix2 (-24)) with u32. rewrite u32_val.
    assert (E1 : bpow radix2 (-110) <= / 2 * bpow radix2 93) by (change (/ 2) with (bpow radix2 (-1)); rewrite <- bpow_plus; apply bpow_le; lia).
    assert (E2 : bpow radix2 94 = 2 * bpow radix2 93) by (change 94%Z with (1 + 93)%Z; now rewrite bpow_plus). pose proof (bpow_gt_0 radix2 93). lra.
Qed.

(** ** non-vacuity: a translation by (1,1,1) *)
Definition tr111 : mat b32 := M4 (V4 fone fzero fzero fzero) (V4 fzero fone fzero fzero) (V4 fzero fzero fone fzero) (V4 fone fone fone fone).
Lemma zero_real : real fzero = 0. Proof. apply fin_of_X, fzero_X. Qed.
Lemma zero_upto k : upto k fzero.
Proof. split; [apply fin_of_X with 0; apply fzero_X|]. rewrite zero_real, Rabs_R0. apply bpow_ge_0. Qed.
Example C83_inverse_ex : upto_mat 30 tr111 /\ det 4 (ent tr111) = 1 /\ real feps + det_err tr111 < Rabs (det 4 (ent tr111)) /\ 2 * det_err tr111 <= Rabs (det 4 (ent tr111)) /\
  Props_MatX.adj (ent tr111) 3%nat 0%nat / det 4 (ent tr111) = -1.
Proof.
  assert (D : det 4 (ent tr111) = 1). { rewrite RMat.det4. cbv zeta. unfold ent; cbn. rewrite one_real, zero_real. ring. }
  assert (PP : perm 4 (aent tr111) = 1). { cbn. unfold aent, ent; cbn. rewrite one_real, zero_real, Rabs_R1, Rabs_R0. ring. }
  assert (E : det_err tr111 <= / 1000). { unfold det_err. rewrite PP. unfold slack. change (bpow radix2 (-24)) with u32. rewrite u32_val. assert (bpow radix2 (-80) <= bpow radix2 (-20)) by (apply bpow_le; lia). change (bpow radix2 (-20)) with (/ 1048576) in * . lra. }
  split; [|split; [auto|split; [|split]]].
  - unfold upto_mat, upto4, upto3, tr111; cbn [mx my mz mw vx vy vz vw]. pose proof (zero_upto 30). pose proof (one_upto 30 ltac:(lia)). tauto.
  - rewrite D, Rabs_R1, real_eps. lra.
  - rewrite D, Rabs_R1. lra.
  - rewrite D. unfold Props_MatX.adj. rewrite RMat.det3. cbv zeta. unfold ent; cbn. rewrite one_real, zero_real. field.
Qed.

(** ** rotation matrices of quaternions *)
(** the textbook matrix of the quaternion (x,y,z,w), for row vectors *)
Definition rotm (x y z w : R) (r c : nat) : R :=
  match r, c with
  | 0%nat, 0%nat => 1 - 2 * (y * y + z * z) | 0%nat, 1%nat => 2 * (x * y + w * z)     | 0%nat, 2%nat => 2 * (x * z - w * y)
  | 1%nat, 0%nat => 2 * (x * y - w * z)     | 1%nat, 1%nat => 1 - 2 * (x * x + z * z) | 1%nat, 2%nat => 2 * (y * z + w * x)
  | 2%nat, 0%nat => 2 * (x * z + w * y)     | 2%nat, 1%nat => 2 * (y * z - w * x)     | 2%nat, 2%nat => 1 - 2 * (x * x + y * y)
  | 3%nat, 3%nat => 1 | _, _ => 0 end.
Lemma two_real : real ftwo = 2. Proof. apply fin_of_X, ftwo_X. Qed.
Lemma two_upto k : (1 <= k)%Z -> upto k ftwo.
Proof. intros H. split; [apply fin_of_X with 2; apply ftwo_X|]. rewrite two_real, Rabs_pos_eq by lra. change 2 with (bpow radix2 1). now apply bpow_le. Qed.
Lemma slack_mono n s s' t : 0 <= n -> s <= s' -> slack n s t <= slack n s' t.
Proof. intros N H. unfold slack. apply Rplus_le_compat_r, Rmult_le_compat_l; auto. apply Rmult_le_pos; auto. apply bpow_ge_0. Qed.
Lemma within_weak e e' x t : within e x t -> e <= e' -> within e' x t.
Proof. intros [F Q] H. split; auto. lra. Qed.
Lemma slack_pos n s t : 0 <= n -> 0 <= s -> 0 <= slack n s t.
Proof. intros. unfold slack. pose proof (bpow_ge_0 radix2 (-24)). pose proof (bpow_ge_0 radix2 t). assert (0 <= n * bpow radix2 (-24) * s) by (repeat apply Rmult_le_pos; auto). lra. Qed.
Ltac tsl T := pose proof (one_upto 40 ltac:(lia)); pose proof (two_upto 40 ltac:(lia));
  apply (to_slack 40%Z false T); [lia|cbn [ds leaves]; unfold le_B; unfold upto in * ; tauto|cbn; lia|vm_compute; congruence|vm_compute; congruence|cbn; lra
    |cbn [ds aev]; rewrite ?one_real, ?two_real, ?Rabs_R1, ?(Rabs_pos_eq 2) by lra; try reflexivity|cbn [ds rev]; rewrite ?one_real, ?two_real; reflexivity|vm_compute; congruence].
Theorem C83_quaternion_to_matrix : forall (q : quat b32) (r c : nat), uptoq 40 q -> (r < 4)%nat -> (c < 4)%nat ->
  let x := real (qx q) in let y := real (qy q) in let z := real (qz q) in let w := real (qw q) in
  within (slack 4.25 (1 + 2 * (x * x + y * y + z * z + w * w)) (-100)) (matrix_get_value (quaternion_to_matrix q) r c) (rotm x y z w r c).
Proof.
  intros q r c (X & Y & Z & W) Hr Hc x y z w.
  assert (SQ : forall t : R, Rabs t * Rabs t = t * t) by (intros t; rewrite <- Rabs_mult; apply Rabs_pos_eq; nra).
  assert (D : forall a b : b32, upto 40 a -> upto 40 b -> real a * real a + real b * real b <= x * x + y * y + z * z + w * w ->
    within (slack 4.25 (1 + 2 * (x * x + y * y + z * z + w * w)) (-100)) (fsub fone (fmul ftwo (fadd (fmul a a) (fmul b b)))) (1 - 2 * (real a * real a + real b * real b))).
  { intros a b A B H. eapply within_weak; [|apply slack_mono with (s := 1 + 2 * (real a * real a + real b * real b)); lra].
    tsl (XS (XL fone) (XM (XL ftwo) (XP (XM (XL a) (XL a)) (XM (XL b) (XL b))))). now rewrite !SQ. }
  assert (O : forall (f : bool) (a b c d : b32), upto 40 a -> upto 40 b -> upto 40 c -> upto 40 d -> real a * real a + real b * real b + real c * real c + real d * real d = x * x + y * y + z * z + w * w ->
    within (slack 4.25 (1 + 2 * (x * x + y * y + z * z + w * w)) (-100)) (fmul ftwo ((if f then fadd else fsub) (fmul a b) (fmul c d))) (2 * ((if f then Rplus else Rminus) (real a * real b) (real c * real d)))).
  { intros f a b c0 d A B C0 D0 H.
    assert (K : 2 * (Rabs (real a) * Rabs (real b) + Rabs (real c0) * Rabs (real d)) <= 1 + 2 * (x * x + y * y + z * z + w * w)).
    { pose proof (SQ (real a)). pose proof (SQ (real b)). pose proof (SQ (real c0)). pose proof (SQ (real d)).
      assert (TW : forall s t, 2 * (s * t) <= s * s + t * t) by (intros s t; pose proof (pow2_ge_0 (s - t)); lra).
      pose proof (TW (Rabs (real a)) (Rabs (real b))). pose proof (TW (Rabs (real c0)) (Rabs (real d))).
      assert (P0 : 0 <= x * x + y * y + z * z + w * w) by nra. rewrite <- H in * . lra. }
    eapply within_weak; [|apply slack_mono; [|exact K]; lra].
    destruct f; [tsl (XM (XL ftwo) (XP (XM (XL a) (XL b)) (XM (XL c0) (XL d))))|tsl (XM (XL ftwo) (XS (XM (XL a) (XL b)) (XM (XL c0) (XL d))))]. }
  assert (Zr : within (slack 4.25 (1 + 2 * (x * x + y * y + z * z + w * w)) (-100)) fzero 0).
  { split; [apply (zero_upto 0)|]. rewrite zero_real, Rminus_0_r, Rabs_R0. apply slack_pos; [lra|]. nra. }
  assert (Or : within (slack 4.25 (1 + 2 * (x * x + y * y + z * z + w * w)) (-100)) fone 1).
  { split; [apply (one_upto 0); lia|]. rewrite one_real. replace (1 - 1) with 0 by ring. rewrite Rabs_R0. apply slack_pos; [lra|]. nra. }
  assert (S1 : 0 <= x * x) by nra. assert (S2 : 0 <= y * y) by nra. assert (S3 : 0 <= z * z) by nra. assert (S4 : 0 <= w * w) by nra.
  unfold quaternion_to_matrix.
  do 4 (destruct r as [|r]; [do 4 (destruct c as [|c]; [cbv [matrix_get_value matrix_get_row Nat.ltb Nat.leb orb mx my mz mw g_get g_get_x g_get_y g_get_z g_get_w g_init vx vy vz vw rotm];
    first [exact Zr|exact Or|apply D; auto; fold x y z w; lra|apply (O true); auto; fold x y z w; ring|apply (O false); auto; fold x y z w; ring]|]); lia|]). lia.
Qed.
