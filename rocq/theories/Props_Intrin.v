(** * Props_Intrin (C78): the vector instruction sequences compute what the back end's
    lane-wise description says, on every register content. *)
From Coq Require Import ZArith Bool List Lia.
From Flocq Require Import Core BinarySingleNaN.
From Verif Require Import Num Simd Mat Neon OrdThy B32Setup Intrin.
Import ListNotations.
Local Open Scope Z_scope.

(** ** facts about words *)
Lemma val_sf w : B2SF (val w) = decode w.
Proof. unfold val. apply B2SF_SF2B. Qed.
Lemma val_ext w w' : decode w = decode w' -> val w = val w'.
Proof. intros H. apply B2SF_inj. rewrite !val_sf. exact H. Qed.
Lemma val_is w x : decode w = B2SF x -> val w = x.
Proof. intros H. apply B2SF_inj. rewrite val_sf. exact H. Qed.
Lemma val_0 : val 0 = fzero.
Proof. apply val_is. reflexivity. Qed.
Lemma val_two : val 0x40000000 = ftwo.
Proof. apply val_is. vm_compute. reflexivity. Qed.
Lemma val_half : val 0x3f000000 = fhalf.
Proof. apply val_is. vm_compute. reflexivity. Qed.
Lemma val_three : val 0x40400000 = fthree.
Proof. apply val_is. vm_compute. reflexivity. Qed.
(** only the 32 low bits count *)
Lemma val_low w : val (Z.land w ones) = val w.
Proof.
  apply val_ext. unfold decode.
  replace (w_sign (Z.land w ones)) with (w_sign w)
    by (unfold w_sign; rewrite Z.land_spec; change (Z.testbit ones 31) with true; now rewrite andb_true_r).
  replace (w_exp (Z.land w ones)) with (w_exp w)
    by (unfold w_exp; rewrite Z.shiftr_land, <- Z.land_assoc; reflexivity).
  replace (w_frac (Z.land w ones)) with (w_frac w)
    by (unfold w_frac; rewrite <- Z.land_assoc; reflexivity).
  reflexivity.
Qed.
(** flipping bit 31 negates, NaN included *)
Lemma val_flip w : val (Z.lxor w 0x80000000) = fneg (val w).
Proof.
  apply val_is. change (@fneg b32 _) with (@Bopp 24 128).
  assert (H : B2SF (Bopp (val w)) = SpecFloat.SFopp (B2SF (val w))) by (destruct (val w); reflexivity).
  rewrite H, val_sf. unfold decode.
  replace (w_sign (Z.lxor w 0x80000000)) with (negb (w_sign w))
    by (unfold w_sign; rewrite Z.lxor_spec; change (Z.testbit 0x80000000 31) with true;
        destruct (Z.testbit w 31); reflexivity).
  replace (w_exp (Z.lxor w 0x80000000)) with (w_exp w)
    by (unfold w_exp; rewrite Z.shiftr_lxor; change (Z.shiftr 0x80000000 23) with 256;
        apply Z.bits_inj'; intros n N; rewrite !Z.land_spec, Z.lxor_spec;
        change 256 with (2 ^ 8); change 0xff with (Z.ones 8);
        destruct (Z.ltb_spec n 8);
        [ rewrite Z.pow2_bits_false by lia; now rewrite xorb_false_r
        | rewrite Z.ones_spec_high by lia; now rewrite !andb_false_r ]).
  replace (w_frac (Z.lxor w 0x80000000)) with (w_frac w)
    by (unfold w_frac; apply Z.bits_inj'; intros n N; rewrite !Z.land_spec, Z.lxor_spec;
        change 0x80000000 with (2 ^ 31); change 0x7fffff with (Z.ones 23);
        destruct (Z.ltb_spec n 23);
        [ rewrite Z.pow2_bits_false by lia; now rewrite xorb_false_r
        | rewrite Z.ones_spec_high by lia; now rewrite !andb_false_r ]).
  destruct (w_exp w =? 255).
  { destruct (w_frac w =? 0); reflexivity. }
  destruct (w_exp w =? 0).
  { destruct (w_frac w); reflexivity. }
  destruct (w_frac w + 8388608); reflexivity.
Qed.
Lemma val_lxor0 w : val (Z.lxor w 0) = val w.
Proof. now rewrite Z.lxor_0_r. Qed.
(** the only word read as +0 by the bit test of NEON's sqrt *)
Lemma decode_zero w : (Z.land w ones =? 0) = (feqb (val w) fzero && negb (fsignbit (val w))).
Proof.
  assert (S : B2SF (val w) = decode w) by apply val_sf.
  destruct (Z.eqb_spec (Z.land w ones) 0) as [E|E].
  - rewrite <- (val_low w), E. rewrite val_0. reflexivity.
  - symmetry. apply not_true_is_false. intros H. apply E. apply andb_true_iff in H. destruct H as [H1 H2].
    assert (D : decode w = SpecFloat.S754_zero false).
    { rewrite <- S. destruct (val w) as [s|s| |s m e B]; try discriminate H1.
      - destruct s; [discriminate H2|reflexivity].
      - destruct s; discriminate H1.
      - destruct s; discriminate H1. }
    unfold decode in D.
    destruct (w_exp w =? 255) eqn:E1. { destruct (w_frac w =? 0); discriminate D. }
    destruct (Z.eqb_spec (w_exp w) 0) as [E0|E0].
    2:{ destruct (w_frac w + 8388608); discriminate D. }
    pose proof (w_frac_range w) as FR.
    destruct (w_frac w) as [|p|p] eqn:FE; [|discriminate D|lia].
    injection D as D.
    apply Z.bits_inj'; intros n N. rewrite Z.land_spec, Z.bits_0.
    destruct (Z.ltb_spec n 23) as [L1|L1].
    { assert (T : Z.testbit (w_frac w) n = false) by (rewrite FE; apply Z.bits_0).
      unfold w_frac in T. rewrite Z.land_spec in T. change 0x7fffff with (Z.ones 23) in T.
      rewrite Z.ones_spec_low in T by lia. rewrite andb_true_r in T. now rewrite T. }
    destruct (Z.ltb_spec n 31) as [L2|L2].
    { assert (T : Z.testbit (w_exp w) (n - 23) = false) by (rewrite E0; apply Z.bits_0).
      unfold w_exp in T. rewrite Z.land_spec, Z.shiftr_spec in T by lia. change 0xff with (Z.ones 8) in T.
      rewrite Z.ones_spec_low in T by lia. rewrite andb_true_r in T.
      replace (n - 23 + 23) with n in T by lia. now rewrite T. }
    destruct (Z.eqb_spec n 31) as [->|L3].
    { unfold w_sign in D. now rewrite D. }
    change ones with (Z.ones 32). rewrite Z.ones_spec_high by lia. apply andb_false_r.
Qed.

(** ** every float is the reading of a word *)
(* a word for each float; proof device, no C counterpart *)
Definition encode (x : b32) : Z :=
  match x with
  | B754_zero s => if s then 0x80000000 else 0
  | B754_infinity s => if s then 0xff800000 else 0x7f800000
  | B754_nan => 0x7fc00000
  | B754_finite s m e _ =>
      (if s then 0x80000000 else 0)
      + (if Zpos m <? 0x800000 then Zpos m else (e + 150) * 0x800000 + (Zpos m - 0x800000))
  end.
Lemma fields (s : bool) (E M : Z) : 0 <= E < 256 -> 0 <= M < 0x800000 ->
  let w := (if s then 0x80000000 else 0) + (E * 0x800000 + M) in
  w_sign w = s /\ w_exp w = E /\ w_frac w = M.
Proof.
  intros HE HM w. unfold w_sign, w_exp, w_frac. repeat split.
  - apply eq_true_iff_eq. rewrite Z.testbit_true by lia. change (2 ^ 31) with 0x80000000.
    unfold w. destruct s; split; intros X; try reflexivity; try discriminate.
    + rewrite <- (Z.add_comm (E * 8388608 + M)).
      replace (E * 8388608 + M + 2147483648) with (E * 8388608 + M + 1 * 2147483648) by lia.
      rewrite Z.div_add by lia. rewrite (Z.div_small (E * 8388608 + M)) by lia. reflexivity.
    + rewrite Z.div_small in X by lia. discriminate X.
  - change 0xff with (Z.ones 8). rewrite Z.land_ones by lia. rewrite Z.shiftr_div_pow2 by lia.
    change (2 ^ 23) with 0x800000. change (2 ^ 8) with 256. unfold w.
    replace ((if s then 2147483648 else 0) + (E * 8388608 + M))
      with (M + ((if s then 256 else 0) + E) * 8388608) by (destruct s; lia).
    rewrite Z.div_add by lia. rewrite (Z.div_small M) by lia. rewrite Z.add_0_l.
    replace ((if s then 256 else 0) + E) with (E + (if s then 1 else 0) * 256) by (destruct s; lia).
    rewrite Z.mod_add by lia. apply Z.mod_small; lia.
  - change 0x7fffff with (Z.ones 23). rewrite Z.land_ones by lia. change (2 ^ 23) with 0x800000. unfold w.
    replace ((if s then 2147483648 else 0) + (E * 8388608 + M))
      with (M + ((if s then 256 else 0) + E) * 8388608) by (destruct s; lia).
    rewrite Z.mod_add by lia. apply Z.mod_small; lia.
Qed.
Theorem C78_every_float : forall x : b32, val (encode x) = x.
Proof.
  intros x. apply val_is. destruct x as [s|s| |s m e B].
  - destruct s; reflexivity.
  - destruct s; reflexivity.
  - reflexivity.
  - pose proof B as B'. unfold SpecFloat.bounded, SpecFloat.canonical_mantissa in B'.
    apply andb_true_iff in B'. destruct B' as [B1 B2].
    apply Zeq_bool_eq in B1. apply Zle_bool_imp_le in B2.
    unfold SpecFloat.fexp, SpecFloat.emin in B1.
    change (SpecFloat.digits2_pos m) with (Digits.digits2_pos m) in B1.
    rewrite Digits.Zpos_digits2_pos in B1.
    cbn [encode B2SF]. destruct (Z.ltb_spec (Zpos m) 0x800000) as [L|L].
    + assert (D : Zdigits radix2 (Zpos m) <= 23) by (apply Zdigits_le_Zpower; exact L).
      destruct (fields s 0 (Zpos m)) as (F1 & F2 & F3); [lia|lia|].
      rewrite Z.mul_0_l, Z.add_0_l in F1, F2, F3.
      unfold decode. rewrite F1, F2, F3. cbn. f_equal. lia.
    + assert (D : 23 < Zdigits radix2 (Zpos m)) by (apply Zdigits_gt_Zpower; exact L).
      assert (U : Zpos m < 2 ^ 24).
      { apply Z.lt_le_trans with (2 ^ Zdigits radix2 (Zpos m)).
        - pose proof (Zdigits_correct radix2 (Zpos m)) as C. apply C.
        - apply Z.pow_le_mono_r; lia. }
      destruct (fields s (e + 150) (Zpos m - 0x800000)) as (F1 & F2 & F3); [lia|lia|].
      unfold decode. rewrite F1, F2, F3.
      destruct (Z.eqb_spec (e + 150) 255); [lia|]. destruct (Z.eqb_spec (e + 150) 0); [lia|].
      replace (Zpos m - 8388608 + 8388608) with (Zpos m) by lia. f_equal. lia.
Qed.

(** ** SSE *)
Lemma movemask_all (p q r s : bool) :
  (mm_movemask (V4 (maskw p) (maskw q) (maskw r) (maskw s)) =? 0xffff) = p && q && r && s.
Proof. destruct p, q, r, s; reflexivity. Qed.
Lemma movemask_none (p q r s : bool) :
  (mm_movemask (V4 (maskw (negb p)) (maskw (negb q)) (maskw (negb r)) (maskw (negb s))) =? 0)
  = p && q && r && s.
Proof. destruct p, q, r, s; reflexivity. Qed.

(* list of words read as floats; no C counterpart *)
Notation mvals := (map val).

(** moving lanes is exact: whole words move, NaN payloads included, and only the
    lanes the name says *)
Theorem C78_sse_moves : forall x y z w p q r s v : Z,
  let a := V4 x y z w in let b := V4 p q r s in
  sse_splat_x a = V4 x x x x /\ sse_splat_y a = V4 y y y y /\
  sse_splat_z a = V4 z z z z /\ sse_splat_w a = V4 w w w w /\
  sse_shuffle_wxyz a = V4 w x y z /\ sse_shuffle_zwxy a = V4 z w x y /\
  sse_shuffle_yzwx a = V4 y z w x /\
  sse_zero_w a = V4 x y z 0 /\ sse_zero_zw a = V4 x y 0 0 /\ sse_merge_w a v = V4 x y z v /\
  sse_merge_high a b = V4 z w r s /\ sse_merge_low a b = V4 x y p q.
Proof. intros. repeat split; reflexivity. Qed.

Section Sse.
Context (h : sse_hw) (rcp rsq : b32 -> b32) (H : sse_ok h rcp rsq) (sse41 fma : bool).
Let BK : Backend b32 := Sse sse41 fma rcp rsq.
Local Existing Instance BK.

Theorem C78_sse_lanes : forall (a b : reg) (v : Z),
  vals (sse_splat v) = g_splat (val v) /\ vals sse_init_zero = g_init_zero /\
  vals (sse_splat_x a) = g_splat_x (vals a) /\ vals (sse_splat_y a) = g_splat_y (vals a) /\
  vals (sse_splat_z a) = g_splat_z (vals a) /\ vals (sse_splat_w a) = g_splat_w (vals a) /\
  vals (sse_shuffle_wxyz a) = g_shuffle_wxyz (vals a) /\
  vals (sse_shuffle_zwxy a) = g_shuffle_zwxy (vals a) /\
  vals (sse_shuffle_yzwx a) = g_shuffle_yzwx (vals a) /\
  vals (sse_zero_w a) = g_zero_w (vals a) /\ vals (sse_zero_zw a) = g_zero_zw (vals a) /\
  vals (sse_merge_w a v) = g_merge_w (vals a) (val v) /\
  vals (sse_merge_high a b) = g_merge_high (vals a) (vals b) /\
  vals (sse_merge_low a b) = g_merge_low (vals a) (vals b) /\
  (forall i, (i < 4)%nat -> val (sse_get a (Z.of_nat i)) = g_get (vals a) i).
Proof.
  intros [x y z w] [p q r s] v. unfold vals, g_init_zero, g_zero_w, g_zero_zw. cbn [vx vy vz vw].
  repeat split; try reflexivity; cbn; rewrite ?val_0; try reflexivity.
  intros i I. do 4 (destruct i as [|i]; [reflexivity|]). lia.
Qed.

Theorem C78_sse_memory : forall (s : reg) (m : list Z),
  option_map vals (sse_init_4f m) = g_init_4f (mvals m) /\
  option_map vals (sse_init_3f m) = g_init_3f (mvals m) /\
  option_map vals (sse_init_2f m) = g_init_2f (mvals m) /\
  option_map mvals (sse_dup_4f s m) = g_dup_4f (vals s) (mvals m) /\
  option_map mvals (sse_dup_3f s m) = g_dup_3f (vals s) (mvals m) /\
  option_map mvals (sse_dup_2f s m) = g_dup_2f (vals s) (mvals m).
Proof.
  intros [x y z w] m.
  destruct m as [|a [|b [|c [|d m]]]]; repeat split; cbn; unfold vals; cbn; rewrite ?val_0; reflexivity.
Qed.

Theorem C78_sse_arith : forall a b : reg,
  vals (sse_add h a b) = g_add (vals a) (vals b) /\
  vals (sse_sub h a b) = g_sub (vals a) (vals b) /\
  vals (sse_mul h a b) = g_mul (vals a) (vals b) /\
  vals (sse_div h a b) = g_div (vals a) (vals b) /\
  vals (sse_sqrt h a) = g_sqrt (vals a).
Proof.
  intros a b. unfold vals, g_add, g_sub, g_mul, g_div, g_sqrt, map1, map2. cbn.
  rewrite !(ok_add _ _ _ H), !(ok_sub _ _ _ H), !(ok_mul _ _ _ H), !(ok_div _ _ _ H), !(ok_sqrt _ _ _ H).
  repeat split; reflexivity.
Qed.

Lemma val_andnot (t : bool) (s : Z) :
  val (Z.land (Z.lxor (maskw t) ones) s) = if t then fzero else val s.
Proof.
  destruct t; cbn [maskw].
  - rewrite Z.lxor_nilpotent, Z.land_0_l. apply val_0.
  - rewrite Z.lxor_0_l, Z.land_comm. apply val_low.
Qed.

Theorem C78_sse_estimates : forall v : reg,
  vals (sse_reciprocal h v) = g_reciprocal (vals v) /\
  vals (sse_rsqrt h v) = g_rsqrt (vals v).
Proof.
  intros v. unfold vals, g_reciprocal, g_rsqrt, map1, lane_reciprocal, lane_rsqrt,
    sse_reciprocal, sse_rsqrt, sse_mul, sse_sub, mm_mul, mm_sub, mm_andnot, mm_cmp, lift1, lift2, backend, BK, sse_init.
  cbn [vx vy vz vw].
  repeat first [ rewrite (ok_mul _ _ _ H) | rewrite (ok_sub _ _ _ H) | rewrite val_andnot
    | rewrite val_0 | rewrite val_two | rewrite val_half | rewrite val_three
    | rewrite (ok_rcp _ _ _ H) | rewrite (ok_rsq _ _ _ H) ].
  split; reflexivity.
Qed.

Theorem C78_sse_cross3 : forall a b : reg, vals (sse_cross3 h a b) = g_cross3 (vals a) (vals b).
Proof.
  intros a b. unfold vals, g_cross3, sse_cross3, mm_sub, mm_mul, lift2, backend, BK. cbn.
  rewrite !(ok_sub _ _ _ H), !(ok_mul _ _ _ H). reflexivity.
Qed.

Theorem C78_sse_dot3 : forall a b : reg,
  vals (sse_dot3 h sse41 a b) = g_dot3 (vals a) (vals b) /\
  val (sse_dot3_scalar h sse41 a b) = g_dot3_scalar (vals a) (vals b).
Proof.
  intros a b. unfold sse_dot3_scalar, sse_dot3, g_dot3, g_dot3_scalar, g_splat, backend, BK.
  destruct sse41; unfold vals; cbn; fold ones;
    repeat first [ rewrite (ok_add _ _ _ H) | rewrite (ok_mul _ _ _ H) | rewrite Z.land_0_r
      | rewrite val_0 | rewrite val_low ]; split; reflexivity.
Qed.

Theorem C78_sse_minmax : forall a b : reg,
  vals (sse_min a b) = g_min (vals a) (vals b) /\ vals (sse_max a b) = g_max (vals a) (vals b).
Proof.
  intros a b. unfold vals, g_min, g_max, map2, lane_min, lane_max, backend, BK. cbn.
  split; f_equal;
    match goal with |- val (if ?c then _ else _) = _ => destruct c; reflexivity end.
Qed.

Theorem C78_sse_signs : forall a : reg,
  vals (sse_flip_sign_0101 a) = g_flip_sign_0101 (vals a) /\
  vals (sse_flip_sign_1010 a) = g_flip_sign_1010 (vals a) /\
  vals (sse_neg a) = g_neg (vals a).
Proof.
  intros a. unfold vals, g_flip_sign_0101, g_flip_sign_1010, g_neg, map1, lane_neg, backend, BK,
    sse_flip_sign_0101, sse_flip_sign_1010, sse_neg, mm_xor, lift2.
  cbn [vx vy vz vw]. rewrite !val_flip, !val_lxor0. repeat split; reflexivity.
Qed.

Theorem C78_sse_compare : forall a b : reg,
  sse_cmp_eq a b = g_cmp_eq (vals a) (vals b) /\
  sse_cmp_neq a b = g_cmp_neq (vals a) (vals b) /\
  sse_cmp_lt a b = g_cmp_lt (vals a) (vals b) /\
  sse_cmp_le a b = g_cmp_le (vals a) (vals b) /\
  sse_cmp_ge a b = g_cmp_ge (vals a) (vals b) /\
  sse_cmp_gt a b = g_cmp_gt (vals a) (vals b).
Proof.
  intros a b. unfold sse_cmp_eq, sse_cmp_neq, sse_cmp_lt, sse_cmp_le, sse_cmp_ge, sse_cmp_gt, mm_cmp, lift2.
  rewrite !movemask_all, !movemask_none.
  unfold g_cmp_eq, g_cmp_neq, g_cmp_lt, g_cmp_le, g_cmp_ge, g_cmp_gt, all2, lane_eq, backend, BK, vals. cbn [vx vy vz vw].
  repeat split; try reflexivity. now rewrite !negb_andb.
Qed.

Theorem C78_sse_round_madd : forall a b c : reg,
  vals (sse_ceil h a) = g_ceil (vals a) /\ vals (sse_floor h a) = g_floor (vals a) /\
  vals (sse_madd h fma a b c) = g_madd (vals a) (vals b) (vals c).
Proof.
  intros a b c. unfold vals, g_ceil, g_floor, map1, g_madd, g_add, g_mul, map2, sse_madd, backend, BK.
  destruct fma; cbn; rewrite !(ok_ceil _ _ _ H), !(ok_floor _ _ _ H);
    [rewrite !(ok_fma _ _ _ H)|rewrite !(ok_add _ _ _ H), !(ok_mul _ _ _ H)];
    repeat split; reflexivity.
Qed.
End Sse.

(** both expansions of _MM_TRANSPOSE4_PS, NEON's and GCC's code transpose, word by word *)
(* entry (i, j) of a matrix of words *)
Definition went (m : mat Z) (i j : Z) : Z :=
  lane (match Z.land i 3 with 0 => mx m | 1 => my m | 2 => mz m | _ => mw m end) j.
Lemma bit4 i (P : Z -> Prop) : 0 <= i < 4 -> P 0 -> P 1 -> P 2 -> P 3 -> P i.
Proof. intros I ? ? ? ?. assert (E : i = 0 \/ i = 1 \/ i = 2 \/ i = 3) by lia. destruct E as [->|[->|[->| ->]]]; assumption. Qed.
Theorem C78_transpose : forall (m : mat Z) (i j : Z), 0 <= i < 4 -> 0 <= j < 4 ->
  went (sse_transpose_gcc m) i j = went m j i /\
  went (sse_transpose_msvc m) i j = went m j i /\
  went (neon_transpose m) i j = went m j i.
Proof.
  intros m i j I J. revert j J. pattern i. apply bit4; [assumption| | | |];
    intros j J; pattern j; (apply bit4; [assumption| | | |]); repeat split; reflexivity.
Qed.

(** ** NEON *)
Lemma all_set_maskw (p q r s : bool) :
  all_set (V4 (maskw p) (maskw q) (maskw r) (maskw s)) = p && q && r && s.
Proof. destruct p, q, r, s; reflexivity. Qed.

Theorem C78_neon_moves : forall x y z w p q r s v : Z,
  let a := V4 x y z w in let b := V4 p q r s in
  neon_splat_x a = V4 x x x x /\ neon_splat_y a = V4 y y y y /\
  neon_splat_z a = V4 z z z z /\ neon_splat_w a = V4 w w w w /\
  neon_shuffle_wxyz a = V4 w x y z /\ neon_shuffle_zwxy a = V4 z w x y /\
  neon_shuffle_yzwx a = V4 y z w x /\
  neon_zero_w a = V4 x y z 0 /\ neon_zero_zw a = V4 x y 0 0 /\ neon_merge_w a v = V4 x y z v /\
  neon_merge_high a b = V4 z w r s /\ neon_merge_low a b = V4 x y p q.
Proof. intros. repeat split; reflexivity. Qed.

Section NeonB.
Context (h : neon_hw) (fused : bool) (rece rsqe : b32 -> b32) (H : neon_ok h fused rece rsqe).
Let BK : Backend b32 := neon fused rece rsqe.
Local Existing Instance BK.

Theorem C78_neon_lanes : forall (a b : reg) (v : Z),
  vals (neon_splat v) = g_splat (val v) /\ vals neon_init_zero = g_init_zero /\
  vals (neon_splat_x a) = g_splat_x (vals a) /\ vals (neon_splat_y a) = g_splat_y (vals a) /\
  vals (neon_splat_z a) = g_splat_z (vals a) /\ vals (neon_splat_w a) = g_splat_w (vals a) /\
  vals (neon_shuffle_wxyz a) = g_shuffle_wxyz (vals a) /\
  vals (neon_shuffle_zwxy a) = g_shuffle_zwxy (vals a) /\
  vals (neon_shuffle_yzwx a) = g_shuffle_yzwx (vals a) /\
  vals (neon_zero_w a) = g_zero_w (vals a) /\ vals (neon_zero_zw a) = g_zero_zw (vals a) /\
  vals (neon_merge_w a v) = g_merge_w (vals a) (val v) /\
  vals (neon_merge_high a b) = g_merge_high (vals a) (vals b) /\
  vals (neon_merge_low a b) = g_merge_low (vals a) (vals b) /\
  (forall i, (i < 4)%nat -> val (neon_get a (Z.of_nat i)) = g_get (vals a) i).
Proof.
  intros [x y z w] [p q r s] v. unfold vals, g_init_zero, g_zero_w, g_zero_zw. cbn [vx vy vz vw].
  repeat split; try reflexivity; cbn; rewrite ?val_0; try reflexivity.
  intros i I. do 4 (destruct i as [|i]; [reflexivity|]). lia.
Qed.

Theorem C78_neon_memory : forall (s : reg) (m : list Z),
  option_map vals (neon_init_4f m) = g_init_4f (mvals m) /\
  option_map vals (neon_init_3f m) = g_init_3f (mvals m) /\
  option_map vals (neon_init_2f m) = g_init_2f (mvals m) /\
  option_map mvals (neon_dup_4f s m) = g_dup_4f (vals s) (mvals m) /\
  option_map mvals (neon_dup_3f s m) = g_dup_3f (vals s) (mvals m) /\
  option_map mvals (neon_dup_2f s m) = g_dup_2f (vals s) (mvals m).
Proof.
  intros [x y z w] m.
  destruct m as [|a [|b [|c [|d m]]]]; repeat split; cbn; unfold vals; cbn; rewrite ?val_0; reflexivity.
Qed.

Theorem C78_neon_arith : forall a b : reg,
  vals (neon_add h a b) = g_add (vals a) (vals b) /\
  vals (neon_sub h a b) = g_sub (vals a) (vals b) /\
  vals (neon_mul h a b) = g_mul (vals a) (vals b).
Proof.
  intros a b. unfold vals, g_add, g_sub, g_mul, map2. cbn.
  rewrite !(no_add _ _ _ _ H), !(no_sub _ _ _ _ H), !(no_mul _ _ _ _ H).
  repeat split; reflexivity.
Qed.

(** one lane of the estimate sequences *)
(* one lane of the reciprocal sequence, on words *)
Definition rec_w (s : Z) : Z :=
  let est := n_rece h s in let est := n_mul h (n_recps h est s) est in n_mul h (n_recps h est s) est.
Lemma neon_rec_lane s : val (rec_w s) = neon_reciprocal fused rece (val s).
Proof.
  unfold rec_w, neon_reciprocal. cbv zeta.
  repeat first [ rewrite (no_mul _ _ _ _ H) | rewrite (no_recps _ _ _ _ H) | rewrite (no_rece _ _ _ _ H) ].
  reflexivity.
Qed.
Lemma neonr_reciprocal_eq s : neonr_reciprocal h s = lift1 rec_w s.
Proof. reflexivity. Qed.
Lemma neon_iter_lane v e : val (n_mul h e (n_rsqrts h (n_mul h e v) e)) = neon_rsqrt_iter fused (val v) (val e).
Proof. now rewrite (no_mul _ _ _ _ H), (no_rsqrts _ _ _ _ H), (no_mul _ _ _ _ H). Qed.
(* one lane of the rsqrt sequence, on words *)
Definition rsq_w (s : Z) : Z :=
  let it v e := n_mul h e (n_rsqrts h (n_mul h e v) e) in
  it s (it s (it s (n_rsqe h s))).
Lemma neon_rsq_lane s : val (rsq_w s) = neon_rsqrt fused rsqe (val s).
Proof. unfold rsq_w, neon_rsqrt. cbv zeta. now rewrite !neon_iter_lane, (no_rsqe _ _ _ _ H). Qed.
Lemma neonr_rsqrt_eq s : neonr_rsqrt h s = lift1 rsq_w s.
Proof. reflexivity. Qed.

Theorem C78_neon_estimates : forall a b : reg,
  vals (neonr_reciprocal h a) = g_reciprocal (vals a) /\
  vals (neon_div h a b) = g_div (vals a) (vals b) /\
  vals (neonr_rsqrt h a) = g_rsqrt (vals a) /\
  vals (neonr_sqrt h a) = g_sqrt (vals a).
Proof.
  intros a b.
  assert (T : forall s w, val (Z.land (maskw (negb (Z.land (Z.land s s) ones =? 0))) w)
    = if (feqb (val s) fzero && negb (fsignbit (val s)))%bool then fzero else val w).
  { intros s w. rewrite Z.land_diag, decode_zero.
    destruct (feqb (val s) fzero && negb (fsignbit (val s)))%bool; cbn [negb maskw].
    - apply val_0.
    - rewrite Z.land_comm. apply val_low. }
  unfold neon_div, neonr_sqrt. rewrite !neonr_rsqrt_eq, !neonr_reciprocal_eq.
  unfold vals, g_reciprocal, g_div, g_rsqrt, g_sqrt, map1, map2, lane_reciprocal, lane_rsqrt, lane_div, lane_sqrt,
    backend, BK, neon, neon_sqrt, vmulq, vandq, vtstq, lift1, lift2. cbn [vx vy vz vw].
  rewrite !T, !(no_mul _ _ _ _ H), !neon_rec_lane, !neon_rsq_lane. repeat split; reflexivity.
Qed.

Theorem C78_neon_cross3 : forall a b : reg, vals (neon_cross3 h a b) = g_cross3 (vals a) (vals b).
Proof.
  intros a b. unfold vals, g_cross3, neon_cross3, backend, BK, neon. cbn. fold ones.
  rewrite !val_low, Z.land_0_r, val_0, !(no_sub _ _ _ _ H), !(no_mul _ _ _ _ H). reflexivity.
Qed.

Theorem C78_neon_dot3 : forall a b : reg,
  vals (neon_dot3 h a b) = g_dot3 (vals a) (vals b) /\
  val (neon_dot3_scalar h a b) = g_dot3_scalar (vals a) (vals b).
Proof.
  intros a b. unfold vals, g_dot3, g_dot3_scalar, g_splat, backend, BK, neon. cbn.
  rewrite !(no_add _ _ _ _ H), !(no_mul _ _ _ _ H). split; reflexivity.
Qed.

Theorem C78_neon_minmax : forall a b : reg,
  vals (neon_min h a b) = g_min (vals a) (vals b) /\ vals (neon_max h a b) = g_max (vals a) (vals b).
Proof.
  intros a b. unfold vals, g_min, g_max, map2, lane_min, lane_max, backend, BK, neon. cbn [vx vy vz vw neon_min neon_max lift2].
  rewrite !(no_min _ _ _ _ H), !(no_max _ _ _ _ H). split; reflexivity.
Qed.

Theorem C78_neon_signs : forall a : reg,
  vals (neon_flip_sign_0101 a) = g_flip_sign_0101 (vals a) /\
  vals (neon_flip_sign_1010 a) = g_flip_sign_1010 (vals a) /\
  vals (neon_neg a) = g_neg (vals a).
Proof.
  intros a. unfold vals, g_flip_sign_0101, g_flip_sign_1010, g_neg, map1, lane_neg, backend, BK, neon,
    neon_flip_sign_0101, neon_flip_sign_1010, neon_neg, veorq, lift2.
  cbn [vx vy vz vw]. rewrite !val_flip, !val_lxor0. repeat split; reflexivity.
Qed.

Theorem C78_neon_compare : forall a b : reg,
  neon_cmp_eq a b = g_cmp_eq (vals a) (vals b) /\
  neon_cmp_neq a b = g_cmp_neq (vals a) (vals b) /\
  neon_cmp_lt a b = g_cmp_lt (vals a) (vals b) /\
  neon_cmp_le a b = g_cmp_le (vals a) (vals b) /\
  neon_cmp_ge a b = g_cmp_ge (vals a) (vals b) /\
  neon_cmp_gt a b = g_cmp_gt (vals a) (vals b).
Proof.
  intros a b. unfold neon_cmp_eq, neon_cmp_neq, neon_cmp_lt, neon_cmp_le, neon_cmp_ge, neon_cmp_gt, vcmpq, lift2.
  rewrite !all_set_maskw.
  unfold g_cmp_eq, g_cmp_neq, g_cmp_lt, g_cmp_le, g_cmp_ge, g_cmp_gt, all2, lane_eq, backend, BK, neon, vals. cbn [vx vy vz vw].
  repeat split; try reflexivity.
  cbv zeta. unfold lane. cbn [vx vy vz vw Z.land Pos.land].
  destruct (feqb (val (vx a)) (val (vx b))), (feqb (val (vy a)) (val (vy b))),
    (feqb (val (vz a)) (val (vz b))), (feqb (val (vw a)) (val (vw b))); reflexivity.
Qed.

Theorem C78_neon_round_madd : forall a b c : reg,
  vals (neon_ceil h a) = g_ceil (vals a) /\ vals (neon_floor h a) = g_floor (vals a) /\
  vals (neon_madd h a b c) = g_madd (vals a) (vals b) (vals c).
Proof.
  intros a b c. unfold vals, g_ceil, g_floor, map1, g_madd, g_add, g_mul, map2, backend, BK, neon. cbn.
  rewrite !(no_ceil _ _ _ _ H), !(no_floor _ _ _ _ H), !(no_add _ _ _ _ H), !(no_mul _ _ _ _ H).
  repeat split; reflexivity.
Qed.
End NeonB.

(** ** GCC vector extensions *)
Section GccB.
Let BK : Backend b32 := Gcc.
Local Existing Instance BK.
Notation V := (simd4f b32).

Theorem C78_gcc_lanes : forall (a b : V) (v : b32),
  gcc_splat v = g_splat v /\ gcc_init_zero = g_init_zero /\
  gcc_splat_x a = g_splat_x a /\ gcc_splat_y a = g_splat_y a /\
  gcc_splat_z a = g_splat_z a /\ gcc_splat_w a = g_splat_w a /\
  gcc_shuffle_wxyz a = V4 (vw a) (vx a) (vy a) (vz a) /\
  gcc_shuffle_zwxy a = V4 (vz a) (vw a) (vx a) (vy a) /\
  gcc_shuffle_yzwx a = V4 (vy a) (vz a) (vw a) (vx a) /\
  gcc_zero_w a = V4 (vx a) (vy a) (vz a) fzero /\ gcc_zero_zw a = V4 (vx a) (vy a) fzero fzero /\
  gcc_merge_w a v = V4 (vx a) (vy a) (vz a) v /\
  gcc_merge_high a b = V4 (vz a) (vw a) (vz b) (vw b) /\
  gcc_merge_low a b = V4 (vx a) (vy a) (vx b) (vy b) /\
  gcc_flip_sign_0101 a = g_flip_sign_0101 a /\ gcc_flip_sign_1010 a = g_flip_sign_1010 a.
Proof. intros. repeat split; reflexivity. Qed.

Theorem C78_gcc_arith : forall a b c : V,
  gcc_add a b = g_add a b /\ gcc_sub a b = g_sub a b /\ gcc_mul a b = g_mul a b /\
  gcc_div a b = g_div a b /\ gcc_madd a b c = g_madd a b c /\ gcc_neg a = g_neg a /\
  gcc_reciprocal a = g_reciprocal a /\ gcc_sqrt a = g_sqrt a /\ gcc_rsqrt a = g_rsqrt a /\
  gcc_cross3 a b = g_cross3 a b /\ gcc_dot3 a b = g_dot3 a b /\ gcc_dot3_scalar a b = g_dot3_scalar a b /\
  gcc_min a b = g_min a b /\ gcc_max a b = g_max a b /\
  gcc_ceil a = g_ceil a /\ gcc_floor a = g_floor a.
Proof.
  intros. repeat split; try reflexivity.
  assert (N : forall x y z : b32, (if negb (feqb x fzero) then y else z) = if feqb x fzero then z else y)
    by (intros x y z; destruct (feqb x fzero); reflexivity).
  unfold gcc_rsqrt, gcc_init. rewrite !N. reflexivity.
Qed.

Theorem C78_gcc_compare : forall a b : V,
  gcc_cmp_eq a b = g_cmp_eq a b /\ gcc_cmp_neq a b = g_cmp_neq a b /\
  gcc_cmp_lt a b = g_cmp_lt a b /\ gcc_cmp_le a b = g_cmp_le a b /\
  gcc_cmp_ge a b = g_cmp_ge a b /\ gcc_cmp_gt a b = g_cmp_gt a b.
Proof.
  intros a b.
  assert (T : forall t, gcc_cmp t a b = all2 t a b).
  { intros t. unfold gcc_cmp, all2, lift2, lane. cbn [vx vy vz vw Z.land Pos.land].
    destruct (t (vx a) (vx b)), (t (vy a) (vy b)), (t (vz a) (vz b)), (t (vw a) (vw b)); reflexivity. }
  unfold gcc_cmp_neq, gcc_cmp_eq, gcc_cmp_lt, gcc_cmp_le, gcc_cmp_ge, gcc_cmp_gt. rewrite !T.
  repeat split; try reflexivity.
  unfold all2, g_cmp_neq, lane_eq, backend, BK. now rewrite !negb_andb.
Qed.
End GccB.

Theorem C78_gcc_transpose : forall m : mat b32, gcc_transpose m = gm_transpose m.
Proof. reflexivity. Qed.

(** ** the hypotheses are met: a machine exists, for any estimates, and the sequences
    run on concrete registers *)
Theorem C78_sse_machine : forall rcp rsq, exists h, sse_ok h rcp rsq.
Proof.
  intros rcp rsq.
  exists (SseHw (fun a b => encode (fadd (val a) (val b))) (fun a b => encode (fsub (val a) (val b)))
    (fun a b => encode (fmul (val a) (val b))) (fun a b => encode (fdiv (val a) (val b)))
    (fun a b c => encode (ffma (val a) (val b) (val c))) (fun a => encode (fsqrt (val a)))
    (fun a => encode (fceil (val a))) (fun a => encode (ffloor (val a)))
    (fun a => encode (rcp (val a))) (fun a => encode (rsq (val a)))).
  constructor; intros; apply C78_every_float.
Qed.
Theorem C78_neon_machine : forall fused rece rsqe, exists h, neon_ok h fused rece rsqe.
Proof.
  intros fused rece rsqe.
  exists (NeonHw (fun a b => encode (fadd (val a) (val b))) (fun a b => encode (fsub (val a) (val b)))
    (fun a b => encode (fmul (val a) (val b))) (fun a b => encode (arm_min (val a) (val b)))
    (fun a b => encode (arm_max (val a) (val b))) (fun a b => encode (neon_recps fused (val a) (val b)))
    (fun a b => encode (neon_rsqrts fused (val a) (val b))) (fun a => encode (rece (val a)))
    (fun a => encode (rsqe (val a))) (fun a => encode (fceil (val a))) (fun a => encode (ffloor (val a)))).
  constructor; intros; apply C78_every_float.
Qed.
(* a register with 1, -0, NaN (with a payload) and infinity *)
Example C78_register :
  let a := V4 0x3f800000 0x80000000 0xffc12345 0x7f800000 in
  sse_neg a = V4 0xbf800000 0 0x7fc12345 0xff800000 /\
  sse_cmp_eq a a = false /\ sse_cmp_neq a a = true /\ sse_cmp_le (sse_zero_zw a) (sse_zero_zw a) = true.
Proof. repeat split; vm_compute; reflexivity. Qed.
