(** * Intrin: the vector instructions behind the back ends.

    [Simd] gives the lane-wise result of every graphene_simd4f_* operation per back
    end.  Here the macros of include/graphene-simd4f.h are written as the sequences of
    compiler intrinsics they really are, over registers of four 32-bit words, so that
    Props_Intrin can prove that each sequence computes what [Simd] says.

    - A register is four 32-bit words; [val] reads a word as a binary32 (IEEE-754
      section 3.4), NaN payloads and signs being the bits [val] forgets.
    - Data movement and bitwise intrinsics are defined on the words, from Intel's and
      Arm's instruction descriptions (no source lines in /repo).
    - Arithmetic intrinsics are arbitrary functions on words ([sse_hw], [neon_hw]);
      [sse_ok], [neon_ok] say that they round like IEEE-754, and leave open which NaN
      they return and what the estimate instructions compute.
    - The Visual Studio variants (h:525-868, 1542-1905) use the same intrinsics in the
      same order and are not repeated, except _MM_TRANSPOSE4_PS, whose two expansions
      (GCC's and Visual Studio's headers) differ.  Byte order is little-endian, memory
      is a list of words. *)
From Coq Require Import ZArith Bool List Lia.
From Flocq Require Import Core BinarySingleNaN.
From Verif Require Import Num Simd Mat Neon.
Import ListNotations.
Local Open Scope Z_scope.

(** ** words as binary32 *)
(* the three fields of a binary32 word; IEEE-754 3.4, no C counterpart *)
Definition w_sign (w : Z) : bool := Z.testbit w 31.
(* exponent field *)
Definition w_exp (w : Z) : Z := Z.land (Z.shiftr w 23) 0xff.
(* trailing significand field *)
Definition w_frac (w : Z) : Z := Z.land w 0x7fffff.

(* the datum a word stands for; IEEE-754 3.4 a-e, no C counterpart *)
Definition decode (w : Z) : SpecFloat.spec_float :=
  let s := w_sign w in
  if w_exp w =? 255 then
    if w_frac w =? 0 then SpecFloat.S754_infinity s else SpecFloat.S754_nan
  else if w_exp w =? 0 then
    match w_frac w with Zpos p => SpecFloat.S754_finite s p (-149) | _ => SpecFloat.S754_zero s end
  else
    match w_frac w + 0x800000 with
    | Zpos p => SpecFloat.S754_finite s p (w_exp w - 150)
    | _ => SpecFloat.S754_nan
    end.

(* range of the fields *)
Lemma w_exp_range w : 0 <= w_exp w < 256.
Proof.
  unfold w_exp. change 0xff with (Z.ones 8). rewrite Z.land_ones by lia.
  apply Z.mod_pos_bound; reflexivity.
Qed.
Lemma w_frac_range w : 0 <= w_frac w < 2 ^ 23.
Proof.
  unfold w_frac. change 0x7fffff with (Z.ones 23). rewrite Z.land_ones by lia.
  apply Z.mod_pos_bound; reflexivity.
Qed.
Lemma digits_le p n : (0 <= n -> Zpos p < 2 ^ n -> Zpos (Digits.digits2_pos p) <= n)%Z.
Proof.
  intros N H. rewrite Digits.Zpos_digits2_pos. apply Zdigits_le_Zpower. exact H.
Qed.
Lemma decode_valid w : SpecFloat.valid_binary 24 128 (decode w) = true.
Proof.
  pose proof (w_exp_range w) as E. pose proof (w_frac_range w) as M.
  unfold decode. destruct (Z.eqb_spec (w_exp w) 255) as [|E1].
  { destruct (w_frac w =? 0); reflexivity. }
  destruct (Z.eqb_spec (w_exp w) 0) as [E0|E0].
  - destruct (w_frac w) as [|p|p]; try reflexivity.
    assert (D : Zpos (Digits.digits2_pos p) <= 23) by (apply digits_le; [lia|apply M]).
    cbn [SpecFloat.valid_binary]. unfold SpecFloat.bounded, SpecFloat.canonical_mantissa.
    apply andb_true_intro; split; [|reflexivity].
    apply Zeq_is_eq_bool. unfold SpecFloat.fexp, SpecFloat.emin.
    change (SpecFloat.digits2_pos p) with (Digits.digits2_pos p). lia.
  - destruct (w_frac w + 8388608) as [|p|p] eqn:P; try lia.
    assert (D : Zpos (Digits.digits2_pos p) = 24).
    { rewrite Digits.Zpos_digits2_pos. apply Zdigits_unique. simpl Z.abs. rewrite <- P.
      change (radix_val radix2) with 2. simpl. lia. }
    cbn [SpecFloat.valid_binary]. unfold SpecFloat.bounded, SpecFloat.canonical_mantissa.
    apply andb_true_intro; split.
    + apply Zeq_is_eq_bool. unfold SpecFloat.fexp, SpecFloat.emin.
      change (SpecFloat.digits2_pos p) with (Digits.digits2_pos p). lia.
    + apply Zle_is_le_bool. lia.
Qed.

(* the float a word stands for *)
Definition val (w : Z) : b32 := SF2B (decode w) (decode_valid w).

(** ** registers *)
(* __m128 / float32x4_t: four 32-bit words, lane 0 first *)
Definition reg : Type := simd4f Z.
(* what a register holds, as floats *)
Definition vals (r : reg) : simd4f b32 := V4 (val (vx r)) (val (vy r)) (val (vz r)) (val (vw r)).
(* lane i of a register, i taken modulo 4 *)
Definition lane {A} (r : simd4f A) (i : Z) : A :=
  match Z.land i 3 with 0 => vx r | 1 => vy r | 2 => vz r | _ => vw r end.
(* lane-wise application *)
Definition lift1 {A B} (f : A -> B) (a : simd4f A) : simd4f B :=
  V4 (f (vx a)) (f (vy a)) (f (vz a)) (f (vw a)).
(* lane-wise application *)
Definition lift2 {A B C} (f : A -> B -> C) (a : simd4f A) (b : simd4f B) : simd4f C :=
  V4 (f (vx a) (vx b)) (f (vy a) (vy b)) (f (vz a) (vz b)) (f (vw a) (vw b)).
(* all bits set, the "true" of the vector comparisons *)
Definition ones : Z := 0xffffffff.
(* the mask a comparison instruction writes in one lane *)
Definition maskw (b : bool) : Z := if b then ones else 0.

(** ** SSE intrinsics (Intel's descriptions; used in h:187-868) *)
(* _MM_SHUFFLE (z, y, x, w) of xmmintrin.h *)
Definition MM_SHUFFLE (z y x w : Z) : Z :=
  Z.lor (Z.lor (Z.shiftl z 6) (Z.shiftl y 4)) (Z.lor (Z.shiftl x 2) w).
(* _mm_shuffle_ps *)
Definition mm_shuffle (a b : reg) (imm : Z) : reg :=
  V4 (lane a imm) (lane a (Z.shiftr imm 2)) (lane b (Z.shiftr imm 4)) (lane b (Z.shiftr imm 6)).
(* _mm_movehl_ps *)
Definition mm_movehl (a b : reg) : reg := V4 (vz b) (vw b) (vz a) (vw a).
(* _mm_movelh_ps *)
Definition mm_movelh (a b : reg) : reg := V4 (vx a) (vy a) (vx b) (vy b).
(* _mm_unpackhi_ps *)
Definition mm_unpackhi (a b : reg) : reg := V4 (vz a) (vz b) (vw a) (vw b).
(* _mm_unpacklo_ps *)
Definition mm_unpacklo (a b : reg) : reg := V4 (vx a) (vx b) (vy a) (vy b).
(* _mm_setzero_ps *)
Definition mm_setzero : reg := V4 0 0 0 0.
(* _mm_set1_ps *)
Definition mm_set1 (w : Z) : reg := V4 w w w w.
(* _mm_and_ps *)
Definition mm_and : reg -> reg -> reg := lift2 Z.land.
(* _mm_andnot_ps: (not a) and b, on 32 bits *)
Definition mm_andnot : reg -> reg -> reg := lift2 (fun a b => Z.land (Z.lxor a ones) b).
(* _mm_xor_ps *)
Definition mm_xor : reg -> reg -> reg := lift2 Z.lxor.
(* _mm_cmpeq_ps, _mm_cmpneq_ps (true when unordered), _mm_cmplt_ps ... *)
Definition mm_cmp (t : b32 -> b32 -> bool) : reg -> reg -> reg :=
  lift2 (fun a b => maskw (t (val a) (val b))).
(* bits 7, 15, 23 and 31 of a word: its part of _mm_movemask_epi8 *)
Definition mask4 (w : Z) : Z :=
  Z.b2z (Z.testbit w 7) + 2 * Z.b2z (Z.testbit w 15)
  + 4 * Z.b2z (Z.testbit w 23) + 8 * Z.b2z (Z.testbit w 31).
(* _mm_movemask_epi8 *)
Definition mm_movemask (r : reg) : Z :=
  mask4 (vx r) + 16 * mask4 (vy r) + 256 * mask4 (vz r) + 4096 * mask4 (vw r).
(* _mm_min_ps: the second operand unless the first is smaller *)
Definition mm_min : reg -> reg -> reg := lift2 (fun a b => if flt (val a) (val b) then a else b).
(* _mm_max_ps *)
Definition mm_max : reg -> reg -> reg := lift2 (fun a b => if flt (val b) (val a) then a else b).

(* the arithmetic units of an SSE machine and its libm, on words *)
Record sse_hw := SseHw {
  x_add : Z -> Z -> Z; x_sub : Z -> Z -> Z; x_mul : Z -> Z -> Z; x_div : Z -> Z -> Z;
  x_fma : Z -> Z -> Z -> Z; x_sqrt : Z -> Z; x_ceil : Z -> Z; x_floor : Z -> Z;
  x_rcp : Z -> Z; x_rsq : Z -> Z }.
(* they round to nearest even; the estimates read as rcp and rsq *)
Record sse_ok (h : sse_hw) (rcp rsq : b32 -> b32) : Prop := {
  ok_add : forall a b, val (x_add h a b) = fadd (val a) (val b);
  ok_sub : forall a b, val (x_sub h a b) = fsub (val a) (val b);
  ok_mul : forall a b, val (x_mul h a b) = fmul (val a) (val b);
  ok_div : forall a b, val (x_div h a b) = fdiv (val a) (val b);
  ok_fma : forall a b c, val (x_fma h a b c) = ffma (val a) (val b) (val c);
  ok_sqrt : forall a, val (x_sqrt h a) = fsqrt (val a);
  ok_ceil : forall a, val (x_ceil h a) = fceil (val a);
  ok_floor : forall a, val (x_floor h a) = ffloor (val a);
  ok_rcp : forall a, val (x_rcp h a) = rcp (val a);
  ok_rsq : forall a, val (x_rsq h a) = rsq (val a) }.

Section SseMacros.
Context (h : sse_hw).
(* _mm_add_ps, _mm_sub_ps, _mm_mul_ps, _mm_div_ps, _mm_sqrt_ps *)
Definition mm_add := lift2 (x_add h).
(* the intrinsic of that name *)
Definition mm_sub := lift2 (x_sub h).
(* the intrinsic of that name *)
Definition mm_mul := lift2 (x_mul h).
(* the intrinsic of that name *)
Definition mm_div := lift2 (x_div h).
(* the intrinsic of that name *)
Definition mm_sqrt := lift1 (x_sqrt h).
(* _mm_add_ss: lane 0 only *)
Definition mm_add_ss (a b : reg) : reg := V4 (x_add h (vx a) (vx b)) (vy a) (vz a) (vw a).
(* _mm_dp_ps: the high nibble selects the products, the low one the results *)
Definition mm_dp (a b : reg) (imm : Z) : reg :=
  let t i p := if Z.testbit imm i then p else 0 in
  let s := x_add h (x_add h (t 4 (x_mul h (vx a) (vx b))) (t 5 (x_mul h (vy a) (vy b))))
                   (x_add h (t 6 (x_mul h (vz a) (vz b))) (t 7 (x_mul h (vw a) (vw b)))) in
  V4 (t 0 s) (t 1 s) (t 2 s) (t 3 s).
(* _mm_fmadd_ps *)
Definition mm_fmadd (a b c : reg) : reg :=
  V4 (x_fma h (vx a) (vx b) (vx c)) (x_fma h (vy a) (vy b) (vy c))
     (x_fma h (vz a) (vz b) (vz c)) (x_fma h (vw a) (vw b) (vw c)).

(** the macros of include/graphene-simd4f.h:187-523 *)
(* include/graphene-simd4f.h:202-205; the operands are the words of the four floats *)
(* include/graphene-simd4f.h:202-205, graphene_simd4f_init *)
Definition sse_init (x y z w : Z) : reg := V4 x y z w.
(* include/graphene-simd4f.h:207-210, graphene_simd4f_init_zero *)
Definition sse_init_zero : reg := mm_setzero.
(* include/graphene-simd4f.h:212-215, _mm_loadu_ps *)
(* include/graphene-simd4f.h:212-215, graphene_simd4f_init_4f *)
Definition sse_init_4f (m : list Z) : option reg :=
  match m with a :: b :: c :: d :: _ => Some (V4 a b c d) | _ => None end.
(* include/graphene-simd4f.h:217-220, graphene_simd4f_init_3f *)
Definition sse_init_3f (m : list Z) : option reg :=
  match m with a :: b :: c :: _ => Some (V4 a b c 0) | _ => None end.
(* include/graphene-simd4f.h:222-225, graphene_simd4f_init_2f *)
Definition sse_init_2f (m : list Z) : option reg :=
  match m with a :: b :: _ => Some (V4 a b 0 0) | _ => None end.
(* memcpy of the first n words of a register, or _mm_storeu_ps with n = 4 *)
Definition store (n : nat) (s : reg) (m : list Z) : option (list Z) :=
  if (n <=? length m)%nat then Some (firstn n [vx s; vy s; vz s; vw s] ++ skipn n m) else None.
(* include/graphene-simd4f.h:227-230, graphene_simd4f_dup_4f *)
Definition sse_dup_4f := store 4.
(* include/graphene-simd4f.h:232-235, graphene_simd4f_dup_3f *)
Definition sse_dup_3f := store 3.
(* include/graphene-simd4f.h:237-240, graphene_simd4f_dup_2f *)
Definition sse_dup_2f := store 2.
(* include/graphene-simd4f.h:242-251: the union's array *)
(* include/graphene-simd4f.h:242-246, graphene_simd4f_get *)
Definition sse_get (s : reg) (i : Z) : Z := lane s i.
(* include/graphene-simd4f.h:253-256, graphene_simd4f_splat *)
Definition sse_splat (v : Z) : reg := mm_set1 v.
(* include/graphene-simd4f.h:258-261, graphene_simd4f_splat_x *)
Definition sse_splat_x (v : reg) : reg := mm_shuffle v v (MM_SHUFFLE 0 0 0 0).
(* include/graphene-simd4f.h:263-266, graphene_simd4f_splat_y *)
Definition sse_splat_y (v : reg) : reg := mm_shuffle v v (MM_SHUFFLE 1 1 1 1).
(* include/graphene-simd4f.h:268-271, graphene_simd4f_splat_z *)
Definition sse_splat_z (v : reg) : reg := mm_shuffle v v (MM_SHUFFLE 2 2 2 2).
(* include/graphene-simd4f.h:273-276, graphene_simd4f_splat_w *)
Definition sse_splat_w (v : reg) : reg := mm_shuffle v v (MM_SHUFFLE 3 3 3 3).
(* include/graphene-simd4f.h:278-281, graphene_simd4f_add *)
Definition sse_add := mm_add.
(* include/graphene-simd4f.h:283-286, graphene_simd4f_sub *)
Definition sse_sub := mm_sub.
(* include/graphene-simd4f.h:288-291, graphene_simd4f_mul *)
Definition sse_mul := mm_mul.
(* include/graphene-simd4f.h:293-296, graphene_simd4f_div *)
Definition sse_div := mm_div.
(* include/graphene-simd4f.h:298-301, graphene_simd4f_sqrt *)
Definition sse_sqrt := mm_sqrt.
(* include/graphene-simd4f.h:303-312; 2.0f is the word 0x40000000 *)
(* include/graphene-simd4f.h:303-312, graphene_simd4f_reciprocal *)
Definition sse_reciprocal (v : reg) : reg :=
  let zero := sse_init 0 0 0 0 in
  let two := sse_init 0x40000000 0x40000000 0x40000000 0x40000000 in
  let s := lift1 (x_rcp h) v in
  let m := sse_mul v (mm_andnot (mm_cmp feqb v zero) s) in
  sse_mul s (sse_sub two m).
(* include/graphene-simd4f.h:314-322; 0.5f is 0x3f000000, 3.0f is 0x40400000 *)
(* include/graphene-simd4f.h:314-322, graphene_simd4f_rsqrt *)
Definition sse_rsqrt (v : reg) : reg :=
  let half := sse_init 0x3f000000 0x3f000000 0x3f000000 0x3f000000 in
  let three := sse_init 0x40400000 0x40400000 0x40400000 0x40400000 in
  let s := lift1 (x_rsq h) v in
  sse_mul (sse_mul s half) (sse_sub three (sse_mul s (sse_mul v s))).
(* include/graphene-simd4f.h:324-331, graphene_simd4f_cross3 *)
Definition sse_cross3 (a b : reg) : reg :=
  let a_yzx := mm_shuffle a a (MM_SHUFFLE 3 0 2 1) in
  let a_zxy := mm_shuffle a a (MM_SHUFFLE 3 1 0 2) in
  let b_yzx := mm_shuffle b b (MM_SHUFFLE 3 0 2 1) in
  let b_zxy := mm_shuffle b b (MM_SHUFFLE 3 1 0 2) in
  mm_sub (mm_mul a_yzx b_zxy) (mm_mul a_zxy b_yzx).
(* include/graphene-simd4f.h:333-349; [sse41] is GRAPHENE_USE_SSE4_1 *)
(* include/graphene-simd4f.h:334-337, 339-348, graphene_simd4f_dot3 *)
Definition sse_dot3 (sse41 : bool) (a b : reg) : reg :=
  if sse41 then mm_dp a b 0x7f
  else
    let mask := V4 0xffffffff 0xffffffff 0xffffffff 0 in
    let m := mm_mul a b in
    let s0 := mm_and m mask in
    let s1 := mm_add s0 (mm_movehl s0 s0) in
    let s2 := mm_add_ss s1 (mm_shuffle s1 s1 1) in
    mm_shuffle s2 s2 0.
(* include/graphene-simd4f.h:351-356: _mm_store_ss writes lane 0 *)
(* include/graphene-simd4f.h:351-356, graphene_simd4f_dot3_scalar *)
Definition sse_dot3_scalar (sse41 : bool) (a b : reg) : Z := vx (sse_dot3 sse41 a b).
(* include/graphene-simd4f.h:358-361, graphene_simd4f_min *)
Definition sse_min := mm_min.
(* include/graphene-simd4f.h:363-366, graphene_simd4f_max *)
Definition sse_max := mm_max.
(* include/graphene-simd4f.h:368-371, graphene_simd4f_shuffle_wxyz *)
Definition sse_shuffle_wxyz (v : reg) : reg := mm_shuffle v v (MM_SHUFFLE 2 1 0 3).
(* include/graphene-simd4f.h:373-376, graphene_simd4f_shuffle_zwxy *)
Definition sse_shuffle_zwxy (v : reg) : reg := mm_shuffle v v (MM_SHUFFLE 1 0 3 2).
(* include/graphene-simd4f.h:378-381, graphene_simd4f_shuffle_yzwx *)
Definition sse_shuffle_yzwx (v : reg) : reg := mm_shuffle v v (MM_SHUFFLE 0 3 2 1).
(* include/graphene-simd4f.h:383-387, graphene_simd4f_zero_w *)
Definition sse_zero_w (v : reg) : reg :=
  let s := mm_unpackhi v mm_setzero in mm_movelh v s.
(* include/graphene-simd4f.h:389-392, graphene_simd4f_zero_zw *)
Definition sse_zero_zw (v : reg) : reg := mm_movelh v mm_setzero.
(* include/graphene-simd4f.h:394-398, graphene_simd4f_merge_w *)
Definition sse_merge_w (s : reg) (v : Z) : reg :=
  let s' := mm_unpackhi s (mm_set1 v) in mm_movelh s s'.
(* include/graphene-simd4f.h:400-403, graphene_simd4f_merge_high *)
Definition sse_merge_high (a b : reg) : reg := mm_movehl b a.
(* include/graphene-simd4f.h:405-408, graphene_simd4f_merge_low *)
Definition sse_merge_low (a b : reg) : reg := mm_movelh a b.
(* include/graphene-simd4f.h:415-424, graphene_simd4f_flip_sign_0101 *)
Definition sse_flip_sign_0101 (v : reg) : reg := mm_xor v (V4 0x00000000 0x80000000 0x00000000 0x80000000).
(* include/graphene-simd4f.h:426-435, graphene_simd4f_flip_sign_1010 *)
Definition sse_flip_sign_1010 (v : reg) : reg := mm_xor v (V4 0x80000000 0x00000000 0x80000000 0x00000000).
(* include/graphene-simd4f.h:437-471; _mm_cmpneq_ps is true for unordered operands *)
(* include/graphene-simd4f.h:437-441, graphene_simd4f_cmp_eq *)
Definition sse_cmp_eq (a b : reg) : bool := mm_movemask (mm_cmp (fun x y => negb (feqb x y)) a b) =? 0.
(* include/graphene-simd4f.h:443-447, graphene_simd4f_cmp_neq *)
Definition sse_cmp_neq (a b : reg) : bool :=
  negb (mm_movemask (mm_cmp (fun x y => negb (feqb x y)) a b) =? 0).
(* include/graphene-simd4f.h:449-453, graphene_simd4f_cmp_lt *)
Definition sse_cmp_lt (a b : reg) : bool := mm_movemask (mm_cmp flt a b) =? 0xffff.
(* include/graphene-simd4f.h:455-459, graphene_simd4f_cmp_le *)
Definition sse_cmp_le (a b : reg) : bool := mm_movemask (mm_cmp fle a b) =? 0xffff.
(* include/graphene-simd4f.h:461-465, graphene_simd4f_cmp_ge *)
Definition sse_cmp_ge (a b : reg) : bool := mm_movemask (mm_cmp (fun x y => fle y x) a b) =? 0xffff.
(* include/graphene-simd4f.h:467-471, graphene_simd4f_cmp_gt *)
Definition sse_cmp_gt (a b : reg) : bool := mm_movemask (mm_cmp (fun x y => flt y x) a b) =? 0xffff.
(* include/graphene-simd4f.h:473-482, graphene_simd4f_neg *)
Definition sse_neg (s : reg) : reg := mm_xor s (V4 0x80000000 0x80000000 0x80000000 0x80000000).
(* include/graphene-simd4f.h:484-510: _mm_ceil_ps / _mm_floor_ps with SSE4.1, else four calls of the libm;
   both are [x_ceil], [x_floor] lane by lane *)
(* include/graphene-simd4f.h:485-488, 494-501, graphene_simd4f_ceil *)
Definition sse_ceil (s : reg) : reg :=
  sse_init (x_ceil h (sse_get s 0)) (x_ceil h (sse_get s 1)) (x_ceil h (sse_get s 2)) (x_ceil h (sse_get s 3)).
(* include/graphene-simd4f.h:489-492, 502-509, graphene_simd4f_floor *)
Definition sse_floor (s : reg) : reg :=
  sse_init (x_floor h (sse_get s 0)) (x_floor h (sse_get s 1)) (x_floor h (sse_get s 2)) (x_floor h (sse_get s 3)).
(* include/graphene-simd4f.h:512-522; [fma] is GRAPHENE_USE_AVX *)
(* include/graphene-simd4f.h:513-516, 518-521, graphene_simd4f_madd *)
Definition sse_madd (fma : bool) (a b c : reg) : reg :=
  if fma then mm_fmadd a b c else mm_add (mm_mul a b) c.
End SseMacros.

(* include/graphene-simd4x4f.h:151-155: _MM_TRANSPOSE4_PS of GCC's xmmintrin.h *)
Definition sse_transpose_gcc (m : mat Z) : mat Z :=
  let t0 := mm_unpacklo (mx m) (my m) in
  let t1 := mm_unpacklo (mz m) (mw m) in
  let t2 := mm_unpackhi (mx m) (my m) in
  let t3 := mm_unpackhi (mz m) (mw m) in
  M4 (mm_movelh t0 t1) (mm_movehl t1 t0) (mm_movelh t2 t3) (mm_movehl t3 t2).
(* include/graphene-simd4x4f.h:156-159: _MM_TRANSPOSE4_PS of Visual Studio's xmmintrin.h *)
Definition sse_transpose_msvc (m : mat Z) : mat Z :=
  let t0 := mm_shuffle (mx m) (my m) 0x44 in
  let t2 := mm_shuffle (mx m) (my m) 0xee in
  let t1 := mm_shuffle (mz m) (mw m) 0x44 in
  let t3 := mm_shuffle (mz m) (mw m) 0xee in
  M4 (mm_shuffle t0 t1 0x88) (mm_shuffle t0 t1 0xdd) (mm_shuffle t2 t3 0x88) (mm_shuffle t2 t3 0xdd).

(** ** NEON intrinsics (Arm's descriptions; used in h:1197-1906) *)
(* float32x2_t *)
Definition reg2 : Type := (Z * Z)%type.
(* vget_low_f32, vget_high_f32, vcombine_f32, vext_f32 (_, _, 1) *)
Definition vget_low (a : reg) : reg2 := (vx a, vy a).
(* the intrinsic of that name *)
Definition vget_high (a : reg) : reg2 := (vz a, vw a).
(* the intrinsic of that name *)
Definition vcombine (l hi : reg2) : reg := V4 (fst l) (snd l) (fst hi) (snd hi).
(* the intrinsic of that name *)
Definition vext1 (l hi : reg2) : reg2 := (snd l, fst hi).
(* veorq_u32, vandq_u32, vtstq_u32: the last is all ones where a and b share a bit *)
Definition veorq : reg -> reg -> reg := lift2 Z.lxor.
(* the intrinsic of that name *)
Definition vandq : reg -> reg -> reg := lift2 Z.land.
(* the intrinsic of that name *)
Definition vtstq : reg -> reg -> reg :=
  lift2 (fun a b => maskw (negb (Z.land (Z.land a b) ones =? 0))).
(* vceqq_f32, vcltq_f32, ... *)
Definition vcmpq (t : b32 -> b32 -> bool) : reg -> reg -> reg :=
  lift2 (fun a b => maskw (t (val a) (val b))).

(* the arithmetic units of a NEON machine and its libm, on words *)
Record neon_hw := NeonHw {
  n_add : Z -> Z -> Z; n_sub : Z -> Z -> Z; n_mul : Z -> Z -> Z;
  n_min : Z -> Z -> Z; n_max : Z -> Z -> Z; n_recps : Z -> Z -> Z; n_rsqrts : Z -> Z -> Z;
  n_rece : Z -> Z; n_rsqe : Z -> Z; n_ceil : Z -> Z; n_floor : Z -> Z }.

Section NeonMacros.
Context (h : neon_hw).
(* vaddq_f32, vsubq_f32, vmulq_f32, vrecpsq_f32, vrsqrtsq_f32 *)
Definition vaddq := lift2 (n_add h).
(* the intrinsic of that name *)
Definition vsubq := lift2 (n_sub h).
(* the intrinsic of that name *)
Definition vmulq := lift2 (n_mul h).
(* the intrinsic of that name *)
Definition vrecpsq := lift2 (n_recps h).
(* the intrinsic of that name *)
Definition vrsqrtsq := lift2 (n_rsqrts h).
(* vpadd_f32 and vadd_f32, on pairs *)
Definition vpadd (a b : reg2) : reg2 := (n_add h (fst a) (snd a), n_add h (fst b) (snd b)).
(* the intrinsic of that name *)
Definition vadd (a b : reg2) : reg2 := (n_add h (fst a) (fst b), n_add h (snd a) (snd b)).

(** the macros of include/graphene-simd4f.h:1197-1541 *)
(* include/graphene-simd4f.h:1211-1215: four floats stored to an array, then vld1q_f32 *)
(* include/graphene-simd4f.h:1211-1215, graphene_simd4f_init *)
Definition neon_init (x y z w : Z) : reg := V4 x y z w.
(* include/graphene-simd4f.h:1217-1220, graphene_simd4f_init_zero *)
Definition neon_init_zero : reg := V4 0 0 0 0.
(* include/graphene-simd4f.h:1222-1226, graphene_simd4f_init_4f *)
Definition neon_init_4f (m : list Z) : option reg :=
  match m with a :: b :: c :: d :: _ => Some (V4 a b c d) | _ => None end.
(* include/graphene-simd4f.h:1228-1231, graphene_simd4f_init_3f *)
Definition neon_init_3f (m : list Z) : option reg :=
  match m with a :: b :: c :: _ => Some (neon_init a b c 0) | _ => None end.
(* include/graphene-simd4f.h:1233-1240: vld1_f32, vld1_dup_f32 and vcombine_f32 *)
(* include/graphene-simd4f.h:1233-1240, graphene_simd4f_init_2f *)
Definition neon_init_2f (m : list Z) : option reg :=
  match m with a :: b :: _ => Some (vcombine (a, b) (0, 0)) | _ => None end.
(* store one word *)
Definition store1 (m : list Z) (i : nat) (w : Z) : option (list Z) :=
  if (i <? length m)%nat then Some (firstn i m ++ w :: skipn (S i) m) else None.
(* include/graphene-simd4f.h:1242-1245, graphene_simd4f_dup_4f *)
Definition neon_dup_4f := store 4.
(* include/graphene-simd4f.h:1247-1253: three vst1q_lane_f32 *)
(* include/graphene-simd4f.h:1247-1253, graphene_simd4f_dup_3f *)
Definition neon_dup_3f (s : reg) (m : list Z) : option (list Z) :=
  match store1 m 0 (vx s) with
  | Some m => match store1 m 1 (vy s) with Some m => store1 m 2 (vz s) | None => None end
  | None => None end.
(* include/graphene-simd4f.h:1255-1259: vst1_f32 of the low half *)
(* include/graphene-simd4f.h:1255-1259, graphene_simd4f_dup_2f *)
Definition neon_dup_2f (s : reg) (m : list Z) : option (list Z) :=
  match m with _ :: _ :: r => let low := vget_low s in Some (fst low :: snd low :: r) | _ => None end.
(* include/graphene-simd4f.h:1261-1264, vgetq_lane_f32 *)
(* include/graphene-simd4f.h:1261-1264, graphene_simd4f_get *)
Definition neon_get (s : reg) (i : Z) : Z := lane s i.
(* include/graphene-simd4f.h:1266-1269, vdupq_n_f32 *)
(* include/graphene-simd4f.h:1266-1269, graphene_simd4f_splat *)
Definition neon_splat (v : Z) : reg := V4 v v v v.
(* include/graphene-simd4f.h:1271-1274, graphene_simd4f_splat_x *)
Definition neon_splat_x (s : reg) : reg := neon_splat (neon_get s 0).
(* include/graphene-simd4f.h:1276-1279, graphene_simd4f_splat_y *)
Definition neon_splat_y (s : reg) : reg := neon_splat (neon_get s 1).
(* include/graphene-simd4f.h:1281-1284, graphene_simd4f_splat_z *)
Definition neon_splat_z (s : reg) : reg := neon_splat (neon_get s 2).
(* include/graphene-simd4f.h:1286-1289, graphene_simd4f_splat_w *)
Definition neon_splat_w (s : reg) : reg := neon_splat (neon_get s 3).
(* include/graphene-simd4f.h:1291-1296, graphene_simd4f_reciprocal *)
Definition neonr_reciprocal (s : reg) : reg :=
  let est := lift1 (n_rece h) s in
  let est := vmulq (vrecpsq est s) est in
  vmulq (vrecpsq est s) est.
(* include/graphene-simd4f.h:1298-1301, graphene_simd4f_add *)
Definition neon_add := vaddq.
(* include/graphene-simd4f.h:1303-1306, graphene_simd4f_sub *)
Definition neon_sub := vsubq.
(* include/graphene-simd4f.h:1308-1311, graphene_simd4f_mul *)
Definition neon_mul := vmulq.
(* include/graphene-simd4f.h:1313-1317, graphene_simd4f_div *)
Definition neon_div (a b : reg) : reg := let rec := neonr_reciprocal b in vmulq a rec.
(* include/graphene-simd4f.h:1319-1323, graphene_simd4f_rsqrt_iter *)
Definition neonr_rsqrt_iter (v estimate : reg) : reg :=
  let est1 := vmulq estimate v in vmulq estimate (vrsqrtsq est1 estimate).
(* include/graphene-simd4f.h:1325-1331, graphene_simd4f_rsqrt *)
Definition neonr_rsqrt (s : reg) : reg :=
  let estimate := lift1 (n_rsqe h) s in
  let estimate := neonr_rsqrt_iter s estimate in
  let estimate := neonr_rsqrt_iter s estimate in
  neonr_rsqrt_iter s estimate.
(* include/graphene-simd4f.h:1333-1339, graphene_simd4f_sqrt *)
Definition neonr_sqrt (s : reg) : reg :=
  let rsq := neonr_rsqrt s in
  let rrsq := neonr_reciprocal rsq in
  vandq (vtstq s s) rrsq.
(* include/graphene-simd4f.h:1341-1355, graphene_simd4f_cross3 *)
Definition neon_cross3 (a b : reg) : reg :=
  let mask := V4 0xffffffff 0xffffffff 0xffffffff 0 in
  let a_low := vget_low a in
  let b_low := vget_low b in
  let a_yzx := vcombine (vext1 a_low (vget_high a)) a_low in
  let b_yzx := vcombine (vext1 b_low (vget_high b)) b_low in
  let s3 := neon_sub (neon_mul b_yzx a) (neon_mul a_yzx b) in
  let s3_low := vget_low s3 in
  let s3 := vcombine (vext1 s3_low (vget_high s3)) s3_low in
  vandq s3 mask.
(* include/graphene-simd4f.h:1362-1367, graphene_simd4f_dot3_scalar *)
Definition neon_dot3_scalar (a b : reg) : Z :=
  let m := neon_mul a b in
  let s1 := vpadd (vget_low m) (vget_low m) in
  fst (vadd s1 (vget_high m)).
(* include/graphene-simd4f.h:1357-1360, graphene_simd4f_dot3 *)
Definition neon_dot3 (a b : reg) : reg := neon_splat (neon_dot3_scalar a b).
(* include/graphene-simd4f.h:1369-1372, graphene_simd4f_min *)
Definition neon_min := lift2 (n_min h).
(* include/graphene-simd4f.h:1374-1377, graphene_simd4f_max *)
Definition neon_max := lift2 (n_max h).
(* include/graphene-simd4f.h:1379-1427: through the union's array *)
(* include/graphene-simd4f.h:1379-1383, graphene_simd4f_shuffle_wxyz *)
Definition neon_shuffle_wxyz (v : reg) : reg := neon_init (lane v 3) (lane v 0) (lane v 1) (lane v 2).
(* include/graphene-simd4f.h:1385-1389, graphene_simd4f_shuffle_zwxy *)
Definition neon_shuffle_zwxy (v : reg) : reg := neon_init (lane v 2) (lane v 3) (lane v 0) (lane v 1).
(* include/graphene-simd4f.h:1391-1395, graphene_simd4f_shuffle_yzwx *)
Definition neon_shuffle_yzwx (v : reg) : reg := neon_init (lane v 1) (lane v 2) (lane v 3) (lane v 0).
(* include/graphene-simd4f.h:1397-1401, graphene_simd4f_zero_w *)
Definition neon_zero_w (v : reg) : reg := neon_init (lane v 0) (lane v 1) (lane v 2) 0.
(* include/graphene-simd4f.h:1403-1407, graphene_simd4f_zero_zw *)
Definition neon_zero_zw (v : reg) : reg := neon_init (lane v 0) (lane v 1) 0 0.
(* include/graphene-simd4f.h:1409-1413, graphene_simd4f_merge_w *)
Definition neon_merge_w (s : reg) (v : Z) : reg := neon_init (lane s 0) (lane s 1) (lane s 2) v.
(* include/graphene-simd4f.h:1415-1420, graphene_simd4f_merge_high *)
Definition neon_merge_high (a b : reg) : reg := neon_init (lane a 2) (lane a 3) (lane b 2) (lane b 3).
(* include/graphene-simd4f.h:1422-1427, graphene_simd4f_merge_low *)
Definition neon_merge_low (a b : reg) : reg := neon_init (lane a 0) (lane a 1) (lane b 0) (lane b 1).
(* include/graphene-simd4f.h:1429-1439, graphene_simd4f_flip_sign_0101 *)
Definition neon_flip_sign_0101 (s : reg) : reg := veorq s (V4 0x00000000 0x80000000 0x00000000 0x80000000).
(* include/graphene-simd4f.h:1441-1451, graphene_simd4f_flip_sign_1010 *)
Definition neon_flip_sign_1010 (s : reg) : reg := veorq s (V4 0x80000000 0x00000000 0x80000000 0x00000000).
(* every lane of a mask differs from 0 *)
Definition all_set (m : reg) : bool :=
  negb (lane m 0 =? 0) && negb (lane m 1 =? 0) && negb (lane m 2 =? 0) && negb (lane m 3 =? 0).
(* include/graphene-simd4f.h:1453-1460, graphene_simd4f_cmp_eq *)
Definition neon_cmp_eq (a b : reg) : bool := all_set (vcmpq feqb a b).
(* include/graphene-simd4f.h:1462-1469, graphene_simd4f_cmp_neq *)
Definition neon_cmp_neq (a b : reg) : bool :=
  let m := vcmpq feqb a b in
  (lane m 0 =? 0) || (lane m 1 =? 0) || (lane m 2 =? 0) || (lane m 3 =? 0).
(* include/graphene-simd4f.h:1471-1478, graphene_simd4f_cmp_lt *)
Definition neon_cmp_lt (a b : reg) : bool := all_set (vcmpq flt a b).
(* include/graphene-simd4f.h:1480-1487, graphene_simd4f_cmp_le *)
Definition neon_cmp_le (a b : reg) : bool := all_set (vcmpq fle a b).
(* include/graphene-simd4f.h:1489-1496, graphene_simd4f_cmp_ge *)
Definition neon_cmp_ge (a b : reg) : bool := all_set (vcmpq (fun x y => fle y x) a b).
(* include/graphene-simd4f.h:1498-1505, graphene_simd4f_cmp_gt *)
Definition neon_cmp_gt (a b : reg) : bool := all_set (vcmpq (fun x y => flt y x) a b).
(* include/graphene-simd4f.h:1507-1517, graphene_simd4f_neg *)
Definition neon_neg (s : reg) : reg := veorq s (V4 0x80000000 0x80000000 0x80000000 0x80000000).
(* include/graphene-simd4f.h:1519-1526, graphene_simd4f_ceil *)
Definition neon_ceil (s : reg) : reg :=
  neon_init (n_ceil h (neon_get s 0)) (n_ceil h (neon_get s 1)) (n_ceil h (neon_get s 2)) (n_ceil h (neon_get s 3)).
(* include/graphene-simd4f.h:1528-1535, graphene_simd4f_floor *)
Definition neon_floor (s : reg) : reg :=
  neon_init (n_floor h (neon_get s 0)) (n_floor h (neon_get s 1)) (n_floor h (neon_get s 2)) (n_floor h (neon_get s 3)).
(* include/graphene-simd4f.h:1537-1540, graphene_simd4f_madd *)
Definition neon_madd (a b c : reg) : reg := neon_add (neon_mul a b) c.
End NeonMacros.
(* include/graphene-simd4x4f.h:178-189 and 192-206 *)
Definition neon_transpose (m : mat Z) : mat Z :=
  M4 (V4 (lane (mx m) 0) (lane (my m) 0) (lane (mz m) 0) (lane (mw m) 0))
     (V4 (lane (mx m) 1) (lane (my m) 1) (lane (mz m) 1) (lane (mw m) 1))
     (V4 (lane (mx m) 2) (lane (my m) 2) (lane (mz m) 2) (lane (mw m) 2))
     (V4 (lane (mx m) 3) (lane (my m) 3) (lane (mz m) 3) (lane (mw m) 3)).

(* FMIN / FMAX of the Arm manual (FPMin, FPMax): a NaN operand is returned, -0 is below +0 *)
Definition arm_min (a b : b32) : b32 :=
  if fisnan a then a else if fisnan b then b
  else if flt a b then a else if flt b a then b else if fsignbit a then a else b.
(* FPMax *)
Definition arm_max (a b : b32) : b32 :=
  if fisnan a then a else if fisnan b then b
  else if flt b a then a else if flt a b then b else if fsignbit a then b else a.
(* they round to nearest even, one rounding per step instruction when [fused]; min and
   max propagate NaNs and order -0 below +0; the estimates read as rece and rsqe *)
Record neon_ok (h : neon_hw) (fused : bool) (rece rsqe : b32 -> b32) : Prop := {
  no_add : forall a b, val (n_add h a b) = fadd (val a) (val b);
  no_sub : forall a b, val (n_sub h a b) = fsub (val a) (val b);
  no_mul : forall a b, val (n_mul h a b) = fmul (val a) (val b);
  no_min : forall a b, val (n_min h a b) = arm_min (val a) (val b);
  no_max : forall a b, val (n_max h a b) = arm_max (val a) (val b);
  no_recps : forall a b, val (n_recps h a b) = neon_recps fused (val a) (val b);
  no_rsqrts : forall a b, val (n_rsqrts h a b) = neon_rsqrts fused (val a) (val b);
  no_rece : forall a, val (n_rece h a) = rece (val a);
  no_rsqe : forall a, val (n_rsqe h a) = rsqe (val a);
  no_ceil : forall a, val (n_ceil h a) = fceil (val a);
  no_floor : forall a, val (n_floor h a) = ffloor (val a) }.

(** ** GCC vector extensions (h:877-1196), on any number type *)
Section GccMacros.
Context {F : Type} {O : FOps F}.
Notation V := (simd4f F).
(* include/graphene-simd4f.h:884, 887: __builtin_shufflevector (a, a, ...) and __builtin_shuffle (a, mask) *)
Definition gcc_shuffle1 (a : V) (m1 m2 m3 m4 : Z) : V := V4 (lane a m1) (lane a m2) (lane a m3) (lane a m4).
(* element i of two concatenated vectors, i modulo 8 *)
Definition lane8 (a b : V) (i : Z) : F := if Z.land i 7 <? 4 then lane a i else lane b i.
(* include/graphene-simd4f.h:885, 888 *)
Definition gcc_shuffle2 (a b : V) (m1 m2 m3 m4 : Z) : V :=
  V4 (lane8 a b m1) (lane8 a b m2) (lane8 a b m3) (lane8 a b m4).
(* include/graphene-simd4f.h:891-894, graphene_simd4f_init *)
Definition gcc_init (x y z w : F) : V := V4 x y z w.
(* include/graphene-simd4f.h:896-899, graphene_simd4f_init_zero *)
Definition gcc_init_zero : V := V4 fzero fzero fzero fzero.
(* include/graphene-simd4f.h:937-940, graphene_simd4f_splat *)
Definition gcc_splat (v : F) : V := V4 v v v v.
(* include/graphene-simd4f.h:942-946, graphene_simd4f_splat_x *)
Definition gcc_splat_x (v : V) : V := let val := lane v 0 in gcc_init val val val val.
(* include/graphene-simd4f.h:948-952, graphene_simd4f_splat_y *)
Definition gcc_splat_y (v : V) : V := let val := lane v 1 in gcc_init val val val val.
(* include/graphene-simd4f.h:954-958, graphene_simd4f_splat_z *)
Definition gcc_splat_z (v : V) : V := let val := lane v 2 in gcc_init val val val val.
(* include/graphene-simd4f.h:960-964, graphene_simd4f_splat_w *)
Definition gcc_splat_w (v : V) : V := let val := lane v 3 in gcc_init val val val val.
(* include/graphene-simd4f.h:966-974, graphene_simd4f_reciprocal *)
Definition gcc_reciprocal (v : V) : V :=
  let f x := if flt feps (fabs x) then fdiv fone x else fcopysign finf x in
  gcc_init (f (lane v 0)) (f (lane v 1)) (f (lane v 2)) (f (lane v 3)).
(* include/graphene-simd4f.h:976-984, graphene_simd4f_sqrt *)
Definition gcc_sqrt (v : V) : V :=
  gcc_init (fsqrt (lane v 0)) (fsqrt (lane v 1)) (fsqrt (lane v 2)) (fsqrt (lane v 3)).
(* include/graphene-simd4f.h:986-998, graphene_simd4f_rsqrt *)
Definition gcc_rsqrt (v : V) : V :=
  let f x := if negb (feqb x fzero) then fdiv fone (fsqrt x) else fzero in
  gcc_init (f (lane v 0)) (f (lane v 1)) (f (lane v 2)) (f (lane v 3)).
(* include/graphene-simd4f.h:1000-1003: element-wise operators *)
(* include/graphene-simd4f.h:1000, graphene_simd4f_add *)
Definition gcc_add : V -> V -> V := lift2 fadd.
(* include/graphene-simd4f.h:1001, graphene_simd4f_sub *)
Definition gcc_sub : V -> V -> V := lift2 fsub.
(* include/graphene-simd4f.h:1002, graphene_simd4f_mul *)
Definition gcc_mul : V -> V -> V := lift2 fmul.
(* include/graphene-simd4f.h:1003, graphene_simd4f_div *)
Definition gcc_div : V -> V -> V := lift2 fdiv.
(* include/graphene-simd4f.h:1005-1013, graphene_simd4f_cross3 *)
Definition gcc_cross3 (a b : V) : V :=
  gcc_init (fsub (fmul (lane a 1) (lane b 2)) (fmul (lane a 2) (lane b 1)))
           (fsub (fmul (lane a 2) (lane b 0)) (fmul (lane a 0) (lane b 2)))
           (fsub (fmul (lane a 0) (lane b 1)) (fmul (lane a 1) (lane b 0)))
           fzero.
(* include/graphene-simd4f.h:1015-1021, graphene_simd4f_dot3 *)
Definition gcc_dot3 (a b : V) : V :=
  let res := fadd (fadd (fmul (lane a 0) (lane b 0)) (fmul (lane a 1) (lane b 1))) (fmul (lane a 2) (lane b 2)) in
  gcc_init res res res res.
(* include/graphene-simd4f.h:1023-1026, graphene_simd4f_dot3_scalar *)
Definition gcc_dot3_scalar (a b : V) : F := lane (gcc_dot3 a b) 0.
(* include/graphene-simd4f.h:1028-1036, graphene_simd4f_min *)
Definition gcc_min (a b : V) : V :=
  let f i := if flt (lane a i) (lane b i) then lane a i else lane b i in gcc_init (f 0) (f 1) (f 2) (f 3).
(* include/graphene-simd4f.h:1038-1046, graphene_simd4f_max *)
Definition gcc_max (a b : V) : V :=
  let f i := if flt (lane b i) (lane a i) then lane a i else lane b i in gcc_init (f 0) (f 1) (f 2) (f 3).
(* include/graphene-simd4f.h:1048-1051, graphene_simd4f_shuffle_wxyz *)
Definition gcc_shuffle_wxyz (v : V) : V := gcc_shuffle1 v 3 0 1 2.
(* include/graphene-simd4f.h:1053-1056, graphene_simd4f_shuffle_zwxy *)
Definition gcc_shuffle_zwxy (v : V) : V := gcc_shuffle1 v 2 3 0 1.
(* include/graphene-simd4f.h:1058-1061, graphene_simd4f_shuffle_yzwx *)
Definition gcc_shuffle_yzwx (v : V) : V := gcc_shuffle1 v 1 2 3 0.
(* include/graphene-simd4f.h:1063-1066, graphene_simd4f_zero_w *)
Definition gcc_zero_w (v : V) : V := gcc_shuffle2 v gcc_init_zero 0 1 2 4.
(* include/graphene-simd4f.h:1068-1071, graphene_simd4f_zero_zw *)
Definition gcc_zero_zw (v : V) : V := gcc_shuffle2 v gcc_init_zero 0 1 4 4.
(* include/graphene-simd4f.h:1073-1076, graphene_simd4f_merge_w *)
Definition gcc_merge_w (s : V) (v : F) : V := gcc_shuffle2 s (gcc_splat v) 0 1 2 4.
(* include/graphene-simd4f.h:1078-1081, graphene_simd4f_merge_high *)
Definition gcc_merge_high (a b : V) : V := gcc_shuffle2 a b 2 3 6 7.
(* include/graphene-simd4f.h:1083-1086, graphene_simd4f_merge_low *)
Definition gcc_merge_low (a b : V) : V := gcc_shuffle2 a b 0 1 4 5.
(* include/graphene-simd4f.h:1088-1092, graphene_simd4f_flip_sign_0101 *)
Definition gcc_flip_sign_0101 (v : V) : V := gcc_init (lane v 0) (fneg (lane v 1)) (lane v 2) (fneg (lane v 3)).
(* include/graphene-simd4f.h:1094-1098, graphene_simd4f_flip_sign_1010 *)
Definition gcc_flip_sign_1010 (v : V) : V := gcc_init (fneg (lane v 0)) (lane v 1) (fneg (lane v 2)) (lane v 3).
(* vector comparison: -1 or 0 per element; h:1100-1165 test each against 0 *)
Definition gcc_cmp (t : F -> F -> bool) (a b : V) : bool :=
  let res := lift2 (fun x y => if t x y then -1 else 0) a b in
  negb (lane res 0 =? 0) && negb (lane res 1 =? 0) && negb (lane res 2 =? 0) && negb (lane res 3 =? 0).
(* include/graphene-simd4f.h:1100-1111, graphene_simd4f_cmp_eq *)
Definition gcc_cmp_eq : V -> V -> bool := gcc_cmp feqb.
(* include/graphene-simd4f.h:1113, graphene_simd4f_cmp_neq *)
Definition gcc_cmp_neq (a b : V) : bool := negb (gcc_cmp_eq a b).
(* include/graphene-simd4f.h:1115-1126, graphene_simd4f_cmp_lt *)
Definition gcc_cmp_lt : V -> V -> bool := gcc_cmp flt.
(* include/graphene-simd4f.h:1128-1139, graphene_simd4f_cmp_le *)
Definition gcc_cmp_le : V -> V -> bool := gcc_cmp fle.
(* include/graphene-simd4f.h:1141-1152, graphene_simd4f_cmp_ge *)
Definition gcc_cmp_ge : V -> V -> bool := gcc_cmp (fun x y => fle y x).
(* include/graphene-simd4f.h:1154-1165, graphene_simd4f_cmp_gt *)
Definition gcc_cmp_gt : V -> V -> bool := gcc_cmp (fun x y => flt y x).
(* include/graphene-simd4f.h:1167-1172, graphene_simd4f_neg *)
Definition gcc_neg (s : V) : V := let minus_one := gcc_splat fm1 in gcc_mul s minus_one.
(* include/graphene-simd4f.h:1174-1181, graphene_simd4f_ceil *)
Definition gcc_ceil (s : V) : V :=
  gcc_init (fceil (lane s 0)) (fceil (lane s 1)) (fceil (lane s 2)) (fceil (lane s 3)).
(* include/graphene-simd4f.h:1183-1190, graphene_simd4f_floor *)
Definition gcc_floor (s : V) : V :=
  gcc_init (ffloor (lane s 0)) (ffloor (lane s 1)) (ffloor (lane s 2)) (ffloor (lane s 3)).
(* include/graphene-simd4f.h:1192-1195, graphene_simd4f_madd *)
Definition gcc_madd (a b c : V) : V := gcc_add (gcc_mul a b) c.
(* include/graphene-simd4x4f.h:162-173 *)
Definition gcc_transpose (m : mat F) : mat F :=
  M4 (gcc_init (lane (mx m) 0) (lane (my m) 0) (lane (mz m) 0) (lane (mw m) 0))
     (gcc_init (lane (mx m) 1) (lane (my m) 1) (lane (mz m) 1) (lane (mw m) 1))
     (gcc_init (lane (mx m) 2) (lane (my m) 2) (lane (mz m) 2) (lane (mw m) 2))
     (gcc_init (lane (mx m) 3) (lane (my m) 3) (lane (mz m) 3) (lane (mw m) 3)).
End GccMacros.
