(** * Props_EulF: Euler angles to matrices and quaternions in binary32, for any accurate sine and cosine (C100). *)
From Coq Require Import ZArith Reals Bool List Lra Lia Psatz.
From Flocq Require Import Core BinarySingleNaN.
From Verif Require Import Num Simd Vec Rect Box Mat Geo Quat OrdThy FloatThy B32Setup FloatLem ErrThy Props_Err Props_Err2 Props_Err3 ErrEx Props_Err5.
From Verif Require Props_Drift Props_Euler Props_MatX2 Props_QuatX Props_QuatX2 RQuat Props_EulerX Props_Box.
From Verif Require Import Props_Err6 Props_Drift2 Props_Rot.
Import ListNotations.
Local Open Scope R_scope.

(** ** specification: [euler_turn o x y z] is the matrix (rows are images of the axes) of three turns about the
    axes the order [o] names, one after the other ([Props_EulerX.order_spec], [Props_EulerX.turn]) *)
Definition euler_turn (o : eorder) (x y z : R) : nat -> nat -> R := Props_EulerX.mturn o x y z.

(** ** the entries as one formula over any number type *)
Definition formula {T : Type} (mul add sub : T -> T -> T) (neg : T -> T) (rep : bool) (si sj sk ci cj ck : T) (i j : axis) (r c : axis) : T :=
  let cc := mul ci ck in let cs := mul ci sk in let sc := mul si ck in let ss := mul si sk in
    if rep then
      if axis_eqb r i then
        if axis_eqb c i then cj else if axis_eqb c j then mul sj si else mul sj ci
      else if axis_eqb r j then
        if axis_eqb c i then mul sj sk else if axis_eqb c j then add (mul (neg cj) ss) cc else sub (mul (neg cj) cs) sc
      else
        if axis_eqb c i then mul (neg sj) ck else if axis_eqb c j then add (mul cj sc) cs else sub (mul cj cc) ss
    else
      if axis_eqb r i then
        if axis_eqb c i then mul cj ck else if axis_eqb c j then sub (mul sj sc) cs else add (mul sj cc) ss
      else if axis_eqb r j then
        if axis_eqb c i then mul cj sk else if axis_eqb c j then add (mul sj ss) cc else sub (mul sj cs) sc
      else
        if axis_eqb c i then neg sj else if axis_eqb c j then mul cj si else mul cj ci.
Definition framed {T : Type} (p : axis_param) (a b : T) : T := if ap_frame p then b else a.
Definition signed {T : Type} (p : axis_param) (flip : T -> T) (a : T) : T := if ap_parity p then flip a else a.
Definition angles {T : Type} (p : axis_param) (flip : T -> T) (t1 t2 t3 : T) : T * T * T :=
  (signed p flip (framed p t1 t3), signed p flip t2, signed p flip (framed p t3 t1)).
Lemma internal_formula (L : LibM b32) (t1 t2 t3 : b32) (p : axis_param) :
  let '(ai, aj, ak) := angles p (fun a => fmul a fm1) t1 t2 t3 in
  euler_to_matrix_internal t1 t2 t3 p = mat_of_table (formula fmul fadd fsub fneg (ap_rep p) (fsin ai) (fsin aj) (fsin ak) (fcos ai) (fcos aj) (fcos ak) (ap_first p) (axis_j (ap_first p) (ap_parity p))).
Proof. destruct p as [i par rep fr]. destruct par, fr, rep; reflexivity. Qed.
Definition ax_of (n : nat) : axis := match n with 0%nat => AX | 1%nat => AY | _ => AZ end.
Lemma formula_turn (o : eorder) (t1 t2 t3 : R) (r c : nat) : (r < 3)%nat -> (c < 3)%nat -> let p := order_parameters (euler_real_order o) in
  let '(ai, aj, ak) := angles p (fun a => a * -1) t1 t2 t3 in
  formula Rmult Rplus Rminus Ropp (ap_rep p) (sin ai) (sin aj) (sin ak) (cos ai) (cos aj) (cos ak) (ap_first p) (axis_j (ap_first p) (ap_parity p)) (ax_of c) (ax_of r) =
  Props_EulerX.mturn_by o t1 t2 t3 r c.
Proof.
  intros Hr Hc p.
  assert (K : forall r c : nat, (r < 3)%nat -> (c < 3)%nat -> Props_EulerX.mturn_by o t1 t2 t3 r c =
    (match c with 0%nat => Props_MatX2.r3x | 1%nat => Props_MatX2.r3y | _ => Props_MatX2.r3z end) (Props_EulerX.turn_by o t1 t2 t3 (match r with 0%nat => Props_QuatX2.ex | 1%nat => Props_QuatX2.ey | _ => Props_QuatX2.ez end))).
  { intros r' c' Hr' Hc'. destruct r' as [|[|[|r']]]; [..|lia]; (destruct c' as [|[|[|c']]]; [..|lia]); reflexivity. }
  rewrite (K r c Hr Hc). unfold p, Props_EulerX.turn_by. clear K p.
  destruct o; unfold Props_EulerX.order_spec, euler_real_order, order_parameters, angles, signed, framed; cbn [ap_first ap_parity ap_frame ap_rep]; cbv zeta beta iota;
    rewrite ?Props_EulerX.sin_m, ?Props_EulerX.cos_m, !Props_EulerX.rod_ax;
    (destruct r as [|[|[|r]]]; [..|exfalso; lia]); (destruct c as [|[|[|c]]]; [..|exfalso; lia]);
    unfold formula, axis_j, next_axis, ax_of, Props_QuatX2.ex, Props_QuatX2.ey, Props_QuatX2.ez; cbn [axis_eqb Props_MatX2.r3x Props_MatX2.r3y Props_MatX2.r3z]; ring.
Qed.

(** ** rounding *)
Lemma mulN (x y : b32) a b e1 e2 : ap x a e1 -> ap y b e2 -> Rabs a <= 1 -> Rabs b <= 1 -> 0 <= e1 <= / 100 -> 0 <= e2 <= / 100 -> ap (fmul x y) (a * b) (e1 + e2 + e1 * e2 + 1.03 * u).
Proof.
  intros X Y A B E1 E2. pose proof (Rabs_pos a). pose proof (Rabs_pos b). assert (U : u32 = u) by reflexivity.
  assert (P1 : Rabs a * Rabs b <= 1 * 1) by (apply Rmult_le_compat; lra). assert (P2 : Rabs a * e2 <= 1 * e2) by (apply Rmult_le_compat_r; lra). assert (P3 : Rabs b * e1 <= 1 * e1) by (apply Rmult_le_compat_r; lra). assert (P4 : e1 * e2 <= / 100 * / 100) by (apply Rmult_le_compat; lra). assert (P5 : 0 <= e1 * e2) by (apply Rmult_le_pos; lra).
  destruct (ap_mul x y a b e1 e2 1.0202 X Y) as (s & S & L); [lra|apply Rle_trans with (bpow radix2 1); [simpl; lra|apply bpow_le; lia]|]. exists s. split; [exact S|].
  assert (eta <= / 1000 * u). { apply Rle_trans with (bpow radix2 (-40)); [apply bpow_le; lia|]. simpl. lra. } rewrite U in L. lra.
Qed.
Lemma addN (x y : b32) a b e1 e2 : ap x a e1 -> ap y b e2 -> Rabs a <= 1 -> Rabs b <= 1 -> 0 <= e1 <= / 100 -> 0 <= e2 <= / 100 -> ap (fadd x y) (a + b) (e1 + e2 + 2.03 * u).
Proof.
  intros X Y A B E1 E2. pose proof (Rabs_triang a b). assert (U : u32 = u) by reflexivity.
  destruct (ap_add x y a b e1 e2 2.03 X Y) as (s & S & L); [lra|apply Rle_trans with (bpow radix2 2); [simpl; lra|apply bpow_le; lia]|]. exists s. split; [exact S|]. rewrite U in L. lra.
Qed.
Lemma subN (x y : b32) a b e1 e2 : ap x a e1 -> ap y b e2 -> Rabs a <= 1 -> Rabs b <= 1 -> 0 <= e1 <= / 100 -> 0 <= e2 <= / 100 -> ap (fsub x y) (a - b) (e1 + e2 + 2.03 * u).
Proof.
  intros X Y A B E1 E2. pose proof (Rabs_triang a (- b)) as T. rewrite Rabs_Ropp in T. assert (U : u32 = u) by reflexivity.
  destruct (ap_sub x y a b e1 e2 2.03 X Y) as (s & S & L); [unfold Rminus; lra|apply Rle_trans with (bpow radix2 2); [simpl; lra|apply bpow_le; lia]|]. exists s. split; [exact S|]. rewrite U in L. lra.
Qed.
Lemma one_mul a b : Rabs a <= 1 -> Rabs b <= 1 -> Rabs (a * b) <= 1.
Proof. intros. rewrite Rabs_mult. rewrite <- (Rmult_1_r 1). apply Rmult_le_compat; auto using Rabs_pos. Qed.
Lemma one_neg a : Rabs a <= 1 -> Rabs (- a) <= 1. Proof. now rewrite Rabs_Ropp. Qed.
Lemma ap_mono x a e e' : ap x a e -> e <= e' -> ap x a e'. Proof. intros (s & S & L) H. exists s. split; [exact S|lra]. Qed.
Definition P2 (e : R) : R := e + e + e * e + 1.03 * u.
Definition P3 (e : R) : R := e + P2 e + e * P2 e + 1.03 * u.
Lemma P_bounds e : 0 <= e <= / 1000 -> e <= P2 e <= / 100 /\ P2 e <= P3 e <= / 100 /\ P3 e + P2 e + 2.03 * u <= 5.01 * e + 5.2 * u.
Proof. intros E. unfold P3. assert (A : 0 <= e * e <= / 1000 * e) by (split; nra). assert (B : P2 e <= 2.001 * e + 1.03 * u) by (unfold P2; lra). assert (B0 : 0 <= P2 e) by (unfold P2; lra). assert (C : 0 <= e * P2 e <= / 1000 * P2 e) by (split; nra). assert (D : e * P2 e <= 2.01 * (e * e) + / 1000 * (1.03 * u)) by nra. unfold P2 in * . repeat split; lra. Qed.
Section Tri.
Context (rep : bool) (Si Sj Sk Ci Cj Ck : b32) (si sj sk ci cj ck e : R).
Hypothesis (E : 0 <= e <= / 1000) (HSi : ap Si si e) (HSj : ap Sj sj e) (HSk : ap Sk sk e) (HCi : ap Ci ci e) (HCj : ap Cj cj e) (HCk : ap Ck ck e)
  (si1 : Rabs si <= 1) (sj1 : Rabs sj <= 1) (sk1 : Rabs sk <= 1) (ci1 : Rabs ci <= 1) (cj1 : Rabs cj <= 1) (ck1 : Rabs ck <= 1).
Lemma formula_close i j r c : ap (formula fmul fadd fsub fneg rep Si Sj Sk Ci Cj Ck i j r c) (formula Rmult Rplus Rminus Ropp rep si sj sk ci cj ck i j r c) (5.01 * e + 5.2 * u).
Proof.
  destruct (P_bounds e E) as (B2 & B3 & B). assert (E100 : 0 <= e <= / 100) by lra. assert (N2 : 0 <= P2 e <= / 100) by lra. assert (N3 : 0 <= P3 e <= / 100) by lra. 
  assert (T2 : forall x y a b, ap x a e -> ap y b e -> Rabs a <= 1 -> Rabs b <= 1 -> ap (fmul x y) (a * b) (P2 e)) by (intros; now apply mulN).
  assert (T3 : forall x y a b, ap x a e -> ap y b (P2 e) -> Rabs a <= 1 -> Rabs b <= 1 -> ap (fmul x y) (a * b) (P3 e)) by (intros; now apply mulN).
  assert (TA : forall x y a b, ap x a (P3 e) -> ap y b (P2 e) -> Rabs a <= 1 -> Rabs b <= 1 -> ap (fadd x y) (a + b) (5.01 * e + 5.2 * u)) by (intros; eapply ap_mono; [now apply addN; eassumption|lra]).
  assert (TS : forall x y a b, ap x a (P3 e) -> ap y b (P2 e) -> Rabs a <= 1 -> Rabs b <= 1 -> ap (fsub x y) (a - b) (5.01 * e + 5.2 * u)) by (intros; eapply ap_mono; [now apply subN; eassumption|lra]).
  assert (T1' : forall x a, ap x a e -> ap x a (5.01 * e + 5.2 * u)) by (intros; eapply ap_mono; [eassumption|lra]).
  assert (T2' : forall x a, ap x a (P2 e) -> ap x a (5.01 * e + 5.2 * u)) by (intros; eapply ap_mono; [eassumption|lra]).
  unfold formula. cbv zeta.
  destruct rep, (axis_eqb r i), (axis_eqb r j), (axis_eqb c i), (axis_eqb c j);
    first [ apply TA; [apply T3; [first [apply ap_neg|idtac]; assumption|apply T2; assumption|auto using one_mul, one_neg..]|apply T2; assumption|auto using one_mul, one_neg..]
          | apply TS; [apply T3; [first [apply ap_neg|idtac]; assumption|apply T2; assumption|auto using one_mul, one_neg..]|apply T2; assumption|auto using one_mul, one_neg..]
          | apply T2', T2; [first [apply ap_neg; assumption|assumption]|assumption|auto using one_neg..]
          | apply T1'; first [apply ap_neg; assumption|assumption] ].
Qed.
End Tri.

(** sine and cosine of a float angle [a] near [t] *)
Lemma trig_close (L : LibM b32) (a : b32) (t d : R) : libm_accurate L -> fin a -> Rabs (real a - t) <= d -> ap (fsin a) (sin t) (2 * u + d) /\ ap (fcos a) (cos t) (2 * u + d).
Proof.
  intros HL F D. destruct (HL a F) as [[FS ES] [FC EC]]. pose proof (sin_lip (real a) t). pose proof (cos_lip (real a) t). assert (U : bpow radix2 (-23) = 2 * u) by (simpl; lra). rewrite U in * .
  split; (eexists; split; [apply fin_X; assumption|]).
  - replace (_ - _) with ((real (fsin a) - sin (real a)) + (sin (real a) - sin t)) by ring. eapply Rle_trans; [apply Rabs_triang|]. lra.
  - replace (_ - _) with ((real (fcos a) - cos (real a)) + (cos (real a) - cos t)) by ring. eapply Rle_trans; [apply Rabs_triang|]. lra.
Qed.
Lemma flip_close (a : b32) (t d : R) : fin a -> Rabs (real a - t) <= d -> fin (fmul a fm1) /\ Rabs (real (fmul a fm1) - t * -1) <= d.
Proof. intros F D. destruct (fin_of_X _ _ (Props_Box.neg_scalar_X a F)) as [FN EN]. split; [exact FN|]. rewrite EN. replace (- real a - t * -1) with (- (real a - t)) by ring. now rewrite Rabs_Ropp. Qed.
Lemma sin1 t : Rabs (sin t) <= 1. Proof. apply Rabs_le. pose proof (SIN_bound t). lra. Qed.
Lemma cos1 t : Rabs (cos t) <= 1. Proof. apply Rabs_le. pose proof (COS_bound t). lra. Qed.

Lemma internal_close (L : LibM b32) (o : eorder) (a1 a2 a3 : b32) (t1 t2 t3 d : R) (r c : nat) : libm_accurate L -> 2 * u + d <= / 1000 ->
  fin a1 -> fin a2 -> fin a3 -> Rabs (real a1 - t1) <= d -> Rabs (real a2 - t2) <= d -> Rabs (real a3 - t3) <= d -> (r < 4)%nat -> (c < 4)%nat ->
  within (5.01 * (2 * u + d) + 5.2 * u) (matrix_get_value (euler_to_matrix_internal a1 a2 a3 (order_parameters (euler_real_order o))) r c) (Props_EulerX.mturn_by o t1 t2 t3 r c).
Proof.
  intros HL HD F1 F2 F3 D1 D2 D3 Hr Hc. set (p := order_parameters (euler_real_order o)). pose proof (Rabs_pos (real a1 - t1)) as D0.
  assert (E0 : 0 <= 2 * u + d <= / 1000) by lra.
  pose proof (internal_formula L a1 a2 a3 p) as I. 
  destruct (angles p (fun a => fmul a fm1) a1 a2 a3) as [[ai aj] ak] eqn:EA. rewrite I. clear I.
  destruct (Nat.ltb_spec r 3) as [R3|R3]; [destruct (Nat.ltb_spec c 3) as [C3|C3]|].
  - pose proof (formula_turn o t1 t2 t3 r c R3 C3) as T. cbv zeta in T. fold p in T. destruct (angles p (fun a => a * -1) t1 t2 t3) as [[bi bj] bk] eqn:EB. rewrite <- T. clear T.
    assert (AN : (fin ai /\ Rabs (real ai - bi) <= d) /\ (fin aj /\ Rabs (real aj - bj) <= d) /\ (fin ak /\ Rabs (real ak - bk) <= d)).
    { unfold angles, signed, framed in EA, EB. destruct (ap_parity p), (ap_frame p); injection EA as <- <- <-; injection EB as <- <- <-; refine (conj _ (conj _ _)); first [split; assumption|apply flip_close; assumption]. }
    destruct AN as ([Fi Di] & [Fj Dj] & [Fk Dk]).
    destruct (trig_close L ai bi d HL Fi Di) as [Si Ci]. destruct (trig_close L aj bj d HL Fj Dj) as [Sj Cj]. destruct (trig_close L ak bk d HL Fk Dk) as [Sk Ck].
    pose proof (formula_close (ap_rep p) _ _ _ _ _ _ _ _ _ _ _ _ _ E0 Si Sj Sk Ci Cj Ck (sin1 _) (sin1 _) (sin1 _) (cos1 _) (cos1 _) (cos1 _) (ap_first p) (axis_j (ap_first p) (ap_parity p)) (ax_of c) (ax_of r)) as K.
    apply ap_fin in K. destruct r as [|[|[|r]]]; [..|lia]; (destruct c as [|[|[|c]]]; [..|lia]); exact K.
  - assert (c = 3%nat) by lia. subst c. destruct r as [|[|[|r]]]; [..|lia]; (split; [reflexivity|]); match goal with |- Rabs ?x <= _ => change x with (0 - 0) end; rewrite Rminus_eq_0, Rabs_R0; lra.
  - assert (r = 3%nat) by lia. subst r. destruct (fin_of_X _ _ (fone_X : B2X (fone : b32) = Fin 1)) as [FO RO]. destruct c as [|[|[|[|c]]]]; [..|lia]; (split; [first [reflexivity|exact FO]|]);
      first [match goal with |- Rabs ?x <= _ => change x with (0 - 0) end|match goal with |- Rabs ?x <= _ => change x with (real (fone : b32) - 1) end; rewrite RO]; rewrite Rminus_eq_0, Rabs_R0; lra.
Qed.

(** ** C100 *)
Theorem C100_euler_to_matrix : forall (BK : Backend b32) (L : LibM b32) (o : eorder) (x y z : b32) (r c : nat), libm_accurate L ->
  fin x -> fin y -> fin z -> (r < 4)%nat -> (c < 4)%nat ->
  within (bpow radix2 (-20)) (matrix_get_value (euler_to_matrix (euler_init_from_radians x y z o)) r c) (euler_turn o (real x) (real y) (real z) r c).
Proof.
  intros BK L o x y z r c HL Fx Fy Fz Hr Hc. assert (U : bpow radix2 (-20) = 16 * u) by (simpl; lra).
  assert (K : forall a1 a2 a3 : b32, fin a1 -> fin a2 -> fin a3 -> within (bpow radix2 (-20)) (matrix_get_value (euler_to_matrix_internal a1 a2 a3 (order_parameters (euler_real_order o))) r c) (Props_EulerX.mturn_by o (real a1) (real a2) (real a3) r c)).
  { intros a1 a2 a3 F1 F2 F3. assert (Z : forall a : b32, Rabs (real a - real a) <= 0) by (intros a; rewrite Rminus_eq_0, Rabs_R0; lra).
    destruct (internal_close L o a1 a2 a3 (real a1) (real a2) (real a3) 0 r c HL ltac:(lra) F1 F2 F3 (Z _) (Z _) (Z _) Hr Hc) as [F E]. split; [exact F|]. lra. }
  unfold euler_turn, Props_EulerX.mturn, Props_EulerX.turn.
  destruct o; first [exact (K x y z Fx Fy Fz)|exact (K x z y Fx Fz Fy)|exact (K y x z Fy Fx Fz)|exact (K y z x Fy Fz Fx)|exact (K z x y Fz Fx Fy)|exact (K z y x Fz Fy Fx)|exact (K x y x Fx Fy Fx)|exact (K x z x Fx Fz Fx)|exact (K y x y Fy Fx Fy)|exact (K y z y Fy Fz Fy)|exact (K z x z Fz Fx Fz)|exact (K z y z Fz Fy Fz)].
Qed.
(** angles in degrees *)
Theorem C100_euler_degrees : forall (BK : Backend b32) (L : LibM b32) (o : eorder) (x y z : b32) (T : R) (r c : nat), libm_accurate L ->
  (forall a, In a [x; y; z] -> fin a /\ Rabs (radians a) <= T) -> T <= 2000 -> (r < 4)%nat -> (c < 4)%nat ->
  within (bpow radix2 (-20) * (1 + T)) (matrix_get_value (euler_to_matrix (euler_init_with_order x y z o)) r c) (euler_turn o (radians x) (radians y) (radians z) r c).
Proof.
  intros BK L o x y z T r c HL HA HT Hr Hc. assert (U : bpow radix2 (-20) = 16 * u) by (simpl; lra).
  assert (T0 : 0 <= T). { destruct (HA x) as [_ B]; [simpl; auto|]. pose proof (Rabs_pos (radians x)). lra. }
  assert (ETA : eta <= / 1000 * u). { apply Rle_trans with (bpow radix2 (-40)); [apply bpow_le; lia|]. simpl. lra. }
  set (d := 2 * u * T + / 1000 * u).
  assert (R : forall a, In a [x; y; z] -> fin (deg_to_rad a) /\ Rabs (real (deg_to_rad a) - radians a) <= d).
  { intros a I. destruct (HA a I) as [F B]. destruct (Props_Euler.d2r_err a F) as [FR ER].
    - unfold radians in B. pose proof Props_Euler.PI_bounds as PB. rewrite Rabs_mult, (Rabs_pos_eq (PI / 180)) in B by lra. pose proof (Rabs_pos (real a)). assert (Rabs (real a) <= 120000) by nra. apply Rle_trans with (bpow radix2 17); [simpl; lra|apply bpow_le; lia].
    - split; [exact FR|]. fold (radians a) in ER. assert (U2 : bpow radix2 (-23) = 2 * u) by (simpl; lra). rewrite U2 in ER. assert (2 * u * Rabs (radians a) <= 2 * u * T) by (apply Rmult_le_compat_l; lra). unfold d. lra. }
  destruct (R x) as [Fx Dx]; [simpl; auto|]. destruct (R y) as [Fy Dy]; [simpl; auto|]. destruct (R z) as [Fz Dz]; [simpl; auto|].
  assert (K : forall a1 a2 a3 : b32, In a1 [x; y; z] -> In a2 [x; y; z] -> In a3 [x; y; z] -> within (bpow radix2 (-20) * (1 + T)) (matrix_get_value (euler_to_matrix_internal (deg_to_rad a1) (deg_to_rad a2) (deg_to_rad a3) (order_parameters (euler_real_order o))) r c) (Props_EulerX.mturn_by o (radians a1) (radians a2) (radians a3) r c)).
  { intros a1 a2 a3 I1 I2 I3. destruct (R a1 I1) as [F1 D1]. destruct (R a2 I2) as [F2 D2]. destruct (R a3 I3) as [F3 D3].
    destruct (internal_close L o _ _ _ _ _ _ d r c HL ltac:(unfold d; lra) F1 F2 F3 D1 D2 D3 Hr Hc) as [F E]. split; [exact F|]. eapply Rle_trans; [exact E|]. rewrite U. unfold d. lra. }
  assert (Ix : In x [x; y; z]) by (simpl; auto). assert (Iy : In y [x; y; z]) by (simpl; auto). assert (Iz : In z [x; y; z]) by (simpl; auto).
  unfold euler_turn, Props_EulerX.mturn, Props_EulerX.turn.
  destruct o; first [exact (K x y z Ix Iy Iz)|exact (K x z y Ix Iz Iy)|exact (K y x z Iy Ix Iz)|exact (K y z x Iy Iz Ix)|exact (K z x y Iz Ix Iy)|exact (K z y x Iz Iy Ix)|exact (K x y x Ix Iy Ix)|exact (K x z x Ix Iz Ix)|exact (K y x y Iy Ix Iy)|exact (K y z y Iy Iz Iy)|exact (K z x z Iz Ix Iz)|exact (K z y z Iz Iy Iz)].
Qed.
(** the exact turn keeps lengths *)
Lemma euler_turn_isometry o x y z v : vnorm (vmul v (euler_turn o x y z)) = vnorm v.
Proof.
  unfold vnorm. f_equal. pose proof (Props_EulerX.turn_rotation o x y z) as T. unfold euler_turn, Props_EulerX.mturn. 
  destruct (Props_EulerX.turn o x y z Props_QuatX2.ex) as [a0 a1 a2], (Props_EulerX.turn o x y z Props_QuatX2.ey) as [b0 b1 b2], (Props_EulerX.turn o x y z Props_QuatX2.ez) as [c0 c1 c2].
  apply Props_QuatX.rotation_facts in T. destruct T as ((A1 & A2 & A3 & A4 & A5 & A6) & _). unfold sum_rows, vmul, sum_rows, Props_QuatX.mrows, Props_MatX2.of_rows, RMat.vec; cbn [Props_MatX2.r3x Props_MatX2.r3y Props_MatX2.r3z].
  set (p := v 0%nat). set (q := v 1%nat). set (r := v 2%nat). set (w := v 3%nat).
  match goal with |- ?l = _ => replace l with (p * p * (a0 * a0 + a1 * a1 + a2 * a2) + q * q * (b0 * b0 + b1 * b1 + b2 * b2) + r * r * (c0 * c0 + c1 * c1 + c2 * c2) + 2 * p * q * (a0 * b0 + a1 * b1 + a2 * b2) + 2 * q * r * (b0 * c0 + b1 * c1 + b2 * c2) + 2 * r * p * (c0 * a0 + c1 * a1 + c2 * a2) + w * w) by ring end.
  rewrite A1, A2, A3, A4, A5, A6. ring.
Qed.
Lemma close_fro (m : mat b32) (t : nat -> nat -> R) e : 0 <= e -> (forall r c, (r < 4)%nat -> (c < 4)%nat -> within e (matrix_get_value m r c) (t r c)) -> finite_mat m /\ fro (rdif (ent m) t) <= 4 * e.
Proof.
  intros P W. split; [apply fin_get; intros; apply W; auto|]. eapply Rle_trans; [apply (fro_mono _ (fun _ _ => e))|rewrite fro_const; auto; lra].
  intros r c Hr Hc. unfold rdif. rewrite <- (proj1 (get_ent m r c Hr Hc)). apply W; auto.
Qed.
Theorem C100_euler_rigid : forall (BK : Backend b32) (L : LibM b32) (o : eorder) (x y z : b32), libm_accurate L -> fin x -> fin y -> fin z ->
  rigid_mat (bpow radix2 (-18)) (euler_to_matrix (euler_init_from_radians x y z o)).
Proof.
  intros BK L o x y z HL Fx Fy Fz. destruct (close_fro (euler_to_matrix (euler_init_from_radians x y z o)) (euler_turn o (real x) (real y) (real z)) (bpow radix2 (-20)) (bpow_ge_0 _ _)) as [F E].
  - intros r c Hr Hc. now apply C100_euler_to_matrix.
  - split; [exact F|]. apply (near_fro _ _ _ (euler_turn_isometry o (real x) (real y) (real z))). replace (bpow radix2 (-18)) with (4 * bpow radix2 (-20)) by (simpl; lra). exact E.
Qed.

(** ** quaternions *)
Lemma half_exact (x : b32) : fin x -> within (2 * eta) (fmul x fhalf) (real x / 2).
Proof.
  intros F. assert (X : B2X (fmul x fhalf) = Fin (rnd32 (real x / 2))).
  { rewrite fmul_X, fhalf_X, (fin_X x F). cbn [xmul]. change (real x * / 2) with (real x / 2). apply xrnd_ok. unfold Rdiv. rewrite Rabs_mult, (Rabs_pos_eq (/ 2)) by lra.
    assert (B : Rabs (real x) < bpow radix2 128) by apply (abs_B2R_lt_emax 24 128 x). assert (E : bpow radix2 128 = 2 * bpow radix2 127) by (change 128%Z with (1 + 127)%Z; now rewrite bpow_plus). lra. }
  apply fin_of_X in X as [FX RX]. split; [exact FX|]. rewrite RX.
  destruct (FLT_format_generic radix2 (-149) 24 (real x)) as [[m e] E1 E2 E3]. { apply (generic_format_B2R 24 128 x). } cbn [Fnum Fexp] in E2, E3.
  destruct (Z.leb_spec e (-149)) as [H|H].
  - assert (B : Rabs (real x) <= bpow radix2 (-125)). { rewrite E1. unfold F2R; cbn [Fnum Fexp]. rewrite Rabs_mult, (Rabs_pos_eq (bpow radix2 e)) by apply bpow_ge_0. change (-125)%Z with (24 + -149)%Z. rewrite bpow_plus. apply Rmult_le_compat; [apply Rabs_pos|apply bpow_ge_0| |apply bpow_le; lia]. rewrite <- abs_IZR. change (bpow radix2 24) with (IZR (Zpower radix2 24)). apply IZR_le. lia. }
    pose proof (rnd_err (real x / 2)) as R. assert (A : Rabs (real x / 2) <= bpow radix2 (-126)). { unfold Rdiv. rewrite Rabs_mult, (Rabs_pos_eq (/ 2)) by lra. change (-126)%Z with (-125 + -1)%Z. rewrite bpow_plus. change (bpow radix2 (-1)) with (/ 2). lra. }
    assert (u32 * Rabs (real x / 2) <= eta). { change eta with (bpow radix2 (-24 + -126)). rewrite bpow_plus. apply Rmult_le_compat_l; [apply bpow_ge_0|exact A]. } lra.
  - assert (G : generic_format radix2 (SpecFloat.fexp 24 128) (real x / 2)). { apply (generic_format_FLT radix2 (-149) 24). exists (Float radix2 m (e - 1)); cbn [Fnum Fexp]; [|exact E2|lia]. rewrite E1. unfold F2R; cbn [Fnum Fexp]. unfold Z.sub. rewrite bpow_plus. change (bpow radix2 (-(1))) with (/ 2). field. }
    replace (rnd32 (real x / 2)) with (real x / 2) by (symmetry; apply round_generic; auto with typeclass_instances). rewrite Rminus_eq_0, Rabs_R0. pose proof (bpow_gt_0 radix2 (-150)). lra.
Qed.
(** the quaternion that turns about X, then Y, then Z *)
Definition euler_quat (x y z : R) : RQuat.RQ := Props_EulerX.qeuler x y z.
Theorem C100_euler_to_quaternion : forall (BK : Backend b32) (L : LibM b32) (o : eorder) (x y z : b32), libm_accurate L -> In o [SXYZ; RZYX; OXYZ; ODefault] ->
  fin x -> fin y -> fin z -> let q := quaternion_init_from_euler (euler_init_from_radians x y z o) in let t := euler_quat (real x) (real y) (real z) in let e := bpow radix2 (-19) in
  within e (qx q) (Props_MatX2.r3x (RQuat.qv t)) /\ within e (qy q) (Props_MatX2.r3y (RQuat.qv t)) /\ within e (qz q) (Props_MatX2.r3z (RQuat.qv t)) /\ within e (qw q) (RQuat.qs t).
Proof.
  intros BK L o x y z HL IN Fx Fy Fz q t e. assert (ETA : 2 * eta <= / 1000 * u). { apply Rle_trans with (bpow radix2 (-40)); [change (2 * eta) with (bpow radix2 1 * bpow radix2 (-150)); rewrite <- bpow_plus; apply bpow_le; lia|]. simpl. lra. }
  assert (EE : e = 32 * u) by (unfold e; simpl; lra).
  destruct (half_exact x Fx) as [Hx Ex]. destruct (half_exact y Fy) as [Hy Ey]. destruct (half_exact z Fz) as [Hz Ez].
  destruct (trig_close L _ _ _ HL Hx Ex) as [Si Ci]. destruct (trig_close L _ _ _ HL Hy Ey) as [Sj Cj]. destruct (trig_close L _ _ _ HL Hz Ez) as [Sk Ck].
  set (d := 2 * u + 2 * eta) in * . assert (D : 0 <= d <= / 1000) by (unfold d; pose proof (bpow_gt_0 radix2 (-150)); lra). destruct (P_bounds d D) as (B2 & B3 & B).
  assert (D100 : 0 <= d <= / 100) by lra. assert (N2 : 0 <= P2 d <= / 100) by lra. assert (N3 : 0 <= P3 d <= / 100) by lra.
  assert (T2 : forall x y a b, ap x a d -> ap y b d -> Rabs a <= 1 -> Rabs b <= 1 -> ap (fmul x y) (a * b) (P2 d)) by (intros; now apply mulN).
  assert (T3 : forall x y a b, ap x a d -> ap y b (P2 d) -> Rabs a <= 1 -> Rabs b <= 1 -> ap (fmul x y) (a * b) (P3 d)) by (intros; now apply mulN).
  assert (PE : P3 d + P3 d + 2.03 * u <= e). { rewrite EE. unfold P3. assert (P2 d <= 5.1 * u) by (unfold P2; assert (d * d <= / 1000 * d) by nra; unfold d in * ; lra). assert (d * P2 d <= / 1000 * P2 d) by nra. unfold d in * . lra. }
  assert (TA : forall x y a b, ap x a (P3 d) -> ap y b (P3 d) -> Rabs a <= 1 -> Rabs b <= 1 -> within e (fadd x y) (a + b)) by (intros; eapply ap_within; [now apply addN; eassumption|lra]).
  assert (TS : forall x y a b, ap x a (P3 d) -> ap y b (P3 d) -> Rabs a <= 1 -> Rabs b <= 1 -> within e (fsub x y) (a - b)) by (intros; eapply ap_within; [now apply subN; eassumption|lra]).
  assert (EQ : q = quaternion_init_from_euler (euler_init_from_radians x y z SXYZ)) by (unfold q; simpl in IN; destruct IN as [<-|[<-|[<-|[<-|[]]]]]; reflexivity).
  assert (TX : Props_MatX2.r3x (RQuat.qv t) = cos (real y / 2) * (sin (real x / 2) * cos (real z / 2)) - sin (real y / 2) * (cos (real x / 2) * sin (real z / 2)) /\
               Props_MatX2.r3y (RQuat.qv t) = cos (real y / 2) * (sin (real x / 2) * sin (real z / 2)) + sin (real y / 2) * (cos (real x / 2) * cos (real z / 2)) /\
               Props_MatX2.r3z (RQuat.qv t) = cos (real y / 2) * (cos (real x / 2) * sin (real z / 2)) - sin (real y / 2) * (sin (real x / 2) * cos (real z / 2)) /\
               RQuat.qs t = cos (real y / 2) * (cos (real x / 2) * cos (real z / 2)) + sin (real y / 2) * (sin (real x / 2) * sin (real z / 2))).
  { unfold t, euler_quat, Props_EulerX.qeuler, RQuat.qaxis, RQuat.qmul, Props_QuatX2.ex, Props_QuatX2.ey, Props_QuatX2.ez, Props_MatX2.add3, Props_MatX2.scl3, Props_MatX2.cross, Props_MatX2.dot; cbn [RQuat.qs RQuat.qv Props_MatX2.r3x Props_MatX2.r3y Props_MatX2.r3z]. repeat split; ring. }
  destruct TX as (-> & -> & -> & ->). rewrite EQ. clear q EQ t.
  pose proof (sin1 (real x / 2)). pose proof (sin1 (real y / 2)). pose proof (sin1 (real z / 2)). pose proof (cos1 (real x / 2)). pose proof (cos1 (real y / 2)). pose proof (cos1 (real z / 2)).
  split; [|split; [|split]].
  - apply TS; [apply T3; [exact Cj|apply T2; assumption|auto using one_mul..]|apply T3; [exact Sj|apply T2; assumption|auto using one_mul..]|auto using one_mul..].
  - apply TA; [apply T3; [exact Cj|apply T2; assumption|auto using one_mul..]|apply T3; [exact Sj|apply T2; assumption|auto using one_mul..]|auto using one_mul..].
  - apply TS; [apply T3; [exact Cj|apply T2; assumption|auto using one_mul..]|apply T3; [exact Sj|apply T2; assumption|auto using one_mul..]|auto using one_mul..].
  - apply TA; [apply T3; [exact Cj|apply T2; assumption|auto using one_mul..]|apply T3; [exact Sj|apply T2; assumption|auto using one_mul..]|auto using one_mul..].
Qed.

(** ** the rotation matrix of that quaternion *)
Lemma rotm_turn o x y z r c : In o [SXYZ; RZYX; OXYZ; ODefault] -> (r < 4)%nat -> (c < 4)%nat -> let t := euler_quat x y z in
  rotm (Props_MatX2.r3x (RQuat.qv t)) (Props_MatX2.r3y (RQuat.qv t)) (Props_MatX2.r3z (RQuat.qv t)) (RQuat.qs t) r c = euler_turn o x y z r c.
Proof.
  intros IN Hr Hc t. pose proof (Props_EulerX.qeuler_unit x y z) as U. fold (euler_quat x y z) in U. fold t in U.
  assert (Q : forall v, RQuat.qrot t v = Props_EulerX.turn o x y z v).
  { intros v. unfold t, euler_quat, Props_EulerX.qeuler. rewrite !RQuat.qrot_mul, (RQuat.qaxis_rot Props_QuatX2.ez), (RQuat.qaxis_rot Props_QuatX2.ey), (RQuat.qaxis_rot Props_QuatX2.ex) by (apply (Props_EulerX.axis_unit AX) || apply (Props_EulerX.axis_unit AY) || apply (Props_EulerX.axis_unit AZ)).
    simpl in IN; destruct IN as [<-|[<-|[<-|[<-|[]]]]]; reflexivity. }
  unfold euler_turn, Props_EulerX.mturn. rewrite <- !Q. change (Props_QuatX.mrows (RQuat.qrot t Props_QuatX2.ex) (RQuat.qrot t Props_QuatX2.ey) (RQuat.qrot t Props_QuatX2.ez)) with (Props_QuatX.mquat t).
  clear Q. destruct t as [w [a b d]]. rewrite Props_QuatX.mquat_closed. unfold RQuat.unit_q, RQuat.qdot, Props_MatX2.dot in U. cbn [RQuat.qs RQuat.qv Props_MatX2.r3x Props_MatX2.r3y Props_MatX2.r3z] in * .
  do 4 (destruct r as [|r]; [do 4 (destruct c as [|c]; [cbn; first [reflexivity|lra]|]); exfalso; lia|]); exfalso; lia.
Qed.
Lemma prod_gap a b a' b' e : Rabs a <= 1 -> Rabs b <= 1 -> Rabs (a' - a) <= e -> Rabs (b' - b) <= e -> Rabs (a' * b' - a * b) <= 2 * e + e * e.
Proof.
  intros A B HA HB. pose proof (Rabs_pos (a' - a)) as E0. replace (a' * b' - a * b) with ((a' - a) * b + a * (b' - b) + (a' - a) * (b' - b)) by ring.
  pose proof (mul_le _ _ _ _ HA B). pose proof (mul_le _ _ _ _ A HB). pose proof (mul_le _ _ _ _ HA HB). repeat match goal with H : Rabs (_ * _) <= _ |- _ => apply rabs_bd in H end. apply Rabs_le. lra.
Qed.
Lemma rotm_gap x y z w x' y' z' w' e r c : Rabs x <= 1 -> Rabs y <= 1 -> Rabs z <= 1 -> Rabs w <= 1 -> Rabs (x' - x) <= e -> Rabs (y' - y) <= e -> Rabs (z' - z) <= e -> Rabs (w' - w) <= e ->
  Rabs (rotm x' y' z' w' r c - rotm x y z w r c) <= 4 * (2 * e + e * e).
Proof.
  intros X Y Z W X' Y' Z' W'. assert (E0 : 0 <= e) by (eapply Rle_trans; [apply Rabs_pos|exact X']). assert (E2 : 0 <= e * e) by nra.
  pose proof (prod_gap _ _ _ _ _ X X X' X'). pose proof (prod_gap _ _ _ _ _ Y Y Y' Y'). pose proof (prod_gap _ _ _ _ _ Z Z Z' Z'). pose proof (prod_gap _ _ _ _ _ X Y X' Y'). pose proof (prod_gap _ _ _ _ _ X Z X' Z'). pose proof (prod_gap _ _ _ _ _ Y Z Y' Z'). pose proof (prod_gap _ _ _ _ _ W X W' X'). pose proof (prod_gap _ _ _ _ _ W Y W' Y'). pose proof (prod_gap _ _ _ _ _ W Z W' Z').
  repeat match goal with H : Rabs (_ * _ - _) <= _ |- _ => apply rabs_bd in H end.
  apply Rabs_le. destruct r as [|[|[|[|r]]]]; (destruct c as [|[|[|[|c]]]]; cbn [rotm]; lra).
Qed.
Theorem C100_quaternion_matrix : forall (BK : Backend b32) (L : LibM b32) (o : eorder) (x y z : b32) (r c : nat), libm_accurate L -> In o [SXYZ; RZYX; OXYZ; ODefault] ->
  fin x -> fin y -> fin z -> (r < 4)%nat -> (c < 4)%nat ->
  within (bpow radix2 (-15)) (matrix_get_value (quaternion_to_matrix (quaternion_init_from_euler (euler_init_from_radians x y z o))) r c) (euler_turn o (real x) (real y) (real z) r c).
Proof.
  intros BK L o x y z r c HL IN Fx Fy Fz Hr Hc. destruct (C100_euler_to_quaternion BK L o x y z HL IN Fx Fy Fz) as ([F1 E1] & [F2 E2] & [F3 E3] & [F4 E4]). set (q := quaternion_init_from_euler (euler_init_from_radians x y z o)) in * .
  rewrite <- (rotm_turn o (real x) (real y) (real z) r c IN Hr Hc). set (t := euler_quat (real x) (real y) (real z)) in * .
  pose proof (Props_EulerX.qeuler_unit (real x) (real y) (real z)) as U. fold (euler_quat (real x) (real y) (real z)) in U. fold t in U. unfold RQuat.unit_q, RQuat.qdot, Props_MatX2.dot in U.
  set (a := Props_MatX2.r3x (RQuat.qv t)) in * . set (b := Props_MatX2.r3y (RQuat.qv t)) in * . set (d := Props_MatX2.r3z (RQuat.qv t)) in * . set (w := RQuat.qs t) in * .
  assert (A1 : forall p, p * p <= 1 -> Rabs p <= 1) by (intros p Hp; apply Rabs_le; split; nra).
  assert (Aa : Rabs a <= 1) by (apply A1; nra). assert (Ab : Rabs b <= 1) by (apply A1; nra). assert (Ad : Rabs d <= 1) by (apply A1; nra). assert (Aw : Rabs w <= 1) by (apply A1; nra).
  change (bpow radix2 (-19)) with (/ 524288) in * .
  assert (UP : forall (X : b32) p, fin X -> Rabs p <= 1 -> Rabs (real X - p) <= / 524288 -> upto 40 X). { intros X p FX Hp HX. apply (upto_small X 2 FX); [|lra]. replace (real X) with ((real X - p) + p) by ring. eapply Rle_trans; [apply Rabs_triang|]. lra. }
  assert (UQ : uptoq 40 q) by (repeat split; try assumption; [apply (UP _ a)|apply (UP _ b)|apply (UP _ d)|apply (UP _ w)]; assumption).
  destruct (C83_quaternion_to_matrix q r c UQ Hr Hc) as [FM EM]. cbv zeta in EM. split; [exact FM|].
  pose proof (rotm_gap a b d w _ _ _ _ _ r c Aa Ab Ad Aw E1 E2 E3 E4) as G.
  assert (N : real (qx q) * real (qx q) + real (qy q) * real (qy q) + real (qz q) * real (qz q) + real (qw q) * real (qw q) <= 1.001).
  { pose proof (prod_gap _ _ _ _ _ Aa Aa E1 E1) as G1. pose proof (prod_gap _ _ _ _ _ Ab Ab E2 E2) as G2. pose proof (prod_gap _ _ _ _ _ Ad Ad E3 E3) as G3. pose proof (prod_gap _ _ _ _ _ Aw Aw E4 E4) as G4. apply rabs_bd in G1, G2, G3, G4. lra. }
  assert (S : Props_Err5.slack 4.25 (1 + 2 * (real (qx q) * real (qx q) + real (qy q) * real (qy q) + real (qz q) * real (qz q) + real (qw q) * real (qw q))) (-100) <= / 131072).
  { unfold Props_Err5.slack. assert (bpow radix2 (-100) <= bpow radix2 (-24)) by (apply bpow_le; lia). change (bpow radix2 (-24)) with (/ 16777216) in * . lra. }
  apply rabs_bd in EM, G. change (bpow radix2 (-15)) with (/ 32768). apply Rabs_le. lra.
Qed.

(** ** any number of turns, each a float matrix near an exact isometry, multiplied onto a matrix *)
Lemma product_history (BK : Backend b32) (d : R) (m0 : mat b32) (l : list (mat b32 * (nat -> nat -> R))) :
  Forall (fun mt => finite_mat (fst mt) /\ (forall v, vnorm (vmul v (snd mt)) = vnorm v) /\ fro (rdif (ent (fst mt)) (snd mt)) <= d) l -> 0 <= d ->
  finite_mat m0 -> let K := fro (ent m0) in let n := INR (length l) in let step := 1.5 * d + bpow radix2 (-20) in
  let got := fold_left (fun m mt => matrix_multiply m (fst mt)) l m0 in let want := fold_left (fun m mt => rmul m (snd mt)) l (ent m0) in
  bpow radix2 (-100) <= K -> K <= bpow radix2 120 -> n * step <= / 4 ->
  finite_mat got /\ fro want = K /\ fro (rdif (ent got) want) <= n * step * K.
Proof.
  intros GL HD F0 K n step got want K1 K2. unfold n, got, want. clear n got want. revert GL.
  assert (PS : 0 < step) by (unfold step; pose proof (bpow_gt_0 radix2 (-20)); lra). assert (PK : 0 < K) by (pose proof (bpow_gt_0 radix2 (-100)); lra).
  induction l as [|[m t] l IH] using rev_ind; intros GL HN.
  - cbn [fold_left length INR]. split; [exact F0|split; [reflexivity|]]. unfold rdif. rewrite (fro_ext _ (fun _ _ => 0)) by (intros; ring). rewrite fro_const; lra.
  - apply Forall_app in GL as [GL GA]. apply Forall_inv in GA. destruct GA as (FM & ISO & EM). cbn [fst snd] in FM, ISO, EM. rewrite app_length in * . cbn [length] in * . rewrite plus_INR in * . cbn [INR] in * . set (n := INR (length l)) in * . pose proof (pos_INR (length l)) as PN. fold n in PN.
    destruct IH as (F & TK & E); auto; [nra|].
    rewrite !fold_left_app. cbn [fold_left fst snd]. set (p := fold_left _ l m0) in * . set (X := fold_left _ l (ent m0)) in * .
    assert (IF : forall A, fro (rmul A t) = fro A). { intros A. rewrite !fro_rows. apply vnorm_ext. intros r _. apply (ISO (A r)). }
    assert (NS : n * step * K <= / 4 * K) by (apply Rmult_le_compat_r; nra).
    assert (BP : fro (ent p) <= 1.25 * K). { pose proof (fro_from (ent p) X). lra. }
    assert (ST : step <= / 4) by nra. assert (E4 : d <= / 4) by (unfold step in ST; pose proof (bpow_gt_0 radix2 (-20)); lra).
    assert (IT : fro t = 2). { unfold fro. rewrite <- (sqrt_square 2) by lra. f_equal. unfold sum_rows.
      assert (Q : forall r, (r < 4)%nat -> sum_rows (fun c => t r c * t r c) = 1).
      { intros r Hr. rewrite <- (vnorm_sq (t r)). replace (vnorm (t r)) with 1; [lra|]. rewrite <- (vnorm_ext (vmul (fun i => if Nat.eqb i r then 1 else 0) t)).
        - rewrite ISO. unfold vnorm, sum_rows. rewrite <- (sqrt_square 1) at 1 by lra. f_equal. do 4 (destruct r as [|r]; [cbn; ring|]). lia.
        - intros c _. unfold vmul, sum_rows. do 4 (destruct r as [|r]; [cbn; ring|]). lia. }
      pose proof (Q 0%nat ltac:(lia)). pose proof (Q 1%nat ltac:(lia)). pose proof (Q 2%nat ltac:(lia)). pose proof (Q 3%nat ltac:(lia)). unfold sum_rows in * . lra. }
    assert (BM : fro (ent m) <= 2.25). { pose proof (fro_from (ent m) t). lra. }
    pose proof (fro_pos (ent p)) as PP. pose proof (fro_pos (ent m)) as PM.
    assert (PB : fro (ent p) * fro (ent m) <= 1.25 * K * 2.25) by (apply Rmult_le_compat; lra).
    destruct (prod_fro BK p m F FM) as [FF EF]. { assert (bpow radix2 126 = 64 * bpow radix2 120) by (change 126%Z with (6 + 120)%Z; now rewrite bpow_plus). lra. }
    split; auto. split; [rewrite IF; exact TK|].
    eapply Rle_trans; [apply (fro_dif_tri _ (rmul (ent p) (ent m)))|].
    assert (A1 : fro (rdif (rmul (ent p) (ent m)) (rmul X t)) <= 1.25 * K * d + n * step * K).
    { eapply Rle_trans; [apply (fro_dif_tri _ (rmul (ent p) t))|]. apply Rplus_le_compat.
      - rewrite (fro_ext _ (rmul (ent p) (rdif (ent m) t))) by (intros; unfold rdif, rmul, sum_rows; ring). eapply Rle_trans; [apply fro_mul|]. apply Rmult_le_compat; auto using fro_pos.
      - rewrite (fro_ext _ (rmul (rdif (ent p) X) t)) by (intros; unfold rdif, rmul, sum_rows; ring). rewrite IF. exact E. }
    assert (A2 : bpow radix2 (-145) <= / 8 * bpow radix2 (-20) * K).
    { change (/ 8) with (bpow radix2 (-3)). rewrite <- bpow_plus. apply Rle_trans with (bpow radix2 (-3 + -20) * bpow radix2 (-100)); [rewrite <- bpow_plus; apply bpow_le; lia|apply Rmult_le_compat_l; [apply bpow_ge_0|auto]]. }
    assert (A3 : bpow radix2 (-22) * (fro (ent p) * fro (ent m)) <= / 4 * bpow radix2 (-20) * (1.25 * K * 2.25)).
    { change (/ 4) with (bpow radix2 (-2)). rewrite <- bpow_plus. apply Rmult_le_compat_l; [apply bpow_ge_0|auto]. }
    pose proof (bpow_gt_0 radix2 (-20)) as P20. assert (0 < bpow radix2 (-20) * K) by (now apply Rmult_lt_0_compat). assert (0 <= d * K) by (apply Rmult_le_pos; lra).
    assert (SE : step * K = 1.5 * (d * K) + bpow radix2 (-20) * K) by (unfold step; ring). replace ((n + 1) * step * K) with (n * step * K + step * K) by ring. rewrite SE. lra.
Qed.
Lemma fold_map {A B C : Type} (f : A -> B -> A) (g : C -> B) l : forall a, fold_left (fun x c => f x (g c)) l a = fold_left f (map g l) a.
Proof. induction l as [|c l IH]; intros a; [reflexivity|]. cbn. apply IH. Qed.
Lemma fold_ext {A B : Type} (f g : A -> B -> A) l : (forall m a, f m a = g m a) -> forall a, fold_left f l a = fold_left g l a.
Proof. intros H. induction l as [|c l IH]; intros a; [reflexivity|]. cbn. rewrite H. apply IH. Qed.
(** graphene_matrix_rotate_euler, any number of times, by angles in radians *)
Definition good_angles (a : b32 * b32 * b32) : Prop := let '(x, y, z) := a in fin x /\ fin y /\ fin z.
Theorem C100_rotate_euler_history : forall (BK : Backend b32) (L : LibM b32) (o : eorder) (m0 : mat b32) (l : list (b32 * b32 * b32)), libm_accurate L -> In o [SXYZ; RZYX; OXYZ; ODefault] ->
  Forall good_angles l -> finite_mat m0 -> let K := fro (ent m0) in let n := INR (length l) in
  bpow radix2 (-100) <= K -> K <= bpow radix2 120 -> n <= 1024 ->
  let got := fold_left (fun m a => let '(x, y, z) := a in matrix_rotate_euler m (euler_init_from_radians x y z o)) l m0 in
  let want := fold_left (fun m a => let '(x, y, z) := a in rmul m (euler_turn o (real x) (real y) (real z))) l (ent m0) in
  finite_mat got /\ fro want = K /\ fro (rdif (ent got) want) <= n * bpow radix2 (-12) * K.
Proof.
  intros BK L o m0 l HL IN GL F0 K n K1 K2 HN got want.
  set (g := fun a : b32 * b32 * b32 => let '(x, y, z) := a in (quaternion_to_matrix (quaternion_init_from_euler (euler_init_from_radians x y z o)), euler_turn o (real x) (real y) (real z))).
  assert (EG : got = fold_left (fun m mt => matrix_multiply m (fst mt)) (map g l) m0) by (unfold got; rewrite <- (fold_map (fun m mt => matrix_multiply m (fst mt)) g); apply fold_ext; intros m [[x y] z]; reflexivity).
  assert (EW : want = fold_left (fun m mt => rmul m (snd mt)) (map g l) (ent m0)) by (unfold want; rewrite <- (fold_map (fun m mt => rmul m (snd mt)) g); apply fold_ext; intros m [[x y] z]; reflexivity).
  assert (ST : 1.5 * bpow radix2 (-13) + bpow radix2 (-20) <= bpow radix2 (-12)) by (change (bpow radix2 (-13)) with (/ 8192); change (bpow radix2 (-20)) with (/ 1048576); change (bpow radix2 (-12)) with (/ 4096); lra).
  assert (N0 : 0 <= n) by (unfold n; apply pos_INR). pose proof (bpow_gt_0 radix2 (-13)) as P13. pose proof (bpow_gt_0 radix2 (-20)) as P20.
  destruct (product_history BK (bpow radix2 (-13)) m0 (map g l)) as (A & B & C).
  - apply Forall_map. eapply Forall_impl; [|exact GL]. intros [[x y] z] (Fx & Fy & Fz). cbn [g fst snd].
    destruct (close_fro (quaternion_to_matrix (quaternion_init_from_euler (euler_init_from_radians x y z o))) (euler_turn o (real x) (real y) (real z)) (bpow radix2 (-15)) (bpow_ge_0 _ _)) as [F E].
    + intros r c Hr Hc. now apply C100_quaternion_matrix.
    + split; [exact F|]. split; [apply euler_turn_isometry|]. replace (bpow radix2 (-13)) with (4 * bpow radix2 (-15)) by (simpl; lra). exact E.
  - lra.
  - exact F0.
  - exact K1.
  - exact K2.
  - rewrite map_length. fold n. apply Rle_trans with (1024 * bpow radix2 (-12)); [apply Rmult_le_compat; lra|simpl; lra].
  - rewrite <- EG in A, C. rewrite <- EW in B, C. split; [exact A|]. split; [exact B|]. eapply Rle_trans; [exact C|]. rewrite map_length. fold n. fold K. apply Rmult_le_compat_r; [unfold K; apply fro_pos|]. apply Rmult_le_compat_l; assumption.
Qed.

(** ** the hypotheses can be met: the sine and cosine of C90's example, any three angles, the identity to start from *)
Example C100_ex : libm_accurate libm23 /\ (forall a, In a [lit 1 0; lit (-3) 0; lit 2 0] -> fin a /\ Rabs (radians a) <= 2) /\ good_angles (lit 1 0, lit (-3) 0, lit 2 0) /\ finite_mat (matrix_init_identity : mat b32) /\ bpow radix2 (-100) <= fro (ent (matrix_init_identity : mat b32)) <= bpow radix2 120.
Proof.
  split; [apply libm23_ok|]. destruct (lit_real 1 0) as [F1 R1]; try lia. destruct (lit_real (-3) 0) as [F3 R3]; try lia. destruct (lit_real 2 0) as [F2 R2]; try lia. change (bpow radix2 0) with 1 in * .
  change (flit 1 0) with (lit 1 0 : b32) in * . change (flit (-3) 0) with (lit (-3) 0 : b32) in * . change (flit 2 0) with (lit 2 0 : b32) in * . pose proof Props_Euler.PI_bounds as PB.
  split; [|split; [|split]].
  - intros a [<-|[<-|[<-|[]]]]; (split; [assumption|]); unfold radians; rewrite ?R1, ?R3, ?R2; apply Rabs_le; split; lra.
  - repeat split; assumption.
  - destruct (fin_of_X _ _ (fone_X : B2X (fone : b32) = Fin 1)) as [FO RO]. repeat split; first [exact FO|reflexivity].
  - assert (E : fro (ent (matrix_init_identity : mat b32)) = 2).
    { unfold fro. rewrite <- (sqrt_square 2) by lra. f_equal. destruct (fin_of_X _ _ (fone_X : B2X (fone : b32) = Fin 1)) as [FO RO].
      assert (D : forall i j, (i < 4)%nat -> (j < 4)%nat -> ent (matrix_init_identity : mat b32) i j = if Nat.eqb i j then 1 else 0). { intros i j Hi Hj. do 4 (destruct i as [|i]; [do 4 (destruct j as [|j]; [first [exact RO|reflexivity]|]); exfalso; lia|]); exfalso; lia. }
      unfold sum_rows. rewrite !D by lia. cbn [Nat.eqb]. ring. }
    rewrite E. split; [apply Rle_trans with (bpow radix2 0); [apply bpow_le; lia|simpl; lra]|apply Rle_trans with (bpow radix2 1); [simpl; lra|apply bpow_le; lia]].
Qed.
