(** * Props_Pick: picking and culling through bounding volumes never lose a hit (C89), binary32, every back end. *)
From Coq Require Import ZArith Reals Bool List Lra Lia.
From Flocq Require Import Core BinarySingleNaN.
From Verif Require Import Num Simd Vec Rect Box Mat Geo OrdThy FloatThy B32Setup FloatLem BoxThy Hist Props_Box Props_Rect Props_Mat Props_Geo.
Import ListNotations.

(** ** Orders *)
(** [a'] is a weaker lower bound than [a]: whatever lies strictly below a' lies strictly below a (a NaN bound constrains nothing). *)
Definition wlo (a a' : b32) : Prop := forall z, flt z a' = true -> flt z a = true.
Definition whi (b b' : b32) : Prop := forall z, flt b' z = true -> flt b z = true.
Lemma flt_trans (a b c : b32) : flt a b = true -> flt b c = true -> flt a c = true.
Proof. rewrite !flt_X. destruct (B2X a), (B2X b), (B2X c); try easy. rewrite !xlt_fin. lra. Qed.
Lemma flt_or (z x y : b32) : (flt x y || fisnan x)%bool = false -> flt z y = true -> flt z x = true.
Proof. rewrite !flt_X, fisnan_X. destruct (B2X z), (B2X x), (B2X y); try easy. rewrite orb_false_r, xlt_fin_f, !xlt_fin. lra. Qed.
Lemma flt_or' (z x y : b32) : (flt y x || fisnan x)%bool = false -> flt y z = true -> flt x z = true.
Proof. rewrite !flt_X, fisnan_X. destruct (B2X z), (B2X x), (B2X y); try easy. rewrite orb_false_r, xlt_fin_f, !xlt_fin. lra. Qed.
Lemma nan_lt_r (z x : b32) : fisnan x = true -> flt z x = false.
Proof. rewrite flt_X, fisnan_X. destruct (B2X z), (B2X x); easy. Qed.
(** accumulating bounds keeps the order *)
Definition aclo (x y : b32) := if (flt x y || fisnan x)%bool then y else x.
Definition achi (x y : b32) := if (flt y x || fisnan x)%bool then y else x.
Lemma aclo_iff z x y : flt z (aclo x y) = true <-> flt z x = true \/ flt z y = true.
Proof.
  unfold aclo. destruct (flt x y || fisnan x)%bool eqn:E; split; auto.
  - intros [H|H]; auto. apply orb_true_iff in E. destruct E as [E|E]; [eapply flt_trans; eauto|]. rewrite (nan_lt_r z x E) in H. easy.
  - intros [H|H]; auto. eapply flt_or; eauto.
Qed.
Lemma achi_iff z x y : flt (achi x y) z = true <-> flt x z = true \/ flt y z = true.
Proof.
  unfold achi. destruct (flt y x || fisnan x)%bool eqn:E; split; auto.
  - intros [H|H]; auto. apply orb_true_iff in E. destruct E as [E|E]; [eapply flt_trans; eauto|]. rewrite (nan_not_lt x z E) in H. easy.
  - intros [H|H]; auto. eapply flt_or'; eauto.
Qed.
Lemma wlo_ac x y x' y' : wlo x x' -> wlo y y' -> wlo (aclo x y) (aclo x' y').
Proof. intros A B z. rewrite !aclo_iff. intros [H|H]; auto. Qed.
Lemma whi_ac x y x' y' : whi x x' -> whi y y' -> whi (achi x y) (achi x' y').
Proof. intros A B z. rewrite !achi_iff. intros [H|H]; auto. Qed.
Lemma w_cross l h l' h' : wlo l l' -> whi h h' -> flt h' l' = true -> flt h l = true.
Proof. intros A B H. apply B, A, H. Qed.

(** ** One axis *)
Definition amin (i o lo hi : b32) := if fle fzero i then fmul (fsub lo o) i else fmul (fsub hi o) i.
Definition amax (i o lo hi : b32) := if fle fzero i then fmul (fsub hi o) i else fmul (fsub lo o) i.
(** no zero times infinity other than through the reciprocal of zero *)
Definition calm (i o c : b32) : Prop := B2X i <> Fin 0 \/ fin (fsub c o).
Lemma xsub_mono a a' o : xle a a' = true -> xle (xsub a (Fin o)) (xsub a' (Fin o)) = true.
Proof. destruct a, a'; try easy. cbn [xsub xadd xneg]. rewrite !xle_fin. lra. Qed.
Lemma fsub_mono (a a' o : b32) : fin o -> fle a a' = true -> fle (fsub a o) (fsub a' o) = true.
Proof. intros F. rewrite !fle_X, !fsub_X, (fin_X o F). intros H. apply xrnd_mono, xsub_mono, H. Qed.
Lemma xrnd_fin0 (x : xreal) : x = NInf -> xrnd (prec:=24) (emax:=128) x = NInf. Proof. now intros ->. Qed.
(** a product with a nonnegative factor: weaker lower bounds *)
Definition xweak (p p' : xreal) : Prop := xle p' p = true \/ p' = NInf \/ p' = Undef.
Lemma xmul_weak (i d d' : xreal) : xle (Fin 0) i = true -> xle d' d = true -> (i <> Fin 0 \/ exists r, d = Fin r) -> xweak (xmul d i) (xmul d' i).
Proof.
  intros I L C. unfold xweak. destruct i as [r| | |] eqn:Ei; try easy.
  - apply xle_fin in I. assert (R : (0 < r)%R \/ (r = 0%R /\ exists r, d = Fin r)).
    { destruct (Req_dec r 0) as [E|E]; [|left; lra]. destruct C as [C|C]; [congruence|]. auto. }
    destruct R as [R|[-> [q ->]]].
    + left. destruct d' as [q'| | |], d as [q| | |]; try easy; cbn [xmul]; unfold xsgn_inf; try (destruct (Rlt_dec 0 r); [|lra]); try easy.
      apply xle_fin in L. apply xle_fin. nra.
    + destruct d' as [q'| | |]; try easy; cbn [xmul]; unfold xsgn_inf.
      * left. apply xle_fin. lra.
      * destruct (Rlt_dec 0 0); [lra|]. auto.
  - destruct d' as [q'| | |], d as [q| | |]; try easy; cbn [xmul]; unfold xsgn_inf; auto.
    + apply xle_fin in L. destruct (Rlt_dec 0 q'); destruct (Rlt_dec 0 q); try lra; auto; destruct (Rlt_dec q' 0); auto.
    + destruct (Rlt_dec 0 q'); auto. destruct (Rlt_dec q' 0); auto.
Qed.
Lemma weak_rnd p p' (z : xreal) : xweak p p' -> xlt z (xrnd (prec:=24) (emax:=128) p') = true -> xlt z (xrnd (prec:=24) (emax:=128) p) = true.
Proof.
  intros [K|[-> | ->]].
  - apply (xrnd_mono (prec:=24) (emax:=128)) in K. revert K. generalize (xrnd (prec:=24) (emax:=128) p') (xrnd (prec:=24) (emax:=128) p). clear.
    intros p q K. destruct z, p, q; try easy. rewrite xle_fin in K. rewrite !xlt_fin. lra.
  - cbn. destruct z; easy.
  - cbn. destruct z; easy.
Qed.
Lemma xlt_opp a b : xlt (xneg a) (xneg b) = xlt b a.
Proof. destruct a, b; try easy. cbn [xneg]. apply eq_true_iff_eq. rewrite !xlt_fin. lra. Qed.
Lemma xle_opp a b : xle (xneg a) (xneg b) = xle b a.
Proof. destruct a, b; try easy. cbn [xneg]. apply eq_true_iff_eq. rewrite !xle_fin. lra. Qed.
Lemma xnegneg a : xneg (xneg a) = a. Proof. destruct a; try easy. cbn [xneg]. f_equal. lra. Qed.
Lemma xmul_opp_l a b : xmul (xneg a) b = xneg (xmul a b).
Proof.
  destruct a as [r| | |], b as [s| | |]; try easy; cbn [xneg xmul]; unfold xsgn_inf.
  - f_equal. lra.
  - destruct (Rlt_dec 0 r), (Rlt_dec 0 (- r)); try lra; destruct (Rlt_dec r 0), (Rlt_dec (- r) 0); try lra; easy.
  - destruct (Rlt_dec 0 r), (Rlt_dec 0 (- r)); try lra; destruct (Rlt_dec r 0), (Rlt_dec (- r) 0); try lra; easy.
  - destruct (Rlt_dec 0 s); auto. destruct (Rlt_dec s 0); auto.
  - destruct (Rlt_dec 0 s); auto. destruct (Rlt_dec s 0); auto.
Qed.
Lemma xmul_opp_r a b : xmul a (xneg b) = xneg (xmul a b).
Proof. rewrite (xmul_comm a (xneg b)), (xmul_comm a b). apply xmul_opp_l. Qed.
Definition okf (i d : b32) : Prop := B2X i <> Fin 0 \/ fin d.
Lemma okf_X i d : okf i d -> B2X i <> Fin 0 \/ exists r, B2X d = Fin r.
Proof. intros [H|H]; [auto|]. right. rewrite (fin_X d H). eauto. Qed.
Lemma mul_lo_pos (i d d' : b32) : fle fzero i = true -> fle d' d = true -> okf i d -> wlo (fmul d i) (fmul d' i).
Proof. intros I L C z. rewrite fle_X, fzero_X in I. rewrite fle_X in L. rewrite !flt_X, !fmul_X. apply weak_rnd, xmul_weak; auto using okf_X. Qed.
Lemma mul_hi_pos (i d d' : b32) : fle fzero i = true -> fle d d' = true -> okf i d -> whi (fmul d i) (fmul d' i).
Proof.
  intros I L C z. rewrite fle_X, fzero_X in I. rewrite fle_X in L. rewrite !flt_X, !fmul_X.
  rewrite <- (xlt_opp (B2X z)), <- xrnd_neg, <- xmul_opp_l. intros H. rewrite <- (xlt_opp (B2X z)), <- xrnd_neg, <- xmul_opp_l. revert H.
  apply weak_rnd, xmul_weak; auto. now rewrite xle_opp. apply okf_X in C. destruct C as [C|[r ->]]; cbn; eauto.
Qed.
Lemma neg_nonneg (i : b32) : fle fzero i = false -> B2X i = Undef \/ xle (Fin 0) (xneg (B2X i)) = true.
Proof. rewrite fle_X, fzero_X. destruct (B2X i); try easy; auto. intros H. right. cbn [xneg]. apply xle_fin. assert (~ (0 <= r)%R) by (rewrite <- xle_fin; congruence). lra. Qed.
Lemma mul_lo_neg (i d d' : b32) : fle fzero i = false -> fle d d' = true -> okf i d -> wlo (fmul d i) (fmul d' i).
Proof.
  intros I L C z. rewrite fle_X in L. rewrite !flt_X, !fmul_X. destruct (neg_nonneg i I) as [E|E].
  - rewrite E. destruct (B2X d'); cbn; destruct (B2X z); easy.
  - rewrite <- !(xmul_neg_neg _ (B2X i)). apply weak_rnd, xmul_weak; auto. now rewrite xle_opp.
    apply okf_X in C. destruct C as [C|[r ->]]; cbn; eauto. left. intros Q. apply C. rewrite <- (xnegneg (B2X i)), Q. cbn. f_equal. lra.
Qed.
Lemma mul_hi_neg (i d d' : b32) : fle fzero i = false -> fle d' d = true -> okf i d -> whi (fmul d i) (fmul d' i).
Proof.
  intros I L C z. rewrite fle_X in L. rewrite !flt_X, !fmul_X. destruct (neg_nonneg i I) as [E|E].
  - rewrite E. destruct (B2X d'); cbn; destruct (B2X z); easy.
  - rewrite <- (xlt_opp (B2X z)), <- xrnd_neg, <- xmul_opp_r. intros H. rewrite <- (xlt_opp (B2X z)), <- xrnd_neg, <- xmul_opp_r. revert H.
    apply weak_rnd, xmul_weak; auto.
    apply okf_X in C. destruct C as [C|[r ->]]; cbn; eauto. left. intros Q. apply C. rewrite <- (xnegneg (B2X i)), Q. cbn. f_equal. lra.
Qed.
Lemma axis_lo i o lo hi lo' hi' : fin o -> fle lo' lo = true -> fle hi hi' = true -> okf i (fsub lo o) -> okf i (fsub hi o) ->
  wlo (amin i o lo hi) (amin i o lo' hi').
Proof. intros F A B C D. unfold amin. destruct (fle fzero i) eqn:I; [apply mul_lo_pos|apply mul_lo_neg]; auto using fsub_mono. Qed.
Lemma axis_hi i o lo hi lo' hi' : fin o -> fle lo' lo = true -> fle hi hi' = true -> okf i (fsub lo o) -> okf i (fsub hi o) ->
  whi (amax i o lo hi) (amax i o lo' hi').
Proof. intros F A B C D. unfold amax. destruct (fle fzero i) eqn:I; [apply mul_hi_pos|apply mul_hi_neg]; auto using fsub_mono. Qed.
(** an axis whose interval holds the origin *)
Lemma axis_in_lo i o lo hi : fin o -> fle lo o = true -> fle o hi = true -> flt fzero (amin i o lo hi) = false.
Proof.
  intros F A B. apply (fsub_mono _ _ o F) in A, B. rewrite fle_X in A, B. rewrite !(fsub_X o o), (fin_X o F) in A, B. cbn [xsub xadd xneg] in A, B. unfold Rminus in A, B; rewrite Rplus_opp_r, xrnd_0 in A, B.
  unfold amin. destruct (fle fzero i) eqn:I; rewrite flt_X, fmul_X, fzero_X.
  - rewrite fle_X, fzero_X in I. destruct (B2X (fsub lo o)) as [q| | |], (B2X i) as [r| | |]; try easy; cbn [xmul]; unfold xsgn_inf; try apply xle_fin in A; try apply xle_fin in I.
    + apply not_true_is_false. intros Q. assert (P : xle (Fin (q * r)) (Fin 0) = true) by (apply xle_fin; nra). apply (xrnd_mono (prec:=24) (emax:=128)) in P. rewrite xrnd_0 in P.
      destruct (xrnd (prec:=24) (emax:=128) (Fin (q * r))); try easy. apply xlt_fin in Q. apply xle_fin in P. lra.
    + destruct (Rlt_dec 0 q); [lra|]. destruct (Rlt_dec q 0); easy.
    + destruct (Rlt_dec 0 r); try easy. destruct (Rlt_dec r 0); try easy; lra.
  - destruct (neg_nonneg i I) as [E|E]; [rewrite E; destruct (B2X (fsub hi o)); easy|].
    destruct (B2X (fsub hi o)) as [q| | |], (B2X i) as [r| | |]; try easy; cbn [xmul]; unfold xsgn_inf; cbn [xneg] in E; try apply xle_fin in B; try apply xle_fin in E.
    + apply not_true_is_false. intros Q. assert (P : xle (Fin (q * r)) (Fin 0) = true) by (apply xle_fin; nra). apply (xrnd_mono (prec:=24) (emax:=128)) in P. rewrite xrnd_0 in P.
      destruct (xrnd (prec:=24) (emax:=128) (Fin (q * r))); try easy. apply xlt_fin in Q. apply xle_fin in P. lra.
    + destruct (Rlt_dec 0 q); try easy. destruct (Rlt_dec q 0); try easy; lra.
    + destruct (Rlt_dec 0 r); [lra|]. destruct (Rlt_dec r 0); easy.
Qed.
Lemma axis_in_hi i o lo hi : fin o -> fle lo o = true -> fle o hi = true -> flt (amax i o lo hi) fzero = false.
Proof.
  intros F A B. apply (fsub_mono _ _ o F) in A, B. rewrite fle_X in A, B. rewrite !(fsub_X o o), (fin_X o F) in A, B. cbn [xsub xadd xneg] in A, B. unfold Rminus in A, B; rewrite Rplus_opp_r, xrnd_0 in A, B.
  unfold amax. destruct (fle fzero i) eqn:I; rewrite flt_X, fmul_X, fzero_X.
  - rewrite fle_X, fzero_X in I. destruct (B2X (fsub hi o)) as [q| | |], (B2X i) as [r| | |]; try easy; cbn [xmul]; unfold xsgn_inf; try apply xle_fin in B; try apply xle_fin in I.
    + apply not_true_is_false. intros Q. assert (P : xle (Fin 0) (Fin (q * r)) = true) by (apply xle_fin; nra). apply (xrnd_mono (prec:=24) (emax:=128)) in P. rewrite xrnd_0 in P.
      destruct (xrnd (prec:=24) (emax:=128) (Fin (q * r))); try easy. apply xlt_fin in Q. apply xle_fin in P. lra.
    + destruct (Rlt_dec 0 q); try easy. destruct (Rlt_dec q 0); try easy; lra.
    + destruct (Rlt_dec 0 r); try easy. destruct (Rlt_dec r 0); try easy; lra.
  - destruct (neg_nonneg i I) as [E|E]; [rewrite E; destruct (B2X (fsub lo o)); easy|].
    destruct (B2X (fsub lo o)) as [q| | |], (B2X i) as [r| | |]; try easy; cbn [xmul]; unfold xsgn_inf; cbn [xneg] in E; try apply xle_fin in A; try apply xle_fin in E.
    + apply not_true_is_false. intros Q. assert (P : xle (Fin 0) (Fin (q * r)) = true) by (apply xle_fin; nra). apply (xrnd_mono (prec:=24) (emax:=128)) in P. rewrite xrnd_0 in P.
      destruct (xrnd (prec:=24) (emax:=128) (Fin (q * r))); try easy. apply xlt_fin in Q. apply xle_fin in P. lra.
    + destruct (Rlt_dec 0 q); try lra. destruct (Rlt_dec q 0); easy.
    + destruct (Rlt_dec 0 r); [lra|]. destruct (Rlt_dec r 0); easy.
Qed.

(** ** The whole test *)
Definition slabs (xl xh yl yh zl zh : b32) : hit * b32 :=
  if (flt yh xl || flt xh yl)%bool then (HitNone, fzero)
  else if (flt zh (aclo xl yl) || flt (achi xh yh) zl)%bool then (HitNone, fzero)
  else if flt (achi (achi xh yh) zh) fzero then (HitNone, fzero)
  else if fle fzero (aclo (aclo xl yl) zl) then (HitEnter, aclo (aclo xl yl) zl) else (HitLeave, achi (achi xh yh) zh).
Section S.
Context {BK : Backend b32}.
Notation inv r := (g_reciprocal (ray_d r)).
Lemma ray_box_slabs (r : ray b32) (b : box b32) :
  ray_intersect_box r b = let i := inv r in let o := ray_o r in let l := bmin b in let h := bmax b in
    slabs (amin (vx i) (vx o) (vx l) (vx h)) (amax (vx i) (vx o) (vx l) (vx h)) (amin (vy i) (vy o) (vy l) (vy h)) (amax (vy i) (vy o) (vy l) (vy h))
          (amin (vz i) (vz o) (vz l) (vz h)) (amax (vz i) (vz o) (vz l) (vz h)).
Proof.
  unfold ray_intersect_box, slabs, amin, amax, aclo, achi, vec3_multiply, vec3_subtract, vec3_get_x, vec3_get_y, vec3_get_z, g_get_x, g_get_y, g_get_z. cbv zeta.
  cbn [g_mul g_sub map2 vx vy vz]. set (i := inv r).
  destruct (fle fzero (vx i)), (fle fzero (vy i)), (fle fzero (vz i)); reflexivity.
Qed.
End S.

(** ** C89: rays and boxes *)
(** [B] is at least as large as [b] on every side *)
Definition within (b B : box b32) : Prop := forall f, In f [p3x; p3y; p3z] ->
  fle (f (box_get_min B)) (f (box_get_min b)) = true /\ fle (f (box_get_max b)) (f (box_get_max B)) = true.
(** the minimum of [b] is not above its maximum *)
Definition proper (b : box b32) : Prop := forall f, In f [p3x; p3y; p3z] -> fle (f (box_get_min b)) (f (box_get_max b)) = true.
(** no coordinate of a corner of [b] is so far from the origin of the ray that the difference overflows *)
Definition in_reach {BK : Backend b32} (r : ray b32) (b : box b32) : Prop := forall f, In f [p3x; p3y; p3z] ->
  fin (fsub (f (box_get_min b)) (f (ray_get_origin r))) /\ fin (fsub (f (box_get_max b)) (f (ray_get_origin r))).
(** no component of the direction has a zero reciprocal *)
Definition no_zero_reciprocal {BK : Backend b32} (r : ray b32) : Prop := forall g, In g [vec3_get_x; vec3_get_y; vec3_get_z] ->
  feqb (g (g_reciprocal (ray_get_direction r))) fzero = false.
Lemma feqb0 (x : b32) : feqb x fzero = false -> B2X x <> Fin 0.
Proof. rewrite feqb_X, fzero_X. intros H E. rewrite E in H. assert (T : xeqb (Fin 0) (Fin 0) = true) by (unfold xeqb; destruct (Req_EM_T 0 0); [easy|lra]). congruence. Qed.
Lemma flt_irr (x : b32) : flt x x = false.
Proof. rewrite flt_X. destruct (B2X x); try easy. apply xlt_fin_f. lra. Qed.
Lemma flt_not_le (x y : b32) : fle fzero x = true -> fle fzero y = true -> flt x y = false -> fle y x = true.
Proof. rewrite !fle_X, flt_X, fzero_X. destruct (B2X x), (B2X y); try easy. rewrite xlt_fin_f, !xle_fin. lra. Qed.
Lemma axis_proper i o lo hi : fin o -> fle lo hi = true -> okf i (fsub lo o) -> flt (amax i o lo hi) (amin i o lo hi) = false.
Proof.
  intros F L C. apply not_true_is_false. intros H. apply (fsub_mono _ _ o F) in L. unfold amax, amin in H. destruct (fle fzero i) eqn:I.
  - apply (mul_hi_pos i _ _ I L C) in H. rewrite flt_irr in H. easy.
  - apply (mul_lo_neg i _ _ I L C) in H. rewrite flt_irr in H. easy.
Qed.
Lemma wlo_nonneg a a' : wlo a a' -> fle fzero a' = true -> fle fzero a = true.
Proof.
  intros W H. pose proof (W a) as W1. pose proof (W fm1) as W2. clear W. revert W1 W2. rewrite !flt_X, fm1_X. rewrite fle_X, fzero_X in H. rewrite fle_X, fzero_X.
  destruct (B2X a) as [x| | |], (B2X a') as [y| | |]; try easy; intros W1 W2.
  - apply xle_fin in H. apply xle_fin. destruct (Rle_dec 0 x); auto. rewrite !xlt_fin in W1. exfalso. assert (x < x)%R by (apply W1; lra). lra.
  - destruct (Rle_dec 0 x); [now apply xle_fin|]. specialize (W1 eq_refl). apply xlt_fin in W1. lra.
  - rewrite xlt_fin in W2. apply xle_fin in H. assert (xlt (Fin (-1)) NInf = true) by (apply W2; lra). easy.
  - now specialize (W2 eq_refl).
  - rewrite xlt_fin in W2. apply xle_fin in H. assert (xlt (Fin (-1)) Undef = true) by (apply W2; lra). easy.
  - now specialize (W2 eq_refl).
Qed.
Lemma slabs_weak xl xh yl yh zl zh xl' xh' yl' yh' zl' zh' : wlo xl xl' -> whi xh xh' -> wlo yl yl' -> whi yh yh' -> wlo zl zl' -> whi zh zh' ->
  flt xh xl = false -> flt yh yl = false -> flt zh zl = false ->
  let '(k, t) := slabs xl xh yl yh zl zh in let '(k', t') := slabs xl' xh' yl' yh' zl' zh' in
  hit_any k = true -> hit_any k' = true /\ (k' = HitEnter -> k = HitEnter /\ fle t' t = true) /\ (k' = HitLeave -> flt t' t = false).
Proof.
  intros LX HX LY HY LZ HZ PX PY PZ.
  pose proof (wlo_ac _ _ _ _ LX LY) as LXY. pose proof (whi_ac _ _ _ _ HX HY) as HXY. pose proof (wlo_ac _ _ _ _ LXY LZ) as LA. pose proof (whi_ac _ _ _ _ HXY HZ) as HA.
  unfold slabs at 1.
  destruct (flt yh xl || flt xh yl)%bool eqn:E1; [destruct (slabs xl' xh' yl' yh' zl' zh'); easy|].
  destruct (flt zh (aclo xl yl) || flt (achi xh yh) zl)%bool eqn:E2; [destruct (slabs xl' xh' yl' yh' zl' zh'); easy|].
  destruct (flt (achi (achi xh yh) zh) fzero) eqn:E3; [destruct (slabs xl' xh' yl' yh' zl' zh'); easy|].
  apply orb_false_iff in E1. destruct E1 as [E1a E1b]. apply orb_false_iff in E2. destruct E2 as [E2a E2b].
  assert (ORD : flt (achi (achi xh yh) zh) (aclo (aclo xl yl) zl) = false).
  { apply not_true_is_false. intros Q. apply achi_iff in Q. destruct Q as [Q|Q]; [apply achi_iff in Q; destruct Q as [Q|Q]|]; apply aclo_iff in Q; destruct Q as [Q|Q]; try (apply aclo_iff in Q; destruct Q as [Q|Q]); try congruence.
    - assert (T : flt (achi xh yh) zl = true) by (apply achi_iff; auto). congruence.
    - assert (T : flt (achi xh yh) zl = true) by (apply achi_iff; auto). congruence.
    - assert (T : flt zh (aclo xl yl) = true) by (apply aclo_iff; auto). congruence.
    - assert (T : flt zh (aclo xl yl) = true) by (apply aclo_iff; auto). congruence. }
  assert (N1 : (flt yh' xl' || flt xh' yl')%bool = false).
  { apply orb_false_iff. split; apply not_true_is_false; intros Q; [apply (w_cross _ _ _ _ LX HY) in Q|apply (w_cross _ _ _ _ LY HX) in Q]; congruence. }
  assert (N2 : (flt zh' (aclo xl' yl') || flt (achi xh' yh') zl')%bool = false).
  { apply orb_false_iff. split; apply not_true_is_false; intros Q; [apply (w_cross _ _ _ _ LXY HZ) in Q|apply (w_cross _ _ _ _ LZ HXY) in Q]; congruence. }
  assert (N3 : flt (achi (achi xh' yh') zh') fzero = false) by (apply not_true_is_false; intros Q; apply HA in Q; congruence).
  unfold slabs. rewrite N1, N2, N3.
  destruct (fle fzero (aclo (aclo xl' yl') zl')) eqn:G'.
  - assert (G := wlo_nonneg _ _ LA G'). rewrite G. intros _. split; [reflexivity|]. split; [|easy]. intros _. split; [reflexivity|].
    apply flt_not_le; auto. apply not_true_is_false. intros Q. apply LA in Q. rewrite flt_irr in Q. easy.
  - destruct (fle fzero (aclo (aclo xl yl) zl)); intros _; (split; [reflexivity|]); (split; [easy|]); intros _; apply not_true_is_false; intros Q; apply HA in Q; [congruence|rewrite flt_irr in Q; easy].
Qed.
(** A ray that hits a box hits every larger box, whatever the rounding: it enters the larger box first,
    and leaves it last. *)
Theorem C89_ray_nested_boxes : forall (BK : Backend b32) (r : ray b32) (b B : box b32),
  p3fin (ray_get_origin r) -> proper b -> within b B -> in_reach r b \/ no_zero_reciprocal r ->
  let '(k, t) := ray_intersect_box r b in let '(k', t') := ray_intersect_box r B in
  hit_any k = true -> hit_any k' = true /\ (k' = HitEnter -> k = HitEnter /\ fle t' t = true) /\ (k' = HitLeave -> flt t' t = false).
Proof.
  intros BK r b B (FX & FY & FZ) P W C. rewrite !ray_box_slabs. cbv zeta.
  destruct (W p3x ltac:(simpl; auto)) as [WX1 WX2]. destruct (W p3y ltac:(simpl; auto)) as [WY1 WY2]. destruct (W p3z ltac:(simpl; auto)) as [WZ1 WZ2].
  pose proof (P p3x ltac:(simpl; auto)) as PX. pose proof (P p3y ltac:(simpl; auto)) as PY. pose proof (P p3z ltac:(simpl; auto)) as PZ.
  assert (OK : forall f g, In (f, g) [(p3x, vx); (p3y, vy); (p3z, vz)] ->
     okf (g (g_reciprocal (ray_d r))) (fsub (f (box_get_min b)) (f (ray_get_origin r))) /\ okf (g (g_reciprocal (ray_d r))) (fsub (f (box_get_max b)) (f (ray_get_origin r)))).
  { intros f g I. destruct C as [C|C].
    - assert (F : In f [p3x; p3y; p3z]) by (simpl in I |- * ; destruct I as [I|[I|[I|[]]]]; injection I as <- <-; auto). destruct (C f F). split; now right.
    - assert (F : In g [vec3_get_x; vec3_get_y; vec3_get_z]) by (simpl in I |- * ; destruct I as [I|[I|[I|[]]]]; injection I as <- <-; auto). pose proof (feqb0 _ (C g F)). split; now left. }
  destruct (OK p3x vx ltac:(simpl; auto)) as [X1 X2]. destruct (OK p3y vy ltac:(simpl; auto)) as [Y1 Y2]. destruct (OK p3z vz ltac:(simpl; auto)) as [Z1 Z2].
  apply slabs_weak; try (apply axis_lo; assumption); try (apply axis_hi; assumption); apply axis_proper; assumption.
Qed.
Theorem C89_ray_hits_larger_box : forall (BK : Backend b32) (r : ray b32) (b B : box b32),
  p3fin (ray_get_origin r) -> in_reach r b \/ no_zero_reciprocal r ->
  box_api b -> box_nn b -> box_api B -> box_nn B -> proper b -> box_contains_box B b = true ->
  ray_intersects_box r b = true -> ray_intersects_box r B = true.
Proof.
  intros BK r b B F C Ab Nb AB NB P K. assert (W : within b B).
  { destruct (contains_box_lower B b K (box_api_ok B AB NB) (box_api_ok b Ab Nb)) as [L|E].
    - intros f [<-|[<-|[<-|[]]]]; unfold lower in L; split; apply L.
    - exfalso. unfold box_is_empty in E. rewrite !andb_true_iff, ?is_pinf_le, ?is_ninf_le in E. destruct E as [[[E _] _] [[E' _] _]]. pose proof (P p3x ltac:(simpl; auto)) as Q. 
      rewrite !fle_X in * . change (B2X (finf : b32)) with PInf in E. change (B2X (fninf : b32)) with NInf in E'.
      change (p3x (box_get_min b)) with (vx (bmin b)) in Q. change (p3x (box_get_max b)) with (vx (bmax b)) in Q.
      change (p3x (box_get_min b)) with (vx (bmin b)) in E. change (p3x (box_get_max b)) with (vx (bmax b)) in E'.
      destruct (B2X (vx (bmin b))); try easy. destruct (B2X (vx (bmax b))); easy. }
  unfold ray_intersects_box. intros H. pose proof (C89_ray_nested_boxes BK r b B F P W C) as T.
  destruct (ray_intersect_box r b) as [k t], (ray_intersect_box r B) as [k' t']. now apply T.
Qed.
(** A ray that starts in a box hits it, whatever its direction (zero, infinite or NaN components included). *)
Theorem C89_ray_from_inside : forall (BK : Backend b32) (r : ray b32) (b : box b32),
  p3fin (ray_get_origin r) -> between3 (box_get_min b) (box_get_max b) (ray_get_origin r) ->
  let '(k, t) := ray_intersect_box r b in hit_any k = true /\ (k = HitEnter -> feqb t fzero = true).
Proof.
  intros BK r b (FX & FY & FZ) (X1 & X2 & Y1 & Y2 & Z1 & Z2). rewrite ray_box_slabs. cbv zeta.
  pose proof (axis_in_lo (vx (g_reciprocal (ray_d r))) _ _ _ FX X1 X2) as XL. pose proof (axis_in_hi (vx (g_reciprocal (ray_d r))) _ _ _ FX X1 X2) as XH.
  pose proof (axis_in_lo (vy (g_reciprocal (ray_d r))) _ _ _ FY Y1 Y2) as YL. pose proof (axis_in_hi (vy (g_reciprocal (ray_d r))) _ _ _ FY Y1 Y2) as YH.
  pose proof (axis_in_lo (vz (g_reciprocal (ray_d r))) _ _ _ FZ Z1 Z2) as ZL. pose proof (axis_in_hi (vz (g_reciprocal (ray_d r))) _ _ _ FZ Z1 Z2) as ZH.
  change (p3x (box_get_min b)) with (vx (bmin b)) in * . change (p3y (box_get_min b)) with (vy (bmin b)) in * . change (p3z (box_get_min b)) with (vz (bmin b)) in * .
  change (p3x (box_get_max b)) with (vx (bmax b)) in * . change (p3y (box_get_max b)) with (vy (bmax b)) in * . change (p3z (box_get_max b)) with (vz (bmax b)) in * .
  change (p3x (ray_get_origin r)) with (vx (ray_o r)) in * . change (p3y (ray_get_origin r)) with (vy (ray_o r)) in * . change (p3z (ray_get_origin r)) with (vz (ray_o r)) in * .
  revert XL XH YL YH ZL ZH. generalize (amin (vx (g_reciprocal (ray_d r))) (vx (ray_o r)) (vx (bmin b)) (vx (bmax b))) (amax (vx (g_reciprocal (ray_d r))) (vx (ray_o r)) (vx (bmin b)) (vx (bmax b)))
   (amin (vy (g_reciprocal (ray_d r))) (vy (ray_o r)) (vy (bmin b)) (vy (bmax b))) (amax (vy (g_reciprocal (ray_d r))) (vy (ray_o r)) (vy (bmin b)) (vy (bmax b)))
   (amin (vz (g_reciprocal (ray_d r))) (vz (ray_o r)) (vz (bmin b)) (vz (bmax b))) (amax (vz (g_reciprocal (ray_d r))) (vz (ray_o r)) (vz (bmin b)) (vz (bmax b))).
  intros xl xh yl yh zl zh XL XH YL YH ZL ZH.
  assert (LXY : flt fzero (aclo xl yl) = false) by (apply not_true_is_false; rewrite aclo_iff; intros [Q|Q]; congruence).
  assert (HXY : flt (achi xh yh) fzero = false) by (apply not_true_is_false; rewrite achi_iff; intros [Q|Q]; congruence).
  assert (LA : flt fzero (aclo (aclo xl yl) zl) = false) by (apply not_true_is_false; rewrite aclo_iff; intros [Q|Q]; congruence).
  assert (HA : flt (achi (achi xh yh) zh) fzero = false) by (apply not_true_is_false; rewrite achi_iff; intros [Q|Q]; congruence).
  assert (NO : forall l h, flt fzero l = false -> flt h fzero = false -> flt h l = false).
  { intros l h. rewrite !flt_X, fzero_X. destruct (B2X l), (B2X h); try easy. rewrite !xlt_fin_f. lra. }
  unfold slabs. rewrite !NO by auto. cbn [orb].
  destruct (fle fzero (aclo (aclo xl yl) zl)) eqn:G; split; try easy. intros _.
  revert G LA. generalize (aclo (aclo xl yl) zl). intros l. rewrite fle_X, flt_X, feqb_X, fzero_X. destruct (B2X l); try easy. rewrite xle_fin, xlt_fin_f. intros.
  assert (r0 = 0)%R by lra. subst. unfold xeqb. destruct (Req_EM_T 0 0); [easy|lra].
Qed.
(** The reported distance is never negative, and is zero when nothing is hit. *)
Theorem C89_ray_box_distance : forall (BK : Backend b32) (r : ray b32) (b : box b32),
  let '(k, t) := ray_intersect_box r b in flt t fzero = false /\ (k = HitNone -> t = fzero).
Proof.
  intros BK r b. rewrite ray_box_slabs. cbv zeta. unfold slabs.
  repeat match goal with |- context [if ?c then _ else _] => destruct c eqn:? end; (split; [|easy]); auto; try apply flt_irr.
  revert Heqb3. generalize (aclo (aclo (amin (vx (g_reciprocal (ray_d r))) (vx (ray_o r)) (vx (bmin b)) (vx (bmax b))) (amin (vy (g_reciprocal (ray_d r))) (vy (ray_o r)) (vy (bmin b)) (vy (bmax b)))) (amin (vz (g_reciprocal (ray_d r))) (vz (ray_o r)) (vz (bmin b)) (vz (bmax b)))).
  intros l. rewrite fle_X, flt_X, fzero_X. destruct (B2X l); try easy. rewrite xle_fin, xlt_fin_f. lra.
Qed.
(** On the scalar and GCC back ends no finite direction has a component with a zero reciprocal, so boxes may be infinite. *)
Lemma recip_nz (x : b32) : fin x -> B2X x <> Fin 0 -> B2X (fdiv fone x) <> Fin 0.
Proof.
  intros F N. change (fdiv fone x) with (Bdiv mode_NE (fone : b32) x). rewrite Bdiv_X by assumption. rewrite fone_X. rewrite (fin_X x F) in N |- * . cbn [xdiv].
  assert (XZ : (B2R x <> 0)%R) by (intros E; apply N; now rewrite E). destruct (Req_EM_T (B2R x) 0) as [Q|_]; [contradiction|].
  set (y := (1 / B2R x)%R). assert (BX : (Rabs (B2R x) < bpow radix2 128)%R) by apply abs_B2R_lt_emax.
  assert (BY : (bpow radix2 (-128) <= Rabs y)%R).
  { unfold y. unfold Rdiv. rewrite Rabs_mult, Rabs_R1, Rabs_inv. change (-128)%Z with (Z.opp 128). rewrite bpow_opp. rewrite Rmult_1_l. apply Rlt_le, Rinv_lt_contravar; auto.
    apply Rmult_lt_0_compat; [now apply Rabs_pos_lt|apply bpow_gt_0]. }
  assert (POS : (0 < bpow radix2 (-128))%R) by apply bpow_gt_0.
  assert (FM : xrnd (prec:=24) (emax:=128) (Fin (bpow radix2 (-128))) = Fin (bpow radix2 (-128))).
  { apply xrnd_fmt. apply generic_format_bpow. cbn. lia. rewrite Rabs_pos_eq by lra. apply bpow_lt. lia. }
  unfold Rabs in BY. destruct (Rcase_abs y) as [S|S].
  - intros E. assert (K : xle (Fin y) (xneg (Fin (bpow radix2 (-128)))) = true) by (cbn [xneg]; apply xle_fin; lra). apply (xrnd_mono (prec:=24) (emax:=128)) in K.
    rewrite xrnd_neg, FM, E in K. cbn [xneg] in K. apply xle_fin in K. lra.
  - intros E. assert (K : xle (Fin (bpow radix2 (-128))) (Fin y) = true) by (apply xle_fin; lra). apply (xrnd_mono (prec:=24) (emax:=128)) in K.
    rewrite FM, E in K. apply xle_fin in K. lra.
Qed.
Lemma recip_nz' (x : b32) : fin x -> B2X (fdiv fone x) <> Fin 0.
Proof.
  intros F. destruct (B2X x) as [q| | |] eqn:E; try (rewrite (fin_X x F) in E; discriminate). destruct (Req_dec q 0) as [->|N]; [|apply recip_nz; auto; congruence].
  destruct x as [s| | |s m e Hb]; try easy. 
  - destruct s; cbv; easy.
  - rewrite (fin_X _ F) in E. assert (E2 : B2R (B754_finite s m e Hb : b32) = 0%R) by congruence. destruct (B2R_nz (prec:=24) (emax:=128) s m e Hb E2).
Qed.
Theorem C89_finite_directions : forall (BK : Backend b32) (r : ray b32), (exists ieee, BK = Scalar ieee) \/ BK = Gcc ->
  (forall g, In g [vec3_get_x; vec3_get_y; vec3_get_z] -> fin (g (ray_get_direction r))) -> no_zero_reciprocal r.
Proof.
  intros BK r HB F g G. assert (K : forall x : b32, fin x -> feqb (lane_reciprocal x) fzero = false).
  { clear - HB. intros x F. apply not_true_is_false. intros Q.
    assert (Z : B2X (lane_reciprocal x) = Fin 0) by (revert Q; rewrite feqb_X, fzero_X; destruct (B2X (lane_reciprocal x)); try easy; unfold xeqb; destruct (Req_EM_T r 0); [now subst|easy]).
    assert (GD : B2X (rcp_guard x) <> Fin 0).
    { unfold rcp_guard. destruct (flt feps (fabs x)); [now apply recip_nz'|]. unfold fcopysign. destruct (fsignbit x); cbv; easy. }
    destruct HB as [[[] ->]| ->]; cbn in Z; try contradiction. now apply (recip_nz' x F). }
  specialize (F g G). simpl in G. destruct G as [<-|[<-|[<-|[]]]]; apply K, F.
Qed.

(** ** C89: rays and spheres *)
Lemma xsq_mono a b : xle (xabs a) (xabs b) = true -> xle (xmul a a) (xmul b b) = true.
Proof.
  destruct a as [x| | |], b as [y| | |]; cbn [xabs xmul]; try easy.
  rewrite !xle_fin. intros H. rewrite <- (Rabs_pos_eq (x * x)), <- (Rabs_pos_eq (y * y)) by nra. rewrite !Rabs_mult. pose proof (Rabs_pos x). pose proof (Rabs_pos y). nra.
Qed.
Definition sphere_hit (tca d2 r2 : b32) : hit * b32 :=
  if flt r2 d2 then (HitNone, fzero) else
    let thc := fsqrt (fsub r2 d2) in let t0 := fsub tca thc in let t1 := fadd tca thc in
    if (flt t0 fzero && flt t1 fzero)%bool then (HitNone, fzero) else if flt t0 fzero then (HitLeave, t1) else (HitEnter, t0).

Notation xr := (xrnd (prec:=24) (emax:=128)).
Lemma xrnd_ge0 x : xle (Fin 0) x = true -> xle (Fin 0) (xr x) = true.
Proof. intros H. apply (xrnd_mono (prec:=24) (emax:=128)) in H. now rewrite xrnd_0 in H. Qed.
Lemma xsqrt_mono a b : xle (Fin 0) a = true -> xle a b = true -> xle (xsqrt a) (xsqrt b) = true /\ xle (Fin 0) (xsqrt a) = true.
Proof.
  destruct a as [x| | |], b as [y| | |]; cbn [xsqrt]; try easy; rewrite !xle_fin; intros A B.
  - destruct (Rlt_dec x 0); [lra|]. destruct (Rlt_dec y 0); [lra|]. rewrite !xle_fin. split; [now apply sqrt_le_1_alt|apply sqrt_pos].
  - destruct (Rlt_dec x 0); [lra|]. split; [easy|]. apply xle_fin, sqrt_pos.
Qed.
Lemma thc_mono (r2 r2' d2 : xreal) : xle (Fin 0) r2 = true -> xle r2 r2' = true -> xlt r2 d2 = false ->
  let S := xr (xsqrt (xr (xsub r2 d2))) in let S' := xr (xsqrt (xr (xsub r2' d2))) in
  (S = Undef /\ S' = Undef) \/ (xle (Fin 0) S = true /\ xle S S' = true).
Proof.
  intros P L N S S'. destruct d2 as [d| | |].
  - right. assert (A : xle (Fin 0) (xsub r2 (Fin d)) = true).
    { destruct r2 as [r| | |]; try easy. cbn [xsub]. apply xle_fin. apply xlt_fin_f in N. lra. }
    assert (B : xle (xsub r2 (Fin d)) (xsub r2' (Fin d)) = true) by now apply xsub_mono.
    apply xrnd_ge0 in A. apply (xrnd_mono (prec:=24) (emax:=128)) in B. destruct (xsqrt_mono _ _ A B) as [C D]. split; [now apply xrnd_ge0|now apply xrnd_mono].
  - left. destruct r2 as [r| | |]; try easy; destruct r2' as [r'| | |]; easy.
  - right. destruct r2 as [r| | |]; try easy; destruct r2' as [r'| | |]; easy.
  - left. destruct r2 as [r| | |]; try easy; destruct r2' as [r'| | |]; easy.
Qed.
Lemma sphere_hit_mono (tca d2 r2 r2' : b32) : fle fzero r2 = true -> fle r2 r2' = true ->
  let '(k, t) := sphere_hit tca d2 r2 in let '(k', t') := sphere_hit tca d2 r2' in
  hit_any k = true -> hit_any k' = true /\ (k' = HitEnter -> k = HitEnter /\ flt t t' = false) /\ (k' = HitLeave -> flt t' t = false).
Proof.
  intros P L. unfold sphere_hit. cbv zeta. destruct (flt r2 d2) eqn:N; [destruct (flt r2' d2); [easy|]; repeat match goal with |- context [if ?c then _ else _] => destruct c end; easy|].
  assert (N' : flt r2' d2 = false).
  { revert L N. rewrite fle_X, !flt_X. destruct (B2X r2), (B2X r2'), (B2X d2); try easy. rewrite xle_fin, !xlt_fin_f. lra. }
  rewrite N'. set (c := fsqrt (fsub r2 d2)). set (c' := fsqrt (fsub r2' d2)).
  assert (T : (B2X c = Undef /\ B2X c' = Undef) \/ (xle (Fin 0) (B2X c) = true /\ xle (B2X c) (B2X c') = true)).
  { unfold c, c'. rewrite !fsqrt_X, !fsub_X. apply thc_mono; [now rewrite <- fzero_X, <- fle_X|now rewrite <- fle_X|now rewrite <- flt_X]. }
  assert (Z0 : flt (fsub tca c) fzero = xlt (xr (xsub (B2X tca) (B2X c))) (Fin 0)) by now rewrite flt_X, fsub_X, fzero_X.
  assert (Z1 : flt (fadd tca c) fzero = xlt (xr (xadd (B2X tca) (B2X c))) (Fin 0)) by now rewrite flt_X, fadd_X, fzero_X.
  assert (Z0' : flt (fsub tca c') fzero = xlt (xr (xsub (B2X tca) (B2X c'))) (Fin 0)) by now rewrite flt_X, fsub_X, fzero_X.
  assert (Z1' : flt (fadd tca c') fzero = xlt (xr (xadd (B2X tca) (B2X c'))) (Fin 0)) by now rewrite flt_X, fadd_X, fzero_X.
  assert (C00 : flt (fsub tca c) (fsub tca c') = xlt (xr (xsub (B2X tca) (B2X c))) (xr (xsub (B2X tca) (B2X c')))) by now rewrite flt_X, !fsub_X.
  assert (C10 : flt (fadd tca c') (fsub tca c) = xlt (xr (xadd (B2X tca) (B2X c'))) (xr (xsub (B2X tca) (B2X c)))) by now rewrite flt_X, fsub_X, fadd_X.
  assert (C11 : flt (fadd tca c') (fadd tca c) = xlt (xr (xadd (B2X tca) (B2X c'))) (xr (xadd (B2X tca) (B2X c)))) by now rewrite flt_X, !fadd_X.
  rewrite Z0, Z1, Z0', Z1'. set (t0 := fsub tca c) in * . set (t1 := fadd tca c) in * . set (t0' := fsub tca c') in * . set (t1' := fadd tca c') in * . clearbody t0 t1 t0' t1'. clear Z0 Z1 Z0' Z1'.
  revert T C00 C10 C11. generalize (B2X tca) (B2X c) (B2X c'). clear. intros T S S'.
  set (X0 := xr (xsub T S)). set (X1 := xr (xadd T S)). set (X0' := xr (xsub T S')). set (X1' := xr (xadd T S')).
  intros D.
  (* X0' <= X0 <= X1 <= X1', or all four are NaN, or T is infinite *)
  assert (O : (xle X0' X0 = true /\ xle X0 X1 = true /\ xle X1 X1' = true) \/ (X0 = X0' /\ X1 = X1' /\ (X0 = Undef \/ X1 = Undef)) \/ (X0 = PInf /\ X1 = PInf /\ X0' = Undef /\ X1' = PInf) \/ (X0 = NInf /\ X1 = NInf)).
  { destruct D as [[-> ->]|[D0 D1]]; [right; left; unfold X0, X1, X0', X1'; destruct T; cbn; auto|].
    destruct T as [t| | |].
    - left. unfold X0, X1, X0', X1'. repeat split; apply xrnd_mono; destruct S as [s| | |], S' as [s'| | |]; try easy; cbn [xsub xadd xneg]; try apply xle_fin in D0; try apply xle_fin in D1; try apply xle_fin; try lra.
    - unfold X0, X1, X0', X1'. destruct S as [s| | |], S' as [s'| | |]; try easy; cbn; auto 10.
    - unfold X0, X1, X0', X1'. destruct S as [s| | |], S' as [s'| | |]; try easy; cbn; auto 10.
    - right; left. unfold X0, X1, X0', X1'. destruct S as [s| | |], S' as [s'| | |]; try easy; cbn; auto 10. }
  clearbody X0 X1 X0' X1'. clear D. intros C00 C10 C11.
  destruct O as [(O1 & O2 & O3)|[(-> & -> & O)|[(-> & -> & -> & ->)|(-> & ->)]]].
  - assert (M : forall a b c, xle a b = true -> xlt b c = true -> xlt a c = true) by (intros a b e; destruct a, b, e; try easy; rewrite xle_fin, !xlt_fin; lra).
    assert (M' : forall a b, xle a b = true -> xlt b a = false) by (intros a b; destruct a, b; try easy; rewrite xle_fin, !xlt_fin_f; lra).
    assert (TR : forall a b c, xle a b = true -> xle b c = true -> xle a c = true) by (intros a b e; destruct a, b, e; try easy; rewrite !xle_fin; lra).
    rewrite (M' _ _ O1) in C00. rewrite (M' _ _ (TR _ _ _ O2 O3)) in C10. rewrite (M' _ _ O3) in C11.
    destruct (xlt X0 (Fin 0)) eqn:A0; destruct (xlt X1 (Fin 0)) eqn:A1; destruct (xlt X0' (Fin 0)) eqn:A0'; destruct (xlt X1' (Fin 0)) eqn:A1'; cbn [andb]; try easy;
      try (rewrite (M _ _ _ O1 A0) in A0'; discriminate); try (rewrite (M _ _ _ O2 A1) in A0; discriminate); try (rewrite (M _ _ _ O3 A1') in A1; discriminate).
  - destruct O as [-> | ->]; cbn [xlt andb].
    + cbn. intros _. repeat split; easy.
    + destruct (xlt X0' (Fin 0)) eqn:A; cbn; intros _; repeat split; try easy. intros. rewrite C00. clear. destruct X0'; try easy. apply xlt_fin_f. lra.
  - cbn. intros _. repeat split; try easy; rewrite ?C00, ?C10, ?C11; easy.
  - cbn. destruct (xlt X0' (Fin 0)), (xlt X1' (Fin 0)); easy.
Qed.
(** Growing a sphere about its centre never loses a hit. *)
Theorem C89_ray_larger_sphere : forall (BK : Backend b32) (r : ray b32) (c : option (point3d b32)) (q q' : b32),
  fle (fabs q) (fabs q') = true ->
  let '(k, t) := ray_intersect_sphere r (sphere_init c q) in let '(k', t') := ray_intersect_sphere r (sphere_init c q') in
  hit_any k = true -> hit_any k' = true /\ (k' = HitEnter -> k = HitEnter /\ flt t t' = false) /\ (k' = HitLeave -> flt t' t = false).
Proof.
  intros BK r c q q' L. set (s := sphere_init c q). set (s' := sphere_init c q'). assert (E : scenter s = scenter s') by reflexivity.
  change (ray_intersect_sphere r s) with (sphere_hit (vec3_dot (vec3_subtract (scenter s) (ray_o r)) (ray_d r))
    (fsub (vec3_dot (vec3_subtract (scenter s) (ray_o r)) (vec3_subtract (scenter s) (ray_o r))) (fmul (vec3_dot (vec3_subtract (scenter s) (ray_o r)) (ray_d r)) (vec3_dot (vec3_subtract (scenter s) (ray_o r)) (ray_d r)))) (fmul (sradius s) (sradius s))).
  change (ray_intersect_sphere r s') with (sphere_hit (vec3_dot (vec3_subtract (scenter s') (ray_o r)) (ray_d r))
    (fsub (vec3_dot (vec3_subtract (scenter s') (ray_o r)) (vec3_subtract (scenter s') (ray_o r))) (fmul (vec3_dot (vec3_subtract (scenter s') (ray_o r)) (ray_d r)) (vec3_dot (vec3_subtract (scenter s') (ray_o r)) (ray_d r)))) (fmul (sradius s') (sradius s'))).
  rewrite E. apply sphere_hit_mono.
  - rewrite fle_X, fzero_X, fmul_X. apply xrnd_ge0. change (sradius s) with q. rewrite fle_X, !fabs_X in L. destruct (B2X q) as [x| | |]; cbn [xmul]; try easy. apply xle_fin. nra.
  - rewrite fle_X, !fmul_X. apply xrnd_mono, xsq_mono. rewrite <- !fabs_X, <- fle_X. exact L.
Qed.
(** Even so a ray that starts on a sphere, which contains its origin, can miss it: the exit distance rounds below zero. *)
Theorem C89_ray_from_sphere_refuted : forall BK : Backend b32, (exists ieee, BK = Scalar ieee) \/ BK = Gcc ->
  let s := sphere_init (Some (P3 fzero fzero fzero)) (lit 5 0) : sphere b32 in let o := P3 (lit 4 0) (lit 3 0) fzero in
  sphere_contains_point s o = true /\ ray_intersects_sphere (ray_init (Some o) (Some (vec3_init (lit 4 0) (lit (-3) 0) fzero))) s = false.
Proof. intros BK [[[] ->]| ->]; split; beq. Qed.

(** ** C89: culling *)
Lemma between_contains {BK : Backend b32} (B : box b32) (p : point3d b32) : box_api B -> box_nn B -> between3 (box_get_min B) (box_get_max B) p -> box_contains_point B p = true.
Proof. intros A N H. apply (contains_point_iff B p (box_api_ok B A N)). left. exact H. Qed.
(** A frustum that keeps a box keeps every larger box. *)
Theorem C89_frustum_nested_boxes : forall (BK : Backend b32) (f : frustum b32) (b B : box b32),
  box_api B -> box_nn B -> proper b -> within b B -> frustum_intersects_box f b = true -> frustum_intersects_box f B = true.
Proof.
  intros BK f b B A N P W. unfold frustum_intersects_box. cbv zeta. rewrite !forallb_forall. intros H pl I. specialize (H pl I). apply negb_true_iff, andb_false_iff in H.
  assert (COR : forall p, (p3x p = p3x (box_get_min b) \/ p3x p = p3x (box_get_max b)) -> (p3y p = p3y (box_get_min b) \/ p3y p = p3y (box_get_max b)) -> (p3z p = p3z (box_get_min b) \/ p3z p = p3z (box_get_max b)) ->
    flt (plane_distance pl p) fzero = false -> frustum_intersects_box (frustum_init pl pl pl pl pl pl) B = true).
  { intros p X Y Z D. apply C57_box_conservative with (p := p); auto.
    - apply between_contains; auto.
      destruct (W p3x ltac:(simpl; auto)) as [WX1 WX2]. destruct (W p3y ltac:(simpl; auto)) as [WY1 WY2]. destruct (W p3z ltac:(simpl; auto)) as [WZ1 WZ2].
      pose proof (P p3x ltac:(simpl; auto)) as PX. pose proof (P p3y ltac:(simpl; auto)) as PY. pose proof (P p3z ltac:(simpl; auto)) as PZ.
      unfold between3. destruct X as [-> | ->], Y as [-> | ->], Z as [-> | ->]; repeat split; auto; tr.
    - unfold frustum_contains_point, frustum_planes, frustum_init. cbn [forallb fr0 fr1 fr2 fr3 fr4 fr5]. rewrite D. reflexivity. }
  assert (G : frustum_intersects_box (frustum_init pl pl pl pl pl pl) B = true).
  { destruct H as [H|H]; refine (COR _ _ _ _ H); cbn [p3x p3y p3z]; match goal with |- context [if ?c then _ else _] => destruct c; auto end. }
  unfold frustum_intersects_box in G. cbv zeta in G. rewrite forallb_forall in G. exact (G pl (or_introl eq_refl)).
Qed.
(** A frustum that keeps a sphere keeps every larger sphere with the same centre. *)
Theorem C89_frustum_larger_sphere : forall (BK : Backend b32) (f : frustum b32) (c : option (point3d b32)) (q q' : b32),
  fle q q' = true -> frustum_intersects_sphere f (sphere_init c q) = true -> frustum_intersects_sphere f (sphere_init c q') = true.
Proof.
  intros BK f c q q' L. unfold frustum_intersects_sphere. rewrite !forallb_forall. intros H pl I. specialize (H pl I). cbv zeta in H |- * .
  change (scenter (sphere_init c q')) with (scenter (sphere_init c q)). set (d := plane_distance pl (point3d_init_from_vec3 (scenter (sphere_init c q)))) in * . clearbody d.
  apply negb_true_iff in H. apply negb_true_iff. revert H L. change (sradius (sphere_init c q)) with q. change (sradius (sphere_init c q')) with q'. rewrite !flt_X, !fneg_X, fle_X.
  destruct (B2X d), (B2X q), (B2X q'); try easy. cbn [xneg]. rewrite !xlt_fin_f, xle_fin. lra.
Qed.
(** Containment is monotone: a larger concentric sphere contains at least as many points. *)
Theorem C89_larger_sphere_contains : forall (BK : Backend b32) (c : option (point3d b32)) (q q' : b32) (p : point3d b32),
  fle (fabs q) (fabs q') = true -> sphere_contains_point (sphere_init c q) p = true -> sphere_contains_point (sphere_init c q') p = true.
Proof.
  intros BK c q q' p L. unfold sphere_contains_point. cbv zeta. change (scenter (sphere_init c q')) with (scenter (sphere_init c q)). set (d := distance_sq _ _). clearbody d.
  change (sradius (sphere_init c q)) with q. change (sradius (sphere_init c q')) with q'. 
  assert (M : fle (fmul q q) (fmul q' q') = true) by (rewrite fle_X, !fmul_X; apply xrnd_mono, xsq_mono; rewrite <- !fabs_X, <- fle_X; exact L).
  destruct (fle d (fmul q q)) eqn:E; [|easy]. intros _. replace (fle d (fmul q' q')) with true; auto. symmetry. exact (ol_trans _ _ _ E M).
Qed.

(** ** The hypotheses are met *)
Definition ex_small : box b32 := box_init (Some (P3 fone (lit (-1) 0) fzero)) (Some (P3 (lit 3 0) fone fone)).
Definition ex_large : box b32 := box_init (Some (P3 fzero (lit (-2) 0) (lit (-1) 0))) (Some (P3 (lit 3 0) ftwo fone)).
Example ex_nested : forall (BK : Backend b32), within ex_small ex_large /\ proper ex_small /\ box_contains_box ex_large ex_small = true /\
  let r := Ry (vec3_init fm1 fzero fhalf) (vec3_init fone fzero fzero) in p3fin (ray_get_origin r) /\ in_reach r ex_small.
Proof.
  intros BK. split; [|split; [|split; [|split]]].
  - intros f [<-|[<-|[<-|[]]]]; split; beq.
  - intros f [<-|[<-|[<-|[]]]]; beq.
  - destruct BK as [[]| |[] [] rcp rsq|rec rsq sq]; beq.
  - repeat split; unfold fin; beq.
  - intros f [<-|[<-|[<-|[]]]]; split; unfold fin; beq.
Qed.
Definition enters_at {BK : Backend b32} (r : ray b32) (b : box b32) (t : b32) : bool :=
  match ray_intersect_box r b with (HitEnter, t') => feqb t' t | _ => false end.
Example ex_hits : forall ieee, let BK : Backend b32 := Scalar ieee in let r := ray_init (Some (P3 fm1 fzero fhalf)) (Some (vec3_init fone fzero fzero)) in
  enters_at r ex_small ftwo = true /\ enters_at r ex_large fone = true /\ ray_intersects_box r (box_init (Some (P3 fone fone fone)) (Some (P3 ftwo ftwo ftwo))) = false /\ no_zero_reciprocal r.
Proof. intros []; (split; [|split; [|split]]); try beq; apply C89_finite_directions; eauto; intros g [<-|[<-|[<-|[]]]]; unfold fin; beq. Qed.
Example ex_inside : forall BK : Backend b32, let r := ray_init (Some (P3 fone fzero fhalf)) (Some (vec3_init fninf fzero finf)) in
  p3fin (ray_get_origin r) /\ between3 (box_get_min ex_small) (box_get_max ex_small) (ray_get_origin r).
Proof. intros BK. split; repeat split; unfold fin; beq. Qed.
Example ex_frusta : forall BK : Backend b32, frustum_intersects_box ex_frustum ex_small = true /\ box_api ex_large /\ box_nn ex_large /\
  frustum_intersects_sphere ex_frustum (sphere_init (Some (P3 ftwo fzero fzero)) fone) = true /\ frustum_intersects_sphere ex_frustum (sphere_init (Some (P3 ftwo fzero fzero)) fhalf) = false.
Proof.
  intros BK. split; [|split; [|split; [|split]]]; try (destruct BK as [[]| |[] [] rcp rsq|rec rsq sq]; beq).
  - apply b_init.
  - repeat split; unfold nonnan; beq.
Qed.
