(** * Props_Geo: triangles, frusta and quads in binary32, every back end (C52, C57, C58). *)
From Coq Require Import ZArith Reals Bool List Lra Lia.
From Flocq Require Import Core BinarySingleNaN.
From Verif Require Import Num Simd Vec Rect Box Mat Geo OrdThy FloatThy B32Setup FloatLem BoxThy Hist Props_Box Props_Rect Props_Mat.
Import ListNotations.

(** ** C52: the bounding box of a triangle *)
Lemma tri_box {BK : Backend b32} (t : triangle b32) : triangle_get_bounding_box t = box_init_from_vectors [tr_a t; tr_b t; tr_c t].
Proof. reflexivity. Qed.
Definition tri_api {BK : Backend b32} (t : triangle b32) : Prop := forall v, In v [tr_a t; tr_b t; tr_c t] -> vec3_api v /\ p3_nn (point3d_init_from_vec3 v).
Theorem C52_bounding_box_contains : forall (BK : Backend b32) (t : triangle b32), tri_api t ->
  let '(a, b, c) := triangle_get_points t in
  box_contains_point (triangle_get_bounding_box t) a = true /\ box_contains_point (triangle_get_bounding_box t) b = true /\
  box_contains_point (triangle_get_bounding_box t) c = true.
Proof. intros BK t H. cbn [triangle_get_points]. rewrite tri_box. repeat split; apply C17_vectors_contained; auto; simpl; auto. Qed.
Theorem C52_bounding_box_least : forall (BK : Backend b32) (t : triangle b32) (c : box b32), tri_api t -> box_api c -> box_nn c ->
  (let '(p, q, r) := triangle_get_points t in
   box_contains_point c p = true /\ box_contains_point c q = true /\ box_contains_point c r = true) ->
  forall q, box_contains_point (triangle_get_bounding_box t) q = true -> box_contains_point c q = true.
Proof.
  intros BK t c H Hc Hn (A & B & C) q. rewrite tri_box. apply C17_vectors_least; auto.
  intros v [<-|[<-|[<-|[]]]]; auto.
Qed.
Example ex_tri_api (BK : Backend b32) : tri_api (triangle_init_from_point3d (Some (P3 (lit 1 0) (lit 2 0) (lit 3 0))) (Some (P3 (lit (-1) 0) (lit 5 (-1)) finf)) (Some (P3 (lit 7 0) fzero fninf))).
Proof. intros v [<-|[<-|[<-|[]]]]; (split; [apply v3_point|repeat split; unfold nonnan; beq]). Qed.

(** ** C57: culling a box *)
(** [up a a']: if the number a' is below +infinity, a is a number no larger *)
Definition up (a a' : b32) : Prop := flt a' finf = true -> fle a a' = true.
Lemma finf_X : B2X (finf : b32) = PInf. Proof. reflexivity. Qed.
Lemma up_refl (a : b32) : up a a.
Proof. unfold up. rewrite flt_X, fle_X, finf_X. destruct (B2X a); try easy. intros _. apply xle_fin. lra. Qed.
Lemma lt_inf (x : xreal) : xlt x PInf = true <-> x = NInf \/ exists r, x = Fin r.
Proof. destruct x; simpl; split; try easy; eauto; intros [?|[? ?]]; easy. Qed.
Lemma xrnd_lt_inf (x : xreal) : xlt (xrnd (prec:=24) (emax:=128) x) PInf = true -> xlt x PInf = true.
Proof. destruct x; try easy; unfold xrnd; simpl; auto. Qed.
Lemma up_add (a a' b b' : b32) : up a a' -> up b b' -> up (fadd a b) (fadd a' b').
Proof.
  unfold up. rewrite !flt_X, !fle_X, finf_X, !fadd_X. intros A B C. apply xrnd_lt_inf in C. apply xrnd_mono.
  destruct (B2X a') as [r'| | |], (B2X b') as [s'| | |]; try easy; specialize (A eq_refl); specialize (B eq_refl);
  destruct (B2X a) as [r| | |], (B2X b) as [s| | |]; try easy. simpl. apply xle_fin in A. apply xle_fin in B. apply xle_fin. lra.
Qed.
(** one product: at the far corner it is an upper bound, or else the near corner's is NaN *)
Lemma up_mul (n lo hi p : b32) : fle lo p = true -> fle p hi = true ->
  up (fmul n p) (fmul n (if flt fzero n then hi else lo)) \/ fisnan (fmul n (if flt fzero n then lo else hi)) = true.
Proof.
  unfold up. rewrite fisnan_X. rewrite (flt_X fzero), fzero_X. rewrite !fle_X, !flt_X, finf_X, !fmul_X. rewrite xrnd_nan.
  intros L U. destruct (xlt (Fin 0) (B2X n)) eqn:N.
  - left. intros C. apply xrnd_lt_inf in C. apply xrnd_mono. destruct (B2X n) as [r| | |] eqn:En; try easy.
    + apply xlt_fin in N. destruct (B2X hi) as [h| | |] eqn:Eh; destruct (B2X p) as [q| | |]; try easy; simpl in * ; unfold xsgn_inf in * ; try (apply xle_fin; apply xle_fin in U; nra); destruct (Rlt_dec 0 r); easy.
    + destruct (B2X hi) as [h| | |] eqn:Eh; try easy; destruct (B2X p) as [q| | |]; try easy; simpl in * ; unfold xsgn_inf in * ; try apply xle_fin in U;
      destruct (Rlt_dec 0 h); try easy; destruct (Rlt_dec h 0); try easy. destruct (Rlt_dec 0 q); [lra|]. destruct (Rlt_dec q 0); [easy|lra].
  - destruct (B2X n) as [r| | |] eqn:En; try easy.
    + apply xlt_fin_f in N. destruct (B2X lo) as [h| | |] eqn:Eh; [| | |destruct (B2X p); easy].
      * destruct (B2X p) as [q| | |]; try easy.
        -- left. intros _. apply xrnd_mono. change (xle (Fin (r * q)) (Fin (r * h)) = true). apply xle_fin in L. apply xle_fin. nra.
        -- destruct (B2X hi); try easy. simpl xmul. unfold xsgn_inf. destruct (Rlt_dec 0 r); [lra|]. destruct (Rlt_dec r 0); [|right; reflexivity]. left. intros C. apply xrnd_lt_inf in C. now apply xrnd_mono.
      * left. intros C. destruct (B2X p); try easy. apply xrnd_lt_inf in C. apply xrnd_mono. simpl in * . unfold xsgn_inf in * . destruct (Rlt_dec 0 r); [easy|]. destruct (Rlt_dec r 0); easy.
      * left. intros C. apply xrnd_lt_inf in C. simpl in C. unfold xsgn_inf in C. destruct (Rlt_dec 0 r); [lra|]. destruct (Rlt_dec r 0); easy.
    + left. intros C. apply xrnd_lt_inf in C. apply xrnd_mono. destruct (B2X lo) as [h| | |] eqn:Eh; destruct (B2X p) as [q| | |]; try easy; try apply xle_fin in L; simpl in * ; unfold xsgn_inf in * ;
      destruct (Rlt_dec 0 h); try easy; try (destruct (Rlt_dec 0 q); [easy|lra]); destruct (Rlt_dec h 0); easy.
    + left. easy.
Qed.
Lemma up_vacuous (a a' : b32) : flt a' finf = false -> up a a'. Proof. intros H C. congruence. Qed.
Lemma up_not_neg (a a' : b32) : up a a' -> flt a fzero = false -> flt a' fzero = false.
Proof.
  unfold up. rewrite !flt_X, fle_X, finf_X, fzero_X. intros U N. destruct (B2X a') as [r'| | |] eqn:E; try easy.
  - specialize (U eq_refl). destruct (B2X a) as [r| | |]; try easy. apply xle_fin in U. apply xlt_fin_f in N. apply xlt_fin_f. lra.
  - specialize (U eq_refl). destruct (B2X a) as [r| | |]; try easy.
Qed.
Lemma nan_add (a b : b32) : fisnan a = true \/ fisnan b = true -> fisnan (fadd a b) = true.
Proof. rewrite !fisnan_X, fadd_X, xrnd_nan. destruct (B2X a), (B2X b); intros [H|H]; easy. Qed.
Lemma nan_not_lt (a b : b32) : fisnan a = true -> flt a b = false.
Proof. rewrite fisnan_X, flt_X. destruct (B2X a); easy. Qed.
(** No box that contains a point the frustum contains is culled: with every rounding, and
    for any planes and points (unnormalised, infinite or NaN ones included). *)
Theorem C57_box_conservative : forall (BK : Backend b32) (f : frustum b32) (b : box b32) (p : point3d b32),
  box_api b -> box_nn b ->
  box_contains_point b p = true -> frustum_contains_point f (Some p) = true -> frustum_intersects_box f b = true.
Proof.
  intros BK f b p Ha Hn C D.
  apply (contains_point_iff b p (box_api_ok b Ha Hn)) in C.
  unfold frustum_contains_point in D. unfold frustum_intersects_box. cbv zeta.
  rewrite forallb_forall in D |- * . intros pl Hpl. specialize (D pl Hpl). apply negb_true_iff in D. apply negb_true_iff. apply andb_false_iff.
  set (n := point3d_init_from_vec3 (pl_n pl)).
  change (blo b) with (box_get_min b) in * . change (bhi b) with (box_get_max b) in * . set (mn := box_get_min b) in * . set (mx := box_get_max b) in * .
  assert (K : forall g : simd4f b32 -> b32, forall h : point3d b32 -> b32,
    (fle (h mn) (h p) = true /\ fle (h p) (h mx) = true \/ is_ninf (h mn) = true /\ is_pinf (h mx) = true) ->
    up (fmul (g (pl_n pl)) (h p)) (fmul (g (pl_n pl)) (if flt fzero (g (pl_n pl)) then h mx else h mn)) \/
    fisnan (fmul (g (pl_n pl)) (if flt fzero (g (pl_n pl)) then h mn else h mx)) = true).
  { intros g h [[L U]|[L U]]; [now apply up_mul|]. left. apply up_vacuous. rewrite is_ninf_le in L. rewrite is_pinf_le in U. rewrite !fle_X in * . rewrite finf_X in U.
    change (B2X (fninf : b32)) with NInf in L. rewrite flt_X, finf_X, fmul_X, flt_X, fzero_X.
    destruct (B2X (h mn)) eqn:EL; try easy. destruct (B2X (h mx)) eqn:EU; try easy. destruct (xlt (Fin 0) (B2X (g (pl_n pl)))) eqn:N.
    - rewrite EU. destruct (B2X (g (pl_n pl))) as [r| | |]; try easy. apply xlt_fin in N. simpl. unfold xsgn_inf. destruct (Rlt_dec 0 r); [reflexivity|easy].
    - rewrite EL. destruct (B2X (g (pl_n pl))) as [r| | |]; try easy. apply xlt_fin_f in N. simpl. unfold xsgn_inf. destruct (Rlt_dec 0 r); [lra|]. destruct (Rlt_dec r 0); reflexivity. }
  assert (KX : forall (h : point3d b32 -> b32), (h = p3x \/ h = p3y \/ h = p3z) -> fle (h mn) (h p) = true /\ fle (h p) (h mx) = true \/ is_ninf (h mn) = true /\ is_pinf (h mx) = true).
  { destruct C as [(Lx & Ux & Ly & Uy & Lz & Uz)|I].
    - intros h [-> |[-> | ->]]; left; auto.
    - intros h E. right. unfold box_is_infinity in I. rewrite !andb_true_iff in I. destruct I as [[[I1 I2] I3] [[I4 I5] I6]]. destruct E as [-> |[-> | ->]]; unfold mn, mx; auto. }
  assert (X := K vx p3x (KX p3x ltac:(auto))). assert (Y := K vy p3y (KX p3y ltac:(auto))). assert (Z := K vz p3z (KX p3z ltac:(auto))). clear K KX.
  change (p3x n) with (vx (pl_n pl)). change (p3y n) with (vy (pl_n pl)). change (p3z n) with (vz (pl_n pl)).
  revert X Y Z.
  generalize (if flt fzero (vx (pl_n pl)) then p3x mx else p3x mn) (if flt fzero (vx (pl_n pl)) then p3x mn else p3x mx)
             (if flt fzero (vy (pl_n pl)) then p3y mx else p3y mn) (if flt fzero (vy (pl_n pl)) then p3y mn else p3y mx)
             (if flt fzero (vz (pl_n pl)) then p3z mx else p3z mn) (if flt fzero (vz (pl_n pl)) then p3z mn else p3z mx).
  intros x1 x0 y1 y0 z1 z0 X Y Z.
  assert (NN : forall q : point3d b32, fisnan (fmul (vx (pl_n pl)) (p3x q)) = true \/ fisnan (fmul (vy (pl_n pl)) (p3y q)) = true \/ fisnan (fmul (vz (pl_n pl)) (p3z q)) = true ->
     flt (plane_distance pl q) fzero = false).
  { intros q N. apply nan_not_lt. unfold plane_distance. apply nan_add. left. unfold vec3_dot, g_dot3, g_dot3_scalar, backend.
    destruct BK as [s| |[|] s rcp rsq|rec rsq sq]; cbn [g_splat g_get_x vx vy vz vw point3d_to_vec3 p3x p3y p3z vec3_init g_init]; destruct N as [N|[N|N]]; auto 10 using nan_add. }
  destruct X as [X|X]; [|left; apply NN; auto]. destruct Y as [Y|Y]; [|left; apply NN; auto]. destruct Z as [Z|Z]; [|left; apply NN; auto].
  right. refine (up_not_neg _ _ _ D).
  unfold plane_distance. apply up_add; [|apply up_refl].
  unfold vec3_dot, g_dot3, g_dot3_scalar, backend. destruct BK as [s| |[|] s rcp rsq|rec rsq sq];
    cbn [g_splat g_get_x vx vy vz vw point3d_to_vec3 p3x p3y p3z vec3_init g_init]; repeat (apply up_add; auto using up_refl).
Qed.
(** the unit cube as a frustum: six axis-aligned planes at distance one from the origin. *)
Definition ex_frustum : frustum b32 :=
  let pl x y z := plane_init (Some (vec3_init x y z)) fone in
  frustum_init (pl fone fzero fzero) (pl fm1 fzero fzero) (pl fzero fone fzero) (pl fzero fm1 fzero) (pl fzero fzero fone) (pl fzero fzero fm1).
Example ex_frustum_box : forall BK : Backend b32, let p := P3 (lit 1 (-1)) (lit (-1) (-2)) fzero in
  let b := box_init (Some (P3 fzero (lit (-3) 0) fzero)) (Some (P3 (lit 9 0) fzero fzero)) in
  let far := box_init (Some (P3 (lit 3 0) fzero fzero)) (Some (P3 (lit 9 0) fzero fzero)) in
  frustum_contains_point ex_frustum (Some p) = true /\ box_contains_point b p = true /\ frustum_intersects_box ex_frustum far = false.
Proof. intros BK. destruct BK as [[]| |[] [] rcp rsq|rec rsq sq]; repeat split; beq. Qed.
(** ** C58: quads *)
Lemma fle0_X (x : b32) : fle fzero x = xle (Fin 0) (B2X x). Proof. now rewrite fle_X, fzero_X. Qed.
Lemma xrnd_0 : xrnd (prec:=24) (emax:=128) (Fin 0) = Fin 0. Proof. rewrite <- fzero_X. now rewrite xrnd_B2X. Qed.
(** the cross term of an edge along an axis *)
Lemma term_x (dx dy u v : b32) : fin dx -> fin u -> fin v -> B2X dy = Fin 0 ->
  (0 <= B2R dx /\ 0 <= B2R u \/ B2R dx <= 0 /\ B2R u <= 0)%R -> fle fzero (fsub (fmul dx u) (fmul dy v)) = true.
Proof.
  intros Fd Fu Fv Z S. rewrite fle0_X, fsub_X, !fmul_X, Z, (fin_X _ Fd), (fin_X _ Fu), (fin_X _ Fv). simpl xmul.
  replace (xrnd (Fin (0 * B2R v))) with (Fin 0). 2:{ now rewrite Rmult_0_l, xrnd_0. }
  assert (P : (0 <= B2R dx * B2R u)%R) by nra.
  pose proof (xrnd_mono (prec:=24) (emax:=128) (Fin 0) (Fin (B2R dx * B2R u)) (proj2 (xle_fin _ _) P)) as M.
  rewrite xrnd_0 in M. destruct (xrnd (Fin (B2R dx * B2R u))) as [r| | |] eqn:E; try easy.
  unfold xsub. rewrite Rminus_0_r. rewrite <- xrnd_0. apply xrnd_mono. exact M.
Qed.
Lemma term_y (dx dy u v : b32) : fin dy -> fin v -> fin u -> B2X dx = Fin 0 ->
  (0 <= B2R dy /\ B2R v <= 0 \/ B2R dy <= 0 /\ 0 <= B2R v)%R -> fle fzero (fsub (fmul dx u) (fmul dy v)) = true.
Proof.
  intros Fd Fv Fu Z S. rewrite fle0_X, fsub_X, !fmul_X, Z, (fin_X _ Fd), (fin_X _ Fu), (fin_X _ Fv). simpl xmul.
  replace (xrnd (Fin (0 * B2R u))) with (Fin 0). 2:{ now rewrite Rmult_0_l, xrnd_0. }
  assert (P : (B2R dy * B2R v <= 0)%R) by nra.
  pose proof (xrnd_mono (prec:=24) (emax:=128) (Fin (B2R dy * B2R v)) (Fin 0) (proj2 (xle_fin _ _) P)) as M.
  rewrite xrnd_0 in M. destruct (xrnd (Fin (B2R dy * B2R v))) as [r| | |] eqn:E; try easy.
  unfold xsub. rewrite <- xrnd_0. apply xrnd_mono. apply xle_fin in M. apply xle_fin. lra.
Qed.
Lemma sub_self_X (x : b32) : fin x -> B2X (fsub x x) = Fin 0.
Proof. intros F. rewrite fsub_X, (fin_X x F). simpl. rewrite Rminus_diag_eq by reflexivity. exact xrnd_0. Qed.
Lemma sub_range (a b p : b32) : fin a -> fin b -> fin (fsub b a) -> fle a p = true -> fle p b = true ->
  fin p /\ (fin (fsub p a) /\ 0 <= B2R (fsub p a))%R /\ (fin (fsub p b) /\ B2R (fsub p b) <= 0)%R /\
  (fin (fsub a b) /\ B2R (fsub a b) <= 0)%R /\ (0 <= B2R (fsub b a))%R.
Proof.
  intros Fa Fb Fd. rewrite !fle_X, (fin_X _ Fa), (fin_X _ Fb). intros L U. destruct (B2X p) as [r| | |] eqn:Ep; try easy.
  destruct (fin_of_X p r Ep) as [Fp Er]. subst r. apply xle_fin in L. apply xle_fin in U. split; [exact Fp|].
  assert (Z : forall x y : b32, fin x -> fin y -> B2X (fsub x y) = xrnd (prec:=24) (emax:=128) (Fin (B2R x - B2R y))) by (intros x y Fx Fy; now rewrite fsub_X, (fin_X x Fx), (fin_X y Fy)).
  assert (Z0 : xrnd (prec:=24) (emax:=128) (Fin 0) = Fin 0) by (exact xrnd_0).
  assert (FF : fin (fsub a b)).
  { unfold fin in * . change (fsub a b) with (Bminus mode_NE a b). pose proof (fsub_swap_X b a) as S. rewrite (fin_X _ Fd) in S. simpl in S.
    destruct (fin_of_X (fsub a b) _ S) as [? _]. exact H. }
  assert (G : forall (x : b32) l u, (l <= u)%R -> xle (Fin l) (B2X x) = true -> xle (B2X x) (Fin u) = true -> fin x /\ (l <= B2R x <= u)%R).
  { intros x l u _ A B. destruct (B2X x) as [r| | |] eqn:Ex; try easy. destruct (fin_of_X x r Ex) as [F E]. rewrite E. apply xle_fin in A. apply xle_fin in B. auto. }
  assert (M : forall x y, (x <= y)%R -> xle (xrnd (prec:=24) (emax:=128) (Fin x)) (xrnd (prec:=24) (emax:=128) (Fin y)) = true) by (intros; apply xrnd_mono, xle_fin; auto).
  pose proof (Z b a Fb Fa) as D. rewrite (fin_X _ Fd) in D. pose proof (Z a b Fa Fb) as D'. rewrite (fin_X _ FF) in D'.
  assert (P0 : (0 <= B2R (fsub b a))%R). { apply xle_fin. rewrite D, <- Z0. apply M. lra. }
  assert (P1 : (B2R (fsub a b) <= 0)%R). { apply xle_fin. rewrite D', <- Z0. apply M. lra. }
  destruct (G (fsub p a) 0%R (B2R (fsub b a)) P0) as [F1 B1]. { rewrite (Z p a Fp Fa), <- Z0. apply M. lra. } { rewrite (Z p a Fp Fa), D. apply M. lra. }
  destruct (G (fsub p b) (B2R (fsub a b)) 0%R P1) as [F2 B2]. { rewrite (Z p b Fp Fb), D'. apply M. lra. } { rewrite (Z p b Fp Fb), <- Z0. apply M. lra. }
  repeat split; auto; lra.
Qed.
(** A finite rect whose corners span finite extents: its quad contains every point it
    contains, with all the roundings. *)
Theorem C58_rect_points_in_quad : forall (r : rect b32) (p : point b32), rfin r ->
  let tl := rect_get_top_left r in let br := rect_get_bottom_right r in
  fin (px tl) -> fin (py tl) -> fin (px br) -> fin (py br) -> fin (fsub (px br) (px tl)) -> fin (fsub (py br) (py tl)) ->
  rect_contains_point r p = true -> quad_contains (quad_init_from_rect r) p = true.
Proof.
  intros r p F tl br. unfold tl, br, rect_contains_point, quad_init_from_rect, rect_get_top_left, rect_get_top_right, rect_get_bottom_left, rect_get_bottom_right. clear tl br.
  set (n := rect_normalize r). change (rorigin n) with (Pt (rx n) (ry n)) || (replace (rorigin n) with (Pt (rx n) (ry n)) by (unfold rx, ry; destruct (rorigin n); reflexivity)).
  set (x1 := rx n). set (y1 := ry n). set (x2 := fadd x1 (rw n)). set (y2 := fadd y1 (rh n)). cbn [px py].
  intros F1 F2 F3 F4 F5 F6. rewrite !andb_true_iff. intros [[[A B] C] D].
  destruct (sub_range x1 x2 (px p) F1 F3 F5 A C) as (Fx & [u1 u2] & [v1 v2] & [w1 w2] & s1).
  destruct (sub_range y1 y2 (py p) F2 F4 F6 B D) as (Fy & [u3 u4] & [v3 v4] & [w3 w4] & s2).
  pose proof (sub_self_X x1 F1) as Z1. pose proof (sub_self_X x2 F3) as Z2. pose proof (sub_self_X y1 F2) as Z3. pose proof (sub_self_X y2 F4) as Z4.
  assert (FZ : forall z : b32, B2X z = Fin 0 -> fin z) by (intros z E; apply (fin_of_X z _ E)).
  unfold quad_contains, points_on_same_side. cbn [q0 q1 q2 q3 px py].
  clearbody x1 y1 x2 y2. rewrite !andb_true_iff. repeat match goal with |- _ /\ _ => split end; apply orb_true_iff; left; apply andb_true_iff; split;
  first [apply term_x; solve [auto|lra] | apply term_y; solve [auto|lra]].
Qed.

(** The span hypotheses hold for ordinary rectangles, and cannot be dropped: the largest
    width with an origin of -1.5 ulp makes the far edge minus the near one overflow. *)
Example ex_quad_rect : let r := rect_init (lit 3 0) (lit (-7) (-1)) (lit (-2) 0) (lit 5 0) : rect b32 in
  rfin r /\ (let tl := rect_get_top_left r in let br := rect_get_bottom_right r in
  fin (px tl) /\ fin (py tl) /\ fin (px br) /\ fin (py br) /\ fin (fsub (px br) (px tl)) /\ fin (fsub (py br) (py tl))) /\ rect_contains_point r (Pt (lit 2 0) (lit (-1) 0)) = true.
Proof. repeat split; beq. Qed.
(** quad_init_from_rect keeps the corners and get_point returns them in order; any other
    index reads outside the array. *)
Theorem C58_get_point : forall (r : rect b32) (i : nat),
  (quad_get_point (quad_init_from_rect r) i = Some (nth i [rect_get_top_left r; rect_get_top_right r; rect_get_bottom_right r; rect_get_bottom_left r] (Pt fzero fzero)) <-> (i < 4)%nat) /\
  (quad_get_point (quad_init_from_rect r) i = None <-> (4 <= i)%nat).
Proof. intros r i. do 4 (destruct i; [repeat split; try easy; try lia; intros H; exfalso; lia|]). repeat split; try easy; try lia. Qed.
Theorem C58_points_round_trip : forall (l : list (point b32)) q i, quad_init_from_points l = Some q -> (i < 4)%nat ->
  quad_get_point q i = nth_error l i.
Proof. intros [|a [|b [|c [|d l]]]] q i H Hi; try discriminate. injection H. intros <-. do 4 (destruct i; [reflexivity|]). lia. Qed.
(** bounds: the near edges never cut a vertex off (every back end, every rounding) *)
Theorem C58_bounds_near : forall (BK : Backend b32) (q : quad b32) (p : point b32),
  (forall p, In p [q0 q; q1 q; q2 q; q3 q] -> nonnan (px p) /\ nonnan (py p)) -> In p [q0 q; q1 q; q2 q; q3 q] ->
  fle (rect_get_x (quad_bounds q)) (px p) = true /\ fle (rect_get_y (quad_bounds q)) (py p) = true.
Proof.
  intros BK q p N Hp. unfold quad_bounds, rect_get_x, rect_get_y. replace (rect_normalize (points_bounds _ _ _ _)) with (points_bounds (q0 q) (q1 q) (q2 q) (q3 q)).
  - now apply points_bounds_near.
  - unfold points_bounds, rect_init; cbv zeta. symmetry. apply norm_idem.
Qed.
(** The far edge can cut a vertex off. *)
Theorem C58_bounds_far_refuted : exists q : quad b32, forall BK : Backend b32,
  rect_contains_point (quad_bounds q) (q1 q) = false.
Proof.
  exists (quad_init (Pt (lit (-3) (-26)) fzero) (Pt fone fzero) (Pt fone fone) (Pt (lit (-3) (-26)) fone)).
  intros BK. destruct BK as [[]| |[] [] rcp rsq|rec rsq sq]; beq.
Qed.
