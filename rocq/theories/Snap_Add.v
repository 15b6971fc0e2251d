(** What add_point does. *)
From stdpp Require Import gmap list.
From Coq Require Import Lia QArith Lqa Qminmax.
From Verif Require Import Decomp_Model Decomp_Spec Decomp_Eff Decomp_Inv Decomp_Good Decomp_Mid Decomp_Hist Editor_Model Editor_Spec Editor_Proofs Editor_Undo.
From Verif Require Import Aabb_Model Aabb_Spec Aabb_Proofs Editor_Box Snap_Model Snap_Spec Snap_Proofs Snap_Cand Snap_Main.
Local Open Scope nat_scope.

Lemma add_point_at v g d p d' : einv d -> Editor_Model.add_point v g d = (Ok p, d') -> tolerance d' = tolerance d /\ is_at (dec d') p v /\
  (xy <$> points (dec d)) !! p = None /\ (xy <$> points (dec d')) = <[p := v]> (xy <$> points (dec d)) /\ vtx (dec d') = vtx (dec d) /\ loose (dec d') p.
Proof.
  intros I H. apply add_point_inv in H as (s & x & b & t & H & X & B & T & ->). cbn [dec tolerance].
  destruct (add_free_point_eff _ _ _ _ _ (g_inv _ (e_good _ I)) H) as (_ & y & c & Y & F & E).
  assert (HX : xy_of s = <[p := v]> (xy_of (dec d))) by (rewrite E; fld; apply fmap_insert).
  split; [done|]. split; [unfold is_at; change (xy_of s !! p = Some v); by rewrite HX, lookup_insert|]. split; [by rewrite lookup_fmap, F|]. split; [done|]. split; [by rewrite E|].
  exists (Pt v (Some g) None). split; [|done]. rewrite E. fld. by rewrite lookup_insert.
Qed.
Lemma split_at e mid d n d' : einv d -> loose (dec d) mid -> split_seg e mid d = (Ok n, d') -> tolerance d' = tolerance d /\ (xy <$> points (dec d')) = (xy <$> points (dec d)).
Proof.
  intros I Lo H. apply split_seg_inv in H as (s & a & b & x & y & bx & t & H & Va & Vb & X & Y & B & T & ->). cbn [dec tolerance]. split; [done|].
  assert (Mm : seg_of (dec d) !! mid = Some None) by (destruct Lo as (z & Ez & Es); rewrite lookup_fmap, Ez; cbn; by rewrite Es).
  destruct (split_segment_eff _ _ _ _ _ (g_inv _ (e_good _ I)) Mm H) as (_ & nx & pv & a0 & b0 & wt & wf & xa & xb & xm & kb & Nt & Np & Va0 & Vb0 & Wt & Wf & Fi & Db & Da & Xa & Xb & Xm & HV & HN & HW & Hw & HO & HX & Hv & _ & _ & _).
  done.
Qed.
(** The new point is only added, and is the only one near. *)
Definition grown (d d' : ed) (p : nat) (v : vect) : Prop := tolerance d' = tolerance d /\ (xy <$> points (dec d)) !! p = None /\ (xy <$> points (dec d')) = <[p := v]> (xy <$> points (dec d)).
Lemma grow_polygon (K : geometry) v g d p d' : edits d -> Editor_Model.add_point v g d = (Ok p, d') -> edits d' /\ grown d d' p v.
Proof.
  intros ED H. destruct (add_point_at _ _ _ _ _ (edits_einv _ ED) H) as (A & _ & B & C & _). split; [|done].
  exact (edits_call K (EAddPoint v g) d p d' ED H Logic.I).
Qed.
Lemma ends_grown s s' p (v : vect) g x y : (xy <$> points s) !! p = None -> (xy <$> points s') = <[p := v]> (xy <$> points s) -> vtx s' = vtx s -> inv s -> ends s' g x y -> ends s g x y.
Proof.
  intros N X E I (a & b & A & B & XA & XB). exists a, b. rewrite E in A, B. split; [done|]. split; [done|]. destruct (i_pts _ I) as (_ & _ & P).
  assert (D : forall h q, vtx s !! h = Some q -> q <> p). { intros h q Hq ->. destruct (P _ _ Hq) as [o O]. rewrite lookup_fmap in O. rewrite lookup_fmap in N. by destruct (points s !! p). }
  change (xy_of s' = <[p := v]> (xy_of s)) in X. change (xy_of s' !! a = Some x) in XA. change (xy_of s' !! b = Some y) in XB. rewrite X in XA, XB.
  rewrite lookup_insert_ne in XA by exact (not_eq_sym (D _ _ A)). rewrite lookup_insert_ne in XB by exact (not_eq_sym (D _ _ B)). done.
Qed.
Lemma grow_split (K : geometry) (w : vect) e d p d1 n d' : edits d -> Editor_Model.add_point w 0 d = (Ok p, d1) -> split_seg e p d1 = (Ok n, d') ->
  (forall x y, ends (dec d) e x y -> between x y w) -> edits d' /\ grown d d' p w.
Proof.
  intros ED H S BT. assert (I := edits_einv _ ED). destruct (add_point_at _ _ _ _ _ I H) as (A & AT & B & C & D & Lo). destruct (grow_polygon K _ _ _ _ _ ED H) as [ED1 _].
  destruct (split_at _ _ _ _ _ (edits_einv _ ED1) Lo S) as [T X]. split; [|split; [congruence|split; [done|congruence]]].
  refine (edits_call K (ESplit e p) d1 n d' ED1 S _). split; [done|]. intros x y m E M. unfold is_at in AT. assert (m = w) as -> by (unfold vect in *; congruence).
  apply BT. eapply ends_grown; [exact B|exact C|exact D|apply I|exact E].
Qed.
Lemma dist_start z x y t : (dot (vminus z (along x y t)) (vminus y x) == 0)%Q -> (dist2 z x == dist2 z (along x y t) + t * t * norm2 (vminus y x))%Q.
Proof.
  intros H. assert (E : (dist2 z x == dist2 z (along x y t) + t * t * norm2 (vminus y x) + 2 * t * dot (vminus z (along x y t)) (vminus y x))%Q).
  { unfold dist2, along, norm2, dot, vminus. cbn. ring. } rewrite E, H. ring.
Qed.
Lemma dist_end z x y t : (dot (vminus z (along x y t)) (vminus y x) == 0)%Q -> (dist2 z y == dist2 z (along x y t) + (1 - t) * (1 - t) * norm2 (vminus y x))%Q.
Proof.
  intros H. assert (E : (dist2 z y == dist2 z (along x y t) + (1 - t) * (1 - t) * norm2 (vminus y x) - 2 * (1 - t) * dot (vminus z (along x y t)) (vminus y x))%Q).
  { unfold dist2, along, norm2, dot, vminus. cbn. ring. } rewrite E, H. ring.
Qed.
Lemma along_0 z x y t : (t == 0)%Q -> (dist2 z (along x y t) == dist2 z x)%Q.
Proof. intros H. unfold dist2, along. cbn. rewrite H. ring. Qed.
Lemma along_1 z x y t : (t == 1)%Q -> (dist2 z (along x y t) == dist2 z y)%Q.
Proof. intros H. unfold dist2, along. cbn. rewrite H. ring. Qed.
Lemma below_part_sq t q tol : (0 < tol)%Q -> (0 <= t)%Q -> below_part t q tol = true -> (t * t * q < tol * tol)%Q.
Proof.
  intros P T H. unfold below_part in H. destruct (Qle_bool tol 0) eqn:E0; [apply Qle_bool_iff in E0; lra|]. apply orb_true_iff in H as [H|H].
  - apply Qle_bool_iff in H. assert (t == 0)%Q as -> by lra. nra.
  - by apply not_le in H.
Qed.
Lemma bounded_between m x y w : pt_bounded m x -> pt_bounded m y -> between x y w -> pt_bounded m w.
Proof.
  intros [[A1 A2] [A3 A4]] [[B1 B2] [B3 B4]] (t & T & E1 & E2). split; rewrite ?E1, ?E2; split; nra.
Qed.

Section Add.
Context (K : geometry) (inside : st -> nat -> vect -> bool) (root : Q -> Q).
Context (d : ed) (z : vect) (M : Q) (ED : edits d) (P : (0 < tolerance d)%Q) (R : room d M) (B : pt_bounded (M - tolerance d) z).
Context (V : vec_ok (dec d)) (Z : no_zero (dec d)).
Lemma bounded_z : pt_bounded M z.
Proof. destruct B as [[? ?] [? ?]]. split; split; lra. Qed.
(** At most one segment is close. *)
Definition one_close : Prop := forall g g', passes (dec d) z (tolerance d) g -> passes (dec d) z (tolerance d) g' -> g = g'.
Lemma add_cases p d' p0 v0 g0 x0 y0 : is_at (dec d) p0 v0 -> ends (dec d) g0 x0 y0 -> one_close -> add_point_impl K inside root z d = (Ok p, d') ->
  (d' = d /\ exists v, is_at (dec d) p v /\ (dist2 z v < 2 * (tolerance d * tolerance d))%Q) \/
  (edits d' /\ exists v, grown d d' p v /\ near z v (tolerance d) /\ pt_bounded (M - tolerance d) v /\
    (forall q w, is_at (dec d) q w -> ~ near z w (tolerance d)) /\ (v = z \/ exists g, passes (dec d) z (tolerance d) g)).
Proof.
  intros A0 E0 U H. unfold add_point_impl in H. apply ebind_inv in H as (r & d1 & S & H). assert (I := edits_einv _ ED). assert (RP := R). destruct RP as [RP _].
  destruct (snap_first K inside root d z M I P RP bounded_z p0 v0 A0) as [(q & v & S1 & A & N)|(S1 & NP)].
  { left. rewrite S in S1. injection S1 as -> ->. apply eret_inv in H as [-> ->]. split; [done|]. exists v. split; [done|]. unfold near in N. nra. }
  rewrite S in S1. symmetry in S1.
  destruct (segment_cases K inside root d z M I P bounded_z R V Z g0 x0 y0 E0) as (cs & c & ND & EC & ES & NE & MI & PA & EQ).
  destruct (Qlt_le_dec (c_d2 c) (tolerance d * tolerance d)) as [L|L].
  - assert (G : passes (dec d) z (tolerance d) (c_seg c)) by (apply PA; exists c; split; [by left|done]).
    destruct (snap_one K inside root d z M I P bounded_z R V Z (c_seg c) G) as (t & x & y & S2 & E & [T NT] & NA & OR); [intros g' G'; by apply U|].
    rewrite S2 in S1. injection S1 as <- <-. assert (E' := E). destruct E' as (a & b & EA & EB & EX & EY). unfold near in NA.
    assert (T0 : ~ (t == 0)%Q). { intros T0. apply (NP a x EX). unfold near. rewrite <- (along_0 z x y t T0). done. }
    assert (T1 : ~ (t == 1)%Q). { intros T1. apply (NP b y EY). unfold near. rewrite <- (along_1 z x y t T1). done. }
    destruct OR as [OR|[OR|OR]]; [done|done|].
    cbn beta iota in H. unfold point_on_segment, end_at, xy_at in H. apply ebind_inv in H as (v & d2 & H1 & H). apply item_inv in H1 as [-> EV].
    apply ebind_inv in H as (a' & d2 & H1 & H). apply item_inv in H1 as [-> EA']. apply ebind_inv in H as (b' & d2 & H1 & H). apply item_inv in H1 as [-> EB'].
    apply ebind_inv in H as (o & d2 & H1 & H). apply item_inv in H1 as [-> EO]. cbv beta in EV, EA', EB', EO.
    assert (a' = a) as -> by congruence. assert (b' = b) as -> by congruence. assert (o = x) as ->.
    { rewrite lookup_fmap in EX. unfold vect in *. destruct (points (dec d) !! a); [|done]. cbn in EO, EX. congruence. }
    assert (v = vminus y x) as -> by (assert (EV2 := V _ _ _ _ _ EA EB EX EY); unfold vect in *; rewrite EV2 in EV; congruence).
    destruct (below_part t (norm2 (vminus y x)) (tolerance d)) eqn:B1.
    { left. injection H as <- <-. split; [done|]. exists x. split; [done|]. rewrite (dist_start z x y t OR). apply below_part_sq in B1; [lra|done|lra]. }
    destruct (below_part (1 - t) (norm2 (vminus y x)) (tolerance d)) eqn:B2.
    { left. injection H as <- <-. split; [done|]. exists y. split; [done|]. rewrite (dist_end z x y t OR). apply below_part_sq in B2; [lra|done|lra]. }
    right. apply ebind_inv in H as (m & d2 & H1 & H). apply ebind_inv in H as (n & d3 & H2 & H). apply eret_inv in H as [-> ->].
    assert (BT : between x y (parametric (vminus y x) x t)). { exists t. split; [done|]. apply (param_along x y t). }
    destruct (grow_split K _ _ _ _ _ _ _ ED H1 H2) as [ED' GR].
    { intros x' y' E'. destruct (ends_fun _ _ _ _ _ _ E E') as [-> ->]. done. }
    split; [done|]. exists (parametric (vminus y x) x t). split; [done|]. split; [unfold near; by rewrite dist_param|].
    split; [|split; [done|right; by exists (c_seg c)]]. destruct RP as (_ & _ & RB). exact (bounded_between _ _ _ _ (RB _ _ EX) (RB _ _ EY) BT).
  - right. assert (NG : forall g, ~ passes (dec d) z (tolerance d) g).
    { intros g G. apply PA in G as (x & [-> |X] & _ & X3); [lra|]. specialize (MI _ X). lra. }
    destruct (snap_none K inside root d z M I P bounded_z R V Z g0 x0 y0 E0 NG) as (c' & EC' & _ & S2). rewrite S2 in S1.
    unfold on_dec in S1. destruct (snap_polygon K inside (Some c') z (dec d)) as [r' s'] eqn:SP. injection S1 as -> <-.
    destruct EC' as (xc & yc & Ec & [Tc _] & _). apply snap_polygon_ok in SP as (-> & q & -> & _); [|apply I|done|done]. cbn beta iota in H.
    assert (DD : set_dec (dec d) d = d) by (by destruct d). rewrite DD in H. destruct (grow_polygon K _ _ _ _ _ ED H) as [ED' GR]. split; [done|].
    exists z. split; [done|]. split; [unfold near, dist2; nra|]. split; [done|]. split; [done|by left].
Qed.
(** A second call for the same place gives the same point. *)
Lemma add_again p d' p0 v0 g0 x0 y0 : is_at (dec d) p0 v0 -> ends (dec d) g0 x0 y0 -> one_close -> add_point_impl K inside root z d = (Ok p, d') ->
  add_point_impl K inside root z d' = (Ok p, d').
Proof.
  intros A0 E0 U H. destruct (add_cases p d' p0 v0 g0 x0 y0 A0 E0 U H) as [[-> _]|(ED' & v & (T & NP & X) & N & BV & NN & _)]; [done|].
  assert (AT : is_at (dec d') p v) by (unfold is_at; unfold vect in *; by rewrite X, lookup_insert).
  assert (OLD : forall q w, is_at (dec d') q w -> q = p \/ is_at (dec d) q w).
  { intros q w Q. unfold is_at in Q. unfold vect in *. rewrite X in Q. destruct (decide (q = p)) as [-> |D]; [by left|]. right. rewrite lookup_insert_ne in Q by done. done. }
  assert (RP' : room_points d' M).
  { destruct R as [(M0 & M4 & RB) _]. split; [done|]. split; [done|]. rewrite T. intros q w Q. destruct (OLD _ _ Q) as [-> |Q']; [|by eapply RB].
    assert (w = v) as -> by (unfold is_at in *; congruence). done. }
  unfold add_point_impl. assert (P' : (0 < tolerance d')%Q) by (by rewrite T). destruct (snap_first K inside root d' z M (edits_einv _ ED') P' RP' bounded_z p v AT) as [(q & w & S & A & NW)|(_ & NF)].
  - rewrite (ebind_ok _ _ _ _ _ S). destruct (OLD _ _ A) as [-> |A']; [done|]. exfalso. apply (NN _ _ A'). by rewrite <- T.
  - exfalso. apply (NF p v AT). by rewrite T.
Qed.
End Add.
