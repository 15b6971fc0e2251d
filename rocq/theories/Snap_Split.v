(** What adding a point on a segment does to the segments. *)
From stdpp Require Import gmap list.
From Coq Require Import Lia QArith Lqa Qminmax.
From Verif Require Import Decomp_Model Decomp_Spec Decomp_Surgery Decomp_Eff Decomp_Inv Decomp_Good Decomp_Mid Decomp_Hist Editor_Model Editor_Spec Editor_Proofs Editor_Undo.
From Verif Require Import Aabb_Model Aabb_Spec Aabb_Proofs Editor_Box Snap_Model Snap_Spec Snap_Proofs Snap_Cand Snap_Main Snap_Add.
Local Open Scope nat_scope.

Lemma split_vtx e mid d n d' : einv d -> loose (dec d) mid -> split_seg e mid d = (Ok n, d') ->
  exists a b, vtx (dec d) !! (e, false) = Some a /\ vtx (dec d) !! (e, true) = Some b /\ n <> e /\
    vtx (dec d') !! (e, false) = Some a /\ vtx (dec d') !! (e, true) = Some mid /\ vtx (dec d') !! (n, false) = Some mid /\ vtx (dec d') !! (n, true) = Some b /\
    vec (dec d) !! n = None /\ forall h, fst h <> e -> fst h <> n -> vtx (dec d') !! h = vtx (dec d) !! h.
Proof.
  intros I Lo H. apply split_seg_inv in H as (s & a0 & b0 & x & y & bx & t & H & Va & Vb & X & Y & B & T & ->). cbn [dec].
  assert (Mm : seg_of (dec d) !! mid = Some None) by (destruct Lo as (z & Ez & Es); rewrite lookup_fmap, Ez; cbn; by rewrite Es).
  assert (I0 := g_inv _ (e_good _ I)).
  destruct (split_segment_eff _ _ _ _ _ I0 Mm H) as (_ & nx & pv & a & b & wt & wf & xa & xb & xm & kb & Nt & Np & Va0 & Vb0 & Wt & Wf & Fi & Db & Da & Xa & Xb & Xm & HV & _).
  assert (NE : n <> e). { intros ->. destruct (fresh_sides _ _ I0 Fi) as (F & _). congruence. }
  exists a, b. rewrite HV. unfold vm, both. split; [done|]. split; [done|]. split; [done|].
  do 5 (split; [rewrite ?lookup_insert_ne by congruence; rewrite ?lookup_insert; done|]).
  intros [h c] H1 H2. cbn in H1, H2. rewrite !lookup_insert_ne by congruence. done.
Qed.

Lemma below_part_far t q tol : (0 < tol)%Q -> (0 <= t)%Q -> below_part t q tol = false -> (tol * tol <= t * t * q)%Q.
Proof.
  intros P T H. unfold below_part in H. destruct (Qle_bool tol 0) eqn:E0; [apply Qle_bool_iff in E0; lra|]. apply orb_false_iff in H as [_ H]. apply negb_false_iff, Qle_bool_iff in H. done.
Qed.
Lemma dist_to_start x y t : (dist2 (along x y t) x == t * t * norm2 (vminus y x))%Q.
Proof. unfold dist2, along, norm2, dot, vminus. cbn. ring. Qed.
Lemma dist_to_end x y t : (dist2 (along x y t) y == (1 - t) * (1 - t) * norm2 (vminus y x))%Q.
Proof. unfold dist2, along, norm2, dot, vminus. cbn. ring. Qed.
Lemma dist2_l x y z : (fst x == fst y)%Q -> (snd x == snd y)%Q -> (dist2 x z == dist2 y z)%Q.
Proof. intros H1 H2. unfold dist2. rewrite H1, H2. reflexivity. Qed.

Section Split.
Context (K : geometry) (inside : st -> nat -> vect -> bool) (root : Q -> Q).
Context (d : ed) (z : vect) (M : Q) (ED : edits d) (P : (0 < tolerance d)%Q) (R : room d M) (B : pt_bounded M z).
Context (V : vec_ok (dec d)) (Z : no_zero (dec d)).
Lemma add_on_segment g p d' p0 v0 : is_at (dec d) p0 v0 -> (forall q w, is_at (dec d) q w -> ~ near z w (tolerance d)) ->
  passes (dec d) z (tolerance d) g -> (forall g', passes (dec d) z (tolerance d) g' -> g' = g) -> add_point_impl K inside root z d = (Ok p, d') ->
  exists a b x y, vtx (dec d) !! (g, false) = Some a /\ vtx (dec d) !! (g, true) = Some b /\ is_at (dec d) a x /\ is_at (dec d) b y /\
  ((d' = d /\ (p = a \/ p = b)) \/
   (exists n v, vec (dec d) !! n = None /\ n <> g /\ vtx (dec d') !! (g, false) = Some a /\ vtx (dec d') !! (g, true) = Some p /\ vtx (dec d') !! (n, false) = Some p /\ vtx (dec d') !! (n, true) = Some b /\ (forall h, fst h <> g -> fst h <> n -> vtx (dec d') !! h = vtx (dec d) !! h) /\ is_at (dec d') p v /\ between x y v /\ (tolerance d * tolerance d <= dist2 v x)%Q /\ (tolerance d * tolerance d <= dist2 v y)%Q)).
Proof.
  intros A0 NP G U H. unfold add_point_impl in H. apply ebind_inv in H as (r & d1 & S & H). assert (I := edits_einv _ ED). assert (RP := R). destruct RP as [RP _].
  destruct (snap_first K inside root d z M I P RP B p0 v0 A0) as [(q & v & S1 & A & N)|(S1 & _)]; [exfalso; by apply (NP q v)|].
  rewrite S in S1. symmetry in S1.
  destruct (snap_one K inside root d z M I P B R V Z g G U) as (t & x & y & S2 & E & [T NT] & NA & _).
  rewrite S2 in S1. injection S1 as <- <-. assert (E' := E). destruct E' as (a & b & EA & EB & EX & EY).
  exists a, b, x, y. split; [done|]. split; [done|]. split; [done|]. split; [done|].
  cbn beta iota in H. unfold point_on_segment, end_at, xy_at in H. apply ebind_inv in H as (v & d2 & H1 & H). apply item_inv in H1 as [-> EV].
  apply ebind_inv in H as (a' & d2 & H1 & H). apply item_inv in H1 as [-> EA']. apply ebind_inv in H as (b' & d2 & H1 & H). apply item_inv in H1 as [-> EB'].
  apply ebind_inv in H as (o & d2 & H1 & H). apply item_inv in H1 as [-> EO]. cbv beta in EV, EA', EB', EO.
  assert (a' = a) as -> by congruence. assert (b' = b) as -> by congruence. assert (o = x) as ->.
  { rewrite lookup_fmap in EX. unfold vect in *. destruct (points (dec d) !! a); [|done]. cbn in EO, EX. congruence. }
  assert (v = vminus y x) as -> by (assert (EV2 := V _ _ _ _ _ EA EB EX EY); unfold vect in *; rewrite EV2 in EV; congruence).
  destruct (below_part t (norm2 (vminus y x)) (tolerance d)) eqn:B1; [left; injection H as <- <-; split; [done|by left]|].
  destruct (below_part (1 - t) (norm2 (vminus y x)) (tolerance d)) eqn:B2; [left; injection H as <- <-; split; [done|by right]|].
  right. apply ebind_inv in H as (m & d2 & H1 & H). apply ebind_inv in H as (n & d3 & H2 & H). apply eret_inv in H as [-> ->].
  destruct (add_point_at _ _ _ _ _ I H1) as (TT & AT & Bn & C & D & Lo). destruct (grow_polygon K _ _ _ _ _ ED H1) as [ED1 _].
  destruct (split_vtx _ _ _ _ _ (edits_einv _ ED1) Lo H2) as (a' & b' & Va & Vb & Ne & W1 & W2 & W3 & W4 & Fn & W5).
  destruct (split_at _ _ _ _ _ (edits_einv _ ED1) Lo H2) as [T3 X3].
  rewrite D in Va, Vb, W5. assert (a' = a) as -> by congruence. assert (b' = b) as -> by congruence.
  destruct (param_along x y t) as [PA1 PA2].
  exists n, (parametric (vminus y x) x t). split.
  { apply add_point_inv in H1 as (s & x1 & bb & tt & H1 & _ & _ & _ & ->). cbn [dec] in Fn. destruct (add_free_point_eff _ _ _ _ _ (g_inv _ (e_good _ I)) H1) as (_ & y1 & c & Y & F & EE). rewrite EE in Fn. exact Fn. }
  split; [done|]. split; [done|]. split; [done|]. split; [done|]. split; [done|]. split; [done|]. split; [unfold is_at in *; by rewrite X3|].
  split; [exists t; split; [done|split; [exact PA1|exact PA2]]|].
  apply below_part_far in B1; [|done|lra]. apply below_part_far in B2; [|done|lra].
  rewrite (dist2_l _ (along x y t) x PA1 PA2), (dist2_l _ (along x y t) y PA1 PA2), dist_to_start, dist_to_end. done.
Qed.
End Split.
