(** Adding a line between two places. *)
From stdpp Require Import gmap list.
From Coq Require Import Lia QArith Lqa Qminmax.
From Verif Require Import Decomp_Model Decomp_Spec Decomp_Surgery Decomp_Eff Decomp_Inv Decomp_Good Decomp_Mid Decomp_Hist Editor_Model Editor_Spec Editor_Proofs Editor_Undo.
From Verif Require Import Aabb_Model Aabb_Spec Aabb_Proofs Editor_Box Geom_Model Snap_Model Snap_Spec Snap_Proofs Snap_Cand Snap_Main Snap_Add Line_Model Line_Spec Line_Geo Line_Cut.
Local Open Scope nat_scope.

(** The drawing with one more free point. *)
Record plus_point (d d' : ed) (p : nat) (z : vect) : Prop := PlusPoint {
  pp_edits : edits d'; pp_tol : tolerance d' = tolerance d; pp_new : (xy <$> points (dec d)) !! p = None;
  pp_pts : (xy <$> points (dec d')) = <[p := z]> (xy <$> points (dec d)); pp_vtx : vtx (dec d') = vtx (dec d); pp_vec : vec (dec d') = vec (dec d); pp_box : s_boxes d' = s_boxes d }.
Lemma add_lonely K inside root d z M p d' p0 v0 g0 x0 y0 : edits d -> (0 < tolerance d)%Q -> room d M -> pt_bounded (M - tolerance d) z -> vec_ok (dec d) -> no_zero (dec d) ->
  is_at (dec d) p0 v0 -> ends (dec d) g0 x0 y0 -> (forall q w, is_at (dec d) q w -> ~ near z w (tolerance d)) -> (forall g, ~ passes (dec d) z (tolerance d) g) ->
  add_point_impl K inside root z d = (Ok p, d') -> plus_point d d' p z.
Proof.
  intros ED P R B V Z A0 E0 NP NG H. assert (BZ : pt_bounded M z) by (destruct B as [[? ?] [? ?]]; split; split; lra). unfold add_point_impl in H. apply ebind_inv in H as (r & d1 & S & H). assert (I := edits_einv _ ED).
  destruct (snap_first K inside root d z M I P (proj1 R) BZ p0 v0 A0) as [(q & v & _ & A & N)|(S1 & _)]; [exfalso; exact (NP q v A N)|]. rewrite S in S1. symmetry in S1.
  destruct (snap_none K inside root d z M I P BZ R V Z g0 x0 y0 E0 NG) as (c' & EC' & _ & S2). rewrite S2 in S1. unfold on_dec in S1. destruct (snap_polygon K inside (Some c') z (dec d)) as [r' s'] eqn:SP. injection S1 as -> <-.
  destruct EC' as (xc & yc & Ec & [Tc _] & _). apply snap_polygon_ok in SP as (-> & q & -> & _); [|apply I|done|done]. cbn beta iota in H. assert (DD : set_dec (dec d) d = d) by (by destruct d). rewrite DD in H.
  destruct (grow_polygon K _ _ _ _ _ ED H) as [ED' (T & N & X)]. destruct (add_point_at _ _ _ _ _ I H) as (_ & _ & _ & _ & VT & _). split; [done|done|done|done|done|exact (add_point_vec _ _ _ _ _ I H)|].
  apply add_point_inv in H as (s & x & b & t & _ & _ & _ & _ & ->). done.
Qed.
Section Plus.
Context (d d' : ed) (p : nat) (z : vect) (ED : edits d) (H : plus_point d d' p z).
Lemma plus_at q v : is_at (dec d') q v <-> is_at (dec d) q v \/ q = p /\ v = z.
Proof.
  unfold is_at. assert (X := pp_pts _ _ _ _ H). assert (N := pp_new _ _ _ _ H). unfold vect in *. rewrite X. destruct (decide (q = p)) as [-> |D].
  - rewrite lookup_insert. split; [intros E; injection E as <-; by right|intros [E|[_ ->]]; [congruence|done]].
  - rewrite lookup_insert_ne by done. split; [by left|by intros [E|[E _]]].
Qed.
Lemma plus_ends g x y : ends (dec d') g x y <-> ends (dec d) g x y.
Proof.
  split; [exact (ends_grown _ _ _ _ _ _ _ (pp_new _ _ _ _ H) (pp_pts _ _ _ _ H) (pp_vtx _ _ _ _ H) (g_inv _ (e_good _ (edits_einv _ ED))))|].
  intros (a & b & A & B & XA & XB). exists a, b. rewrite (pp_vtx _ _ _ _ H). split; [done|]. split; [done|]. split; apply plus_at; by left.
Qed.
Lemma plus_vec : vec_ok (dec d) -> vec_ok (dec d').
Proof.
  intros V g a b x y A B XA XB. assert (E : ends (dec d) g x y) by (apply plus_ends; by exists a, b). destruct E as (a' & b' & A' & B' & X' & Y'). rewrite (pp_vec _ _ _ _ H). exact (V g a' b' x y A' B' X' Y').
Qed.
Lemma plus_zero : no_zero (dec d) -> no_zero (dec d').
Proof. intros Z g x y E. apply plus_ends in E. exact (Z g x y E). Qed.
Lemma plus_passes w r g : passes (dec d') w r g <-> passes (dec d) w r g.
Proof. split; intros (x & y & v & E & Q); exists x, y, v; (split; [by apply plus_ends|done]). Qed.
Lemma plus_crosses g xa xb w : crosses (dec d') g xa xb w <-> crosses (dec d) g xa xb w.
Proof. split; intros (x & y & E & Q); exists x, y; (split; [by apply plus_ends|done]). Qed.
Lemma plus_drawn w : drawn (dec d') w <-> drawn (dec d) w.
Proof. split; intros (g & x & y & E & Q); exists g, x, y; (split; [by apply plus_ends|done]). Qed.
Lemma plus_planar : planar (dec d) -> planar (dec d').
Proof. intros Q g h x y x' y' w N E E'. apply plus_ends in E, E'. exact (Q g h x y x' y' w N E E'). Qed.
Lemma plus_room M : room d M -> pt_bounded (M - tolerance d) z -> room d' M.
Proof.
  intros [(R1 & R2 & R3) R4] B. split; [split; [done|split; [done|]]|].
  - intros q v A. rewrite (pp_tol _ _ _ _ H). apply plus_at in A as [A|[_ ->]]; [by eapply R3|done].
  - intros g b. rewrite (pp_vec _ _ _ _ H), (pp_box _ _ _ _ H). apply R4.
Qed.
End Plus.
(** Both points are new. *)
Lemma add_line_points K can order inside root n d xa xb M r d' p0 v0 g0 x0 y0 : edits d -> (0 < tolerance d)%Q -> room d M -> pt_bounded (M - tolerance d) xa -> pt_bounded (M - tolerance d) xb -> vec_ok (dec d) -> no_zero (dec d) ->
  is_at (dec d) p0 v0 -> ends (dec d) g0 x0 y0 -> lonely d xa xb -> add_line K can order inside root n xa xb d = (Ok r, d') ->
  exists a b l da db, r = Segments l /\ plus_point d da a xa /\ plus_point da db b xb /\ a <> b /\ clean db a b xa xb /\ line_for_points K can order n [a; b] a b db = (Ok l, d').
Proof.
  intros ED P R BA BB V Z A0 E0 O H. unfold add_line in H. apply ebind_inv in H as (a & da & Ha & H). apply ebind_inv in H as (b & db & Hb & H).
  assert (Pa : plus_point d da a xa). { eapply (add_lonely K inside root d xa M a da p0 v0 g0 x0 y0); try done; [intros q w Q; by apply (o_points _ _ _ O q w)|intros g; apply (o_segments _ _ _ O g)]. }
  assert (Ta := pp_tol _ _ _ _ Pa). assert (Pb : plus_point da db b xb).
  { apply (add_lonely K inside root da xb M b db p0 v0 g0 x0 y0); [apply Pa|by rewrite Ta|by eapply plus_room|by rewrite Ta|by eapply plus_vec|by eapply plus_zero|apply (plus_at _ _ _ _ Pa); by left|by apply (plus_ends _ _ _ _ ED Pa)| | |done].
    - intros q w Q. rewrite Ta. apply (plus_at _ _ _ _ Pa) in Q as [Q|[_ ->]]; [by apply (o_points _ _ _ O q w)|]. intros N. apply (o_len _ _ _ O). by apply near_comm.
    - intros g G. rewrite Ta in G. apply (plus_passes _ _ _ _ ED Pa) in G. by apply (o_segments _ _ _ O g). }
  assert (Tb := pp_tol _ _ _ _ Pb). assert (EDa := pp_edits _ _ _ _ Pa). assert (AB : a <> b). { intros <-. assert (Q : is_at (dec da) a xa) by (apply (plus_at _ _ _ _ Pa); by right). assert (N := pp_new _ _ _ _ Pb). unfold is_at in Q. unfold vect in *. congruence. }
  destruct (Nat.eqb_spec a b) as [E|_]; [done|]. apply ebind_inv in H as (l & d2 & H & H2). apply eret_inv in H2 as [-> ->]. exists a, b, l, da, db. split; [done|]. split; [done|]. split; [done|]. split; [done|]. split; [|done].
  assert (EN : forall g x y, ends (dec db) g x y -> ends (dec d) g x y). { intros g x y E. apply (plus_ends _ _ _ _ EDa Pb) in E. by apply (plus_ends _ _ _ _ ED Pa) in E. }
  assert (VT : vtx (dec db) = vtx (dec d)) by (rewrite (pp_vtx _ _ _ _ Pb); apply Pa). assert (TT : tolerance db = tolerance d) by congruence. split.
  - intros g c p w z G NA NB A BT N. rewrite TT in N. rewrite VT in G. apply (plus_at _ _ _ _ Pb) in A as [A|[-> _]]; [|done]. apply (plus_at _ _ _ _ Pa) in A as [A|[-> _]]; [|done]. exact (o_vertex _ _ _ O g c p w z G A BT N).
  - intros g (x & y & w & E & G). exfalso. rewrite TT in G. apply (proj1 (o_segments _ _ _ O g)). exists x, y, w. split; [by apply EN|done].
  - intros g (x & y & w & E & G). exfalso. rewrite TT in G. apply (proj2 (o_segments _ _ _ O g)). exists x, y, w. split; [by apply EN|done].
  - intros g h w z (x & y & E & G) (x' & y' & E' & G') N. rewrite TT in N. apply (o_apart _ _ _ O g h w z); [exists x, y; split; [by apply EN|done]|exists x', y'; split; [by apply EN|done]|done].
  - intros g x y E. rewrite TT. by apply (o_short _ _ _ O g x y), EN.
  - intros S. apply (o_len _ _ _ O). rewrite <- TT. eapply near_same; [apply same_refl|exact S|]. apply near_refl. by rewrite TT.
  - rewrite TT. apply O.
Qed.
