(** Properties of merging decompositions (merge.py). *)
From stdpp Require Import gmap list relations functions.
From Coq Require Import Lia QArith Lqa.
From Verif Require Import Decomp_Model Decomp_Spec Decomp_Plane Decomp_Planar Decomp_Surgery Decomp_Eff Decomp_Inv Decomp_Tree Decomp_Nest Decomp_Good Decomp_Hist Decomp_Told Decomp_Check Editor_Model Editor_Spec Editor_Proofs Editor_Undo Editor_Plane.
From Verif Require Import Aabb_Model Aabb_Spec Editor_Box Geom_Model Snap_Model Snap_Spec Snap_Proofs Snap_Plane Line_Model Line_Spec Line_Plane Merge_Model Merge_Spec Merge_Sides Merge_Keep Merge_Dict Merge_Run Merge_Cuts Merge_Lines Merge_Fill Merge_Maps Merge_Carry.
Local Open Scope nat_scope.

(** Decompositions made by calls, and by merging others into them (merge.py lines 182-187); no point can be moved, as with the default attribute. *)
Inductive merged (K : geometry) : ed -> Prop :=
  | merged_edits d : edits d -> vec_ok (dec d) -> merged K d
  | merged_single can inside root k tol other pts segs d r d' : merged K d -> (forall d p v, can d p v = false) -> (0 < tol)%Q ->
      intersect_single K can inside root k tol other pts segs d = (Ok r, d') -> merged K d'.
Lemma merged_good K d : steady K -> merged K d -> good (dec d) /\ vec_ok (dec d).
Proof.
  intros SK. induction 1 as [d E V|can inside root k tol other pts segs d [ms mo] d' _ [G V] NC P H]; [split; [apply (e_good _ (edits_einv _ E))|done]|].
  destruct (single_polys _ _ _ _ _ _ _ _ _ _ _ _ _ SK NC G V P H) as (A & B & _). done.
Qed.

Section Single.
Context (K : geometry) (can : ed -> nat -> vect -> bool) (inside : st -> nat -> vect -> bool) (root : Q -> Q) (k : nat) (tol : Q) (other : st) (pts segs : list nat) (d : ed) (ms : maps nat) (mo : maps (option nat)) (d' : ed).
Context (SK : steady K) (NC : forall d p v, can d p v = false) (MG : merged K d) (P : (0 < tol)%Q) (H : intersect_single K can inside root k tol other pts segs d = (Ok (ms, mo), d')) (SP : spread (dec d') tol).
Lemma single_recorded : recorded (dec d) d' (m_segs ms) (m_polys ms) (m_segs mo).
Proof. destruct (merged_good _ _ SK MG) as [G V]. destruct (single_run _ _ _ _ _ _ _ _ _ _ _ _ _ SK NC G V P H) as (_ & _ & _ & _ & R & _). by apply R. Qed.
End Single.

(** * C99: every segment of the first decomposition is the union of the parts that the map gives for it *)
(** A place is on a segment of the first decomposition iff it is on one that the map takes to it. *)
Theorem C99_parts K can inside root k tol other pts segs d ms mo d' h w : steady K -> (forall d p v, can d p v = false) -> merged K d -> (0 < tol)%Q ->
  intersect_single K can inside root k tol other pts segs d = (Ok (ms, mo), d') -> spread (dec d') tol ->
  is_Some (vec (dec d) !! h) -> (on (dec d) h w <-> exists g, says (m_segs ms) g h /\ on (dec d') g w).
Proof.
  intros SK NC MG P H SP L. destruct (single_recorded _ _ _ _ _ _ _ _ _ _ _ _ _ SK NC MG P H SP) as [KP N KE U1 U2 UM PO OT].
  rewrite (k_on _ _ _ _ KP h w L). split.
  - intros (g & _ & E & O). exists g. split; [by apply says_origin|done].
  - intros (g & E & O). apply (says_origin _ _ _ U1) in E. exists g. split; [|done]. eapply on_live; [apply (k_good _ _ _ _ KP)|exact O].
Qed.
(** Every segment of the result is part of one of the first decomposition or comes from the other one; keys are segments of the result, each once, and values those of the first decomposition; a segment keeps its id. *)
Theorem C99_segments K can inside root k tol other pts segs d ms mo d' : steady K -> (forall d p v, can d p v = false) -> merged K d -> (0 < tol)%Q ->
  intersect_single K can inside root k tol other pts segs d = (Ok (ms, mo), d') -> spread (dec d') tol ->
  (forall g, is_Some (vec (dec d') !! g) -> exists h, says (m_segs ms) g h /\ (is_Some (vec (dec d) !! h) \/ h = g /\ exists e, In (g, e) (m_segs mo))) /\
  NoDup (fst <$> m_segs ms) /\ (forall g h, In (g, h) (m_segs ms) -> is_Some (vec (dec d') !! g) /\ is_Some (vec (dec d) !! h)) /\
  (forall h, is_Some (vec (dec d) !! h) -> is_Some (vec (dec d') !! h) /\ says (m_segs ms) h h).
Proof.
  intros SK NC MG P H SP. destruct (single_recorded _ _ _ _ _ _ _ _ _ _ _ _ _ SK NC MG P H SP) as [KP N KE U1 U2 UM PO OT].
  split; [|split; [done|split]].
  - intros g L. exists (origin (m_segs ms) g). split; [by apply says_origin|]. destruct (N g L) as [A|[A [e B]]]; [by left|]. right. split; [done|]. exists e. by apply (dget_in _ _ _ UM).
  - intros g h I. apply KE. by apply (dget_in _ _ _ U1).
  - intros h L. destruct (k_seg _ _ _ _ KP h L) as [A B]. split; [done|]. by apply says_origin.
Qed.
(** Points stay where they are; the result is a decomposition again: the sides of segments are a half-edge structure, the tree of wires is whole, the formula of Euler holds; the tolerance is the one from before. *)
Theorem C99_valid K can inside root k tol other pts segs d ms mo d' (X : gset nat) : steady K -> (forall d p v, can d p v = false) -> merged K d -> (0 < tol)%Q ->
  intersect_single K can inside root k tol other pts segs d = (Ok (ms, mo), d') -> (forall p, p ∈ X <-> exists h, vtx (dec d') !! h = Some p) ->
  half_edges (dec d') /\ whole (dec d') /\ vec_ok (dec d') /\ size X + 2 * size (polys (dec d')) = size (vec (dec d')) + size (wires (dec d')) + 1 /\
  tolerance d' = tolerance d /\ m_points ms = [] /\ forall p v, is_at (dec d) p v -> is_at (dec d') p v.
Proof.
  intros SK NC MG P H HX. destruct (merged_good _ _ SK MG) as [G V]. destruct (single_run _ _ _ _ _ _ _ _ _ _ _ _ _ SK NC G V P H) as (A & B & C & D & _).
  destruct (single_polys _ _ _ _ _ _ _ _ _ _ _ _ _ SK NC G V P H) as (_ & V' & _).
  split; [apply inv_half, A|]. split; [intros w Hw; split; [by apply (n_up _ _ _ (g_nest _ A))|]; destruct (n_wire _ _ _ (g_nest _ A) w Hw) as (g & o & X1 & X2 & X3); by exists g, o|]. split; [done|]. split; [|done]. assert (E := g_euler _ A). rewrite !map_size_fmap in E. rewrite <- E. f_equal. f_equal. apply set_eq. intros p. by rewrite HX, elem_of_img.
Qed.

(** * C100: polygons of the first decomposition *)
(** Polygons keep their ids; every polygon of the result is taken to one of the first decomposition; keys are new polygons, each once. *)
Theorem C100_polygons K can inside root k tol other pts segs d ms mo d' : steady K -> (forall d p v, can d p v = false) -> merged K d -> (0 < tol)%Q ->
  intersect_single K can inside root k tol other pts segs d = (Ok (ms, mo), d') -> spread (dec d') tol ->
  (forall z, is_Some (polys (dec d) !! z) -> is_Some (polys (dec d') !! z) /\ says (m_polys ms) z z) /\
  (forall z, is_Some (polys (dec d') !! z) -> exists y, says (m_polys ms) z y /\ is_Some (polys (dec d) !! y)) /\
  NoDup (fst <$> m_polys ms) /\ forall z y, In (z, y) (m_polys ms) -> is_Some (polys (dec d') !! z) /\ polys (dec d) !! z = None /\ is_Some (polys (dec d) !! y).
Proof.
  intros SK NC MG P H SP. destruct (single_recorded _ _ _ _ _ _ _ _ _ _ _ _ _ SK NC MG P H SP) as [KP N KE U1 U2 UM PO OT].
  assert (LI : forall s z, is_Some (outer_of s !! z) <-> is_Some (polys s !! z)) by (intros s z; by rewrite lookup_fmap, fmap_is_Some).
  split; [|split; [|split; [done|]]].
  - intros z L. apply LI in L. destruct (k_poly _ _ _ _ KP z L) as [A B]. split; [by apply LI|by apply says_origin].
  - intros z L. apply LI in L. exists (origin (m_polys ms) z). split; [by apply says_origin|]. apply LI. by apply (k_polys _ _ _ _ KP).
  - intros z y I. apply (dget_in _ _ _ U2) in I. destruct (PO _ _ I) as (A & B & C). split; [by apply LI|]. split; [|by apply LI]. rewrite lookup_fmap in B. by destruct (polys (dec d) !! z).
Qed.
(** On each side of a part is a polygon that the map takes to the polygon on this side of the whole segment. *)
Theorem C100_sides K can inside root k tol other pts segs d ms mo d' g h c : steady K -> (forall d p v, can d p v = false) -> merged K d -> (0 < tol)%Q ->
  intersect_single K can inside root k tol other pts segs d = (Ok (ms, mo), d') -> spread (dec d') tol ->
  is_Some (vec (dec d') !! g) -> is_Some (vec (dec d) !! h) -> says (m_segs ms) g h ->
  exists z y, poly_at (dec d') (g, c) = Some z /\ poly_at (dec d) (h, c) = Some y /\ says (m_polys ms) z y.
Proof.
  intros SK NC MG P H SP Lg Lh SY. destruct (single_recorded _ _ _ _ _ _ _ _ _ _ _ _ _ SK NC MG P H SP) as [KP N KE U1 U2 UM PO OT].
  apply (says_origin _ _ _ U1) in SY. subst h. destruct (side_poly (dec d') g c (k_good _ _ _ _ KP) Lg) as (z & Z & _). exists z, (origin (m_polys ms) z). split; [done|]. split; [by apply (k_side _ _ _ _ KP)|]. by apply says_origin.
Qed.

(** * C101: the maps to the other decomposition *)
(** Keys are points and segments of the result, each once; values are points and segments of the other one. *)
Theorem C101_other K can inside root k tol other pts segs d ms mo d' : steady K -> (forall d p v, can d p v = false) -> merged K d -> (0 < tol)%Q ->
  intersect_single K can inside root k tol other pts segs d = (Ok (ms, mo), d') -> spread (dec d') tol ->
  NoDup (fst <$> m_points mo) /\ (forall p q, In (p, q) (m_points mo) -> (exists v, is_at (dec d') p v) /\ In q pts) /\
  NoDup (fst <$> m_segs mo) /\ (forall g e, In (g, e) (m_segs mo) -> is_Some (vec (dec d') !! g) /\ In e segs).
Proof.
  intros SK NC MG P H SP. destruct (single_recorded _ _ _ _ _ _ _ _ _ _ _ _ _ SK NC MG P H SP) as [KP N KE U1 U2 UM PO OT].
  destruct (merged_good _ _ SK MG) as [G V]. destruct (single_run _ _ _ _ _ _ _ _ _ _ _ _ _ SK NC G V P H) as (_ & _ & _ & _ & _ & MP & UP & MS & _).
  split; [done|]. split; [intros p q I; apply MP; by apply (dget_in _ _ _ UP)|]. split; [done|]. intros g e I. apply (dget_in _ _ _ UM) in I. split; [by eapply OT|by eapply MS].
Qed.
(** Every polygon of the result is a key, once; a value is a polygon of the other decomposition beside one of its segments; what is across the outer wire of a polygon with a value has a value. *)
Theorem C101_polygons K can inside root k tol other pts segs d ms mo d' : steady K -> (forall d p v, can d p v = false) -> merged K d -> (0 < tol)%Q ->
  intersect_single K can inside root k tol other pts segs d = (Ok (ms, mo), d') ->
  NoDup (fst <$> m_polys mo) /\ (forall z, (exists x, In (z, x) (m_polys mo)) <-> is_Some (polys (dec d') !! z)) /\
  (forall z v, In (z, Some v) (m_polys mo) -> exists e c, In e segs /\ poly_at other (e, c) = Some v) /\
  (forall p q v, In (p, Some v) (m_polys mo) -> beside (dec d') p q -> exists u, In (q, Some u) (m_polys mo)).
Proof.
  intros SK NC MG P H. destruct (merged_good _ _ SK MG) as [G V]. destruct (single_polys _ _ _ _ _ _ _ _ _ _ _ _ _ SK NC G V P H) as (G' & V' & m & FI & U & DM).
  destruct (fill_run (dec d') G' m U (fun p '(ex_intro _ x E) => proj1 (DM p x E)) k _ FI) as (U' & KE & FL & GI & CL). split; [done|]. split; [|split].
  - intros z. assert (LI : is_Some (outer_of (dec d') !! z) <-> is_Some (polys (dec d') !! z)) by (by rewrite lookup_fmap, fmap_is_Some). rewrite <- LI, <- KE. split; intros [x I]; exists x; by apply (dget_in _ _ _ U').
  - intros z v I. apply FL in I. induction I as [p I|]; [|done]. apply (dget_in _ _ _ U) in I. destruct (DM _ _ I) as [_ A]. by apply A.
  - intros p q v I B. by eapply CL.
Qed.
(** Filling the map comes to an end, without an exception. *)
Theorem C101_fill s m : good s -> NoDup (fst <$> m) -> (forall p x, In (p, x) m -> is_Some (polys s !! p)) -> exists k0 m', forall k, k0 <= k -> fill k s m = Ok m' /\
  (forall p u, In (p, Some u) m' -> flows s m u p) /\ (forall p u, In (p, Some u) m -> In (p, Some u) m') /\ (forall p u, flows s m u p -> exists v, In (p, Some v) m').
Proof.
  intros G U KE. assert (KY : forall p, is_Some (dget p m) -> is_Some (outer_of s !! p)). { intros p [x E]. rewrite lookup_fmap, fmap_is_Some. eapply KE. by apply (dget_in _ _ _ U). }
  destruct (fill_ends s G m U KY) as (k0 & m' & K0). exists k0, m'. intros k L. destruct (fill_run s G m U KY k m' (K0 k L)) as (U' & _ & FL & GI & CL). split; [auto|]. split; [done|]. split; [done|].
  induction 1 as [p I|p q _ [v IH] B _]; [eauto|]. by eapply CL.
Qed.

(** * C102: merging several decompositions *)
(** What the map of an earlier decomposition gives for one of its segments covers the same places after the next merge; a polygon of the result has the value of the polygon it is part of; points keep their values. *)
Theorem C102_next K can inside root k tol other pts segs d ms mo d' one one' : steady K -> (forall d p v, can d p v = false) -> merged K d -> (0 < tol)%Q ->
  intersect_single K can inside root k tol other pts segs d = (Ok (ms, mo), d') -> spread (dec d') tol ->
  NoDup (fst <$> m_segs one) -> NoDup (fst <$> m_polys one) -> (forall g e, In (g, e) (m_segs one) -> is_Some (vec (dec d) !! g)) -> (forall z v, In (z, v) (m_polys one) -> is_Some (polys (dec d) !! z)) ->
  carry_maps ms one = Some one' ->
  m_points one' = m_points one /\
  (forall e w, (exists g, In (g, e) (m_segs one) /\ on (dec d) g w) <-> exists g, In (g, e) (m_segs one') /\ on (dec d') g w) /\
  (forall z y v, is_Some (polys (dec d') !! z) -> says (m_polys ms) z y -> (In (z, v) (m_polys one') <-> In (y, v) (m_polys one))).
Proof.
  intros SK NC MG P H SP U1 UP K1 KP CM. assert (R := single_recorded _ _ _ _ _ _ _ _ _ _ _ _ _ SK NC MG P H SP). destruct R as [KS N KE UM1 UM2 UM PO OT].
  destruct (merged_good _ _ SK MG) as [G V]. destruct (single_run _ _ _ _ _ _ _ _ _ _ _ _ _ SK NC G V P H) as (_ & _ & EP & _).
  unfold carry_maps in CM. rewrite EP in CM. cbn [carry] in CM. destruct (carry (m_segs ms) (m_segs one)) as [b|] eqn:E1; [|done]. cbn in CM. destruct (carry (m_polys ms) (m_polys one)) as [c|] eqn:E2; [|done]. cbn in CM. injection CM as <-. cbn.
  assert (S1 : settled (m_segs ms)). { intros n o E. destruct (KE _ _ E) as [_ L]. by apply (k_seg _ _ _ _ KS). }
  assert (S2 : settled (m_polys ms)). { intros n o E. destruct (PO _ _ E) as (_ & _ & L). by apply (k_poly _ _ _ _ KS). }
  assert (G1 := carry_settled _ _ _ UM1 S1 E1). assert (G2 := carry_settled _ _ _ UM2 S2 E2). assert (Ub := carry_uniq _ _ _ E1 U1). assert (Uc := carry_uniq _ _ _ E2 UP).
  split; [done|]. split.
  - intros e w. split.
    + intros (g & I & O). assert (L := K1 _ _ I). apply (k_on _ _ _ _ KS g w L) in O as (g' & L' & E & O). exists g'. split; [|done]. apply (dget_in _ _ _ Ub). rewrite G1, E. apply (dget_in _ _ _ U1) in I. by rewrite I.
    + intros (g & I & O). apply (dget_in _ _ _ Ub) in I. rewrite G1 in I. destruct (dget (origin (m_segs ms) g) (m_segs one)) as [v|] eqn:E.
      * injection I as ->. apply (dget_in _ _ _ U1) in E. exists (origin (m_segs ms) g). split; [done|]. apply (k_on _ _ _ _ KS _ w); [by eapply K1|]. exists g. split; [|done]. eapply on_live; [apply (k_good _ _ _ _ KS)|exact O].
      * exfalso. assert (L : is_Some (vec (dec d) !! g)) by (eapply K1; by apply (dget_in _ _ _ U1)). destruct (k_seg _ _ _ _ KS g L) as [_ X]. rewrite X in E. congruence.
  - intros z y v L SY. apply (says_origin _ _ _ UM2) in SY. rewrite <- (dget_in _ _ _ Uc), <- (dget_in _ _ _ UP), G2, SY. destruct (dget y (m_polys one)) as [x|] eqn:E; [done|]. split; [|done]. intros E'.
    exfalso. assert (Lz : is_Some (outer_of (dec d) !! z)). { rewrite lookup_fmap, fmap_is_Some. eapply KP. by apply (dget_in _ _ _ UP). } destruct (k_poly _ _ _ _ KS z Lz) as [_ X]. rewrite X in SY. congruence.
Qed.
(** The maps are about the decomposition. *)
Definition about (s : st) (m : maps nat) : Prop := NoDup (fst <$> m_segs m) /\ NoDup (fst <$> m_polys m) /\ (forall g e, In (g, e) (m_segs m) -> is_Some (vec s !! g)) /\ (forall z v, In (z, v) (m_polys m) -> is_Some (polys s !! z)) /\ (forall p q, In (p, q) (m_points m) -> is_Some (points s !! p)). (* spec of merge.py lines 182-196 *)
Lemma carry_keys c : forall one one', carry c one = Some one' -> forall g v, dget g one' = Some v -> is_Some (dget g one) \/ exists o, In (g, o) c.
Proof.
  induction c as [|[n o] c IH]; intros one one' H g v E; cbn in H; [injection H as <-; eauto|]. destruct (dget o one) as [x|].
  - destruct (match dget n one with None => true | Some _ => n =? o end); [|done]. destruct (IH _ _ H g v E) as [A|[o' A]]; [|right; exists o'; by right]. rewrite dget_dput in A. destruct (Nat.eqb_spec n g) as [<- |D]; [right; exists o; by left|by left].
  - destruct (IH _ _ H g v E) as [A|[o' A]]; [by left|right; exists o'; by right].
Qed.
Lemma at_point s p v : is_at s p v -> is_Some (points s !! p).
Proof. unfold is_at. rewrite lookup_fmap. destruct (points s !! p); [by eexists|done]. Qed.
Lemma about_next K can inside root k tol other pts segs d ms mo d' one one' : steady K -> (forall d p v, can d p v = false) -> merged K d -> (0 < tol)%Q ->
  intersect_single K can inside root k tol other pts segs d = (Ok (ms, mo), d') -> spread (dec d') tol -> about (dec d) one -> carry_maps ms one = Some one' -> about (dec d') one'.
Proof.
  intros SK NC MG P H SP (U1 & UP & K1 & KP & KQ) CM. destruct (merged_good _ _ SK MG) as [G V]. destruct (single_run _ _ _ _ _ _ _ _ _ _ _ _ _ SK NC G V P H) as (_ & _ & EP & DP & _). destruct (C99_segments _ _ _ _ _ _ _ _ _ _ _ _ _ SK NC MG P H SP) as (_ & _ & A1 & A2). destruct (C100_polygons _ _ _ _ _ _ _ _ _ _ _ _ _ SK NC MG P H SP) as (B1 & _ & _ & B2).
  unfold carry_maps in CM. rewrite EP in CM. cbn [carry] in CM. cbn in CM. destruct (carry (m_segs ms) (m_segs one)) as [b|] eqn:E1; [|done]. cbn in CM. destruct (carry (m_polys ms) (m_polys one)) as [c|] eqn:E2; [|done]. cbn in CM. injection CM as <-.
  assert (Ub := carry_uniq _ _ _ E1 U1). assert (Uc := carry_uniq _ _ _ E2 UP). split; [done|]. split; [done|]. cbn. split; [|split].
  - intros g e I. apply (dget_in _ _ _ Ub) in I. destruct (carry_keys _ _ _ E1 _ _ I) as [[v L]|[o L]]; [apply A2; eapply K1; by apply (dget_in _ _ _ U1)|by eapply A1].
  - intros g e I. apply (dget_in _ _ _ Uc) in I. destruct (carry_keys _ _ _ E2 _ _ I) as [[v L]|[o L]]; [apply B1; eapply KP; by apply (dget_in _ _ _ UP)|by eapply B2].
  - intros p q I. destruct (KQ _ _ I) as [x X]. apply (at_point (dec d') p (xy x)), DP. unfold is_at. by rewrite lookup_fmap, X.
Qed.
Lemma drop_in z v (l : dict (option nat)) : In (z, v) (drop_none l) <-> In (z, Some v) l.
Proof.
  unfold drop_none. rewrite in_flat_map. split.
  - intros ([i [u|]] & A & B); cbn in B; [|done]. destruct B as [B|[]]. congruence.
  - intros I. exists (z, Some v). split; [done|by left].
Qed.
Lemma drop_uniq (l : dict (option nat)) : uniq l -> uniq (drop_none l).
Proof.
  unfold uniq. induction l as [|[i [u|]] l IH]; intros U; [apply NoDup_nil_2| |]; apply list.NoDup_cons in U as [N U]; [|by apply IH].
  change (NoDup (i :: (drop_none l).*1)). apply list.NoDup_cons. split; [|by apply IH]. intros X. apply N. apply elem_of_list_fmap in X as ([j w] & -> & X). apply elem_of_list_In, drop_in in X. apply elem_of_list_fmap. exists (j, Some w). split; [done|]. by apply elem_of_list_In.
Qed.
Lemma about_own K can inside root k tol other pts segs d ms mo d' : steady K -> (forall d p v, can d p v = false) -> merged K d -> (0 < tol)%Q ->
  intersect_single K can inside root k tol other pts segs d = (Ok (ms, mo), d') -> spread (dec d') tol -> about (dec d') (Maps (m_points mo) (m_segs mo) (drop_none (m_polys mo))).
Proof.
  intros SK NC MG P H SP. destruct (C101_other _ _ _ _ _ _ _ _ _ _ _ _ _ SK NC MG P H SP) as (_ & A0 & U & A). destruct (C101_polygons _ _ _ _ _ _ _ _ _ _ _ _ _ SK NC MG P H) as (UP & B & _).
  split; [done|]. split; [by apply drop_uniq|]. split; [intros g e I; by eapply A|]. cbn. split; [intros z v I; apply drop_in in I; apply B; eauto|]. intros p q I. destruct (A0 _ _ I) as [[v X] _]. by eapply at_point.
Qed.
Lemma spread_back s s' r : (forall p v, is_at s p v -> is_at s' p v) -> spread s' r -> spread s r.
Proof. intros A S p q v w D X Y. eapply S; [exact D|by apply A|by apply A]. Qed.
Lemma mapM_some {A B} (f : A -> option B) l l' : mapM f l = Some l' -> length l' = length l /\ forall i x, l !! i = Some x -> exists y, l' !! i = Some y /\ f x = Some y.
Proof.
  intros M. apply mapM_Some_1 in M. split; [symmetry; by eapply Forall2_length|]. intros i x E. destruct (Forall2_lookup_l _ _ _ _ _ M E) as (y & Y & F). eauto.
Qed.
Section Several.
Context (K : geometry) (can : ed -> nat -> vect -> bool) (inside : st -> nat -> vect -> bool) (root : Q -> Q) (k : nat) (tol : Q).
Context (SK : steady K) (NC : forall d p v, can d p v = false) (P : (0 < tol)%Q).
Lemma merge_grows l : forall all d r d', merged K d -> merge_all K can inside root k tol l all d = (Ok r, d') -> merged K d' /\ forall p v, is_at (dec d) p v -> is_at (dec d') p v.
Proof.
  induction l as [|x l IH]; intros all d r d' MG H; cbn [merge_all] in H; [by apply eret_inv in H as [_ ->]|].
  apply ebind_inv in H as ([ms mo] & d1 & H1 & H). apply ebind_inv in H as (all' & d2 & H2 & H). apply of_other_inv in H2 as [-> _]. destruct (all_hit _ _); [|done].
  assert (M1 : merged K d1) by (by eapply merged_single). destruct (IH _ _ _ _ M1 H) as [M2 A]. split; [done|]. intros p v X. apply A. destruct (merged_good _ _ SK MG) as [G V]. destruct (single_run _ _ _ _ _ _ _ _ _ _ _ _ _ SK NC G V P H1) as (_ & _ & _ & D & _). by apply D.
Qed.
Lemma merge_later l : forall all d r d' i one, merged K d -> merge_all K can inside root k tol l all d = (Ok r, d') -> spread (dec d') tol -> (forall i m, all !! i = Some m -> about (dec d) m) -> all !! i = Some one ->
  exists one', r !! i = Some one' /\ m_points one' = m_points one /\ (forall e w, (exists g, In (g, e) (m_segs one) /\ on (dec d) g w) <-> exists g, In (g, e) (m_segs one') /\ on (dec d') g w) /\
  (forall g e, In (g, e) (m_segs one) -> In (g, e) (m_segs one')) /\ (forall z v, In (z, v) (m_polys one) -> In (z, v) (m_polys one')).
Proof.
  induction l as [|x l IH]; intros all d r d' i one MG H SP AB E; cbn [merge_all] in H; [apply eret_inv in H as [-> ->]; by exists one|].
  apply ebind_inv in H as ([ms mo] & d1 & H1 & H). apply ebind_inv in H as (all' & d2 & H2 & H). apply of_other_inv in H2 as [-> HM]. destruct (all_hit _ _); [|done].
  assert (M1 : merged K d1) by (by eapply merged_single). destruct (merge_grows _ _ _ _ _ M1 H) as [_ GR]. assert (S1 : spread (dec d1) tol) by (by eapply spread_back).
  destruct (mapM_some _ _ _ HM) as [LE MS]. destruct (MS i one E) as (one1 & E1 & C1).
  assert (AB1 : forall j m, (all' ++ [Maps (m_points mo) (m_segs mo) (drop_none (m_polys mo))]) !! j = Some m -> about (dec d1) m).
  { intros j m J. apply lookup_app_Some in J as [J|[L J]].
    - assert (exists m0, all !! j = Some m0) as [m0 J0]. { apply lookup_lt_is_Some. rewrite <- LE. by eapply lookup_lt_Some. } destruct (MS _ _ J0) as (m1 & Y & Z). assert (m1 = m) as -> by congruence. eapply (about_next _ _ _ _ _ _ _ _ _ _ _ _ _ m0 m SK NC MG P H1 S1); [by eapply AB|done].
    - apply list_lookup_singleton_Some in J as [_ <-]. exact (about_own _ _ _ _ _ _ _ _ _ _ _ _ _ SK NC MG P H1 S1). }
  destruct (IH _ _ _ _ i one1 M1 H SP AB1) as (one' & R1 & R2 & R3 & R4 & R5); [apply lookup_app_Some; by left|].
  destruct (AB i one E) as (U1 & UP & K1 & KP & _). destruct (C102_next _ _ _ _ _ _ _ _ _ _ _ _ _ _ _ SK NC MG P H1 S1 U1 UP K1 KP C1) as (Q1 & Q2 & Q3).
  destruct (single_recorded _ _ _ _ _ _ _ _ _ _ _ _ _ SK NC MG P H1 S1) as [KS N KE UM1 UM2 UM PO OT].
  unfold carry_maps in C1. destruct (carry (m_points ms) (m_points one)) as [a|]; [|done]. cbn in C1. destruct (carry (m_segs ms) (m_segs one)) as [b|] eqn:E3; [|done]. cbn in C1. destruct (carry (m_polys ms) (m_polys one)) as [c|] eqn:E4; [|done]. cbn in C1. injection C1 as <-. cbn in *.
  exists one'. split; [done|]. split; [congruence|]. split; [intros e w; by rewrite Q2, R3|]. split.
  - intros g e I. apply R4. by apply (carry_value _ _ _ UM1 U1 E3).
  - intros z v I. apply R5. by apply (carry_value _ _ _ UM2 UP E4).
Qed.
Lemma merge_about l : forall all d r d', merged K d -> merge_all K can inside root k tol l all d = (Ok r, d') -> spread (dec d') tol -> (forall i m, all !! i = Some m -> about (dec d) m) ->
  length r = length all + length l /\ (forall i m, r !! i = Some m -> about (dec d') m) /\
  forall i x, l !! i = Some x -> exists m, r !! (length all + i) = Some m /\ (forall q, is_Some (points (g_st x) !! q) -> exists p, In (p, q) (m_points m)) /\
    (forall e, is_Some (vec (g_st x) !! e) -> exists g, In (g, e) (m_segs m)) /\ (forall v, is_Some (polys (g_st x) !! v) -> exists z, In (z, v) (m_polys m)).
Proof.
  induction l as [|x l IH]; intros all d r d' MG H SP AB; cbn [merge_all] in H; [apply eret_inv in H as [-> ->]; split; [cbn; lia|]; split; [done|]; intros i x E; by destruct i|].
  apply ebind_inv in H as ([ms mo] & d1 & H1 & H). apply ebind_inv in H as (all' & d2 & H2 & H). apply of_other_inv in H2 as [-> HM]. destruct (all_hit _ _) eqn:HH; [|done].
  assert (M1 : merged K d1) by (by eapply merged_single). destruct (merge_grows _ _ _ _ _ M1 H) as [_ GR]. assert (S1 : spread (dec d1) tol) by (by eapply spread_back).
  destruct (mapM_some _ _ _ HM) as [LE MS]. set (own := Maps (m_points mo) (m_segs mo) (drop_none (m_polys mo))) in *.
  assert (AB1 : forall j m, (all' ++ [own]) !! j = Some m -> about (dec d1) m).
  { intros j m J. apply lookup_app_Some in J as [J|[L J]].
    - assert (exists m0, all !! j = Some m0) as [m0 J0]. { apply lookup_lt_is_Some. rewrite <- LE. by eapply lookup_lt_Some. } destruct (MS _ _ J0) as (m1 & Y & Z). assert (m1 = m) as -> by congruence. eapply (about_next _ _ _ _ _ _ _ _ _ _ _ _ _ m0 m SK NC MG P H1 S1); [by eapply AB|done].
    - apply list_lookup_singleton_Some in J as [_ <-]. exact (about_own _ _ _ _ _ _ _ _ _ _ _ _ _ SK NC MG P H1 S1). }
  destruct (IH _ _ _ _ M1 H SP AB1) as (L1 & A1 & B1). rewrite app_length, LE in L1, B1. cbn in L1, B1. split; [cbn; lia|]. split; [done|].
  intros [|i] y E.
  - injection E as <-. destruct (merge_later l (all' ++ [own]) d1 r d' (length all) own M1 H SP AB1) as (m & E & Q1 & _ & Q3 & Q4); [apply lookup_app_Some; right; rewrite LE; split; [done|]; by rewrite Nat.sub_diag|].
    rewrite Nat.add_0_r. exists m. split; [done|]. unfold all_hit in HH. apply andb_prop in HH as [HH H3]. apply andb_prop in HH as [H0 H2].
    assert (HI : forall (ids : gset nat) l v, hit ids l = true -> v ∈ ids -> exists i, In (i, v) l).
    { intros ids l' v F I. unfold hit in F. rewrite forallb_forall in F. specialize (F v). rewrite existsb_exists in F. destruct F as ([i w] & A & B); [by apply elem_of_list_In, elem_of_elements|]. apply Nat.eqb_eq in B. cbn in B. subst w. eauto. }
    split; [|split].
    + intros q Lq. destruct (HI _ _ q H0) as [p A]; [by apply elem_of_dom|]. exists p. by rewrite Q1.
    + intros e Le. destruct (HI _ _ e H2) as [g A]; [by apply elem_of_dom|]. exists g. by apply Q3.
    + intros v Lv. destruct (HI _ _ v H3) as [z A]; [by apply elem_of_dom|]. exists z. by apply Q4.
  - destruct (B1 i y E) as (m & X & Y). exists m. split; [|done]. rewrite <- X. f_equal. lia.
Qed.
End Several.
(** Later merges leave what the map of a decomposition gives for its segments on the same places. *)
Theorem C102_later K can inside root k tol l1 l2 d0 m1 d1 m2 d2 i one : steady K -> (forall d p v, can d p v = false) -> (0 < tol)%Q -> merged K d0 ->
  merge_all K can inside root k tol l1 [] d0 = (Ok m1, d1) -> merge_all K can inside root k tol l2 m1 d1 = (Ok m2, d2) -> spread (dec d2) tol -> m1 !! i = Some one ->
  exists one', m2 !! i = Some one' /\ m_points one' = m_points one /\ (forall e w, (exists g, In (g, e) (m_segs one) /\ on (dec d1) g w) <-> exists g, In (g, e) (m_segs one') /\ on (dec d2) g w) /\
  (forall g e, In (g, e) (m_segs one) -> In (g, e) (m_segs one')) /\ (forall z v, In (z, v) (m_polys one) -> In (z, v) (m_polys one')).
Proof.
  intros SK NC P M0 H1 H2 SP E. destruct (merge_grows _ _ _ _ _ _ SK NC P _ _ _ _ _ M0 H1) as [M1 _]. destruct (merge_grows _ _ _ _ _ _ SK NC P _ _ _ _ _ M1 H2) as [_ GR].
  destruct (merge_about _ _ _ _ _ _ SK NC P _ _ _ _ _ M0 H1) as (_ & AB & _); [by eapply spread_back|done|]. by eapply merge_later.
Qed.
(** Of any number of decompositions, every point, segment and polygon is a value of its map; keys belong to the result. *)
Theorem C102_values K can inside root k tol init_tol l s ms : steady K -> (forall d p v, can d p v = false) -> (0 < tol)%Q ->
  intersect_decompositions K can inside root k tol init_tol l = Ok (s, ms) -> spread s tol -> length ms = length l /\
  forall i x, l !! i = Some x -> exists m, ms !! i = Some m /\
    (forall q, is_Some (points (g_st x) !! q) -> exists p, In (p, q) (m_points m)) /\ (forall e, is_Some (vec (g_st x) !! e) -> exists g, In (g, e) (m_segs m)) /\ (forall v, is_Some (polys (g_st x) !! v) -> exists z, In (z, v) (m_polys m)) /\
    (forall p q, In (p, q) (m_points m) -> is_Some (points s !! p)) /\ (forall g e, In (g, e) (m_segs m) -> is_Some (vec s !! g)) /\ (forall z v, In (z, v) (m_polys m) -> is_Some (polys s !! z)).
Proof.
  intros SK NC P H SP. assert (M0 : merged K (ed_init init_tol)). { apply merged_edits; [constructor|]. intros g a b x y A. cbn in A. by rewrite lookup_empty in A. }
  assert (ML : forall l, match merge_all K can inside root k tol l [] (ed_init init_tol) with (Ok m, d) => Ok (dec d, m) | (Raise, _) => Raise | (Loop, _) => Loop end = Ok (s, ms) -> length ms = length l /\
    forall i x, l !! i = Some x -> exists m, ms !! i = Some m /\
    (forall q, is_Some (points (g_st x) !! q) -> exists p, In (p, q) (m_points m)) /\ (forall e, is_Some (vec (g_st x) !! e) -> exists g, In (g, e) (m_segs m)) /\ (forall v, is_Some (polys (g_st x) !! v) -> exists z, In (z, v) (m_polys m)) /\
    (forall p q, In (p, q) (m_points m) -> is_Some (points s !! p)) /\ (forall g e, In (g, e) (m_segs m) -> is_Some (vec s !! g)) /\ (forall z v, In (z, v) (m_polys m) -> is_Some (polys s !! z))).
  { intros l' H'. destruct (merge_all _ _ _ _ _ _ l' [] _) as [[m| |] d] eqn:E; [|done|done]. injection H' as <- <-. destruct (merge_about _ _ _ _ _ _ SK NC P _ _ _ _ _ M0 E SP) as (A & B & C); [done|]. split; [done|].
    intros i x X. destruct (C i x X) as (m' & Y & Q1 & Q2 & Q3). destruct (B _ _ Y) as (_ & _ & R1 & R2 & R3). exists m'. done. }
  destruct l as [|x [|y l]]; [by apply ML| |by apply ML]. cbn in H. injection H as <- <-. split; [done|]. intros i z E. destruct i as [|i]; [|by destruct i]. injection E as <-. eexists. split; [done|]. cbn [m_points m_segs m_polys].
  assert (ID : forall (X : gset nat) i j, In (i, j) (id_dict X) <-> i = j /\ i ∈ X). { intros X i j. unfold id_dict. rewrite <- elem_of_list_In, elem_of_list_fmap. split; [intros (v & V & I); injection V as -> ->; by rewrite elem_of_elements in I|]. intros [-> I]. exists j. by rewrite elem_of_elements. }
  repeat split.
  - intros q L. exists q. apply ID. split; [done|by apply elem_of_dom].
  - intros q L. exists q. apply ID. split; [done|by apply elem_of_dom].
  - intros q L. exists q. apply ID. split; [done|by apply elem_of_dom].
  - intros p q I. apply ID in I as [_ I]. by apply elem_of_dom.
  - intros p q I. apply ID in I as [_ I]. by apply elem_of_dom.
  - intros p q I. apply ID in I as [_ I]. by apply elem_of_dom.
Qed.

(** * Cases *)
(** The plane; of two wires one is not inside of the other if that is inside of it. *)
Definition plane2 : geometry := Geometry (k_turn plane) (fun s a b => k_wire plane s a b && negb (k_wire plane s b a)) (k_point plane). (* polygon.py lines 188-215 *)
Lemma plane2_steady : steady plane2.
Proof.
  split.
  - intros s1 s a b S. cbn -[plane]. by rewrite (plane_geo s1 s a b S), (plane_geo s1 s b a S).
  - intros s a b _. cbn -[plane]. destruct (k_wire plane s a b), (k_wire plane s b a); done.
Qed.
(** A sufficient test of [spread], merge.py lines 68-70. *)
Definition spread_b (s : st) (r : Q) : bool :=
  let l := map_to_list (xy_of s) in forallb (fun i => forallb (fun j => (fst i =? fst j) || Qle_bool (r * r) (dist2 (snd i) (snd j))) l) l.
Lemma spread_ok s r : spread_b s r = true -> spread s r.
Proof.
  unfold spread_b. cbv zeta. rewrite forallb_forall. intros H p q v w D A B N.
  assert (Ip : In (p, v) (map_to_list (xy_of s))) by (apply elem_of_list_In, elem_of_map_to_list; exact A). assert (Iq : In (q, w) (map_to_list (xy_of s))) by (apply elem_of_list_In, elem_of_map_to_list; exact B).
  specialize (H _ Ip). rewrite forallb_forall in H. specialize (H _ Iq). cbn [fst snd] in H. apply orb_prop in H as [H|H]; [by apply Nat.eqb_eq in H|]. apply Qle_bool_iff in H. unfold near in N. apply (Qlt_not_le _ _ N). exact H.
Qed.
Definition held (s : st) (w : nat) (z : vect) : bool := Geom_Model.contains_point (wire_geo s w) z. (* polygon.py lines 179-194 *)
Definition stuck : ed -> nat -> vect -> bool := fun _ _ _ => false. (* polygons.py lines 504-531 *)
Definition square_at (x y a : Q) : list act := Call <$> ([EAddPoint (x, y) 0; EAddPoint (x + a, y)%Q 0; EAddPoint (x, y + a)%Q 0; EAddPoint (x + a, y + a)%Q 0; EAddSegment 0 1; EAddSegment 0 2; EAddSegment 3 1; EAddSegment 3 2]). (* polygons.py lines 625-642 *)
Definition put_square (x y a : Q) (l : list act) := intersect_single plane2 stuck held (fun q => q) 100 (1 # 10000000000) (dec (eafter (1 # 100) (square_at x y a))) [0; 1; 2; 3] [0; 1; 2; 3] (eafter (1 # 100) l). (* merge.py lines 42-151 *)
Lemma square_merged x y a : efine (1 # 100) (square_at x y a) = true -> sound_b (dec (eafter (1 # 100) (square_at x y a))) = true -> merged plane2 (eafter (1 # 100) (square_at x y a)).
Proof. intros E S. apply efine_edits in E. apply merged_edits; [done|]. by apply (sound_ok _ (g_inv _ (e_good _ (edits_einv _ E)))). Qed.
(** Two squares that overlap: two sides are cut. *)
Example C99_case : steady plane2 /\ merged plane2 (eafter (1 # 100) (square_at 0 0 1)) /\
  fst (put_square (1 # 2) (1 # 2) 1 (square_at 0 0 1)) = Ok (Maps [] [(4, 2); (7, 3)] [(2, 1); (3, 0)], Maps [(4, 0); (5, 1); (6, 2); (7, 3)] [(5, 0); (6, 0); (8, 1); (9, 1); (10, 2); (11, 3)] [(1, Some 1); (0, Some 0); (2, Some 0); (3, Some 1)]) /\
  spread (dec (snd (put_square (1 # 2) (1 # 2) 1 (square_at 0 0 1)))) (1 # 10000000000).
Proof.
  split; [apply plane2_steady|]. split; [apply square_merged; vm_compute; reflexivity|]. split; [vm_compute; reflexivity|]. apply spread_ok. vm_compute. reflexivity.
Qed.
(** Both parts of side 2 are beside parts of the square. *)
Example C100_case : let s := dec (snd (put_square (1 # 2) (1 # 2) 1 (square_at 0 0 1))) in let s0 := dec (eafter (1 # 100) (square_at 0 0 1)) in
  poly_at s (4, false) = Some 2 /\ poly_at s (2, false) = Some 1 /\ poly_at s0 (2, false) = Some 1 /\ says [(4, 2); (7, 3)] 4 2 /\ says [(2, 1); (3, 0)] 2 1 /\ says [(2, 1); (3, 0)] 1 1.
Proof.
  cbv zeta. split; [vm_compute; reflexivity|]. split; [vm_compute; reflexivity|]. split; [vm_compute; reflexivity|]. split; [left; by left|]. split; [left; by left|].
  right; split; [done|]; intros u [X|[X|[]]]; discriminate.
Qed.
(** A value spreads from polygon 2 to polygon 1, across side 2. *)
Example C101_case : let s := dec (snd (put_square (1 # 2) (1 # 2) 1 (square_at 0 0 1))) in beside s 2 1 /\ flows s [(2, Some 5)] 5 1 /\ fst (put_square (1 # 2) (1 # 2) 1 (square_at 0 0 1)) <> Raise.
Proof.
  cbv zeta. assert (B : beside (dec (snd (put_square (1 # 2) (1 # 2) 1 (square_at 0 0 1)))) 2 1).
  { unfold beside. destruct ((outer <$> polys (dec (snd (put_square (1 # 2) (1 # 2) 1 (square_at 0 0 1))))) !! 2) as [o|] eqn:E; [|vm_compute in E; discriminate]. exists (5, false), o. split; [done|]. vm_compute in E. injection E as <-. split; vm_compute; reflexivity. }
  split; [done|]. split; [|vm_compute; discriminate]. apply (flow_step _ _ _ 2 1); [apply flow_given; by left|done|]. intros u [X|[]]. discriminate.
Qed.
Definition of_square (x y a : Q) : given := Given (dec (eafter (1 # 100) (square_at x y a))) [0; 1; 2; 3] [0; 1; 2; 3]. (* merge.py lines 159-187 *)
Definition all_squares (l : list given) := intersect_decompositions plane2 stuck held (fun q => q) 100 (1 # 10000000000) (1 # 100) l. (* merge.py lines 159-206 *)
Definition result_of (r : res (st * list (maps nat))) : st := match r with Ok (s, _) => s | _ => init end. (* merge.py line 206 *)
Lemma result_pair r m : (match r with Ok (_, m) => Ok m | Raise => Raise | Loop => Loop end) = Ok m -> r = Ok (result_of r, m).
Proof. destruct r as [[s m']| |]; cbn; intros E; [|done|done]. by injection E as ->. Qed.
(** The maps of both squares. *)
Example C102_case : let r := all_squares [of_square 0 0 1; of_square (1 # 2) (1 # 2) 1] in
  r = Ok (result_of r, [Maps [(0, 0); (1, 1); (2, 2); (3, 3)] [(0, 0); (1, 1); (2, 2); (3, 3); (4, 2); (7, 3)] [(0, 0); (1, 1); (2, 1); (3, 0)];
    Maps [(4, 0); (5, 1); (6, 2); (7, 3)] [(5, 0); (6, 0); (8, 1); (9, 1); (10, 2); (11, 3)] [(1, 1); (0, 0); (2, 0); (3, 1)]]) /\ spread (result_of r) (1 # 10000000000).
Proof. cbv zeta. split; [apply result_pair; vm_compute; reflexivity|]. apply spread_ok. vm_compute. reflexivity. Qed.

(** * What does not hold *)
(** Two crossing segments, drawn without the tests of add_line, and a line through the crossing: a part of the first one is in no map. *)
Definition crossing2 : list act := Call <$> [EAddPoint (0, -1)%Q 0; EAddPoint (0, 1)%Q 0; EAddPoint (-1, -1)%Q 0; EAddPoint (1, 1)%Q 0; EAddSegment 0 1; EAddSegment 2 3]. (* polygons.py lines 625-642 *)
Definition one_line : list act := Call <$> [EAddPoint (-2, 0)%Q 0; EAddPoint (2, 0)%Q 0; EAddSegment 0 1]. (* polygons.py lines 625-642 *)
Theorem C99_crossing_refuted : exists d other pts segs ms mo d' g, merged plane2 d /\ intersect_single plane2 stuck held (fun q => q) 100 (1 # 10000000000) other pts segs d = (Ok (ms, mo), d') /\
  is_Some (vec (dec d') !! g) /\ vec (dec d) !! g = None /\ (forall h, ~ In (g, h) (m_segs ms)) /\ (forall e, ~ In (g, e) (m_segs mo)).
Proof.
  exists (eafter (1 # 100) crossing2), (dec (eafter (1 # 100) one_line)), [0; 1], [0]. eexists (Maps [] [(3, 1)] []), (Maps [(4, 0); (5, 1)] [(4, 0); (5, 0)] [(0, Some 0)]), _, 2.
  split. { assert (E : edits (eafter (1 # 100) crossing2)) by (apply efine_edits; vm_compute; reflexivity). apply merged_edits; [done|]. apply (sound_ok _ (g_inv _ (e_good _ (edits_einv _ E)))). vm_compute. reflexivity. }
  split; [apply split_pair; vm_compute; reflexivity|]. split; [apply (bool_decide_eq_true_1 _); vm_compute; reflexivity|]. split; [vm_compute; reflexivity|]. cbn. split; [intros h [X|[]]; discriminate|intros e [X|[X|[]]]; discriminate].
Qed.
(** A square inside of the other decomposition's square, which is merged later, or apart from it: its polygon has no value. *)
Theorem C101_value_refuted : exists d other pts segs ms mo d' z, merged plane2 d /\ intersect_single plane2 stuck held (fun q => q) 100 (1 # 10000000000) other pts segs d = (Ok (ms, mo), d') /\ spread (dec d') (1 # 10000000000) /\
  is_Some (polys (dec d') !! z) /\ forall v, ~ In (z, Some v) (m_polys mo).
Proof.
  exists (eafter (1 # 100) (square_at (1 # 4) (1 # 4) (1 # 4))), (dec (eafter (1 # 100) (square_at 0 0 1))), [0; 1; 2; 3], [0; 1; 2; 3]. eexists (Maps [] [] [(2, 0)]), (Maps [(4, 0); (5, 1); (6, 2); (7, 3)] [(4, 0); (5, 1); (6, 2); (7, 3)] [(0, Some 0); (2, Some 1); (1, None)]), _, 1.
  split; [apply square_merged; vm_compute; reflexivity|]. split; [apply split_pair; vm_compute; reflexivity|]. split; [apply spread_ok; vm_compute; reflexivity|].
  split; [apply (bool_decide_eq_true_1 _); vm_compute; reflexivity|]. cbn. intros v [X|[X|[X|[]]]]; discriminate.
Qed.
(** Merging a decomposition a second time raises an exception when one in between cuts it. *)
Theorem C102_again_refuted : exists l, l !! 0 = l !! 2 /\ (exists s ms, all_squares (firstn 2 l) = Ok (s, ms)) /\ all_squares l = Raise.
Proof.
  exists [of_square 0 0 1; of_square (1 # 2) (1 # 2) 1; of_square 0 0 1]. split; [done|]. split; [eexists _, _; apply C102_case|]. vm_compute. reflexivity.
Qed.
Print Assumptions C99_parts.
Print Assumptions C99_segments.
Print Assumptions C99_valid.
Print Assumptions C99_crossing_refuted.
Print Assumptions C100_polygons.
Print Assumptions C100_sides.
Print Assumptions C101_other.
Print Assumptions C101_polygons.
Print Assumptions C101_fill.
Print Assumptions C101_value_refuted.
Print Assumptions C102_next.
Print Assumptions C102_later.
Print Assumptions C102_values.
Print Assumptions C102_again_refuted.
