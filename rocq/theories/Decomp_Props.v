(** Decompositions of the plane: the properties C17-C24 for all histories. *)
From stdpp Require Import gmap list relations.
From Coq Require Import QArith Lia.
From Verif Require Import Decomp_Model Decomp_Spec Decomp_Plane Decomp_Perm Decomp_Surgery Decomp_Eff Decomp_Tree Decomp_Inv Decomp_Planar Decomp_Nest
  Decomp_Good Decomp_Hist Decomp_Walk Decomp_Told Decomp_Back Decomp_Check.
Local Open Scope nat_scope.

(** A history in the plane: a square with a bridge, a polygon split and joined again, a bent line; the line straight again. *)
Definition bent : list op :=
  bridge ++ [NewSegment 5 2; DeleteSegment 6; AddPoint (2, 8)%Q 1; SplitSegment 5 6; MovePoint 6 (1, 0)%Q].
Definition busy : list op := bent ++ [NewSegment 5 3; JoinSegments 6 5 6].
Example busy_history : history (after busy).
Proof. apply fine_history. vm_compute. reflexivity. Qed.

Lemma pair_eq_fst {A B} (p : A * B) (a : A) : fst p = a -> p = (a, snd p).
Proof. intros <-. by destruct p. Qed.

(** * C17 *)
(** After every history the sides of segments are a half-edge structure. *)
Theorem C17_half_edges s : history s -> half_edges s.
Proof. intros H. apply inv_half, g_inv, history_good, H. Qed.
(** Wire.segments lists the sides of its wire, each once; so wires are the cycles of next sides. *)
Theorem C17_wires s w x : history s -> wires s !! w = Some x ->
  exists l, wire_segments w None None s = (Ok l, s) /\ lists l (fun h => wir s !! h = Some w).
Proof.
  intros H Ex. apply history_good in H as G. destruct (parent x) as [q|] eqn:Eq.
  - assert (Pw : par_of s !! w = Some (Some q)) by (by rewrite lookup_fmap, Ex; cbn; rewrite Eq).
    destruct (g_use _ G w ltac:(eauto) (n_ne _ _ _ (g_nest _ G) _ _ Pw)) as [k Wk]. exact (wire_full s (g_inv _ G) w k Wk).
  - exists []. split; [unfold wire_segments, bind, get_wire, need; rewrite Ex; cbn; by rewrite Eq|]. split; [constructor|].
    intros h. split; [by intros ?%elem_of_nil|]. intros Wh. destruct (i_live _ (g_inv _ G) _ _ Wh) as [q Pq]. rewrite lookup_fmap, Ex in Pq. cbn in Pq. congruence.
Qed.
Example C17_case : history (after bridge) /\ fst (wire_segments 1 None None (after bridge)) = Ok [(3, false); (2, false); (1, false); (0, false)] /\
  fst (wire_segments 2 None None (after bridge)) = Ok [(3, true); (4, true); (5, true); (5, false); (4, false); (0, true); (1, true); (2, true)].
Proof. split; [apply fine_history; vm_compute; reflexivity|]. split; vm_compute; reflexivity. Qed.
Print Assumptions C17_half_edges.
Print Assumptions C17_wires.

(** * C18 *)
(** Point.segments lists the segment ends at the point, each once, and no segment twice. *)
Theorem C18_segments s p x : history s -> points s !! p = Some x ->
  exists l, point_segments p s = (Ok l, s) /\ lists l (fun h => vtx s !! h = Some p) /\ NoDup (fst <$> l).
Proof.
  intros H Ex. apply history_good in H as G. destruct (segments_full s (g_inv _ G) p x Ex) as (l & E & N & M). exists l.
  split; [done|]. split; [done|]. exact (segments_nodup s (g_inv _ G) p l M N).
Qed.
(** A point is free when no segment ends at it; then it is a free point of one polygon, else of none. *)
Theorem C18_free s p x : history s -> points s !! p = Some x ->
  (is_free x = true <-> forall h, vtx s !! h <> Some p) /\
  (is_free x = true -> exists g, lists [g] (fun g' => exists y, polys s !! g' = Some y /\ p ∈ free y)) /\
  (is_free x = false -> forall g y, polys s !! g = Some y -> p ∉ free y).
Proof.
  intros H Ex. apply history_good in H as G. destruct (i_pts _ (g_inv _ G)) as (P1 & P2 & P3). destruct (i_free _ (g_inv _ G)) as [F1 F2].
  assert (Sp : seg_of s !! p = Some (p_seg x)) by (by rewrite lookup_fmap, Ex). assert (F := F1 _ _ Ex). unfold is_free.
  destruct (p_seg x) as [h|] eqn:Es.
  - split; [split; [done|intros X; by apply P1, X in Sp]|]. split; [done|]. intros _ g y Ey Hp. destruct (F2 _ _ _ Ey Hp) as (x' & Ex' & _ & Es'). congruence.
  - split; [split; [intros _ h; by apply P2|done]|]. split; [|done]. intros _. destruct F as (g & y & Eg & Ey & Hp). exists g. split; [apply NoDup_singleton|].
    intros g'. rewrite elem_of_list_singleton. split; [intros ->; eauto|]. intros (y' & Ey' & Hp'). destruct (F2 _ _ _ Ey' Hp') as (x' & Ex' & Eg' & _). congruence.
Qed.
Example C18_case : history (after bridge) /\ fst (point_segments 0 (after bridge)) = Ok [(0, false); (3, true); (4, false)] /\
  (is_free <$> points (after square) !! 5) = Some true.
Proof. split; [apply fine_history; vm_compute; reflexivity|]. split; vm_compute; reflexivity. Qed.
Print Assumptions C18_segments.
Print Assumptions C18_free.

(** * C19 *)
(** new_segment of points at a distance that have a segment returns it; only the report of the change is reset. *)
Theorem C19_same K s e c a b x y : history s -> vtx s !! (e, c) = Some a -> vtx s !! (e, negb c) = Some b ->
  points s !! a = Some x -> points s !! b = Some y ->
  let d := vminus (xy y) (xy x) in ~ (fst d * fst d + snd d * snd d <= 1 # 100000000000000000000)%Q ->
  new_segment K a b s = (Ok e, set_change CNone s).
Proof.
  intros H Va Vb Ex Ey d Far. apply history_good in H as G. assert (I := g_inv _ G).
  assert (D : a <> b) by (intros ->; apply (t_loop _ _ _ (i_topo _ I) _ _ Va); by rewrite flip_pair).
  unfold new_segment, bind, get_pt, need, check, report, upd, ret. rewrite Ex, Ey. cbv zeta. rewrite bool_decide_true by done.
  destruct (Qle_bool _ _) eqn:Q; [exfalso; by apply Far, Qle_bool_iff|]. cbn [negb]. cbv beta iota. cbn [set_change p2s].
  destruct (i_pair _ I) as [J1 J2]. destruct c; cbn [negb] in Vb.
  - assert (E : p2s s !! (b, a) = Some e) by (by apply J1). rewrite (J2 _ _ _ E), E. done.
  - assert (E : p2s s !! (a, b) = Some e) by (by apply J1). rewrite E. by destruct (p2s s !! (b, a)).
Qed.
(** No two segments have the same end points. *)
Theorem C19_unique s e c e' c' a b : history s -> vtx s !! (e, c) = Some a -> vtx s !! (e, negb c) = Some b ->
  vtx s !! (e', c') = Some a -> vtx s !! (e', negb c') = Some b -> e' = e.
Proof.
  intros H Va Vb Va' Vb'. apply history_good in H as G. destruct (i_pair _ (g_inv _ G)) as [J1 J2].
  destruct c, c'; cbn [negb] in *.
  - assert (A : p2s s !! (b, a) = Some e) by (by apply J1). assert (B : p2s s !! (b, a) = Some e') by (by apply J1). congruence.
  - assert (A : p2s s !! (b, a) = Some e) by (by apply J1). assert (B : p2s s !! (a, b) = Some e') by (by apply J1). apply J2 in A. congruence.
  - assert (A : p2s s !! (a, b) = Some e) by (by apply J1). assert (B : p2s s !! (b, a) = Some e') by (by apply J1). apply J2 in A. congruence.
  - assert (A : p2s s !! (a, b) = Some e) by (by apply J1). assert (B : p2s s !! (a, b) = Some e') by (by apply J1). congruence.
Qed.
(** The index holds exactly the live segments by their end points. *)
Theorem C19_index s a b e : history s ->
  (p2s s !! (a, b) = Some e <-> is_Some (vec s !! e) /\ vtx s !! (e, false) = Some a /\ vtx s !! (e, true) = Some b).
Proof.
  intros H. apply history_good in H as G. rewrite (proj1 (i_pair _ (g_inv _ G))), (i_vec _ (g_inv _ G)). split; [|tauto]. intros [A B]. eauto.
Qed.
(** Not so for join_segments: two sides of a triangle become a second segment between the ends of the third. *)
Theorem C19_join_refuted : exists s s' mid e0 e1 e2 a b, history s /\ join_segments mid e0 e1 s = (Ok mid, s') /\ e0 <> e2 /\
  vtx s' !! (e0, false) = Some a /\ vtx s' !! (e0, true) = Some b /\ vtx s' !! (e2, true) = Some a /\ vtx s' !! (e2, false) = Some b.
Proof.
  exists (after triangle), (snd (join_segments 1 0 1 (after triangle))), 1, 0, 1, 2, 0, 2. split; [apply fine_history; vm_compute; reflexivity|]. split.
  - apply pair_eq_fst. vm_compute. reflexivity.
  - split; [done|]. repeat split; vm_compute; reflexivity.
Qed.
Example C19_case : history (after busy) /\ fst (new_segment plane 5 4 (after busy)) = Ok 5 /\ p2s (after busy) !! (4, 5) = Some 5 /\ p2s (after busy) !! (6, 5) = None.
Proof. split; [apply busy_history|]. repeat split; vm_compute; reflexivity. Qed.
Print Assumptions C19_same.
Print Assumptions C19_unique.
Print Assumptions C19_index.
Print Assumptions C19_join_refuted.

(** * C20 *)
(** Points with segments + 2 polygons = segments + wires (with the root) + 1. *)
Theorem C20_euler s (X : gset nat) : history s -> (forall p, p ∈ X <-> exists h, vtx s !! h = Some p) ->
  size X + 2 * size (polys s) = size (vec s) + size (wires s) + 1.
Proof.
  intros H HX. apply history_good in H as G. assert (E := g_euler _ G). rewrite !map_size_fmap in E. rewrite <- E. f_equal. f_equal.
  apply set_eq. intros p. by rewrite HX, elem_of_img.
Qed.
Example C20_case : history (after busy) /\ size (polys (after busy)) = 3 /\ size (vec (after busy)) = 7 /\ size (wires (after busy)) = 4.
Proof. split; [apply busy_history|]. repeat split; vm_compute; reflexivity. Qed.
Print Assumptions C20_euler.

(** * C21 *)
(** The report of new_segment agrees with the ids of polygons before and after and with the polygons beside the segment. *)
Theorem C21_new K a b s i s' : history s -> sane K s' i -> new_segment K a b s = (Ok i, s') ->
  told (last_change s') (dom (polys s)) (dom (polys s')) (poly_at s' (i, true)) (poly_at s' (i, false)).
Proof. intros H SK E. apply (told_new K a b s i s'); [by apply history_good|done|done]. Qed.
Theorem C21_delete K e s u s' : history s -> delete_segment K e s = (Ok u, s') ->
  told (last_change s') (dom (polys s)) (dom (polys s')) (poly_at s (e, true)) (poly_at s (e, false)).
Proof. intros H E. apply (told_delete K e s u s'); [by apply history_good|done]. Qed.
Example C21_case : history (after (bridge ++ [NewSegment 5 2])) /\ last_change (after (bridge ++ [NewSegment 5 2])) = CSplit 1 2 /\
  poly_at (after (bridge ++ [NewSegment 5 2])) (6, true) = Some 2 /\ poly_at (after (bridge ++ [NewSegment 5 2])) (6, false) = Some 1 /\
  last_change (after (bridge ++ [NewSegment 5 2; DeleteSegment 6])) = CJoin 1 2.
Proof. split; [apply fine_history; vm_compute; reflexivity|]. repeat split; vm_compute; reflexivity. Qed.
Print Assumptions C21_new.
Print Assumptions C21_delete.

(** * C22 *)
Lemma loose_at s p : p_seg <$> points s !! p = Some None -> loose s p.
Proof. unfold loose. destruct (points s !! p) as [x|]; [|done]. intros H. exists x. split; [done|]. by injection H. Qed.
Lemma other_vec s s' g : vec s !! g <> vec s' !! g -> ~ same_drawing s s'.
Proof. intros H (_ & _ & V & _). apply H. by rewrite V. Qed.
(** A triangle with one more point, to split its last segment; decomp.py lines 160-283. *)
Definition spare : list op := triangle ++ [AddPoint (1 # 2, 3 # 2)%Q 1].
(** Deleting the new segment gives the drawing back. *)
Theorem C22_delete K K' s a b i s1 u s2 : history s -> p2s s !! (a, b) = None -> p2s s !! (b, a) = None ->
  sane K s1 i -> new_segment K a b s = (Ok i, s1) -> delete_segment K' i s1 = (Ok u, s2) -> same_drawing s s2.
Proof. intros H E1 E2 SK N D. apply (restore K K' s a b i s1 u s2); [by apply history_good|done..]. Qed.
Example C22_case : history (after bridge) /\ p2s (after bridge) !! (5, 2) = None /\ p2s (after bridge) !! (2, 5) = None /\
  sane plane (after (bridge ++ [NewSegment 5 2])) 6 /\ fst (new_segment plane 5 2 (after bridge)) = Ok 6 /\
  fst (delete_segment plane 6 (snd (new_segment plane 5 2 (after bridge)))) = Ok tt.
Proof.
  split; [apply fine_history; vm_compute; reflexivity|]. split; [vm_compute; reflexivity|]. split; [vm_compute; reflexivity|].
  split; [apply sane_b_ok; vm_compute; reflexivity|]. split; vm_compute; reflexivity.
Qed.
(** Joining a segment just split gives the drawing back but for the vector of the segment (see C24). *)
Theorem C22_join s e mid i s1 m s2 : history s -> loose s mid -> split_segment e mid s = (Ok i, s1) -> join_segments mid e i s1 = (Ok m, s2) ->
  m = mid /\ (exists d, vec s2 = <[e := d]> (vec s)) /\ same_drawing (set_vec (vec s2) s) s2.
Proof.
  intros H (x & Ex & Es) A B. destruct (rejoin s e mid i s1 m s2) as (H1 & _ & H2 & H3); try done; [by apply history_good|]. rewrite lookup_fmap, Ex. cbn. by rewrite Es.
Qed.
(** Its vector is that of the first part. *)
Theorem C22_join_refuted : exists s e mid i s1 s2, history s /\ loose s mid /\ split_segment e mid s = (Ok i, s1) /\ join_segments mid e i s1 = (Ok mid, s2) /\ ~ same_drawing s s2.
Proof.
  exists (after spare), 2, 3, 3, (snd (split_segment 2 3 (after spare))), (snd (join_segments 3 2 3 (snd (split_segment 2 3 (after spare))))).
  split; [apply fine_history; vm_compute; reflexivity|]. split; [apply loose_at; vm_compute; reflexivity|].
  split; [apply pair_eq_fst; vm_compute; reflexivity|]. split; [apply pair_eq_fst; vm_compute; reflexivity|].
  apply (other_vec _ _ 2). vm_compute. intros [=].
Qed.
Example C22_split : history (after spare) /\ loose (after spare) 3 /\ fst (split_segment 2 3 (after spare)) = Ok 3 /\
  fst (join_segments 3 2 3 (snd (split_segment 2 3 (after spare)))) = Ok 3.
Proof.
  split; [apply fine_history; vm_compute; reflexivity|]. split; [apply loose_at; vm_compute; reflexivity|]. split; vm_compute; reflexivity.
Qed.
Print Assumptions C22_delete.
Print Assumptions C22_join.
Print Assumptions C22_join_refuted.

(** * C23 *)
(** check_consistency succeeds after every history. *)
Theorem C23_consistent s last : history s -> some_wire s last -> consistent s last.
Proof. intros H. by apply good_consistent, history_good. Qed.
(** Wires form a tree below the root. *)
Theorem C23_whole s : history s -> whole s.
Proof.
  intros H. apply history_good in H as G. intros w Hw. split; [by apply (n_up _ _ _ (g_nest _ G))|]. destruct (n_wire _ _ _ (g_nest _ G) w Hw) as (g & o & A & B & C).
  by exists g, o.
Qed.
(** A wire that is not below the outer wire of its polygon, and a wire with a segment of another wire, break the check. *)
Lemma stray_wire s w q g o : (fun x => (parent x, w_poly x)) <$> wires s !! w = Some (Some q, Some g) ->
  outer <$> polys s !! g = Some o -> (fun x => bool_decide (w ∈ childs x)) <$> wires s !! o = Some false -> w <> o ->
  forall last, ~ consistent s last.
Proof.
  intros Hw Hp Ho D last (_ & C & _). destruct (wires s !! w) as [x|] eqn:Ex; [|done]. cbn in Hw. injection Hw as Hp1 Hp2.
  destruct (C w x Ex) as (_ & (g' & p & y & A1 & A2 & A3 & A4) & _). assert (g' = g) as -> by congruence. rewrite A2 in Hp. cbn in Hp. injection Hp as Hp.
  rewrite Hp in A3, A4. rewrite A3 in Ho. cbn in Ho. injection Ho as Ho. apply bool_decide_eq_false in Ho. destruct A4 as [?|?]; done.
Qed.
Lemma stray_segment s w q h w' : (fun x => (parent x, w_seg x)) <$> wires s !! w = Some (Some q, Some h) ->
  wir s !! h = Some w' -> w' <> w -> forall last, ~ consistent s last.
Proof.
  intros Hw Hl D last (_ & C & _). destruct (wires s !! w) as [x|] eqn:Ex; [|done]. cbn in Hw. injection Hw as H1 H2.
  destruct (C w x Ex) as (_ & _ & A). rewrite H1 in A. destruct A as [(h' & B1 & _ & B3) _]. congruence.
Qed.
(** Not so for all calls: in a square with two segments from a corner inwards, deleting the first makes the wire of the
    second its own parent; check_consistency fails, and then the other segment cannot be deleted. *)
Theorem C23_refuted : exists s, calls plane s /\ (forall last, ~ consistent s last) /\
  exists w e, wires s !! w ≫= parent = Some w /\ wir s !! (e, true) = Some w /\ fst (delete_segment plane e s) = Raise.
Proof.
  exists (after (bridge ++ [DeleteSegment 4])). split; [apply after_calls|]. split.
  - apply (stray_wire _ 3 3 1 2); [vm_compute; reflexivity..|discriminate].
  - exists 3, 5. split; [vm_compute; reflexivity|]. split; vm_compute; reflexivity.
Qed.
(** Nor for join_segments of segments that point at each other: the wires name the wrong side. *)
Theorem C23_join_refuted : exists s s' mid e0 e1, history s /\ join_segments mid e0 e1 s = (Ok mid, s') /\ forall last, ~ consistent s' last.
Proof.
  exists (after loop4), (snd (join_segments 1 0 3 (after loop4))), 1, 0, 3. split; [apply fine_history; vm_compute; reflexivity|]. split.
  - apply pair_eq_fst. vm_compute. reflexivity.
  - apply (stray_segment _ 1 2 (0, false) 2); [vm_compute; reflexivity..|discriminate].
Qed.
Lemma some_wire_of s w q : parent <$> wires s !! w = Some (Some q) -> some_wire s (Some w).
Proof. unfold some_wire. destruct (wires s !! w) as [x|]; [|done]. intros H. exists x, q. split; [done|]. by injection H. Qed.
Example C23_case : history (after busy) /\ some_wire (after busy) (Some 2).
Proof. split; [apply busy_history|]. apply (some_wire_of _ _ 1). vm_compute. reflexivity. Qed.
Print Assumptions C23_consistent.
Print Assumptions C23_whole.
Print Assumptions C23_refuted.
Print Assumptions C23_join_refuted.

(** * C24 *)
(** After every history without joins, with moves of points, the vector of a segment is the difference of its ends. *)
Theorem C24_vector s : plain s -> vec_ok s.
Proof. apply plain_vec. Qed.
Lemma stale_vec s g a b x y v : vtx s !! (g, false) = Some a -> vtx s !! (g, true) = Some b ->
  xy <$> points s !! a = Some x -> xy <$> points s !! b = Some y -> vec s !! g = Some v -> vec_ok s -> v = vminus y x.
Proof. intros A B C D E V. rewrite <- !lookup_fmap in *. assert (F := V g a b x y A B C D). congruence. Qed.
(** Not so for join_segments, which keeps the vector of the shorter segment. *)
Theorem C24_join_refuted : exists s, history s /\ ~ vec_ok s.
Proof.
  exists (after [AddPoint (0, 0)%Q 0; AddPoint (4, 1)%Q 0; AddPoint (1, 3)%Q 0; NewSegment 0 1; NewSegment 1 2; JoinSegments 1 0 1]).
  split; [apply fine_history; vm_compute; reflexivity|].
  intros V. apply (stale_vec _ 0 0 2 (0, 0)%Q (1, 3)%Q (4, 1)%Q) in V; [by vm_compute in V|vm_compute; reflexivity..].
Qed.
Example C24_case : plain (after bent) /\ vec (after bent) !! 6 = Some (vminus (6, 5)%Q (3, 8)%Q).
Proof. split; [apply fine_plain; vm_compute; reflexivity|]. vm_compute. reflexivity. Qed.
Print Assumptions C24_vector.
Print Assumptions C24_join_refuted.
