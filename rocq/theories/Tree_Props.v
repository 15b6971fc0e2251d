(** Properties C81-C84: what is read from the tree of wires after a history. *)
From stdpp Require Import gmap list relations.
From Coq Require Import QArith Lia.
From Verif Require Import Decomp_Model Decomp_Spec Decomp_Plane Decomp_Tree Decomp_Nest Decomp_Good Decomp_Hist.
From Verif Require Import Tree_Model Tree_Spec Tree_Proofs Tree_Walk.
Local Open Scope nat_scope.

(** A triangle in the square and a segment outside. *)
Definition nested : list op := square ++ [AddPoint (2, 2)%Q 1; AddPoint (3, 2)%Q 1; AddPoint (3, 3)%Q 1; NewSegment 6 7; NewSegment 7 8; NewSegment 8 6;
  AddPoint (20, 20)%Q 0; AddPoint (21, 20)%Q 0; NewSegment 9 10].
Lemma nested_history : history (after nested).
Proof. apply fine_history. vm_compute. reflexivity. Qed.
(** The members of an answer. *)
Definition members (r : res (gset nat)) : option (list nat) := match r with Ok x => Some (elements x) | _ => None end.
Lemma root_poly s : history s -> exists p, polys s !! 0 = Some p.
Proof. intros G%history_good. assert (O := n_out0 _ _ _ (g_nest _ G)). rewrite lookup_fmap in O. destruct (polys s !! 0); [eauto|done]. Qed.

(** * C81: depth of polygons *)
(** depth is twice the number of polygons around the polygon. *)
Theorem C81_depth s g p : history s -> polys s !! g = Some p -> exists n, nsteps (lies_in s) n g 0 /\ depth g s = Ok (2 * n).
Proof. intros G%history_good E. destruct (chain s G g p E) as [n N]. exists n. split; [done|]. by apply (depth_ok s G g p n). Qed.
(** The number is no other. *)
Theorem C81_number s g p n : history s -> polys s !! g = Some p -> nsteps (lies_in s) n g 0 -> depth g s = Ok (2 * n).
Proof. intros G%history_good. by apply depth_ok. Qed.
(** The docstring promises the number of polygons around. *)
Theorem C81_docstring_refuted : exists s g p n, history s /\ polys s !! g = Some p /\ nsteps (lies_in s) n g 0 /\ depth g s <> Ok n.
Proof.
  assert (O : outer <$> polys (after nested) !! 2 = Some 4) by (vm_compute; reflexivity). apply fmap_Some in O as (p & E & _).
  destruct (C81_depth (after nested) 2 p nested_history E) as (n & N & D). exists (after nested), 2, p, n. split; [apply nested_history|]. split; [exact E|]. split; [exact N|].
  assert (X : depth 2 (after nested) = Ok 4) by (vm_compute; reflexivity). rewrite X in *. injection D as D. intros Y. injection Y as Y. lia.
Qed.
Example C81_case : history (after nested) /\ depth 2 (after nested) = Ok 4 /\ depth 1 (after nested) = Ok 2 /\ depth 0 (after nested) = Ok 0.
Proof. split; [apply nested_history|]. do 2 (split; [vm_compute; reflexivity|]). vm_compute. reflexivity. Qed.

(** * C82: vertices of polygons *)
(** vertices goes once round the outer wire, from the side it is held at: along a segment to the next point, each side of the wire one time. *)
Theorem C82_vertices s g p : history s -> polys s !! g = Some p -> g <> 0 -> exists l hs, vertices g s = (Ok l, s) /\ l <> [] /\
  lists hs (fun h => wir s !! h = Some (outer p)) /\ round s (outer p) hs /\ closed_walk s hs l.
Proof.
  intros G%history_good E D. destruct (vertices_ok s G g p E D) as (l & hs & V & L & R & C). exists l, hs. split; [done|]. split; [|done].
  intros ->. destruct (outer_wire_sides s G g p E D) as [k K]. apply L in K. destruct C as [C _]. destruct hs; [by apply elem_of_nil in K|done].
Qed.
(** The outer polygon has none. *)
Theorem C82_root s : history s -> vertices 0 s = (Ok [], s).
Proof.
  intros H. destruct (root_poly s H) as [p E]. apply history_good in H as G. assert (N := g_nest _ G). assert (O := n_out0 _ _ _ N). rewrite lookup_fmap, E in O. injection O as O.
  assert (P := n_root _ _ _ N). rewrite lookup_fmap in P. unfold vertices, wire_segments, bind, get_poly, get_wire, need. rewrite E, O.
  destruct (wires s !! 0) as [x|]; [|done]. cbn in P. injection P as P. by rewrite P.
Qed.
Example C82_case : history (after nested) /\ fst (vertices 2 (after nested)) = Ok [6; 7; 8] /\ fst (vertices 1 (after nested)) = Ok [0; 1; 2; 3] /\ fst (vertices 0 (after nested)) = Ok [].
Proof. split; [apply nested_history|]. do 2 (split; [vm_compute; reflexivity|]). vm_compute. reflexivity. Qed.

(** * C83: childs of polygons *)
(** get_childs answers the polygons in the polygon, at any depth, and itself. *)
Theorem C83_childs order s g p : (forall X, order X ≡ₚ elements X) -> history s -> polys s !! g = Some p -> exists X, get_childs order g s = Ok X /\
  forall g', g' ∈ X <-> is_Some (polys s !! g') /\ rtc (lies_in s) g' g.
Proof. intros OK G%history_good. by apply get_childs_ok. Qed.
(** Every polygon is a child of the outer polygon. *)
Theorem C83_all order s : (forall X, order X ≡ₚ elements X) -> history s -> exists X, get_childs order 0 s = Ok X /\ forall g, g ∈ X <-> is_Some (polys s !! g).
Proof.
  intros OK H. destruct (root_poly s H) as [p E]. destruct (C83_childs order s 0 p OK H E) as (X & C & M). exists X. split; [done|]. intros g. rewrite M. split; [by intros []|].
  intros [q Q]. split; [eauto|]. apply history_good in H as G. destruct (chain s G g q Q) as [n N]. apply rtc_nsteps. by exists n.
Qed.
(** child_wires meets no wire twice and all wires below. *)
Theorem C83_wires order s w : (forall X, order X ≡ₚ elements X) -> history s -> is_Some (wires s !! w) -> exists l,
  child_wires order (size (wires s)) s w ∅ = Ok (l, list_to_set l) /\ NoDup l /\ forall x, x ∈ l <-> below s x w.
Proof.
  intros OK G%history_good [y Y]. destruct (rank s G w) as [k K]; [eauto|].
  destruct (child_wires_ok s G order OK (size (wires s)) w k ∅ K) as (l & C & N & L); [rewrite map_size_fmap; lia|intros x _; apply not_elem_of_empty|].
  exists l. rewrite (right_id_L ∅ (∪)) in C. split; [done|]. split; [done|]. intros x. rewrite L. symmetry. apply below_iff.
Qed.
(** A second walk without the reset in get_childs fails the assertion. *)
Theorem C83_again order s w l : (forall X, order X ≡ₚ elements X) -> history s -> is_Some (wires s !! w) -> child_wires order (size (wires s)) s w ∅ = Ok (l, list_to_set l) ->
  child_wires order (size (wires s)) s w (list_to_set l) = Raise.
Proof.
  intros OK H W C. destruct (C83_wires order s w OK H W) as (l' & C' & _ & L). rewrite C in C'. injection C' as <- _. assert (M : w ∈ l) by (apply L, rtc_refl).
  destruct W as [x X]. destruct (size (wires s)); cbn; rewrite X; (rewrite decide_True; [done|]); by apply elem_of_list_to_set.
Qed.
Example C83_case : (forall X : gset nat, elements X ≡ₚ elements X) /\ history (after nested) /\ members (get_childs elements 0 (after nested)) = Some [0; 1; 2] /\
  members (get_childs elements 1 (after nested)) = Some [1; 2] /\ members (get_childs elements 2 (after nested)) = Some [2].
Proof. split; [done|]. split; [apply nested_history|]. do 2 (split; [vm_compute; reflexivity|]). vm_compute. reflexivity. Qed.

(** * C84: neighbours of wires *)
(** neighbors answers the wires across the segments of the wire, none else. *)
Theorem C84_neighbors s w k : history s -> wir s !! k = Some w -> exists l, neighbors w s = (Ok l, s) /\
  forall w', w' ∈ l <-> exists h, wir s !! h = Some w /\ wir s !! flip h = Some w'.
Proof. intros G%history_good. by apply neighbors_ok. Qed.
(** The docstring promises wires of the same depth; a neighbour can be the parent. *)
Theorem C84_docstring_refuted : exists s w w' l x, history s /\ neighbors w s = (Ok l, s) /\ w' ∈ l /\ wires s !! w' = Some x /\ parent x = Some w.
Proof.
  assert (K : wir (after nested) !! (3, false) = Some 1) by (vm_compute; reflexivity).
  destruct (C84_neighbors (after nested) 1 (3, false) nested_history K) as (l & L & M).
  assert (O : parent <$> wires (after nested) !! 2 = Some (Some 1)) by (vm_compute; reflexivity). apply fmap_Some in O as (x & X & P).
  exists (after nested), 1, 2, l, x. split; [apply nested_history|]. split; [exact L|]. split; [|split; [exact X|symmetry; exact P]].
  apply M. exists (3, false). split; vm_compute; reflexivity.
Qed.
Example C84_case : history (after nested) /\ fst (neighbors 1 (after nested)) = Ok [2; 2; 2; 2] /\ fst (neighbors 5 (after nested)) = Ok [5; 5].
Proof. split; [apply nested_history|]. split; vm_compute; reflexivity. Qed.
Print Assumptions C81_depth.
Print Assumptions C81_number.
Print Assumptions C81_docstring_refuted.
Print Assumptions C82_vertices.
Print Assumptions C82_root.
Print Assumptions C83_childs.
Print Assumptions C83_all.
Print Assumptions C83_wires.
Print Assumptions C83_again.
Print Assumptions C84_neighbors.
Print Assumptions C84_docstring_refuted.
