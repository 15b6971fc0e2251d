(** Properties C45-C51, C61, C62 (heal_mesh.py). *)
From stdpp Require Import gmap.
From Coq Require Import ZArith QArith Qpower Qreals Reals Lra Lia.
From Verif Require Import Heal_Model Heal_Spec Heal_Proofs Heal_Loop Heal_Term Heal_Run Heal_Merge Heal_Geom Heal_Safe Heal_Shape.
Local Open Scope Z_scope.
Local Notation length := List.length.

Lemma reached_inv pick G s : fair pick -> reached pick G s -> inv s.
Proof.
  intros F (ns & es & tol & s0 & t & os & Cl & E & L & ->). apply init_inv in E; auto. destruct E as [I _]. apply run_inv; auto.
Qed.

(** ** C45 *)
(** Whatever was called, with whatever outcome, the index lists for each node the elements
    using it, and the nodes of the elements are there. *)
Theorem C45_index pick G s : fair pick -> reached pick G s -> exact s /\ closed (nodes s) (els s).
Proof. intros F R. destruct (reached_inv pick G s F R). auto. Qed.
(** An id denotes the same element as long as it denotes one, and never again after that. *)
Theorem C45_element_ids pick G ns es tol s0 t os1 os2 os3 i e : fair pick -> closed ns es -> init ns es tol = Some (s0, t) ->
  legal_run pick G (os1 ++ os2 ++ os3) s0 -> els (run pick G os1 s0) !! i = Some e ->
  (forall e', els (run pick G (os1 ++ os2) s0) !! i = Some e' -> e' = e) /\
  (els (run pick G (os1 ++ os2) s0) !! i = None -> els (run pick G (os1 ++ os2 ++ os3) s0) !! i = None).
Proof.
  intros F Cl E L Ei. destruct (init_inv _ _ _ _ _ Cl E) as [I0 _]. rewrite !run_app. apply legal_app in L. destruct L as [L1 L]. apply legal_app in L. destruct L as [L2 L3].
  destruct (run_inv pick F G os1 s0 I0 L1) as [I1 _]. set (s1 := run pick G os1 s0) in *.
  destruct (run_inv pick F G os2 s1 I1 L2) as [I2 M2]. set (s2 := run pick G os2 s1) in *.
  destruct (run_inv pick F G os3 s2 I2 L3) as [I3 M3]. assert (Mi : i <= max_el s1) by (eapply i_el; eauto).
  split.
  - intros e' E'. destruct (m_ids _ _ M2 i e' E') as [Q|Q]; [congruence|lia].
  - intros D. destruct (els (run pick G os3 s2) !! i) as [e'|] eqn:E'; auto. destruct (m_ids _ _ M3 i e' E') as [Q|Q]; [congruence|].
    pose proof (m_max _ _ M2). lia.
Qed.
(** Without healing in between, the same holds for the ids of nodes. *)
Theorem C45_node_ids pick G ns es tol s0 t os1 os2 os3 n : fair pick -> closed ns es -> init ns es tol = Some (s0, t) ->
  legal_run pick G (os1 ++ os2 ++ os3) s0 -> Forall edit os2 -> Forall edit os3 ->
  is_Some (nodes (run pick G os1 s0) !! n) -> nodes (run pick G (os1 ++ os2) s0) !! n = None ->
  nodes (run pick G (os1 ++ os2 ++ os3) s0) !! n = None.
Proof.
  intros F Cl E L F2 F3 [p Hp]. destruct (init_inv _ _ _ _ _ Cl E) as [I0 _]. rewrite !run_app. apply legal_app in L. destruct L as [L1 L]. apply legal_app in L. destruct L as [L2 L3].
  destruct (run_inv pick F G os1 s0 I0 L1) as [I1 _]. set (s1 := run pick G os1 s0) in *.
  destruct (run_fresh pick G os2 s1 F2 L2) as [M2 _]. set (s2 := run pick G os2 s1) in *.
  destruct (run_fresh pick G os3 s2 F3 L3) as [M3 H3]. pose proof (i_nd s1 I1 n p Hp). intros D.
  destruct (nodes (run pick G os3 s2) !! n) as [q|] eqn:E'; auto. destruct (H3 n) as [[r Q]|Q]; [eauto|congruence|lia].
Qed.
(** Walks in the order of [elements]. *)
Definition walk : nat -> gset Z -> list Z := fun _ X => elements X.
Lemma walk_fair : fair walk.
Proof. intros k X. split; [apply NoDup_elements|]. intros i. apply elem_of_elements. Qed.
(** Geometric tests that never find anything. *)
Definition quiet : geo := Geo (fun _ _ => None) (fun _ _ => Some true) (fun _ _ => None) (fun _ _ => 0%nat) (fun _ _ => 0%nat) (fun _ _ => None) (fun _ _ => 0%nat).
(** Two triangles sharing the edge 2-3. *)
Definition two_nodes : gmap Z pt :=
  list_to_map [(1, (0, 0, 0)%Q); (2, (4, 0, 0)%Q); (3, (0, 4, 0)%Q); (4, (4, 4, 0)%Q)].
Definition two_els : gmap Z elem := list_to_map [(1, (2, [7], [1; 2; 3])); (2, (2, [7], [2; 4; 3]))].
Lemma two_closed : closed two_nodes two_els.
Proof.
  intros i e n H Hn. assert (H' : (i, e) ∈ [(1, (2, [7], [1; 2; 3])); (2, (2, [7], [2; 4; 3]))]).
  { apply elem_of_list_to_map_2. exact H. }
  apply elem_of_cons in H' as [H'|H']; [|apply elem_of_list_singleton in H']; injection H' as -> ->; cbn in Hn;
    repeat (apply elem_of_cons in Hn as [->|Hn]; [vm_compute; eauto|]); apply elem_of_nil in Hn; contradiction.
Qed.
Definition two : st := St two_nodes two_els (make_node_to_el two_els) ∅ 2 4 0.
Lemma init_eq ns es tol me mn mi : max_key es = Some me -> max_key ns = Some mn -> min_key ns = Some mi ->
  exists t, init ns es tol = Some (St ns es (make_node_to_el es) ∅ me mn 0, t).
Proof. intros A B C. unfold init. rewrite A, B, C. eauto. Qed.
Lemma two_init : exists t, init two_nodes two_els (1 # 100) = Some (two, t).
Proof. apply (init_eq _ _ _ 2 4 1); vm_compute; reflexivity. Qed.
Lemma two_reached G os : legal_run walk G os two -> reached walk G (run walk G os two).
Proof. intros L. destruct two_init as [t E]. exists two_nodes, two_els, (1 # 100)%Q, two, t, os. auto using two_closed. Qed.
Example C45_case :
  let os := [OAddNode (8, 0, 0)%Q; OAddElement (2, [7], [2; 5; 4]); OMergeNode 1 2; ORemoveElement 3] in
  let s := run walk quiet os two in
  reached walk quiet s /\ elements (nels (run walk quiet (take 2 os) two) 4) = [2; 3] /\ max_el s = 3 /\ nels s 5 = ∅ /\ nels s 1 = ∅.
Proof.
  intros os s. split; [apply two_reached; cbn; tauto|]. split; [vm_compute; reflexivity|]. split; [vm_compute; reflexivity|].
  split; apply elem_of_equiv_empty_L; intros i Hi; vm_compute in Hi; discriminate.
Qed.
(** A node created by move_node gets overwritten, with its index entry, by a later add_node. *)
Theorem C45_refuted : exists pick G os, fair pick /\ ~ exact (run pick G os two).
Proof.
  exists walk, quiet, [OMoveNode 5 (8, 0, 0)%Q; OAddElement (2, [7], [2; 5; 4]); OAddNode (9, 9, 9)%Q]. split; [apply walk_fair|].
  intros H. assert (U : uses (run walk quiet [OMoveNode 5 (8, 0, 0)%Q; OAddElement (2, [7], [2; 5; 4]); OAddNode (9, 9, 9)%Q] two) 3 5).
  { exists (2, [7], [2; 5; 4]). split; [vm_compute; reflexivity|]. apply elem_of_list_further, elem_of_list_here. }
  apply H in U. vm_compute in U. discriminate.
Qed.

(** ** C46 *)
(** merge_node on two different nodes of a mesh of points, lines, triangles and tetrahedra. *)
Theorem C46_merge pick G s a b p q : fair pick -> reached pick G s ->
  (forall i e, els s !! i = Some e -> (1 <= length (e_nodes e) <= 4)%nat) ->
  a <> b -> nodes s !! a = Some p -> nodes s !! b = Some q ->
  exists s' x y z, merge_node pick a b s = (Ok tt, s') /\
    nodes s' = delete a (<[b := (x, y, z)]> (nodes s)) /\
    (let '(xp, yp, zp) := p in let '(xq, yq, zq) := q in x + x == xp + xq /\ y + y == yp + yq /\ z + z == zp + zq)%Q /\
    (forall i, ~ uses s' i a) /\
    (forall i e, els s !! i = Some e -> a ∉ e_nodes e -> els s' !! i = Some e) /\
    (forall i e, els s !! i = Some e -> a ∈ e_nodes e -> els s' !! i = None) /\
    (forall i e', els s' !! i = Some e' -> els s !! i = None ->
       (exists j e, els s !! j = Some e /\ a ∈ e_nodes e /\ b ∉ e_nodes e /\ e' = subst_el a b e) /\
       forall k e2, k < i -> els s' !! k = Some e2 -> ~ covers e2 e') /\
    (forall j e, els s !! j = Some e -> a ∈ e_nodes e -> b ∉ e_nodes e ->
       exists k e2, els s' !! k = Some e2 /\ covers e2 (subst_el a b e)).
Proof.
  intros F R Len N Pa Pb. pose proof (reached_inv pick G s F R) as I.
  destruct (merge_node_ok pick F a b s p q I N Pa Pb Len) as (s' & E & I' & Nd & H1 & H2 & H3).
  destruct p as [[xp yp] zp], q as [[xq yq] zq].
  exists s', ((xp + xq) / 2)%Q, ((yp + yq) / 2)%Q, ((zp + zq) / 2)%Q. split; auto. split; auto. split; [|split; [|split; [|split; [|split]]]]; auto.
  - split; [field|split; field].
  - intros i (e & Ei & Ha). destruct (i_closed s' I' i e a Ei Ha) as [r Hr]. rewrite Nd, lookup_delete in Hr. discriminate.
  - intros i e Ei Ha. rewrite (H1 i e Ei), decide_False; auto.
  - intros i e Ei Ha. rewrite (H1 i e Ei), decide_True; auto.
  - intros i e' Ei D. destruct (H2 i e' Ei) as [Q|(_ & Q)]; [congruence|auto].
Qed.
(** Elements without repeated nodes stay so. *)
Theorem C46_no_repeated pick G s a b s' : fair pick -> reached pick G s ->
  (forall i e, els s !! i = Some e -> (1 <= length (e_nodes e) <= 4)%nat /\ NoDup (e_nodes e)) ->
  merge_node pick a b s = (Ok tt, s') -> forall i e, els s' !! i = Some e -> NoDup (e_nodes e).
Proof.
  intros F R Len E i e Ei. pose proof (reached_inv pick G s F R) as I.
  destruct (nodes s !! a) as [p|] eqn:Pa; [|pose proof (merge_node_fails pick F s a b I (or_intror (or_introl Pa))) as X; rewrite E in X; discriminate].
  destruct (nodes s !! b) as [q|] eqn:Pb; [|pose proof (merge_node_fails pick F s a b I (or_intror (or_intror Pb))) as X; rewrite E in X; discriminate].
  destruct (Z.eq_dec a b) as [Q|N]; [pose proof (merge_node_fails pick F s a b I (or_introl Q)) as X; rewrite E in X; discriminate|].
  destruct (merge_node_ok pick F a b s p q I N Pa Pb) as (s2 & E2 & _ & _ & _ & H2 & _). { intros j f Ej. apply (Len j f Ej). }
  rewrite E in E2. injection E2 as <-. destruct (H2 i e Ei) as [Q|(_ & (j & f & Ej & Ha & Hb & ->) & _)].
  - apply (Len i e Q).
  - cbn. apply subst_nodup; auto. apply (Len j f Ej).
Qed.
(** It raises when the nodes are the same or missing. *)
Theorem C46_raises pick G s a b : fair pick -> reached pick G s ->
  (a = b \/ nodes s !! a = None \/ nodes s !! b = None) -> fst (merge_node pick a b s) = Raise.
Proof. intros F R. apply merge_node_fails; auto. eapply reached_inv; eauto. Qed.
(** Merging 1 into 4: element 1 becomes [4; 2; 3], covered by element 2. *)
Example C46_case : reached walk quiet two /\
  (forall i e, els two !! i = Some e -> (1 <= length (e_nodes e) <= 4)%nat /\ NoDup (e_nodes e)) /\
  fst (merge_node walk 1 4 two) = Ok tt /\ map_to_list (els (snd (merge_node walk 1 4 two))) = [(2, (2, [7], [2; 4; 3]))] /\
  map_to_list (els (snd (merge_node walk 1 2 two))) = [(2, (2, [7], [2; 4; 3]))] /\
  map_to_list (els (snd (merge_node walk 4 1 (step walk quiet (ORemoveElement 1) two)))) = [(3, (2, [7], [2; 1; 3]))].
Proof.
  split; [apply (two_reached quiet []); exact Logic.I|]. split; [|split; [|split; [|split]]; vm_compute; reflexivity].
  intros i e H. assert (H' : (i, e) ∈ [(1, (2, [7], [1; 2; 3])); (2, (2, [7], [2; 4; 3]))]) by (apply elem_of_list_to_map_2; exact H).
  apply elem_of_cons in H' as [H'|H']; [|apply elem_of_list_singleton in H']; injection H' as -> ->; cbn; (split; [lia|]);
    apply NoDup_ListNoDup; repeat (constructor; [cbn; lia|]); constructor.
Qed.

(** Parts of an outcome. *)
Lemma seen {A} (f : stop -> st -> A) o a : match o with Some (r, s) => Some (f r s) | None => None end = Some a -> exists r s, o = Some (r, s) /\ f r s = a.
Proof. destruct o as [[r s]|]; [|discriminate]. intros [= <-]. eauto. Qed.

(** ** C47 *)
(** heal_mesh stops (normally, at its limit or with an exception), whatever the geometric
    tests answer. *)
Theorem C47_terminates pick G s frac : fair pick -> reached pick G s ->
  exists fuel r, forall fuel', (fuel <= fuel')%nat -> heal pick G frac fuel' s = Some r.
Proof. intros F R. apply heal_ends; auto. eapply reached_inv; eauto. Qed.
(** Tests that find every element bad and flat. *)
Definition nervous : geo := Geo (fun _ _ => None) (fun _ _ => Some false) (fun _ _ => Some None) (fun k _ => (k mod 4)%nat)
  (fun k _ => (k mod 3)%nat) (fun _ ps => Some (Some (1, 2, 0)%Q)) (fun _ _ => 0%nat).
Example C47_case : reached walk nervous two /\
  exists s', heal walk nervous 2 30 two = Some (Done, s') /\ map_to_list (els s') = [] /\ max_el s' = 4.
Proof.
  split; [apply (two_reached nervous []); exact Logic.I|].
  destruct (seen (fun r s => (r, map_to_list (els s), max_el s)) (heal walk nervous 2 30 two) (Done, [], 4)) as (r & s' & E & [= -> A B]); [vm_compute; reflexivity|].
  exists s'. split; [exact E|]. split; [exact A|exact B].
Qed.

(** ** C48 *)
(** When healing ends with nothing left to check, each remaining element is among those
    reported by the last check, or it was checked, nothing was done and it has not changed
    since. *)
Theorem C48_checked pick G s frac fuel s' : fair pick -> reached pick G s -> modif s = ∅ ->
  heal pick G frac fuel s = Some (Done, s') ->
  exists last, let '(c0, limit) := heal_start pick frac s in passes pick G limit c0 ([], last, s') /\
    forall i e, els s' !! i = Some e -> i ∈ last \/ checked pick G limit c0 ([], last, s') i.
Proof.
  intros F R M E. pose proof (reached_inv pick G s F R) as I. unfold heal, heal_start in *.
  apply loop_done in E. destruct E as [last P]. exists last. split; auto. intros i e Ei.
  assert (Q0 : forall i e, els (set_tick (S (tick s)) s) !! i = Some e -> i ∈ rev (pick (tick s) (dom (els s)))).
  { intros j f Hj. apply elem_of_list_In. rewrite <- in_rev. apply elem_of_list_In. apply F. apply elem_of_dom. exists f. exact Hj. }
  destruct (passes_checked pick F G _ _ _ (proj2 (tick_inv (S (tick s)) s) I) M Q0 _ P) as (_ & _ & H).
  cbn in H. destruct (H i e Ei) as [Q|[Q|Q]]; auto. apply elem_of_nil in Q. contradiction.
Qed.
Example C48_case : reached walk quiet two /\ modif two = ∅ /\
  exists s', heal walk quiet 2 5 two = Some (Done, s') /\ map fst (map_to_list (els s')) = [1; 2].
Proof.
  split; [apply (two_reached quiet []); exact Logic.I|]. split; auto.
  destruct (seen (fun r s => (r, map fst (map_to_list (els s)))) (heal walk quiet 2 5 two) (Done, [1; 2])) as (r & s' & E & [= -> A]); [vm_compute; reflexivity|].
  exists s'. split; [exact E|exact A].
Qed.
(** Two lines with nodes at 0, 8 and -5 of the x axis; the tolerance is 10. The first line
    is contracted last; the second one is then shorter than the tolerance. *)
Definition line_nodes : gmap Z pt := list_to_map [(1, (0, 0, 0)%Q); (2, (8, 0, 0)%Q); (3, (-5, 0, 0)%Q)].
Definition line_els : gmap Z elem := list_to_map [(1, (1, [7], [1; 2])); (2, (1, [7], [2; 3]))].
Definition lines : st := St line_nodes line_els (make_node_to_el line_els) ∅ 2 3 0.
(** The test of heal_mesh.py line 509 for lines. *)
Definition short_line (t : Q) (ps : list pt) : option nat :=
  match ps with [a; b] => if Qlt_le_dec (dot (minus b a) (minus b a)) (t * t) then Some 0%nat else None | _ => None end.
Definition measuring (t : Q) : geo :=
  Geo (fun _ => short_line t) (fun _ _ => Some true) (fun _ _ => None) (fun _ _ => 0%nat) (fun _ _ => 0%nat) (fun _ _ => None) (fun _ _ => 0%nat).
Lemma lines_closed : closed line_nodes line_els.
Proof.
  intros i e n H Hn. assert (H' : (i, e) ∈ [(1, (1, [7], [1; 2])); (2, (1, [7], [2; 3]))]).
  { apply elem_of_list_to_map_2. exact H. }
  apply elem_of_cons in H' as [H'|H']; [|apply elem_of_list_singleton in H']; injection H' as -> ->; cbn in Hn;
    repeat (apply elem_of_cons in Hn as [->|Hn]; [vm_compute; eauto|]); apply elem_of_nil in Hn; contradiction.
Qed.
Lemma lines_init : exists t, init line_nodes line_els 5 = Some (lines, t) /\ (t == 10)%Q.
Proof.
  unfold init. assert (A : max_key line_els = Some 2) by (vm_compute; reflexivity). assert (B : max_key line_nodes = Some 3) by (vm_compute; reflexivity).
  assert (C : min_key line_nodes = Some 1) by (vm_compute; reflexivity). rewrite A, B, C. eexists. split; [reflexivity|]. vm_compute. reflexivity.
Qed.
Lemma lines_reached G : reached walk G lines.
Proof. destruct lines_init as [t [E _]]. exists line_nodes, line_els, 5%Q, lines, t, []. split; [apply lines_closed|]. split; [exact E|]. split; [exact Logic.I|reflexivity]. Qed.
Theorem C48_refuted : exists s s' i e, reached walk (measuring 10) s /\ modif s = ∅ /\
  heal walk (measuring 10) 2 5 s = Some (Done, s') /\ els s' !! i = Some e /\
  short_line 10 (default [] (points s' (e_nodes e))) = Some 0%nat /\
  els (snd (check_ele walk (measuring 10) i s')) !! i = None.
Proof.
  exists lines.
  destruct (seen (fun r s => (r, els s !! 2, short_line 10 (default [] (points s [2; 3])), els (snd (check_ele walk (measuring 10) 2 s)) !! 2))
    (heal walk (measuring 10) 2 5 lines) (Done, Some (1, [7], [2; 3]), Some 0%nat, None)) as (r & s' & E & H); [vm_compute; reflexivity|].
  injection H as -> A B C. exists s', 2, (1, [7], [2; 3]). split; [apply lines_reached|]. split; [reflexivity|]. split; [exact E|]. split; [exact A|]. split; [exact B|exact C].
Qed.

(** ** C49 *)
Lemma tally_in qual s P l : NoDup (map fst l) -> NoDup (map fst (tally qual s P l)) /\
  forall i, i ∈ map fst (tally qual s P l) <-> exists e ps x, (i, e) ∈ l /\ (3 <= length (e_nodes e))%nat /\ points s (e_nodes e) = Some ps /\ qual ps = Some x /\ P x = true.
Proof.
  intros N. split.
  - revert N. unfold tally. induction l as [|ie l IH]; cbn; [constructor|]. intros N. apply NoDup_cons in N. destruct N as [Ni N].
    destruct (_ && _); auto. cbn. apply NoDup_cons. split; auto. intros H. apply Ni. apply elem_of_list_fmap in H. destruct H as (x & E & H).
    apply elem_of_list_In, filter_In in H. apply elem_of_list_fmap. exists x. split; auto. apply elem_of_list_In. tauto.
  - intros i. rewrite elem_of_list_fmap. unfold tally. split.
    + intros ([j e] & -> & H). apply elem_of_list_In, filter_In in H. destruct H as [H1 H2]. apply elem_of_list_In in H1. apply andb_true_iff in H2.
      destruct H2 as [H2 H3]. apply Nat.leb_le in H2. cbn [fst snd] in *. destruct (points s (e_nodes e)) as [ps|] eqn:Ps; [|discriminate].
      cbn in H3. destruct (qual ps) as [x|] eqn:Q; [|discriminate]. exists e, ps, x. auto.
    + intros (e & ps & x & H1 & H2 & Ps & Q & Px). exists (i, e). split; auto. apply elem_of_list_In, filter_In. split; [apply elem_of_list_In; auto|].
      apply andb_true_iff. cbn [fst snd]. split; [apply Nat.leb_le; auto|]. rewrite Ps. cbn. rewrite Q. auto.
Qed.
(** If the qualities are numbers, bin number [k] counts the elements of dimension > 1 with
    quality in range [k]; there is one range for each number. *)
Theorem C49_histogram pick G s (qual : list pt -> option quality) tol : fair pick -> reached pick G s ->
  (forall i e, els s !! i = Some e -> (1 <= length (e_nodes e) <= 4)%nat) ->
  (forall i e ps, els s !! i = Some e -> (3 <= length (e_nodes e))%nat -> points s (e_nodes e) = Some ps -> exists q, qual ps = Some (Fin q)) ->
  exists h bad, quality_statistics qual tol s = Some (h, bad) /\ length h = 17%nat /\
    (forall k n, h !! k = Some n -> exists l, n = length l /\ NoDup l /\ forall i, i ∈ l <->
       exists e ps q, els s !! i = Some e /\ (3 <= length (e_nodes e))%nat /\ points s (e_nodes e) = Some ps /\ qual ps = Some (Fin q) /\ in_range k q) /\
    (forall q, exists k, in_range k q /\ forall j, in_range j q -> j = k) /\
    (forall i, i ∈ bad <-> exists e ps q, els s !! i = Some e /\ (3 <= length (e_nodes e))%nat /\ points s (e_nodes e) = Some ps /\ qual ps = Some (Fin q) /\ (q <= tol)%Q).
Proof.
  intros F R Len Fn. pose proof (reached_inv pick G s F R) as I.
  assert (Nd : NoDup (map fst (map_to_list (els s)))) by apply NoDup_fst_map_to_list.
  destruct (statistics_all qual tol s (map_to_list (els s)) (replicate 17 0%nat) []) as [[h bad] E].
  { intros i e H. apply elem_of_map_to_list in H. pose proof (Len i e H) as L.
    destruct (points s (e_nodes e)) as [ps|] eqn:Ps.
    - exists ps. split; auto. intros L3. destruct (Fn i e ps H L3 Ps) as [q ->]. eauto.
    - exfalso. revert Ps. unfold points. destruct (1 <=? _)%nat eqn:L1; [|apply Nat.leb_gt in L1; lia]. destruct (_ <=? 4)%nat eqn:L4; [|apply Nat.leb_gt in L4; lia].
      cbn. intros Q. apply mapM_None in Q. apply Exists_exists in Q. destruct Q as (n & Hn & Q). destruct (i_closed s I i e n H Hn) as [p Hp]. congruence. }
  exists h, bad. pose proof (statistics_spec qual tol s _ _ _ _ _ E (replicate_length _ _)) as (L & Hh & Hb). split; auto. split; auto.
  split; [|split].
  - intros k n Hk. assert (K : (k < 17)%nat). { rewrite <- L. apply lookup_lt_is_Some. eauto. }
    rewrite (Hh k 0%nat (lookup_replicate_2 _ _ _ K)) in Hk. injection Hk as <-. destruct (tally_in qual s (fun x => (first_smaller x =? k)%nat) _ Nd) as [N1 N2].
    exists (map fst (tally qual s (fun x => (first_smaller x =? k)%nat) (map_to_list (els s)))). split; [rewrite map_length; auto|]. split; auto.
    intros i. rewrite N2. split.
    + intros (e & ps & x & H & L3 & Ps & Q & Px). apply elem_of_map_to_list in H. destruct (Fn i e ps H L3 Ps) as [q Eq]. rewrite Eq in Q. injection Q as <-.
      exists e, ps, q. apply Nat.eqb_eq in Px. repeat (split; [assumption|]). subst k. apply first_smaller_range.
    + intros (e & ps & q & H & L3 & Ps & Q & Rg). exists e, ps, (Fin q). split; [apply elem_of_map_to_list; auto|]. repeat (split; [assumption|]).
      apply Nat.eqb_eq. eapply in_range_unique; eauto. apply first_smaller_range.
  - intros q. exists (first_smaller (Fin q)). split; [apply first_smaller_range|]. intros j Hj. eapply in_range_unique; eauto. apply first_smaller_range.
  - intros i. rewrite Hb. cbn [app]. destruct (tally_in qual s (is_bad tol) _ Nd) as [_ N2]. rewrite N2. split.
    + intros (e & ps & x & H & L3 & Ps & Q & Px). apply elem_of_map_to_list in H. destruct x as [q| |]; try discriminate. exists e, ps, q.
      repeat (split; [assumption|]). apply Qle_bool_iff. exact Px.
    + intros (e & ps & q & H & L3 & Ps & Q & Rg). exists e, ps, (Fin q). split; [apply elem_of_map_to_list; auto|]. repeat (split; [assumption|]).
      apply Qle_bool_iff. exact Rg.
Qed.
(** gmsh_gamma of triangles with points of the x axis. *)
Definition axis_gamma (ps : list pt) : option quality :=
  match ps with
  | [(a, _, _); (b, _, _); (c, _, _)] => Some (tria_gamma (Qabs.Qabs (c - b)) (Qabs.Qabs (a - c)) (Qabs.Qabs (b - a)))
  | _ => None
  end.
Example C49_case : reached walk quiet two /\ quality_statistics (fun ps => Some (Fin (1 # 3)%Q)) (1 # 2) two = Some ([0; 0; 0; 0; 0; 0; 0; 0; 0; 0; 0; 0; 0; 0; 2; 0; 0]%nat, [1; 2]) /\
  in_range 14 (1 # 3).
Proof.
  split; [apply (two_reached quiet []); exact Logic.I|]. split; [vm_compute; reflexivity|]. split; [lia|]. split; intros _; vm_compute; congruence.
Qed.
(** A triangle with points 0, 0, 1: the quality is no number, it is put in the first bin and
    not listed among the bad elements. *)
Definition flat_nodes : gmap Z pt := list_to_map [(1, (0, 0, 0)%Q); (2, (0, 0, 0)%Q); (3, (1, 0, 0)%Q)].
Definition one_el : gmap Z elem := {[1 := (2, [7], [1; 2; 3])]}.
Definition flat : st := St flat_nodes one_el (make_node_to_el one_el) ∅ 1 3 0.
Lemma one_lookup i e : one_el !! i = Some e -> i = 1 /\ e = (2, [7], [1; 2; 3]).
Proof. unfold one_el. intros H. apply lookup_singleton_Some in H. destruct H as [<- <-]. auto. Qed.
Lemma one_closed ns : is_Some (ns !! 1) -> is_Some (ns !! 2) -> is_Some (ns !! 3) -> closed ns one_el.
Proof.
  intros A B C i e n H Hn. apply one_lookup in H. destruct H as [-> ->]. cbn in Hn.
  repeat (apply elem_of_cons in Hn as [->|Hn]; [assumption|]). apply elem_of_nil in Hn. contradiction.
Qed.
Theorem C49_refuted : exists ns es s t, init ns es (1 # 100) = Some (s, t) /\ closed ns es /\
  quality_statistics axis_gamma (1 # 100) s = Some (1%nat :: replicate 16 0%nat, []) /\
  (forall i e ps, els s !! i = Some e -> points s (e_nodes e) = Some ps -> axis_gamma ps = Some NaN).
Proof.
  exists flat_nodes, one_el, flat. destruct (init_eq flat_nodes one_el (1 # 100) 1 3 1) as [t E]; [vm_compute; reflexivity..|]. exists t.
  split; [exact E|]. split; [|split; [vm_compute; reflexivity|]].
  - apply one_closed; vm_compute; eauto.
  - intros i e ps H. apply one_lookup in H. destruct H as [-> ->]. cbn [e_nodes snd].
    assert (P : points flat [1; 2; 3] = Some [(0, 0, 0); (0, 0, 0); (1, 0, 0)]%Q) by (vm_compute; reflexivity). rewrite P. intros [= <-]. vm_compute. reflexivity.
Qed.

(** ** C50 *)
(** An element is replaced by the two elements with [p] for one end of the edge (both new):
    the rest of the mesh stays, and for tetrahedra the volumes add up. *)
Theorem C50_edge pick G s i ty tags ns a b p s' ps V A B P t : fair pick -> reached pick G s ->
  els s !! i = Some (ty, tags, ns) -> a ∈ ns -> b ∈ ns -> a <> b ->
  nodes s !! a = Some A -> nodes s !! b = Some B -> nodes s !! p = Some P -> on_line t A B P ->
  points s ns = Some ps -> tetra_measure ps = Some V ->
  split_el pick true [a; b] p i s = (Ok tt, s') -> max_el s' = max_el s + 2 ->
  exists n1 n2 p1 p2 V1 V2, nodes s' = nodes s /\
    els s' = <[max_el s + 2 := (ty, tags, n2)]> (<[max_el s + 1 := (ty, tags, n1)]> (delete i (els s))) /\
    points s' n1 = Some p1 /\ points s' n2 = Some p2 /\ tetra_measure p1 = Some V1 /\ tetra_measure p2 = Some V2 /\ (V1 + V2 == V)%Q.
Proof.
  intros F R E Ha Hb N NA NB NP Ol Ps HV Sp Mx. pose proof (reached_inv pick G s F R) as I.
  destruct (split_two pick F s i ty tags ns a b p s' I E Ha Hb Sp Mx) as (k & l & K & L & Nd & El).
  destruct (points_lookup s ns ps k a Ps K) as (A' & A1 & A2). rewrite NA in A1. injection A1 as <-.
  destruct (points_lookup s ns ps l b Ps L) as (B' & B1 & B2). rewrite NB in B1. injection B1 as <-.
  assert (k <> l) by congruence. destruct (tetra_edge ps k l A B P t V HV A2 B2 H Ol) as (V1 & V2 & M1 & M2 & S).
  exists (<[k := p]> ns), (<[l := p]> ns), (<[k := P]> ps), (<[l := P]> ps), V1, V2. split; auto. split; auto.
  rewrite !(points_same s s' _ Nd). split; [apply points_insert; auto|]. split; [apply points_insert; auto|]. auto.
Qed.
(** The same for a point of the plane of a face. *)
Theorem C50_face pick G s i ty tags ns a b c p s' ps V A B C P u v w : fair pick -> reached pick G s ->
  els s !! i = Some (ty, tags, ns) -> a ∈ ns -> b ∈ ns -> c ∈ ns -> a <> b -> a <> c -> b <> c ->
  nodes s !! a = Some A -> nodes s !! b = Some B -> nodes s !! c = Some C -> nodes s !! p = Some P ->
  (u + v + w == 1)%Q -> same P (comb3 u v w A B C) ->
  points s ns = Some ps -> tetra_measure ps = Some V ->
  split_el pick false [a; b; c] p i s = (Ok tt, s') -> max_el s' = max_el s + 3 ->
  exists n1 n2 n3 p1 p2 p3 V1 V2 V3, nodes s' = nodes s /\
    els s' = <[max_el s + 3 := (ty, tags, n3)]> (<[max_el s + 2 := (ty, tags, n2)]> (<[max_el s + 1 := (ty, tags, n1)]> (delete i (els s)))) /\
    points s' n1 = Some p1 /\ points s' n2 = Some p2 /\ points s' n3 = Some p3 /\
    tetra_measure p1 = Some V1 /\ tetra_measure p2 = Some V2 /\ tetra_measure p3 = Some V3 /\ (V1 + V2 + V3 == V)%Q.
Proof.
  intros F R E Ha Hb Hc N1 N2 N3 NA NB NC NP U Sm Ps HV Sp Mx. pose proof (reached_inv pick G s F R) as I.
  destruct (split_three pick F s i ty tags ns a b c p s' I E Ha Hb Hc Sp Mx) as (k & l & m & K & L & M & Nd & El).
  destruct (points_lookup s ns ps k a Ps K) as (A' & A1 & A2). rewrite NA in A1. injection A1 as <-.
  destruct (points_lookup s ns ps l b Ps L) as (B' & B1 & B2). rewrite NB in B1. injection B1 as <-.
  destruct (points_lookup s ns ps m c Ps M) as (C' & C1 & C2). rewrite NC in C1. injection C1 as <-.
  assert (k <> l) by congruence. assert (k <> m) by congruence. assert (l <> m) by congruence.
  destruct (tetra_face ps k l m A B C P u v w V HV A2 B2 C2 H H0 H1 U Sm) as (V1 & V2 & V3 & M1 & M2 & M3 & S).
  exists (<[k := p]> ns), (<[l := p]> ns), (<[m := p]> ns), (<[k := P]> ps), (<[l := P]> ps), (<[m := P]> ps), V1, V2, V3. split; auto. split; auto.
  rewrite !(points_same s s' _ Nd). split; [apply points_insert; auto|]. split; [apply points_insert; auto|]. split; [apply points_insert; auto|]. auto.
Qed.
(** Triangles, [p] between the ends of the edge: the areas add up. *)
Theorem C50_triangle pick G s i ty tags ns a b p s' ps V A B P t : fair pick -> reached pick G s ->
  els s !! i = Some (ty, tags, ns) -> a ∈ ns -> b ∈ ns -> a <> b ->
  nodes s !! a = Some A -> nodes s !! b = Some B -> nodes s !! p = Some P -> (0 <= t <= 1)%Q -> on_line t A B P ->
  points s ns = Some ps -> tria_measure ps = Some V ->
  split_el pick true [a; b] p i s = (Ok tt, s') -> max_el s' = max_el s + 2 ->
  exists n1 n2 p1 p2 V1 V2, nodes s' = nodes s /\
    els s' = <[max_el s + 2 := (ty, tags, n2)]> (<[max_el s + 1 := (ty, tags, n1)]> (delete i (els s))) /\
    points s' n1 = Some p1 /\ points s' n2 = Some p2 /\ tria_measure p1 = Some V1 /\ tria_measure p2 = Some V2 /\ (V1 + V2 = V)%R.
Proof.
  intros F R E Ha Hb N NA NB NP Ht Ol Ps HV Sp Mx. pose proof (reached_inv pick G s F R) as I.
  destruct (split_two pick F s i ty tags ns a b p s' I E Ha Hb Sp Mx) as (k & l & K & L & Nd & El).
  destruct (points_lookup s ns ps k a Ps K) as (A' & A1 & A2). rewrite NA in A1. injection A1 as <-.
  destruct (points_lookup s ns ps l b Ps L) as (B' & B1 & B2). rewrite NB in B1. injection B1 as <-.
  assert (k <> l) by congruence. destruct (tria_edge ps k l A B P t V HV A2 B2 H Ht Ol) as (V1 & V2 & M1 & M2 & S).
  exists (<[k := p]> ns), (<[l := p]> ns), (<[k := P]> ps), (<[l := P]> ps), V1, V2. split; auto. split; auto.
  rewrite !(points_same s s' _ Nd). split; [apply points_insert; auto|]. split; [apply points_insert; auto|]. auto.
Qed.
(** A tetrahedron with the node 5 in the middle of the edge 1-2 and the node 6 in the face 1-2-3. *)
Definition tet_nodes : gmap Z pt := list_to_map
  [(1, (0, 0, 0)%Q); (2, (3, 0, 0)%Q); (3, (0, 3, 0)%Q); (4, (0, 0, 3)%Q); (5, (3 # 2, 0, 0)%Q); (6, (1, 1, 0)%Q)].
Definition tet_els : gmap Z elem := {[1 := (4, [7], [1; 2; 3; 4])]}.
Definition tet : st := St tet_nodes tet_els (make_node_to_el tet_els) ∅ 1 6 0.
Lemma tet_reached G : reached walk G tet.
Proof.
  destruct (init_eq tet_nodes tet_els (1 # 100) 1 6 1) as [t E]; [vm_compute; reflexivity..|].
  exists tet_nodes, tet_els, (1 # 100)%Q, tet, t, []. split; [|split; [exact E|split; [exact Logic.I|reflexivity]]].
  intros i e n H Hn. unfold tet_els in H. apply lookup_singleton_Some in H. destruct H as [<- <-]. cbn in Hn.
  repeat (apply elem_of_cons in Hn as [->|Hn]; [vm_compute; eauto|]); apply elem_of_nil in Hn; contradiction.
Qed.
Example C50_case : reached walk quiet tet /\ on_line (1 # 2) (0, 0, 0)%Q (3, 0, 0)%Q (3 # 2, 0, 0)%Q /\
  fst (split_el walk true [1; 2] 5 1 tet) = Ok tt /\ max_el (snd (split_el walk true [1; 2] 5 1 tet)) = max_el tet + 2 /\
  same (1, 1, 0)%Q (comb3 (1 # 3) (1 # 3) (1 # 3) (0, 0, 0) (3, 0, 0) (0, 3, 0))%Q /\
  fst (split_el walk false [1; 2; 3] 6 1 tet) = Ok tt /\ max_el (snd (split_el walk false [1; 2; 3] 6 1 tet)) = max_el tet + 3 /\
  (exists V, tetra_measure (default [] (points tet [1; 2; 3; 4])) = Some V /\ (V == 9 # 2)%Q) /\
  fst (split_el walk true [2; 3] 1 1 two) = Ok tt.
Proof.
  split; [apply tet_reached|]. split; [vm_compute; auto|]. split; [vm_compute; reflexivity|]. split; [vm_compute; reflexivity|]. split; [vm_compute; auto|].
  split; [vm_compute; reflexivity|]. split; [vm_compute; reflexivity|]. split; [|vm_compute; reflexivity]. eexists. split; [vm_compute; reflexivity|]. vm_compute. reflexivity.
Qed.

(** ** C51 *)
(** The tolerance is node_tol times the difference of the greatest and the least node id. *)
Theorem C51_ids ns es tol s t : init ns es tol = Some (s, t) ->
  exists a b, is_Some (ns !! a) /\ is_Some (ns !! b) /\ (forall n, is_Some (ns !! n) -> a <= n <= b) /\ (t == tol * inject_Z (b - a))%Q.
Proof.
  unfold init. destruct (max_key es) as [me|]; [|discriminate]. destruct (max_key ns) as [b|] eqn:B; [|discriminate]. destruct (min_key ns) as [a|] eqn:A; [|discriminate].
  intros [= <- <-]. apply max_key_spec in B. apply min_key_spec in A. exists a, b. destruct B as [B1 B2], A as [A1 A2].
  split; auto. split; auto. split; [intros n [p Hn]; split; eauto|]. unfold Z.sub. rewrite inject_Z_plus, inject_Z_opp. ring.
Qed.
(** It does not depend on the coordinates. *)
Theorem C51_same_for_all_coordinates ns ns' es tol s t s' t' : dom ns = dom ns' -> init ns es tol = Some (s, t) -> init ns' es tol = Some (s', t') -> (t == t')%Q.
Proof.
  intros D E E'. apply C51_ids in E. apply C51_ids in E'. destruct E as (a & b & A & B & H & ->), E' as (a' & b' & A' & B' & H' & ->).
  assert (X : forall n, is_Some (ns !! n) <-> is_Some (ns' !! n)). { intros n. rewrite <- !elem_of_dom. rewrite D. tauto. }
  pose proof (H a' (proj2 (X _) A')). pose proof (H b' (proj2 (X _) B')). pose proof (H' a (proj1 (X _) A)). pose proof (H' b (proj1 (X _) B)).
  assert (a = a') as -> by lia. assert (b = b') as -> by lia. reflexivity.
Qed.
(** [d] is the size of the set of nodes in the direction [ax]. *)
Definition side (ax : pt -> Q) (ns : gmap Z pt) (d : Q) : Prop :=
  (exists i j p q, ns !! i = Some p /\ ns !! j = Some q /\ ax q - ax p == d)%Q /\
  (forall i j p q, ns !! i = Some p -> ns !! j = Some q -> ax q - ax p <= d)%Q.
Definition ax_x (p : pt) : Q := fst (fst p).
Definition ax_y (p : pt) : Q := snd (fst p).
Definition ax_z (p : pt) : Q := snd p.
(** For the two triangles it is no multiple of a side of the box, nor of its diagonal. *)
Lemma two_points i p : two_nodes !! i = Some p -> p = (0, 0, 0)%Q \/ p = (4, 0, 0)%Q \/ p = (0, 4, 0)%Q \/ p = (4, 4, 0)%Q.
Proof.
  intros H. apply elem_of_list_to_map_2 in H. repeat (apply elem_of_cons in H as [[= -> ->]|H]; [tauto|]). apply elem_of_nil in H. contradiction.
Qed.
Theorem C51_refuted : exists ns es tol s t, closed ns es /\ init ns es tol = Some (s, t) /\ side ax_x ns 4 /\ side ax_y ns 4 /\ side ax_z ns 0 /\
  ~ (t == tol * 4)%Q /\ ~ (t == tol * 0)%Q /\ ~ (t * t == tol * tol * (4 * 4 + 4 * 4 + 0 * 0))%Q.
Proof.
  unfold init. exists two_nodes, two_els, (1 # 100)%Q, two, ((1 # 100) * (inject_Z 4 - inject_Z 1))%Q. split; [apply two_closed|]. split.
  { assert (A : max_key two_els = Some 2) by (vm_compute; reflexivity). assert (B : max_key two_nodes = Some 4) by (vm_compute; reflexivity).
    assert (C : min_key two_nodes = Some 1) by (vm_compute; reflexivity). rewrite A, B, C. reflexivity. }
  assert (X : forall ax d i j p q, two_nodes !! i = Some p -> two_nodes !! j = Some q -> (ax q - ax p == d)%Q ->
    (forall p q, (p = (0, 0, 0) \/ p = (4, 0, 0) \/ p = (0, 4, 0) \/ p = (4, 4, 0)) -> (q = (0, 0, 0) \/ q = (4, 0, 0) \/ q = (0, 4, 0) \/ q = (4, 4, 0)) -> ax q - ax p <= d)%Q -> side ax two_nodes d).
  { intros ax d i j p q H1 H2 H3 H4. split; [exists i, j, p, q; auto|]. intros i' j' p' q' H5 H6. apply H4; eapply two_points; eauto. }
  split; [eapply (X ax_x _ 1 2); [reflexivity|reflexivity|reflexivity|] | split; [eapply (X ax_y _ 1 3); [reflexivity|reflexivity|reflexivity|] |
    split; [eapply (X ax_z _ 1 2); [reflexivity|reflexivity|reflexivity|] |] ] ];
    try (intros p q [-> |[-> |[-> | ->]]] [-> |[-> |[-> | ->]]]; vm_compute; congruence).
  split; [|split]; vm_compute; congruence.
Qed.
Example C51_case : exists t, init line_nodes line_els 5 = Some (lines, t) /\ (t == 10)%Q.
Proof. apply lines_init. Qed.

(** ** C61 *)
(** Meshes of points and lines whose lines have two different ends are healed without an
    exception. *)
Theorem C61_lines pick G s frac fuel r s' : fair pick -> reached pick G s -> sensible G -> thin s -> heal pick G frac fuel s = Some (r, s') -> r <> Raised.
Proof. intros F R Sn Th E. apply (heal_thin pick F G frac fuel s Sn (reached_inv pick G s F R) Th r s' E). Qed.
Example C61_case : reached walk (measuring 10) lines /\ sensible (measuring 10) /\ thin lines /\
  exists s', heal walk (measuring 10) 2 5 lines = Some (Done, s').
Proof.
  split; [apply lines_reached|]. split; [|split].
  - intros k ps j. cbn. unfold short_line. destruct ps as [|a [|b [|? ?]]]; try discriminate. destruct (Qlt_le_dec _ _); [|discriminate]. intros [= <-]. cbn. lia.
  - intros i e H. assert (H' : (i, e) ∈ [(1, (1, [7], [1; 2])); (2, (1, [7], [2; 3]))]) by (apply elem_of_list_to_map_2; exact H).
    apply elem_of_cons in H' as [H'|H']; [|apply elem_of_list_singleton in H']; injection H' as -> ->; cbn; (split; [lia|]);
      apply NoDup_ListNoDup; repeat (constructor; [cbn; lia|]); constructor.
  - destruct (seen (fun r s => r) (heal walk (measuring 10) 2 5 lines) Done) as (r & s' & E & ->); [vm_compute; reflexivity|]. exists s'. exact E.
Qed.
(** One triangle with edges 1, 1000001/4000, 1000001/4000 and tolerance 2: the edge 1-2 is
    shorter than the tolerance, the quality is below 1/50, the projection of line 562 of
    node 1 to the edge 2-3 is next to node 2. *)
Definition needle_nodes : gmap Z pt := list_to_map [(1, (0, 0, 0)%Q); (2, (1, 0, 0)%Q); (3, (1 # 2, 999999 # 4000, 0)%Q)].
Definition needle : st := St needle_nodes one_el (make_node_to_el one_el) ∅ 1 3 0.
Definition needle_geo : geo := Geo (fun _ _ => Some 2%nat) (fun _ _ => Some false) (fun _ _ => None) (fun _ _ => 0%nat)
  (fun _ _ => 0%nat) (fun _ _ => Some None) (fun _ _ => 2%nat).
Theorem C61_refuted : exists s a b c s', reached walk needle_geo s /\
  els s = {[1 := (2, [7], [1; 2; 3])]} /\ nodes s !! 1 = Some a /\ nodes s !! 2 = Some b /\ nodes s !! 3 = Some c /\
  (dot (minus c b) (minus c b) == (1000001 # 4000) ^ 2)%Q /\ (dot (minus a c) (minus a c) == (1000001 # 4000) ^ 2)%Q /\ (dot (minus b a) (minus b a) == 1)%Q /\
  is_bad (1 # 50) (tria_gamma (1000001 # 4000) (1000001 # 4000) 1) = true /\
  (dot (minus a b) (minus c b) / dot (minus c b) (minus c b) < 1 # 20)%Q /\
  heal walk needle_geo 2 5 s = Some (Raised, s').
Proof.
  exists needle, (0, 0, 0)%Q, (1, 0, 0)%Q, (1 # 2, 999999 # 4000, 0)%Q.
  destruct (seen (fun r s => r) (heal walk needle_geo 2 5 needle) Raised) as (r & s' & E & ->); [vm_compute; reflexivity|]. exists s'. split.
  { destruct (init_eq needle_nodes one_el 1 1 3 1) as [t Et]; [vm_compute; reflexivity..|].
    exists needle_nodes, one_el, 1%Q, needle, t, []. split; [|split; [exact Et|split; [exact Logic.I|reflexivity]]].
    apply one_closed; vm_compute; eauto. }
  split; [reflexivity|]. split; [reflexivity|]. split; [reflexivity|]. split; [reflexivity|]. split; [vm_compute; reflexivity|]. split; [vm_compute; reflexivity|].
  split; [vm_compute; reflexivity|]. split; [vm_compute; reflexivity|]. split; [vm_compute; reflexivity|exact E].
Qed.

(** ** C62 *)
(** How the sum of line 90 differs from the sum with the faces that meet in the edges. *)
Theorem C62_difference F l : (sum_pairs F l - right_pairs F l = F 3%nat * (F 0%nat - F 2%nat) * (l 3%nat * l 3%nat - l 5%nat * l 5%nat))%R.
Proof. apply pairs_differ. Qed.
(** A tetrahedron with three right angles at its first node. *)
Definition corner : list pt := [(0, 0, 0); (1, 0, 0); (0, 2, 0); (0, 0, 3)]%Q.
Definition areas_of (ps : list pt) (k : nat) : R := default 0%R (face_areas ps !! k).
Definition lens_of (ps : list pt) (k : nat) : R := default 0%R (edge_lens ps !! k).
Lemma norm_value p q r : (dot p p == q)%Q -> (0 <= r)%R -> (r * r = Q2R q)%R -> norm p = r.
Proof. intros H P E. unfold norm. apply Qeq_eqR in H. rewrite H, <- E. apply sqrt_square. auto. Qed.
Lemma norm_square p q : (dot p p == q)%Q -> (norm p * norm p = Q2R q)%R.
Proof.
  intros H. unfold norm. apply Qeq_eqR in H as H'. rewrite H'. apply sqrt_sqrt. rewrite <- H'. apply Rle_trans with (Q2R 0); [unfold Q2R; cbn; lra|]. apply Qle_Rle, dot_nonneg.
Qed.
Ltac vq := unfold Q2R; cbn; lra.
Theorem C62_refuted : exists ps V, tetra_measure ps = Some V /\ (0 < V)%Q /\ sum_pairs (areas_of ps) (lens_of ps) <> right_pairs (areas_of ps) (lens_of ps).
Proof.
  exists corner. eexists. split; [reflexivity|]. split; [vm_compute; reflexivity|]. intros E. pose proof (C62_difference (areas_of corner) (lens_of corner)) as D.
  rewrite E, Rminus_diag_eq in D by auto. revert D. unfold areas_of, corner. rewrite faces_four. unfold lens_of, edge_lens. cbn [length edges_of map lookup list_lookup default fst snd].
  cbn [from_option]. unfold Datatypes.id.
  match goal with |- context [(norm ?a / 2 * (norm ?b / 2 - norm ?c / 2) * (norm ?d * norm ?d - norm ?e * norm ?e))%R] =>
    rewrite (norm_value a 49 7), (norm_value b 4 2), (norm_value c 36 6), (norm_square d 13), (norm_square e 5) end; try (vm_compute; reflexivity); try vq.
Qed.
Example C62_case : right_pairs (fun _ => 1%R) (fun _ => 1%R) = 6%R /\ sum_pairs (fun k => INR k) (fun _ => 1%R) = 11%R.
Proof.
  assert (D : forall F l, sum_pairs F l = (right_pairs F l + F 3%nat * (F 0%nat - F 2%nat) * (l 3%nat * l 3%nat - l 5%nat * l 5%nat))%R).
  { intros F l. pose proof (C62_difference F l). lra. }
  split; [|unfold sum_pairs, e_faces; cbn; lra]. pose proof (D (fun _ => 1%R) (fun _ => 1%R)) as E. unfold sum_pairs, e_faces in E. cbn in E. cbn. lra.
Qed.

(** ** C63 *)
(** flat_indicator of a triangle is the least altitude divided by the greatest edge. *)
Theorem C63_triangle ps A : tria_measure ps = Some A -> Forall (fun a => / 10 ^ 300 <= a)%R (edge_lens ps) ->
  exists h m, least h (altitudes ps) /\ greatest m (edge_lens ps) /\ flat_indicator ps = Some (h / m)%R.
Proof.
  intros E P. assert (P0 : Forall (fun a => 0 < a)%R (edge_lens ps)).
  { eapply Forall_impl; [exact P|]. cbn. intros x Hx. assert (0 < / 10 ^ 300)%R by (apply Rinv_0_lt_compat, pow_lt; lra). lra. }
  assert (M : exists x, x ∈ edge_lens ps /\ (/ 10 ^ 300 <= x)%R).
  { destruct ps as [|a [|b [|c [|? ?]]]]; try discriminate. rewrite lens_three in P |- *. apply Forall_cons in P. destruct P as [P _]. eexists. split; [|exact P]. set_solver. }
  destruct (flat_tria ps A E P0 M) as (h & L & F). exists h, (max300 (edge_lens ps)). split; auto. split; auto. apply max300_greatest. auto.
Qed.
(** For a tetrahedron it is twice that. *)
Theorem C63_tetrahedron ps V : tetra_measure ps = Some V -> Forall (fun a => / 10 ^ 300 <= a)%R (edge_lens ps) ->
  Forall (fun a => / 10 ^ 300 <= a)%R (face_areas ps) ->
  exists h m, least h (altitudes ps) /\ greatest m (edge_lens ps) /\ flat_indicator ps = Some (2 * (h / m))%R.
Proof.
  intros E P Q. assert (P0 : Forall (fun a => 0 < a)%R (face_areas ps)).
  { eapply Forall_impl; [exact Q|]. cbn. intros x Hx. assert (0 < / 10 ^ 300)%R by (apply Rinv_0_lt_compat, pow_lt; lra). lra. }
  destruct ps as [|a [|b [|c [|d [|? ?]]]]]; try discriminate.
  assert (M : exists x, x ∈ face_areas [a; b; c; d] /\ (/ 10 ^ 300 <= x)%R).
  { rewrite faces_four in Q |- *. apply Forall_cons in Q. destruct Q as [Q _]. eexists. split; [|exact Q]. apply elem_of_list_here. }
  destruct (flat_tetra _ V E P0 M) as (h & L & F). exists h, (max300 (edge_lens [a; b; c; d])). split; auto. split; auto. apply max300_greatest.
  unfold edge_lens in P |- *. cbn [length edges_of map] in P |- *. apply Forall_cons in P. destruct P as [P _]. eexists. split; [|exact P]. apply elem_of_list_here.
Qed.
Lemma least_unique x y l : least x l -> least y l -> x = y.
Proof. intros [A B] [C D]. rewrite Forall_forall in B, D. specialize (B y C). specialize (D x A). lra. Qed.
Lemma greatest_unique x y l : greatest x l -> greatest y l -> x = y.
Proof. intros [A B] [C D]. rewrite Forall_forall in B, D. specialize (B y C). specialize (D x A). lra. Qed.
Lemma norm_ge p : (1 <= dot p p)%Q -> (1 <= norm p)%R.
Proof.
  intros H. unfold norm. rewrite <- sqrt_1. apply sqrt_le_1_alt. apply Qle_Rle in H. replace 1%R with (Q2R 1) by (unfold Q2R; cbn; lra). auto.
Qed.
Lemma tiny : (/ 10 ^ 300 <= / 2)%R.
Proof. apply Rinv_le_contravar; [lra|]. apply Rle_trans with (10 ^ 1)%R; [lra|]. apply Rle_pow; [lra|lia]. Qed.
Example C63_case : tetra_measure corner = Some (6 / 6)%Q /\ Forall (fun a => / 10 ^ 300 <= a)%R (edge_lens corner) /\ Forall (fun a => / 10 ^ 300 <= a)%R (face_areas corner).
Proof.
  split; [reflexivity|]. pose proof tiny. split.
  - unfold edge_lens, corner. cbn [length edges_of map]. repeat (constructor; [apply Rle_trans with 1%R; [lra|apply norm_ge; vm_compute; congruence]|]). constructor.
  - unfold corner. rewrite faces_four.
    repeat (constructor; [apply Rle_trans with (/ 2)%R; [lra|]; match goal with |- (_ <= norm ?p / 2)%R => pose proof (norm_ge p ltac:(vm_compute; congruence)); lra end|]). constructor.
Qed.
Theorem C63_refuted : exists ps V h m x, tetra_measure ps = Some V /\ (0 < V)%Q /\ least h (altitudes ps) /\ greatest m (edge_lens ps) /\ flat_indicator ps = Some x /\ x <> (h / m)%R.
Proof.
  destruct C63_case as (E & P & Q). destruct (C63_tetrahedron corner _ E P Q) as (h & m & L & M & F). exists corner, (6 / 6)%Q, h, m, (2 * (h / m))%R.
  split; auto. split; [vm_compute; reflexivity|]. split; auto. split; auto. split; auto.
  assert (0 < m)%R. { destruct M as [M _]. rewrite Forall_forall in P. specialize (P m M). assert (0 < / 10 ^ 300)%R by (apply Rinv_0_lt_compat, pow_lt; lra). lra. }
  assert (0 < h)%R.
  { destruct L as [L _]. cbn [altitudes corner] in L. unfold dist_plane in L.
    assert (D : forall n q, (1 <= dot n n)%Q -> ~ (q == 0)%Q -> (0 < Rabs (Q2R q) / norm n)%R).
    { intros n q Hn Hq. pose proof (norm_ge n Hn). apply Rmult_lt_0_compat; [|apply Rinv_0_lt_compat; lra]. apply Rabs_pos_lt. intros Z. apply Hq. apply eqR_Qeq. rewrite Z. unfold Q2R. cbn. lra. }
    repeat (apply elem_of_cons in L as [-> |L]; [apply D; vm_compute; congruence|]). apply elem_of_nil in L. contradiction. }
  assert (0 < h / m)%R by (apply Rmult_lt_0_compat; auto; apply Rinv_0_lt_compat; auto). lra.
Qed.

Print Assumptions C45_index.
Print Assumptions C45_element_ids.
Print Assumptions C45_node_ids.
Print Assumptions C45_refuted.
Print Assumptions C46_merge.
Print Assumptions C46_no_repeated.
Print Assumptions C46_raises.
Print Assumptions C47_terminates.
Print Assumptions C48_checked.
Print Assumptions C48_refuted.
Print Assumptions C49_histogram.
Print Assumptions C49_refuted.
Print Assumptions C50_edge.
Print Assumptions C50_face.
Print Assumptions C50_triangle.
Print Assumptions C51_ids.
Print Assumptions C51_same_for_all_coordinates.
Print Assumptions C51_refuted.
Print Assumptions C61_lines.
Print Assumptions C61_refuted.
Print Assumptions C62_difference.
Print Assumptions C62_refuted.
Print Assumptions C63_triangle.
Print Assumptions C63_tetrahedron.
Print Assumptions C63_refuted.
