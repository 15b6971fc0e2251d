(** Building decompositions from their parts: properties C104-C106. *)
From stdpp Require Import gmap list relations.
From Coq Require Import QArith Lia.
From Verif Require Import Decomp_Model Decomp_Spec Decomp_Plane Decomp_Perm Decomp_Surgery Decomp_Eff Decomp_Tree Decomp_Inv Decomp_Check Build_Model Build_Spec Build_Wire Build_Poly Build_Main Build_Parents Build_Set.
Local Open Scope nat_scope.

(** * C104: a wire from a list of segments *)
Theorem C104_wire s g l : new_wires s -> ring (vtx s) l -> clear (vtx s) l -> exists w s', make_wire (List.map fst l) g s = (Ok w, s') /\
  wires s !! w = None /\ wire_of s' w g l /\ own (parent <$> wires s') w /\
  (forall h, h ∉ l -> nxt s' !! h = nxt s !! h /\ wir s' !! h = wir s !! h) /\ (forall x, x <> w -> wires s' !! x = wires s !! x) /\
  vtx s' = vtx s /\ vec s' = vec s /\ points s' = points s /\ polys s' = polys s.
Proof.
  intros [FR NX] RG CL. destruct l as [|h l]; [done|]. destruct (new_id (iw s)) as [w c] eqn:ID. exists w, (made s w c g h l).
  assert (EW : w = s_next (iw s)) by (unfold new_id in ID; rewrite FR in ID; by injection ID as <- <-).
  assert (NL : forall x, is_Some (wires s !! x) \/ (exists h, wir s !! h = Some x) -> x <> w) by (intros x X ->; apply NX in X; lia).
  split; [by apply make_wire_ok|]. split; [destruct (wires s !! w) eqn:E; [|done]; exfalso; apply (NL w); eauto|].
  assert (ND : NoDup (h :: l)) by apply RG. split; [|split; [|split; [|split; [|done]]]].
  - split; [|split].
    + apply (goes_segments _ w (Wi (Some w) ∅ (Some g) (Some h)) h l w); [unfold made; cbn; by rewrite lookup_insert|done|done| |done]. unfold made. cbn [nxt]. by apply lk_goes.
    + intros k. unfold made. cbn [wir]. rewrite lb_at. destruct (decide (k ∈ h :: l)) as [D|D]; [done|]. split; [done|]. intros E. exfalso. apply (NL w); eauto.
    + unfold made. cbn [wires]. by rewrite fmap_insert, lookup_insert.
  - unfold made, own. cbn [wires]. by rewrite fmap_insert, lookup_insert.
  - intros k K. unfold made. cbn [nxt wir]. rewrite lk_other, lb_at by done. by rewrite decide_False.
  - intros x X. unfold made. cbn [wires]. by rewrite lookup_insert_ne.
Qed.
Lemma point_side_inv g p s r s' : point_side g p s = (Ok r, s') -> s' = s /\ forall c, r = Some c -> vtx s !! (g, c) = Some p.
Proof.
  unfold point_side. intros H. rd H as a Ea. destruct (decide (a = p)) as [-> | D].
  - apply ret_inv in H as [-> ->]. split; [done|]. by intros c [= <-].
  - rd H as b Eb. apply ret_inv in H as [-> ->]. split; [done|]. intros c. destruct (decide (b = p)) as [-> | D']; [by intros [= <-]|done].
Qed.
Lemma link_inv w ids : forall h s t s', link w h ids s = (Ok t, s') -> vtx s' = vtx s /\ exists r, List.map fst r = ids /\ joined (vtx s) h r.
Proof.
  induction ids as [|g ids IH]; intros h s t s' H; cbn [link] in H.
  - apply ret_inv in H as [_ ->]. split; [done|]. by exists [].
  - rd H as p Ep. bnd H as c s1 E. apply point_side_inv in E as [-> E]. destruct c as [c|]; [|done]. up H. up H. apply IH in H as (V & r & R & J). cbn [vtx set_wir set_nxt] in *. split; [done|].
    exists ((g, negb c) :: r). split; [cbn; by rewrite R|]. split; [|done]. change (flip (g, negb c)) with (g, negb (negb c)). rewrite negb_involutive, (E c eq_refl). done.
Qed.
(** When a wire is made, the listed segments follow each other. *)
Theorem C104_joined s g ids w s' : make_wire ids g s = (Ok w, s') -> exists h l, List.map fst (h :: l) = ids /\ l <> [] /\ joined (vtx s) h l.
Proof.
  destruct ids as [|g0 [|g1 r]]; [done|done|]. cbn [make_wire]. intros H. bnd H as x s1 E. unfold new_wire in E. destruct (new_id (iw s)) as [i c]. injection E as <- <-.
  bnd H as h s2 E. assert (K : fst h = g0 /\ vtx s2 = vtx s).
  { unfold first_side in E. rd E as a Ea. bnd E as c1 s3 E1. apply point_side_inv in E1 as [-> _]. destruct c1 as [c1|]; [apply ret_inv in E as [-> ->]; done|].
    rd E as b Eb. bnd E as c2 s4 E2. apply point_side_inv in E2 as [-> _]. destruct c2; [apply ret_inv in E as [-> ->]; done|done]. }
  destruct K as [K1 K2]. bnd H as t s3 E3. apply link_inv in E3 as (_ & l & L & J). exists h, l. split; [cbn; by rewrite K1, L|]. split; [intros ->; done|]. by rewrite <- K2.
Qed.

(** * C105: polygons from a listing *)
Theorem C105_polygons s l : parts s -> listing s l -> exists gs s', make_polygons (List.map ids_of l) s = (Ok gs, s') /\ length gs = length l /\
  (forall e g, (e, g) ∈ zip l gs -> as_listed s' e g) /\ only_listed s' (zip l gs).
Proof. intros P L. destruct (built s l P L) as (gs & s' & E & N & _ & A & O & _). eauto 10. Qed.
Theorem C105_valid s l gs s' : parts s -> listing s l -> make_polygons (List.map ids_of l) s = (Ok gs, s') ->
  half_edges s' /\ linked s' /\ vtx s' = vtx s /\ vec s' = vec s /\ xy <$> points s' = xy <$> points s /\ p_seg <$> points s' = p_seg <$> points s.
Proof.
  intros P L E. destruct (built s l P L) as (gs' & s'' & E' & N & _ & A & O & H & F & X). rewrite E in E'. injection E' as <- <-. split; [done|]. split; [by apply fam_linked|done].
Qed.

(** * C106: parents of wires *)
(** Every wire inside of a hole gets such a hole as parent, other wires keep theirs; the loops end. *)
Theorem C106_parents s l gs s1 order k : parts s -> listing s l -> make_polygons (List.map ids_of l) s = (Ok gs, s1) ->
  lists order (fun g => is_Some (polys s1 !! g)) -> size (nxt s1) * S (size (wires s1)) < k ->
  exists s2, set_wire_parents k order s1 = (Ok tt, s2) /\
    forall w, (exists hole, hole_of s1 hole /\ inside (wir s1) (parent <$> wires s1) (touch (wir s1) hole) w /\ (parent <$> wires s2) !! w = Some (Some hole)) \/
      ((forall hole, hole_of s1 hole -> ~ inside (wir s1) (parent <$> wires s1) (touch (wir s1) hole) w) /\ (parent <$> wires s2) !! w = (parent <$> wires s1) !! w).
Proof.
  intros P L E [_ O] K. destruct (built s l P L) as (gs' & s'' & E' & N & (R & F & T) & _ & _ & H & _). rewrite E in E'. injection E' as <- <-.
  destruct (track_parents _ _ _ _ _ _ T H k order O K) as (W & E1 & _ & _ & _ & A & _). eauto.
Qed.
(** Nothing else is changed; the polygons stay as listed. *)
Theorem C106_rest s l gs s1 order k s2 : parts s -> listing s l -> make_polygons (List.map ids_of l) s = (Ok gs, s1) ->
  lists order (fun g => is_Some (polys s1 !! g)) -> size (nxt s1) * S (size (wires s1)) < k -> set_wire_parents k order s1 = (Ok tt, s2) ->
  (forall e g, (e, g) ∈ zip l gs -> as_listed s2 e g) /\ only_listed s2 (zip l gs) /\ half_edges s2 /\ linked s2 /\ (forall hole, hole_of s2 hole <-> hole_of s1 hole) /\
  points s2 = points s1 /\ polys s2 = polys s1 /\ vtx s2 = vtx s1 /\ vec s2 = vec s1 /\ nxt s2 = nxt s1 /\ wir s2 = wir s1 /\ w_poly <$> wires s2 = w_poly <$> wires s1 /\ w_seg <$> wires s2 = w_seg <$> wires s1.
Proof.
  intros P L E [_ O] K E2. destruct (built s l P L) as (gs' & s'' & E' & N & (R & F & T) & A & OL & H & FA & _). rewrite E in E'. injection E' as <- <-.
  destruct (track_parents _ _ _ _ _ _ T H k order O K) as (W & E1 & G & S1 & LK & SP & WO). rewrite E1 in E2. injection E2 as <-.
  assert (DM : forall z, is_Some (W !! z) <-> is_Some (wires s1 !! z)) by (intros z; by rewrite <- (fmap_live w_poly W z), G, fmap_live).
  assert (KE : forall w q, par_of s1 !! w = Some (Some q) -> w <> q -> (parent <$> W) !! w = Some (Some q)).
  { intros w q Q D. destruct (SP w) as [(h & _ & X & _)|[_ X]]; [|congruence]. apply inside_own in X. unfold own in X. congruence. }
  assert (HO : forall hole, hole_of (set_wires W s1) hole <-> hole_of s1 hole).
  { intros hole. split.
    - intros (g & p & x & X1 & X2 & X3). cbn [polys wires set_wires] in *. exists g, p. destruct (track_outer _ _ _ _ _ _ T g p X1) as [y Y]. exists y. split; [done|]. split; [done|].
      apply (LK (outer p) x X2) in X3 as [D Q]. cbn [wires set_wires] in Q. apply (fam_linked _ FA (outer p) y Y). split; [done|]. destruct (SP hole) as [(h & X & _ & Z)|[_ Z]]; [|congruence].
      exfalso. destruct (hole_facts _ _ _ _ _ _ T h X) as (_ & _ & _ & HF). apply (HF g p X1). congruence.
    - intros (g & p & x & X1 & X2 & X3). exists g, p. assert (is_Some (W !! outer p)) as [y Y] by (apply DM; eauto). exists y. split; [done|]. split; [done|].
      apply (fam_linked _ FA (outer p) x X2) in X3 as [D Q]. apply (LK (outer p) y Y). split; [done|]. by apply KE. }
  split; [|split; [|split; [|split; [done|split; [done|]]]]].
  - intros e g I. destruct (A e g I) as (p & A1 & A2 & A3 & A4). exists p. split; [done|]. split; [|split; [|done]].
    + destruct (fst (fst e)) as [|h r]; [done|]. destruct A2 as [A2 A2']. split; [done|]. by apply WO.
    + intros r J. destruct (A3 r J) as (w & B1 & B2 & B3). exists w. split; [done|]. split; [by apply WO|]. cbn [wires set_wires]. by apply KE.
  - destruct OL as (O1 & O2 & O3). split; [|done]. intros w X. apply DM in X. destruct (O1 w X) as [?|(e & g & r & X1 & X2 & X3)]; [by left|right]. exists e, g, r. split; [done|]. split; [done|]. by apply WO.
  - exact H.
  - done.
Qed.

(** * Examples *)
(** Points and segments (polygons.py lines 759-770); what raises is left out. *)
Definition with_points (l : list vect) : st := fold_left (fun s v => snd (append_point v s)) l init. (* merge.py line 16 *)
Definition with_segments (l : list (nat * nat)) (s : st) : st := fold_left (fun s ab => match make_segment (fst ab) (snd ab) s with (Ok _, s') => s' | _ => s end) l s. (* polygons.py lines 759-770 *)
Lemma with_parts pts segs : parts (with_segments segs (with_points pts)).
Proof.
  assert (A : parts (with_points pts)).
  { unfold with_points. assert (B := parts_none). revert B. generalize init. induction pts as [|v pts IH]; intros s B; [done|]. cbn [fold_left]. apply IH.
    destruct (append_point v s) as [r s'] eqn:E. destruct r as [p| |]; [by apply (parts_point v s p)| |]; unfold append_point in E; destruct (new_id (ip s)); done. }
  revert A. generalize (with_points pts). unfold with_segments. induction segs as [|[a b] segs IH]; intros s A; [done|]. cbn [fold_left fst snd]. apply IH.
  destruct (make_segment a b s) as [[g| |] s'] eqn:E; [by apply (parts_segment a b s g)|done|done].
Qed.
(** A square with a square in it and a point inside of that. *)
Definition frame : st := with_segments [(0, 1); (1, 2); (2, 3); (3, 0); (4, 5); (5, 6); (6, 7); (7, 4)] (* tests: polygons.py lines 759-770 *)
  (with_points [(0, 0); (4, 0); (4, 4); (0, 4); (1, 1); (3, 1); (3, 3); (1, 3); (2, 2)]%Q).
Definition frame_list : list entry := (* polygons.py lines 810-831 *)
  [([], [[(0, true); (1, true); (2, true); (3, true)]], []);
   ([(3, false); (2, false); (1, false); (0, false)], [[(4, true); (5, true); (6, true); (7, true)]], []);
   ([(7, false); (6, false); (5, false); (4, false)], [], [8])].
(** Tests for the examples. *)
Fixpoint leads_b (v : gmap he nat) (h : he) (l : list he) (t : he) : bool :=
  match l with [] => bool_decide (v !! flip t = v !! h) | k :: r => bool_decide (v !! flip k = v !! h) && leads_b v k r t end.
Definition ring_b (v : gmap he nat) (l : list he) : bool :=
  match l with
  | [] => false
  | h :: r => negb (bool_decide (r = [])) && bool_decide (NoDup l) && leads_b v h r h &&
      forallb (fun k => match v !! k, v !! flip k with Some a, Some b => negb (Nat.eqb a b) | _, _ => false end) l
  end.
Definition clear_b (v : gmap he nat) (l : list he) : bool :=
  match l with
  | (g, true) :: (e, _) :: _ => bool_decide (v !! (g, false) <> v !! (e, false)) && bool_decide (v !! (g, false) <> v !! (e, true))
  | _ => true
  end.
Definition listing_b (s : st) (l : list entry) : bool :=
  forallb (fun r => ring_b (vtx s) r && clear_b (vtx s) r) (List.flat_map rings_of l) && bool_decide (NoDup (concat (List.flat_map rings_of l))) &&
  forallb (fun hp => bool_decide (fst hp ∈ concat (List.flat_map rings_of l))) (map_to_list (vtx s)) && bool_decide (NoDup (List.flat_map snd l)) &&
  forallb (fun px => eqb (bool_decide (fst px ∈ List.flat_map snd l)) (bool_decide (p_seg (snd px) = None))) (map_to_list (points s)) &&
  forallb (fun p => bool_decide (is_Some (points s !! p))) (List.flat_map snd l).
Lemma leads_ok v l : forall h t, leads_b v h l t = true -> leads v h l t.
Proof. induction l as [|k l IH]; intros h t H; cbn in *; [by apply bool_decide_eq_true in H|]. apply andb_true_iff in H as [A B]. apply bool_decide_eq_true in A. auto. Qed.
Lemma ring_ok v l : ring_b v l = true -> ring v l.
Proof.
  destruct l as [|h r]; [done|]. intros H. apply andb_true_iff in H as [H E]. apply andb_true_iff in H as [H L]. apply andb_true_iff in H as [H N]. split; [|split; [|split]].
  - intros ->. done.
  - by apply bool_decide_eq_true in N.
  - by apply leads_ok.
  - intros k K. rewrite forallb_forall in E. apply elem_of_list_In, E in K. destruct (v !! k) as [a|]; [|done]. destruct (v !! flip k) as [b|]; [|done]. exists a, b. split; [done|]. split; [done|]. intros ->. rewrite Nat.eqb_refl in K. done.
Qed.
Lemma clear_ok v l : clear_b v l = true -> clear v l.
Proof. destruct l as [|[g [|]] [|[e c] l]]; try done. cbn. intros H. apply andb_true_iff in H as [A B]. apply bool_decide_eq_true in A. by apply bool_decide_eq_true in B. Qed.
Lemma listing_ok s l : listing_b s l = true -> listing s l.
Proof.
  intros H. apply andb_true_iff in H as [H H6]. apply andb_true_iff in H as [H H5]. apply andb_true_iff in H as [H H4]. apply andb_true_iff in H as [H H3]. apply andb_true_iff in H as [H1 H2].
  rewrite forallb_forall in H1, H3, H5, H6. split; [|split; [by apply bool_decide_eq_true in H2|split; [|split; [by apply bool_decide_eq_true in H4|]]]].
  - intros r R. apply elem_of_list_In, H1, andb_true_iff in R as [A B]. split; [by apply ring_ok|by apply clear_ok].
  - intros h [p P]. apply elem_of_map_to_list, elem_of_list_In, H3 in P. by apply bool_decide_eq_true in P.
  - intros p. split.
    + intros I. assert (J := I). apply elem_of_list_In, H6, bool_decide_eq_true in J as [x X]. exists x. split; [done|]. apply elem_of_map_to_list, elem_of_list_In, H5, eqb_prop in X. cbn [fst snd] in X. rewrite bool_decide_true in X by done. symmetry in X. by apply bool_decide_eq_true in X.
    + intros (x & X & N). apply elem_of_map_to_list, elem_of_list_In, H5, eqb_prop in X. cbn [fst snd] in X. rewrite (bool_decide_true (p_seg x = None)) in X by done. by apply bool_decide_eq_true in X.
Qed.
Lemma frame_ok : parts frame /\ listing frame frame_list.
Proof. split; [apply with_parts|]. apply listing_ok. vm_compute. reflexivity. Qed.
Lemma parts_new s : parts s -> new_wires s.
Proof.
  intros P. apply parts_ok in P as [A B C D E F G I J K]. split; [by rewrite E|]. rewrite B, C, E. intros w [[x X]|(h & H)].
  - cbn in X. apply lookup_singleton_Some in X as [<- _]. cbn. lia.
  - by rewrite lookup_empty in H.
Qed.
Lemma res_pair {A B} (p : A * B) (a : A) : fst p = a -> p = (a, snd p).
Proof. intros <-. by destruct p. Qed.
Example C104_case : new_wires frame /\ ring (vtx frame) [(3, false); (2, false); (1, false); (0, false)] /\ clear (vtx frame) [(3, false); (2, false); (1, false); (0, false)] /\
  (exists s', make_wire [3; 2; 1; 0] 0 frame = (Ok 1, s') /\ fst (wire_segments 1 None None s') = Ok [(3, false); (2, false); (1, false); (0, false)]).
Proof.
  split; [apply parts_new, with_parts|]. split; [apply ring_ok; vm_compute; reflexivity|]. split; [apply clear_ok; vm_compute; reflexivity|]. exists (snd (make_wire [3; 2; 1; 0] 0 frame)). split; [|vm_compute; reflexivity].
  apply res_pair. vm_compute. reflexivity.
Qed.
Example C105_case : parts frame /\ listing frame frame_list /\ fst (make_polygons (List.map ids_of frame_list) frame) = Ok [0; 1; 2].
Proof. split; [apply frame_ok|]. split; [apply frame_ok|]. vm_compute. reflexivity. Qed.
Definition framed : st := snd (make_polygons (List.map ids_of frame_list) frame). (* polygons.py lines 810-831 *)
Lemma framed_ok : make_polygons (List.map ids_of frame_list) frame = (Ok [0; 1; 2], framed).
Proof. unfold framed. apply (res_pair (make_polygons (List.map ids_of frame_list) frame) (Ok [0; 1; 2])). vm_compute. reflexivity. Qed.
Lemma made_polys s l gs s1 order : parts s -> listing s l -> make_polygons (List.map ids_of l) s = (Ok gs, s1) -> NoDup order -> (forall g, g ∈ order <-> g = 0 \/ g ∈ gs) -> lists order (fun g => is_Some (polys s1 !! g)).
Proof.
  intros P L E N O. destruct (C105_polygons _ _ P L) as (gs' & s' & E' & LL & _ & _ & _ & G & _). rewrite E in E'. injection E' as <- <-. split; [done|]. intros g. rewrite G, O, snd_zip by lia. done.
Qed.
Lemma framed_polys : lists [0; 1; 2] (fun g => is_Some (polys framed !! g)).
Proof.
  apply (made_polys frame frame_list [0; 1; 2] framed [0; 1; 2] (proj1 frame_ok) (proj2 frame_ok) framed_ok); [apply (bool_decide_eq_true_1 _); vm_compute; reflexivity|].
  intros g. rewrite !elem_of_cons. tauto.
Qed.
Lemma made_hole s l gs s1 g p w : parts s -> listing s l -> make_polygons (List.map ids_of l) s = (Ok gs, s1) -> outer <$> polys s1 !! g = Some p -> is_Some (wires s1 !! p) -> w <> p -> (parent <$> wires s1) !! w = Some (Some p) -> hole_of s1 w.
Proof.
  intros P L E O [x X] D Q. destruct (polys s1 !! g) as [y|] eqn:Y; [|done]. injection O as <-. exists g, y, x. split; [done|]. split; [done|]. destruct (C105_valid _ _ _ _ P L E) as (_ & LK & _). by apply (LK (outer y) x X).
Qed.
(** The wires 2 and 4 of the squares are inside of the holes 1 and 3. *)
Example C106_case : make_polygons (List.map ids_of frame_list) frame = (Ok [0; 1; 2], framed) /\ lists [0; 1; 2] (fun g => is_Some (polys framed !! g)) /\ size (nxt framed) * S (size (wires framed)) < 100 /\
  (hole_of framed 3 /\ inside (wir framed) (parent <$> wires framed) (touch (wir framed) 3) 4) /\
  fst (set_wire_parents 100 [0; 1; 2] framed) = Ok tt /\ List.map (fun w => (parent <$> wires (snd (set_wire_parents 100 [0; 1; 2] framed))) !! w) [0; 1; 2; 3; 4] = [Some None; Some (Some 0); Some (Some 1); Some (Some 2); Some (Some 3)].
Proof.
  split; [apply framed_ok|]. split; [apply framed_polys|]. split; [apply Nat.ltb_lt; vm_compute; reflexivity|]. split; [|split; vm_compute; reflexivity]. split.
  - apply (made_hole frame frame_list [0; 1; 2] framed 1 2 3 (proj1 frame_ok) (proj2 frame_ok) framed_ok); [vm_compute; reflexivity|apply (bool_decide_eq_true_1 _); vm_compute; reflexivity|lia|vm_compute; reflexivity].
  - apply inside_first; [exists (4, true); split; vm_compute; reflexivity|vm_compute; reflexivity].
Qed.

(** * What does not hold *)
(** A wire of a decomposition made by calls that starts in the tip of a dendrite: its list of segments is refused. *)
Definition star : list op := (* decomp.py lines 160-341 *)
  [AddPoint (0, 0)%Q 0; AddPoint (1, 0)%Q 0; AddPoint (0, 1)%Q 0; AddPoint (-1, 0)%Q 0; NewSegment 0 1; NewSegment 0 2; NewSegment 0 3; DeleteSegment 0].
Theorem C104_tip_refuted : exists s w l, history s /\ wire_segments w None None s = (Ok l, s) /\ ring (vtx s) l /\ fst (make_wire (List.map fst l) 0 s) = Raise.
Proof.
  exists (after star), 1, [(2, true); (2, false); (1, true); (1, false)]. split; [apply fine_history; vm_compute; reflexivity|]. split; [|split; [apply ring_ok; vm_compute; reflexivity|vm_compute; reflexivity]].
  assert (E : fst (wire_segments 1 None None (after star)) = Ok [(2, true); (2, false); (1, true); (1, false)]) by (vm_compute; reflexivity).
  unfold wire_segments, bind, get_wire, need in *. destruct (wires (after star) !! 1) as [x|]; [|done]. destruct (parent x); [|done]. destruct (w_seg x); [|done]. cbn [fst] in E. by rewrite E.
Qed.
(** A way that is not closed is accepted: the side after the last one starts elsewhere. *)
Theorem C104_open_refuted : exists s w s' h k, parts s /\ make_wire [0; 1] 0 s = (Ok w, s') /\ nxt s' !! h = Some k /\ vtx s' !! h = Some 2 /\ vtx s' !! flip k = Some 0.
Proof.
  exists (with_segments [(0, 1); (1, 2)] (with_points [(0, 0); (1, 0); (2, 0)]%Q)). eexists _, _, (1, true), (0, true). split; [apply with_parts|]. split; [apply res_pair; vm_compute; reflexivity|]. split; [vm_compute; reflexivity|]. split; vm_compute; reflexivity.
Qed.
(** Both sides of a square listed as outer wires: wires that are their own parents are left. *)
Definition two_outer : list entry := [([(0, true); (1, true); (2, true); (3, true)], [], []); ([(3, false); (2, false); (1, false); (0, false)], [], [])]. (* polygons.py lines 810-831 *)
Theorem C106_orphan_refuted : exists s l gs s1 s2, parts s /\ listing s l /\ make_polygons (List.map ids_of l) s = (Ok gs, s1) /\ set_wire_parents 100 [0; 1; 2] s1 = (Ok tt, s2) /\ own (parent <$> wires s2) 1.
Proof.
  exists (with_segments [(0, 1); (1, 2); (2, 3); (3, 0)] (with_points [(0, 0); (4, 0); (4, 4); (0, 4)]%Q)), two_outer. eexists _, _, _. split; [apply with_parts|]. split; [apply listing_ok; vm_compute; reflexivity|].
  split; [apply res_pair; vm_compute; reflexivity|]. split; [apply res_pair; vm_compute; reflexivity|]. vm_compute. reflexivity.
Qed.
Print Assumptions C104_wire.
Print Assumptions C104_joined.
Print Assumptions C104_tip_refuted.
Print Assumptions C104_open_refuted.
Print Assumptions C105_polygons.
Print Assumptions C105_valid.
Print Assumptions C106_parents.
Print Assumptions C106_rest.
Print Assumptions C106_orphan_refuted.
