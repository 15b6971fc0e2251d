(** Parents of what was made from a listing. *)
From stdpp Require Import gmap list relations.
From Coq Require Import Lia.
From Verif Require Import Decomp_Model Decomp_Spec Decomp_Perm Decomp_Eff Decomp_Tree Decomp_Inv Build_Model Build_Spec Build_Wire Build_Poly Build_Main Build_Parents.
Local Open Scope nat_scope.

Lemma fam_linked s : fam (wires s) -> linked s.
Proof.
  intros [[A1 A2] A3] q x X w. split.
  - intros I. assert (C : chl (wires s) q w) by (by exists x). split; [intros ->; by apply (A3 q)|by apply A1].
  - intros [D P]. destruct (A2 q w) as (y & Y & Z); [done|eauto|done|by apply not_elem_of_empty|]. congruence.
Qed.
Section Made.
Context (P0 : gmap nat point) (v : gmap he nat) (vc : gmap nat vect) (R : list item) (F : list (nat * nat)) (s : st) (T : track P0 v vc R F s) (HE : half_edges s).
Lemma track_lists w : w <> 0 -> is_Some (sg_of s !! w) -> exists h l, sg_of s !! w = Some (Some h) /\ goes (nxt s) h l h /\ NoDup (h :: l) /\ forall k, k ∈ h :: l <-> wir s !! k = Some w.
Proof.
  intros W L. apply fmap_live in L. apply (t_dom _ _ _ _ _ _ T) in L as [?|(i & I & <-)]; [done|]. destruct (t_goes _ _ _ _ _ _ T i I) as (h & l & E & G). assert (X := t_sg _ _ _ _ _ _ T i I). rewrite E in X.
  exists h, l. split; [done|]. split; [done|]. split; [rewrite <- E; by apply (item_nodup _ _ _ _ _ _ T)|]. rewrite <- E. apply (item_wire _ _ _ _ _ _ T i I).
Qed.
Lemma track_labels h w : wir s !! h = Some w -> w <> 0 /\ is_Some (sg_of s !! w) /\ is_Some (wir s !! flip h).
Proof.
  intros E. destruct HE as (H1 & H2 & _). apply (t_wir _ _ _ _ _ _ T) in E as E'. destruct E' as (i & I & <- & _). split; [by apply (t_zero _ _ _ _ _ _ T)|]. split; [rewrite (t_sg _ _ _ _ _ _ T i I); eauto|].
  apply H2. destruct h as [g c]. change (flip (g, c)) with (g, negb c). rewrite <- (H1 g (negb c)), (H1 g c). apply H2. eauto.
Qed.
Lemma track_loops : loops (wir s) (nxt s) (sg_of s) s.
Proof.
  constructor; [done|done|done|apply T|]. intros w W L. apply (t_dom _ _ _ _ _ _ T) in L as [?|(i & I & <-)]; [done|]. destruct (t_par _ _ _ _ _ _ T i I) as (o & _ & P & _). eauto.
Qed.
Lemma track_outer g p : polys s !! g = Some p -> exists x, wires s !! outer p = Some x.
Proof.
  intros P. destruct (t_out _ _ _ _ _ _ T g (outer p)) as [[_ ->]|(_ & l' & I')]; [by rewrite lookup_fmap, P| |].
  - apply (fmap_live parent). destruct (t_root _ _ _ _ _ _ T) as [A _]. eauto.
  - apply (fmap_live parent). destruct (t_par _ _ _ _ _ _ T _ I') as (o' & _ & P' & _). cbn in P'. eauto.
Qed.
Lemma hole_facts h : hole_of s h -> h <> 0 /\ is_Some (wires s !! h) /\ ~ own (par_of s) h /\ forall g' p, polys s !! g' = Some p -> outer p <> h.
Proof.
  intros (g & p & x & P & X & H). assert (FA := t_tl _ _ _ _ _ _ T). destruct FA as [[A1 A2] A3]. assert (C : chl (wires s) (outer p) h) by (by exists x). assert (E := A1 _ _ C). assert (N : h <> outer p) by (intros ->; by apply (A3 (outer p))).
  assert (NO : ~ own (par_of s) h) by (unfold own; congruence). split; [|split; [|split]].
  - intros ->. destruct (t_root _ _ _ _ _ _ T) as [Z _]. congruence.
  - apply (fmap_live parent). eauto.
  - done.
  - intros g' p' P' <-. destruct (t_out _ _ _ _ _ _ T g' (outer p')) as [[_ Z]|(_ & l' & I')]; [by rewrite lookup_fmap, P'| |].
    + destruct (t_root _ _ _ _ _ _ T) as [Z' _]. rewrite Z in E. congruence.
    + destruct (t_par _ _ _ _ _ _ T _ I') as (o' & O' & Q' & Z). cbn [i_g i_w i_hole] in *. rewrite lookup_fmap, P' in O'. injection O' as <-. done.
Qed.
Lemma kids_holes order h : (forall g, g ∈ order <-> is_Some (polys s !! g)) -> h ∈ List.flat_map (kids s) order <-> hole_of s h.
Proof.
  intros O. rewrite elem_of_list_In, in_flat_map. split.
  - intros (g & I & H). unfold kids in H. destruct (polys s !! g) as [p|] eqn:P; [|done]. destruct (wires s !! outer p) as [x|] eqn:X; [|done]. exists g, p, x. split; [done|]. split; [done|]. by apply elem_of_elements, elem_of_list_In.
  - intros (g & p & x & P & X & H). exists g. split; [apply elem_of_list_In, O; eauto|]. unfold kids. rewrite P, X. by apply elem_of_list_In, elem_of_elements.
Qed.
Lemma track_parents k order : (forall g, g ∈ order <-> is_Some (polys s !! g)) -> size (nxt s) * S (size (wires s)) < k ->
  exists W, set_wire_parents k order s = (Ok tt, set_wires W s) /\ w_poly <$> W = pol_of s /\ w_seg <$> W = sg_of s /\ linked (set_wires W s) /\
  (forall w, (exists hole, hole_of s hole /\ inside (wir s) (par_of s) (touch (wir s) hole) w /\ (parent <$> W) !! w = Some (Some hole)) \/
             ((forall hole, hole_of s hole -> ~ inside (wir s) (par_of s) (touch (wir s) hole) w) /\ (parent <$> W) !! w = par_of s !! w)) /\
  (forall w g l, wire_of s w g l -> wire_of (set_wires W s) w g l).
Proof.
  intros O BU. destruct (parents_loop (wir s) (nxt s) (sg_of s) track_lists track_labels k order s s track_loops eq_refl BU) as (W & E & G & LO & SP).
  - intros g I. apply O in I as [p P]. destruct (track_outer g p P) as [x X]. eauto.
  - intros g h I H. assert (HO : hole_of s h). { apply (kids_holes order); [done|]. apply elem_of_list_In, in_flat_map. exists g. split; by apply elem_of_list_In. }
    destruct (hole_facts h HO) as (A & B & C & D). split; [done|]. split; [done|]. split; [done|]. intros g' p _. apply D.
  - exists W. split; [done|]. split; [done|]. split; [apply LO|]. split; [apply fam_linked, LO|]. split.
    + intros w. destruct (SP w) as [(h & I & X)|[N X]].
      * left. exists h. split; [by apply (kids_holes order)|done].
      * right. split; [|done]. intros h H. apply N. by apply (kids_holes order).
    + intros w g l (W1 & W2 & W3). split; [|split; [exact W2|cbn [wires set_wires]; by rewrite G]].
      assert (L : is_Some (wires s !! w)) by (by apply (fmap_live w_poly); rewrite W3; eauto).
      destruct (decide (w = 0)) as [-> | D].
      * destruct (t_root _ _ _ _ _ _ T) as [Z _]. destruct L as [x L]. assert (L' : is_Some (W !! 0)) by (apply (fmap_live w_poly); rewrite G; apply fmap_live; eauto). destruct L' as [y L'].
        assert (PY : (parent <$> W) !! 0 = Some None). { destruct (SP 0) as [(h & _ & X & _)|[_ X]]; [exfalso; apply inside_own in X; unfold own in X; congruence|congruence]. }
        rewrite lookup_fmap, L' in PY. injection PY as PY. rewrite lookup_fmap, L in Z. injection Z as Z.
        unfold wire_segments in *. rewrite (bind_ok _ _ (set_wires W s) y (set_wires W s)) by (by apply need_ok). rewrite PY. rewrite (bind_ok _ _ s x s) in W1 by (by apply need_ok). rewrite Z in W1. unfold ret in *. congruence.
      * destruct (track_lists w D) as (h & r & S1 & S2 & S3 & S4); [by apply fmap_live|].
        assert (LQ := track_loops). destruct (l_par _ _ _ _ LQ w D L) as (q & Q). destruct L as [x L]. assert (S1' := S1). rewrite lookup_fmap, L in S1'. injection S1' as S1'. rewrite lookup_fmap, L in Q. injection Q as Q.
        assert (E1 := goes_segments s w x h r q L Q S1' S2 S3). assert (l = h :: r) as -> by congruence.
        assert (L' : is_Some (W !! w)) by (apply (fmap_live w_poly); rewrite G; apply fmap_live; eauto). destruct (l_par _ _ _ _ LO w D L') as (q' & Q'). destruct L' as [y L']. cbn [wires set_wires] in Q'. rewrite lookup_fmap, L' in Q'. injection Q' as Q'.
        assert (S5 : sg_of (set_wires W s) !! w = Some (Some h)) by (by rewrite (l_sg _ _ _ _ LO)). cbn [wires set_wires] in S5. rewrite lookup_fmap, L' in S5. injection S5 as S5.
        by apply (goes_segments (set_wires W s) w y h r q').
Qed.
End Made.
