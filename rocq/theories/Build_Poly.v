(** Polygons made one after the other. *)
From stdpp Require Import gmap list relations.
From Coq Require Import Lia.
From Verif Require Import Decomp_Model Decomp_Spec Decomp_Perm Decomp_Eff Decomp_Tree Decomp_Inv Build_Model Build_Spec Build_Wire.
Local Open Scope nat_scope.

Notation outer_of s := (outer <$> polys s).
(** Children and parents agree, no wire is its own child. *)
Definition fam (W : gmap nat wire) : Prop := tl ∅ W /\ forall x, ~ chl W x x.
(** A wire that was made: its id, polygon, whether it is a hole, sides. *)
Record item := It { i_w : nat; i_g : nat; i_hole : bool; i_l : list he }.
(** The wires and free points made so far. *)
Record track (P0 : gmap nat point) (v : gmap he nat) (vc : gmap nat vect) (R : list item) (F : list (nat * nat)) (s : st) : Prop := Track {
  t_v : vtx s = v;
  t_vc : vec s = vc;
  t_nd : NoDup (concat (i_l <$> R));
  t_goes i : i ∈ R -> exists h l, i_l i = h :: l /\ goes (nxt s) h l h;
  t_nxt h : is_Some (nxt s !! h) -> h ∈ concat (i_l <$> R);
  t_wir h w : wir s !! h = Some w <-> exists i, i ∈ R /\ i_w i = w /\ h ∈ i_l i;
  t_ids : NoDup (i_w <$> R);
  t_par i : i ∈ R -> exists o, outer_of s !! i_g i = Some o /\ par_of s !! i_w i = Some (Some o) /\ (i_hole i = true <-> o <> i_w i);
  t_pol i : i ∈ R -> pol_of s !! i_w i = Some (Some (i_g i));
  t_sg i : i ∈ R -> sg_of s !! i_w i = Some (head (i_l i));
  t_dom w : is_Some (wires s !! w) -> w = 0 \/ exists i, i ∈ R /\ i_w i = w;
  t_zero i : i ∈ R -> i_w i <> 0;
  t_root : par_of s !! 0 = Some None /\ pol_of s !! 0 = Some (Some 0);
  t_out g o : outer_of s !! g = Some o -> (g = 0 /\ o = 0) \/ (g <> 0 /\ exists l, It o g false l ∈ R);
  t_out0 : outer_of s !! 0 = Some 0;
  t_tl : fam (wires s);
  t_iw : src_ok (iw s) (fun i => is_Some (wires s !! i));
  t_ig : src_ok (ig s) (fun i => is_Some (polys s !! i));
  t_free g y p : polys s !! g = Some y -> (p ∈ free y <-> (p, g) ∈ F);
  t_pt p g : (p, g) ∈ F -> is_Some (polys s !! g) /\ exists x, P0 !! p = Some x /\ points s !! p = Some (Pt (xy x) (Some g) None);
  t_pts p : p ∉ F.*1 -> points s !! p = P0 !! p;
  t_nf : NoDup F.*1 }.

Lemma fmap_live {A B} (f : A -> B) (m : gmap nat A) k : is_Some ((f <$> m) !! k) <-> is_Some (m !! k).
Proof. rewrite lookup_fmap. apply fmap_is_Some. Qed.
Lemma src_ext c (P Q : nat -> Prop) : (forall i, P i <-> Q i) -> src_ok c P -> src_ok c Q.
Proof. intros E (A & B & C). split; [done|]. split; [intros i I; destruct (B i I); rewrite <- E; done|]. intros i I. apply C. by apply E. Qed.
Lemma set_parent_self s w x q y : wires s !! w = Some x -> parent x = Some w -> wires s !! q = Some y -> exists s', set_parent w (Some q) s = (Ok tt, s').
Proof.
  intros W P Q. unfold set_parent. rewrite (bind_ok _ _ s x s) by (by apply need_ok). rewrite P. unfold bind at 1. rewrite (bind_ok _ _ s x s) by (by apply need_ok).
  unfold check. rewrite bool_decide_true by (by right). unfold bind at 1, ret at 1, put_wire at 1, upd at 1.
  unfold bind, get_wire, need, put_wire, upd. cbn [wires set_wires]. rewrite lookup_insert. cbn [wires set_wires].
  destruct (decide (q = w)) as [-> | D].
  - rewrite lookup_insert. eauto.
  - rewrite !lookup_insert_ne by done. rewrite Q. eauto.
Qed.
Lemma set_parent_chl w q s u s' x c : set_parent w (Some q) s = (Ok u, s') -> chl (wires s') x c -> chl (wires s) x c \/ (x = q /\ c = w).
Proof.
  unfold set_parent. intros H. rd H as y Ey. bnd H as u1 s1 E1.
  assert (K1 : forall p c, chl (wires s1) p c -> chl (wires s) p c).
  { destruct (parent y) as [p|] eqn:Ep.
    - rd E1 as z Ez. chk E1 as C. unf E1. apply upd_inv in E1. subst s1. intros p' c' H'. apply chl_insert in H' as [[-> H']|[_ H']]; [|done]. cbn in H'. exists z. split; [done|]. by apply elem_of_difference in H' as [H' _].
    - apply ret_inv in E1 as [_ ->]. done. }
  bnd H as u2 s2 E2. rd E2 as x' Ex'. unf E2. apply upd_inv in E2. subst s2. rd H as z Ez. unf H. apply upd_inv in H. subst s'. cbn [wires set_wires] in *.
  intros H'. apply chl_insert in H' as [[-> H']|[_ H']].
  - cbn in H'. apply elem_of_union in H' as [H' | H'%elem_of_singleton]; [left|by right]. apply K1. apply lookup_insert_Some in Ez as [[<- <-]|[_ Ez]]; [exists x'; done|by exists z].
  - left. apply K1. apply chl_insert in H' as [[-> H']|[_ H']]; [by exists x'|done].
Qed.
Lemma set_parent_ok s w x q y : wires s !! w = Some x -> parent x = Some w -> wires s !! q = Some y ->
  exists W, set_parent w (Some q) s = (Ok tt, set_wires W s) /\ parent <$> W = <[w := Some q]> (par_of s) /\ w_poly <$> W = pol_of s /\ w_seg <$> W = sg_of s /\ (q <> w -> fam (wires s) -> fam W).
Proof.
  intros W P Q. destruct (set_parent_self s w x q y W P Q) as (s' & E). destruct (set_parent_inv _ _ _ _ _ E) as (W' & -> & A & B & C & _ & _ & T). exists W'. split; [done|]. split; [done|]. split; [done|]. split; [done|]. intros D [F1 F2]. split; [by apply T|].
  intros z Z. apply (set_parent_chl _ _ _ _ _ z z E) in Z as [Z|[-> ->]]; [by apply (F2 z)|done].
Qed.

Section Steps.
Context (P0 : gmap nat point) (v : gmap he nat) (vc : gmap nat vect).
Lemma track_parent_live R F s w q : track P0 v vc R F s -> par_of s !! w = Some (Some q) -> is_Some (wires s !! q).
Proof.
  intros T E. assert (L : is_Some (wires s !! w)) by (apply (fmap_live parent); eauto). apply (t_dom _ _ _ _ _ _ T) in L as [-> | (i & I & <-)].
  - destruct (t_root _ _ _ _ _ _ T) as [A _]. congruence.
  - destruct (t_par _ _ _ _ _ _ T i I) as (o & O & P & _). assert (q = o) as -> by congruence. destruct (t_out _ _ _ _ _ _ T _ _ O) as [[_ ->]|(_ & l & I')].
    + apply (fmap_live parent). destruct (t_root _ _ _ _ _ _ T) as [A _]. eauto.
    + apply (fmap_live parent). destruct (t_par _ _ _ _ _ _ T _ I') as (o' & _ & P' & _). cbn in P'. eauto.
Qed.
Lemma tl_new W w x : fam W -> W !! w = None -> parent x = Some w -> childs x = ∅ -> (forall c q, (parent <$> W) !! c = Some (Some q) -> is_Some (W !! q)) -> fam (<[w := x]> W).
Proof.
  intros [[T1 T2] T3] N P C L. split; [split|].
  - intros a c H. apply chl_insert in H as [[-> H]|[D H]]; [rewrite C in H; by apply elem_of_empty in H|]. assert (E := T1 _ _ H). rewrite fmap_insert. destruct (decide (c = w)) as [-> | D'].
    + rewrite lookup_fmap, N in E. done.
    + by rewrite lookup_insert_ne.
  - intros a c H I D X. apply chl_insert. rewrite fmap_insert in H. destruct (decide (c = w)) as [-> | Dc].
    + rewrite lookup_insert, P in H. congruence.
    + rewrite lookup_insert_ne in H by done. destruct (decide (a = w)) as [-> | Da].
      * exfalso. destruct (L _ _ H) as [y Y]. congruence.
      * right. split; [done|]. apply T2; [done| |done|done]. by rewrite lookup_insert_ne in I.
  - intros z H. apply chl_insert in H as [[-> H]|[D H]]; [rewrite C in H; by apply elem_of_empty in H|]. by apply (T3 z).
Qed.
(** One more wire: the state with its links. *)
Lemma track_more R F s w c g h l b W G o : track P0 v vc R F s -> ring v (h :: l) -> NoDup (concat (i_l <$> R) ++ h :: l) -> new_id (iw s) = (w, c) ->
  let s' := St (points s) (vtx s) (<[final h l := h]> (lk (nxt s) h l)) (<[final h l := w]> (lb (wir s) w h l)) (vec s) (p2s s) W G (ip s) (is_ s) c (ig s) (last_change s) in
  parent <$> W = <[w := Some o]> (par_of s) -> w_poly <$> W = <[w := Some g]> (pol_of s) -> w_seg <$> W = <[w := Some h]> (sg_of s) -> fam W ->
  (outer <$> G) !! g = Some o -> (b = true <-> o <> w) ->
  (forall g' o', (outer <$> G) !! g' = Some o' -> outer_of s !! g' = Some o' \/ (g' <> 0 /\ o' = w /\ g' = g /\ b = false)) -> (forall g' o', outer_of s !! g' = Some o' -> (outer <$> G) !! g' = Some o') ->
  forall S', src_ok S' (fun i => is_Some (G !! i)) -> (forall g' y p, G !! g' = Some y -> (p ∈ free y <-> (p, g') ∈ F)) ->
  track P0 v vc (R ++ [It w g b (h :: l)]) F (set_ig S' s').
Proof.
  intros T RG ND ID s' WP WG WS TL OG B GO GK S' SG FR. destruct (src_new _ _ _ _ (t_iw _ _ _ _ _ _ T) ID) as [FW SW].
  assert (NW : wires s !! w = None) by (apply eq_None_not_Some; done).
  assert (NR : forall i, i ∈ R -> i_w i <> w). { intros i I E0. apply FW. rewrite <- E0. apply (fmap_live parent). destruct (t_par _ _ _ _ _ _ T i I) as (? & _ & E & _). eauto. }
  assert (IL : i_l <$> (R ++ [It w g b (h :: l)]) = (i_l <$> R) ++ [h :: l]) by (by rewrite fmap_app).
  assert (CL : concat (i_l <$> (R ++ [It w g b (h :: l)])) = concat (i_l <$> R) ++ h :: l) by (rewrite IL, concat_app; cbn; by rewrite app_nil_r).
  apply NoDup_app in ND as ND'. destruct ND' as (N1 & N2 & N3).
  assert (W0 : w <> 0). { intros ->. destruct (t_root _ _ _ _ _ _ T) as [A _]. rewrite lookup_fmap, NW in A. done. }
  constructor; unfold s'; cbn [vtx nxt wir wires polys points iw ig set_ig].
  - apply T.
  - apply T.
  - by rewrite CL.
  - intros i [I|I%elem_of_list_singleton]%elem_of_app.
    + destruct (t_goes _ _ _ _ _ _ T i I) as (h' & l' & E & G'). exists h', l'. split; [done|].
      assert (K : forall t l' h', (forall x, x ∈ h' :: l' -> x ∈ concat (i_l <$> R)) -> goes (nxt s) h' l' t -> goes (<[final h l:=h]> (lk (nxt s) h l)) h' l' t).
      { intros t l0. induction l0 as [|k l0 IH]; intros h0 IN; cbn.
        - intros E0. rewrite lk_other; [done|]. intros X. apply (N2 h0); [apply IN; left|done].
        - intros [E0 E1]. split; [rewrite lk_other; [done|]; intros X; apply (N2 h0); [apply IN; left|done]|]. apply IH; [|done]. intros x X. apply IN. by right. }
      apply K; [|done]. intros x X. rewrite <- E in X. apply elem_of_list_In, in_concat. exists (i_l i). split; apply elem_of_list_In; [by apply elem_of_list_fmap_1|done].
    + subst i. exists h, l. split; [done|]. by apply lk_goes.
  - intros x X. rewrite CL. apply elem_of_app. destruct (decide (x ∈ h :: l)) as [D|D]; [by right|]. left. rewrite lk_other in X by done. by apply (t_nxt _ _ _ _ _ _ T).
  - intros x w'. rewrite lb_at. destruct (decide (x ∈ h :: l)) as [D|D].
    + split.
      * intros [= <-]. exists (It w g b (h :: l)). split; [apply elem_of_app; right; by apply elem_of_list_singleton|]. done.
      * intros (i & [I|I%elem_of_list_singleton]%elem_of_app & E & X); [|subst i; cbn in E; congruence]. exfalso. apply (N2 x); [|done].
        apply elem_of_list_In, in_concat. exists (i_l i). split; apply elem_of_list_In; [by apply elem_of_list_fmap_1|done].
    + rewrite (t_wir _ _ _ _ _ _ T). split.
      * intros (i & I & X). exists i. split; [apply elem_of_app; by left|done].
      * intros (i & [I|I%elem_of_list_singleton]%elem_of_app & E & X); [eauto|]. subst i. cbn in X. done.
  - rewrite fmap_app. apply NoDup_app. split; [apply T|]. split; [|apply NoDup_singleton]. intros x (i & -> & I)%elem_of_list_fmap X%elem_of_list_singleton. cbn in X. by apply (NR i I).
  - intros i [I|I%elem_of_list_singleton]%elem_of_app.
    + destruct (t_par _ _ _ _ _ _ T i I) as (o' & O & P & H). exists o'. split; [by apply GK|]. split; [|done]. rewrite WP, lookup_insert_ne; [done|]. intros E. by apply (NR i I).
    + subst i. cbn. exists o. split; [done|]. split; [by rewrite WP, lookup_insert|done].
  - intros i [I|I%elem_of_list_singleton]%elem_of_app.
    + rewrite WG, lookup_insert_ne by (intros E; by apply (NR i I)). by apply T.
    + subst i. cbn. by rewrite WG, lookup_insert.
  - intros i [I|I%elem_of_list_singleton]%elem_of_app.
    + rewrite WS, lookup_insert_ne by (intros E; by apply (NR i I)). by apply T.
    + subst i. cbn. by rewrite WS, lookup_insert.
  - intros w' L. apply (fmap_live parent) in L. rewrite WP in L. destruct (decide (w' = w)) as [-> | D].
    + right. eexists. split; [apply elem_of_app; right; by apply elem_of_list_singleton|done].
    + rewrite lookup_insert_ne in L by done. apply fmap_live, (t_dom _ _ _ _ _ _ T) in L as [-> | (i & I & E)]; [by left|]. right. exists i. split; [apply elem_of_app; by left|done].
  - intros i [I|I%elem_of_list_singleton]%elem_of_app; [by apply (t_zero _ _ _ _ _ _ T)|]. by subst i.
  - rewrite WP, WG, !lookup_insert_ne by done. apply T.
  - intros g' o' E. destruct (GO _ _ E) as [E'|(D & -> & -> & ->)].
    + destruct (t_out _ _ _ _ _ _ T _ _ E') as [X|(D & l' & X)]; [by left|]. right. split; [done|]. exists l'. apply elem_of_app. by left.
    + right. split; [done|]. exists (h :: l). apply elem_of_app. right. by apply elem_of_list_singleton.
  - apply GK, T.
  - done.
  - eapply src_ext; [|exact SW]. intros i. cbv beta. rewrite <- !(fmap_live parent), WP. destruct (decide (i = w)) as [-> | D].
    + rewrite lookup_insert. split; [eauto|by left].
    + rewrite lookup_insert_ne by done. split; [by intros [?|?]|by right].
  - done.
  - done.
  - intros p g' X. destruct (t_pt _ _ _ _ _ _ T p g' X) as [L E]. split; [|done]. apply (fmap_live outer). apply (fmap_live outer) in L as [o' O]. exists o'. by apply GK.
  - apply T.
  - apply T.
Qed.

Lemma hole_ok R F s g h l o : track P0 v vc R F s -> ring v (h :: l) -> clear v (h :: l) -> NoDup (concat (i_l <$> R) ++ h :: l) -> outer_of s !! g = Some o ->
  exists w s', make_hole g (List.map fst (h :: l)) s = (Ok tt, s') /\ track P0 v vc (R ++ [It w g true (h :: l)]) F s' /\ polys s' = polys s.
Proof.
  intros T RG CL ND O. destruct (new_id (iw s)) as [w c] eqn:ID. destruct (src_new _ _ _ _ (t_iw _ _ _ _ _ _ T) ID) as [FW SW].
  assert (NW : wires s !! w = None) by (apply eq_None_not_Some; done).
  assert (V := t_v _ _ _ _ _ _ T). assert (MW : make_wire (List.map fst (h :: l)) g s = (Ok w, made s w c g h l)) by (apply make_wire_ok; rewrite ?V; done). set (s1 := made s w c g h l) in *.
  rewrite lookup_fmap in O. destruct (polys s !! g) as [p|] eqn:EP; [|done]. injection O as <-.
  assert (LO : is_Some (wires s !! outer p)).
  { destruct (t_out _ _ _ _ _ _ T g (outer p)) as [[_ ->]|(_ & l' & I')]; [by rewrite lookup_fmap, EP| |].
    - apply (fmap_live parent). destruct (t_root _ _ _ _ _ _ T) as [A _]. eauto.
    - apply (fmap_live parent). destruct (t_par _ _ _ _ _ _ T _ I') as (o' & _ & P' & _). cbn in P'. eauto. }
  assert (OW : outer p <> w). { intros E. rewrite E, NW in LO. by destruct LO. }
  assert (NEW : wires s1 !! w = Some (Wi (Some w) ∅ (Some g) (Some h))) by (unfold s1, made; cbn; by rewrite lookup_insert).
  destruct LO as [y LO]. assert (LO' : wires s1 !! outer p = Some y) by (unfold s1, made; cbn; by rewrite lookup_insert_ne).
  destruct (set_parent_ok s1 w _ (outer p) y NEW eq_refl LO') as (W & E & WP & WG & WS & TL). exists w, (set_wires W s1).
  split; [|split].
  - unfold make_hole. rewrite (bind_ok _ _ s w s1 MW). rewrite (bind_ok _ _ s1 p s1) by (by apply need_ok). done.
  - assert (X := track_more R F s w c g h l true W (polys s) (outer p) T RG ND ID). cbv zeta in X.
    replace (set_wires W s1) with (set_ig (ig s) (St (points s) (vtx s) (<[final h l:=h]> (lk (nxt s) h l)) (<[final h l:=w]> (lb (wir s) w h l)) (vec s) (p2s s) W (polys s) (ip s) (is_ s) c (ig s) (last_change s))) by done.
    apply X.
    + rewrite WP. unfold s1, made. cbn [wires]. rewrite fmap_insert. cbn [parent]. by rewrite insert_insert.
    + rewrite WG. unfold s1, made. cbn [wires]. by rewrite fmap_insert.
    + rewrite WS. unfold s1, made. cbn [wires]. by rewrite fmap_insert.
    + apply TL; [done|]. unfold s1, made. cbn [wires]. apply tl_new; [apply T|done|done|done|]. intros c' q. by apply (track_parent_live R F).
    + by rewrite lookup_fmap, EP.
    + done.
    + by left.
    + done.
    + apply T.
    + apply T.
  - done.
Qed.
Lemma outer_ok R F s h l : track P0 v vc R F s -> ring v (h :: l) -> clear v (h :: l) -> NoDup (concat (i_l <$> R) ++ h :: l) ->
  exists w g s', (g <~ new_poly 0 ; w <~ make_wire (List.map fst (h :: l)) g ; put_outer g w ;~ ret g) s = (Ok g, s') /\
    track P0 v vc (R ++ [It w g false (h :: l)]) F s' /\ g <> 0 /\ polys s !! g = None /\ (forall g', is_Some (polys s' !! g') <-> g' = g \/ is_Some (polys s !! g')) /\ outer_of s' !! g = Some w.
Proof.
  intros T RG CL ND. destruct (new_id (iw s)) as [w c] eqn:ID. destruct (src_new _ _ _ _ (t_iw _ _ _ _ _ _ T) ID) as [FW SW].
  assert (NW : wires s !! w = None) by (apply eq_None_not_Some; done).
  destruct (new_id (ig s)) as [g c'] eqn:IG. destruct (src_new _ _ _ _ (t_ig _ _ _ _ _ _ T) IG) as [FG SG].
  assert (NG : polys s !! g = None) by (apply eq_None_not_Some; done).
  assert (V := t_v _ _ _ _ _ _ T).
  set (s0 := set_polys (<[g := Po 0 ∅]> (polys s)) (set_ig c' s)).
  assert (MW : make_wire (List.map fst (h :: l)) g s0 = (Ok w, made s0 w c g h l)) by (apply make_wire_ok; [change (vtx s0) with (vtx s); rewrite V; done|change (vtx s0) with (vtx s); rewrite V; done|done]).
  assert (G0 : g <> 0). { intros ->. assert (X := t_out0 _ _ _ _ _ _ T). rewrite lookup_fmap, NG in X. done. }
  set (s1 := made s0 w c g h l) in *. exists w, g, (set_polys (<[g := Po w ∅]> (<[g := Po 0 ∅]> (polys s))) s1). split; [|split; [|split; [done|split; [done|split]]]].
  - unfold new_poly at 1. unfold bind at 1. rewrite IG. fold s0. rewrite (bind_ok _ _ s0 w s1 MW). unfold put_outer. unfold bind at 1.
    rewrite (bind_ok _ _ s1 (Po 0 ∅) s1); [|apply need_ok; unfold s1, made, s0; cbn; by rewrite lookup_insert]. done.
  - rewrite insert_insert.
    assert (X := track_more R F s w c g h l false (<[w := Wi (Some w) ∅ (Some g) (Some h)]> (wires s)) (<[g := Po w ∅]> (polys s)) w T RG ND ID). cbv zeta in X. specialize (X) .
    match type of X with ?A -> _ => assert (X1 : A) by (by rewrite fmap_insert) end. specialize (X X1).
    match type of X with ?A -> _ => assert (X2 : A) by (by rewrite fmap_insert) end. specialize (X X2).
    match type of X with ?A -> _ => assert (X3 : A) by (by rewrite fmap_insert) end. specialize (X X3).
    match type of X with ?A -> _ => assert (X4 : A) by (apply tl_new; [apply T|done|done|done|]; intros c0 q; by apply (track_parent_live R F)) end. specialize (X X4).
    match type of X with ?A -> _ => assert (X5 : A) by (by rewrite fmap_insert, lookup_insert) end. specialize (X X5).
    match type of X with ?A -> _ => assert (X6 : A) by (split; [done|intros X6; by destruct X6]) end. specialize (X X6).
    match type of X with ?A -> _ => assert (X7 : A) end.
    { intros g' o' E. rewrite fmap_insert in E. destruct (decide (g' = g)) as [-> | D]; [|left; by rewrite lookup_insert_ne in E]. rewrite lookup_insert in E. injection E as <-. by right. }
    specialize (X X7).
    match type of X with ?A -> _ => assert (X8 : A) end.
    { intros g' o' E. rewrite fmap_insert, lookup_insert_ne; [done|]. intros ->. rewrite lookup_fmap, NG in E. done. }
    specialize (X X8 c').
    match type of X with ?A -> _ => assert (X9 : A) end.
    { eapply src_ext; [|exact SG]. intros i. cbv beta. destruct (decide (i = g)) as [-> | D]; [rewrite lookup_insert; split; [eauto|by left]|]. rewrite lookup_insert_ne by done. split; [by intros [?|?]|by right]. }
    specialize (X X9).
    match type of X with ?A -> _ => assert (X10 : A) end.
    { intros g' y p E. destruct (decide (g' = g)) as [-> | D].
      - rewrite lookup_insert in E. injection E as <-. cbn. split; [by intros ?%elem_of_empty|]. intros I. destruct (t_pt _ _ _ _ _ _ T _ _ I) as [L _]. by apply FG in L.
      - rewrite lookup_insert_ne in E by done. by apply (t_free _ _ _ _ _ _ T). }
    specialize (X X10). exact X.
  - intros g'. unfold s1, made, s0. cbn. rewrite insert_insert. destruct (decide (g' = g)) as [-> | D]; [rewrite lookup_insert; split; [by left|eauto]|].
    rewrite lookup_insert_ne by done. split; [by right|by intros [?|?]].
  - unfold s1, made, s0. cbn. by rewrite fmap_insert, lookup_insert.
Qed.
Lemma free_ok_step R F s p g x : track P0 v vc R F s -> is_Some (polys s !! g) -> P0 !! p = Some x -> p_poly x = None -> p ∉ F.*1 ->
  exists s', set_polygon p g s = (Ok tt, s') /\ track P0 v vc R (F ++ [(p, g)]) s' /\ outer_of s' = outer_of s.
Proof.
  intros T [y Y] X XP N. assert (E := t_pts _ _ _ _ _ _ T p N). rewrite X in E.
  exists (set_points (<[p := Pt (xy x) (Some g) None]> (points s)) (set_polys (<[g := Po (outer y) (free y ∪ {[p]})]> (polys s)) s)). split; [|split].
  - unfold set_polygon. rewrite (bind_ok _ _ s x s) by (by apply need_ok). rewrite XP. unfold bind at 1, ret at 1. unfold bind at 1. rewrite (bind_ok _ _ s y s) by (by apply need_ok). done.
  - assert (GE : forall h, (outer <$> <[g := Po (outer y) (free y ∪ {[p]})]> (polys s)) !! h = outer_of s !! h).
    { intros h. rewrite fmap_insert. destruct (decide (h = g)) as [-> | D]; [by rewrite lookup_insert, lookup_fmap, Y|by rewrite lookup_insert_ne]. }
    constructor; cbn [vtx nxt wir wires polys points iw ig set_polys set_points]; try apply T.
    + intros i I. rewrite GE. by apply (t_par _ _ _ _ _ _ T).
    + intros g' o. rewrite GE. apply T.
    + rewrite GE. apply T.
    + eapply src_ext; [|apply (t_ig _ _ _ _ _ _ T)]. intros i. cbv beta. rewrite <- !(fmap_live outer), GE. done.
    + intros g' y' q E'. rewrite elem_of_app, elem_of_list_singleton. destruct (decide (g' = g)) as [-> | D].
      * rewrite lookup_insert in E'. injection E' as <-. cbn. rewrite elem_of_union, elem_of_singleton, (t_free _ _ _ _ _ _ T g y q Y). split; intros [H|H]; [by left|right; by subst|by left|right; congruence].
      * rewrite lookup_insert_ne in E' by done. rewrite (t_free _ _ _ _ _ _ T g' y' q E'). split; [by left|]. intros [H|H]; [done|congruence].
    + intros q g' I. rewrite <- (fmap_live outer), GE, fmap_live. apply elem_of_app in I as [I|I%elem_of_list_singleton].
      * destruct (t_pt _ _ _ _ _ _ T q g' I) as [L (x' & X1 & X2)]. split; [done|]. exists x'. split; [done|]. rewrite lookup_insert_ne; [done|]. intros ->. apply N. apply elem_of_list_fmap. by exists (q, g').
      * injection I as -> ->. split; [eauto|]. exists x. split; [done|]. by rewrite lookup_insert.
    + intros q Q. rewrite fmap_app, not_elem_of_app in Q. destruct Q as [Q1 Q2]. rewrite lookup_insert_ne; [by apply (t_pts _ _ _ _ _ _ T)|]. intros ->. apply Q2. left.
    + rewrite fmap_app. apply NoDup_app. split; [apply T|]. split; [|apply NoDup_singleton]. intros q Q ->%elem_of_list_singleton. done.
  - cbn. apply map_eq. intros h. rewrite fmap_insert. destruct (decide (h = g)) as [-> | D]; [by rewrite lookup_insert, lookup_fmap, Y|by rewrite lookup_insert_ne].
Qed.

Lemma holes_ok hs R F s g o : track P0 v vc R F s -> (forall r, r ∈ hs -> ring v r /\ clear v r) -> NoDup (concat (i_l <$> R) ++ concat hs) -> outer_of s !! g = Some o ->
  exists R' s', each (make_hole g) (List.map (List.map fst) hs) s = (Ok tt, s') /\ track P0 v vc (R ++ R') F s' /\ i_l <$> R' = hs /\ (forall i, i ∈ R' -> i_g i = g /\ i_hole i = true) /\ polys s' = polys s.
Proof.
  revert R s. induction hs as [|r hs IH]; intros R s T RG ND O.
  - exists [], s. split; [done|]. split; [by rewrite app_nil_r|]. split; [done|]. split; [|done]. by intros i ?%elem_of_nil.
  - destruct (RG r) as [R1 R2]; [left|]. destruct r as [|h l]; [done|]. cbn [concat] in ND.
    destruct (hole_ok R F s g h l o T R1 R2) as (w & s1 & E & T1 & G1); [|done|].
    { rewrite app_assoc in ND. by apply NoDup_app in ND as (ND & _ & _). }
    destruct (IH (R ++ [It w g true (h :: l)]) s1 T1) as (R' & s' & E' & T' & L & A & G2).
    + intros r I. apply RG. by right.
    + rewrite fmap_app, concat_app. cbn [fmap list_fmap concat i_l]. rewrite app_nil_r, <- app_assoc. done.
    + by rewrite G1.
    + exists (It w g true (h :: l) :: R'), s'. split; [change (List.map (List.map fst) ((h :: l) :: hs)) with (List.map fst (h :: l) :: List.map (List.map fst) hs); cbn [each]; by rewrite (bind_ok _ _ s tt s1 E)|].
      split; [by rewrite <- app_assoc in T'|]. split; [cbn; by rewrite <- L|]. split; [|by rewrite G2, G1].
      intros i [-> | I]%elem_of_cons; [done|by apply A].
Qed.
Lemma frees_ok fs R F s g : track P0 v vc R F s -> is_Some (polys s !! g) -> (forall p, p ∈ fs -> exists x, P0 !! p = Some x /\ p_poly x = None) -> NoDup (F.*1 ++ fs) ->
  exists s', each (fun p => set_polygon p g) fs s = (Ok tt, s') /\ track P0 v vc R (F ++ ((fun p => (p, g)) <$> fs)) s' /\ outer_of s' = outer_of s.
Proof.
  revert F s. induction fs as [|p fs IH]; intros F s T L X ND.
  - exists s. split; [done|]. split; [by rewrite app_nil_r|done].
  - destruct (X p) as (x & X1 & X2); [left|]. apply NoDup_app in ND as ND'. destruct ND' as (_ & N & _).
    destruct (free_ok_step R F s p g x T L X1 X2) as (s1 & E & T1 & O1); [intros I; apply (N p I); left|].
    destruct (IH (F ++ [(p, g)]) s1 T1) as (s' & E' & T' & O').
    + apply (fmap_live outer). rewrite O1. by apply fmap_live.
    + intros q I. apply X. by right.
    + rewrite fmap_app. cbn. rewrite <- app_assoc. done.
    + exists s'. split; [cbn [each]; by rewrite (bind_ok _ _ s tt s1 E)|]. split; [|congruence]. rewrite <- app_assoc in T'. done.
Qed.
(** What one entry becomes. *)
Definition entered (R' : list item) (F' : list (nat * nat)) (e : entry) (g : nat) : Prop :=
  i_l <$> R' = rings_of e /\ F' = (fun p => (p, g)) <$> snd e /\ (forall i, i ∈ R' -> i_g i = g) /\ (forall l, l ∈ snd (fst e) -> exists w, It w g true l ∈ R') /\
  match fst (fst e) with [] => g = 0 | l => g <> 0 /\ exists w, It w g false l ∈ R' end.
Lemma poly_ok e R F s : track P0 v vc R F s -> (forall r, r ∈ rings_of e -> ring v r /\ clear v r) -> NoDup (concat (i_l <$> R) ++ concat (rings_of e)) ->
  (forall p, p ∈ snd e -> exists x, P0 !! p = Some x /\ p_poly x = None) -> NoDup (F.*1 ++ snd e) ->
  exists g R' F' s', make_polygon (List.map fst (fst (fst e))) (List.map (List.map fst) (snd (fst e))) (snd e) s = (Ok g, s') /\ track P0 v vc (R ++ R') (F ++ F') s' /\ entered R' F' e g /\
    (g <> 0 -> polys s !! g = None) /\ (forall g', is_Some (polys s' !! g') <-> g' = g \/ is_Some (polys s !! g')).
Proof.
  destruct e as [[o hs] fs]. cbn [fst snd]. intros T RG ND FP NF.
  assert (A : exists g R1 s1, match List.map fst o with [] => ret 0 | _ => g <~ new_poly 0 ; w <~ make_wire (List.map fst o) g ; put_outer g w ;~ ret g end s = (Ok g, s1) /\
    track P0 v vc (R ++ R1) F s1 /\ i_l <$> R1 = (match o with [] => [] | l => [l] end) /\ (forall i, i ∈ R1 -> i_g i = g) /\
    match o with [] => g = 0 | l => g <> 0 /\ exists w, It w g false l ∈ R1 end /\ (g <> 0 -> polys s !! g = None) /\ (forall g', is_Some (polys s1 !! g') <-> g' = g \/ is_Some (polys s !! g')) /\ is_Some (polys s1 !! g)).
  { destruct o as [|h l].
    - exists 0, [], s. split; [done|]. split; [by rewrite app_nil_r|]. split; [done|]. split; [by intros i ?%elem_of_nil|]. split; [done|]. split; [done|].
      assert (L : is_Some (polys s !! 0)) by (apply (fmap_live outer); rewrite (t_out0 _ _ _ _ _ _ T); eauto). split; [|done]. intros g'. split; [by right|]. by intros [-> | ?].
    - destruct (RG (h :: l)) as [R1 R2]; [left|]. unfold rings_of in ND. cbn [fst snd] in ND. change ([h :: l] ++ hs) with ((h :: l) :: hs) in ND. rewrite concat_cons in ND.
      destruct (outer_ok R F s h l T R1 R2) as (w & g & s1 & E & T1 & G0 & GN & GD & GO).
      { rewrite app_assoc in ND. by apply NoDup_app in ND as (ND & _ & _). }
      exists g, [It w g false (h :: l)], s1. split; [done|]. split; [done|]. split; [done|]. split; [by intros i ->%elem_of_list_singleton|].
      split; [split; [done|]; exists w; left|]. split; [done|]. split; [done|]. apply GD. by left. }
  destruct A as (g & R1 & s1 & E1 & T1 & L1 & I1 & O1 & N1 & D1 & [p P]).
  destruct (holes_ok hs (R ++ R1) F s1 g (outer p) T1) as (R2 & s2 & E2 & T2 & L2 & I2 & G2).
  { intros r I. apply RG. unfold rings_of. cbn. apply elem_of_app. by right. }
  { unfold rings_of in ND. cbn [fst snd] in ND. rewrite fmap_app, L1, concat_app, <- app_assoc. rewrite concat_app in ND. by destruct o. }
  { by rewrite lookup_fmap, P. }
  destruct (frees_ok fs _ F s2 g T2) as (s3 & E3 & T3 & O3); [rewrite G2; eauto|done|done|].
  exists g, (R1 ++ R2), ((fun p => (p, g)) <$> fs), s3. split; [|split; [|split; [|split]]].
  - unfold make_polygon. rewrite (bind_ok _ _ s g s1 E1). rewrite (bind_ok _ _ s1 tt s2 E2). by rewrite (bind_ok _ _ s2 tt s3 E3).
  - by rewrite app_assoc.
  - unfold entered. cbn [fst snd]. split; [rewrite fmap_app, L1, L2; by destruct o|]. split; [done|]. split; [intros i [I|I]%elem_of_app; [by apply I1|by apply I2]|]. split.
    + intros l I. rewrite <- L2 in I. apply elem_of_list_fmap in I as (i & -> & I). destruct (I2 i I) as [X1 X2]. exists (i_w i). apply elem_of_app. right. destruct i as [w' g' b' l']. cbn in *. by subst.
    + destruct o as [|h l]; [done|]. destruct O1 as (O1 & w & W). split; [done|]. exists w. apply elem_of_app. by left.
  - done.
  - intros g'. rewrite <- D1. rewrite <- (fmap_live outer), O3, fmap_live, G2. done.
Qed.
Lemma polys_ok l R F s : track P0 v vc R F s -> (forall r, r ∈ List.flat_map rings_of l -> ring v r /\ clear v r) -> NoDup (concat (i_l <$> R) ++ concat (List.flat_map rings_of l)) ->
  (forall p, p ∈ List.flat_map snd l -> exists x, P0 !! p = Some x /\ p_poly x = None) -> NoDup (F.*1 ++ List.flat_map snd l) ->
  exists gs Q s', make_polygons (List.map ids_of l) s = (Ok gs, s') /\ track P0 v vc (R ++ concat (fst <$> Q)) (F ++ concat (snd <$> Q)) s' /\
    length gs = length l /\ Forall2 (fun q eg => entered (fst q) (snd q) (fst eg) (snd eg)) Q (zip l gs) /\
    (forall g, g ∈ gs -> g <> 0 -> polys s !! g = None) /\ (forall g, is_Some (polys s' !! g) <-> g ∈ gs \/ is_Some (polys s !! g)) /\
    (forall i j g, gs !! i = Some g -> gs !! j = Some g -> g <> 0 -> i = j).
Proof.
  revert R F s. induction l as [|e l IH]; intros R F s T RG ND FP NF.
  - exists [], [], s. split; [done|]. split; [by rewrite !app_nil_r|]. split; [done|]. split; [constructor|]. split; [by intros g ?%elem_of_nil|]. split; [|by intros i j g ?]. intros g. split; [by right|]. intros [X|X]; [by apply elem_of_nil in X|done].
  - cbn [List.flat_map] in RG, ND, FP, NF. rewrite concat_app, app_assoc in ND. rewrite app_assoc in NF.
    destruct (poly_ok e R F s T) as (g & R1 & F1 & s1 & E1 & T1 & EN & GN & GD).
    { intros r I. apply RG. apply elem_of_app. by left. }
    { by apply NoDup_app in ND as (ND & _ & _). }
    { intros p I. apply FP. apply elem_of_app. by left. }
    { by apply NoDup_app in NF as (NF & _ & _). }
    assert (EF : F1.*1 = snd e). { destruct EN as (_ & -> & _). rewrite <- list_fmap_compose. apply list_fmap_id. }
    destruct (IH (R ++ R1) (F ++ F1) s1 T1) as (gs & Q & s' & E2 & T2 & LL & A2 & N2 & D2 & U2).
    { intros r I. apply RG. apply elem_of_app. by right. }
    { rewrite fmap_app, concat_app. destruct EN as (-> & _). done. }
    { intros p I. apply FP. apply elem_of_app. by right. }
    { rewrite fmap_app, EF. done. }
    exists (g :: gs), ((R1, F1) :: Q), s'. split; [|split; [|split; [|split; [|split; [|split]]]]].
    + cbn [List.map make_polygons]. destruct e as [[o hs] fs]. unfold ids_of at 1. cbn [fst snd] in *. rewrite (bind_ok _ _ s g s1 E1). by rewrite (bind_ok _ _ s1 gs s' E2).
    + cbn. by rewrite !app_assoc.
    + cbn. by rewrite LL.
    + cbn. constructor; done.
    + intros x [-> | X]%elem_of_cons D; [by apply GN|]. assert (Y := N2 x X D). destruct (polys s !! x) eqn:E; [|done]. exfalso. assert (is_Some (polys s1 !! x)) as [? ?] by (apply GD; right; eauto). congruence.
    + intros x. rewrite D2, GD, elem_of_cons. tauto.
    + assert (H0 : forall j, gs !! j = Some g -> g <> 0 -> False). { intros j J D. assert (Y := N2 g (elem_of_list_lookup_2 _ _ _ J) D). assert (is_Some (polys s1 !! g)) as [? ?] by (apply GD; by left). congruence. }
      intros [|i] [|j] x; cbn; intros I J D; [done| | |f_equal; by apply (U2 i j x)].
      * exfalso. injection I as ->. by apply (H0 j).
      * exfalso. injection J as ->. by apply (H0 i).
Qed.
End Steps.
