(** Parents of the wires inside of holes. *)
From stdpp Require Import gmap list relations.
From Coq Require Import Lia.
From Verif Require Import Decomp_Model Decomp_Spec Decomp_Perm Decomp_Eff Decomp_Tree Build_Model Build_Spec Build_Wire Build_Poly.
Local Open Scope nat_scope.

Global Instance own_dec P w : Decision (own P w).
Proof. unfold own. apply _. Defined.
Section Spread.
Context (m : gmap he nat).
Lemma inside_own P q w : inside m P q w -> own P w.
Proof. by destruct 1. Qed.
Lemma inside_mono P P' (q q' : nat -> Prop) w : (forall x, own P x -> own P' x) -> (forall x, q x -> q' x) -> inside m P q w -> inside m P' q' w.
Proof. intros A B. induction 1 as [w X Y|w x _ IH X Y]; [apply inside_first; auto|apply (inside_next _ _ _ w); auto]. Qed.
(** What one turn does. *)
Lemma inside_turn P w r n hole x : own P w -> hole <> w -> (forall y, y ∈ n <-> touch m w y) ->
  inside m P (.∈ w :: r) x <-> x = w \/ inside m (<[w := Some hole]> P) (.∈ r ++ n) x.
Proof.
  intros O D N. assert (K : forall y, y <> w -> own P y -> own (<[w := Some hole]> P) y) by (intros y Y1 Y2; unfold own; by rewrite lookup_insert_ne).
  assert (K' : forall y, own (<[w := Some hole]> P) y -> own P y). { intros y. unfold own. destruct (decide (y = w)) as [-> | Y]; [rewrite lookup_insert; congruence|by rewrite lookup_insert_ne]. }
  split.
  - induction 1 as [y X Y|y z H IH X Y].
    + destruct (decide (y = w)) as [-> | Dy]; [by left|]. apply elem_of_cons in X as [?|X]; [done|]. right. apply inside_first; [apply elem_of_app; by left|auto].
    + destruct (decide (z = w)) as [-> | Dz]; [by left|]. right. destruct IH as [-> | IH].
      * apply inside_first; [apply elem_of_app; right; by apply N|auto].
      * apply (inside_next _ _ _ y); auto.
  - assert (W : inside m P (.∈ w :: r) w) by (apply inside_first; [left|done]). intros [-> | H]; [done|]. induction H as [y X Y|y z H IH X Y].
    + apply elem_of_app in X as [X|X]; [apply inside_first; [by right|auto]|]. apply (inside_next _ _ _ w); [done|by apply N|auto].
    + apply (inside_next _ _ _ y); auto.
Qed.
Lemma inside_skip P w r x : ~ own P w -> inside m P (.∈ w :: r) x <-> inside m P (.∈ r) x.
Proof.
  intros O. split; [|apply inside_mono; [done|by right]]. induction 1 as [y X Y|y z H IH X Y].
  - apply elem_of_cons in X as [-> | X]; [done|]. by apply inside_first.
  - by apply (inside_next _ _ _ y).
Qed.
(** Parents [P] became [P']: wires inside of holes of the list have one of those as parent, others are left. *)
Definition spreads (H : list nat) (P P' : gmap nat (option nat)) : Prop := forall w,
  (exists hole, hole ∈ H /\ inside m P (touch m hole) w /\ P' !! w = Some (Some hole)) \/
  ((forall hole, hole ∈ H -> ~ inside m P (touch m hole) w) /\ P' !! w = P !! w).
Lemma spreads_nil P : spreads [] P P.
Proof. intros w. right. split; [|done]. by intros ? ?%elem_of_nil. Qed.
Lemma spreads_own H P P' w : (forall hole, hole ∈ H -> ~ own P hole) -> spreads H P P' -> own P' w -> own P w.
Proof.
  intros N S O. destruct (S w) as [(hole & I & X & E)|[_ E]]; unfold own in *; [|congruence]. exfalso. assert (hole = w) as -> by congruence. apply (N w I). by apply inside_own in X.
Qed.
Lemma spreads_app H1 H2 P P1 P2 : (forall hole, hole ∈ H1 -> ~ own P hole) -> spreads H1 P P1 -> spreads H2 P1 P2 -> spreads (H1 ++ H2) P P2.
Proof.
  intros N S1 S2 w. assert (M := fun w => spreads_own H1 P P1 w N S1).
  destruct (S2 w) as [(hole & I & X & E)|[X2 E2]].
  - left. exists hole. split; [apply elem_of_app; by right|]. split; [|done]. by apply (inside_mono P1 P (touch m hole) (touch m hole)).
  - destruct (S1 w) as [(hole & I & X & E)|[X1 E1]].
    + left. exists hole. split; [apply elem_of_app; by left|]. split; [done|congruence].
    + right. split; [|congruence]. intros hole [I|I]%elem_of_app; [by apply X1|]. intros X.
      assert (K : forall z, inside m P (touch m hole) z -> inside m P1 (touch m hole) z \/ exists h1, h1 ∈ H1 /\ inside m P (touch m h1) z).
      { induction 1 as [y Y1 Y2|y z H IH Y1 Y2].
        - destruct (S1 y) as [(h1 & I1 & Z & _)|[_ Z]]; [right; eauto|]. left. apply inside_first; [done|]. unfold own in *. congruence.
        - destruct (S1 z) as [(h1 & I1 & Z & _)|[Z1 Z]]; [right; eauto|]. destruct IH as [IH|(h1 & I1 & IH)].
          + left. apply (inside_next _ _ _ y); [done|done|]. unfold own in *. congruence.
          + exfalso. apply (Z1 h1 I1). by apply (inside_next _ _ _ y). }
      destruct (K w X) as [Y|(h1 & I1 & Y)]; [by apply (X2 hole)|by apply (X1 h1)].
Qed.

(** * The loops *)
Lemma goes_size (f : gmap he he) h l t : goes f h l t -> NoDup (h :: l) -> length (h :: l) <= size f.
Proof.
  intros G N. assert (X : size (list_to_set (h :: l) : gset he) <= size (dom f)).
  { apply subseteq_size. intros x. rewrite elem_of_list_to_set. intros E. apply elem_of_dom. by apply (goes_in _ _ _ _ _ G). }
  rewrite size_list_to_set in X by done. by rewrite size_dom in X.
Qed.

Context (f : gmap he he) (sg : gmap nat (option he)).
Context (LI : forall w, w <> 0 -> is_Some (sg !! w) -> exists h l, sg !! w = Some (Some h) /\ goes f h l h /\ NoDup (h :: l) /\ forall k, k ∈ h :: l <-> m !! k = Some w).
Context (LB : forall h w, m !! h = Some w -> w <> 0 /\ is_Some (sg !! w) /\ is_Some (m !! flip h)).
(** The state of the loops. *)
Record loops (s : st) : Prop := Loops {
  l_nxt : nxt s = f; l_wir : wir s = m; l_sg : sg_of s = sg; l_fam : fam (wires s);
  l_par : forall w, w <> 0 -> is_Some (wires s !! w) -> exists q, par_of s !! w = Some (Some q) }.
Definition owned (P : gmap nat (option nat)) : gset nat := filter (own P) (dom P).
Lemma collect_ok s l : (forall h, h ∈ l -> is_Some (wir s !! h) -> is_Some (wir s !! flip h)) -> (forall h, h ∈ l -> is_Some (wir s !! h)) ->
  exists n, collect (fun h => get_label (flip h)) l s = (Ok n, s) /\ length n = length l /\ forall y, y ∈ n <-> exists h, h ∈ l /\ wir s !! flip h = Some y.
Proof.
  induction l as [|h l IH]; intros A B.
  - exists []. split; [done|]. split; [done|]. intros y. split; [by intros ?%elem_of_nil|]. by intros (h & ?%elem_of_nil & _).
  - destruct (A h) as [x X]; [left|apply B; left|]. destruct IH as (n & E & L & N); [intros k K; apply A; by right|intros k K; apply B; by right|].
    exists (x :: n). split; [|split; [by cbn; rewrite L|]].
    + cbn [collect]. rewrite (bind_ok _ _ s x s) by (by apply need_ok). by rewrite (bind_ok _ _ s n s E).
    + intros y. rewrite elem_of_cons, N. split.
      * intros [-> | (k & K & Y)]; [exists h; split; [left|done]|]. exists k. split; [by right|done].
      * intros (k & [-> | K]%elem_of_cons & Y); [left; congruence|right; eauto].
Qed.
Lemma neighbors_ok s w : loops s -> w <> 0 -> is_Some (wires s !! w) -> exists n, neighbors w s = (Ok n, s) /\ length n <= size f /\ forall y, y ∈ n <-> touch m w y.
Proof.
  intros [A B C D E] W L. destruct (E w W L) as (q & Q). destruct (LI w W) as (h & l & X & G & ND & K). { rewrite <- C. by apply fmap_live. }
  destruct L as [x L]. rewrite <- C, lookup_fmap, L in X. injection X as X. rewrite lookup_fmap, L in Q. injection Q as Q. subst f m.
  assert (E1 := goes_segments s w x h l q L Q X G ND).
  destruct (collect_ok s (h :: l)) as (n & E2 & LN & N).
  { intros k I _. apply K in I. by apply LB in I as (_ & _ & I). }
  { intros k I. apply K in I. eauto. }
  exists n. split; [|split].
  - unfold neighbors. by rewrite (bind_ok _ _ s _ s E1).
  - rewrite LN. by apply (goes_size _ _ _ h).
  - intros y. rewrite N. unfold touch. split; intros (k & K1 & K2); exists k; (split; [by apply K|done]).
Qed.
Lemma owned_drop P w hole : own P w -> hole <> w -> size (owned P) = S (size (owned (<[w := Some hole]> P))).
Proof.
  intros O D. assert (E : owned P = {[w]} ∪ owned (<[w := Some hole]> P)).
  { apply set_eq. intros x. unfold owned. rewrite elem_of_union, elem_of_singleton, !elem_of_filter, dom_insert, elem_of_union, elem_of_singleton. unfold own. destruct (decide (x = w)) as [-> | N].
    - split; [by left|]. intros _. split; [done|]. apply elem_of_dom. eauto.
    - rewrite lookup_insert_ne by done. tauto. }
  rewrite E, size_union; [by rewrite size_singleton|]. intros x Y1%elem_of_singleton Y2. subst x. unfold owned in Y2. apply elem_of_filter in Y2 as [Y2 _]. unfold own in Y2. rewrite lookup_insert in Y2. congruence.
Qed.
Lemma loops_set s w x hole : loops s -> wires s !! w = Some x -> own (par_of s) w -> is_Some (wires s !! hole) -> hole <> w ->
  exists W, set_parent w (Some hole) s = (Ok tt, set_wires W s) /\ parent <$> W = <[w := Some hole]> (par_of s) /\ w_poly <$> W = pol_of s /\ w_seg <$> W = sg_of s /\ loops (set_wires W s).
Proof.
  intros [A B C D E] X O [y Y] N. unfold own in O. rewrite lookup_fmap, X in O. injection O as O. destruct (set_parent_ok s w x hole y X O Y) as (W & E1 & P & G & S' & F). exists W. split; [done|]. split; [done|]. split; [done|]. split; [done|].
  constructor; cbn [nxt wir wires set_wires]; [done|done|by rewrite S'|by apply F|]. intros z Z L. rewrite P. destruct (decide (z = w)) as [-> | Dz]; [rewrite lookup_insert; eauto|]. rewrite lookup_insert_ne by done. apply E; [done|].
  apply (fmap_live w_seg). rewrite <- S'. by apply fmap_live.
Qed.
Lemma spread_out_ok k hole queue s : loops s -> is_Some (wires s !! hole) -> ~ own (par_of s) hole -> (forall w, w ∈ queue -> w <> 0 /\ is_Some (wires s !! w)) ->
  length queue + size (owned (par_of s)) * size f < k ->
  exists W, spread_out k hole queue s = (Ok tt, set_wires W s) /\ w_poly <$> W = pol_of s /\ loops (set_wires W s) /\
    forall w, (inside m (par_of s) (.∈ queue) w /\ (parent <$> W) !! w = Some (Some hole)) \/ (~ inside m (par_of s) (.∈ queue) w /\ (parent <$> W) !! w = par_of s !! w).
Proof.
  revert queue s. induction k as [|k IH]; intros queue s LO LH NO QU BU; [lia|]. destruct queue as [|w r].
  - exists (wires s). assert (ES : set_wires (wires s) s = s) by (by destruct s). rewrite ES. split; [done|]. split; [done|]. split; [done|]. intros w. right. split; [|done]. intros X. assert (Y : forall z, inside m (par_of s) (.∈ []) z -> False) by (induction 1 as [? X1%elem_of_nil|]; done). by apply (Y w).
  - destruct (QU w) as [W0 [x X]]; [left|]. cbn [spread_out]. rewrite (bind_ok _ _ s (parent x) s) by (apply need_ok; by rewrite X).
    destruct (decide (parent x = Some w)) as [P|P].
    + assert (O : own (par_of s) w) by (unfold own; by rewrite lookup_fmap, X; cbn; rewrite P). assert (HW : hole <> w) by (intros ->; done).
      destruct (loops_set s w x hole LO X O LH HW) as (W & E1 & WP & WG & WS & LO1). rewrite (bind_ok _ _ s tt _ E1).
      assert (DM : forall z, is_Some (W !! z) <-> is_Some (wires s !! z)) by (intros z; by rewrite <- (fmap_live w_seg W z), WS, fmap_live).
      destruct (neighbors_ok (set_wires W s) w LO1 W0) as (n & E2 & LN & NN); [cbn [wires set_wires]; apply DM; eauto|]. rewrite (bind_ok _ _ _ n _ E2).
      destruct (IH (r ++ n) (set_wires W s) LO1) as (W' & E3 & G3 & LO3 & F3); cbn [wires set_wires].
      * by apply DM.
      * rewrite WP. unfold own. rewrite lookup_insert_ne by done. done.
      * intros z [I|I]%elem_of_app; [rewrite DM; apply QU; by right|]. apply NN in I as (h & _ & I). apply LB in I as (I1 & I2 & _). split; [done|]. apply DM. apply (fmap_live w_seg). by rewrite (l_sg _ LO).
      * rewrite app_length, WP. rewrite (owned_drop _ _ _ O HW) in BU. cbn in BU. lia.
      * exists W'. split; [done|]. cbn [wires set_wires] in *. split; [congruence|]. split; [done|]. intros z. rewrite WP in F3. rewrite (inside_turn _ w r n hole z O HW NN). destruct (F3 z) as [[Y1 Y2]|[Y1 Y2]].
        -- left. split; [by right|done].
        -- destruct (decide (z = w)) as [-> | Dz]; [left; split; [by left|]; by rewrite Y2, lookup_insert|]. right. split; [tauto|]. by rewrite Y2, lookup_insert_ne.
    + assert (O : ~ own (par_of s) w) by (unfold own; rewrite lookup_fmap, X; cbn; congruence).
      destruct (IH r s LO LH NO) as (W & E & G & LO3 & F3); [intros z I; apply QU; by right|cbn in BU; lia|]. exists W. split; [done|]. split; [done|]. split; [done|]. intros z. rewrite (inside_skip _ w r z O). apply F3.
Qed.
Lemma inside_ext P (q q' : nat -> Prop) w : (forall x, q x <-> q' x) -> inside m P q w <-> inside m P q' w.
Proof. intros E. split; apply inside_mono; try done; intros x; apply E. Qed.
Lemma hole_step k hole s : loops s -> hole <> 0 -> is_Some (wires s !! hole) -> ~ own (par_of s) hole -> size f * S (size (wires s)) < k ->
  exists W, (n <~ neighbors hole ; spread_out k hole n) s = (Ok tt, set_wires W s) /\ w_poly <$> W = pol_of s /\ loops (set_wires W s) /\ spreads [hole] (par_of s) (parent <$> W).
Proof.
  intros LO H0 LH NO BU. destruct (neighbors_ok s hole LO H0 LH) as (n & E & LN & NN).
  assert (OW : size (owned (par_of s)) <= size (wires s)). { unfold owned. rewrite <- (map_size_fmap parent (wires s)), <- size_dom. apply subseteq_size. intros z Z. by apply elem_of_filter in Z as [_ Z]. }
  destruct (spread_out_ok k hole n s LO LH NO) as (W & E1 & G & LO1 & F).
  - intros w I. apply NN in I as (h & _ & I). apply LB in I as (I1 & I2 & _). split; [done|]. apply (fmap_live w_seg). by rewrite (l_sg _ LO).
  - assert (size (owned (par_of s)) * size f <= size (wires s) * size f) by (by apply Nat.mul_le_mono_r). lia.
  - exists W. split; [by rewrite (bind_ok _ _ s n s E)|]. split; [done|]. split; [done|]. intros w. assert (IE := inside_ext (par_of s) (.∈ n) (touch m hole) w NN). destruct (F w) as [[X Y]|[X Y]]; rewrite IE in X.
    + left. exists hole. split; [left|done].
    + right. split; [|done]. by intros h ->%elem_of_list_singleton.
Qed.
Lemma holes_step k H s : loops s -> (forall hole, hole ∈ H -> hole <> 0 /\ is_Some (wires s !! hole) /\ ~ own (par_of s) hole) -> size f * S (size (wires s)) < k ->
  exists W, each (fun hole => n <~ neighbors hole ; spread_out k hole n) H s = (Ok tt, set_wires W s) /\ w_poly <$> W = pol_of s /\ loops (set_wires W s) /\ spreads H (par_of s) (parent <$> W).
Proof.
  revert s. induction H as [|hole H IH]; intros s LO HH BU.
  - exists (wires s). assert (ES : set_wires (wires s) s = s) by (by destruct s). rewrite ES. split; [done|]. split; [done|]. split; [done|]. apply spreads_nil.
  - destruct (HH hole) as (H0 & LH & NO); [left|]. destruct (hole_step k hole s LO H0 LH NO BU) as (W & E & G & LO1 & S1).
    assert (DM : forall z, is_Some (W !! z) <-> is_Some (wires s !! z)) by (intros z; by rewrite <- (fmap_live w_poly W z), G, fmap_live).
    assert (N1 : forall h, h ∈ [hole] -> ~ own (par_of s) h) by (by intros h ->%elem_of_list_singleton).
    destruct (IH (set_wires W s) LO1) as (W' & E' & G' & LO' & S2); cbn [wires set_wires] in *.
    + intros h I. destruct (HH h) as (X0 & X1 & X2); [by right|]. split; [done|]. split; [by apply DM|]. intros X. apply X2. by apply (spreads_own _ _ _ _ N1 S1).
    + replace (size W) with (size (wires s)); [done|]. rewrite <- (map_size_fmap w_poly W), G. by rewrite map_size_fmap.
    + exists W'. cbn [each]. rewrite (bind_ok _ _ s tt _ E). split; [done|]. split; [congruence|]. split; [done|]. by apply (spreads_app [hole] H _ (parent <$> W)).
Qed.
(** Children of outer wires are not changed. *)
Lemma spreads_kids H W W' o x x' : fam W -> fam W' -> dom W = dom W' -> spreads H (parent <$> W) (parent <$> W') -> o ∉ H -> W !! o = Some x -> W' !! o = Some x' -> childs x' = childs x.
Proof.
  intros [[A1 A2] A3] [[B1 B2] B3] DM SP NH X X'. apply set_eq. intros c. split; intros I.
  - assert (C : chl W' o c) by (by exists x'). assert (N : c <> o) by (intros ->; by apply (B3 o)). assert (P := B1 _ _ C). destruct (SP c) as [(h & I1 & _ & E)|[_ E]]; [exfalso; congruence|].
    destruct (A2 o c) as (y & Y & Z); [congruence|eauto|done|by apply not_elem_of_empty|]. congruence.
  - assert (C : chl W o c) by (by exists x). assert (N : c <> o) by (intros ->; by apply (A3 o)). assert (P := A1 _ _ C). destruct (SP c) as [(h & _ & E & _)|[_ E]].
    + exfalso. apply inside_own in E. unfold own in E. congruence.
    + destruct (B2 o c) as (y & Y & Z); [congruence|eauto|done|by apply not_elem_of_empty|]. congruence.
Qed.
Definition kids (s : st) (g : nat) : list nat := match polys s !! g with Some p => match wires s !! outer p with Some x => elements (childs x) | None => [] end | None => [] end.
Lemma parents_loop k order s0 s : loops s -> polys s = polys s0 -> size f * S (size (wires s)) < k ->
  (forall g, g ∈ order -> exists p x, polys s0 !! g = Some p /\ wires s !! outer p = Some x) ->
  (forall g h, g ∈ order -> h ∈ kids s g -> h <> 0 /\ is_Some (wires s !! h) /\ ~ own (par_of s) h /\ forall g' p, g' ∈ order -> polys s !! g' = Some p -> outer p <> h) ->
  exists W, set_wire_parents k order s = (Ok tt, set_wires W s) /\ w_poly <$> W = pol_of s /\ loops (set_wires W s) /\ spreads (List.flat_map (kids s) order) (par_of s) (parent <$> W).
Proof.
  revert s. induction order as [|g order IH]; intros s LO PO BU PX HH.
  - exists (wires s). assert (ES : set_wires (wires s) s = s) by (by destruct s). rewrite ES. split; [done|]. split; [done|]. split; [done|]. apply spreads_nil.
  - destruct (PX g) as (p & x & P & X); [left|]. rewrite <- PO in P. assert (EK : kids s g = elements (childs x)) by (unfold kids; by rewrite P, X).
    destruct (holes_step k (kids s g) s LO) as (W & E & G & LO1 & S1); [intros h I; destruct (HH g h) as (Y1 & Y2 & Y3 & _); [left|done|done]|done|].
    assert (DM : dom W = dom (wires s)) by (rewrite <- (dom_fmap_L w_poly W), G; by rewrite dom_fmap_L).
    assert (N1 : forall h, h ∈ kids s g -> ~ own (par_of s) h) by (intros h I; apply (HH g h); [left|done]).
    assert (KS : forall g', g' ∈ order -> kids (set_wires W s) g' = kids s g').
    { intros g' I. destruct (PX g') as (p' & x' & P' & X'); [by right|]. rewrite <- PO in P'. unfold kids. cbn [polys wires set_wires]. rewrite P', X'.
      assert (is_Some (W !! outer p')) as [y Y] by (apply elem_of_dom; rewrite DM; apply elem_of_dom; eauto). rewrite Y. f_equal.
      apply (spreads_kids (kids s g) (wires s) W (outer p')); [apply LO|apply LO1|done|done| |done|done]. intros I'. destruct (HH g (outer p')) as (_ & _ & _ & Z); [left|done|]. apply (Z g' p'); [by right|done|done]. }
    destruct (IH (set_wires W s) LO1) as (W' & E' & G' & LO' & S2); cbn [wires polys set_wires] in *.
    + done.
    + replace (size W) with (size (wires s)); [done|]. by rewrite <- !size_dom, DM.
    + intros g' I. destruct (PX g') as (p' & x' & P' & X'); [by right|]. assert (is_Some (W !! outer p')) as [y Y] by (apply elem_of_dom; rewrite DM; apply elem_of_dom; eauto). eauto.
    + intros g' h I J. rewrite KS in J by done. destruct (HH g' h) as (Y1 & Y2 & Y3 & Y4); [by right|done|]. split; [done|]. split; [apply elem_of_dom; rewrite DM; by apply elem_of_dom|]. split.
      * intros O. apply Y3. by apply (spreads_own _ _ _ _ N1 S1).
      * intros g'' p'' I'' P''. apply (Y4 g''); [by right|done].
    + exists W'. split; [|split; [congruence|split; [done|]]].
      * unfold set_wire_parents in *. cbn [each]. rewrite (bind_ok _ _ s tt (set_wires W s)); [done|]. rewrite (bind_ok _ _ s p s) by (by apply need_ok). rewrite (bind_ok _ _ s x s) by (by apply need_ok). by rewrite <- EK.
      * cbn [List.flat_map]. replace (List.flat_map (kids s) order) with (List.flat_map (kids (set_wires W s)) order); [by apply (spreads_app _ _ _ (parent <$> W))|].
        clear - KS. induction order as [|g' order IH]; [done|]. cbn [List.flat_map]. rewrite KS by left. f_equal. apply IH. intros x X. apply KS. by right.
Qed.
End Spread.
