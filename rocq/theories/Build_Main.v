(** What is made from a listing is a half-edge structure. *)
From stdpp Require Import gmap list relations.
From Coq Require Import Lia.
From Verif Require Import Decomp_Model Decomp_Spec Decomp_Perm Decomp_Surgery Decomp_Eff Decomp_Tree Decomp_Inv Build_Model Build_Spec Build_Wire Build_Poly.
Local Open Scope nat_scope.

(** * Parts *)
Definition no_poly (P : gmap nat point) : Prop := forall p x, P !! p = Some x -> p_poly x = None.
Record parts_inv (s : st) : Prop := PI {
  pi_nxt : nxt s = ∅; pi_wir : wir s = ∅; pi_wires : wires s = wires init; pi_polys : polys s = polys init; pi_iw : iw s = Src [] 1; pi_ig : ig s = Src [] 1;
  pi_pts : no_poly (points s);
  pi_vec : forall g c, is_Some (vec s !! g) <-> is_Some (vtx s !! (g, c));
  pi_end : forall h a b, vtx s !! h = Some a -> vtx s !! flip h = Some b -> a <> b;
  pi_is : src_ok (is_ s) (fun i => is_Some (vec s !! i)) }.
Lemma join_plain p h s u s' : no_poly (points s) -> join_segment p h s = (Ok u, s') -> exists P, s' = set_points P s /\ no_poly P.
Proof.
  intros N H. unfold join_segment in H. rd H as x Ex. destruct (is_free x).
  - rewrite (N p x Ex) in H. bnd H as u1 s1 E. apply ret_inv in E as [_ ->]. unf H. apply upd_inv in H. subst s'. eexists. split; [done|].
    intros q y [[_ <-]|[_ Y]]%lookup_insert_Some; [done|by apply (N q)].
  - apply ret_inv in H as [_ ->]. exists (points s). split; [by destruct s|done].
Qed.
Lemma parts_ok s : parts s -> parts_inv s.
Proof.
  induction 1 as [|v s p s' _ [A B C D E F G I J K] H|a b s g s' _ [A B C D E F G I J K] H].
  - constructor; try done.
    + intros g c. cbn. rewrite !lookup_empty. by split; intros [? ?].
    + split; [constructor|]. split; [by intros i ?%elem_of_nil|]. intros i [x X]. cbn in X. by rewrite lookup_empty in X.
  - unfold append_point in H. destruct (new_id (ip s)) as [i c]. injection H as <- <-. constructor; try done. cbn. intros q y [[_ <-]|[_ Y]]%lookup_insert_Some; [done|by apply (G q)].
  - unfold make_segment in H. chk H as X. apply bool_decide_eq_true in X. rd H as x Ex. rd H as y Ey. bnd H as n s1 E1. destruct (new_id (is_ s)) as [n' c] eqn:En. injection E1 as <- <-.
    destruct (src_new _ _ _ _ K En) as [FN SN].
    bnd H as u1 s2 E2. apply join_plain in E2 as (P1 & -> & N1); [|done].
    bnd H as u2 s3 E3. apply join_plain in E3 as (P2 & -> & N2); [|done]. up H. apply ret_inv in H as [-> ->]. constructor; fld; try done;
      change (<[(n', true) := b]> (<[(n', false) := a]> (vtx s))) with (both (vtx s) n' a b).
    + intros k c0. destruct (decide (k = n')) as [-> | Dk].
      * rewrite lookup_insert. destruct c0; [rewrite both_t|rewrite both_f]; split; eauto.
      * rewrite lookup_insert_ne by done. rewrite both_ne by (by destruct c0). apply I.
    + intros h a' b' H1 H2. destruct (decide (fst h = n')) as [Eh|Dh].
      * destruct h as [k [|]]; cbn in Eh; subst k.
        -- change (flip (n', true)) with (n', false) in H2. rewrite both_t in H1. rewrite both_f in H2. congruence.
        -- change (flip (n', false)) with (n', true) in H2. rewrite both_f in H1. rewrite both_t in H2. congruence.
      * rewrite both_ne in H1 by done. rewrite both_ne in H2 by (by rewrite fst_flip). by apply (J h).
    + eapply src_ext; [|exact SN]. intros i. cbv beta. destruct (decide (i = n')) as [-> | Di]; [rewrite lookup_insert; split; [eauto|by left]|]. rewrite lookup_insert_ne by done. split; [by intros [?|?]|by right].
Qed.
Lemma parts_track s : parts_inv s -> track (points s) (vtx s) (vec s) [] [] s.
Proof.
  intros [A B C D E F G I J K]. constructor; try done; rewrite ?A, ?B, ?C, ?D, ?E, ?F.
  - constructor.
  - by intros i ?%elem_of_nil.
  - intros h [x X]. by rewrite lookup_empty in X.
  - intros h w. rewrite lookup_empty. split; [done|]. by intros (i & ?%elem_of_nil & _).
  - constructor.
  - by intros i ?%elem_of_nil.
  - by intros i ?%elem_of_nil.
  - by intros i ?%elem_of_nil.
  - intros w [x X]. left. cbn in X. by apply lookup_singleton_Some in X as [-> _].
  - by intros i ?%elem_of_nil.
  - cbn. rewrite !map_fmap_singleton, !lookup_singleton. done.
  - intros g o. cbn. rewrite map_fmap_singleton. intros [<- <-]%lookup_singleton_Some. by left.
  - cbn. by rewrite map_fmap_singleton, lookup_singleton.
  - split; [split|].
    + intros x c (w & X & Y). cbn in X. apply lookup_singleton_Some in X as [_ <-]. by apply elem_of_empty in Y.
    + intros x c X. cbn in X. rewrite map_fmap_singleton in X. by apply lookup_singleton_Some in X as [_ X].
    + intros x (w & X & Y). cbn in X. apply lookup_singleton_Some in X as [_ <-]. by apply elem_of_empty in Y.
  - split; [constructor|]. split; [by intros i ?%elem_of_nil|]. intros i [x X]. cbn in X. apply lookup_singleton_Some in X as [<- _]. cbn. lia.
  - split; [constructor|]. split; [by intros i ?%elem_of_nil|]. intros i [x X]. cbn in X. apply lookup_singleton_Some in X as [<- _]. cbn. lia.
  - intros g y p X. cbn in X. apply lookup_singleton_Some in X as [_ <-]. cbn. split; [by intros ?%elem_of_empty|by intros ?%elem_of_nil].
  - by intros p g ?%elem_of_nil.
  - constructor.
Qed.

(** * Rings *)
Lemma goes_next f h l t x k : goes f h l t -> x ∈ h :: l -> f !! x = Some k -> k ∈ t :: l.
Proof.
  revert h. induction l as [|a l IH]; intros h G X E; cbn in G.
  - apply elem_of_list_singleton in X as ->. rewrite G in E. injection E as ->. left.
  - destruct G as [G1 G2]. apply elem_of_cons in X as [-> | X].
    + rewrite G1 in E. injection E as ->. right. left.
    + assert (Y := IH a G2 X E). apply elem_of_cons in Y as [-> | Y]; [left|]. right. by right.
Qed.
Lemma goes_leads (v : gmap he nat) f h l t x k : goes f h l t -> leads v h l t -> x ∈ h :: l -> f !! x = Some k -> v !! flip k = v !! x.
Proof.
  revert h. induction l as [|a l IH]; intros h G L X E; cbn in G, L.
  - apply elem_of_list_singleton in X as ->. rewrite G in E. by injection E as ->.
  - destruct G as [G1 G2], L as [L1 L2]. apply elem_of_cons in X as [-> | X]; [rewrite G1 in E; by injection E as ->|]. by apply (IH a).
Qed.
Lemma goes_inj f h l t x y k : goes f h l t -> NoDup l -> t ∉ l -> x ∈ h :: l -> y ∈ h :: l -> f !! x = Some k -> f !! y = Some k -> x = y.
Proof.
  revert h. induction l as [|a l IH]; intros h G N T X Y E1 E2; cbn in G.
  - apply elem_of_list_singleton in X as ->. by apply elem_of_list_singleton in Y as ->.
  - destruct G as [G1 G2]. apply NoDup_cons in N as [N1 N2]. apply not_elem_of_cons in T as [T1 T2].
    assert (Z : forall z, z ∈ a :: l -> f !! z = Some a -> False). { intros z Z1 Z2. apply (goes_next _ _ _ _ _ _ G2 Z1) in Z2. apply elem_of_cons in Z2 as [Z2|Z2]; done. }
    apply elem_of_cons in X as [-> | X]; apply elem_of_cons in Y as [-> | Y].
    + done.
    + exfalso. apply (Z y Y). congruence.
    + exfalso. apply (Z x X). congruence.
    + by apply (IH a).
Qed.
Lemma goes_along s h l t : goes (nxt s) h l t -> forall x, x ∈ h :: l -> along s h x /\ along s x t.
Proof.
  revert h. induction l as [|a l IH]; intros h G x X; cbn in G.
  - apply elem_of_list_singleton in X as ->. split; [apply rtc_refl|by apply rtc_once].
  - destruct G as [G1 G2]. apply elem_of_cons in X as [-> | X].
    + split; [apply rtc_refl|]. apply (rtc_l _ _ a); [done|]. apply (IH a G2 a). left.
    + destruct (IH a G2 x X) as [A1 A2]. split; [|done]. by apply (rtc_l _ _ a).
Qed.

Section Rings.
Context (P0 : gmap nat point) (v : gmap he nat) (vc : gmap nat vect) (R : list item) (F : list (nat * nat)) (s : st) (T : track P0 v vc R F s).
Lemma item_side i h : i ∈ R -> h ∈ i_l i -> h ∈ concat (i_l <$> R).
Proof. intros I H. apply elem_of_list_In, in_concat. exists (i_l i). split; apply elem_of_list_In; [by apply elem_of_list_fmap_1|done]. Qed.
Lemma side_item h : h ∈ concat (i_l <$> R) -> exists i, i ∈ R /\ h ∈ i_l i.
Proof. intros H. apply elem_of_list_In, in_concat in H as (l & L & H). apply elem_of_list_In, elem_of_list_fmap in L as (i & -> & I). apply elem_of_list_In in H. eauto. Qed.
Lemma item_w i j : i ∈ R -> j ∈ R -> i_w i = i_w j -> i = j.
Proof.
  assert (N := t_ids _ _ _ _ _ _ T). clear T. induction R as [|k r IH]; intros I J E; [by apply elem_of_nil in I|]. cbn in N. apply NoDup_cons in N as [N1 N2].
  apply elem_of_cons in I as [-> | I]; apply elem_of_cons in J as [-> | J]; [done| | |by apply IH].
  - exfalso. apply N1. rewrite E. by apply elem_of_list_fmap_1.
  - exfalso. apply N1. rewrite <- E. by apply elem_of_list_fmap_1.
Qed.
Lemma item_same i j h : i ∈ R -> j ∈ R -> h ∈ i_l i -> h ∈ i_l j -> i = j.
Proof.
  intros I J A B. apply item_w; [done|done|]. assert (E1 : wir s !! h = Some (i_w i)) by (apply (t_wir _ _ _ _ _ _ T); eauto).
  assert (E2 : wir s !! h = Some (i_w j)) by (apply (t_wir _ _ _ _ _ _ T); eauto). congruence.
Qed.
Lemma item_nodup i : i ∈ R -> NoDup (i_l i).
Proof.
  assert (N := t_nd _ _ _ _ _ _ T). clear T. induction R as [|k r IH]; intros I; [by apply elem_of_nil in I|]. cbn in N. apply NoDup_app in N as (N1 & _ & N2).
  apply elem_of_cons in I as [-> | I]; [done|by apply IH].
Qed.
Lemma item_wire i : i ∈ R -> wire_of s (i_w i) (i_g i) (i_l i).
Proof.
  intros I. destruct (t_goes _ _ _ _ _ _ T i I) as (h & l & E & G). destruct (t_par _ _ _ _ _ _ T i I) as (o & _ & P & _). assert (X := t_sg _ _ _ _ _ _ T i I). rewrite E in X. change (head (h :: l)) with (Some h) in X.
  split; [|split; [|by apply (t_pol _ _ _ _ _ _ T)]].
  - rewrite lookup_fmap in P. rewrite lookup_fmap in X. destruct (wires s !! i_w i) as [x|] eqn:W; [|done]. cbn in P, X. injection P as P. injection X as X. rewrite E. apply (goes_segments s (i_w i) x h l o W P X G). rewrite <- E. by apply item_nodup.
  - intros k. rewrite (t_wir _ _ _ _ _ _ T). split; [eauto|]. intros (j & J & E' & H). by rewrite <- (item_w j i J I E').
Qed.
Context (RG : forall i, i ∈ R -> ring v (i_l i)) (CV : forall h, is_Some (v !! h) -> h ∈ concat (i_l <$> R)) (VC : forall g c, is_Some (vc !! g) <-> is_Some (v !! (g, c))) (EN : forall h a b, v !! h = Some a -> v !! flip h = Some b -> a <> b).
Lemma nxt_dom h : is_Some (nxt s !! h) <-> h ∈ concat (i_l <$> R).
Proof. split; [apply T|]. intros H. apply side_item in H as (i & I & H). destruct (t_goes _ _ _ _ _ _ T i I) as (a & l & E & G). rewrite E in H. by apply (goes_in _ _ _ _ _ G). Qed.
Lemma v_dom h : is_Some (v !! h) <-> h ∈ concat (i_l <$> R).
Proof. split; [apply CV|]. intros H. apply side_item in H as (i & I & H). assert (X := RG i I). destruct (i_l i) as [|a l]; [done|]. destruct X as (_ & _ & _ & X). destruct (X h H) as (p & _ & P & _). eauto. Qed.
Lemma nxt_same i h k : i ∈ R -> h ∈ i_l i -> nxt s !! h = Some k -> k ∈ i_l i /\ v !! flip k = v !! h.
Proof.
  intros I H E. destruct (t_goes _ _ _ _ _ _ T i I) as (a & l & EL & G). assert (X := RG i I). rewrite EL in *. destruct X as (_ & _ & L & _). split; [by apply (goes_next _ _ _ _ _ _ G H E)|by apply (goes_leads v _ _ _ _ _ _ G L H E)].
Qed.
Lemma track_half : half_edges s.
Proof.
  assert (V := t_v _ _ _ _ _ _ T). assert (VV := t_vc _ _ _ _ _ _ T). split; [|split; [|split; [|split; [|split]]]].
  - intros g c. rewrite VV, (VC g c), v_dom, nxt_dom. done.
  - intros h. rewrite V. rewrite nxt_dom, v_dom. split; [done|]. split.
    + intros H. apply side_item in H as (i & I & H). exists (i_w i). apply (t_wir _ _ _ _ _ _ T). eauto.
    + intros [w W]. apply (t_wir _ _ _ _ _ _ T) in W as (i & I & _ & H). by apply (item_side i).
  - intros h k E. rewrite V. assert (H : h ∈ concat (i_l <$> R)) by (apply nxt_dom; eauto). apply side_item in H as (i & I & H). destruct (nxt_same i h k I H E) as [K L]. split; [|done]. apply nxt_dom. by apply (item_side i).
  - intros h h' k E E'. assert (H : h ∈ concat (i_l <$> R)) by (apply nxt_dom; eauto). assert (H' : h' ∈ concat (i_l <$> R)) by (apply nxt_dom; eauto).
    apply side_item in H as (i & I & H). apply side_item in H' as (i' & I' & H'). destruct (nxt_same i h k I H E) as [K _]. destruct (nxt_same i' h' k I' H' E') as [K' _].
    assert (i' = i) as -> by (by apply (item_same i' i k)). destruct (t_goes _ _ _ _ _ _ T i I) as (a & l & EL & G). assert (N := item_nodup i I). rewrite EL in *. apply NoDup_cons in N as [N1 N2].
    by apply (goes_inj _ _ _ _ _ _ _ G N2 N1 H H' E E').
  - intros h k w x W X. split.
    + intros <-. apply (t_wir _ _ _ _ _ _ T) in W as (i & I & E & H). apply (t_wir _ _ _ _ _ _ T) in X as (j & J & E' & K). assert (j = i) as -> by (apply item_w; congruence).
      destruct (t_goes _ _ _ _ _ _ T i I) as (a & l & EL & G). rewrite EL in *. destruct (goes_along _ _ _ _ G _ H) as [_ A1]. destruct (goes_along _ _ _ _ G _ K) as [A2 _]. by apply (rtc_transitive _ a).
    + intros A. apply (t_wir _ _ _ _ _ _ T) in W as (i & I & <- & H). assert (K : k ∈ i_l i). { clear X. induction A as [h|h y k E A IH]; [done|]. apply IH. by apply (nxt_same i h y). }
      assert (Y : wir s !! k = Some (i_w i)) by (apply (t_wir _ _ _ _ _ _ T); eauto). congruence.
  - intros h p. rewrite V. intros A B. by apply (EN h p p).
Qed.
End Rings.

(** * All of it *)
Lemma items_rings Q : forall l gs, length gs = length l -> Forall2 (fun q eg => entered (fst q) (snd q) (fst eg) (snd eg)) Q (zip l gs) -> i_l <$> concat (fst <$> Q) = List.flat_map rings_of l.
Proof.
  induction Q as [|[R F] Q IH]; intros [|e l] [|g gs] L A; try done; inversion A as [|? ? ? ? (E & _) A']; subst. rewrite fmap_cons, concat_cons, fmap_app. cbn [fst] in *. rewrite E. cbn [List.flat_map]. f_equal. apply (IH l gs); [cbn in L; lia|done].
Qed.
Section All.
Context (P0 : gmap nat point) (v : gmap he nat) (vc : gmap nat vect) (l : list entry) (gs : list nat) (Q : list (list item * list (nat * nat))) (s : st)
  (T : track P0 v vc (concat (fst <$> Q)) (concat (snd <$> Q)) s) (LL : length gs = length l) (A : Forall2 (fun q eg => entered (fst q) (snd q) (fst eg) (snd eg)) Q (zip l gs)).
Lemma of_entry e g : (e, g) ∈ zip l gs -> exists R F, (R, F) ∈ Q /\ entered R F e g.
Proof. intros I. apply elem_of_list_lookup in I as (i & I). destruct (Forall2_lookup_r _ _ _ _ _ A I) as ([R F] & X & Y). exists R, F. split; [by apply elem_of_list_lookup_2 in X|done]. Qed.
Lemma of_made R F : (R, F) ∈ Q -> exists e g, (e, g) ∈ zip l gs /\ entered R F e g.
Proof. intros I. apply elem_of_list_lookup in I as (i & I). destruct (Forall2_lookup_l _ _ _ _ _ A I) as ([e g] & X & Y). exists e, g. split; [by apply elem_of_list_lookup_2 in X|done]. Qed.
Lemma in_items R F i : (R, F) ∈ Q -> i ∈ R -> i ∈ concat (fst <$> Q).
Proof. intros I H. apply elem_of_list_In, in_concat. exists R. split; apply elem_of_list_In; [|done]. by apply (elem_of_list_fmap_1 fst _ (R, F)). Qed.
Lemma items_in i : i ∈ concat (fst <$> Q) -> exists R F, (R, F) ∈ Q /\ i ∈ R.
Proof. intros H. apply elem_of_list_In, in_concat in H as (R & I & H). apply elem_of_list_In, elem_of_list_fmap in I as ([R' F] & -> & I). apply elem_of_list_In in H. eauto. Qed.
Lemma in_frees R F p g : (R, F) ∈ Q -> (p, g) ∈ F -> (p, g) ∈ concat (snd <$> Q).
Proof. intros I H. apply elem_of_list_In, in_concat. exists F. split; apply elem_of_list_In; [|done]. by apply (elem_of_list_fmap_1 snd _ (R, F)). Qed.
Lemma frees_in p g : (p, g) ∈ concat (snd <$> Q) -> exists R F, (R, F) ∈ Q /\ (p, g) ∈ F.
Proof. intros H. apply elem_of_list_In, in_concat in H as (F & I & H). apply elem_of_list_In, elem_of_list_fmap in I as ([R F'] & -> & I). apply elem_of_list_In in H. eauto. Qed.
Lemma listed_ok e g : (e, g) ∈ zip l gs -> as_listed s e g.
Proof.
  intros I. destruct (of_entry e g I) as (R & F & X & E1 & E2 & E3 & E4 & E5).
  assert (O : exists p, polys s !! g = Some p /\ match fst (fst e) with [] => g = 0 | l => g <> 0 /\ wire_of s (outer p) g l end).
  { destruct (fst (fst e)) as [|h r].
    - subst g. assert (O := t_out0 _ _ _ _ _ _ T). rewrite lookup_fmap in O. destruct (polys s !! 0) as [p|]; [eauto|done].
    - destruct E5 as (D & w & W). assert (J := in_items _ _ _ X W). destruct (t_par _ _ _ _ _ _ T _ J) as (o & O & P & H). cbn [i_g i_w i_hole] in *. rewrite lookup_fmap in O. destruct (polys s !! g) as [p|]; [|done]. injection O as O.
      exists p. split; [done|]. split; [done|]. assert (outer p = w) as ->. { destruct (decide (o = w)) as [-> | N]; [done|]. apply H in N. done. } apply (item_wire _ _ _ _ _ _ T _ J). }
  destruct O as (p & P & O). exists p. split; [done|]. split; [done|]. split.
  - intros r H. destruct (E4 r H) as (w & W). assert (J := in_items _ _ _ X W). exists w. destruct (t_par _ _ _ _ _ _ T _ J) as (o & O' & P' & HO). cbn [i_g i_w i_hole] in *. rewrite lookup_fmap, P in O'. injection O' as <-.
    split; [intros ->; by apply HO|]. split; [apply (item_wire _ _ _ _ _ _ T _ J)|done].
  - intros q H. assert (J : (q, g) ∈ F) by (rewrite E2; by apply (elem_of_list_fmap_1 (fun p => (p, g)))). apply (in_frees _ _ _ _ X) in J. split; [by apply (t_free _ _ _ _ _ _ T g p q P)|].
    destruct (t_pt _ _ _ _ _ _ T _ _ J) as (_ & x & _ & Y). eexists. split; [exact Y|]. done.
Qed.
Lemma zip_r g : g ∈ gs <-> g ∈ (zip l gs).*2.
Proof. by rewrite snd_zip by lia. Qed.
Lemma only_ok : (forall g, is_Some (polys s !! g) <-> g ∈ gs \/ g = 0) -> (forall i j g, gs !! i = Some g -> gs !! j = Some g -> g <> 0 -> i = j) -> only_listed s (zip l gs).
Proof.
  intros G U. split; [|split; [|split]].
  - intros w W. apply (t_dom _ _ _ _ _ _ T) in W as [-> | (i & I & <-)]; [by left|right]. destruct (items_in i I) as (R & F & X & J). destruct (of_made R F X) as (e & g & Z & E1 & E2 & E3 & _).
    exists e, g, (i_l i). split; [done|]. split; [rewrite <- E1; by apply elem_of_list_fmap_1|]. rewrite <- (E3 i J). apply (item_wire _ _ _ _ _ _ T _ I).
  - intros g p q P H. apply (t_free _ _ _ _ _ _ T g p q P) in H. destruct (frees_in _ _ H) as (R & F & X & J). destruct (of_made R F X) as (e & g' & Z & E1 & E2 & _). rewrite E2 in J. apply elem_of_list_fmap in J as (q' & [= -> ->] & J). eauto.
  - intros g. rewrite G, <- zip_r. tauto.
  - intros i j e e' g I J. apply U.
    + rewrite lookup_zip_with in I. destruct (l !! i), (gs !! i); cbn in I; try done. congruence.
    + rewrite lookup_zip_with in J. destruct (l !! j), (gs !! j); cbn in J; try done. congruence.
Qed.
Lemma frees_all p : p ∈ (concat (snd <$> Q)).*1 -> p ∈ List.flat_map snd l.
Proof.
  intros I. apply elem_of_list_fmap in I as ([q g] & -> & I). destruct (frees_in _ _ I) as (R & F & X & J). destruct (of_made R F X) as (e & g' & Z & E1 & E2 & _). rewrite E2 in J. apply elem_of_list_fmap in J as (q' & [= -> ->] & J).
  apply elem_of_list_In, in_flat_map. exists e. split; apply elem_of_list_In; [|done]. by apply elem_of_zip_l in Z.
Qed.
End All.
Lemma built s l : parts s -> listing s l -> exists gs s', make_polygons (List.map ids_of l) s = (Ok gs, s') /\ length gs = length l /\
  (exists R F, track (points s) (vtx s) (vec s) R F s') /\
  (forall e g, (e, g) ∈ zip l gs -> as_listed s' e g) /\ only_listed s' (zip l gs) /\ half_edges s' /\ fam (wires s') /\
  vtx s' = vtx s /\ vec s' = vec s /\ xy <$> points s' = xy <$> points s /\ p_seg <$> points s' = p_seg <$> points s.
Proof.
  intros PA (RG & ND & CV & NF & FR). assert (I := parts_ok _ PA). assert (T0 := parts_track _ I).
  destruct (polys_ok (points s) (vtx s) (vec s) l [] [] s T0 RG ND) as (gs & Q & s' & E & T & LL & A & N & D & U).
  { intros p H. apply FR in H as (x & X & _). exists x. split; [done|]. by apply (pi_pts _ I p). }
  { done. }
  exists gs, s'. cbn [app] in T. split; [done|]. split; [done|]. split; [eauto|]. split; [intros e g; by apply (listed_ok _ _ _ _ _ _ _ T A)|]. split.
  { apply (only_ok _ _ _ _ _ _ _ T LL A); [|done]. intros g. rewrite D, (pi_polys _ I). cbn [polys init]. split; (intros [X|X]; [by left|right]).
    - destruct X as [x X]. by apply lookup_singleton_Some in X as [<- _].
    - subst g. rewrite lookup_singleton. eauto. }
  assert (IR := items_rings Q l gs LL A).
  split; [|split; [apply T|split; [apply T|split; [apply T|]]]].
  - apply (track_half _ _ _ _ _ _ T).
    + intros i J. apply RG.
      rewrite <- IR. by apply elem_of_list_fmap_1.
    + intros h H. rewrite IR. by apply CV.
    + apply (pi_vec _ I).
    + apply (pi_end _ I).
  - assert (K : forall p, points s' !! p = points s !! p \/ exists x g, points s !! p = Some x /\ points s' !! p = Some (Pt (xy x) (Some g) None) /\ p_seg x = None).
    { intros p. destruct (decide (p ∈ (concat (snd <$> Q)).*1)) as [X|X]; [right|left; by apply (t_pts _ _ _ _ _ _ T)]. assert (Y := frees_all _ _ _ A p X). apply FR in Y as (x & X1 & X2).
      apply elem_of_list_fmap in X as ([q g] & -> & X). destruct (t_pt _ _ _ _ _ _ T _ _ X) as (_ & x' & X3 & X4). cbn [fst] in *. exists x, g. split; [done|]. split; [congruence|done]. }
    split; apply map_eq; intros p; rewrite !lookup_fmap; destruct (K p) as [-> | (x & g & -> & -> & X)]; cbn; congruence.
Qed.
