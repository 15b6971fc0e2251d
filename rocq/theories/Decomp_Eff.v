(** What the calls of the decomposition do to the state when they return. *)
From stdpp Require Import gmap list relations.
From Coq Require Import QArith.
From Verif Require Import Decomp_Model Decomp_Perm Decomp_Surgery.
Local Open Scope nat_scope.

Lemma bind_inv {A B} (m : M A) (f : A -> M B) s b s' : bind m f s = (Ok b, s') -> exists a s1, m s = (Ok a, s1) /\ f a s1 = (Ok b, s').
Proof. unfold bind. destruct (m s) as [[a| |] s1] eqn:E; intros H; [eauto|done|done]. Qed.
Lemma ret_inv {A} (a b : A) s s' : ret a s = (Ok b, s') -> b = a /\ s' = s.
Proof. intros H. by injection H as <- <-. Qed.
Lemma check_inv b s u s' : check b s = (Ok u, s') -> b = true /\ s' = s.
Proof. destruct b; intros H; [injection H as _ <-; done|done]. Qed.
Lemma need_inv {A} (f : st -> option A) s a s' : need f s = (Ok a, s') -> f s = Some a /\ s' = s.
Proof. unfold need. destruct (f s); intros H; [by injection H as <- <-|done]. Qed.
Lemma upd_inv f s u s' : upd f s = (Ok u, s') -> s' = f s.
Proof. intros H. by injection H as _ <-. Qed.
Lemma raise_inv {A} s (a : A) s' : raise s = (Ok a, s') -> False.
Proof. done. Qed.

Ltac unf E := unfold get_pt, get_wire, get_poly, get_vtx, get_next, get_label, get_parent, put_pt, put_wire, put_poly, put_next, put_label, put_vtx, report in E.
(** Names for the results of a sequence of calls. *)
Tactic Notation "bnd" hyp(H) "as" simple_intropattern(a) simple_intropattern(s) simple_intropattern(E) :=
  apply bind_inv in H as (a & s & E & H).
(** A call that only reads. *)
Tactic Notation "rd" hyp(H) "as" simple_intropattern(a) simple_intropattern(E) :=
  let s1 := fresh "s" in let E1 := fresh "E" in
  apply bind_inv in H as (a & s1 & E & H); unf E; apply need_inv in E as (E & E1); subst s1.
Tactic Notation "chk" hyp(H) "as" simple_intropattern(E) :=
  let s1 := fresh "s" in let E1 := fresh "E" in let u := fresh "u" in
  apply bind_inv in H as (u & s1 & E & H); apply check_inv in E as (E & E1); subst s1.
Tactic Notation "up" hyp(H) :=
  let s1 := fresh "s" in let E1 := fresh "E" in let u := fresh "u" in
  apply bind_inv in H as (u & s1 & E1 & H); unf E1; apply upd_inv in E1; subst s1.

Lemma st_eta s : St (points s) (vtx s) (nxt s) (wir s) (vec s) (p2s s) (wires s) (polys s) (ip s) (is_ s) (iw s) (ig s) (last_change s) = s.
Proof. by destruct s. Qed.

(** * Walks *)
Lemma walk_ok n f st en h l : walk n f st en h = Ok l ->
  h ∈ l /\
  (forall x, x ∈ l -> exists k, f !! x = Some k /\ (k = en \/ (k <> st /\ k ∈ l))) /\
  (forall x, x ∈ l -> rtc (fun x y => x ∈ l /\ f !! x = Some y) h x) /\
  (h <> en -> en ∉ l).
Proof.
  revert h l. induction n as [|n IH]; intros h l E; cbn [walk] in E; [done|].
  destruct (f !! h) as [k|] eqn:F; [|done].
  destruct (decide (k = en)) as [->|D].
  - injection E as <-. split; [by left|]. split; [|split].
    + intros x ->%elem_of_list_singleton. eauto.
    + intros x ->%elem_of_list_singleton. apply rtc_refl.
    + intros D ->%elem_of_list_singleton. done.
  - destruct (decide (k = st)) as [->|D']; [done|].
    destruct (walk n f st en k) as [l'| |] eqn:W; [|done|done]. injection E as <-.
    apply IH in W as (W1 & W2 & W3 & W4). split; [by left|]. split; [|split].
    + intros x [->|Hx]%elem_of_cons.
      * exists k. split; [done|]. right. split; [done|]. by right.
      * destruct (W2 x Hx) as (y & Y1 & Y2). exists y. split; [done|]. destruct Y2 as [?|[? ?]]; [by left|]. right. split; [done|]. by right.
    + intros x [->|Hx]%elem_of_cons; [apply rtc_refl|].
      eapply rtc_l; [split; [by left|exact F]|].
      specialize (W3 x Hx). eapply rtc_subrel; [|exact W3]. intros a b [? ?]. split; [by right|done].
    + intros Dh [->|Hx]%elem_of_cons; [done|]. by apply W4.
Qed.

Fixpoint linked (g : gmap he he) (l : list he) : Prop :=
  match l with
  | x :: (y :: _) as l' => g !! x = Some y /\ linked g l'
  | _ => True
  end.
Lemma linked_cons g x y l : linked g (x :: y :: l) <-> g !! x = Some y /\ linked g (y :: l).
Proof. done. Qed.
Lemma around_ok n f st h l : around n f st h = Ok l ->
  (exists l', l = h :: l') /\
  (forall x, x ∈ l -> exists y, rot f !! x = Some y /\ (y = st \/ y ∈ l)) /\
  (forall x, x ∈ l -> reach (rot f) h x) /\
  linked (rot f) (l ++ [st]) /\
  (exists m, last l = Some m /\ rot f !! m = Some st).
Proof.
  revert h l. induction n as [|n IH]; intros h l E; cbn [around] in E; [done|].
  destruct (f !! h) as [k|] eqn:F; [|done].
  assert (R : rot f !! h = Some (flip k)) by (apply rot_some; by rewrite flip_flip).
  destruct (decide (flip k = st)) as [<-|D].
  - injection E as <-. split; [eauto|]. split; [|split; [|split]].
    + intros x ->%elem_of_list_singleton. eauto.
    + intros x ->%elem_of_list_singleton. apply rtc_refl.
    + cbn. done.
    + exists h. done.
  - destruct (around n f st (flip k)) as [l'| |] eqn:W; [|done|done]. injection E as <-.
    apply IH in W as ((l2 & ->) & W2 & W3 & W4 & (m & W5 & W6)). split; [eauto|]. split; [|split; [|split]].
    + intros x [->|Hx]%elem_of_cons; [|destruct (W2 x Hx) as (y & Y1 & [Y2|Y2]); exists y; split; try done; [by left|right; by right]].
      exists (flip k). split; [done|]. right. right. left.
    + intros x [->|Hx]%elem_of_cons; [apply rtc_refl|]. eapply reach_l; [exact R|]. by apply W3.
    + cbn [app]. apply linked_cons. split; [done|]. exact W4.
    + exists m. split; [|done]. rewrite last_cons_cons. exact W5.
Qed.
Lemma around_all n f h l x : around n f h h = Ok l -> reach (rot f) h x -> x ∈ l.
Proof.
  intros A R. apply around_ok in A as ((l' & ->) & C & _).
  assert (G : forall y, y ∈ h :: l' -> reach (rot f) y x -> x ∈ h :: l'); [|apply (G h); [left|done]].
  clear R. intros y Hy R. induction R as [|y z x S R IH]; [done|]. apply IH.
  destruct (C y Hy) as (z' & Z1 & Z2). unfold step in S. rewrite S in Z1. injection Z1 as <-.
  destruct Z2 as [->|Z2]; [left|done].
Qed.
Lemma other_some n f g st h k : other n f g st h = Ok (Some k) -> fst k <> g /\ reach (rot f) h k.
Proof.
  revert h. induction n as [|n IH]; intros h E; cbn [other] in E; [done|].
  destruct (decide (fst h = g)) as [D|D].
  - destruct (f !! h) as [m|] eqn:F; [|done]. destruct (decide (flip m = st)); [done|].
    apply IH in E as [E1 E2]. split; [done|]. eapply reach_l; [|exact E2]. apply rot_some. by rewrite flip_flip.
  - injection E as <-. split; [done|]. apply rtc_refl.
Qed.
Lemma other_none n f g st h : other n f g st h = Ok None ->
  exists S : list he, h ∈ S /\ forall x, x ∈ S -> fst x = g /\ exists y, rot f !! x = Some y /\ (y = st \/ y ∈ S).
Proof.
  revert h. induction n as [|n IH]; intros h E; cbn [other] in E; [done|].
  destruct (decide (fst h = g)) as [D|D]; [|done].
  destruct (f !! h) as [m|] eqn:F; [|done].
  assert (R : rot f !! h = Some (flip m)) by (apply rot_some; by rewrite flip_flip).
  destruct (decide (flip m = st)) as [<-|D'].
  - exists [h]. split; [left|]. intros x ->%elem_of_list_singleton. eauto.
  - apply IH in E as (S & S1 & S2). exists (h :: S). split; [left|].
    intros x [->|Hx]%elem_of_cons.
    + split; [done|]. exists (flip m). split; [done|]. right. by right.
    + destruct (S2 x Hx) as (? & y & Y1 & Y2). split; [done|]. exists y. split; [done|]. destruct Y2; [by left|right; by right].
Qed.
Lemma other_none_all n f g h x : other n f g h h = Ok None -> reach (rot f) h x -> fst x = g.
Proof.
  intros E R. apply other_none in E as (S & S1 & S2).
  assert (G : forall y, y ∈ S -> reach (rot f) y x -> x ∈ S); [|by apply S2, (G h)].
  clear R. intros y Hy R. induction R as [|y z x T R IH]; [done|]. apply IH.
  destruct (S2 y Hy) as (_ & z' & Z1 & Z2). unfold step in T. rewrite T in Z1. injection Z1 as <-.
  destruct Z2 as [->|Z2]; done.
Qed.

Lemma segments_from_inv h s l s' : segments_from h s = (Ok l, s') -> s' = s /\ around (fuel s) (nxt s) h h = Ok l.
Proof. unfold segments_from. intros H. by injection H as H <-. Qed.
Lemma previous_inv h s m s' : previous h s = (Ok m, s') -> s' = s /\ nxt s !! m = Some h.
Proof.
  unfold previous. intros H. bnd H as l s1 E. apply segments_from_inv in E as [-> A].
  apply need_inv in H as (L & ->). split; [done|].
  apply around_ok in A as (_ & _ & _ & _ & (m' & M1 & M2)). rewrite L in M1. injection M1 as <-.
  apply (proj1 (rot_some _ _ _)) in M2. by rewrite flip_flip in M2.
Qed.

(** * Points *)
Definition free_ok (P : gmap nat point) (G : gmap nat poly) : Prop :=
  (forall p x, P !! p = Some x -> match p_seg x with
     | None => exists g y, p_poly x = Some g /\ G !! g = Some y /\ p ∈ free y
     | Some _ => p_poly x = None
     end) /\
  (forall g y p, G !! g = Some y -> p ∈ free y -> exists x, P !! p = Some x /\ p_poly x = Some g /\ p_seg x = None).

Notation seg_of s := (p_seg <$> points s).
Notation xy_of s := (xy <$> points s).
Notation outer_of s := (outer <$> polys s).

(** Points and free points of polygons change; [m]: the segments of the points after it. *)
Definition pp (s s' : st) (m : gmap nat (option he)) : Prop :=
  exists P G, s' = set_polys G (set_points P s) /\ (free_ok (points s) (polys s) -> free_ok P G) /\
    xy <$> P = xy_of s /\ outer <$> G = outer_of s /\ p_seg <$> P = m.
Lemma pp_refl s : pp s s (seg_of s).
Proof. exists (points s), (polys s). split; [by destruct s|]. done. Qed.
Lemma pp_trans s s' s'' m m' : pp s s' m -> pp s' s'' m' -> pp s s'' m'.
Proof.
  intros (P & G & -> & H1 & H2 & H3 & H4) (P' & G' & -> & H1' & H2' & H3' & H4'). exists P', G'. cbn [polys points set_polys set_points] in *.
  split; [done|]. split; [auto|]. split; [congruence|]. split; [congruence|done].
Qed.

Lemma drop_free_inv g p s u s' : drop_free g p s = (Ok u, s') ->
  exists y, polys s !! g = Some y /\ p ∈ free y /\ s' = set_polys (<[g := Po (outer y) (free y ∖ {[p]})]> (polys s)) s.
Proof.
  unfold drop_free. intros H. rd H as y E. destruct (decide (p ∈ free y)) as [D|D]; [|done].
  apply upd_inv in H. eauto.
Qed.
Lemma fmap_insert_same {A B} (f : A -> B) (m : gmap nat A) i x y : m !! i = Some x -> f y = f x -> f <$> <[i := y]> m = f <$> m.
Proof.
  intros E F. rewrite fmap_insert, F. apply insert_id. by rewrite lookup_fmap, E.
Qed.
Lemma join_segment_pp p h s u s' : join_segment p h s = (Ok u, s') ->
  exists o, seg_of s !! p = Some o /\ pp s s' (match o with None => <[p := Some h]> (seg_of s) | Some _ => seg_of s end).
Proof.
  unfold join_segment, is_free. intros H. rd H as x E. exists (p_seg x). split; [by rewrite lookup_fmap, E|].
  destruct (p_seg x) as [a|] eqn:Es; [apply ret_inv in H as [_ ->]; apply pp_refl|].
  bnd H as u1 s1 E1. destruct (p_poly x) as [g|] eqn:Eg.
  - apply drop_free_inv in E1 as (y & Y1 & Y2 & ->). apply upd_inv in H. subst s'. cbn [polys points set_polys set_points].
    exists (<[p := Pt (xy x) None (Some h)]> (points s)), (<[g := Po (outer y) (free y ∖ {[p]})]> (polys s)).
    split; [by destruct s|]. split; [|split; [|split]].
    + intros [F1 F2]. split.
      * intros q z Ez. apply lookup_insert_Some in Ez as [[<- <-]|[D Ez]]; [done|].
        specialize (F1 q z Ez). destruct (p_seg z); [done|]. destruct F1 as (g' & y' & G1 & G2 & G3).
        destruct (decide (g' = g)) as [->|Dg].
        { exists g, (Po (outer y) (free y ∖ {[p]})). rewrite lookup_insert. split; [done|]. split; [done|]. cbn.
          replace y with y' by congruence. set_solver. }
        { exists g', y'. by rewrite lookup_insert_ne. }
      * intros g' y' q G1 G2. apply lookup_insert_Some in G1 as [[<- <-]|[D G1]].
        { cbn in G2. apply elem_of_difference in G2 as [G2 G3]. rewrite elem_of_singleton in G3.
          rewrite lookup_insert_ne by done. by eapply F2. }
        { destruct (F2 _ _ _ G1 G2) as (z & Z1 & Z2 & Z3). rewrite lookup_insert_ne; [eauto|]. intros <-. congruence. }
    + by apply (fmap_insert_same _ _ _ x).
    + by apply (fmap_insert_same _ _ _ y).
    + by rewrite fmap_insert.
  - apply ret_inv in E1 as [_ ->]. apply upd_inv in H. subst s'.
    exists (<[p := Pt (xy x) None (Some h)]> (points s)), (polys s).
    split; [by destruct s|]. split; [|split; [|split]].
    + intros [F1 F2]. exfalso. specialize (F1 p x E). rewrite Es in F1. destruct F1 as (? & ? & ? & _). congruence.
    + by apply (fmap_insert_same _ _ _ x).
    + done.
    + by rewrite fmap_insert.
Qed.
Lemma set_polygon_pp p g s u s' : set_polygon p g s = (Ok u, s') ->
  is_Some (polys s !! g) /\ is_Some (points s !! p) /\ pp s s' (<[p := None]> (seg_of s)).
Proof.
  unfold set_polygon. intros H. rd H as x E. bnd H as u1 s1 E1.
  assert (K : exists G1, s1 = set_polys G1 s /\ outer <$> G1 = outer_of s /\
    (free_ok (points s) (polys s) -> (forall q z, q <> p -> points s !! q = Some z -> p_seg z = None ->
        exists g y, p_poly z = Some g /\ G1 !! g = Some y /\ q ∈ free y) /\
      (forall g y q, G1 !! g = Some y -> q ∈ free y -> q <> p /\ exists x, points s !! q = Some x /\ p_poly x = Some g /\ p_seg x = None))).
  { destruct (p_poly x) as [q|] eqn:Eq.
    - apply drop_free_inv in E1 as (y & Y1 & Y2 & ->). eexists. split; [done|]. split; [by apply (fmap_insert_same _ _ _ y)|].
      intros [F1 F2]. split.
      + intros q' z D Ez Es. specialize (F1 q' z Ez). rewrite Es in F1. destruct F1 as (g' & y' & G1 & G2 & G3).
        destruct (decide (g' = q)) as [->|Dg].
        * eexists q, _. rewrite lookup_insert. split; [done|]. split; [done|]. cbn. replace y with y' by congruence. set_solver.
        * exists g', y'. by rewrite lookup_insert_ne.
      + intros g' y' q' G1 G2. apply lookup_insert_Some in G1 as [[<- <-]|[D G1]].
        * cbn in G2. apply elem_of_difference in G2 as [G2 G3]. rewrite elem_of_singleton in G3. split; [done|]. by eapply F2.
        * destruct (F2 _ _ _ G1 G2) as (z & Z1 & Z2 & Z3). split; [|eauto]. intros ->. congruence.
    - apply ret_inv in E1 as [_ ->]. exists (polys s). split; [by destruct s|]. split; [done|]. intros [F1 F2]. split.
      + intros q' z D Ez Es. specialize (F1 q' z Ez). by rewrite Es in F1.
      + intros g' y' q' G1 G2. destruct (F2 _ _ _ G1 G2) as (z & Z1 & Z2 & Z3). split; [|eauto]. intros ->. congruence. }
  destruct K as (G1 & -> & K1 & K2). bnd H as u2 s2 E2. rd E2 as y Ey. apply upd_inv in E2. subst s2.
  apply upd_inv in H. subst s'. cbn [polys points set_polys set_points] in *.
  assert (Ig : is_Some (polys s !! g)).
  { assert (X : is_Some (outer_of s !! g)) by (rewrite <- K1, lookup_fmap, Ey; eauto). rewrite lookup_fmap, fmap_is_Some in X. done. }
  split; [done|]. split; [eauto|].
  exists (<[p := Pt (xy x) (Some g) None]> (points s)), (<[g := Po (outer y) (free y ∪ {[p]})]> G1).
  split; [by destruct s|]. split; [|split; [|split]].
  - intros F. specialize (K2 F) as [K2 K3]. destruct F as [F1 F2]. split.
    + intros q z Ez. apply lookup_insert_Some in Ez as [[<- <-]|[D Ez]].
      * cbn. eexists g, _. split; [done|]. rewrite lookup_insert. split; [done|]. cbn. set_solver.
      * destruct (p_seg z) as [h|] eqn:Ez'; [specialize (F1 q z Ez); by rewrite Ez' in F1|].
        destruct (K2 q z) as (g' & y' & Y1 & Y2 & Y3); [done..|].
        destruct (decide (g' = g)) as [->|Dg].
        { eexists g, _. rewrite lookup_insert. split; [done|]. split; [done|]. cbn. replace y with y' by congruence. set_solver. }
        { exists g', y'. by rewrite lookup_insert_ne. }
    + intros g' y' q Y1 Y2. apply lookup_insert_Some in Y1 as [[<- <-]|[D Y1]].
      * cbn in Y2. apply elem_of_union in Y2 as [Y2|Y2].
        { destruct (K3 _ _ _ Ey Y2) as [D X]. by rewrite lookup_insert_ne. }
        { apply elem_of_singleton in Y2 as ->. rewrite lookup_insert. eauto. }
      * destruct (K3 _ _ _ Y1 Y2) as [D' X]. by rewrite lookup_insert_ne.
  - by apply (fmap_insert_same _ _ _ x).
  - rewrite <- K1. by apply (fmap_insert_same _ _ _ y).
  - by rewrite fmap_insert.
Qed.
Lemma is_dendrite_inv g s d s' : is_dendrite g s = (Ok d, s') ->
  s' = s /\ exists a b, wir s !! (g, true) = Some a /\ wir s !! (g, false) = Some b /\ d = bool_decide (a = b).
Proof.
  unfold is_dendrite. intros H. rd H as a Ea. rd H as b Eb. apply ret_inv in H as [-> ->]. eauto 10.
Qed.
Lemma wire_poly_inv w s g s' : wire_poly w s = (Ok g, s') -> s' = s /\ (w_poly <$> wires s) !! w = Some (Some g).
Proof.
  unfold wire_poly. intros H. apply need_inv in H as [H ->]. split; [done|]. rewrite lookup_fmap.
  destruct (wires s !! w) as [x|]; [|done]. cbn in H. cbn. by rewrite H.
Qed.

(** A point loses a segment: it takes another one of its segments or becomes free. *)
Lemma rm_segment_far p h s u s' a : rm_segment p h s = (Ok u, s') -> seg_of s !! p = Some (Some a) -> fst a <> fst h ->
  pp s s' (seg_of s).
Proof.
  unfold rm_segment. intros H Ea D. rd H as v Ev. chk H as C. rd H as x Ex.
  rewrite lookup_fmap, Ex in Ea. cbn in Ea. injection Ea as Ea. rewrite Ea in H.
  bnd H as o s1 E. injection E as E <-. unfold fuel in E. cbn [other] in E. rewrite decide_False in E by done. injection E as <-.
  apply upd_inv in H. subst s'. exists (<[p := Pt (xy x) (p_poly x) (Some a)]> (points s)), (polys s).
  assert (Q : <[p := Pt (xy x) (p_poly x) (Some a)]> (points s) = points s).
  { apply insert_id. rewrite Ex. f_equal. destruct x; cbn in *; congruence. }
  rewrite Q. split; [by destruct s|]. done.
Qed.
Lemma rm_segment_pp p h s u s' a v1 : rm_segment p h s = (Ok u, s') -> perm (rot (nxt s)) -> labels (rot (nxt s)) v1 ->
  seg_of s !! p = Some (Some a) -> v1 !! a = Some p -> (forall x, v1 !! x = Some p -> fst x = fst h -> x = h) ->
  (exists k, v1 !! k = Some p /\ fst k <> fst h /\ pp s s' (<[p := Some k]> (seg_of s))) \/
  ((forall x, v1 !! x = Some p -> x = h) /\ wir s !! (fst h, true) = wir s !! (fst h, false) /\ pp s s' (<[p := None]> (seg_of s))).
Proof.
  unfold rm_segment. intros H P L Ea Va U. rd H as v Ev. chk H as C. rd H as x Ex.
  rewrite lookup_fmap, Ex in Ea. cbn in Ea. injection Ea as Ea. rewrite Ea in H.
  bnd H as o s1 E. cbv beta in E. apply pair_equal_spec in E as [E <-]. destruct o as [k|].
  - left. apply other_some in E as [E1 E2]. exists k. split; [by eapply labels_same|]. split; [done|].
    apply upd_inv in H. subst s'. exists (<[p := Pt (xy x) (p_poly x) (Some k)]> (points s)), (polys s).
    split; [by destruct s|]. split; [|split; [|split]].
    + intros [F1 F2]. assert (F1p := F1 p x Ex). rewrite Ea in F1p. split.
      * intros q z Ez. apply lookup_insert_Some in Ez as [[<- <-]|[D Ez]]; [done|]. by apply F1.
      * intros g y q G1 G2. destruct (F2 _ _ _ G1 G2) as (z & Z1 & Z2 & Z3). rewrite lookup_insert_ne; [eauto|]. intros <-. congruence.
    + by apply (fmap_insert_same _ _ _ x).
    + done.
    + by rewrite fmap_insert.
  - right. split; [|].
    + intros y Vy. apply U; [done|]. eapply other_none_all; [exact E|]. by eapply labels_reach.
    + bnd H as d s2 Ed. apply is_dendrite_inv in Ed as (-> & wa & wb & W1 & W2 & ->). chk H as C2. apply bool_decide_eq_true in C2.
      split; [congruence|].
      rd H as w Ew. bnd H as g s2 Eg. apply wire_poly_inv in Eg as [-> Eg]. by apply set_polygon_pp in H as (_ & _ & H).
Qed.

(** * Links *)
Lemma set_next_side_inv h k s u s' : set_next_side h k s = (Ok u, s') ->
  (exists a, vtx s !! flip k = Some a /\ vtx s !! h = Some a) /\ s' = set_nxt (<[h := k]> (nxt s)) s.
Proof.
  unfold set_next_side. intros H. rd H as a Ea. rd H as b Eb. chk H as C. apply bool_decide_eq_true in C. subst b.
  apply upd_inv in H. eauto.
Qed.
Lemma connect_vtx_inv h prev next w s u s' : connect_vtx h (prev, next, w) s = (Ok u, s') ->
  exists p o s1, vtx s !! h = Some p /\ seg_of s !! p = Some o /\
    pp s s1 (match o with None => <[p := Some h]> (seg_of s) | Some _ => seg_of s end) /\
    s' = set_wir (<[h := w]> (wir s)) (set_nxt (<[prev := flip h]> (<[h := next]> (nxt s))) s1).
Proof.
  unfold connect_vtx. intros H. rd H as p Ep. bnd H as u1 s1 E1. apply join_segment_pp in E1 as (o & O1 & O2).
  bnd H as u2 s2 E2. apply set_next_side_inv in E2 as [_ ->]. bnd H as u3 s3 E3. apply set_next_side_inv in E3 as [_ ->].
  apply upd_inv in H. exists p, o, s1. split; [done|]. split; [done|]. split; [done|].
  destruct O2 as (P & G & -> & _). subst s'. done.
Qed.
Lemma connect_free_vtx_inv h w s u s' : connect_free_vtx h w s = (Ok u, s') ->
  exists p o s1, vtx s !! h = Some p /\ seg_of s !! p = Some o /\
    pp s s1 (match o with None => <[p := Some h]> (seg_of s) | Some _ => seg_of s end) /\
    s' = set_wir (<[h := w]> (wir s)) (set_nxt (<[h := flip h]> (nxt s)) s1).
Proof.
  unfold connect_free_vtx. intros H. rd H as p Ep. bnd H as u1 s1 E1. apply join_segment_pp in E1 as (o & O1 & O2).
  bnd H as u2 s2 E2. apply set_next_side_inv in E2 as [_ ->].
  apply upd_inv in H. exists p, o, s1. split; [done|]. split; [done|]. split; [done|].
  destruct O2 as (P & G & -> & _). subst s'. done.
Qed.
Lemma unlink_inv h s u s' : unlink h s = (Ok u, s') ->
  exists m, nxt s !! m = Some (flip h) /\ is_Some (nxt s !! h) /\ s' = set_nxt (swap (nxt s) h m) s.
Proof.
  unfold unlink. intros H. bnd H as m s1 E. apply previous_inv in E as [-> E]. rd H as k Ek. up H. apply upd_inv in H. subst s'.
  exists m. split; [done|]. split; [eauto|]. cbn. rewrite (swap_eq _ _ _ _ _ Ek E).
  destruct (decide (h = m)) as [->|D]; [|done].
  replace k with (flip m) by congruence. done.
Qed.
Lemma disconnect_vtx_inv h s u s' : disconnect_vtx h s = (Ok u, s') ->
  exists p u1 s1 m, vtx s !! h = Some p /\ rm_segment p h s = (Ok u1, s1) /\ nxt s1 !! m = Some (flip h) /\ s' = set_nxt (swap (nxt s1) h m) s1.
Proof.
  unfold disconnect_vtx. intros H. rd H as p Ep. bnd H as u1 s1 E. apply unlink_inv in H as (m & M1 & _ & M2).
  exists p, u1, s1, m. done.
Qed.
