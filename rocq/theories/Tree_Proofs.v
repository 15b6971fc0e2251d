(** The tree of wires after a history. *)
From stdpp Require Import gmap list relations.
From Coq Require Import Lia.
From Verif Require Import Decomp_Model Decomp_Spec Decomp_Perm Decomp_Surgery Decomp_Eff Decomp_Tree Decomp_Inv Decomp_Nest Decomp_Good Decomp_Hist Decomp_Walk.
From Verif Require Import Tree_Model Tree_Spec.
Local Open Scope nat_scope.

Notation step P := (fun c q => P !! c = Some (Some q)).
Section Tree.
Context (P : gmap nat (option nat)).
Hypothesis R : P !! 0 = Some None.
Lemma steps_fun n m x : nsteps (step P) n x 0 -> nsteps (step P) m x 0 -> n = m.
Proof.
  revert m x. induction n as [|n IH]; intros m x H1 H2.
  - inversion H1; subst. destruct m; [done|]. inversion H2; subst. congruence.
  - inversion H1; subst. destruct m; [inversion H2; subst; congruence|]. inversion H2; subst. f_equal. apply (IH _ y); [done|]. by assert (y = y0) as -> by congruence.
Qed.
Lemma steps_path n x : nsteps (step P) n x 0 -> exists l, length l = S n /\ NoDup l /\ forall y, y ∈ l -> is_Some (P !! y) /\ exists k, k <= n /\ nsteps (step P) k y 0.
Proof.
  revert x. induction n as [|n IH]; intros x H.
  - inversion H; subst. exists [0]. split; [done|]. split; [apply NoDup_singleton|]. intros y ->%elem_of_list_singleton. split; [eauto|]. exists 0. split; [lia|]. constructor.
  - inversion H; subst. destruct (IH _ H2) as (l & L & N & A). exists (x :: l). split; [cbn; by rewrite L|]. split.
    + apply NoDup_cons. split; [|done]. intros X. destruct (A _ X) as (_ & k & K & T). assert (k = S n) by (by eapply steps_fun). lia.
    + intros z [-> |Z]%elem_of_cons; [split; [eauto|]; exists (S n); split; [lia|done]|]. destruct (A _ Z) as (B & k & K & T). split; [done|]. exists k. split; [lia|done].
Qed.
Lemma steps_size n x : nsteps (step P) n x 0 -> n < size P.
Proof.
  intros H. destruct (steps_path _ _ H) as (l & L & N & A). assert (X : length l <= size P).
  { rewrite <- size_dom. apply submseteq_length. apply NoDup_submseteq; [done|]. intros y Y. apply elem_of_elements, elem_of_dom. by apply A. }
  lia.
Qed.
End Tree.

Section State.
Context (s : st).
Hypothesis G : good s.
Notation P := (par_of s).
Lemma n0 : P !! 0 = Some None.
Proof. exact (n_root _ _ _ (g_nest _ G)). Qed.
Lemma par_at w x : wires s !! w = Some x -> P !! w = Some (parent x).
Proof. intros H. by rewrite lookup_fmap, H. Qed.
Lemma par_inv w q : P !! w = Some q -> exists x, wires s !! w = Some x /\ parent x = q.
Proof. rewrite lookup_fmap. destruct (wires s !! w) as [x|]; [|done]. cbn. intros [= <-]. eauto. Qed.
Lemma rank w : is_Some (wires s !! w) -> exists n, nsteps (step P) n w 0.
Proof. intros [x X]. apply rtc_nsteps. apply (n_up _ _ _ (g_nest _ G)). rewrite lookup_fmap, X. eauto. Qed.
Lemma depth_from_ok n k w : nsteps (step P) k w 0 -> k <= n -> depth_from n w s = Ok k.
Proof.
  revert n w. induction k as [|k IH]; intros n w H L.
  - inversion H; subst. destruct (par_inv _ _ n0) as (x & X & Y). destruct n; cbn; by rewrite X, Y.
  - inversion H; subst. destruct (par_inv _ _ H1) as (x & X & Y). destruct n as [|n]; [lia|]. cbn. rewrite X, Y. by rewrite (IH n y) by (done || lia).
Qed.
(** Outer wires lie in holes, holes in outer wires. *)
Lemma outer_parent g o h : outer_of s !! g = Some o -> P !! o = Some (Some h) -> exists g' o', pol_of s !! h = Some (Some g') /\ outer_of s !! g' = Some o' /\ P !! h = Some (Some o') /\ g' <> g.
Proof.
  intros O H. assert (N := g_nest _ G). assert (Ih : is_Some (P !! h)) by (exact (n_par _ _ _ N _ _ H)). destruct (n_wire _ _ _ N _ Ih) as (g' & o' & L & O' & [-> |Q]).
  - exfalso. assert (Lo := n_child _ _ _ N _ _ _ H O'). assert (Lo2 := n_out _ _ _ N _ _ O). assert (g = g') as -> by congruence. assert (h = o) as -> by congruence.
    destruct (rank o) as [n Hn]; [rewrite lookup_fmap in H; destruct (wires s !! o); [eauto|done]|]. destruct n; [inversion Hn; subst; rewrite n0 in H; done|]. inversion Hn; subst. assert (y = o) as -> by congruence.
    assert (X := steps_fun _ n0 _ _ _ Hn H2). lia.
  - exists g', o'. split; [done|]. split; [done|]. split; [done|]. intros ->. assert (o' = o) as -> by congruence.
    destruct (rank o) as [n Hn]; [rewrite lookup_fmap in H; destruct (wires s !! o); [eauto|done]|]. assert (Hn' := Hn). destruct n; [inversion Hn; subst; rewrite n0 in H; done|]. inversion Hn; subst. assert (y = h) as -> by congruence.
    destruct n; [inversion H2; subst; rewrite n0 in Q; done|]. inversion H2; subst. assert (y = o) as -> by congruence. assert (X := steps_fun _ n0 _ _ _ Hn' H4). lia.
Qed.
Lemma lies_in_iff g g' : lies_in s g g' <-> exists o h, outer_of s !! g = Some o /\ P !! o = Some (Some h) /\ pol_of s !! h = Some (Some g').
Proof.
  split.
  - intros (p & o & x & h & y & A & B & C & D & E & F). exists o, h. rewrite lookup_fmap, A, (par_at _ _ C), D, lookup_fmap, E. cbn. rewrite F, B. done.
  - intros (o & h & A & B & C). rewrite lookup_fmap in A. destruct (polys s !! g) as [p|] eqn:E; [|done]. injection A as A. destruct (par_inv _ _ B) as (x & X & Y).
    rewrite lookup_fmap in C. destruct (wires s !! h) as [y|] eqn:F; [|done]. injection C as C. exists p, o, x, h, y. done.
Qed.
Lemma depth_twice n g p : polys s !! g = Some p -> nsteps (lies_in s) n g 0 -> nsteps (step P) (2 * n) (outer p) 0.
Proof.
  revert g p. induction n as [|n IH]; intros g p E H.
  - inversion H; subst. assert (X := n_out0 _ _ _ (g_nest _ G)). rewrite lookup_fmap, E in X. injection X as ->. constructor.
  - inversion H; subst. apply lies_in_iff in H1 as (o & h & A & B & C). rewrite lookup_fmap, E in A. injection A as <-.
    assert (OG : outer_of s !! g = Some (outer p)) by (by rewrite lookup_fmap, E). destruct (outer_parent _ _ _ OG B) as (g' & o' & L & O' & Q & _).
    assert (g' = y) as -> by congruence. rewrite lookup_fmap in O'. destruct (polys s !! y) as [py|] eqn:Ey; [|done]. injection O' as <-.
    replace (2 * S n) with (S (S (2 * n))) by lia. apply nsteps_l with h; [done|]. apply nsteps_l with (outer py); [done|]. by apply (IH y).
Qed.
Lemma chain g p : polys s !! g = Some p -> exists n, nsteps (lies_in s) n g 0.
Proof.
  intros E. destruct (rank (outer p)) as [m Hm].
  { assert (L := n_out _ _ _ (g_nest _ G) g (outer p)). rewrite lookup_fmap, E in L. specialize (L eq_refl). rewrite lookup_fmap in L. destruct (wires s !! outer p); [eauto|done]. }
  revert g p E Hm. induction (lt_wf m) as [m _ IH]. intros g p E Hm. assert (OG : outer_of s !! g = Some (outer p)) by (by rewrite lookup_fmap, E).
  destruct m as [|m].
  - assert (Z : outer p = 0) by (by inversion Hm). exists 0. rewrite Z in OG. assert (L := n_out _ _ _ (g_nest _ G) _ _ OG). assert (L0 := n_out _ _ _ (g_nest _ G) _ _ (n_out0 _ _ _ (g_nest _ G))).
    assert (g = 0) as -> by congruence. constructor.
  - inversion Hm; subst. destruct (outer_parent _ _ _ OG H0) as (g' & o' & L & O' & Q & _). inversion H1; subst.
    + rewrite n0 in Q. done.
    + assert (y0 = o') as -> by congruence. rewrite lookup_fmap in O'. destruct (polys s !! g') as [p'|] eqn:Ep; [|done]. injection O' as <-.
      destruct (IH n ltac:(lia) g' p' Ep ltac:(done)) as [k Hk]. exists (S k). apply nsteps_l with g'; [|done]. apply lies_in_iff. exists (outer p), y. done.
Qed.
Lemma depth_ok g p n : polys s !! g = Some p -> nsteps (lies_in s) n g 0 -> depth g s = Ok (2 * n).
Proof.
  intros E H. unfold depth. rewrite E. assert (X := depth_twice _ _ _ E H). apply depth_from_ok; [done|]. assert (Y := steps_size _ n0 _ _ X). rewrite map_size_fmap in Y. lia.
Qed.

(** * Childs *)
Lemma below_iff x w : below s x w <-> rtc (step P) x w.
Proof.
  split; (intros H; induction H as [|x y z H _ IH]; [apply rtc_refl|]; apply rtc_l with y; [|done]).
  - destruct H as (a & A & <-). by apply par_at.
  - by apply par_inv in H.
Qed.
Lemma rank_mono x y n m : rtc (step P) x y -> nsteps (step P) n x 0 -> nsteps (step P) m y 0 -> m <= n.
Proof. intros [j J]%rtc_nsteps N M. assert (X := nsteps_trans _ _ _ _ _ J M). assert (Y := steps_fun _ n0 _ _ _ N X). lia. Qed.
Lemma rtc_cmp x a b : rtc (step P) x a -> rtc (step P) x b -> rtc (step P) a b \/ rtc (step P) b a.
Proof.
  intros A. revert b. induction A as [|x y a S A IH]; intros b B; [by left|]. inversion B as [|? y' ? S' B']; subst; [right; by apply rtc_l with y|].
  assert (y' = y) as -> by congruence. by apply IH.
Qed.
Lemma siblings w k x c c' : nsteps (step P) k w 0 -> P !! c = Some (Some w) -> P !! c' = Some (Some w) -> rtc (step P) x c -> rtc (step P) x c' -> c = c'.
Proof.
  intros K. assert (X : forall c c', P !! c = Some (Some w) -> P !! c' = Some (Some w) -> rtc (step P) c c' -> c = c').
  { intros a b A B H. inversion H as [|? y ? T H']; subst; [done|]. assert (y = w) as -> by congruence. assert (L := rank_mono _ _ _ (S k) H' K ltac:(by apply nsteps_l with w)). lia. }
  intros C C' H H'. destruct (rtc_cmp _ _ _ H H') as [Y|Y]; [by apply X|symmetry; by apply X].
Qed.
Lemma childs_iff w x c : wires s !! w = Some x -> (c ∈ childs x <-> P !! c = Some (Some w)).
Proof.
  intros E. destruct (g_tl _ G) as [T1 T2]. split; intros H.
  - apply T1. by exists x.
  - assert (D : c <> w).
    { intros ->. destruct (rank w) as [n Hn]; [eauto|]. destruct n; [inversion Hn; subst; rewrite n0 in H; done|]. inversion Hn; subst. assert (y = w) as -> by congruence. assert (X := steps_fun _ n0 _ _ _ Hn H2). lia. }
    destruct (T2 w c H ltac:(eauto) D (not_elem_of_empty c)) as (x' & E' & C). congruence.
Qed.
Section Walk.
Context (order : gset nat -> list nat).
Hypothesis OK : forall X, order X ≡ₚ elements X.
Lemma walk_childs_ok f w k cs passed : nsteps (step P) k w 0 -> NoDup cs -> (forall c, c ∈ cs -> P !! c = Some (Some w)) ->
  (forall c p, c ∈ cs -> (forall x, rtc (step P) x c -> x ∉ p) -> exists l, f c p = Ok (l, list_to_set l ∪ p) /\ NoDup l /\ forall x, x ∈ l <-> rtc (step P) x c) ->
  (forall c x, c ∈ cs -> rtc (step P) x c -> x ∉ passed) ->
  exists l, walk_childs f cs passed = Ok (l, list_to_set l ∪ passed) /\ NoDup l /\ forall x, x ∈ l <-> exists c, c ∈ cs /\ rtc (step P) x c.
Proof.
  intros K. revert passed. induction cs as [|c cs IH]; intros passed N C F D.
  - exists []. cbn [walk_childs list_to_set]. split; [by rewrite (left_id_L ∅ (∪))|]. split; [constructor|]. intros x. split; [by intros ?%elem_of_nil|]. intros (c & ?%elem_of_nil & _). done.
  - apply NoDup_cons in N as [Nc N]. destruct (F c passed) as (l & E & NL & L); [by left|intros x; apply D; by left|].
    destruct (IH (list_to_set l ∪ passed)) as (l' & E' & NL' & L').
    + done.
    + intros c' H. apply C. by right.
    + intros c' p H. apply F. by right.
    + intros c' x H X. rewrite not_elem_of_union, elem_of_list_to_set, L. split; [|by apply (D c'); [right|]]. intros Y. apply Nc. by rewrite (siblings w k x c c' K (C c ltac:(by left)) (C c' ltac:(by right)) Y X).
    + exists (l ++ l'). cbn. rewrite E, E'. split; [by rewrite list_to_set_app_L, (assoc_L (∪)), (comm_L (∪) (list_to_set l'))|]. split.
      * apply NoDup_app. split; [done|]. split; [|done]. intros x X Y. apply L in X. apply L' in Y as (c' & H & Y). apply Nc. by rewrite (siblings w k x c c' K (C c ltac:(by left)) (C c' ltac:(by right)) X Y).
      * intros x. rewrite elem_of_app, L, L'. split; [intros [X|(c' & H & X)]; [exists c; split; [by left|done]|exists c'; split; [by right|done]]|].
        intros (c' & [-> |H]%elem_of_cons & X); [by left|right; eauto].
Qed.
Lemma child_wires_ok n w k passed : nsteps (step P) k w 0 -> size P <= n + k -> (forall x, rtc (step P) x w -> x ∉ passed) ->
  exists l, child_wires order n s w passed = Ok (l, list_to_set l ∪ passed) /\ NoDup l /\ forall x, x ∈ l <-> rtc (step P) x w.
Proof.
  revert w k passed. induction n as [|n IH]; intros w k passed K L D; [assert (X := steps_size _ n0 _ _ K); lia|].
  assert (Iw : exists x, wires s !! w = Some x). { inversion K; subst; [destruct (par_inv _ _ n0) as (x & X & _); eauto|]. destruct (par_inv _ _ H) as (x & X & _); eauto. }
  destruct Iw as [x X]. cbn. rewrite X. rewrite decide_False by (apply D, rtc_refl).
  assert (CH : forall c, c ∈ order (childs x) <-> P !! c = Some (Some w)). { intros c. rewrite OK, elem_of_elements. by apply childs_iff. }
  destruct (walk_childs_ok (child_wires order n s) w k (order (childs x)) ({[w]} ∪ passed)) as (l & E & N & A).
  - done.
  - rewrite OK. apply NoDup_elements.
  - intros c C. by apply CH.
  - intros c p C. apply (IH c (S k)); [apply nsteps_l with w; [by apply CH|done]|lia].
  - intros c y C Y. apply CH in C. rewrite not_elem_of_union, not_elem_of_singleton. split; [|apply D; by eapply rtc_r].
    intros ->. assert (Z := rank_mono _ _ _ _ Y K ltac:(by apply nsteps_l with w)). lia.
  - rewrite E. exists (w :: l). split; [cbn [list_to_set]; by rewrite (assoc_L (∪)), (comm_L (∪) (list_to_set l))|]. split.
    + apply NoDup_cons. split; [|done]. intros (c & C & Y)%A. apply CH in C. assert (Z := rank_mono _ _ _ _ Y K ltac:(by apply nsteps_l with w)). lia.
    + intros y. rewrite elem_of_cons, A. split; [intros [-> |(c & C & Y)]; [apply rtc_refl|apply CH in C; by eapply rtc_r]|].
      intros Y. apply rtc_inv_r in Y as [-> |(c & Y & C)]; [by left|]. right. exists c. split; [by apply CH|done].
Qed.
(** Polygons below. *)
Lemma outer_here_iff w g : outer_here s w = Some g <-> outer_of s !! g = Some w.
Proof.
  unfold outer_here. split.
  - destruct (wires s !! w) as [x|]; [|done]. cbn. destruct (w_poly x) as [h|]; [|done]. cbn. destruct (polys s !! h) as [p|] eqn:E; [|done]. cbn. case_decide as D; [|done]. intros [= ->]. by rewrite lookup_fmap, E; cbn; rewrite D.
  - intros O. assert (L := n_out _ _ _ (g_nest _ G) _ _ O). rewrite lookup_fmap in L. destruct (wires s !! w) as [x|]; [|done]. injection L as L. cbn. rewrite L. cbn.
    rewrite lookup_fmap in O. destruct (polys s !! g) as [p|]; [|done]. injection O as O. cbn. by rewrite decide_True.
Qed.
Lemma rtc_lies n g g' p p' : polys s !! g = Some p -> polys s !! g' = Some p' -> nsteps (step P) n (outer p) (outer p') -> rtc (lies_in s) g g'.
Proof.
  revert g p. induction (lt_wf n) as [n _ IH]. intros g p E E' H. assert (OG : outer_of s !! g = Some (outer p)) by (by rewrite lookup_fmap, E). assert (OG' : outer_of s !! g' = Some (outer p')) by (by rewrite lookup_fmap, E').
  destruct n as [|n].
  - assert (Z : outer p = outer p') by (by inversion H). rewrite <- Z in OG'. assert (A := n_out _ _ _ (g_nest _ G) _ _ OG). assert (B := n_out _ _ _ (g_nest _ G) _ _ OG'). assert (g = g') as -> by congruence. apply rtc_refl.
  - inversion H; subst. destruct (outer_parent _ _ _ OG H1) as (h & o & L & O & Q & _). inversion H2; subst.
    + exfalso. assert (B := n_out _ _ _ (g_nest _ G) _ _ OG'). assert (h = g') as -> by congruence. assert (o = outer p') as -> by congruence.
      destruct (rank (outer p')) as [m Hm]; [rewrite lookup_fmap in Q; destruct (wires s !! outer p'); [eauto|done]|]. destruct m; [assert (Z : outer p' = 0) by (by inversion Hm); rewrite Z, n0 in Q; done|].
      inversion Hm as [|? ? y' ? S1 S2]; subst. assert (y' = outer p') as -> by congruence. assert (X := steps_fun _ n0 _ _ _ Hm S2). lia.
    + assert (y0 = o) as -> by congruence. assert (O2 := O). rewrite lookup_fmap in O. destruct (polys s !! h) as [ph|] eqn:Eh; [|done]. injection O as <-.
      apply rtc_l with h; [apply lies_in_iff; exists (outer p), y; done|]. apply (IH n1 ltac:(lia) h ph); done.
Qed.
Lemma lies_rtc g g' p p' : polys s !! g = Some p -> polys s !! g' = Some p' -> rtc (lies_in s) g g' -> rtc (step P) (outer p) (outer p').
Proof.
  intros E E' H. revert p E. induction H as [|g y g' S H IH]; intros p E; [assert (p = p') as -> by congruence; apply rtc_refl|].
  apply lies_in_iff in S as (o & h & A & B & C). rewrite lookup_fmap, E in A. injection A as <-. assert (OG : outer_of s !! g = Some (outer p)) by (by rewrite lookup_fmap, E).
  destruct (outer_parent _ _ _ OG B) as (y' & o & L & O & Q & _). assert (y' = y) as -> by congruence. rewrite lookup_fmap in O. destruct (polys s !! y) as [py|] eqn:Ey; [|done]. injection O as <-.
  apply rtc_l with h; [done|]. apply rtc_l with (outer py); [done|]. by apply IH.
Qed.
Lemma get_childs_ok g p : polys s !! g = Some p -> exists X, get_childs order g s = Ok X /\ forall g', g' ∈ X <-> is_Some (polys s !! g') /\ rtc (lies_in s) g' g.
Proof.
  intros E. destruct (rank (outer p)) as [k K].
  { assert (L := n_out _ _ _ (g_nest _ G) g (outer p)). rewrite lookup_fmap, E in L. specialize (L eq_refl). rewrite lookup_fmap in L. destruct (wires s !! outer p); [eauto|done]. }
  destruct (child_wires_ok (size (wires s)) (outer p) k ∅ K) as (l & C & N & L); [rewrite map_size_fmap; lia|intros x _; apply not_elem_of_empty|].
  unfold get_childs. rewrite E, C. eexists. split; [done|]. intros g'. rewrite elem_of_union, elem_of_singleton, elem_of_list_to_set, elem_of_list_omap. split.
  - intros [-> |(w & W & O)]; [split; [eauto|apply rtc_refl]|]. apply L in W. apply outer_here_iff in O. rewrite lookup_fmap in O. destruct (polys s !! g') as [p'|] eqn:E'; [|done]. injection O as <-.
    split; [eauto|]. apply rtc_nsteps in W as [n W]. by apply (rtc_lies n g' g p' p).
  - intros [[p' E'] H]. right. exists (outer p'). split; [apply L; by apply (lies_rtc g' g)|]. apply outer_here_iff. by rewrite lookup_fmap, E'.
Qed.
End Walk.
End State.
