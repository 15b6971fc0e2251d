(** Vertices of polygons and neighbours of wires. *)
From stdpp Require Import gmap list relations.
From Coq Require Import Lia.
From Verif Require Import Decomp_Model Decomp_Spec Decomp_Perm Decomp_Surgery Decomp_Eff Decomp_Tree Decomp_Inv Decomp_Nest Decomp_Good Decomp_Hist Decomp_Walk Decomp_Check.
From Verif Require Import Tree_Model Tree_Spec Tree_Proofs.
Local Open Scope nat_scope.

Lemma walk_chain n f start e h l : walk n f start e h = Ok l -> l !! 0 = Some h /\
  forall i x, l !! i = Some x -> exists k, f !! x = Some k /\ (l !! (S i) = Some k \/ (S i = length l /\ k = e)).
Proof.
  revert h l. induction n as [|n IH]; intros h l H; [done|]. cbn in H. destruct (f !! h) as [k|] eqn:E; [|done]. case_decide as D.
  - injection H as <-. split; [done|]. intros [|i] x X; [|done]. injection X as <-. exists k. split; [done|]. by right.
  - case_decide; [done|]. destruct (walk n f start e k) as [l'| |] eqn:W; try done. injection H as <-. destruct (IH _ _ W) as [A B]. split; [done|].
    intros [|i] x X; cbn in X.
    + injection X as <-. exists k. split; [done|]. by left.
    + destruct (B _ _ X) as (k' & F & [G|[G1 G2]]); exists k'; (split; [done|]); [by left|right]. split; [cbn; lia|done].
Qed.
Lemma each_of_ok {A B} (f : A -> st -> option B) l s : (forall x, x ∈ l -> is_Some (f x s)) -> exists r, each_of (fun x => need (f x)) l s = (Ok r, s) /\ length r = length l /\ forall i, r !! i = l !! i ≫= fun x => f x s.
Proof.
  induction l as [|x l IH]; intros H; [exists []; split; [done|]; split; [done|]; by intros []|].
  destruct (H x) as [b E]; [by left|]. destruct IH as (r & R & L & A1); [intros y Y; apply H; by right|].
  exists (b :: r). cbn. unfold bind, need at 1. rewrite E. rewrite R. split; [done|]. split; [cbn; by rewrite L|]. intros [|i]; cbn; [done|apply A1].
Qed.
Section Walks.
Context (s : st).
Hypothesis G : good s.
Lemma outer_wire_sides g p : polys s !! g = Some p -> g <> 0 -> exists k, wir s !! k = Some (outer p).
Proof.
  intros E D. assert (N := g_nest _ G). assert (O : outer_of s !! g = Some (outer p)) by (by rewrite lookup_fmap, E). assert (L := n_out _ _ _ N _ _ O).
  apply (g_use _ G); [apply (n_dom _ _ _ N); eauto|]. intros Z. rewrite Z in L. assert (L0 := n_out _ _ _ N _ _ (n_out0 _ _ _ N)). congruence.
Qed.
(** Sides of a wire in order. *)
Lemma wire_chain w k : wir s !! k = Some w -> exists l, wire_segments w None None s = (Ok l, s) /\ lists l (fun h => wir s !! h = Some w) /\ round s w l.
Proof.
  intros Wk. destruct (wire_full s (g_inv _ G) w k Wk) as (l & E & N & L). exists l. split; [done|]. split; [done|].
  assert (E' := E). unfold wire_segments, bind, get_wire, need, fuel in E'. destruct (wires s !! w) as [x|] eqn:Ew; [|done]. destruct (parent x) as [q|] eqn:Eq.
  2:{ destruct (i_live _ (g_inv _ G) _ _ Wk) as [q Hq]. rewrite lookup_fmap, Ew in Hq. cbn in Hq. congruence. }
  destruct (w_seg x) as [a|] eqn:Ea; [|done]. injection E' as E'. destruct (walk_chain (S (size (nxt s))) (nxt s) a a a l E') as [A B]. split.
  { exists x. split; [done|]. rewrite Ea. by destruct l. }
  intros i h H. destruct (B _ _ H) as (h' & F & [C|[C1 C2]]); exists h'; (split; [done|]).
  - assert (S i < length l) by (by eapply lookup_lt_Some). by rewrite Nat.mod_small.
  - rewrite <- C1, Nat.mod_same by lia. by subst h'.
Qed.
Lemma vertices_ok g p : polys s !! g = Some p -> g <> 0 -> exists l hs, vertices g s = (Ok l, s) /\ lists hs (fun h => wir s !! h = Some (outer p)) /\
  round s (outer p) hs /\ closed_walk s hs l.
Proof.
  intros E D. destruct (outer_wire_sides g p E D) as [k K]. destruct (wire_chain _ _ K) as (hs & Eh & L & C). assert (H := inv_half _ (g_inv _ G)). destruct H as (_ & H1 & H2 & _).
  assert (V : forall h, h ∈ hs -> is_Some (vtx s !! h)). { intros h X. apply L in X. apply H1. apply (proj2 (H1 h)). eauto. }
  destruct (each_of_ok (fun h s => vtx s !! h) hs s V) as (l & El & Ll & Al). exists l, hs. split; [|split; [done|split; [done|split; [done|]]]].
  - unfold vertices, bind, get_poly, need at 1. rewrite E, Eh. exact El.
  - intros i Li. rewrite Ll in Li. destruct (lookup_lt_is_Some_2 _ _ Li) as [h Hi]. destruct (proj2 C _ _ Hi) as (h' & Nx & Hn). destruct (H2 _ _ Nx) as [_ Fl].
    destruct (V h) as [q Q]; [by eapply elem_of_list_lookup_2|]. destruct (V h') as [q' Q']; [by eapply elem_of_list_lookup_2|]. exists q, q', h'.
    split; [by rewrite Al, Hi|]. split; [by rewrite Al, Ll, Hn|]. split; [by rewrite Ll|]. split; [by rewrite Fl|done].
Qed.
Lemma neighbors_ok w k : wir s !! k = Some w -> exists l, neighbors w s = (Ok l, s) /\ forall w', w' ∈ l <-> exists h, wir s !! h = Some w /\ wir s !! flip h = Some w'.
Proof.
  intros K. destruct (wire_chain _ _ K) as (hs & Eh & L & C). assert (H := inv_half _ (g_inv _ G)). destruct H as (H0 & H1 & H2 & _).
  assert (V : forall h, h ∈ hs -> is_Some (wir s !! flip h)).
  { intros [g c] X. apply L in X. apply H1. apply (inv_live s g (negb c) (g_inv _ G)). apply (inv_live s g c (g_inv _ G)). apply H1. eauto. }
  destruct (each_of_ok (fun h s => wir s !! flip h) hs s V) as (l & El & Ll & Al). exists l. split.
  - unfold neighbors, bind. rewrite Eh. exact El.
  - intros w'. split.
    + intros [i Hi]%elem_of_list_lookup. rewrite Al in Hi. destruct (hs !! i) as [h|] eqn:Hh; [|done]. exists h. split; [apply L; by eapply elem_of_list_lookup_2|done].
    + intros (h & A & B). apply L in A. apply elem_of_list_lookup in A as [i A]. apply elem_of_list_lookup. exists i. rewrite Al, A. done.
Qed.
End Walks.
