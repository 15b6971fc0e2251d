(** A wire made from a list of segments. *)
From stdpp Require Import gmap list relations.
From Coq Require Import Lia.
From Verif Require Import Decomp_Model Decomp_Spec Decomp_Perm Decomp_Eff Decomp_Tree Decomp_Inv Build_Model Build_Spec.
Local Open Scope nat_scope.

Lemma bind_ok {A B} (m : M A) (f : A -> M B) s a s' : m s = (Ok a, s') -> bind m f s = f a s'.
Proof. intros H. unfold bind. by rewrite H. Qed.
Lemma need_ok {A} (f : st -> option A) s a : f s = Some a -> need f s = (Ok a, s).
Proof. intros H. unfold need. by rewrite H. Qed.

(** Links along a list of sides, from [h] on. *)
Fixpoint lk (f : gmap he he) (h : he) (l : list he) : gmap he he := match l with [] => f | k :: r => lk (<[h := k]> f) k r end.
Fixpoint lb (m : gmap he nat) (w : nat) (h : he) (l : list he) : gmap he nat := match l with [] => m | k :: r => lb (<[h := w]> m) w k r end.
Fixpoint final (h : he) (l : list he) : he := match l with [] => h | k :: r => final k r end.
(** Following the links from [h] gives the list and then [t]. *)
Fixpoint goes (f : gmap he he) (h : he) (l : list he) (t : he) : Prop :=
  match l with [] => f !! h = Some t | k :: r => f !! h = Some k /\ goes f k r t end.

Lemma final_in h l : final h l ∈ h :: l.
Proof. revert h. induction l as [|k l IH]; intros h; [left|]. cbn. right. apply IH. Qed.
Lemma lk_other f h l t x : x ∉ h :: l -> <[final h l := t]> (lk f h l) !! x = f !! x.
Proof.
  revert f h. induction l as [|k l IH]; intros f h N; cbn.
  - rewrite lookup_insert_ne; [done|]. intros ->. apply N. left.
  - rewrite IH; [|intros E; apply N; by right]. rewrite lookup_insert_ne; [done|]. intros ->. apply N. left.
Qed.
Lemma lk_goes f h l t : NoDup (h :: l) -> goes (<[final h l := t]> (lk f h l)) h l t.
Proof.
  revert f h. induction l as [|k l IH]; intros f h N; cbn.
  - by rewrite lookup_insert.
  - apply NoDup_cons in N as [N1 N2]. split; [|by apply IH]. rewrite lk_other by done. by rewrite lookup_insert.
Qed.
Lemma lb_at m w h l x : <[final h l := w]> (lb m w h l) !! x = if decide (x ∈ h :: l) then Some w else m !! x.
Proof.
  revert m h. induction l as [|k l IH]; intros m h; cbn.
  - destruct (decide (x ∈ [h])) as [E%elem_of_list_singleton|E]; [subst; by rewrite lookup_insert|]. rewrite lookup_insert_ne; [done|]. intros ->. apply E. left.
  - rewrite IH. destruct (decide (x ∈ k :: l)) as [E|E]; destruct (decide (x ∈ h :: k :: l)) as [E'|E']; try done.
    + exfalso. apply E'. by right.
    + apply elem_of_cons in E' as [-> | E']; [|done]. by rewrite lookup_insert.
    + rewrite lookup_insert_ne; [done|]. intros ->. apply E'. left.
Qed.
Lemma goes_in f h l t x : goes f h l t -> x ∈ h :: l -> is_Some (f !! x).
Proof.
  revert h. induction l as [|k l IH]; intros h G E; cbn in G.
  - apply elem_of_list_singleton in E as ->. eauto.
  - destruct G as [G1 G2]. apply elem_of_cons in E as [-> | E]; [eauto|]. by apply (IH k).
Qed.
Lemma goes_sub f f' h l t : f ⊆ f' -> goes f h l t -> goes f' h l t.
Proof. intros S. revert h. induction l as [|k l IH]; intros h; cbn; [intros E; exact (lookup_weaken _ _ _ _ E S)|]. intros [A B]. split; [by eapply lookup_weaken|by apply IH]. Qed.
Lemma goes_walk n f h l t : goes f h l t -> t ∉ l -> length l < n -> walk n f t t h = Ok (h :: l).
Proof.
  revert n h. induction l as [|k l IH]; intros [|n] h G N L; cbn in L; try lia; cbn [walk].
  - cbn in G. rewrite G. by rewrite decide_True.
  - destruct G as [G1 G2]. rewrite G1. apply not_elem_of_cons in N as [N1 N2]. rewrite !decide_False by done. rewrite (IH n k G2 N2); [done|lia].
Qed.
Lemma goes_fuel s h l t : goes (nxt s) h l t -> NoDup (h :: l) -> length l < fuel s.
Proof.
  intros G N. unfold fuel. assert (X : size (list_to_set (h :: l) : gset he) <= size (dom (nxt s) : gset he)).
  { apply subseteq_size. intros x. rewrite elem_of_list_to_set. intros E. apply elem_of_dom. by apply (goes_in _ _ _ _ _ G). }
  rewrite size_list_to_set in X by done. rewrite size_dom in X. cbn in X. lia.
Qed.
(** Links give the list of the wire. *)
Lemma goes_segments s w x h l q : wires s !! w = Some x -> parent x = Some q -> w_seg x = Some h -> goes (nxt s) h l h -> NoDup (h :: l) ->
  wire_segments w None None s = (Ok (h :: l), s).
Proof.
  intros W P X G N. unfold wire_segments. rewrite (bind_ok _ _ s x s) by (by apply need_ok). rewrite P. unfold bind, need. rewrite X.
  rewrite (goes_walk _ _ _ _ _ G); [done| |by apply (goes_fuel s h l h)]. by apply NoDup_cons in N as [N _].
Qed.

Lemma point_side_ok s g c p a b : vtx s !! (g, c) = Some p -> vtx s !! (g, negb c) = Some a -> a <> p -> point_side g p s = (Ok (Some c), s) /\ (b <> p -> b <> a -> point_side g b s = (Ok None, s)).
Proof.
  intros V1 V2 D. unfold point_side. destruct c; cbn [negb] in V2.
  - split; [|intros D1 D2]; rewrite (bind_ok _ _ s a s) by (by apply need_ok).
    + rewrite decide_False by done. rewrite (bind_ok _ _ s p s) by (by apply need_ok). by rewrite decide_True.
    + rewrite decide_False by done. rewrite (bind_ok _ _ s p s) by (by apply need_ok). by rewrite decide_False.
  - split; [|intros D1 D2]; rewrite (bind_ok _ _ s p s) by (by apply need_ok).
    + by rewrite decide_True.
    + rewrite decide_False by done. rewrite (bind_ok _ _ s a s) by (by apply need_ok). by rewrite decide_False.
Qed.

(** Sides have two different ends. *)
Definition ended (v : gmap he nat) (k : he) : Prop := exists a b, v !! k = Some a /\ v !! flip k = Some b /\ a <> b.
Definition set_links (f : gmap he he) (m : gmap he nat) (s : st) : st := set_wir m (set_nxt f s).
Lemma link_ok w h l t s : leads (vtx s) h l t -> (forall k, k ∈ h :: l -> ended (vtx s) k) ->
  link w h (List.map fst l) s = (Ok (final h l), set_links (lk (nxt s) h l) (lb (wir s) w h l) s).
Proof.
  revert h s. induction l as [|k l IH]; intros h s L E; cbn [List.map link lk lb final].
  - unfold ret, set_links. by destruct s.
  - destruct L as [L1 L2]. destruct (E h) as (p & _ & P & _ & _); [left|]. destruct (E k) as (a & b & A & B & D); [right; left|].
    rewrite (bind_ok _ _ s p s) by (by apply need_ok). destruct k as [g c]. cbn [fst] in *. change (flip (g, c)) with (g, negb c) in *. rewrite B, P in L1. injection L1 as ->.
    destruct (point_side_ok s g (negb c) p a 0 B) as [S _]; [by rewrite negb_involutive|done|].
    rewrite (bind_ok _ _ s _ s S). rewrite negb_involutive. unfold put_next, put_label, upd at 1 2. cbn [bind].
    rewrite IH; [|done|intros k E'; apply E; by right]. done.
Qed.

(** The exact effect of making a wire. *)
Definition made (s : st) (w : nat) (c : source) (g : nat) (h : he) (l : list he) : st :=
  St (points s) (vtx s) (<[final h l := h]> (lk (nxt s) h l)) (<[final h l := w]> (lb (wir s) w h l)) (vec s) (p2s s)
     (<[w := Wi (Some w) ∅ (Some g) (Some h)]> (wires s)) (polys s) (ip s) (is_ s) c (ig s) (last_change s).
Lemma make_wire_ok s g h l w c : ring (vtx s) (h :: l) -> clear (vtx s) (h :: l) -> new_id (iw s) = (w, c) ->
  make_wire (List.map fst (h :: l)) g s = (Ok w, made s w c g h l).
Proof.
  intros (NE & ND & L & E) CL ID. destruct l as [|k l]; [done|]. cbn [List.map make_wire].
  unfold new_wire. unfold bind at 1. rewrite ID. set (s1 := set_wires _ (set_iw c s)).
  assert (F : first_side (fst h) (fst k) s1 = (Ok h, s1)).
  { destruct (E h) as (p & q & P & Q & D); [left|]. destruct (E k) as (a & b & A & B & D'); [right; left|]. destruct L as [L1 _]. destruct h as [g0 c0], k as [g1 c1]. cbn [fst] in *.
    change (flip (g0, c0)) with (g0, negb c0) in *. change (flip (g1, c1)) with (g1, negb c1) in *. rewrite B, P in L1. injection L1 as ->. unfold first_side.
    destruct (point_side_ok s1 g1 (negb c1) p a q) as [S1 S2]; [done|by rewrite negb_involutive|done|]. destruct c0; cbn [negb] in *.
    - rewrite (bind_ok _ _ s1 q s1) by (by apply need_ok). cbn [clear] in CL.
      rewrite Q in CL. assert (q <> a /\ q <> p) as [N1 N2]. { destruct c1; cbn [negb] in B; rewrite A, B in CL; destruct CL as [C1 C2]; split; congruence. }
      rewrite (bind_ok _ _ s1 _ s1 (S2 N2 N1)). rewrite (bind_ok _ _ s1 p s1) by (by apply need_ok). by rewrite (bind_ok _ _ s1 _ s1 S1).
    - rewrite (bind_ok _ _ s1 p s1) by (by apply need_ok). by rewrite (bind_ok _ _ s1 _ s1 S1). }
  rewrite (bind_ok _ _ s1 h s1 F). change (fst k :: List.map fst l) with (List.map fst (k :: l)).
  rewrite (bind_ok _ _ s1 _ _ (link_ok w h (k :: l) h s1 L E)).
  unfold put_next, put_label, upd at 1 2. cbn [bind]. unfold put_wire_seg, get_wire, need, put_wire, upd. cbn [bind wires set_wir set_nxt set_links set_wires s1]. unfold bind. cbn [wires set_wir set_nxt set_links set_wires s1].
  rewrite lookup_insert. cbn. unfold put_wire_poly, bind, get_wire, need, put_wire, upd. cbn. rewrite lookup_insert. cbn. unfold ret, made. f_equal. cbn. f_equal. rewrite !insert_insert. done.
Qed.
