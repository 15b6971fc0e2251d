(** The invariant gives the structure that is claimed in Decomp_Spec.v. *)
From stdpp Require Import gmap list relations.
From Coq Require Import Lia.
From Verif Require Import Decomp_Model Decomp_Spec Decomp_Perm Decomp_Surgery Decomp_Eff Decomp_Tree Decomp_Inv Decomp_Planar Decomp_Nest Decomp_Good Decomp_Hist Decomp_Walk.
Local Open Scope nat_scope.

Lemma inv_live s g c : inv s -> is_Some (vec s !! g) <-> is_Some (nxt s !! (g, c)).
Proof.
  intros I. assert (T := i_topo _ I). rewrite (i_vec _ I), (topo_dom_v _ _ _ _ T). destruct c; [|done].
  split; intros X; [apply (t_flip _ _ _ T (g, false)) in X|apply (t_flip _ _ _ T (g, true)) in X]; done.
Qed.
Lemma inv_half s : inv s -> half_edges s.
Proof.
  intros I. assert (T := i_topo _ I). split; [intros; by apply inv_live|]. split; [|split; [|split; [|split]]].
  - intros h. by rewrite (topo_dom_v _ _ _ _ T), (topo_dom_l _ _ _ _ T).
  - intros h k E. split; [by apply (t_perm _ _ _ T) in E|].
    by apply (topo_org _ _ _ _ _ T).
  - apply (t_perm _ _ _ T).
  - intros h k w x. apply (t_wir _ _ _ T).
  - apply (t_loop _ _ _ T).
Qed.

Lemma wire_ok s w x : good s -> wires s !! w = Some x ->
  (forall c, c ∈ childs x -> is_Some (wires s !! c)) /\
  (exists g p o, w_poly x = Some g /\ polys s !! g = Some p /\ wires s !! outer p = Some o /\ (w = outer p \/ w ∈ childs o)) /\
  match parent x with
  | None => exists p, polys s !! 0 = Some p /\ w = outer p
  | Some q => (exists h, w_seg x = Some h /\ is_Some (vec s !! fst h) /\ wir s !! h = Some w) /\ exists y, wires s !! q = Some y /\ w ∈ childs y
  end.
Proof.
  intros G Ex. assert (I := g_inv _ G). assert (N := g_nest _ G). destruct (g_tl _ G) as [T1 T2].
  assert (Pw : par_of s !! w = Some (parent x)) by (by rewrite lookup_fmap, Ex).
  assert (Kid : forall q y, parent x = Some q -> wires s !! q = Some y -> w ∈ childs y).
  { intros q y Eq Ey. destruct (T2 q w) as (y' & Ey' & C); [by rewrite Pw, Eq|eauto| |set_solver|congruence].
    intros ->. apply (n_self _ _ _ N q). by rewrite Pw, Eq. }
  split; [|split].
  - intros c C. assert (X : par_of s !! c = Some (Some w)) by (apply T1; exists x; done). rewrite lookup_fmap in X. destruct (wires s !! c); [eauto|done].
  - destruct (n_wire _ _ _ N w ltac:(eauto)) as (g & o & L & O & C). rewrite lookup_fmap, Ex in L. cbn in L.
    assert (Lo := out_live _ _ _ N _ _ O). rewrite lookup_fmap in O. destruct (polys s !! g) as [p|] eqn:Ep; [|done]. cbn in O. injection O as <-.
    rewrite lookup_fmap in Lo. destruct (wires s !! outer p) as [y|] eqn:Ey; [|by destruct Lo]. exists g, p, y. split; [congruence|]. split; [done|]. split; [done|].
    destruct C as [C|C]; [by left|right]. eapply Kid; [|done]. congruence.
  - destruct (parent x) as [q|] eqn:Eq.
    + assert (D0 : w <> 0) by (by apply (n_ne _ _ _ N _ _ Pw)). destruct (g_use _ G w ltac:(eauto) D0) as [k Wk].
      destruct (i_seg _ I _ _ Wk) as (h & Sh & Wh). split.
      * exists h. rewrite lookup_fmap, Ex in Sh. split; [by injection Sh|]. split; [|done]. destruct h as [g c]. cbn. rewrite (inv_live _ _ c I).
        rewrite <- (topo_dom_l _ _ _ _ (i_topo _ I)). eauto.
      * assert (Lq := n_par _ _ _ N _ _ Pw). rewrite lookup_fmap in Lq. destruct (wires s !! q) as [y|] eqn:Ey; [|by destruct Lq]. exists y. split; [done|]. by eapply Kid.
    + apply (n_roots _ _ _ N) in Pw as ->. assert (O := n_out0 _ _ _ N). rewrite lookup_fmap in O. destruct (polys s !! 0) as [p|]; [|done]. exists p.
      split; [done|]. by injection O.
Qed.
Lemma good_consistent s last : good s -> some_wire s last -> consistent s last.
Proof.
  intros G Hl. assert (I := g_inv _ G). assert (N := g_nest _ G). assert (T := i_topo _ I). destruct (i_pts _ I) as (P1 & P2 & P3). destruct (i_free _ I) as [F1 F2].
  split; [|split; [|split; [|split]]].
  - intros g p Ep. assert (O : outer_of s !! g = Some (outer p)) by (by rewrite lookup_fmap, Ep). apply (n_out _ _ _ N) in O.
    rewrite lookup_fmap in O. destruct (wires s !! outer p) as [x|] eqn:Ex; [|done]. split; [exists x; split; [done|by injection O]|].
    intros v Hv. by apply (F2 g p v).
  - intros w x. by apply wire_ok.
  - intros g Lg.
    assert (W : forall c, exists w, wir s !! (g, c) = Some w) by (intros c; apply (topo_dom_l _ _ _ _ T), (inv_live _ _ _ I); done).
    assert (V : forall g, is_Some (vec s !! g) -> forall c, exists p, vtx s !! (g, c) = Some p) by (intros g' Lg' c; apply (topo_dom_v _ _ _ _ T), (inv_live _ _ _ I); done).
    split.
    + destruct last as [w|].
      * destruct Hl as (x & q & Ex & Eq). destruct (wire_ok _ _ _ G Ex) as (_ & _ & C). rewrite Eq in C. destruct C as [(h & Sh & Lh & _) _].
        destruct (V _ Lh false) as [a Va], (V _ Lh true) as [b Vb]. exists w, x, h, a, b. repeat (split; [done|]). exists (fst h). by apply (i_pair _ I).
      * exfalso. destruct (W true) as [w Ww]. destruct (i_live _ I _ _ Ww) as [q Pq]. rewrite lookup_fmap in Pq. destruct (wires s !! w) as [x|] eqn:Ex; [|done].
        injection Pq as Pq. by apply (Hl w x q).
    + intros c. destruct (V _ Lg c) as [p Vp]. destruct (W c) as [w Ww]. destruct (proj1 (inv_live _ _ c I) Lg) as [k Nk].
      destruct (i_live _ I _ _ Ww) as [q Pq]. rewrite lookup_fmap in Pq. destruct (wires s !! w) as [x|] eqn:Ex; [|done].
      destruct (i_seg _ I _ _ Ww) as (h & Sh & Wh). rewrite lookup_fmap, Ex in Sh. injection Sh as Sh.
      assert (Lp := P3 _ _ Vp). rewrite lookup_fmap in Lp. destruct (points s !! p) as [y|] eqn:Ey; [|by destruct Lp].
      destruct (segments_full s I p y Ey) as (l & El & _ & Hm).
      exists p, w, k, x, h, l. split; [done|]. split; [eauto|]. split; [done|]. split; [done|]. split; [done|]. split.
      { destruct k as [gk ck]. cbn. rewrite (inv_live _ _ ck I). by apply (t_perm _ _ _ T) in Nk. }
      split; [done|]. split; [apply elem_of_list_fmap; exists (g, c); split; [done|by apply Hm]|]. split; [done|]. split; [done|].
      rewrite <- Ww. apply (topo_lab _ _ _ _ _ T Nk).
  - intros a b g E. apply (i_pair _ I) in E as [Va Vb]. split; [|done]. apply (i_vec _ I). eauto.
  - intros p x Ex. assert (F := F1 _ _ Ex). destruct (p_seg x) as [h|] eqn:Sh; [|done].
    assert (Vh : vtx s !! h = Some p) by (apply P1; rewrite lookup_fmap, Ex; cbn; by rewrite Sh). split; [|done].
    destruct h as [g c]. cbn. rewrite (inv_live _ _ c I), <- (topo_dom_v _ _ _ _ T). eauto.
Qed.
