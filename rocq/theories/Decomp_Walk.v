(** The walks around a point and along a wire end and list every side once. *)
From stdpp Require Import gmap list relations.
From Coq Require Import Lia.
From Verif Require Import Decomp_Model Decomp_Perm Decomp_Surgery Decomp_Eff Decomp_Tree Decomp_Inv.
Local Open Scope nat_scope.

Section Walk.
Context (f : gmap he he).
Hypothesis P : perm f.

Lemma walk_fuel n start seen h : NoDup seen -> (forall x, x ∈ seen -> is_Some (f !! x)) -> is_Some (f !! h) -> h ∉ seen ->
  (forall x, x ∈ h :: seen -> x = start \/ exists y, y ∈ seen /\ f !! y = Some x) -> size f < n + length seen ->
  exists l, walk n f start start h = Ok l /\ NoDup l /\ forall x, x ∈ l -> x ∉ seen.
Proof.
  revert seen h. induction n as [|n IH]; intros seen h N Ds Dh Nh Pr L.
  - exfalso. assert (X : size (list_to_set (h :: seen) : gset he) <= size (dom f : gset he)).
    { apply subseteq_size. intros x Hx. apply elem_of_list_to_set in Hx. apply elem_of_dom. apply elem_of_cons in Hx as [-> | Hx]; auto. }
    rewrite size_list_to_set in X by (by constructor). rewrite size_dom in X. cbn in X. lia.
  - cbn [walk]. destruct Dh as [k Ek]. rewrite Ek. destruct (decide (k = start)) as [-> | D].
    + exists [h]. split; [done|]. split; [apply NoDup_singleton|]. by intros x ->%elem_of_list_singleton.
    + assert (Nk : k ∉ h :: seen).
      { intros X. destruct (Pr k X) as [?|(y & Y1 & Y2)]; [done|]. assert (y = h) as -> by (by eapply (proj1 P)). done. }
      destruct (IH (h :: seen) k) as (l & -> & N' & Nl).
      * by constructor.
      * intros x [-> | Hx]%elem_of_cons; eauto.
      * by eapply (proj2 P).
      * done.
      * intros x [-> | Hx]%elem_of_cons; [right; exists h; split; [left|done]|]. destruct (Pr x Hx) as [?|(y & Y1 & Y2)]; [by left|]. right. exists y. split; [by right|done].
      * cbn. lia.
      * exists (h :: l). split; [done|]. split.
        -- constructor; [|done]. intros X. apply (Nl h X). left.
        -- intros x [-> | Hx]%elem_of_cons; [done|]. intros Y. apply (Nl x Hx). by right.
Qed.
Lemma walk_full h : is_Some (f !! h) -> exists l, walk (S (size f)) f h h h = Ok l /\ NoDup l /\ forall x, x ∈ l <-> reach f h x.
Proof.
  intros Dh. destruct (walk_fuel (S (size f)) h [] h) as (l & E & N & _); try done.
  - constructor.
  - by intros x ?%elem_of_nil.
  - by intros ?%elem_of_nil.
  - intros x ->%elem_of_list_singleton. by left.
  - cbn. lia.
  - exists l. split; [done|]. split; [done|]. intros x. apply walk_ok in E as (E1 & E2 & E3 & _). split.
    + intros Hx. specialize (E3 x Hx). eapply rtc_subrel; [|exact E3]. by intros a b [_ ?].
    + intros R. assert (G : forall y, y ∈ l -> reach f y x -> x ∈ l); [|by apply (G h)].
      clear R. intros y Hy R. induction R as [|y z x S R IH]; [done|]. apply IH.
      destruct (E2 y Hy) as (k & K1 & K2). unfold step in S. rewrite S in K1. injection K1 as <-. destruct K2 as [-> | [_ ?]]; done.
Qed.
End Walk.

Lemma around_walk n f st h : around n f st h = walk n (rot f) st st h.
Proof.
  revert h. induction n as [|n IH]; intros h; [done|]. cbn [around walk]. rewrite rot_lookup. destruct (f !! h) as [k|]; [|done]. cbn [fmap option_fmap option_map].
  destruct (decide (flip k = st)); [done|]. by rewrite IH.
Qed.
Lemma around_full f h : perm f -> closed_flip f -> is_Some (f !! h) ->
  exists l, around (S (size f)) f h h = Ok l /\ NoDup l /\ forall x, x ∈ l <-> reach (rot f) h x.
Proof.
  intros Pf Cf Dh. assert (size (rot f) = size f) as Sz by (unfold rot; by rewrite map_size_fmap).
  destruct (walk_full (rot f) (perm_rot f Pf Cf) h) as (l & E & L); [by apply rot_dom|]. exists l. by rewrite around_walk, <- Sz.
Qed.

Section Lists.
Context (s : st) (I : inv s).
Lemma segments_full p x : points s !! p = Some x -> exists l, point_segments p s = (Ok l, s) /\ NoDup l /\ forall h, h ∈ l <-> vtx s !! h = Some p.
Proof.
  intros E. assert (T := i_topo _ I). unfold point_segments, bind, get_pt, need. rewrite E. destruct (p_seg x) as [h0|] eqn:Es.
  - assert (V0 : vtx s !! h0 = Some p) by (apply (i_pts _ I); rewrite lookup_fmap, E; cbn; by rewrite Es).
    destruct (around_full (nxt s) h0) as (l & El & N & L); [apply T|apply T|apply (topo_dom_v _ _ _ _ T); eauto|].
    exists l. unfold segments_from, fuel. rewrite El. split; [done|]. split; [done|]. intros h. rewrite L. split.
    + intros R. apply (labels_same _ _ _ _ _ (perm_rot _ (t_perm _ _ _ T) (t_flip _ _ _ T)) (t_vtx _ _ _ T) V0 R).
    + intros V. by apply (proj2 (t_vtx _ _ _ T) h0 h p p V0 V).
  - exists []. split; [done|]. split; [constructor|]. intros h. split; [by intros ?%elem_of_nil|]. intros V. exfalso.
    apply (proj1 (proj2 (i_pts _ I)) p h); [|done]. rewrite lookup_fmap, E. cbn. by rewrite Es.
Qed.
Lemma segments_nodup p l : (forall h, h ∈ l <-> vtx s !! h = Some p) -> NoDup l -> NoDup (fst <$> l).
Proof.
  intros L N. apply NoDup_fmap_2_strong; [|done]. intros [g c] [g' c'] Hx Hy E. cbn in E. subst g'. apply L in Hx, Hy.
  destruct c, c'; try done; exfalso.
  - by apply (t_loop _ _ _ (i_topo _ I) (g, true) p).
  - by apply (t_loop _ _ _ (i_topo _ I) (g, false) p).
Qed.
Lemma wire_full w k : wir s !! k = Some w -> exists l, wire_segments w None None s = (Ok l, s) /\ NoDup l /\ forall h, h ∈ l <-> wir s !! h = Some w.
Proof.
  intros Wk. assert (T := i_topo _ I). destruct (i_live _ I _ _ Wk) as [q Hq]. destruct (i_seg _ I _ _ Wk) as (h0 & S0 & W0).
  rewrite lookup_fmap in Hq. rewrite lookup_fmap in S0. destruct (wires s !! w) as [x|] eqn:Ew; [|done]. cbn in Hq, S0. injection Hq as Hq. injection S0 as S0.
  destruct (walk_full (nxt s) (t_perm _ _ _ T) h0) as (l & El & N & L); [apply (topo_dom_l _ _ _ _ T); eauto|].
  exists l. unfold wire_segments, bind, get_wire, need. rewrite Ew, Hq, S0. unfold fuel. rewrite El. split; [done|]. split; [done|]. intros h. rewrite L. split.
  - intros R. apply (labels_same _ _ _ _ _ (t_perm _ _ _ T) (t_wir _ _ _ T) W0 R).
  - intros V. by apply (proj2 (t_wir _ _ _ T) h0 h w w W0 V).
Qed.
End Lists.
