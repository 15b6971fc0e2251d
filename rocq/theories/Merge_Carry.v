(** Maps of earlier decompositions after the next merge. *)
From Coq Require Import Lia.
From stdpp Require Import gmap list relations functions.
From Verif Require Import Decomp_Model Decomp_Spec Aabb_Model Geom_Model Editor_Model Editor_Spec Snap_Spec Merge_Model Merge_Spec Merge_Dict.
Local Open Scope nat_scope.

(** Values map to themselves. *)
Definition settled (c : dict nat) : Prop := forall n o, dget n c = Some o -> origin c o = o.
Lemma carry_uniq c : forall one one', carry c one = Some one' -> uniq one -> uniq one'.
Proof.
  induction c as [|[n o] c IH]; intros one one' H U; cbn in H; [by injection H as <-|]. destruct (dget o one) as [v|]; [|by eapply IH].
  destruct (match dget n one with None => true | Some _ => n =? o end); [|done]. eapply IH; [exact H|by apply uniq_dput].
Qed.
Lemma carry_get c : uniq c -> forall one one', (forall n o u, In (n, o) c -> In (o, u) c -> u = o) -> carry c one = Some one' ->
  forall g, dget g one' = match dget g c with Some o => match dget o one with Some v => Some v | None => dget g one end | None => dget g one end.
Proof.
  induction c as [|[n o] c IH]; intros U one one' SE H g; [cbn in *; by injection H as <-|]. unfold uniq in U. apply list.NoDup_cons in U as [N U]. cbn in H.
  assert (SE' : forall n o u, In (n, o) c -> In (o, u) c -> u = o) by (intros n' o' u I J; eapply SE; right; done).
  assert (NN : forall u, ~ In (n, u) c). { intros u I. apply N. apply elem_of_list_fmap. exists (n, u). split; [done|]. by apply elem_of_list_In. }
  assert (NG : dget n c = None). { destruct (dget n c) as [u|] eqn:E; [|done]. apply (dget_in _ _ _ U) in E. by apply NN in E. }
  (* the value of another key is never this key *)
  assert (OV : forall i x, dget i c = Some x -> n <> x \/ o = x). { intros i x E. destruct (decide (n = x)) as [<- |D]; [right|by left]. apply (dget_in _ _ _ U) in E. eapply (SE i n o); [by right|by left]. }
  cbn [dget]. destruct (dget o one) as [v|] eqn:E.
  - destruct (match dget n one with None => true | Some _ => n =? o end) eqn:B; [|done]. rewrite (IH U _ _ SE' H g). rewrite !dget_dput. destruct (Nat.eqb_spec n g) as [<- |D].
    + rewrite NG. by rewrite E.
    + destruct (dget g c) as [x|] eqn:G; [|done]. rewrite dget_dput. destruct (Nat.eqb_spec n x) as [<- |D']; [|done]. destruct (OV _ _ G) as [X| ->]; [done|]. by rewrite E.
  - rewrite (IH U _ _ SE' H g). destruct (Nat.eqb_spec n g) as [<- |D]; [|done]. by rewrite NG, E.
Qed.
Section Carry.
Context (c one one' : dict nat) (U : uniq c) (U1 : uniq one) (SE : settled c) (H : carry c one = Some one').
Lemma carry_settled : forall g, dget g one' = match dget (origin c g) one with Some v => Some v | None => dget g one end.
Proof.
  intros g. rewrite (carry_get c U one one'); [|intros n o u I J|done].
  - unfold origin. destruct (dget g c); [done|]. by destruct (dget g one).
  - apply (dget_in _ _ _ U) in I, J. assert (X := SE _ _ I). unfold origin in X. by rewrite J in X.
Qed.
(** Values stay. *)
Lemma carry_value i v : In (i, v) one -> In (i, v) one'.
Proof.
  intros I. apply (dget_in _ _ _ U1) in I. apply (dget_in _ _ _ (carry_uniq _ _ _ H U1)). revert one U1 H I. clear SE. induction c as [|[n o] c' IH]; intros m UM Hm I; cbn in Hm; [by injection Hm as <-|].
  unfold uniq in U. apply list.NoDup_cons in U as [_ U']. destruct (dget o m) as [x|] eqn:E; [|by apply (IH U' m)].
  destruct (match dget n m with None => true | Some _ => n =? o end) eqn:B; [|done]. apply (IH U' (dput n x m)); [by apply uniq_dput|done|]. rewrite dget_dput. destruct (Nat.eqb_spec n i) as [-> |D]; [|done]. rewrite I in B. apply Nat.eqb_eq in B as ->. congruence.
Qed.
End Carry.
