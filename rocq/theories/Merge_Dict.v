(** Dicts as lists. *)
From stdpp Require Import functions gmap list.
From Verif Require Import Merge_Model Merge_Spec.
Local Open Scope nat_scope.

Definition uniq {A} (l : dict A) : Prop := NoDup (fst <$> l).
Lemma dget_in {A} k (v : A) l : uniq l -> dget k l = Some v <-> In (k, v) l.
Proof.
  induction l as [|[i u] l IH]; intros U; [done|]. unfold uniq in *. apply NoDup_cons in U as [N U]. cbn. destruct (Nat.eqb_spec i k) as [-> | D].
  - split; [intros E; injection E as ->; by left|]. intros [E|E]; [congruence|]. exfalso. apply N. apply elem_of_list_fmap. exists (k, v). split; [done|]. by apply elem_of_list_In.
  - rewrite IH by done. split; [auto|]. intros [E|E]; [congruence|done].
Qed.
Lemma dget_key {A} k (l : dict A) : is_Some (dget k l) <-> k ∈ fst <$> l.
Proof.
  induction l as [|[i u] l IH]; cbn; [split; [by intros []|by intros ?%elem_of_nil]|]. rewrite elem_of_cons. destruct (Nat.eqb_spec i k) as [-> | D]; [split; eauto|]. rewrite IH. split; [auto|]. intros [E|E]; [congruence|done].
Qed.
Lemma dget_dput {A} k i (v : A) l : dget k (dput i v l) = if i =? k then Some v else dget k l.
Proof.
  induction l as [|[j u] l IH]; cbn; [done|]. destruct (Nat.eqb_spec j i) as [-> | D]; cbn.
  - destruct (Nat.eqb_spec i k); done.
  - destruct (Nat.eqb_spec j k) as [-> | D']; [destruct (Nat.eqb_spec i k); congruence|]. done.
Qed.
Lemma dget_app {A} k (l l' : dict A) : dget k (l ++ l') = match dget k l with Some v => Some v | None => dget k l' end.
Proof. induction l as [|[i u] l IH]; cbn; [done|]. by destruct (i =? k). Qed.
Lemma dget_dset {A} k i (v : A) l : dget k (dset i v l) = match dget k l with Some u => Some u | None => if i =? k then Some v else None end.
Proof.
  unfold dset. destruct (dget i l) as [u|] eqn:E.
  - destruct (dget k l) as [w|] eqn:E'; [done|]. destruct (Nat.eqb_spec i k); congruence.
  - by rewrite dget_app.
Qed.
Lemma dput_keys {A} k i (v : A) l : k ∈ fst <$> dput i v l <-> k = i \/ k ∈ fst <$> l.
Proof. rewrite <- !dget_key, dget_dput. destruct (Nat.eqb_spec i k) as [-> | D]; [split; eauto|]. split; [auto|]. intros [E|E]; [congruence|done]. Qed.
Lemma uniq_dput {A} i (v : A) l : uniq l -> uniq (dput i v l).
Proof.
  unfold uniq. induction l as [|[j u] l IH]; intros U; [cbn; repeat constructor; by intros ?%elem_of_nil|]. apply NoDup_cons in U as [N U]. cbn. destruct (Nat.eqb_spec j i) as [-> | D]; cbn; [by constructor|].
  constructor; [|by apply IH]. cbn. rewrite dput_keys. intros [E|E]; [congruence|done].
Qed.
Lemma uniq_dset {A} i (v : A) l : uniq l -> uniq (dset i v l).
Proof.
  unfold dset. intros U. destruct (dget i l) as [u|] eqn:E; [done|]. unfold uniq. rewrite fmap_app. apply NoDup_app. split; [done|]. split; [|repeat constructor; by intros ?%elem_of_nil].
  intros x X Y. cbn in Y. apply elem_of_list_singleton in Y as ->. apply dget_key in X. rewrite E in X. by destruct X.
Qed.
Lemma origin_dput i v l k : origin (dput i v l) k = (<[i := v]> (origin l) : nat -> nat) k.
Proof.
  unfold origin at 1. rewrite dget_dput. destruct (Nat.eqb_spec i k) as [-> | D]; [by rewrite fn_lookup_insert|by rewrite fn_lookup_insert_ne].
Qed.
Lemma origin_dset i l k : origin (dset i i l) k = origin l k.
Proof. unfold origin. rewrite dget_dset. destruct (dget k l); [done|]. by destruct (Nat.eqb_spec i k). Qed.
Lemma says_origin l k v : uniq l -> says l k v <-> origin l k = v.
Proof.
  intros U. unfold says, origin. destruct (dget k l) as [u|] eqn:E.
  - assert (E' := E). apply (dget_in _ _ _ U) in E'. split.
    + intros [I|[-> N]]; [|by destruct (N u)]. apply (dget_in _ _ _ U) in I. congruence.
    + intros <-. by left.
  - assert (N : forall u, ~ In (k, u) l) by (intros u I; apply (dget_in _ _ _ U) in I; congruence). split.
    + intros [I|[-> _]]; [by destruct (N v)|done].
    + intros <-. by right.
Qed.
