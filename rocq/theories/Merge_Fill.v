(** Filling the map of polygons. *)
From stdpp Require Import gmap list relations functions.
From Coq Require Import Lia QArith.
From Verif Require Import Decomp_Model Decomp_Spec Decomp_Surgery Decomp_Eff Decomp_Inv Decomp_Walk Decomp_Tree Decomp_Nest Decomp_Good Decomp_Told Decomp_Hist Editor_Model Editor_Spec.
From Verif Require Import Merge_Model Merge_Spec Merge_Sides Merge_Dict.
Local Open Scope nat_scope.

Lemma across_ok s g : good s -> is_Some (outer_of s !! g) -> exists ns, across s g = Ok ns /\ forall q, In q ns <-> beside s g q.
Proof.
  intros G [o O]. assert (I := g_inv _ G). assert (N := g_nest _ G). unfold across. assert (O' := O). rewrite lookup_fmap in O. destruct (polys s !! g) as [x|] eqn:E; [|done]. injection O as O.
  rewrite O. clear O.
  assert (PO : exists q, par_of s !! o = Some q). { assert (X := n_out _ _ _ N _ _ O'). assert (is_Some (par_of s !! o)) as [q Q] by (apply (n_dom _ _ _ N); eauto). eauto. }
  destruct PO as [[q|] PO].
  - destruct (g_use _ G o) as [k Wk]; [eauto|intros ->; assert (X := n_root _ _ _ N); congruence|]. destruct (wire_full s I o k Wk) as (l & El & _ & L). rewrite El. cbn [fst].
    assert (X : forall l', (forall h, In h l' -> wir s !! h = Some o) -> exists ns, mapM (fun h => poly_beside s (flip h)) l' = Some ns /\ forall z, In z ns <-> exists h, In h l' /\ poly_at s (flip h) = Some z).
    { induction l' as [|h l' IH]; intros W; [exists []; split; [done|]; intros z; split; [done|by intros (? & [] & _)]|].
      destruct IH as (ns & En & Ln); [intros; apply W; by right|]. assert (Wh := W h (or_introl eq_refl)).
      assert (exists z, poly_at s (flip h) = Some z) as [z Z].
      { assert (T := i_topo _ I). assert (is_Some (wir s !! flip h)) as [w W']. { apply (topo_dom_l _ _ _ _ T). apply (t_flip _ _ _ T). apply (topo_dom_l _ _ _ _ T). eauto. }
        destruct (good_side _ _ _ G W') as (z & o2 & A & B & _). exists z. apply poly_at_iff. eauto. }
      assert (Z' : poly_beside s (flip h) = Some z) by exact Z. exists (z :: ns). split; [|].
      { change (mapM (fun h => poly_beside s (flip h)) (h :: l')) with (y ← poly_beside s (flip h); ys ← mapM (fun h => poly_beside s (flip h)) l'; Some (y :: ys)). by rewrite Z', En. }
      intros z'. split; [intros [<- |Q]; [exists h; split; [by left|done]|]; apply Ln in Q as (h' & A & B); exists h'; split; [by right|done]|]. intros (h' & [-> |A] & B); [left; congruence|]. right. apply Ln. eauto. }
    destruct (X l) as (ns & En & Ln); [intros h Q; apply L; by apply elem_of_list_In|]. rewrite En. exists ns. split; [done|]. intros z. rewrite Ln. split.
    + intros (h & A & B). exists h, o. split; [done|]. split; [apply L; by apply elem_of_list_In|done].
    + intros (h & o2 & A & B & C). assert (o2 = o) as -> by congruence. exists h. split; [|done]. apply elem_of_list_In, L. done.
  - exists []. assert (W0 : exists w, wires s !! o = Some w /\ parent w = None). { rewrite lookup_fmap in PO. destruct (wires s !! o) as [w|]; [|done]. injection PO as PO. eauto. }
    destruct W0 as (w & Ew & W0). assert (El : wire_segments o None None s = (Ok [], s)) by (unfold wire_segments, bind, get_wire, need; by rewrite Ew, W0).
    rewrite El. split; [done|]. intros z. split; [done|].
    intros (h & o2 & A & B & C). assert (o2 = o) as -> by congruence. destruct (i_live _ I _ _ B) as [q Q]. congruence.
Qed.

Definition valued (m : dict (option nat)) (p : nat) : Prop := exists u, dget p m = Some (Some u).
Lemma push_spec ns m : forall st st', push_open ns m st = Some st' ->
  (forall n, In n ns -> valued m n \/ In n st') /\ (forall x, In x st' -> In x st \/ In x ns /\ dget x m = Some None) /\ (forall x, In x st -> In x st').
Proof.
  induction ns as [|n ns IH]; intros st st' H; cbn in H; [injection H as ->; split; [done|]; split; [auto|done]|].
  destruct (dget n m) as [[u|]|] eqn:E; [| |done]; destruct (IH _ _ H) as (A & B & C).
  - split; [|split; [|done]].
    + intros x [<- |X]; [left; by exists u|auto].
    + intros x X. destruct (B x X) as [Y|[Y Z]]; [by left|right; split; [by right|done]].
  - split; [|split].
    + intros x [<- |X]; [right; apply C; by left|auto].
    + intros x X. destruct (B x X) as [[<- |Y]|[Y Z]]; [right; split; [by left|done]|by left|right; split; [by right|done]].
    + intros x X. apply C. by right.
Qed.
Lemma push_some ns m : (forall n, In n ns -> is_Some (dget n m)) -> forall st, exists st', push_open ns m st = Some st'.
Proof.
  induction ns as [|n ns IH]; intros A st; [by eexists|]. cbn. destruct (A n) as [x E]; [by left|]. rewrite E. destruct x; apply IH; intros; apply A; by right.
Qed.

Section Fill.
Context (s : st) (G : good s) (m0 : dict (option nat)) (U0 : uniq m0).
Context (KY : forall p, is_Some (dget p m0) <-> is_Some (outer_of s !! p)).
(** While the value [v] spreads; [F] are the polygons it started from up to now. *)
Record going (F : nat -> Prop) (stack : list nat) (m : dict (option nat)) : Prop := Going {
  f_uniq : uniq m;
  f_keys : forall p, is_Some (dget p m) <-> is_Some (dget p m0);
  f_flow : forall p u, dget p m = Some (Some u) -> flows s m0 u p;
  f_given : forall p u, dget p m0 = Some (Some u) -> dget p m = Some (Some u);
  f_closed : forall p, valued m p -> dget p m0 = Some None \/ F p -> ~ In p stack -> forall q, beside s p q -> valued m q \/ In q stack }.
Definition on_way (v : nat) (p : nat) : Prop := flows s m0 v p /\ (dget p m0 = Some None \/ dget p m0 = Some (Some v)).
Lemma turn F g v stack m : going F (g :: stack) m -> on_way v g -> (forall p, In p stack -> on_way v p) ->
  exists ns stack', across s g = Ok ns /\ push_open ns (dput g (Some v) m) stack = Some stack' /\ going F stack' (dput g (Some v) m) /\ (forall p, In p stack' -> on_way v p).
Proof.
  intros [U KE FL GI CL] WG WS. assert (LG : is_Some (dget g m0)) by (destruct WG as [_ [-> | ->]]; eauto).
  destruct (across_ok s g G) as (ns & EA & AN); [by apply KY|]. set (m1 := dput g (Some v) m).
  assert (DM : forall p, dget p m1 = if g =? p then Some (Some v) else dget p m) by (intros p; apply dget_dput).
  assert (KE1 : forall p, is_Some (dget p m1) <-> is_Some (dget p m0)). { intros p. rewrite DM. destruct (Nat.eqb_spec g p) as [<- |D]; [split; eauto|apply KE]. }
  assert (BK : forall q, beside s g q -> is_Some (dget q m0)).
  { intros q (h & o & _ & _ & P). apply KY. apply poly_at_iff in P as (w & W & L). destruct (good_side _ _ _ G W) as (z & o2 & A & B & _). assert (z = q) as -> by congruence. eauto. }
  destruct (push_some ns m1) with (st := stack) as [st' E]; [intros n I; apply KE1, BK, AN, I|]. destruct (push_spec _ _ _ _ E) as (P1 & P2 & P3).
  assert (GI1 : forall p u, dget p m0 = Some (Some u) -> dget p m1 = Some (Some u)).
  { intros p u X. rewrite DM. destruct (Nat.eqb_spec g p) as [<- |D]; [|by apply GI]. destruct WG as [_ [Y|Y]]; congruence. }
  exists ns, st'. split; [done|]. split; [done|]. split.
  - constructor; [by apply uniq_dput|done| |done|].
    + intros p u X. rewrite DM in X. destruct (Nat.eqb_spec g p) as [<- |D]; [|by apply FL]. injection X as <-. apply WG.
    + intros p VP FP NP q B. destruct (decide (p = g)) as [-> |D]; [apply P1, AN, B|].
      assert (X : valued m q \/ In q (g :: stack)).
      { apply (CL p); [|done| |done].
        - destruct VP as [u VP]. rewrite DM in VP. destruct (Nat.eqb_spec g p); [congruence|]. by exists u.
        - intros [Y|Y]; [congruence|]. apply NP, P3, Y. }
      destruct X as [[u X]|[<- |X]].
      * left. destruct (decide (g = q)) as [<- |D']; [exists v; rewrite DM; by rewrite Nat.eqb_refl|]. exists u. rewrite DM. by destruct (Nat.eqb_spec g q).
      * left. exists v. rewrite DM. by rewrite Nat.eqb_refl.
      * right. by apply P3.
  - intros p X. destruct (P2 p X) as [Y|[Y Z]]; [by apply WS|].
    assert (Z0 : dget p m0 = Some None). { destruct (proj1 (KE1 p)) as [[u|] T]; [rewrite Z; eauto| |done]. apply GI1 in T. congruence. }
    split; [|by left]. apply (flow_step s m0 v g p); [apply WG|by apply AN|]. intros u Q. apply (dget_in _ _ _ U0) in Q. congruence.
Qed.
Lemma flood_run v k : forall F stack m m', going F stack m -> (forall p, In p stack -> on_way v p) -> flood k s v stack m = Ok m' -> going F [] m'.
Proof.
  induction k as [|k IH]; intros F stack m m' GO W H; [done|]. cbn in H. destruct stack as [|g stack]; [by injection H as <-|].
  destruct (turn F g v stack m GO) as (ns & st' & EA & EP & GO' & W'); [apply W; by left|intros; apply W; by right|]. rewrite EA, EP in H. by eapply IH.
Qed.
(** The values run out of polygons. *)
Definition open_of (m : dict (option nat)) : nat := length (List.filter (fun x => match snd x with None => true | Some _ => false end) m).
Lemma open_put g v m : dget g m = Some None -> S (open_of (dput g (Some v) m)) = open_of m.
Proof.
  unfold open_of. induction m as [|[i x] m IH]; [done|]. cbn. destruct (Nat.eqb_spec i g) as [-> |D]; intros E; [injection E as ->; done|]. cbn. destruct x; cbn; by rewrite IH.
Qed.
Lemma open_same g v m : valued m g -> open_of (dput g (Some v) m) = open_of m.
Proof.
  unfold open_of. intros [u E]. induction m as [|[i x] m IH]; [done|]. cbn in *. destruct (Nat.eqb_spec i g) as [-> |D]; [injection E as ->; done|]. cbn. destruct x; cbn; by rewrite IH.
Qed.
Lemma push_top ns m : forall st st', push_open ns m st = Some st' -> st' = st \/ exists g r, st' = g :: r /\ dget g m = Some None.
Proof.
  induction ns as [|n ns IH]; intros st st' H; cbn in H; [injection H as ->; by left|]. destruct (dget n m) as [[u|]|] eqn:E; [by apply IH| |done].
  destruct (IH _ _ H) as [-> |X]; [|by right]. right. eauto.
Qed.
Lemma flood_ends v : forall N F stack m, open_of m <= N -> going F stack m -> (forall p, In p stack -> on_way v p) -> exists k0 m', forall k, k0 <= k -> flood k s v stack m = Ok m'.
Proof.
  assert (DN : forall m, exists k0 m', forall k, k0 <= k -> flood k s v [] m = Ok m'). { intros m. exists 1, m. intros k L. destruct k; [lia|done]. }
  assert (ST : forall F g stack m, going F (g :: stack) m -> (forall p, In p (g :: stack) -> on_way v p) ->
    (forall ns stack', push_open ns (dput g (Some v) m) stack = Some stack' -> going F stack' (dput g (Some v) m) -> (forall p, In p stack' -> on_way v p) -> exists k0 m', forall k, k0 <= k -> flood k s v stack' (dput g (Some v) m) = Ok m') ->
    exists k0 m', forall k, k0 <= k -> flood k s v (g :: stack) m = Ok m').
  { intros F g stack m GO W NX. destruct (turn F g v stack m GO) as (ns & st' & EA & EP & GO' & W'); [apply W; by left|intros; apply W; by right|].
    destruct (NX ns st' EP GO' W') as (k0 & m' & K0). exists (S k0), m'. intros k L. destruct k; [lia|]. cbn. rewrite EA, EP. apply K0. lia. }
  induction N as [|N IH].
  - intros F stack. induction stack as [|g stack IHs]; intros m L GO W; [apply DN|]. apply (ST F g stack m GO W). intros ns st' EP GO' W'.
    assert (KM : is_Some (dget g m)). { apply (f_keys _ _ _ GO). destruct (proj2 (W g (or_introl eq_refl))) as [-> | ->]; eauto. }
    destruct KM as [[u|] KM]; [|apply (open_put g v) in KM; lia].
    assert (L1 : open_of (dput g (Some v) m) <= 0) by (rewrite open_same; [done|by exists u]).
    destruct (push_top _ _ _ _ EP) as [-> |(g' & r & -> & E)]; [by apply IHs|]. exfalso. apply (open_put g' v) in E. lia.
  - assert (TOP : forall F g stack m, open_of m <= S N -> dget g m = Some None -> going F (g :: stack) m -> (forall p, In p (g :: stack) -> on_way v p) -> exists k0 m', forall k, k0 <= k -> flood k s v (g :: stack) m = Ok m').
    { intros F g stack m L E GO W. apply (ST F g stack m GO W). intros ns st' EP GO' W'. apply (IH F); [|done|done]. apply (open_put g v) in E. lia. }
    intros F stack. induction stack as [|g stack IHs]; intros m L GO W; [apply DN|].
    assert (KM : is_Some (dget g m)). { apply (f_keys _ _ _ GO). destruct (proj2 (W g (or_introl eq_refl))) as [-> | ->]; eauto. }
    destruct KM as [[u|] KM]; [|by eapply TOP]. apply (ST F g stack m GO W). intros ns st' EP GO' W'.
    assert (L1 : open_of (dput g (Some v) m) <= S N) by (rewrite open_same; [done|by exists u]).
    destruct (push_top _ _ _ _ EP) as [-> |(g' & r & -> & E)]; [by apply IHs|]. by eapply TOP.
Qed.
Lemma going_next F g v m : going F [] m -> In (g, Some v) m0 -> going (fun p => F p \/ p = g) [g] m /\ forall p, In p [g] -> on_way v p.
Proof.
  intros [U KE FL GI CL] I. assert (E : dget g m0 = Some (Some v)) by (by apply (dget_in _ _ _ U0)). split.
  - constructor; try done. intros p V [N|[Fp| ->]] NI q B.
    + left. destruct (CL p V (or_introl N)) with (q := q) as [X|X]; [by intros []|done|done|done].
    + left. destruct (CL p V (or_intror Fp)) with (q := q) as [X|X]; [by intros []|done|done|done].
    + exfalso. apply NI. by left.
  - intros p [<- |[]]. split; [by apply flow_given|by right].
Qed.
Lemma all_run k items : forall F m m', (forall x, In x items -> In x m0) -> going F [] m -> flood_all k s items m = Ok m' -> going (fun p => F p \/ exists v, In (p, Some v) items) [] m'.
Proof.
  induction items as [|[g [v|]] items IH]; intros F m m' SU GO H; cbn in H.
  - injection H as <-. destruct GO as [U KE FL GI CL]. constructor; try done. intros p V [N|[Fp|[? []]]]; apply CL; auto.
  - destruct (flood k s v [g] m) as [m1| |] eqn:E; [|done|done]. destruct (going_next F g v m GO) as [GO1 W1]; [apply SU; by left|].
    assert (GO2 := flood_run _ _ _ _ _ _ GO1 W1 E). destruct (IH _ _ _ (fun x X => SU x (or_intror X)) GO2 H) as [U KE FL GI CL]. constructor; try done.
    intros p V [N|[Fp|[u [Q|Q]]]]; apply CL; try done; [by left|right; left; by left|right; left; right; congruence|right; right; eauto].
  - destruct (IH _ _ _ (fun x X => SU x (or_intror X)) GO H) as [U KE FL GI CL]. constructor; try done.
    intros p V [N|[Fp|[u [Q|Q]]]]; apply CL; try done; [by left|right; by left|right; right; eauto].
Qed.
Lemma all_ends items : forall F m, (forall x, In x items -> In x m0) -> going F [] m -> exists k0 m', forall k, k0 <= k -> flood_all k s items m = Ok m'.
Proof.
  induction items as [|[g [v|]] items IH]; intros F m SU GO; [by exists 0, m| |by apply (IH F); [intros x X; apply SU; by right|]].
  destruct (going_next F g v m GO) as [GO1 W1]; [apply SU; by left|]. destruct (flood_ends v _ _ _ _ (le_n _) GO1 W1) as (k0 & m1 & K0).
  assert (GO2 := flood_run _ _ _ _ _ _ GO1 W1 (K0 k0 (le_n _))). destruct (IH _ _ (fun x X => SU x (or_intror X)) GO2) as (k1 & m' & K1). exists (k0 + k1), m'. intros k L. cbn. rewrite K0 by lia. apply K1. lia.
Qed.
Lemma going_start : going (fun _ => False) [] m0.
Proof.
  constructor; try done.
  - intros p u E. apply flow_given. by apply (dget_in _ _ _ U0).
  - intros p [u V] [N|[]]. congruence.
Qed.
End Fill.
Lemma add_none l : forall (m : dict (option nat)), let m' := fold_left (fun m g => dset g None m) l m in (uniq m -> uniq m') /\ (forall p, is_Some (dget p m') <-> is_Some (dget p m) \/ In p l) /\ (forall p u, dget p m' = Some (Some u) <-> dget p m = Some (Some u)).
Proof.
  induction l as [|g l IH]; intros m; [cbn; split; [done|]; split; [|done]; intros p; split; [auto|by intros [?|[]]]|]. cbn. destruct (IH (dset g None m)) as (A & B & C). split; [|split].
  - intros U. by apply A, uniq_dset.
  - intros p. rewrite B, dget_dset. destruct (dget p m) as [x|] eqn:E; [split; eauto|]. destruct (Nat.eqb_spec g p) as [<- |D]; [split; [intros _; right; by left|left; eauto]|]. split; [intros [[? X]|X]; [done|right; by right]|]. intros [[? X]|[X|X]]; [done|congruence|by right].
  - intros p u. rewrite C, dget_dset. destruct (dget p m) as [x|] eqn:E; [done|]. destruct (g =? p); done.
Qed.
Section All.
Context (s : st) (G : good s) (m : dict (option nat)) (U : uniq m) (KY : forall p, is_Some (dget p m) -> is_Some (outer_of s !! p)).
Lemma fill_start : let m0 := fold_left (fun m g => dset g None m) (elements (dom (polys s) : gset nat)) m in uniq m0 /\ (forall p, is_Some (dget p m0) <-> is_Some (outer_of s !! p)) /\ (forall p u, dget p m0 = Some (Some u) <-> dget p m = Some (Some u)).
Proof.
  destruct (add_none (elements (dom (polys s) : gset nat)) m) as (A & B & C). split; [auto|]. split; [|done]. intros p. cbv zeta in B. rewrite B. rewrite <- elem_of_list_In, elem_of_elements, elem_of_dom, lookup_fmap, fmap_is_Some. split; [intros [X|X]; [apply KY in X; by rewrite lookup_fmap, fmap_is_Some in X|done]|by right].
Qed.
Lemma fill_ends : exists k0 m', forall k, k0 <= k -> fill k s m = Ok m'.
Proof. destruct fill_start as (A & B & C). eapply (all_ends s G _ A B); [done|by apply going_start]. Qed.
Lemma flows_ext m0 v p : uniq m0 -> (forall p u, dget p m0 = Some (Some u) <-> dget p m = Some (Some u)) -> flows s m0 v p -> flows s m v p.
Proof.
  intros U0 E. induction 1 as [p I|p q _ IH B N]; [apply flow_given; apply (dget_in _ _ _ U), E, (dget_in _ _ _ U0), I|]. apply (flow_step s m v p q IH B). intros u Q. apply (N u). apply (dget_in _ _ _ U0), E, (dget_in _ _ _ U), Q.
Qed.
Lemma fill_run k m' : fill k s m = Ok m' -> uniq m' /\ (forall p, is_Some (dget p m') <-> is_Some (outer_of s !! p)) /\ (forall p u, In (p, Some u) m' -> flows s m u p) /\ (forall p u, In (p, Some u) m -> In (p, Some u) m') /\
  forall p q u, In (p, Some u) m' -> beside s p q -> exists v, In (q, Some v) m'.
Proof.
  intros H. destruct fill_start as (A & B & C). destruct (all_run s G _ A B k _ _ _ m' (fun x X => X) (going_start _ _ A) H) as [U' KE FL GI CL].
  split; [done|]. split; [intros p; by rewrite KE, B|]. split; [|split].
  - intros p u I. apply (dget_in _ _ _ U') in I. eapply flows_ext; [exact A|exact C|]. by apply FL.
  - intros p u I. apply (dget_in _ _ _ U'), GI, C, (dget_in _ _ _ U), I.
  - intros p q u I Q. apply (dget_in _ _ _ U') in I. destruct (CL p) with (q := q) as [[v X]|X]; [by exists u| |by intros []|done| |done].
    + assert (K : is_Some (dget p m')) by eauto. apply KE in K as [[w|] K]; [right; right|by left]. exists w. by apply (dget_in _ _ _ A).
    + exists v. by apply (dget_in _ _ _ U').
Qed.
End All.
