(** Proofs about heal_mesh.py: the checks and the loop of heal_mesh. *)
From stdpp Require Import gmap.
From Coq Require Import ZArith QArith Lia.
From Verif Require Import Heal_Model Heal_Spec Heal_Proofs.
Local Open Scope Z_scope.
Local Notation length := List.length.

(** As [leads], the elements of [X] being reported as modified. *)
Record tells (X : gset Z) (s s' : st) : Prop := {
  t_max : max_el s <= max_el s';
  t_nd : max_nd s <= max_nd s';
  t_mod : modif s ⊆ X ∪ modif s';
  t_ids : forall i e, els s' !! i = Some e -> els s !! i = Some e \/ max_el s < i;
  t_snap : forall i e, els s' !! i = Some e -> i ∈ X ∪ modif s' \/ snap s' i = snap s i }.
Lemma leads_tells s s' : leads s s' <-> tells ∅ s s'.
Proof.
  split; intros [A B C D E]; split; auto; try set_solver.
Qed.
Lemma tells_more X Y s s' : X ⊆ Y -> tells X s s' -> tells Y s s'.
Proof.
  intros H [A B C D E]. split; auto; [set_solver|]. intros i e Hi. destruct (E i e Hi) as [Q|Q]; [left; set_solver|auto].
Qed.
Lemma leads_tells_trans X s1 s2 s3 : leads s1 s2 -> tells X s2 s3 -> tells X s1 s3.
Proof.
  intros [A B C D E] [A' B' C' D' E']. split; try lia.
  - set_solver.
  - intros i e H. apply D' in H. destruct H as [H|H]; [|right; lia]. apply D in H. destruct H; [auto|right; lia].
  - intros i e H. destruct (E' i e H) as [Q|Q]; auto. pose proof (snap_els _ _ _ Q) as Q2. rewrite H in Q2. symmetry in Q2.
    destruct (E i e Q2) as [Q3|Q3]; [left; set_solver|right; congruence].
Qed.

(** Fewer elements, or a new id was given. *)
Definition progress (s s' : st) : Prop := max_el s < max_el s' \/ (size (els s') < size (els s))%nat.
Lemma leads_sub X s s' : inv s' -> tells X s s' -> max_el s' = max_el s -> els s' ⊆ els s.
Proof.
  intros I L E. apply map_subseteq_spec. intros i e H. destruct (t_ids _ _ _ L i e H) as [Q|Q]; auto.
  apply (i_el s' I) in H. lia.
Qed.
Lemma progress_gone X s s' i e : inv s' -> tells X s s' -> els s !! i = Some e -> els s' !! i = None -> progress s s'.
Proof.
  intros I L E N. destruct (Z.eq_dec (max_el s) (max_el s')) as [H|H].
  - right. pose proof (leads_sub X s s' I L (eq_sym H)) as S. 
    assert (S2 : els s' ⊆ delete i (els s)).
    { apply map_subseteq_spec. intros j e' Hj. rewrite lookup_delete_ne by congruence. eapply lookup_weaken; eauto. }
    assert (size (els s') <= size (delete i (els s)))%nat.
    { rewrite <- !size_dom. apply subseteq_size. apply subseteq_dom. auto. }
    rewrite map_size_delete_Some in H0 by eauto.
    assert (size (els s) <> 0%nat). { intros Z. apply map_size_empty_inv in Z. rewrite Z in E. rewrite lookup_empty in E. discriminate. }
    lia.
  - left. pose proof (t_max _ _ _ L). lia.
Qed.
Lemma progress_then X s s1 s' : inv s1 -> inv s' -> progress s s1 -> max_el s <= max_el s1 -> tells X s1 s' -> progress s s'.
Proof.
  intros I1 I P M L. pose proof (t_max _ _ _ L). destruct (Z.eq_dec (max_el s1) (max_el s')) as [H1|H1].
  - destruct P as [P|P]; [left; lia|right]. pose proof (leads_sub X s1 s' I L (eq_sym H1)) as S.
    assert (size (els s') <= size (els s1))%nat. { rewrite <- !size_dom. apply subseteq_size. apply subseteq_dom. auto. } lia.
  - left. lia.
Qed.

Section L.
Context (pick : nat -> gset Z -> list Z) (Fair : fair pick) (G : geo).
Lemma pick_spec k X i : i ∈ pick k X <-> i ∈ X. Proof. apply Fair. Qed.
Lemma pick_nodup k X : NoDup (pick k X). Proof. apply Fair. Qed.
Lemma pick_empty k : pick k ∅ = [].
Proof. destruct (pick k ∅) as [|i l] eqn:E; auto. assert (i ∈ (∅ : gset Z)); [|set_solver]. apply (pick_spec k). rewrite E. set_solver. Qed.

Definition knows (ns : list Z) (s : st) : Prop := forall n, n ∈ ns -> n <= max_nd s.
Lemma knows_stable ns : stable (knows ns).
Proof. intros s s' H L n Hn. pose proof (l_nd _ _ L). specialize (H n Hn). lia. Qed.

(** A check keeps the invariant and reports what it modified. *)
Definition reports (P : st -> Prop) (m : M (list Z)) : Prop :=
  forall s, inv s -> P s -> match m s with
                            | (Ok l, s') => inv s' /\ tells (list_to_set l) s s'
                            | (Raise, s') => inv s' /\ leads s s'
                            end.
Lemma reports_bind {A} P (m : M A) f : stable P -> keeps P m -> (forall a, reports P (f a)) -> reports P (bind m f).
Proof.
  intros St Hm Hf s I HP. destruct (Hm s I HP) as [I1 L1]. unfold bind. destruct (m s) as [[a|] s1] eqn:E; cbn in *; auto.
  specialize (Hf a s1 I1 (St _ _ HP L1)). destruct (f a s1) as [[l|] s2]; destruct Hf as [I2 L2]; split; auto.
  - eapply leads_tells_trans; eauto.
  - eapply leads_trans; eauto.
Qed.
Lemma reports_keeps P m : keeps P m -> reports P m.
Proof.
  intros K s I HP. destruct (K s I HP) as [I1 L1]. destruct (m s) as [[l|] s']; cbn in *; auto. split; auto.
  apply leads_tells in L1. eapply tells_more; [|exact L1]. set_solver.
Qed.
Lemma reports_reset P : reports P (reset_modified pick).
Proof.
  intros s [A B C D] _. cbn. split; [split; auto|]. split; cbn; auto; try lia.
  intros i Hi. rewrite right_id_L by apply _. apply elem_of_list_to_set, pick_spec. auto.
Qed.
Lemma reports_or_else P m f : stable P -> reports P m -> reports P f -> reports P (or_else m f).
Proof.
  intros St Hm Hf s I HP. specialize (Hm s I HP). unfold or_else, bind. destruct (m s) as [[[|i l]|] s1]; cbn [ret]; auto.
  destruct Hm as [I1 L1]. cbn in L1. apply leads_tells in L1. specialize (Hf s1 I1 (St _ _ HP L1)).
  destruct (f s1) as [[l|] s2]; destruct Hf as [I2 L2]; split; auto.
  - eapply leads_tells_trans; eauto.
  - eapply leads_trans; eauto.
Qed.
Lemma reports_weaken (P Q : st -> Prop) m : (forall s, Q s -> P s) -> reports P m -> reports Q m.
Proof. intros H K s I HQ. apply K; auto. Qed.

Lemma keeps_any {A} P (m : M A) : keeps any m -> keeps P m.
Proof. apply keeps_weaken. intros s _. exact Logic.I. Qed.
Lemma keeps_split_el P check vs p i : keeps P (split_el pick check vs p i).
Proof.
  apply keeps_any. intros s I _. unfold split_el. destruct (els s !! i) as [[[ty tags] ns]|]; [|cbn; auto using leads_refl].
  destruct (_ && _); [cbn; auto using leads_refl|].
  apply (keeps_bind any (remove_element i) (fun _ => for_each vs (fun v =>
            match index_of v ns with
            | None => raise
            | Some k => _ <~ add_element pick (ty, tags, <[k := p]> ns) ; ret tt
            end))); auto using any_stable, keeps_remove_element; [|exact Logic.I].
  intros _. apply keeps_for_each; auto using any_stable. intros v _. destruct (index_of v ns); [|apply keeps_raise].
  apply keeps_bind; auto using any_stable, keeps_add_element. intros _. apply keeps_ret.
Qed.
Lemma keeps_merge_edge P x i : keeps P (merge_edge pick x i).
Proof.
  apply keeps_any. unfold merge_edge. destruct (_ !! i); [|apply keeps_raise].
  destruct (ends _ _) as [[a b]|]; [apply keeps_merge_node|apply keeps_raise].
Qed.
Lemma reports_dupl_nodes P x : reports P (check_dupl_nodes pick x).
Proof.
  apply reports_keeps, keeps_any. unfold check_dupl_nodes. destruct (List.find _ _) as [e|]; [|apply keeps_ret].
  destruct (ends _ _) as [[a b]|]; [|apply keeps_raise]. pose proof any_stable.
  apply keeps_bind; auto using keeps_remove_element. intros _. apply keeps_bind; auto using keeps_common.
  intros l s I _. cbn. auto using leads_refl.
Qed.
Lemma reports_degen P x : stable P -> reports P (check_degen_nodes pick G x).
Proof.
  intros St. unfold check_degen_nodes. destruct (_ =? _)%nat; [apply reports_keeps, keeps_ret|].
  intros s I HP.
  apply (reports_bind P (match g_short G (tick s) (l_pts x) with Some i => merge_edge pick x i | None => ret tt end)
           (fun _ => reset_modified pick)); auto.
  - destruct (g_short _ _ _); [apply keeps_merge_edge|apply keeps_ret].
  - intros _. apply reports_reset.
Qed.
Lemma reports_duplicate P x : stable P -> reports P (check_duplicate pick x).
Proof.
  intros St. apply reports_keeps. unfold check_duplicate. apply keeps_bind; auto using keeps_is_duplicate.
  intros d. destruct (_ <? _)%nat; [|apply keeps_ret]. apply keeps_bind; auto; [|intros _; apply keeps_ret].
  apply keeps_for_each; auto. intros a _. destruct (Z.eqb _ _); [apply keeps_ret|]. apply keeps_any, keeps_remove_element.
Qed.
Lemma keeps_move_all ns ps : keeps (knows ns) (move_all ns ps).
Proof.
  apply keeps_for_each; [apply knows_stable|]. intros [n p] H. apply (keeps_weaken (known n)); [|apply keeps_move_node].
  intros s K. apply K. apply elem_of_list_In, in_combine_l in H. apply elem_of_list_In. auto.
Qed.
Lemma mapM_nodes {A} (ns : list A) (f : list nat) l n : mapM (fun k => ns !! k) f = Some l -> n ∈ l -> n ∈ ns.
Proof.
  intros H Hn. apply mapM_Some in H. apply elem_of_list_lookup in Hn. destruct Hn as [k Hk].
  destruct (Forall2_lookup_r _ _ _ _ _ H Hk) as (j & _ & Hj). eapply elem_of_list_lookup_2; eauto.
Qed.
Lemma reports_flat_triangle x : reports (knows (l_nodes x)) (check_flat_triangle pick G x).
Proof.
  intros s I K. unfold check_flat_triangle. destruct (_ <? _)%nat; [apply (reports_keeps any (ret [])); [apply keeps_ret|auto|exact Logic.I]|].
  destruct (if (length (l_nodes x) =? 4)%nat then _ else _) as [tria|] eqn:F; [|cbn; auto using leads_refl].
  assert (Kt : knows tria s).
  { destruct (length (l_nodes x) =? 4)%nat.
    - destruct (vtxs_faces !! _) as [f|]; [|discriminate]. intros n Hn. apply K. eapply mapM_nodes; eauto.
    - injection F as <-. auto. }
  clear F K. revert I Kt. revert s. intros s I Kt. pose proof (knows_stable tria) as St.
  match goal with |- match ?m s with _ => _ end => assert (R : reports (knows tria) m); [|exact (R s I Kt)] end.
  apply reports_bind; auto using keeps_common. intros l.
  apply reports_bind; auto; [apply keeps_for_active; auto; intros; apply keeps_any, keeps_remove_element|]. intros _.
  destruct (g_proj G _ _) as [[q|]|]; [|apply reports_keeps, keeps_ret|apply reports_keeps, keeps_raise].
  destruct (tria !! _) as [np|] eqn:Np; [|apply reports_keeps, keeps_raise].
  destruct (edges_of 3 !! _) as [e|]; [|apply reports_keeps, keeps_raise].
  destruct (ends _ _) as [[a b]|]; [|apply reports_keeps, keeps_raise].
  apply reports_bind; auto.
  { apply (keeps_weaken (known np)); [|apply keeps_move_node]. intros t H. apply H. eapply elem_of_list_lookup_2; eauto. }
  intros _. apply reports_bind; auto using keeps_common. intros l2. apply reports_bind; auto.
  - apply keeps_for_active; auto. intros i. apply keeps_split_el.
  - intros _. apply reports_reset.
Qed.
Lemma reports_quad_flat x flat isec pe ne : reports (knows (l_nodes x)) (quad_flat pick x flat isec pe ne).
Proof.
  pose proof (knows_stable (l_nodes x)) as St. unfold quad_flat. apply reports_bind; auto using keeps_move_all. intros _.
  apply reports_bind; auto; [apply keeps_any, keeps_remove_element|]. intros _.
  apply reports_bind; auto; [apply keeps_any, keeps_add_node|]. intros n.
  apply reports_bind; auto; [|intros _; apply reports_reset]. apply keeps_for_each; auto. intros cf _.
  destruct (mapM _ cf) as [[|a [|b r]]|]; try apply keeps_raise. apply keeps_bind; auto using keeps_common.
  intros l. apply keeps_for_active; auto. intros i. apply keeps_split_el.
Qed.
Lemma reports_tria_flat x flat outer : reports (knows (l_nodes x)) (tria_flat pick x flat outer).
Proof.
  pose proof (knows_stable (l_nodes x)) as St. unfold tria_flat. destruct (l_nodes x !! _) as [inner|]; [|apply reports_keeps, keeps_raise].
  destruct (vtxs_faces !! outer ≫= _) as [vs|]; [|apply reports_keeps, keeps_raise].
  apply reports_bind; auto using keeps_move_all. intros _.
  apply reports_bind; auto; [apply keeps_any, keeps_remove_element|]. intros _.
  apply reports_bind; auto using keeps_common. intros l. apply reports_bind; auto; [|intros _; apply reports_reset].
  apply keeps_for_active; auto. intros i. apply keeps_split_el.
Qed.
Lemma reports_flat_tetra x : reports (knows (l_nodes x)) (check_flat_tetra pick G x).
Proof.
  intros s I K. unfold check_flat_tetra. destruct (negb _); [apply (reports_keeps any (ret [])); [apply keeps_ret|auto|exact Logic.I]|].
  destruct (g_flat G _ _) as [[[[signs flat] isec]|]|]; [|apply (reports_keeps any (ret [])); [apply keeps_ret|auto|exact Logic.I]|cbn; auto using leads_refl].
  destruct (length (List.filter _ signs)) as [|[|[|[|n]]]]; try (cbn; auto using leads_refl; fail).
  - apply reports_tria_flat; auto.
  - apply reports_quad_flat; auto.
  - apply reports_tria_flat; auto.
Qed.
Lemma reports_small_edge P x : stable P -> reports P (check_small_edge pick G x).
Proof.
  intros St s I HP. unfold check_small_edge.
  apply (reports_bind P (merge_edge pick x (g_min_edge G (tick s) (l_pts x))) (fun _ => reset_modified pick)); auto.
  - apply keeps_merge_edge.
  - intros _. apply reports_reset.
Qed.
Lemma reports_rest x : reports (knows (l_nodes x)) (fun s =>
       if (length (l_nodes x) <? 3)%nat then (Ok [], s)
       else match g_good G (tick s) (l_pts x) with
            | None => (Raise, s)
            | Some true => (Ok [], s)
            | Some false =>
              or_else (check_flat_tetra pick G x) (or_else (check_flat_triangle pick G x) (check_small_edge pick G x)) s
            end).
Proof.
  intros s I K. pose proof (knows_stable (l_nodes x)) as St.
  assert (N : reports (knows (l_nodes x)) (ret [])) by apply reports_keeps, keeps_ret.
  destruct (_ <? _)%nat; [exact (N s I K)|]. destruct (g_good _ _ _) as [[]|]; [exact (N s I K)| |cbn; auto using leads_refl].
  apply (reports_or_else (knows (l_nodes x))); auto using reports_flat_tetra.
  apply reports_or_else; auto using reports_flat_triangle, reports_small_edge.
Qed.
Lemma points_knows s i e ps : inv s -> points s (e_nodes e) = Some ps -> knows (l_nodes (Ele i (e_type e) (e_nodes e) ps)) s.
Proof.
  intros I H n Hn. cbn in Hn. destruct (points_closed _ _ _ _ H Hn) as [p Hp]. eapply i_nd; eauto.
Qed.
Lemma check_ele_unfold i s e ps : els s !! i = Some e -> points s (e_nodes e) = Some ps ->
  let x := Ele i (e_type e) (e_nodes e) ps in
  check_ele pick G i s =
     or_else (check_dupl_nodes pick x)
     (or_else (check_degen_nodes pick G x)
     (or_else (check_duplicate pick x)
     (fun s =>
       if (length (l_nodes x) <? 3)%nat then (Ok [], s)
       else match g_good G (tick s) (l_pts x) with
            | None => (Raise, s)
            | Some true => (Ok [], s)
            | Some false =>
              or_else (check_flat_tetra pick G x) (or_else (check_flat_triangle pick G x) (check_small_edge pick G x)) s
            end))) s.
Proof. intros E P x. unfold check_ele. rewrite E. unfold bind at 1, make_ele. rewrite E, P. reflexivity. Qed.
Lemma reports_check_ele P i : reports P (check_ele pick G i).
Proof.
  intros s I _. destruct (els s !! i) as [e|] eqn:E.
  - destruct (points s (e_nodes e)) as [ps|] eqn:Ps.
    + rewrite (check_ele_unfold i s e ps E Ps). set (x := Ele _ _ _ _).
      pose proof (points_knows s i e ps I Ps : knows (l_nodes x) s) as K. pose proof (knows_stable (l_nodes x)) as St.
      apply (reports_or_else (knows (l_nodes x))); auto using reports_dupl_nodes.
      apply reports_or_else; auto using reports_degen. apply reports_or_else; auto using reports_duplicate. apply reports_rest.
    + unfold check_ele. rewrite E. unfold bind, make_ele. rewrite E, Ps. auto using leads_refl.
  - unfold check_ele. rewrite E. apply (reports_keeps any (ret [])); [apply keeps_ret|auto|exact Logic.I].
Qed.
End L.
