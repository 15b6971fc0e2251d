(** The invariant of the links of a decomposition. *)
From stdpp Require Import gmap list relations.
From Coq Require Import QArith.
From Verif Require Import Decomp_Model Decomp_Perm Decomp_Surgery Decomp_Eff Decomp_Tree.
Local Open Scope nat_scope.

Ltac fld := cbn [points vtx nxt wir vec p2s wires polys ip is_ iw ig last_change set_points set_vtx set_nxt set_wir set_vec set_p2s set_wires set_polys set_ip set_is set_iw set_ig set_change].
Tactic Notation "fld" "in" hyp(H) := cbn [points vtx nxt wir vec p2s wires polys ip is_ iw ig last_change set_points set_vtx set_nxt set_wir set_vec set_p2s set_wires set_polys set_ip set_is set_iw set_ig set_change] in H.
Tactic Notation "fld" "in" "*" := cbn [points vtx nxt wir vec p2s wires polys ip is_ iw ig last_change set_points set_vtx set_nxt set_wir set_vec set_p2s set_wires set_polys set_ip set_is set_iw set_ig set_change] in *.

(** * Sources of ids *)
Definition src_ok (c : source) (live : nat -> Prop) : Prop :=
  NoDup (s_free c) /\ (forall i, i ∈ s_free c -> i < s_next c /\ ~ live i) /\ (forall i, live i -> i < s_next c).
Lemma src_new c live i c' : src_ok c live -> new_id c = (i, c') -> ~ live i /\ src_ok c' (fun j => j = i \/ live j).
Proof.
  unfold new_id. intros (N & F & L) E. destruct (s_free c) as [|k l] eqn:Ef.
  - injection E as <- <-. split; [intros H; apply L in H; lia|]. split; [constructor|]. cbn. split.
    + by intros j ?%elem_of_nil.
    + intros j [-> | H]; [lia|]. apply L in H. lia.
  - injection E as <- <-. apply NoDup_cons in N as [N1 N2]. destruct (F k) as [Fk1 Fk2]; [left|]. split; [done|]. split; [done|]. cbn. split.
    + intros j Hj. destruct (F j) as [Fj1 Fj2]; [by right|]. split; [done|]. intros [-> | H]; done.
    + intros j [-> | H]; [done|]. by apply L.
Qed.
Lemma src_old c live i : src_ok c live -> live i -> src_ok (old_id i c) (fun j => j <> i /\ live j).
Proof.
  intros (N & F & L) H. split; [|split]; cbn.
  - constructor; [|done]. intros Hi. by apply F in Hi as [_ Hi].
  - intros j [-> | Hj]%elem_of_cons; [split; [by apply L|tauto]|]. apply F in Hj as [? ?]. split; [done|tauto].
  - intros j [_ Hj]. by apply L.
Qed.
Lemma src_ext c live live' : (forall i, live i <-> live' i) -> src_ok c live -> src_ok c live'.
Proof.
  intros E (N & F & L). split; [done|]. split.
  - intros i Hi. rewrite <- E. by apply F.
  - intros i Hi. apply L. by apply E.
Qed.
Lemma live_insert {A} (m : gmap nat A) i x j : (j = i \/ is_Some (m !! j)) <-> is_Some (<[i := x]> m !! j).
Proof.
  destruct (decide (j = i)) as [-> | D]; [rewrite lookup_insert; split; eauto|]. rewrite lookup_insert_ne by done. tauto.
Qed.
Lemma live_delete {A} (m : gmap nat A) i j : (j <> i /\ is_Some (m !! j)) <-> is_Some (delete i m !! j).
Proof.
  destruct (decide (j = i)) as [-> | D]; [rewrite lookup_delete; split; [tauto|by intros [? ?]]|]. rewrite lookup_delete_ne by done. tauto.
Qed.
Lemma src_insert {A} c (m : gmap nat A) i c' x : src_ok c (fun i => is_Some (m !! i)) -> new_id c = (i, c') ->
  m !! i = None /\ src_ok c' (fun j => is_Some (<[i := x]> m !! j)).
Proof.
  intros S E. apply (src_new _ _ _ _ S) in E as [N S']. split; [by apply eq_None_not_Some|].
  eapply src_ext; [|exact S']. intros j. apply live_insert.
Qed.
Lemma src_delete {A} c (m : gmap nat A) i : src_ok c (fun i => is_Some (m !! i)) -> is_Some (m !! i) ->
  src_ok (old_id i c) (fun j => is_Some (delete i m !! j)).
Proof.
  intros S E. eapply src_ext; [|by apply (src_old _ _ _ S)]. intros j. apply live_delete.
Qed.
Lemma src_dom {A B} c (m : gmap nat A) (m' : gmap nat B) : (forall i, is_Some (m !! i) <-> is_Some (m' !! i)) ->
  src_ok c (fun i => is_Some (m !! i)) -> src_ok c (fun i => is_Some (m' !! i)).
Proof. intros E. by apply src_ext. Qed.

(** * Segments of points *)
Definition pts_ok (M : gmap nat (option he)) (v : gmap he nat) : Prop :=
  (forall p h, M !! p = Some (Some h) -> v !! h = Some p) /\
  (forall p h, M !! p = Some None -> v !! h <> Some p) /\
  (forall h p, v !! h = Some p -> is_Some (M !! p)).
(** A point without a segment takes one. *)
Definition jn (p : nat) (h : he) (M : gmap nat (option he)) : gmap nat (option he) :=
  match M !! p with Some None => <[p := Some h]> M | _ => M end.
Lemma jn_other p h M q : q <> p -> jn p h M !! q = M !! q.
Proof. intros D. unfold jn. destruct (M !! p) as [[x|]|]; try done. by rewrite lookup_insert_ne. Qed.
Lemma jn_here p h M o : M !! p = Some o -> jn p h M !! p = Some (Some (default h o)).
Proof. intros E. unfold jn. rewrite E. destruct o; [done|]. apply lookup_insert. Qed.
Lemma jn_id p h M x : M !! p = Some (Some x) -> jn p h M = M.
Proof. intros E. unfold jn. by rewrite E. Qed.
Lemma jn_dom p h M q : is_Some (jn p h M !! q) <-> is_Some (M !! q).
Proof.
  destruct (decide (q = p)) as [-> | D]; [|by rewrite jn_other]. unfold jn. destruct (M !! p) as [[x|]|] eqn:E; rewrite ?E; try done.
  rewrite lookup_insert. split; eauto.
Qed.

Lemma pts_new M v g a b : pts_ok M v -> (forall s, v !! (g, s) = None) -> a <> b -> is_Some (M !! a) -> is_Some (M !! b) ->
  pts_ok (jn b (g, true) (jn a (g, false) M)) (both v g a b).
Proof.
  intros (P1 & P2 & P3) N D [oa Ea] [ob Eb].
  assert (Eb' : jn a (g, false) M !! b = Some ob) by (by rewrite jn_other).
  assert (Xa : jn b (g, true) (jn a (g, false) M) !! a = Some (Some (default (g, false) oa))) by (rewrite jn_other by done; by apply jn_here).
  assert (Xb : jn b (g, true) (jn a (g, false) M) !! b = Some (Some (default (g, true) ob))) by (by apply jn_here).
  assert (Old : forall h p, v !! h = Some p -> both v g a b !! h = Some p).
  { intros h p E. rewrite both_ne; [done|]. intros Eh. destruct h as [g' s]. cbn in Eh. subst g'. by rewrite N in E. }
  assert (Xq : forall q, q <> a -> q <> b -> jn b (g, true) (jn a (g, false) M) !! q = M !! q) by (intros q ? ?; by rewrite !jn_other).
  split; [|split].
  - intros p h E. destruct (decide (p = a)) as [-> | Da]; [|destruct (decide (p = b)) as [-> | Db]].
    + rewrite Xa in E. injection E as <-. destruct oa as [x|]; cbn; [by apply Old, P1|apply both_f].
    + rewrite Xb in E. injection E as <-. destruct ob as [x|]; cbn; [by apply Old, P1|apply both_t].
    + rewrite Xq in E by done. by apply Old, P1.
  - intros p h E. destruct (decide (p = a)) as [-> | Da]; [congruence|]. destruct (decide (p = b)) as [-> | Db]; [congruence|].
    rewrite Xq in E by done. destruct (side_cases h g) as [Dg|[-> | ->]]; [|rewrite both_t; congruence|rewrite both_f; congruence].
    rewrite both_ne by done. by apply P2.
  - intros h p E. rewrite !jn_dom. destruct (side_cases h g) as [Dg|[-> | ->]].
    + rewrite both_ne in E by done. by eapply P3.
    + rewrite both_t in E. injection E as <-. eauto.
    + rewrite both_f in E. injection E as <-. eauto.
Qed.
(** A point has lost a segment. *)
Definition lost (v : gmap he nat) (g p : nat) (o : option he) : Prop :=
  match o with
  | Some k => v !! k = Some p /\ fst k <> g
  | None => forall x, v !! x = Some p -> fst x = g
  end.
Lemma pts_del M v g a b oa ob : pts_ok M v -> v !! (g, false) = Some a -> v !! (g, true) = Some b -> a <> b ->
  lost v g a oa -> lost v g b ob -> pts_ok (<[a := oa]> (<[b := ob]> M)) (dels v g).
Proof.
  intros (P1 & P2 & P3) Ea Eb D La Lb.
  assert (Old : forall h p, v !! h = Some p -> fst h <> g -> dels v g !! h = Some p) by (intros h p E Dg; by rewrite dels_ne).
  assert (Sub : forall h p, dels v g !! h = Some p -> v !! h = Some p /\ fst h <> g).
  { intros h p E. destruct (side_cases h g) as [Dg|[-> | ->]]; [by rewrite dels_ne in E|by rewrite dels_in in E..]. }
  split; [|split].
  - intros p h E. destruct (decide (p = a)) as [-> | Da]; [|destruct (decide (p = b)) as [-> | Db]].
    + rewrite lookup_insert in E. injection E as ->. destruct La. by apply Old.
    + rewrite lookup_insert_ne, lookup_insert in E by done. injection E as ->. destruct Lb. by apply Old.
    + rewrite !lookup_insert_ne in E by done. apply P1 in E. apply Old; [done|]. intros Eg.
      destruct (side_cases h g) as [Dg|[-> | ->]]; [done|congruence..].
  - intros p h E E2. apply Sub in E2 as [E2 Dg]. destruct (decide (p = a)) as [-> | Da]; [|destruct (decide (p = b)) as [-> | Db]].
    + rewrite lookup_insert in E. injection E as ->. by apply Dg, La.
    + rewrite lookup_insert_ne, lookup_insert in E by done. injection E as ->. by apply Dg, Lb.
    + rewrite !lookup_insert_ne in E by done. by apply (P2 p h).
  - intros h p E. apply Sub in E as [E Dg]. apply live_insert. right. apply live_insert. right. by eapply P3.
Qed.

(** * The index of segments *)
Definition pairs (v : gmap he nat) (ps : gmap (nat * nat) nat) : Prop :=
  (forall a b g, ps !! (a, b) = Some g <-> v !! (g, false) = Some a /\ v !! (g, true) = Some b) /\
  (forall a b g, ps !! (a, b) = Some g -> ps !! (b, a) = None).
Lemma pairs_new v ps g a b : pairs v ps -> (forall s, v !! (g, s) = None) -> a <> b -> ps !! (a, b) = None -> ps !! (b, a) = None ->
  pairs (both v g a b) (<[(a, b) := g]> ps).
Proof.
  intros [P1 P2] N D E1 E2. split.
  - intros x y k. destruct (decide (k = g)) as [-> | Dk].
    + rewrite both_f, both_t. split.
      * intros E. apply lookup_insert_Some in E as [[[= <- <-] _]|[Dx E]]; [done|]. apply P1 in E as [E _]. by rewrite N in E.
      * intros [[= <-] [= <-]]. apply lookup_insert.
    + rewrite !both_ne by done. rewrite <- P1. split.
      * intros E. apply lookup_insert_Some in E as [[[= <- <-] <-]|[Dx E]]; done.
      * intros E. rewrite lookup_insert_ne; [done|]. intros [= <- <-]. congruence.
  - intros x y k E. apply lookup_insert_Some in E as [[[= <- <-] <-]|[Dx E]].
    + rewrite lookup_insert_ne; [done|]. congruence.
    + rewrite lookup_insert_ne; [by eapply P2|]. intros [= <- <-]. congruence.
Qed.
Lemma pairs_del v ps g a b : pairs v ps -> v !! (g, false) = Some a -> v !! (g, true) = Some b -> a <> b ->
  pairs (dels v g) (delete (b, a) (delete (a, b) ps)).
Proof.
  intros [P1 P2] Ea Eb D.
  assert (Eab : ps !! (a, b) = Some g) by (by apply P1).
  assert (Sub : forall x y k, delete (b, a) (delete (a, b) ps) !! (x, y) = Some k <-> (x, y) <> (a, b) /\ ps !! (x, y) = Some k).
  { intros x y k. split.
    - intros E. apply lookup_delete_Some in E as [D1 E]. apply lookup_delete_Some in E as [D2 E]. done.
    - intros [D1 E]. apply lookup_delete_Some. split; [intros [= <- <-]; apply P2 in Eab; congruence|].
      apply lookup_delete_Some. split; [congruence|done]. }
  split.
  - intros x y k. rewrite Sub. destruct (decide (k = g)) as [-> | Dk].
    + rewrite !dels_in. split; [|by intros [? _]]. intros [D1 E]. apply P1 in E as [E1 E2]. congruence.
    + rewrite !dels_ne by done. rewrite <- P1. split; [by intros [_ ?]|]. intros E. split; [|done]. intros [= -> ->]. congruence.
  - intros x y k E. apply Sub in E as [D1 E]. apply P2 in E. apply eq_None_not_Some. intros [z Z]. apply Sub in Z as [_ Z]. congruence.
Qed.

(** * The invariant *)
Record inv (s : st) : Prop := Inv {
  i_topo : topo (vtx s) (nxt s) (wir s);
  i_pts : pts_ok (seg_of s) (vtx s);
  i_free : free_ok (points s) (polys s);
  i_vec : forall g, is_Some (vec s !! g) <-> is_Some (vtx s !! (g, false));
  i_pair : pairs (vtx s) (p2s s);
  i_live : forall h w, wir s !! h = Some w -> exists q, par_of s !! w = Some (Some q);
  i_seg : forall k w, wir s !! k = Some w -> exists h, sg_of s !! w = Some (Some h) /\ wir s !! h = Some w;
  i_ip : src_ok (ip s) (fun i => is_Some (seg_of s !! i));
  i_is : src_ok (is_ s) (fun i => is_Some (vec s !! i));
  i_iw : src_ok (iw s) (fun i => is_Some (par_of s !! i));
  i_ig : src_ok (ig s) (fun i => is_Some (outer_of s !! i)) }.

(** Points and polygons with their free points change together. *)
Record ppr (P : gmap nat point) (G : gmap nat poly) (P' : gmap nat point) (G' : gmap nat poly) : Prop := PPR {
  p_free : free_ok P G -> free_ok P' G';
  p_xy : xy <$> P' = xy <$> P;
  p_outer : outer <$> G' = outer <$> G }.
Lemma ppr_refl P G : ppr P G P G.
Proof. by split. Qed.
Lemma ppr_trans P G P1 G1 P2 G2 : ppr P G P1 G1 -> ppr P1 G1 P2 G2 -> ppr P G P2 G2.
Proof. intros [H1 H2 H3] [H1' H2' H3']. split; [auto|congruence|congruence]. Qed.
Lemma pp_open s s' M : pp s s' M -> exists P G, s' = set_polys G (set_points P s) /\ ppr (points s) (polys s) P G /\ p_seg <$> P = M.
Proof. intros (P & G & H1 & H2 & H3 & H4 & H5). exists P, G. split; [done|]. by split. Qed.

Lemma join_segment_eff p h s u s' : join_segment p h s = (Ok u, s') ->
  is_Some (seg_of s !! p) /\ exists P G, s' = set_polys G (set_points P s) /\ ppr (points s) (polys s) P G /\ p_seg <$> P = jn p h (seg_of s).
Proof.
  intros H. apply join_segment_pp in H as (o & O & H). split; [eauto|].
  apply pp_open in H as (P & G & H1 & H2 & H3). exists P, G. split; [done|]. split; [done|]. rewrite H3. unfold jn. rewrite O. by destruct o.
Qed.
Lemma make_segment_eff a b s g s' : make_segment a b s = (Ok g, s') ->
  a <> b /\ exists x y c P G, xy_of s !! a = Some x /\ xy_of s !! b = Some y /\ new_id (is_ s) = (g, c) /\
    ppr (points s) (polys s) P G /\ p_seg <$> P = jn b (g, true) (jn a (g, false) (seg_of s)) /\
    s' = St P (both (vtx s) g a b) (nxt s) (wir s) (<[g := vminus y x]> (vec s)) (<[(a, b) := g]> (p2s s)) (wires s) G (ip s) c (iw s) (ig s) (last_change s).
Proof.
  unfold make_segment. intros H. chk H as D. apply bool_decide_eq_true in D. split; [done|].
  rd H as x Ex. rd H as y Ey. bnd H as i s1 E. destruct (new_id (is_ s)) as [i' c] eqn:En. injection E as <- <-.
  bnd H as u1 s2 E2. apply join_segment_eff in E2 as (_ & P1 & G1 & -> & R1 & M1).
  bnd H as u2 s3 E3. apply join_segment_eff in E3 as (_ & P2 & G2 & -> & R2 & M2). up H. apply ret_inv in H as [-> ->]. fld in *.
  exists (xy x), (xy y), c, P2, G2. split; [by rewrite lookup_fmap, Ex|]. split; [by rewrite lookup_fmap, Ey|]. split; [done|].
  split; [by eapply ppr_trans|]. split; [by rewrite M2, M1|]. done.
Qed.
Lemma connect_vtx_eff h prev next w s u s' : connect_vtx h (prev, next, w) s = (Ok u, s') ->
  exists p P G, vtx s !! h = Some p /\ is_Some (seg_of s !! p) /\ ppr (points s) (polys s) P G /\ p_seg <$> P = jn p h (seg_of s) /\
    s' = set_wir (<[h := w]> (wir s)) (set_nxt (<[prev := flip h]> (<[h := next]> (nxt s))) (set_polys G (set_points P s))).
Proof.
  unfold connect_vtx. intros H. rd H as p Ep. bnd H as u1 s1 E1. apply join_segment_eff in E1 as (I & P & G & -> & R & M).
  bnd H as u2 s2 E2. apply set_next_side_inv in E2 as [_ ->]. bnd H as u3 s3 E3. apply set_next_side_inv in E3 as [_ ->].
  apply upd_inv in H. subst s'. exists p, P, G. done.
Qed.
Lemma connect_free_vtx_eff h w s u s' : connect_free_vtx h w s = (Ok u, s') ->
  exists p P G, vtx s !! h = Some p /\ is_Some (seg_of s !! p) /\ ppr (points s) (polys s) P G /\ p_seg <$> P = jn p h (seg_of s) /\
    s' = set_wir (<[h := w]> (wir s)) (set_nxt (<[h := flip h]> (nxt s)) (set_polys G (set_points P s))).
Proof.
  unfold connect_free_vtx. intros H. rd H as p Ep. bnd H as u1 s1 E1. apply join_segment_eff in E1 as (I & P & G & -> & R & M).
  bnd H as u2 s2 E2. apply set_next_side_inv in E2 as [_ ->].
  apply upd_inv in H. subst s'. exists p, P, G. done.
Qed.

(** * The place of a new segment at a point *)
Lemma place_ok g turn h l p n : linked g (h :: l) -> place turn h l = Some (p, n) -> g !! p = Some (flip n) /\ p ∈ h :: l.
Proof.
  revert h. induction l as [|k l IH]; intros h L E; cbn [place] in E; [done|]. apply linked_cons in L as [L1 L2].
  destruct (Qle_bool (turn h) (turn k)).
  - injection E as <- <-. rewrite flip_flip. split; [done|]. left.
  - apply IH in E as [E1 E2]; [|done]. split; [done|]. by right.
Qed.
Lemma linked_app_l g l x : linked g (l ++ [x]) -> linked g l.
Proof.
  induction l as [|y [|z l] IH]; [done|done|]. intros H. change (linked g (y :: z :: l ++ [x])) in H.
  apply linked_cons in H as [H1 H2]. apply linked_cons. split; [done|]. by apply IH.
Qed.
Definition fits (s : st) (p : nat) (i : insert_info) : Prop :=
  let '(prev, next, w) := i in nxt s !! prev = Some next /\ vtx s !! prev = Some p /\ wir s !! prev = Some w.
Lemma insert_vector_inv K p v s o s' : inv s -> insert_vector K p v s = (Ok o, s') ->
  s' = s /\ match o with
            | None => seg_of s !! p = Some None
            | Some i => (exists h, seg_of s !! p = Some (Some h)) /\ fits s p i
            end.
Proof.
  unfold insert_vector. intros I H. chk H as C. rd H as x Ex. destruct (p_seg x) as [a|] eqn:Ea.
  - bnd H as l s1 E. unfold point_segments in E. rd E as x' Ex'. replace x' with x in E by congruence. rewrite Ea in E.
    apply segments_from_inv in E as [-> A]. destruct (l ++ [a]) as [|h t] eqn:El; [by apply raise_inv in H|].
    rd H as i Ei. rd H as w Ew. apply ret_inv in H as [-> ->]. split; [done|]. destruct i as [prev next]. cbn [fst] in Ew.
    split; [exists a; rewrite lookup_fmap, Ex; cbn; by rewrite Ea|].
    apply around_ok in A as ((l' & ->) & A2 & A3 & A4 & _). rewrite El in A4. injection El as <- <-.
    apply (place_ok _ _ _ _ _ _ A4) in Ei as [E1 E2]. apply (proj1 (rot_some _ _ _)) in E1. rewrite flip_flip in E1. split; [done|]. split; [|done].
    assert (Va : vtx s !! a = Some p) by (apply (i_pts _ I); rewrite lookup_fmap, Ex; cbn; by rewrite Ea).
    eapply labels_same; [apply perm_rot; apply I|apply (t_vtx _ _ _ (i_topo _ I))|exact Va|].
    apply elem_of_cons in E2 as [-> | E2]; [apply rtc_refl|]. apply elem_of_app in E2 as [E2 | ->%elem_of_list_singleton]; [|apply rtc_refl].
    apply A3. by right.
  - apply ret_inv in H as [-> ->]. split; [done|]. rewrite lookup_fmap, Ex. cbn. by rewrite Ea.
Qed.
