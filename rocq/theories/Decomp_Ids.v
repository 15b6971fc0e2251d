(** Ids of segments: a new segment takes the id freed last, a removed one frees its id. *)
From stdpp Require Import gmap list.
From Coq Require Import QArith.
From Verif Require Import Decomp_Model.
Local Open Scope nat_scope.

Definition kp {A} (m : M A) : Prop := forall s r s', m s = (Ok r, s') -> is_ s' = is_ s.
Definition kr (i : nat) (m : M nat) : Prop := forall s r s', m s = (Ok r, s') -> r = i /\ is_ s' = is_ s.
Definition tk (m : M nat) : Prop := forall s r s', m s = (Ok r, s') -> new_id (is_ s) = (r, is_ s').
Definition gv {A} (g : nat) (m : M A) : Prop := forall s r s', m s = (Ok r, s') -> is_ s' = old_id g (is_ s).

Lemma kp_ret {A} (a : A) : kp (ret a).
Proof. intros s r s' [= <- <-]. done. Qed.
Lemma kp_raise {A} : kp (@raise A).
Proof. intros s r s' [=]. Qed.
Lemma kp_need {A} (f : st -> option A) : kp (need f).
Proof. intros s r s' H. unfold need in H. destruct (f s); [|done]. by injection H as <- <-. Qed.
Lemma kp_check b : kp (check b).
Proof. destruct b; [apply kp_ret|apply kp_raise]. Qed.
Lemma kp_upd f : (forall s, is_ (f s) = is_ s) -> kp (upd f).
Proof. intros F s r s' [= <- <-]. done. Qed.
Lemma kp_read {A} (f : st -> res A) : kp (fun s => (f s, s)).
Proof. intros s r s' [= _ <-]. done. Qed.
Lemma kp_bind {A B} (m : M A) (f : A -> M B) : kp m -> (forall a, kp (f a)) -> kp (bind m f).
Proof. intros P Q s r s' H. unfold bind in H. destruct (m s) as [[a| |] s1] eqn:E; try done. rewrite (Q _ _ _ _ H). by eapply P. Qed.
Lemma kp_each {A} (f : A -> M unit) l : (forall a, kp (f a)) -> kp (each f l).
Proof. intros P. induction l as [|a l IH]; [apply kp_ret|]. cbn. by apply kp_bind. Qed.
Lemma kr_ret i : kr i (ret i).
Proof. intros s r s' [= <- <-]. done. Qed.
Lemma kr_bind {A} i (m : M A) (f : A -> M nat) : kp m -> (forall a, kr i (f a)) -> kr i (bind m f).
Proof.
  intros P Q s r s' H. unfold bind in H. destruct (m s) as [[a| |] s1] eqn:E; try done. destruct (Q _ _ _ _ H) as [-> X]. split; [done|]. rewrite X. by eapply P.
Qed.
Lemma tk_bind {A} (m : M A) (f : A -> M nat) : kp m -> (forall a, tk (f a)) -> tk (bind m f).
Proof. intros P Q s r s' H. unfold bind in H. destruct (m s) as [[a| |] s1] eqn:E; try done. rewrite <- (P _ _ _ E). by eapply Q. Qed.
Lemma tk_then (m : M nat) (f : nat -> M nat) : tk m -> (forall a, kr a (f a)) -> tk (bind m f).
Proof. intros P Q s r s' H. unfold bind in H. destruct (m s) as [[a| |] s1] eqn:E; try done. destruct (Q _ _ _ _ H) as [-> X]. rewrite X. by eapply P. Qed.
Lemma gv_bind {A B} g (m : M A) (f : A -> M B) : kp m -> (forall a, gv g (f a)) -> gv g (bind m f).
Proof. intros P Q s r s' H. unfold bind in H. destruct (m s) as [[a| |] s1] eqn:E; try done. rewrite <- (P _ _ _ E). by eapply Q. Qed.
Lemma gv_then {A B} g (m : M A) (f : A -> M B) : gv g m -> (forall a, kp (f a)) -> gv g (bind m f).
Proof. intros P Q s r s' H. unfold bind in H. destruct (m s) as [[a| |] s1] eqn:E; try done. rewrite (Q _ _ _ _ H). by eapply P. Qed.
Lemma gv_raise {A} g : gv g (@raise A).
Proof. intros s r s' [=]. Qed.

Create HintDb kp.
Ltac kp1 := first
  [ apply kp_ret | apply kp_raise | apply kp_need | apply kp_check | solve [auto with kp nocore] | apply kp_bind; [|intros ?] | apply kp_each; intros ?
  | apply kp_upd; intros ?; reflexivity | apply kp_read
  | match goal with |- context [let '(_, _) := ?x in _] => destruct x end
  | match goal with |- kp (match ?x with _ => _ end) => destruct x end
  | match goal with |- kp (if ?x then _ else _) => destruct x end ].
Ltac kps := repeat kp1.
Lemma kp_drop_free g p : kp (drop_free g p). Proof. unfold drop_free, get_poly, put_poly. kps. Qed.
#[global] Hint Resolve kp_drop_free : kp.
Lemma kp_put_pt p x : kp (put_pt p x). Proof. unfold put_pt. kps. Qed.
Lemma kp_put_wire p x : kp (put_wire p x). Proof. unfold put_wire. kps. Qed.
Lemma kp_put_poly p x : kp (put_poly p x). Proof. unfold put_poly. kps. Qed.
Lemma kp_put_next p x : kp (put_next p x). Proof. unfold put_next. kps. Qed.
Lemma kp_put_label p x : kp (put_label p x). Proof. unfold put_label. kps. Qed.
Lemma kp_put_vtx p x : kp (put_vtx p x). Proof. unfold put_vtx. kps. Qed.
Lemma kp_report c : kp (report c). Proof. unfold report. kps. Qed.
Lemma kp_get_pt p : kp (get_pt p). Proof. apply kp_need. Qed.
Lemma kp_get_wire p : kp (get_wire p). Proof. apply kp_need. Qed.
Lemma kp_get_poly p : kp (get_poly p). Proof. apply kp_need. Qed.
Lemma kp_get_vtx p : kp (get_vtx p). Proof. apply kp_need. Qed.
Lemma kp_get_next p : kp (get_next p). Proof. apply kp_need. Qed.
Lemma kp_get_label p : kp (get_label p). Proof. apply kp_need. Qed.
Lemma kp_wire_poly p : kp (wire_poly p). Proof. apply kp_need. Qed.
Lemma kp_get_parent p : kp (get_parent p). Proof. apply kp_need. Qed.
#[global] Hint Resolve kp_put_pt kp_put_wire kp_put_poly kp_put_next kp_put_label kp_put_vtx kp_report kp_get_pt kp_get_wire kp_get_poly kp_get_vtx kp_get_next kp_get_label
  kp_wire_poly kp_get_parent : kp.
Lemma kp_put_wire_poly w g : kp (put_wire_poly w g). Proof. unfold put_wire_poly. kps. Qed.
Lemma kp_put_wire_seg w g : kp (put_wire_seg w g). Proof. unfold put_wire_seg. kps. Qed.
Lemma kp_put_outer w g : kp (put_outer w g). Proof. unfold put_outer. kps. Qed.
Lemma kp_new_wire : kp new_wire.
Proof. intros s r s' H. unfold new_wire in H. destruct (new_id (iw s)). by injection H as <- <-. Qed.
Lemma kp_new_poly w : kp (new_poly w).
Proof. intros s r s' H. unfold new_poly in H. destruct (new_id (ig s)). by injection H as <- <-. Qed.
Lemma kp_rm_wire w : kp (rm_wire w). Proof. unfold rm_wire. kps. Qed.
Lemma kp_rm_poly w : kp (rm_poly w). Proof. unfold rm_poly. kps. Qed.
Lemma kp_segments_from h : kp (segments_from h). Proof. apply kp_read. Qed.
#[global] Hint Resolve kp_put_wire_poly kp_put_wire_seg kp_put_outer kp_new_wire kp_new_poly kp_rm_wire kp_rm_poly kp_segments_from : kp.
Lemma kp_point_segments p : kp (point_segments p). Proof. unfold point_segments. kps. Qed.
Lemma kp_previous p : kp (previous p). Proof. unfold previous. kps. Qed.
Lemma kp_wire_segments w a b : kp (wire_segments w a b). Proof. unfold wire_segments. kps. Qed.
Lemma kp_join_segment p h : kp (join_segment p h). Proof. unfold join_segment. kps. Qed.
Lemma kp_set_polygon p g : kp (set_polygon p g). Proof. unfold set_polygon. kps. Qed.
Lemma kp_is_dendrite g : kp (is_dendrite g). Proof. unfold is_dendrite. kps. Qed.
#[global] Hint Resolve kp_point_segments kp_previous kp_wire_segments kp_join_segment kp_set_polygon kp_is_dendrite : kp.
Lemma kp_rm_segment p h : kp (rm_segment p h). Proof. unfold rm_segment. kps. Qed.
Lemma kp_set_next_side p h : kp (set_next_side p h). Proof. unfold set_next_side. kps. Qed.
#[global] Hint Resolve kp_rm_segment kp_set_next_side : kp.
Lemma kp_connect_vtx h i : kp (connect_vtx h i). Proof. unfold connect_vtx. destruct i as [[? ?] ?]. kps. Qed.
Lemma kp_connect_free_vtx h w : kp (connect_free_vtx h w). Proof. unfold connect_free_vtx. kps. Qed.
Lemma kp_vtx_insert_info h : kp (vtx_insert_info h). Proof. unfold vtx_insert_info. kps. Qed.
Lemma kp_unlink h : kp (unlink h). Proof. unfold unlink. kps. Qed.
#[global] Hint Resolve kp_connect_vtx kp_connect_free_vtx kp_vtx_insert_info kp_unlink : kp.
Lemma kp_disconnect_vtx h : kp (disconnect_vtx h). Proof. unfold disconnect_vtx. kps. Qed.
Lemma kp_disconnect_side h : kp (disconnect_side h). Proof. unfold disconnect_side. kps. Qed.
#[global] Hint Resolve kp_disconnect_vtx kp_disconnect_side : kp.
Lemma kp_disconnect_wires g : kp (disconnect_wires g). Proof. unfold disconnect_wires. kps. Qed.
Lemma kp_set_parent w q : kp (set_parent w q). Proof. unfold set_parent. kps. Qed.
Lemma kp_drop_child w q : kp (drop_child w q). Proof. unfold drop_child. kps. Qed.
Lemma kp_is_root w : kp (is_root w). Proof. unfold is_root. kps. Qed.
Lemma kp_children w : kp (children w). Proof. unfold children. kps. Qed.
Lemma kp_relabel a b l : kp (relabel a b l). Proof. unfold relabel. kps. Qed.
#[global] Hint Resolve kp_disconnect_wires kp_set_parent kp_drop_child kp_is_root kp_children kp_relabel : kp.
Lemma kp_contains_wire K a b : kp (contains_wire K a b). Proof. unfold contains_wire. kps. Qed.
Lemma kp_contains_point K a b : kp (contains_point K a b). Proof. unfold contains_point. kps. Qed.
#[global] Hint Resolve kp_contains_wire kp_contains_point : kp.
Lemma kp_insert_vector K p v : kp (insert_vector K p v). Proof. unfold insert_vector. kps. Qed.
#[global] Hint Resolve kp_insert_vector : kp.

Ltac krs := repeat first [ apply kr_ret | apply kr_bind; [solve [kps]|intros ?] ].
Lemma tk_make_segment a b : tk (make_segment a b).
Proof.
  unfold make_segment. apply tk_bind; [kps|intros _]. apply tk_bind; [kps|intros x]. apply tk_bind; [kps|intros y]. apply tk_then; [|intros i; krs].
  intros s r s' H. destruct (new_id (is_ s)) as [i c] eqn:E. by injection H as <- <-.
Qed.
Lemma gv_destroy_segment g : gv g (destroy_segment g).
Proof.
  unfold destroy_segment. apply gv_bind; [kps|intros a]. apply gv_bind; [kps|intros _]. apply gv_bind; [kps|intros b]. apply gv_bind; [kps|intros _].
  apply gv_bind; [kps|intros _]. intros s r s' [= <- <-]. done.
Qed.
Ltac tks := repeat first [ apply tk_then; [apply tk_make_segment|intros ?] | apply tk_bind; [solve [kps]|intros ?] ].
Ltac gvs := repeat first [ apply gv_raise | apply gv_destroy_segment | apply gv_then; [apply gv_destroy_segment|intros ?; solve [kps]] | apply gv_bind; [solve [kps]|intros ?] ].
Lemma tk_new_wire_op g a b : tk (new_wire_op g a b). Proof. unfold new_wire_op. tks. krs. Qed.
Lemma tk_add_dendrite a b i r : tk (add_dendrite a b i r). Proof. unfold add_dendrite. destruct i as [[? ?] ?]. tks. krs. Qed.
Lemma tk_join_wires a b i j : tk (join_wires a b i j). Proof. unfold join_wires. destruct i as [[? ?] ?], j as [[? ?] ?]. tks. krs. Qed.
Lemma tk_split_poly K a b i j : tk (split_poly K a b i j). Proof. unfold split_poly. destruct i as [[? ?] ?], j as [[? ?] ?]. tks. krs. Qed.
Lemma gv_rm_wire_op g : gv g (rm_wire_op g). Proof. unfold rm_wire_op. gvs. Qed.
Lemma gv_rm_dendrite g t : gv g (rm_dendrite g t). Proof. unfold rm_dendrite. gvs. Qed.
Lemma gv_split_wire K g : gv g (split_wire K g). Proof. unfold split_wire. gvs. Qed.
Lemma gv_join_poly g : gv g (join_poly g).
Proof. unfold join_poly. do 6 (apply gv_bind; [kps|intros ?]). apply gv_bind; [kps|intros [[? ?] ?]]. gvs. Qed.

(** new_segment either finds a segment or takes the next id. *)
Lemma new_segment_id K a b s i s' : new_segment K a b s = (Ok i, s') -> p2s s !! (a, b) = None -> p2s s !! (b, a) = None -> new_id (is_ s) = (i, is_ s').
Proof.
  intros H E1 E2. unfold new_segment in H. revert s i s' H E1 E2.
  enough (X : forall x y, forall s i s', (check (bool_decide (a <> b)) ;~ check (negb (Qle_bool (fst (vminus (xy y) (xy x)) * fst (vminus (xy y) (xy x)) + snd (vminus (xy y) (xy x)) * snd (vminus (xy y) (xy x))) (1 # 100000000000000000000))) ;~
    report CNone ;~
    (o1 <~ (fun s => (Ok (p2s s !! (a, b)), s)) ; o2 <~ (fun s => (Ok (p2s s !! (b, a)), s)) ;
     match o1, o2 with
     | Some i, _ => ret i
     | None, Some i => ret i
     | None, None =>
     if is_free x && is_free y then
       check (bool_decide (p_poly x = p_poly y)) ;~ (g <~ need (fun _ => p_poly x) ; new_wire_op g a b)
     else
       ia <~ insert_vector K a (vminus (xy y) (xy x)) ; ib <~ insert_vector K b (vminus (0, 0)%Q (vminus (xy y) (xy x))) ;
       if is_free x then i <~ need (fun _ => ib) ; add_dendrite a b i true
       else if is_free y then i <~ need (fun _ => ia) ; add_dendrite a b i false
       else i <~ need (fun _ => ia) ; j <~ need (fun _ => ib) ;
            if decide (snd i = snd j) then split_poly K a b i j else join_wires a b i j
     end)) s = (Ok i, s') -> p2s s !! (a, b) = None -> p2s s !! (b, a) = None -> new_id (is_ s) = (i, is_ s')).
  { intros s i s' H E1 E2. unfold bind at 1 in H. unfold get_pt at 1, need at 1 in H. destruct (points s !! a) as [x|]; [|done].
    unfold bind at 1 in H. unfold get_pt at 1, need at 1 in H. destruct (points s !! b) as [y|]; [|done]. by apply (X x y s i s'). }
  intros x y s i s' H E1 E2. 
  unfold bind at 1 in H. unfold check at 1 in H. destruct (bool_decide (a <> b)); [|done]. unfold ret at 1 in H.
  unfold bind at 1 in H. unfold check at 1 in H. destruct (negb _); [|done]. unfold ret at 1 in H.
  unfold bind at 1 in H. unfold report, upd in H. unfold bind at 1 in H. unfold bind at 1 in H. cbn [p2s set_change] in H. rewrite E1, E2 in H.
  change (is_ s) with (is_ (set_change CNone s)). generalize (set_change CNone s) as s0, H. clear. intros s0. revert s0 i s'.
  match goal with |- forall s0 i s', ?m s0 = _ -> _ => change (tk m) end.
  destruct (is_free x), (is_free y); cbn [andb].
  - do 2 (apply tk_bind; [kps|intros ?]). apply tk_new_wire_op.
  - do 3 (apply tk_bind; [kps|intros ?]). apply tk_add_dendrite.
  - do 3 (apply tk_bind; [kps|intros ?]). apply tk_add_dendrite.
  - do 4 (apply tk_bind; [kps|intros ?]). destruct (decide _); [apply tk_split_poly|apply tk_join_wires].
Qed.
Lemma gv_delete_segment K g : gv g (delete_segment K g).
Proof.
  unfold delete_segment. do 3 (apply gv_bind; [kps|intros ?]). destruct (bool_decide _), (bool_decide _); cbn [andb].
  - apply gv_rm_wire_op.
  - apply gv_rm_dendrite.
  - apply gv_rm_dendrite.
  - apply gv_bind; [kps|intros []]; [apply gv_split_wire|apply gv_join_poly].
Qed.
Lemma tk_split_segment e mid : tk (split_segment e mid). Proof. unfold split_segment. tks. krs. Qed.
Lemma gv_join_segments mid e n : gv n (join_segments mid e n). Proof. unfold join_segments. gvs. Qed.
