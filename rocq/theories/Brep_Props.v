(** Theorems about brep_writer.py: C40, C41, C42, C60. *)
From Coq Require Import List Arith Bool ZArith QArith Lia.
From Verif Require Import Brep_Model Brep_Spec Brep_Proofs Brep_Read Brep_Run Brep_Write Brep_Wire Brep_Default
  Brep_Pass Brep_Total Brep_Main.
Import ListNotations.
Local Open Scope nat_scope.
Local Open Scope list_scope.

(** * C40: the file describes the model *)
Theorem C40_readback : forall ops s root l f s', run ops init = Some s ->
  unwritten s root l -> no_identity_power (hp s) root l -> write_model root l s = Some (f, s') ->
  exists t, read f = Some t /\ shape_tree (hp s') root t.
Proof.
  intros ops s root l f s' R U N W. pose proof (reachable_good _ _ R) as G.
  destruct (written _ _ _ _ _ W) as (s1 & I & -> & _).
  destruct (write_model_l s root l G U N s1 I) as (f' & t & W' & RD & ST).
  rewrite W in W'. injection W' as <-. exists t. auto.
Qed.
Print Assumptions C40_readback.

Theorem C40_effect : forall ops s root l f s', run ops init = Some s ->
  write_model root l s = Some (f, s') -> only_adds (hp s) (hp s').
Proof.
  intros ops s root l f s' R W. destruct (written _ _ _ _ _ W) as (s1 & I & -> & _).
  apply hext_only_adds. destruct (index_all_good root l s s1 I (reachable_good _ _ R)) as (_ & E & _). exact E.
Qed.
Print Assumptions C40_effect.

Theorem C40_each_once : forall ops s root l f s', run ops init = Some s ->
  unwritten s root l -> write_model root l s = Some (f, s') ->
  exists os : cls -> list nat,
    (forall c, NoDup (os c)) /\
    (forall c o, In o (os c) <-> part (hp s') root l c o /\ ~ is_ident (hp s') c o) /\
    Forall2 (loc_record (hp s')) (os CL) (f_locs f) /\
    Forall2 (fun o g => nth_error (h_c2 (hp s')) o = Some g) (os C2) (f_c2 f) /\
    Forall2 (fun o g => nth_error (h_c3 (hp s')) o = Some g) (os C3) (f_c3 f) /\
    Forall2 (fun o g => nth_error (h_s (hp s')) o = Some g) (os CS) (f_surfs f) /\
    Forall2 (shape_record (hp s')) (os SH) (f_shapes f).
Proof. intros ops s root l f s' R. apply write_once. eapply reachable_good; eauto. Qed.
Print Assumptions C40_each_once.

Theorem C40_succeeds : forall ops s root l, run ops init = Some s -> unwritten s root l ->
  no_identity_power (hp s) root l -> ready (hp s) root ->
  root < length (h_sh (hp s)) -> l < length (h_loc (hp s)) -> write_model root l s <> None.
Proof.
  intros ops s root l R U N RD A B. pose proof (reachable_good _ _ R) as G.
  destruct (index_total s root l G U RD A B) as [s1 I].
  destruct (write_model_l s root l G U N s1 I) as (f & t & -> & _). discriminate.
Qed.
Print Assumptions C40_succeeds.

Theorem C40_first_write : forall ops s root l, run ops init = Some s ->
  (forall c, In c ops -> numbers c = false) -> unwritten s root l.
Proof.
  intros ops s root l R N. apply fresh_unwritten. apply (run_fresh ops init s R init_good init_calm init_fresh).
  apply forallb_forall. intros c Hc. rewrite N; auto.
Qed.
Print Assumptions C40_first_write.

(** A power of the identity closes the record of a composed location. *)
Theorem C40_identity_power_refuted : exists ops s root l f s', run ops init = Some s /\ unwritten s root l /\
  write_model root l s = Some (f, s') /\ read f = None.
Proof.
  pose (ops := [NewComposed [(0, 1%Z)]; NewVertex (1, 2, 3)%Q 0%Q; NewGroup Co [SRef 0 Forward 1]]).
  destruct (run ops init) as [s|] eqn:R; [|discriminate].
  exists ops, s, 1, 0. destruct (write_model 1 0 s) as [[f s']|] eqn:W.
  - exists f, s'. split; auto. split.
    { apply (C40_first_write ops); auto. intros c H. cbn in H. destruct H as [<-|[<-|[<-|[]]]]; auto. }
    split; auto. cbn in R. injection R as <-. vm_compute in W. injection W as <- _. reflexivity.
  - exfalso. cbn in R. injection R as <-. vm_compute in W. discriminate.
Qed.
Print Assumptions C40_identity_power_refuted.

(** A triangle with one edge used backwards, moved by a composed location. *)
Definition mat : list (list Q) := [[1; 0; 0; 5]; [0; 1; 0; 0]; [0; 0; 1; 0]]%Q.
Definition tri : list op :=
  [NewVertex (0, 0, 0)%Q 0%Q; NewVertex (1, 0, 0)%Q 0%Q; NewVertex (0, 2, 0)%Q 0%Q;
   NewEdge (SRef 0 Forward 0) (SRef 1 Forward 0) 0%Q; NewEdge (SRef 1 Forward 0) (SRef 2 Forward 0) 0%Q;
   NewEdge (SRef 0 Forward 0) (SRef 2 Forward 0) 0%Q;
   NewFace [SRef 3 Forward 0; SRef 4 Forward 0; SRef 5 Reversed 0] None 0 0%Q;
   NewGroup Sh [SRef 7 Forward 0];
   NewLocation (Some mat); NewComposed [(1, 2%Z)];
   NewGroup Co [SRef 8 Forward 2; SRef 8 Forward 0]].
Definition tri_heap : heap :=
  let V p := Shape Ve [] (kind_flags Ve) 0 [] p (1, 1, 0)%Z 0 in
  let E a b := Shape Ed [SRef a Forward 0; SRef b Reversed 0] (kind_flags Ed) 0 [] (0, 0, 0)%Q (1, 1, 0)%Z 0 in
  Heap [LIdent; LMat mat; LComp [(1, 2%Z)]] [] [] []
    [V (0, 0, 0)%Q; V (1, 0, 0)%Q; V (0, 2, 0)%Q; E 0 1; E 1 2; E 0 2;
     Shape Wi [SRef 3 Forward 0; SRef 4 Forward 0; SRef 5 Reversed 0]
           (flags7 false true false true true false false) 0 [] (0, 0, 0)%Q (1, 1, 0)%Z 0;
     Shape Fa [SRef 6 Forward 0] (kind_flags Fa) 0 [] (0, 0, 0)%Q (1, 1, 0)%Z 0;
     Shape Sh [SRef 7 Forward 0] (kind_flags Sh) 0 [] (0, 0, 0)%Q (1, 1, 0)%Z 0;
     Shape Co [SRef 8 Forward 2; SRef 8 Forward 0] (kind_flags Co) 0 [] (0, 0, 0)%Q (1, 1, 0)%Z 0].
Lemma tri_run : exists s, run tri init = Some s /\ hp s = tri_heap.
Proof. destruct (run tri init) as [s|] eqn:R; vm_compute in R; [|discriminate]. injection R as <-. eexists. split; reflexivity. Qed.
Lemma tri_plain : forall c, In c tri -> numbers c = false.
Proof. intros c H. repeat (destruct H as [<-|H]; [reflexivity|]). destruct H. Qed.
Lemma tri_powers : no_identity_power tri_heap 9 0.
Proof.
  intros o ps p _ H Hp. destruct o as [|[|[|o]]]; cbn in H; try discriminate.
  - injection H as <-. destruct Hp as [<-|[]]. cbn. discriminate.
  - destruct o; discriminate.
Qed.
Lemma tri_ready : ready tri_heap 9.
Proof.
  intros o x _ X _. do 10 (try destruct o as [|o]); cbn in X;
    try (injection X as <-; split; intros K; try discriminate);
    [reflexivity|reflexivity|reflexivity| |destruct o; discriminate].
  eexists _, [1; 2; 0]. split; [eexists; split; [repeat constructor|reflexivity]|]. split; [|auto].
  split; [reflexivity|]. intros i r H. destruct i as [|[|[|i]]]; cbn in H; try (injection H as <-);
    [| | |destruct i; discriminate]; cbn [length]; eexists; (split; [reflexivity|reflexivity]).
Qed.
Example C40_case : exists s f s', run tri init = Some s /\ write_model 9 0 s = Some (f, s') /\
  unwritten s 9 0 /\ no_identity_power (hp s) 9 0 /\ ready (hp s) 9 /\
  (exists t, read f = Some t /\ shape_tree (hp s') 9 t) /\ length (f_shapes f) = 10 /\ length (f_locs f) = 2 /\
  f_surfs f = [Plane (1, 0, 0)%Q (0, 2, 0)%Q (0, 0, 0)%Q] /\ length (f_c2 f) = 3 /\ length (f_c3 f) = 3.
Proof.
  destruct tri_run as (s & R & H). pose proof (C40_first_write tri s 9 0 R tri_plain) as U.
  assert (N : no_identity_power (hp s) 9 0) by (rewrite H; apply tri_powers).
  assert (RD : ready (hp s) 9) by (rewrite H; apply tri_ready).
  destruct (write_model 9 0 s) as [[f s']|] eqn:W.
  2:{ exfalso. apply (C40_succeeds tri s 9 0 R U N RD); auto; rewrite H; cbn; lia. }
  exists s, f, s'. split; auto. split; auto. split; auto. split; auto. split; auto.
  split; [apply (C40_readback tri s 9 0 f s' R U N W)|].
  vm_compute in R. injection R as <-. vm_compute in W. injection W as <- <-. repeat (split; [reflexivity|]). reflexivity.
Qed.

(** * C41: writing again *)
Theorem C41_second_write_empty : forall ops s root l f s', run ops init = Some s -> unwritten s root l ->
  write_model root l s = Some (f, s') ->
  exists s'', write_model root l s' = Some (File [] [] [] [] [], s'') /\ hp s'' = hp s' /\
              (forall c o, ids s'' c o = ids s' c o).
Proof.
  intros ops s root l f s' R U W. destruct (write_again s root l f s' (reachable_good _ _ R) U W) as (s'' & A & B & C & _).
  eauto.
Qed.
Print Assumptions C41_second_write_empty.

(** Of the first two files of a model the second is never the first one, and cannot be read. *)
Theorem C41_same_file_refuted : forall ops s root l f s' f2 s2, run ops init = Some s -> unwritten s root l ->
  write_model root l s = Some (f, s') -> write_model root l s' = Some (f2, s2) -> f2 <> f /\ read f2 = None.
Proof.
  intros ops s root l f s' f2 s2 R U W W2.
  destruct (write_again s root l f s' (reachable_good _ _ R) U W) as (s'' & A & _ & _ & B).
  rewrite A in W2. injection W2 as <- _. split; [intros <-; apply B; auto|reflexivity].
Qed.
Print Assumptions C41_same_file_refuted.

(** Printing the root before writing loses the model too. *)
Theorem C41_repr_refuted : forall ops s root s' f s2, run ops init = Some s -> unwritten s root 0 ->
  step (Repr root) s = Some s' -> write_model root 0 s' = Some (f, s2) -> f = File [] [] [] [] [] /\ read f = None.
Proof.
  intros ops s root s' f s2 R U H W. destruct (repr_then_write s root s' (reachable_good _ _ R) U H) as (s'' & A).
  rewrite A in W. injection W as <- _. auto.
Qed.
Print Assumptions C41_repr_refuted.

(** Two compounds with a common vertex: the second file refers to a missing shape. *)
Theorem C41_shared_refuted : exists ops s f s', run ops init = Some s /\ write_model 2 0 s = Some (f, s') /\
  f_shapes f = [SRec Co SubNone (kind_flags Co) [(Forward, 2, 0)]] /\ read f = None.
Proof.
  pose (ops := [NewVertex (1, 2, 3)%Q 0%Q; NewGroup Co [SRef 0 Forward 0]; NewGroup Co [SRef 0 Forward 0]; Write 1 0]).
  destruct (run ops init) as [s|] eqn:R; [|vm_compute in R; discriminate]. vm_compute in R. injection R as <-.
  eexists ops, _, _, _. repeat (split; [reflexivity|]). reflexivity.
Qed.
Print Assumptions C41_shared_refuted.

(** A model made of new objects is written correctly whatever was written before. *)
Theorem C41_disjoint_models : forall ops s root1 l1 f1 s1 root l f s',
  run ops init = Some s -> write_model root1 l1 s = Some (f1, s1) ->
  unwritten s1 root l -> no_identity_power (hp s1) root l -> write_model root l s1 = Some (f, s') ->
  exists t, read f = Some t /\ shape_tree (hp s') root t.
Proof.
  intros ops s root1 l1 f1 s1 root l f s' R W1 U N W.
  apply (C40_readback (ops ++ [Write root1 l1]) s1 root l f s'); auto.
  clear - R W1. revert R. generalize init. induction ops as [|c ops IH]; intros i R; cbn in *.
  - injection R as ->. rewrite W1. auto.
  - destruct (step c i) as [j|]; [|discriminate]. auto.
Qed.
Print Assumptions C41_disjoint_models.

Example C41_case : exists s f s' s'', run tri init = Some s /\ unwritten s 9 0 /\ write_model 9 0 s = Some (f, s') /\
  length (f_shapes f) = 10 /\ write_model 9 0 s' = Some (File [] [] [] [] [], s'').
Proof.
  destruct C40_case as (s & f & s' & R & W & U & _ & _ & _ & L & _).
  destruct (C41_second_write_empty _ _ _ _ _ _ R U W) as (s'' & W2 & _). exists s, f, s', s''. auto.
Qed.
Example C41_repr_case : exists s s' f s2, run tri init = Some s /\ unwritten s 9 0 /\ step (Repr 9) s = Some s' /\
  write_model 9 0 s' = Some (f, s2).
Proof.
  destruct tri_run as (s & R & _). pose proof (C40_first_write tri s 9 0 R tri_plain) as U.
  destruct (step (Repr 9) s) as [s'|] eqn:E.
  - destruct (repr_then_write s 9 s' (reachable_good _ _ R) U E) as (s'' & A). exists s, s', (File [] [] [] [] []), s''. auto.
  - exfalso. vm_compute in R. injection R as <-. vm_compute in E. discriminate.
Qed.
Example C41_disjoint_case : exists ops s f1 s1 f s', run ops init = Some s /\ write_model 1 0 s = Some (f1, s1) /\
  unwritten s1 3 0 /\ no_identity_power (hp s1) 3 0 /\ write_model 3 0 s1 = Some (f, s') /\ length (f_shapes f) = 2.
Proof.
  pose (ops := [NewVertex (1, 2, 3)%Q 0%Q; NewGroup Co [SRef 0 Forward 0];
                NewVertex (1, 2, 3)%Q 0%Q; NewGroup Co [SRef 2 Forward 0]]).
  destruct (run ops init) as [s|] eqn:R; [|vm_compute in R; discriminate].
  destruct (write_model 1 0 s) as [[f1 s1]|] eqn:W1.
  2:{ exfalso. vm_compute in R. injection R as <-. vm_compute in W1. discriminate. }
  destruct (write_model 3 0 s1) as [[f s']|] eqn:W.
  2:{ exfalso. vm_compute in R. injection R as <-. vm_compute in W1. injection W1 as _ <-. vm_compute in W. discriminate. }
  exists ops, s, f1, s1, f, s'. split; auto. split; auto. vm_compute in R. injection R as <-.
  vm_compute in W1. injection W1 as _ <-. split; [|split; [|split; auto; vm_compute in W; injection W as <- _; auto]].
  - intros c o [P|P].
    + assert (Q : (c = SH /\ (o = 3 \/ o = 2)) \/ (c = CL /\ o = 0)).
      { induction P as [|c o c' o' P IH Hi]; auto.
        destruct IH as [[-> [-> | ->]]|[-> ->]]; vm_compute in Hi; [|tauto|tauto].
        destruct Hi as [Hi|[Hi|[]]]; injection Hi as <- <-; intuition. }
      destruct Q as [[-> [-> | ->]]|[-> ->]]; [right; reflexivity|right; reflexivity|left; split; reflexivity].
    + assert (Q : c = CL /\ o = 0).
      { induction P as [|c o c' o' P IH Hi]; auto. destruct IH as [-> ->]. vm_compute in Hi. tauto. }
      destruct Q as [-> ->]. left; split; reflexivity.
  - intros [|o] ps p _ H; cbn in H; [discriminate|destruct o; discriminate].
Qed.

(** * C42: closed wires *)
Theorem C42_wire_closed : forall ops s cs s', run ops init = Some s -> step (NewWire cs) s = Some s' ->
  exists w, h_sh (hp s') = h_sh (hp s) ++ [w] /\ s_kind w = Wi /\ s_childs w = cs /\
    (nth 4 (s_flags w) false = true <-> evenly_used (hp s) cs).
Proof.
  intros ops s cs s' R H. cbn in H.
  destruct (make_wire_l cs s s' H (reachable_good _ _ R) (reachable_calm _ _ R)) as (x & A & B & C & _ & E). eauto.
Qed.
Print Assumptions C42_wire_closed.

(** A face made from edges needs a closed wire and nothing else. *)
Theorem C42_face_closed : forall ops s cs tol, run ops init = Some s -> cs <> [] ->
  (forall r, In r cs -> r_loc r < length (h_loc (hp s)) /\
     exists y, nth_error (h_sh (hp s)) (r_shape r) = Some y /\ s_kind y = Ed) ->
  (step (NewFace cs None 0 tol) s <> None <-> evenly_used (hp s) cs).
Proof.
  intros ops s cs tol R N V. pose proof (reachable_good _ _ R) as G. pose proof (reachable_calm _ _ R) as Z. cbn. split.
  - intros H. destruct cs as [|r cs]; [congruence|]. destruct (make_face (r :: cs) None 0 tol s) as [s'|] eqn:M; [|congruence].
    eapply make_face_edges; eauto. apply V. cbn; auto.
  - intros E. destruct (make_face_total cs tol s G Z N V E) as (s' & ->). discriminate.
Qed.
Print Assumptions C42_face_closed.

(** The flag does not follow an appended edge. *)
Theorem C42_append_refuted : exists ops s w x, run ops init = Some s /\ nth_error (h_sh (hp s)) w = Some x /\
  s_kind x = Wi /\ nth 4 (s_flags x) false = true /\ ~ evenly_used (hp s) (s_childs x).
Proof.
  pose (ops := [NewVertex (0, 0, 0)%Q 0%Q; NewVertex (1, 0, 0)%Q 0%Q;
    NewEdge (SRef 0 Forward 0) (SRef 1 Forward 0) 0%Q; NewEdge (SRef 1 Forward 0) (SRef 0 Forward 0) 0%Q;
    NewWire [SRef 2 Forward 0; SRef 3 Forward 0]; Append 4 (SRef 2 Forward 0)]).
  destruct (run ops init) as [s|] eqn:R; [|vm_compute in R; discriminate]. vm_compute in R. injection R as <-.
  eexists ops, _, 4, _. repeat (split; [reflexivity|]). intros H. specialize (H 0). apply Nat.even_spec in H. vm_compute in H. discriminate.
Qed.
Print Assumptions C42_append_refuted.

Example C42_case : exists s s', run (firstn 6 tri) init = Some s /\
  step (NewWire [SRef 3 Forward 0; SRef 4 Forward 0; SRef 5 Reversed 0]) s = Some s' /\
  evenly_used (hp s) [SRef 3 Forward 0; SRef 4 Forward 0; SRef 5 Reversed 0] /\
  ~ evenly_used (hp s) [SRef 3 Forward 0; SRef 4 Forward 0].
Proof.
  destruct (run (firstn 6 tri) init) as [s|] eqn:R; [|vm_compute in R; discriminate]. vm_compute in R. injection R as <-.
  eexists _, _. split; [reflexivity|]. split; [reflexivity|]. split.
  - intros v. unfold uses. cbn. destruct v as [|[|[|v]]]; [exists 1|exists 1|exists 1|exists 0]; reflexivity.
  - intros H. specialize (H 0). apply Nat.even_spec in H. vm_compute in H. discriminate.
Qed.

(** * C60: default geometry *)
Theorem C60_default_geometry : forall ops s root l f s', run ops init = Some s -> unwritten s root l ->
  write_model root l s = Some (f, s') ->
  forall o x0 x, part (hp s) root l SH o -> nth_error (h_sh (hp s)) o = Some x0 ->
    nth_error (h_sh (hp s')) o = Some x -> s_repr x0 = [] ->
    (s_kind x0 = Ed -> has_line (hp s') x) /\ (s_kind x0 = Fa -> has_patch (hp s') x).
Proof.
  intros ops s root l f s' R U W. destruct (written _ _ _ _ _ W) as (s1 & I & -> & _).
  apply (index_default s root l s1 (reachable_good _ _ R) U I).
Qed.
Print Assumptions C60_default_geometry.

Example C60_case : exists s f s' x0 x, run tri init = Some s /\ unwritten s 9 0 /\ write_model 9 0 s = Some (f, s') /\
  part (hp s) 9 0 SH 7 /\ nth_error (h_sh (hp s)) 7 = Some x0 /\ nth_error (h_sh (hp s')) 7 = Some x /\
  s_repr x0 = [] /\ s_kind x0 = Fa /\ has_patch (hp s') x.
Proof.
  destruct C40_case as (s & f & s' & R & W & U & _).
  assert (H : hp s = tri_heap). { destruct tri_run as (t & R' & H). congruence. }
  assert (P : part (hp s) 9 0 SH 7).
  { rewrite H. left. apply (reach_step _ _ _ SH 8); [|cbn; auto]. apply (reach_step _ _ _ SH 9); [constructor|cbn; auto]. }
  assert (X0 : exists x0, nth_error (h_sh (hp s)) 7 = Some x0 /\ s_repr x0 = [] /\ s_kind x0 = Fa).
  { rewrite H. eexists. repeat (split; [reflexivity|]). reflexivity. }
  destruct X0 as (x0 & X0 & R0 & K0).
  destruct (C40_effect _ _ _ _ _ _ R W) as [_ _ _ _ OA].
  destruct (Forall2_nth _ _ _ OA 7 x0 X0) as (x & X & _).
  exists s, f, s', x0, x. repeat (split; [now auto|]).
  apply (C60_default_geometry _ _ _ _ _ _ R U W 7 x0 x P X0 X R0); auto.
Qed.
