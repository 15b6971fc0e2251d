(** Properties C01-C06 (undo stack). *)
From Coq Require Import List String Bool Arith Lia.
From Verif Require Import Undo_Model Undo_Spec Undo_Proofs.
Import ListNotations.
Open Scope string_scope.

(** Test function used in examples: set the document to n, undo restores the old
    value. *)
Definition set_to (n : nat) : gen nat :=
  GRead (fun old => GWrite n (GYield "set" (GWrite old GEnd))).
(** A function that raises. *)
Definition failing : gen nat := GRaise.

Lemma set_to_reversible : forall n, reversible (fun _ => True) (set_to n).
Proof. intros n d _. simpl. repeat split. exists NEnd, []. now split. Qed.
Lemma set_to_never_fails : forall n, never_fails (fun _ => True) (set_to n).
Proof. intros n d _. repeat eexists. Qed.
Lemma failing_reversible : reversible (fun _ => True) failing.
Proof. intros d _. now split. Qed.

Definition sample : list (cmd nat) :=
  [CCall (set_to 1); CGroup "g" [set_to 2; set_to 3]; CUndo; CCall failing; CRedo;
   CCall (set_to 4); CUndo; CSave].
Lemma sample_good : Forall (good (fun _ => True)) sample.
Proof.
  unfold sample. repeat apply Forall_cons; simpl;
  auto using set_to_reversible, set_to_never_fails, failing_reversible.
Qed.

(** C01 *)
Theorem C01_stack_refines_history :
  forall (D : Type) (V : D -> Prop) (cs : list (cmd D)) (d : D),
  V d -> Forall (good V) cs ->
  let st := run (map to_op cs) (mkSt d init_stk) in
  let h := sp_run cs (mkHist [] d []) in
  doc st = cur h /\ undocount (stack st) = List.length (past h) /\
  List.length (redos (stack st)) = List.length (future h) /\
  canundo (stack st) = negb (match past h with [] => true | _ => false end) /\
  canredo (stack st) = negb (match future h with [] => true | _ => false end).
Proof. exact refinement. Qed.
Print Assumptions C01_stack_refines_history.

Theorem C01_undo_redo_identity :
  forall (D : Type) (V : D -> Prop) (cs : list (cmd D)) (d : D),
  V d -> Forall (good V) cs ->
  let st := run (map to_op cs) (mkSt d init_stk) in
  forall n, n <= undocount (stack st) ->
  same_history (iter n (fun s => snd (redo s)) (iter n (fun s => snd (undo s)) st)) st.
Proof. exact undo_redo_identity_l. Qed.
Print Assumptions C01_undo_redo_identity.

Theorem C01_undo_all_restores :
  forall (D : Type) (V : D -> Prop) (cs : list (cmd D)) (d : D),
  V d -> Forall (good V) cs ->
  let st := run (map to_op cs) (mkSt d init_stk) in
  doc (iter (undocount (stack st)) (fun s => snd (undo s)) st) = d.
Proof. exact undo_all. Qed.
Print Assumptions C01_undo_all_restores.

Example C01_case :
  Forall (good (fun _ : nat => True)) sample /\
  let st := run (map to_op sample) (mkSt 0 init_stk) in
  undocount (stack st) = 2 /\ doc st = 3 /\
  doc (iter 2 (fun s => snd (undo s)) st) = 0.
Proof. split; [exact sample_good|]. vm_compute. repeat split. Qed.

(** C02 *)
Theorem C02_group_is_one_step :
  forall (D : Type) (V : D -> Prop) (cs : list (cmd D)) (d : D) desc gs,
  V d -> Forall (good V) cs ->
  Forall (fun g => reversible V g /\ never_fails V g) gs ->
  let st := run (map to_op cs) (mkSt d init_stk) in
  let st' := snd (exec (OGroup desc (map OCall gs)) st) in
  doc st' = effects gs (doc st) /\
  (exists e, undos (stack st') = e :: undos (stack st) /\ entry_text e = desc) /\
  redos (stack st') = [] /\
  doc (snd (undo st')) = doc st /\
  undos (stack (snd (undo st'))) = undos (stack st) /\
  doc (snd (redo (snd (undo st')))) = doc st'.
Proof. exact group_is_one_step_l. Qed.
Print Assumptions C02_group_is_one_step.

Example C02_case :
  let st := run (map to_op sample) (mkSt 0 init_stk) in
  let st' := snd (exec (OGroup "two" (map OCall [set_to 7; set_to 8])) st) in
  doc st' = 8 /\ doc (snd (undo st')) = 3 /\
  Forall (fun g => reversible (fun _ => True) g /\ never_fails (fun _ => True) g) [set_to 7; set_to 8].
Proof.
  split; [reflexivity|split; [reflexivity|]].
  repeat apply Forall_cons; auto using set_to_reversible, set_to_never_fails.
Qed.

(** Groups do not nest: after a group inside a group, undoing everything does not
    give back the document on which recording started. *)
Theorem C02_nested_group_refuted :
  exists (ops : list (op nat)),
  ops = [OGroup "outer" [OCall (set_to 1); OGroup "inner" [OCall (set_to 2)]; OCall (set_to 3)]] /\
  let st := run ops (mkSt 0 init_stk) in
  undocount (stack st) = 3 /\
  doc (iter 3 (fun s => snd (undo s)) st) = 1 /\
  canundo (stack (iter 3 (fun s => snd (undo s)) st)) = false.
Proof. eexists. split; [reflexivity|]. vm_compute. repeat split. Qed.
Print Assumptions C02_nested_group_refuted.

(** C03 *)
Theorem C03_failed_call_records_nothing :
  forall (D : Type) (g : gen D) (st : state D),
  fst (call g st) = false -> snd (next g (doc st)) = [] ->
  stack (snd (call g st)) = stack st.
Proof. exact failed_call_records_nothing_l. Qed.
Print Assumptions C03_failed_call_records_nothing.

Theorem C03_raising_undo_clears :
  forall (D : Type) (st : state D),
  (fst (undo st) = false ->
     let s := stack (snd (undo st)) in
     undos s = [] /\ redos s = [] /\ recv s = RMain /\ haschanged s = true) /\
  (fst (redo st) = false ->
     let s := stack (snd (redo st)) in
     undos s = [] /\ redos s = [] /\ recv s = RMain /\ haschanged s = true).
Proof. exact raising_undo_clears_l. Qed.
Print Assumptions C03_raising_undo_clears.

(** A call that records makes a new entry whatever failed before, outside groups. *)
Theorem C03_recording_continues :
  forall (D : Type) (V : D -> Prop) (cs : list (cmd D)) (d : D) g t r d' ,
  V d -> Forall (good V) cs ->
  let st := run (map to_op cs) (mkSt d init_stk) in
  next g (doc st) = (NYield t r, d', []) ->
  undocount (stack (snd (call g st))) = S (undocount (stack st)) /\
  undotext (stack (snd (call g st))) = Some ("Undo " ++ t).
Proof. exact recording_continues_l. Qed.
Print Assumptions C03_recording_continues.

Example C03_case :
  fst (call failing (mkSt 5 init_stk)) = false /\
  fst (undo (mkSt 5 (mkStk [EAct (mkAct failing (Some GRaise) "x")] [] RMain [] (Some 1)))) = false.
Proof. vm_compute. split; reflexivity. Qed.

(** An exception inside a group silently stops recording: a later call changes
    the document but cannot be undone. *)
Theorem C03_exception_in_group_refuted :
  exists (ops : list (op nat)),
  ops = [OGroup "g" [OCall failing]; OCall (set_to 1)] /\
  let st := run ops (mkSt 0 init_stk) in
  doc st = 1 /\ canundo (stack st) = false /\ doc (snd (undo st)) = 1.
Proof. eexists. split; [reflexivity|]. vm_compute. repeat split. Qed.
Print Assumptions C03_exception_in_group_refuted.

(** C04 *)
Theorem C04_new_action_discards_redo :
  forall (D : Type) (g : gen D) (st : state D),
  recv (stack st) = RMain -> fst (call g st) = true ->
  canredo (stack (snd (call g st))) = false /\ canundo (stack (snd (call g st))) = true.
Proof. exact new_action_discards_redo_l. Qed.
Print Assumptions C04_new_action_discards_redo.

(** One undo (redo) that returns moves exactly one entry between the lists and
    records nothing, whatever undoable functions the action calls inside. *)
Theorem C04_undo_moves_one_entry :
  forall (D : Type) (st : state D) e us, undos (stack st) = e :: us ->
  fst (undo st) = true ->
  undos (stack (snd (undo st))) = us /\
  tl (redos (stack (snd (undo st)))) = redos (stack st) /\
  List.length (redos (stack (snd (undo st)))) = S (List.length (redos (stack st))) /\
  redotext (stack (snd (undo st))) = Some ("Redo " ++ entry_text e).
Proof. exact undo_moves_one_entry_l. Qed.
Print Assumptions C04_undo_moves_one_entry.

Theorem C04_redo_moves_one_entry :
  forall (D : Type) (st : state D) e rs, redos (stack st) = e :: rs ->
  fst (redo st) = true ->
  redos (stack (snd (redo st))) = rs /\
  tl (undos (stack (snd (redo st)))) = undos (stack st) /\
  undocount (stack (snd (redo st))) = S (undocount (stack st)).
Proof. exact redo_moves_one_entry_l. Qed.
Print Assumptions C04_redo_moves_one_entry.

(** The undo part calls an undoable function, as in polygons.py lines 632, 642. *)
Definition set_via_call (n : nat) : gen nat :=
  GRead (fun old => GWrite n (GYield "set" (GCall (set_to old) GEnd))).
Example C04_case :
  let st := run [OCall (set_to 1); OCall (set_via_call 2)] (mkSt 0 init_stk) in
  fst (undo st) = true /\ doc (snd (undo st)) = 1 /\ undocount (stack (snd (undo st))) = 1.
Proof. vm_compute. repeat split. Qed.

(** With recording disabled (polygons.disable_undo) a change of the document
    leaves the redo list in place, and redo overwrites that change. *)
Theorem C04_stale_redo_refuted :
  exists ops : list (op nat),
  ops = [OCall (set_to 1); OUndo; ODisable; OCall (set_to 5)] /\
  let st := run ops (mkSt 0 init_stk) in
  doc st = 5 /\ canredo (stack st) = true /\ doc (snd (redo st)) = 1.
Proof. eexists. split; [reflexivity|]. vm_compute. repeat split. Qed.
Print Assumptions C04_stale_redo_refuted.

(** undo() switches recording on again after disable_undo(). *)
Theorem C04_undo_reenables_recording_refuted :
  exists ops : list (op nat),
  ops = [OCall (set_to 1); ODisable; OUndo; OCall (set_to 2)] /\
  undocount (stack (run ops (mkSt 0 init_stk))) = 1.
Proof. eexists. split; [reflexivity|]. vm_compute. reflexivity. Qed.
Print Assumptions C04_undo_reenables_recording_refuted.

(** C05 *)
Theorem C05_haschanged_refuted :
  exists ops : list (op nat),
  ops = [OCall (set_to 1); OSave; OUndo; OCall (set_to 2)] /\
  let saved := run (firstn 2 ops) (mkSt 0 init_stk) in
  let st := run ops (mkSt 0 init_stk) in
  haschanged (stack st) = false /\ doc st <> doc saved.
Proof. eexists. split; [reflexivity|]. vm_compute. split; [reflexivity|discriminate]. Qed.
Print Assumptions C05_haschanged_refuted.

(** True when no action is recorded while the cursor is before the savepoint. *)
Theorem C05_haschanged_partial :
  forall (D : Type) (V : D -> Prop) (cs1 cs2 : list (cmd D)) (d : D),
  V d -> Forall (good V) cs1 -> Forall (good V) cs2 -> ~ In CSave cs2 ->
  let h1 := sp_run cs1 (mkHist [] d []) in
  no_rewrite (List.length (past h1)) cs2 h1 ->
  let st1 := run (map to_op cs1) (mkSt d init_stk) in
  let st2 := run (map to_op (CSave :: cs2)) st1 in
  haschanged (stack st2) = false -> doc st2 = doc st1.
Proof. exact haschanged_ok. Qed.
Print Assumptions C05_haschanged_partial.

Example C05_case :
  let h1 := sp_run [CCall (set_to 1)] (mkHist [] 0 []) in
  no_rewrite (List.length (past h1)) [CCall (set_to 2); CUndo; CUndo; CRedo] h1 /\
  haschanged (stack (run (map to_op [CCall (set_to 1); CSave; CCall (set_to 2); CUndo; CUndo; CRedo])
                         (mkSt 0 init_stk))) = false.
Proof.
  split; [|reflexivity].
  apply nr_call; [simpl; lia|]. repeat (apply nr_move; [tauto|]). apply nr_nil.
Qed.

(** C06 *)
Theorem C06_redocount_refuted :
  exists ops : list (op nat),
  let s := stack (run ops (mkSt 0 init_stk)) in
  redocount s <> List.length (redos s) /\ canredo s = false /\ redocount s = 1.
Proof. exists [OCall (set_to 1)]. vm_compute. repeat split. discriminate. Qed.
Print Assumptions C06_redocount_refuted.

(** What redocount does return: the number of undos; it is right only on
    histories with as many undos as redos left. *)
Theorem C06_redocount_partial :
  forall (D : Type) (V : D -> Prop) (cs : list (cmd D)) (d : D),
  V d -> Forall (good V) cs ->
  let st := run (map to_op cs) (mkSt d init_stk) in
  let h := sp_run cs (mkHist [] d []) in
  (redocount (stack st) = List.length (future h) <-> List.length (past h) = List.length (future h)).
Proof. exact redocount_partial_l. Qed.
Print Assumptions C06_redocount_partial.
