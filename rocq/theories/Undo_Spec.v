(** Independent specification for src/bgem/undo.py: a document history with a
    cursor, and the conditions on the edited functions under which an undo
    system can be expected to work. *)
From Coq Require Import List String.
From Verif Require Import Undo_Model.
Import ListNotations.

Section Spec.
Variable D : Type.
(** Documents on which the undoable functions are meant to work. *)
Variable V : D -> Prop.

(** A well-behaved undoable function (contract stated in the docstring of
    [undoable], undo.py lines 72-82): on a valid document it either fails and
    leaves the document alone, or it yields with a valid document, without
    calling other undoable functions, and the rest of the body brings the
    document back without failing. The rest may call undoable functions. *)
Definition reversible (g : gen D) : Prop :=
  forall d, V d ->
  match next g d with
  | (NYield t r, d', ps) =>
      V d' /\ ps = [] /\ exists o ps', next r d' = (o, d, ps') /\ o <> NRaise
  | (_, d', ps) => d' = d /\ ps = []
  end.

(** The call succeeds on every valid document. *)
Definition never_fails (g : gen D) : Prop :=
  forall d, V d -> exists t r d' ps, next g d = (NYield t r, d', ps).

(** Effect of one call on the document, None when it fails. *)
Definition effect (g : gen D) (d : D) : option D :=
  match next g d with (NYield _ _, d', _) => Some d' | _ => None end.

(** Effect of the calls of a group on the document. *)
Fixpoint effects (gs : list (gen D)) (d : D) : D :=
  match gs with
  | [] => d
  | g :: gs' => effects gs' (match effect g d with Some d' => d' | None => d end)
  end.

(** What the user sees: earlier documents (latest first), the current one, and
    the documents that can be redone (next first). *)
Record hist := mkHist { past : list D; cur : D; future : list D }.

(** User commands of a history. *)
Inductive cmd :=
| CCall (g : gen D)
| CGroup (desc : string) (gs : list (gen D))
| CUndo | CRedo | CSave.

(** Intended meaning of the commands. *)
Definition sp_step (h : hist) (c : cmd) : hist :=
  match c with
  | CCall g => match effect g (cur h) with
               | Some d' => mkHist (cur h :: past h) d' []
               | None => h
               end
  | CGroup _ gs => mkHist (cur h :: past h) (effects gs (cur h)) []
  | CUndo => match past h with
             | [] => h
             | d :: ds => mkHist ds d (cur h :: future h)
             end
  | CRedo => match future h with
             | [] => h
             | d :: ds => mkHist (cur h :: past h) d ds
             end
  | CSave => h
  end.

Definition sp_run (cs : list cmd) (h : hist) : hist := fold_left sp_step cs h.

(** Commands whose functions keep the contract. *)
Definition good (c : cmd) : Prop :=
  match c with
  | CCall g => reversible g
  | CGroup _ gs => Forall (fun g => reversible g /\ never_fails g) gs
  | _ => True
  end.

(** The same command as a program on the real stack. *)
Definition to_op (c : cmd) : op D :=
  match c with
  | CCall g => OCall g
  | CGroup s gs => OGroup s (map OCall gs)
  | CUndo => OUndo
  | CRedo => ORedo
  | CSave => OSave
  end.

(** n repetitions of a command. *)
Fixpoint iter {A} (n : nat) (f : A -> A) (x : A) : A :=
  match n with O => x | S n' => iter n' f (f x) end.

(** Equality of everything observable: document, both lists, recording state,
    savepoint. *)
Definition same_history (a b : state D) : Prop :=
  doc a = doc b /\ undos (stack a) = undos (stack b) /\ redos (stack a) = redos (stack b) /\
  recv (stack a) = recv (stack b) /\ savept (stack a) = savept (stack b).

(** Histories in which no new action is recorded while the cursor is before undo
    level n. *)
Inductive no_rewrite (n : nat) : list cmd -> hist -> Prop :=
| nr_nil : forall h, no_rewrite n [] h
| nr_call : forall h c cs, n <= List.length (past h) -> no_rewrite n cs (sp_step h c) -> no_rewrite n (c :: cs) h
| nr_move : forall h c cs, c = CUndo \/ c = CRedo -> no_rewrite n cs (sp_step h c) -> no_rewrite n (c :: cs) h.

End Spec.
Arguments reversible {D}. Arguments never_fails {D}. Arguments effect {D}. Arguments effects {D}.
Arguments mkHist {D}. Arguments past {D}. Arguments cur {D}. Arguments future {D}.
Arguments CCall {D}. Arguments CGroup {D}. Arguments CUndo {D}. Arguments CRedo {D}. Arguments CSave {D}.
Arguments sp_step {D}. Arguments sp_run {D}. Arguments good {D}. Arguments to_op {D}.
Arguments iter {A}. Arguments same_history {D}. Arguments no_rewrite {D}.
