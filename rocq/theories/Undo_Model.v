(** Model of src/bgem/undo.py (actions, groups, the undo stack) and of
    disable_undo / enable_undo in src/bgem/polygons/polygons.py, lines 22-29. *)
From Coq Require Import List String Bool Arith.
Import ListNotations.

Section Undo.
(** The document edited by the undoable functions. *)
Variable D : Type.

(** Body of a generator function decorated by [undoable] (undo.py, lines 72-93).
    Simplified: a body reads and writes one document, raises, yields a text, or
    calls another undoable function; it does not catch exceptions and does not
    call the stack methods itself. Values captured between the do part and the
    undo part live in the continuation of [GRead]. *)
Inductive gen : Type :=
| GEnd : gen
| GRaise : gen
| GRead : (D -> gen) -> gen
| GWrite : D -> gen -> gen
| GCall : gen -> gen -> gen
| GYield : string -> gen -> gen.

(** An [_Action] object: generator, live runner (None after `del self._runner`),
    text. undo.py, lines 29-69. *)
Record action := mkAct { a_gen : gen; a_run : option gen; a_text : string }.

(** What `next(runner)` does (undo.py, lines 47 and 61). *)
Inductive nexted :=
| NYield : string -> gen -> nexted
| NEnd : nexted
| NRaise : nexted.

(** Run a generator to its next yield: outcome, document, and the actions which
    nested undoable calls appended to the stack, oldest first. A nested call is
    undoable.inner, undo.py lines 83-92 (do, then append); a nested generator
    that ends without a yield makes the caller fail (StopIteration).
    Simplified: the appends are collected and performed after the run, bodies
    cannot observe the stack. *)
Fixpoint next (g : gen) (d : D) : nexted * D * list action :=
  match g with
  | GEnd => (NEnd, d, [])
  | GRaise => (NRaise, d, [])
  | GRead f => next (f d) d
  | GWrite d' k => next k d'
  | GYield t k => (NYield t k, d, [])
  | GCall g' k =>
      match next g' d with
      | (NYield t r, d1, ps1) =>
          match next k d1 with
          | (o, d2, ps2) => (o, d2, ps1 ++ mkAct g' (Some r) t :: ps2)
          end
      | (NEnd, d1, ps1) => (NRaise, d1, ps1)
      | (NRaise, d1, ps1) => (NRaise, d1, ps1)
      end
  end.

(** Outcome of a method: Ok value or raised exception; the document and the
    nested appends survive in both cases. *)
(** Results of the methods of undo.py lines 29-325. *)
Inductive res (A : Type) := Ok : A -> res A | Exn : res A.
Arguments Ok {A}. Arguments Exn {A}.

(** _Action.do, undo.py lines 44-56. *)
Definition act_do (a : action) (d : D) : res action * D * list action :=
  match next (a_gen a) d with
  | (NYield t r, d', ps) => (Ok (mkAct (a_gen a) (Some r) t), d', ps)
  | (NEnd, d', ps) => (Exn, d', ps)
  | (NRaise, d', ps) => (Exn, d', ps)
  end.

(** _Action.undo, undo.py lines 58-65; a missing runner is an AttributeError. *)
Definition act_undo (a : action) (d : D) : res action * D * list action :=
  match a_run a with
  | None => (Exn, d, [])
  | Some r =>
      match next r d with
      | (NYield _ _, d', ps) => (Ok (mkAct (a_gen a) None (a_text a)), d', ps)
      | (NEnd, d', ps) => (Ok (mkAct (a_gen a) None (a_text a)), d', ps)
      | (NRaise, d', ps) => (Exn, d', ps)
      end
  end.

(** Run the actions of a list one after the other, stop at an exception.
    Models the loops of _Group.do (lines 116-118). *)
Fixpoint acts_do (l : list action) (d : D) : res (list action) * D * list action :=
  match l with
  | [] => (Ok [], d, [])
  | a :: l' =>
      match act_do a d with
      | (Exn, d1, ps1) => (Exn, d1, ps1)
      | (Ok a', d1, ps1) =>
          match acts_do l' d1 with
          | (Exn, d2, ps2) => (Exn, d2, ps1 ++ ps2)
          | (Ok l'', d2, ps2) => (Ok (a' :: l''), d2, ps1 ++ ps2)
          end
      end
  end.

(** The loop of _Group.undo (undo.py lines 112-114): last action first. *)
Fixpoint acts_undo (l : list action) (d : D) : res (list action) * D * list action :=
  match l with
  | [] => (Ok [], d, [])
  | a :: l' =>
      match acts_undo l' d with
      | (Exn, d1, ps1) => (Exn, d1, ps1)
      | (Ok l'', d1, ps1) =>
          match act_undo a d1 with
          | (Exn, d2, ps2) => (Exn, d2, ps1 ++ ps2)
          | (Ok a', d2, ps2) => (Ok (a' :: l''), d2, ps1 ++ ps2)
          end
      end
  end.

(** What the stack holds: an action or a group (undo.py lines 96-121). *)
Inductive entry :=
| EAct : action -> entry
| EGrp : string -> list action -> entry.

(** entry.do() : _Action.do or _Group.do. *)
(** undo.py lines 44-57, 116-118. *)
Definition entry_do (e : entry) (d : D) : res entry * D * list action :=
  match e with
  | EAct a => match act_do a d with
              | (Ok a', d', ps) => (Ok (EAct a'), d', ps)
              | (Exn, d', ps) => (Exn, d', ps)
              end
  | EGrp s l => match acts_do l d with
                | (Ok l', d', ps) => (Ok (EGrp s l'), d', ps)
                | (Exn, d', ps) => (Exn, d', ps)
                end
  end.

(** entry.undo() : _Action.undo or _Group.undo. *)
(** undo.py lines 58-66, 112-114. *)
Definition entry_undo (e : entry) (d : D) : res entry * D * list action :=
  match e with
  | EAct a => match act_undo a d with
              | (Ok a', d', ps) => (Ok (EAct a'), d', ps)
              | (Exn, d', ps) => (Exn, d', ps)
              end
  | EGrp s l => match acts_undo l d with
                | (Ok l', d', ps) => (Ok (EGrp s l'), d', ps)
                | (Exn, d', ps) => (Exn, d', ps)
                end
  end.

(** Stack._receiver (undo.py lines 200, 277-288): the main undo list, a list
    object (of a group or of _pausereceiver, as an index into [lists]), or None
    (polygons.py line 24). *)
Inductive receiver := RMain | RList (i : nat) | RNone.

(** Stack.__init__, undo.py lines 197-203; both deques are kept with the last
    element first. [lists] are the list objects used as receivers. Callbacks are
    not modelled. *)
Record stk := mkStk {
  undos : list entry;
  redos : list entry;
  recv : receiver;
  lists : list (list action);
  savept : option nat
}.

(** Document together with the stack. *)
(** undo.py lines 197-203. *)
Record state := mkSt { doc : D; stack : stk }.

(** Stack(), undo.py lines 197-203. *)
Definition init_stk : stk := mkStk [] [] RMain [] None.

(** append of one action to a list object. *)
(** undo.py lines 277-296. *)
Fixpoint list_push (ls : list (list action)) (i : nat) (a : action) : list (list action) :=
  match ls, i with
  | [], _ => []
  | l :: ls', 0 => (l ++ [a]) :: ls'
  | l :: ls', S i' => l :: list_push ls' i' a
  end.

(** Stack.append for an action, undo.py lines 290-296. *)
Definition append (s : stk) (a : action) : stk :=
  match recv s with
  | RNone => s
  | RList i => mkStk (undos s) (redos s) (recv s) (list_push (lists s) i a) (savept s)
  | RMain => mkStk (EAct a :: undos s) [] RMain (lists s) (savept s)
  end.

(** The appends of nested calls, in order. *)
(** undo.py lines 290-296. *)
Definition append_all (s : stk) (ps : list action) : stk := fold_left append ps s.

(** Stack.clear, undo.py lines 245-250. *)
Definition clear (s : stk) : stk := mkStk [] [] RMain (lists s) None.

(** Stack.setreceiver with a new list object, undo.py lines 277-284. *)
Definition set_new_receiver (s : stk) : stk :=
  mkStk (undos s) (redos s) (RList (List.length (lists s))) (lists s ++ [[]]) (savept s).

(** Stack.resetreceiver, undo.py lines 286-288. *)
Definition reset_receiver (s : stk) : stk :=
  mkStk (undos s) (redos s) RMain (lists s) (savept s).

(** undoable.inner, undo.py lines 83-92: result false = raised. *)
Definition call (g : gen) (st : state) : bool * state :=
  match act_do (mkAct g None EmptyString) (doc st) with
  | (Ok a, d', ps) => (true, mkSt d' (append (append_all (stack st) ps) a))
  | (Exn, d', ps) => (false, mkSt d' (append_all (stack st) ps))
  end.

(** Stack.undo, undo.py lines 231-243 with _pausereceiver, lines 270-275. *)
Definition undo (st : state) : bool * state :=
  let s := stack st in
  match undos s with
  | [] => (true, st)
  | e :: us =>
      let s1 := set_new_receiver (mkStk us (redos s) (recv s) (lists s) (savept s)) in
      match entry_undo e (doc st) with
      | (Exn, d', ps) => (false, mkSt d' (clear (append_all s1 ps)))
      | (Ok e', d', ps) =>
          let s2 := append_all s1 ps in
          (true, mkSt d' (reset_receiver
                   (mkStk (undos s2) (e' :: redos s2) (recv s2) (lists s2) (savept s2))))
      end
  end.

(** Stack.redo, undo.py lines 213-229. *)
Definition redo (st : state) : bool * state :=
  let s := stack st in
  match redos s with
  | [] => (true, st)
  | e :: rs =>
      let s1 := set_new_receiver (mkStk (undos s) rs (recv s) (lists s) (savept s)) in
      match entry_do e (doc st) with
      | (Exn, d', ps) => (false, mkSt d' (clear (append_all s1 ps)))
      | (Ok e', d', ps) =>
          let s2 := append_all s1 ps in
          (true, mkSt d' (reset_receiver
                   (mkStk (e' :: undos s2) (redos s2) (recv s2) (lists s2) (savept s2))))
      end
  end.

(** Stack.canundo .. redocount, undo.py lines 205-211, 252-258. *)
Definition canundo (s : stk) : bool := Nat.ltb 0 (List.length (undos s)).
(** undo.py lines 209-211. *)
Definition canredo (s : stk) : bool := Nat.ltb 0 (List.length (redos s)).
(** undo.py lines 252-254. *)
Definition undocount (s : stk) : nat := List.length (undos s).
(** redocount returns the length of _undos (undo.py line 258). *)
Definition redocount (s : stk) : nat := List.length (undos s).

(** _Action.text line 69, _Group.text line 121. Simplified: the count is not
    formatted into the description. *)
Definition entry_text (e : entry) : string :=
  match e with EAct a => a_text a | EGrp s _ => s end.

(** Stack.undotext / redotext, undo.py lines 260-268. Simplified: no strip(). *)
Definition undotext (s : stk) : option string :=
  match undos s with [] => None | e :: _ => Some ("Undo " ++ entry_text e)%string end.
(** undo.py lines 265-268. *)
Definition redotext (s : stk) : option string :=
  match redos s with [] => None | e :: _ => Some ("Redo " ++ entry_text e)%string end.

(** Stack.savepoint / haschanged, undo.py lines 298-307. *)
Definition savepoint (s : stk) : stk :=
  mkStk (undos s) (redos s) (recv s) (lists s) (Some (undocount s)).
(** undo.py lines 302-307. *)
Definition haschanged (s : stk) : bool :=
  match savept s with None => true | Some n => negb (Nat.eqb n (undocount s)) end.

(** polygons.py lines 22-24. *)
Definition disable_undo (s : stk) : stk :=
  mkStk (undos s) (redos s) RNone (lists s) (savept s).

(** What a program can do with the stack. *)
(** The public functions of undo.py lines 72-325. *)
Inductive op :=
| OCall (g : gen)
| OUndo | ORedo | OClear | OSave
| ODisable | OEnable
| OGroup (desc : string) (body : list op).

(** _Group.__exit__ after a normal end, undo.py lines 106-110: reset the
    receiver, append the group object with the content of its list. *)
Definition group_exit (desc : string) (i : nat) (s : stk) : stk :=
  let s1 := reset_receiver s in
  mkStk (EGrp desc (nth i (lists s1) []) :: undos s1) [] RMain (lists s1) (savept s1).

(** One operation; the boolean tells whether it returned normally. An exception
    inside a group leaves the body and __exit__ does nothing (lines 106-110). *)
Fixpoint exec (o : op) (st : state) : bool * state :=
  match o with
  | OCall g => call g st
  | OUndo => undo st
  | ORedo => redo st
  | OClear => (true, mkSt (doc st) (clear (stack st)))
  | OSave => (true, mkSt (doc st) (savepoint (stack st)))
  | ODisable => (true, mkSt (doc st) (disable_undo (stack st)))
  | OEnable => (true, mkSt (doc st) (reset_receiver (stack st)))
  | OGroup desc body =>
      let i := List.length (lists (stack st)) in
      let st1 := mkSt (doc st) (set_new_receiver (stack st)) in
      match (fix run (l : list op) (s : state) : bool * state :=
               match l with
               | [] => (true, s)
               | o' :: l' => match exec o' s with
                             | (true, s') => run l' s'
                             | (false, s') => (false, s')
                             end
               end) body st1 with
      | (true, st2) => (true, mkSt (doc st2) (group_exit desc i (stack st2)))
      | (false, st2) => (false, st2)
      end
  end.

(** A history: the caller catches every exception and goes on. *)
(** A sequence of calls of undo.py lines 72-325. *)
Definition run (ops : list op) (st : state) : state :=
  fold_left (fun s o => snd (exec o s)) ops st.

End Undo.

Arguments Ok {A}. Arguments Exn {A}.
Arguments GEnd {D}. Arguments GRaise {D}. Arguments GRead {D}. Arguments GWrite {D}.
Arguments GCall {D}. Arguments GYield {D}.
Arguments NYield {D}. Arguments NEnd {D}. Arguments NRaise {D}.
Arguments mkAct {D}. Arguments a_gen {D}. Arguments a_run {D}. Arguments a_text {D}.
Arguments next {D}. Arguments act_do {D}. Arguments act_undo {D}.
Arguments acts_do {D}. Arguments acts_undo {D}.
Arguments EAct {D}. Arguments EGrp {D}. Arguments entry_do {D}. Arguments entry_undo {D}.
Arguments mkStk {D}. Arguments undos {D}. Arguments redos {D}. Arguments recv {D}.
Arguments lists {D}. Arguments savept {D}. Arguments mkSt {D}. Arguments doc {D}.
Arguments stack {D}. Arguments init_stk {D}. Arguments list_push {D}. Arguments append {D}.
Arguments append_all {D}. Arguments clear {D}. Arguments set_new_receiver {D}.
Arguments reset_receiver {D}. Arguments call {D}. Arguments undo {D}. Arguments redo {D}.
Arguments canundo {D}. Arguments canredo {D}. Arguments undocount {D}. Arguments redocount {D}.
Arguments entry_text {D}. Arguments undotext {D}. Arguments redotext {D}.
Arguments savepoint {D}. Arguments haschanged {D}. Arguments disable_undo {D}.
Arguments OCall {D}. Arguments OUndo {D}. Arguments ORedo {D}. Arguments OClear {D}.
Arguments OSave {D}. Arguments ODisable {D}. Arguments OEnable {D}. Arguments OGroup {D}.
Arguments group_exit {D}. Arguments exec {D}. Arguments run {D}.
