(** Notions used in the statements about gmsh_io.py. *)
From Coq Require Import List Arith Bool ZArith String Ascii.
From Verif Require Import MshIO_Model.
Import ListNotations.
Local Open Scope list_scope.

Fixpoint chars (s : string) : list ascii :=
  match s with EmptyString => [] | String c r => c :: chars r end.
(** One column of a line. *)
Definition word (s : string) : Prop := s <> EmptyString /\ forall c, In c (chars s) -> white c = false.
(** Fits on one line. *)
Definition one_line (s : string) : Prop := forall c, In c (chars s) -> c <> nl /\ c <> cr.
(** The printed form of a number can be read back and the version number can be read. *)
Record float_text {F} (show : F -> string) (parse : string -> option F) : Prop := {
  ft_back : forall x, parse (show x) = Some x;
  ft_word : forall x, word (show x);
  ft_version : parse "2.2"%string <> None }.
Definition keys {K V} (d : list (K * V)) : list K := map fst d.
(** A dict has each key once. *)
Record is_mesh {F} (m : mesh F) : Prop := {
  im_nodes : NoDup (keys (nodes m));
  im_elements : NoDup (keys (elements m));
  im_physical : NoDup (keys (physical m)) }.
(** The same dict up to the order of its keys. *)
Definition same {K V} (eqb : K -> K -> bool) (d e : list (K * V)) : Prop := forall k, get eqb k d = get eqb k e.
(** What the reader keeps. *)
Definition kept_node {F} (c : list F) : bool := (List.length c =? 3)%nat.
Definition kept_elem (e : elem) : bool :=
  let '(_, tags, ns) := e in (2 <? List.length tags + List.length ns)%nat.
(** Restriction of a looked up value. *)
Definition only {V} (keep : V -> bool) (o : option V) : option V :=
  match o with Some v => if keep v then Some v else None | None => None end.

(** * Element data *)
(** A name without quotes at its ends. *)
Definition unquoted (s : string) : Prop :=
  (forall r, s <> String quote r) /\ forall r, s <> (r ++ String quote EmptyString)%string.
(** The rows are attached to the elements: row number k to the element ids[k], which is
    denoted by its decimal digits. *)
Definition attached {F} (ids : list Z) (values : list (list F)) (d : list (string * list F)) : Prop :=
  (forall k id row, nth_error ids k = Some id -> nth_error values k = Some row ->
     get String.eqb (show_int id) d = Some row) /\
  (forall s row, get String.eqb s d = Some row ->
     exists k id, nth_error ids k = Some id /\ nth_error values k = Some row /\ s = show_int id).
