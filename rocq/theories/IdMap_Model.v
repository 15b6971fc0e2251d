(** Model of src/bgem/polygons/idmap.py, class IdMap (lines 23-46). *)
From stdpp Require Import gmap.

Section IdMap.
Context {A : Type}.

(** IdMap.__init__, lines 24-29. [im_next] is _next_id + 1; [im_free] keeps the
    last freed id first. An object handed to append is represented by its content;
    the id written to the object (line 40) is the returned value. Appending the
    same object twice is not modelled. *)
Record idmap := IM { im_items : gmap nat A; im_free : list nat; im_next : nat }.

(** idmap.py lines 24-29. *)
Definition im_empty : idmap := IM ∅ [] 0.

(** IdMap.get_new_id, lines 32-36. *)
Definition get_new_id (m : idmap) : nat * idmap :=
  match im_free m with
  | i :: fs => (i, IM (im_items m) fs (im_next m))
  | [] => (im_next m, IM (im_items m) [] (S (im_next m)))
  end.

(** IdMap.append, lines 38-42. *)
Definition im_append (m : idmap) (x : A) : nat * idmap :=
  let (i, m1) := get_new_id m in
  (i, IM (<[i := x]> (im_items m1)) (im_free m1) (im_next m1)).

(** IdMap.remove, lines 44-46; None is the KeyError of line 45. *)
Definition im_remove (m : idmap) (i : nat) : option idmap :=
  match im_items m !! i with
  | Some _ => Some (IM (delete i (im_items m)) (i :: im_free m) (im_next m))
  | None => None
  end.

(** dict lookup and in-place update of a stored object. *)
(** Class IdMap(dict), idmap.py line 23. *)
Definition im_get (m : idmap) (i : nat) : option A := im_items m !! i.
(** Class IdMap(dict), idmap.py line 23. *)
Definition im_set (m : idmap) (i : nat) (x : A) : idmap :=
  IM (<[i := x]> (im_items m)) (im_free m) (im_next m).

End IdMap.
Arguments idmap : clear implicits.

(** One call made by a user of the map. *)
(** idmap.py lines 38 and 44. *)
Inductive im_op (A : Type) := IAppend (x : A) | IRemove (i : nat).
Arguments IAppend {A}. Arguments IRemove {A}.

(** What the user observes. *)
(** idmap.py lines 38-46. *)
Inductive im_event (A : Type) := EvAdd (i : nat) (x : A) | EvDel (i : nat) | EvKeyError (i : nat).
Arguments EvAdd {A}. Arguments EvDel {A}. Arguments EvKeyError {A}.

(** One step with its observation; a KeyError leaves the map unchanged. *)
(** idmap.py lines 38-46. *)
Definition im_step {A} (m : idmap A) (o : im_op A) : im_event A * idmap A :=
  match o with
  | IAppend x => let (i, m') := im_append m x in (EvAdd i x, m')
  | IRemove i => match im_remove m i with
                 | Some m' => (EvDel i, m')
                 | None => (EvKeyError i, m)
                 end
  end.

(** A history of calls. *)
(** A sequence of calls of idmap.py lines 38 and 44. *)
Fixpoint im_run {A} (m : idmap A) (ops : list (im_op A)) : list (im_event A) * idmap A :=
  match ops with
  | [] => ([], m)
  | o :: ops' => let (e, m1) := im_step m o in
                 let (es, m2) := im_run m1 ops' in (e :: es, m2)
  end.
