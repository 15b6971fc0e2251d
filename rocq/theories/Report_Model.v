(** Model of PolygonDecomposition.get_last_polygon_changes, src/bgem/polygons/polygons.py lines 258-280. *)
From stdpp Require Import gmap list.
From Verif Require Import Decomp_Model.

(** The kinds of changes that have two ids, decomp.py lines 9-15. *)
Inductive kind := KAdd | KRemove | KSplit | KJoin.
(** What is returned, polygons.py lines 264-269: (none, None, None), (shape, ids, None), (kind, id, id). *)
Inductive answer := ANone | AShape (gs : list nat) | AIds (k : kind) (g n : nat).
(** get_last_polygon_changes, polygons.py lines 274-280; None: AttributeError, line 276 reads the id of None.
    Polygons removed keep their id (idmap.py lines 44-46). *)
Definition get_last_polygon_changes (s : st) : option answer :=
  match last_change s with
  | CNone => Some ANone
  | CShape (Some g) => Some (AShape [g])
  | CShape None => None
  | CAdd g n => Some (AIds KAdd g n)
  | CRemove g n => Some (AIds KRemove g n)
  | CSplit g n => Some (AIds KSplit g n)
  | CJoin g n => Some (AIds KJoin g n)
  end.
