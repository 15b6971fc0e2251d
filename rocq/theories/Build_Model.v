(** Model of building a decomposition from its parts: src/bgem/polygons/polygons.py lines 759-850 (used by readers of files).

    The tables of boxes (line 769) are left out: the state is that of Decomp_Model. Objects are their ids. An id that is not there
    raises when the object is first read. *)
From stdpp Require Import gmap list.
From Verif Require Import Decomp_Model.
Local Open Scope nat_scope.

(** points.append(Point(xy, None)), point.py lines 8-14; idmap.py lines 38-42; as in merge.py line 16. *)
Definition append_point (v : vect) : M nat := fun s =>
  let '(i, c) := new_id (ip s) in (Ok i, set_points (<[i := Pt v None None]> (points s)) (set_ip c s)).
(** Segment.point_side, segment.py lines 91-98. *)
Definition point_side (g p : nat) : M (option bool) :=
  a <~ get_vtx (g, false) ;
  if decide (a = p) then ret (Some false) else b <~ get_vtx (g, true) ; ret (if decide (b = p) then Some true else None).
(** The loop of make_wire_from_segments, polygons.py lines 795-803: last_seg, last_side at its end. *)
Fixpoint link (w : nat) (last : he) (ids : list nat) : M he :=
  match ids with
  | [] => ret last
  | g :: ids =>
    v <~ get_vtx last ; c <~ point_side g v ;
    match c with
    | None => raise
    | Some c => put_next last (g, negb c) ;~ put_label last w ;~ link w (g, negb c) ids
    end
  end.
(** The side of the first segment, polygons.py lines 785-793. *)
Definition first_side (g0 g1 : nat) : M he :=
  a <~ get_vtx (g0, false) ; c <~ point_side g1 a ;
  match c with
  | Some _ => ret (g0, false)
  | None => b <~ get_vtx (g0, true) ; c <~ point_side g1 b ; match c with Some _ => ret (g0, true) | None => raise end
  end.
(** make_wire_from_segments, polygons.py lines 772-808. *)
Definition make_wire (ids : list nat) (g : nat) : M nat :=
  match ids with
  | g0 :: g1 :: r =>
    w <~ new_wire ; h <~ first_side g0 g1 ; last <~ link w h (g1 :: r) ;
    put_next last h ;~ put_label last w ;~ put_wire_seg w h ;~ put_wire_poly w g ;~ ret w
  | _ => raise
  end.
(** A hole of a polygon, polygons.py lines 825-827. *)
Definition make_hole (g : nat) (ids : list nat) : M unit :=
  w <~ make_wire ids g ; p <~ get_poly g ; set_parent w (Some (outer p)).
(** make_polygon, polygons.py lines 810-831; the outer wire of a new polygon is None for a while (line 820), here 0. *)
Definition make_polygon (ids : list nat) (holes : list (list nat)) (free_points : list nat) : M nat :=
  g <~ match ids with
       | [] => ret 0
       | _ => g <~ new_poly 0 ; w <~ make_wire ids g ; put_outer g w ;~ ret g
       end ;
  each (make_hole g) holes ;~ each (fun p => set_polygon p g) free_points ;~ ret g.
(** Polygons one after the other, as a reader of a file calls make_polygon (polygons.py line 810; merge.py lines 25-33). *)
Fixpoint make_polygons (l : list (list nat * list (list nat) * list nat)) : M (list nat) :=
  match l with
  | [] => ret []
  | (ids, holes, fs) :: l => g <~ make_polygon ids holes fs ; r <~ make_polygons l ; ret (g :: r)
  end.

(** Reading for each of a list (polygon.py line 177). *)
Fixpoint collect {A B} (f : A -> M B) (l : list A) : M (list B) :=
  match l with [] => ret [] | x :: l => y <~ f x ; r <~ collect f l ; ret (y :: r) end.
(** Wire.neighbors, polygon.py lines 172-177. *)
Definition neighbors (w : nat) : M (list nat) := l <~ wire_segments w None None ; collect (fun h => get_label (flip h)) l.
(** The loop over the queue, polygons.py lines 845-850; [k] turns. *)
Fixpoint spread_out (k : nat) (hole : nat) (queue : list nat) : M unit :=
  match k with
  | 0 => fun s => (Loop, s)
  | S k =>
    match queue with
    | [] => ret tt
    | w :: queue =>
      q <~ get_parent w ;
      if decide (q = Some w) then set_parent w (Some hole) ;~ (n <~ neighbors w ; spread_out k hole (queue ++ n))
      else spread_out k hole queue
    end
  end.
(** The loops over polygons and holes, polygons.py lines 835-850; [order] is the order of the dict of polygons. The set of holes
    is not changed while it is read: line 848 changes the sets of the wire and of the hole only. *)
Definition set_wire_parents (k : nat) (order : list nat) : M unit :=
  each (fun g => p <~ get_poly g ; x <~ get_wire (outer p) ;
                 each (fun hole => n <~ neighbors hole ; spread_out k hole n) (elements (childs x))) order.
