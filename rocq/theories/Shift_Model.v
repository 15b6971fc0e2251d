(** Model of the test before points are moved: src/bgem/polygons/polygons.py lines 190-255.

    check_displacment sets the report of changes to the set of polygons (line 209); the reports of Decomp_Model name one polygon
    or two, so the set is part of the answer here and the report in the state stays as it was. Python walks through sets in an order that is not fixed; here it is that of [elements]. The list
    of wires grows while it is walked through (lines 214-216); [k] bounds the number of turns. *)
From stdpp Require Import gmap list.
From Coq Require Import QArith.
From Verif Require Import Decomp_Model Geom_Model Build_Model.
Local Open Scope nat_scope.

(** The polygons of both sides, polygons.py lines 206-207. *)
Definition beside_both (h : he) : M (list nat) :=
  a <~ get_label (fst h, false) ; x <~ wire_poly a ; b <~ get_label (fst h, true) ; y <~ wire_poly b ; ret [x; y].
(** moving_segs and changed_polygons, polygons.py lines 202-208. *)
Fixpoint gather (ps : list nat) : M (gset he * gset nat) :=
  match ps with
  | [] => ret (∅, ∅)
  | p :: ps =>
    l <~ point_segments p ; t <~ collect beside_both l ; r <~ gather ps ;
    ret (list_to_set l ∪ fst r, list_to_set (concat t) ∪ snd r)
  end.
(** boundary_wires after the loop, polygons.py lines 213-216. *)
Fixpoint below (k : nat) (l : list nat) : M (list nat) :=
  match k with
  | 0 => fun s => (Loop, s)
  | S k =>
    match l with
    | [] => ret []
    | w :: l => x <~ get_wire w ; r <~ below k (l ++ elements (childs x)) ; ret (w :: r)
    end
  end.
(** Segments of a wire that do not move, polygons.py lines 219-221. *)
Definition resting (S : gset he) (w : nat) : M (list nat) :=
  l <~ wire_segments w None None ; ret (fst <$> filter (fun h => h ∉ S /\ flip h ∉ S) l).
(** A call of seg_intersection, polygons.py lines 722-753, and the test of its answer, lines 226-230. *)
Definition hit (e : nat) (a b : vect) : M bool :=
  v <~ need (fun s => vec s !! e) ; o <~ get_vtx (e, false) ; x <~ get_pt o ;
  ret (match seg_intersection v (xy x) a b with Some _ => true | None => false end).
(** A loop that returns when a test is true, polygons.py lines 225-230. *)
Fixpoint any {A} (f : A -> M bool) (l : list A) : M bool :=
  match l with [] => ret false | x :: l => b <~ f x ; if b : bool then ret true else any f l end.
(** The way of a point, polygons.py lines 225-230. *)
Definition path_hit (e : nat) (d : vect) (p : nat) : M bool := x <~ get_pt p ; hit e (xy x) (vplus (xy x) d).
(** The new place of a segment, polygons.py lines 233-242. *)
Definition place_hit (S : gset he) (e : nat) (d : vect) (h : he) : M bool :=
  a <~ get_vtx h ; x <~ get_pt a ; b <~ get_vtx (flip h) ; y <~ get_pt b ;
  hit e (vplus (xy x) d) (if decide (flip h ∈ S) then vplus (xy y) d else xy y).
(** One turn of the loop over the envelope, polygons.py lines 223-242. *)
Definition stops (S : gset he) (ps : list nat) (d : vect) (e : nat) : M bool :=
  c <~ any (path_hit e d) ps ; if c : bool then ret true else any (place_hit S e d) (elements S).
(** check_displacment, polygons.py lines 190-244. *)
Definition check_displacement (k : nat) (ps : list nat) (d : vect) : M (bool * gset nat) :=
  r <~ gather ps ; o <~ collect (fun g => p <~ get_poly g ; ret (outer p)) (elements (snd r)) ;
  ws <~ below k o ; es <~ collect (resting (fst r)) ws ;
  c <~ any (stops (fst r) ps d) (concat es) ; ret (negb c, snd r).
(** move_points, polygons.py lines 246-255. *)
Definition move_all (ps : list nat) (d : vect) : M unit := each (fun p => move p d) ps.
