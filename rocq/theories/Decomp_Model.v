(** Model of the polygon decomposition: decomp.py, point.py, segment.py, polygon.py.

    Points, segments, wires and polygons are their ids (they are compared by id, idmap.py lines
    16-17). A segment side is a pair (segment, side); side false is right_side = out_vtx = 0, side
    true is left_side = in_vtx = 1. Objects removed from their IdMap are not kept; where the code still
    reads one, this is noted. Attributes (attr) are not modelled. Coordinates are rational.
    The geometric questions (angles at a point, a wire contains a wire or a point) are
    parameters that may depend on the whole state. *)
From stdpp Require Import gmap list.
From Coq Require Import ZArith QArith Qabs.
Local Open Scope nat_scope.

(** (segment, side), segment.py lines 3-6. *)
Notation he := (nat * bool)%type.
(** (seg, 1 - side), point.py line 44. *)
Definition flip (h : he) : he := (fst h, negb (snd h)).
(** A vector (segment.py line 24). *)
Definition vect : Type := Q * Q.
(** Difference of arrays (segment.py line 24). *)
Definition vminus (a b : vect) : vect := (fst a - fst b, snd a - snd b)%Q.
(** Sum of arrays (point.py line 123). *)
Definition vplus (a b : vect) : vect := (fst a + fst b, snd a + snd b)%Q.
(** Point, point.py lines 8-14. *)
Record point := Pt { xy : vect; p_poly : option nat; p_seg : option he }.
(** Wire, polygon.py lines 71-80. *)
Record wire := Wi { parent : option nat; childs : gset nat; w_poly : option nat; w_seg : option he }.
(** Polygon, polygon.py lines 7-12. *)
Record poly := Po { outer : nat; free : gset nat }.
(** last_polygon_change, decomp.py lines 9-15, 78. *)
Inductive change := CNone | CShape (g : option nat) | CAdd (g n : nat) | CRemove (g n : nat) | CSplit (g n : nat) | CJoin (g n : nat).
(** The id source of an IdMap, idmap.py lines 24-28; the last freed id first, line 34. *)
Record source := Src { s_free : list nat; s_next : nat }.
(** Decomposition, decomp.py lines 50-82; vtxs, next, wire and _vector of segments
    (segment.py lines 11-20) as maps. *)
Record st := St { points : gmap nat point; vtx : gmap he nat; nxt : gmap he he; wir : gmap he nat; vec : gmap nat vect;
  p2s : gmap (nat * nat) nat; wires : gmap nat wire; polys : gmap nat poly;
  ip : source; is_ : source; iw : source; ig : source; last_change : change }.

(** Result of a call: a value, an exception, an endless loop (decomp.py lines 160-700). *)
Inductive res (A : Type) := Ok (a : A) | Raise | Loop.
Global Arguments Ok {A}.
Global Arguments Raise {A}.
Global Arguments Loop {A}.
(** A call (decomp.py lines 160-700). *)
Definition M (A : Type) : Type := st -> res A * st.
(** return (decomp.py lines 160-700). *)
Definition ret {A} (a : A) : M A := fun s => (Ok a, s).
(** raise (decomp.py lines 160-700). *)
Definition raise {A} : M A := fun s => (Raise, s).
(** Statements in sequence (decomp.py lines 160-700). *)
Definition bind {A B} (m : M A) (f : A -> M B) : M B := fun s =>
  match m s with
  | (Ok a, s) => f a s
  | (Raise, s) => (Raise, s)
  | (Loop, s) => (Loop, s)
  end.
Notation "x <~ m ; f" := (bind m (fun x => f)) (at level 100, m at next level, right associativity).
Notation "m ;~ f" := (bind m (fun _ => f)) (at level 100, right associativity).
(** assert (decomp.py lines 172-685). *)
Definition check (b : bool) : M unit := if b then ret tt else raise.
(** An attribute of an object that is there (decomp.py lines 160-700). *)
Definition need {A} (f : st -> option A) : M A := fun s => match f s with Some a => (Ok a, s) | None => (Raise, s) end.
(** A for loop (decomp.py lines 469-470). *)
Fixpoint each {A} (f : A -> M unit) (l : list A) : M unit :=
  match l with [] => ret tt | x :: l => f x ;~ each f l end.

(** Assignments: point.py lines 94-95, 104, 112-114, 123. *)
Definition set_points x s := St x (vtx s) (nxt s) (wir s) (vec s) (p2s s) (wires s) (polys s) (ip s) (is_ s) (iw s) (ig s) (last_change s).
(** decomp.py lines 274, 322; segment.py line 13. *)
Definition set_vtx x s := St (points s) x (nxt s) (wir s) (vec s) (p2s s) (wires s) (polys s) (ip s) (is_ s) (iw s) (ig s) (last_change s).
(** segment.py lines 110, 167-168; decomp.py lines 319-320. *)
Definition set_nxt x s := St (points s) (vtx s) x (wir s) (vec s) (p2s s) (wires s) (polys s) (ip s) (is_ s) (iw s) (ig s) (last_change s).
(** segment.py lines 127, 140; decomp.py lines 465-466, 497. *)
Definition set_wir x s := St (points s) (vtx s) (nxt s) x (vec s) (p2s s) (wires s) (polys s) (ip s) (is_ s) (iw s) (ig s) (last_change s).
(** segment.py line 24; decomp.py line 275. *)
Definition set_vec x s := St (points s) (vtx s) (nxt s) (wir s) x (p2s s) (wires s) (polys s) (ip s) (is_ s) (iw s) (ig s) (last_change s).
(** decomp.py lines 269-270, 302-303, 336, 691, 698-699. *)
Definition set_p2s x s := St (points s) (vtx s) (nxt s) (wir s) (vec s) x (wires s) (polys s) (ip s) (is_ s) (iw s) (ig s) (last_change s).
(** polygon.py lines 108-111; segment.py lines 177-179. *)
Definition set_wires x s := St (points s) (vtx s) (nxt s) (wir s) (vec s) (p2s s) x (polys s) (ip s) (is_ s) (iw s) (ig s) (last_change s).
(** point.py lines 93, 111, 113; decomp.py line 460. *)
Definition set_polys x s := St (points s) (vtx s) (nxt s) (wir s) (vec s) (p2s s) (wires s) x (ip s) (is_ s) (iw s) (ig s) (last_change s).
(** idmap.py lines 32-46. *)
Definition set_ip x s := St (points s) (vtx s) (nxt s) (wir s) (vec s) (p2s s) (wires s) (polys s) x (is_ s) (iw s) (ig s) (last_change s).
(** idmap.py lines 32-46. *)
Definition set_is x s := St (points s) (vtx s) (nxt s) (wir s) (vec s) (p2s s) (wires s) (polys s) (ip s) x (iw s) (ig s) (last_change s).
(** idmap.py lines 32-46. *)
Definition set_iw x s := St (points s) (vtx s) (nxt s) (wir s) (vec s) (p2s s) (wires s) (polys s) (ip s) (is_ s) x (ig s) (last_change s).
(** idmap.py lines 32-46. *)
Definition set_ig x s := St (points s) (vtx s) (nxt s) (wir s) (vec s) (p2s s) (wires s) (polys s) (ip s) (is_ s) (iw s) x (last_change s).
(** decomp.py lines 189, 229, 405. *)
Definition set_change x s := St (points s) (vtx s) (nxt s) (wir s) (vec s) (p2s s) (wires s) (polys s) (ip s) (is_ s) (iw s) (ig s) x.
(** An assignment (decomp.py lines 160-700). *)
Definition upd (f : st -> st) : M unit := fun s => (Ok tt, f s).

(** IdMap.get_new_id, idmap.py lines 32-36. *)
Definition new_id (c : source) : nat * source :=
  match s_free c with i :: l => (i, Src l (s_next c)) | [] => (s_next c, Src [] (S (s_next c))) end.
(** The id of a removed object, idmap.py line 46. *)
Definition old_id (i : nat) (c : source) : source := Src (i :: s_free c) (s_next c).

(** Objects (decomp.py lines 160-700). *)
Definition get_pt (p : nat) : M point := need (fun s => points s !! p).
(** decomp.py lines 160-700. *)
Definition get_wire (w : nat) : M wire := need (fun s => wires s !! w).
(** decomp.py lines 160-700. *)
Definition get_poly (g : nat) : M poly := need (fun s => polys s !! g).
(** seg.vtxs[side], decomp.py lines 160-700. *)
Definition get_vtx (h : he) : M nat := need (fun s => vtx s !! h).
(** seg.next[side], decomp.py lines 160-700. *)
Definition get_next (h : he) : M he := need (fun s => nxt s !! h).
(** seg.wire[side], decomp.py lines 160-700. *)
Definition get_label (h : he) : M nat := need (fun s => wir s !! h).
(** wire.polygon, decomp.py lines 160-700. *)
Definition wire_poly (w : nat) : M nat := need (fun s => wires s !! w ≫= w_poly).
(** wire.parent, decomp.py lines 160-700 (None: there is none, polygon.py line 103). *)
Definition get_parent (w : nat) : M (option nat) := need (fun s => parent <$> wires s !! w).
(** Attributes of objects are assigned (decomp.py lines 160-700). *)
Definition put_pt (p : nat) (x : point) : M unit := upd (fun s => set_points (<[p := x]> (points s)) s).
(** decomp.py lines 160-700. *)
Definition put_wire (w : nat) (x : wire) : M unit := upd (fun s => set_wires (<[w := x]> (wires s)) s).
(** decomp.py lines 160-700. *)
Definition put_poly (g : nat) (x : poly) : M unit := upd (fun s => set_polys (<[g := x]> (polys s)) s).
(** seg.next[side] = ..., segment.py lines 110, 167-168. *)
Definition put_next (h k : he) : M unit := upd (fun s => set_nxt (<[h := k]> (nxt s)) s).
(** seg.wire[side] = ..., segment.py lines 127, 140. *)
Definition put_label (h : he) (w : nat) : M unit := upd (fun s => set_wir (<[h := w]> (wir s)) s).
(** seg.vtxs[side] = ..., decomp.py lines 274, 322. *)
Definition put_vtx (h : he) (p : nat) : M unit := upd (fun s => set_vtx (<[h := p]> (vtx s)) s).
(** last_polygon_change = ..., decomp.py lines 189, 229, 405. *)
Definition report (c : change) : M unit := upd (set_change c).
(** wire.polygon = ..., decomp.py lines 360, 506, 585, 604-605, 620. *)
Definition put_wire_poly (w g : nat) : M unit := x <~ get_wire w ; put_wire w (Wi (parent x) (childs x) (Some g) (w_seg x)).
(** wire.segment = ..., decomp.py lines 365, 498-499. *)
Definition put_wire_seg (w : nat) (h : he) : M unit := x <~ get_wire w ; put_wire w (Wi (parent x) (childs x) (w_poly x) (Some h)).
(** polygon.outer_wire = ..., decomp.py lines 460, 514, 589, 606. *)
Definition put_outer (g w : nat) : M unit := x <~ get_poly g ; put_poly g (Po w (free x)).
(** wires.append(Wire()), decomp.py line 359; polygon.py lines 71-80. *)
Definition new_wire : M nat := fun s =>
  let '(i, c) := new_id (iw s) in (Ok i, set_wires (<[i := Wi (Some i) ∅ None None]> (wires s)) (set_iw c s)).
(** wires.remove, idmap.py lines 44-46. *)
Definition rm_wire (w : nat) : M unit := get_wire w ;~ upd (fun s => set_wires (delete w (wires s)) (set_iw (old_id w (iw s)) s)).
(** polygons.append(Polygon(wire)), decomp.py lines 582-584. *)
Definition new_poly (w : nat) : M nat := fun s =>
  let '(i, c) := new_id (ig s) in (Ok i, set_polys (<[i := Po w ∅]> (polys s)) (set_ig c s)).
(** polygons.remove, decomp.py line 679. *)
Definition rm_poly (g : nat) : M unit := get_poly g ;~ upd (fun s => set_polys (delete g (polys s)) (set_ig (old_id g (ig s)) s)).

(** The decomposition after __init__, decomp.py lines 55-78. *)
Definition init : st :=
  St ∅ ∅ ∅ ∅ ∅ ∅ {[0 := Wi None ∅ (Some 0) None]} {[0 := Po 0 ∅]} (Src [] 0) (Src [] 0) (Src [] 1) (Src [] 1) (CAdd 0 0).

(** * Walks *)
(** Steps that a walk can take before it must have met a side twice (polygon.py lines 153-159; the
    loop there has no such bound). *)
Definition fuel (s : st) : nat := S (size (nxt s)).
(** Wire.segments from [h] up to [end_], polygon.py lines 152-159. The code of the loops does not
    change next links, so the sides are collected first. *)
Fixpoint walk (n : nat) (f : gmap he he) (start end_ h : he) : res (list he) :=
  match n with
  | 0 => Loop
  | S n =>
    match f !! h with
    | None => Raise
    | Some k =>
      if decide (k = end_) then Ok [h]
      else if decide (k = start) then Raise
      else match walk n f start end_ k with Ok l => Ok (h :: l) | Raise => Raise | Loop => Loop end
    end
  end.
(** Wire.segments, polygon.py lines 140-159. *)
Definition wire_segments (w : nat) (start : option he) (end_ : option he) : M (list he) :=
  x <~ get_wire w ;
  match parent x with
  | None => ret []
  | Some _ =>
    a <~ match start with Some a => ret a | None => need (fun _ => w_seg x) end ;
    (fun s => (walk (fuel s) (nxt s) a (match end_ with Some e => e | None => a end) a, s))
  end.
(** Point.segments, point.py lines 39-46. *)
Fixpoint around (n : nat) (f : gmap he he) (start h : he) : res (list he) :=
  match n with
  | 0 => Loop
  | S n =>
    match f !! h with
    | None => Raise
    | Some k =>
      if decide (flip k = start) then Ok [h]
      else match around n f start (flip k) with Ok l => Ok (h :: l) | Raise => Raise | Loop => Loop end
    end
  end.
(** Point.segments with a given start, point.py lines 29-46. *)
Definition segments_from (h : he) : M (list he) := fun s => (around (fuel s) (nxt s) h h, s).
(** Point.segments, point.py lines 29-46. *)
Definition point_segments (p : nat) : M (list he) :=
  x <~ get_pt p ; match p_seg x with None => ret [] | Some h => segments_from h end.
(** The loop of Point.rm_segment, point.py lines 102-105, which stops at the first other segment. *)
Fixpoint other (n : nat) (f : gmap he he) (seg : nat) (start h : he) : res (option he) :=
  match n with
  | 0 => Loop
  | S n =>
    if decide (fst h = seg) then
      match f !! h with
      | None => Raise
      | Some k => if decide (flip k = start) then Ok None else other n f seg start (flip k)
      end
    else Ok (Some h)
  end.
(** Segment.previous, segment.py lines 78-89. *)
Definition previous (h : he) : M he :=
  l <~ segments_from (flip h) ; need (fun _ => last l).

(** * Points *)
(** Point.is_free, point.py lines 22-27. *)
Definition is_free (x : point) : bool := match p_seg x with None => true | Some _ => false end.
(** free_points.remove, point.py lines 93, 111. *)
Definition drop_free (g p : nat) : M unit :=
  x <~ get_poly g ; if decide (p ∈ free x) then put_poly g (Po (outer x) (free x ∖ {[p]})) else raise.
(** Point.join_segment, point.py lines 87-95. *)
Definition join_segment (p : nat) (h : he) : M unit :=
  x <~ get_pt p ;
  if is_free x then
    (match p_poly x with Some g => drop_free g p | None => ret tt end) ;~
    put_pt p (Pt (xy x) None (Some h))
  else ret tt.
(** Point.set_polygon, point.py lines 109-114. *)
Definition set_polygon (p g : nat) : M unit :=
  x <~ get_pt p ;
  (match p_poly x with Some q => drop_free q p | None => ret tt end) ;~
  (y <~ get_poly g ; put_poly g (Po (outer y) (free y ∪ {[p]}))) ;~
  put_pt p (Pt (xy x) (Some g) None).
(** Segment.is_dendrite, segment.py lines 60-61. *)
Definition is_dendrite (seg : nat) : M bool :=
  l <~ get_label (seg, true) ; r <~ get_label (seg, false) ; ret (bool_decide (l = r)).
(** Point.rm_segment, point.py lines 97-107. *)
Definition rm_segment (p : nat) (h : he) : M unit :=
  v <~ get_vtx h ; check (bool_decide (v = p)) ;~
  (x <~ get_pt p ;
   o <~ match p_seg x with None => ret None | Some a => (fun s => (other (fuel s) (nxt s) (fst h) a a, s)) end ;
   match o with
   | Some k => put_pt p (Pt (xy x) (p_poly x) (Some k))
   | None => d <~ is_dendrite (fst h) ; check d ;~
             (w <~ get_label (fst h, true) ; g <~ wire_poly w ; set_polygon p g)
   end).

(** * Links *)
(** Segment._set_next_side, segment.py lines 104-110. *)
Definition set_next_side (h k : he) : M unit :=
  a <~ get_vtx (flip k) ; b <~ get_vtx h ; check (bool_decide (a = b)) ;~ put_next h k.
(** (prev, next, wire), segment.py lines 116-117. *)
Definition insert_info : Type := he * he * nat.
(** Segment.connect_vtx, segment.py lines 112-128. *)
Definition connect_vtx (h : he) (i : insert_info) : M unit :=
  let '(prev, next, w) := i in
  v <~ get_vtx h ; join_segment v h ;~
  set_next_side h next ;~ set_next_side prev (flip h) ;~ put_label h w.
(** Segment.connect_free_vtx, segment.py lines 130-140. *)
Definition connect_free_vtx (h : he) (w : nat) : M unit :=
  v <~ get_vtx h ; join_segment v h ;~
  set_next_side h (flip h) ;~ put_label h w.
(** Segment.vtx_insert_info, segment.py lines 142-155. *)
Definition vtx_insert_info (h : he) : M (option insert_info) :=
  next <~ get_next h ;
  if decide (fst next = fst h) then ret None
  else w <~ get_label h ; prev <~ previous (flip h) ; ret (Some (prev, next, w)).
(** The last three lines of disconnect_vtx, segment.py lines 163-168; the same in decomp.py lines 315-320. *)
Definition unlink (h : he) : M unit :=
  prev <~ previous (flip h) ;
  next <~ get_next h ;
  put_next prev next ;~ put_next h (flip h).
(** Segment.disconnect_vtx, segment.py lines 157-168. *)
Definition disconnect_vtx (h : he) : M unit :=
  v <~ get_vtx h ; rm_segment v h ;~ unlink h.
(** One step of the loop of Segment.disconnect_wires, segment.py lines 174-182. *)
Definition disconnect_side (h : he) : M unit :=
  w <~ get_label h ;
  x <~ get_wire w ;
  if decide (w_seg x = Some h) then
    k <~ get_next h ;
    k <~ (if decide (fst k = fst h) then get_next k else ret k) ;
    put_wire_seg w k ;~
    (l <~ get_label k ; check (bool_decide (l = w)) ;~ check (bool_decide (fst k <> fst h)))
  else ret tt.
(** Segment.disconnect_wires, segment.py lines 170-182. *)
Definition disconnect_wires (seg : nat) : M unit := disconnect_side (seg, true) ;~ disconnect_side (seg, false).

(** * Wires *)
(** Wire.set_parent, polygon.py lines 105-111. *)
Definition set_parent (w : nat) (q : option nat) : M unit :=
  x <~ get_wire w ;
  (match parent x with
   | None => ret tt
   | Some p =>
     y <~ get_wire p ;
     check (bool_decide (w ∈ childs y \/ p = w)) ;~
     put_wire p (Wi (parent y) (childs y ∖ {[w]}) (w_poly y) (w_seg y))
   end) ;~
  (x <~ get_wire w ; put_wire w (Wi q (childs x) (w_poly x) (w_seg x))) ;~
  match q with
  | None => ret tt
  | Some p => y <~ get_wire p ; put_wire p (Wi (parent y) (childs y ∪ {[w]}) (w_poly y) (w_seg y))
  end.
(** childs.remove, decomp.py lines 377, 473. *)
Definition drop_child (p w : nat) : M unit :=
  y <~ get_wire p ;
  if decide (w ∈ childs y) then put_wire p (Wi (parent y) (childs y ∖ {[w]}) (w_poly y) (w_seg y)) else raise.

(** The geometric answers: the angle of a segment side relative to a vector, from 0 to a full turn
    (point.py lines 67-73); a wire contains a wire (polygon.py lines 207-215), a point
    (lines 188-194), both asked for wires that are not the root. *)
Record geometry := Geometry {
  k_turn : st -> vect -> he -> Q;
  k_wire : st -> nat -> nat -> bool;
  k_point : st -> nat -> nat -> bool }.
Section Decomp.
Context (K : geometry).
(** Wire.is_root, polygon.py lines 102-103. *)
Definition is_root (w : nat) : M bool := q <~ get_parent w ; ret (match q with None => true | Some _ => false end).
(** Wire.contains_wire, polygon.py lines 196-215. *)
Definition contains_wire (a b : nat) : M bool :=
  r <~ is_root a ;
  if r then ret true else
  r <~ is_root b ;
  if r then ret false else (fun s => (Ok (k_wire K s a b), s)).
(** Wire.contains_point, polygon.py lines 179-194. *)
Definition contains_point (w p : nat) : M bool :=
  r <~ is_root w ; if r then ret true else (fun s => (Ok (k_point K s w p), s)).
(** The loop of Point.insert_vector, point.py lines 66-79; [last] is the one before. *)
Fixpoint place (turn : he -> Q) (last : he) (l : list he) : option (he * he) :=
  match l with
  | [] => None
  | h :: l => if Qle_bool (turn last) (turn h) then Some (last, flip h) else place turn h l
  end.
(** Point.insert_vector, point.py lines 48-82. (The first side is below 4 pi, line 63.) *)
Definition insert_vector (p : nat) (v : vect) : M (option insert_info) :=
  check (negb (Qle_bool (Qabs (fst v)) (1 # 10000000000)) || negb (Qle_bool (Qabs (snd v)) (1 # 10000000000))) ;~
  (x <~ get_pt p ;
   match p_seg x with
   | None => ret None
   | Some a =>
     l <~ point_segments p ;
     match l ++ [a] with
     | [] => raise
     | h :: l => i <~ need (fun s => place (k_turn K s v) h l) ; w <~ get_label (fst i) ; ret (Some (i, w))
     end
   end).

(** * Helper change operations *)
(** _make_segment, decomp.py lines 684-692; Segment.__init__, segment.py lines 11-24. *)
Definition make_segment (a b : nat) : M nat :=
  check (bool_decide (a <> b)) ;~
  (x <~ get_pt a ; y <~ get_pt b ;
   seg <~ (fun s => let '(i, c) := new_id (is_ s) in
             (Ok i, set_vec (<[i := vminus (xy y) (xy x)]> (vec s)) (set_vtx (<[(i, true) := b]> (<[(i, false) := a]> (vtx s))) (set_is c s)))) ;
   join_segment a (seg, false) ;~ join_segment b (seg, true) ;~
   upd (fun s => set_p2s (<[(a, b) := seg]> (p2s s)) s) ;~ ret seg).
(** _destroy_segment, decomp.py lines 694-700. *)
Definition destroy_segment (seg : nat) : M unit :=
  a <~ get_vtx (seg, false) ; rm_segment a (seg, false) ;~
  (b <~ get_vtx (seg, true) ; rm_segment b (seg, true) ;~
   upd (fun s => set_p2s (delete (b, a) (delete (a, b) (p2s s))) s) ;~
   upd (fun s =>
     let del {A} (m : gmap he A) := delete (seg, true) (delete (seg, false) m) in
     set_vec (delete seg (vec s)) (set_vtx (del (vtx s)) (set_nxt (del (nxt s)) (set_wir (del (wir s)) (set_is (old_id seg (is_ s)) s)))))).

(** * Public operations *)
(** add_free_point, decomp.py lines 160-169. *)
Definition add_free_point (v : vect) (g : nat) : M nat :=
  x <~ get_poly g ;
  p <~ (fun s => let '(i, c) := new_id (ip s) in (Ok i, set_points (<[i := Pt v (Some g) None]> (points s)) (set_ip c s))) ;
  put_poly g (Po (outer x) (free x ∪ {[p]})) ;~ ret p.
(** remove_free_point, decomp.py lines 171-175. *)
Definition remove_free_point (p : nat) : M unit :=
  x <~ get_pt p ;
  g <~ need (fun _ => p_poly x) ;
  check (is_free x) ;~
  drop_free g p ;~
  upd (fun s => set_points (delete p (points s)) (set_ip (old_id p (ip s)) s)).

(** _new_wire, decomp.py lines 353-366. *)
Definition new_wire_op (g a b : nat) : M nat :=
  w <~ new_wire ;
  put_wire_poly w g ;~
  (x <~ get_poly g ; set_parent w (Some (outer x)) ;~
   (seg <~ make_segment a b ;
    connect_free_vtx (seg, false) w ;~ connect_free_vtx (seg, true) w ;~
    put_wire_seg w (seg, false) ;~ ret seg)).
(** _rm_wire, decomp.py lines 368-379. (The wire is removed before the segment there; the segment still
    reads the polygon of the wire.) *)
Definition rm_wire_op (seg : nat) : M unit :=
  l <~ get_next (seg, true) ; r <~ get_next (seg, false) ;
  check (bool_decide (l = (seg, false)) && bool_decide (r = (seg, true))) ;~
  (d <~ is_dendrite seg ; check d ;~
   (w <~ get_label (seg, true) ; g <~ wire_poly w ; x <~ get_poly g ;
    drop_child (outer x) w ;~ destroy_segment seg ;~ rm_wire w)).
(** _wire_add_dendrite, decomp.py lines 384-406; [root] is the side of the root. *)
Definition add_dendrite (a b : nat) (i : insert_info) (root : bool) : M nat :=
  let '(_, _, w) := i in
  x <~ get_pt (if root then a else b) ;
  seg <~ make_segment a b ;
  connect_vtx (seg, root) i ;~ connect_free_vtx (seg, negb root) w ;~
  report (CShape (p_poly x)) ;~ ret seg.
(** _wire_rm_dendrite, decomp.py lines 408-420. *)
Definition rm_dendrite (seg : nat) (tip : bool) : M unit :=
  d <~ is_dendrite seg ; check d ;~
  (w <~ get_label (seg, false) ; g <~ wire_poly w ;
   disconnect_wires seg ;~ disconnect_vtx (seg, negb tip) ;~
   destroy_segment seg ;~ report (CShape (Some g))).
(** for child in list(wire.childs), decomp.py lines 469, 518, 532, 601, 617, 655. *)
Definition children (w : nat) : M (list nat) := x <~ get_wire w ; ret (elements (childs x)).
(** The loops over seg, side with an assertion and a new wire, decomp.py lines 463-465, 495-497, 574-576, 669-671. *)
Definition relabel (old new : nat) : list he -> M unit :=
  each (fun h => l <~ get_label h ; check (bool_decide (l = old)) ;~ put_label h new).
(** _join_wires, decomp.py lines 425-477. *)
Definition join_wires (a b : nat) (ia ib : insert_info) : M nat :=
  let '(_, _, wa) := ia in let '(_, _, wb) := ib in
  check (bool_decide (wa <> wb)) ;~
  (ga <~ wire_poly wa ; gb <~ wire_poly wb ;
   check (bool_decide (ga = gb)) ;~
   report (CShape (Some ga)) ;~
   (seg <~ make_segment a b ;
    connect_vtx (seg, false) ia ;~ connect_vtx (seg, true) ib ;~
    (x <~ get_poly ga ;
     let side := if decide (outer x = wa) then Some false else if decide (outer x = wb) then Some true else None in
     let keep_side := default true side in
     keep <~ get_label (seg, keep_side) ; rm <~ get_label (seg, negb keep_side) ;
     up <~ match side with
           | None => ret (Some keep)
           | Some _ => q <~ get_parent keep ; put_outer ga keep ;~ ret q
           end ;
     l <~ wire_segments rm (Some (seg, negb keep_side)) (Some (seg, keep_side)) ;
     relabel rm keep l ;~ put_label (seg, false) keep ;~
     (cs <~ children rm ; each (fun c => set_parent c up) cs ;~
      (q <~ get_parent rm ; q <~ need (fun _ => q) ; drop_child q rm ;~ rm_wire rm ;~ ret seg))))).
(** _split_wire, decomp.py lines 479-540. *)
Definition split_wire (seg : nat) : M unit :=
  d <~ is_dendrite seg ; check d ;~
  (wa <~ get_label (seg, true) ; g <~ wire_poly wa ;
   wb <~ new_wire ;
   b_next <~ get_next (seg, true) ;
   l <~ wire_segments wa (Some b_next) (Some (seg, false)) ;
   relabel wa wb l ;~
   (a_next <~ get_next (seg, false) ; put_wire_seg wa a_next ;~ put_wire_seg wb b_next ;~
    disconnect_wires seg ;~ disconnect_vtx (seg, false) ;~ disconnect_vtx (seg, true) ;~
    (g' <~ wire_poly wa ; put_wire_poly wb g' ;~
     (q <~ get_parent wa ; x <~ get_poly g ;
      (if decide (outer x = wa) then
         c <~ contains_wire wa wb ;
         let outer_w := if c then wa else wb in let inner_w := if c then wb else wa in
         put_outer g outer_w ;~
         set_parent outer_w q ;~ set_parent inner_w (Some outer_w) ;~
         (cs <~ children wa ; each (fun c => set_parent c (Some outer_w)) cs ;~
          (l <~ wire_segments inner_w None None ;
           each (fun h => sw <~ get_label (flip h) ;
                          ok <~ (if decide (sw = inner_w) then ret true else contains_wire inner_w sw) ;
                          check ok ;~ set_parent sw (Some inner_w)) l))
       else
         set_parent wa q ;~ set_parent wb q ;~
         (cs <~ children wa ;
          each (fun c => i <~ contains_wire wa c ; set_parent c (Some (if i then wa else wb))) cs)) ;~
      report (CShape (Some g)) ;~ destroy_segment seg)))).
(** _split_poly, decomp.py lines 556-621. *)
Definition split_poly (a b : nat) (ia ib : insert_info) : M nat :=
  let '(_, _, wa) := ia in let '(b_prev, b_next, wb) := ib in
  check (bool_decide (wa = wb)) ;~
  (left <~ new_wire ;
   seg <~ make_segment a b ;
   connect_vtx (seg, false) ia ;~ connect_vtx (seg, true) (b_prev, b_next, left) ;~
   (start <~ get_next (seg, true) ;
    l <~ wire_segments wa (Some start) (Some (seg, true)) ;
    relabel wa left l ;~
    put_wire_seg left (seg, true) ;~ put_wire_seg wa (seg, false) ;~
    (g <~ wire_poly wa ;
     n <~ new_poly left ; put_wire_poly left n ;~
     (x <~ get_poly g ;
      (if decide (outer x = wa) then
         put_outer n left ;~ (q <~ get_parent wa ; set_parent left q) ;~ report (CSplit g n)
       else
         q <~ get_parent wa ;
         check (bool_decide (q = Some (outer x))) ;~
         (c <~ contains_wire wa left ;
          let inner_w := if c then left else wa in let outer_w := if c then wa else left in
          cs <~ children wa ; each (fun c => set_parent c (Some outer_w)) cs ;~
          put_wire_poly outer_w g ;~ put_wire_poly inner_w n ;~ put_outer n inner_w ;~
          (q <~ get_parent wa ; set_parent outer_w q ;~ set_parent inner_w (Some outer_w) ;~ report (CAdd g n)))) ;~
      (x <~ get_poly g ;
       each (fun p => y <~ get_poly n ; i <~ contains_point (outer y) p ; if i then set_polygon p n else ret tt) (elements (free x))) ;~
      (x <~ get_poly g ; cs <~ children (outer x) ;
       each (fun c => y <~ get_poly n ; i <~ contains_wire (outer y) c ;
                      if i then set_parent c (Some (outer y)) ;~ put_wire_poly c n else ret tt) cs) ;~
      ret seg)))).
(** _join_poly, decomp.py lines 623-679. *)
Definition join_poly (seg : nat) : M unit :=
  left <~ get_label (seg, true) ; right <~ get_label (seg, false) ;
  pl <~ get_parent left ; pr <~ get_parent right ;
  gl <~ wire_poly left ; gr <~ wire_poly right ;
  gnk <~ (if decide (pl = pr) then
            x <~ get_poly gl ; check (bool_decide (left = outer x)) ;~
            (y <~ get_poly gr ; check (bool_decide (right = outer y)) ;~
             report (CJoin gr gl) ;~ ret (gr, gl, right))
          else
            r <~ (if decide (pl = Some right) then ret (gr, gl, right)
                  else check (bool_decide (pr = Some left)) ;~ ret (gl, gr, left)) ;
            report (CRemove (fst (fst r)) (snd (fst r))) ;~ ret r) ;
  let '(g, n, keep) := gnk in
  x <~ get_poly n ;
  let rm := outer x in
  (cs <~ children rm ;
   each (fun c => m <~ wire_poly c ; check (bool_decide (m = n)) ;~
                  (y <~ get_poly g ; set_parent c (Some (outer y)) ;~ put_wire_poly c g)) cs) ;~
  (x <~ get_poly n ; each (fun p => set_polygon p g) (elements (free x))) ;~
  set_parent rm (Some rm) ;~
  (l <~ wire_segments rm None None ; relabel rm keep l) ;~
  disconnect_wires seg ;~ disconnect_vtx (seg, false) ;~ disconnect_vtx (seg, true) ;~
  destroy_segment seg ;~ rm_wire rm ;~ rm_poly n.

(** new_segment, decomp.py lines 178-220. *)
Definition new_segment (a b : nat) : M nat :=
  x <~ get_pt a ; y <~ get_pt b ;
  let v := vminus (xy y) (xy x) in
  check (bool_decide (a <> b)) ;~
  check (negb (Qle_bool (fst v * fst v + snd v * snd v) (1 # 100000000000000000000))) ;~
  report CNone ;~
  (o1 <~ (fun s => (Ok (p2s s !! (a, b)), s)) ; o2 <~ (fun s => (Ok (p2s s !! (b, a)), s)) ;
   match o1, o2 with
   | Some i, _ => ret i
   | None, Some i => ret i
   | None, None =>
     if is_free x && is_free y then
       check (bool_decide (p_poly x = p_poly y)) ;~ (g <~ need (fun _ => p_poly x) ; new_wire_op g a b)
     else
       ia <~ insert_vector a v ; ib <~ insert_vector b (vminus (0, 0)%Q v) ;
       if is_free x then i <~ need (fun _ => ib) ; add_dendrite a b i true
       else if is_free y then i <~ need (fun _ => ia) ; add_dendrite a b i false
       else i <~ need (fun _ => ia) ; j <~ need (fun _ => ib) ;
            if decide (snd i = snd j) then split_poly a b i j else join_wires a b i j
   end).
(** delete_segment, decomp.py lines 222-247. *)
Definition delete_segment (seg : nat) : M unit :=
  report CNone ;~
  (l <~ get_next (seg, true) ; r <~ get_next (seg, false) ;
   let ls := bool_decide (l = (seg, false)) in let rs := bool_decide (r = (seg, true)) in
   if ls && rs then rm_wire_op seg
   else if ls then rm_dendrite seg true
   else if rs then rm_dendrite seg false
   else d <~ is_dendrite seg ; if d then split_wire seg else join_poly seg).
(** split_segment, decomp.py lines 249-283. *)
Definition split_segment (seg mid : nat) : M nat :=
  bi <~ vtx_insert_info (seg, true) ;
  wr <~ get_label (seg, false) ;
  disconnect_vtx (seg, true) ;~
  (a <~ get_vtx (seg, false) ; b <~ get_vtx (seg, true) ;
   need (fun s => p2s s !! (a, b)) ;~
   upd (fun s => set_p2s (<[(a, mid) := seg]> (delete (a, b) (p2s s))) s) ;~
   (new <~ make_segment mid b ;
    put_vtx (seg, true) mid ;~
    (x <~ get_pt mid ; y <~ get_pt a ; upd (fun s => set_vec (<[seg := vminus (xy x) (xy y)]> (vec s)) s)) ;~
    connect_vtx (new, false) ((seg, true), (seg, false), wr) ;~
    (match bi with
     | None => d <~ is_dendrite seg ; check d ;~ (w <~ get_label (seg, true) ; connect_free_vtx (new, true) w)
     | Some i => connect_vtx (new, true) i
     end) ;~ ret new)).
(** join_segments, decomp.py lines 285-341. *)
Definition join_segments (mid seg0 seg1 : nat) : M nat :=
  v <~ get_vtx (seg0, true) ; let in0 := bool_decide (v = mid) in
  v <~ get_vtx (seg1, false) ; let in1 := bool_decide (v = mid) in
  a1 <~ get_vtx (seg1, false) ; b1 <~ get_vtx (seg1, true) ;
  need (fun s => p2s s !! (a1, b1)) ;~ upd (fun s => set_p2s (delete (a1, b1) (p2s s)) s) ;~
  (a0 <~ get_vtx (seg0, false) ; b0 <~ get_vtx (seg0, true) ;
   need (fun s => p2s s !! (a0, b0)) ;~ upd (fun s => set_p2s (delete (a0, b0) (p2s s)) s) ;~
   (n0 <~ get_next (seg0, in0) ; check (bool_decide (n0 = (seg1, in1))) ;~
    (n1 <~ get_next (seg1, negb in1) ; check (bool_decide (n1 = (seg0, negb in0))) ;~
     (bi <~ vtx_insert_info (seg1, in1) ;
      disconnect_vtx (seg1, in1) ;~ disconnect_vtx (seg1, negb in1) ;~
      unlink (seg0, in0) ;~
      (b <~ get_vtx (seg1, in1) ; put_vtx (seg0, in0) b) ;~
      (match bi with
       | None => d <~ is_dendrite seg0 ; check d ;~ (w <~ get_label (seg0, false) ; connect_free_vtx (seg0, in0) w)
       | Some i => connect_vtx (seg0, in0) i
       end) ;~
      each (fun side => w <~ get_label (seg1, side) ; x <~ get_wire w ;
                        if decide (w_seg x = Some (seg1, side)) then put_wire_seg w (seg0, side) else ret tt) [true; false] ;~
      (a <~ get_vtx (seg0, false) ; b <~ get_vtx (seg0, true) ; upd (fun s => set_p2s (<[(a, b) := seg0]> (p2s s)) s)) ;~
      destroy_segment seg1 ;~
      (w <~ get_label (seg0, true) ; g <~ wire_poly w ; set_polygon mid g) ;~ ret mid)))).
(** Point.move, point.py lines 117-125; update_vector, segment.py lines 23-24. *)
Definition move (p : nat) (v : vect) : M unit :=
  x <~ get_pt p ; put_pt p (Pt (vplus (xy x) v) (p_poly x) (p_seg x)) ;~
  (l <~ point_segments p ;
   each (fun h => a <~ get_vtx (fst h, false) ; b <~ get_vtx (fst h, true) ; x <~ get_pt a ; y <~ get_pt b ;
                  upd (fun s => set_vec (<[fst h := vminus (xy y) (xy x)]> (vec s)) s)) l).
End Decomp.
