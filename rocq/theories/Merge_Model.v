(** Model of merging decompositions: src/bgem/polygons/merge.py lines 42-206, with polygons.py lines 541-605.

    A dict is the list of its items in order of insertion. Of the other decomposition, [other], only the state is read; the order
    of its dicts of points and segments is given by the lists [pts] and [segs] of ids. The geometric choices, the test of
    merge_points and the square root are parameters as in Line_Model. An object of a decomposition is its id. *)
From stdpp Require Import gmap list.
From Coq Require Import QArith Qminmax.
From Verif Require Import Decomp_Model Aabb_Model Geom_Model Editor_Model Snap_Model Line_Model.
Local Open Scope nat_scope.

(** A dict with ids as keys, merge.py lines 72-73, 78. *)
Notation dict A := (list (nat * A)).
(** dict.get(k), merge.py lines 105, 118. *)
Fixpoint dget {A} (k : nat) (l : dict A) : option A :=
  match l with [] => None | (i, v) :: r => if i =? k then Some v else dget k r end.
(** dict[k] = v, merge.py lines 88-91, 105, 110. *)
Fixpoint dput {A} (k : nat) (v : A) (l : dict A) : dict A :=
  match l with [] => [(k, v)] | (i, u) :: r => if i =? k then (i, v) :: r else (i, u) :: dput k v r end.
(** dict.setdefault(k, v) for its effect, merge.py lines 88, 132. *)
Definition dset {A} (k : nat) (v : A) (l : dict A) : dict A := match dget k l with Some _ => l | None => l ++ [(k, v)] end.
(** dict.get(k, k), merge.py lines 105, 118. *)
Definition origin (l : dict nat) (k : nat) : nat := match dget k l with Some v => v | None => k end.
(** maps_self and maps_other, merge.py lines 72-73: for points, segments and polygons; values for polygons may be None. *)
Record maps (A : Type) := Maps { m_points : dict nat; m_segs : dict nat; m_polys : dict A }.
Global Arguments Maps {A}.
Global Arguments m_points {A}.
Global Arguments m_segs {A}.
Global Arguments m_polys {A}.

(** _point_on_segment, polygons.py lines 541-560; the point and the segment. *)
Definition split_there (g : nat) (t : Q) : E (nat * nat) :=
  v <% item (fun s => vec s !! g) ; a <% end_at (g, false) ; b <% end_at (g, true) ; o <% xy_at a ;
  fun d =>
  if below_part t (norm2 v) (tolerance d) then (Ok (a, g), d)
  else if below_part (1 - t) (norm2 v) (tolerance d) then (Ok (b, g), d)
  else (m <% Editor_Model.add_point (parametric v o t) 0 ; n <% split_seg g m ; eret (m, n)) d.
(** line_division[t1] = (mid_pt, seg, new_seg), polygons.py line 584. *)
Fixpoint record_cut (t : Q) (c : nat * nat * nat) (l : list (Q * (nat * nat * nat))) : list (Q * (nat * nat * nat)) :=
  match l with [] => [(t, c)] | (u, x) :: r => if Qeq_bool t u then (u, c) :: r else (u, x) :: record_cut t c r end.
(** The loop of _add_line_seg_intersections, polygons.py lines 577-584. *)
Fixpoint cuts (xa xb : vect) (l : list nat) (div : list (Q * (nat * nat * nat))) : E (list (Q * (nat * nat * nat))) :=
  match l with
  | [] => eret div
  | g :: l =>
    c <% crossing g xa xb ;
    match c with
    | None => cuts xa xb l div
    | Some (t0, t1) => mn <% split_there g t0 ; cuts xa xb l (record_cut t1 (fst mn, g, snd mn) div)
    end
  end.
(** _add_line_seg_intersections, polygons.py lines 563-585. *)
Definition line_cuts (a b : nat) : E (list (Q * (nat * nat * nat))) :=
  xa <% xy_at a ; xb <% xy_at b ; l <% around xa xb ; cuts xa xb l [].
(** sorted(line_div.items()), polygons.py line 592. *)
Fixpoint sort_cuts (l : list (Q * (nat * nat * nat))) : list (Q * nat) := match l with [] => [] | (t, c) :: r => put t (fst (fst c)) (sort_cuts r) end.
(** The loop over the intersections, merge.py lines 104-106. *)
Fixpoint note_cuts (mo1 : dict nat) (l : list (Q * (nat * nat * nat))) (ms1 : dict nat) : option (dict nat) :=
  match l with
  | [] => Some ms1
  | (_, (_, ga, gb)) :: l => match dget ga mo1 with None => note_cuts mo1 l (dput gb (origin ms1 ga) ms1) | Some _ => None end
  end.
(** An attribute of an object of the other decomposition (merge.py lines 81, 95, 98). *)
Definition of_other {A} (x : option A) : E A := match x with Some a => eret a | None => eraise end.
(** seg.wire[side].polygon, merge.py lines 98, 127-128. *)
Definition poly_beside (s : st) (h : he) : option nat := w ← wir s !! h; x ← wires s !! w; w_poly x.

Section Merge.
Context (K : geometry) (can : ed -> nat -> vect -> bool) (inside : st -> nat -> vect -> bool) (root : Q -> Q).
(** The segment that was split, merge.py lines 83-88. *)
Definition note_split (n : nat) (p : nat) (ms1 : dict nat) : E (dict nat) :=
  x <% item (fun s => points s !! p) ;
  fun d =>
  match p_seg x with
  | Some (g, _) =>
    if n <? size (points (dec d)) then
      (h <% item (fun s => nxt s !! (g, false)) ; k <% item (fun s => nxt s !! (fst h, true)) ;
       if fst k =? g then let ms1 := dset (fst h) (fst h) ms1 in eret (dput g (origin ms1 (fst h)) ms1) else eraise) d
    else (Ok ms1, d)
  | None => (Ok ms1, d)
  end.
(** The loop over points, merge.py lines 79-91: maps_self[1], maps_other[0], other_point_map. *)
Fixpoint put_points (other : st) (pts : list nat) (ms1 mo0 pm : dict nat) : E (dict nat * dict nat * dict nat) :=
  match pts with
  | [] => eret (ms1, mo0, pm)
  | q :: pts =>
    z <% of_other (xy <$> points other !! q) ;
    fun d => (p <% add_point_impl K inside root z ; ms1 <% note_split (size (points (dec d))) p ms1 ;
              put_points other pts ms1 (dput p q mo0) (dput q p pm)) d
  end.
(** The body of the loop over new segments, merge.py lines 109-128: maps_self[2], maps_other[2]; [r], [l] are the other's polygons. *)
Definition note_segment (g start r l : nat) (ms2 : dict nat) (mo2 : dict (option nat)) : E (dict nat * dict (option nat)) :=
  v <% end_at (g, false) ;
  fun d =>
  match (match last_change (dec d) with
         | CRemove _ _ | CJoin _ _ => None
         | CAdd o n | CSplit o n => Some (dput n (origin ms2 o) ms2, dput n (mjoin (dget o mo2)) mo2)
         | CShape _ | CNone => Some (ms2, mo2)
         end) with
  | None => (Raise, d)
  | Some (ms2, mo2) =>
    let forth := v =? start in
    match poly_beside (dec d) (g, negb forth), poly_beside (dec d) (g, forth) with
    | Some gr, Some gl => (Ok (ms2, dput gl (Some l) (dput gr (Some r) mo2)), d)
    | _, _ => (Raise, d)
    end
  end.
(** _add_line_new_segments together with the loop over what it yields, polygons.py lines 587-605, merge.py lines 109-128. *)
Fixpoint put_line (e r l start b : nat) (div : list (Q * nat)) (ms2 mo1 : dict nat) (mo2 : dict (option nat)) : E (dict nat * dict nat * dict (option nat)) :=
  match div with
  | [] => if start =? b then eret (ms2, mo1, mo2)
          else (g <% add_segment K start b ; m <% note_segment g start r l ms2 mo2 ; eret (fst m, dput g e mo1, snd m))
  | (_, m) :: div =>
    if start =? m then put_line e r l start b div ms2 mo1 mo2
    else
      x <% xy_at start ; y <% xy_at m ;
      (fun d => if below (norm2 (vminus x y)) (tolerance d) then (p <% merge_points K can start m ; put_line e r l p b div ms2 mo1 mo2) d
                else (g <% add_segment K start m ; n <% note_segment g start r l ms2 mo2 ; put_line e r l m b div (fst n) (dput g e mo1) (snd n)) d)
  end.
(** The loop over segments, merge.py lines 94-128. *)
Fixpoint put_segments (other : st) (pm : dict nat) (segs : list nat) (ms1 ms2 mo1 : dict nat) (mo2 : dict (option nat)) : E (dict nat * dict nat * dict nat * dict (option nat)) :=
  match segs with
  | [] => eret (ms1, ms2, mo1, mo2)
  | e :: segs =>
    a <% of_other (q ← vtx other !! (e, false); dget q pm) ; b <% of_other (q ← vtx other !! (e, true); dget q pm) ;
    item (fun s => points s !! a) ;% (item (fun s => points s !! b) ;%
    (if a =? b then put_segments other pm segs ms1 ms2 mo1 mo2
     else
       r <% of_other (poly_beside other (e, false)) ; l <% of_other (poly_beside other (e, true)) ;
       div <% line_cuts a b ; ms1 <% of_other (note_cuts mo1 div ms1) ;
       n <% put_line e r l a b (sort_cuts div) ms2 mo1 mo2 ;
       put_segments other pm segs ms1 (fst (fst n)) (snd (fst n)) (snd n)))
  end.
End Merge.

(** The polygons across the sides of the outer wire of a polygon, merge.py lines 139-140; polygon.py lines 140-159. *)
Definition across (s : st) (g : nat) : res (list nat) :=
  match polys s !! g with
  | Some p =>
    match fst (wire_segments (outer p) None None s) with
    | Ok l => match mapM (fun h => poly_beside s (flip h)) l with Some ns => Ok ns | None => Raise end
    | Raise => Raise
    | Loop => Loop
    end
  | None => Raise
  end.
(** The loop over neighbours, merge.py lines 139-142; the top of the stack is the head of the list. *)
Fixpoint push_open (ns : list nat) (mo2 : dict (option nat)) (stack : list nat) : option (list nat) :=
  match ns with
  | [] => Some stack
  | n :: ns => match dget n mo2 with Some None => push_open ns mo2 (n :: stack) | Some (Some _) => push_open ns mo2 stack | None => None end
  end.
(** The loop over the stack, merge.py lines 136-142; [k] turns. *)
Fixpoint flood (k : nat) (s : st) (v : nat) (stack : list nat) (mo2 : dict (option nat)) : res (dict (option nat)) :=
  match k with
  | 0 => Loop
  | S k =>
    match stack with
    | [] => Ok mo2
    | g :: stack =>
      let mo2 := dput g (Some v) mo2 in
      match across s g with
      | Ok ns => match push_open ns mo2 stack with Some stack => flood k s v stack mo2 | None => Raise end
      | Raise => Raise
      | Loop => Loop
      end
    end
  end.
(** The loop over the items, merge.py lines 133-142. *)
Fixpoint flood_all (k : nat) (s : st) (items : dict (option nat)) (mo2 : dict (option nat)) : res (dict (option nat)) :=
  match items with
  | [] => Ok mo2
  | (g, Some v) :: items => match flood k s v [g] mo2 with Ok mo2 => flood_all k s items mo2 | x => x end
  | (_, None) :: items => flood_all k s items mo2
  end.
(** Filling the map of polygons, merge.py lines 131-142; the order in which ids of polygons without a value are added (lines 131-132)
    does not matter, as they are passed over in line 134. *)
Definition fill (k : nat) (s : st) (mo2 : dict (option nat)) : res (dict (option nat)) :=
  let mo2 := fold_left (fun m g => dset g None m) (elements (dom (polys s) : gset nat)) mo2 in flood_all k s mo2 mo2.

Section Single.
Context (K : geometry) (can : ed -> nat -> vect -> bool) (inside : st -> nat -> vect -> bool) (root : Q -> Q) (k : nat).
(** Assignment to the tolerance, merge.py lines 69-70, 150. *)
Definition set_tol (t : Q) (d : ed) : ed := Ed (dec d) (p_boxes d) (s_boxes d) t (stack d) (cells d).
(** intersect_single, merge.py lines 42-151. An exception leaves the tolerance changed. *)
Definition intersect_single (tol : Q) (other : st) (pts segs : list nat) : E (maps nat * maps (option nat)) := fun d =>
  let run := (x <% put_points K inside root other pts [] [] [] ;
    let '(ms1, mo0, pm) := x in
    y <% put_segments K can other pm segs ms1 [] [] [] ;
    let '(ms1, ms2, mo1, mo2) := y in
    fun d' => match fill k (dec d') mo2 with
              | Ok mo2 => (Ok (Maps [] ms1 ms2, Maps mo0 mo1 mo2), d')
              | Raise => (Raise, d')
              | Loop => (Loop, d')
              end) in
  match run (set_tol tol d) with
  | (Ok m, d') => (Ok m, set_tol (tolerance d) d')
  | x => x
  end.
End Single.

(** decomp_maps without the values None, merge.py line 190. *)
Definition drop_none (l : dict (option nat)) : dict nat := flat_map (fun x => match snd x with Some v => [(fst x, v)] | None => [] end) l.
(** The loop over one map, merge.py lines 193-196. *)
Fixpoint carry (common : dict nat) (one : dict nat) : option (dict nat) :=
  match common with
  | [] => Some one
  | (n, o) :: common =>
    match dget o one with
    | Some v => if (match dget n one with None => true | Some _ => n =? o end) then carry common (dput n v one) else None
    | None => carry common one
    end
  end.
(** The loop over dimensions, merge.py lines 192-196. *)
Definition carry_maps (common : maps nat) (one : maps nat) : option (maps nat) :=
  a ← carry (m_points common) (m_points one); b ← carry (m_segs common) (m_segs one); c ← carry (m_polys common) (m_polys one); Some (Maps a b c).
(** One of the decompositions given, with the order of its dicts (merge.py lines 79, 94). *)
Record given := Given { g_st : st; g_pts : list nat; g_segs : list nat }.
(** All ids are values of the map, merge.py lines 202-204. *)
Definition hit (ids : gset nat) (l : dict nat) : bool := forallb (fun i => existsb (fun x => snd x =? i) l) (elements ids).
(** The check, merge.py lines 201-204. *)
Definition all_hit (s : st) (m : maps nat) : bool :=
  hit (dom (points s)) (m_points m) && hit (dom (vec s)) (m_segs m) && hit (dom (polys s)) (m_polys m).
(** The identity map, merge.py lines 176-178. *)
Definition id_dict (ids : gset nat) : dict nat := (fun i => (i, i)) <$> elements ids.

Section All.
Context (K : geometry) (can : ed -> nat -> vect -> bool) (inside : st -> nat -> vect -> bool) (root : Q -> Q) (k : nat) (tol : Q).
(** The loop over decompositions, merge.py lines 182-204. *)
Fixpoint merge_all (l : list given) (all : list (maps nat)) : E (list (maps nat)) :=
  match l with
  | [] => eret all
  | x :: l =>
    m <% intersect_single K can inside root k tol (g_st x) (g_pts x) (g_segs x) ;
    let '(ms, mo) := m in
    let one := Maps (m_points mo) (m_segs mo) (drop_none (m_polys mo)) in
    all <% of_other (mapM (carry_maps ms) all) ;
    if all_hit (g_st x) one then merge_all l (all ++ [one]) else eraise
  end.
(** intersect_decompositions, merge.py lines 159-206; [init_tol] is the tolerance of a new PolygonDecomposition
    (polygons.py lines 61-68). A single decomposition is returned as it is. *)
Definition intersect_decompositions (init_tol : Q) (l : list given) : res (st * list (maps nat)) :=
  match l with
  | [x] => Ok (g_st x, [Maps (id_dict (dom (points (g_st x)))) (id_dict (dom (vec (g_st x)))) (id_dict (dom (polys (g_st x))))])
  | _ => match merge_all l [] (ed_init init_tol) with (Ok m, d) => Ok (dec d, m) | (Raise, _) => Raise | (Loop, _) => Loop end
  end.
End All.
