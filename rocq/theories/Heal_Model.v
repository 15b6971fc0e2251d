(** Model of src/bgem/gmsh/heal_mesh.py, class HealMesh.

    Simplifications:
    - coordinates are rational; the geometric tests of the healing (lengths, qualities,
      projections, intersections) are arbitrary answers, see [geo];
    - the order in which Python walks through a set or through the dict of elements is
      arbitrary and may differ between any two walks, see [pick];
    - a defaultdict entry that was never assigned is the empty set, reading it does not
      create it;
    - [_history] and the messages are left out; so is the listing of elements in
      lines 362-366;
    - lists of node ids are values (two elements never share one that is changed);
    - types and tags are numbers; the shape of an element has rows of three coordinates. *)
From stdpp Require Import gmap.
From Coq Require Import ZArith QArith Reals Qreals.
Local Open Scope nat_scope.

(** heal_mesh.py line 395: a row of coordinates. *)
Definition pt : Type := Q * Q * Q.
(** heal_mesh.py line 245: type, tags, node ids. *)
Definition elem : Type := Z * list Z * list Z.
(** heal_mesh.py lines 245, 349. *)
Definition e_type (e : elem) : Z := fst (fst e).
(** heal_mesh.py line 245. *)
Definition e_tags (e : elem) : list Z := snd (fst e).
(** heal_mesh.py line 245. *)
Definition e_nodes (e : elem) : list Z := snd e.
(** heal_mesh.py lines 220-248: mesh.nodes, mesh.elements, node_els, modified_elements,
    max_ele_id, max_node_id. [tick] counts the walks through sets. *)
Record st := St { nodes : gmap Z pt; els : gmap Z elem; idx : gmap Z (gset Z);
  modif : gset Z; max_el : Z; max_nd : Z; tick : nat }.

(** Result of a method: a value or a raised exception (heal_mesh.py lines 259-367). *)
Inductive res (A : Type) := Ok (a : A) | Raise.
Global Arguments Ok {A}.
Global Arguments Raise {A}.
(** A method changes the object and returns or raises (heal_mesh.py lines 212-839). *)
Definition M (A : Type) : Type := st -> res A * st.
(** heal_mesh.py: return (lines 259-839). *)
Definition ret {A} (a : A) : M A := fun s => (Ok a, s).
(** heal_mesh.py: a raised exception (lines 259-839). *)
Definition raise {A} : M A := fun s => (Raise, s).
(** heal_mesh.py: statements in sequence (lines 259-839). *)
Definition bind {A B} (m : M A) (f : A -> M B) : M B := fun s =>
  match m s with
  | (Ok a, s) => f a s
  | (Raise, s) => (Raise, s)
  end.
Notation "x <~ m ; f" := (bind m (fun x => f)) (at level 100, m at next level, right associativity).
Notation "m ;~ f" := (bind m (fun _ => f)) (at level 100, right associativity).

(** Attribute assignments of heal_mesh.py lines 220-345. *)
Definition set_nodes x s := St x (els s) (idx s) (modif s) (max_el s) (max_nd s) (tick s).
(** heal_mesh.py lines 271, 345. *)
Definition set_els x s := St (nodes s) x (idx s) (modif s) (max_el s) (max_nd s) (tick s).
(** heal_mesh.py lines 247, 273, 281, 333, 339. *)
Definition set_idx x s := St (nodes s) (els s) x (modif s) (max_el s) (max_nd s) (tick s).
(** heal_mesh.py lines 229, 256, 275, 294. *)
Definition set_modif x s := St (nodes s) (els s) (idx s) x (max_el s) (max_nd s) (tick s).
(** heal_mesh.py lines 223, 264. *)
Definition set_max_el x s := St (nodes s) (els s) (idx s) (modif s) x (max_nd s) (tick s).
(** heal_mesh.py lines 224, 279. *)
Definition set_max_nd x s := St (nodes s) (els s) (idx s) (modif s) (max_el s) x (tick s).
(** heal_mesh.py: another walk through a set (lines 312, 320, 349, 451). *)
Definition set_tick x s := St (nodes s) (els s) (idx s) (modif s) (max_el s) (max_nd s) x.
(** self.node_els[n], heal_mesh.py line 360. *)
Definition nels (s : st) (n : Z) : gset Z := default ∅ (idx s !! n).

(** make_node_to_el, heal_mesh.py lines 240-248. *)
Definition add_idx (eid : Z) (ns : list Z) (i : gmap Z (gset Z)) : gmap Z (gset Z) :=
  foldl (fun i n => <[n := {[eid]} ∪ default ∅ (i !! n)]> i) i ns.
(** heal_mesh.py lines 243-247. *)
Definition make_node_to_el (es : gmap Z elem) : gmap Z (gset Z) :=
  map_fold (fun eid e i => add_idx eid (e_nodes e) i) ∅ es.
(** max(d.keys()), heal_mesh.py lines 223-224; None is the ValueError for an empty dict. *)
Definition max_key {A} (m : gmap Z A) : option Z :=
  match (map_to_list m).*1 with [] => None | k :: l => Some (foldr Z.max k l) end.
(** min(d.keys()), for heal_mesh.py lines 232-234. *)
Definition min_key {A} (m : gmap Z A) : option Z :=
  match (map_to_list m).*1 with [] => None | k :: l => Some (foldr Z.min k l) end.
(** __init__, heal_mesh.py lines 220-237: the object and _abs_node_tol. Lines 232-234 walk
    through the keys of the dict, so the three coordinates of the box are all made of ids. *)
Definition init (ns : gmap Z pt) (es : gmap Z elem) (node_tol : Q) : option (st * Q) :=
  match max_key es, max_key ns, min_key ns with
  | Some me, Some mn, Some mi =>
    Some (St ns es (make_node_to_el es) ∅ me mn 0, (node_tol * (inject_Z mn - inject_Z mi))%Q)
  | _, _, _ => None
  end.

(** _make_element, heal_mesh.py lines 391-398: nodes exist and there are 1 to 4 of them. *)
Definition points (s : st) (ns : list Z) : option (list pt) :=
  if (1 <=? length ns) && (length ns <=? 4) then mapM (fun n => nodes s !! n) ns else None.
(** heal_mesh.py lines 391-398: whether _make_element succeeds. *)
Definition shaped (s : st) (ns : list Z) : bool := match points s ns with Some _ => true | None => false end.
(** np.average of two nodes, heal_mesh.py line 316. *)
Definition average (p q : pt) : pt :=
  let '(x, y, z) := p in let '(x', y', z') := q in ((x + x') / 2, (y + y') / 2, (z + z') / 2)%Q.

Section Heal.
(** The k-th walk through a set. *)
Context (pick : nat -> gset Z -> list Z).

(** set.intersection of the index entries, heal_mesh.py lines 360-361; no set at all is a
    TypeError. *)
Definition shared (s : st) (ns : list Z) : option (gset Z) :=
  match ns with
  | [] => None
  | n :: ns => Some (foldr (fun m X => nels s m ∩ X) (nels s n) ns)
  end.
(** common_elements, heal_mesh.py lines 354-367, before the filter [active]. *)
Definition common (ns : list Z) : M (list Z) := fun s =>
  match shared s ns with
  | None => (Raise, s)
  | Some X => (Ok (pick (tick s) X), set_tick (S (tick s)) s)
  end.
(** A loop over the generator active (heal_mesh.py lines 371-374): an element removed during
    the loop is skipped. *)
Fixpoint for_active (l : list Z) (f : Z -> M unit) : M unit :=
  match l with
  | [] => ret tt
  | i :: l => fun s =>
    match els s !! i with
    | Some _ => (f i ;~ for_active l f) s
    | None => for_active l f s
    end
  end.
(** An ordinary loop (heal_mesh.py lines 493, 584, 752, 764, 781, 823, 833). *)
Fixpoint for_each {A} (l : list A) (f : A -> M unit) : M unit :=
  match l with [] => ret tt | x :: l => f x ;~ for_each l f end.

(** is_duplicate_el, heal_mesh.py lines 347-350. *)
Definition is_duplicate (ty : Z) (ns : list Z) : M (list Z) :=
  l <~ common ns ;
  (fun s => (Ok (List.filter (fun i => match els s !! i with Some e => Z.eqb (e_type e) ty | None => false end) l), s)).
(** add_element, heal_mesh.py lines 259-276. *)
Definition add_element (e : elem) : M (option Z) := fun s =>
  if shaped s (e_nodes e) then
    (d <~ is_duplicate (e_type e) (e_nodes e) ;
     match d with
     | _ :: _ => ret None
     | [] => fun s =>
       let i := (max_el s + 1)%Z in
       (Ok (Some i), set_modif ({[i]} ∪ modif s) (set_idx (add_idx i (e_nodes e) (idx s))
                       (set_els (<[i := e]> (els s)) (set_max_el i s))))
     end) s
  else (Raise, s).
(** add_node, heal_mesh.py lines 278-282. *)
Definition add_node (p : pt) : M Z := fun s =>
  let i := (max_nd s + 1)%Z in
  (Ok i, set_idx (<[i := ∅]> (idx s)) (set_nodes (<[i := p]> (nodes s)) (set_max_nd i s))).
(** heal_mesh.py lines 288, 290: shapes of the active elements. *)
Definition shapes_of (s : st) (X : gset Z) : bool :=
  forallb (fun i => match els s !! i with Some e => shaped s (e_nodes e) | None => true end) (elements X).
(** move_node, heal_mesh.py lines 284-294. *)
Definition move_node (n : Z) (p : pt) : M unit := fun s =>
  if shapes_of s (nels s n) then
    let s := set_nodes (<[n := p]> (nodes s)) s in
    if shapes_of s (nels s n) then (Ok tt, set_modif (modif s ∪ nels s n) s) else (Raise, s)
  else (Raise, s).
(** Loop of remove_element, heal_mesh.py lines 337-343. *)
Fixpoint drop_idx (eid : Z) (ns : list Z) : M unit :=
  match ns with
  | [] => ret tt
  | n :: ns => fun s =>
    if decide (eid ∈ nels s n)
    then drop_idx eid ns (set_idx (<[n := nels s n ∖ {[eid]}]> (idx s)) s)
    else (Raise, s)
  end.
(** remove_element, heal_mesh.py lines 335-345. *)
Definition remove_element (eid : Z) : M unit := fun s =>
  match els s !! eid with
  | None => (Raise, s)
  | Some e => (drop_idx eid (remove_dups (e_nodes e)) ;~
               (fun s => (Ok tt, set_els (delete eid (els s)) s))) s
  end.
(** remove_node, heal_mesh.py lines 330-333. *)
Definition remove_node (n : Z) : M unit := fun s =>
  if decide (nels s n = ∅) then
    match nodes s !! n with
    | None => (Raise, s)
    | Some _ => (Ok tt, set_idx (delete n (idx s)) (set_nodes (delete n (nodes s)) s))
    end
  else (Raise, s).
(** heal_mesh.py line 322. *)
Definition subst (a b : Z) (ns : list Z) : list Z := map (fun n => if Z.eqb n a then b else n) ns.
(** merge_node, heal_mesh.py lines 297-327. *)
Definition merge_node (rm target : Z) : M unit := fun s =>
  if Z.eqb rm target then (Raise, s) else
  (l <~ common [rm; target] ;
   for_active l remove_element ;~
   (fun s => match nodes s !! rm, nodes s !! target with
             | Some p, Some q => move_node target (average p q) s
             | _, _ => (Raise, s)
             end) ;~
   l <~ common [rm] ;
   for_active l (fun i s =>
     match els s !! i with
     | None => (Raise, s)
     | Some (ty, tags, ns) =>
       (remove_element i ;~ _ <~ add_element (ty, tags, subst rm target ns) ; ret tt) s
     end) ;~
   remove_node rm) s.
(** reset_modified, heal_mesh.py lines 254-257, and the walk through its result
    (line 451). *)
Definition reset_modified : M (list Z) := fun s =>
  (Ok (pick (tick s) (modif s)), set_tick (S (tick s)) (set_modif ∅ s)).

(** * Healing *)
(** Class Tetrahedron, heal_mesh.py line 55. *)
Definition vtxs_faces : list (list nat) := [[0; 1; 2]; [0; 3; 1]; [0; 2; 3]; [1; 3; 2]].
(** Classes Tetrahedron, Triangle, Line and Point, heal_mesh.py lines 58, 134, 175, 187. *)
Definition edges_of (n : nat) : list (nat * nat) :=
  match n with
  | 4 => [(0, 1); (0, 2); (0, 3); (2, 3); (1, 3); (1, 2)]
  | 3 => [(1, 2); (2, 0); (0, 1)]
  | 2 => [(0, 1)]
  | _ => []
  end.
(** Class Element, heal_mesh.py lines 204-209: id, type, node ids, coordinates. *)
Record ele := Ele { l_id : Z; l_type : Z; l_nodes : list Z; l_pts : list pt }.
(** _make_element(eid), heal_mesh.py lines 391-398. *)
Definition make_ele (eid : Z) : M ele := fun s =>
  match els s !! eid with
  | None => (Raise, s)
  | Some e => match points s (e_nodes e) with
              | Some ps => (Ok (Ele eid (e_type e) (e_nodes e) ps), s)
              | None => (Raise, s)
              end
  end.
(** The two ends of an edge (heal_mesh.py lines 481, 512, 529, 577). *)
Definition ends (ns : list Z) (e : nat * nat) : option (Z * Z) :=
  match ns !! fst e, ns !! snd e with Some a, Some b => Some (a, b) | _, _ => None end.

(** Answers of the geometric computations (heal_mesh.py lines 467-817) for the given coordinates; the first argument is
    the number of walks made so far, so that the answers need not be consistent. *)
Record geo := Geo {
  g_short : nat -> list pt -> option nat;            (* 507-511: shortest edge, if below the tolerance *)
  g_good : nat -> list pt -> option bool;            (* 467; None: assertion of line 104 *)
  g_flat : nat -> list pt -> option (option (list bool * list pt * pt));
      (* 656-680, 718-745, 804-817: None: an assertion or LinAlgError; Some None: line 659;
         signs of line 680, flat_nodes, isec_point *)
  g_face : nat -> list pt -> nat;                    (* 540 *)
  g_max_edge : nat -> list pt -> nat;                (* 550 *)
  g_proj : nat -> list pt -> option (option pt);     (* 563-571: None: line 565; Some None: line 568 *)
  g_min_edge : nat -> list pt -> nat }.              (* 528 *)
Context (G : geo).

(** _check_dupl_nodes, heal_mesh.py lines 477-486. *)
Definition check_dupl_nodes (x : ele) : M (list Z) :=
  match List.find (fun e => match ends (l_nodes x) e with Some (a, b) => Z.eqb a b | None => false end)
                  (edges_of (length (l_nodes x))) with
  | None => ret []
  | Some e =>
    match ends (l_nodes x) e with
    | None => raise
    | Some (a, _) =>
      remove_element (l_id x) ;~
      (l <~ common [a] ;
       (fun s => (Ok (List.filter (fun i => match els s !! i with Some _ => true | None => false end) l), s)))
    end
  end.
(** merge_node of the ends of edge number [i], heal_mesh.py lines 511-514, 528-531. *)
Definition merge_edge (x : ele) (i : nat) : M unit :=
  match edges_of (length (l_nodes x)) !! i with
  | None => raise
  | Some e => match ends (l_nodes x) e with
              | None => raise
              | Some (a, b) => merge_node a b
              end
  end.
(** _check_degen_nodes, heal_mesh.py lines 499-515. *)
Definition check_degen_nodes (x : ele) : M (list Z) :=
  if length (l_nodes x) =? 1 then ret []
  else fun s =>
    ((match g_short G (tick s) (l_pts x) with
      | Some i => merge_edge x i
      | None => ret tt
      end) ;~ reset_modified) s.
(** _check_duplicate_element, heal_mesh.py lines 489-497. *)
Definition check_duplicate (x : ele) : M (list Z) :=
  d <~ is_duplicate (l_type x) (l_nodes x) ;
  if 1 <? length d
  then for_each d (fun i => if Z.eqb i (l_id x) then ret tt else remove_element i) ;~ ret [l_id x]
  else ret [].
(** list.index, heal_mesh.py lines 585, 779-780, 834. *)
Definition index_of (n : Z) (ns : list Z) : option nat := fst <$> list_find (fun m => m = n) ns.
(** The element [i] is replaced by the elements in which [p] takes the place of one of
    [vs], heal_mesh.py lines 579-588, 774-784, 831-837. With [check], elements not
    using all of [vs] are left (lines 580-582, 775-777). *)
Definition split_el (check : bool) (vs : list Z) (p : Z) (i : Z) : M unit := fun s =>
  match els s !! i with
  | None => (Raise, s)
  | Some (ty, tags, ns) =>
    if check && negb (forallb (fun v => bool_decide (v ∈ ns)) vs) then (Ok tt, s)
    else (remove_element i ;~
          for_each vs (fun v =>
            match index_of v ns with
            | None => raise
            | Some k => _ <~ add_element (ty, tags, <[k := p]> ns) ; ret tt
            end)) s
  end.
(** _check_flat_triangle, heal_mesh.py lines 535-590. *)
Definition check_flat_triangle (x : ele) : M (list Z) := fun s =>
  if length (l_nodes x) <? 3 then (Ok [], s) else
  let face := if length (l_nodes x) =? 4
              then match vtxs_faces !! g_face G (tick s) (l_pts x) with
                   | Some f => mapM (fun k => l_nodes x !! k) f
                   | None => None
                   end
              else Some (l_nodes x) in
  match face with
  | None => (Raise, s)
  | Some tria =>
    let im := g_max_edge G (tick s) (l_pts x) in
    let proj := g_proj G (tick s) (l_pts x) in
    (l <~ common tria ;
     for_active l remove_element ;~
     match proj with
     | None => raise
     | Some None => ret []
     | Some (Some q) =>
       match tria !! im, edges_of 3 !! im with
       | Some np, Some e =>
         match ends tria e with
         | None => raise
         | Some (a, b) =>
           move_node np q ;~
           l <~ common [a; b] ;
           for_active l (split_el true [a; b] np) ;~
           reset_modified
         end
       | _, _ => raise
       end
     end) s
  end.
(** list(set.intersection(..)) of the vertices of two faces, heal_mesh.py lines 684-689; a
    set of numbers 0..3 is walked through in increasing order. *)
Definition common_vtxs (fs : list (list nat)) : list nat :=
  List.filter (fun v => forallb (fun f => bool_decide (v ∈ f)) fs) [0; 1; 2; 3].
(** Faces with the given sign, heal_mesh.py lines 684-688. *)
Definition faces_with (b : bool) (signs : list bool) : list (list nat) :=
  map snd (List.filter (fun p => Bool.eqb (fst p) b) (combine signs vtxs_faces)).
(** heal_mesh.py lines 752-753, 823-824. *)
Definition move_all (ns : list Z) (ps : list pt) : M unit :=
  for_each (combine ns ps) (fun p => move_node (fst p) (snd p)).
(** _heal_quad_flat_case, heal_mesh.py lines 748-786. *)
Definition quad_flat (x : ele) (flat : list pt) (isec : pt) (pe ne : list nat) : M (list Z) :=
  move_all (l_nodes x) flat ;~
  remove_element (l_id x) ;~
  n <~ add_node isec ;
  for_each [[0; 1; 2]; [0; 1; 3]; [2; 3; 0]; [2; 3; 1]] (fun cf =>
    match mapM (fun v => k ← (pe ++ ne) !! v; l_nodes x !! k) cf with
    | Some (a :: b :: r) =>
      l <~ common (a :: b :: r) ;
      for_active l (split_el true [a; b] n)
    | _ => raise
    end) ;~
  reset_modified.
(** _heal_triangle_flat_case, heal_mesh.py lines 819-838. *)
Definition tria_flat (x : ele) (flat : list pt) (outer : nat) : M (list Z) :=
  match l_nodes x !! (3 - outer), (f ← vtxs_faces !! outer; mapM (fun k => l_nodes x !! k) f) with
  | Some inner, Some vs =>
    move_all (l_nodes x) flat ;~
    remove_element (l_id x) ;~
    l <~ common vs ;
    for_active l (split_el false vs inner) ;~
    reset_modified
  | _, _ => raise
  end.
(** First position of [b], heal_mesh.py lines 693, 696. *)
Definition first_of (b : bool) (l : list bool) : nat :=
  match list_find (fun c => c = b) l with Some (i, _) => i | None => 0 end.
(** _check_flat_tetra, heal_mesh.py lines 647-699. *)
Definition check_flat_tetra (x : ele) : M (list Z) := fun s =>
  if negb (length (l_nodes x) =? 4) then (Ok [], s) else
  match g_flat G (tick s) (l_pts x) with
  | None => (Raise, s)
  | Some None => (Ok [], s)
  | Some (Some (signs, flat, isec)) =>
    match length (List.filter (fun b => b) signs) with
    | 2 => quad_flat x flat isec (common_vtxs (faces_with true signs)) (common_vtxs (faces_with false signs)) s
    | 1 => tria_flat x flat (first_of true signs) s
    | 3 => tria_flat x flat (first_of false signs) s
    | _ => (Raise, s)
    end
  end.
(** _check_small_edge, heal_mesh.py lines 518-532. *)
Definition check_small_edge (x : ele) : M (list Z) := fun s =>
  (merge_edge x (g_min_edge G (tick s) (l_pts x)) ;~ reset_modified) s.
(** One check after another until one of them reports something, heal_mesh.py lines
    459-473. *)
Definition or_else (m : M (list Z)) (f : M (list Z)) : M (list Z) :=
  l <~ m ; match l with [] => f | _ => ret l end.
(** Checks of one element, heal_mesh.py lines 457-473. *)
Definition check_ele (eid : Z) : M (list Z) := fun s =>
  match els s !! eid with
  | None => (Ok [], s)
  | Some _ =>
    (x <~ make_ele eid ;
     or_else (check_dupl_nodes x)
     (or_else (check_degen_nodes x)
     (or_else (check_duplicate x)
     (fun s =>
       if length (l_nodes x) <? 3 then (Ok [], s)
       else match g_good G (tick s) (l_pts x) with
            | None => (Raise, s)
            | Some true => (Ok [], s)
            | Some false =>
              or_else (check_flat_tetra x) (or_else (check_flat_triangle x) (check_small_edge x)) s
            end)))) s
  end.
(** How the loop of heal_mesh.py lines 450-473 ends: nothing to check, the limit of line
    454, an exception. *)
Inductive stop := Done | Limit | Raised.
(** Variables of the loop: the deque el_to_check with its right end first, modified, the
    object (heal_mesh.py lines 448-452). *)
Definition cfg : Type := list Z * list Z * st.
(** heal_mesh.py line 454 with limit = fraction_of_new_els * orig_n_el. *)
Definition over (limit : Q) (s : st) : bool := negb (Qle_bool (inject_Z (max_el s)) limit).
(** One pass of the loop, heal_mesh.py lines 450-473. *)
Definition heal_step (limit : Q) (c : cfg) : cfg + stop * st :=
  let '(q, m, s) := c in
  match q with
  | [] => inr (Done, s)
  | _ =>
    if over limit s then inr (Limit, s)
    else match rev m ++ q with
         | [] => inr (Raised, s)
         | i :: q =>
           match check_ele i (set_tick (S (tick s)) s) with
           | (Raise, s) => inr (Raised, s)
           | (Ok m, s) => inl (q, m, s)
           end
         end
  end.
(** heal_mesh.py lines 450-473; None when the passes did not suffice. *)
Fixpoint heal_loop (limit : Q) (fuel : nat) (c : cfg) : option (stop * st) :=
  match fuel with
  | 0 => None
  | S fuel => match heal_step limit c with
              | inl c => heal_loop limit fuel c
              | inr r => Some r
              end
  end.
(** heal_mesh, heal_mesh.py lines 444-449: the loop variables before the loop and the
    limit. *)
Definition heal_start (frac : Q) (s : st) : cfg * Q :=
  ((rev (pick (tick s) (dom (els s))), [], set_tick (S (tick s)) s), (frac * inject_Z (max_el s))%Q).
(** heal_mesh, heal_mesh.py lines 444-473. *)
Definition heal (frac : Q) (fuel : nat) (s : st) : option (stop * st) :=
  let (c, limit) := heal_start frac s in heal_loop limit fuel c.

(** * Programs *)
(** Calls of the public methods, heal_mesh.py lines 254-345, 444. *)
Inductive op :=
  | OAddElement (e : elem) | OAddNode (p : pt) | OMoveNode (n : Z) (p : pt)
  | OMergeNode (rm target : Z) | ORemoveElement (i : Z) | ORemoveNode (n : Z)
  | OReset | OHeal (frac : Q) (fuel : nat).
(** One call; an exception is caught by the caller (heal_mesh.py lines 254-345, 444). *)
Definition step (o : op) (s : st) : st :=
  match o with
  | OAddElement e => snd (add_element e s)
  | OAddNode p => snd (add_node p s)
  | OMoveNode n p => snd (move_node n p s)
  | OMergeNode a b => snd (merge_node a b s)
  | ORemoveElement i => snd (remove_element i s)
  | ORemoveNode n => snd (remove_node n s)
  | OReset => snd (reset_modified s)
  | OHeal frac fuel => match heal frac fuel s with Some (_, s') => s' | None => s end
  end.
(** A program (heal_mesh.py lines 254-345, 444). *)
Definition run (os : list op) (s : st) : st := foldl (fun s o => step o s) s os.
End Heal.

(** * Statistics *)
(** A quality as computed by line 417; it need not be a number. *)
Inductive quality := Fin (q : Q) | Inf | NaN.
(** bins, heal_mesh.py lines 410-411: 2^-15, ..., 2^0, infinity. *)
Definition bin (k : nat) : option Q := if k <? 16 then Some (/ inject_Z (2 ^ Z.of_nat (15 - k)))%Q else None.
(** quality < bins[k], heal_mesh.py line 420. *)
Definition below (x : quality) (k : nat) : bool :=
  match x, bin k with
  | Fin q, Some b => negb (Qle_bool b q)
  | Fin _, None => true
  | _, _ => false
  end.
(** np.argmax(quality < bins), heal_mesh.py line 420: the first true entry, 0 if there is
    none. *)
Definition first_smaller (x : quality) : nat :=
  match list_find (fun k => below x k = true) (seq 0 17) with Some (_, k) => k | None => 0 end.
(** quality <= bad_el_tol, heal_mesh.py line 418. *)
Definition is_bad (tol : Q) (x : quality) : bool := match x with Fin q => Qle_bool q tol | _ => false end.
(** quality_statistics for one method, heal_mesh.py lines 402-422: the histogram and the bad
    elements; [qual] gives the quality of the given coordinates. None: _make_element or
    the quality raises. *)
Fixpoint statistics (qual : list pt -> option quality) (tol : Q) (s : st) (l : list (Z * elem)) (h : list nat)
    (bad : list Z) : option (list nat * list Z) :=
  match l with
  | [] => Some (h, bad)
  | (i, e) :: l =>
    match points s (e_nodes e) with
    | None => None
    | Some ps =>
      if length (e_nodes e) <? 3 then statistics qual tol s l h bad
      else match qual ps with
           | None => None
           | Some x =>
             statistics qual tol s l (alter S (first_smaller x) h) (if is_bad tol x then bad ++ [i] else bad)
           end
    end
  end.
(** heal_mesh.py lines 402-422. *)
Definition quality_statistics qual tol (s : st) : option (list nat * list Z) :=
  statistics qual tol s (map_to_list (els s)) (replicate 17 0) [].

(** * Shapes *)
(** Difference of rows of coordinates, heal_mesh.py lines 22, 68, 147. *)
Definition minus (p q : pt) : pt :=
  let '(x, y, z) := p in let '(x', y', z') := q in (x - x', y - y', z - z')%Q.
(** np.cross, heal_mesh.py line 147. *)
Definition cross (p q : pt) : pt :=
  let '(x, y, z) := p in let '(x', y', z') := q in (y * z' - z * y', z * x' - x * z', x * y' - y * x')%Q.
(** Scalar product (heal_mesh.py line 147: the square of np.linalg.norm). *)
Definition dot (p q : pt) : Q :=
  let '(x, y, z) := p in let '(x', y', z') := q in (x * x' + y * y' + z * z')%Q.
(** Tetrahedron.measure, heal_mesh.py lines 65-69; None for other shapes. *)
Definition tetra_measure (ps : list pt) : option Q :=
  match ps with
  | [a; b; c; d] => Some (dot (minus b a) (cross (minus c a) (minus d a)) / 6)%Q
  | _ => None
  end.
(** Argument of np.linalg.norm in Triangle.measure, heal_mesh.py line 147. *)
Definition tria_vector (ps : list pt) : option pt :=
  match ps with [a; b; c] => Some (cross (minus c a) (minus b a)) | _ => None end.
(** Triangle.measure, heal_mesh.py lines 144-148. *)
Definition tria_measure (ps : list pt) : option R :=
  match tria_vector ps with Some v => Some (sqrt (Q2R (dot v v)) / 2)%R | None => None end.
(** Triangle.gmsh_gamma from the lengths of the edges, heal_mesh.py lines 158-169, with the
    division and the product of floats: x/0 is infinite for x > 0 and nan for x = 0, the
    product of infinity and 0 is nan. (Lengths are not negative, one factor at most is
    negative; the sign of an infinite result is left out.) *)
Definition f_div (x y : Q) : quality :=
  if Qeq_bool y 0 then if Qeq_bool x 0 then NaN else Inf else Fin (x / y)%Q.
(** heal_mesh.py line 166. *)
Definition f_minus1 (x : quality) : quality := match x with Fin q => Fin (q - 1)%Q | _ => x end.
(** heal_mesh.py line 166. *)
Definition f_mul (x y : quality) : quality :=
  match x, y with
  | Fin p, Fin q => Fin (p * q)%Q
  | NaN, _ | _, NaN => NaN
  | Fin q, Inf | Inf, Fin q => if Qeq_bool q 0 then NaN else Inf
  | Inf, Inf => Inf
  end.
(** heal_mesh.py lines 158-169. *)
Definition tria_gamma (a b c : Q) : quality :=
  let s := ((a + b + c) / 2)%Q in
  f_mul (f_mul (f_mul (Fin 8) (f_minus1 (f_div s a))) (f_minus1 (f_div s b))) (f_minus1 (f_div s c)).
(** Tetrahedron.smooth_grad_error_indicator, heal_mesh.py line 89. *)
Definition e_faces : list (nat * nat) := [(0, 1); (0, 2); (1, 2); (0, 3); (1, 3); (2, 3)].
(** The sum of heal_mesh.py line 90 for given areas of faces and lengths of edges. *)
Definition sum_pairs (areas lens : nat -> R) : R :=
  foldr Rplus 0%R (imap (fun k ij => areas (fst ij) * areas (snd ij) * (lens k * lens k))%R e_faces).
(** np.linalg.norm, heal_mesh.py lines 27, 147. *)
Definition norm (p : pt) : R := sqrt (Q2R (dot p p)).
(** edge_lens, heal_mesh.py lines 20-28. *)
Definition edge_lens (ps : list pt) : list R :=
  map (fun e => match ps !! fst e, ps !! snd e with Some a, Some b => norm (minus b a) | _, _ => 0%R end) (edges_of (length ps)).
(** face_areas, heal_mesh.py lines 79-83. *)
Definition face_areas (ps : list pt) : list R :=
  map (fun f => match (mapM (fun k => ps !! k) f) ≫= tria_measure with Some a => a | None => 0%R end) vtxs_faces.
(** max(1e-300, np.max(..)) of numbers that are not negative, heal_mesh.py lines 34, 43, 45. *)
Definition max300 (l : list R) : R := foldr Rmax (/ 10 ^ 300)%R l.
(** flat_indicator, heal_mesh.py lines 37-51; None for lines and points. *)
Definition flat_indicator (ps : list pt) : option R :=
  match tetra_measure ps, tria_measure ps with
  | Some v, _ => Some (6 * Rabs (Q2R v) / max300 (face_areas ps) / max300 (edge_lens ps))%R
  | None, Some v => Some (2 * Rabs v / max300 (edge_lens ps) / max300 (edge_lens ps))%R
  | None, None => None
  end.
