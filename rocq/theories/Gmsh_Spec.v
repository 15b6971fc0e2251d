(** Vocabulary of the statements about object sets and regions. *)
From stdpp Require Import gmap strings list sorting.
From Coq Require Import ZArith QArith String.
From Verif Require Import Gmsh_Model.
Local Open Scope nat_scope.
Local Notation length := List.length.

(** Contents of an object set: its objects with their regions; None if it was
    invalidated. (gmsh.py lines 642-644, 770-773) *)
Definition contents (s : st) (o : nat) : option (list (dimtag * nat)) :=
  match sets s !! o with
  | Some (Some x) => Some (combine (o_tags x) (o_regs x))
  | _ => None
  end.
(** The objects of a list with one region (gmsh.py lines 579-593). *)
Definition with_region (r : nat) (l : list (dimtag * nat)) : list (dimtag * nat) :=
  List.filter (fun p => snd p =? r) l.
(** The objects of a list with one dimension (gmsh.py lines 595-609). *)
Definition with_dim (d : Z) (l : list (dimtag * nat)) : list (dimtag * nat) :=
  List.filter (fun p => Z.eqb (fst (fst p)) d) l.
(** Pieces of objects, each with the region of the object it comes from (gmsh.py lines 378, 730). *)
Fixpoint inherit (l : list (dimtag * nat)) (m : list (list dimtag)) : list (dimtag * nat) :=
  match l, m with
  | (_, r) :: l, ts :: m => map (fun t => (t, r)) ts ++ inherit l m
  | _, _ => []
  end.
(** Objects with just one piece (gmsh.py lines 673-678). *)
Fixpoint picked (l : list (dimtag * nat)) (m : list (list dimtag)) : list (dimtag * nat) :=
  match l, m with
  | p :: l, ts :: m => (if length ts =? 1 then [p] else []) ++ picked l m
  | _, _ => []
  end.
(** Region of the last occurrence of an object (gmsh.py lines 697-698). *)
Definition last_of (t : dimtag) (l : list (dimtag * nat)) : option nat :=
  last (map snd (List.filter (fun p => bool_decide (fst p = t)) l)).
(** The regions of a list in the order of their first occurrence (gmsh.py lines 590, 397). *)
Definition firsts (rs : list nat) : list nat := reverse (remove_dups (reverse rs)).
(** Dimension, id, name of a region (gmsh.py lines 60-64). *)
Definition rdim (s : st) (r : nat) : option Z := regs s !! r ≫= r_dim.
Definition rid (s : st) (r : nat) : option Z := r_id <$> regs s !! r.
Definition rname (s : st) (r : nat) : option string := r_name <$> regs s !! r.
(** Regions with the same name as r (gmsh.py lines 399-403). *)
Definition sharers (s : st) (rs : list nat) (r : nat) : list nat :=
  List.filter (fun q => bool_decide (rname s q = rname s r)) rs.
(** The number of regions with the same name and a smaller id (gmsh.py lines 404-407). *)
Definition rank (s : st) (rs : list nat) (r : nat) : nat :=
  length (List.filter (fun q => (default 0 (rid s q) <? default 0 (rid s r))%Z) (sharers s rs r)).
(** Name of the physical group of the region r (gmsh.py lines 402-412). *)
Definition group_name (s : st) (rs : list nat) (r : nat) : string :=
  let n := default EmptyString (rname s r) in
  if length (sharers s rs r) =? 1 then n else (n ++ "_" ++ show (Z.of_nat (rank s rs r)))%string.
(** The physical group of the region r: dimension and tags of its objects, name (gmsh.py lines 409-412). *)
Definition group_of (s : st) (l : list (dimtag * nat)) (r : nat) : Z * list Z * string :=
  (match with_region r l with (t, _) :: _ => fst t | [] => 0%Z end,
   map (fun p => snd (fst p)) (with_region r l), group_name s (firsts (map snd l)) r).
(** A region has, alone, the name n_i that one of several regions with the name n gets (gmsh.py lines 402-407). *)
Definition name_clash (s : st) (rs : list nat) : Prop :=
  exists r q n i, r ∈ rs /\ q ∈ rs /\ rname s r = Some n /\ 1 < length (sharers s rs r) /\ i < length (sharers s rs r) /\
    rname s q = Some (n ++ "_" ++ show (Z.of_nat i))%string /\ length (sharers s rs q) = 1.
(** Objects can be given to their regions: each region has one dimension (gmsh.py lines 80-88). *)
Definition dims_agree (s : st) (l : list (dimtag * nat)) : Prop :=
  (forall t r, (t, r) ∈ l -> is_Some (regs s !! r) /\ (rdim s r = None \/ rdim s r = Some (fst t))) /\
  (forall t t' r, (t, r) ∈ l -> (t', r) ∈ l -> fst t = fst t').
(** The state is consistent: one region per object in every object set, all regions
    exist, ids of regions are different, the default regions exist. *)
Record wf (s : st) : Prop := Wf {
  w_sets : forall o x, sets s !! o = Some (Some x) ->
    length (o_regs x) = length (o_tags x) /\ Forall (fun r => r < length (regs s)) (o_regs x);
  w_ids : NoDup (map r_id (regs s));
  w_max : Forall (fun x => (r_id x <= max_id s)%Z) (regs s);
  w_names : Forall (fun p => snd p < length (regs s)) (names s);
  w_def : 4 <= length (regs s) }.
(** What never gets lost: a region keeps its id, and its dimension once it has one; an
    invalidated set stays so; a name keeps its region; lists given to rectangle only grow;
    physical groups stay. *)
Record later (s s' : st) : Prop := Later {
  l_regs : forall r x, regs s !! r = Some x -> exists y, regs s' !! r = Some y /\ r_id y = r_id x /\
    (forall d, r_dim x = Some d -> r_dim y = Some d);
  l_sets : length (sets s) <= length (sets s');
  l_dead : forall o, sets s !! o = Some None -> sets s' !! o = Some None;
  l_names : forall n r, find_name n (names s) = Some r -> find_name n (names s') = Some r;
  l_xys : forall i l, xys s !! i = Some l -> exists l', xys s' !! i = Some (l ++ l');
  l_groups : exists g, groups s' = groups s ++ g;
  l_max : (max_id s <= max_id s')%Z;
  l_tick : tick s <= tick s' }.
(** The synchronized model was never asked while behind, and a changed geometry is going to be
    synchronized before the next question (gmsh.py lines 215, 303-310). *)
Definition synced (s : st) : Prop := (dirty s = true -> flag s = true) /\ stale s = false.
(** Calls after which the flag is right: no polygon, no removal of shapes; the sets given
    to fragment are different, at least one. (gmsh.py lines 284-299, 357-386, 414-434, 460-471, 685-707) *)
Definition careful (o : op) : Prop :=
  match o with
  | OPolygon | OKeep _ => False
  | OMesh _ e => e = false
  | OFragment os => os <> [] /\ NoDup os
  | OSplitCut o ts => ts <> [o]
  | OFractures frs _ => frs <> []
  | _ => True
  end.
