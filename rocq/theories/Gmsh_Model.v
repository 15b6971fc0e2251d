(** Model of gmsh/gmsh.py (regions, object sets, physical groups).

    The geometry kernel (gmsh.model) is a parameter: what it answers is arbitrary, the
    first argument of each answer counts the calls. Its state is reduced to one bit
    ([dirty]: the geometry was changed after the last synchronize). Regions and object
    sets are references into heaps, since they are shared and changed in place. The lists
    dim_tags and regions are never changed in place, so they are values. Dimensions are
    0..3 (a negative index into default_region is not modelled). *)
From stdpp Require Import gmap strings list sorting.
From Coq Require Import ZArith QArith Ascii String DecimalString.
Local Open Scope nat_scope.
Local Notation length := List.length.

(** DimTag, gmsh.py line 122. *)
Definition dimtag : Type := Z * Z.
(** Region, gmsh.py lines 60-64. *)
Record region := Reg { r_dim : option Z; r_id : Z; r_name : string }.
(** ObjectSet, gmsh.py lines 489-496; the regions are references. *)
Record oset := OSet { o_tags : list dimtag; o_regs : list nat }.
(** Boolean operations of the kernel, gmsh.py lines 367, 669, 752-768. *)
Inductive boolop := Fragment | Intersect | Cut.
(** All objects of a program, gmsh.py: regions, object sets (None: invalidated, lines 770-773),
    _region_names (line 214), _max_reg_id (line 66), _need_synchronize (line 215), the
    kernel changed since synchronize (309), whether the synchronized model was asked while
    changed, number of calls of the kernel, calls of addRectangle (264), the lists given as
    xy_sides (the first one is the default value of line 261), physical groups (411-412). *)
Record st := St { regs : list region; sets : list (option oset); names : list (string * nat); max_id : Z;
  flag : bool; dirty : bool; stale : bool; tick : nat; rects : list (list Q); xys : list (list Q);
  groups : list (Z * list Z * string) }.

(** Result of a call: a value or a raised exception (gmsh.py lines 60-802). *)
Inductive res (A : Type) := Ok (a : A) | Raise.
Global Arguments Ok {A}.
Global Arguments Raise {A}.
(** A call (gmsh.py lines 60-802). *)
Definition M (A : Type) : Type := st -> res A * st.
(** return, gmsh.py lines 60-802. *)
Definition ret {A} (a : A) : M A := fun s => (Ok a, s).
(** raise, assert, gmsh.py lines 60-802. *)
Definition raise {A} : M A := fun s => (Raise, s).
(** Statements in sequence, gmsh.py lines 60-802. *)
Definition bind {A B} (m : M A) (f : A -> M B) : M B := fun s =>
  match m s with
  | (Ok a, s) => f a s
  | (Raise, s) => (Raise, s)
  end.
Notation "x <~ m ; f" := (bind m (fun x => f)) (at level 100, m at next level, right associativity).
Notation "m ;~ f" := (bind m (fun _ => f)) (at level 100, right associativity).
(** A list comprehension, gmsh.py lines 378, 514, 576, 592, 730. *)
Fixpoint each {A B} (f : A -> M B) (l : list A) : M (list B) :=
  match l with
  | [] => ret []
  | x :: l => y <~ f x ; ys <~ each f l ; ret (y :: ys)
  end.

(** Attributes of a region are assigned, gmsh.py lines 78, 85, 91. *)
Definition set_regs x s := St x (sets s) (names s) (max_id s) (flag s) (dirty s) (stale s) (tick s) (rects s) (xys s) (groups s).
(** gmsh.py lines 489-496, 514, 771-773, 800-801. *)
Definition set_sets x s := St (regs s) x (names s) (max_id s) (flag s) (dirty s) (stale s) (tick s) (rects s) (xys s) (groups s).
(** gmsh.py line 224. *)
Definition set_names x s := St (regs s) (sets s) x (max_id s) (flag s) (dirty s) (stale s) (tick s) (rects s) (xys s) (groups s).
(** gmsh.py line 70. *)
Definition set_max x s := St (regs s) (sets s) (names s) x (flag s) (dirty s) (stale s) (tick s) (rects s) (xys s) (groups s).
(** gmsh.py lines 258, 310, 385. *)
Definition set_flag x s := St (regs s) (sets s) (names s) (max_id s) x (dirty s) (stale s) (tick s) (rects s) (xys s) (groups s).
(** State of the kernel (gmsh.py line 309). *)
Definition set_dirty x s := St (regs s) (sets s) (names s) (max_id s) (flag s) x (stale s) (tick s) (rects s) (xys s) (groups s).
(** The kernel was asked (gmsh.py lines 411, 430, 466, 572, 654). *)
Definition set_stale x s := St (regs s) (sets s) (names s) (max_id s) (flag s) (dirty s) x (tick s) (rects s) (xys s) (groups s).
(** One more call of the kernel (gmsh.py lines 264-794). *)
Definition set_tick x s := St (regs s) (sets s) (names s) (max_id s) (flag s) (dirty s) (stale s) x (rects s) (xys s) (groups s).
(** gmsh.py line 264. *)
Definition set_rects x s := St (regs s) (sets s) (names s) (max_id s) (flag s) (dirty s) (stale s) (tick s) x (xys s) (groups s).
(** gmsh.py line 262. *)
Definition set_xys x s := St (regs s) (sets s) (names s) (max_id s) (flag s) (dirty s) (stale s) (tick s) (rects s) x (groups s).
(** gmsh.py lines 411-412. *)
Definition set_groups x s := St (regs s) (sets s) (names s) (max_id s) (flag s) (dirty s) (stale s) (tick s) (rects s) (xys s) x.

(** str.format of an integer, gmsh.py lines 91, 95, 716. *)
Definition show (z : Z) : string := NilZero.string_of_int (Z.to_int z).
(** "{}_{}".format(a, b), gmsh.py lines 91, 95, 716. *)
Definition joined (a b : string) : string := (a ++ "_" ++ b)%string.

(** The module after its import and the constructor of GeometryOCC: default_region of
    gmsh.py line 95, lines 214-215. *)
Definition init : st :=
  St (map (fun d => Reg (Some d) (100000 + d) ("default_" ++ show d ++ "d")) [0; 1; 2; 3])%Z [] [] 100003
    false false false 0 [] [[1; 1]]%Q [].

(** * Regions *)
(** Region.get, gmsh.py lines 68-78. *)
Definition region_get (name : string) (dim : option Z) : M nat := fun s =>
  let i := (max_id s + 1)%Z in
  (Ok (length (regs s)), set_regs (regs s ++ [Reg dim i name]) (set_max i s)).
(** Region.complete, gmsh.py lines 80-88. *)
Definition complete (r : nat) (dim : Z) : M nat := fun s =>
  match regs s !! r with
  | None => (Raise, s)
  | Some x =>
    match r_dim x with
    | None => (Ok r, set_regs (<[r := Reg (Some dim) (r_id x) (r_name x)]> (regs s)) s)
    | Some d => if Z.eqb d dim then (Ok r, s) else (Raise, s)
    end
  end.
(** Region.set_unique_name, gmsh.py lines 90-91. *)
Definition set_unique_name (r : nat) (idx : nat) : M unit := fun s =>
  match regs s !! r with
  | None => (Raise, s)
  | Some x => (Ok tt, set_regs (<[r := Reg (r_dim x) (r_id x) (joined (r_name x) (show (Z.of_nat idx)))]> (regs s)) s)
  end.
(** dict.get of _region_names, gmsh.py line 223. *)
Definition find_name (name : string) (l : list (string * nat)) : option nat :=
  match List.find (fun p => String.eqb (fst p) name) l with Some p => Some (snd p) | None => None end.
(** get_region_name, gmsh.py lines 222-225; Region.get is called in any case and takes an id. *)
Definition get_region_name (name : string) : M nat := fun s =>
  match find_name name (names s) with
  | Some r => (Ok r, set_max (max_id s + 1)%Z s)
  | None => (r <~ region_get name None ; (fun s => (Ok r, set_names ((name, r) :: names s) s))) s
  end.

(** * Object sets *)
(** An attribute of the object set; those of an invalidated one are None (gmsh.py lines
    770-773) and every use of them raises. *)
Definition get_set (o : nat) : M oset := fun s =>
  match sets s !! o with Some (Some x) => (Ok x, s) | _ => (Raise, s) end.
(** Attributes of the object set are assigned, gmsh.py lines 514, 531, 718, 771-773, 800-801. *)
Definition put_set (o : nat) (x : option oset) : M unit := fun s => (Ok tt, set_sets (<[o := x]> (sets s)) s).
(** ObjectSet(factory, dim_tags, regions), gmsh.py lines 489-496. *)
Definition new_set (tags : list dimtag) (rs : list nat) : M nat := fun s =>
  match rs with
  | [r] => (Ok (length (sets s)), set_sets (sets s ++ [Some (OSet tags (replicate (length tags) r))]) s)
  | _ => if length rs =? length tags
         then (Ok (length (sets s)), set_sets (sets s ++ [Some (OSet tags rs)]) s)
         else (Raise, s)
  end.
(** invalidate, gmsh.py lines 770-773. *)
Definition invalidate (o : nat) : M unit := put_set o None.
(** Region.default_region[dim], gmsh.py lines 95, 228, 576. *)
Definition default_region (dim : Z) : M nat :=
  if (0 <=? dim)%Z && (dim <? 4)%Z then ret (Z.to_nat dim) else raise.
(** object, gmsh.py lines 227-228. *)
Definition object (dim tag : Z) : M nat := r <~ default_region dim ; new_set [(dim, tag)] [r].
(** group, gmsh.py lines 312-326. *)
Definition group (os : list nat) : M nat :=
  match os with
  | [o] => ret o
  | _ => xs <~ each get_set os ; new_set (List.concat (map o_tags xs)) (List.concat (map o_regs xs))
  end.
(** dimtagreg, gmsh.py lines 642-644. *)
Definition dimtagreg (o : nat) : M (list (dimtag * nat)) :=
  x <~ get_set o ;
  if length (o_regs x) =? length (o_tags x) then ret (combine (o_tags x) (o_regs x)) else raise.
(** set_region with a region, gmsh.py lines 506-515. *)
Definition set_region (o : nat) (r : nat) : M nat :=
  x <~ get_set o ;
  rs <~ each (fun dt => complete r (fst dt)) (o_tags x) ;
  put_set o (Some (OSet (o_tags x) rs)) ;~ ret o.
(** set_region with a string, gmsh.py lines 512-513. *)
Definition set_region_name (o : nat) (name : string) : M nat :=
  get_set o ;~ (r <~ get_region_name name ; set_region o r).
(** modify_regions, gmsh.py lines 517-532; [f] is the format. *)
Definition modify_regions (o : nat) (f : string -> string) : M nat :=
  x <~ get_set o ;
  rs <~ each (fun r s => match regs s !! r with
                         | Some g => get_region_name (f (r_name g)) s
                         | None => (Raise, s)
                         end) (o_regs x) ;
  put_set o (Some (OSet (o_tags x) rs)) ;~ ret o.
(** set_region_from_dimtag, gmsh.py lines 709-718. *)
Definition set_region_from_dimtag (o : nat) : M unit :=
  x <~ get_set o ;
  rs <~ each (fun dt => get_region_name (joined (show (fst dt)) (show (snd dt)))) (o_tags x) ;
  put_set o (Some (OSet (o_tags x) rs)).
(** reg_to_tags of gmsh.py lines 397-398, 590-591: region id -> region, values; in the order of the
    first occurrence. *)
Fixpoint add_tag {A} (id : Z) (r : nat) (v : A) (l : list (Z * (nat * list A))) : list (Z * (nat * list A)) :=
  match l with
  | [] => [(id, (r, [v]))]
  | (i, (r', vs)) :: l => if Z.eqb i id then (i, (r', vs ++ [v])) :: l else (i, (r', vs)) :: add_tag id r v l
  end.
(** The loop of gmsh.py lines 587-591. *)
Fixpoint by_region (l : list (dimtag * nat)) (acc : list (Z * (nat * list dimtag))) : M (list (Z * (nat * list dimtag))) :=
  match l with
  | [] => ret acc
  | (dt, r) :: l =>
    complete r (fst dt) ;~
    (fun s => match regs s !! r with
              | None => (Raise, s)
              | Some x => by_region l (add_tag (r_id x) r dt acc) s
              end)
  end.
(** split_by_region, gmsh.py lines 579-593. *)
Definition split_by_region (o : nat) : M (list nat) :=
  l <~ dimtagreg o ;
  t <~ by_region l [] ;
  each (fun p => new_set (snd (snd p)) [fst (snd p)]) t.
(** The loop of gmsh.py lines 603-607: complete for each object; an index over 3 raises. *)
Fixpoint by_dim (l : list (dimtag * nat)) : M unit :=
  match l with
  | [] => ret tt
  | (dt, r) :: l =>
    complete r (fst dt) ;~
    (if (0 <=? fst dt)%Z && (fst dt <? 4)%Z then by_dim l else raise)
  end.
(** Objects of one dimension, gmsh.py lines 606-607. *)
Definition of_dim (d : Z) (l : list (dimtag * nat)) : list (dimtag * nat) :=
  List.filter (fun p => Z.eqb (fst (fst p)) d) l.
(** split_by_dimension, gmsh.py lines 595-609. *)
Definition split_by_dimension (o : nat) : M (list nat) :=
  l <~ dimtagreg o ;
  by_dim l ;~
  each (fun d => new_set (map fst (of_dim d l)) (map snd (of_dim d l))) [0; 1; 2; 3]%Z.

(** * The kernel *)
(** Answers of gmsh; None is an exception of the kernel. gmsh.py lines: copy 550, boolean
    operations 367, 669, 723 (the map of the objects; the list of new tags is not used), getBoundary
    572, add... 242-298, translate, rotate, dilate 535-545, remove 469, getMass 794, getEntities 466,
    addPhysicalGroup 411, generate 430, getBoundary and setSize 654-659. *)
Record kernel := Kernel {
  k_copy : nat -> list dimtag -> option (list dimtag);
  k_bool : nat -> boolop -> list dimtag -> list dimtag -> option (list (list dimtag));
  k_boundary : nat -> bool -> list dimtag -> option (list dimtag);
  k_add : nat -> option Z;
  k_move : nat -> list dimtag -> bool;
  k_mass : nat -> dimtag -> option Q;
  k_entities : nat -> list dimtag;
  k_ask : nat -> bool;
  k_pick : nat -> gset dimtag -> list dimtag }.     (* walk through a set, lines 469, 699-703 *)
Section Gmsh.
Context (K : kernel).
(** A call that changes the geometry, gmsh.py lines 242-298, 367, 457, 469, 535-550, 669, 723.
    A failing call is assumed to change nothing. *)
Definition change {A} (f : nat -> option A) : M A := fun s =>
  let s1 := set_tick (S (tick s)) s in
  match f (tick s) with
  | Some a => (Ok a, set_dirty true s1)
  | None => (Raise, s1)
  end.
(** A call that asks the synchronized model, gmsh.py lines 411, 430, 466, 572, 654. *)
Definition ask {A} (f : nat -> option A) : M A := fun s =>
  let s1 := set_stale (stale s || dirty s) (set_tick (S (tick s)) s) in
  match f (tick s) with
  | Some a => (Ok a, s1)
  | None => (Raise, s1)
  end.
(** self._need_synchronize = True, gmsh.py lines 258-281, 335, 385, 458, 536-551, 741. *)
Definition need : M unit := fun s => (Ok tt, set_flag true s).
(** synchronize, gmsh.py lines 303-310. *)
Definition synchronize : M unit := fun s =>
  (Ok tt, if flag s then set_flag false (set_dirty false s) else s).

(** box, cylinder, make_simplex, make_rectangle: gmsh.py lines 232-259, 268-282, 328-336; the
    several add... calls are one call here. *)
Definition make (dim : Z) : M nat := t <~ change (k_add K) ; need ;~ object dim t.
(** make_polygon, gmsh.py lines 284-299; the several add... calls are one call here. *)
Definition make_polygon : M nat := t <~ change (k_add K) ; object 2 t.
(** A list made by the caller, to be given to rectangle (gmsh.py line 261). *)
Definition new_list (l : list Q) : M nat := fun s => (Ok (length (xys s)), set_xys (xys s ++ [l]) s).
(** rectangle, gmsh.py lines 261-266. [sides] refers to the list given, 0 is the default
    one; the list gets a 0 appended (262). numpy subtracts it from the centre if it has 3
    numbers as well. (Centres with other than 3 coordinates are not modelled: they raise here.) *)
Definition rectangle (sides : nat) (center : list Q) : M nat := fun s =>
  match xys s !! sides with
  | None => (Raise, s)
  | Some l0 =>
    let l := l0 ++ [0%Q] in
    let s := set_xys (<[sides := l]> (xys s)) s in
    if (length center =? 3) && (length l =? 3) then
      (t <~ change (k_add K) ;
       (fun s => (Ok tt, set_rects (rects s ++ [zip_with (fun c x => (c - x / 2)%Q) center l ++ take 2 l]) s)) ;~
       need ;~ object 2 t) s
    else (Raise, s)
  end.
(** translate, rotate, scale: gmsh.py lines 534-547. *)
Definition move (o : nat) : M nat :=
  x <~ get_set o ;
  change (fun k => if k_move K k (o_tags x) then Some tt else None) ;~ need ;~ ret o.
(** copy, gmsh.py lines 549-552. *)
Definition copy (o : nat) : M nat :=
  x <~ get_set o ;
  t <~ change (fun k => k_copy K k (o_tags x)) ;
  need ;~ new_set t (o_regs x).
(** get_boundary, gmsh.py lines 554-577. *)
Definition get_boundary (o : nat) (combined : bool) : M nat :=
  x <~ get_set o ;
  synchronize ;~
  (t <~ ask (fun k => k_boundary K k combined (o_tags x)) ;
   rs <~ each (fun dt => default_region (fst dt)) t ;
   new_set t rs).
(** get_boundary_per_region, gmsh.py lines 611-630; [f] is the format. *)
Definition get_boundary_per_region (o : nat) (f : string -> string) : M (list nat) :=
  l <~ split_by_region o ;
  each (fun p =>
    x <~ get_set p ;
    (fun s => match head (o_regs x) ≫= (fun r => regs s !! r) with
              | Some g =>
                match r_dim g with
                | Some d => (b <~ region_get (f (r_name g)) (Some (d - 1)%Z) ;
                             q <~ get_boundary p true ;
                             set_region q b) s
                | None => (Raise, s)
                end
              | None => (Raise, s)
              end)) l.
(** set_mesh_step, gmsh.py lines 646-659; the two calls of the kernel are one call here. *)
Definition set_mesh_step (o : nat) : M unit :=
  x <~ get_set o ;
  synchronize ;~ ask (fun k => if k_ask K k then Some tt else None).
(** The loop of gmsh.py lines 673-678. *)
Fixpoint selected (m : list (list dimtag)) (l : list (dimtag * nat)) : M (list (dimtag * nat)) :=
  match m, l with
  | ts :: m, p :: l =>
    match ts with
    | [] => selected m l
    | [_] => r <~ selected m l ; ret (p :: r)
    | _ => raise
    end
  | _, _ => ret []
  end.
(** select_by_intersect, gmsh.py lines 661-683. *)
Definition select_by_intersect (o : nat) (tools : list nat) : M nat :=
  sc <~ copy o ;
  tool <~ (g <~ group tools ; copy g) ;
  x <~ get_set sc ; y <~ get_set tool ;
  m <~ change (fun k => k_bool K k Intersect (o_tags x) (o_tags y)) ;
  invalidate tool ;~ invalidate sc ;~
  (l <~ dimtagreg o ;
   i <~ selected m l ;
   new_set (map fst i) (map snd i)).
(** The loop of gmsh.py lines 376-383. *)
Fixpoint fragments (os : list nat) (m : list (list dimtag)) : M (list nat) :=
  match os with
  | [] => ret []
  | o :: os =>
    x <~ get_set o ;
    ns <~ each (fun p => new_set (snd p) [fst p]) (combine (o_regs x) (take (length (o_tags x)) m)) ;
    g <~ group ns ;
    invalidate o ;~
    (gs <~ fragments os (drop (length (o_tags x)) m) ; ret (g :: gs))
  end.
(** fragment, gmsh.py lines 357-386. (The sizes of the sets are taken before the loop;
    a set given twice raises in the loop either way.) *)
Definition fragment (os : list nat) : M (list nat) :=
  xs <~ each get_set os ;
  m <~ change (fun k => k_bool K k Fragment (List.concat (map o_tags xs)) []) ;
  (if (0 <? length os) && (length (List.concat (map o_tags xs)) =? length m)
   then gs <~ fragments os m ; need ;~ ret gs
   else raise).
(** dict(dimtagreg()), gmsh.py lines 697-698: the last region of a dimtag. *)
Definition dict (l : list (dimtag * nat)) : gmap dimtag nat := foldl (fun m p => <[fst p := snd p]> m) ∅ l.
(** A walk through a set, gmsh.py lines 469, 699-703. *)
Definition walk (X : gset dimtag) : M (list dimtag) := fun s => (Ok (k_pick K (tick s) X), set_tick (S (tick s)) s).
(** ObjectSet(factory, list(d.keys()), list(d.values())), gmsh.py lines 705-706. *)
Definition dict_set (ks : list dimtag) (d : gmap dimtag nat) : M nat :=
  rs <~ each (fun k s => match d !! k with Some r => (Ok r, s) | None => (Raise, s) end) ks ;
  new_set ks rs.
(** split_by_cut, gmsh.py lines 685-707. *)
Definition split_by_cut (o : nat) (tools : list nat) : M (list nat) :=
  get_set o ;~
  (t <~ group tools ;
   gs <~ fragment [o; t] ;
   match gs with
   | [a; b] =>
     la <~ dimtagreg a ; lb <~ dimtagreg b ;
     let da := dict la in let db := dict lb in
     ka <~ walk (dom da ∖ dom db) ;
     kb <~ walk (dom db ∖ dom da) ;
     ki <~ walk (dom da ∩ dom db) ;
     x1 <~ dict_set ka da ; x2 <~ dict_set kb db ; x3 <~ dict_set ki da ; x4 <~ dict_set ki db ;
     ret [x1; x2; x3; x4]
   | _ => raise
   end).
(** _apply_operation (cut, intersect, fragment), gmsh.py lines 720-768. *)
Definition apply_operation (op : boolop) (o : nat) (tools : list nat) : M nat :=
  x <~ get_set o ;
  t <~ (g <~ group tools ; copy g) ;
  y <~ get_set t ;
  m <~ change (fun k => k_bool K k op (o_tags x) (o_tags y)) ;
  (if length (o_regs x) =? length (o_tags x) then
     ns <~ each (fun p => new_set (snd p) [fst p]) (combine (o_regs x) (take (length (o_tags x)) m)) ;
     g <~ group ns ;
     need ;~ invalidate o ;~ invalidate t ;~ ret g
   else raise).
(** remove_small_mass, gmsh.py lines 790-802. *)
Definition remove_small_mass (o : nat) (limit : Q) : M nat :=
  x <~ get_set o ;
  ms <~ each (fun dt s => match k_mass K (tick s) dt with
                          | Some m => (Ok m, set_tick (S (tick s)) s)
                          | None => (Raise, set_tick (S (tick s)) s)
                          end) (o_tags x) ;
  let keep {A} (l : list A) := map fst (List.filter (fun p => negb (Qle_bool (snd p) limit)) (combine l ms)) in
  put_set o (Some (OSet (keep (o_tags x)) (keep (o_regs x)))) ;~ ret o.
(** make_fractures, gmsh.py lines 338-355: the region of each fracture. (A failing step of the
    loop stops it.) *)
Definition make_fractures (frs : list nat) (base : nat) : M (list nat) :=
  os <~ each (fun r =>
    c <~ copy base ;
    move c ;~ move c ;~ move c ;~ set_region c r) frs ;
  fragment os.

(** * Physical groups *)
(** gmsh.py lines 393-400: reg_to_tags and reg_names. *)
Fixpoint collect (l : list (dimtag * nat)) (rt : list (Z * (nat * list Z))) (rn : gmap string (gset Z)) :
    M (list (Z * (nat * list Z)) * gmap string (gset Z)) :=
  match l with
  | [] => ret (rt, rn)
  | ((dim, tag), r) :: l =>
    complete r dim ;~
    (fun s => match regs s !! r with
              | None => (Raise, s)
              | Some x => collect l (add_tag (r_id x) r tag rt)
                            (<[r_name x := {[r_id x]} ∪ default ∅ (rn !! r_name x)]> rn) s
              end)
  end.
(** reg_to_tags[id][0], gmsh.py line 407. *)
Definition find_region (id : Z) (rt : list (Z * (nat * list Z))) : option nat :=
  match List.find (fun p => Z.eqb (fst p) id) rt with Some p => Some (fst (snd p)) | None => None end.
(** gmsh.py lines 404-407 for one name. *)
Fixpoint rename (rt : list (Z * (nat * list Z))) (k : nat) (ids : list Z) : M unit :=
  match ids with
  | [] => ret tt
  | id :: ids =>
    match find_region id rt with
    | None => raise
    | Some r => set_unique_name r k ;~ rename rt (S k) ids
    end
  end.
(** gmsh.py lines 402-407. (The order of the names does not matter, since each id is in one set.) *)
Definition rename_all (rt : list (Z * (nat * list Z))) (rn : gmap string (gset Z)) : M unit :=
  each (fun p => if 1 <? size (snd p) then rename rt 0 (merge_sort Z.le (elements (snd p))) else ret tt)
    (map_to_list rn) ;~ ret tt.
(** gmsh.py lines 409-412. *)
Definition emit (p : Z * (nat * list Z)) : M unit := fun s =>
  match regs s !! fst (snd p) with
  | None => (Raise, s)
  | Some x => match r_dim x with
              | None => (Raise, s)
              | Some d => (ask (fun k => if k_ask K k then Some tt else None) ;~
                           (fun s => (Ok tt, set_groups (groups s ++ [(d, snd (snd p), r_name x)]) s))) s
              end
  end.
(** _assign_physical_groups, gmsh.py lines 388-412. *)
Definition assign_physical_groups (o : nat) : M unit :=
  synchronize ;~
  (l <~ dimtagreg o ;
   t <~ collect l [] ∅ ;
   rename_all (fst t) (snd t) ;~
   each emit (fst t) ;~ ret tt).
(** keep_only, gmsh.py lines 460-471; an exception of remove (a ValueError) is caught. *)
Definition keep_only (os : list nat) : M unit :=
  synchronize ;~
  (g <~ match os with [] => ret None | _ => g <~ group os ; ret (Some g) end ;
   es <~ ask (fun k => Some (k_entities K k)) ;
   x <~ match g with None => ret (OSet [] []) | Some g => get_set g end ;
   l <~ walk (list_to_set es ∖ list_to_set (o_tags x)) ;
   (fun s => match change (fun k => if k_move K k l then Some tt else None) s with (_, s) => (Ok tt, s) end)).
(** make_mesh, gmsh.py lines 414-434; the three calls of the kernel are one call here. *)
Definition make_mesh (os : list nat) (eliminate : bool) : M unit :=
  g <~ group os ;
  assign_physical_groups g ;~
  (if eliminate then keep_only [g] else ret tt) ;~
  synchronize ;~
  ask (fun k => if k_ask K k then Some tt else None).
(** remove_duplicate_entities, gmsh.py lines 455-458. *)
Definition remove_duplicate_entities : M unit :=
  synchronize ;~ change (fun k => if k_move K k [] then Some tt else None) ;~ need.

(** write_brep, all_entities: gmsh.py lines 436-440, 473-475. *)
Definition write : M unit := synchronize ;~ ask (fun k => if k_ask K k then Some tt else None).

(** * Programs *)
(** Calls of the public methods, gmsh.py lines 68-802. *)
Inductive op :=
  | ORegion (name : string) (dim : option Z) | ORegionName (name : string)
  | OMake (dim : Z) | OPolygon | OList (l : list Q) | ORectangle (sides : nat) (center : list Q)
  | OMove (o : nat) | OCopy (o : nat) | OSetRegion (o r : nat) | OSetName (o : nat) (name : string)
  | OModify (o : nat) (f : string -> string) | OFromDimtag (o : nat)
  | OGroup (os : list nat) | OSplitRegion (o : nat) | OSplitDim (o : nat)
  | OBoundary (o : nat) (combined : bool) | OBoundaryPer (o : nat) (f : string -> string)
  | OMeshStep (o : nat) | OSelect (o : nat) (tools : list nat) | OFragment (os : list nat)
  | OSplitCut (o : nat) (tools : list nat) | OApply (k : boolop) (o : nat) (tools : list nat)
  | OSmall (o : nat) (limit : Q) | OInvalidate (o : nat) | OFractures (frs : list nat) (base : nat)
  | OMesh (os : list nat) (eliminate : bool) | OKeep (os : list nat) | ORemoveDup | OWrite.
(** One call; an exception is caught by the caller (gmsh.py lines 68-802). *)
Definition step (o : op) (s : st) : st :=
  match o with
  | ORegion n d => snd (region_get n d s)
  | ORegionName n => snd (get_region_name n s)
  | OMake d => snd (make d s)
  | OPolygon => snd (make_polygon s)
  | OList l => snd (new_list l s)
  | ORectangle a b => snd (rectangle a b s)
  | OMove o => snd (move o s)
  | OCopy o => snd (copy o s)
  | OSetRegion o r => snd (set_region o r s)
  | OSetName o n => snd (set_region_name o n s)
  | OModify o f => snd (modify_regions o f s)
  | OFromDimtag o => snd (set_region_from_dimtag o s)
  | OGroup os => snd (group os s)
  | OSplitRegion o => snd (split_by_region o s)
  | OSplitDim o => snd (split_by_dimension o s)
  | OBoundary o c => snd (get_boundary o c s)
  | OBoundaryPer o f => snd (get_boundary_per_region o f s)
  | OMeshStep o => snd (set_mesh_step o s)
  | OSelect o ts => snd (select_by_intersect o ts s)
  | OFragment os => snd (fragment os s)
  | OSplitCut o ts => snd (split_by_cut o ts s)
  | OApply k o ts => snd (apply_operation k o ts s)
  | OSmall o l => snd (remove_small_mass o l s)
  | OInvalidate o => snd (invalidate o s)
  | OFractures frs b => snd (make_fractures frs b s)
  | OMesh os e => snd (make_mesh os e s)
  | OKeep os => snd (keep_only os s)
  | ORemoveDup => snd (remove_duplicate_entities s)
  | OWrite => snd (write s)
  end.
(** A program (gmsh.py lines 68-802). *)
Definition run (os : list op) (s : st) : st := foldl (fun s o => step o s) s os.
End Gmsh.
