(** Model of the shape graph and of the writer of
    src/bgem/bspline/brep_writer.py: locations (59-127), shapes (444-1046),
    numbering by depth first search and write_model (1050-1088).

    Objects live in a heap of five tables and are referred to by their position in
    the table; creating an object appends it. A raised exception is [None].
    Simplifications:
    - the instances [Location()] made as default arguments (466, 734, 818, 884, 897
      and so on) have no state that can be told apart and are the location 0 of the
      heap;
    - the data of a curve or a surface is the expression that made it: [Given n] for
      one passed by the user, otherwise the call of a constructor of Approx; the
      numbers made by these constructors are the subject of Approx_Model.v;
    - ShapeRef objects are values; the caller's copy of a ShapeRef passed to
      Edge() is changed by lines 865-866, which is not modelled;
    - _eval_check (189-193, 245-248, 326-330) is the parameter [near] of the
      attach operations;
    - the file is the list of its records, numbers are not printed as text. *)
From Coq Require Import List Arith Bool ZArith QArith Lia.
Import ListNotations.
Local Open Scope nat_scope.
Local Open Scope list_scope.

(** Keys of the dict [groups], line 646. *)
Inductive cls := CL | C2 | C3 | CS | SH.
(** Keys of the dict groups, brep_writer.py line 646. *)
Definition cls_eqb (a b : cls) : bool :=
  match a, b with CL, CL | C2, C2 | C3, C3 | CS, CS | SH, SH => true | _, _ => false end.
(** The shape classes, lines 658-1046 (shpname). *)
Inductive kind := Co | Cs | So | Sh | Fa | Wi | Ed | Ve.
(** Orient, lines 444-448. *)
Inductive orient := Forward | Reversed | Internal | External.
(** ShapeRef, lines 455-487. *)
Record sref := SRef { r_shape : nat; r_or : orient; r_loc : nat }.
(** brep_writer.py lines 972-975. *)
Definition point := (Q * Q * Q)%type.
(** brep_writer.py line 1017; the values do not matter. *)
Definition uv := (Z * Z)%type.
(** Location 59-97, ComposedLocation 99-127. *)
Inductive loc := LIdent | LMat (rows : list (list Q)) | LComp (powers : list (nat * Z)).
(** Data of Curve2D, Curve3D and Surface. *)
Inductive geom :=
  | Given (n : nat)
  | Line3 (a b : point)               (* Approx.line_3d, 435-441 *)
  | Line2 (a b : uv)                  (* Approx.line_2d, 426-432 *)
  | Plane (a b c : point)             (* Approx.plane, 370-383 *)
  | Bilinear (a b c d : point).       (* Approx.bilinear, 386-408 *)
(** Entries of the attribute [repr] of Edge (895, 910), Vertex (1003, 1015, 1026) and
    Face (769, 818). *)
Inductive repr :=
  | R3 (t0 t1 : Q) (curve l : nat)
  | R2 (t0 t1 : Q) (curve surf l : nat)
  | RS (u v : Q) (surf l : nat)
  | RF (surf l : nat).
(** Attributes of the shapes; [s_point], [s_nedges] are used by Vertex, [s_eflags] by
    Edge, [s_tol] by Vertex, Edge and Face. *)
(** brep_writer.py lines 524-552, 734-771, 850-866, 972-992. *)
Record shape := Shape {
  s_kind : kind; s_childs : list sref; s_flags : list bool; s_tol : Q;
  s_repr : list repr; s_point : point; s_eflags : Z * Z * Z; s_nedges : nat }.
(** Objects of brep_writer.py lines 59, 160, 216, 283, 523. *)
Record heap := Heap { h_loc : list loc; h_c2 : list geom; h_c3 : list geom;
                      h_s : list geom; h_sh : list shape }.
(** Objects, their [id] attributes (None: the attribute does not exist) and the dict
    [groups] of the running call of index_all. *)
(** brep_writer.py lines 81-90, 196-201, 598-610, 642-656. *)
Record st := St { hp : heap; ids : cls -> nat -> option nat; grp : cls -> list nat }.

(** Replace entry [o] of a table. *)
(** Attribute assignments of brep_writer.py lines 524-1046. *)
Fixpoint update {A} (l : list A) (o : nat) (x : A) : list A :=
  match l, o with
  | [], _ => []
  | _ :: l, 0 => x :: l
  | y :: l, S o => y :: update l o x
  end.
(** Attribute assignments of brep_writer.py lines 524-1046. *)
Definition set_hp (h : heap) (s : st) : st := St h (ids s) (grp s).
(** Attribute assignments of brep_writer.py lines 524-1046. *)
Definition set_shape (o : nat) (x : shape) (s : st) : st :=
  let h := hp s in
  set_hp (Heap (h_loc h) (h_c2 h) (h_c3 h) (h_s h) (update (h_sh h) o x)) s.
(** Attribute assignments self.repr = l, self.n_edges = n, self.childs = c, flags = f. *)
(** brep_writer.py lines 884-922, 994-1027. *)
Definition with_repr (l : list repr) (x : shape) : shape :=
  Shape (s_kind x) (s_childs x) (s_flags x) (s_tol x) l (s_point x) (s_eflags x) (s_nedges x).
(** brep_writer.py lines 705-726, 972-992. *)
Definition with_nedges (n : nat) (x : shape) : shape :=
  Shape (s_kind x) (s_childs x) (s_flags x) (s_tol x) (s_repr x) (s_point x) (s_eflags x) n.
(** brep_writer.py lines 570-580. *)
Definition with_childs (c : list sref) (x : shape) : shape :=
  Shape (s_kind x) c (s_flags x) (s_tol x) (s_repr x) (s_point x) (s_eflags x) (s_nedges x).
(** brep_writer.py lines 585-592. *)
Definition with_flags (f : list bool) (x : shape) : shape :=
  Shape (s_kind x) (s_childs x) f (s_tol x) (s_repr x) (s_point x) (s_eflags x) (s_nedges x).
(** brep_writer.py lines 868-876. *)
Definition with_eflags (f : Z * Z * Z) (x : shape) : shape :=
  Shape (s_kind x) (s_childs x) (s_flags x) (s_tol x) (s_repr x) (s_point x) f (s_nedges x).
(** Object creation. *)
(** brep_writer.py lines 65-79, 104-115. *)
Definition new_loc (x : loc) (s : st) : st :=
  let h := hp s in
  let o := length (h_loc h) in
  St (Heap (h_loc h ++ [x]) (h_c2 h) (h_c3 h) (h_s h) (h_sh h))
     (* lines 72-75: the identity has id 0 *)
     (match x with
      | LIdent => fun c p => if cls_eqb c CL && (p =? o) then Some 0 else ids s c p
      | _ => ids s
      end) (grp s).
(** brep_writer.py lines 221-243. *)
Definition new_c2 (x : geom) (s : st) : st :=
  let h := hp s in set_hp (Heap (h_loc h) (h_c2 h ++ [x]) (h_c3 h) (h_s h) (h_sh h)) s.
(** brep_writer.py lines 165-187. *)
Definition new_c3 (x : geom) (s : st) : st :=
  let h := hp s in set_hp (Heap (h_loc h) (h_c2 h) (h_c3 h ++ [x]) (h_s h) (h_sh h)) s.
(** brep_writer.py lines 288-324. *)
Definition new_s (x : geom) (s : st) : st :=
  let h := hp s in set_hp (Heap (h_loc h) (h_c2 h) (h_c3 h) (h_s h ++ [x]) (h_sh h)) s.
(** brep_writer.py lines 524-552. *)
Definition new_shape (x : shape) (s : st) : st :=
  let h := hp s in set_hp (Heap (h_loc h) (h_c2 h) (h_c3 h) (h_s h) (h_sh h ++ [x])) s.

(** The state after import: the default location with id 0. *)
Definition init : st :=
  St (Heap [LIdent] [] [] [] [])
     (fun c p => if cls_eqb c CL && (p =? 0) then Some 0 else None) (fun _ => []).

(** A loop whose body may raise. *)
(** Loops of brep_writer.py lines 598-610, 773-786, 935-947, 1029-1039. *)
Fixpoint foldo {A} (f : A -> st -> option st) (l : list A) (s : st) : option st :=
  match l with
  | [] => Some s
  | x :: l => match f x s with Some s' => foldo f l s' | None => None end
  end.

(** * Numbering *)

(** Assign the next number of a group: Location._dfs 81-90, Curve3D._dfs 196-200,
    Curve2D._dfs 251-255, Surface._dfs 333-337, Shape._dfs 609-610. *)
Definition visit (c : cls) (o : nat) (s : st) : st :=
  match ids s c o with
  | Some _ => s
  | None =>
    St (hp s)
       (fun c' p => if cls_eqb c' c && (p =? o) then Some (length (grp s c) + 1) else ids s c' p)
       (fun c' => if cls_eqb c' c then grp s c ++ [o] else grp s c')
  end.
(** Location._dfs 81-90, ComposedLocation._dfs 117-121. *)
Fixpoint loc_dfs (fuel : nat) (o : nat) (s : st) : option st :=
  match fuel with
  | 0 => None
  | S fuel =>
    match nth_error (h_loc (hp s)) o with
    | None => None
    | Some (LComp l) =>
      match foldo (fun p => loc_dfs fuel (fst p)) l s with
      | Some s => Some (visit CL o s)
      | None => None
      end
    | Some _ => Some (visit CL o s)
    end
  end.
(** The recursion of Python is bounded by the number of locations: a composed
    location is made of locations that exist before it. *)
(** brep_writer.py lines 81-90, 117-121. *)
Definition dfs_loc (o : nat) (s : st) : option st := loc_dfs (S (length (h_loc (hp s)))) o s.
(** Bodies of the loops over [repr], lines 940-947 and 1031-1038; the surface
    representation of a vertex is passed over. *)
Definition repr_dfs (r : repr) (s : st) : option st :=
  match r with
  | R2 _ _ c sf l => dfs_loc l (visit CS sf (visit C2 c s))
  | R3 _ _ c l => dfs_loc l (visit C3 c s)
  | RS _ _ _ _ => Some s
  | RF _ _ => None
  end.
(** Shape._dfs, lines 598-610. *)
Definition shape_dfs (rec : nat -> st -> option st) (o : nat) (s : st) : option st :=
  match ids s SH o with
  | Some _ => Some s
  | None =>
    match nth_error (h_sh (hp s)) o with
    | None => None
    | Some x =>
      match foldo (fun r s => match dfs_loc (r_loc r) s with
                              | Some s => rec (r_shape r) s
                              | None => None
                              end) (s_childs x) s with
      | Some s => Some (visit SH o s)
      | None => None
      end
    end
  end.

(** Objects of brep_writer.py line 523. *)
Definition get_shape (s : st) (o : nat) : option shape := nth_error (h_sh (hp s)) o.
(** subshapes, lines 566-568. *)
Definition subshapes (x : shape) : list nat := map r_shape (s_childs x).
(** Edge.points, lines 878-882: the points of the children, which must be vertices. *)
Definition point_of (s : st) (v : nat) : option point :=
  match get_shape s v with
  | Some x => match s_kind x with Ve => Some (s_point x) | _ => None end
  | None => None
  end.
(** Append an entry to [repr] of edge [e]: lines 895, 910. *)
Definition add_repr (e : nat) (r : repr) (s : st) : option st :=
  match get_shape s e with
  | Some x => Some (set_shape e (with_repr (s_repr x ++ [r]) x) s)
  | None => None
  end.
(** Edge.implicit_curve, lines 924-931, with attach_to_3d_curve 884-895; the check
    _eval_check passes since the curve has no _bs_curve. Approx._line (418) refuses
    anything but two points. *)
Definition implicit_curve (e : nat) (s : st) : option st :=
  match get_shape s e with
  | None => None
  | Some x =>
    match subshapes x with
    | [a; b] =>
      match point_of s a, point_of s b with
      | Some p, Some q =>
        let c := length (h_c3 (hp s)) in
        add_repr e (R3 0 1 c 0) (new_c3 (Line3 p q) s)
      | _, _ => None
      end
    | _ => None
    end
  end.
(** Edge.attach_to_plane, lines 912-922, with attach_to_2d_curve 897-910. *)
Definition attach_to_plane (sf : nat) (v0 v1 : uv) (e : nat) (s : st) : option st :=
  let c := length (h_c2 (hp s)) in
  add_repr e (R2 0 1 c sf 0) (new_c2 (Line2 v0 v1) s).

(** d[k] = v and d[k] of a dict with keys in insertion order (799, 822). *)
Fixpoint dict_set {B} (k : nat) (v : B) (d : list (nat * B)) : list (nat * B) :=
  match d with
  | [] => [(k, v)]
  | (k', v') :: d => if k =? k' then (k', v) :: d else (k', v') :: dict_set k v d
  end.
(** brep_writer.py lines 788-830. *)
Fixpoint dict_get {B} (k : nat) (d : list (nat * B)) : option B :=
  match d with
  | [] => None
  | (k', v) :: d => if k =? k' then Some v else dict_get k d
  end.
(** l[0::2] and l[1::2]. *)
Fixpoint evens {A} (l : list A) : list A :=
  match l with x :: _ :: l => x :: evens l | [x] => [x] | [] => [] end.
(** brep_writer.py lines 788-830. *)
Definition odds {A} (l : list A) : list A := match l with [] => [] | _ :: l => evens l end.
(** l[1:] + l[:1]. *)
Definition rotate {A} (l : list A) : list A := match l with [] => [] | x :: l => l ++ [x] end.
(** brep_writer.py lines 788-830. *)
Definition is_rev (o : orient) : bool := match o with Reversed => true | _ => false end.

(** Lines 797-804: the oriented edges of the wires: edge, and its vertices in the order
    of the walk. *)
Definition face_refs (s : st) (x : shape) : option (list sref) :=
  fold_right (fun w acc => match get_shape s w, acc with
                           | Some y, Some l => Some (s_childs y ++ l)
                           | _, _ => None
                           end) (Some []) (subshapes x).
(** brep_writer.py lines 797-804. *)
Definition edge_walk (s : st) (r : sref) : option (list nat) :=
  match get_shape s (r_shape r) with
  | Some y => Some (if is_rev (r_or r) then rev (subshapes y) else subshapes y)
  | None => None
  end.
(** List comprehensions of brep_writer.py lines 788-830. *)
Fixpoint mapo {A B} (f : A -> option B) (l : list A) : option (list B) :=
  match l with
  | [] => Some []
  | x :: l => match f x, mapo f l with Some y, Some m => Some (y :: m) | _, _ => None end
  end.
(** vtx.id paired with the vertex; two pairs of line 808 are equal when the ids are
    equal and the arrays are the same object, that is for the same vertex. *)
Definition with_id (s : st) (v : nat) : option (nat * nat) :=
  match ids s SH v with Some i => Some (i, v) | None => None end.
(** brep_writer.py line 808. *)
Fixpoint pairs_eqb (a b : list (nat * nat)) : bool :=
  match a, b with
  | [], [] => true
  | (i, v) :: a, (j, w) :: b => (i =? j) && (v =? w) && pairs_eqb a b
  | _, _ => false
  end.
(** Body of the loop of lines 823-827: the line between the parameters of the two ends of
    the edge. *)
Definition attach_edge (sf : nat) (id_to_uv : list (nat * uv)) (p : nat * nat) (s : st) : option st :=
  let e := snd p in
  match get_shape s e with
  | Some y =>
    match subshapes y with
    | a :: b :: _ =>
      match ids s SH a, ids s SH b with
      | Some ia, Some ib =>
        match dict_get ia id_to_uv, dict_get ib id_to_uv with
        | Some ua, Some ub => attach_to_plane sf ua ub e s
        | _, _ => None
        end
      | _, _ => None
      end
    | _ => None
    end
  | None => None
  end.
(** The dict made from a list of pairs. *)
(** brep_writer.py lines 788-830. *)
Definition dict_of {B} (l : list (nat * B)) : list (nat * B) :=
  fold_left (fun d p => dict_set (fst p) (snd p) d) l [].
(** Lines 810-815: the constructor and the parameters of the corners it returns. *)
Definition patch (pts : list point) : option (geom * list uv) :=
  match pts with
  | [a; b; c] => Some (Plane a b c, [(0, 0); (1, 0); (0, 1)]%Z)
  | [a; b; c; d] => Some (Bilinear a b c d, [(0, 0); (1, 0); (1, 1); (0, 1)]%Z)
  | _ => None
  end.
(** Face.implicit_surface, lines 788-827. *)
Definition implicit_surface (o : nat) (s : st) : option st :=
  match get_shape s o with
  | None => None
  | Some x =>
    match face_refs s x with
    | None => None
    | Some refs =>
      match mapo (fun r => match ids s SH (r_shape r) with
                           | Some i => Some (i, r_shape r) | None => None end) refs,
            mapo (edge_walk s) refs with
      | Some keyed, Some walks =>
        let edges := dict_of keyed in
        match mapo (with_id s) (concat walks) with
        | None => None
        | Some vs =>
          let vs := rotate vs in
          if negb (pairs_eqb (odds vs) (evens vs)) then None
          else
            let vtxs := odds vs in
            match mapo (fun p => point_of s (snd p)) vtxs with
            | None => None
            | Some pts =>
              match patch pts with
              | None => None
              | Some (g, uvs) =>
                let sf := length (h_s (hp s)) in
                let s := set_shape o (with_repr [RF sf 0] x) (new_s g s) in
                let id_to_uv := dict_of (combine (map fst vtxs) uvs) in
                foldo (attach_edge sf id_to_uv) edges s
              end
            end
        end
      | _, _ => None
      end
    end
  end.

(** Face._dfs, lines 773-785, after Shape._dfs. *)
Definition face_dfs (rec : nat -> st -> option st) (o : nat) (s : st) : option st :=
  match get_shape s o with
  | None => None
  | Some x =>
    match (match s_repr x with [] => implicit_surface o s | _ => Some s end) with
    | None => None
    | Some s =>
      match get_shape s o with
      | None => None
      | Some x =>
        match s_repr x with
        | [RF sf l] =>
          match dfs_loc l (visit CS sf s) with
          | None => None
          | Some s =>
            foldo (fun w s => match get_shape s w with
                              | Some y => foldo rec (subshapes y) s
                              | None => None
                              end) (subshapes x) s
          end
        | _ => None
        end
      end
    end
  end.
(** Edge._dfs, lines 935-947, after Shape._dfs. *)
Definition edge_dfs (o : nat) (s : st) : option st :=
  match get_shape s o with
  | None => None
  | Some x =>
    match (match s_repr x with [] => implicit_curve o s | _ => Some s end) with
    | None => None
    | Some s =>
      match get_shape s o with
      | None => None
      | Some x => foldo repr_dfs (s_repr x) s
      end
    end
  end.
(** The method _dfs of the shapes: Shape._dfs 598-610, Face._dfs 773-785,
    Edge._dfs 935-947, Vertex._dfs 1029-1038. *)
Fixpoint dfs (fuel : nat) (o : nat) (s : st) : option st :=
  match fuel with
  | 0 => None
  | S fuel =>
    match get_shape s o with
    | None => None
    | Some x =>
      match shape_dfs (dfs fuel) o s with
      | None => None
      | Some s =>
        match s_kind x with
        | Fa => face_dfs (dfs fuel) o s
        | Ed => edge_dfs o s
        | Ve => foldo repr_dfs (s_repr x) s
        | _ => Some s
        end
      end
    end
  end.
(** index_all, lines 642-651. The child types bound the depth of the recursion by the
    number of classes of shapes. *)
Definition index_all (root l : nat) (s : st) : option st :=
  match dfs 8 root (St (hp s) (ids s) (fun _ => [])) with
  | Some s => dfs_loc l s
  | None => None
  end.

(** * The records of the file *)

(** <location data 1> lines 92-97 and <location data 2> lines 123-127: the numbers
    following the tag 2, the closing 0 included. *)
Inductive lrec := L1 (rows : list (list Q)) | L2 (tokens : list Z).
(** Edge representations, lines 952-958. *)
Inductive erec :=
  | E2 (curve surf l : nat) (t0 t1 : Q)
  | E3 (curve l : nat) (t0 t1 : Q).
(** _subrecordoutput: Shape 623-624, Face 832-835, Edge 949-959, Vertex 1041-1045. *)
Inductive subrec :=
  | SubNone
  | SubF (restriction : nat) (tol : Q) (surf l : nat)
  | SubE (tol : Q) (eflags : Z * Z * Z) (reprs : list erec)
  | SubV (tol : Q) (p : point).
(** Shape._brep_output, lines 612-620; a child is an orientation, a shape number and a
    location number (481-483). *)
Record srec := SRec { f_kind : kind; f_sub : subrec; f_flags : list bool;
                      f_childs : list (orient * nat * nat) }.
(** brep_writer.py lines 1050-1088. *)
Record file := File { f_locs : list lrec; f_c2 : list geom; f_c3 : list geom;
                      f_surfs : list geom; f_shapes : list srec }.

(** Location._brep_output 92-97, ComposedLocation._brep_output 123-127. *)
Definition out_loc (s : st) (o : nat) : option lrec :=
  match nth_error (h_loc (hp s)) o with
  | Some (LMat rows) => Some (L1 rows)
  | Some (LComp l) =>
    match mapo (fun p => match ids s CL (fst p) with
                         | Some i => Some [Z.of_nat i; snd p] | None => None end) l with
    | Some t => Some (L2 (concat t ++ [0%Z]))
    | None => None
    end
  | _ => None
  end.
(** Lines 953-958. *)
Definition out_repr (s : st) (r : repr) : option (list erec) :=
  match r with
  | R2 t0 t1 c sf l =>
    match ids s C2 c, ids s CS sf, ids s CL l with
    | Some c, Some sf, Some l => Some [E2 c sf l t0 t1]
    | _, _, _ => None
    end
  | R3 t0 t1 c l =>
    match ids s C3 c, ids s CL l with
    | Some c, Some l => Some [E3 c l t0 t1]
    | _, _ => None
    end
  | RS _ _ _ _ | RF _ _ => Some []
  end.
(** brep_writer.py lines 623, 832-836, 949-959, 1041-1046. *)
Definition out_sub (s : st) (x : shape) : option subrec :=
  match s_kind x with
  | Fa =>
    match s_repr x with
    | [RF sf l] => match ids s CS sf, ids s CL l with
                   | Some sf, Some l => Some (SubF 0 (s_tol x) sf l)
                   | _, _ => None
                   end
    | _ => None
    end
  | Ed =>
    match s_repr x with
    | [] => None
    | rs => match mapo (out_repr s) rs with
            | Some l => Some (SubE (s_tol x) (s_eflags x) (concat l))
            | None => None
            end
    end
  | Ve => Some (SubV (s_tol x) (s_point x))
  | _ => Some SubNone
  end.
(** ShapeRef._writeformat, lines 481-483. *)
Definition out_ref (s : st) (r : sref) : option (orient * nat * nat) :=
  match ids s SH (r_shape r), ids s CL (r_loc r) with
  | Some i, Some l => Some (r_or r, i, l)
  | _, _ => None
  end.
(** brep_writer.py lines 612-621. *)
Definition out_shape (s : st) (o : nat) : option srec :=
  match get_shape s o with
  | None => None
  | Some x =>
    match out_sub s x, mapo (out_ref s) (s_childs x) with
    | Some sub, Some cs => Some (SRec (s_kind x) sub (s_flags x) cs)
    | _, _ => None
    end
  end.

(** Lines 1054-1057: shape.id = n_shapes - shape.id for the shapes of the group. *)
Definition flip_ids (s : st) : st :=
  let n := length (grp s SH) + 1 in
  St (hp s)
     (fun c p => if cls_eqb c SH && existsb (Nat.eqb p) (grp s SH)
                 then option_map (fun i => n - i) (ids s c p) else ids s c p)
     (grp s).
(** write_model, lines 1050-1088. *)
Definition write_model (root l : nat) (s : st) : option (file * st) :=
  match index_all root l s with
  | None => None
  | Some s =>
    let s := flip_ids s in
    match mapo (out_loc s) (grp s CL), mapo (nth_error (h_c2 (hp s))) (grp s C2),
          mapo (nth_error (h_c3 (hp s))) (grp s C3), mapo (nth_error (h_s (hp s))) (grp s CS),
          mapo (out_shape s) (grp s SH) with
    | Some a, Some b, Some c, Some d, Some e => Some (File a b c d e, s)
    | _, _, _, _, _ => None
    end
  end.

(** * Construction *)

(** sub_types: lines 660, 677, 684, 691, 699, 741, 855, 990. *)
Definition sub_ok (parent child : kind) : bool :=
  match parent, child with
  | Co, (Cs | So | Sh | Wi | Fa | Ed | Ve) => true
  | Cs, So => true
  | So, Sh => true
  | Sh, Fa => true
  | Wi, Ed => true
  | Fa, (Wi | Ed) => true
  | Ed, Ve => true
  | _, _ => false
  end.
(** brep_writer.py lines 570-580. *)
Definition kind_eqb (a b : kind) : bool :=
  match a, b with
  | Co, Co | Cs, Cs | So, So | Sh, Sh | Fa, Fa | Wi, Wi | Ed, Ed | Ve, Ve => true
  | _, _ => false
  end.
(** append, lines 570-580: the reference must exist and have an allowed type. *)
Definition ref_ok (k : kind) (s : st) (r : sref) : bool :=
  match get_shape s (r_shape r) with
  | Some y => sub_ok k (s_kind y) && (r_loc r <? length (h_loc (hp s)))
  | None => false
  end.
(** brep_writer.py lines 489-520. *)
Definition flags7 (a b c d e f g : bool) : list bool := [a; b; c; d; e; f; g].
(** Shape.__init__ 524-548 followed by set_flags of the constructors of Compound 659-664,
    CompoundSolid 676-679, Solid 683-687, Shell 690-694, Wire 698-703. The flags given to a
    vertex in line 980 are overwritten by Shape.__init__. *)
Definition kind_flags (k : kind) : list bool :=
  match k with
  | Co => flags7 true true false false false false false
  | So => flags7 false true false false false false false
  | _ => flags7 false true false true false false false
  end.
(** brep_writer.py lines 524-552. *)
Definition make_shape (k : kind) (cs : list sref) (tol : Q) (p : point) (s : st) : option shape :=
  if forallb (ref_ok k s) cs
  then Some (Shape k cs (kind_flags k) tol [] p (1, 1, 0)%Z 0) else None.

(** vtx.n_edges = n for vertex [v]. *)
(** brep_writer.py lines 705-720. *)
Definition put_nedges (f : nat -> nat) (v : nat) (s : st) : st :=
  match get_shape s v with
  | Some y => set_shape v (with_nedges (f (s_nedges y)) y) s
  | None => s
  end.
(** brep_writer.py lines 705-720. *)
Definition nedges (s : st) (v : nat) : nat :=
  match get_shape s v with Some y => s_nedges y | None => 0 end.
(** Vertices of the edges of a wire in the order of lines 711-712. *)
Definition wire_vertices (s : st) (cs : list sref) : list nat :=
  concat (map (fun r => match get_shape s (r_shape r) with
                        | Some y => subshapes y | None => [] end) cs).
(** Keys of vtx_set (713): the first occurrences. *)
Fixpoint keys (l : list nat) (seen : list nat) : list nat :=
  match l with
  | [] => rev seen
  | v :: l => if existsb (Nat.eqb v) seen then keys l seen else keys l (v :: seen)
  end.
(** Wire._set_closed, lines 705-720: the counters are raised in the first loop, read and
    cleared in the second. *)
Definition set_closed (cs : list sref) (s : st) : bool * st :=
  let vs := wire_vertices s cs in
  let s1 := fold_left (fun s v => put_nedges S v s) vs s in
  fold_left (fun (acc : bool * st) v =>
               (fst acc && Nat.even (nedges (snd acc) v), put_nedges (fun _ => 0) v (snd acc)))
            (keys vs []) (true, s1).
(** brep_writer.py lines 509-517. *)
Definition set_flag (i : nat) (b : bool) (f : list bool) : list bool := update f i b.

(** Wire.__init__, lines 698-704. *)
Definition make_wire (cs : list sref) (s : st) : option st :=
  match make_shape Wi cs 0 (0, 0, 0)%Q s with
  | None => None
  | Some x =>
    let (c, s) := set_closed cs s in
    Some (new_shape (with_flags (set_flag 4 c (s_flags x)) x) s)
  end.
(** is_closed, lines 594-595. *)
Definition is_closed (s : st) (w : nat) : bool :=
  match get_shape s w with Some y => nth 4 (s_flags y) false | None => false end.
(** Face.__init__, lines 734-769. *)
Definition make_face (cs : list sref) (surf : option nat) (l : nat) (tol : Q) (s : st) : option st :=
  match cs with
  | [] => None
  | r0 :: _ =>
    match make_shape Fa cs tol (0, 0, 0)%Q s, get_shape s (r_shape r0) with
    | Some x, Some y0 =>
      if negb (forallb (fun r => match get_shape s (r_shape r) with
                                 | Some y => kind_eqb (s_kind y) (s_kind y0)
                                 | None => false end) cs) then None
      else
        match (match s_kind y0 with
               | Ed => match make_wire cs s with
                       | Some s' => Some (s', [SRef (length (h_sh (hp s))) Forward 0])
                       | None => None
                       end
               | _ => Some (s, cs)
               end) with
        | None => None
        | Some (s, cs) =>
          if negb (forallb (fun r => is_closed s (r_shape r)) cs) then None
          else
            match surf with
            | None => Some (new_shape (with_childs cs x) s)
            | Some sf =>
              if (sf <? length (h_s (hp s))) && (l <? length (h_loc (hp s)))
              then Some (new_shape (with_repr [RF sf l] (with_childs cs x)) s) else None
            end
        end
    | _, _ => None
    end
  end.

(** Calls of the public functions. [near] tells whether _eval_check accepts. *)
(** Public functions of brep_writer.py lines 59-1088. *)
Inductive op :=
  | NewLocation (m : option (list (list Q)))       (* 65-79 *)
  | NewComposed (l : list (nat * Z))               (* 104-114 *)
  | NewCurve2D (n : nat)                           (* 221 *)
  | NewCurve3D (n : nat)                           (* 165 *)
  | NewSurface (n : nat)                           (* 288 *)
  | NewVertex (p : point) (tol : Q)                (* 972-992 *)
  | NewEdge (a b : sref) (tol : Q)                 (* 850-866 *)
  | NewWire (cs : list sref)                       (* 698-704 *)
  | NewFace (cs : list sref) (surf : option nat) (l : nat) (tol : Q)  (* 734-769 *)
  | NewGroup (k : kind) (cs : list sref)           (* Shell, Solid, CompoundSolid, Compound *)
  | Append (o : nat) (r : sref)                    (* 570-580 *)
  | SetFlags (o : nat) (f : list bool)             (* 585-591 *)
  | SetEdgeFlags (o : nat) (f : Z * Z * Z)         (* 868-876 *)
  | Attach3 (near : bool) (o : nat) (t0 t1 : Q) (c l : nat)       (* 884, 994 *)
  | Attach2 (near : bool) (o : nat) (t0 t1 : Q) (c sf l : nat)    (* 897, 1005 *)
  | AttachS (near : bool) (o : nat) (u v : Q) (sf l : nat)        (* 1017 *)
  | Write (root l : nat)                           (* write_model *)
  | Repr (root : nat).                             (* __repr__ 626-640 *)

(** check_matrix(matrix, [3, 4], ...), line 78. *)
Definition matrix34 (m : list (list Q)) : bool :=
  (length m =? 3) && forallb (fun r => length r =? 4) m.
(** Arguments exist, brep_writer.py lines 59-1088. *)
Definition has {A} (l : list A) (o : nat) : bool := o <? length l.

(** One call of a function of brep_writer.py lines 59-1088. *)
Definition step (c : op) (s : st) : option st :=
  let h := hp s in
  match c with
  | NewLocation None => Some (new_loc LIdent s)
  | NewLocation (Some m) => if matrix34 m then Some (new_loc (LMat m) s) else None
  | NewComposed l =>
    (* line 109: zip( * []) has nothing to unpack *)
    if negb (length l =? 0) && forallb (fun p => has (h_loc h) (fst p)) l
    then Some (new_loc (LComp l) s) else None
  | NewCurve2D n => Some (new_c2 (Given n) s)
  | NewCurve3D n => Some (new_c3 (Given n) s)
  | NewSurface n => Some (new_s (Given n) s)
  | NewVertex p tol =>
    match make_shape Ve [] tol p s with Some x => Some (new_shape x s) | None => None end
  | NewEdge a b tol =>
    (* lines 865-866: the orientations are overwritten *)
    match make_shape Ed [SRef (r_shape a) Forward (r_loc a); SRef (r_shape b) Reversed (r_loc b)]
                     tol (0, 0, 0)%Q s with
    | Some x => Some (new_shape x s)
    | None => None
    end
  | NewWire cs => make_wire cs s
  | NewFace cs surf l tol => make_face cs surf l tol s
  | NewGroup k cs =>
    match k with
    | Co | Cs | So | Sh =>
      match make_shape k cs 0 (0, 0, 0)%Q s with Some x => Some (new_shape x s) | None => None end
    | _ => None
    end
  | Append o r =>
    match get_shape s o with
    | Some x => if ref_ok (s_kind x) s r
                then Some (set_shape o (with_childs (s_childs x ++ [r]) x) s) else None
    | None => None
    end
  | SetFlags o f =>
    match get_shape s o with
    | Some x => if length f =? 7 then Some (set_shape o (with_flags f x) s) else None
    | None => None
    end
  | SetEdgeFlags o f =>
    match get_shape s o with
    | Some x => match s_kind x with Ed => Some (set_shape o (with_eflags f x) s) | _ => None end
    | None => None
    end
  | Attach3 near o t0 t1 c l =>
    match get_shape s o with
    | Some x =>
      match s_kind x with
      | Ed | Ve => if near && has (h_c3 h) c && has (h_loc h) l
                   then add_repr o (R3 t0 t1 c l) s else None
      | _ => None
      end
    | None => None
    end
  | Attach2 near o t0 t1 c sf l =>
    match get_shape s o with
    | Some x =>
      match s_kind x with
      | Ed | Ve => if near && has (h_c2 h) c && has (h_s h) sf && has (h_loc h) l
                   then add_repr o (R2 t0 t1 c sf l) s else None
      | _ => None
      end
    | None => None
    end
  | AttachS near o u v sf l =>
    match get_shape s o with
    | Some x =>
      match s_kind x with
      | Ve => if near && has (h_s h) sf && has (h_loc h) l
              then add_repr o (RS u v sf l) s else None
      | _ => None
      end
    | None => None
    end
  | Write root l => option_map snd (write_model root l s)
  | Repr root =>
    (* lines 627-628; only the numbering is an effect *)
    match ids s SH root with Some _ => Some s | None => index_all root 0 s end
  end.
(** A history of calls none of which raises. *)
(** A sequence of calls of functions of brep_writer.py lines 59-1088. *)
Fixpoint run (cs : list op) (s : st) : option st :=
  match cs with
  | [] => Some s
  | c :: cs => match step c s with Some s => run cs s | None => None end
  end.
