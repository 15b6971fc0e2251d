(** Specification of a BREP file: a sequential reader that turns the records into a
    tree, the tree of a shape in the heap, and the objects a shape depends on. *)
From Coq Require Import List Arith Bool ZArith QArith Relations.
From Verif Require Import Brep_Model.
Import ListNotations.
Local Open Scope nat_scope.
Local Open Scope list_scope.

(** * Trees: a shape with everything it refers to *)
Inductive ltree := TId | TMat (rows : list (list Q)) | TComp (l : list (ltree * Z)).
Inductive etree :=
  | T2 (curve surf : geom) (l : ltree) (t0 t1 : Q)
  | T3 (curve : geom) (l : ltree) (t0 t1 : Q).
Inductive tsub :=
  | TNone
  | TF (restriction : nat) (tol : Q) (surf : geom) (l : ltree)
  | TE (tol : Q) (eflags : Z * Z * Z) (reprs : list etree)
  | TV (tol : Q) (p : point).
Inductive stree := TS (k : kind) (sub : tsub) (flags : list bool)
                      (childs : list (orient * stree * ltree)).

(** * The reader *)
(** Number 0 is the identity, other numbers count the records from 1. *)
Definition find_loc (tbl : list ltree) (n : nat) : option ltree :=
  match n with 0 => Some TId | S n => nth_error tbl n end.
Definition find_rec {A} (tbl : list A) (n : nat) : option A :=
  match n with 0 => None | S n => nth_error tbl n end.
(** Pairs (number, power) up to the closing 0. A 0 before the end would close the
    record too early. *)
Fixpoint read_powers (tbl : list ltree) (tokens : list Z) : option (list (ltree * Z)) :=
  match tokens with
  | [z] => if (z =? 0)%Z then Some [] else None
  | z :: p :: rest =>
    if (z <=? 0)%Z then None
    else match find_loc tbl (Z.to_nat z), read_powers tbl rest with
         | Some t, Some l => Some ((t, p) :: l)
         | _, _ => None
         end
  | [] => None
  end.
Definition read_loc (tbl : list ltree) (r : lrec) : option ltree :=
  match r with
  | L1 m => Some (TMat m)
  | L2 tokens => option_map TComp (read_powers tbl tokens)
  end.
(** A record may refer to the records read before it. *)
Fixpoint read_all {A B} (f : list B -> A -> option B) (tbl : list B) (l : list A) : option (list B) :=
  match l with
  | [] => Some tbl
  | x :: l => match f tbl x with Some y => read_all f (tbl ++ [y]) l | None => None end
  end.
Fixpoint read_list {A B} (f : A -> option B) (l : list A) : option (list B) :=
  match l with
  | [] => Some []
  | x :: l => match f x, read_list f l with Some y, Some m => Some (y :: m) | _, _ => None end
  end.
Section Reader.
  Variable f : file.
  Variable locs : list ltree.
  Definition read_repr (r : erec) : option etree :=
    match r with
    | E2 c sf l t0 t1 =>
      match find_rec (f_c2 f) c, find_rec (f_surfs f) sf, find_loc locs l with
      | Some c, Some sf, Some l => Some (T2 c sf l t0 t1)
      | _, _, _ => None
      end
    | E3 c l t0 t1 =>
      match find_rec (f_c3 f) c, find_loc locs l with
      | Some c, Some l => Some (T3 c l t0 t1)
      | _, _ => None
      end
    end.
  Definition read_sub (r : subrec) : option tsub :=
    match r with
    | SubNone => Some TNone
    | SubF n tol sf l =>
      match find_rec (f_surfs f) sf, find_loc locs l with
      | Some sf, Some l => Some (TF n tol sf l)
      | _, _ => None
      end
    | SubE tol ef rs => option_map (TE tol ef) (read_list read_repr rs)
    | SubV tol p => Some (TV tol p)
    end.
  (** The shapes are numbered down to 1, the first record has the number of records. *)
  Definition find_shape (tbl : list stree) (i : nat) : option stree :=
    if (1 <=? i) && (i <=? length (f_shapes f))
    then nth_error tbl (length (f_shapes f) - i) else None.
  Definition read_child (tbl : list stree) (c : orient * nat * nat) : option (orient * stree * ltree) :=
    match c with
    | (o, i, l) => match find_shape tbl i, find_loc locs l with
                   | Some t, Some l => Some (o, t, l)
                   | _, _ => None
                   end
    end.
  Definition read_shape (tbl : list stree) (r : srec) : option stree :=
    match read_sub (f_sub r), read_list (read_child tbl) (f_childs r) with
    | Some sub, Some cs => Some (TS (f_kind r) sub (f_flags r) cs)
    | _, _ => None
    end.
End Reader.
(** The closing line "+1 0" names shape 1. *)
Definition read (f : file) : option stree :=
  match read_all read_loc [] (f_locs f) with
  | None => None
  | Some locs =>
    match read_all (read_shape f locs) [] (f_shapes f) with
    | None => None
    | Some tbl => find_shape f tbl 1
    end
  end.

(** * The tree of a shape in the heap *)
Inductive loc_tree (h : heap) : nat -> ltree -> Prop :=
  | LT_id o : nth_error (h_loc h) o = Some LIdent -> loc_tree h o TId
  | LT_mat o m : nth_error (h_loc h) o = Some (LMat m) -> loc_tree h o (TMat m)
  | LT_comp o l l' : nth_error (h_loc h) o = Some (LComp l) ->
      Forall2 (fun p q => loc_tree h (fst p) (fst q) /\ snd p = snd q) l l' ->
      loc_tree h o (TComp l').
Inductive repr_tree (h : heap) : repr -> list etree -> Prop :=
  | RT2 t0 t1 c sf l gc gs tl : nth_error (h_c2 h) c = Some gc -> nth_error (h_s h) sf = Some gs ->
      loc_tree h l tl -> repr_tree h (R2 t0 t1 c sf l) [T2 gc gs tl t0 t1]
  | RT3 t0 t1 c l gc tl : nth_error (h_c3 h) c = Some gc -> loc_tree h l tl ->
      repr_tree h (R3 t0 t1 c l) [T3 gc tl t0 t1].
Inductive sub_tree (h : heap) (x : shape) : tsub -> Prop :=
  | ST_f sf l gs tl : s_kind x = Fa -> s_repr x = [RF sf l] -> nth_error (h_s h) sf = Some gs ->
      loc_tree h l tl -> sub_tree h x (TF 0 (s_tol x) gs tl)
  | ST_e rs : s_kind x = Ed -> s_repr x <> [] -> Forall2 (repr_tree h) (s_repr x) rs ->
      sub_tree h x (TE (s_tol x) (s_eflags x) (concat rs))
  | ST_v : s_kind x = Ve -> sub_tree h x (TV (s_tol x) (s_point x))
  | ST_none : s_kind x <> Fa -> s_kind x <> Ed -> s_kind x <> Ve -> sub_tree h x TNone.
Inductive shape_tree (h : heap) : nat -> stree -> Prop :=
  | ST o x sub cs : nth_error (h_sh h) o = Some x -> sub_tree h x sub ->
      Forall2 (fun r c => r_or r = fst (fst c) /\ shape_tree h (r_shape r) (snd (fst c)) /\
                          loc_tree h (r_loc r) (snd c)) (s_childs x) cs ->
      shape_tree h o (TS (s_kind x) sub (s_flags x) cs).

(** * Dependence of objects *)
Definition repr_refs (r : repr) : list (cls * nat) :=
  match r with
  | R2 _ _ c sf l => [(C2, c); (CS, sf); (CL, l)]
  | R3 _ _ c l => [(C3, c); (CL, l)]
  | RS _ _ _ _ => []
  | RF sf l => [(CS, sf); (CL, l)]
  end.
Definition shape_refs (x : shape) : list (cls * nat) :=
  flat_map (fun r => [(CL, r_loc r); (SH, r_shape r)]) (s_childs x) ++
  flat_map repr_refs (s_repr x).
Definition refs (h : heap) (c : cls) (o : nat) : list (cls * nat) :=
  match c with
  | SH => match nth_error (h_sh h) o with Some x => shape_refs x | None => [] end
  | CL => match nth_error (h_loc h) o with
          | Some (LComp l) => map (fun p => (CL, fst p)) l | _ => [] end
  | _ => []
  end.
(** Reachable from an object by following references. *)
Inductive reach (h : heap) (c0 : cls) (o0 : nat) : cls -> nat -> Prop :=
  | reach_refl : reach h c0 o0 c0 o0
  | reach_step c o c' o' : reach h c0 o0 c o -> In (c', o') (refs h c o) -> reach h c0 o0 c' o'.
(** Object [o] of class [c] is in one of the two things written. *)
Definition part (h : heap) (root l : nat) (c : cls) (o : nat) : Prop :=
  reach h SH root c o \/ reach h CL l c o.
Definition is_ident (h : heap) (c : cls) (o : nat) : Prop :=
  c = CL /\ nth_error (h_loc h) o = Some LIdent.
(** No object of the model has been numbered by an earlier call. *)
Definition unwritten (s : st) (root l : nat) : Prop :=
  forall c o, part (hp s) root l c o -> is_ident (hp s) c o \/ ids s c o = None.
(** No power of the identity among the composed locations of the model. *)
Definition no_identity_power (h : heap) (root l : nat) : Prop :=
  forall o ps p, part h root l CL o -> nth_error (h_loc h) o = Some (LComp ps) -> In p ps ->
                 nth_error (h_loc h) (fst p) <> Some LIdent.

(** * Default geometry *)
Definition point_at (h : heap) (v : nat) (p : point) : Prop :=
  exists y, nth_error (h_sh h) v = Some y /\ s_kind y = Ve /\ s_point y = p.
Definition pt_eq (p q : point) : Prop :=
  (fst (fst p) == fst (fst q) /\ snd (fst p) == snd (fst q) /\ snd p == snd q)%Q.
Definition pt_map (f : (point -> Q) -> Q) : point :=
  (f (fun p => fst (fst p)), f (fun p => snd (fst p)), f snd).
(** The point of a flat surface with given parameters. *)
Definition geom_at (g : geom) (w : uv) : option point :=
  let u := inject_Z (fst w) in
  let v := inject_Z (snd w) in
  match g with
  | Plane a b c => Some (pt_map (fun f => f a + u * (f b - f a) + v * (f c - f a)))%Q
  | Bilinear a b c d =>
    Some (pt_map (fun f => (1 - u) * (1 - v) * f a + u * (1 - v) * f b + u * v * f c + (1 - u) * v * f d))%Q
  | _ => None
  end.
(** The oriented ends of an edge reference. *)
Definition ends (h : heap) (r : sref) (a b : nat) : Prop :=
  exists y, nth_error (h_sh h) (r_shape r) = Some y /\
            map r_shape (s_childs y) = (if is_rev (r_or r) then [b; a] else [a; b]).
(** The references of the wires of a face to their edges. *)
Definition edges_of (h : heap) (x : shape) (es : list sref) : Prop :=
  exists ws, Forall2 (fun r w => nth_error (h_sh h) (r_shape r) = Some w) (s_childs x) ws /\
             es = flat_map s_childs ws.
(** The edges form one closed walk, the i-th edge leads to the i-th vertex. *)
Definition closed_walk (h : heap) (es : list sref) (vs : list nat) : Prop :=
  length es = length vs /\
  forall i r, nth_error es i = Some r ->
    ends h r (nth ((i + length vs - 1) mod length vs) vs 0) (nth i vs 0).
Definition two_ended (h : heap) (r : sref) : Prop := exists a b, ends h r a b.
(** The line between the vertices of edge [x]. *)
Definition has_line (h : heap) (x : shape) : Prop :=
  exists a b p q c, map r_shape (s_childs x) = [a; b] /\ point_at h a p /\ point_at h b q /\
    In (R3 0 1 c 0) (s_repr x) /\ nth_error (h_c3 h) c = Some (Line3 p q).
(** Edge [e] is drawn on surface number [sf], given by [g], as the line between the
    parameters of its first two vertices. *)
Definition drawn (h : heap) (sf : nat) (g : geom) (e : nat) : Prop :=
  exists y a b l c ua ub pa pb qa qb, nth_error (h_sh h) e = Some y /\
    map r_shape (s_childs y) = a :: b :: l /\ In (R2 0 1 c sf 0) (s_repr y) /\
    nth_error (h_c2 h) c = Some (Line2 ua ub) /\
    point_at h a pa /\ point_at h b pb /\ geom_at g ua = Some qa /\ geom_at g ub = Some qb /\
    pt_eq qa pa /\ pt_eq qb pb.
(** The surface of face [x] is the triangle or the bilinear quadrangle of the vertices of
    its boundary and the edges are drawn on it. *)
Definition has_patch (h : heap) (x : shape) : Prop :=
  exists es vs pts sf g, edges_of h x es /\ Forall2 (point_at h) vs pts /\
    (Forall (two_ended h) es -> closed_walk h es vs) /\
    s_repr x = [RF sf 0] /\ nth_error (h_s h) sf = Some g /\
    ((exists a b c, pts = [a; b; c] /\ g = Plane a b c) \/
     (exists a b c d, pts = [a; b; c; d] /\ g = Bilinear a b c d)) /\
    (forall r, In r es -> drawn h sf g (r_shape r)).
(** Every shape of the model either has its geometry or can get the default one. *)
Definition ready (h : heap) (root : nat) : Prop :=
  forall o x, reach h SH root SH o -> nth_error (h_sh h) o = Some x -> s_repr x = [] ->
    (s_kind x = Ed -> length (s_childs x) = 2) /\
    (s_kind x = Fa -> exists es vs, edges_of h x es /\ closed_walk h es vs /\
                                    (length vs = 3 \/ length vs = 4)).

(** * Closed wires *)
(** The vertices of the edges referred to, with repetitions. *)
Definition edge_ends (h : heap) (cs : list sref) : list nat :=
  flat_map (fun r => match nth_error (h_sh h) (r_shape r) with
                     | Some y => map r_shape (s_childs y) | None => [] end) cs.
Definition uses (h : heap) (cs : list sref) (v : nat) : nat := count_occ Nat.eq_dec (edge_ends h cs) v.
Definition evenly_used (h : heap) (cs : list sref) : Prop := forall v, Nat.Even (uses h cs v).

(** * Effect of writing *)
(** Nothing but geometry is added to the shapes: a shape keeps its attributes, edges get
    further representations and faces without a surface get one. *)
Record only_geometry (x x' : shape) : Prop := {
  og_kind : s_kind x' = s_kind x; og_childs : s_childs x' = s_childs x;
  og_flags : s_flags x' = s_flags x; og_tol : s_tol x' = s_tol x;
  og_point : s_point x' = s_point x; og_eflags : s_eflags x' = s_eflags x;
  og_repr : exists e, s_repr x' = s_repr x ++ e;
  og_where : s_repr x' = s_repr x \/ s_kind x = Ed \/ (s_kind x = Fa /\ s_repr x = []) }.
Record only_adds (h h' : heap) : Prop := {
  oa_loc : h_loc h' = h_loc h;
  oa_c2 : exists e, h_c2 h' = h_c2 h ++ e;
  oa_c3 : exists e, h_c3 h' = h_c3 h ++ e;
  oa_s : exists e, h_s h' = h_s h ++ e;
  oa_shapes : Forall2 only_geometry (h_sh h) (h_sh h') }.
(** Record [r] is about location [o], shape [o]. *)
Definition loc_record (h : heap) (o : nat) (r : lrec) : Prop :=
  match nth_error (h_loc h) o, r with
  | Some (LMat m), L1 m' => m = m'
  | Some (LComp ps), L2 tokens => length tokens = 2 * length ps + 1
  | _, _ => False
  end.
Definition shape_record (h : heap) (o : nat) (r : srec) : Prop :=
  exists x, nth_error (h_sh h) o = Some x /\ f_kind r = s_kind x /\ f_flags r = s_flags x /\
            map (fun c => fst (fst c)) (f_childs r) = map r_or (s_childs x).
(** The calls that number shapes. *)
Definition numbers (c : op) : bool := match c with Write _ _ | Repr _ => true | _ => false end.
