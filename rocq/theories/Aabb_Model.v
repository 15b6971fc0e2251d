(** Model of src/bgem/polygons/aabb_lookup.py. Coordinates are exact rationals;
    every finite double is one, and the queries of this module only compare, add
    and subtract. *)
From Coq Require Import List QArith Qminmax Bool Arith.
Import ListNotations.
Open Scope Q_scope.

(** Point [x, y] and box [min_x, min_y, max_x, max_y]. *)
(** aabb_lookup.py lines 18, 71. *)
Definition pt := (Q * Q)%type.
(** aabb_lookup.py line 20; a row of the table, line 32. *)
Record box := Box { bx0 : Q; by0 : Q; bx1 : Q; by1 : Q }.

(** make_aabb, lines 15-26; None is the ValueError of np.min on no points. *)
Definition make_aabb (points : list pt) (margin : Q) : option box :=
  match points with
  | [] => None
  | p :: ps =>
      let b := fold_left (fun b q => Box (Qmin (bx0 b) (fst q)) (Qmin (by0 b) (snd q))
                                         (Qmax (bx1 b) (fst q)) (Qmax (by1 b) (snd q)))
                         ps (Box (fst p) (snd p) (fst p) (snd p)) in
      if Qle_bool margin 0 then Some b
      else Some (Box (bx0 b - margin) (by0 b - margin) (bx1 b + margin) (by1 b + margin))
  end.

(** AABB_Lookup.__init__, lines 29-42. n_added, n_removed only serve a warning
    and are not modelled. *)
Record lookup := Lookup { l_inf : Q; l_n : nat; l_rows : list box }.
(** aabb_lookup.py lines 32, 55, 65: a row filled by self.inf. *)
Definition inf_row (i : Q) : box := Box i i i i.
(** aabb_lookup.py lines 29-42. *)
Definition lookup_init (i : Q) (init_size : nat) : lookup :=
  Lookup i 0 (repeat (inf_row i) init_size).

(** The loop of add_object, lines 53-56: double the table until it has row id;
    None when the fuel is used up. *)
Fixpoint grow (fuel : nat) (i : Q) (rows : list box) (id : nat) : option (list box) :=
  if Nat.ltb id (length rows) then Some rows
  else match fuel with
       | O => None
       | S f => grow f i (rows ++ repeat (inf_row i) (length rows)) id
       end.

(** Assignment to one row of the table. *)
(** aabb_lookup.py lines 58, 65. *)
Fixpoint set_row (rows : list box) (id : nat) (b : box) : list box :=
  match rows, id with
  | [], _ => []
  | _ :: rs, O => b :: rs
  | r :: rs, S k => r :: set_row rs k b
  end.

(** add_object, lines 44-58. *)
Definition add_object (l : lookup) (id : nat) (b : box) : option lookup :=
  match grow (S id) (l_inf l) (l_rows l) id with
  | None => None
  | Some rows => Some (Lookup (l_inf l) (Nat.max (l_n l) (S id)) (set_row rows id b))
  end.

(** rm_object, lines 60-65; None is the IndexError of line 65. *)
Definition rm_object (l : lookup) (id : nat) : option lookup :=
  if Nat.ltb id (length (l_rows l))
  then Some (Lookup (l_inf l) (l_n l) (set_row (l_rows l) id (inf_row (l_inf l))))
  else None.

(** Line 77 for one row: signed L-infinity distance of the point to the box. *)
Definition inf_dist (p : pt) (b : box) : Q :=
  Qmax (Qmax (bx0 b - fst p) (fst p - bx1 b)) (Qmax (by0 b - snd p) (snd p - by1 b)).

(** Line 88 for one row: largest L-infinity distance of the point to the box. *)
Definition far_dist (p : pt) (b : box) : Q :=
  Qmax (Qmax (fst p - bx0 b) (bx1 b - fst p)) (Qmax (snd p - by0 b) (by1 b - snd p)).

(** np.max of a non-empty list. *)
(** aabb_lookup.py line 88. *)
Definition list_max_q (x : Q) (l : list Q) : Q := fold_left Qmax l x.

(** np.argmin: first index of a minimal value. *)
(** aabb_lookup.py line 80. *)
Fixpoint argmin_aux (l : list Q) (i best : nat) (v : Q) : nat * Q :=
  match l with
  | [] => (best, v)
  | x :: l' => if Qle_bool v x then argmin_aux l' (S i) best v else argmin_aux l' (S i) i x
  end.
(** aabb_lookup.py line 80, with the minimum of line 78. *)
Definition argmin (l : list Q) : option (nat * Q) :=
  match l with [] => None | x :: l' => Some (argmin_aux l' 1 0 x) end.

(** np.where: indices of the rows satisfying a test, increasing. *)
(** aabb_lookup.py lines 84, 92, 104. *)
Definition where_ {A} (f : A -> bool) (l : list A) : list nat :=
  map fst (filter (fun ix => f (snd ix)) (combine (seq 0 (length l)) l)).

(** a < sqrt(2)*b, lines 91-92, decided through squares. *)
Definition lt_sqrt2 (a b : Q) : bool :=
  if Qle_bool 0 a
  then negb (Qle_bool b 0) && negb (Qle_bool (2 * (b * b)) (a * a))
  else Qle_bool 0 b || negb (Qle_bool (a * a) (2 * (b * b))).

(** rows picked by a list of indices, as by numpy fancy indexing (IndexError =
    None). *)
(** aabb_lookup.py line 84. *)
Fixpoint pick (rows : list box) (is : list nat) : option (list box) :=
  match is with
  | [] => Some []
  | i :: is' => match nth_error rows i, pick rows is' with
                | Some r, Some rs => Some (r :: rs)
                | _, _ => None
                end
  end.

(** closest_candidates, lines 67-92. None stands for the exceptions of lines 78,
    84 and 85. *)
Definition closest_candidates (l : lookup) (p : pt) : option (list nat) :=
  match l_n l with
  | O => Some []
  | _ =>
      let boxes := firstn (l_n l) (l_rows l) in
      let dists := map (inf_dist p) (l_rows l) in
      match argmin dists with
      | None => None
      | Some (i_closest, dmin) =>
          let c_boxes :=
            if negb (Qle_bool dmin 0)
            then Some (firstn 1 (skipn i_closest boxes))
            else pick boxes (where_ (fun d => Qle_bool d 0) dists) in
          match c_boxes with
          | None => None
          | Some [] => None
          | Some (c :: cs) =>
              let m := list_max_q (far_dist p c) (map (far_dist p) cs) in
              Some (where_ (fun d => lt_sqrt2 d m) dists)
          end
      end
  end.

(** Lines 101-104 for one row. *)
Definition not_intersect (q b : box) : bool :=
  (negb (Qle_bool (bx0 b) (bx1 q)) || negb (Qle_bool (bx0 q) (bx1 b)))
  || (negb (Qle_bool (by0 b) (by1 q)) || negb (Qle_bool (by0 q) (by1 b))).

(** intersect_candidates, lines 95-105. *)
Definition intersect_candidates (l : lookup) (q : box) : list nat :=
  where_ (fun b => negb (not_intersect q b)) (firstn (l_n l) (l_rows l)).

(** Calls of a user and a history; a raised IndexError leaves the table as it was.
    None: add_object does not return. *)
(** Calls of aabb_lookup.py lines 44 and 60. *)
Inductive lop := LAdd (id : nat) (b : box) | LRm (id : nat).
(** One call of aabb_lookup.py line 44 or 60. *)
Definition l_step (l : lookup) (o : lop) : option lookup :=
  match o with
  | LAdd id b => add_object l id b
  | LRm id => match rm_object l id with Some l' => Some l' | None => Some l end
  end.
(** A sequence of calls of aabb_lookup.py lines 44 and 60. *)
Fixpoint l_run (l : lookup) (ops : list lop) : option lookup :=
  match ops with
  | [] => Some l
  | o :: ops' => match l_step l o with Some l' => l_run l' ops' | None => None end
  end.
