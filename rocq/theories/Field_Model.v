(** Model of gmsh/field.py and gmsh/options.py: the settings given to gmsh.

    A field of gmsh is its type with the numbers and lists of numbers set for it; fields are
    numbered in the order of their creation. What gmsh computes from the settings is in
    Field_Spec.v. Numbers are rational; a sequence with less than the needed length raises in
    Python and is not modelled (points are triples, bounds pairs). *)
From stdpp Require Import gmap strings list.
From Coq Require Import ZArith QArith String.
From Verif Require Import Gmsh_Model.
Local Open Scope nat_scope.
Local Notation length := List.length.

(** * Fields *)
(** A field: type, setNumber, setNumbers; field.py lines 17-24. *)
Record field := Fld { f_type : string; f_num : gmap string Q; f_list : gmap string (list Z) }.
(** The fields of gmsh, field.py line 3. *)
Definition store : Type := list field.
(** gmsh_field.add, field.py lines 17, 34, 57. *)
Definition add (ty : string) (fs : store) : nat * store := (length fs, fs ++ [Fld ty ∅ ∅]).
(** gmsh_field.setNumber, field.py lines 21, 59. *)
Definition set_number (i : nat) (key : string) (v : Q) (fs : store) : store :=
  alter (fun f => Fld (f_type f) (<[key := v]> (f_num f)) (f_list f)) i fs.
(** gmsh_field.setNumbers, field.py lines 18, 35, 82. *)
Definition set_numbers (i : nat) (key : string) (v : list Z) (fs : store) : store :=
  alter (fun f => Fld (f_type f) (f_num f) (<[key := v]> (f_list f))) i fs.
(** The number of a field, as a setting (field.py lines 21, 59). *)
Definition num (i : nat) : Q := inject_Z (Z.of_nat i).
(** coordinate_fields of field.py lines 19-23, 37-41. *)
Definition set_coords (i : nat) (c : option (nat * nat * nat)) (fs : store) : store :=
  match c with
  | None => fs
  | Some (fx, fy, fz) => set_number i "FieldZ" (num fz) (set_number i "FieldY" (num fy) (set_number i "FieldX" (num fx) fs))
  end.
(** distance_nodes, field.py lines 11-24. *)
Definition distance_nodes (nodes : list Z) (c : option (nat * nat * nat)) (fs : store) : nat * store :=
  let '(i, fs) := add "Distance" fs in
  (i, set_coords i c (set_numbers i "NodesList" nodes fs)).
(** distance_edges, field.py lines 27-42. *)
Definition distance_edges (curves : list Z) (per : Q) (c : option (nat * nat * nat)) (fs : store) : nat * store :=
  let '(i, fs) := add "Distance" fs in
  (i, set_coords i c (set_number i "NNodesByEdge" per (set_numbers i "EdgesList" curves fs))).
(** threshold, field.py lines 45-72. (True is the number 1. An upper bound is a pair, which
    is true as a condition.) *)
Definition threshold (f : nat) (lower : Q * Q) (upper : option (Q * Q)) (sigmoid : bool) (fs : store) : nat * store :=
  let '(i, fs) := add "Threshold" fs in
  let fs := set_number i "IField" (num f) fs in
  let '(field_min, threshold_min) := lower in
  let fs := set_number i "LcMin" threshold_min (set_number i "DistMin" field_min fs) in
  let fs := match upper with
            | Some _ => let '(field_max, threshold_max) := lower in
                        set_number i "LcMax" threshold_max (set_number i "DistMax" field_max fs)
            | None => set_number i "StopAtDistMax" 1 fs
            end in
  (i, if sigmoid then set_number i "Sigmoid" 1 fs else fs).
(** min, field.py lines 75-83. *)
Definition min_field (l : list nat) (fs : store) : nat * store :=
  let '(i, fs) := add "Min" fs in (i, set_numbers i "FieldsList" (map Z.of_nat l) fs).
(** max, field.py lines 86-94. *)
Definition max_field (l : list nat) (fs : store) : nat * store :=
  let '(i, fs) := add "Max" fs in (i, set_numbers i "FieldsList" (map Z.of_nat l) fs).
(** box, field.py lines 97-114. *)
Definition box (pt_min pt_max : Q * Q * Q) (v_in v_out : Q) (fs : store) : nat * store :=
  let '(x, y, z) := pt_min in
  let '(x', y', z') := pt_max in
  let '(i, fs) := add "Box" fs in
  (i, set_number i "ZMin" z (set_number i "ZMax" z' (set_number i "YMin" y (set_number i "YMax" y'
      (set_number i "XMin" x (set_number i "XMax" x' (set_number i "VOut" v_out (set_number i "VIn" v_in fs)))))))).
(** The default of v_out, field.py line 97. *)
Definition huge : Q := inject_Z (10 ^ 300).
(** constant, field.py lines 117-122. *)
Definition constant (value radius : Q) (fs : store) : nat * store :=
  box (- radius, - radius, - radius)%Q (radius, radius, radius) value huge fs.
(** restrict, field.py lines 124-145; None: no field (lines 129-130). *)
Definition restrict (K : kernel) (f : nat) (os : list nat) (add_boundary : bool) (fs : store) : M (option nat * store) :=
  match os with
  | [] => ret (None, fs)
  | _ =>
    synchronize ;~
    (g <~ group os ;
     g <~ (if add_boundary then b <~ get_boundary K g false ; group [g; b] else ret g) ;
     ps <~ split_by_dimension g ;
     xs <~ each get_set ps ;
     match xs with
     | [points; edges; faces; volumes] =>
       let tags x := map snd (o_tags x) in
       let '(i, fs) := add "Restrict" fs in
       ret (Some i, set_numbers i "RegionsList" (tags volumes) (set_numbers i "FacesList" (tags faces)
                   (set_numbers i "EdgesList" (tags edges) (set_numbers i "VerticesList" (tags points) (set_number i "IField" (num f) fs)))))
     | _ => raise
     end)
  end.

(** * Options *)
(** Types of options, options.py lines 96-102, 121. *)
Inductive kind := KInt | KFloat | KBool | KEnum | KStr | KOther.
(** Values: numbers (members of an IntEnum are numbers), strings, types, others; options.py lines 96-102, 120-127. *)
Inductive value := VNum (k : kind) (q : Q) | VStr (u : string) | VType (k : kind) | VOther (k : kind).
(** What gmsh stores, options.py lines 122, 125. *)
Inductive stored := SNum (q : Q) | SStr (u : string).
(** An options object: prefix, names_map, the method _sa (true: after finish_init); options.py lines 76-86. *)
Record options := Opts { o_prefix : string; o_names : gmap string kind; o_done : bool }.
(** OptionsBase.__init__, options.py lines 76-81. *)
Definition new_options (prefix : string) : options := Opts prefix ∅ false.
(** finish_init, options.py lines 85-86. *)
Definition finish_init (o : options) : options := Opts (o_prefix o) (o_names o) true.
(** isinstance(value, (int, float, bool)) and the test of the type, options.py lines 120-121. *)
Definition numeric (k : kind) : bool := match k with KInt | KFloat | KBool | KEnum => true | _ => false end.
(** instance_setattr, options.py lines 116-127; None: an exception. *)
Definition instance_setattr (o : options) (key : string) (v : value) (g : gmap string stored) : option (gmap string stored) :=
  match o_names o !! key with
  | None => None
  | Some k =>
    match v with
    | VNum _ q => if numeric k then Some (<[(o_prefix o ++ key)%string := SNum q]> g) else None
    | VStr u => match k with KStr => Some (<[(o_prefix o ++ key)%string := SStr u]> g) | _ => None end
    | _ => None
    end
  end.
(** type(default), options.py lines 96-101. *)
Definition kind_of (v : value) : kind := match v with VNum k _ => k | VStr _ => KStr | VType k => k | VOther k => k end.
(** _add, options.py lines 89-102; an exception leaves the name defined. *)
Definition add_option (o : options) (key : string) (v : value) (g : gmap string stored) : options * option (gmap string stored) :=
  let o := Opts (o_prefix o) (<[key := kind_of v]> (o_names o)) (o_done o) in
  (o, match v with VType _ => Some g | _ => instance_setattr o key v g end).
(** __setattr__, options.py lines 104-105 with 108-112. *)
Definition setattr (o : options) (key : string) (v : value) (g : gmap string stored) : options * option (gmap string stored) :=
  if o_done o then (o, instance_setattr o key v g) else add_option o key v g.
(** A sequence of assignments; exceptions are caught by the caller (options.py lines 104-127). *)
Fixpoint assign (o : options) (l : list (string * value)) (g : gmap string stored) : options * gmap string stored :=
  match l with
  | [] => (o, g)
  | (key, v) :: l => let '(o, g') := setattr o key v g in assign o l (default g g')
  end.
