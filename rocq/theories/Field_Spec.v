(** What gmsh computes from the settings of a field, after the docstrings of field.py; when
    options are accepted. *)
From stdpp Require Import gmap strings list.
From Coq Require Import ZArith QArith String.
From Verif Require Import Gmsh_Model Field_Model.
Local Open Scope nat_scope.
Local Notation length := List.length.

(** A point is in a box (field.py line 101). *)
Definition inside (a b p : Q * Q * Q) : bool :=
  let '(x, y, z) := p in let '(x0, y0, z0) := a in let '(x1, y1, z1) := b in
  Qle_bool x0 x && Qle_bool x x1 && (Qle_bool y0 y && Qle_bool y y1) && (Qle_bool z0 z && Qle_bool z z1).
(** The ramp of field.py lines 50-55: below, above, between. *)
Definition ramp (lower upper : Q * Q) (d : Q) : Q :=
  if Qle_bool d (fst lower) then snd lower
  else if Qle_bool (fst upper) d then snd upper
  else (snd lower + (d - fst lower) / (fst upper - fst lower) * (snd upper - snd lower))%Q.
(** The number of a field in a setting (field.py line 59). *)
Definition field_ref (q : Q) : option nat := if Qeq_bool q (inject_Z (Qnum q)) then (if (0 <=? Qnum q)%Z then Some (Z.to_nat (Qnum q)) else None) else None.
(** Least and greatest value (field.py lines 77, 88). *)
Fixpoint least (l : list Q) : option Q :=
  match l with [] => None | [v] => Some v | v :: l => match least l with Some w => Some (if Qle_bool v w then v else w) | None => None end end.
Fixpoint greatest (l : list Q) : option Q :=
  match l with [] => None | [v] => Some v | v :: l => match greatest l with Some w => Some (if Qle_bool v w then w else v) | None => None end end.
(** All answers or none. *)
Fixpoint all_some {A} (l : list (option A)) : option (list A) :=
  match l with [] => Some [] | Some a :: l => match all_some l with Some r => Some (a :: r) | None => None end | None :: _ => None end.
Section Value.
(** Distance of a point from the nodes or edges listed (field.py lines 11-42). *)
Context (dist : field -> Q * Q * Q -> Q).
(** Value of a field in a point; None: not determined by the docstrings. *)
Fixpoint value_in (n : nat) (fs : store) (i : nat) (p : Q * Q * Q) : option Q :=
  match n with
  | 0 => None
  | S n =>
    match fs !! i with
    | None => None
    | Some f =>
      let get k := f_num f !! k in
      if String.eqb (f_type f) "Box" then
        match get "XMin", get "YMin", get "ZMin", get "XMax", get "YMax", get "ZMax" with
        | Some x0, Some y0, Some z0, Some x1, Some y1, Some z1 => if inside (x0, y0, z0) (x1, y1, z1) p then get "VIn" else get "VOut"
        | _, _, _, _, _, _ => None
        end
      else if String.eqb (f_type f) "Min" then
        match f_list f !! "FieldsList" with Some l => match all_some (map (fun z => value_in n fs (Z.to_nat z) p) l) with Some vs => least vs | None => None end | None => None end
      else if String.eqb (f_type f) "Max" then
        match f_list f !! "FieldsList" with Some l => match all_some (map (fun z => value_in n fs (Z.to_nat z) p) l) with Some vs => greatest vs | None => None end | None => None end
      else if String.eqb (f_type f) "Threshold" then
        match get "IField" ≫= field_ref, get "DistMin", get "LcMin" with
        | Some j, Some d0, Some v0 =>
          match value_in n fs j p with
          | None => None
          | Some d =>
            if Qle_bool d d0 then Some v0
            else match get "DistMax", get "LcMax" with
                 | Some d1, Some v1 =>
                   if Qle_bool d1 d then Some v1
                   else match get "Sigmoid" with None => Some (ramp (d0, v0) (d1, v1) d) | Some _ => None end
                 | _, _ => None
                 end
          end
        | _, _, _ => None
        end
      else if String.eqb (f_type f) "Distance" then Some (dist f p)
      else None
    end
  end.
Definition value_at (fs : store) (i : nat) (p : Q * Q * Q) : option Q := value_in (S i) fs i p.
End Value.
(** The fields that a field refers to (field.py lines 59, 82, 93). *)
Definition refs (f : field) : list nat :=
  match f_num f !! "IField" ≫= field_ref with Some j => [j] | None => [] end ++
  match f_list f !! "FieldsList" with Some l => map Z.to_nat l | None => [] end.
(** Fields refer to fields made before. *)
Definition refs_ok (fs : store) : Prop := forall i f j, fs !! i = Some f -> j ∈ refs f -> j < i.

(** Options that can be set: numbers for numeric and enumeration types, strings for strings (options.py lines 117-127). *)
Definition fits (k : kind) (v : value) : Prop :=
  match v with VNum _ _ => k = KInt \/ k = KFloat \/ k = KBool \/ k = KEnum | VStr _ => k = KStr | _ => False end.
(** The value as gmsh gets it (options.py lines 122, 125). *)
Definition sent (v : value) : option stored := match v with VNum _ q => Some (SNum q) | VStr u => Some (SStr u) | _ => None end.
