(** Model of src/bgem/gmsh/gmsh_io.py (class GmshIO), the ASCII format.

    A file is its text. Simplifications:
    - characters are those with codes below 256;
    - floating point numbers are an arbitrary type [F] with its conversions [str] and
      [float]; [int] accepts a sign and decimal digits;
    - binary files (lines 133-134, 140-146, 169-188, 223-252) are not modelled, reading one
      is the result [None] as is any raised exception;
    - messages printed to the console are left out. *)
From Coq Require Import List Arith Bool ZArith String Ascii DecimalString.
Import ListNotations.
Local Open Scope nat_scope.
Local Open Scope list_scope.

(** * Strings *)
(** Ends of lines in the text files opened by lines 97, 196 and 303. *)
Definition nl : ascii := "010"%char.
(** gmsh_io.py line 97. *)
Definition cr : ascii := "013"%char.
(** What a text file opened for reading (line 97) makes of carriage returns: \r\n and \r are \n. *)
Fixpoint newlines (s : string) : string :=
  match s with
  | EmptyString => EmptyString
  | String c r =>
    if Ascii.eqb c cr
    then match r with
         | String d _ => if Ascii.eqb d nl then newlines r else String nl (newlines r)
         | EmptyString => String nl EmptyString
         end
    else String c (newlines r)
  end.
(** str.isspace below 256. *)
Definition white (c : ascii) : bool :=
  let n := nat_of_ascii c in
  ((9 <=? n) && (n <=? 13)) || ((28 <=? n) && (n <=? 32)) || (n =? 133) || (n =? 160).
(** Successive results of readline, without the end of line. *)
(** gmsh_io.py lines 50-78, 103. *)
Fixpoint lines (s : string) : list string :=
  match s with
  | EmptyString => []
  | String c r =>
    if Ascii.eqb c nl then EmptyString :: lines r
    else match lines r with
         | [] => [String c EmptyString]
         | l :: ls => String c l :: ls
         end
  end.
(** str.split() *)
(** gmsh_io.py lines 50-66, 82, 122. *)
Fixpoint split (s : string) : list string :=
  match s with
  | EmptyString => []
  | String c r =>
    if white c then split r
    else match r with
         | String d _ =>
           if white d then String c EmptyString :: split r
           else match split r with w :: ws => String c w :: ws | [] => [String c EmptyString] end
         | EmptyString => [String c EmptyString]
         end
  end.
(** str.strip() and str.strip of quotes *)
(** gmsh_io.py lines 53, 104. *)
Fixpoint lstrip (p : ascii -> bool) (s : string) : string :=
  match s with
  | String c r => if p c then lstrip p r else s
  | EmptyString => EmptyString
  end.
(** gmsh_io.py lines 53, 104. *)
Fixpoint rstrip (p : ascii -> bool) (s : string) : string :=
  match s with
  | String c r => match rstrip p r with
                  | EmptyString => if p c then EmptyString else String c EmptyString
                  | r' => String c r'
                  end
  | EmptyString => EmptyString
  end.
(** gmsh_io.py lines 53, 104. *)
Definition strip (s : string) : string := rstrip white (lstrip white s).
(** gmsh_io.py lines 53, 277. *)
Definition quote : ascii := """"%char.
(** gmsh_io.py line 53. *)
Definition strip_quotes (s : string) : string :=
  rstrip (Ascii.eqb quote) (lstrip (Ascii.eqb quote) s).
(** str.startswith('$') *)
(** gmsh_io.py lines 80, 106. *)
Definition dollar (s : string) : bool :=
  match s with String c _ => Ascii.eqb c "$"%char | EmptyString => false end.
(** ' '.join *)
(** gmsh_io.py lines 212, 219-220, 288. *)
Fixpoint join (l : list string) : string :=
  match l with
  | [] => EmptyString
  | [s] => s
  | s :: l => (s ++ " " ++ join l)%string
  end.
(** str(int), '%d' and int(str) *)
(** gmsh_io.py lines 202-220, 289. *)
Definition show_int (z : Z) : string := NilZero.string_of_int (Z.to_int z).
(** gmsh_io.py lines 51-68, 125, 129-131, 139, 153. *)
Definition parse_int (s : string) : option Z := option_map Z.of_int (NilZero.int_of_string s).

(** gmsh_io.py lines 84, 139, 153. *)
Fixpoint mapo {A B} (f : A -> option B) (l : list A) : option (list B) :=
  match l with
  | [] => Some []
  | x :: l => match f x, mapo f l with Some y, Some m => Some (y :: m) | _, _ => None end
  end.

(** * Dictionaries *)
Section Dict.
  Variable K V : Type.
  Variable eqb : K -> K -> bool.
  (** d.get(k) *)
  (** gmsh_io.py lines 204, 211, 217. *)
  Fixpoint get (k : K) (d : list (K * V)) : option V :=
    match d with
    | [] => None
    | (k', v) :: d => if eqb k k' then Some v else get k d
    end.
  (** d[k] = v *)
  (** gmsh_io.py lines 86, 125, 139, 168. *)
  Fixpoint put (k : K) (v : V) (d : list (K * V)) : list (K * V) :=
    match d with
    | [] => [(k, v)]
    | (k', v') :: d => if eqb k k' then (k', v) :: d else (k', v') :: put k v d
    end.
End Dict.
Arguments get {K V} eqb k d.
Arguments put {K V} eqb k v d.
(** sorted(d.keys()) with the values. *)
Section Sort.
  Variable A : Type.
  Variable leb : A -> A -> bool.
  (** gmsh_io.py lines 203, 210, 216. *)
  Fixpoint insert (x : A) (l : list A) : list A :=
    match l with
    | [] => [x]
    | y :: l => if leb x y then x :: y :: l else y :: insert x l
    end.
  (** gmsh_io.py lines 203, 210, 216. *)
  Fixpoint sorted (l : list A) : list A :=
    match l with [] => [] | x :: l => insert x (sorted l) end.
End Sort.
Arguments sorted {A} leb l.

Section IO.
Variable F : Type.
Variable show_float : F -> string.
Variable parse_float : string -> option F.

(** Values of the dicts elements and element_data. *)
(** gmsh_io.py line 168. *)
Definition elem := (Z * list Z * list Z)%type.
(** gmsh_io.py lines 76-86. *)
Definition rows := list (string * list F).
(** gmsh_io.py lines 74-77. *)
Definition times := list (Z * (F * rows)).
(** Lines 41-46. *)
Record mesh := Mesh {
  nodes : list (Z * list F);
  elements : list (Z * elem);
  physical : list (string * (Z * Z));
  element_data : list (string * times) }.
(** gmsh_io.py lines 41-46. *)
Definition reset : mesh := Mesh [] [] [] [].

(** * Writing *)
(** print and write, gmsh_io.py lines 201-221, 284-291. *)
Definition out (s : string) : string := (s ++ String nl EmptyString)%string.
(** print and write, gmsh_io.py lines 201-221, 284-291. *)
Definition out_all (l : list string) : string := fold_right (fun s t => (out s ++ t)%string) EmptyString l.
(** Line 206: '%d %d %s' *)
Definition name_line (p : string * (Z * Z)) : string :=
  let '(name, (id, dim)) := p in (show_int dim ++ " " ++ show_int id ++ " " ++ name)%string.
(** Lines 211-212 *)
Definition node_line (p : Z * list F) : string :=
  (show_int (fst p) ++ " " ++ join (map show_float (snd p)))%string.
(** Lines 216-220 *)
Definition elem_line (p : Z * elem) : string :=
  let '(id, (type, tags, ns)) := p in
  (show_int id ++ " " ++ show_int type ++ " " ++ show_int (Z.of_nat (List.length tags)) ++ " " ++
   join (map show_int tags) ++ " " ++ join (map show_int ns))%string.
(** gmsh_io.py lines 202, 209, 215, 281-282. *)
Definition count_line {A} (l : list A) : string := show_int (Z.of_nat (List.length l)).
(** gmsh_io.py lines 210, 216. *)
Definition by_int {A} (p q : Z * A) : bool := (fst p <=? fst q)%Z.
(** gmsh_io.py line 203. *)
Definition by_name {A} (p q : string * A) : bool := String.leb (fst p) (fst q).
(** write_ascii, lines 195-221 *)
Definition write_ascii (m : mesh) : string :=
  out_all (
    ["$MeshFormat"; "2.2 0 8"; "$EndMeshFormat"; "$PhysicalNames"; count_line (physical m)]%string
    ++ map name_line (sorted by_name (physical m))
    ++ ["$EndPhysicalNames"; "$Nodes"; count_line (nodes m)]%string
    ++ map node_line (sorted by_int (nodes m))
    ++ ["$EndNodes"; "$Elements"; count_line (elements m)]%string
    ++ map elem_line (sorted by_int (elements m))
    ++ ["$EndElements"]%string).
(** write_element_data, lines 254-291: [ids] are the element ids, [values] the rows of the
    array, [ncomp] its second dimension. values[0] raises for an empty array; an array has
    rows of equal length. *)
Definition row_line (p : Z * list F) : string :=
  (show_int (fst p) ++ " " ++ join (map show_float (snd p)))%string.
(** gmsh_io.py lines 254-291. *)
Definition element_data_lines (ids : list Z) (name : string) (values : list (list F)) : option (list string) :=
  match values with
  | [] => None
  | v0 :: _ =>
    if forallb (fun r => List.length r =? List.length v0) values
    then Some (["$ElementData"; "1"]%string ++
               [String quote (name ++ String quote EmptyString)]%string ++
               ["1"; "0"; "3"; "0"]%string ++
               [count_line v0; count_line values] ++
               map row_line (combine ids values) ++ ["$EndElementData"]%string)
    else None
  end.
(** write_fields, lines 293-306, with a file name. *)
Fixpoint fields_lines (ids : list Z) (fields : list (string * list (list F))) : option (list string) :=
  match fields with
  | [] => Some []
  | (name, values) :: fields =>
    match element_data_lines ids name values, fields_lines ids fields with
    | Some a, Some b => Some (a ++ b)
    | _, _ => None
    end
  end.
(** gmsh_io.py lines 293-306. *)
Definition write_fields (ids : list Z) (fields : list (string * list (list F))) : option string :=
  option_map (fun l => out_all (["$MeshFormat"; "2.2 0 8"; "$EndMeshFormat"]%string ++ l)) (fields_lines ids fields).

(** * Reading *)
(** readline: the empty string at the end of the file. *)
(** gmsh_io.py lines 50-78, 103. *)
Definition readline (ls : list string) : string * list string :=
  match ls with [] => (EmptyString, []) | l :: ls => (l, ls) end.
(** columns[0] of a line and its conversion *)
Definition first (s : string) : option string := hd_error (split s).
(** gmsh_io.py lines 51, 56, 61-68. *)
Definition first_int (s : string) : option Z :=
  match first s with Some c => parse_int c | None => None end.
(** gmsh_io.py line 59. *)
Definition first_float (s : string) : option F :=
  match first s with Some c => parse_float c | None => None end.
(** read_element_data_head, lines 48-70: name, time, time index, components, elements. *)
Definition read_head (ls : list string) : option ((string * F * Z * Z * Z) * list string) :=
  let (l1, ls) := readline ls in
  let (l2, ls) := readline ls in
  let (l3, ls) := readline ls in
  let (l4, ls) := readline ls in
  let (l5, ls) := readline ls in
  let (l6, ls) := readline ls in
  let (l7, ls) := readline ls in
  let (l8, ls) := readline ls in
  match first_int l1, first_int l3, first_float l4, first_int l5, first_int l6, first_int l7, first_int l8 with
  | Some 1%Z, Some 1%Z, Some time, Some 3%Z, Some idx, Some ncomp, Some nel =>
    Some ((strip_quotes (strip l2), time, idx, ncomp, nel), ls)
  | _, _, _, _, _, _, _ => None
  end.
(** Loop of lines 78-86. *)
Fixpoint read_rows (n : nat) (ncomp : Z) (d : rows) (ls : list string) : option (rows * list string) :=
  match n with
  | 0 => Some (d, ls)
  | S n =>
    let (l, ls) := readline ls in
    if dollar l then None
    else match split l with
         | [] => None
         | iel :: cols =>
           match mapo parse_float cols with
           | None => None
           | Some vs => if (Z.of_nat (List.length vs) =? ncomp)%Z
                        then read_rows n ncomp (put String.eqb iel vs d) ls else None
           end
         end
  end.
(** read_element_data_block, lines 72-86. *)
Definition read_block (m : mesh) (ls : list string) : option (mesh * list string) :=
  match read_head ls with
  | None => None
  | Some ((field, time, idx, ncomp, nel), ls) =>
    let ts := match get String.eqb field (element_data m) with Some ts => ts | None => [] end in
    match get Z.eqb idx ts with
    | Some _ => None
    | None =>
      match read_rows (Z.to_nat nel) ncomp [] ls with
      | None => None
      | Some (d, ls) =>
        Some (Mesh (nodes m) (elements m) (physical m)
                   (put String.eqb field (put Z.eqb idx (time, d) ts) (element_data m)), ls)
      end
    end
  end.
(** Values of [readmode]. *)
(** readmode, gmsh_io.py lines 99-120. *)
Inductive mode := M0 | MNodes | MElm | MElements | MFormat | MNames.
(** gmsh_io.py line 139. *)
Definition set_nodes n (m : mesh) : mesh := Mesh n (elements m) (physical m) (element_data m).
(** gmsh_io.py line 168. *)
Definition set_elements e (m : mesh) : mesh := Mesh (nodes m) e (physical m) (element_data m).
(** gmsh_io.py line 125. *)
Definition set_physical p (m : mesh) : mesh := Mesh (nodes m) (elements m) p (element_data m).
(** Lines 106-120: a line starting with $. *)
Definition section_line (line : string) (md : mode) (m : mesh) (ls : list string) : option (mode * mesh * list string) :=
  if (String.eqb line "$NOD" || String.eqb line "$Nodes")%string then Some (MNodes, m, ls)
  else if String.eqb line "$ELM" then Some (MElm, m, ls)
  else if String.eqb line "$Elements" then Some (MElements, m, ls)
  else if String.eqb line "$MeshFormat" then Some (MFormat, m, ls)
  else if String.eqb line "$PhysicalNames" then Some (MNames, m, ls)
  else if String.eqb line "$ElementData" then
    match read_block m ls with Some (m, ls) => Some (md, m, ls) | None => None end
  else Some (M0, m, ls).
(** Lines 136-149: a node; ftype must have been read. *)
Definition node_columns (ft : option Z) (cols : list string) (m : mesh) : option (mode * mesh) :=
  match ft with
  | Some 0%Z =>
    match cols with
    | [c0; c1; c2; c3] =>
      match parse_int c0, mapo parse_float [c1; c2; c3] with
      | Some i, Some xs => Some (MNodes, set_nodes (put Z.eqb i xs (nodes m)) m)
      | _, _ => Some (M0, m)
      end
    | _ => Some (MNodes, m)
    end
  | _ => None
  end.
(** Lines 150-168: an element. *)
Definition elem_columns (md : mode) (ft : option Z) (cols : list string) (m : mesh) : option (mode * mesh) :=
  match ft with
  | Some 0%Z =>
    if 5 <? List.length cols
    then match mapo parse_int cols with
         | None => Some (M0, m)
         | Some cs =>
           let id := nth 0 cs 0%Z in
           let type := nth 1 cs 0%Z in
           (* slices columns[3:3+ntags], columns[3+ntags:] of Python for ntags >= -3 *)
           let (tags, ns) :=
             match md with
             | MElm => (firstn 2 (skipn 2 cs), skipn 5 cs)
             | _ => let n := Z.to_nat (3 + nth 2 cs 0%Z) in
                    (skipn 3 (firstn n cs), skipn n cs)
             end in
           Some (md, set_elements (put Z.eqb id (type, tags, ns) (elements m)) m)
         end
    else Some (md, m)
  | _ => None
  end.
(** Lines 121-168: a line of data in a section. *)
Definition data_line (line : string) (md : mode) (ft : option Z) (m : mesh) : option (mode * option Z * mesh) :=
  let cols := split line in
  match md with
  | M0 => Some (M0, ft, m)
  | MNames =>
    match (match cols with
           | [c0; c1; c2] =>
             match parse_int c1, parse_int c0 with
             | Some i, Some d => Some (set_physical (put String.eqb c2 (i, d) (physical m)) m)
             | _, _ => None
             end
           | _ => Some m
           end), ft with
    | Some m, Some _ => Some (MNames, ft, m)      (* line 150 looks at ftype *)
    | _, _ => None
    end
  | MFormat =>
    match cols with
    | [c0; c1; c2] =>
      match parse_float c0, parse_int c1, parse_int c2 with
      | Some _, Some 0%Z, Some _ => Some (MFormat, Some 0%Z, m)
      | _, _, _ => None
      end
    | _ => None
    end
  | MNodes => match node_columns ft cols m with Some (md, m) => Some (md, ft, m) | None => None end
  | MElm | MElements => match elem_columns md ft cols m with Some (md, m) => Some (md, ft, m) | None => None end
  end.
(** The loop of lines 102-188. *)
Fixpoint read_loop (fuel : nat) (md : mode) (ft : option Z) (m : mesh) (ls : list string) : option mesh :=
  match fuel with
  | 0 => None
  | S fuel =>
    let (l, ls) := readline ls in
    let line := strip l in
    match (if dollar line
           then match section_line line md m ls with
                | Some (md, m, ls) => Some (md, ft, m, ls) | None => None end
           else match data_line line md ft m with
                | Some (md, ft, m) => Some (md, ft, m, ls) | None => None end) with
    | None => None
    | Some (md, ft, m, ls) =>
      if String.eqb line EmptyString then Some m else read_loop fuel md ft m ls
    end
  end.
(** read, lines 89-193. Every pass of the loop but the last one takes a line. *)
Definition read (m : mesh) (text : string) : option mesh :=
  let ls := lines (newlines text) in read_loop (S (List.length ls)) M0 None m ls.
End IO.
Arguments Mesh {F}.
Arguments nodes {F}. Arguments elements {F}. Arguments physical {F}. Arguments element_data {F}.
