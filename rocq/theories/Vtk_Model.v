(** Model of the VTK reader of PolytopeSoup (src/mesh/polytope_soup.cpp:845-1145), on top of
    TextIo_Model. [checks] says whether assertions are enabled (UM2_ENABLE_ASSERTS). A logged error ends the program (exit_on_error,
    settings.hpp:29). The checks that the end pointer of strto is not null always succeed and are left out. *)
From Coq Require Import String Ascii.
From Coq Require Import List Arith ZArith Bool Reals.
From Verif Require Import Base Loops StringView_Model Elem_Model Soup_Model TextIo_Model.
Import ListNotations.
Local Open Scope list_scope.
Local Open Scope nat_scope.

Section Vtk.
Variable checks : bool.
(** the largest integer that is stored without loss: 2^52 for double, 2^23 for float (lines 1039-1055) *)
Variable max_int : Z.
Notation soupR := (soup (R * R * R) R).
Notation token := (sv * sv)%type.

Definition fuel_of (st : stream) : nat := S (length (rest st)).
(** [line_view.getTokenAndShrink()], the assertion that there is a token *)
Definition next_token (v : sv) : outcome token :=
  let* tv := getTokenAndShrink v SPACE in
  let* _ := ASSERT checks (negb (vsize (fst tv) =? 0)) in
  Ret tv.
Definition begins_with (v : sv) (s : string) : outcome bool := starts_with v (view (lit s)).

(** polytope_soup.cpp:890-910: one line of points; also the view as the loop leaves it *)
Definition point_line (line : list char) (s : soupR) : outcome (soupR * sv) :=
  let v := view_of line in
  let* tv := next_token v in
  let* x := strtod (tail (fst tv)) in
  let v := snd tv in
  let* tv := next_token v in
  let* y := strtod (tail (fst tv)) in
  let v := snd tv in
  let* z := strtod (tail v) in
  Ret (fst (addVertex s (x, y, z)), v).
(** polytope_soup.cpp:881-911; [v] is line_view *)
Fixpoint points_loop (fuel : nat) (s : soupR) (v : sv) (st : stream) : outcome (soupR * sv * stream) :=
  let '(line, st) := getline st in
  if failbit st then Ret (s, v, st)
  else
    match fuel with
    | O => OutOfFuel
    | S f =>
        if (first_char line =? 0)%Z then points_loop f s v st
        else
          let v := view_of line in
          let* b := begins_with v "CELLS" in
          if b then Ret (s, v, st)
          else
            let* r := point_line line s in
            points_loop f (fst r) (snd r) st
    end.
(** polytope_soup.cpp:949-956: the vertices of a cell *)
Fixpoint ids_loop (n : nat) (num_points : Z) (v : sv) : outcome (list Z) :=
  match n with
  | O => Ret []
  | S n' =>
      let* tv := next_token v in
      let* id := strto_int32 (tail (fst tv)) in
      let* _ := ASSERT checks (0 <=? id)%Z in
      let* _ := ASSERT checks (id <? num_points)%Z in
      let* conn := ids_loop n' num_points (snd tv) in
      Ret (id :: conn)
  end.
(** polytope_soup.cpp:938-960: one cell; a negative size is Ub *)
Definition cell_line (num_points : Z) (line : list char) (s : soupR) : outcome soupR :=
  let v := view_of line in
  let* tv := next_token v in
  let* num_verts := strto_int32 (tail (fst tv)) in
  let* _ := ASSERT checks (0 <? num_verts)%Z in
  if (num_verts <? 0)%Z then Ub
  else
    let* conn := ids_loop (Z.to_nat num_verts) num_points (snd tv) in
    let type := inferVTKElemType num_verts in
    let* _ := ASSERT checks (negb (vtk_eqb type V_Invalid)) in
    let* r := addElement s type conn in
    Ret (fst r).
(** polytope_soup.cpp:936-961 *)
Fixpoint cells_loop (n : nat) (num_points : Z) (s : soupR) (st : stream) : outcome (soupR * stream) :=
  match n with
  | O => Ret (s, st)
  | S n' =>
      let '(line, st) := getline st in
      let* s := cell_line num_points line s in
      cells_loop n' num_points s st
  end.
(** file.ignore(max, '\n') *)
Fixpoint skip_line (l : list char) : list char * bool :=
  match l with
  | [] => ([], true)
  | c :: l' => if (c =? NEWLINE)%Z then (l', false) else skip_line l'
  end.
Definition ignore_line (st : stream) : stream :=
  if good st then let '(r, eof) := skip_line (rest st) in mkStream r eof false
  else mkStream (rest st) (eofbit st) true.
(** polytope_soup.cpp:854-978 *)
Definition vtkParseUnstructuredGrid (s : soupR) (st : stream) : outcome (soupR * stream) :=
  let '(line, st) := getline st in
  let v := view_of line in
  let* b := begins_with v "POINTS" in
  if negb b then Fail
  else
    let* tv := getTokenAndShrink v SPACE in
    let* tv := next_token (snd tv) in
    let* num_points := strto_int32 (tail (fst tv)) in
    let v := snd tv in
    let* _ := ASSERT checks (0 <? num_points)%Z in
    let* b1 := begins_with v "float" in
    let* b2 := begins_with v "double" in
    let* _ := ASSERT checks (b1 || b2) in
    let* r := points_loop (fuel_of st) s v st in
    let '(s, v, st) := r in
    let* b := begins_with v "CELLS" in
    let* _ := ASSERT checks b in
    let* tv := getTokenAndShrink v SPACE in
    let* tv := next_token (snd tv) in
    let* num_cells := strto_int32 (tail (fst tv)) in
    let v := snd tv in
    let* _ := ASSERT checks (0 <? num_cells)%Z in
    let* _ := (if checks then
                 let* tv := next_token v in
                 let* cell_conn_len := strto_int32 (tail (fst tv)) in
                 ASSERT checks (0 <? cell_conn_len)%Z
               else let* _ := getTokenAndShrink v SPACE in Ret tt) in
    let* r := cells_loop (Z.to_nat num_cells) num_points s st in
    let '(s, st) := r in
    let '(line, st) := getline st in
    let* _ := ASSERT checks (first_char line =? 0)%Z in
    let '(line, st) := getline st in
    let* b := begins_with (view_of line) "CELL_TYPES" in
    if negb b then Fail
    else
      let st := ignore_line st in
      let* _ := ASSERT checks (good st) in
      Ret (s, st).

(** polytope_soup.cpp:1028-1060: the values of a line; [k] is data_ctr *)
Fixpoint values_loop (fuel : nat) (is_float : bool) (v : sv) (data : list R) (k : nat) : outcome (list R * nat) :=
  let* tv := getTokenAndShrink v SPACE in
  let '(token, v) := tv in
  if vsize token =? 0 then Ret (data, k)
  else
    match fuel with
    | O => OutOfFuel
    | S f =>
        let* value := strtod (tail token) in
        let* _ := (if is_float then Ret tt
                   else
                     let* ivalue := strtol (tail token) in
                     if (ivalue =? - INT64_MAX - 1)%Z then Ub      (* its absolute value does not exist *)
                     else if (max_int <? Z.abs ivalue)%Z then Fail else Ret tt) in
        let* data := wr data k value in
        values_loop f is_float v data (S k)
    end.
(** polytope_soup.cpp:1026-1061 *)
Fixpoint data_loop (fuel : nat) (is_float : bool) (data : list R) (k : nat) (st : stream) : outcome (list R * nat * stream) :=
  let '(line, st) := getline st in
  if failbit st then Ret (data, k, st)
  else if (first_char line =? 0)%Z then Ret (data, k, st)
  else
    match fuel with
    | O => OutOfFuel
    | S f =>
        let* r := values_loop (length line) is_float (view_of line) data k in
        data_loop f is_float (fst r) (snd r) st
    end.
(** polytope_soup.cpp:980-1065; a negative size is Ub *)
Definition vtkParseCellData (s : soupR) (st : stream) (line : list char) : outcome (soupR * stream) :=
  let v := view_of line in
  let* b := begins_with v "CELL_DATA" in
  if negb b then Fail
  else
    let* tv := getTokenAndShrink v SPACE in
    let* num_data := strto_int32 (tail (snd tv)) in
    let* _ := ASSERT checks (num_data =? Z.of_nat (length (etypes s)))%Z in
    let '(line, st) := getline st in
    let v := view_of line in
    let* b := begins_with v "SCALARS" in
    let* _ := ASSERT checks b in
    let* tv := getTokenAndShrink v SPACE in
    let* tv := getTokenAndShrink (snd tv) SPACE in
    let name := firstn (vsize (fst tv)) (tail (fst tv)) in
    let v := snd tv in
    let* f := begins_with v "float" in
    let* d := begins_with v "double" in
    let is_float := f || d in
    let* i := begins_with v "int" in
    if negb is_float && negb i then Fail
    else
      let '(line, st) := getline st in
      let* b := begins_with (view_of line) "LOOKUP_TABLE" in
      let* _ := ASSERT checks b in
      if (num_data <? 0)%Z then Ub
      else
        let n := Z.to_nat num_data in
        let data := repeat 0%R n in
        let ids := map Z.of_nat (seq 0 n) in
        let* r := data_loop (fuel_of st) is_float data 0 st in
        let '(data, k, st) := r in
        let* _ := ASSERT checks (Z.of_nat k =? num_data)%Z in
        let '(s, _, err) := addElset s name ids data in
        if err then Fail else Ret (s, st).

(** polytope_soup.cpp:1128-1136 *)
Fixpoint sections (fuel : nat) (s : soupR) (st : stream) : outcome soupR :=
  let '(line, st) := getline st in
  if failbit st then Ret s
  else
    match fuel with
    | O => OutOfFuel
    | S f =>
        if (first_char line =? 0)%Z then sections f s st
        else
          let* b := begins_with (view_of line) "CELL_DATA" in
          if b then let* r := vtkParseCellData s st line in sections f (fst r) (snd r)
          else sections f s st
    end.
Variable stdsort : forall A : Type, (A -> A -> bool) -> list A -> list A.
(** polytope_soup.cpp:1067-1145: [file] is what the file contains, [None] if it cannot be opened *)
Definition readVTKFile (file : option (list char)) (s : soupR) : outcome soupR :=
  match file with
  | None => Fail
  | Some t =>
      let '(line, st) := getline (mkStream t false false) in
      let* b := begins_with (view_of line) "# vtk DataFile Version 3.0" in
      if negb b then Fail
      else
        let '(_, st) := getline st in
        let '(line, st) := getline st in
        let* b := begins_with (view_of line) "ASCII" in
        if negb b then Fail
        else
          let '(line, st) := getline st in
          let v := view_of line in
          let* b := begins_with v "DATASET" in
          let* _ := ASSERT checks b in
          let* tv := getTokenAndShrink v SPACE in
          let* b := begins_with (snd tv) "UNSTRUCTURED_GRID" in
          if negb b then Fail
          else
            let* r := vtkParseUnstructuredGrid s st in
            let '(s, st) := r in
            let '(eof, st) := peek_eof st in
            let* s := if eof then Ret s else sections (fuel_of st) s st in
            if 0 <? length (snames s) then sortElsets stdsort s else Ret s
  end.
End Vtk.
