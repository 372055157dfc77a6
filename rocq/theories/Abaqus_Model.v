(** Model of the Abaqus reader of PolytopeSoup (src/mesh/polytope_soup.cpp:615-845), on top of TextIo_Model.
    [checks] says whether assertions are enabled (UM2_ENABLE_ASSERTS). A logged error ends the program (exit_on_error,
    settings.hpp:29). The checks that the end pointer of strto is not null always succeed and are left out. Messages are not modelled. *)
From Coq Require Import String Ascii.
From Coq Require Import List Arith ZArith Bool Reals.
From Verif Require Import Base Loops StringView_Model Elem_Model Soup_Model TextIo_Model.
From Verif Require Powers_Model.
Import ListNotations.
Local Open Scope list_scope.
Local Open Scope nat_scope.

Section Abaqus.
Variable checks : bool.
Notation soupR := (soup (R * R * R) R).

(** the loops [while (file.getline(line, n) && line[0] != '*')]: what is done with every line; the buffer afterwards.
    Every line that is read is shorter than what is left of the file, which bounds the number of rounds. *)
Fixpoint lines_loop {A} (fuel : nat) (body : list char -> A -> outcome A) (x : A) (st : stream) : outcome (A * list char * stream) :=
  let '(line, st) := getline st in
  if failbit st then Ret (x, line, st)
  else if (first_char line =? STAR)%Z then Ret (x, line, st)
  else
    match fuel with
    | O => OutOfFuel
    | S f => let* x := body line x in lines_loop f body x st
    end.
Definition fuel_of (st : stream) : nat := S (length (rest st)).
(** the token that follows *)
Definition next_token (v : sv) : outcome (sv * sv) :=
  let* tv := getTokenAndShrink v COMMA in
  let* _ := ASSERT checks (negb (vsize (fst tv) =? 0)) in
  Ret tv.

(** polytope_soup.cpp:629-655: one line of nodes *)
Definition node_line (line : list char) (s : soupR) : outcome soupR :=
  let v := view_of line in
  let* tv := next_token v in
  let v := snd tv in
  let* tv := next_token v in
  let v := snd tv in
  let* x := strtod (tail (fst tv)) in
  let* tv := next_token v in
  let v := snd tv in
  let* y := strtod (tail (fst tv)) in
  let* z := strtod (tail v) in
  Ret (fst (addVertex s (x, y, z))).
(** polytope_soup.cpp:622-658: the soup, the view that is returned, the buffer *)
Definition abaqusParseNodes (s : soupR) (st : stream) (line : list char) : outcome (soupR * sv * list char * stream) :=
  let* r := lines_loop (fuel_of st) node_line s st in
  let '(s, line, st) := r in
  (* the assertion is not evaluated if assertions are disabled *)
  let '(eof, st) := if checks then peek_eof st else (false, st) in
  let* _ := ASSERT checks (negb eof) in
  Ret (s, view_of line, line, st).

(** polytope_soup.cpp:678-701: the type of the elements, from line[15] to line[18]; reading behind the terminator is Ub *)
Definition elem_type (line : list char) : outcome vtk :=
  let c := cstr line ++ [0%Z] in
  let* c15 := rd c 15 in
  let* c16 := if (c15 =? 67)%Z then rd c 16 else Ret 0%Z in
  let* c17 := if (c16 =? 80)%Z then rd c 17 else Ret 0%Z in
  if negb (c17 =? 83)%Z then Fail
  else
    let* c18 := rd c 18 in
    let offset := (c18 - 48)%Z in
    if (offset =? 3)%Z then Ret V_Triangle
    else if (offset =? 4)%Z then Ret V_Quad
    else if (offset =? 6)%Z then Ret V_QuadraticTriangle
    else if (offset =? 8)%Z then Ret V_QuadraticQuad
    else Fail.
(** polytope_soup.cpp:713-720: the vertices of an element *)
Fixpoint conn_loop (n : nat) (v : sv) : outcome (list Z) :=
  match n with
  | O => Ret []
  | S n' =>
      let* tv := next_token v in
      let v := snd tv in
      let* id := strto_int32 (tail (fst tv)) in
      let* _ := ASSERT checks (0 <? id)%Z in
      let* i := i32 (id - 1) in
      let* conn := conn_loop n' v in
      Ret (i :: conn)
  end.
(** polytope_soup.cpp:706-722: one line of elements *)
Definition elem_line (t : vtk) (line : list char) (s : soupR) : outcome soupR :=
  let v := view_of line in
  let* tv := next_token v in
  let v := snd tv in
  let* conn := conn_loop (Z.to_nat (verticesPerElem t)) v in
  let* r := addElement s t conn in
  Ret (fst r).
(** polytope_soup.cpp:660-729 *)
Definition abaqusParseElements (s : soupR) (st : stream) (line : list char) : outcome (soupR * sv * list char * stream) :=
  let info := view_of line in
  let* b := starts_with info (view (lit "*ELEMENT, type=CPS")) in
  let* _ := ASSERT checks b in
  let* _ := ASSERT checks (18 <? vsize info) in
  let* t := elem_type line in
  let* r := lines_loop (fuel_of st) (elem_line t) s st in
  let '(s, line, st) := r in
  let '(eof, st) := peek_eof st in
  Ret (s, if eof then null_sv else view_of line, line, st).

(** polytope_soup.cpp:749-765: the ids of a line *)
Fixpoint ids_loop (fuel : nat) (v : sv) (comma : nat) (ids : list Z) : outcome (list Z) :=
  let* token := substr v 0 comma in
  let* id := strto_int32 (tail token) in
  let* _ := ASSERT checks (0 <? id)%Z in
  let* i := i32 (id - 1) in
  let ids := ids ++ [i] in
  if vsize v <=? comma + 2 then Ret ids
  else
    let* v := remove_prefix v (comma + 1) in
    let* o := find_first_of v COMMA 0 in
    match o with
    | None => Ret ids
    | Some comma =>
        match fuel with
        | O => OutOfFuel
        | S f => ids_loop f v comma ids
        end
    end.
(** polytope_soup.cpp:742-766; npos is larger than 0 *)
Definition ids_line (line : list char) (ids : list Z) : outcome (list Z) :=
  let v := view_of line in
  let* o := find_first_of v COMMA 0 in
  match o with
  | None => Ret ids
  | Some comma =>
      let* _ := ASSERT checks (0 <? comma) in
      ids_loop (length line) v comma ids
  end.
(** polytope_soup.cpp:731-773; the subtraction in line 738 wraps around if the line is shorter than 13 characters *)
Definition abaqusParseElsets (s : soupR) (st : stream) (line : list char) : outcome (soupR * sv * list char * stream) :=
  let info := view_of line in
  let* b := starts_with info (view (lit "*ELSET,ELSET=")) in
  let* _ := ASSERT checks b in
  let* _ := ASSERT checks (13 <? vsize info) in
  if vsize info <? 13 then Ub
  else
    let* nv := substr info 13 (vsize info - 13) in
    let name := firstn (vsize nv) (tail nv) in
    let* r := lines_loop (fuel_of st) ids_line [] st in
    let '(ids, line, st) := r in
    let* _ := ASSERT checks (Powers_Model.is_sorted ids) in
    let '(s, _, err) := addElset s name ids [] in
    if err then Fail
    else
      let '(eof, st) := peek_eof st in
      Ret (s, if eof then null_sv else view_of line, line, st).

(** polytope_soup.cpp:823-834: the loops over the sections that start with [kw]; [b] is get_next_line *)
Fixpoint sections (fuel : nat) (kw : list char)
    (parse : soupR -> stream -> list char -> outcome (soupR * sv * list char * stream))
    (x : soupR * sv * list char * stream) (b : bool) : outcome (soupR * sv * list char * stream * bool) :=
  let '(s, v, line, st) := x in
  let* k := starts_with v (view kw) in
  if k then
    match fuel with
    | O => OutOfFuel
    | S f => let* x := parse s st line in sections f kw parse x false
    end
  else Ret (x, b).
(** polytope_soup.cpp:815-835 *)
Fixpoint main_loop (fuel : nat) (x : soupR * sv * list char * stream) (get_next_line : bool) : outcome (soupR * stream) :=
  let '(s, v, line, st) := x in
  let '(eof, st) := peek_eof st in
  if eof then Ret (s, st)
  else
    match fuel with
    | O => OutOfFuel
    | S f =>
        let '(v, line, st) := if get_next_line then let '(line, st) := getline st in (view_of line, line, st) else (v, line, st) in
        let* r := sections (fuel_of st) (lit "*NODE") abaqusParseNodes (s, v, line, st) true in
        let '(x, b) := r in
        let* r := sections (fuel_of st) (lit "*ELEMENT") abaqusParseElements x b in
        let '(x, b) := r in
        let* r := sections (fuel_of st) (lit "*ELSET") abaqusParseElsets x b in
        let '(x, b) := r in
        main_loop f x b
    end.

Variable stdsort : forall A : Type, (A -> A -> bool) -> list A -> list A.
(** polytope_soup.cpp:775-843: [file] is what the file contains, [None] if it cannot be opened *)
Definition readAbaqusFile (file : option (list char)) (s : soupR) : outcome soupR :=
  match file with
  | None => Fail
  | Some t =>
      let '(line, st) := getline (mkStream t false false) in
      let* r := main_loop (2 * length t + 4) (s, view_of line, line, st) false in
      let s := fst r in
      if 0 <? length (snames s) then sortElsets stdsort s else Ret s
  end.
End Abaqus.
