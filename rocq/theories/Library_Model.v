(** Model of the reader of MPACT cross section libraries (src/physics/cross_section_library.cpp:20-455), on top of TextIo_Model.

    [checks] says whether assertions are enabled.  A logged error ends the program.  The file can be opened.  Every line is read into the same
    buffer, and a view is its characters from some place on: a view that is kept while another line is read sees the new characters
    ([moved]).  A number of groups, nuclides or temperatures that is negative has no meaning for Vector::resize and is Ub.  The checks that the
    end pointer of strto is not null always succeed and are left out, as are LOG_INFO and LOG_DEBUG. *)
From Coq Require Import String Ascii.
From Coq Require Import List Arith ZArith Bool Reals.
From Verif Require Import Base Loops Arith Matrix_Model StringView_Model TextIo_Model Elem_Model Soup_Model Vtk_Model XSec_Model.
Import ListNotations.
Local Open Scope list_scope.
Local Open Scope nat_scope.

(** cross_section_library.hpp:24-29 *)
Record xslib := mkXsLib { bounds : list R; chi : list R; nucs : list nuclide }.
(** Nuclide() (nuclide.hpp:22-27) *)
Definition no_nuclide : nuclide := mkNuc 0 0%R false [] [].

(** the buffer [line] and the file *)
Record reader := mkRd { buf : list char; strm : stream }.
(** file.getline(line, max_line_length); StringView(line) *)
Definition next_line (s : reader) : sv * reader :=
  let '(l, st) := getline (strm s) in
  let b := l ++ 0%Z :: skipn (S (length l)) (buf s) in
  (mkSv b (length (cstr l)), mkRd b st).
(** a view into the buffer after the buffer has changed *)
Definition moved (v : sv) (old new : list char) : sv := mkSv (skipn (length old - length (tail v)) new) (vsize v).

Section Read.
Variable checks : bool.

(** line_view.getTokenAndShrink() and strto *)
Definition real_token (v : sv) : outcome (R * sv) :=
  let* tv := getTokenAndShrink v SPACE in let* x := strtod (tail (fst tv)) in Ret (x, snd tv).
Definition int_token (v : sv) : outcome (Z * sv) :=
  let* tv := getTokenAndShrink v SPACE in let* z := strto_int32 (tail (fst tv)) in Ret (z, snd tv).
(** 221-229, 307-324: a number that only an assertion reads *)
Definition index_token (z : Z) (v : sv) : outcome sv :=
  let* tv := getTokenAndShrink v SPACE in
  let* _ := (if checks then let* i := strto_int32 (tail (fst tv)) in ASSERT checks (i =? z)%Z else Ret tt) in
  Ret (snd tv).
Definition nonneg (x : R) : bool := Rleb 0%R x.

(** 51-61: the first character that is not a blank is a 4 *)
Fixpoint version (l : list char) : bool :=
  match l with
  | [] => true
  | c :: l' => if isspace c then version l' else (c =? 52)%Z
  end.
(** 84-93 *)
Definition dims (v : sv) : outcome (list Z) :=
  let* r := for_ 10 0 (fun _ st =>
    let* t := int_token (snd st) in
    let* _ := ASSERT checks (0 <=? fst t)%Z in
    Ret (fst st ++ [fst t], snd t)) ([], v) in
  Ret (fst r).

(** 112-138 and 155-176: one of the numbers of a group, which go on over several lines; [ok] is asserted of the numbers before and this one *)
Definition group_value (ok : list R -> R -> bool) (st : list R * sv * reader) : outcome (list R * sv * reader) :=
  let '(xs, v, s) := st in
  let* tv := getTokenAndShrink v SPACE in
  let '(token, v) := tv in
  let* r := (if vsize token =? 0 then
      let one_more_token := negb (vsize v =? 0) in
      let '(w, s') := next_line s in
      let* w := removeLeadingSpaces w in
      if one_more_token then Ret (moved v (buf s) (buf s'), w, s')
      else let* tv := getTokenAndShrink w SPACE in Ret (fst tv, snd tv, s')
    else Ret (token, v, s)) in
  let '(token, v, s) := r in
  let* x := strtod (tail token) in
  let* _ := ASSERT checks (ok xs x) in
  Ret (xs ++ [x], v, s).
Definition group_values (ok : list R -> R -> bool) (ng : nat) (v : sv) (s : reader) : outcome (list R * reader) :=
  let* r := for_ ng 0 (fun _ => group_value ok) ([], v, s) in
  let '(xs, _, s) := r in
  Ret (xs, s).
(** 133-137 *)
Definition bound_ok (xs : list R) (x : R) : bool :=
  nonneg x && (match rev xs with [] => true | y :: _ => Rltb x y end).

(** 189-200: skip to the first nuclide, at most 10000 lines *)
Fixpoint skip_dir (fuel : nat) (ctr : Z) (v : sv) (s : reader) : outcome (sv * reader) :=
  let '(w, s') := next_line s in
  if failbit (strm s') then Ret (moved v (buf s) (buf s'), s')
  else
    match fuel with
    | O => OutOfFuel
    | S f =>
        let* b := begins_with w "%NUC" in
        if b then Ret (w, s')
        else if (10000 <? ctr + 1)%Z then Fail
        else skip_dir f (ctr + 1) w s'
    end.
(** 429-436: skip to the next nuclide or the end *)
Fixpoint skip_rest (fuel : nat) (v : sv) (s : reader) : outcome (sv * reader) :=
  let '(w, s') := next_line s in
  if failbit (strm s') then Ret (moved v (buf s) (buf s'), s')
  else
    match fuel with
    | O => OutOfFuel
    | S f =>
        let* w := removeLeadingSpaces w in
        let* b := begins_with w "%NUC" in
        let* e := begins_with w "%END" in
        if b || e then Ret (w, s') else skip_rest f w s'
    end.

(** 277-286: the temperatures, all on one line *)
Definition temperatures (nt : nat) (v : sv) : outcome (list R * sv) :=
  for_ nt 0 (fun _ st =>
    let* tv := getTokenAndShrink (snd st) SPACE in
    let '(token, v) := tv in
    let token := if vsize token =? 0 then v else token in
    let* t := strtod (tail token) in
    let* _ := ASSERT checks (Rltb 0%R t) in
    Ret (fst st ++ [t], v)) ([], v).
(** 408-419: a row of the scattering matrix *)
Definition scattering (ig : nat) (min_col0 : Z) (num_cols : nat) (v : sv) (m : @matrix R) : outcome (@matrix R * sv) :=
  for_ num_cols 0 (fun icol st =>
    let* t := real_token (snd st) in
    let* col := i32 (min_col0 + Z.of_nat icol) in
    let* m := (if (col <? 0)%Z then Ub else set (fst st) ig (Z.to_nat col) (fst t)) in
    Ret (m, snd t)) (m, v).
(** 302-420: the data of a group at a temperature; the line, whether the nuclide is fissile, the cross sections *)
Definition data_line (ig itemp : nat) (v : sv) (fis : bool) (x : xsec) : outcome (sv * bool * xsec) :=
  let* v := removeLeadingSpaces v in
  let* v := index_token (Z.of_nat ig + 1) v in
  let* v := index_token (Z.of_nat itemp + 1) v in
  let* t := real_token v in
  let* va := wr (xa x) ig (fst t) in
  let* tv := getTokenAndShrink (snd t) SPACE in
  if vsize (fst tv) =? 0 then Ret (snd tv, fis, mkX (isMacro x) (isFissile x) (numGroups x) va (xf x) (xnuf x) (xtr x) (xs x) (xss x))
  else
    let* fission := strtod (tail (fst tv)) in
    let fissile := Rltb 0%R fission in
    let* vf := wr (xf x) ig fission in
    let* t := real_token (snd tv) in
    let* vnuf := wr (xnuf x) ig (fst t) in
    let* t := real_token (snd t) in
    let* vtr := wr (xtr x) ig (fst t) in
    let* t := real_token (snd t) in
    let* vs := wr (xs x) ig (fst t) in
    let* t := int_token (snd t) in
    let min_col := fst t in
    let* _ := ASSERT checks (1 <=? min_col)%Z in
    let* min_col0 := i32 (min_col - 1) in
    let* t := int_token (snd t) in
    let max_col := fst t in
    let* _ := ASSERT checks (min_col <=? max_col)%Z in
    let* num_cols := i32 (max_col - min_col + 1) in
    let* r := scattering ig min_col0 (Z.to_nat num_cols) (snd t) (xss x) in
    Ret (snd r, fissile || fis, mkX (isMacro x) (fissile || isFissile x) (numGroups x) va vf vnuf vtr vs (fst r)).
(** 299-422: all groups and temperatures of a nuclide *)
Definition data_lines (ng nt : nat) (st : bool * list xsec * sv * reader) : outcome (bool * list xsec * sv * reader) :=
  for_ ng 0 (fun ig st =>
    for_ nt 0 (fun itemp st =>
      let '(fis, xs, _, s) := st in
      let '(w, s) := next_line s in
      let* x := rd xs itemp in
      let* r := data_line ig itemp w fis x in
      let '(v, fis, x) := r in
      let* xs := wr xs itemp x in
      Ret (fis, xs, v, s)) st) st.
(** 215-425: a nuclide; [v] is its first line, [ctr] its number *)
Definition read_nuclide (ng : nat) (ctr : nat) (v : sv) (s : reader) (all : list nuclide) : outcome (list nuclide * sv * reader) :=
  let* tv := getTokenAndShrink v SPACE in
  let* v := index_token (Z.of_nat ctr + 1) (snd tv) in
  let* n := rd all ctr in
  let* t := int_token v in
  let zaid := fst t in
  let* _ := ASSERT checks (0 <? zaid)%Z in
  let* t := real_token (snd t) in
  let mass := fst t in
  let* _ := ASSERT checks (Rltb 0%R mass) in
  let* v := for_ 4 0 (fun _ v => let* tv := getTokenAndShrink v SPACE in Ret (snd tv)) (snd t) in
  let* t := int_token v in
  let num_temps := fst t in
  let* _ := ASSERT checks (0 <? num_temps)%Z in
  if (num_temps <? 0)%Z then Ub
  else
    let nt := Z.to_nat num_temps in
    let* xs := mapo (fun _ => XSec ng) (seq 0 nt) in
    let '(v, s) := next_line s in
    let* v := removeLeadingSpaces v in
    let* b := begins_with v "TP1+" in
    let* _ := ASSERT checks b in
    let '(v, s) := next_line s in
    let* v := removeLeadingSpaces v in
    let* r := temperatures nt v in
    let ts := fst r in
    let '(v, s) := next_line s in
    let* v := removeLeadingSpaces v in
    let* b := begins_with v "XSD+" in
    let* _ := ASSERT checks b in
    let* r := data_lines ng nt (fissile n, xs, v, s) in
    let '(fis, xs, v, s) := r in
    let n := mkNuc zaid mass fis ts xs in
    let* _ := nuc_validate n in
    let* all := wr all ctr n in
    Ret (all, v, s).
(** 214-440; there is no place for more nuclides than [all] has *)
Fixpoint nuclides_loop (fuel : nat) (ng ctr : nat) (v : sv) (s : reader) (all : list nuclide) : outcome (list nuclide) :=
  let* e := begins_with v "%END" in
  if e then Ret all
  else
    match fuel with
    | O => OutOfFuel
    | S f =>
        let* r := read_nuclide ng ctr v s all in
        let '(all, v, s) := r in
        let* r := skip_rest (fuel_of (strm s)) v s in
        nuclides_loop f ng (S ctr) (fst r) (snd r) all
    end.

(** 26-444; [junk] is what the buffer holds at first *)
Definition readMPACTLibrary (junk : list char) (text : list char) : outcome xslib :=
  let s := mkRd junk (mkStream text false false) in
  let '(v, s) := next_line s in
  let* b := begins_with v "%VER:" in
  if negb b then Fail else
  let '(v, s) := next_line s in
  if negb (version (firstn (vsize v) (tail v))) then Fail else
  let '(v, s) := next_line s in
  let* b := begins_with v "%DIM:" in
  if negb b then Fail else
  let '(v, s) := next_line s in
  let* v := removeLeadingSpaces v in
  let* ds := dims v in
  let* num_groups := rd ds 0 in
  let* num_nuclides := rd ds 4 in
  let '(v, s) := next_line s in
  let* b := begins_with v "%GRP:" in
  if negb b then Fail else
  let '(v, s) := next_line s in
  let* v := removeLeadingSpaces v in
  if (num_groups <? 0)%Z then Ub else
  let ng := Z.to_nat num_groups in
  let* r := group_values bound_ok ng v s in
  let '(group_bounds, s) := r in
  let '(v, s) := next_line s in
  let* b := begins_with v "%CHI:" in
  if negb b then Fail else
  let '(v, s) := next_line s in
  let* r := group_values (fun _ => nonneg) ng v s in
  let '(spectrum, s) := r in
  let '(v, s) := next_line s in
  let* b := begins_with v "%DIR:" in
  if negb b then Fail else
  let* r := skip_dir (fuel_of (strm s)) 0 v s in
  if (num_nuclides <? 0)%Z then Ub else
  let* all := nuclides_loop (S (Z.to_nat num_nuclides)) ng 0 (fst r) (snd r) (repeat no_nuclide (Z.to_nat num_nuclides)) in
  Ret (mkXsLib group_bounds spectrum all).
End Read.
