(** Model of the text input that the mesh readers use (src/mesh/polytope_soup.cpp:615-1145): std::ifstream::getline and peek with a
    buffer of 1024 characters, strto<Float> (include/um2/common/strto.hpp:22-34), ASSERT.

    A file is the list of its characters. A number that is read is the real number its text denotes: rounding, overflow,
    hexadecimal numbers, "inf" and "nan" are not modelled. *)
From Coq Require Import String Ascii.
From Coq Require Import List Arith ZArith Bool Reals.
From Verif Require Import Base StringView_Model.
Import ListNotations.
Local Open Scope list_scope.
Local Open Scope nat_scope.

(** a string literal *)
Definition lit (s : string) : list char := map (fun c => Z.of_N (N_of_ascii c)) (list_ascii_of_string s).
Definition COMMA : char := 44%Z.
Definition STAR : char := 42%Z.
(** a failed assertion ends the program *)
Definition ASSERT (checks b : bool) : outcome unit := if checks && negb b then Fail else Ret tt.

(** std::ifstream *)
Record stream := mkStream { rest : list char; eofbit : bool; failbit : bool }.
Definition good (st : stream) : bool := negb (eofbit st) && negb (failbit st).
Inductive stop := Eof | Delim | Full.
(** characters up to the end of the line, of the file or of the buffer *)
Fixpoint scan (n : nat) (l : list char) : list char * list char * stop :=
  match l with
  | [] => ([], [], Eof)
  | c :: l' =>
      if (c =? NEWLINE)%Z then ([], l', Delim)
      else match n with
           | O => ([], l, Full)
           | S n' => let '(a, r, k) := scan n' l' in (c :: a, r, k)
           end
  end.
Definition max_line_length : nat := Z.to_nat 1024.
(** file.getline(line, max_line_length): the text that is in the buffer afterwards, up to its terminator; the value of the call as a
    condition is [negb (failbit _)] *)
Definition getline (st : stream) : list char * stream :=
  if good st then
    let '(a, r, k) := scan (max_line_length - 1) (rest st) in
    match k with
    | Eof => (a, mkStream r true (length a =? 0))
    | Delim => (a, mkStream r false false)
    | Full => (a, mkStream r false true)
    end
  else ([], mkStream (rest st) (eofbit st) true).
(** file.peek() == EOF *)
Definition peek_eof (st : stream) : bool * stream :=
  if good st then
    match rest st with
    | [] => (true, mkStream [] true false)
    | _ => (false, st)
    end
  else (true, mkStream (rest st) (eofbit st) true).

(** the characters of a C string *)
Fixpoint cstr (l : list char) : list char :=
  match l with
  | [] => []
  | c :: l' => if (c =? 0)%Z then [] else c :: cstr l'
  end.
(** StringView(line) *)
Definition view_of (line : list char) : sv := view (cstr line).
(** line[0] *)
Definition first_char (line : list char) : char := hd 0%Z line.

(** ** std::strtod *)
(** digits: their value after [acc], how many there are, what follows; running off the buffer is Ub *)
Fixpoint span (l : list char) (acc : Z) (n : nat) : outcome (Z * nat * list char) :=
  match l with
  | [] => Ub
  | c :: l' => if isdigit c then span l' (10 * acc + (c - 48))%Z (S n) else Ret (acc, n, l)
  end.
Definition DOT : char := 46%Z.
(** the sign: is it negative, what follows *)
Definition sign_of (l : list char) : bool * list char :=
  match l with
  | c :: l' => if (c =? 45)%Z then (true, l') else if (c =? 43)%Z then (false, l') else (false, l)
  | [] => (false, l)
  end.
(** the exponent; an e that no number follows is not one *)
Definition exponent (l : list char) : outcome Z :=
  match l with
  | [] => Ub
  | c :: l' =>
      if ((c =? 101) || (c =? 69))%Z then
        let '(neg, l') := sign_of l' in
        let* r := span l' 0 0 in
        let '(e, n, _) := r in
        Ret (if neg then - e else e)%Z
      else Ret 0%Z
  end.
Definition strtod (l : list char) : outcome R :=
  let '(neg, l) := sign_of (skip_space l) in
  let* r := span l 0 0 in
  let '(m, n, l) := r in
  let* r := (match l with
             | c :: l' => if (c =? DOT)%Z then span l' m 0 else Ret (m, 0, l)
             | [] => Ub
             end) in
  let '(m, k, l) := r in
  if n + k =? 0 then Ret 0%R
  else
    let* e := exponent l in
    let x := (IZR m * powerRZ 10 (e - Z.of_nat k))%R in
    Ret (if neg then - x else x)%R.
