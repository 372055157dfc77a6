(** Model of include/um2/mpact/model.hpp:318-354: numbered names. *)
From Coq Require Import List ZArith.
From Verif Require Import Base Loops StringView_Model.
Import ListNotations.
Open Scope Z_scope.

(** conversion of an int to char: modulo 256 (C++20) *)
Definition to_char (x : Z) : char := (x + 128) mod 256 - 128.

(** model.hpp:333-339: the walk of p, given as the index of the character; p = -1 after the first
    character would be read, which is undefined behaviour (the ASSERT has no effect in release) *)
Fixpoint bump (p : nat) (s : list char) : outcome (list char) :=
  let* c := rd s p in
  if c =? 57 then
    let* s := wr s p 48 in
    match p with O => Ub | S p' => bump p' s end
  else wr s p (to_char (c + 1)).
(** model.hpp:323-340: str.data() + str.size() - 1 points before the start of an empty string *)
Definition incrementASCIINumber (s : list char) : outcome (list char) :=
  match length s with O => Ub | S p => bump p s end.

(** model.hpp:342-354; % and / truncate towards zero *)
Definition put_digit (i : nat) (x : list char * Z) : outcome (list char * Z) :=
  let '(s, num) := x in
  let* s := wr s (4 - i) (to_char (Z.rem num 10 + 48)) in
  Ret (s, Z.quot num 10).
Definition getASCIINumber (num : Z) : outcome (list char) :=
  let* x := for_ 5 0 put_digit ([48; 48; 48; 48; 48], num) in
  Ret (fst x).
