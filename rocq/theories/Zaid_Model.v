(** Model of toZAID, src/physics/nuclide.cpp:124-216, on the chars of its argument.

    um2::String is the list of its chars (its own model is String_Model, its comparisons are
    those of StringView_Model); isalpha and isdigit are those of the C locale. *)
From Coq Require Import List Arith ZArith Bool String Ascii.
From Verif Require Import Base Loops StringView_Model.
Import ListNotations.
Local Open Scope string_scope.

(** a literal "..." as chars *)
Definition chars (s : string) : list char :=
  map (fun c => Z.of_nat (nat_of_ascii c)) (list_ascii_of_string s).

(** nuclide.cpp:131-143 *)
Definition ELEMENTS : list (list char) := map chars
  [ "H"; "He";
    "Li"; "Be"; "B"; "C"; "N"; "O"; "F"; "Ne";
    "Na"; "Mg"; "Al"; "Si"; "P"; "S"; "Cl"; "Ar";
    "K"; "Ca"; "Sc"; "Ti"; "V"; "Cr"; "Mn"; "Fe"; "Co"; "Ni"; "Cu"; "Zn"; "Ga"; "Ge"; "As"; "Se"; "Br"; "Kr";
    "Rb"; "Sr"; "Y"; "Zr"; "Nb"; "Mo"; "Tc"; "Ru"; "Rh"; "Pd"; "Ag"; "Cd"; "In"; "Sn"; "Sb"; "Te"; "I"; "Xe";
    "Cs"; "Ba";
    "La"; "Ce"; "Pr"; "Nd"; "Pm"; "Sm"; "Eu"; "Gd"; "Tb"; "Dy"; "Ho"; "Er"; "Tm"; "Yb";
    "Lu"; "Hf"; "Ta"; "W"; "Re"; "Os"; "Ir"; "Pt"; "Au"; "Hg"; "Tl"; "Pb"; "Bi"; "Po"; "At"; "Rn";
    "Fr"; "Ra";
    "Ac"; "Th"; "Pa"; "U"; "Np"; "Pu"; "Am"; "Cm"; "Bk"; "Cf"; "Es"; "Fm"; "Md"; "No";
    "Lr"; "Rf"; "Db"; "Sg"; "Bh"; "Hs"; "Mt"; "Ds"; "Rg"; "Cn"; "Nh"; "Fl"; "Mc"; "Lv"; "Ts"; "Og" ].

(** nuclide.cpp:146-160; isdigit is StringView_Model.isdigit *)
Definition isalpha (c : char) : bool := ((65 <=? c) && (c <=? 90) || (97 <=? c) && (c <=? 122))%Z.

(** string.hpp:642-651, 956-960: a start behind the end makes the length negative *)
Definition str_sub (s : list char) (pos count : nat) : outcome (list char) :=
  if (List.length s <? pos)%nat then Ub else Ret (firstn count (skipn pos s)).

(** nuclide.cpp:173-181: [n] chars counted so far, [l] the chars still ahead *)
Fixpoint symbol_len (l : list char) (n : nat) : nat :=
  match l with
  | c :: l' => if isalpha c then symbol_len l' (S n) else n
  | [] => n
  end.

(** nuclide.cpp:187-193 *)
Fixpoint find_element (symbol : list char) (l : list (list char)) (i : Z) : outcome (option Z) :=
  match l with
  | [] => Ret None
  | e :: l' =>
      let* b := str_eq symbol e in
      if b then Ret (Some (i + 1)%Z) else find_element symbol l' (i + 1)%Z
  end.

(** nuclide.cpp:201-207: [i] is the position of the head of [l], [dflt] the value of m before *)
Fixpoint first_digit (l : list char) (i dflt : nat) : nat :=
  match l with
  | c :: l' => if isdigit c then i else first_digit l' (S i) dflt
  | [] => dflt
  end.

(** nuclide.cpp:163-216.  The ASSERTs have no effect in a release build.  A String ends with a
    NUL char, which is what strtol reads up to. *)
Definition toZAID (str : list char) : outcome Z :=
  let n := symbol_len (skipn 1 str) 1 in
  let* symbol := str_sub str 0 n in
  let* found := find_element symbol ELEMENTS 0 in
  match found with
  | None => Fail
  | Some z =>
      let m := first_digit (skipn n str) n n in
      let* mass := str_sub str m (List.length str) in
      let* a := strto_int32 (mass ++ [0%Z])%list in
      let* p := i32 (1000 * z) in
      i32 (p + a)
  end.
