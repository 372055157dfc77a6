(** What StringView searches, comparisons and the lattice reader promise. *)
From Coq Require Import List Arith ZArith.
From Verif Require Import Base StringView_Model.
Import ListNotations.

(** The chars of a view; a valid view lies inside its buffer. *)
Definition text (v : sv) : list char := firstn (vsize v) (tail v).
Definition valid (v : sv) : Prop := vsize v <= length (tail v).

(** Lexicographic order: smaller at the first difference, or a proper prefix. *)
Inductive lexlt : list char -> list char -> Prop :=
| lexlt_prefix l a r : lexlt l (l ++ a :: r)
| lexlt_diff p a b l r : (a < b)%Z -> lexlt (p ++ a :: l) (p ++ b :: r).

(** The least position >= pos (the greatest <= pos) with property P; None if there is none. *)
Definition least_from (P : nat -> Prop) (pos : nat) (r : option nat) : Prop :=
  match r with
  | Some i => pos <= i /\ P i /\ forall j, pos <= j < i -> ~ P j
  | None => forall j, pos <= j -> ~ P j
  end.
Definition greatest_upto (P : nat -> Prop) (pos : nat) (r : option nat) : Prop :=
  match r with
  | Some i => i <= pos /\ P i /\ forall j, i < j <= pos -> ~ P j
  | None => forall j, j <= pos -> ~ P j
  end.
(** [s] occurs in [l] at position [i] *)
Definition occurs (s l : list char) (i : nat) : Prop :=
  exists p q, l = p ++ s ++ q /\ length p = i.

(** [runs d l ts]: the maximal d-free runs of [l] are [ts], in order. *)
Inductive runs (d : char) : list char -> list (list char) -> Prop :=
| runs_none k : runs d (repeat d k) []
| runs_some k t l ts : t <> [] -> ~ In d t -> (l = [] \/ exists l', l = d :: l') ->
    runs d l ts -> runs d (repeat d k ++ t ++ l) (t :: ts).

(** ** Printed tables *)

(** Decimal digits of a natural number, leading zeros allowed. *)
Inductive dec : list char -> Z -> Prop :=
| dec_one d : (0 <= d <= 9)%Z -> dec [48 + d]%Z d
| dec_more l z d : dec l z -> (0 <= d <= 9)%Z -> dec (l ++ [48 + d]%Z) (10 * z + d)%Z.
Inductive num : list char -> Z -> Prop :=
| num_pos l z : dec l z -> num l z
| num_neg l z : dec l z -> num (45%Z :: l) (- z)%Z.

Definition int32 (z : Z) : Prop := (- 2147483648 <= z <= 2147483647)%Z.

(** One line: numbers, each surrounded by any number of blanks, with at least one
    delimiter between two of them and any number of delimiters around. *)
Inductive line_text (d : char) : list char -> list Z -> Prop :=
| line_end k : line_text d (repeat d k) []
| line_num k a l z b r zs : num l z -> int32 z -> (r = [] \/ exists r', r = d :: r') ->
    line_text d r zs ->
    line_text d (repeat d k ++ repeat SPACE a ++ l ++ repeat SPACE b ++ r) (z :: zs).

(** Lines with at least one number, separated by one or more newlines; after the last
    one there may be newlines and blanks. *)
Inductive lines_text (d : char) : list char -> list (list Z) -> Prop :=
| lines_end k e : lines_text d (repeat NEWLINE k ++ repeat SPACE e) []
| lines_line k l zs r zss : line_text d l zs -> zs <> [] ->
    (r = [] \/ exists r', r = NEWLINE :: r') -> lines_text d r zss ->
    lines_text d (repeat NEWLINE k ++ l ++ r) (zs :: zss).

(** A delimiter that is neither part of a number nor the newline. *)
Definition ok_delim (d : char) : Prop := isdigit d = false /\ d <> 45%Z /\ d <> NEWLINE.
