(** Vocabulary for the colour properties. *)
From Coq Require Import ZArith Reals Floats.SpecFloat.
From Verif Require Import Base Color_Model.

(** four bytes *)
Definition is_color (c : color) : Prop :=
  (0 <= r c < 256 /\ 0 <= g c < 256 /\ 0 <= b c < 256 /\ 0 <= a c < 256)%Z.
(** What is known about the rounding of a product: it is monotone and does not change the
    integers 0 and 255.  Holds for exact arithmetic and for IEEE float/double in any mode. *)
Definition sane_rounding (rnd : R -> R) : Prop :=
  (forall x y, (x <= y)%R -> (rnd x <= rnd y)%R) /\ rnd 0%R = 0%R /\ rnd 255%R = 255%R.
(** k/255 correctly rounded *)
Definition fraction (prec emax k : Z) : spec_float :=
  SFdiv prec emax (binary_normalize prec emax k 0 false) (binary_normalize prec emax 255 0 false).
