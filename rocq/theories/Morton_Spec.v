(** What a Morton code is: the bits of the coordinates, interleaved. *)
From Coq Require Import NArith ZArith Reals.
Local Open Scope N_scope.

Definition interleaves2 (m x y : N) : Prop :=
  forall i, N.testbit m (2 * i) = N.testbit x i /\
            N.testbit m (2 * i + 1) = N.testbit y i.

Definition interleaves3 (m x y z : N) : Prop :=
  forall i, N.testbit m (3 * i) = N.testbit x i /\
            N.testbit m (3 * i + 1) = N.testbit y i /\
            N.testbit m (3 * i + 2) = N.testbit z i.

(** What is assumed of the rounding: monotone, exact on 0 and on the scale factor. *)
Definition rounding (mx : N) (rnd : R -> R) : Prop :=
  (forall a b, (a <= b)%R -> (rnd a <= rnd b)%R) /\ rnd 0%R = 0%R /\
  rnd (IZR (Z.of_N mx)) = IZR (Z.of_N mx).
(** [k] is the integer part of x times the largest coordinate *)
Definition scaled (mx : N) (rnd : R -> R) (x : R) (k : N) : Prop :=
  (IZR (Z.of_N k) <= rnd (x * IZR (Z.of_N mx)) < IZR (Z.of_N k) + 1)%R.
