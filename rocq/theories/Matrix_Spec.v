(** Dynamic matrices: well-formedness and entries. *)
From Coq Require Import List Arith ZArith Lia.
From Verif Require Import Base Loops Arith Matrix_Model.
Import ListNotations.

Section Spec.
Context {T : Type} (o : arith T).
(** the storage has one element per (i, j) and its size fits an Int *)
Definition wf (m : @matrix T) : Prop :=
  length (data m) = rows m * cols m /\ (Z.of_nat (rows m) * Z.of_nat (cols m) <= intMax)%Z.
(** entry (i, j): element i of column j *)
Definition ent (m : @matrix T) (i j : nat) : T := nth (j * rows m + i) (data m) (o0 o).
(** [m] is an r by c matrix with entries f *)
Definition is_mat (m : @matrix T) (r c : nat) (f : nat -> nat -> T) : Prop :=
  wf m /\ rows m = r /\ cols m = c /\ forall i j, i < r -> j < c -> ent m i j = f i j.
End Spec.
