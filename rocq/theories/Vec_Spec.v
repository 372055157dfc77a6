(** Linear algebra vocabulary. *)
From Coq Require Import List Arith ZArith Reals.
From Verif Require Import Base Arith.
Import ListNotations.

Section Spec.
Context {T : Type} (o : arith T).
(** component i of a vector, entry (i, j) of a matrix given by its columns *)
Definition comp (u : list T) (i : nat) : T := nth i u (o0 o).
Definition entry (a : list (list T)) (i j : nat) : T := comp (nth j a []) i.
(** a matrix with M rows and N columns *)
Definition shape (M N : nat) (a : list (list T)) : Prop :=
  length a = N /\ forall c, In c a -> length c = M.
(** the textbook products; the sums run from k = 0 upward, starting with 0 *)
Definition prod_vec (N : nat) (a : list (list T)) (x : list T) (i : nat) : T :=
  sum_left o N (fun k => omul o (entry a i k) (comp x k)).
Definition prod_mat (N : nat) (a b : list (list T)) (i j : nat) : T :=
  sum_left o N (fun k => omul o (entry a i k) (entry b k j)).
End Spec.

(** a 2 by 2 matrix of reals, by rows *)
Definition mat22 (a b c d : R) : list (list R) := [[a; c]; [b; d]].
Definition ident22 : list (list R) := mat22 1 0 0 1.

(** a strict total order *)
Record strict_total {A : Type} (lt : A -> A -> Prop) : Prop := {
  st_irr : forall x, ~ lt x x;
  st_trans : forall x y z, lt x y -> lt y z -> lt x z;
  st_total : forall x y, lt x y \/ x = y \/ lt y x }.
(** the first component in which the vectors differ decides *)
Definition lex_lt (u v : list R) : Prop :=
  exists i x y, nth_error u i = Some x /\ nth_error v i = Some y /\ (x < y)%R /\
    forall j, j < i -> nth_error u j = nth_error v j.
