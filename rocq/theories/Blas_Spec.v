(** What LAPACK promises, on arrays stored by columns, and what systems and eigenvalues are. *)
From Coq Require Import List Arith ZArith Reals.
From Coquelicot Require Import Complex.
From Verif Require Import Base Arith.
Import ListNotations.
Local Open Scope nat_scope.

Section Spec.
Context {T : Type} (o : arith T).
(** entry (i, j) of an array of columns of n elements *)
Definition at_ (n : nat) (l : list T) (i j : nat) : T := nth (j * n + i) l (o0 o).
(** A X = B for an n by n matrix A and p columns *)
Definition solves (n p : nat) (a x b : nat -> nat -> T) : Prop :=
  forall i j, i < n -> j < p -> sum_left o n (fun k => omul o (a i k) (x k j)) = b i j.
(** some combination of the rows, not with weights zero, is zero *)
Definition dependent (n : nat) (a : nat -> nat -> T) : Prop :=
  exists w : nat -> T, (exists i, i < n /\ w i <> o0 o) /\
    forall k, k < n -> sum_left o n (fun i => omul o (w i) (a i k)) = o0 o.

(** gesv, called with arrays of the sizes it asks for: info is 0 and the third array is the solution; or
    the rows are dependent, info is positive and the right hand side is as it was *)
Definition lapack_solves (gesv : nat -> nat -> list T -> nat -> list Z -> list T -> nat -> outcome (list T * list Z * list T * Z)) : Prop :=
  forall n nrhs a ipiv b, 1 <= n -> length a = n * n -> length ipiv = n -> length b = n * nrhs ->
    exists a' p' b' info, gesv n nrhs a n ipiv b n = Ret (a', p', b', info) /\
      length a' = n * n /\ length p' = n /\ length b' = n * nrhs /\
      ((info = 0%Z /\ solves n nrhs (at_ n a) (at_ n b') (at_ n b)) \/
       ((0 < info)%Z /\ dependent n (at_ n a) /\ b' = b)).
End Spec.

(** lambda is an eigenvalue of an n by n matrix *)
Fixpoint csum (n : nat) (f : nat -> C) : C := match n with O => RtoC 0 | S n => Cplus (csum n f) (f n) end.
Definition eigenvalue (n : nat) (a : nat -> nat -> C) (lambda : C) : Prop :=
  exists v : nat -> C, (exists i, i < n /\ v i <> RtoC 0) /\
    forall i, i < n -> csum n (fun k => Cmult (a i k) (v k)) = Cmult lambda (v i).

(** geev, given a workspace of at least 3 n elements (2 n for complex types): if info is 0, n values,
    exactly the eigenvalues; a positive info says that the iteration did not converge *)
Definition lapack_eigen (geev : nat -> list R -> nat -> Z -> outcome (list R * list R * Z)) : Prop :=
  forall n a lwork, 1 <= n -> length a = n * n -> (3 * Z.of_nat n <= lwork)%Z ->
    exists wr wi info, geev n a n lwork = Ret (wr, wi, info) /\ length wr = n /\ length wi = n /\ (0 <= info)%Z /\
      (info = 0%Z -> forall l : C, In l (combine wr wi) <-> eigenvalue n (fun i j => RtoC (nth (j * n + i) a 0%R)) l).
Definition lapack_eigen_complex (cgeev : nat -> list C -> nat -> Z -> outcome (list C * Z)) : Prop :=
  forall n a lwork, 1 <= n -> length a = n * n -> (2 * Z.of_nat n <= lwork)%Z ->
    exists w info, cgeev n a n lwork = Ret (w, info) /\ length w = n /\ (0 <= info)%Z /\
      (info = 0%Z -> forall l : C, In l w <-> eigenvalue n (fun i j => nth (j * n + i) a (RtoC 0)) l).
