(** Model of include/um2/math/matrix.hpp (class Matrix<T>) without BLAS/LAPACK.

    Over an arbitrary arithmetic of T.  Elements are stored in one Vector, column by column.
    linearSolve and eigvals exist only with BLAS/LAPACK: see Blas_Model. *)
From Coq Require Import List Arith ZArith Bool.
From Verif Require Import Base Loops Arith.
Import ListNotations.

Section Matrix.
Context {T : Type} (o : arith T).

(** matrix.hpp:28-33 *)
Record matrix := mkM { rows : nat; cols : nat; data : list T }.

(** the index j * _rows + i, an Int expression *)
Definition index (m : matrix) (i j : nat) : outcome Z :=
  let* p := i32 (Z.of_nat j * Z.of_nat (rows m)) in
  i32 (p + Z.of_nat i).
(** matrix.hpp:265-285: the asserts i < rows, j < cols have no effect in a release build *)
Definition get (m : matrix) (i j : nat) : outcome T :=
  let* k := index m i j in rdz (data m) k.
Definition set (m : matrix) (i j : nat) (x : T) : outcome matrix :=
  let* k := index m i j in
  let* d := wr (data m) (Z.to_nat k) x in
  Ret (mkM (rows m) (cols m) d).

(** matrix.hpp:291-309: rows * cols is an Int expression; [None] elements would be the
    uninitialised ones of Matrix(rows, cols), which every caller overwrites: the model takes the
    initial contents as the argument [x] *)
Definition make (r c : nat) (x : T) : outcome matrix :=
  let* n := i32 (Z.of_nat r * Z.of_nat c) in
  Ret (mkM r c (repeat x (Z.to_nat n))).

(** matrix.hpp:311-321 *)
Definition identity (n : nat) : outcome matrix :=
  let* m := make n n (o0 o) in
  for_ n 0 (fun i m => set m i i (o1 o)) m.

(** matrix.hpp:327-361; the loop bound is the Int expression _rows * _cols *)
Definition scale (m : matrix) (s : T) : outcome matrix :=
  let* n := i32 (Z.of_nat (rows m) * Z.of_nat (cols m)) in
  for_ (Z.to_nat n) 0 (fun i m =>
    let* x := rd (data m) i in
    let* d := wr (data m) i (omul o x s) in
    Ret (mkM (rows m) (cols m) d)) m.
Definition add_to (f : T -> T -> T) (m other : matrix) : outcome matrix :=
  if negb ((rows m =? rows other) && (cols m =? cols other)) then Ub else
  let* n := i32 (Z.of_nat (rows m) * Z.of_nat (cols m)) in
  for_ (Z.to_nat n) 0 (fun i m =>
    let* x := rd (data m) i in
    let* y := rd (data other) i in
    let* d := wr (data m) i (f x y) in
    Ret (mkM (rows m) (cols m) d)) m.
Definition add_assign := add_to (oadd o).
Definition sub_assign := add_to (osub o).
(** matrix.hpp:407-433; [x0] stands for the uninitialised contents of result *)
Definition combine_ (f : T -> T -> T) (x0 : T) (a b : matrix) : outcome matrix :=
  if negb ((rows a =? rows b) && (cols a =? cols b)) then Ub else
  let* r := make (rows a) (cols a) x0 in
  let* n := i32 (Z.of_nat (rows a) * Z.of_nat (cols a)) in
  for_ (Z.to_nat n) 0 (fun i m =>
    let* x := rd (data a) i in
    let* y := rd (data b) i in
    let* d := wr (data m) i (f x y) in
    Ret (mkM (rows m) (cols m) d)) r.
Definition add := combine_ (oadd o).
Definition sub := combine_ (osub o).

(** matrix.hpp:367-371 *)
Definition zero (m : matrix) : matrix := mkM (rows m) (cols m) (map (fun _ => o0 o) (data m)).

(** matrix.hpp:376-401; [conj] is the identity unless T is complex.  The ASSERT(_rows == _cols) has
    no effect in a release build. *)
Definition tswap (conj : T -> T) (j i : nat) (m : matrix) : outcome matrix :=
  let* aij := get m i j in
  let* aji := get m j i in
  let* m := set m i j (conj aji) in
  set m j i (conj aij).
Definition transpose (conj : T -> T) (m : matrix) : outcome matrix :=
  let* m := for_ (cols m - 1) 0 (fun j m =>
      for_ (rows m - S j) (S j) (fun i m => tswap conj j i m) m) m in
  for_ (rows m) 0 (fun i m => let* x := get m i i in set m i i (conj x)) m.

(** matrix.hpp:438-451 *)
Definition mat_vec (a : matrix) (x : list T) : outcome (list T) :=
  for_ (cols a) 0 (fun i y =>
    for_ (rows a) 0 (fun j y =>
      let* yj := rd y j in
      let* aji := get a j i in
      let* xi := rd x i in
      wr y j (oadd o yj (omul o aji xi))) y) (repeat (o0 o) (rows a)).

(** matrix.hpp:470-485 *)
Definition matmul (c a b : matrix) : outcome matrix :=
  for_ (rows a) 0 (fun i c =>
    for_ (cols b) 0 (fun j c =>
      for_ (cols a) 0 (fun k c =>
        let* cij := get c i j in
        let* aik := get a i k in
        let* bkj := get b k j in
        set c i j (oadd o cij (omul o aik bkj))) c) c) c.
(** matrix.hpp:453-468 *)
Definition mat_mat (a b : matrix) : outcome matrix :=
  let* c := make (rows a) (cols b) (o0 o) in
  matmul c a b.
End Matrix.
Arguments mkM {T}. Arguments rows {T}. Arguments cols {T}. Arguments data {T}.
