(** Model of src/math/matrix.cpp: the products, the solver and the eigenvalues of class Matrix in a
    build with BLAS and LAPACK.  The four specialisations of each function (float, double and the two
    complex types) differ in the arithmetic only: the model is over an arbitrary arithmetic.

    BLAS is not part of the repository.  [gemv] and [gemm] are its reference routines (dgemv.f, dgemm.f)
    for untransposed matrices stored by columns, unit increments and beta equal to zero, the only way
    they are called; [None] marks an element nobody has written.  A call the reference refuses (xerbla
    stops the program) is Fail.  LAPACK's gesv and geev are arguments. *)
From Coq Require Import List Arith ZArith Bool Reals.
From Coquelicot Require Import Complex.
From Verif Require Import Base Loops Arith Matrix_Model.
Import ListNotations.
Local Open Scope nat_scope.

(** um2/stdlib/assert.hpp: a failed ASSERT ends the program in a build with assertions only *)
Definition require (checks b : bool) : outcome unit := if checks && negb b then Fail else Ret tt.

Section Blas.
Context {T : Type} (o : arith T).

(** reading an element of an array that may not be written yet *)
Definition rdo (l : list (option T)) (i : nat) : outcome T :=
  let* x := rd l i in match x with Some x => Ret x | None => Ub end.

(** y <- alpha A x + 0 y: refused when the leading dimension is too small; an empty matrix leaves y as
    it is (dgemv.f, "Quick return if possible") *)
Definition gemv (m n : nat) (alpha : T) (a : list T) (lda : nat) (x : list T) (y : list (option T)) : outcome (list (option T)) :=
  if lda <? Nat.max 1 m then Fail else
  if (m =? 0) || (n =? 0) then Ret y else
  let* y := for_ m 0 (fun i y => wr y i (Some (o0 o))) y in
  for_ n 0 (fun j y =>
    let* xj := rd x j in
    let temp := omul o alpha xj in
    for_ m 0 (fun i y =>
      let* yi := rdo y i in
      let* aij := rd a (j * lda + i) in
      wr y i (Some (oadd o yi (omul o temp aij)))) y) y.

(** C <- alpha A B + 0 C for an m by k matrix A and a k by n matrix B (dgemm.f) *)
Definition gemm (m n k : nat) (alpha : T) (a : list T) (lda : nat) (b : list T) (ldb : nat) (c : list (option T)) (ldc : nat) : outcome (list (option T)) :=
  if (lda <? Nat.max 1 m) || (ldb <? Nat.max 1 k) || (ldc <? Nat.max 1 m) then Fail else
  if (m =? 0) || (n =? 0) then Ret c else
  for_ n 0 (fun j c =>
    let* c := for_ m 0 (fun i c => wr c (j * ldc + i) (Some (o0 o))) c in
    for_ k 0 (fun l c =>
      let* blj := rd b (j * ldb + l) in
      let temp := omul o alpha blj in
      for_ m 0 (fun i c =>
        let* cij := rdo c (j * ldc + i) in
        let* ail := rd a (l * lda + i) in
        wr c (j * ldc + i) (Some (oadd o cij (omul o temp ail)))) c) c) c.

(** matrix.cpp:24-129: the vector y(a.rows()) is not initialised *)
Definition mat_vec_blas (checks : bool) (a : @matrix T) (x : list T) : outcome (list (option T)) :=
  let* _ := require checks (cols a =? length x) in
  gemv (rows a) (cols a) (o1 o) (data a) (rows a) x (repeat None (rows a)).

(** matrix.cpp:135-247: neither is the matrix c(a.rows(), b.cols()), whose size is an Int expression *)
Definition mat_mat_blas (checks : bool) (a b : @matrix T) : outcome (@matrix (option T)) :=
  let* _ := require checks (cols a =? rows b) in
  let* c := make (rows a) (cols b) None in
  let* d := gemm (rows a) (cols b) (cols a) (o1 o) (data a) (rows a) (data b) (rows b) (data c) (rows c) in
  Ret (mkM (rows c) (cols c) d).

(** matrix.cpp:249-361 *)
Definition matmul_blas (checks : bool) (c : @matrix (option T)) (a b : @matrix T) : outcome (@matrix (option T)) :=
  let* _ := require checks (cols a =? rows b) in
  let* _ := require checks (rows c =? rows a) in
  let* _ := require checks (cols c =? cols b) in
  let* d := gemm (rows a) (cols b) (cols a) (o1 o) (data a) (rows a) (data b) (rows b) (data c) (rows c) in
  Ret (mkM (rows c) (cols c) d).
End Blas.

Section Lapack.
Context {T : Type}.
(** gesv n nrhs a lda ipiv b ldb: the new a, ipiv and b, and info *)
Variable gesv : nat -> nat -> list T -> nat -> list Z -> list T -> nat -> outcome (list T * list Z * list T * Z).

(** matrix.cpp:502-610: the new contents of a, b and ipiv *)
Definition linearSolve_in_place (checks : bool) (a b : @matrix T) (ipiv : list Z) : outcome (@matrix T * @matrix T * list Z) :=
  let* _ := require checks (rows a =? cols a) in
  let* _ := require checks (rows a =? rows b) in
  let* _ := require checks (rows a =? length ipiv) in
  let n := rows a in
  let nrhs := cols b in
  let* r := gesv n nrhs (data a) (rows a) ipiv (data b) (rows b) in
  let '(da, p, db, info) := r in
  let* _ := require checks (info =? 0)%Z in
  Ret (mkM (rows a) (cols a) da, mkM (rows b) (cols b) db, p).

(** matrix.cpp:367-500: works on copies; [junk] stands for the uninitialised elements of new Int[n].
    The result, and the arguments after the call *)
Definition linearSolve (checks : bool) (junk : Z) (a b : @matrix T) : outcome (@matrix T * @matrix T * @matrix T) :=
  let* _ := require checks (rows a =? cols a) in
  let* _ := require checks (rows a =? rows b) in
  let n := rows a in
  let nrhs := cols b in
  let a_copy := a in
  let ipiv := repeat junk n in
  let b_copy := b in
  let* r := gesv n nrhs (data a_copy) (rows a) ipiv (data b_copy) (rows b) in
  let '(da, p, db, info) := r in
  let* _ := require checks (info =? 0)%Z in
  Ret (mkM (rows b_copy) (cols b_copy) db, a, b).
End Lapack.

Section Eigen.
(** geev n a lda lwork: the real and imaginary parts of the eigenvalues, and info *)
Variable geev : nat -> list R -> nat -> Z -> outcome (list R * list R * Z).
(** matrix.cpp:616-694: the size 4 * n of the workspace is an Int expression *)
Definition eigvals_real (checks : bool) (a : @matrix R) : outcome (list C) :=
  let* _ := require checks (rows a =? cols a) in
  let n := rows a in
  let* lwork := i32 (4 * Z.of_nat n) in
  let* r := geev n (data a) (rows a) lwork in
  let '(wr_, wi, info) := r in
  let* _ := require checks (info =? 0)%Z in
  for_ n 0 (fun i w =>
    let* x := rd wr_ i in
    let* y := rd wi i in
    wr w i (x, y)) (repeat (RtoC 0) n).

(** geev for complex types *)
Variable cgeev : nat -> list C -> nat -> Z -> outcome (list C * Z).
(** matrix.cpp:696-775 *)
Definition eigvals_complex (checks : bool) (a : @matrix C) : outcome (list C) :=
  let* _ := require checks (rows a =? cols a) in
  let n := rows a in
  let* lwork := i32 (4 * Z.of_nat n) in
  let* r := cgeev n (data a) (rows a) lwork in
  let '(w, info) := r in
  let* _ := require checks (info =? 0)%Z in
  Ret w.
End Eigen.
