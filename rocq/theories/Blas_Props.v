(** C89: products, linear systems and eigenvalues in a build with BLAS and LAPACK. *)
From Coq Require Import List Arith ZArith Reals Lia Lra.
From Coquelicot Require Import Complex.
From Verif Require Import Base Loops Arith Matrix_Model Matrix_Spec Matrix_Proofs Cmfd_Model Cmfd_Spec.
From Verif Require Import Blas_Model Blas_Spec Blas_Proofs Blas_Ex_Proofs Blas_Cmfd_Proofs.
Import ListNotations.
Local Open Scope nat_scope.

(** A * x and A * B of non-empty matrices, and matmul(C, A, B) whatever C held: every element is written
    and equal to the textbook sum, summed in the order of the build without BLAS, in any arithmetic where
    1 x = x and the product commutes. *)
Theorem C89_products : forall (T : Type) (o : arith T) checks,
  (forall x, omul o (o1 o) x = x) -> (forall x y, omul o x y = omul o y x) ->
  (forall a x r c f, is_mat o a r c f -> length x = c -> r <> 0 -> c <> 0 ->
     mat_vec_blas o checks a x = Ret (map (fun i => Some (sum_left o c (fun k => omul o (f i k) (nth k x (o0 o))))) (seq 0 r))) /\
  (forall a b r n p fa fb, is_mat o a r n fa -> is_mat o b n p fb -> r <> 0 -> n <> 0 -> p <> 0 ->
     ((Z.of_nat r * Z.of_nat p <= intMax)%Z ->
      exists c, mat_mat_blas o checks a b = Ret c /\ rows c = r /\ cols c = p /\ length (data c) = r * p /\
        forall i j, i < r -> j < p -> nth (j * r + i) (data c) None = Some (sum_left o n (fun k => omul o (fa i k) (fb k j)))) /\
     (forall c, rows c = r -> cols c = p -> length (data c) = r * p ->
      exists c', matmul_blas o checks c a b = Ret c' /\ rows c' = r /\ cols c' = p /\ length (data c') = r * p /\
        forall i j, i < r -> j < p -> nth (j * r + i) (data c') None = Some (sum_left o n (fun k => omul o (fa i k) (fb k j))))).
Proof.
  exact (fun T o checks H1 H2 => conj (fun a x r c f => mat_vec_blas_ok o H1 H2 checks a x r c f)
    (fun a b r n p fa fb Ha Hb Hr Hn Hp => conj (mat_mat_blas_ok o H1 H2 checks a b r n p fa fb Ha Hb Hr Hn Hp)
      (fun c => matmul_blas_ok o H1 H2 checks c a b r n p fa fb Ha Hb Hr Hn Hp))).
Qed.
Print Assumptions C89_products.
Definition ex_a : @matrix Z := mkM 2 3 [1; 2; 3; 4; 5; 6]%Z.
Definition ex_b : @matrix Z := mkM 3 2 [1; 0; 2; -1; 1; 0]%Z.
Example C89_products_ex :
  is_mat Zarith ex_a 2 3 (ent Zarith ex_a) /\ is_mat Zarith ex_b 3 2 (ent Zarith ex_b) /\
  mat_vec_blas Zarith true ex_a [1; 10; 100]%Z = Ret [Some 531; Some 642]%Z /\
  mat_mat_blas Zarith true ex_a ex_b = Ret (mkM 2 2 [Some 11; Some 14; Some 2; Some 2]%Z) /\
  matmul_blas Zarith true (mkM 2 2 [None; Some 7; None; Some 9]%Z) ex_a ex_b = Ret (mkM 2 2 [Some 11; Some 14; Some 2; Some 2]%Z).
Proof.
  split; [apply is_mat_self; split; [reflexivity|vm_compute; discriminate]|]. split; [apply is_mat_self; split; [reflexivity|vm_compute; discriminate]|].
  vm_compute. auto.
Qed.

(** matmul gives C = A B here and C += A B in a build without BLAS: for the same call with a C that is not
    zero the two builds differ. *)
Theorem C89_same_in_both_builds_refuted : exists (c a b : @matrix Z) m1 m2,
  wf c /\ wf a /\ wf b /\ rows c = rows a /\ cols c = cols b /\ cols a = rows b /\
  matmul Zarith c a b = Ret m1 /\ matmul_blas Zarith true (mkM (rows c) (cols c) (map Some (data c))) a b = Ret m2 /\
  map Some (data m1) <> data m2.
Proof.
  exists (mkM 1 1 [1%Z]), (mkM 1 1 [2%Z]), (mkM 1 1 [3%Z]), (mkM 1 1 [7%Z]), (mkM 1 1 [Some 6%Z]).
  do 3 (split; [split; [reflexivity|vm_compute; discriminate]|]). do 5 (split; [reflexivity|]). cbn. discriminate.
Qed.
Print Assumptions C89_same_in_both_builds_refuted.

(** "A * x is the zero vector if A has no columns, and the empty vector if A has no rows" (as in a build
    without BLAS) fails: without columns BLAS returns at once and no element of the result is ever written;
    without rows the leading dimension 0 is refused. *)
Theorem C89_empty_refuted : forall (T : Type) (o : arith T) checks (a : @matrix T) x, cols a = length x ->
  (rows a = 0 -> mat_vec_blas o checks a x = Fail) /\
  (rows a <> 0 -> cols a = 0 -> x = [] -> mat_vec_blas o checks a x = Ret (repeat None (rows a)) /\ mat_vec o a x = Ret (repeat (o0 o) (rows a))).
Proof.
  exact (fun T o checks a x Hx => conj (fun Hr => no_rows o checks a x Hr Hx)
    (fun Hr Hc E => eq_ind_r (fun x => mat_vec_blas o checks a x = Ret (repeat None (rows a)) /\ mat_vec o a x = Ret (repeat (o0 o) (rows a)))
      (conj (no_cols o checks a Hr Hc) (no_cols_plain o a [] Hc)) E)).
Qed.
Print Assumptions C89_empty_refuted.
Example C89_empty_ex : mat_vec_blas Zarith true (mkM 2 0 []) [] = Ret [None; None] /\ mat_vec Zarith (mkM 2 0 []) [] = Ret [0; 0]%Z /\
  mat_vec_blas Zarith true (mkM 0 2 []) [1; 2]%Z = Fail /\ mat_vec Zarith (mkM 0 2 []) [1; 2]%Z = Ret [].
Proof. vm_compute. auto. Qed.

(** linearSolve(A, B): the arguments are unchanged, and either A X = B for the matrix X returned, or the
    rows of A are dependent and the program stops (with assertions) or returns B (without).
    linearSolve(A, B, ipiv): the same with X left in B. *)
Theorem C89_solve : forall (T : Type) (o : arith T) gesv checks a b n p fa fb, lapack_solves o gesv ->
  is_mat o a n n fa -> is_mat o b n p fb -> 1 <= n ->
  (forall junk,
    (exists m x, linearSolve gesv checks junk a b = Ret (m, a, b) /\ is_mat o m n p x /\ solves o n p fa x fb) \/
    (dependent o n fa /\ linearSolve gesv checks junk a b = if checks then Fail else Ret (b, a, b))) /\
  (forall ipiv, length ipiv = n ->
    (exists a' b' q x, linearSolve_in_place gesv checks a b ipiv = Ret (a', b', q) /\
       wf a' /\ rows a' = n /\ cols a' = n /\ length q = n /\ is_mat o b' n p x /\ solves o n p fa x fb) \/
    (dependent o n fa /\
       if checks then linearSolve_in_place gesv checks a b ipiv = Fail
       else exists a' q, linearSolve_in_place gesv checks a b ipiv = Ret (a', b, q) /\ wf a' /\ rows a' = n /\ cols a' = n /\ length q = n)).
Proof.
  exact (fun T o gesv checks a b n p fa fb H Ha Hb Hn => conj
    (fun junk => copy_ok o gesv H checks junk a b n p fa fb Ha Hb Hn)
    (fun ipiv Hi => in_place_ok o gesv H checks a b ipiv n p fa fb Ha Hb Hi Hn)).
Qed.
Print Assumptions C89_solve.
(** the two cases, for the matrices (2 1; 1 1) and (1 1; 1 1) *)
Definition ex_reg : @matrix R := mkM 2 2 [2; 1; 1; 1]%R.
Definition ex_sing : @matrix R := mkM 2 2 [1; 1; 1; 1]%R.
Definition ex_rhs : @matrix R := mkM 2 1 [3; 2]%R.
Example C89_solve_ex : exists gesv, lapack_solves Rarith gesv /\
  (exists m x, linearSolve gesv true 0 ex_reg ex_rhs = Ret (m, ex_reg, ex_rhs) /\ is_mat Rarith m 2 1 x /\ x 0%nat 0%nat = 1%R /\ x 1%nat 0%nat = 1%R) /\
  linearSolve gesv true 0 ex_sing ex_rhs = Fail /\
  linearSolve gesv false 0 ex_sing ex_rhs = Ret (ex_rhs, ex_sing, ex_rhs).
Proof.
  destruct (gesv_exists Rarith Rinv R_field_theory_) as (gesv & H). exists gesv. split; [exact H|].
  assert (Wr : is_mat Rarith ex_reg 2 2 (ent Rarith ex_reg)) by (apply is_mat_self; split; [reflexivity|vm_compute; discriminate]).
  assert (Ws : is_mat Rarith ex_sing 2 2 (ent Rarith ex_sing)) by (apply is_mat_self; split; [reflexivity|vm_compute; discriminate]).
  assert (Wb : is_mat Rarith ex_rhs 2 1 (ent Rarith ex_rhs)) by (apply is_mat_self; split; [reflexivity|vm_compute; discriminate]).
  assert (Sum : forall f, sum_left Rarith 2 f = (f 0%nat + f 1%nat)%R) by (intros f; cbn; ring).
  split.
  - destruct (copy_ok Rarith gesv H true 0 ex_reg ex_rhs 2 1 _ _ Wr Wb ltac:(lia)) as [(m & x & E & Hm & Hs)|(Hd & _)].
    + exists m, x. split; [exact E|]. split; [exact Hm|]. pose proof (Hs 0 0 ltac:(lia) ltac:(lia)) as E0. pose proof (Hs 1 0 ltac:(lia) ltac:(lia)) as E1.
      rewrite Sum in E0, E1. cbn in E0, E1. split; lra.
    + exfalso. destruct Hd as (w & (i & Hi & Hw) & Hz). pose proof (Hz 0 ltac:(lia)) as E0. pose proof (Hz 1 ltac:(lia)) as E1.
      rewrite Sum in E0, E1. cbn in E0, E1. cbn in Hw. apply Hw. destruct i as [|[|i]]; [lra|lra|lia].
  - assert (N : forall x, ~ solves Rarith 2 1 (ent Rarith ex_sing) x (ent Rarith ex_rhs)).
    { intros x Hs. pose proof (Hs 0 0 ltac:(lia) ltac:(lia)) as E0. pose proof (Hs 1 0 ltac:(lia) ltac:(lia)) as E1.
      rewrite Sum in E0, E1. cbn in E0, E1. lra. }
    split.
    + destruct (copy_ok Rarith gesv H true 0 ex_sing ex_rhs 2 1 _ _ Ws Wb ltac:(lia)) as [(m & x & _ & _ & Hs)|(_ & E)]; [now apply N in Hs|exact E].
    + destruct (copy_ok Rarith gesv H false 0 ex_sing ex_rhs 2 1 _ _ Ws Wb ltac:(lia)) as [(m & x & _ & _ & Hs)|(_ & E)]; [now apply N in Hs|exact E].
Qed.

(** "linearSolve(A, B) returns X with A X = B" fails in a release build for a singular A: B comes back and
    nothing tells the caller. *)
Theorem C89_singular_refuted : exists gesv (a b m : @matrix R), lapack_solves Rarith gesv /\ wf a /\ wf b /\
  rows a = cols a /\ rows b = rows a /\ linearSolve gesv false 0 a b = Ret (m, a, b) /\
  ~ solves Rarith (rows a) (cols b) (ent Rarith a) (ent Rarith m) (ent Rarith b).
Proof.
  destruct C89_solve_ex as (gesv & H & _ & _ & E). exists gesv, ex_sing, ex_rhs, ex_rhs. split; [exact H|].
  do 2 (split; [split; [reflexivity|vm_compute; discriminate]|]). do 2 (split; [reflexivity|]). split; [exact E|].
  intros Hs. pose proof (Hs 0 0 ltac:(cbn; lia) ltac:(cbn; lia)) as E0. pose proof (Hs 1 0 ltac:(cbn; lia) ltac:(cbn; lia)) as E1. cbn in E0, E1. lra.
Qed.
Print Assumptions C89_singular_refuted.

(** eigvals(A): n values, exactly the eigenvalues of A, if the iteration of LAPACK converged (info is 0);
    otherwise the program stops (with assertions) or returns n other values (without). *)
Theorem C89_eigvals : forall geev cgeev checks, lapack_eigen geev -> lapack_eigen_complex cgeev ->
  (forall a n f, is_mat Rarith a n n f -> 1 <= n -> (4 * Z.of_nat n <= intMax)%Z ->
    exists x y info, geev n (data a) n (4 * Z.of_nat n)%Z = Ret (x, y, info) /\
      (info = 0%Z -> exists w, eigvals_real geev checks a = Ret w /\ length w = n /\ forall l, In l w <-> eigenvalue n (fun i j => RtoC (f i j)) l) /\
      (info <> 0%Z -> if checks then eigvals_real geev checks a = Fail else exists w, eigvals_real geev checks a = Ret w /\ length w = n)) /\
  (forall a n f, is_mat Carith a n n f -> 1 <= n -> (4 * Z.of_nat n <= intMax)%Z ->
    exists w info, cgeev n (data a) n (4 * Z.of_nat n)%Z = Ret (w, info) /\ length w = n /\
      (info = 0%Z -> eigvals_complex cgeev checks a = Ret w /\ forall l, In l w <-> eigenvalue n f l) /\
      (info <> 0%Z -> eigvals_complex cgeev checks a = if checks then Fail else Ret w)).
Proof.
  exact (fun geev cgeev checks Hr Hc => conj (fun a n f => eigvals_real_ok geev Hr checks a n f)
    (fun a n f => eigvals_complex_ok cgeev Hc Carith checks a n f eq_refl)).
Qed.
Print Assumptions C89_eigvals.
(** the quarter turn (0 1; -1 0) has the eigenvalues i and -i, and the assertions hold *)
Example C89_eigvals_ex : exists geev w, lapack_eigen geev /\ eigvals_real geev true turn = Ret w /\
  forall l, In l w <-> l = (0, 1)%R \/ l = (0, -1)%R.
Proof. exact turn_ok. Qed.

(** The CMFD program: linearSolve there does what its model was assumed to get from LAPACK (C54), and its
    products are those BLAS computes, whatever the target held. *)
Theorem C89_cmfd : forall gesv checks junk, lapack_solves Carith gesv ->
  solver (solve_of gesv checks junk) /\
  forall c a b p fa fb (c0 : @matrix (option C)), p <> 0 -> sized p c -> is_mat Carith a p p fa -> is_mat Carith b p p fb ->
    rows c0 = p -> cols c0 = p -> length (data c0) = p * p ->
    exists m, Cmfd_Model.gemm c a b = Ret m /\ matmul_blas Carith checks c0 a b = Ret (mkM (rows m) (cols m) (map Some (data m))).
Proof.
  exact (fun gesv checks junk H => conj (solver_of_lapack gesv checks junk H)
    (fun c a b p fa fb c0 => gemm_same checks c a b p fa fb c0)).
Qed.
Print Assumptions C89_cmfd.
Example C89_cmfd_ex : exists gesv, lapack_solves Carith gesv.
Proof. exact (gesv_exists Carith Cinv C_field_theory_). Qed.
