(** Model of src/physics/cmfd.cpp and include/um2/physics/cmfd.hpp: the Fourier analysis of the
    CMFD accelerated fixed source iteration.

    Float is the exact real numbers, ComplexF the exact complex numbers (Coquelicot's C).  The three
    calls into BLAS/LAPACK are not modelled as code: the product (zgemm with beta = 0,
    src/math/matrix.cpp:334-361) is the loop product of Matrix_Model on a cleared target, the linear
    solver and the eigenvalue routine are the arguments [solve] and [eigvals]. *)
From Coq Require Import List Arith ZArith Reals.
From Coquelicot Require Import Complex.
From Verif Require Import Base Loops Arith Matrix_Model.
Import ListNotations.
Open Scope R_scope.

(** the operators of std::complex; complex numbers have no order, the comparisons are not used *)
Definition Carith : arith C :=
  mkArith C (RtoC 0) (RtoC 1) Cplus Cminus Cmult Cdiv Copp (fun a b c => Cplus (Cmult a b) c)
    (fun z => z) (fun _ _ => false) (fun _ _ => false).
(** um2::exp of a complex number (stdlib/math/exponential_functions.hpp: std::exp) *)
Definition Cexp (z : C) : C := (exp (fst z) * cos (snd z), exp (fst z) * sin (snd z)).

Definition cmat := @matrix C.
Definition cget (m : cmat) i j := get m i j.
Definition cset (m : cmat) i j x := set m i j x.

(** cmfd.hpp:39-80; p is an Int, here a nat; the constants N and num_alpha are inlined below *)
Record params := mkP { pw : R; pp : nat; Sigma_t : R; pc : R; ps : Z; eta : R; ph : R; delta : R; pD : R }.
Definition CMFDCellParams (iw : R) (ip : nat) (iSigma_t ic : R) (is : Z) (ieta : R) : params :=
  let d := iSigma_t * iw in
  mkP iw ip iSigma_t ic is ieta (iw / INR ip) d (1 / (3 * d) + ieta).

(** cmfd.cpp:25-30 *)
Definition beta_n (h mu_n : R) : R :=
  let z := h / (2 * mu_n) in
  1 / tanh z - 1 / z.

(** cmfd.cpp:50-58 and 80-88: the entries written by set_An and by set_Bn *)
Definition set_pattern (p : nat) (d u corner : C) (m : cmat) : outcome cmat :=
  let* m := cset m 0 0 d in
  let* m := cset m (p - 1) 0 corner in
  for_ (p - 1) 1 (fun i m =>
    let* m := cset m (i - 1) i u in
    cset m i i d) m.

(** cmfd.cpp:32-59 *)
Definition set_An (An : cmat) (q : params) (mu_n alpha : R) : outcome cmat :=
  let beta := beta_n (ph q) mu_n in
  let d : C := ((1 - beta) / 2, 0) in
  let u : C := ((1 + beta) / 2, 0) in
  let im : C := (0, 1) in
  set_pattern (pp q) d u (Cmult u (Cexp (Cmult (Cmult im (RtoC alpha)) (RtoC (delta q))))) An.

(** cmfd.cpp:61-90 *)
Definition set_Bn (Bn An : cmat) (q : params) (mu_n alpha : R) : outcome cmat :=
  let u : C := (mu_n / (Sigma_t q * ph q), 0) in
  let d := Copp u in
  let im : C := (0, 1) in
  let* Bn := set_pattern (pp q) d u (Cmult u (Cexp (Cmult (Cmult im (RtoC alpha)) (RtoC (delta q))))) Bn in
  add_assign Carith Bn An.

(** cmfd.cpp:117-140 *)
Definition mus : list R :=
  [ -0.9972638618494816;   -0.9856115115452684;  -0.9647622555875064;
    -0.9349060759377397;   -0.8963211557660521;  -0.84936761373257;
    -0.7944837959679424;   -0.7321821187402897;  -0.6630442669302152;
    -0.5877157572407623;   -0.5068999089322294;  -0.42135127613063533;
    -0.33186860228212767;  -0.23928736225213706; -0.1444719615827965;
    -0.048307665687738324; 0.048307665687738324; 0.1444719615827965;
    0.23928736225213706;   0.33186860228212767;  0.42135127613063533;
    0.5068999089322294;    0.5877157572407623;   0.6630442669302152;
    0.7321821187402897;    0.7944837959679424;   0.84936761373257;
    0.8963211557660521;    0.9349060759377397;   0.9647622555875064;
    0.9856115115452684;    0.9972638618494816 ].
Definition ws : list R :=
  [ 0.007018610009470092; 0.016274394730905643; 0.025392065309262066;
    0.03427386291302141;  0.04283589802222672;  0.05099805926237615;
    0.05868409347853548;  0.0658222227763618;   0.07234579410884856;
    0.07819389578707032;  0.08331192422694678;  0.08765209300440377;
    0.09117387869576384;  0.09384439908080465;  0.09563872007927489;
    0.09654008851472778;  0.09654008851472778;  0.09563872007927489;
    0.09384439908080465;  0.09117387869576384;  0.08765209300440377;
    0.08331192422694678;  0.07819389578707032;  0.07234579410884856;
    0.0658222227763618;   0.05868409347853548;  0.05099805926237615;
    0.04283589802222672;  0.03427386291302141;  0.025392065309262066;
    0.016274394730905643; 0.007018610009470092 ].

Section Lapack.
(** linearSolve(a, b, ipiv) (matrix.hpp:139-146): the new contents of a and of b *)
Variable solve : cmat -> cmat -> outcome (cmat * cmat).
(** eigvals(a) (matrix.hpp:150-161) *)
Variable eigvals : cmat -> outcome (list C).

(** the product with beta = 0: the target is overwritten *)
Definition gemm (c a b : cmat) : outcome cmat := matmul Carith (zero Carith c) a b.

(** the working matrices of cmfd.cpp, passed by reference: U, An, Bn, I *)
Record work := mkW { wU : cmat; wA : cmat; wB : cmat; wI : cmat }.

(** cmfd.cpp:148-151 *)
Definition set_identity (p : nat) (Id : cmat) : outcome cmat :=
  for_ p 0 (fun i m => cset m i i (RtoC 1)) (zero Carith Id).

(** cmfd.cpp:147-167: one ordinate of the quadrature; the loop bound p * p is an Int expression *)
Definition ordinate (q : params) (alpha : R) (n : nat) (s : work) : outcome work :=
  let p := pp q in
  let* Id := set_identity p (wI s) in
  let* mu_n := rd mus n in
  let* An := set_An (wA s) q mu_n alpha in
  let* Bn := set_Bn (zero Carith (wB s)) An q mu_n alpha in
  let* r := solve Bn Id in
  let '(Bn, Id) := r in
  let* X := gemm Bn An Id in
  let* w_n := rd ws n in
  let* pp2 := i32 (Z.of_nat p * Z.of_nat p) in
  let* U := for_ (Z.to_nat pp2) 0 (fun i U =>
      let* x := rd (data U) i in
      let* y := rd (data X) i in
      let* d := wr (data U) i (Cplus x (Cmult (RtoC w_n) y)) in
      Ret (mkM (rows U) (cols U) d)) (wU s) in
  Ret (mkW U An X Id).

(** cmfd.cpp:92-169 *)
Definition set_U (q : params) (alpha : R) (s : work) : outcome work :=
  let* s := for_ 32 0 (ordinate q alpha) (mkW (zero Carith (wU s)) (wA s) (wB s) (wI s)) in
  let* U := scale Carith (wU s) (RtoC (pc q / 2)) in
  Ret (mkW U (wA s) (wB s) (wI s)).

(** cmfd.cpp:171-181 *)
Definition getF (q : params) (alpha : R) : R :=
  let c := pc q in
  let numerator := c * Sigma_t q * ph q in
  let denominator_l := 2 * pD q * (1 - cos (alpha * delta q)) in
  let denominator_r := (1 - c) * delta q in
  numerator / (denominator_l + denominator_r).

(** cmfd.cpp:183-225; the new omega and working matrices *)
Definition set_omega (omega J : cmat) (q : params) (alpha : R) (s : work) : outcome (cmat * work) :=
  let p := pp q in
  let* s := set_U q alpha s in
  let F := getF q alpha in
  let* U := for_ p 0 (fun i U => let* x := cget U i i in cset U i i (Cminus x (RtoC 1))) (wU s) in
  let* omega := gemm omega J U in
  let* omega := scale Carith omega (RtoC F) in
  let* omega := add_assign Carith omega U in
  let* omega := for_ p 0 (fun i m => let* x := cget m i i in cset m i i (Cplus x (RtoC 1))) omega in
  Ret (omega, mkW U (wA s) (wB s) (wI s)).

(** cmfd.cpp:268-274 *)
Fixpoint largest (eigs : list C) (r : C) (r_abs : R) : C * R :=
  match eigs with
  | [] => (r, r_abs)
  | eig :: eigs => if Rltb r_abs (Cmod eig) then largest eigs eig (Cmod eig) else largest eigs r r_abs
  end.

(** cmfd.cpp:263-275 *)
Definition sample (q : params) (J : cmat) (d_alpha : R) (i : nat) (x : cmat * work * (C * R))
  : outcome (cmat * work * (C * R)) :=
  let '(omega, s, (r, r_abs)) := x in
  let* y := set_omega omega J q (INR i * d_alpha) s in
  let '(omega, s) := y in
  let* eigs := eigvals omega in
  Ret (omega, s, largest eigs r r_abs).

(** cmfd.cpp:279-313 (and 232-277, which allocates the matrices itself): An and Bn are cleared, J is
    filled with ones, the other matrices are used as they are; omega and the working matrices are left to the caller *)
Definition radius_run (q : params) (omega J : cmat) (s : work) : outcome (cmat * work * (C * R)) :=
  let alpha_max := PI / delta q in
  let d_alpha := alpha_max / (256 - 1) in
  let J := mkM (rows J) (cols J) (map (fun _ => RtoC 1) (data J)) in
  for_ 256 0 (sample q J d_alpha) (omega, mkW (wU s) (zero Carith (wA s)) (zero Carith (wB s)) (wI s), (RtoC 0, 0)).
Definition spectral_radius (q : params) (omega J : cmat) (s : work) : outcome C :=
  let* x := radius_run q omega J s in
  let '(_, _, (r, _)) := x in
  Ret r.
End Lapack.
