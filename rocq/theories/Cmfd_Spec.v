(** The transport problem on one coarse cell of p fine cells with periodic phase, and the CMFD
    amplification operator, independently of how the program stores and combines its matrices. *)
From Coq Require Import List Arith ZArith Reals.
From Coquelicot Require Import Complex.
From Verif Require Import Base Loops Arith Matrix_Model Matrix_Spec Cmfd_Model.
Open Scope C_scope.

(** f 0 + ... + f (n-1) *)
Fixpoint csum (n : nat) (f : nat -> C) : C :=
  match n with O => 0 | S n => csum n f + f n end.
Definition delta_ (i j : nat) : C := if (i =? j)%nat then 1 else 0.

(** the p by p matrix that couples cell i with weight d to itself and with weight u to cell i + 1;
    the neighbour of the last cell is cell 0 with the phase factor e *)
Definition cyclic (p : nat) (d u e : C) (i j : nat) : C :=
  (if (j =? i)%nat then d else 0) + (if (j =? i + 1)%nat then u else 0) +
  (if ((i =? p - 1)%nat && (j =? 0)%nat)%bool then u * e else 0).
(** zero wherever the transport matrices are *)
Definition off_pattern_zero (p : nat) (f : nat -> nat -> C) : Prop :=
  forall i j, (i < p)%nat -> (j < p)%nat -> j <> i -> j <> (i + 1)%nat -> ~ (i = (p - 1)%nat /\ j = 0%nat) -> f i j = 0.
(** F * X is the identity *)
Definition right_inverse (p : nat) (f x : nat -> nat -> C) : Prop :=
  forall i j, (i < p)%nat -> (j < p)%nat -> csum p (fun k => f i k * x k j) = delta_ i j.

(** the auxiliary weight of the step characteristic method for a half thickness z *)
Definition coth_weight (z : R) : R := (cosh z / sinh z - / z)%R.
(** the phase over a coarse cell *)
Definition phase (q : params) (alpha : R) : C := (cos (alpha * delta q), sin (alpha * delta q)).
(** cell-average and balance matrices for the direction mu *)
Definition average_matrix (q : params) (mu alpha : R) : nat -> nat -> C :=
  let b := coth_weight (ph q / (2 * mu)) in
  cyclic (pp q) (RtoC ((1 - b) / 2)) (RtoC ((1 + b) / 2)) (phase q alpha).
Definition balance_matrix (q : params) (mu alpha : R) : nat -> nat -> C :=
  let b := coth_weight (ph q / (2 * mu)) in
  let m := (mu / (Sigma_t q * ph q))%R in
  cyclic (pp q) (RtoC ((1 - b) / 2 - m)) (RtoC ((1 + b) / 2 + m)) (phase q alpha).

(** the transport sweep: half the scattering ratio times the sum over the 32 directions *)
Definition sweep (q : params) (alpha : R) (u : nat -> nat -> C) : Prop :=
  exists binv : nat -> nat -> nat -> C,
    (forall n, (n < 32)%nat -> right_inverse (pp q) (balance_matrix q (nth n mus 0%R) alpha) (binv n)) /\
    forall i j, (i < pp q)%nat -> (j < pp q)%nat ->
      u i j = RtoC (pc q / 2) * csum 32 (fun n => RtoC (nth n ws 0%R) *
        csum (pp q) (fun k => average_matrix q (nth n mus 0%R) alpha i k * binv n k j)).
(** the coarse mesh correction factor *)
Definition correction (q : params) (alpha : R) : R :=
  (pc q * Sigma_t q * ph q /
   (2 * pD q * (1 - cos (alpha * delta q)) + (1 - pc q) * delta q))%R.
(** sweep followed by the correction: every fine cell gets the correction of the coarse cell *)
Definition amplification (q : params) (alpha : R) (w : nat -> nat -> C) : Prop :=
  exists u, sweep q alpha u /\ forall i j, (i < pp q)%nat -> (j < pp q)%nat ->
    w i j = u i j + RtoC (correction q alpha) * csum (pp q) (fun k => u k j - delta_ k j).

(** parameters the constructor's assertions allow, with at least two fine cells *)
Definition cell_ok (q : params) : Prop :=
  (2 <= pp q)%nat /\ (Z.of_nat (pp q) * Z.of_nat (pp q) <= intMax)%Z /\
  (0 < Sigma_t q)%R /\ (0 < ph q)%R.
(** working matrices of the right size, the first transport matrix clear off its pattern *)
Definition sized (p : nat) (m : cmat) : Prop := wf m /\ rows m = p /\ cols m = p.
Definition work_ok (q : params) (s : work) : Prop :=
  sized (pp q) (wU s) /\ sized (pp q) (wB s) /\ sized (pp q) (wI s) /\ sized (pp q) (wA s) /\
  off_pattern_zero (pp q) (ent Carith (wA s)).

(** what LAPACK's gesv promises: for a matrix that has an inverse it leaves the inverse in the second
    argument when that was the identity; the first argument holds some matrix of the same size *)
Definition solver (solve : cmat -> cmat -> outcome (cmat * cmat)) : Prop :=
  forall p a b f, (1 <= p)%nat -> is_mat Carith a p p f -> is_mat Carith b p p delta_ ->
    (exists x, right_inverse p f x) ->
    exists a' b' x, solve a b = Ret (a', b') /\ sized p a' /\ is_mat Carith b' p p x /\ right_inverse p f x.
