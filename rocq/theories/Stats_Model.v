(** Model of include/um2/math/stats.hpp over exact real numbers.

    A range [begin, end) of T is the list of its values; T is instantiated with the real
    numbers, so rounding of float/double is not modelled. *)
From Coq Require Import List Arith ZArith Reals Lia Bool.
From Verif Require Import Base Loops.
Import ListNotations.
Local Open Scope R_scope.

(** stats.hpp:32-45 (sum_detail::naiveSum).  The empty range reads *begin: undefined. *)
Definition naiveSum (l : list R) : outcome R :=
  match l with
  | [] => Ub
  | x :: r => Ret (fold_left Rplus r x)
  end.

(** stats.hpp:47-59 (sum_detail::pairwiseSum); ASSERT_ASSUME(n > 0) makes n = 0 undefined.
    [fuel] bounds the recursion, the callers pass the length. *)
Fixpoint pairwiseSum (fuel : nat) (l : list R) : outcome R :=
  match fuel with
  | O => OutOfFuel
  | S fuel' =>
      let n := length l in
      if (n =? 0)%nat then Ub
      else if (n <=? 128)%nat then naiveSum l
      else let m := (n / 2)%nat in
           let* a := pairwiseSum fuel' (firstn m l) in
           let* b := pairwiseSum fuel' (skipn m l) in
           Ret (a + b)
  end.

(** stats.hpp:63-72, the host version *)
Definition sum (l : list R) : outcome R := pairwiseSum (S (length l)) l.
(** stats.hpp:63-72, the device version (__CUDA_ARCH__) *)
Definition sum_device (l : list R) : outcome R := naiveSum l.

(** stats.hpp:79-87 *)
Definition mean (l : list R) : outcome R :=
  match l with
  | [] => Ub
  | _ => let n := INR (length l) in let* s := sum l in Ret (s / n)
  end.

(** stats.hpp:95-109; the ASSERT that the range is sorted has no effect in a release build *)
Definition median (l : list R) : outcome R :=
  match l with
  | [] => Ub
  | _ =>
      let size := length l in
      let mid := (size / 2)%nat in
      if (size mod 2 =? 1)%nat then rd l mid
      else let* a := rd l mid in
           let* b := rd l (mid - 1) in
           Ret ((a + b) / 2)
  end.

(** stats.hpp:116-136, the loop: state (n, mean, m2) *)
Fixpoint welford (l : list R) (s : Z * R * R) : outcome (Z * R * R) :=
  match l with
  | [] => Ret s
  | x :: l' =>
      let '(n, mean, m2) := s in
      let* n := i32 (n + 1)%Z in
      let delta := x - mean in
      let mean := mean + delta / IZR n in
      let m2 := m2 + delta * (x - mean) in
      welford l' (n, mean, m2)
  end.
(** stats.hpp:114-136.  With n = 1 the ASSERT(n > 1) fails (a release build divides 0 by 0): the
    model says Ub. *)
Definition variance (l : list R) : outcome R :=
  match l with
  | [] => Ub
  | _ =>
      let* (n, mean, m2) := welford l (0%Z, 0, 0) in
      if (n >? 1)%Z then Ret (m2 / IZR (n - 1)) else Ub
  end.

(** stats.hpp:142-147 *)
Definition stdDev (l : list R) : outcome R :=
  let* v := variance l in Ret (R_sqrt.sqrt v).
