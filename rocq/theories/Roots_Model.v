(** Model of include/um2/math/quadratic_equation.hpp and include/um2/math/cubic_equation.hpp over
    exact real arithmetic (rounding is not modelled). *)
From Coq Require Import List ZArith Reals.
From Verif Require Import Base Arith Sort_Model.
Local Open Scope R_scope.

(** quadratic_equation.hpp:70, cubic_equation.hpp:33 *)
Definition invalid : R := IZR (10 ^ 16).

(** cmath copysign; the sign of a zero second argument is not modelled, no caller passes one *)
Definition copysign (x y : R) : R := if Rltb y 0 then - Rabs x else Rabs x.
(** cmath cbrt *)
Definition cbrt (x : R) : R :=
  if Reqb x 0 then 0
  else if Rltb x 0 then - exp (ln (- x) / 3) else exp (ln x / 3).
(** max.hpp *)
Definition rmax (a b : R) : R := if Rltb a b then b else a.

(** quadratic_equation.hpp:50-60 *)
Definition quadraticDiscriminant (a b c : R) : R :=
  let a4 := 4 * a in
  let w := a4 * c in
  let e := (- c) * a4 + w in
  let f := b * b + (- w) in
  f + e.

(** quadratic_equation.hpp:66-108 *)
Definition solveQuadratic (a b c : R) : R * R :=
  if Reqb a 0 then
    if Reqb b 0 then (invalid, invalid)
    else (- c / b, invalid)
  else if Reqb b 0 then
    let x0_sq := - c / a in
    if Rltb x0_sq 0 then (invalid, invalid)
    else let x0 := sqrt x0_sq in (- x0, x0)
  else
    let disc := quadraticDiscriminant a b c in
    if Rltb disc 0 then (invalid, invalid)
    else
      let q := - (b + copysign (sqrt disc) b) / 2 in
      let r0 := q / a in
      let r1 := c / q in
      if Rltb r1 r0 then (r1, r0) else (r0, r1).

(** the evaluation block of cubic_equation.hpp:74-79 and 96-101: (b1, c2, dq, q) *)
Definition eval (a b c d x : R) : R * R * R * R :=
  let q0 := a * x in
  let b1 := q0 + b in
  let c2 := b1 * x + c in
  let dq := (q0 + b1) * x + c2 in
  let q := c2 * x + d in
  (b1, c2, dq, q).

Section Cubic.
(** the constants lambda and one_plus_eps of T (cubic_equation.hpp:39-46) *)
Variables (lambda one_plus_eps : R).

(** cubic_equation.hpp:94-107, do ... while: [x0] is the next iterate; the result is (x, b1, c2) *)
Fixpoint newton (fuel : nat) (a b c d s x0 : R) : outcome (R * R * R) :=
  match fuel with
  | O => OutOfFuel
  | S n =>
      let x := x0 in
      let '(b1, c2, dq, q) := eval a b c d x in
      let x0 := if Reqb dq 0 then x else x - (q / dq) / one_plus_eps in
      if Rltb (s * x) (s * x0) then newton n a b c d s x0 else Ret (x, b1, c2)
  end.

(** cubic_equation.hpp:109-112.  For x = 0 and d <> 0 the quotient is infinite in IEEE arithmetic and
    the comparison false. *)
Definition deflate (a c d x b1 c2 : R) : R * R :=
  if Reqb x 0 then (b1, c2)
  else if Rltb (Rabs (d / x)) (Rabs a * x * x) then
    let c2 := - d / x in
    let b1 := (c2 - c) / x in
    (b1, c2)
  else (b1, c2).

(** cubic_equation.hpp:114-119 *)
Definition fin (a b1 c2 x : R) : R * R * R :=
  let '(r0, r1) := solveQuadratic a b1 c2 in
  sort3 Rltb (r0, r1, x).

(** cubic_equation.hpp:31-120 *)
Definition solveCubic (fuel : nat) (a b c d : R) : outcome (R * R * R) :=
  if Reqb a 0 then Ret (fin b c d invalid)
  else if Reqb d 0 then Ret (fin a b c 0)
  else
    let x := - (b / a) / 3 in
    let '(b1, c2, dq, q) := eval a b c d x in
    let t := q / a in
    let r := cbrt (Rabs t) in
    let s := if Rltb t 0 then -1 else 1 in
    let t := - dq / a in
    let r := if Rltb 0 t then lambda * rmax r (sqrt t) else r in
    let x0 := x - s * r in
    if Reqb x0 x then Ret (fin a b1 c2 x)
    else
      let* xbc := newton fuel a b c d s x0 in
      let '(x, b1, c2) := xbc in
      let '(b1, c2) := deflate a c d x b1 c2 in
      Ret (fin a b1 c2 x).
End Cubic.
(** the constants for T = double and T = float: the nearest binary64 (binary32) number to
    1.32471795724474602596, and 1 + 2^-52 (1 + 2^-23) *)
Definition lambda_double : R := 5965999298618443 / 4503599627370496.
Definition lambda_float : R := 2778135 / 2097152.
Definition ope_double : R := 1 + / 4503599627370496.
Definition ope_float : R := 1 + / 8388608.
