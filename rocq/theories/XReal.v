(** IEEE arithmetic without rounding: exact reals extended with a negative zero, the infinities and
    NaN.  [Fin 0] is the positive zero.  The sign of a zero produced by an operation is not tracked
    (it is [Fin 0]); it is never divided by in the code modelled with this type. *)
From Coq Require Import List Arith ZArith Reals Lia Bool.
From Verif Require Import Arith.
Import ListNotations.
Local Open Scope R_scope.
Local Open Scope bool_scope.

Inductive xr := Fin (r : R) | NZero | Inf (neg : bool) | NaN.

(** sign of a non-zero finite real *)
Definition rneg (r : R) : bool := Rltb r 0.
Definition xopp (x : xr) : xr :=
  match x with Fin r => if Reqb r 0 then NZero else Fin (- r) | NZero => Fin 0 | Inf s => Inf (negb s) | NaN => NaN end.
Definition xadd (x y : xr) : xr :=
  match x, y with
  | NaN, _ | _, NaN => NaN
  | Inf s, Inf t => if Bool.eqb s t then Inf s else NaN
  | Inf s, _ | _, Inf s => Inf s
  | Fin a, Fin b => Fin (a + b)
  | Fin a, NZero | NZero, Fin a => Fin a
  | NZero, NZero => NZero
  end.
Definition xsub (x y : xr) : xr := xadd x (xopp y).
Definition xmul (x y : xr) : xr :=
  match x, y with
  | NaN, _ | _, NaN => NaN
  | Inf s, Inf t => Inf (xorb s t)
  | Inf s, Fin a | Fin a, Inf s => if Reqb a 0 then NaN else Inf (xorb s (rneg a))
  | Inf _, NZero | NZero, Inf _ => NaN
  | Fin a, Fin b => Fin (a * b)
  | NZero, _ | _, NZero => Fin 0
  end.
Definition xinv (x : xr) : xr :=
  match x with
  | Fin a => if Reqb a 0 then Inf false else Fin (/ a)
  | NZero => Inf true | Inf _ => Fin 0 | NaN => NaN
  end.
(** x / y = x * (1 / y), except that inf / inf and 0 / 0 are NaN, which this also gives *)
Definition xdiv (x y : xr) : xr :=
  match x, y with Inf _, Inf _ => NaN | _, _ => xmul x (xinv y) end.
Definition xltb (x y : xr) : bool :=
  match x, y with
  | NaN, _ | _, NaN => false
  | Inf s, Inf t => s && negb t
  | Inf s, _ => s
  | _, Inf s => negb s
  | Fin a, Fin b => Rltb a b
  | NZero, Fin b => Rltb 0 b
  | Fin a, NZero => Rltb a 0
  | NZero, NZero => false
  end.
Definition xeqb (x y : xr) : bool :=
  match x, y with
  | Inf s, Inf t => Bool.eqb s t
  | Fin a, Fin b => Reqb a b
  | NZero, Fin b => Reqb 0 b
  | Fin a, NZero => Reqb a 0
  | NZero, NZero => true
  | _, _ => false
  end.
Definition xsqrt (x : xr) : xr :=
  match x with
  | Fin a => if Rltb a 0 then NaN else Fin (sqrt a)
  | NZero => NZero | Inf false => Inf false | _ => NaN
  end.
Definition Xarith : arith xr :=
  mkArith xr (Fin 0) (Fin 1) xadd xsub xmul xdiv xopp (fun a b c => xadd (xmul a b) c) xsqrt xltb xeqb.
