(** Model of include/um2/common/color.hpp. *)
From Coq Require Import List ZArith Reals Bool Floats.SpecFloat.
From Verif Require Import Base.
Import ListNotations.
Local Open Scope Z_scope.

(** color.hpp:16-21: four uint8_t *)
Record color := mk { r : Z; g : Z; b : Z; a : Z }.

(** static_cast<uint8_t> of an integer: reduction modulo 256 *)
Definition u8 (z : Z) : Z := z mod 256.
(** color.hpp:57-64 *)
Definition of_ints (r g b a : Z) : color := mk (u8 r) (u8 g) (u8 b) (u8 a).
(** color.hpp:28 (constructor default: a = 255) *)
Definition of_ints3 (r g b : Z) : color := of_ints r g b 255.
(** color.hpp:27 *)
Definition default : color := mk 0 0 0 255.

(** color.hpp:66-73: static_cast<uint8_t>(v * 255).  [rnd] is the rounding of the product to T;
    the conversion truncates toward zero and is undefined when the truncated value does not fit. *)
Definition trunc (x : R) : Z := if Rle_dec 0 x then Int_part x else - Int_part (- x).
Definition channel (rnd : R -> R) (v : R) : outcome Z :=
  let t := trunc (rnd (v * 255)%R) in
  if (0 <=? t) && (t <? 256) then Ret t else Ub.
Definition of_floats (rnd : R -> R) (r g b a : R) : outcome color :=
  let* r := channel rnd r in
  let* g := channel rnd g in
  let* b := channel rnd b in
  let* a := channel rnd a in
  Ret (mk r g b a).
(** color.hpp:32 (constructor default: a = 1) *)
Definition of_floats3 (rnd : R -> R) (r g b : R) : outcome color := of_floats rnd r g b 1.

(** color.hpp:105-116 and 118-122 *)
Definition eqb (x y : color) : bool :=
  (r x =? r y) && (g x =? g y) && (b x =? b y) && (a x =? a y).
Definition neqb (x y : color) : bool := negb (eqb x y).

(** The same conversion on bit-exact IEEE numbers of [prec] bits: double is (53, 1024), float is
    (24, 128).  Truncation toward zero of a finite number m * 2^e. *)
Definition sf_trunc (x : spec_float) : option Z :=
  match x with
  | S754_zero _ => Some 0
  | S754_finite s m e =>
      let v := if e <? 0 then Z.pos m / 2 ^ (- e) else Z.pos m * 2 ^ e in
      Some (if s then - v else v)
  | _ => None
  end.
Definition sf_of_Z (prec emax z : Z) : spec_float := binary_normalize prec emax z 0 false.
Definition channel_sf (prec emax : Z) (v : spec_float) : outcome Z :=
  match sf_trunc (SFmul prec emax v (sf_of_Z prec emax 255)) with
  | Some t => if (0 <=? t) && (t <? 256) then Ret t else Ub
  | None => Ub
  end.
