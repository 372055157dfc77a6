(** Model of include/um2/math/morton.hpp (both the BMI2 branch, lines 61-156, and the
    portable branch, lines 158-331), the floating point versions (lines 333-395)
    and mortonLess of include/um2/geometry/morton_sort_points.hpp.

    uint32_t / uint64_t values are [N]; the bits shifted out by [<<] are cut off explicitly. *)
From Coq Require Import NArith List Bool Reals.
From Verif Require Import Base.
Local Open Scope N_scope.

(** Unsigned left shift: the result is truncated to [w] bits. *)
Definition shl (w : N) (x k : N) : N := N.land (N.shiftl x k) (N.ones w).

(** morton.hpp:55-56  (1 << (4 * sizeof(U))) - 1; [w] is the width 8*sizeof(U) *)
Definition max_2d (w : N) : N := shl w 1 (w / 2) - 1.
(** morton.hpp:58-59  (1 << (8 * sizeof(U) / 3)) - 1 *)
Definition max_3d (w : N) : N := shl w 1 (w / 3) - 1.

(** ASSERT_ASSUME(c): undefined behaviour in release builds when [c] is false *)
Definition assume {A} (c : bool) (k : outcome A) : outcome A := if c then k else Ub.

(** ** Portable branch *)

(** morton.hpp:165-174 without the ASSERT_ASSUME (stated in the encode functions) *)
Definition pdep0x55555555 (x : N) : N :=
  let x := N.land (N.lor x (shl 32 x 8)) 0x00ff00ff in
  let x := N.land (N.lor x (shl 32 x 4)) 0x0f0f0f0f in
  let x := N.land (N.lor x (shl 32 x 2)) 0x33333333 in
  let x := N.land (N.lor x (shl 32 x 1)) 0x55555555 in
  x.

(** morton.hpp:177-187 *)
Definition pdep0x5555555555555555 (x : N) : N :=
  let x := N.land (N.lor x (shl 64 x 16)) 0x0000ffff0000ffff in
  let x := N.land (N.lor x (shl 64 x 8)) 0x00ff00ff00ff00ff in
  let x := N.land (N.lor x (shl 64 x 4)) 0x0f0f0f0f0f0f0f0f in
  let x := N.land (N.lor x (shl 64 x 2)) 0x3333333333333333 in
  let x := N.land (N.lor x (shl 64 x 1)) 0x5555555555555555 in
  x.

(** morton.hpp:190-199 *)
Definition pext0x55555555 (x : N) : N :=
  let x := N.land x 0x55555555 in
  let x := N.land (N.lxor x (N.shiftr x 1)) 0x33333333 in
  let x := N.land (N.lxor x (N.shiftr x 2)) 0x0f0f0f0f in
  let x := N.land (N.lxor x (N.shiftr x 4)) 0x00ff00ff in
  let x := N.land (N.lxor x (N.shiftr x 8)) 0x0000ffff in
  x.

(** morton.hpp:202-212 *)
Definition pext0x5555555555555555 (x : N) : N :=
  let x := N.land x 0x5555555555555555 in
  let x := N.land (N.lxor x (N.shiftr x 1)) 0x3333333333333333 in
  let x := N.land (N.lxor x (N.shiftr x 2)) 0x0f0f0f0f0f0f0f0f in
  let x := N.land (N.lxor x (N.shiftr x 4)) 0x00ff00ff00ff00ff in
  let x := N.land (N.lxor x (N.shiftr x 8)) 0x0000ffff0000ffff in
  let x := N.land (N.lxor x (N.shiftr x 16)) 0x00000000ffffffff in
  x.

(** morton.hpp:215-224 *)
Definition pdep0x92492492 (x : N) : N :=
  let x := N.land (N.lor x (shl 32 x 16)) 0x030000ff in
  let x := N.land (N.lor x (shl 32 x 8)) 0x0300f00f in
  let x := N.land (N.lor x (shl 32 x 4)) 0x030c30c3 in
  let x := N.land (N.lor x (shl 32 x 2)) 0x09249249 in
  x.

(** morton.hpp:227-237 *)
Definition pdep0x9249249249249249 (x : N) : N :=
  let x := N.land (N.lor x (shl 64 x 32)) 0x001f00000000ffff in
  let x := N.land (N.lor x (shl 64 x 16)) 0x001f0000ff0000ff in
  let x := N.land (N.lor x (shl 64 x 8)) 0x100f00f00f00f00f in
  let x := N.land (N.lor x (shl 64 x 4)) 0x10c30c30c30c30c3 in
  let x := N.land (N.lor x (shl 64 x 2)) 0x1249249249249249 in
  x.

(** morton.hpp:240-249 *)
Definition pext0x92492492 (x : N) : N :=
  let x := N.land x 0x09249249 in
  let x := N.land (N.lxor x (N.shiftr x 2)) 0x030c30c3 in
  let x := N.land (N.lxor x (N.shiftr x 4)) 0x0300f00f in
  let x := N.land (N.lxor x (N.shiftr x 8)) 0x030000ff in
  let x := N.land (N.lxor x (N.shiftr x 16)) 0x000003ff in
  x.

(** morton.hpp:252-262 *)
Definition pext0x9249249249249249 (x : N) : N :=
  let x := N.land x 0x1249249249249249 in
  let x := N.land (N.lxor x (N.shiftr x 2)) 0x10c30c30c30c30c3 in
  let x := N.land (N.lxor x (N.shiftr x 4)) 0x100f00f00f00f00f in
  let x := N.land (N.lxor x (N.shiftr x 8)) 0x001f0000ff0000ff in
  let x := N.land (N.lxor x (N.shiftr x 16)) 0x001f00000000ffff in
  let x := N.land (N.lxor x (N.shiftr x 32)) 0x00000000001fffff in
  x.

(** morton.hpp:269-273, with the assumption of pdep0x55555555 (line 168) *)
Definition encode2_32 (x y : N) : outcome N :=
  assume (x <=? max_2d 32) (assume (y <=? max_2d 32)
    (Ret (N.lor (pdep0x55555555 x) (shl 32 (pdep0x55555555 y) 1)))).

(** morton.hpp:276-280, assumption of line 180 *)
Definition encode2_64 (x y : N) : outcome N :=
  assume (x <=? max_2d 64) (assume (y <=? max_2d 64)
    (Ret (N.lor (pdep0x5555555555555555 x) (shl 64 (pdep0x5555555555555555 y) 1)))).

(** morton.hpp:283-288 *)
Definition decode2_32 (m : N) : N * N :=
  (pext0x55555555 m, pext0x55555555 (N.shiftr m 1)).

(** morton.hpp:291-296 *)
Definition decode2_64 (m : N) : N * N :=
  (pext0x5555555555555555 m, pext0x5555555555555555 (N.shiftr m 1)).

(** morton.hpp:299-303, assumption of line 218 *)
Definition encode3_32 (x y z : N) : outcome N :=
  assume (x <=? max_3d 32) (assume (y <=? max_3d 32) (assume (z <=? max_3d 32)
    (Ret (N.lor (N.lor (pdep0x92492492 x) (shl 32 (pdep0x92492492 y) 1))
            (shl 32 (pdep0x92492492 z) 2))))).

(** morton.hpp:306-311, assumption of line 230 *)
Definition encode3_64 (x y z : N) : outcome N :=
  assume (x <=? max_3d 64) (assume (y <=? max_3d 64) (assume (z <=? max_3d 64)
    (Ret (N.lor (N.lor (pdep0x9249249249249249 x) (shl 64 (pdep0x9249249249249249 y) 1))
            (shl 64 (pdep0x9249249249249249 z) 2))))).

(** morton.hpp:314-320 *)
Definition decode3_32 (m : N) : N * N * N :=
  (pext0x92492492 m, pext0x92492492 (N.shiftr m 1), pext0x92492492 (N.shiftr m 2)).

(** morton.hpp:323-329 *)
Definition decode3_64 (m : N) : N * N * N :=
  (pext0x9249249249249249 m, pext0x9249249249249249 (N.shiftr m 1),
   pext0x9249249249249249 (N.shiftr m 2)).

(** ** BMI2 branch: the instructions _pdep_uW / _pext_uW per Intel's pseudo code
      k := 0; for m := 0 to w-1: if mask[m] then { dst[m] := src[k]; k := k+1 }
    and for pext dst[k] := src[m]. [n] bits are left, starting at bit [m]. *)
Fixpoint pdep_loop (n : nat) (src mask m k : N) : N :=
  match n with
  | O => 0
  | S n' =>
      if N.testbit mask m
      then N.lor (if N.testbit src k then N.shiftl 1 m else 0)
             (pdep_loop n' src mask (N.succ m) (N.succ k))
      else pdep_loop n' src mask (N.succ m) k
  end.
Definition pdep (w : nat) (src mask : N) : N := pdep_loop w src mask 0 0.

Fixpoint pext_loop (n : nat) (src mask m k : N) : N :=
  match n with
  | O => 0
  | S n' =>
      if N.testbit mask m
      then N.lor (if N.testbit src m then N.shiftl 1 k else 0)
             (pext_loop n' src mask (N.succ m) (N.succ k))
      else pext_loop n' src mask (N.succ m) k
  end.
Definition pext (w : nat) (src mask : N) : N := pext_loop w src mask 0 0.

(** morton.hpp:98-111: masks, static_cast<U> keeps the low [w] bits *)
Definition mask_2d_x (w : nat) : N := N.land 0x5555555555555555 (N.ones (N.of_nat w)).
Definition mask_2d_y (w : nat) : N := N.land 0xAAAAAAAAAAAAAAAA (N.ones (N.of_nat w)).
Definition mask_3d_x (w : nat) : N := N.land 0x9249249249249249 (N.ones (N.of_nat w)).
Definition mask_3d_y (w : nat) : N := N.land 0x2492492492492492 (N.ones (N.of_nat w)).
Definition mask_3d_z (w : nat) : N := N.land 0x4924924924924924 (N.ones (N.of_nat w)).

(** morton.hpp:118-125 *)
Definition bmi_encode2 (w : nat) (x y : N) : outcome N :=
  assume (x <=? max_2d (N.of_nat w)) (assume (y <=? max_2d (N.of_nat w))
    (Ret (N.lor (pdep w x (mask_2d_x w)) (pdep w y (mask_2d_y w))))).

(** morton.hpp:128-137 *)
Definition bmi_encode3 (w : nat) (x y z : N) : outcome N :=
  assume (x <=? max_3d (N.of_nat w)) (assume (y <=? max_3d (N.of_nat w))
    (assume (z <=? max_3d (N.of_nat w))
    (Ret (N.lor (N.lor (pdep w x (mask_3d_x w)) (pdep w y (mask_3d_y w)))
            (pdep w z (mask_3d_z w)))))).

(** morton.hpp:140-146 *)
Definition bmi_decode2 (w : nat) (m : N) : N * N :=
  (pext w m (mask_2d_x w), pext w m (mask_2d_y w)).

(** morton.hpp:149-156 *)
Definition bmi_decode3 (w : nat) (m : N) : N * N * N :=
  (pext w m (mask_3d_x w), pext w m (mask_3d_y w), pext w m (mask_3d_z w)).

(** ** Floating point versions (morton.hpp:338-395).
    The only floating point operation is [x * max], followed by truncation;
    [rnd] is the rounding of that product (the identity for exact arithmetic).
    A product outside the target type's range would be UB; the theorems show it
    is not. *)
Section FloatMorton.
  Variable rnd : R -> R.

  (** static_cast<U>(x * max), for x in [0,1] *)
  Definition to_coord (mx : N) (x : R) : outcome N :=
    let z := Int_part (rnd (x * IZR (Z.of_N mx))%R) in
    match z with
    | Zneg _ => Ub
    | _ => if (mx <? Z.to_N z)%N then Ub else Ret (Z.to_N z)
    end.

  (** the ASSERT_ASSUMEs on a coordinate *)
  Definition in_unit (x : R) : bool :=
    if Rle_dec 0 x then (if Rle_dec x 1 then true else false) else false.

  (** morton.hpp:338-352 for U = uint32_t, and mortonEncode(Point2) of
      morton_sort_points.hpp:26-31 *)
  Definition encode2_32_float (x y : R) : outcome N :=
    assume (in_unit x) (assume (in_unit y)
      (let* xm := to_coord (max_2d 32) x in
       let* ym := to_coord (max_2d 32) y in
       encode2_32 xm ym)).

  (** morton.hpp:338-352 for U = uint64_t *)
  Definition encode2_64_float (x y : R) : outcome N :=
    assume (in_unit x) (assume (in_unit y)
      (let* xm := to_coord (max_2d 64) x in
       let* ym := to_coord (max_2d 64) y in
       encode2_64 xm ym)).

  (** morton.hpp:367-381 for U = uint32_t, and mortonEncode(Point3) *)
  Definition encode3_32_float (x y z : R) : outcome N :=
    assume (in_unit x) (assume (in_unit y) (assume (in_unit z)
      (let* xm := to_coord (max_3d 32) x in
       let* ym := to_coord (max_3d 32) y in
       let* zm := to_coord (max_3d 32) z in
       encode3_32 xm ym zm))).

  (** morton_sort_points.hpp:54-59 in the plane *)
  Definition mortonLess2 (p q : R * R) : outcome bool :=
    let* a := encode2_32_float (fst p) (snd p) in
    let* b := encode2_32_float (fst q) (snd q) in
    Ret (a <? b).
End FloatMorton.

(** morton.hpp:356-364 for U = uint32_t in exact arithmetic *)
Definition decode2_32_float (m : N) : R * R :=
  let '(xm, ym) := decode2_32 m in
  ((IZR (Z.of_N xm) / IZR (Z.of_N (max_2d 32)))%R,
   (IZR (Z.of_N ym) / IZR (Z.of_N (max_2d 32)))%R).
