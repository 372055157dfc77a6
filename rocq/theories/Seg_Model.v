(** Model of include/um2/geometry/line_segment.hpp and of areCCW (point.hpp), over an arbitrary
    arithmetic.  A D-dimensional point is the list of its components, a point of the plane a pair. *)
From Coq Require Import List Arith ZArith Bool.
From Verif Require Import Base Arith Vec_Model Box_Model.
Import ListNotations.

Section Ops.
Context {T : Type} (o : arith T).

(** * any dimension *)
(** interpolate and operator() (154-166) *)
Definition seg_at (a b : list T) (r : T) : list T := vadd o a (vscale o r (vsub o b a)).
(** jacobian (172-184) *)
Definition seg_jacobian (a b : list T) : list T := vsub o b a.
(** length (190-202) *)
Definition seg_length (a b : list T) : outcome T := distanceTo o a b.
(** stdlib/algorithm/clamp.hpp:9-18 *)
Definition clamp (v lo hi : T) : T := if oltb o v lo then lo else if oltb o hi v then hi else v.
(** pointClosestTo (221-243) *)
Definition pointClosestTo (a b p : list T) : outcome T :=
  let ab := vsub o b a in
  let* n := dot o (vsub o p a) ab in
  let* d := squaredNorm o ab in
  let r := odiv o n d in
  let r := clamp r (o0 o) (o1 o) in
  Ret (clamp r (o0 o) (o1 o)).
(** squaredDistanceTo (249-263) and distanceTo (265-270) *)
Definition seg_squaredDistanceTo (a b p : list T) : outcome T :=
  let* r := pointClosestTo a b p in
  squaredDistanceTo o (seg_at a b r) p.
Definition seg_distanceTo (a b p : list T) : outcome T :=
  let* s := seg_squaredDistanceTo a b p in Ret (osqrt o s).
(** getRotation (276-313); the matrix by columns *)
Definition getRotation (v0 v1 : list T) : outcome (list (list T)) :=
  let* a := normalized o (vsub o v1 v0) in
  let* a0 := rd a 0 in
  let* a1 := rd a 1 in
  Ret [[a0; oopp o a1]; [a1; a0]].

(** * the plane *)
Definition psub (a b : T * T) : T * T := (osub o (fst a) (fst b), osub o (snd a) (snd b)).
Definition padd (a b : T * T) : T * T := (oadd o (fst a) (fst b), oadd o (snd a) (snd b)).
Definition pscale (s : T) (a : T * T) : T * T := (omul o (fst a) s, omul o (snd a) s).
(** point.hpp:51-60 *)
Definition areCCW (a b c : T * T) : bool := oleb o (o0 o) (cross2 o (psub b a) (psub c a)).
(** point.hpp:64-73, with epsDistance<T>() *)
Definition areApproxCCW (eps : T) (a b c : T * T) : bool :=
  oleb o (oopp o eps) (cross2 o (psub b a) (psub c a)).
(** isLeft (319-325) *)
Definition seg_isLeft (v0 v1 p : T * T) : bool := areCCW v0 v1 p.
(** intersect (357-369): the value stored in the buffer, and the number returned *)
Definition seg_intersect (v0 v1 ro rd : T * T) : T * nat :=
  let v := psub v1 v0 in
  let u := psub ro v0 in
  let z := cross2 o v rd in
  let s := odiv o (cross2 o u rd) z in
  let r := odiv o (cross2 o u v) z in
  (r, if oleb o (o0 o) s && oleb o s (o1 o) && oleb o (o0 o) r then 1 else 0).
End Ops.
