(** Rays crossing a box. *)
From Coq Require Import ZArith Reals.
From Verif Require Import Loops.
Local Open Scope R_scope.

(** a box, an azimuthal angle other than pi/2 and a spacing for which the number of rays fits an Int *)
Definition good (a s x0 y0 x1 y1 : R) : Prop :=
  0 < a < PI /\ a <> PI / 2 /\ 0 < s /\ x0 < x1 /\ y0 < y1 /\
  (x1 - x0) * sin a / s + (y1 - y0) * Rabs (cos a) / s <= IZR intMax - 2.
Definition point (o d : R * R) (t : R) : R * R := (fst o + t * fst d, snd o + t * snd d).
Definition inside (x0 y0 x1 y1 : R) (p : R * R) : Prop := x0 < fst p < x1 /\ y0 < snd p < y1.
(** the ray from [o] crosses the interior of the box and leaves it at [e] *)
Definition leaves (x0 y0 x1 y1 : R) (o d e : R * R) : Prop :=
  exists t, 0 < t /\ e = point o d t /\ forall u, 0 < u < t -> inside x0 y0 x1 y1 (point o d u).
(** cross product: the signed distance of q from the line through p along the unit vector d *)
Definition offset (d p q : R * R) : R := fst d * (snd q - snd p) - snd d * (fst q - fst p).
