(** A rectangle cut into a grid of rectangles. *)
From Coq Require Import List Arith ZArith Reals.
From Verif Require Import Base Fvm_Model Fvm_Spec.
Import ListNotations.
Local Open Scope R_scope.

(** face [c] of [m] is the axis aligned rectangle [x0, x1] x [y0, y1], counter-clockwise from its lower
    left corner *)
Definition is_rect (m : mesh R) (c : list Z) (x0 y0 x1 y1 : R) : Prop :=
  corners (mv m) c = [Some (x0, y0); Some (x1, y0); Some (x1, y1); Some (x0, y1)] /\ x0 < x1 /\ y0 < y1.
(** the faces are rectangles; every point of [0, w) x [0, h) is in exactly one of them (lower and left
    sides counted in), and no face leaves [0, w] x [0, h] *)
Definition tiles (m : mesh R) (w h : R) : Prop :=
  (forall c, In c (fv m) -> exists x0 y0 x1 y1, is_rect m c x0 y0 x1 y1 /\ 0 <= x0 /\ x1 <= w /\ 0 <= y0 /\ y1 <= h) /\
  (forall x y, 0 <= x < w -> 0 <= y < h -> exists k c x0 y0 x1 y1,
     nth_error (fv m) k = Some c /\ is_rect m c x0 y0 x1 y1 /\ x0 <= x < x1 /\ y0 <= y < y1 /\
     forall k' c' x0' y0' x1' y1', nth_error (fv m) k' = Some c' -> is_rect m c' x0' y0' x1' y1' ->
       x0' <= x < x1' -> y0' <= y < y1' -> k' = k).
(** both ends of [e] lie on the same side of the rectangle [0, w] x [0, h] *)
Definition on_border (m : mesh R) (w h : R) (e : list Z) : Prop :=
  exists p q, corners (mv m) e = [Some p; Some q] /\
    (fst p = 0 /\ fst q = 0 \/ fst p = w /\ fst q = w \/ snd p = 0 /\ snd q = 0 \/ snd p = h /\ snd q = h).
