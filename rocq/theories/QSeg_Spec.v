(** The parabola through three points. *)
From Coq Require Import List Arith Reals.
From Coquelicot Require Import Coquelicot.
Import ListNotations.
Local Open Scope R_scope.

(** the quadratic polynomial with values x0, x1, x2 at 0, 1, 1/2 (Lagrange's form) *)
Definition lag (x0 x1 x2 t : R) : R :=
  x0 * ((t - 1) * (t - /2)) / ((0 - 1) * (0 - /2)) +
  x1 * ((t - 0) * (t - /2)) / ((1 - 0) * (1 - /2)) +
  x2 * ((t - 0) * (t - 1)) / ((/2 - 0) * (/2 - 1)).
(** the curve, componentwise *)
Fixpoint curve (v0 v1 v2 : list R) (t : R) : list R :=
  match v0, v1, v2 with
  | a :: v0', b :: v1', c :: v2' => lag a b c t :: curve v0' v1' v2' t
  | _, _, _ => []
  end.
Definition curve2 (v0 v1 v2 : R * R) (t : R) : R * R :=
  (lag (fst v0) (fst v1) (fst v2) t, lag (snd v0) (snd v1) (snd v2) t).
(** Bezier curve with control points p0, p1, p2, componentwise *)
Definition bez (p0 p1 p2 t : R) : R := (1 - t) * (1 - t) * p0 + 2 * t * (1 - t) * p1 + t * t * p2.
(** boundary integral of (x dy - y dx) / 2 along a path *)
Definition green (P : R -> R * R) (I : R) : Prop :=
  is_RInt (fun t => (fst (P t) * Derive (fun s => snd (P s)) t - snd (P t) * Derive (fun s => fst (P s)) t) / 2) 0 1 I.
(** boundary integrals of x^2 dy / 2 and - y^2 dx / 2: the first moments *)
Definition green_x (P : R -> R * R) (I : R) : Prop :=
  is_RInt (fun t => (fst (P t) * fst (P t) * Derive (fun s => snd (P s)) t) / 2) 0 1 I.
Definition green_y (P : R -> R * R) (I : R) : Prop :=
  is_RInt (fun t => - (snd (P t) * snd (P t) * Derive (fun s => fst (P s)) t) / 2) 0 1 I.
(** squared distance *)
Definition dsq (p q : R * R) : R := (fst p - fst q) * (fst p - fst q) + (snd p - snd q) * (snd p - snd q).
(** length of a path *)
Definition arclength (P : R -> R * R) (L : R) : Prop :=
  is_RInt (fun t => sqrt (Derive (fun s => fst (P s)) t ^ 2 + Derive (fun s => snd (P s)) t ^ 2)) 0 1 L.
(** the points between the arc and its chord: those on a chord of the arc *)
Definition bulge (v0 v1 v2 p : R * R) : Prop := exists s t u, 0 <= s <= 1 /\ 0 <= t <= 1 /\ 0 <= u <= 1 /\
  p = ((1 - u) * fst (curve2 v0 v1 v2 s) + u * fst (curve2 v0 v1 v2 t),
       (1 - u) * snd (curve2 v0 v1 v2 s) + u * snd (curve2 v0 v1 v2 t)).
