(** Euclidean geometry of segments and rays. *)
From Coq Require Import List Arith Reals.
From Verif Require Import Base Arith XReal.
Import ListNotations.
Local Open Scope R_scope.

(** squared Euclidean distance *)
Fixpoint sqdist (u v : list R) : R :=
  match u, v with x :: u', y :: v' => (x - y) * (x - y) + sqdist u' v' | _, _ => 0 end.
(** the point a + t (b - a) *)
Fixpoint along (a b : list R) (t : R) : list R :=
  match a, b with x :: a', y :: b' => x + t * (y - x) :: along a' b' t | _, _ => [] end.
(** the same in the plane, and a point of a ray *)
Definition along2 (a b : R * R) (t : R) : R * R := (fst a + t * (fst b - fst a), snd a + t * (snd b - snd a)).
Definition ray2 (o d : R * R) (t : R) : R * R := (fst o + t * fst d, snd o + t * snd d).
(** twice the signed area of the triangle a b c *)
Definition orient (a b c : R * R) : R := (fst b - fst a) * (snd c - snd a) - (snd b - snd a) * (fst c - fst a).
(** vectors in the plane that are multiples of each other *)
Definition parallel (u v : R * R) : Prop := fst u * snd v = snd u * fst v.
Definition Fin2 (p : R * R) : xr * xr := (Fin (fst p), Fin (snd p)).
