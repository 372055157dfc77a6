(** Polygons in the plane. *)
From Coq Require Import List Arith Reals.
From Verif Require Import Base Arith Seg_Spec.
Import ListNotations.
Local Open Scope R_scope.

Definition rsum (l : list R) : R := fold_right Rplus 0 l.
(** the directed edges of the closed polygon: each vertex with the next one *)
Definition edges {A} (p : list A) : list (A * A) := combine p (tl p ++ firstn 1 p).
(** signed area of the triangle q a b *)
Definition tarea (q a b : R * R) : R := orient q a b / 2.
(** its centroid *)
Definition tcentroid (q a b : R * R) : R * R := ((fst q + fst a + fst b) / 3, (snd q + snd a + snd b) / 3).
Definition dist2 (a b : R * R) : R := sqrt ((fst a - fst b) * (fst a - fst b) + (snd a - snd b) * (snd a - snd b)).
(** convex combinations *)
Definition hull (vs : list (R * R)) (p : R * R) : Prop :=
  exists ws, length ws = length vs /\ Forall (Rle 0) ws /\ rsum ws = 1 /\
    fst p = rsum (map (fun wv => fst wv * fst (snd wv)) (combine ws vs)) /\
    snd p = rsum (map (fun wv => fst wv * snd (snd wv)) (combine ws vs)).
(** the affine map x -> M x + t with M = [[a b] [c d]] *)
Record affine := mkAffine { ma : R; mb : R; mc : R; md : R; tx : R; ty : R }.
Definition apply (m : affine) (p : R * R) : R * R :=
  (ma m * fst p + mb m * snd p + tx m, mc m * fst p + md m * snd p + ty m).
Definition det (m : affine) : R := ma m * md m - mb m * mc m.
(** rotations, reflections and translations *)
Definition isometry (m : affine) : Prop :=
  ma m * ma m + mc m * mc m = 1 /\ mb m * mb m + md m * md m = 1 /\ ma m * mb m + mc m * md m = 0.
