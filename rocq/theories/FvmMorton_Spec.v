(** The order in which mortonSort puts the vertices and faces of a triangle mesh. *)
From Coq Require Import List NArith ZArith Reals.
From Verif Require Import Morton_Spec.
Import ListNotations.
Local Open Scope R_scope.

(** the box [0, w] x [0, h] is the bounding box of the points *)
Definition spans (l : list (R * R)) (w h : R) : Prop :=
  (forall p, In p l -> 0 <= fst p <= w /\ 0 <= snd p <= h) /\
  (exists p, In p l /\ fst p = 0) /\ (exists p, In p l /\ snd p = 0) /\
  (exists p, In p l /\ fst p = w) /\ (exists p, In p l /\ snd p = h).
(** the box is divided into 65535 columns and 65535 rows of the same size, counted from 0 (the right
    edge and the upper edge are column and row 65535); the code of a point interleaves the bits of
    its column and row *)
Definition cell_code (w h : R) (p : R * R) (z : Z) : Prop :=
  exists m col row, z = Z.of_N m /\ interleaves2 m col row /\
    scaled 65535 (fun r => r) (fst p / w) col /\ scaled 65535 (fun r => r) (snd p / h) row.
(** the code of a triangle is that of the mean of its corners *)
Definition triangle_code (w h : R) (t : list (R * R)) (z : Z) : Prop :=
  exists a b c, t = [a; b; c] /\
    cell_code w h ((fst a + fst b + fst c) / 3, (snd a + snd b + snd c) / 3) z.
(** codes do not decrease along the list *)
Definition in_order {A} (code : A -> Z -> Prop) (l : list A) : Prop :=
  forall i j a b, (i < j)%nat -> nth_error l i = Some a -> nth_error l j = Some b ->
    exists y z, code a y /\ code b z /\ (y <= z)%Z.
