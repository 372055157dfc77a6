(** Where the coarse cells of an MPACT model occur in its core. *)
From Coq Require Import List ZArith Reals.
From Verif Require Import Grid_Model Mpact_Model Coarse_Model.
Import ListNotations.
Local Open Scope R_scope.

Definition at_id {A} (l : list A) (id : Z) (d : A) : A := nth (Z.to_nat id) l d.
(** The i-th division of an axis, and the number of intervals. *)
Definition dv (l : list R) (i : nat) : R := nth i l 0.
Definition intervals (l : list R) : nat := length l - 1.
(** Children are stored row by row from the bottom. *)
Definition kid (ch : list Z) (nx i j : nat) : Z := nth (j * nx + i) ch 0%Z.
(** All positions of a grid, row by row. *)
Definition sweep {A} (nx ny : nat) (f : nat -> nat -> list A) : list A :=
  flat_map (fun j => flat_map (fun i => f i j) (seq 0 nx)) (seq 0 ny).

Definition no_grid : list (list R) * list Z := ([], []).
(** The coarse cells of an RTM with the corner (x, y), in a layer with middle [z] and half thickness
    [dz]. *)
Definition in_rtm (rtm : list (list R) * list Z) (x y z dz : R) : list (Z * place) :=
  let U := nth 0 (fst rtm) [] in
  let V := nth 1 (fst rtm) [] in
  sweep (intervals U) (intervals V) (fun i j =>
    [(kid (snd rtm) (intervals U) i j,
      mkPlace (x + dv U i) (y + dv V j) z (dv U (S i) - dv U i) (dv V (S j) - dv V j) dz)]).
(** Those of a lattice of RTMs in an assembly with the corner (x, y). *)
Definition in_lattice (m : model) (lat : list axis * list Z) (x y z dz : R) : list (Z * place) :=
  let ax := nth 0 (fst lat) (mkAxis 0 0 0) in
  let ay := nth 1 (fst lat) (mkAxis 0 0 0) in
  sweep (Z.to_nat (nc ax)) (Z.to_nat (nc ay)) (fun i j =>
    in_rtm (at_id (rtms m) (kid (snd lat) (Z.to_nat (nc ax)) i j) no_grid)
      (x + (mn ax + sp ax * INR i)) (y + (mn ay + sp ay * INR j)) z dz).
(** Those of an assembly, layer by layer. *)
Definition in_assembly (m : model) (asy : list (list R) * list Z) (x y : R) : list (Z * place) :=
  let zs := nth 0 (fst asy) [] in
  flat_map (fun k =>
    in_lattice m (at_id (lattices m) (nth k (snd asy) 0%Z) ([], [])) x y
      ((dv zs k + dv zs (S k)) / 2) ((dv zs (S k) - dv zs k) / 2))
    (seq 0 (intervals zs)).
(** All occurrences of coarse cells in the core. *)
Definition in_core (m : model) : list (Z * place) :=
  let X := nth 0 (fst (core m)) [] in
  let Y := nth 1 (fst (core m)) [] in
  sweep (intervals X) (intervals Y) (fun i j =>
    in_assembly m (at_id (assemblies m) (kid (snd (core m)) (intervals X) i j) no_grid) (dv X i) (dv Y j)).

(** The first occurrence of a cell. *)
Definition first_of (c : Z) (l : list (Z * place)) : option place :=
  option_map snd (find (fun x => (fst x =? c)%Z) l).

(** Lists of children do not have more elements than an Int can count. *)
Definition countable (m : model) : Prop :=
  (Z.of_nat (length (snd (core m))) <= 2147483647)%Z /\
  (forall l, In l (lattices m) -> (Z.of_nat (length (snd l)) <= 2147483647)%Z) /\
  (forall r, In r (rtms m) -> (Z.of_nat (length (snd r)) <= 2147483647)%Z).
