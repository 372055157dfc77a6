(** What adding pins to a gmsh model promises. *)
From Coq Require Import String Reals.
From Coq Require Import List ZArith.
From Verif Require Import Groups_Model Groups_Spec Pins_Model.
Import ListNotations.
Open Scope Z_scope.

(** The surface is bounded by these circles, the outer one first. *)
Definition bounded_by (o : occ) (s : Z) (cs : list circle) : Prop :=
  exists ls, lookup s (o_surfs o) = Some ls /\
    Forall2 (fun l c => exists k, lookup l (o_loops o) = Some k /\ lookup k (o_circles o) = Some c) ls cs.

(** No tag is above the largest. *)
Definition counted (o : occ) : Prop :=
  (forall k c, In (k, c) (o_circles o) -> k <= n_curves o) /\
  (forall k c, In (k, c) (o_loops o) -> k <= n_loops o) /\
  (forall k c, In (k, c) (o_surfs o) -> k <= n_surfs o).

(** The k-th part of a pin: the disk, or the annulus between two radii. *)
Definition ring (x y : R) (rs : list R) (k : nat) : list circle :=
  mkC x y (nth k rs 0%R) :: match k with O => [] | S j => [mkC x y (nth j rs 0%R)] end.

(** The radii do not decrease. *)
Definition nondecreasing (rs : list R) : Prop :=
  forall i a b, nth_error rs i = Some a -> nth_error rs (S i) = Some b -> (a <= b)%R.

(** The part of a lattice: the kind of the pin, the row of the pin counted from the bottom, its column
    and the part of the pin. *)
Record part : Type := mkPart { p_pin : nat; p_row : nat; p_col : nat; p_ring : nat }.

(** All parts of the lattice: by kind of pin, then by row from the bottom, by column from the left,
    and from the inside out. *)
Definition lattice_parts (ids : list (list Z)) (radii : list (list R)) : list part :=
  flat_map (fun pin =>
    flat_map (fun j =>
      let row := nth (length ids - 1 - j) ids [] in
      flat_map (fun i =>
        if nth i row (-1) =? Z.of_nat pin
        then map (mkPart pin j i) (seq 0 (length (nth pin radii [])))
        else []) (seq 0 (length row)))
      (seq 0 (length ids)))
    (seq 0 (length radii)).

(** The middle of the i-th of consecutive intervals with these widths, from 0. *)
Definition middle (W : list R) (i : nat) : R := (fold_right Rplus 0 (firstn i W) + nth i W 0 / 2)%R.

(** [n] new surfaces, the q-th of which has the tag of the old largest + 1 + q, is bounded by
    [shape q], is in the group of [mat q] and has its colour.  The tags are returned in order.
    Everything that was there stays: surfaces keep their circles and colours, groups keep what
    they have and get nothing else. *)
Definition surfaces_added (o o' : occ) (out : list Z) (n : nat)
    (shape : nat -> list circle) (mat : nat -> option material) : Prop :=
  let t q := n_surfs o + 1 + Z.of_nat q in
  n_surfs o' = n_surfs o + Z.of_nat n /\
  out = map t (seq 0 n) /\
  counted o' /\
  (forall q, (q < n)%nat -> bounded_by o' (t q) (shape q)) /\
  (forall s cs, s <= n_surfs o -> bounded_by o s cs -> bounded_by o' s cs) /\
  (forall d, In d (ents (geo (o_gm o'))) <->
     In d (ents (geo (o_gm o))) \/ exists q, (q < n)%nat /\ d = (2, t q)) /\
  well_formed (o_gm o') /\
  (names_differ (o_gm o) 2 -> names_differ (o_gm o') 2) /\
  (forall d u name e, has (o_gm o) d u name e -> has (o_gm o') d u name e) /\
  (forall d name e, (exists u, has (o_gm o') d u name e) <->
     (exists u, has (o_gm o) d u name e) \/
     (d = 2 /\ exists q m, (q < n)%nat /\ mat q = Some m /\ name = group_of m /\ e = t q)) /\
  (forall q m, (q < n)%nat -> mat q = Some m -> paint (geo (o_gm o')) (2, t q) = m_colour m) /\
  (forall s, s <= n_surfs o -> paint (geo (o_gm o')) (2, s) = paint (geo (o_gm o)) (2, s)) /\
  (forall c, c <= n_curves o -> paint (geo (o_gm o')) (1, c) = paint (geo (o_gm o)) (1, c)).
