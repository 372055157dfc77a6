(** What the C interface promises. *)
From Coq Require Import String.
From Coq Require Import List Arith ZArith Bool Reals.
From Verif Require Import Base Loops Fvm_Model Mpact_Model Mpact_Spec.
Import ListNotations.
Local Open Scope list_scope.
Local Open Scope R_scope.

(** the lattice [id] is a layer of height [h] of some assembly *)
Definition lattice_occurs (m : model) (id : Z) (h : R) : Prop :=
  exists a z i lo hi, In a (assemblies m) /\ fst a = [z] /\ nth_error (snd a) i = Some id /\
    nth_error z i = Some lo /\ nth_error z (S i) = Some hi /\ h = hi - lo.
(** the RTM, the cell [id] is in such a lattice *)
Definition rtm_occurs (m : model) (id : Z) (h : R) : Prop :=
  exists lat l, lattice_occurs m lat h /\ at_ (lattices m) lat l /\ In id (snd l).
Definition cell_occurs (m : model) (id : Z) (h : R) : Prop :=
  exists r rtm, rtm_occurs m r h /\ at_ (rtms m) r rtm /\ In id (snd rtm).

(** heights that are the same up to the tolerance *)
Definition close (h h' : R) : Prop := Rabs (h - h') < 1 / 10000.
(** being the same is transitive among the heights that occur *)
Definition clustered (occurs : Z -> R -> Prop) : Prop :=
  forall i j k a b c, occurs i a -> occurs j b -> occurs k c -> close a b -> close b c -> close a c.

(** entry [i] of the lists *)
Definition item (ids : list Z) (hs : list R) (i : nat) (id : Z) (h : R) : Prop :=
  nth_error ids i = Some id /\ nth_error hs i = Some h.
(** every entry occurs, everything that occurs has an entry, and no two entries are the same *)
Definition lists (occurs : Z -> R -> Prop) (ids : list Z) (hs : list R) : Prop :=
  length ids = length hs /\
  (forall i id h, item ids hs i id h -> occurs id h) /\
  (forall id h, occurs id h -> exists i h', item ids hs i id h' /\ close h' h) /\
  (forall i j id h h', item ids hs i id h -> item ids hs j id h' -> close h h' -> i = j).
(** ascending heights, and ascending ids among the same heights *)
Definition ordered (ids : list Z) (hs : list R) : Prop :=
  forall i j id id' h h', (i < j)%nat -> item ids hs i id h -> item ids hs j id' h' ->
    (close h h' -> (id < id')%Z) /\ (~ close h h' -> h < h').
(** the same things occur, up to the tolerance *)
Definition agree (occurs occurs' : Z -> R -> Prop) : Prop :=
  (forall id h, occurs id h -> exists h', occurs' id h' /\ close h h') /\
  (forall id h, occurs' id h -> exists h', occurs id h' /\ close h h').

(** the kind of the faces of a cell with a mesh *)
Definition kind_of (t : mesh_type) : option kind :=
  match t with MT_Tri => Some Tri | MT_Quad => Some Quad | MT_Tri6 => Some Tri6 | MT_Quad8 => Some Quad8 | _ => None end.
Definition ascending (l : list R) : Prop := forall i j a b, (i < j)%nat -> nth_error l i = Some a -> nth_error l j = Some b -> a <= b.
