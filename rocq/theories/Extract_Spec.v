(** What the text files of the extraction programs list. *)
From Coq Require Import String.
From Coquelicot Require Import Coquelicot.
From Coq Require Import List Arith ZArith Bool Reals.
From Verif Require Import Base Loops Arith TextIo_Model Elem_Model Soup_Model Soup_Spec Seg_Spec Poly_Spec QSeg_Model QSeg_Spec QPoly_Spec PinCyl_Model Grid_Model Fvm_Model Fvm_Spec
  Mpact_Model Mpact_Spec Export_Model Export_Spec Outputs_Spec.
Import ListNotations.
Local Open Scope list_scope.
Local Open Scope R_scope.

(** a file that lists numbers, one on each line; the text after the last newline is empty *)
Definition lists (show : R -> list Z) (l : list R) (t : list Z) : Prop := lines t = map show l ++ [[]].

(** ** Faces of the core *)
(** the faces of a coarse cell as kinds and points, in the order of its mesh *)
Definition faces_in (m : model) (id : Z) : list (kind * list (R * R)) :=
  match cell_mesh m (the_cell m id) with Some (k, x) => map (fun f => (k, map (vertex x) f)) (fv x) | None => [] end.
(** of all the cells of the core, cell by cell *)
Definition core_faces (m : model) : list (kind * list (R * R)) := flat_map (faces_in m) (all_cells m).
Definition core_edges (m : model) : list (list (R * R)) := flat_map (fun f => edges_of (fst f) (snd f)) (core_faces m).

(** an edge for which the formulas of quadratic segments are exact (see C65): the mid node is on the middle half of the chord, or the
    edge is curved and is not taken for a straight one *)
Definition smooth (a b c : R * R) : Prop := mid_half a b c \/ (orient a b c <> 0 /\ isStraight Rarith (eps * eps) a b c = false).
(** the length of an edge: the distance of its ends, or the length of the curve *)
Definition measured (e : list (R * R)) (l : R) : Prop :=
  match e with
  | [a; b] => l = dist2 a b
  | [a; b; c] => smooth a b c -> arclength (curve2 a b c) l
  | _ => False
  end.
(** the mean chord length of a face: pi times the area over the perimeter *)
Definition crossed (f : kind * list (R * R)) (l : R) : Prop :=
  let '(k, p) := f in
  if quadratic k then forall vs ms, p = vs ++ ms -> length vs = length ms -> (forall a b c, In (a, b, c) (qedges vs ms) -> smooth a b c) ->
    exists Is Ls, integrals green (qedges vs ms) Is /\ integrals arclength (qedges vs ms) Ls /\ l = PI * rsum Is / rsum Ls
  else l = PI * rsum (map (fun e => tarea (0, 0) (fst e) (snd e)) (edges p)) / rsum (map (fun e => dist2 (fst e) (snd e)) (edges p)).

(** ** Element sets of groups *)
(** the soup has, for each group, an element set with these values: there is one for each entry of [vs], but not for the next group *)
Definition group_name (prefix : string) (g : nat) : list Z := lit prefix ++ digits5 (Z.of_nat g).
Definition group_set (a : asoup (R * R * R) R) (prefix : string) (g : nat) (v : list R) : Prop :=
  v <> [] /\ exists ids, In (mkElset (group_name prefix g) ids v) (a_elsets a).
Definition group_sets (a : asoup (R * R * R) R) (prefix : string) (vs : list (list R)) : Prop :=
  forall g v, nth_error vs g = Some v -> group_set a prefix g v.
Definition no_group (a : asoup (R * R * R) R) (prefix : string) (g : nat) : Prop := ~ In (group_name prefix g) (map es_name (a_elsets a)).
(** 32 bits are enough for the faces of each cell and for [n] numbers for each face of the core *)
Definition countable (n : Z) (m : model) : Prop :=
  Forall (fun c => Z.of_nat (length (material_ids c)) <= intMax)%Z (cells m) /\ (n * Z.of_nat (length (core_faces m)) <= intMax)%Z.
