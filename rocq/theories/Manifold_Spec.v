(** Shared edges, boundary and loops of a mesh. *)
From Coq Require Import List Arith ZArith Bool Sorting.Permutation.
From Verif Require Import Base Fvm_Model Fvm_Spec.
Import ListNotations.

(** every edge of every face, in the direction in which the face runs through it *)
Definition all_edges (k : kind) (fs : list (list Z)) : list (list Z) := concat (map (edges_of k) fs).
Definition edge_dec : forall a b : list Z, {a = b} + {a <> b} := list_eq_dec Z.eq_dec.
(** in the same or in the opposite direction *)
Definition same_edge (a b : list Z) : bool := if edge_dec a b then true else if edge_dec a (reverse_edge b) then true else false.
(** how many times an edge is used *)
Definition uses (es : list (list Z)) (e : list Z) : nat := length (filter (same_edge e) es).
(** the edges used once *)
Definition boundary_of (es : list (list Z)) : list (list Z) := filter (fun e => uses es e =? 1) es.
Definition start_of (e : list Z) : Z := nth 0 e 0%Z.
Definition end_of (e : list Z) : Z := nth 1 e 0%Z.
(** each edge ends where the next one starts, the last where the first starts, and no vertex is
    visited twice *)
Definition closed_loop (l : list (list Z)) : Prop :=
  exists s t, map start_of l = s :: t /\ map end_of l = t ++ [s] /\ NoDup (s :: t).
(** no edge is used more than twice, and the ones used once form one closed loop *)
Definition watertight (es : list (list Z)) : Prop :=
  (forall e, In e es -> uses es e <= 2) /\
  exists l, Permutation (boundary_of es) l /\ closed_loop l.
