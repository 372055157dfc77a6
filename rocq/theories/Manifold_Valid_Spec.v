(** What orienting the faces of a mesh means. *)
From Coq Require Import List ZArith Sorting.Permutation.
From Verif Require Import Base Fvm_Model Fvm_Spec.
Import ListNotations.

(** [c'] runs through the corners of [c] in the other direction; for all but 8-node quadrilaterals
    every edge also keeps its mid-edge vertex *)
Definition turned_round (k : kind) (c c' : list Z) : Prop :=
  Permutation c c' /\
  match k with
  | Quad8 => reversed Quad (firstn 4 c) (firstn 4 c')
  | _ => reversed k c c'
  end.
(** the same vertices and as many faces; counter-clockwise faces are kept, the others turned round *)
Definition oriented {F} (isCCW : list (F * F) -> bool) (k : kind) (m m' : mesh F) : Prop :=
  mv m' = mv m /\ length (fv m') = length (fv m) /\ mesh_ok k m' /\
  forall i c, nth_error (fv m) i = Some c -> exists p c', map Some p = corners (mv m) c /\
    nth_error (fv m') i = Some c' /\ if isCCW p then c' = c else turned_round k c c'.
(** a linear face turned round keeps its first corner *)
Definition turned {A} (k : kind) (p : list A) : list A :=
  match k, p with
  | Tri, [a; b; c] => [a; c; b]
  | Quad, [a; b; c; d] => [a; d; c; b]
  | _, _ => p
  end.
