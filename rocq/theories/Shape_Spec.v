(** Reference elements. *)
From Coq Require Import List Arith Reals.
From Verif Require Import Base Arith Shape_Model.
Import ListNotations.
Local Open Scope R_scope.

(** where the vertices of each element are in the parametric plane: corners, then mid nodes *)
Definition nodes (k : shape) : list (R * R) :=
  match k with
  | Tri3 => [(0, 0); (1, 0); (0, 1)]
  | Quad4 => [(0, 0); (1, 0); (1, 1); (0, 1)]
  | Tri6 => [(0, 0); (1, 0); (0, 1); (1/2, 0); (1/2, 1/2); (0, 1/2)]
  | Quad8 => [(0, 0); (1, 0); (1, 1); (0, 1); (1/2, 0); (1, 1/2); (1/2, 1); (0, 1/2)]
  end.
Definition linear (k : shape) : Prop := k = Tri3 \/ k = Quad4.
Definition quadratic_shape (k : shape) : Prop := k = Tri6 \/ k = Quad8.
(** an element of kind [k] in dimension [D] *)
Definition element (k : shape) (D : nat) (vs : list (list R)) : Prop :=
  length vs = length (nodes k) /\ forall v, In v vs -> length v = D.
(** the point a fraction t along the segment from p to q of the parametric plane *)
Definition toward (p q : R * R) (t : R) : R * R := (fst p + t * (fst q - fst p), snd p + t * (snd q - snd p)).
(** the affine map with the given rows (coefficients, constant) *)
Definition lin (c v : list R) : R := fold_right Rplus 0 (map (fun p => fst p * snd p) (combine c v)).
Definition affine (rows : list (list R * R)) (v : list R) : list R := map (fun row => lin (fst row) v + snd row) rows.
(** component i of the interpolated point *)
Definition comp (k : shape) (vs : list (list R)) (i : nat) (r s : R) : R :=
  match shape_at Rarith k vs r s with Ret x => nth i x 0 | _ => 0 end.
(** the monomials of the polynomials an element of kind [k] interpolates exactly, and the map with such polynomials as components *)
Definition monomials (k : shape) (r s : R) : list R :=
  match k with
  | Tri3 => [1; r; s]
  | Quad4 => [1; r; s; r * s]
  | Tri6 => [1; r; s; r * r; r * s; s * s]
  | Quad8 => [1; r; s; r * r; r * s; s * s; r * r * s; r * s * s]
  end.
Definition polynomials (k : shape) (coefficients : list (list R)) (p : R * R) : list R :=
  map (fun c => lin c (monomials k (fst p) (snd p))) coefficients.
