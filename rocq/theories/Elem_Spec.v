(** The element types, described by shape and order. *)
From Coq Require Import List ZArith.
From Verif Require Import Elem_Model.
Import ListNotations.
Local Open Scope Z_scope.

Definition supported (t : vtk) : Prop := t <> V_Invalid.
(** Corners, and whether each edge carries an extra midpoint vertex (edges: 0, 1, 3, 4). *)
Definition corners (t : vtk) : Z :=
  match t with
  | V_Vertex => 1
  | V_Line | V_QuadraticEdge => 2
  | V_Triangle | V_QuadraticTriangle => 3
  | V_Quad | V_QuadraticQuad => 4
  | V_Invalid => 0
  end.
Definition edges (t : vtk) : Z :=
  match t with
  | V_Line | V_QuadraticEdge => 1
  | V_Triangle | V_QuadraticTriangle => 3
  | V_Quad | V_QuadraticQuad => 4
  | _ => 0
  end.
Definition quadratic (t : vtk) : Prop :=
  t = V_QuadraticEdge \/ t = V_QuadraticTriangle \/ t = V_QuadraticQuad.

(** The mesh type that corresponds to a set of element types. *)
Definition only (ts : list vtk) (P : list vtk) : Prop := forall t, In t ts <-> In t P.
Definition mesh_of_set (ts : list vtk) (m : mesh_type) : Prop :=
  match m with
  | M_Tri => only ts [V_Triangle]
  | M_Quad => only ts [V_Quad]
  | M_TriQuad => only ts [V_Triangle; V_Quad]
  | M_QuadraticTri => only ts [V_QuadraticTriangle]
  | M_QuadraticQuad => only ts [V_QuadraticQuad]
  | M_QuadraticTriQuad => only ts [V_QuadraticTriangle; V_QuadraticQuad]
  | M_Invalid => False
  end.
