(** Model of include/um2/mesh/element_types.hpp and of PolytopeSoup::getElemTypes. *)
From Coq Require Import List Arith ZArith Bool.
From Verif Require Import Base.
Import ListNotations.
Local Open Scope Z_scope.

(** element_types.hpp:14-23.  Values of the enumeration other than its enumerators (which need
    a cast) are not modelled. *)
Inductive vtk :=
| V_Invalid | V_Vertex | V_Line | V_Triangle | V_Quad
| V_QuadraticEdge | V_QuadraticTriangle | V_QuadraticQuad.
Definition vtk_code (t : vtk) : Z :=
  match t with
  | V_Invalid => 0 | V_Vertex => 1 | V_Line => 3 | V_Triangle => 5 | V_Quad => 9
  | V_QuadraticEdge => 21 | V_QuadraticTriangle => 22 | V_QuadraticQuad => 23
  end.
(** operator== of the enumeration *)
Definition vtk_eqb (a b : vtk) : bool := vtk_code a =? vtk_code b.

(** element_types.hpp:26-35 *)
Inductive xdmf :=
| X_Invalid | X_Vertex | X_Line | X_Triangle | X_Quad
| X_QuadraticEdge | X_QuadraticTriangle | X_QuadraticQuad.
Definition xdmf_code (t : xdmf) : Z :=
  match t with
  | X_Invalid => 0 | X_Vertex => 1 | X_Line => 2 | X_Triangle => 4 | X_Quad => 5
  | X_QuadraticEdge => 34 | X_QuadraticTriangle => 36 | X_QuadraticQuad => 37
  end.

(** element_types.hpp:37-45 *)
Inductive mesh_type :=
| M_Invalid | M_Tri | M_Quad | M_TriQuad | M_QuadraticTri | M_QuadraticQuad | M_QuadraticTriQuad.

(** element_types.hpp:47-69 *)
Definition verticesPerElem (t : vtk) : Z :=
  match t with
  | V_Vertex => 1
  | V_Line => 2
  | V_Triangle => 3
  | V_Quad => 4
  | V_QuadraticEdge => 3
  | V_QuadraticTriangle => 6
  | V_QuadraticQuad => 8
  | V_Invalid => -1000
  end.

(** element_types.hpp:73-93 *)
Definition inferVTKElemType (n : Z) : vtk :=
  if n =? 1 then V_Vertex
  else if n =? 2 then V_Line
  else if n =? 3 then V_Triangle
  else if n =? 4 then V_Quad
  else if n =? 6 then V_QuadraticTriangle
  else if n =? 8 then V_QuadraticQuad
  else V_Invalid.

(** element_types.hpp:95-117; the argument is an int8_t *)
Definition xdmfToVTKElemType (x : Z) : vtk :=
  if x =? xdmf_code X_Vertex then V_Vertex
  else if x =? xdmf_code X_Line then V_Line
  else if x =? xdmf_code X_Triangle then V_Triangle
  else if x =? xdmf_code X_Quad then V_Quad
  else if x =? xdmf_code X_QuadraticEdge then V_QuadraticEdge
  else if x =? xdmf_code X_QuadraticTriangle then V_QuadraticTriangle
  else if x =? xdmf_code X_QuadraticQuad then V_QuadraticQuad
  else V_Invalid.

(** element_types.hpp:119-141 *)
Definition vtkToXDMFElemType (t : vtk) : xdmf :=
  match t with
  | V_Vertex => X_Vertex
  | V_Line => X_Line
  | V_Triangle => X_Triangle
  | V_Quad => X_Quad
  | V_QuadraticEdge => X_QuadraticEdge
  | V_QuadraticTriangle => X_QuadraticTriangle
  | V_QuadraticQuad => X_QuadraticQuad
  | V_Invalid => X_Invalid
  end.

(** element_types.hpp:143-178 *)
Definition getMeshType (ts : list vtk) : mesh_type :=
  match ts with
  | [t] =>
      match t with
      | V_Triangle => M_Tri
      | V_Quad => M_Quad
      | V_QuadraticTriangle => M_QuadraticTri
      | V_QuadraticQuad => M_QuadraticQuad
      | _ => M_Invalid
      end
  | [a; b] =>
      let (e0, e1) := if vtk_code a >? vtk_code b then (b, a) else (a, b) in
      if (vtk_eqb e0 V_Triangle && vtk_eqb e1 V_Quad)%bool then M_TriQuad
      else if (vtk_eqb e0 V_QuadraticTriangle && vtk_eqb e1 V_QuadraticQuad)%bool
      then M_QuadraticTriQuad
      else M_Invalid
  | _ => M_Invalid
  end.

(** polytope_soup.hpp:268-286; the loop over _element_types with the list built so far.
    Vector::emplace_back appends (Vector_Model). *)
Fixpoint elemTypes_loop (ts acc : list vtk) : list vtk :=
  match ts with
  | [] => acc
  | t :: ts' => elemTypes_loop ts' (if existsb (vtk_eqb t) acc then acc else acc ++ [t])
  end.
Definition getElemTypes (ts : list vtk) : list vtk := elemTypes_loop ts [].
