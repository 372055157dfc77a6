(** C41: consistency of the element and mesh type tables. *)
From Coq Require Import List ZArith.
From Verif Require Import Base Elem_Model Elem_Spec Elem_Proofs.
Import ListNotations.
Local Open Scope Z_scope.

(** VTK -> XDMF -> VTK and XDMF code -> VTK -> XDMF code are the identity; the codes accepted are
    exactly those written. *)
Theorem C41_vtk_xdmf :
  (forall t, supported t -> xdmfToVTKElemType (xdmf_code (vtkToXDMFElemType t)) = t) /\
  (forall x, xdmfToVTKElemType x <> V_Invalid -> xdmf_code (vtkToXDMFElemType (xdmfToVTKElemType x)) = x) /\
  (forall x, xdmfToVTKElemType x <> V_Invalid <->
     exists t, supported t /\ xdmf_code (vtkToXDMFElemType t) = x).
Proof. exact (conj xdmf_of_vtk (conj vtk_of_xdmf xdmf_supported)). Qed.
Print Assumptions C41_vtk_xdmf.

Theorem C41_codes_injective :
  (forall a b, vtk_code a = vtk_code b -> a = b) /\ (forall a b, xdmf_code a = xdmf_code b -> a = b).
Proof. exact (conj codes_inj xcodes_inj). Qed.
Print Assumptions C41_codes_injective.

(** One vertex per corner, plus one per edge for the quadratic types. *)
Theorem C41_vertices : forall t, supported t ->
  (quadratic t -> verticesPerElem t = corners t + edges t) /\
  (~ quadratic t -> verticesPerElem t = corners t).
Proof. exact vertices_ok. Qed.
Print Assumptions C41_vertices.

(** The type inferred from a number of vertices has that number of vertices, and every type
    except the quadratic edge is recovered from its number of vertices. *)
Theorem C41_infer :
  (forall n t, inferVTKElemType n = t -> supported t -> verticesPerElem t = n) /\
  (forall t, supported t -> t <> V_QuadraticEdge -> inferVTKElemType (verticesPerElem t) = t).
Proof. exact (conj infer_inv infer_ok). Qed.
Print Assumptions C41_infer.

(** element_types.hpp:71-72 says that the number of vertices identifies the type: false for the
    quadratic edge, which is read back as a triangle. *)
Theorem C41_infer_refuted : exists t, supported t /\ inferVTKElemType (verticesPerElem t) <> t.
Proof. exact infer_edge_refuted. Qed.
Print Assumptions C41_infer_refuted.

Theorem C41_getElemTypes : forall ts,
  NoDup (getElemTypes ts) /\ forall t, In t (getElemTypes ts) <-> In t ts.
Proof. exact getElemTypes_ok. Qed.
Print Assumptions C41_getElemTypes.

(** The mesh type of a soup is a function of the set of its element types only, and is valid
    exactly for the six supported sets. *)
Theorem C41_meshType : forall ts m,
  getMeshType (getElemTypes ts) = m /\ m <> M_Invalid <-> mesh_of_set ts m.
Proof. exact meshType_ok. Qed.
Print Assumptions C41_meshType.

Theorem C41_meshType_order : forall l l', NoDup l -> NoDup l' -> (forall t, In t l <-> In t l') ->
  getMeshType l = getMeshType l'.
Proof. exact meshType_perm. Qed.
Print Assumptions C41_meshType_order.

Example C41_example :
  getMeshType (getElemTypes [V_Quad; V_Triangle; V_Quad; V_Triangle]) = M_TriQuad /\
  getMeshType (getElemTypes [V_QuadraticQuad; V_QuadraticTriangle]) = M_QuadraticTriQuad /\
  getMeshType (getElemTypes [V_Quad; V_QuadraticTriangle]) = M_Invalid /\
  xdmfToVTKElemType 34 = V_QuadraticEdge.
Proof. repeat split. Qed.
