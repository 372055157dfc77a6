(** C31: shape functions *)
From Coq Require Import List Arith Reals.
From Coquelicot Require Import Coquelicot.
From Verif Require Import Base Arith Vec_Model Seg_Model Poly_Model QSeg_Model Shape_Model Shape_Spec Shape_Proofs.
Import ListNotations.
Local Open Scope R_scope.

(** Interpolation is defined for all parameters and keeps the dimension. *)
Theorem C31_total : forall k D vs r s, element k D vs -> exists x, shape_at Rarith k vs r s = Ret x /\ length x = D.
Proof. exact shape_total. Qed.
Print Assumptions C31_total.
(** Every vertex is reproduced at its node. *)
Theorem C31_vertices : forall k D vs, element k D vs -> forall j p v, nth_error (nodes k) j = Some p -> nth_error vs j = Some v ->
  shape_at Rarith k vs (fst p) (snd p) = Ret v.
Proof. exact vertices_ok. Qed.
Print Assumptions C31_vertices.
(** Interpolation commutes with every affine map (the weights sum to one). *)
Theorem C31_affine : forall k D vs rows r s x, element k D vs -> shape_at Rarith k vs r s = Ret x ->
  shape_at Rarith k (map (affine rows) vs) r s = Ret (affine rows x).
Proof. exact affine_ok. Qed.
Print Assumptions C31_affine.
(** The interpolation is the one of the element: linear, bilinear, quadratic or (eight nodes) serendipity polynomials come back exactly. *)
Theorem C31_polynomials : forall k C r s, shape_at Rarith k (map (polynomials k C) (nodes k)) r s = Ret (polynomials k C (r, s)).
Proof. exact poly_ok. Qed.
Print Assumptions C31_polynomials.
(** The edges of the reference element are mapped to the edge elements, with the same parameter. *)
Theorem C31_linear_edges : forall k D vs, linear k -> element k D vs -> forall j a b pa pb t,
  getEdge vs j = Ret (a, b) -> getEdge (nodes k) j = Ret (pa, pb) ->
  shape_at Rarith k vs (fst (toward pa pb t)) (snd (toward pa pb t)) = Ret (seg_at Rarith a b t).
Proof. exact linear_edges_ok. Qed.
Print Assumptions C31_linear_edges.
Theorem C31_quadratic_edges : forall k D vs, quadratic_shape k -> element k D vs -> forall j a b c pa pb pc t,
  getEdgeQ vs j = Ret (a, b, c) -> getEdgeQ (nodes k) j = Ret (pa, pb, pc) ->
  shape_at Rarith k vs (fst (toward pa pb t)) (snd (toward pa pb t)) = Ret (qs_at Rarith a b c t) /\ pc = toward pa pb (1/2).
Proof. exact quadratic_edges_ok. Qed.
Print Assumptions C31_quadratic_edges.
(** The columns of the jacobian are the partial derivatives. *)
Theorem C31_jacobian : forall k D vs r s i, element k D vs -> exists c0 c1,
  shape_jac Rarith k vs r s = Ret (c0, c1) /\ length c0 = D /\ length c1 = D /\
  is_derive (fun t => comp k vs i t s) r (nth i c0 0) /\ is_derive (fun t => comp k vs i r t) s (nth i c1 0).
Proof. exact jac_ok. Qed.
Print Assumptions C31_jacobian.
Example C31_example : element Quad8 2 [[0;0]; [2;0]; [2;2]; [0;2]; [1;-1]; [2;1]; [1;3]; [0;1]] /\
  shape_at Rarith Quad8 [[0;0]; [2;0]; [2;2]; [0;2]; [1;-1]; [2;1]; [1;3]; [0;1]] (1/2) (1/4) = Ret [1; 0].
Proof. exact shape_example. Qed.
(** The same for line segments (quadratic segments are in C29). *)
Theorem C31_segment : forall a b D i r, length a = D -> length b = D ->
  seg_at Rarith a b 0 = a /\ seg_at Rarith a b 1 = b /\ length (seg_jacobian Rarith a b r) = D /\
  is_derive (fun t => nth i (seg_at Rarith a b t) 0) r (nth i (seg_jacobian Rarith a b r) 0).
Proof. exact segment_ok. Qed.
Print Assumptions C31_segment.
Theorem C31_segment_affine : forall rows a b D r, length a = D -> length b = D ->
  seg_at Rarith (affine rows a) (affine rows b) r = affine rows (seg_at Rarith a b r).
Proof. exact segment_affine. Qed.
Print Assumptions C31_segment_affine.
