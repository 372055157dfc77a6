(** Model of Model::addRectangularPinMesh (src/mpact/model.cpp:715-766), over exact real numbers.

    [quads] is the model's vector of quadrilateral meshes, [exit_on_error] the setting of the same name
    (common/settings.hpp): logger::error ends the program if it is set and else the function goes on to
    return -1.  LOG_DEBUG is not modelled.  std::sort in validate is the parameter [stdsort]. *)
From Coq Require Import List Arith ZArith Bool Reals.
From Verif Require Import Base Loops Arith Seg_Model Poly_Model Fvm_Model Manifold_Model.
Import ListNotations.
Local Open Scope R_scope.

(** logger::error (logger.hpp:107-147) followed by return *)
Definition error {A} (exit_on_error : bool) (r : A) : outcome A := if exit_on_error then Fail else Ret r.

(** model.cpp:733-744: the vertices, row by row *)
Definition rect_vertices (w h : R) (nx ny : nat) : outcome (list (R * R)) :=
  let dx := w / INR nx in
  let dy := h / INR ny in
  for_ (ny + 1) 0 (fun j vs =>
    let y := INR j * dy in
    for_ (nx + 1) 0 (fun i vs =>
      let x := INR i * dx in
      wr vs (j * (nx + 1) + i) (x, y)) vs) (repeat (0, 0) ((nx + 1) * (ny + 1))).
(** model.cpp:745-763: the faces; the four components of a face are written together here *)
Definition rect_faces (nx ny : nat) : outcome (list (list Z)) :=
  for_ ny 0 (fun j fs =>
    for_ nx 0 (fun i fs =>
      let v0 := (j * (nx + 1) + i)%nat in
      let v1 := (v0 + 1)%nat in
      let v2 := (v1 + nx + 1)%nat in
      let v3 := (v2 - 1)%nat in
      wr fs (j * nx + i) (map Z.of_nat [v0; v1; v2; v3])) fs) (repeat [0; 0; 0; 0]%Z (nx * ny)).
(** isCCW of a face (quadrilateral.hpp:351-358) *)
Definition face_isCCW (eps : R) (p : list (R * R)) : bool :=
  match p with
  | [a; b; c; d] => quad_isCCW Rarith eps a b c d
  | _ => false
  end.

Section Add.
Variable stdsort : forall A : Type, (A -> A -> bool) -> list A -> list A.
(** epsDistance<Float>() *)
Variable eps : R.
Variable exit_on_error : bool.
(** model.cpp:715-766: the vector of meshes afterwards and the value returned *)
Definition addRectangularPinMesh (quads : list (mesh R)) (w h : R) (nx ny : Z) : outcome (list (mesh R) * Z) :=
  let mesh_id := Z.of_nat (length quads) in
  let quads' := quads ++ [empty_mesh] in
  if negb (Rltb 0 w && Rltb 0 h) then error exit_on_error (quads', -1)%Z
  else if (nx <=? 0)%Z || (ny <=? 0)%Z then error exit_on_error (quads', -1)%Z
  else
    let* _ := i32 ((nx + 1) * (ny + 1)) in
    let* vs := rect_vertices w h (Z.to_nat nx) (Z.to_nat ny) in
    let* fs := rect_faces (Z.to_nat nx) (Z.to_nat ny) in
    let* m := validate stdsort (face_isCCW eps) (fun m => Ret m) (4 * length fs) Quad (mkMesh false false vs fs [] []) in
    Ret (quads ++ [m], mesh_id).
End Add.
