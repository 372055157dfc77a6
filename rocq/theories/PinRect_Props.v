(** C57: rectangular pin meshes. *)
From Coq Require Import List Arith ZArith Bool Reals Lra Lia.
From Verif Require Import Base Loops Arith Poly_Model Fvm_Model Fvm_Spec Manifold_Spec Soup_Spec Soup_Final_Proofs
  PinRect_Model PinRect_Spec PinRect_Proofs.
Import ListNotations.
Local Open Scope R_scope.

(** Positive extents and face counts: the new mesh is appended and its id returned; it has (nx+1)(ny+1)
    vertices in rows, nx ny faces that are the rectangles of the grid (listed counter-clockwise), which tile
    [0, w] x [0, h] and have equal areas; every inner edge is shared by exactly two faces, one in each
    direction, and the others lie on the border of the rectangle. *)
Theorem C57_grid : forall stdsort eps exit quads w h nx ny, sort_contract stdsort -> 0 <= eps -> 0 < w -> 0 < h ->
  (0 < nx)%nat -> (0 < ny)%nat -> (Z.of_nat ((nx + 1) * (ny + 1)) <= intMax)%Z ->
  exists m, addRectangularPinMesh stdsort eps exit quads w h (Z.of_nat nx) (Z.of_nat ny) = Ret (quads ++ [m], Z.of_nat (length quads)) /\
    length (mv m) = ((nx + 1) * (ny + 1))%nat /\ length (fv m) = (nx * ny)%nat /\ mesh_ok Quad m /\
    (forall i j, (i <= nx)%nat -> (j <= ny)%nat ->
       nth_error (mv m) (j * (nx + 1) + i) = Some (INR i * w / INR nx, INR j * h / INR ny)) /\
    (forall i j, (i < nx)%nat -> (j < ny)%nat -> exists c, nth_error (fv m) (j * nx + i) = Some c /\
       is_rect m c (INR i * w / INR nx) (INR j * h / INR ny) (INR (i + 1) * w / INR nx) (INR (j + 1) * h / INR ny)) /\
    tiles m w h /\
    (forall c p q r s, In c (fv m) -> corners (mv m) c = [Some p; Some q; Some r; Some s] ->
       quad_area Rarith p q r s = w * h / (INR nx * INR ny)) /\
    let es := all_edges Quad (fv m) in
    NoDup es /\ watertight es /\ (forall e, In e es -> (In (reverse_edge e) es <-> ~ on_border m w h e)).
Proof. exact grid_ok. Qed.
Print Assumptions C57_grid.

(** Invalid arguments end the program before anything is returned. *)
Theorem C57_rejected : forall stdsort eps quads w h nx ny, w <= 0 \/ h <= 0 \/ (nx <= 0)%Z \/ (ny <= 0)%Z ->
  addRectangularPinMesh stdsort eps true quads w h nx ny = Fail.
Proof. exact (rejected true). Qed.
Print Assumptions C57_rejected.

(** With exit_on_error off, -1 is returned, but an empty mesh has been added: "invalid arguments change
    nothing" does not hold. *)
Theorem C57_rejected_unchanged_refuted : forall stdsort eps quads w h nx ny, w <= 0 \/ h <= 0 \/ (nx <= 0)%Z \/ (ny <= 0)%Z ->
  addRectangularPinMesh stdsort eps false quads w h nx ny = Ret (quads ++ [empty_mesh], (-1)%Z) /\
  quads ++ [empty_mesh] <> quads.
Proof.
  intros. split; [now apply (rejected false)|]. intros E. apply (f_equal (@length _)) in E. rewrite app_length in E. cbn in E. lia.
Qed.
Print Assumptions C57_rejected_unchanged_refuted.

(** The number of vertices is computed in 32-bit integers. *)
Theorem C57_overflow : forall stdsort eps exit quads w h nx ny, 0 < w -> 0 < h ->
  (0 < nx)%Z -> (0 < ny)%Z -> (intMax < (nx + 1) * (ny + 1))%Z ->
  addRectangularPinMesh stdsort eps exit quads w h nx ny = Ub.
Proof. exact overflow. Qed.
Print Assumptions C57_overflow.

Example C57_example : exists m, addRectangularPinMesh isort_poly (1 / 10000) true [] 2 3 2 1 = Ret ([m], 0%Z) /\
  mv m = [(0, 0); (1, 0); (2, 0); (0, 3); (1, 3); (2, 3)] /\ fv m = [[0; 1; 4; 3]; [1; 2; 5; 4]]%Z.
Proof.
  assert (E := add_ok isort_poly (1 / 10000) true [] 2 3 2 1 isort_poly_contract ltac:(lra) ltac:(lra) ltac:(lra) ltac:(lia) ltac:(lia) ltac:(unfold intMax; lia)).
  eexists. split; [exact E|]. split; [|reflexivity].
  change (Z.to_nat 2) with 2%nat. change (Z.to_nat 1) with 1%nat. cbn.
  repeat (apply f_equal2; [apply f_equal2; field|]). reflexivity.
Qed.
Example C57_example_rejected : addRectangularPinMesh isort_poly (1 / 10000) true [] 2 0 2 1 = Fail.
Proof. apply C57_rejected. right. left. lra. Qed.
Example C57_example_overflow : addRectangularPinMesh isort_poly (1 / 10000) true [] 1 1 65535 65535 = Ub.
Proof. apply C57_overflow; try lra; unfold intMax; lia. Qed.
