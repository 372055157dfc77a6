(** C48, C64: validation of a mesh *)
From Coq Require Import List Arith ZArith Lia Bool Reals Sorting.Permutation.
From Verif Require Import Base Sort_Spec Soup_Spec Soup_Final_Proofs Seg_Spec Poly_Spec Import_Model Fvm_Model Fvm_Spec Manifold_Model Manifold_Spec Manifold_Valid_Spec
  Manifold_Proofs Manifold_Valid_Proofs.
Import ListNotations.

(** The exact criterion: a mesh is accepted iff no edge is used more than twice and the edges used
    once form one closed loop.  The check needs at most as many turns of its last loop as there are
    edges.  It is undefined (reads the first of no edges, or of no boundary edges) iff there is no
    face or every edge is used exactly twice; all other meshes are refused.  The missing part: that
    the two uses of an edge have opposite orientations, which is false, see below. *)
Theorem C48_check_partial : forall stdsort, sort_contract stdsort -> forall (F : Type) fuel k (m : mesh F),
  (forall c, In c (fv m) -> length c = nverts k) ->
  let es := all_edges k (fv m) in
  length es <= fuel ->
  let r := checkManifoldWatertight stdsort fuel k m in
  (r = Ret tt <-> watertight es) /\
  (r = Ub <-> es = [] \/ forall e, In e es -> uses es e = 2) /\
  (r = Ret tt \/ r = Ub \/ r = Fail).
Proof. exact check_iff. Qed.
Print Assumptions C48_check_partial.
(** Two faces with the same orientation over the same edges are accepted. *)
Theorem C48_orientation_refuted : exists (m : mesh Z) stdsort,
  mesh_ok Tri m /\ sort_contract stdsort /\
  checkManifoldWatertight stdsort 9 Tri m = Ret tt /\
  exists i j, i <> j /\ nth_error (fv m) i = Some [0; 1; 2]%Z /\ nth_error (fv m) j = Some [0; 1; 2]%Z.
Proof.
  exists (mkMesh false false [(0, 0); (1, 0); (0, 1); (5, 5); (6, 5); (5, 6)]%Z [[0; 1; 2]; [3; 4; 5]; [0; 1; 2]]%Z [] []).
  exists isort_poly. split; [|split; [exact isort_poly_contract|split; [vm_compute; reflexivity|exists 0, 2; repeat split; lia]]].
  intros c [<-|[<-|[<-|[]]]]; (split; [reflexivity|]); cbn; intuition lia.
Qed.
Print Assumptions C48_orientation_refuted.
(** A closed surface, such as the one of a tetrahedron, makes it read out of bounds. *)
Theorem C48_bounds_refuted : forall stdsort, sort_contract stdsort ->
  checkManifoldWatertight stdsort 12 Tri (mkMesh false false [(0, 0); (1, 0); (0, 1); (1, 1)]%Z
    [[0; 1; 2]; [0; 2; 3]; [0; 3; 1]; [1; 3; 2]]%Z [] []) = Ub /\
  checkManifoldWatertight stdsort 12 Tri (@empty_mesh Z) = Ub.
Proof.
  intros stdsort Hs. split.
  - apply (C48_check_partial stdsort Hs); [intros c [<-|[<-|[<-|[<-|[]]]]]; reflexivity|cbn; lia|].
    right. cbn. intros e [<-|[<-|[<-|[<-|[<-|[<-|[<-|[<-|[<-|[<-|[<-|[<-|[]]]]]]]]]]]]]; reflexivity.
  - apply (C48_check_partial stdsort Hs); [intros c []|cbn; lia|auto].
Qed.
Print Assumptions C48_bounds_refuted.
(** Two triangles sharing an edge: a square *)
Example C48_example : watertight (all_edges Tri [[0; 1; 2]; [0; 2; 3]]%Z).
Proof.
  apply (C48_check_partial isort_poly isort_poly_contract Z 6 Tri (mkMesh false false [] [[0; 1; 2]; [0; 2; 3]]%Z [] [])).
  - intros c [<-|[<-|[]]]; reflexivity.
  - cbn. lia.
  - vm_compute. reflexivity.
Qed.
(** a square ring: refused for its hole *)
Example C48_hole : checkManifoldWatertight isort_poly 24 Quad (mkMesh false false (@nil (Z * Z))
  [[0; 1; 5; 4]; [1; 2; 6; 5]; [2; 3; 7; 6]; [3; 0; 4; 7]]%Z [] []) = Fail.
Proof. vm_compute. reflexivity. Qed.

(** * C64 *)
(** checkCCWFaces (the first step of validate): vertices are kept, a counter-clockwise face is kept
    and any other one is turned round. *)
Theorem C64_orients_faces : forall (F : Type) (isCCW : list (F * F) -> bool) k (m : mesh F), mesh_ok k m ->
  exists m', checkCCWFaces isCCW k m = Ret m' /\ oriented isCCW k m m'.
Proof. exact @oriented_ok. Qed.
Print Assumptions C64_orients_faces.
(** A linear mesh validates exactly if it is watertight after this, and then that is the result;
    validation is undefined for the meshes of C48, and all others are refused. *)
Theorem C64_validate : forall stdsort, sort_contract stdsort ->
  forall (F : Type) (isCCW : list (F * F) -> bool) selfcheck fuel k (m : mesh F), mesh_ok k m -> quadratic k = false ->
  length (all_edges k (fv m)) <= fuel ->
  exists m', checkCCWFaces isCCW k m = Ret m' /\ oriented isCCW k m m' /\
    let es := all_edges k (fv m') in
    let r := validate stdsort isCCW selfcheck fuel k m in
    (r = Ret m' <-> watertight es) /\ (r = Ub <-> es = [] \/ forall e, In e es -> uses es e = 2) /\
    (r = Ret m' \/ r = Ub \/ r = Fail).
Proof. exact validate_iff. Qed.
Print Assumptions C64_validate.
(** If turning a face round makes it counter-clockwise, all faces are counter-clockwise afterwards.  What is missing: that no face is clockwise
    without that condition, which is false, see below. *)
Theorem C64_no_clockwise_partial : forall (F : Type) (isCCW : list (F * F) -> bool) k (m m' : mesh F) ps, mesh_ok k m -> quadratic k = false ->
  (forall p, length p = nverts k -> isCCW p = false -> isCCW (turned k p) = true) ->
  checkCCWFaces isCCW k m = Ret m' -> polygons m' ps -> forall p, In p ps -> isCCW p = true.
Proof. exact @turned_ccw. Qed.
Print Assumptions C64_no_clockwise_partial.
(** So no triangle of a mesh of triangles that validates is clockwise. *)
Theorem C64_triangles : forall stdsort, sort_contract stdsort ->
  forall selfcheck fuel (m m' : mesh R) ps, mesh_ok Tri m -> length (all_edges Tri (fv m)) <= fuel ->
  validate stdsort (isCCW_of Tri) selfcheck fuel Tri m = Ret m' -> polygons m' ps ->
  forall p, In p ps -> exists a b c, p = [a; b; c] /\ (0 <= orient a b c)%R.
Proof. exact triangles_ccw. Qed.
Print Assumptions C64_triangles.
(** A counter-clockwise quadrilateral with a corner that turns right is not recognised as one:
    validation makes it clockwise. *)
Theorem C64_concave_refuted : exists (m m' : mesh R) a b c d, mesh_ok Quad m /\
  polygons m [[a; b; c; d]] /\ (0 < tarea a b c + tarea a c d)%R /\
  polygons m' [[a; d; c; b]] /\ (tarea a d c + tarea a c b < 0)%R /\
  forall stdsort, sort_contract stdsort -> forall selfcheck fuel, 4 <= fuel ->
    validate stdsort (isCCW_of Quad) selfcheck fuel Quad m = Ret m'.
Proof. exact concave_refuted. Qed.
Print Assumptions C64_concave_refuted.
(** the second face is clockwise *)
Definition ex_ccw (p : list (Z * Z)) : bool :=
  match p with
  | a :: b :: c :: _ => (0 <? (fst b - fst a) * (snd c - snd a) - (snd b - snd a) * (fst c - fst a))%Z
  | _ => false
  end.
Example C64_example :
  validate isort_poly ex_ccw (fun m => Ret m) 6 Tri
    (mkMesh false false [(0, 0); (2, 0); (2, 2); (0, 2)]%Z [[0; 1; 2]; [0; 3; 2]]%Z [] [])
  = Ret (mkMesh false false [(0, 0); (2, 0); (2, 2); (0, 2)]%Z [[0; 1; 2]; [0; 2; 3]]%Z [] []).
Proof. vm_compute. reflexivity. Qed.
