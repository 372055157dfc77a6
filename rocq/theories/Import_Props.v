(** C71: the meshes of the coarse cells of a model imported from a soup. *)
From Coq Require Import String.
From Coq Require Import List Arith ZArith Lia Bool Reals Lra.
From Verif Require Import Base Arith TextIo_Model Elem_Model Sort_Spec Soup_Model Soup_Spec Soup_Final_Proofs PinCyl_Model Grid_Model Fvm_Model Fvm_Spec Manifold_Model QInt_Model QInt_Spec Mpact_Model Mpact_Spec
  Export_Spec Import_Model Import_Spec Import_Sets_Proofs Import_Mesh_Proofs Import_Loop_Proofs Import_Refuted_Proofs.
Import ListNotations.
Local Open Scope list_scope.
Local Open Scope R_scope.

(** what is assumed of the soup and the model *)
Record importable (m : model) (s : soup (R * R * R) R) (a : asoup (R * R * R) R) : Prop := {
  im_stores : stores s a; im_content : content_ok a; im_ids : ids_ok a; im_sorted : Soup_Spec.ascending (a_elsets a); im_planar : planar a;
  im_cells : (Z.of_nat (length (cells m)) < 100000)%Z;
  im_materials : materials m <> [] /\ (Z.of_nat (length (materials m)) <= 128)%Z }.

(** Errors end the program: the import returns exactly if every cell has its mesh in the soup, and then every cell has got that mesh, moved
    to the origin, and the materials of its faces, and nothing else is changed. *)
Theorem C71_import : forall stdsort selfcheck junk checks m s a m', sort_contract stdsort -> keeps_faces selfcheck -> importable m s a ->
  (importCoarseCellMeshes stdsort selfcheck junk checks true m s = Ret m' <->
   exists js, length js = length (cells m) /\ each (validation selfcheck) checks a m js /\ updated m js m').
Proof.
  intros stdsort selfcheck junk checks m s a m' Hs Hk [H1 H2 H3 H4 H5 H6 (H7 & H8)]. split.
  - intros E. destruct (import_inv stdsort Hs selfcheck Hk junk checks true s a H1 H2 H3 H4 H5 m H6 H8 H7 m' E) as (js & He' &  [(Hl & Hu)|(K & _)]); [|discriminate].
    pose proof (proj1 (each_validation stdsort selfcheck checks a m js Hs H5) He') as He. eauto.
  - intros (js & Hl & He' & Hu). pose proof (proj2 (each_validation stdsort selfcheck checks a m js Hs H5) He') as He. exact (import_ok stdsort Hs selfcheck Hk junk checks true s a H1 H2 H3 H4 H5 m H6 H8 H7 js m' Hl He Hu).
Qed.
Print Assumptions C71_import.
(** Errors do not end the program: the same, or the import stops at the first cell without a mesh; the cells before have theirs, the cells
    after are as they were, and of that cell only the type and the materials are lost. *)
Theorem C71_stopped : forall stdsort selfcheck junk checks m s a m', sort_contract stdsort -> keeps_faces selfcheck -> importable m s a ->
  importCoarseCellMeshes stdsort selfcheck junk checks false m s = Ret m' ->
  exists js, each (validation selfcheck) checks a m js /\
    ((length js = length (cells m) /\ updated m js m') \/
     exists c m1 t mats, nth_error (cells m) (length js) = Some c /\ updated m js m1 /\
       (forall k x mats, ~ imports (validation selfcheck) checks a (materials m) (xy_extents c) (length js) k x mats) /\
       with_cell m1 (length js) (mkCell (xy_extents c) t (mesh_id c) mats) m').
Proof.
  intros stdsort selfcheck junk checks m s a m' Hs Hk [H1 H2 H3 H4 H5 H6 (H7 & H8)] E.
  destruct (import_inv stdsort Hs selfcheck Hk junk checks false s a H1 H2 H3 H4 H5 m H6 H8 H7 m' E) as (js & He' &  [(Hl & Hu)|(_ & cc & m2 & t & mats & K1 & K2 & K3 & K4)]); exists js; (split; [now apply (each_validation stdsort)|]); auto.
  right. exists cc, m2, t, mats. split; [auto|]. split; [auto|]. split; [|now apply put_cell_with].
  intros k x mats' Hi. apply (K4 k x mats'). now apply imports_validation.
Qed.
Print Assumptions C71_stopped.
Theorem C71_complete : forall stdsort selfcheck junk checks m s a js m', sort_contract stdsort -> keeps_faces selfcheck -> importable m s a ->
  length js = length (cells m) -> each (validation selfcheck) checks a m js -> updated m js m' ->
  importCoarseCellMeshes stdsort selfcheck junk checks false m s = Ret m'.
Proof.
  intros stdsort selfcheck junk checks m s a js m' Hs Hk [H1 H2 H3 H4 H5 H6 (H7 & H8)] Hl He' Hu. pose proof (proj2 (each_validation stdsort selfcheck checks a m js Hs H5) He') as He.
  exact (import_ok stdsort Hs selfcheck Hk junk checks false s a H1 H2 H3 H4 H5 m H6 H8 H7 js m' Hl He Hu).
Qed.
Print Assumptions C71_complete.
(** The ids of a model stay valid if errors end the program. *)
Theorem C71_ids : forall stdsort selfcheck junk checks m s a m', sort_contract stdsort -> keeps_faces selfcheck -> importable m s a ->
  importCoarseCellMeshes stdsort selfcheck junk checks true m s = Ret m' -> ids_valid m -> ids_valid m'.
Proof.
  intros stdsort selfcheck junk checks m s a m' Hs Hk [H1 H2 H3 H4 H5 H6 (H7 & H8)] E.
  destruct (import_inv stdsort Hs selfcheck Hk junk checks true s a H1 H2 H3 H4 H5 m H6 H8 H7 m' E) as (js & He' &  [(Hl & Hu)|(K & _)]); [|discriminate].
  exact (updated_valid stdsort selfcheck checks a m js m' Hk H3 H2 H5 Hl He' Hu).
Qed.
Print Assumptions C71_ids.
(** Otherwise they do not: a cell without a set loses its mesh type but keeps the id of the mesh. *)
Theorem C71_failed_refuted : exists m s a m', importable m s a /\ ids_valid m /\
  importCoarseCellMeshes isort_poly (fun x => Ret x) (0, 0) false false m s = Ret m' /\ ~ ids_valid m'.
Proof.
  destruct failed_refuted as (m & s & a & m' & (H1 & H2 & H3 & H4 & H5 & H6 & H7 & H8 & H9 & H10 & H11)). exists m, s, a, m'.
  split; [constructor; auto|auto].
Qed.
Print Assumptions C71_failed_refuted.
(** More than 128 materials: the import returns, but a material id is negative. *)
Theorem C71_many_materials_refuted : exists m s a m', stores s a /\ content_ok a /\ ids_ok a /\ Soup_Spec.ascending (a_elsets a) /\ planar a /\
  ids_valid m /\ materials m <> [] /\ importCoarseCellMeshes isort_poly (fun x => Ret x) (0, 0) true true m s = Ret m' /\ ~ ids_valid m'.
Proof. exact many_refuted. Qed.
Print Assumptions C71_many_materials_refuted.

(** What the constructor of a mesh does to the faces, and the checks of a quadratic mesh, are as specified. *)
Theorem C71_validation : forall stdsort selfcheck k x x', sort_contract stdsort -> has_vf x = false -> mesh_ok k x ->
  (validated stdsort selfcheck k x = Ret x' <-> validation selfcheck k x x').
Proof. exact validated_iff. Qed.
Print Assumptions C71_validation.
Theorem C71_selfcheck : forall dbg fuel buf, keeps_faces (checkSelfIntersections Rarith eps dbg fuel buf).
Proof. exact checkSelf_keeps. Qed.
Print Assumptions C71_selfcheck.

(** * The hypotheses are met *)
Example C71_example_keeps : keeps_faces (fun x => Ret x).
Proof. intros k x x' _ _ H. injection H as <-. auto. Qed.
Example C71_example : importable (tri_model [mkMaterial "A" true; mkMaterial "B" true]) tri_R tri_a.
Proof.
  destruct (@tri_content_ok (R * R * R) R o3 x3 y3) as (H1 & H2 & H3). constructor; auto.
  - apply tri_stores.
  - exact tri_planar.
  - cbn. lia.
  - split; [discriminate|cbn; lia].
Qed.
(** the triangle of cell 0 lies at (1, 1) in the soup and has material B *)
Example C71_example_run : importCoarseCellMeshes isort_poly (fun x => Ret x) (0, 0) true true (tri_model [mkMaterial "A" true; mkMaterial "B" true]) tri_R =
  Ret (tri_result [mkMaterial "A" true; mkMaterial "B" true] 1).
Proof. apply (tri_import _ _ _ _ _ 1%Z); [discriminate|reflexivity|discriminate]. Qed.
Example C71_example_stopped : exists m s a, importable m s a /\ exists m', importCoarseCellMeshes isort_poly (fun x => Ret x) (0, 0) false false m s = Ret m' /\ ~ ids_valid m'.
Proof. destruct C71_failed_refuted as (m & s & a & m' & H1 & _ & H3 & H4). exists m, s, a. split; auto. exists m'. auto. Qed.
