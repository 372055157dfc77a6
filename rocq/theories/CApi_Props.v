(** C61 (lists of heights) and C67 (queries of a cell) of the C interface. *)
From Coq Require Import String.
From Coq Require Import List Arith ZArith Bool Reals Lra Lia Permutation.
From Verif Require Import Base Loops Arith Box_Proofs Sort_Spec Soup_Spec Soup_Final_Proofs Fvm_Model Fvm_Spec PinRect_Model PinCyl_Model Grid_Model Grid_Spec Mpact_Model Mpact_Spec Mpact_Steps_Proofs CApi_Model CApi_Spec CApi_Proofs CApi_More_Proofs CApi_Refuted_Proofs.
Import ListNotations.
Local Open Scope list_scope.
Local Open Scope R_scope.

(** * C61 *)
(** For every model built by the functions of C55, if being the same height up to the tolerance is transitive among the heights that
    occur: the lists have every pair exactly once, in order. *)
Theorem C61_lattice_heights : forall stdsort checks m, sort_contract stdsort -> ids_valid m -> consistent checks m -> clustered (lattice_occurs m) ->
  exists n ids hs, um2MPACTLatticeHeights stdsort m = Ret (n, ids, hs) /\ n = Z.of_nat (length ids) /\ lists (lattice_occurs m) ids hs /\ ordered ids hs.
Proof. intros stdsort checks m Hs HV HC. exact (lattice_heights_ok stdsort Hs checks m HV HC). Qed.
Print Assumptions C61_lattice_heights.
Theorem C61_rtm_heights : forall stdsort checks m, sort_contract stdsort -> ids_valid m -> consistent checks m -> clustered (rtm_occurs m) ->
  exists n ids hs, um2MPACTRTMHeights stdsort m = Ret (n, ids, hs) /\ n = Z.of_nat (length ids) /\ lists (rtm_occurs m) ids hs /\ ordered ids hs.
Proof. intros stdsort checks m Hs HV HC. exact (rtm_heights_ok stdsort Hs checks m HV HC). Qed.
Print Assumptions C61_rtm_heights.
Theorem C61_cell_heights : forall stdsort checks m, sort_contract stdsort -> ids_valid m -> consistent checks m -> clustered (cell_occurs m) ->
  exists n ids hs, um2MPACTCoarseCellHeights stdsort m = Ret (n, ids, hs) /\ n = Z.of_nat (length ids) /\ lists (cell_occurs m) ids hs /\ ordered ids hs.
Proof. intros stdsort checks m Hs HV HC. exact (cell_heights_ok stdsort Hs checks m HV HC). Qed.
Print Assumptions C61_cell_heights.
(** What is listed is determined by what occurs, not by the order of the assemblies: two models in which the same pairs occur up to
    the tolerance give the same ids, and heights that are the same up to the tolerance. *)
Theorem C61_determined : forall occ1 occ2 ids1 hs1 ids2 hs2, clustered (fun i h => occ1 i h \/ occ2 i h) -> agree occ1 occ2 ->
  lists occ1 ids1 hs1 -> ordered ids1 hs1 -> lists occ2 ids2 hs2 -> ordered ids2 hs2 ->
  ids1 = ids2 /\ Forall2 close hs1 hs2.
Proof. exact lists_unique. Qed.
Print Assumptions C61_determined.
(** If it is not transitive: what is returned, if anything is, is still right ... *)
Theorem C61_returned : forall stdsort checks m n ids hs, sort_contract stdsort -> ids_valid m -> consistent checks m ->
  (um2MPACTLatticeHeights stdsort m = Ret (n, ids, hs) -> n = Z.of_nat (length ids) /\ lists (lattice_occurs m) ids hs /\ ordered ids hs) /\
  (um2MPACTRTMHeights stdsort m = Ret (n, ids, hs) -> n = Z.of_nat (length ids) /\ lists (rtm_occurs m) ids hs /\ ordered ids hs) /\
  (um2MPACTCoarseCellHeights stdsort m = Ret (n, ids, hs) -> n = Z.of_nat (length ids) /\ lists (cell_occurs m) ids hs /\ ordered ids hs).
Proof. intros stdsort checks m n ids hs Hs HV HC. exact (heights_returned stdsort Hs checks m HV HC n ids hs). Qed.
Print Assumptions C61_returned.
(** ... but in a model that can be built, no order is right, and std::sort is called with a comparator that is not an order. *)
Theorem C61_order_refuted : forall stdsort selfcheck at_origin checks exit_on_error, exists ops m,
  run stdsort selfcheck at_origin checks exit_on_error empty_model ops = Ret m /\
  (forall ids hs, lists (lattice_occurs m) ids hs -> ~ ordered ids hs) /\ um2MPACTLatticeHeights stdsort m = Ub.
Proof. intros. exists cyclic_ops, cyclic. split; [apply cyclic_run|]. split; [exact cyclic_no_order|apply cyclic_ub]. Qed.
Print Assumptions C61_order_refuted.
(** The heights of one assembly are the distances of its planes, from the bottom; together they are its height. *)
Theorem C61_assembly_heights : forall checks m id a z buf, ids_valid m -> consistent checks m ->
  at_ (assemblies m) id a -> fst a = [z] -> (length (snd a) <= length buf)%nat ->
  exists hs, um2MPACTAssemblyHeights m id buf = Ret (hs ++ skipn (length (snd a)) buf) /\ length hs = length (snd a) /\
    (forall i h, nth_error hs i = Some h -> exists lo hi, nth_error z i = Some lo /\ nth_error z (S i) = Some hi /\ h = hi - lo) /\
    (forall bot top, first_last z bot top -> fold_right Rplus 0 hs = top - bot).
Proof. intros checks m id a z buf HV HC. exact (assembly_heights_ok checks m HV HC id a z buf). Qed.
Print Assumptions C61_assembly_heights.

(** * C67 *)
Theorem C67_materials : forall m id c buf, at_ (cells m) id c -> (length (material_ids c) <= length buf)%nat ->
  um2MPACTCoarseCellMaterialIDs m id buf = Ret (material_ids c ++ skipn (length (material_ids c)) buf).
Proof. intros m id c buf Hc. exact (materials_ok m id c Hc buf). Qed.
Print Assumptions C67_materials.
(** all intersections with all edges of all faces of the cell's mesh, ascending; the buffer needs room for one more *)
Theorem C67_intersect : forall stdsort exit_on_error m id c k x ps edge_hits buf, sort_contract stdsort ->
  at_ (cells m) id c -> kind_of (mtype c) = Some k -> mesh_at m (mtype c) (mesh_id c) x -> mesh_ok k x -> polygons x ps ->
  hits_ok edge_hits -> let rs := concat (map (face_reports edge_hits k) ps) in (length rs + 1 <= length buf)%nat ->
  exists s rest, um2MPACTIntersectCoarseCell stdsort exit_on_error m id edge_hits buf = Ret (Z.of_nat (length rs), s ++ rest) /\
    Permutation rs s /\ ascending s /\ length (s ++ rest) = length buf /\ skipn 1 rest = skipn (length rs + 1) buf.
Proof. intros stdsort exit_on_error m id c k x ps edge_hits buf Hs Hc. exact (intersect_cell_ok stdsort Hs exit_on_error m id c Hc k x ps edge_hits buf). Qed.
Print Assumptions C67_intersect.
Theorem C67_face_data : forall exit_on_error m id c k x, at_ (cells m) id c -> kind_of (mtype c) = Some k ->
  mesh_at m (mtype c) (mesh_id c) x -> mesh_ok k x ->
  exists vs fs, um2MPACTCoarseCellFaceData exit_on_error m id = Ret (Some (Z.of_nat (length (mv x)), Z.of_nat (length (fv x)), vs, fs)) /\
    length vs = (2 * length (mv x))%nat /\ length fs = (nverts k * length (fv x))%nat /\
    (forall i p, nth_error (mv x) i = Some p -> nth_error vs (2 * i) = Some (fst p) /\ nth_error vs (2 * i + 1) = Some (snd p)) /\
    (forall f j face, nth_error (fv x) f = Some face -> (j < nverts k)%nat -> nth_error fs (nverts k * f + j) = nth_error face j).
Proof. intros exit_on_error m id c k x Hc. exact (face_data_ok exit_on_error m id c Hc k x). Qed.
Print Assumptions C67_face_data.
Theorem C67_face_containing : forall exit_on_error m id c k x contains f, at_ (cells m) id c -> kind_of (mtype c) = Some k ->
  mesh_at m (mtype c) (mesh_id c) x -> um2MPACTCoarseCellFaceContaining exit_on_error m id contains f = faceContaining contains x.
Proof. intros exit_on_error m id c k x contains f Hc Hk Hx. unfold um2MPACTCoarseCellFaceContaining. now rewrite (with_mesh_ok m id c Hc _ _ k x). Qed.
Print Assumptions C67_face_containing.
(** A cell whose type has no faces is reported and leaves the buffers; a cell of another type, but without mesh, is not noticed: the
    mesh with index -1 is read. addCoarseCell accepts such a cell. *)
Theorem C67_no_type : forall stdsort exit_on_error m id c edge_hits contains buf f, at_ (cells m) id c -> kind_of (mtype c) = None ->
  um2MPACTIntersectCoarseCell stdsort exit_on_error m id edge_hits buf = (if exit_on_error then Fail else Ret ((-1)%Z, buf)) /\
  um2MPACTCoarseCellFaceContaining exit_on_error m id contains f = (if exit_on_error then Fail else Ret f) /\
  um2MPACTCoarseCellFaceData exit_on_error m id = (if exit_on_error then Fail else Ret None).
Proof.
  intros stdsort exit_on_error m id c edge_hits contains buf f Hc Hk. unfold um2MPACTIntersectCoarseCell, um2MPACTCoarseCellFaceContaining, um2MPACTCoarseCellFaceData.
  rewrite !(with_mesh_none m id c Hc) by auto. auto.
Qed.
Print Assumptions C67_no_type.
Theorem C67_no_mesh_refuted : forall stdsort selfcheck at_origin checks exit_on_error edge_hits contains buf f, exists ops m,
  run stdsort selfcheck at_origin checks exit_on_error empty_model ops = Ret m /\ length (cells m) = 1%nat /\
  um2MPACTIntersectCoarseCell stdsort exit_on_error m 0 edge_hits buf = Ub /\
  um2MPACTCoarseCellFaceContaining exit_on_error m 0 contains f = Ub /\ um2MPACTCoarseCellFaceData exit_on_error m 0 = Ub.
Proof.
  intros. exists [AddCoarseCell (1, 1) MT_Tri (-1) []], (push_cell (mkCell (1, 1) MT_Tri (-1) []) empty_model).
  split; [cbn [run step]; unfold addCoarseCell; cbn [fst snd]; now rewrite (proj2 (Rltb_true 0 1)) by lra|]. split; [reflexivity|].
  split; [reflexivity|]. split; reflexivity.
Qed.
Print Assumptions C67_no_mesh_refuted.

(** * Examples *)
(** three layers of height 1/4, 1/4 and 1/2 in one assembly, another assembly of height 1 *)
Definition ex_z : list R := [-1 / 2; -1 / 4; 0; 1 / 2].
Example C61_example_run : run isort_poly (fun m => Ret m) (fun _ => true) true true empty_model (stack_ops ex_z) = Ret (stack ex_z).
Proof.
  apply stack_run; [reflexivity| |split; reflexivity]. intros i j a b Hij Ha Hb. unfold ex_z in *.
  destruct i as [|[|[|[|i]]]]; cbn in Ha; try (destruct i; discriminate); injection Ha as <-;
  destruct j as [|[|[|[|j]]]]; cbn in Hb; try lia; try (destruct j; discriminate); injection Hb as <-; lra.
Qed.
Lemma ex_occurs id h : lattice_occurs (stack ex_z) id h -> (id = 2%Z \/ id = 1%Z) /\ h = 1 / 4 \/ id = 0%Z /\ (h = 1 / 2 \/ h = 1).
Proof.
  intros (a & z & i & lo & hi & Ha & Hz & Hi & H1 & H2 & ->). cbn in Ha. destruct Ha as [<-|[<-|[]]]; cbn in Hz; injection Hz as <-; cbn [snd] in Hi.
  - destruct i as [|[|i]]; cbn in Hi, H1, H2; try discriminate; try (destruct i; discriminate). injection Hi as <-. injection H1 as <-. injection H2 as <-.
    right. split; auto. right. lra.
  - unfold ex_z in *. destruct i as [|[|[|i]]]; cbn in Hi, H1, H2; try (destruct i; discriminate); injection Hi as <-; injection H1 as <-; injection H2 as <-.
    + left. split; auto. lra.
    + left. split; auto. lra.
    + right. split; auto. left. lra.
Qed.
Example C61_example_clustered : clustered (lattice_occurs (stack ex_z)).
Proof.
  assert (D : forall i h, lattice_occurs (stack ex_z) i h -> h = 1 / 4 \/ h = 1 / 2 \/ h = 1) by (intros i h H; apply ex_occurs in H; tauto).
  intros i j k a b c Ha Hb Hc H1 H2. apply near_bound in H1. apply near_bound in H2.
  assert (E : a = c) by (destruct (D _ _ Ha) as [->|[->| ->]], (D _ _ Hb) as [->|[->| ->]], (D _ _ Hc) as [->|[->| ->]]; lra).
  rewrite E. apply close_refl.
Qed.
Example C61_example : exists n ids hs, um2MPACTLatticeHeights isort_poly (stack ex_z) = Ret (n, ids, hs) /\ n = 4%Z /\ ids = [1; 2; 0; 0]%Z.
Proof.
  destruct (history _ _ _ _ _ _ _ C61_example_run) as [HV HC].
  destruct (C61_lattice_heights isort_poly true (stack ex_z) isort_poly_contract HV HC C61_example_clustered) as (n & ids & hs & E & En & L & O).
  exists n, ids, hs. split; auto.
  assert (L' : lists (lattice_occurs (stack ex_z)) [1; 2; 0; 0]%Z [1 / 4; 1 / 4; 1 / 2; 1]).
  { split; [reflexivity|]. split; [|split].
    - intros [|[|[|[|i]]]] id h [H1 H2]; cbn in H1, H2; try (destruct i; discriminate); injection H1 as <-; injection H2 as <-.
      + exists ([ex_z], [2; 1; 0]%Z), ex_z, 1%nat, (-1 / 4), 0. repeat split; cbn; auto. lra.
      + exists ([ex_z], [2; 1; 0]%Z), ex_z, 0%nat, (-1 / 2), (-1 / 4). repeat split; cbn; auto. lra.
      + exists ([ex_z], [2; 1; 0]%Z), ex_z, 2%nat, 0, (1 / 2). repeat split; cbn; auto. lra.
      + exists ([[-1 / 2; 1 / 2]], [0%Z]), [-1 / 2; 1 / 2], 0%nat, (-1 / 2), (1 / 2). repeat split; cbn; auto. lra.
    - intros id h H. apply ex_occurs in H as [[[->| ->] ->]|[-> [->| ->]]].
      + exists 1%nat, (1 / 4). split; [split; reflexivity|apply close_refl].
      + exists 0%nat, (1 / 4). split; [split; reflexivity|apply close_refl].
      + exists 2%nat, (1 / 2). split; [split; reflexivity|apply close_refl].
      + exists 3%nat, 1. split; [split; reflexivity|apply close_refl].
    - intros [|[|[|[|i]]]] [|[|[|[|j]]]] id h h' [H1 H2] [H3 H4] C; cbn in H1, H2, H3, H4; try (destruct i; discriminate); try (destruct j; discriminate); auto; try congruence.
      all: apply near_bound in C; injection H2 as <-; injection H4 as <-; lra. }
  assert (O' : ordered [1; 2; 0; 0]%Z [1 / 4; 1 / 4; 1 / 2; 1]).
  { intros [|[|[|[|i]]]] [|[|[|[|j]]]] id id' h h' Hij [H1 H2] [H3 H4]; cbn in H1, H2, H3, H4; try lia; try (destruct i; discriminate); try (destruct j; discriminate);
      injection H1 as <-; injection H2 as <-; injection H3 as <-; injection H4 as <-; (split; [intros C; try lia; apply near_bound in C; lra|intros N; try lra]).
    exfalso. apply N, close_refl. }
  destruct (C61_determined _ _ _ _ _ _ (fun i j k a b c Ha Hb Hc => C61_example_clustered i j k a b c (match Ha with or_introl x => x | or_intror x => x end)
     (match Hb with or_introl x => x | or_intror x => x end) (match Hc with or_introl x => x | or_intror x => x end))
    (conj (fun id h H => ex_intro _ h (conj H (close_refl h))) (fun id h H => ex_intro _ h (conj H (close_refl h)))) L O L' O') as [E1 _].
  split; auto. rewrite En, E1. reflexivity.
Qed.
(** a triangle mesh in a cell *)
Definition ex_tri : mesh R := mkMesh false false [(0, 0); (1, 0); (0, 1); (1, 1)] [[0; 1; 2]; [1; 3; 2]]%Z [] [].
Definition ex_model : model := mkModel ([[]; []], []) [] [] [] [mkCell (1, 1) MT_Tri 0 [0; 0]%Z] [mkMaterial "a" true] [ex_tri] [] [] [].
Example C67_example : at_ (cells ex_model) 0 (mkCell (1, 1) MT_Tri 0 [0; 0]%Z) /\ mesh_at ex_model MT_Tri 0 ex_tri /\ mesh_ok Tri ex_tri /\
  um2MPACTCoarseCellFaceData true ex_model 0 = Ret (Some (4%Z, 2%Z, [0; 0; 1; 0; 0; 1; 1; 1], [0; 1; 2; 1; 3; 2]%Z)).
Proof.
  split; [split; [lia|reflexivity]|]. split; [split; [lia|reflexivity]|]. split; [|reflexivity].
  intros c [<-|[<-|[]]]; (split; [reflexivity|]); intros v Hv; cbn in Hv; cbn; lia.
Qed.
