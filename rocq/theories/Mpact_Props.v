(** C55 (the ids stored in a model are valid) and C56 (lattices are laid out as written). *)
From Coq Require Import String.
From Coq Require Import List Arith ZArith Bool Reals Lra Lia.
From Verif Require Import Base Loops Arith Poly_Spec Box_Proofs Fvm_Model Soup_Spec Soup_Final_Proofs PinRect_Model PinRect_Spec PinRect_Proofs PinCyl_Model PinCyl_Spec PinCyl_Props Grid_Model Grid_Spec Grid_Proofs Mpact_Model Mpact_Spec Mpact_Proofs Mpact_Steps_Proofs Mpact_Accept_Proofs Mpact_Layout_Proofs Mpact_Column_Proofs Mpact_Pin_Proofs Mpact_Refuted_Proofs.
Import ListNotations.
Local Open Scope list_scope.
Local Open Scope R_scope.

(** * C55 *)
(** After any calls, in any order, with or without assertions and exit_on_error: every stored id refers to an existing object, and the
    parts of the hierarchy fit together. *)
Theorem C55_history : forall stdsort selfcheck at_origin checks exit_on_error ops m,
  run stdsort selfcheck at_origin checks exit_on_error empty_model ops = Ret m -> ids_valid m /\ consistent checks m.
Proof. intros ? ? ? ? ? ? ?. apply history. Qed.
Print Assumptions C55_history.

(** A call other than clear() keeps all objects and their ids; so what an id refers to never changes. *)
Theorem C55_append_only : forall stdsort selfcheck at_origin checks exit_on_error m o m' r,
  ids_valid m -> consistent checks m -> o <> Clear ->
  step stdsort selfcheck at_origin checks exit_on_error m o = Ret (m', r) -> extends m m'.
Proof. intros ? ? ? ? ? ? ? ? ? HV HC Ho H. eapply step_keeps; [split; eassumption|eassumption|exact H]. Qed.
Print Assumptions C55_append_only.

(** A call that returns -1 has changed nothing, if it is not one of the two of [C55_pin_mesh_left_refuted] and [C57_rejected]. *)
Theorem C55_rejected : forall stdsort selfcheck at_origin checks exit_on_error m o m',
  ids_valid m -> consistent checks m ->
  match o with AddRectangularPinMesh _ _ _ _ | AddCylindricalPinCell _ _ _ _ _ _ => False | _ => True end ->
  step stdsort selfcheck at_origin checks exit_on_error m o = Ret (m', (-1)%Z) -> m' = m.
Proof. intros ? ? ? ? ? ? ? ? HV HC. apply rejected. now split. Qed.
Print Assumptions C55_rejected.

(** The functions that add an object append it and return its index; a mesh that does not start at the origin is noticed only with
    assertions, a material whose cross sections are not valid only if asked for and with exit_on_error. *)
Theorem C55_material : forall exit_on_error m x validate m' r, addMaterial exit_on_error m x validate = Ret (m', r) ->
  m' = push_material x m /\ at_ (materials m') r x /\ (validate = true -> exit_on_error = true -> xsec_valid x = true).
Proof.
  intros exit_on_error m x v m' r H. unfold addMaterial in H. destruct (v && negb (xsec_valid x)) eqn:B; [destruct exit_on_error; [discriminate|]|];
    cbn [error bind] in H; injection H as <- <-; (split; [reflexivity|]; split; [|intros -> ?; try discriminate; now destruct (xsec_valid x)]);
    unfold at_, size; cbn [materials push_material]; rewrite app_length; cbn [length]; (split; [lia|]);
    replace (Z.to_nat (Z.of_nat (length (materials m) + 1) - 1)) with (length (materials m)) by lia;
    now rewrite nth_error_app2, Nat.sub_diag by lia.
Qed.
Print Assumptions C55_material.
Theorem C55_meshes : forall at_origin checks m x, checks = false \/ at_origin x = true ->
  (exists m', addTriMesh at_origin checks m x = Ret (m', Z.of_nat (length (tris m))) /\ m' = set_meshes (tris m ++ [x]) (quads m) (tri6s m) (quad8s m) m) /\
  (exists m', addQuadMesh at_origin checks m x = Ret (m', Z.of_nat (length (quads m))) /\ m' = set_meshes (tris m) (quads m ++ [x]) (tri6s m) (quad8s m) m) /\
  (exists m', addTri6Mesh at_origin checks m x = Ret (m', Z.of_nat (length (tri6s m))) /\ m' = set_meshes (tris m) (quads m) (tri6s m ++ [x]) (quad8s m) m) /\
  (exists m', addQuad8Mesh at_origin checks m x = Ret (m', Z.of_nat (length (quad8s m))) /\ m' = set_meshes (tris m) (quads m) (tri6s m) (quad8s m ++ [x]) m).
Proof.
  intros at_origin checks m x H. unfold addTriMesh, addQuadMesh, addTri6Mesh, addQuad8Mesh, Mpact_Model.assert.
  assert (B : checks && negb (at_origin x) = false) by (destruct H as [->| ->]; [reflexivity|apply andb_false_r]).
  rewrite B. repeat split; eexists; split; reflexivity.
Qed.
Print Assumptions C55_meshes.

(** addCoarseCell accepts exactly the good cells. *)
Theorem C55_cell : forall exit_on_error m ext t id mats,
  (good_cell m ext t id mats ->
   addCoarseCell exit_on_error m ext t id mats = Ret (push_cell (mkCell ext t id mats) m, Z.of_nat (length (cells m)))) /\
  (~ good_cell m ext t id mats -> refused exit_on_error m (addCoarseCell exit_on_error m ext t id mats)).
Proof. exact addCoarseCell_ok. Qed.
Print Assumptions C55_cell.

(** addRTM refuses ids of cells that do not exist; if the cells form a lattice with column widths W and row heights H (bottom row first)
    it is accepted exactly if W x H has the extents of the first RTM. *)
Theorem C55_rtm_missing : forall checks exit_on_error m ids,
  ~ Forall (exists_in (cells m)) (concat ids) -> refused exit_on_error m (addRTM checks exit_on_error m ids).
Proof. exact addRTM_missing. Qed.
Print Assumptions C55_rtm_missing.
Theorem C55_rtm : forall checks exit_on_error m ids W H,
  consistent checks m -> lattice (map xy_extents (cells m)) ids W H ->
  ((forall r0 w0 h0, nth_error (rtms m) 0 = Some r0 -> extent (fst r0) w0 h0 -> near w0 h0 (rsum W) (rsum H)) ->
   addRTM checks exit_on_error m ids = Ret (push_rtm ([sums 0 W; sums 0 H], concat (rev ids)) m, Z.of_nat (length (rtms m)))) /\
  ((exists r0 w0 h0, nth_error (rtms m) 0 = Some r0 /\ extent (fst r0) w0 h0 /\ ~ near w0 h0 (rsum W) (rsum H)) ->
   refused exit_on_error m (addRTM checks exit_on_error m ids)).
Proof. exact addRTM_ok. Qed.
Print Assumptions C55_rtm.
(** With assertions, whatever the extents of the cells are, if only they are at least twice the tolerance: the cells of an accepted RTM
    have the widths of the columns of its grid, and the cells of the first column have the heights of its rows. *)
Theorem C55_rtm_fits : forall exit_on_error m ids m' r nr nc,
  consistent true m -> rectangular ids nr nc -> (0 < nc)%nat ->
  addRTM true exit_on_error m ids = Ret (m', r) -> r <> (-1)%Z ->
  (forall id c, In id (concat ids) -> at_ (cells m) id c -> 2 * eps <= fst (xy_extents c) /\ 2 * eps <= snd (xy_extents c)) ->
  exists lx ly, at_ (rtms m') r ([lx; ly], concat (rev ids)) /\ length lx = S nc /\ length ly = S nr /\
    (forall i j id c, entry ids i j id -> at_ (cells m) id c ->
       exists a b, nth_error lx j = Some a /\ nth_error lx (S j) = Some b /\ Rabs (b - a - fst (xy_extents c)) < 2 * eps) /\
    (forall i id c, entry ids i 0 id -> at_ (cells m) id c ->
       exists a b, nth_error ly (nr - 1 - i) = Some a /\ nth_error ly (S (nr - 1 - i)) = Some b /\ Rabs (b - a - snd (xy_extents c)) < 2 * eps).
Proof. exact rtm_fits. Qed.
Print Assumptions C55_rtm_fits.
(** But the cells of a row need not have the same height, even with assertions: here a cell of height 2 is put into a row of height 1. *)
Theorem C55_row_heights_refuted : forall stdsort selfcheck at_origin exit_on_error, exists ops m m' lx ly c,
  run stdsort selfcheck at_origin true exit_on_error empty_model ops = Ret m /\
  addRTM true exit_on_error m [[0; 0]; [0; 1]]%Z = Ret (m', 0%Z) /\ at_ (rtms m') 0 ([lx; ly], [0; 1; 0; 0]%Z) /\
  nth_error ly 0 = Some 0 /\ nth_error ly 1 = Some 1 /\ at_ (cells m') 1 c /\ snd (xy_extents c) = 2.
Proof.
  intros. eexists _, two_cells, _, _, _, _. split; [apply two_cells_run|]. split; [apply row_heights|]. split; [split; [lia|reflexivity]|].
  split; [reflexivity|]. split; [reflexivity|]. split; [split; [lia|reflexivity]|reflexivity].
Qed.
Print Assumptions C55_row_heights_refuted.
(** Without assertions any extents are accepted: here the grid has four cells for two children, and one of them cannot be looked up. *)
Theorem C55_release_mismatch_refuted : forall stdsort selfcheck at_origin exit_on_error, exists ops m m' p,
  run stdsort selfcheck at_origin false exit_on_error empty_model ops = Ret m /\
  addRTM false exit_on_error m [[0; 1]]%Z = Ret (m', 0%Z) /\ at_ (rtms m') 0 p /\
  numCells (fst p) = [2; 2]%Z /\ length (snd p) = 2%nat /\ rect_getChild Z p [0; 1]%Z = Ub.
Proof.
  intros. eexists _, two_cells, _, _. split; [apply two_cells_run|]. split; [apply release_mismatch|]. split; [split; [lia|reflexivity]|].
  split; [reflexivity|]. split; reflexivity.
Qed.
Print Assumptions C55_release_mismatch_refuted.
(** Without assertions and exit_on_error, rows of different length give an RTM without children. *)
Theorem C55_release_ragged_refuted : forall stdsort selfcheck at_origin, exists ops m m' g,
  run stdsort selfcheck at_origin false false empty_model ops = Ret m /\
  addRTM false false m [[0]; [0; 0]]%Z = Ret (m', 0%Z) /\ at_ (rtms m') 0 (g, []).
Proof. intros. eexists _, two_cells, _, _. split; [apply two_cells_run|]. split; [apply release_ragged|]. split; [lia|reflexivity]. Qed.
Print Assumptions C55_release_ragged_refuted.

(** addLattice: refused if an RTM does not exist or if the rows have different lengths, and else accepted. *)
Theorem C55_lattice_missing : forall checks exit_on_error m ids,
  ~ Forall (exists_in (rtms m)) (concat ids) -> refused exit_on_error m (addLattice checks exit_on_error m ids).
Proof. exact addLattice_missing. Qed.
Print Assumptions C55_lattice_missing.
Theorem C55_lattice_ragged : forall checks exit_on_error m ids, ids_valid m -> consistent checks m ->
  Forall (exists_in (rtms m)) (concat ids) -> ids <> [] -> (forall nr nc, ~ rectangular ids nr nc) ->
  refused exit_on_error m (addLattice checks exit_on_error m ids).
Proof. intros checks exit_on_error m ids HV HC. apply addLattice_ragged. now split. Qed.
Print Assumptions C55_lattice_ragged.
Theorem C55_lattice : forall checks exit_on_error m ids nr nc r0 w0 h0, ids_valid m -> consistent checks m ->
  Forall (exists_in (rtms m)) (concat ids) -> rectangular ids nr nc ->
  (0 < nr)%nat -> (0 < nc)%nat -> (Z.of_nat nr * Z.of_nat nc <= intMax)%Z ->
  nth_error (rtms m) 0 = Some r0 -> extent (fst r0) w0 h0 ->
  addLattice checks exit_on_error m ids =
  Ret (push_lattice (lattice_grid w0 h0 (Z.of_nat nc) (Z.of_nat nr), concat (rev ids)) m, Z.of_nat (length (lattices m))).
Proof. intros checks exit_on_error m ids nr nc r0 w0 h0 HV HC. apply addLattice_ok. now split. Qed.
Print Assumptions C55_lattice.

(** addAssembly accepts exactly the good assemblies. *)
Theorem C55_assembly : forall checks exit_on_error m ids z, ids_valid m -> consistent checks m ->
  ids <> [] -> (Z.of_nat (length ids) <= intMax)%Z ->
  (good_assembly m ids z -> addAssembly checks exit_on_error m ids z = Ret (push_assembly ([z], ids) m, Z.of_nat (length (assemblies m)))) /\
  (~ good_assembly m ids z -> refused exit_on_error m (addAssembly checks exit_on_error m ids z)).
Proof. intros checks exit_on_error m ids z HV HC. apply addAssembly_ok. now split. Qed.
Print Assumptions C55_assembly.

(** addCore: there is only one core; its assemblies must exist; if their extents form a lattice it is accepted. *)
Theorem C55_core_again : forall checks exit_on_error m ids, snd (core m) <> [] -> refused exit_on_error m (addCore checks exit_on_error m ids).
Proof. exact addCore_again. Qed.
Print Assumptions C55_core_again.
Theorem C55_core_missing : forall checks exit_on_error m ids,
  ~ Forall (exists_in (assemblies m)) (concat ids) -> refused exit_on_error m (addCore checks exit_on_error m ids).
Proof. exact addCore_missing. Qed.
Print Assumptions C55_core_missing.
Theorem C55_core : forall checks exit_on_error m ids exts W H, ids_valid m -> consistent checks m -> snd (core m) = [] ->
  Forall2 (asy_extent m) (assemblies m) exts -> lattice exts ids W H ->
  addCore checks exit_on_error m ids = Ret (set_core ([sums 0 W; sums 0 H], concat (rev ids)) m, 0%Z).
Proof. intros checks exit_on_error m ids exts W H HV HC. apply addCore_ok. now split. Qed.
Print Assumptions C55_core.

(** Empty arguments are not refused: they are read out of bounds. *)
Theorem C55_empty_undefined : forall checks exit_on_error m, ids_valid m -> consistent checks m ->
  addRTM checks exit_on_error m [] = Ub /\ addLattice checks exit_on_error m [] = Ub /\
  (snd (core m) = [] -> addCore checks exit_on_error m [] = Ub) /\
  (forall x, assemblies m = [] -> Rabs x <= eps -> addAssembly checks exit_on_error m [] [x] = Ub).
Proof.
  intros checks exit_on_error m HV HC. split; [apply no_rows_rtm|]. split; [now apply no_rows_lattice|].
  split; [apply no_rows_core; now split|]. intros x. apply no_lattices_assembly.
Qed.
Print Assumptions C55_empty_undefined.

(** The totals count the objects of the hierarchy written out; no index is out of bounds. *)
Theorem C55_totals : forall m, ids_valid m ->
  (forall a, In a (assemblies m) -> Z.of_nat (length (snd a)) <= intMax)%Z ->
  (forall a, In a (lattices m) -> Z.of_nat (length (snd a)) <= intMax)%Z ->
  (forall a, In a (rtms m) -> Z.of_nat (length (snd a)) <= intMax)%Z ->
  (forall a, In a (cells m) -> Z.of_nat (length (material_ids a)) <= intMax)%Z ->
  numAssembliesTotal m = Z.of_nat (length (snd (core m))) /\
  counts_to (numLatticesTotal m) (length (all_lattices m)) /\
  counts_to (numRTMsTotal m) (length (all_rtms m)) /\
  counts_to (numCoarseCellsTotal m) (length (all_cells m)) /\
  counts_to (numFineCellsTotal m) (length (all_fine m)).
Proof.
  intros m HV H1 H2 H3 H4. assert (HF : vectors_fit m) by (repeat split; auto). split; [reflexivity|].
  split; [now apply lattices_total|]. split; [now apply rtms_total|]. split; [now apply cells_total|now apply fine_total].
Qed.
Print Assumptions C55_totals.

(** A cylindrical pin cell of order 1 with fewer than 129 materials: the faces of each region have the material given for it, by name,
    and the faces outside the last circle have the last material. The hypotheses on the geometry are those of C58_linear. *)
Theorem C55_pin_cell : forall stdsort selfcheck exit_on_error m pitch radii num_rings e mats ns,
  let na := (2 ^ e)%nat in let theta := 2 * PI / INR na in
  sort_contract stdsort -> pin_ok radii num_rings -> (3 <= e)%nat -> 0 < pitch ->
  eps <= sin theta -> eps <= pitch / 2 * sin theta ->
  circle radii (length radii) * sqrt (theta / sin theta) + eps <= pitch / 2 ->
  (Z.of_nat (1 + (list_sum num_rings + 1) * na + na / 2) <= intMax)%Z ->
  Forall2 (fun x n => first_named (materials m) (name x) n) mats ns -> length mats = S (length num_rings) ->
  Forall (fun n => n < 128)%nat ns ->
  exists msh mids, pin_mesh Quad msh pitch radii num_rings na /\
    addCylindricalPinCell stdsort selfcheck exit_on_error m pitch radii mats num_rings (Z.of_nat na) 1 =
    Ret (push_cell (mkCell (pitch, pitch) MT_Quad (Z.of_nat (length (quads m))) mids)
           (set_meshes (tris m) (quads m ++ [msh]) (tri6s m) (quad8s m) m), Z.of_nat (length (cells m))) /\
    length mids = length (fv msh) /\
    (forall k s j n, (k < length radii)%nat -> (s < nth k num_rings 0)%nat -> (j < na)%nat -> nth_error ns k = Some n ->
       nth_error mids ((first_ring num_rings k + s) * na + j) = Some (Z.of_nat n)) /\
    (forall f n, (list_sum num_rings * na <= f < length (fv msh))%nat -> nth_error ns (length radii) = Some n ->
       nth_error mids f = Some (Z.of_nat n)).
Proof. exact pin_cell. Qed.
Print Assumptions C55_pin_cell.
(** With 257 materials the last one is silently replaced by the first one. *)
Theorem C55_material_wrap_refuted : forall at_origin checks exit_on_error, exists ops m b m' cell,
  run isort_poly (fun m => Ret m) at_origin checks exit_on_error empty_model ops = Ret m /\ nth_error (materials m) 256 = Some b /\
  (forall i x, nth_error (materials m) i = Some x -> name x = name b -> i = 256%nat) /\
  step isort_poly (fun m => Ret m) at_origin checks exit_on_error m (AddCylindricalPinCell 2 [1 / 2; 7 / 10] [b; b; b] [2; 1]%nat 8 1) = Ret (m', 0%Z) /\
  cells m' = [cell] /\ material_ids cell <> [] /\ forall i, In i (material_ids cell) -> i = 0%Z.
Proof. exact wrap. Qed.
Print Assumptions C55_material_wrap_refuted.
(** Without exit_on_error, a refused pin cell leaves its mesh in the model, and a refused pin mesh gives a cell without mesh. *)
Theorem C55_pin_mesh_left_refuted : forall at_origin checks, exists m',
  step isort_poly (fun m => Ret m) at_origin checks false empty_model (AddCylindricalPinCell 2 [1 / 2; 7 / 10] [] [2; 1]%nat 8 1) = Ret (m', (-1)%Z) /\
  m' <> empty_model.
Proof. exact pin_left. Qed.
Print Assumptions C55_pin_mesh_left_refuted.
Theorem C55_pin_without_mesh_refuted : forall at_origin checks, exists m m',
  run isort_poly (fun m => Ret m) at_origin checks false empty_model [AddMaterial (mkMaterial "a" true) false] = Ret m /\
  addCylPin isort_poly (fun m => Ret m) false m 2 [1 / 2; 7 / 10] [2; 1]%nat 12 1 = Ret (m, (-1)%Z) /\
  step isort_poly (fun m => Ret m) at_origin checks false m (AddCylindricalPinCell 2 [1 / 2; 7 / 10] (repeat (mkMaterial "a" true) 3) [2; 1]%nat 12 1) = Ret (m', 0%Z) /\
  exists c, cells m' = [c] /\ mesh_id c = (-1)%Z.
Proof. exact pin_without_mesh. Qed.
Print Assumptions C55_pin_without_mesh_refuted.

(** * C56 *)
(** The id written in row r from the top and column c is the child at column c and row nr - 1 - r from the bottom: of an RTM or the core ... *)
Theorem C56_rtm_core_layout : forall W H ids nr nc r c id, rectangular ids nr nc -> length W = nc -> length H = nr ->
  (Z.of_nat nc * Z.of_nat nr <= intMax)%Z -> (r < nr)%nat -> (c < nc)%nat ->
  rect_getChild Z ([sums 0 W; sums 0 H], concat (rev ids)) [Z.of_nat c; Z.of_nat (nr - 1 - r)] = Ret id <-> entry ids r c id.
Proof. exact rect_layout. Qed.
Print Assumptions C56_rtm_core_layout.
(** ... and of a lattice. *)
Theorem C56_lattice_layout : forall w h ids nr nc r c id, rectangular ids nr nc ->
  (Z.of_nat nc * Z.of_nat nr <= intMax)%Z -> (r < nr)%nat -> (c < nc)%nat ->
  regular_getChild Z (lattice_grid w h (Z.of_nat nc) (Z.of_nat nr), concat (rev ids)) [Z.of_nat c; Z.of_nat (nr - 1 - r)] = Ret id <-> entry ids r c id.
Proof. exact regular_layout. Qed.
Print Assumptions C56_lattice_layout.
(** mapFlatIndexToLattice2D finds the place in the written lattice of each element of the flat list. *)
Theorem C56_flat_index : forall checks exit_on_error ids nr nc flat r c id, rectangular ids nr nc -> (0 < nr)%nat ->
  (Z.of_nat nr * Z.of_nat nc <= intMax)%Z -> flattenLattice exit_on_error ids = Ret flat ->
  (entry ids r c id <-> exists k, nth_error flat k = Some id /\
     mapFlatIndexToLattice2D checks (Z.of_nat k) (Z.of_nat nc) (Z.of_nat nr) = Ret (Z.of_nat c, Z.of_nat r)).
Proof. exact flat_map_inverse. Qed.
Print Assumptions C56_flat_index.
(** Rows of different length are reported. *)
Theorem C56_ragged : forall exit_on_error ids, ids <> [] -> (forall nr nc, ~ rectangular ids nr nc) ->
  flattenLattice exit_on_error ids = if exit_on_error then Fail else Ret [].
Proof.
  intros exit_on_error ids Hne Hr. unfold flattenLattice. destruct ids as [|row0 ids]; [congruence|]. change (rd (row0 :: ids) 0) with (Ret row0). cbn [bind].
  destruct (existsb _ (tl (row0 :: ids))) eqn:B; [reflexivity|]. apply (ragged (row0 :: ids) row0 eq_refl) in B. exfalso. eapply Hr; eauto.
Qed.
Print Assumptions C56_ragged.
(** addCoarseGrid on a model without hierarchy. *)
Theorem C56_coarse_grid : forall checks exit_on_error m w h nx ny, ids_valid m -> consistent checks m ->
  snd (core m) = [] -> assemblies m = [] -> lattices m = [] -> rtms m = [] -> cells m = [] ->
  (0 < nx)%nat -> (0 < ny)%nat -> (Z.of_nat nx * Z.of_nat ny <= intMax)%Z -> eps <= w / INR nx -> eps <= h / INR ny ->
  addCoarseGrid checks exit_on_error m w h (Z.of_nat nx) (Z.of_nat ny) = Ret (coarse_model m w h nx ny, 0%Z).
Proof. intros checks exit_on_error m w h nx ny HV HC. apply coarse_ok. now split. Qed.
Print Assumptions C56_coarse_grid.
(** Extents or numbers that are not positive are refused. *)
Theorem C56_coarse_grid_refused : forall checks exit_on_error m w h nx ny, w <= 0 \/ h <= 0 \/ (nx <= 0)%Z \/ (ny <= 0)%Z ->
  addCoarseGrid checks exit_on_error m w h nx ny = if exit_on_error then Fail else Ret (m, 0%Z).
Proof.
  intros checks exit_on_error m w h nx ny H. unfold addCoarseGrid. destruct (Rltb 0 w) eqn:B1; [|reflexivity]. destruct (Rltb 0 h) eqn:B2; [|reflexivity].
  cbn [negb orb]. apply Rltb_true in B1. apply Rltb_true in B2. destruct H as [H|[H|H]]; [lra|lra|].
  destruct (Z.leb_spec nx 0); [reflexivity|]. destruct (Z.leb_spec ny 0); [reflexivity|lia].
Qed.
Print Assumptions C56_coarse_grid_refused.

(** With assertions, a model that has part of a hierarchy already is not accepted. *)
Theorem C56_coarse_grid_again : forall exit_on_error m w h nx ny, 0 < w -> 0 < h -> (0 < nx)%Z -> (0 < ny)%Z ->
  cells m <> [] \/ rtms m <> [] \/ lattices m <> [] \/ assemblies m <> [] ->
  addCoarseGrid true exit_on_error m w h nx ny = Fail.
Proof.
  intros exit_on_error m w h nx ny Hw Hh Hx Hy H. unfold addCoarseGrid. rewrite (proj2 (Rltb_true 0 w) Hw), (proj2 (Rltb_true 0 h) Hh).
  cbn [negb orb]. destruct (Z.leb_spec nx 0); [lia|]. destruct (Z.leb_spec ny 0); [lia|]. cbn [orb].
  unfold Mpact_Model.assert. replace (is_empty (cells m) && is_empty (rtms m) && is_empty (lattices m) && is_empty (assemblies m)) with false; [reflexivity|].
  destruct H as [H|[H|[H|H]]].
  - destruct (cells m); [congruence|reflexivity].
  - destruct (rtms m); [congruence|]. cbn. now rewrite !andb_false_r.
  - destruct (lattices m); [congruence|]. cbn. now rewrite !andb_false_r.
  - destruct (assemblies m); [congruence|]. cbn. now rewrite !andb_false_r.
Qed.
Print Assumptions C56_coarse_grid_again.
(** In a model, a rectangular pin of width w and height h is appended to the quadrilateral meshes, and nothing else changes. *)
Theorem C55_rect_pin : forall stdsort selfcheck at_origin checks exit_on_error m w h nx ny, sort_contract stdsort -> 0 < w -> 0 < h ->
  (0 < nx)%nat -> (0 < ny)%nat -> (Z.of_nat ((nx + 1) * (ny + 1)) <= intMax)%Z ->
  exists x, step stdsort selfcheck at_origin checks exit_on_error m (AddRectangularPinMesh w h (Z.of_nat nx) (Z.of_nat ny)) =
      Ret (set_meshes (tris m) (quads m ++ [x]) (tri6s m) (quad8s m) m, Z.of_nat (length (quads m))) /\
    length (mv x) = ((nx + 1) * (ny + 1))%nat /\ length (fv x) = (nx * ny)%nat /\
    (forall i j, (i <= nx)%nat -> (j <= ny)%nat ->
       nth_error (mv x) (j * (nx + 1) + i) = Some (INR i * w / INR nx, INR j * h / INR ny)) /\
    PinRect_Spec.tiles x w h.
Proof.
  intros stdsort selfcheck at_origin checks exit_on_error m w h nx ny Hs Hw Hh Hx Hy Hm.
  destruct (PinRect_Proofs.grid_ok stdsort eps exit_on_error (quads m) w h nx ny Hs) as (x & E & L1 & L2 & _ & V & _ & T & _); auto.
  { unfold eps. lra. }
  exists x. cbn [step]. unfold addRectPin. rewrite E. cbn [bind fst snd]. auto.
Qed.
Print Assumptions C55_rect_pin.

(** * Examples *)
(** a 3 x 2 coarse grid, reached by one call *)
Example C56_example : run isort_poly (fun m => Ret m) (fun _ => true) true true empty_model [AddCoarseGrid 6 2 3 2] = Ret (coarse_model empty_model 6 2 3 2).
Proof.
  cbn [run step]. change 3%Z with (Z.of_nat 3). change 2%Z with (Z.of_nat 2).
  pose proof (inv_empty true) as [HV HC].
  rewrite C56_coarse_grid; auto; try lia; try (cbn; unfold eps; lra). vm_compute. congruence.
Qed.
Example C55_example : ids_valid (coarse_model empty_model 6 2 3 2) /\ consistent true (coarse_model empty_model 6 2 3 2).
Proof. eapply C55_history. exact C56_example. Qed.
Example C55_example_totals : numRTMsTotal (coarse_model empty_model 6 2 3 2) = Ret 6%Z.
Proof. vm_compute. reflexivity. Qed.
(** cells of two widths and two heights: the hypotheses of C55_rtm *)
Definition four_cells : list cell := [mkCell (1, 1) MT_Invalid (-1) []; mkCell (2, 1) MT_Invalid (-1) []; mkCell (1, 3) MT_Invalid (-1) []; mkCell (2, 3) MT_Invalid (-1) []].
Lemma four_lattice : lattice (map xy_extents four_cells) [[2; 3]; [0; 1]]%Z [1; 2] [1; 3].
Proof.
  split; [reflexivity|]. split; [discriminate|]. split; [discriminate|]. split; [repeat (apply Forall_cons; [unfold eps; lra|]); constructor|].
  split; [repeat (apply Forall_cons; [unfold eps; lra|]); constructor|]. split; [vm_compute; congruence|].
  intros [|[|i]] row Hr Hi; cbn in Hi; try lia; cbn in Hr; injection Hr as <-; (split; [reflexivity|]).
  - intros [|[|j]] id Hj; cbn in Hj; [| |destruct j; discriminate]; injection Hj as <-; (eexists; split; [lia|split; [reflexivity|split; reflexivity]]).
  - intros [|[|j]] id Hj; cbn in Hj; [| |destruct j; discriminate]; injection Hj as <-; (eexists; split; [lia|split; [reflexivity|split; reflexivity]]).
Qed.
Definition four_model : model := mkModel (core empty_model) [] [] [] four_cells [] [] [] [] [].
Example C55_example_rtm : ids_valid four_model /\ consistent true four_model /\
  addRTM true true four_model [[2; 3]; [0; 1]]%Z = Ret (push_rtm ([[0; 0 + 1; 0 + 1 + 2]; [0; 0 + 1; 0 + 1 + 3]], [0; 1; 2; 3]%Z) four_model, 0%Z).
Proof.
  assert (H : ids_valid four_model /\ consistent true four_model).
  { apply (C55_history isort_poly (fun m => Ret m) (fun _ => true) true true
      (map (fun c => AddCoarseCell (xy_extents c) MT_Invalid (-1) []) four_cells)).
    cbn [map four_cells run step xy_extents]. unfold addCoarseCell. cbn [fst snd]. rewrite !(proj2 (Rltb_true 0 1)), !(proj2 (Rltb_true 0 2)), !(proj2 (Rltb_true 0 3)) by lra.
    reflexivity. }
  split; [apply H|]. split; [apply H|].
  apply (C55_rtm true true four_model [[2; 3]; [0; 1]]%Z [1; 2] [1; 3] (proj2 H) four_lattice). intros r0 w0 h0 H0. discriminate.
Qed.
Example C55_example_fits : exists m', addRTM true true four_model [[2; 3]; [0; 1]]%Z = Ret (m', 0%Z) /\ rectangular [[2; 3]; [0; 1]]%Z 2 2 /\
  forall id c, In id (concat [[2; 3]; [0; 1]]%Z) -> at_ (cells four_model) id c -> 2 * eps <= fst (xy_extents c) /\ 2 * eps <= snd (xy_extents c).
Proof.
  eexists. split; [apply C55_example_rtm|]. split; [split; [reflexivity|repeat constructor]|].
  intros id c Hid [_ Hc]. assert (He : 2 * eps <= 1) by (unfold eps; lra).
  cbn in Hid. destruct Hid as [<-|[<-|[<-|[<-|[]]]]]; cbn in Hc; injection Hc as <-; cbn; lra.
Qed.
(** a lattice, an assembly and a core on top of the coarse grid's RTMs *)
Example C55_example_lattice : exists m, addLattice true true (coarse_model empty_model 6 2 3 2) [[5; 4; 3]; [0; 0; 0]]%Z = Ret (m, 1%Z) /\ length (lattices m) = 2%nat.
Proof.
  destruct C55_example as [HV HC]. eexists. split.
  - apply (C55_lattice true true _ [[5; 4; 3]; [0; 0; 0]]%Z 2 3 ([[0; 6 / INR 3]; [0; 2 / INR 2]], [0%Z]) (6 / INR 3) (2 / INR 2) HV HC).
    + repeat (apply Forall_cons; [unfold exists_in; cbn; lia|]). constructor.
    + split; [reflexivity|]. repeat constructor.
    + lia.
    + lia.
    + vm_compute. congruence.
    + reflexivity.
    + exists [0; 6 / INR 3], [0; 2 / INR 2], 0, (6 / INR 3), 0, (2 / INR 2). repeat split; lra.
  - reflexivity.
Qed.
Example C55_example_assembly : good_assembly (coarse_model empty_model 6 2 3 2) [0%Z] [-1 / 2; 1 / 2] /\
  ~ good_assembly (coarse_model empty_model 6 2 3 2) [1%Z] [-1 / 2; 1 / 2].
Proof.
  split.
  - split; [repeat constructor; vm_compute; congruence|]. split; [reflexivity|]. split.
    + intros i j a b Hij Ha Hb. destruct i as [|[|i]]; destruct j as [|[|j]]; cbn in Ha, Hb; try lia; try discriminate; try (destruct i; discriminate);
      try (destruct j; discriminate); injection Ha as <-; injection Hb as <-; lra.
    + exists (-1 / 2), (1 / 2). split; [split; reflexivity|]. split; [right; split; (rewrite Rabs_pos_eq; [unfold eps; lra|lra])|]. split.
      * cbn. intros a0 z0 b0 t0 [= <-] [= <-] [[= <-] [= <-]]. split; (rewrite Rabs_pos_eq; [unfold eps; lra|lra]).
      * intros i j l l' [<-|[]] [<-|[]] [_ Hl] [_ Hl']. congruence.
  - intros (HF & _). inversion HF as [|? ? [_ H1] _]. cbn in H1. lia.
Qed.
Example C55_example_core : exists m, addCore true true (set_core ([[]; []], []) (coarse_model empty_model 6 2 3 2)) [[0; 0]]%Z = Ret (m, 0%Z) /\
  snd (core m) = [0; 0]%Z.
Proof.
  destruct C55_example as [HV HC]. eexists. split.
  - apply (C55_core true true _ [[0; 0]]%Z [(6, 2)] [6; 6] [2]).
    + destruct HV. constructor; auto. constructor.
    + destruct HC. constructor; auto. cbn. congruence.
    + reflexivity.
    + apply Forall2_cons; [|constructor].
      exists 0%Z, (lattice_grid (6 / INR 3) (2 / INR 2) 3 2, [0; 1; 2; 3; 4; 5]%Z), (6 / INR 3), (2 / INR 2), 3%Z, 2%Z. split; [reflexivity|].
      split; [split; [lia|reflexivity]|]. split; [reflexivity|]. f_equal; cbn; field.
    + split; [reflexivity|]. split; [discriminate|]. split; [discriminate|]. split; [repeat (apply Forall_cons; [unfold eps; lra|]); constructor|].
      split; [repeat (apply Forall_cons; [unfold eps; lra|]); constructor|]. split; [vm_compute; congruence|].
      intros [|i] row Hr Hi; cbn in Hi; try lia; cbn in Hr; injection Hr as <-; (split; [reflexivity|]).
      intros [|[|j]] id Hj; cbn in Hj; [| |destruct j; discriminate]; injection Hj as <-; (eexists; split; [lia|split; [reflexivity|split; reflexivity]]).
  - reflexivity.
Qed.
Example C55_example_pin : exists msh mids, addCylindricalPinCell isort_poly (fun m => Ret m) true
    (mkModel (core empty_model) [] [] [] [] [mkMaterial "fuel" true; mkMaterial "clad" true; mkMaterial "water" true] [] [] [] [])
    2 [1 / 2; 7 / 10] [mkMaterial "fuel" true; mkMaterial "clad" true; mkMaterial "water" true] [2; 1]%nat 8 1 =
    Ret (push_cell (mkCell (2, 2) MT_Quad 0 mids) (mkModel (core empty_model) [] [] [] [] [mkMaterial "fuel" true; mkMaterial "clad" true; mkMaterial "water" true] [] [msh] [] []), 0%Z).
Proof.
  destruct the_pin as (P1 & P2 & P3 & P4). set (m := mkModel _ _ _ _ _ _ _ _ _ _).
  destruct (C55_pin_cell isort_poly (fun m => Ret m) true m 2 [1 / 2; 7 / 10] [2; 1]%nat 3
    [mkMaterial "fuel" true; mkMaterial "clad" true; mkMaterial "water" true] [0; 1; 2]%nat) as (msh & mids & _ & E & _); auto; try lra.
  - exact isort_poly_contract.
  - vm_compute. congruence.
  - apply Forall2_cons; [split; [eexists; split; reflexivity|intros; lia]|].
    apply Forall2_cons; [split; [eexists; split; reflexivity|intros [|j] y Hj Hy; [cbn in Hy; injection Hy as <-; discriminate|lia]]|].
    apply Forall2_cons; [|constructor]. split; [eexists; split; reflexivity|].
    intros [|[|j]] y Hj Hy; [cbn in Hy; injection Hy as <-; discriminate|cbn in Hy; injection Hy as <-; discriminate|lia].
  - repeat constructor.
  - exists msh, mids. exact E.
Qed.
Example C56_example_flat : flattenLattice true [[1; 2; 3]; [4; 5; 6]]%Z = Ret [4; 5; 6; 1; 2; 3]%Z /\ mapFlatIndexToLattice2D true 4 3 2 = Ret (1, 0)%Z.
Proof. split; reflexivity. Qed.
Example C55_rect_pin_ex : exists x, step isort_poly (fun m => Ret m) (fun _ => true) true true empty_model (AddRectangularPinMesh 2 3 2 1) =
  Ret (set_meshes [] [x] [] [] empty_model, 0%Z) /\ PinRect_Spec.tiles x 2 3.
Proof.
  destruct (C55_rect_pin isort_poly (fun m => Ret m) (fun _ => true) true true empty_model 2 3 2 1 isort_poly_contract ltac:(lra) ltac:(lra) ltac:(lia) ltac:(lia)
    ltac:(vm_compute; congruence)) as (x & E & _ & _ & _ & T). exists x. split; [exact E|exact T].
Qed.
Example C56_coarse_grid_again_ex : addCoarseGrid true true (coarse_model empty_model 6 2 3 2) 6 2 3 2 = Fail.
Proof. apply C56_coarse_grid_again; try lra; try lia. left. discriminate. Qed.
