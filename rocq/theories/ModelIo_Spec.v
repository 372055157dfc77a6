(** Which models can be stored in an XDMF file, and what is the same after reading it back. *)
From Coq Require Import String.
From Coq Require Import List Arith ZArith Bool Reals.
From Verif Require Import Base Loops StringView_Model TextIo_Model Elem_Model XSec_Model XSec_Spec PinCyl_Model Grid_Model Grid_Spec Fvm_Model Fvm_Spec
  Mpact_Model Mpact_Spec Export_Spec Import_Model Import_Spec.
Import ListNotations.
Local Open Scope list_scope.
Local Open Scope R_scope.

(** the mesh [x] with its corner at [o], as it is constructed from the file *)
Definition at_place (o : R * R) (x : mesh R) : mesh R :=
  mkMesh false false (map (fun p => (fst p + fst o, snd p + snd o)) (mv x)) (fv x) [] [].

(** a grid of ids, in rows from the top, of objects of the given widths and heights *)
Definition laid_out (dxdy : list (R * R)) (p : list (list R) * list Z) : Prop :=
  exists ids W H, lattice dxdy ids W H /\ p = ([sums 0 W; sums 0 H], concat (rev ids)).
(** a height of at most six decimals, below 10^14 *)
Definition six_decimals (x : R) : Prop := exists n : Z, x = IZR n / 1000000 /\ (Z.abs n <= 100000000000000000000)%Z.
(** names of materials: printable characters, no comma, no leading space *)
Definition plain_name (n : string) : Prop :=
  (forall c, In c (lit n) -> 32 <= c <= 126 /\ c <> 44)%Z /\ exists c l, lit n = c :: l /\ c <> 32%Z.
(** at most 100000 objects, and each at most 100000 times in the core *)
Definition few {A} (objects : list A) (uses : list Z) : Prop :=
  (Z.of_nat (length objects) <= 100000)%Z /\ forall id, (Z.of_nat (count_occ Z.eq_dec uses id) <= 100000)%Z.

Section Spec.
Variable selfcheck : mesh R -> outcome (mesh R).
Variable m : model.
(** which assembly is on which lattice, in the order of the core *)
Definition stacks : list (Z * Z) :=
  flat_map (fun a => map (fun l => (a, l)) (snd (get (assemblies m) a ([], [])))) (snd (core m)).
(** each lattice is first used in the assembly of the same number *)
Definition own_lattices : Prop := forall id, exists_in (lattices m) id ->
  exists before after, stacks = before ++ (id, id) :: after /\ forall a, ~ In (a, id) before.
(** a cell: its mesh has the size of the cell and stands at the origin, validation accepts it wherever it is put, there is one material
    for each face, and the sizes are 32-bit integers *)
Definition storable_cell (c : cell) : Prop := exists k x,
  cell_mesh m c = Some (k, x) /\ mesh_ok k x /\ fv x <> [] /\
  box_around k x 0 0 (fst (xy_extents c)) (snd (xy_extents c)) /\
  (forall o, validation selfcheck k (at_place o x) (at_place o x)) /\
  length (material_ids c) = length (fv x) /\ Forall (fun i => (0 <= i < 128)%Z) (material_ids c) /\
  (3 * Z.of_nat (length (mv x)) <= intMax)%Z /\ (9 * Z.of_nat (length (fv x)) <= intMax)%Z.
(** a model that can be written *)
Record can_be_written : Prop := {
  s_ids : ids_valid m;
  s_consistent : consistent true m;
  s_core : exists exts, Forall2 (asy_extent m) (assemblies m) exts /\ laid_out exts (core m);
  s_assemblies : forall a z, In a (assemblies m) -> fst a = [z] ->
    increasing z /\ Forall six_decimals z /\ (Z.of_nat (length (snd a)) <= intMax)%Z /\
    exists bot top, first_last z bot top /\ (Rabs bot <= eps \/ Rabs (bot + 1 / 2) <= eps /\ Rabs (top - 1 / 2) <= eps);
  s_lattices : forall l, In l (lattices m) -> snd l <> [] /\ (Z.of_nat (length (snd l)) <= intMax)%Z;
  s_rtms : forall r, In r (rtms m) -> laid_out (map xy_extents (cells m)) r;
  s_cells : Forall storable_cell (cells m);
  s_few_assemblies : few (assemblies m) (snd (core m));
  s_few_lattices : few (lattices m) (all_lattices m);
  s_few_rtms : few (rtms m) (all_rtms m);
  s_few_cells : few (cells m) (all_cells m) }.
(** a model that can be read back *)
Record storable : Prop := {
  s_written :> can_be_written;
  s_materials : Forall (fun x => plain_name (Mpact_Model.name x)) (materials m);
  (** everything is part of the core *)
  s_used_assemblies : forall id, exists_in (assemblies m) id -> In id (snd (core m));
  s_used_rtms : forall id, exists_in (rtms m) id -> In id (all_rtms m);
  s_used_cells : forall id, exists_in (cells m) id -> In id (all_cells m);
  s_own : own_lattices }.

(** the cross sections that are written besides *)
Definition xsecs_storable (knudsen xsdata : bool) (xsecs : list xsec) : Prop :=
  (knudsen || xsdata = true -> xsecs_ok m xsecs) /\
  (xsdata = true -> exists ng, (Z.of_nat ng <= 100000)%Z /\ Forall (shape ng) xsecs).
End Spec.

(** the same cell; the meshes have the same vertices and faces *)
Definition same_cell (m m' : model) (c c' : cell) : Prop :=
  xy_extents c' = xy_extents c /\ mtype c' = mtype c /\ material_ids c' = material_ids c /\
  exists k x x', cell_mesh m c = Some (k, x) /\ cell_mesh m' c' = Some (k, x') /\ mv x' = mv x /\ fv x' = fv x.
(** the same model: of the materials the names *)
Definition same_model (m m' : model) : Prop :=
  core m' = core m /\ assemblies m' = assemblies m /\ lattices m' = lattices m /\ rtms m' = rtms m /\
  map Mpact_Model.name (materials m') = map Mpact_Model.name (materials m) /\
  Forall2 (same_cell m m') (cells m) (cells m').
