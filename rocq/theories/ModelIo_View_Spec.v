(** What the XDMF file of a model shows: each copy of each coarse cell at its place, with its data. *)
From Coq Require Import String.
From Coq Require Import List Arith ZArith Bool Reals Permutation.
From Verif Require Import Base Loops StringView_Model TextIo_Model Elem_Model Soup_Model Soup_Spec Stats_Spec XSec_Model PinCyl_Model Grid_Model Fvm_Model Fvm_Spec
  Xdmf_Model Mpact_Model Mpact_Spec Export_Model Export_Spec.
Import ListNotations.
Local Open Scope list_scope.
Local Open Scope R_scope.

(** ** The document *)
(** the grids in a node *)
Definition sub_grids (x : xml) : list xml := filter (fun y => name_eqb (tag y) (lit "Grid")) (kids x).
(** the grids in a grid, each with its name and the names of those around it *)
Definition under (e : list (list Z) * xml) : list (list (list Z) * xml) :=
  map (fun y => (attribute y "Name" :: fst e, y)) (sub_grids (snd e)).
(** the grids of the coarse cells: assemblies, lattices, RTMs and cells are nested *)
Definition cell_grids (core : xml) : list (list (list Z) * xml) :=
  flat_map under (flat_map under (flat_map under (under ([], core)))).
(** the grid of the core *)
Definition core_grid (doc core : xml) : Prop :=
  exists x y, kids doc = [x] /\ kids x = [y] /\ tag x = lit "Xdmf" /\ tag y = lit "Domain" /\ sub_grids y = [core].

(** ** The data *)
Definition of_material (xsecs : list xsec) (q : xsec -> R) (id : Z) : R :=
  match nth_error xsecs (Z.to_nat id) with Some x => q x | None => 0 end.
Definition group_total (g : nat) (x : xsec) : R := nth g (xa x) 0 + nth g (xs x) 0.
Definition group_count (xsecs : list xsec) : nat := match xsecs with x :: _ => numGroups x | [] => O end.
(** names and values of the sets of a cell: its mesh has one value for each face *)
Definition written_sets (knudsen xsdata : bool) (xsecs : list xsec) (k : kind) (x : mesh R) (mats : list Z) : list (list Z * list R) :=
  let per q := map (of_material xsecs q) mats in
  let chords := map (fun c => value_of (chord k (map (vertex x) c))) (fv x) in
  [(lit "Material_ID", map IZR mats)] ++
  (if knudsen || xsdata then
     [(lit "One_Group_Avg_XS_a", per (fun y => average (xa y))); (lit "One_Group_Avg_XS_f", per (fun y => average (xf y)));
      (lit "One_Group_Avg_XS_s", per (fun y => average (xs y))); (lit "One_Group_Avg_XS_t", per total_xs)] else []) ++
  (if xsdata then
     map (fun g => (lit "Group_" ++ digits5 (Z.of_nat g) ++ lit "_Total_XS", per (group_total g))) (seq 0 (group_count xsecs)) else []) ++
  (if knudsen then
     [(lit "Mean_Chord_Length", chords); (lit "Knudsen_Number", map (fun p => 1 / (fst p * snd p)) (combine (per total_xs) chords))] else []).
(** a set of all faces *)
Definition whole_set (n : nat) (e : list Z * list R) : elset R := mkElset (fst e) (map Z.of_nat (seq 0 n)) (snd e).
(** a vertex of a cell at its place; planes up to eps are drawn at height zero *)
Definition drawn (o : pt3) (p : R * R) : pt3 :=
  let '(x, y, z) := o in (fst p + x, snd p + y, if Rle_dec (Rabs z) eps then 0 else z).

(** [read] reads a grid.  The grid [e] is that of the copy [p] of a coarse cell: it has its name and those of the module, the lattice and the
    assembly it is in, the vertices of its mesh at its place, the faces of its mesh, and the data *)
Definition shows_cell (m : model) (knudsen xsdata : bool) (xsecs : list xsec) (read : xml -> outcome (soup pt3 R)) (p : place) (e : list (list Z) * xml) : Prop :=
  fst e = path_names (path p) /\
  exists c k x u a, Mpact_Spec.at_ (cells m) (here p) c /\ cell_mesh m c = Some (k, x) /\ read (snd e) = Ret u /\ stores u a /\
    a_verts a = map (drawn (offset p)) (mv x) /\ a_elems a = map (fun f => (elem_type k, f)) (fv x) /\
    names_sorted (a_elsets a) /\
    Permutation (map (whole_set (length (fv x))) (written_sets knudsen xsdata xsecs k x (material_ids c))) (a_elsets a).
