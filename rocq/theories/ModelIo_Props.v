(** C72 (a reactor model that is written to an XDMF file is the same when it is read back), C73 (what can be read is a valid model) and
    C74 (what the file shows). *)
From Coq Require Import String.
From Coq Require Import List Arith ZArith Bool Reals Lra Lia.
From Verif Require Import Base Loops TextIo_Model Elem_Model Soup_Model Soup_Spec StringView_Model XSec_Model XSec_Spec XSec_Props PinCyl_Model Grid_Model Grid_Spec Fvm_Model Fvm_Spec
  Xdmf_Model Xdmf_Spec Xdmf_Proofs Xdmf_File_Proofs Mpact_Model Mpact_Spec Mpact_Steps_Proofs Export_Spec Import_Model Import_Spec ModelIo_Model ModelIo_Spec ModelIo_More_Proofs ModelIo_Example_Proofs ModelIo_Proofs ModelIo_View_Spec ModelIo_View_Proofs.
Import ListNotations.
Local Open Scope list_scope.
Local Open Scope R_scope.

(** * C72 *)
(** Writing works, changes only the two files, and reading them into an empty model gives the same model, with or without assertions,
    in single or double precision, and whatever further data are written. *)
Theorem C72_roundtrip : forall stdsort selfcheck junk checks fsize knudsen xsdata m xsecs path h d,
  sort_contract stdsort -> fsize = 4%Z \/ fsize = 8%Z -> storable selfcheck m -> xsecs_storable m knudsen xsdata xsecs -> xdmf_path path h ->
  exists d' m', write stdsort fsize knudsen xsdata m xsecs path d = Ret d' /\ only_written path h d d' /\
    read stdsort selfcheck junk checks fsize path d' empty_model = Ret m' /\ same_model m m'.
Proof. exact model_round_trip. Qed.
Print Assumptions C72_roundtrip.
(** For meshes with straight edges it is enough that the validation accepts the mesh at the origin. *)
Theorem C72_place : forall selfcheck k x, quadratic k = false -> validation selfcheck k (at_place (0, 0) x) (at_place (0, 0) x) ->
  forall o, validation selfcheck k (at_place o x) (at_place o x).
Proof. exact place_free. Qed.
Print Assumptions C72_place.
(** A model with more lattices than assemblies can be written, but no file gives it back. *)
Theorem C72_lattices_refuted : forall stdsort selfcheck fsize knudsen xsdata m xsecs path h d,
  sort_contract stdsort -> fsize = 4%Z \/ fsize = 8%Z -> can_be_written selfcheck m -> xsecs_storable m knudsen xsdata xsecs -> xdmf_path path h ->
  (length (assemblies m) < length (lattices m))%nat ->
  exists d', write stdsort fsize knudsen xsdata m xsecs path d = Ret d' /\
    forall junk checks m', read stdsort selfcheck junk checks fsize path d' empty_model = Ret m' -> ~ same_model m m'.
Proof. exact lattices_lost. Qed.
Print Assumptions C72_lattices_refuted.
(** Heights are stored with six decimals: what is read differs by at most half a millionth, and does differ for a third. *)
Theorem C72_heights : forall x, Rabs x <= 100000000000000 ->
  exists t y, print_float x = Ret t /\ strtod (t ++ [0%Z]) = Ret y /\ Rabs (y - x) <= 1 / 2000000.
Proof. exact print_near. Qed.
Print Assumptions C72_heights.
Theorem C72_heights_refuted : exists t y, print_float (1 / 3) = Ret t /\ strtod (t ++ [0%Z]) = Ret y /\ y <> 1 / 3.
Proof. destruct print_third as (t & E1 & E2). exists t, (333333 / 1000000). split; [exact E1|]. split; [exact E2|]. lra. Qed.
Print Assumptions C72_heights_refuted.
(** A material with a comma in its name is read as two; if the name is a comma, reading never ends. *)
Theorem C72_comma_refuted : exists ms m', length ms = 1%nat /\
  read_materials (length (join_names ms)) (join_names ms) empty_model = Ret m' /\ length (materials m') = 2%nat.
Proof. exact comma_name. Qed.
Print Assumptions C72_comma_refuted.
Theorem C72_endless_refuted : forall fuel, read_names fuel (view (join_names [mkMaterial "," true])) = OutOfFuel.
Proof. exact comma_only. Qed.
Print Assumptions C72_endless_refuted.

(** * C73 *)
(** Whatever the files contain: if reading them returns, every id of the model refers to an existing object, the parts of the hierarchy
    fit together, and the objects that were there before are unchanged. *)
Theorem C73_valid : forall stdsort selfcheck junk checks fsize path d m m', ids_valid m -> consistent checks m ->
  read stdsort selfcheck junk checks fsize path d m = Ret m' -> ids_valid m' /\ consistent checks m' /\ extends m m'.
Proof. intros ? ? ? ? ? ? ? ? ? H1 H2 H. destruct (any_file _ _ _ _ _ _ _ _ _ H1 H2 H) as ((R1 & R2) & R3 & _). auto. Qed.
Print Assumptions C73_valid.
(** Reading never adds more lattices than assemblies. *)
Theorem C73_lattices : forall stdsort selfcheck junk checks fsize path d m m', ids_valid m -> consistent checks m ->
  read stdsort selfcheck junk checks fsize path d m = Ret m' ->
  (length (lattices m') - length (lattices m) <= length (assemblies m') - length (assemblies m))%nat.
Proof. intros ? ? ? ? ? ? ? ? ? H1 H2 H. destruct (any_file _ _ _ _ _ _ _ _ _ H1 H2 H) as (_ & R3 & R4). destruct (ext_lattices _ _ R3) as (l & El), (ext_assemblies _ _ R3) as (a & Ea). rewrite El, Ea, !app_length in *. lia. Qed.
Print Assumptions C73_lattices.

(** * C74 *)
(** The document has one grid for each copy of each coarse cell, in the order of the core, within grids for its module, lattice and assembly
    that have their names; reading the grid gives the mesh of the cell at its place, and the data of its faces. *)
Theorem C74_shown : forall stdsort selfcheck checks fsize knudsen xsdata m xsecs path h d,
  sort_contract stdsort -> fsize = 4%Z \/ fsize = 8%Z -> can_be_written selfcheck m -> xsecs_storable m knudsen xsdata xsecs -> xdmf_path path h ->
  exists d' doc core f file, write stdsort fsize knudsen xsdata m xsecs path d = Ret d' /\ only_written path h d d' /\
    xmlfiles d' path = Some doc /\ h5files d' h = Some f /\ (exists dir, h = dir ++ file) /\ core_grid doc core /\ attribute core "Name" ++ txt ".h5" = file /\
    Forall2 (shows_cell m knudsen xsdata xsecs (fun x => readXDMFUniformGrid checks fsize x f file empty_soup)) (placed_cells m) (cell_grids core).
Proof. exact file_shows. Qed.
Print Assumptions C74_shown.

(** * The hypotheses are met *)
(** eight cells: the last is the fourth copy of the module, in the second copy of the upper lattice, in the second copy of the assembly *)
Example C74_example : forall selfcheck, can_be_written selfcheck (small true) /\ length (placed_cells (small true)) = 8%nat /\
  exists p, nth_error (placed_cells (small true)) 7 = Some p /\ path p = [(0, 7%nat); (0, 3%nat); (1, 1%nat); (0, 1%nat)]%Z /\ offset p = (3, 0, 3 / 16).
Proof.
  intros selfcheck. split; [apply small_ok|]. split; [reflexivity|]. eexists. split; [reflexivity|]. split; [reflexivity|]. cbn. f_equal; [f_equal|]; field.
Qed.
Example C72_example : forall selfcheck, storable selfcheck (small false) /\ xsecs_storable (small false) false false [] /\
  xdmf_path (txt "out/core.xdmf") (txt "out/core.h5").
Proof.
  intros selfcheck. split; [apply small_storable|]. split; [split; discriminate|].
  exists (txt "out/"), (txt "core"). split; [reflexivity|]. split; [reflexivity|]. split; [cbn; intuition discriminate|]. split; [discriminate|]. split; [discriminate|].
  right. exists (txt "out"). split; [discriminate|reflexivity].
Qed.
Example C72_example_lattices : forall selfcheck, can_be_written selfcheck (small true) /\ (length (assemblies (small true)) < length (lattices (small true)))%nat.
Proof. intros selfcheck. split; [apply small_ok|cbn; lia]. Qed.
Example C73_example : forall stdsort junk checks, sort_contract stdsort -> exists d m',
  ids_valid empty_model /\ consistent checks empty_model /\
  read stdsort (fun x => Ret x) junk checks 8 (txt "out/core.xdmf") d empty_model = Ret m' /\ length (cells m') = 1%nat /\ length (assemblies m') = 1%nat.
Proof.
  intros stdsort junk checks Hs. destruct (C72_example (fun x => Ret x)) as (H1 & H2 & H3).
  destruct (C72_roundtrip stdsort _ junk checks 8%Z false false _ [] _ _ (mkDisk (fun _ => None) (fun _ => None)) Hs (or_intror eq_refl) H1 H2 H3) as (d' & m' & _ & _ & Er & (_ & Sa & _ & _ & _ & Sc)).
  exists d', m'. destruct (inv_empty checks) as (I1 & I2). split; [exact I1|]. split; [exact I2|]. split; [exact Er|]. split; [now inversion Sc as [|? ? ? ? ? Sc']; inversion Sc'|].
  rewrite Sa. reflexivity.
Qed.
