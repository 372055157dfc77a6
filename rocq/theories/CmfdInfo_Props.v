(** C78: the file with the CMFD data of a reactor model. *)
From Coq Require Import String.
From Coq Require Import Reals.
From Coquelicot Require Import Complex.
From Coq Require Import List Arith ZArith Lia Lra Bool.
From Verif Require Import Base Loops Arith TextIo_Model Elem_Model Matrix_Model Matrix_Spec Soup_Model Soup_Spec Stats_Spec XSec_Model XSec_Spec Cmfd_Model Cmfd_Spec Cmfd_Ex_Proofs
  PinCyl_Model Grid_Model Fvm_Model Fvm_Spec Xdmf_Model Xdmf_Spec Mpact_Model Mpact_Spec Export_Model Export_Spec Outputs_Model Outputs_Spec Outputs_Example_Proofs
  CmfdInfo_Model CmfdInfo_Spec CmfdInfo_Proofs CmfdInfo_Example_Proofs.
Import ListNotations.
Local Open Scope list_scope.
Local Open Scope R_scope.

(** Writing works and changes only the two files; what is read back is a rectangle for each cell of the core at its place and of its size,
    a set for each kind of cell that is in the core, and for each group the total cross section, the scattering ratio and the spectral
    radius of the cell, homogenised by area. The radius does not depend on the cells before. *)
Theorem C78_written : forall checks exit solve eigvals fsize tol m xsecs ng junk area, measures area -> describable m xsecs area ng -> branching m = true -> few m ng ->
  solver solve -> eigen checks eigvals -> length junk = 16%nat -> (exit = false \/ forall c, In c (every_id m) -> in_core m c = true) ->
  forall checks' p h d, fsize = 4%Z \/ fsize = 8%Z -> 0 <= tol -> xdmf_path p h ->
  exists radius a d' s' vs,
    (forall c g, In c (every_id m) -> (g < ng)%nat -> radius_data m xsecs area solve eigvals c g (radius c g)) /\
    described m xsecs area ng radius a /\
    writeCMFDInfo checks exit solve eigvals fsize tol m xsecs junk p d = Ret d' /\ only_written p h d d' /\
    readXDMFFile checks' fsize p d' empty_soup = Ret s' /\ kept tol (a_verts a) vs /\ stores s' (mkA vs (a_elems a) (a_elsets a)).
Proof. exact info_written. Qed.
Print Assumptions C78_written.
(** If a part of the core is empty, that is reported and no file is written. *)
Theorem C78_incomplete : forall checks exit solve eigvals fsize tol m xsecs ng junk area, measures area -> describable m xsecs area ng ->
  forall d p, xsecs <> [] -> branching m = false ->
  writeCMFDInfo checks exit solve eigvals fsize tol m xsecs junk p d = if exit then Fail else Ret d.
Proof. exact stopped. Qed.
Print Assumptions C78_incomplete.
(** A cell of the model that is not in the core ends the program. *)
Theorem C78_unused_refuted : forall checks solve eigvals fsize tol m xsecs ng junk area, measures area -> describable m xsecs area ng -> branching m = true -> few m ng ->
  forall p d c, In c (every_id m) -> in_core m c = false ->
  writeCMFDInfo checks true solve eigvals fsize tol m xsecs junk p d = Fail.
Proof. intros. eapply unused_cell; eauto. Qed.
Print Assumptions C78_unused_refuted.
(** Cells without a mesh have no data: the program ends or reads outside of an array. *)
Theorem C78_meshless_refuted : forall checks exit solve eigvals fsize tol m xsecs ng junk p d,
  measurable m -> ng <> O -> length xsecs = length (materials m) -> Forall (fun x => isMacro x = true /\ shape ng x) xsecs -> xsecs <> [] -> few m ng ->
  branching m = true -> Forall (fun c => meshes_like m (mtype c) = None) (cells m) ->
  writeCMFDInfo checks exit solve eigvals fsize tol m xsecs junk p d = if exit then Fail else Ub.
Proof. exact no_meshes. Qed.
Print Assumptions C78_meshless_refuted.

(** * The hypotheses are met *)
(** two kinds of cells of two materials each, both in the core *)
Example C78_example : forall checks, exists solve, measures the_area /\ describable (pair_model true true) [plain; strong] the_area 1 /\ branching (pair_model true true) = true /\
  few (pair_model true true) 1 /\ solver solve /\ eigen checks (fun _ => Ret [RtoC 0]) /\ length (repeat (RtoC 0) 16) = 16%nat /\
  (forall c, In c (every_id (pair_model true true)) -> in_core (pair_model true true) c = true) /\ length (all_cells (pair_model true true)) = 8%nat.
Proof.
  intros checks. destruct solver_exists as (solve & Hs). exists solve. split; [exact area_exists|]. split; [exact (pair_describable _ true true area_exists)|]. split; [reflexivity|].
  split; [apply pair_few|]. split; [exact Hs|]. split; [apply all_zero_eigen|]. split; [reflexivity|]. split; [intros c [<-|[<-|[]]]; reflexivity|reflexivity].
Qed.
(** the data of its cells *)
Example C78_example_data : forall area c, measures area -> In c (every_id (pair_model true true)) ->
  total_of (pair_model true true) [plain; strong] area c 0 = 7 / 2 /\ ratio_of (pair_model true true) [plain; strong] area c 0 = 3 / 7.
Proof. intros area c Ha Hc. unfold ratio_of, total_of. destruct (pair_mixed area c true true Ha Hc) as (-> & ->). lra. Qed.
(** no core *)
Example C78_example_incomplete : describable (pair_model false true) [plain; strong] the_area 1 /\ branching (pair_model false true) = false.
Proof. split; [exact (pair_describable _ false true area_exists)|reflexivity]. Qed.
(** the second kind of cell is not in the core *)
Example C78_example_unused : describable (pair_model true false) [plain; strong] the_area 1 /\ branching (pair_model true false) = true /\ few (pair_model true false) 1 /\
  In 1%Z (every_id (pair_model true false)) /\ in_core (pair_model true false) 1 = false.
Proof. split; [exact (pair_describable _ true false area_exists)|]. split; [reflexivity|]. split; [apply pair_few|]. split; [right; now left|reflexivity]. Qed.
(** the same core with empty cells *)
Example C78_example_meshless : let m := pair_of (mkCell (1, 1) MT_Invalid (-1) []) true true in
  measurable m /\ few m 1 /\ branching m = true /\ Forall (fun c => meshes_like m (mtype c) = None) (cells m) /\ Forall (fun x => isMacro x = true /\ shape 1 x) [plain; strong].
Proof. split; [apply pair_measurable; now right|]. split; [apply pair_few|]. split; [reflexivity|]. split; [repeat constructor|exact pair_macro]. Qed.
