(** Model of the files of a PolytopeSoup (src/mesh/polytope_soup.cpp: the constructor from a file, read and write) and of the
    programs that take a soup from a file and leave a file: extract_powers and c5g7_extract_source.

    A disk holds text files by name, and the XML and HDF5 files of Xdmf_Model.  [has_xdmf] is UM2_HAS_XDMF, [exit] is
    logger::exit_on_error: an unsupported name ends the program ([Fail]) or is only logged.  An error in one of the readers is
    [Fail] as in their models. *)
From Coq Require Import String.
From Coq Require Import Reals.
From Coq Require Import List Arith ZArith Bool.
From Verif Require Import Base Loops StringView_Model Soup_Model TextIo_Model Abaqus_Model Vtk_Model Xdmf_Model XSec_Model Source_Model PowerFile_Model.
Import ListNotations.
Local Open Scope list_scope.

Record files := mkFiles { texts : text -> option (list char); xdmf : disk }.

Section Build.
Variables (checks has_xdmf exit : bool) (fsize : Z) (eps : R) (max_int : Z).
Variable stdsort : forall A : Type, (A -> A -> bool) -> list A -> list A.

(** String::ends_with with a C string (string.hpp:909-926) *)
Definition has_ending (filename : text) (e : string) : outcome bool := ends_with (view filename) (view (lit e)).
(** logger::error("Unsupported file format.") *)
Definition unsupported {A} (x : A) : outcome A := if exit then Fail else Ret x.
(** polytope_soup.cpp:2064-2079 *)
Definition soup_read (filename : text) (w : files) (s : fsr) : outcome fsr :=
  let* inp := has_ending filename ".inp" in
  if inp then readAbaqusFile checks stdsort (texts w filename) s else
  let* vtk := has_ending filename ".vtk" in
  if vtk then readVTKFile checks max_int stdsort (texts w filename) s else
  if has_xdmf then
    let* x := has_ending filename ".xdmf" in
    if x then readXDMFFile checks fsize filename (xdmf w) s else unsupported s
  else unsupported s.
(** polytope_soup.cpp:46 *)
Definition soup_open (filename : text) (w : files) : outcome fsr := soup_read filename w empty_soup.
(** polytope_soup.cpp:2081-2091; there is no write without UM2_HAS_XDMF *)
Definition soup_write (filename : text) (s : fsr) (w : files) : outcome files :=
  let* x := has_ending filename ".xdmf" in
  if x then
    let* d := writeXDMFFile fsize eps filename s (xdmf w) in Ret (mkFiles (texts w) d)
  else unsupported w.

(** c5g7_extract_source.cpp:27-52; crocus_2d_extract_source.cpp and fnr_leu_2d_extract_source.cpp differ in the materials and in
    [k_eff] *)
Definition source_program (k_eff : R) (materials : list xsec) (filename : text) (w : files) : outcome files :=
  let* s := soup_open filename w in
  let* s := extract_source k_eff s materials in
  soup_write (lit "source.xdmf") s w.
(** extract_powers.cpp:17-49 with getPowers (powers.cpp:248-252): the files and how the program ends *)
Definition powers_program (sort_ids : list nat -> list nat) (show : R -> text) (filename : text) (w : files) : outcome (files * outcome Z) :=
  let* s := soup_open filename w in
  let* r := extract_powers sort_ids show s in
  Ret (mkFiles (put (texts w) (lit "power_centroid.txt") (fst r)) (xdmf w), snd r).
End Build.
