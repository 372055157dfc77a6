(** Model of the text files that are written beside the XDMF file of a reactor model (src/mpact/model.cpp:1951-2210), of
    Model::write (2214-2233) and of Model::getMeanChordLengths (3176-3244), over exact real numbers.

    The model of Mpact_Model keeps of a material only its name: [infos] are the other properties and [xsecs] the cross sections of the
    materials.  [show] and [show15] are how operator<< prints a Float with the default precision and with that of 1985-1988 and 2138-2141
    (6 or 15 digits).  The code computes the number of a face as (1 - 0.9) * n in doubles: [tenth] is that number, it is n / 10 for exact
    numbers and one less if n is a multiple of ten.  A file can always be opened.  Of the assertions the ones on ids are left out, they forbid
    reads that are undefined behaviour here.  LOG_INFO is left out.  Every place of a text stands for a character. *)
From Coq Require Import String.
From Coq Require Import List Arith ZArith Bool Reals.
From Verif Require Import Base Loops Arith StringView_Model Logger_Model TextIo_Model Elem_Model Soup_Model Stats_Model Poly_Model QPoly_Model XSec_Model PinCyl_Model
  Grid_Model Fvm_Model Xdmf_Model Mpact_Model Export_Model ModelIo_Model.
Import ListNotations.
Local Open Scope list_scope.
Local Open Scope R_scope.

Notation text := (list Z) (only parsing).
Definition NL : text := [10%Z].
(** density, temperature, and the ZAIDs of the nuclides with their number densities (physics/material.hpp:20-27) *)
Record matinfo := mkInfo { density : R; temperature : R; zaids : list Z; num_densities : list R }.
(** Polygon::area() of a face *)
Definition area_of (k : kind) (p : list (R * R)) : outcome R := if quadratic k then q_area Rarith p else lin_area Rarith p.
(** FaceVertexMesh::getFace *)
Definition face_of (x : mesh R) (i : nat) : outcome (list (R * R)) := let* f := rd (fv x) i in mapo (rdz (mv x)) f.

Section Write.
Variable stdsort : forall A : Type, (A -> A -> bool) -> list A -> list A.
Variables checks exit_on_error : bool.
Variables show show15 : R -> text.
Variable tenth : nat -> nat.
Variable m : model.
Variable xsecs : list xsec.
Variable infos : list matinfo.
Notation assert := (Mpact_Model.assert checks).

(** logger::error after which the code goes on *)
Definition go_on {S : Type} (s : S) : outcome S := if exit_on_error then Fail else Ret s.
(** the switch over the type of the mesh of a cell (e.g. 2098-2141) *)
Definition with_mesh {S : Type} (c : cell) (f : kind -> mesh R -> S -> outcome S) (s : S) : outcome S :=
  match kind_of (mtype c), meshes_of m (mtype c) with
  | Some k, Some ms => let* x := rdz ms (mesh_id c) in f k x s
  | _, _ => go_on s
  end.

(** ** Mean chord lengths *)
(** 3179-3188 and 3191-3195: the loop over all the cells of the core *)
Definition each_cell {S : Type} (f : Z -> S -> outcome S) (s : S) : outcome S :=
  foreach (snd (core m)) (fun a s =>
    let* asy := rdz (assemblies m) a in
    foreach (snd asy) (fun l s =>
      let* lat := rdz (lattices m) l in
      foreach (snd lat) (fun r s =>
        let* rtm := rdz (rtms m) r in
        foreach (snd rtm) f s) s) s) s.
(** 3176-3244; the state of the second loop is result and ctr *)
Definition getMeanChordLengths : outcome (list R) :=
  let* total := each_cell (fun c n => let* cc := rdz (cells m) c in i32 (n + size (material_ids cc))) 0%Z in
  let* st := each_cell (fun c st =>
      let* cc := rdz (cells m) c in
      with_mesh cc (fun k x st =>
        let* res := for_ (length (fv x)) 0 (fun i res =>
          let* p := face_of x i in let* l := chord k p in wr res (snd st + i) l) (fst st) in
        Ret (res, snd st + length (fv x))%nat) st) (repeat 0 (Z.to_nat total), O) in
  Ret (fst st).

(** ** The input file *)
(** 1982-2009: a material, [i] is its number *)
Definition material_text (i : nat) (x : material) (y : matinfo) : outcome text :=
  let* d := print_float (density y) in
  let* t := print_float (temperature y) in
  let mat_info := txt "  mat " ++ fmt (S i) ++ txt " <type> " ++ d ++ txt " g/cc " ++ t ++ txt " K \ " in
  let mat_info_size := (length mat_info - 5)%nat in
  let head := txt "  ! " ++ lit (Mpact_Model.name x) ++ NL ++ mat_info in
  match zaids y with
  | [] => Ret head
  | z :: zs =>
      assert (length (zaids y) =? length (num_densities y))%nat (
      let* d0 := rd (num_densities y) 0 in
      for_ (length zs) 1 (fun i t =>
        let* zi := rd (zaids y) i in
        let* di := rd (num_densities y) i in
        Ret (t ++ repeat SPACE mat_info_size ++ decimal zi ++ txt " " ++ show di ++ NL)) (head ++ decimal z ++ txt " " ++ show d0 ++ NL))
  end.
(** 1954-1956, 2052-2054 and 2171-2173: the file name up to the last period, all of it if there is none *)
Definition strip (filename : text) : outcome text :=
  let* p := str_find_last_of filename DOT (length filename) in
  Xdmf_Model.substr filename 0 (match p with Some i => i | None => length filename end).
(** 2020-2028: the distance of the rays; the n-th face is read from the sorted lengths *)
Definition ray_spacing : outcome R :=
  let* l := getMeanChordLengths in
  let l := stdsort R Rltb l in
  let* c := rd l (tenth (length l)) in
  Ret (c / 4).
(** 1951-2046: the name and the text *)
Definition writeInputFile (filename : text) : outcome (text * text) :=
  let* base := strip filename in
  let* slash := str_find_last_of filename SLASH (length filename) in
  let* model_name := substr_from base (match slash with Some i => S i | None => O end) in
  let* mats := foreachi (materials m) 0 (fun i x t => let* y := rd infos i in let* s := material_text i x y in Ret (t ++ s)) [] in
  let* r := ray_spacing in
  Ret (base ++ txt ".input",
    txt "CASEID MPACT_" ++ model_name ++ NL ++ NL ++ txt "STATE" ++ NL ++ txt "  edit fsr_flux fsr_power" ++ NL ++ NL
    ++ txt "MATERIAL" ++ NL ++ mats ++ txt "GEOM" ++ NL ++ txt "  um2_core" ++ NL ++ txt "    " ++ filename ++ NL ++ NL
    ++ txt "XSEC" ++ NL ++ txt "  xslib ORNL mpact51g_71_v4.2m5_12062016_sph.fmt" ++ NL ++ NL
    ++ txt "OPTION" ++ NL ++ txt "  bound_cond <west_bc> <north_bc> <east_bc> <south_bc> <top_bc> <bottom_bc>" ++ NL
    ++ txt "  solver 1 2" ++ NL
    ++ txt "  ! ray spacing is set such that the expected number of intersections in the largest" ++ NL
    ++ txt "  ! 90% of faces is 4+ for any given direction. (mean chord length / 4)" ++ NL
    ++ txt "  ray " ++ show r ++ txt " CHEBYSHEV-YAMAMOTO 16 3" ++ NL ++ txt "  parallel 1 1 1 1" ++ NL ++ txt "  conv_crit 2*1.e-6" ++ NL
    ++ txt "  iter_lim 2000 1 1" ++ NL ++ txt "  vis_edits T T" ++ NL ++ txt "  cmfd A mgnode F 0.0 1.0 150 F").

(** ** Volumes of the materials *)
(** 2100-2107: the faces of a mesh; the state is volumes *)
Definition face_volumes (mats : list Z) (dz : R) (k : kind) (x : mesh R) (vols : list (list R)) : outcome (list (list R)) :=
  for_ (length (fv x)) 0 (fun i vols =>
    let* mat := rd mats i in
    let* p := face_of x i in
    let* a := area_of k p in
    let* l := rdz vols mat in
    wrz vols mat (l ++ [a * dz])) vols.
(** 2092-2145: a cell *)
Definition cell_volumes (dz : R) (c : Z) (vols : list (list R)) : outcome (list (list R)) :=
  let* cc := rdz (cells m) c in with_mesh cc (face_volumes (material_ids cc) dz) vols.
(** 2079-2148: a lattice of an assembly *)
Definition lattice_volumes (asy : list (list R) * list Z) (i : nat) (vols : list (list R)) : outcome (list (list R)) :=
  let* l := rect_getChild Z asy [Z.of_nat i] in
  let* divs := rd (fst asy) 0 in
  let* low_z := rd divs i in
  let* high_z := rd divs (S i) in
  let dz := high_z - low_z in
  let* lat := rdz (lattices m) l in
  foreach (snd lat) (fun r vols => let* rtm := rdz (rtms m) r in foreach (snd rtm) (cell_volumes dz) vols) vols.
(** 2071-2160: the volumes of the materials *)
Definition material_volumes : outcome (list R) :=
  let* vols := foreach (snd (core m)) (fun a vols =>
    let* asy := rdz (assemblies m) a in for_ (length (snd asy)) 0 (lattice_volumes asy) vols) (repeat [] (length (materials m))) in
  mapo (fun l => sum (stdsort R Rltb l)) vols.
(** 2048-2166: the name and the text *)
Definition writeMaterialVolumes (filename : text) : outcome (text * text) :=
  let* base := strip filename in
  let* total_volumes := material_volumes in
  let* t := foreachi (materials m) 0 (fun i x t =>
    let* v := rd total_volumes i in Ret (t ++ lit (Mpact_Model.name x) ++ txt " " ++ show15 v ++ NL)) [] in
  Ret (base ++ txt ".volumes", t).

(** ** Cross sections of the materials *)
(** 2202-2205: a row *)
Definition xs_row (x : xsec) (g : nat) : outcome text :=
  let* a := rd (xa x) g in let* f := rd (xf x) g in let* nuf := rd (xnuf x) g in let* tr := rd (xtr x) g in let* s := rd (xs x) g in
  Ret (show15 a ++ txt " " ++ show15 f ++ txt " " ++ show15 nuf ++ txt " " ++ show15 tr ++ txt " " ++ show15 s ++ NL).
(** 2168-2210: the name and the text; [xsecs] has an entry for each material *)
Definition writeCrossSections (filename : text) : outcome (text * text) :=
  let* base := strip filename in
  let* x0 := rd xsecs 0 in
  let num_groups := numGroups x0 in
  let* t := foreachi (materials m) 0 (fun i x t =>
    let* y := rd xsecs i in
    assert (numGroups y =? num_groups)%nat (
    for_ num_groups 0 (fun g t => let* r := xs_row y g in Ret (t ++ r)) (t ++ lit (Mpact_Model.name x) ++ NL)))
    (fmt (length (materials m)) ++ txt " " ++ fmt num_groups ++ NL) in
  Ret (base ++ txt ".xs", t).

(** ** Model::write *)
(** the text files, by name *)
Definition texts := text -> option text.
Definition put_text (f : text * text) (d : texts) : texts := Xdmf_Model.put d (fst f) (snd f).
(** 2214-2233; an error of writeXDMFFile ends the program *)
Definition write_all (fsize : Z) (knudsen xsdata : bool) (filename : text) (st : disk * texts) : outcome (disk * texts) :=
  let '(d, t) := st in
  let* b := is_xdmf filename in
  let* d := (if b then writeXDMF stdsort fsize knudsen xsdata m xsecs filename d else go_on d) in
  let* f := writeInputFile filename in
  let t := put_text f t in
  let* f := writeMaterialVolumes filename in
  let t := put_text f t in
  let* f := writeCrossSections filename in
  Ret (d, put_text f t).
End Write.
