(** Model of the conversion of an mpact::Model to a PolytopeSoup (src/mpact/model.cpp:1278-1519), over exact real
    numbers.

    The model of Mpact_Model keeps of a material only its name: [xsecs] are the cross sections of the materials.  Of the assertions
    only the one on isMacro() is kept (if [checks]); the ones on ids forbid reads that are undefined behaviour here.  Counters are
    below 2^31, as every visit of an object adds elements to the soup.  LOG_DEBUG is left out.  An infinite or undefined
    Knudsen number (xs or length zero) has no meaning in the exact numbers. *)
From Coq Require Import String.
From Coq Require Import List Arith ZArith Bool Reals.
From Verif Require Import Base Loops Arith StringView_Model Ascii_Model TextIo_Model Elem_Model Soup_Model Poly_Model QSeg_Model QPoly_Model
  XSec_Model PinCyl_Model Grid_Model Fvm_Model Mpact_Model.
Import ListNotations.
Local Open Scope list_scope.
Local Open Scope R_scope.

Notation pt3 := (R * R * R)%type (only parsing).
Notation soup3 := (soup (R * R * R) R) (only parsing).
(** Point3F::operator+= *)
Definition add3 (p v : pt3) : pt3 := let '(a, b, c) := p in let '(x, y, z) := v in (a + x, b + y, c + z).

(** The switch (1430-1462): the kind of mesh of a type, if it is one of the four *)
Definition kind_of (t : mesh_type) : option kind :=
  match t with MT_Tri => Some Tri | MT_Quad => Some Quad | MT_Tri6 => Some Tri6 | MT_Quad8 => Some Quad8 | _ => None end.
(** Polygon::meanChordLength() of a face (geometry/polygon.hpp:238-245) *)
Definition chord (k : kind) (p : list (R * R)) : outcome R :=
  if quadratic k then q_meanChordLength Rarith (qs_length Rarith ln (eps * eps)) PI p
  else let* a := lin_area Rarith p in let* l := perimeter Rarith p in Ret (PI * a / l).

(** for (i = i0; i < i0 + n; ++i), left early if the flag that the body returns is false *)
Fixpoint loop {S : Type} (n i : nat) (f : nat -> S -> outcome (S * bool)) (s : S) : outcome (S * bool) :=
  match n with
  | O => Ret (s, true)
  | Datatypes.S n' => let* r := f i s in if snd r then loop n' (Datatypes.S i) f (fst r) else Ret (fst r, false)
  end.
(** the two loops over the cells of a grid (e.g. 1306-1307), y outside *)
Definition loop2 {S : Type} (nx ny : Z) (f : Z -> Z -> S -> outcome (S * bool)) (s : S) : outcome (S * bool) :=
  loop (Z.to_nat ny) 0 (fun j => loop (Z.to_nat nx) 0 (fun i => f (Z.of_nat i) (Z.of_nat j))) s.

(** Int const ctr = ++found[id] (e.g. 1317) *)
Definition visit (found : list Z) (id : Z) : outcome (list Z * Z) :=
  let* c := rdz found id in
  let* f := wrz found id (c + 1)%Z in
  Ret (f, c + 1)%Z.
(** e.g. "Assembly_" + getASCIINumber(id) + "_" + getASCIINumber(ctr) (1320-1321) *)
Definition label (prefix : string) (id ctr : Z) : outcome (list Z) :=
  let* a := getASCIINumber id in
  let* b := getASCIINumber ctr in
  Ret (lit prefix ++ a ++ lit "_" ++ b).
(** minima() of a box of a grid with two axes *)
Definition corner (b : list (R * R)) : outcome (R * R) :=
  let* x := rd b 0 in let* y := rd b 1 in Ret (fst x, fst y).

(** the counters asy_found, lat_found, rtm_found, cc_found (1298-1301) *)
Record counters := mkC { f_asy : list Z; f_lat : list Z; f_rtm : list Z; f_cell : list Z }.
Definition set_asy v c := mkC v (f_lat c) (f_rtm c) (f_cell c).
Definition set_lat v c := mkC (f_asy c) v (f_rtm c) (f_cell c).
Definition set_rtm v c := mkC (f_asy c) (f_lat c) v (f_cell c).
Definition set_cell v c := mkC (f_asy c) (f_lat c) (f_rtm c) v.

Section Export.
Variable stdsort : forall A : Type, (A -> A -> bool) -> list A -> list A.
Variables checks exit_on_error : bool.
Variable m : model.

Notation state := (counters * soup3)%type.
(** logger::error, then "return core_soup" *)
Definition stop (s : state) : outcome (state * bool) := if exit_on_error then Fail else Ret (s, false).

(** 1289-1295 *)
Definition one_group (xsecs : list xsec) : outcome (list R) :=
  mapo (fun x =>
    if checks && negb (isMacro x) then Fail else
    let* y := collapseTo1GroupAvg x in
    let* a := rd (xa y) 0 in
    let* s := rd (xs y) 0 in
    Ret (a + s)) xsecs.

(** addElset: an error ends the program if exit_on_error is set *)
Definition with_set (s : soup3) (n : list Z) (ids : list Z) (data : list R) : outcome soup3 :=
  let '(s', _, e) := addElset s n ids data in if e && exit_on_error then Fail else Ret s'.

(** 1430-1503: the soup of a cell *)
Definition cell_soup (xs1 : list R) (k : kind) (x : mesh R) (mats : list Z) (cell_name rtm_name lat_name asy_name : list Z)
    (offset : pt3) : outcome soup3 :=
  let* s := to_soup 0 k x in
  let* mcls := mapo (fun i => let* f := rd (fv x) i in let* p := mapo (rdz (mv x)) f in chord k p) (seq 0 (length mats)) in
  let s := translate add3 offset s in
  let ids := map Z.of_nat (seq 0 (length (etypes s))) in
  let* s := with_set s cell_name ids [] in
  let* s := with_set s rtm_name ids [] in
  let* s := with_set s lat_name ids [] in
  let* s := with_set s asy_name ids [] in
  let* s := with_set s (lit "Material_ID") ids (map IZR mats) in
  let* xsecs := mapo (fun i => let* id := rd mats i in rdz xs1 id) (seq 0 (length mats)) in
  let* s := with_set s (lit "One_Group_XS") ids xsecs in
  let* s := with_set s (lit "Mean_Chord_Length") ids mcls in
  let* kn := mapo (fun i => let* a := rd xsecs i in let* b := rd mcls i in Ret (1 / (a * b))) (seq 0 (length xsecs)) in
  let* s := with_set s (lit "Knudsen_Number") ids kn in
  sortElsets stdsort s.

(** 1401-1505: one coarse cell of an RTM; [asy_ll], [lat_z], [rtm_ll] are the offsets *)
Definition do_cell (xs1 : list R) (rtm : list (list R) * list Z) (asy_name lat_name rtm_name : list Z)
    (asy_ll : R * R) (lat_z : R) (rtm_ll : R * R) (ix iy : Z) (st : state) : outcome (state * bool) :=
  let '(c, rtm_soup) := st in
  let* cell_id := rect_getChild Z rtm [ix; iy] in
  let* v := visit (f_cell c) cell_id in
  let c := set_cell (fst v) c in
  let* cell_name := label "Coarse_Cell_" cell_id (snd v) in
  let* b := rect_getBox (fst rtm) [ix; iy] in
  let* cell_ll := corner b in
  let* cc := rdz (cells m) cell_id in
  match kind_of (mtype cc), meshes_of m (mtype cc) with
  | Some k, Some ms =>
      let* x := rdz ms (mesh_id cc) in
      let offset := (fst cell_ll + fst rtm_ll + fst asy_ll, snd cell_ll + snd rtm_ll + snd asy_ll, lat_z) in
      let* s := cell_soup xs1 k x (material_ids cc) cell_name rtm_name lat_name asy_name offset in
      let* r := append_soup stdsort rtm_soup s in
      Ret ((c, r), true)
  | _, _ => stop (c, rtm_soup)
  end.
(** numCells(0) and numCells(1) of a grid with two axes *)
Definition num_cells (g : list (list R)) : outcome (Z * Z) :=
  let* nx := rd (numCells g) 0 in let* ny := rd (numCells g) 1 in Ret (nx, ny).
(** 1370-1508: one RTM of a lattice *)
Definition do_rtm (xs1 : list R) (lat : list axis * list Z) (asy_name lat_name : list Z) (asy_ll : R * R) (lat_z : R)
    (ix iy : Z) (st : state) : outcome (state * bool) :=
  let '(c, lattice_soup) := st in
  let* rtm_id := regular_getChild Z lat [ix; iy] in
  let* v := visit (f_rtm c) rtm_id in
  let c := set_rtm (fst v) c in
  let* rtm_name := label "RTM_" rtm_id (snd v) in
  let* b := getBox (fst lat) [ix; iy] in
  let* rtm_ll := corner b in
  let* rtm := rdz (rtms m) rtm_id in
  if (length (snd rtm) =? 0)%nat then stop (c, lattice_soup)
  else
    let* n := num_cells (fst rtm) in
    let* r := loop2 (fst n) (snd n) (do_cell xs1 rtm asy_name lat_name rtm_name asy_ll lat_z rtm_ll) (c, empty_soup) in
    let '((c, rtm_soup), go) := r in
    if go then let* s := append_soup stdsort lattice_soup rtm_soup in Ret ((c, s), true) else Ret ((c, lattice_soup), false).
(** 1336-1511: one lattice of an assembly *)
Definition do_lattice (xs1 : list R) (asy : list (list R) * list Z) (asy_name : list Z) (asy_ll : R * R)
    (iz : nat) (st : state) : outcome (state * bool) :=
  let '(c, assembly_soup) := st in
  let* lat_id := rect_getChild Z asy [Z.of_nat iz] in
  let* v := visit (f_lat c) lat_id in
  let c := set_lat (fst v) c in
  let* lat_name := label "Lattice_" lat_id (snd v) in
  let* divs := rd (fst asy) 0 in
  let* low_z := rd divs iz in
  let* high_z := rd divs (S iz) in
  let lat_z := (low_z + high_z) / 2 in
  let* lat := rdz (lattices m) lat_id in
  if (length (snd lat) =? 0)%nat then stop (c, assembly_soup)
  else
    let* ax := rd (fst lat) 0 in
    let* ay := rd (fst lat) 1 in
    let* r := loop2 (nc ax) (nc ay) (do_rtm xs1 lat asy_name lat_name asy_ll lat_z) (c, empty_soup) in
    let '((c, lattice_soup), go) := r in
    if go then let* s := append_soup stdsort assembly_soup lattice_soup in Ret ((c, s), true) else Ret ((c, assembly_soup), false).
(** 1307-1513: one assembly of the core *)
Definition do_assembly (xs1 : list R) (ix iy : Z) (st : state) : outcome (state * bool) :=
  let '(c, core_soup) := st in
  let* asy_id := rect_getChild Z (core m) [ix; iy] in
  let* v := visit (f_asy c) asy_id in
  let c := set_asy (fst v) c in
  let* asy_name := label "Assembly_" asy_id (snd v) in
  let* b := rect_getBox (fst (core m)) [ix; iy] in
  let* asy_ll := corner b in
  let* asy := rdz (assemblies m) asy_id in
  if (length (snd asy) =? 0)%nat then stop (c, core_soup)
  else
    let* nz := rd (numCells (fst asy)) 0 in
    let* r := loop (Z.to_nat nz) 0 (do_lattice xs1 asy asy_name asy_ll) (c, empty_soup) in
    let '((c, assembly_soup), go) := r in
    if go then let* s := append_soup stdsort core_soup assembly_soup in Ret ((c, s), true) else Ret ((c, core_soup), false).
(** 1278-1519 *)
Definition export (xsecs : list xsec) : outcome soup3 :=
  if (length (snd (core m)) =? 0)%nat then if exit_on_error then Fail else Ret empty_soup
  else
    let* xs1 := one_group xsecs in
    let none {A} (l : list A) := repeat (-1)%Z (length l) in
    let c := mkC (none (assemblies m)) (none (lattices m)) (none (rtms m)) (none (cells m)) in
    let* n := num_cells (fst (core m)) in
    let* r := loop2 (fst n) (snd n) (do_assembly xs1) (c, empty_soup) in
    let '((_, core_soup), go) := r in
    if go && negb (length (snames core_soup) =? 0)%nat then sortElsets stdsort core_soup else Ret core_soup.
End Export.
