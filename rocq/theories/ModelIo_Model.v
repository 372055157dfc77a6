(** Model of writing an mpact::Model to an XDMF file and of reading it back (src/mpact/model.cpp:1528-1950, 2216-2227, 2240-2295,
    2297-2950, 2964-2972), over exact real numbers.

    The files are those of Xdmf_Model: the XML document is a tree, the HDF5 file is a list of data sets with their paths; here there
    is also the list of the groups, as HDF5 refuses to create a group that exists.  A logged error ends the program (exit_on_error,
    settings.hpp:29), as do an exception of HDF5 and, with [checks], a failed assertion.  The model of Mpact_Model keeps of a material
    only its name: [xsecs] are the cross sections of the materials.  Counters are below 2^31.  The tests of strto on its end pointer,
    LOG_DEBUG, LOG_INFO and LOG_WARN are left out. *)
From Coq Require Import String Ascii.
From Coq Require Import List Arith ZArith Bool Reals.
From Verif Require Import Base Loops Arith Box_Model StringView_Model Logger_Model Ascii_Model TextIo_Model Elem_Model Soup_Model Poly_Model QPoly_Model
  XSec_Model PinCyl_Model Grid_Model Fvm_Model Manifold_Model Xdmf_Model Mpact_Model Export_Model Import_Model.
Import ListNotations.
Local Open Scope list_scope.
Local Open Scope R_scope.

Notation text := (list Z) (only parsing).

(** ** Numbers as text *)
(** snprintf("%f"): the nearest multiple of a millionth, to even on a tie *)
Definition millionths (x : R) : Z :=
  let n := Int_part (x * 1000000) in
  let r := frac_part (x * 1000000) in
  if Rltb r (1 / 2) then n else if Rltb (1 / 2) r then (n + 1)%Z else if Z.even n then n else (n + 1)%Z.
Definition six_digits (r : Z) : text := map (fun k => 48 + (r / 10 ^ k) mod 10)%Z [5; 4; 3; 2; 1; 0]%Z.
(** String(Float) (stdlib/string.hpp:676-697); the buffer of 32 characters is exceeded by large numbers, here from 10^15 on *)
Definition print_float (x : R) : outcome text :=
  let n := millionths (Rabs x) in
  let q := (n / 1000000)%Z in
  if (1000000000000000 <=? q)%Z then Ub
  else Ret ((if Rltb x 0 then [45%Z] else []) ++ decimal q ++ [DOT] ++ six_digits (n mod 1000000)).
(** a String from the characters of a text *)
Definition string_of (t : text) : string := string_of_list_ascii (map (fun c => ascii_of_N (Z.to_N c)) t).

(** ** Nodes of the document *)
Definition info (n : string) (v : text) : xml := Node (txt "Information") [(txt "Name", txt n)] [] v.
Definition tree (n : text) (l : list xml) : xml := Node (txt "Grid") [(txt "Name", n); (txt "GridType", txt "Tree")] l [].
(** e.g. String(nx) + " x " + String(ny) (1755-1759) *)
Definition nx_by_ny (nx ny : Z) : xml := info "NX_by_NY" (decimal nx ++ txt " x " ++ decimal ny).

(** for (iy ...) for (ix ...) *)
Definition for2 {S : Type} (nx ny : Z) (f : Z -> Z -> S -> outcome S) (s : S) : outcome S :=
  for_ (Z.to_nat ny) 0 (fun j => for_ (Z.to_nat nx) 0 (fun i => f (Z.of_nat i) (Z.of_nat j))) s.
(** H5File::createGroup of the group [n] in the group [p] *)
Definition createGroup (gs : list text) (p n : text) : outcome (list text) :=
  if link_name n then
    if existsb (name_eqb (p ++ [SLASH] ++ n)) gs then Fail else Ret (gs ++ [p ++ [SLASH] ++ n])
  else Fail.

(** ** Writing *)
Section Write.
Variable stdsort : forall A : Type, (A -> A -> bool) -> list A -> list A.
(** sizeof(Float) *)
Variable fsize : Z.
(** write_knudsen_data, write_xsec_data *)
Variables knudsen xsdata : bool.
Variable m : model.
Variable xsecs : list xsec.

(** 1556-1564: the averages of a, f, s and t; validateXSec is material.cpp:357-364 *)
Definition averages (x : xsec) : outcome (R * R * R * R) :=
  if negb (isMacro x) then Fail else
  let* _ := XSec_Model.validate x in
  let* y := collapseTo1GroupAvg x in
  let* a := rd (xa y) 0 in
  let* f := rd (xf y) 0 in
  let* s := rd (xs y) 0 in
  Ret (a, f, s, a + s).
(** XSec::t(g) (physics/cross_section.hpp:112-118) *)
Definition total_of (x : xsec) (g : nat) : outcome R :=
  let* a := rd (xa x) g in let* s := rd (xs x) g in Ret (a + s).

(** 1632-1690: names and data of the further element sets of a cell *)
Definition extra_sets (avg : list (R * R * R * R)) (k : kind) (x : mesh R) (mats : list Z) : outcome (list (text * list R)) :=
  let* mcls := (if knudsen then mapo (fun i => let* f := rd (fv x) i in let* p := mapo (rdz (mv x)) f in chord k p) (seq 0 (length mats))
                else Ret []) in
  let* one := (if knudsen || xsdata then mapo (rdz avg) mats else Ret []) in
  let* groups := (if xsdata then
      let* x0 := rdz xsecs 0 in
      mapo (fun g =>
        let* n := getASCIINumber (Z.of_nat g) in
        let* d := mapo (fun id => let* y := rdz xsecs id in total_of y g) mats in
        Ret (txt "Group_" ++ n ++ txt "_Total_XS", d)) (seq 0 (numGroups x0))
    else Ret []) in
  let* kn := (if knudsen then mapo (fun i => let* t := rd one i in let* c := rd mcls i in Ret (1 / (snd t * c))) (seq 0 (length one)) else Ret []) in
  Ret ((if knudsen || xsdata then
         [(txt "One_Group_Avg_XS_a", map (fun t => fst (fst (fst t))) one); (txt "One_Group_Avg_XS_f", map (fun t => snd (fst (fst t))) one);
          (txt "One_Group_Avg_XS_s", map (fun t => snd (fst t)) one); (txt "One_Group_Avg_XS_t", map snd one)] else [])
       ++ groups
       ++ (if knudsen then [(txt "Mean_Chord_Length", mcls); (txt "Knudsen_Number", kn)] else [])).
(** 1573-1693: the soup of a cell *)
Definition cell_soup (avg : list (R * R * R * R)) (c : cell) : outcome soup3 :=
  match kind_of (mtype c), meshes_of m (mtype c) with
  | Some k, Some ms =>
      let* x := rdz ms (mesh_id c) in
      let* s := to_soup 0 k x in
      let ids := map Z.of_nat (seq 0 (length (etypes s))) in
      let* extra := extra_sets avg k x (material_ids c) in
      let* s := foreach ((txt "Material_ID", map IZR (material_ids c)) :: extra) (fun e s => with_set true s (fst e) ids (snd e)) s in
      sortElsets stdsort s
  | _, _ => Fail
  end.

(** the state of the traversal: the counters (1745-1748), the groups and the data sets *)
Record wstate := mkW { w_c : counters; w_groups : list text; w_file : h5 }.
Notation state := (wstate * list xml)%type.
Variable h5filename : text.

(** 1883-1916: one coarse cell of an RTM; [group] is the path of the RTM's group.  The group of the cell is created by writeXDMFUniformGrid
    (polytope_soup.cpp:1425) *)
Definition write_cell (soups : list soup3) (rtm : list (list R) * list Z) (group : text) (asy_ll : R * R) (lat_z : R) (rtm_ll : R * R)
    (ix iy : Z) (st : state) : outcome state :=
  let '(w, nodes) := st in
  let* id := rect_getChild Z rtm [ix; iy] in
  let* v := visit (f_cell (w_c w)) id in
  let* cell_name := label "Coarse_Cell_" id (snd v) in
  let* b := rect_getBox (fst rtm) [ix; iy] in
  let* cell_ll := corner b in
  let* s := rdz soups id in
  let* gs := createGroup (w_groups w) group cell_name in
  let* r := writeXDMFUniformGrid fsize eps cell_name (w_file w) h5filename group s
    (fst cell_ll + fst rtm_ll + fst asy_ll, snd cell_ll + snd rtm_ll + snd asy_ll, lat_z) in
  Ret (mkW (set_cell (fst v) (w_c w)) gs (snd r), nodes ++ [fst r]).
(** 1838-1918: one RTM of a lattice *)
Definition write_rtm (soups : list soup3) (lat : list axis * list Z) (group : text) (asy_ll : R * R) (lat_z : R) (ix iy : Z) (st : state) : outcome state :=
  let '(w, nodes) := st in
  let* id := regular_getChild Z lat [ix; iy] in
  let* v := visit (f_rtm (w_c w)) id in
  let* rtm_name := label "RTM_" id (snd v) in
  let* gs := createGroup (w_groups w) group rtm_name in
  let* b := getBox (fst lat) [ix; iy] in
  let* rtm_ll := corner b in
  let* rtm := rdz (rtms m) id in
  if (length (snd rtm) =? 0)%nat then Fail
  else
    let* n := num_cells (fst rtm) in
    let* r := for2 (fst n) (snd n) (write_cell soups rtm (group ++ [SLASH] ++ rtm_name) asy_ll lat_z rtm_ll)
      (mkW (set_rtm (fst v) (w_c w)) gs (w_file w), []) in
    Ret (fst r, nodes ++ [tree rtm_name (nx_by_ny (fst n) (snd n) :: snd r)]).
(** 1796-1920: one lattice of an assembly *)
Definition write_lattice (soups : list soup3) (asy : list (list R) * list Z) (group : text) (asy_ll : R * R) (iz : nat) (st : state) : outcome state :=
  let '(w, nodes) := st in
  let* id := rect_getChild Z asy [Z.of_nat iz] in
  let* v := visit (f_lat (w_c w)) id in
  let* lat_name := label "Lattice_" id (snd v) in
  let* gs := createGroup (w_groups w) group lat_name in
  let* divs := rd (fst asy) 0 in
  let* low_z := rd divs iz in
  let* high_z := rd divs (S iz) in
  let lat_z := (low_z + high_z) / 2 in
  let* t_low := print_float low_z in
  let* t_mid := print_float lat_z in
  let* t_high := print_float high_z in
  let* lat := rdz (lattices m) id in
  if (length (snd lat) =? 0)%nat then Fail
  else
    let* ax := rd (fst lat) 0 in
    let* ay := rd (fst lat) 1 in
    let* r := for2 (nc ax) (nc ay) (write_rtm soups lat (group ++ [SLASH] ++ lat_name) asy_ll lat_z)
      (mkW (set_lat (fst v) (w_c w)) gs (w_file w), []) in
    Ret (fst r, nodes ++ [tree lat_name (info "Z" (t_low ++ txt ", " ++ t_mid ++ txt ", " ++ t_high) :: nx_by_ny (nc ax) (nc ay) :: snd r)]).
(** 1763-1922: one assembly of the core *)
Definition write_assembly (soups : list soup3) (group : text) (ix iy : Z) (st : state) : outcome state :=
  let '(w, nodes) := st in
  let* id := rect_getChild Z (core m) [ix; iy] in
  let* v := visit (f_asy (w_c w)) id in
  let* asy_name := label "Assembly_" id (snd v) in
  let* gs := createGroup (w_groups w) group asy_name in
  let* b := rect_getBox (fst (core m)) [ix; iy] in
  let* asy_ll := corner b in
  let* asy := rdz (assemblies m) id in
  if (length (snd asy) =? 0)%nat then Fail
  else
    let* nz := rd (numCells (fst asy)) 0 in
    let* r := for_ (Z.to_nat nz) 0 (write_lattice soups asy (group ++ [SLASH] ++ asy_name) asy_ll)
      (mkW (set_asy (fst v) (w_c w)) gs (w_file w), []) in
    Ret (fst r, nodes ++ [tree asy_name (nx_by_ny nz 1 :: snd r)]).
(** 1720-1733: the names of the materials *)
Fixpoint join_names (l : list material) : text :=
  match l with
  | [] => []
  | [x] => lit (Mpact_Model.name x)
  | x :: l' => lit (Mpact_Model.name x) ++ txt ", " ++ join_names l'
  end.
(** 1546-1571: the soups of the cells; 1713-1928: the document and the HDF5 file; [base] is the name of the core *)
Definition write_core (base : text) : outcome (xml * h5) :=
  if (length (snd (core m)) =? 0)%nat then Fail
  else
    let* avg := (if knudsen || xsdata then mapo averages xsecs else Ret []) in
    let* soups := mapo (cell_soup avg) (cells m) in
    let none {A} (l : list A) := repeat (-1)%Z (length l) in
    let c := mkC (none (assemblies m)) (none (lattices m)) (none (rtms m)) (none (cells m)) in
    let* gs := createGroup [] [] base in
    let* n := num_cells (fst (core m)) in
    let* r := for2 (fst n) (snd n) (write_assembly soups ([SLASH] ++ base)) (mkW c gs [], []) in
    Ret (Node [] [] [Node (txt "Xdmf") [(txt "Version", txt "3.0")]
           [Node (txt "Domain") [] [info "Materials" (join_names (materials m)); tree base (nx_by_ny (fst n) (snd n) :: snd r)] []] []] [],
         w_file (fst r)).
End Write.
(** 1528-1950 *)
Definition writeXDMF stdsort fsize knudsen xsdata (m : model) (xsecs : list xsec) (filepath : text) (d : disk) : outcome disk :=
  let* nm := h5names filepath in
  let '(h5filename, h5fullpath) := nm in
  let* base := Xdmf_Model.substr h5filename 0 (length h5filename - 3) in
  let* r := write_core stdsort fsize knudsen xsdata m xsecs h5filename base in
  Ret (mkDisk (put (h5files d) h5fullpath (snd r)) (put (xmlfiles d) filepath (fst r))).

(** ** Reading *)
(** static_cast<MatID>(Float): towards zero; undefined if it is no 8 bit integer *)
Definition cast_mat (x : R) : outcome Z :=
  let z := if Rltb x 0 then (- Int_part (- x))%Z else Int_part x in
  if ((-128 <=? z) && (z <=? 127))%Z then Ret z else Ub.
(** xml_node::children("Grid") *)
Definition grids (x : xml) : list xml := filter (fun y => is (tag y) "Grid") (kids x).
(** "nx x ny" (2251-2261) *)
Definition two_numbers (t : text) : outcome (Z * Z) :=
  let* r := getTokenAndShrink (view t) SPACE in
  let '(token, v) := r in
  let* v := remove_prefix v 2 in
  let* nx := strto_int32 (tail token) in
  let* ny := strto_int32 (tail v) in
  Ret (nx, ny).
(** 2240-2262 *)
Definition getNXbyNY (x : xml) : outcome (Z * Z) :=
  let* xinfo := the_child x "Information" in
  let* _ := need (is (attribute xinfo "Name") "NX_by_NY") in
  two_numbers (value xinfo).
(** child("Information").next_sibling("Information") (2596-2597) *)
Fixpoint second_kid (l : list xml) (t : text) : option xml :=
  match l with [] => None | x :: l' => if name_eqb (tag x) t then find_kid l' t else second_kid l' t end.
(** e.g. 2478-2482: the id in a name *)
Definition id_of (n : text) (pos : nat) : outcome Z :=
  let* s := Xdmf_Model.substr n pos 5 in strto s.

Section Read.
Variable stdsort : forall A : Type, (A -> A -> bool) -> list A -> list A.
Variable selfcheck : mesh R -> outcome (mesh R).
Variable junk : R * R.
Variable checks : bool.
Variable fsize : Z.
Notation assert := (Mpact_Model.assert checks).

(** 2340-2360: the names of the materials; OutOfFuel if the loop has not ended after [fuel] turns *)
Fixpoint read_names (fuel : nat) (v : sv) : outcome (list text) :=
  let* c := find_first_of v COMMA 0 in
  match c with
  | None => let* v := removeLeadingSpaces v in Ret [firstn (StringView_Model.vsize v) (tail v)]
  | Some _ =>
      match fuel with
      | O => OutOfFuel
      | S fuel' =>
          let* r := getTokenAndShrink v COMMA in
          let '(token, v) := r in
          let* token := removeLeadingSpaces token in
          let* l := read_names fuel' v in
          Ret (firstn (StringView_Model.vsize token) (tail token) :: l)
      end
  end.
(** such a material has no cross sections *)
Definition read_materials (fuel : nat) (t : text) (m : model) : outcome model :=
  let* l := read_names fuel (view t) in
  foreach l (fun n m => let* r := addMaterial true m (mkMaterial (string_of n) false) false in Ret (fst r)) m.

(** core_assembly_ids[ij[1]][ij[0]] = id (e.g. 2485-2486) *)
Definition put_id (rows : list (list Z)) (n : nat) (nx ny id : Z) : outcome (list (list Z)) :=
  let* ij := mapFlatIndexToLattice2D checks (Z.of_nat n) nx ny in
  let* row := rdz rows (snd ij) in
  let* row := wrz row (fst ij) id in
  wrz rows (snd ij) row.
(** e.g. 2463-2467 *)
Definition no_ids (nx ny : Z) : outcome (list (list Z)) :=
  let* ny := vsize ny in let* nx := vsize nx in Ret (repeat (repeat (-1)%Z nx) ny).

(** what has been found (2431-2453) and the model.  The counts of the meshes of each type are the numbers of entries of [r_mesh] of that
    type.  The vectors of vectors get an entry when it is complete (in the code: first, and it is then filled) *)
Record rstate := mkR {
  r_asy : list Z; r_asy_lats : list (list Z); r_asy_zs : list (list R);
  r_lat : list Z; r_lat_rtms : list (list (list Z));
  r_rtm : list Z; r_rtm_cells : list (list (list Z));
  r_cell : list Z; r_mesh : list (mesh_type * Z); r_ext : list (R * R); r_mats : list (list Z);
  r_model : model }.
Definition new_asy id s := mkR (r_asy s ++ [id]) (r_asy_lats s) (r_asy_zs s) (r_lat s) (r_lat_rtms s) (r_rtm s) (r_rtm_cells s) (r_cell s) (r_mesh s) (r_ext s) (r_mats s) (r_model s).
Definition put_asy l z s := mkR (r_asy s) (r_asy_lats s ++ [l]) (r_asy_zs s ++ [z]) (r_lat s) (r_lat_rtms s) (r_rtm s) (r_rtm_cells s) (r_cell s) (r_mesh s) (r_ext s) (r_mats s) (r_model s).
Definition new_lat id s := mkR (r_asy s) (r_asy_lats s) (r_asy_zs s) (r_lat s ++ [id]) (r_lat_rtms s) (r_rtm s) (r_rtm_cells s) (r_cell s) (r_mesh s) (r_ext s) (r_mats s) (r_model s).
Definition put_lat l s := mkR (r_asy s) (r_asy_lats s) (r_asy_zs s) (r_lat s) (r_lat_rtms s ++ [l]) (r_rtm s) (r_rtm_cells s) (r_cell s) (r_mesh s) (r_ext s) (r_mats s) (r_model s).
Definition new_rtm id s := mkR (r_asy s) (r_asy_lats s) (r_asy_zs s) (r_lat s) (r_lat_rtms s) (r_rtm s ++ [id]) (r_rtm_cells s) (r_cell s) (r_mesh s) (r_ext s) (r_mats s) (r_model s).
Definition put_rtm l s := mkR (r_asy s) (r_asy_lats s) (r_asy_zs s) (r_lat s) (r_lat_rtms s) (r_rtm s) (r_rtm_cells s ++ [l]) (r_cell s) (r_mesh s) (r_ext s) (r_mats s) (r_model s).
Definition put_new_cell id t ext mats m s := mkR (r_asy s) (r_asy_lats s) (r_asy_zs s) (r_lat s) (r_lat_rtms s) (r_rtm s) (r_rtm_cells s) (r_cell s ++ [id]) (r_mesh s ++ [t]) (r_ext s ++ [ext]) (r_mats s ++ [mats]) m.

Definition type_eqb (t u : mesh_type) : bool :=
  match t, u with
  | MT_Invalid, MT_Invalid | MT_Tri, MT_Tri | MT_Quad, MT_Quad | MT_TriQuad, MT_TriQuad | MT_Tri6, MT_Tri6 | MT_Quad8, MT_Quad8
  | MT_Tri6Quad8, MT_Tri6Quad8 => true
  | _, _ => false
  end.
Definition count_of (t : mesh_type) (l : list (mesh_type * Z)) : Z := size (filter (fun p => type_eqb t (fst p)) l).
(** mesh.boundingBox().minima().norm() < epsDistance (772-810) *)
Definition starts_at_origin (k : kind) (x : mesh R) : bool :=
  match box_of k x with
  | Ret b => match bmin b with [x0; y0] => Rltb (sqrt (x0 * x0 + y0 * y0)) eps | _ => false end
  | _ => false
  end.
Definition add_mesh (m : model) (k : kind) (x : mesh R) : outcome (model * Z) :=
  match k with
  | Tri => addTriMesh (starts_at_origin Tri) checks m x
  | Quad => addQuadMesh (starts_at_origin Quad) checks m x
  | Tri6 => addTri6Mesh (starts_at_origin Tri6) checks m x
  | Quad8 => addQuad8Mesh (starts_at_origin Quad8) checks m x
  end.
(** 2762-2777: the materials of the faces *)
Definition read_mats (u : soup3) : outcome (list Z) :=
  let* e := getElsetByName u (lit "Material_ID") [] in
  let '(ids, data) := match e with Some p => p | None => ([], []) end in
  let n := length (etypes u) in
  assert ((length ids =? n)%nat && (length data =? n)%nat && vec_eqb Z.eqb ids (map Z.of_nat (seq 0 n))) (mapo cast_mat data).

Variables (f : h5) (h5filename : text).
(** 2671-2858: one cell of an RTM; the state of the loop is rtm_coarse_cell_ids.back() and coarse_cell_count *)
Definition read_cell (nx ny : Z) (x : xml) (st : (list (list Z) * nat) * rstate) : outcome ((list (list Z) * nat) * rstate) :=
  let '((rows, n), s) := st in
  let* id := id_of (attribute x "Name") 12 in
  let* rows := put_id rows n nx ny id in
  if existsb (Z.eqb id) (r_cell s) then Ret ((rows, S n), s)
  else
    let* u := readXDMFUniformGrid checks fsize x f h5filename empty_soup in
    let t := mt_of (getMeshType (getElemTypes (etypes u))) in
    assert (match t with MT_Invalid | MT_TriQuad | MT_Tri6Quad8 => false | _ => true end) (
    match kind_of t with
    | None => Fail
    | Some k =>
        let* y := from_soup far junk (validated stdsort selfcheck k) k u in
        let* b := box_of k y in
        let* x0 := rd (bmin b) 0 in let* y0 := rd (bmin b) 1 in
        let* x1 := rd (bmax b) 0 in let* y1 := rd (bmax b) 1 in
        let* r := add_mesh (r_model s) k (shift x0 y0 y) in
        let* mats := read_mats u in
        Ret ((rows, S n), put_new_cell id (t, count_of t (r_mesh s)) (x1 - x0, y1 - y0) mats (fst r) s)
    end).
(** 2620-2859: one RTM of a lattice *)
Definition read_rtm (nx ny : Z) (x : xml) (st : (list (list Z) * nat) * rstate) : outcome ((list (list Z) * nat) * rstate) :=
  let '((rows, n), s) := st in
  let* id := id_of (attribute x "Name") 4 in
  let* rows := put_id rows n nx ny id in
  if existsb (Z.eqb id) (r_rtm s) then Ret ((rows, S n), s)
  else
    let* d := getNXbyNY x in
    assert ((0 <? fst d) && (0 <? snd d))%Z (
    let* cells := no_ids (fst d) (snd d) in
    let* r := foreach (grids x) (read_cell (fst d) (snd d)) ((cells, O), new_rtm id s) in
    Ret ((rows, S n), put_rtm (fst (fst r)) (snd r))).
(** 2536-2564: the heights of a lattice *)
Definition read_z (x : xml) : outcome (R * R) :=
  let* xinfo := the_child x "Information" in
  let* _ := need (is (attribute xinfo "Name") "Z") in
  let* r := getTokenAndShrink (view (value xinfo)) COMMA in
  let '(token, v) := r in
  let* low := strtod (tail token) in
  let* r := getTokenAndShrink v COMMA in
  let* high := strtod (tail (snd r)) in
  assert (Rltb low high) (Ret (low, high)).
(** 2525-2860: one lattice of the assembly [asy]; the state of the loop is assembly_lattice_ids.back(), assembly_lattice_zs.back() and
    lattice_count *)
Definition read_lattice (asy : Z) (x : xml) (st : (list Z * list R * nat) * rstate) : outcome ((list Z * list R * nat) * rstate) :=
  let '((lats, zs, n), s) := st in
  let* id := id_of (attribute x "Name") 8 in
  let* lats := wr lats n id in
  let* z := read_z x in
  let* zs := (if (n =? 0)%nat then wr zs n (fst z) else Ret zs) in
  let* zs := wr zs (S n) (snd z) in
  if existsb (Z.eqb id) (r_lat s) then Ret ((lats, zs, S n), s)
  else
    let* xinfo := (match second_kid (kids x) (txt "Information") with Some y => Ret y | None => Fail end) in
    let* _ := need (is (attribute xinfo "Name") "NX_by_NY") in
    let* d := two_numbers (value xinfo) in
    assert ((0 <? fst d) && (0 <? snd d))%Z (
    let* rtms := no_ids (fst d) (snd d) in
    let* r := foreach (grids x) (read_rtm (fst d) (snd d)) ((rtms, O), new_lat asy s) in
    Ret ((lats, zs, S n), put_lat (fst (fst r)) (snd r))).
(** 2473-2861: one assembly of the core; the state of the loop is core_assembly_ids and assembly_count *)
Definition read_assembly (nx ny : Z) (x : xml) (st : (list (list Z) * nat) * rstate) : outcome ((list (list Z) * nat) * rstate) :=
  let '((rows, n), s) := st in
  let* id := id_of (attribute x "Name") 9 in
  let* rows := put_id rows n nx ny id in
  if existsb (Z.eqb id) (r_asy s) then Ret ((rows, S n), s)
  else
    let* d := getNXbyNY x in
    assert (0 <? fst d)%Z (
    let* _ := need (snd d =? 1)%Z in
    let* nz := vsize (fst d) in
    let* r := foreach (grids x) (read_lattice id) ((repeat 0%Z nz, repeat 0 (S nz), O), new_asy id s) in
    let '((lats, zs, _), s) := r in
    Ret ((rows, S n), put_asy lats zs s)).

(** e.g. 2879-2886: the index of the i-th object *)
Definition index_of (ids : list Z) (i : nat) : outcome nat :=
  let idx := find_id ids (Z.of_nat i) in assert (idx <? length ids)%nat (Ret idx).
(** 2873-2945 *)
Definition build (rows : list (list Z)) (s : rstate) : outcome model :=
  let* m := for_ (length (r_mesh s)) 0 (fun i m =>
    let* j := index_of (r_cell s) i in
    let* t := rd (r_mesh s) j in
    let* e := rd (r_ext s) j in
    let* mats := rd (r_mats s) j in
    let* r := addCoarseCell true m e (fst t) (snd t) mats in Ret (fst r)) (r_model s) in
  let* m := for_ (length (r_rtm s)) 0 (fun i m =>
    let* j := index_of (r_rtm s) i in
    let* ids := rd (r_rtm_cells s) j in
    let* r := addRTM checks true m ids in Ret (fst r)) m in
  let* m := for_ (length (r_lat s)) 0 (fun i m =>
    let* j := index_of (r_lat s) i in
    let* ids := rd (r_lat_rtms s) j in
    let* r := addLattice checks true m ids in Ret (fst r)) m in
  let* m := for_ (length (r_asy s)) 0 (fun i m =>
    let* j := index_of (r_asy s) i in
    let* ids := rd (r_asy_lats s) j in
    let* zs := rd (r_asy_zs s) j in
    let* r := addAssembly checks true m ids zs in Ret (fst r)) m in
  let* r := addCore checks true m rows in
  Ret (fst r).
(** 2319-2945: the document *)
Definition read_doc (xdoc : xml) (m : model) : outcome model :=
  let* xroot := the_child xdoc "Xdmf" in
  let* xdomain := the_child xroot "Domain" in
  let* xinfo := the_child xdomain "Information" in
  let* _ := need (is (attribute xinfo "Name") "Materials") in
  let* m := read_materials (length (value xinfo)) (value xinfo) m in
  let* xcore := the_child xdomain "Grid" in
  let* _ := need (is (attribute xcore "GridType") "Tree") in
  let* d := getNXbyNY xcore in
  assert ((0 <? fst d) && (0 <? snd d))%Z (
  let* rows := no_ids (fst d) (snd d) in
  let* r := foreach (grids xcore) (read_assembly (fst d) (snd d)) ((rows, O), mkR [] [] [] [] [] [] [] [] [] [] [] m) in
  build (fst (fst r)) (snd r)).
End Read.
(** 2297-2950; the materials that are in the model before have no cross sections, or valid ones (2862-2871) *)
Definition readXDMF stdsort selfcheck junk checks fsize (filename : text) (d : disk) (m : model) : outcome model :=
  let* nm := h5names filename in
  let '(h5filename, h5fullpath) := nm in
  match h5files d h5fullpath with
  | None => Fail
  | Some f =>
      match xmlfiles d filename with
      | None => Fail
      | Some xdoc => read_doc stdsort selfcheck junk checks fsize f h5filename xdoc m
      end
  end.
(** ends_with(".xdmf") *)
Definition is_xdmf (filename : text) : outcome bool := ends_with (view filename) (view (lit ".xdmf")).
(** Model::write, the XDMF part (2216-2224), and Model::read (2964-2972) *)
Definition write stdsort fsize knudsen xsdata (m : model) (xsecs : list xsec) (filename : text) (d : disk) : outcome disk :=
  let* b := is_xdmf filename in
  if b then writeXDMF stdsort fsize knudsen xsdata m xsecs filename d else Fail.
Definition read stdsort selfcheck junk checks fsize (filename : text) (d : disk) (m : model) : outcome model :=
  let* b := is_xdmf filename in
  if b then readXDMF stdsort selfcheck junk checks fsize filename d m else Fail.
