(** Model of the XDMF writer and reader of PolytopeSoup (src/mesh/polytope_soup.cpp:1147-2058).

    The XML document is a tree: what pugixml saves and loads is the same tree. The HDF5 file is a list of data sets with
    their paths; HDF5 refuses a second data set of a name and names that are not the name of a link. Floating point numbers are
    real numbers; they are stored as they are. A logged error ends the program (exit_on_error, settings.hpp:29), as does an
    exception of HDF5. Texts contain no null character. *)
From Coq Require Import String Ascii.
From Coq Require Import List Arith ZArith Bool Reals.
From Verif Require Import Base Arith Loops StringView_Model Elem_Model Soup_Model Logger_Model.
Import ListNotations.
Local Open Scope list_scope.
Local Open Scope nat_scope.

Notation text := (list Z) (only parsing).
(** a string literal *)
Definition txt (s : string) : text := map (fun c => Z.of_N (N_of_ascii c)) (list_ascii_of_string s).
Definition COLON : Z := 58.
Definition SLASH : Z := 47.
(** String(Int) (string.hpp:653-661), and the value of an attribute that is set to an integer *)
Definition fmt (n : nat) : text := decimal (Z.of_nat n).
(** String::substr (string.hpp:639-647, 956-960) *)
Definition substr (s : text) (pos count : nat) : outcome text :=
  if pos <=? length s then Ret (firstn count (skipn pos s)) else Ub.
Definition substr_from (s : text) (pos : nat) : outcome text := substr s pos (length s - pos).

(** ** pugixml *)
Inductive xml := Node (tag : text) (attrs : list (text * text)) (kids : list xml) (value : text).
Definition tag (x : xml) := let '(Node t _ _ _) := x in t.
Definition kids (x : xml) := let '(Node _ _ k _) := x in k.
(** xml_node::child_value *)
Definition value (x : xml) := let '(Node _ _ _ v) := x in v.
(** xml_node::attribute(a).value(): the first one, the empty text if there is none *)
Fixpoint find_attr (l : list (text * text)) (a : text) : text :=
  match l with [] => [] | (k, v) :: l' => if name_eqb k a then v else find_attr l' a end.
Definition attribute (x : xml) (a : string) : text := let '(Node _ l _ _) := x in find_attr l (txt a).
(** xml_node::child(t): the first one *)
Fixpoint find_kid (l : list xml) (t : text) : option xml :=
  match l with [] => None | x :: l' => if name_eqb (tag x) t then Some x else find_kid l' t end.
Definition child (x : xml) (t : string) : option xml := find_kid (kids x) (txt t).

(** ** HDF5 *)
(** the size of a number in bytes, and the numbers *)
Inductive h5data := HInts (size : Z) (l : list Z) | HFloats (size : Z) (l : list R).
Record dataset := mkDs { dims : list nat; content : h5data }.
Definition h5 := list (text * dataset).
Fixpoint find_path (f : h5) (p : text) : option dataset :=
  match f with [] => None | (q, d) :: f' => if name_eqb q p then Some d else find_path f' p end.
(** the names HDF5 accepts for a link *)
Definition link_name (n : text) : bool :=
  negb (name_eqb n []) && negb (name_eqb n (txt ".")) && negb (existsb (Z.eqb SLASH) n).
(** Group::createDataSet and DataSet::write *)
Definition createDataSet (f : h5) (group n : text) (d : dataset) : outcome h5 :=
  if link_name n then
    match find_path f (group ++ [SLASH] ++ n) with
    | Some _ => Fail
    | None => Ret (f ++ [(group ++ [SLASH] ++ n, d)])
    end
  else Fail.
(** H5File::openDataSet *)
Definition openDataSet (f : h5) (p : text) : outcome dataset :=
  match find_path f p with Some d => Ret d | None => Fail end.
(** DataSet::read into a vector of [n] numbers *)
Definition readInto {A} (n : nat) (d : A) (l : list A) : outcome (list A) :=
  if length l <=? n then Ret (l ++ repeat d (n - length l)) else Ub.

Section Xdmf.
(** are assertions enabled? sizeof(Float), epsDistance *)
Variables (checks : bool) (fsize : Z) (eps : R).
Notation point := (R * R * R)%type.
Notation soup := (soup point R).
Definition px (p : point) : R := fst (fst p).
Definition py (p : point) : R := snd (fst p).
Definition pz (p : point) : R := snd p.

Definition HDF (dt : string) (dims_ : text) (prec : Z) (path : text) : xml :=
  Node (txt "DataItem") [(txt "DataType", txt dt); (txt "Dimensions", dims_); (txt "Precision", decimal prec); (txt "Format", txt "HDF")]
    [] path.

(** polytope_soup.cpp:1195-1247; [h5path] is the path of the group *)
Definition writeXDMFGeometry (f : h5) (h5filename h5path : text) (s : soup) (origin : point) : outcome (xml * h5) :=
  let num_verts := length (verts s) in
  let soup_is_3d := existsb (fun v => Rltb eps (Rabs (pz v))) (verts s) in
  let origin_is_3d := Rltb eps (Rabs (pz origin)) in
  let dim := if soup_is_3d || origin_is_3d then 3 else 2 in
  let xdata := HDF "Float" (fmt num_verts ++ [SPACE] ++ fmt dim) fsize (h5filename ++ [COLON] ++ h5path ++ txt "/Geometry") in
  let xgeom := Node (txt "Geometry") [(txt "GeometryType", if dim =? 3 then txt "XYZ" else txt "XY")] [xdata] [] in
  let* n := i32 (Z.of_nat num_verts * Z.of_nat dim) in
  let xyz := repeat 0%R (Z.to_nat n) in
  let* xyz := (if dim =? 2 then
      for_ num_verts 0 (fun i xyz =>
        let* v := rd (verts s) i in
        let* xyz := wr xyz (2 * i) (px v + px origin)%R in
        wr xyz (2 * i + 1) (py v + py origin)%R) xyz
    else
      for_ num_verts 0 (fun i xyz =>
        let* v := rd (verts s) i in
        let* xyz := wr xyz (3 * i) (px v + px origin)%R in
        let* xyz := wr xyz (3 * i + 1) (py v + py origin)%R in
        wr xyz (3 * i + 2) (pz v + pz origin)%R) xyz) in
  let* f := createDataSet f h5path (txt "Geometry") (mkDs [num_verts; dim] (HFloats fsize xyz)) in
  Ret (xgeom, f).

(** polytope_soup.cpp:1263-1287: the name and the number of vertices of a homogeneous topology *)
Definition topology_of (t : vtk) : outcome (text * nat) :=
  match t with
  | V_Triangle => Ret (txt "Triangle", 3)
  | V_Quad => Ret (txt "Quadrilateral", 4)
  | V_QuadraticEdge => Ret (txt "Edge_3", 3)
  | V_QuadraticTriangle => Ret (txt "Triangle_6", 6)
  | V_QuadraticQuad => Ret (txt "Quadrilateral_8", 8)
  | _ => Fail
  end.
(** polytope_soup.cpp:1300-1316, one element *)
Definition mixed_step (s : soup) (i : nat) (st : list Z * nat) : outcome (list Z * nat) :=
  let '(topology, topo_ctr) := st in
  let* t := rd (etypes s) i in
  let topo_type := xdmf_code (vtkToXDMFElemType t) in
  if (topo_type =? xdmf_code X_Invalid)%Z then Fail
  else
    let* topology := wr topology topo_ctr topo_type in
    let* offset := rd (eoffs s) i in
    let* next := rd (eoffs s) (S i) in
    let npts := next - offset in
    let* topology := for_ npts 0 (fun j topology =>
      let* c := rd (econn s) (offset + j) in wr topology (topo_ctr + j + 1) c) topology in
    Ret (topology, topo_ctr + (npts + 1)).
(** polytope_soup.cpp:1249-1346 *)
Definition writeXDMFTopology (f : h5) (h5filename h5path : text) (s : soup) : outcome (xml * h5) :=
  let nelems := length (etypes s) in
  let path := h5filename ++ [COLON] ++ h5path ++ txt "/Topology" in
  let node topology_type dimensions :=
    Node (txt "Topology") [(txt "TopologyType", topology_type); (txt "NumberOfElements", fmt nelems)]
      [HDF "Int" dimensions 4 path] [] in
  match getElemTypes (etypes s) with
  | [t] =>
      let* tn := topology_of t in
      let '(topology_type, nverts) := tn in
      let* conn := range (econn s) 0 (nelems * nverts) in
      let* f := createDataSet f h5path (txt "Topology") (mkDs [nelems; nverts] (HInts 4 conn)) in
      Ret (node topology_type (fmt nelems ++ [SPACE] ++ fmt nverts), f)
  | _ =>
      let* size := i32 (Z.of_nat nelems + Z.of_nat (length (econn s))) in
      let* st := for_ nelems 0 (mixed_step s) (repeat 0%Z (Z.to_nat size), 0) in
      let topology := fst st in
      let* f := createDataSet f h5path (txt "Topology") (mkDs [length topology] (HInts 4 topology)) in
      Ret (node (txt "Mixed") (fmt (Z.to_nat size)), f)
  end.

(** polytope_soup.cpp:1357-1408, one elset *)
Definition elset_step (h5filename h5path : text) (s : soup) (i : nat) (st : list xml * h5) : outcome (list xml * h5) :=
  let '(nodes, f) := st in
  let* name := rd (snames s) i in
  let* start := rd (soffs s) i in
  let* end_ := rd (soffs s) (S i) in
  let* ids := range (sids s) start end_ in
  let* f := createDataSet f h5path name (mkDs [end_ - start] (HInts 4 ids)) in
  let h5elsetpath := h5filename ++ [COLON] ++ h5path ++ [SLASH] ++ name in
  let xdata := HDF "Int" (fmt (end_ - start)) 4 h5elsetpath in
  let* data := rd (sdata s) i in
  let* att := (match data with
    | [] => Ret ([], f)
    | _ =>
        let* f := createDataSet f h5path (name ++ txt "_data") (mkDs [length data] (HFloats fsize data)) in
        Ret ([Node (txt "Attribute") [(txt "Name", name ++ txt "_data"); (txt "Center", txt "Cell")]
               [HDF "Float" (fmt (length data)) fsize (h5elsetpath ++ txt "_data")] []], f)
    end) in
  Ret (nodes ++ [Node (txt "Set") [(txt "Name", name); (txt "SetType", txt "Cell")] (xdata :: fst att) []], snd att).
(** polytope_soup.cpp:1348-1410 *)
Definition writeXDMFElsets (f : h5) (h5filename h5path : text) (s : soup) : outcome (list xml * h5) :=
  for_ (length (snames s)) 0 (elset_step h5filename h5path s) ([], f).
(** polytope_soup.cpp:1414-1431 *)
Definition writeXDMFUniformGrid (name : text) (f : h5) (h5filename h5path : text) (s : soup) (origin : point) : outcome (xml * h5) :=
  let h5grouppath := h5path ++ [SLASH] ++ name in
  let* r := writeXDMFGeometry f h5filename h5grouppath s origin in
  let '(xgeom, f) := r in
  let* r := writeXDMFTopology f h5filename h5grouppath s in
  let '(xtopo, f) := r in
  let* r := writeXDMFElsets f h5filename h5grouppath s in
  let '(xsets, f) := r in
  Ret (Node (txt "Grid") [(txt "Name", name); (txt "GridType", txt "Uniform")] ([xgeom; xtopo] ++ xsets) [], f).

(** polytope_soup.cpp:1443-1458 and 2004-2015: the file name and the full path of the HDF5 file *)
Definition h5names (filepath : text) : outcome (text * text) :=
  let* last := str_find_last_of filepath SLASH (length filepath) in
  let last_slash := match last with None => 0 | Some i => i end in
  let h5filepath_end := if last_slash =? 0 then 0 else last_slash + 1 in
  if length filepath <? 5 + h5filepath_end then Ub else
  let* base := substr filepath h5filepath_end (length filepath - 5 - h5filepath_end) in
  let h5filename := base ++ txt ".h5" in
  let* h5filepath := substr filepath 0 h5filepath_end in
  Ret (h5filename, h5filepath ++ h5filename).
(** the files, by name *)
Record disk := mkDisk { h5files : text -> option h5; xmlfiles : text -> option xml }.
Definition put {A} (m : text -> option A) (k : text) (v : A) : text -> option A := fun q => if name_eqb k q then Some v else m q.
(** polytope_soup.cpp:1436-1480 *)
Definition writeXDMFFile (filepath : text) (s : soup) (d : disk) : outcome disk :=
  let* nm := h5names filepath in
  let '(h5filename, h5fullpath) := nm in
  let* name := substr h5filename 0 (length h5filename - 3) in
  let* r := writeXDMFUniformGrid name [] h5filename [] s (0%R, 0%R, 0%R) in
  let '(xgrid, f) := r in
  let xdoc := Node [] [] [Node (txt "Xdmf") [(txt "Version", txt "3.0")] [Node (txt "Domain") [] [xgrid] []] []] [] in
  Ret (mkDisk (put (h5files d) h5fullpath f) (put (xmlfiles d) filepath xdoc)).

(** ** Reading *)
(** logger::error and return *)
Definition need (b : bool) : outcome unit := if b then Ret tt else Fail.
Definition the_child (x : xml) (t : string) : outcome xml := match child x t with Some c => Ret c | None => Fail end.
Definition is (a : text) (s : string) : bool := name_eqb a (txt s).
(** strto<Int>(text.data(), &end), strto<size_t> (ASSERTs only; the sizes are small) *)
Definition strto (t : text) : outcome Z := strto_int32 (t ++ [0%Z]).
(** the size of a Vector *)
Definition vsize (n : Z) : outcome nat := if (n <? 0)%Z then Ub else Ret (Z.to_nat n).
(** the two numbers of "Dimensions" (1526-1534, 1620-1627) *)
Definition two_dims (dimensions : text) : outcome (Z * Z) :=
  let* split := str_find_last_of dimensions SPACE (length dimensions) in
  match split with
  | None => Ub
  | Some split =>
      let* a := substr dimensions 0 split in
      let* a := strto a in
      let* b := substr_from dimensions (split + 1) in
      let* b := strto b in
      Ret (a, b)
  end.
(** the ASSERTs on a data set *)
Definition size_of (d : dataset) : Z := match content d with HInts n _ => n | HFloats n _ => n end.
Definition is_float (d : dataset) : bool := match content d with HFloats _ _ => true | _ => false end.
Definition asserts (b : outcome bool) : outcome unit :=
  if checks then let* b := b in if b then Ret tt else Fail else Ret tt.
(** DataSet::getFloatType and getIntType of another class throw *)
Definition floats (d : dataset) : outcome (list R) := match content d with HFloats _ l => Ret l | HInts _ _ => Fail end.
Definition ints (d : dataset) : outcome (list Z) := match content d with HInts _ l => Ret l | HFloats _ _ => Fail end.
Definition same_dims (d : dataset) (l : list Z) : bool :=
  (length (dims d) =? length l) && forallb (fun p => (Z.of_nat (fst p) =? snd p)%Z) (combine (dims d) l).

(** polytope_soup.cpp:1482-1507 *)
Definition addNodesToSoup (s : soup) (num_verts num_dimensions : Z) (data : list R) (xyz : bool) : outcome soup :=
  let* size := i32 (num_verts * num_dimensions) in
  let* size := vsize size in
  let* v := readInto size 0%R data in
  for_ (Z.to_nat num_verts) 0 (fun i s =>
    if xyz then
      let* x := rd v (i * 3) in let* y := rd v (i * 3 + 1) in let* z := rd v (i * 3 + 2) in
      Ret (fst (addVertex s (x, y, z)))
    else
      let* x := rd v (i * 2) in let* y := rd v (i * 2 + 1) in
      Ret (fst (addVertex s (x, y, 0%R)))) s.
(** polytope_soup.cpp:1509-1597 *)
Definition readXDMFGeometry (xgrid : xml) (f : h5) (h5filename : text) (s : soup) : outcome soup :=
  let* xgeometry := the_child xgrid "Geometry" in
  let geometry_type := attribute xgeometry "GeometryType" in
  let* _ := need (is geometry_type "XYZ" || is geometry_type "XY") in
  let* xdataitem := the_child xgeometry "DataItem" in
  let* _ := need (is (attribute xdataitem "DataType") "Float") in
  let precision := attribute xdataitem "Precision" in
  let* _ := need (is precision "4" || is precision "8") in
  let* nd := two_dims (attribute xdataitem "Dimensions") in
  let '(num_verts, num_dimensions) := nd in
  let* _ := need (negb (is geometry_type "XYZ" && negb (num_dimensions =? 3)%Z)) in
  let* _ := need (negb (is geometry_type "XY" && negb (num_dimensions =? 2)%Z)) in
  let* _ := need (is (attribute xdataitem "Format") "HDF") in
  let* p := substr_from (value xdataitem) (length h5filename + 1) in
  let* ds := openDataSet f p in
  let* data := floats ds in
  let* _ := asserts (let* prec := strto precision in Ret ((size_of ds =? prec)%Z && same_dims ds [num_verts; num_dimensions])) in
  if ((size_of ds =? 4) || (size_of ds =? 8))%Z
  then addNodesToSoup s num_verts num_dimensions data (is geometry_type "XYZ") else Ret s.

(** static_cast<int8_t> *)
Definition to_int8 (z : Z) : Z := ((z + 128) mod 256 - 128)%Z.
(** polytope_soup.cpp:1617-1628, one element *)
Definition read_mixed_step (v : list Z) (i : nat) (st : soup * nat) : outcome (soup * nat) :=
  let '(s, position) := st in
  let* c := rd v position in
  let elem_type := xdmfToVTKElemType (to_int8 c) in
  let* npoints := vsize (verticesPerElem elem_type) in
  let* conn := mapo (fun j => rd v (position + j + 1)) (seq 0 npoints) in
  let* r := addElement s elem_type conn in
  Ret (fst r, position + (npoints + 1)).
(** polytope_soup.cpp:1645-1656 *)
Definition elem_type_of (topology_type : text) : outcome vtk :=
  if is topology_type "Triangle" then Ret V_Triangle
  else if is topology_type "Quadrilateral" then Ret V_Quad
  else if is topology_type "Triangle_6" then Ret V_QuadraticTriangle
  else if is topology_type "Quadrilateral_8" then Ret V_QuadraticQuad
  else Fail.
(** polytope_soup.cpp:1599-1665 *)
Definition addElementsToSoup (num_elements : Z) (topology_type dimensions : text) (s : soup) (data : list Z) : outcome soup :=
  if is topology_type "Mixed" then
    let* conn_length := strto dimensions in
    let* n := vsize conn_length in
    let* v := readInto n 0%Z data in
    let* st := for_ (Z.to_nat num_elements) 0 (read_mixed_step v) (s, 0) in
    Ret (fst st)
  else
    let* nd := two_dims dimensions in
    let '(ncells, nverts) := nd in
    let* _ := need (ncells =? num_elements)%Z in
    let* size := i32 (ncells * nverts) in
    let* n := vsize size in
    let* v := readInto n 0%Z data in
    let* elem_type := elem_type_of topology_type in
    let* nv := vsize nverts in
    for_ (Z.to_nat ncells) 0 (fun i s =>
      let* conn := mapo (fun j => rd v (i * nv + j)) (seq 0 nv) in
      let* r := addElement s elem_type conn in
      Ret (fst r)) s.
(** polytope_soup.cpp:1667-1749 *)
Definition readXDMFTopology (xgrid : xml) (f : h5) (h5filename : text) (s : soup) : outcome soup :=
  let* xtopology := the_child xgrid "Topology" in
  let topology_type := attribute xtopology "TopologyType" in
  let* num_elements := strto (attribute xtopology "NumberOfElements") in
  let* xdataitem := the_child xtopology "DataItem" in
  let* _ := need (is (attribute xdataitem "DataType") "Int") in
  let precision := attribute xdataitem "Precision" in
  let* _ := need (is precision "1" || is precision "2" || is precision "4" || is precision "8") in
  let* _ := need (is (attribute xdataitem "Format") "HDF") in
  let* p := substr_from (value xdataitem) (length h5filename + 1) in
  let* ds := openDataSet f p in
  let* data := ints ds in
  let* _ := asserts (let* prec := strto precision in
    Ret ((size_of ds =? prec)%Z && (length (dims ds) =? (if is topology_type "Mixed" then 1 else 2)))) in
  if ((size_of ds =? 4) || (size_of ds =? 8))%Z
  then addElementsToSoup num_elements topology_type (attribute xdataitem "Dimensions") s data else Fail.

(** polytope_soup.cpp:1755-1780; addElset logs an error when it does not accept the elset *)
Definition addElsetToSoup (s : soup) (num_elements : nat) (data : list Z) (name : text) (att : option (list R)) : outcome soup :=
  let* ids := readInto num_elements 0%Z data in
  let* d := (match att with None => Ret [] | Some a => readInto num_elements 0%R a end) in
  let '(s', _, err) := addElset s name ids d in
  if err then Fail else Ret s'.
(** polytope_soup.cpp:1893-1949: the Attribute node, if there is one *)
Definition read_attribute (xelset : xml) (f : h5) (h5filename : text) (num_elements : nat) : outcome (option (list R * Z)) :=
  match child xelset "Attribute" with
  | None => Ret None
  | Some xattribute =>
      let* _ := need (is (attribute xattribute "Center") "Cell") in
      let* xatt := the_child xattribute "DataItem" in
      let* _ := need (is (attribute xatt "DataType") "Float") in
      let precision := attribute xatt "Precision" in
      let* _ := need (is precision "4" || is precision "8") in
      let* _ := need (is (attribute xatt "Format") "HDF") in
      let* p := substr_from (value xatt) (length h5filename + 1) in
      let* ds := openDataSet f p in
      let* data := floats ds in
      let* _ := asserts (let* prec := strto precision in let* n := strto (attribute xatt "Dimensions") in
        Ret ((size_of ds =? prec)%Z && (length (dims ds) =? 1) && (Z.of_nat num_elements =? n)%Z)) in
      Ret (Some (data, size_of ds))
  end.
(** polytope_soup.cpp:1795-1974, one node of the grid *)
Definition read_elset (f : h5) (h5filename : text) (xelset : xml) (s : soup) : outcome soup :=
  if is (tag xelset) "Set" then
    let* _ := need (is (attribute xelset "SetType") "Cell") in
    let name := attribute xelset "Name" in
    let* _ := need (negb (name_eqb name [])) in
    let* xdataitem := the_child xelset "DataItem" in
    let* _ := need (is (attribute xdataitem "DataType") "Int") in
    let precision := attribute xdataitem "Precision" in
    let* _ := need (is precision "1" || is precision "2" || is precision "4" || is precision "8") in
    let* _ := need (is (attribute xdataitem "Format") "HDF") in
    let* p := substr_from (value xdataitem) (length h5filename + 1) in
    let* ds := openDataSet f p in
    let* data := ints ds in
    let num_elements := hd 0 (dims ds) in
    let* _ := asserts (let* prec := strto precision in let* n := strto (attribute xdataitem "Dimensions") in
      Ret ((size_of ds =? prec)%Z && (length (dims ds) =? 1) && (Z.of_nat num_elements =? n)%Z)) in
    let* att := read_attribute xelset f h5filename num_elements in
    let att_size := match att with None => fsize | Some (_, n) => n end in
    if ((size_of ds =? 4) || (size_of ds =? 8))%Z then
      let* _ := need ((att_size =? 4) || (att_size =? 8))%Z in
      addElsetToSoup s num_elements data name (option_map fst att)
    else Ret s
  else Ret s.
(** polytope_soup.cpp:1786-1976 *)
Fixpoint read_elsets (f : h5) (h5filename : text) (nodes : list xml) (s : soup) : outcome soup :=
  match nodes with [] => Ret s | x :: nodes' => let* s := read_elset f h5filename x s in read_elsets f h5filename nodes' s end.
Definition readXDMFElsets (xgrid : xml) (f : h5) (h5filename : text) (s : soup) : outcome soup :=
  read_elsets f h5filename (kids xgrid) s.
(** polytope_soup.cpp:1984-1991 *)
Definition readXDMFUniformGrid (xgrid : xml) (f : h5) (h5filename : text) (s : soup) : outcome soup :=
  let* s := readXDMFGeometry xgrid f h5filename s in
  let* s := readXDMFTopology xgrid f h5filename s in
  readXDMFElsets xgrid f h5filename s.
(** polytope_soup.cpp:2000-2054 *)
Definition readXDMFFile (filename : text) (d : disk) (s : soup) : outcome soup :=
  let* nm := h5names filename in
  let '(h5filename, h5fullpath) := nm in
  match h5files d h5fullpath with
  | None => Fail
  | Some f =>
      match xmlfiles d filename with
      | None => Fail
      | Some xdoc =>
          let* xroot := the_child xdoc "Xdmf" in
          let* xdomain := the_child xroot "Domain" in
          let* xgrid := the_child xdomain "Grid" in
          let* _ := need (is (attribute xgrid "GridType") "Uniform") in
          readXDMFUniformGrid xgrid f h5filename s
      end
  end.
End Xdmf.
