(** Model of the building functions of mpact::Model (src/mpact/model.cpp:30-130, 655-709, 715-1156, 2283-2295;
    include/um2/mpact/model.hpp), over exact real numbers.

    [checks] says whether the assertion macros are enabled (ASSERT in common/config.hpp: a failed assertion ends
    the program; else it is no code), [exit_on_error] is the setting of the same name: logger::error ends the
    program if it is set, and else the function goes on to return -1.

    Simplifications: a Vector never has more than intMax elements (only the sizes the code itself computes are
    checked for overflow); LOG_DEBUG and LOG_INFO are left out; of a material only the name is kept, and whether
    validateXSec reports an error; [at_origin] is the test of the assertion in addTriMesh etc. *)
From Coq Require Import String.
From Coq Require Import List Arith ZArith Bool Reals.
From Verif Require Import Base Loops Arith Poly_Model Grid_Model Fvm_Model Manifold_Model PinRect_Model PinCyl_Model.
Import ListNotations.
Local Open Scope list_scope.
Local Open Scope R_scope.

(** mesh/element_types.hpp:37-45 *)
Inductive mesh_type := MT_Invalid | MT_Tri | MT_Quad | MT_TriQuad | MT_Tri6 | MT_Quad8 | MT_Tri6Quad8.
(** mpact/model.hpp:62-73; material ids are 8-bit integers *)
Record cell := mkCell { xy_extents : R * R; mtype : mesh_type; mesh_id : Z; material_ids : list Z }.
(** physics/material.hpp, see above *)
Record material := mkMaterial { name : string; xsec_valid : bool }.
(** mpact/model.hpp:75-97; a partition is its grid and its children *)
Record model := mkModel {
  core : list (list R) * list Z;
  assemblies : list (list (list R) * list Z);
  lattices : list (list axis * list Z);
  rtms : list (list (list R) * list Z);
  cells : list cell;
  materials : list material;
  tris : list (mesh R);
  quads : list (mesh R);
  tri6s : list (mesh R);
  quad8s : list (mesh R) }.
(** the default constructor (model.hpp:104); also model.cpp:100-116 *)
Definition empty_model : model := mkModel ([[]; []], []) [] [] [] [] [] [] [] [] [].
Definition clear (m : model) : model := empty_model.

Definition set_core c m := mkModel c (assemblies m) (lattices m) (rtms m) (cells m) (materials m) (tris m) (quads m) (tri6s m) (quad8s m).
Definition push_assembly a m := mkModel (core m) (assemblies m ++ [a]) (lattices m) (rtms m) (cells m) (materials m) (tris m) (quads m) (tri6s m) (quad8s m).
Definition push_lattice l m := mkModel (core m) (assemblies m) (lattices m ++ [l]) (rtms m) (cells m) (materials m) (tris m) (quads m) (tri6s m) (quad8s m).
Definition push_rtm r m := mkModel (core m) (assemblies m) (lattices m) (rtms m ++ [r]) (cells m) (materials m) (tris m) (quads m) (tri6s m) (quad8s m).
Definition push_cell c m := mkModel (core m) (assemblies m) (lattices m) (rtms m) (cells m ++ [c]) (materials m) (tris m) (quads m) (tri6s m) (quad8s m).
Definition push_material x m := mkModel (core m) (assemblies m) (lattices m) (rtms m) (cells m) (materials m ++ [x]) (tris m) (quads m) (tri6s m) (quad8s m).
Definition set_meshes t q t6 q8 m := mkModel (core m) (assemblies m) (lattices m) (rtms m) (cells m) (materials m) t q t6 q8.

(** Vector::size() *)
Definition size {A} (l : list A) : Z := Z.of_nat (length l).

Section Model.
Variable stdsort : forall A : Type, (A -> A -> bool) -> list A -> list A.
Variable selfcheck : mesh R -> outcome (mesh R).
Variable at_origin : mesh R -> bool.
Variables checks exit_on_error : bool.

Notation error := (error exit_on_error).
(** ASSERT *)
Definition assert {A} (b : bool) (k : outcome A) : outcome A := if checks && negb b then Fail else k.

(** ** flattenLattice (68-87): the flat list afterwards, which was empty *)
Definition flattenLattice (ids : list (list Z)) : outcome (list Z) :=
  let* row0 := rd ids 0 in
  let nr := length ids in
  let nc := length row0 in
  if existsb (fun row => negb (length row =? nc)%nat) (tl ids) then error []
  else
    let* _ := i32 (Z.of_nat nr * Z.of_nat nc) in
    for_ nr 0 (fun i flat =>
      for_ nc 0 (fun j flat =>
        let* row := rd ids (nr - 1 - i) in
        let* id := rd row j in
        wr flat (i * nc + j) id) flat) (repeat 0%Z (nr * nc)).

(** ** mapFlatIndexToLattice2D (2283-2295); the operators are those of C: [Z.rem] and [Z.quot] *)
Definition mapFlatIndexToLattice2D (flat_idx nx ny : Z) : outcome (Z * Z) :=
  assert (0 <? nx)%Z (assert (0 <? ny)%Z (
  if (nx =? 0)%Z then Ub else
  let i := Z.rem flat_idx nx in
  let j := (ny - Z.quot flat_idx nx - 1)%Z in
  assert ((0 <=? i) && (i <? nx) && (0 <=? j) && (j <? ny))%Z (Ret (i, j)))).

(** ** RectilinearGrid2F from a lattice (mesh/rectilinear_grid.hpp:184-215), as in Grid_Model, but with the
    assertions only if enabled: row[j] is then read beyond the end of a shorter row *)
Fixpoint rows_boxes_n (dxdy : list (R * R)) (nc : nat) (rows : list (list Z)) (y : R) : outcome (list (list (R * R))) :=
  match rows with
  | [] => Ret []
  | row :: rows' =>
      if (length row <? nc)%nat then Ub else
      let* b := row_boxes dxdy (firstn nc row) 0 y in
      let* id := rdz row 0 in
      let* d := rdz dxdy id in
      let* r := rows_boxes_n dxdy nc rows' (y + snd d) in
      Ret (b ++ r)
  end.
Definition grid_of (dxdy : list (R * R)) (ids : list (list Z)) : outcome (list (list R)) :=
  let* row0 := rd ids 0 in
  assert (forallb (fun row => (length row =? length row0)%nat && forallb (fun id => 0 <=? id)%Z row) (tl ids)) (
  let* _ := i32 (Z.of_nat (length ids) * Z.of_nat (length row0)) in
  let* boxes := rows_boxes_n dxdy (length row0) (rev ids) 0 in
  let* g := mapo (divs_of boxes) [0%nat; 1%nat] in
  if checks then
    let* n := totalNumCells (numCells g) in
    if (n =? Z.of_nat (length boxes))%Z then Ret g else Fail
  else Ret g).
(** extents() (rectilinear_grid.hpp: maxima() - minima()) of a grid with two axes *)
Definition span (l : list R) : outcome R :=
  let* a := rd l 0 in let* b := rd l (length l - 1) in Ret (b - a).
Definition extents2 (g : list (list R)) : outcome (R * R) :=
  let* lx := rd g 0 in let* ly := rd g 1 in
  let* ex := span lx in let* ey := span ly in Ret (ex, ey).
(** RectilinearPartition(grid, children) (mesh/rectilinear_partition.hpp:92-100) *)
Definition partition (g : list (list R)) (ch : list Z) : outcome (list (list R) * list Z) :=
  if checks then rect_partition Z g ch else Ret (g, ch).
(** Vec::isApprox (math/vec.hpp:820-825) *)
Definition isApprox (u v : R * R) : bool :=
  Rltb ((fst u - fst v) * (fst u - fst v) + (snd u - snd v) * (snd u - snd v)) (eps * eps).

(** ** addMaterial (122-130) *)
Definition addMaterial (m : model) (x : material) (validate : bool) : outcome (model * Z) :=
  let* _ := (if validate && negb (xsec_valid x) then error tt else Ret tt) in
  Ret (push_material x m, size (materials m ++ [x]) - 1)%Z.

(** ** The meshes: addTriMesh etc. (772-810), addRectangularPinMesh (715-766), addCylindricalPinMesh (136-649) *)
Definition addTriMesh (m : model) (x : mesh R) : outcome (model * Z) :=
  assert (at_origin x) (Ret (set_meshes (tris m ++ [x]) (quads m) (tri6s m) (quad8s m) m, size (tris m))).
Definition addQuadMesh (m : model) (x : mesh R) : outcome (model * Z) :=
  assert (at_origin x) (Ret (set_meshes (tris m) (quads m ++ [x]) (tri6s m) (quad8s m) m, size (quads m))).
Definition addTri6Mesh (m : model) (x : mesh R) : outcome (model * Z) :=
  assert (at_origin x) (Ret (set_meshes (tris m) (quads m) (tri6s m ++ [x]) (quad8s m) m, size (tri6s m))).
Definition addQuad8Mesh (m : model) (x : mesh R) : outcome (model * Z) :=
  assert (at_origin x) (Ret (set_meshes (tris m) (quads m) (tri6s m) (quad8s m ++ [x]) m, size (quad8s m))).
Definition addRectPin (m : model) (w h : R) (nx ny : Z) : outcome (model * Z) :=
  let* r := addRectangularPinMesh stdsort eps exit_on_error (quads m) w h nx ny in
  Ret (set_meshes (tris m) (fst r) (tri6s m) (quad8s m) m, snd r).
Definition addCylPin (m : model) (pitch : R) (radii : list R) (num_rings : list nat) (na order : Z) : outcome (model * Z) :=
  let* r := addCylindricalPinMesh stdsort selfcheck eps exit_on_error (quads m) (quad8s m) pitch radii num_rings na order in
  let '(q, q8, id) := r in Ret (set_meshes (tris m) q (tri6s m) q8 m, id).

(** ** addCoarseCell (816-891) *)
(** the switch (832-873): the meshes of the type, if it is one of the four *)
Definition meshes_of (m : model) (t : mesh_type) : option (list (mesh R)) :=
  match t with
  | MT_Tri => Some (tris m) | MT_Quad => Some (quads m) | MT_Tri6 => Some (tri6s m) | MT_Quad8 => Some (quad8s m)
  | _ => None
  end.
(** 830-881: does the cell pass the checks? *)
Definition cell_checks (m : model) (t : mesh_type) (id : Z) (mats : list Z) : outcome bool :=
  if (id =? -1)%Z then Ret true
  else match meshes_of m t with
  | None => Ret false
  | Some ms =>
      if (id <? 0)%Z || (size ms <=? id)%Z then Ret false
      else
        let* x := rdz ms id in
        if negb (length (fv x) =? length mats)%nat then Ret false
        else Ret (forallb (fun i => negb ((i <? 0) || (size (materials m) <=? i)))%Z mats)
  end.
Definition addCoarseCell (m : model) (ext : R * R) (t : mesh_type) (id : Z) (mats : list Z) : outcome (model * Z) :=
  if negb (Rltb 0 (fst ext)) || negb (Rltb 0 (snd ext)) then error (m, (-1)%Z)
  else
    let* ok := cell_checks m t id mats in
    if ok then Ret (push_cell (mkCell ext t id mats) m, size (cells m)) else error (m, (-1)%Z).

(** ** addCylindricalPinCell (655-709) *)
(** 672-686: the index of the first material of that name, for each material *)
Fixpoint find_name (ms : list material) (s : string) (i : Z) : option Z :=
  match ms with
  | [] => None
  | x :: ms' => if String.eqb (name x) s then Some i else find_name ms' s (i + 1)
  end.
Fixpoint find_names (ms : list material) (xs : list material) : option (list Z) :=
  match xs with
  | [] => Some []
  | x :: xs' =>
      match find_name ms (name x) 0 with
      | None => None
      | Some i => match find_names ms xs' with None => None | Some l => Some (i :: l) end
      end
  end.
(** static_cast<MatID>: modulo 2^8 *)
Definition to_int8 (z : Z) : Z := ((z + 128) mod 256 - 128)%Z.
(** 691-706: the loops write the successive positions of material_ids, whose number is exactly the number of
    iterations; the list of what is written *)
Definition pin_materials (idx : list Z) (num_rings : list nat) (na : nat) : list Z :=
  concat (map (fun p => repeat (to_int8 (fst p)) (snd p * na)) (combine idx num_rings)) ++
  repeat (to_int8 (last idx 0%Z)) na.
Definition addCylindricalPinCell (m : model) (pitch : R) (radii : list R) (mats : list material) (num_rings : list nat)
  (na order : Z) : outcome (model * Z) :=
  let* r := addCylPin m pitch radii num_rings na order in
  let m1 := fst r in
  if negb (length mats =? length num_rings + 1)%nat then error (m1, (-1)%Z)
  else match find_names (materials m) mats with
  | None => error (m1, (-1)%Z)
  | Some idx =>
      let t := if (order =? 1)%Z then MT_Quad else MT_Quad8 in
      if (na <? 0)%Z then Ub else
      let* _ := i32 ((Z.of_nat (fold_left Nat.add num_rings 0%nat) + 1) * na) in
      addCoarseCell m1 (pitch, pitch) t (snd r) (pin_materials idx num_rings (Z.to_nat na))
  end.

(** ** addRTM (897-947) *)
(** 904-917: the distinct ids in order of first occurrence, with their extents; None: returned -1 *)
Fixpoint collect (cs : list cell) (ids u : list Z) (xy : list (R * R)) : outcome (option (list Z * list (R * R))) :=
  match ids with
  | [] => Ret (Some (u, xy))
  | id :: ids' =>
      if (id <? 0)%Z || (size cs <=? id)%Z then error None
      else if existsb (Z.eqb id) u then collect cs ids' u xy
      else let* c := rdz cs id in collect cs ids' (u ++ [id]) (xy ++ [xy_extents c])
  end.
(** std::find (928-929) *)
Fixpoint find_id (u : list Z) (id : Z) : nat :=
  match u with
  | [] => 0
  | v :: u' => if (v =? id)%Z then 0 else S (find_id u' id)
  end.
(** 922-932 *)
Definition renumber (u : list Z) (ids : list (list Z)) : outcome (list (list Z)) :=
  mapo (mapo (fun id => assert (find_id u id <? length u)%nat (Ret (Z.of_nat (find_id u id))))) ids.
Definition addRTM (m : model) (ids : list (list Z)) : outcome (model * Z) :=
  let* r := collect (cells m) (concat ids) [] [] in
  match r with
  | None => Ret (m, (-1)%Z)
  | Some (u, xy) =>
      let* ren := renumber u ids in
      let* g := grid_of xy ren in
      let* ok := match rtms m with
                 | [] => Ret true
                 | r0 :: _ => let* e0 := extents2 (fst r0) in let* e := extents2 g in Ret (isApprox e0 e)
                 end in
      if negb ok then error (m, (-1)%Z)
      else
        let* flat := flattenLattice ids in
        let* p := partition g flat in
        Ret (push_rtm p m, size (rtms m))
  end.

(** ** addLattice (953-988) *)
Definition addLattice (m : model) (ids : list (list Z)) : outcome (model * Z) :=
  if existsb (existsb (fun id => (id <? 0) || (size (rtms m) <=? id)))%Z ids then error (m, (-1)%Z)
  else
    let* r0 := rd (rtms m) 0 in
    let* sp := extents2 (fst r0) in
    let* row0 := rd ids 0 in
    if existsb (fun row => negb (length row =? length row0)%nat) (tl ids) then error (m, (-1)%Z)
    else
      let nx := Z.of_nat (length row0) in
      let ny := Z.of_nat (length ids) in
      assert (Rltb 0 (fst sp) && Rltb 0 (snd sp) && (0 <? nx)%Z && (0 <? ny)%Z) (
      let g := [mkAxis 0 (fst sp) nx; mkAxis 0 (snd sp) ny] in
      let* flat := flattenLattice ids in
      let* l := (if checks then regular_partition Z g flat else Ret (g, flat)) in
      Ret (push_lattice l m, size (lattices m))).

(** ** addAssembly (994-1055) *)
(** is_sorted (stdlib/algorithm/is_sorted.hpp:11-23) *)
Fixpoint is_sorted (z : list R) : bool :=
  match z with
  | a :: (b :: _) as z' => negb (Rltb b a) && is_sorted z'
  | _ => true
  end.
(** |x| > epsDistance *)
Definition off (x : R) : bool := Rltb eps (Rabs x).
(** numCells(0), numCells(1) of a lattice *)
Definition counts (l : list axis * list Z) : outcome (Z * Z) :=
  let* ax := rd (fst l) 0 in let* ay := rd (fst l) 1 in Ret (nc ax, nc ay).
Definition addAssembly (m : model) (ids : list Z) (z : list R) : outcome (model * Z) :=
  if existsb (fun id => (id <? 0) || (size (lattices m) <=? id))%Z ids then error (m, (-1)%Z)
  else if negb (length ids + 1 =? length z)%nat then error (m, (-1)%Z)
  else if negb (is_sorted z) then error (m, (-1)%Z)
  else
    let* zf := rd z 0 in
    let* zb := rd z (length z - 1) in
    if (off (zf + 1 / 2) || off (zb - 1 / 2)) && off zf then error (m, (-1)%Z)
    else
      let* same := match assemblies m with
                   | [] => Ret true
                   | a0 :: _ =>
                       let* l := rd (fst a0) 0 in
                       let* bot := rd l 0 in let* top := rd l (length l - 1) in
                       Ret (negb (off (zb - top) || off (zf - bot)))
                   end in
      if negb same then error (m, (-1)%Z)
      else
        let* id0 := rd ids 0 in
        let* l0 := rdz (lattices m) id0 in
        let* n0 := counts l0 in
        let* ns := mapo (fun id => let* l := rdz (lattices m) id in counts l) ids in
        if existsb (fun n => negb ((fst n =? fst n0) && (snd n =? snd n0)))%Z ns then error (m, (-1)%Z)
        else
          let* a := partition [z] ids in
          Ret (push_assembly a m, size (assemblies m)).

(** ** addCore (1061-1094) *)
(** the extents of the lattice at the bottom of an assembly (1083-1086) *)
Definition assembly_extents (m : model) (a : list (list R) * list Z) : outcome (R * R) :=
  let* id := (if checks then rect_getChild Z a [0%Z] else rd (snd a) 0) in
  let* l := rdz (lattices m) id in
  let* ax := rd (fst l) 0 in let* ay := rd (fst l) 1 in
  Ret (sp ax * IZR (nc ax), sp ay * IZR (nc ay)).
Definition addCore (m : model) (ids : list (list Z)) : outcome (model * Z) :=
  if negb (length (snd (core m)) =? 0)%nat then error (m, (-1)%Z)
  else if existsb (existsb (fun id => (id <? 0) || (size (assemblies m) <=? id)))%Z ids then error (m, (-1)%Z)
  else
    let* xy := mapo (assembly_extents m) (assemblies m) in
    let* g := grid_of xy ids in
    let* flat := flattenLattice ids in
    let* c := partition g flat in
    Ret (set_core c m, 0%Z).

(** ** addCoarseGrid (1100-1156); it returns nothing, written 0 here *)
(** 1139-1146: the ids of the lattice, top row first *)
Definition coarse_ids (nx ny : nat) : list (list Z) :=
  map (fun iy => map (fun ix => Z.of_nat ((ny - 1 - iy) * nx + ix)) (seq 0 nx)) (seq 0 ny).
Definition is_empty {A} (l : list A) : bool := match l with [] => true | _ => false end.
Definition addCoarseGrid (m : model) (w h : R) (nx ny : Z) : outcome (model * Z) :=
  if negb (Rltb 0 w) || negb (Rltb 0 h) then error (m, 0%Z)
  else if (nx <=? 0)%Z || (ny <=? 0)%Z then error (m, 0%Z)
  else
    assert (is_empty (cells m) && is_empty (rtms m) && is_empty (lattices m) && is_empty (assemblies m)) (
    let dxdy := (w / IZR nx, h / IZR ny) in
    let* _ := i32 (nx * ny) in
    let n := Z.to_nat (nx * ny) in
    let* m := for_ n 0 (fun _ m => let* r := addCoarseCell m dxdy MT_Invalid (-1) [] in Ret (fst r)) m in
    let* m := for_ n 0 (fun i m => let* r := addRTM m [[Z.of_nat i]] in Ret (fst r)) m in
    let* r := addLattice m (coarse_ids (Z.to_nat nx) (Z.to_nat ny)) in
    let* r := addAssembly (fst r) [0%Z] [-1 / 2; 1 / 2] in
    let* r := addCore (fst r) [[0%Z]] in
    Ret (fst r, 0%Z)).

(** ** Histories *)
Inductive op :=
| AddMaterial (x : material) (validate : bool)
| AddTriMesh (x : mesh R)
| AddQuadMesh (x : mesh R)
| AddTri6Mesh (x : mesh R)
| AddQuad8Mesh (x : mesh R)
| AddRectangularPinMesh (w h : R) (nx ny : Z)
| AddCylindricalPinMesh (pitch : R) (radii : list R) (num_rings : list nat) (na order : Z)
| AddCylindricalPinCell (pitch : R) (radii : list R) (mats : list material) (num_rings : list nat) (na order : Z)
| AddCoarseCell (ext : R * R) (t : mesh_type) (id : Z) (mats : list Z)
| AddRTM (ids : list (list Z))
| AddLattice (ids : list (list Z))
| AddAssembly (ids : list Z) (z : list R)
| AddCore (ids : list (list Z))
| AddCoarseGrid (w h : R) (nx ny : Z)
| Clear.
Definition step (m : model) (o : op) : outcome (model * Z) :=
  match o with
  | AddMaterial x v => addMaterial m x v
  | AddTriMesh x => addTriMesh m x
  | AddQuadMesh x => addQuadMesh m x
  | AddTri6Mesh x => addTri6Mesh m x
  | AddQuad8Mesh x => addQuad8Mesh m x
  | AddRectangularPinMesh w h nx ny => addRectPin m w h nx ny
  | AddCylindricalPinMesh p r n na o => addCylPin m p r n na o
  | AddCylindricalPinCell p r ms n na o => addCylindricalPinCell m p r ms n na o
  | AddCoarseCell e t id mats => addCoarseCell m e t id mats
  | AddRTM ids => addRTM m ids
  | AddLattice ids => addLattice m ids
  | AddAssembly ids z => addAssembly m ids z
  | AddCore ids => addCore m ids
  | AddCoarseGrid w h nx ny => addCoarseGrid m w h nx ny
  | Clear => Ret (clear m, 0%Z)
  end.
(** the model after the calls, in order *)
Fixpoint run (m : model) (ops : list op) : outcome model :=
  match ops with
  | [] => Ret m
  | o :: ops' => let* r := step m o in run (fst r) ops'
  end.

(** ** Totals (model.hpp:454-510); the sums of the inner loops are formed first here, which overflows exactly if
    the one running sum of the code does, as nothing is negative *)
Definition total {A} (f : A -> outcome Z) (l : list A) : outcome Z :=
  fold_left (fun acc x => let* s := acc in let* n := f x in i32 (s + n)) l (Ret 0%Z).
Definition numAssembliesTotal (m : model) : Z := size (snd (core m)).
Definition numLatticesTotal (m : model) : outcome Z :=
  total (fun a => let* asy := rdz (assemblies m) a in Ret (size (snd asy))) (snd (core m)).
Definition rtms_in_assembly (m : model) (a : Z) : outcome Z :=
  let* asy := rdz (assemblies m) a in
  total (fun l => let* lat := rdz (lattices m) l in Ret (size (snd lat))) (snd asy).
Definition numRTMsTotal (m : model) : outcome Z := total (rtms_in_assembly m) (snd (core m)).
Definition cells_in_assembly (m : model) (a : Z) : outcome Z :=
  let* asy := rdz (assemblies m) a in
  total (fun l => let* lat := rdz (lattices m) l in
    total (fun r => let* rtm := rdz (rtms m) r in Ret (size (snd rtm))) (snd lat)) (snd asy).
Definition numCoarseCellsTotal (m : model) : outcome Z := total (cells_in_assembly m) (snd (core m)).
Definition fine_in_assembly (m : model) (a : Z) : outcome Z :=
  let* asy := rdz (assemblies m) a in
  total (fun l => let* lat := rdz (lattices m) l in
    total (fun r => let* rtm := rdz (rtms m) r in
      total (fun c => let* cc := rdz (cells m) c in Ret (size (material_ids cc))) (snd rtm)) (snd lat)) (snd asy).
Definition numFineCellsTotal (m : model) : outcome Z := total (fine_in_assembly m) (snd (core m)).
End Model.
