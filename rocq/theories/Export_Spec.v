(** What the export of a reactor model is: the places of the hierarchy, written out level by level, and the faces in them. *)
From Coq Require Import String.
From Coq Require Import List Arith ZArith Bool Reals.
From Verif Require Import Base Loops Arith StringView_Model TextIo_Model Elem_Model Matrix_Model Soup_Model Soup_Spec Stats_Spec XSec_Model XSec_Spec
  PinCyl_Model Grid_Model Fvm_Model Fvm_Spec Mpact_Model Mpact_Spec Export_Model.
Import ListNotations.
Local Open Scope list_scope.
Local Open Scope R_scope.

(** ** Places *)
(** a point moved by a vector *)
Definition plus3 (p v : pt3) : pt3 := let '(a, b, c) := p in let '(x, y, z) := v in (a + x, b + y, c + z).
(** which object (its id), and the how-manieth copy of it, counted from 0 *)
Notation label := (Z * nat)%type (only parsing).
(** a place: what is there and what contains it, from the inside to the outside, and the offset *)
Record place := mkPlace { path : list label; offset : pt3 }.
Definition here (p : place) : Z := match path p with l :: _ => fst l | [] => 0%Z end.
(** number the copies of each object in the order of the list; [seen] are the objects before the list *)
Fixpoint number (seen : list Z) (l : list (Z * (list label * pt3))) : list place :=
  match l with
  | [] => []
  | (id, (p, o)) :: l' => mkPlace ((id, count_occ Z.eq_dec seen id) :: p) o :: number (seen ++ [id]) l'
  end.
(** the places one level below the places [l]: [kids] are the ids and relative offsets of what is in a place *)
Definition below (kids : Z -> list (Z * pt3)) (l : list place) : list (Z * (list label * pt3)) :=
  flat_map (fun p => map (fun k => (fst k, (path p, plus3 (offset p) (snd k)))) (kids (here p))) l.
Definition expand (kids : Z -> list (Z * pt3)) (l : list place) : list place := number [] (below kids l).

(** lower left corners of the cells of a grid, row by row from the bottom *)
Definition corners2 (lx ly : list R) : list pt3 := flat_map (fun y => map (fun x => (x, y, 0)) (removelast lx)) (removelast ly).
Definition regular_corners (w h : R) (nx ny : Z) : list pt3 :=
  flat_map (fun j => map (fun i => (w * INR i, h * INR j, 0)) (seq 0 (Z.to_nat nx))) (seq 0 (Z.to_nat ny)).
(** heights in the middle of two neighbouring planes *)
Definition midplanes (z : list R) : list pt3 := map (fun p => (0, 0, (fst p + snd p) / 2)) (combine z (tl z)).

Section Spec.
Variable m : model.
(** assemblies of the core, lattices of an assembly, RTMs of a lattice, cells of an RTM *)
Definition core_kids : list (Z * pt3) :=
  match fst (core m) with [lx; ly] => combine (snd (core m)) (corners2 lx ly) | _ => [] end.
Definition asy_kids (id : Z) : list (Z * pt3) :=
  let a := get (assemblies m) id ([], []) in
  match fst a with [z] => combine (snd a) (midplanes z) | _ => [] end.
Definition lat_kids (id : Z) : list (Z * pt3) :=
  let l := get (lattices m) id ([], []) in
  match fst l with [ax; ay] => combine (snd l) (regular_corners (sp ax) (sp ay) (nc ax) (nc ay)) | _ => [] end.
Definition rtm_kids (id : Z) : list (Z * pt3) :=
  let r := get (rtms m) id ([], []) in
  match fst r with [lx; ly] => combine (snd r) (corners2 lx ly) | _ => [] end.
Definition placed_assemblies : list place := expand (fun _ => core_kids) [mkPlace [] (0, 0, 0)].
Definition placed_lattices : list place := expand asy_kids placed_assemblies.
Definition placed_rtms : list place := expand lat_kids placed_lattices.
Definition placed_cells : list place := expand rtm_kids placed_rtms.

(** ** Faces *)
(** five decimal digits: those of the number modulo 100000 *)
Definition digits5 (z : Z) : list Z := map (fun k => 48 + (z / 10 ^ k) mod 10)%Z [4; 3; 2; 1; 0]%Z.
Definition named (prefix : string) (l : label) : list Z := lit prefix ++ digits5 (fst l) ++ lit "_" ++ digits5 (Z.of_nat (snd l)).
Definition path_names (p : list label) : list (list Z) :=
  map (fun x => named (fst x) (snd x)) (combine ["Coarse_Cell_"; "RTM_"; "Lattice_"; "Assembly_"]%string p).

(** what is told of a face: its type, its corners, the sets it is in, and the sets it is in with a value *)
Record face := mkFace { f_type : vtk; f_points : list pt3; f_sets : list (list Z); f_values : list (list Z * R) }.
Definition value_of (o : outcome R) : R := match o with Ret x => x | _ => 0 end.
(** total cross section, averaged over the groups *)
Definition total_xs (x : xsec) : R := average (xa x) + average (xs x).
Definition material_xs (xsecs : list xsec) (id : Z) : R :=
  match nth_error xsecs (Z.to_nat id) with Some x => total_xs x | None => 0 end.
Definition vertex (x : mesh R) (v : Z) : R * R := nth (Z.to_nat v) (mv x) (0, 0).
(** the vertex of a mesh that is placed at an offset *)
Definition lifted (o : pt3) (p : R * R) : pt3 := plus3 (fst p, snd p, 0) o.
Definition face_at (xsecs : list xsec) (k : kind) (x : mesh R) (p : place) (conn : list Z) (mat : Z) : face :=
  let c := value_of (chord k (map (vertex x) conn)) in
  let s := material_xs xsecs mat in
  mkFace (elem_type k) (map (fun v => lifted (offset p) (vertex x v)) conn) (path_names (path p))
    [(lit "Material_ID", IZR mat); (lit "One_Group_XS", s); (lit "Mean_Chord_Length", c); (lit "Knudsen_Number", 1 / (s * c))].
Definition no_cell : cell := mkCell (0, 0) MT_Invalid (-1) [].
(** the faces a type of mesh has, and the meshes of that type *)
Definition meshes_like (t : mesh_type) : option (kind * list (mesh R)) :=
  match t with
  | MT_Tri => Some (Tri, tris m) | MT_Quad => Some (Quad, quads m) | MT_Tri6 => Some (Tri6, tri6s m) | MT_Quad8 => Some (Quad8, quad8s m)
  | MT_Invalid | MT_TriQuad | MT_Tri6Quad8 => None
  end.
(** mesh of a cell *)
Definition cell_mesh (c : cell) : option (kind * mesh R) :=
  match meshes_like (mtype c) with
  | Some (k, ms) =>
      if (mesh_id c <? 0)%Z then None else match nth_error ms (Z.to_nat (mesh_id c)) with Some x => Some (k, x) | None => None end
  | None => None
  end.
Definition cell_faces (xsecs : list xsec) (p : place) : list face :=
  let c := get (cells m) (here p) no_cell in
  match cell_mesh c with
  | Some (k, x) => map (fun fm => face_at xsecs k x p (fst fm) (snd fm)) (combine (fv x) (material_ids c))
  | None => []
  end.
Definition cell_verts (p : place) : list pt3 :=
  match cell_mesh (get (cells m) (here p) no_cell) with Some (_, x) => map (lifted (offset p)) (mv x) | None => [] end.

(** ** Sets of faces *)
(** the set called [n]: the numbers of the faces that are in it, ascending, with their values *)
Definition in_set (n : list Z) (f : face) : bool :=
  existsb (name_eqb n) (f_sets f) || existsb (fun v => name_eqb n (fst v)) (f_values f).
Definition values_in (n : list Z) (f : face) : list R :=
  map snd (filter (fun v => name_eqb n (fst v)) (f_values f)).
Definition set_of (n : list Z) (fs : list face) : elset R :=
  mkElset n (map (fun p => Z.of_nat (fst p)) (filter (fun p => in_set n (snd p)) (combine (seq 0 (length fs)) fs)))
    (flat_map (values_in n) fs).

(** the soup's content [a] is exactly the faces [fs]: the elements have their types and corners, and the sets are theirs *)
Definition shows (a : asoup pt3 R) (fs : list face) : Prop :=
  Forall2 (fun el f => fst el = f_type f /\
      Forall2 (fun v p => (0 <= v)%Z /\ nth_error (a_verts a) (Z.to_nat v) = Some p) (snd el) (f_points f))
    (a_elems a) fs /\
  (forall e, In e (a_elsets a) <-> exists n, e = set_of n fs /\ es_ids e <> []).

(** ** Models that can be exported *)
(** each grid has as many cells as children; a lattice's cells start at the origin *)
Definition rect_shaped (p : list (list R) * list Z) : Prop :=
  exists lx ly, fst p = [lx; ly] /\ (1 <= length lx)%nat /\ (1 <= length ly)%nat /\
    length (snd p) = ((length lx - 1) * (length ly - 1))%nat.
Record shaped : Prop := {
  core_shaped : snd (core m) = [] \/ rect_shaped (core m);
  assemblies_shaped : forall a, In a (assemblies m) -> exists z, fst a = [z] /\ length z = S (length (snd a));
  lattices_shaped : forall l, In l (lattices m) -> exists w h nx ny, fst l = lattice_grid w h nx ny /\
    (0 <= nx)%Z /\ (0 <= ny)%Z /\ Z.of_nat (length (snd l)) = (nx * ny)%Z;
  rtms_shaped : forall r, In r (rtms m) -> rect_shaped r }.
(** no list has more than intMax items *)
Definition fits : Prop :=
  (Z.of_nat (length (snd (core m))) <= intMax)%Z /\
  (forall a, In a (assemblies m) -> Z.of_nat (length (snd a)) <= intMax)%Z /\
  (forall l, In l (lattices m) -> Z.of_nat (length (snd l)) <= intMax)%Z /\
  (forall r, In r (rtms m) -> Z.of_nat (length (snd r)) <= intMax)%Z.
(** a cell with a mesh type has a mesh, with faces, and one existing material for each of them *)
Definition meshed (c : cell) : Prop :=
  meshes_like (mtype c) <> None -> exists k x, cell_mesh c = Some (k, x) /\ mesh_ok k x /\ fv x <> [] /\
    length (material_ids c) = length (fv x).
(** each material has macroscopic cross sections that are valid *)
Definition xsecs_ok (xsecs : list xsec) : Prop :=
  length xsecs = length (materials m) /\
  Forall (fun x => isMacro x = true /\ exists ng w, ng <> O /\ shape ng x /\ validate x = Ret w) xsecs.
Definition exportable (xsecs : list xsec) : Prop :=
  ids_valid m /\ shaped /\ fits /\ Forall meshed (cells m) /\ xsecs_ok xsecs.

(** nothing is missing below an object: there are children, and a cell has a mesh *)
Definition cell_full (id : Z) : bool := match meshes_like (mtype (get (cells m) id no_cell)) with Some _ => true | None => false end.
Definition full (children : list Z) (f : Z -> bool) : bool := negb (length children =? 0)%nat && forallb f children.
Definition rtm_full (id : Z) : bool := full (snd (get (rtms m) id ([], []))) cell_full.
Definition lat_full (id : Z) : bool := full (snd (get (lattices m) id ([], []))) rtm_full.
Definition asy_full (id : Z) : bool := full (snd (get (assemblies m) id ([], []))) lat_full.
Definition complete : bool := full (snd (core m)) asy_full.
(** the assemblies before the first one with something missing *)
Fixpoint leading (l : list place) : list place :=
  match l with [] => [] | p :: l' => if asy_full (here p) then p :: leading l' else [] end.
(** the soup is what is in the places [l], its sets sorted by name *)
Definition exported (xsecs : list xsec) (s : soup pt3 R) (l : list place) : Prop :=
  exists a, stores s a /\ content_ok a /\ a_verts a = flat_map cell_verts l /\ shows a (flat_map (cell_faces xsecs) l) /\
    names_sorted (a_elsets a).
(** the place of each face *)
Definition owners (xsecs : list xsec) (l : list place) : list place := flat_map (fun p => map (fun _ => p) (cell_faces xsecs p)) l.
End Spec.
(** the levels, from the inside to the outside, with the prefixes of their sets *)
Definition levels : list string := ["Coarse_Cell_"; "RTM_"; "Lattice_"; "Assembly_"]%string.
(** five digits are enough *)
Definition small (l : label) : Prop := (0 <= fst l < 100000)%Z /\ (Z.of_nat (snd l) < 100000)%Z.
(** a row of n copies of the same square cell, which has one triangle *)
Definition row_model (n : nat) : model :=
  mkModel ([[0; INR n]; [0; 1]], [0%Z]) [([[- (1 / 2); 1 / 2]], [0%Z])] [(lattice_grid (INR n) 1 1 1, [0%Z])]
    [([map INR (seq 0 (S n)); [0; 1]], repeat 0%Z n)] [mkCell (1, 1) MT_Tri 0 [0%Z]] [mkMaterial "fuel" true]
    [mkMesh false false [(0, 0); (1, 0); (0, 1)] [[0; 1; 2]%Z] [] []] [] [] [].
Definition row_xsecs : list xsec := [mkX true false 1 [1] [0] [0] [1] [1] (mkM 1 1 [1])].
(** two assemblies of one cell; the cell [c] of the second one *)
Definition pair_model (c : cell) : model :=
  mkModel ([[0; 1; 2]; [0; 1]], [0; 1]%Z) [([[- (1 / 2); 1 / 2]], [0%Z]); ([[- (1 / 2); 1 / 2]], [1%Z])]
    [(lattice_grid 1 1 1 1, [0%Z]); (lattice_grid 1 1 1 1, [1%Z])] [([[0; 1]; [0; 1]], [0%Z]); ([[0; 1]; [0; 1]], [1%Z])]
    [mkCell (1, 1) MT_Tri 0 [0%Z]; c] [mkMaterial "fuel" true]
    [mkMesh false false [(0, 0); (1, 0); (0, 1)] [[0; 1; 2]%Z] [] []] [] [] [].
(** it has no mesh *)
Definition gap_model : model := pair_model (mkCell (1, 1) MT_Invalid (-1) []).
