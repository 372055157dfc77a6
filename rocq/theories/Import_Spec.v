(** What it means to import the meshes of the coarse cells of a model from a soup. *)
From Coq Require Import String.
From Coq Require Import List Arith ZArith Bool Reals.
From Verif Require Import Base Arith TextIo_Model Elem_Model Soup_Model Soup_Spec Seg_Spec QPoly_Spec PinCyl_Model Grid_Model Fvm_Model Fvm_Spec Manifold_Spec Mpact_Model Mpact_Spec
  Export_Spec Import_Model.
Import ListNotations.
Local Open Scope list_scope.
Local Open Scope R_scope.
Notation pt3 := (R * R * R)%type (only parsing).

(** names of sets *)
Definition cell_set (i : nat) : list Z := lit "Coarse_Cell_" ++ digits5 (Z.of_nat i).
Definition material_set (e : elset R) (n : list Z) : Prop := es_name e = lit "Material_" ++ n.
(** [z] is the id of the first material called [n] *)
Definition first_called (ms : list material) (n : list Z) (z : Z) : Prop :=
  exists i x, z = Z.of_nat i /\ nth_error ms i = Some x /\ lit (Mpact_Model.name x) = n /\
    forall j y, (j < i)%nat -> nth_error ms j = Some y -> lit (Mpact_Model.name y) <> n.
(** the material of an element: that of the last material set that contains it *)
Definition told (a : asoup pt3 R) (ms : list material) (id mat : Z) : Prop :=
  exists before e after n, a_elsets a = before ++ e :: after /\ material_set e n /\ In id (es_ids e) /\ first_called ms n mat /\
    forall e' n', In e' after -> material_set e' n' -> ~ In id (es_ids e').

(** the mesh with the vertices and elements of a planar soup *)
Definition outline (c : asoup pt3 R) : mesh R := mkMesh false false (map fst (a_verts c)) (map snd (a_elems c)) [] [].
(** the curved edges of a face of a mesh: the corners come first, then the mid nodes *)
Definition face_edges (x : mesh R) (c : list Z) : list ((R * R) * (R * R) * (R * R)) :=
  let p := map (vertex x) c in let n := (length c / 2)%nat in qedges (firstn n p) (skipn n p).
(** the smallest box around a mesh: around its vertices, or around the curved edges of its faces *)
Definition box_around (k : kind) (x : mesh R) (x0 y0 x1 y1 : R) : Prop :=
  if quadratic k then encloses (flat_map (face_edges x) (fv x)) x0 y0 x1 y1
  else (forall p, In p (mv x) -> x0 <= fst p <= x1 /\ y0 <= snd p <= y1) /\
    (exists p, In p (mv x) /\ fst p = x0) /\ (exists p, In p (mv x) /\ fst p = x1) /\
    (exists p, In p (mv x) /\ snd p = y0) /\ (exists p, In p (mv x) /\ snd p = y1).
Definition moved (x0 y0 : R) (x : mesh R) : mesh R :=
  mkMesh (is_morton x) (has_vf x) (map (fun p => (fst p - x0, snd p - y0)) (mv x)) (fv x) (vf_offs x) (vf x).

(** the self-intersection check of quadratic meshes keeps the faces and the number of vertices (C71_selfcheck) *)
Definition keeps_faces (selfcheck : mesh R -> outcome (mesh R)) : Prop :=
  forall k x x', quadratic k = true -> mesh_ok k x -> selfcheck x = Ret x' -> fv x' = fv x /\ length (mv x') = length (mv x).

(** ** What validation does *)
(** the corners run around the face in the positive direction; for quadrilaterals up to the tolerance *)
Definition anticlockwise (k : kind) (p : list (R * R)) : Prop :=
  match k, p with
  | Tri, [a; b; c] | Tri6, [a; b; c; _; _; _] => 0 <= orient a b c
  | Quad, [a; b; c; d] | Quad8, [a; b; c; d; _; _; _; _] => - eps <= orient a b c /\ - eps <= orient a c d
  | _, _ => False
  end.
(** the face in the other direction; of the eight nodes of a quadratic quadrilateral two stay in place (see C45_quad8_refuted) *)
Definition mirrored (k : kind) (c : list Z) : list Z :=
  match k, c with
  | Tri, [a; b; c] => [a; c; b]
  | Quad, [a; b; c; d] => [a; d; c; b]
  | Tri6, [a; b; c; ab; bc; ca] => [a; c; b; ca; bc; ab]
  | Quad8, [a; b; c; d; ab; bc; cd; da] => [a; d; c; b; da; bc; cd; ab]
  | _, _ => []
  end.
(** the mesh after validation: clockwise faces are turned, the faces are watertight, and a quadratic mesh has passed the check of
    self-intersections *)
Definition validation (selfcheck : mesh R -> outcome (mesh R)) (k : kind) (x x' : mesh R) : Prop :=
  exists fs, length fs = length (fv x) /\
    (forall i c, nth_error (fv x) i = Some c -> exists p, map Some p = corners (mv x) c /\
       (anticlockwise k p /\ nth_error fs i = Some c \/ ~ anticlockwise k p /\ nth_error fs i = Some (mirrored k c))) /\
    watertight (all_edges k fs) /\
    let y := mkMesh (is_morton x) (has_vf x) (mv x) fs (vf_offs x) (vf x) in
    if quadratic k then selfcheck y = Ret x' else x' = y.

Section Spec.
(** the validation of a mesh, and whether assertions are enabled *)
Variable valid : kind -> mesh R -> mesh R -> Prop.
Variable checks : bool.
(** The set of cell [i] in the soup gives a mesh [x] with faces of kind [k] and the materials [mats]: its elements are of that kind, the
    mesh of them is accepted by the validation and moved to the origin, every element has a material, and the material sets that
    share elements with it name materials of the model.  With assertions the mesh is as large as the cell. *)
Definition imports (a : asoup pt3 R) (ms : list material) (ext : R * R) (i : nat) (k : kind) (x : mesh R) (mats : list Z) : Prop :=
  exists e c x' x0 y0 x1 y1,
    In e (a_elsets a) /\ es_name e = cell_set i /\ subset_of a (es_name e) (es_ids e) c /\
    (forall t conn, In (t, conn) (a_elems c) -> t = elem_type k) /\
    valid k (outline c) x' /\ box_around k x' x0 y0 x1 y1 /\ x = moved x0 y0 x' /\
    (checks = true -> near (x1 - x0) (y1 - y0) (fst ext) (snd ext)) /\
    Forall2 (told a ms) (es_ids e) mats /\
    (forall e' n id, In e' (a_elsets a) -> material_set e' n -> In id (es_ids e) -> In id (es_ids e') -> exists z, first_called ms n z).

(** a mesh and the materials of its faces for each cell *)
Notation job := (kind * mesh R * list Z)%type (only parsing).
Definition kind_eq (k k' : kind) : bool :=
  match k, k' with Tri, Tri | Quad, Quad | Tri6, Tri6 | Quad8, Quad8 => true | _, _ => false end.
Definition of_kind (k : kind) (js : list job) : list (mesh R) :=
  map (fun j => snd (fst j)) (filter (fun j => kind_eq k (fst (fst j))) js).
Definition meshes (m : model) (k : kind) : list (mesh R) :=
  match k with Tri => tris m | Quad => quads m | Tri6 => tri6s m | Quad8 => quad8s m end.
Definition type_of (k : kind) : mesh_type :=
  match k with Tri => MT_Tri | Quad => MT_Quad | Tri6 => MT_Tri6 | Quad8 => MT_Quad8 end.
(** [m'] is [m] with the meshes of [js] added in order, cell [i] refers to the [i]-th of them, and nothing else is changed; there may be
    fewer of them than cells *)
Definition updated (m : model) (js : list job) (m' : model) : Prop :=
  core m' = core m /\ assemblies m' = assemblies m /\ lattices m' = lattices m /\ rtms m' = rtms m /\ materials m' = materials m /\
  (forall k, meshes m' k = meshes m k ++ of_kind k js) /\
  length (cells m') = length (cells m) /\
  (forall i c k x mats, nth_error (cells m) i = Some c -> nth_error js i = Some (k, x, mats) ->
    nth_error (cells m') i =
      Some (mkCell (xy_extents c) (type_of k) (Z.of_nat (length (meshes m k ++ of_kind k (firstn i js)))) mats)) /\
  (forall i, (length js <= i)%nat -> nth_error (cells m') i = nth_error (cells m) i).
(** the first cells have these meshes *)
Definition each (a : asoup pt3 R) (m : model) (js : list job) : Prop :=
  forall i c k x mats, nth_error (cells m) i = Some c -> nth_error js i = Some (k, x, mats) ->
    imports a (materials m) (xy_extents c) i k x mats.
End Spec.

(** a soup that can be read as a planar mesh: elements of the four kinds have as many vertices as the kind says, and all the vertices are
    within the tolerance of a plane of constant z *)
Definition planar (a : asoup pt3 R) : Prop :=
  (forall k conn, In (elem_type k, conn) (a_elems a) -> length conn = nverts k) /\
  (forall p q, In p (a_verts a) -> In q (a_verts a) -> Rabs (snd p - snd q) <= eps).
(** [m'] is [m] with another cell [i] *)
Definition with_cell (m : model) (i : nat) (c : cell) (m' : model) : Prop :=
  core m' = core m /\ assemblies m' = assemblies m /\ lattices m' = lattices m /\ rtms m' = rtms m /\ materials m' = materials m /\
  (forall k, meshes m' k = meshes m k) /\ length (cells m') = length (cells m) /\ nth_error (cells m') i = Some c /\
  forall j, j <> i -> nth_error (cells m') j = nth_error (cells m) j.
