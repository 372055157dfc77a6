(** Model of importing the meshes of the coarse cells of an mpact::Model from a soup (src/mpact/model.cpp:1162-1271), over exact real
    numbers.  The soup is the one read from the file (1168, see Abaqus_Model, Xdmf_Model and Vtk_Model).

    [checks], [exit_on_error]: as in Mpact_Model.  LOG_ERROR is logger::error.  [selfcheck] is checkSelfIntersections, [junk] the value of
    vertices that resize leaves unspecified.  An error while a mesh is validated ends the program, as in Manifold_Model.  A material set is
    looked up by its name only. *)
From Coq Require Import String.
From Coq Require Import List Arith ZArith Bool Reals.
From Verif Require Import Base Loops Arith Box_Model StringView_Model Ascii_Model TextIo_Model Elem_Model Soup_Model Poly_Model QPoly_Model
  PinCyl_Model Grid_Model Fvm_Model Manifold_Model QInt_Model Mpact_Model Export_Model.
Import ListNotations.
Local Open Scope list_scope.
Local Open Scope R_scope.

(** the enumeration of mesh types, as Mpact_Model names it *)
Definition mt_of (t : Elem_Model.mesh_type) : mesh_type :=
  match t with
  | M_Invalid => MT_Invalid | M_Tri => MT_Tri | M_Quad => MT_Quad | M_TriQuad => MT_TriQuad
  | M_QuadraticTri => MT_Tri6 | M_QuadraticQuad => MT_Quad8 | M_QuadraticTriQuad => MT_Tri6Quad8
  end.
(** isCCW() of a face: triangle.hpp:296-301, quadrilateral.hpp:351-358; of a quadratic face that of its corners *)
Definition isCCW_of (k : kind) (p : list (R * R)) : bool :=
  match k, p with
  | Tri, [a; b; c] | Tri6, [a; b; c; _; _; _] => tri_isCCW Rarith a b c
  | Quad, [a; b; c; d] | Quad8, [a; b; c; d; _; _; _; _] => quad_isCCW Rarith eps a b c d
  | _, _ => false
  end.
(** "abs(p[2] - z) > epsDistance" (face_vertex_mesh.cpp:78) *)
Definition far (a z : R) : bool := Rltb eps (Rabs (a - z)).
(** boundingBox of a mesh (face_vertex_mesh.hpp:432-449) *)
Definition box_of (k : kind) (x : mesh R) : outcome (Box_Model.box (T := R)) :=
  if quadratic k then mesh_box Rarith x else Box_Model.boundingBox Rarith (map (fun p => [fst p; snd p]) (mv x)).

(** 1190-1193: the first material of that name *)
Fixpoint find_material (ms : list material) (n : list Z) (i : Z) : option Z :=
  match ms with
  | [] => None
  | x :: ms' => if name_eqb (lit (Mpact_Model.name x)) n then Some i else find_material ms' n (i + 1)
  end.
(** the model with another cell [i] *)
Definition put_cell (m : model) (i : nat) (c : cell) : outcome model :=
  let* cs := wr (cells m) i c in
  Ret (mkModel (core m) (assemblies m) (lattices m) (rtms m) cs (materials m) (tris m) (quads m) (tri6s m) (quad8s m)).
(** 1225-1248: the number of meshes of a kind, and the model with one more *)
Definition num_meshes (m : model) (k : kind) : Z :=
  match k with Tri => size (tris m) | Quad => size (quads m) | Tri6 => size (tri6s m) | Quad8 => size (quad8s m) end.
Definition push_mesh (m : model) (k : kind) (x : mesh R) : model :=
  match k with
  | Tri => set_meshes (tris m ++ [x]) (quads m) (tri6s m) (quad8s m) m
  | Quad => set_meshes (tris m) (quads m ++ [x]) (tri6s m) (quad8s m) m
  | Tri6 => set_meshes (tris m) (quads m) (tri6s m ++ [x]) (quad8s m) m
  | Quad8 => set_meshes (tris m) (quads m) (tri6s m) (quad8s m ++ [x]) m
  end.
(** 1255-1258 *)
Definition shift (x0 y0 : R) (x : mesh R) : mesh R :=
  mkMesh (is_morton x) (has_vf x) (map (fun p => (fst p - x0, snd p - y0)) (mv x)) (fv x) (vf_offs x) (vf x).

Section Import.
Variable stdsort : forall A : Type, (A -> A -> bool) -> list A -> list A.
Variable selfcheck : mesh R -> outcome (mesh R).
Variable junk : R * R.
Variables checks exit_on_error : bool.
Notation assert := (assert checks).

(** validate() in the constructor of a mesh (face_vertex_mesh.cpp:93-95) *)
Definition validated (k : kind) (x : mesh R) : outcome (mesh R) :=
  validate stdsort (isCCW_of k) selfcheck (nedges k * length (fv x)) k x.

(** 1185-1212: the element sets one after the other; the flag says that all materials were found *)
Fixpoint mark (u : soup3) (ms : list material) (names : list (list Z)) (mats : list Z) : outcome (list Z * bool) :=
  match names with
  | [] => Ret (mats, true)
  | n :: names' =>
      let* b := starts_with (mkSv n (length n)) (mkSv (lit "Material_") 9) in
      if b then
        match find_material ms (skipn 9 n) 0 with
        | None => Ret (mats, false)
        | Some imat =>
            let* r := getElsetByName u n [] in
            let ids := match r with Some (ids, _) => ids | None => [] end in
            assert (negb (length ids =? 0)%nat) (
            let* mats := foreach ids (fun id mats =>
              assert ((0 <=? id) && (id <? Z.of_nat (length (etypes u))))%Z (wrz mats id (to_int8 imat))) mats in
            mark u ms names' mats)
        end
      else mark u ms names' mats
  end.

(** 1174-1270: one cell; the state is the model and cc_name *)
Definition import_cell (s : soup3) (icc : nat) (st : model * list Z) : outcome ((model * list Z) * bool) :=
  let '(m, cc_name) := st in
  let halt {A} (x : A) : outcome (A * bool) := if exit_on_error then Fail else Ret (x, false) in
  let* r := getSubset stdsort s cc_name empty_soup in
  let '(u, e) := r in
  if e && exit_on_error then Fail
  else
    let* cc_name := incrementASCIINumber cc_name in
    let t := mt_of (getMeshType (getElemTypes (etypes u))) in
    assert (match t with MT_Invalid | MT_TriQuad | MT_Tri6Quad8 => false | _ => true end) (
    let* cc := rd (cells m) icc in
    let* r := mark u (materials m) (snames u) (repeat (-1)%Z (length (etypes u))) in
    let '(mats, found) := r in
    let* m := put_cell m icc (mkCell (xy_extents cc) t (mesh_id cc) mats) in
    if negb found then halt (m, cc_name)
    else if existsb (Z.eqb (-1)) mats then halt (m, cc_name)
    else
      match kind_of t with
      | None => halt (m, cc_name)
      | Some k =>
          let id := num_meshes m k in
          let* x := from_soup far junk (validated k) k u in
          let* b := box_of k x in
          let* x0 := rd (bmin b) 0 in let* y0 := rd (bmin b) 1 in
          let* x1 := rd (bmax b) 0 in let* y1 := rd (bmax b) 1 in
          let m := push_mesh m k (shift x0 y0 x) in
          let* m := put_cell m icc (mkCell (xy_extents cc) t id mats) in
          assert (Mpact_Model.isApprox (x1 - x0, y1 - y0) (xy_extents cc)) (Ret ((m, cc_name), true))
      end).
(** 1162-1271 *)
Definition importCoarseCellMeshes (m : model) (s : soup3) : outcome model :=
  assert (negb (length (materials m) =? 0)%nat) (
  let* r := loop (length (cells m)) 0 (import_cell s) (m, lit "Coarse_Cell_00000") in
  Ret (fst (fst r))).
End Import.
