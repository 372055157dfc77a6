(** Model of src/gmsh/mesh.cpp:27-86: setGlobalMeshSize and generateMesh.

    gmsh is not part of the repository.  Its state is the table of its number options, which live until
    the program changes them, the entities of the current model, the mesh size of each point, and the
    record of the calls that make meshes together with the options in force at the call.
    LOG_INFO only prints. *)
From Coq Require Import String ZArith List Bool.
From Verif Require Import Base.
Import ListNotations.
Local Open Scope Z_scope.

(** element_types.hpp:37-45 *)
Inductive meshtype := Invalid | Tri | Quad | TriQuad | QuadraticTri | QuadraticQuad | QuadraticTriQuad.

Definition options := string -> Z.
Inductive action :=
| Generate (dim : Z) (o : options)       (** gmsh::model::mesh::generate *)
| SetOrder (order : Z) (o : options).    (** gmsh::model::mesh::setOrder *)

Section Meshing.
(** mesh sizes *)
Context {F : Type}.

Record gmsh := mkG { opts : options; entities : list (Z * Z); sizes : Z * Z -> option F; actions : list action }.

(** gmsh::option::setNumber *)
Definition setNumber (k : string) (v : Z) (g : gmsh) : gmsh :=
  mkG (fun x => if String.eqb x k then v else opts g x) (entities g) (sizes g) (actions g).
(** gmsh::model::mesh::generate, setOrder: recorded *)
Definition generate (dim : Z) (g : gmsh) : gmsh := mkG (opts g) (entities g) (sizes g) (actions g ++ [Generate dim (opts g)]).
Definition setOrder (n : Z) (g : gmsh) : gmsh := mkG (opts g) (entities g) (sizes g) (actions g ++ [SetOrder n (opts g)]).
(** gmsh::model::getEntities(dimtags, dim): the entities of this dimension *)
Definition getEntities (dim : Z) (g : gmsh) : list (Z * Z) := filter (fun d => fst d =? dim) (entities g).
(** gmsh::model::mesh::setSize: the entities that are not points are ignored *)
Definition setSize (l : list (Z * Z)) (size : F) (g : gmsh) : gmsh :=
  mkG (opts g) (entities g)
    (fold_left (fun s d => fun x => if (fst d =? 0) && (fst x =? fst d) && (snd x =? snd d) then Some size else s x) l (sizes g)) (actions g).

(** mesh.cpp:27-34 *)
Definition setGlobalMeshSize (size : F) (g : gmsh) : gmsh :=
  let dimtags := getEntities 0 g in
  setSize dimtags size g.

(** mesh.cpp:40-86; LOG_ERROR ends the program if exit_on_error *)
Definition generateMesh (exit_on_error : bool) (t : meshtype) (smooth_iters : Z) (g : gmsh) : outcome gmsh :=
  let g := setNumber "Mesh.SecondOrderIncomplete" 1 g in
  let g := setNumber "Mesh.Smoothing" smooth_iters g in
  match t with
  | Tri =>
      let g := setNumber "Mesh.Algorithm" 5 g in
      Ret (generate 2 g)
  | Quad =>
      let g := setNumber "Mesh.RecombineAll" 1 g in
      let g := setNumber "Mesh.Algorithm" 8 g in
      let g := setNumber "Mesh.SubdivisionAlgorithm" 1 g in
      let g := setNumber "Mesh.RecombinationAlgorithm" 2 g in
      Ret (generate 2 g)
  | QuadraticTri =>
      let g := setNumber "Mesh.Algorithm" 5 g in
      let g := generate 2 g in
      let g := setNumber "Mesh.HighOrderOptimize" 2 g in
      Ret (setOrder 2 g)
  | QuadraticQuad =>
      let g := setNumber "Mesh.RecombineAll" 1 g in
      let g := setNumber "Mesh.Algorithm" 8 g in
      let g := setNumber "Mesh.RecombinationAlgorithm" 2 g in
      let g := generate 2 g in
      let g := setNumber "Mesh.HighOrderOptimize" 2 g in
      Ret (setOrder 2 g)
  | _ => if exit_on_error then Fail else Ret g
  end.

(** a program that calls generateMesh again and again *)
Fixpoint calls (exit_on_error : bool) (l : list (meshtype * Z)) (g : gmsh) : outcome gmsh :=
  match l with
  | [] => Ret g
  | (t, n) :: l => let* g := generateMesh exit_on_error t n g in calls exit_on_error l g
  end.
End Meshing.
Arguments gmsh F : clear implicits.
