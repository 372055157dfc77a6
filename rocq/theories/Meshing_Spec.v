(** What gmsh's manual says about the meshes its options ask for. *)
From Coq Require Import String ZArith List Bool.
From Verif Require Import Base Meshing_Model.
Import ListNotations.
Local Open Scope Z_scope.

Inductive shape := Triangles | Quadrangles | Both.
Record mesh := mkMesh {
  made_of : shape;
  order : Z;                (** 1: straight edges, 2: a node on each edge *)
  serendipity : bool;       (** no nodes inside the faces *)
  smoothing : Z;            (** smoothing steps *)
  algorithm : Z;            (** 5: Delaunay, 8: frontal Delaunay for quadrangles *)
  optimised : Z }.          (** how curved elements are untangled: 0: not at all, 2: elastic analogy and optimisation *)

(** 2D faces: subdivision 1 splits everything into quadrangles; recombination pairs triangles, and leaves
    none with the full-quad algorithms 2 and 3 *)
Definition faces (o : options) : shape :=
  if o "Mesh.SubdivisionAlgorithm"%string =? 1 then Quadrangles
  else if o "Mesh.RecombineAll"%string =? 0 then Triangles
  else if (o "Mesh.RecombinationAlgorithm"%string =? 2) || (o "Mesh.RecombinationAlgorithm"%string =? 3) then Quadrangles else Both.
(** the mesh after one more call: generate(2) makes a mesh of the default order from scratch, setOrder
    changes the order of the mesh there is *)
Definition step (m : option mesh) (a : action) : option mesh :=
  match a with
  | Generate d o => if d =? 2 then
      Some (mkMesh (faces o) (o "Mesh.ElementOrder"%string) (o "Mesh.SecondOrderIncomplete"%string =? 1) (o "Mesh.Smoothing"%string) (o "Mesh.Algorithm"%string) 0)
      else None
  | SetOrder n o => match m with
      | Some m => Some (mkMesh (made_of m) n (o "Mesh.SecondOrderIncomplete"%string =? 1) (smoothing m) (algorithm m) (o "Mesh.HighOrderOptimize"%string))
      | None => None end
  end.
Definition mesh_of (l : list action) : option mesh := fold_left step l None.

(** gmsh's defaults, after gmsh::initialize *)
Definition default (k : string) : Z :=
  if String.eqb k "Mesh.Algorithm" then 6 else
  if String.eqb k "Mesh.RecombinationAlgorithm" then 1 else
  if String.eqb k "Mesh.Smoothing" then 1 else
  if String.eqb k "Mesh.ElementOrder" then 1 else 0.

(** the mesh that is asked for *)
Definition wanted (t : meshtype) (iters : Z) : option mesh :=
  match t with
  | Tri => Some (mkMesh Triangles 1 true iters 5 0)
  | Quad => Some (mkMesh Quadrangles 1 true iters 8 0)
  | QuadraticTri => Some (mkMesh Triangles 2 true iters 5 2)
  | QuadraticQuad => Some (mkMesh Quadrangles 2 true iters 8 2)
  | _ => None
  end.
Definition quads (t : meshtype) : bool := match t with Quad | QuadraticQuad => true | _ => false end.
Definition with_shape (s : shape) (m : mesh) : mesh := mkMesh s (order m) (serendipity m) (smoothing m) (algorithm m) (optimised m).
