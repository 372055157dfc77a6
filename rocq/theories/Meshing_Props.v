(** C90: the meshes generateMesh asks gmsh for. *)
From Coq Require Import String ZArith List Bool.
From Verif Require Import Base Meshing_Model Meshing_Spec Meshing_Proofs.
Import ListNotations.
Local Open Scope Z_scope.

(** After gmsh::initialize, for each of the four mesh types: all faces have the shape asked for, with
    straight or quadratic edges as asked for and no nodes inside the faces, after the given number of
    smoothing steps, quadratic faces untangled; the model and the mesh sizes are as they were. *)
Theorem C90_first : forall (F : Type) exit t n m (g : gmsh F), opts g = default -> wanted t n = Some m ->
  exists g', generateMesh exit t n g = Ret g' /\ entities g' = entities g /\ sizes g' = sizes g /\ mesh_of (actions g') = Some m.
Proof.
  intros F exit t n m g Ho Hw. assert (H0 : left_by false (opts g)) by (rewrite Ho; repeat split).
  destruct (generate_ok exit t n g false m H0 Hw) as (g' & E & _ & H2 & H3 & H). exists g'. repeat split; auto. rewrite H. f_equal.
  destruct t; try discriminate Hw; injection Hw as <-; reflexivity.
Qed.
Print Assumptions C90_first.
Definition fresh : gmsh Z := mkG default [(0, 1); (0, 2); (1, 1); (2, 7)] (fun _ => None) [].
Example C90_first_ex : exists g, generateMesh true QuadraticQuad 100 fresh = Ret g /\ mesh_of (actions g) = Some (mkMesh Quadrangles 2 true 100 8 2).
Proof. eexists. split; [reflexivity|]. reflexivity. Qed.

(** After any calls before: order, smoothing and algorithm are those asked for; the faces are quadrangles
    if this call or any call before asked for quadrangles, and triangles otherwise. *)
Theorem C90_history : forall (F : Type) l t n m (g : gmsh F), opts g = default -> wanted t n = Some m ->
  exists g1 g2, calls false l g = Ret g1 /\ generateMesh false t n g1 = Ret g2 /\
    mesh_of (actions g2) = Some (with_shape (if existsb (fun c => quads (fst c)) (l ++ [(t, n)]) then Quadrangles else Triangles) m).
Proof. exact @history_ok. Qed.
Print Assumptions C90_history.
Example C90_history_ex : exists g, calls false [(Tri, 3); (TriQuad, 5); (QuadraticTri, 7); (Quad, 9)] fresh = Ret g /\
  mesh_of (actions g) = Some (mkMesh Quadrangles 1 true 9 8 0).
Proof. eexists. split; reflexivity. Qed.

(** "generateMesh(Tri) makes a mesh of triangles" fails after a call for quadrangles: nothing resets the
    recombination, and the options live as long as gmsh. *)
Theorem C90_triangles_refuted : exists g g' : gmsh Z, generateMesh true Quad 100 fresh = Ret g /\ generateMesh true Tri 100 g = Ret g' /\
  mesh_of (actions g') = Some (mkMesh Quadrangles 1 true 100 5 0).
Proof. eexists. eexists. split; [reflexivity|]. split; reflexivity. Qed.
Print Assumptions C90_triangles_refuted.

(** Every other mesh type is an error: the program ends, or goes on without a new mesh. *)
Theorem C90_invalid : forall (F : Type) (exit : bool) t n (g : gmsh F), wanted t n = None ->
  if exit then generateMesh exit t n g = Fail
  else exists g', generateMesh exit t n g = Ret g' /\ mesh_of (actions g') = mesh_of (actions g) /\ entities g' = entities g /\ sizes g' = sizes g.
Proof.
  intros F exit t n g Hw. pose proof (generate_invalid exit t n g Hw) as H. destruct exit; [exact H|].
  destruct H as (g' & E & Ha & He & Hs & _). exists g'. rewrite Ha. auto.
Qed.
Print Assumptions C90_invalid.
Example C90_invalid_ex : wanted TriQuad 4 = None /\ wanted Invalid 4 = None /\ wanted QuadraticTriQuad 4 = None.
Proof. auto. Qed.

(** setGlobalMeshSize gives the size to every point of the model, and changes nothing else. *)
Theorem C90_size : forall (F : Type) (size : F) (g : gmsh F), let g' := setGlobalMeshSize size g in
  opts g' = opts g /\ entities g' = entities g /\ actions g' = actions g /\
  forall d, (In d (entities g) -> fst d = 0 -> sizes g' d = Some size) /\
    (~ In d (entities g) \/ fst d <> 0 -> sizes g' d = sizes g d).
Proof. exact (fun F size g => conj eq_refl (conj eq_refl (conj eq_refl (size_spec size g)))). Qed.
Print Assumptions C90_size.
Example C90_size_ex : map (sizes (setGlobalMeshSize 7 fresh)) [(0, 1); (0, 2); (1, 1); (2, 7); (0, 3)] = [Some 7; Some 7; None; None; None].
Proof. reflexivity. Qed.
