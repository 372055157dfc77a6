(** The Morton codes mortonSort uses for linear meshes (exact arithmetic): vertices, and centroids
    of triangles, scaled by the inverse of the extents of the bounding box.  There is no
    translation, so a mesh whose bounding box does not start at the origin leaves the unit square. *)
From Coq Require Import List ZArith Reals.
From Verif Require Import Base Loops Morton_Model Fvm_Model.
Import ListNotations.
Local Open Scope R_scope.

(** boundingBox(begin, end) (axis_aligned_box.hpp:332-351): ((xmin, ymin), (xmax, ymax)); it reads
    the first point of an empty range *)
Definition bbox (l : list (R * R)) : outcome ((R * R) * (R * R)) :=
  match l with
  | [] => Ub
  | p :: l' =>
      Ret (fold_left (fun b q =>
             ((Rmin (fst (fst b)) (fst q), Rmin (snd (fst b)) (snd q)),
              (Rmax (fst (snd b)) (fst q), Rmax (snd (snd b)) (snd q)))) l' (p, p))
  end.
(** mortonEncode(p * (1 / extents)) (face_vertex_mesh.cpp:133-139, 154-164; morton_sort_points.hpp:97).
    Extents of zero, an infinity in the code, are not meaningful here. *)
Definition scaled_code (l : list (R * R)) (p : R * R) : outcome Z :=
  let* b := bbox l in
  let ix := 1 / (fst (snd b) - fst (fst b)) in
  let iy := 1 / (snd (snd b) - snd (fst b)) in
  let* c := encode2_32_float (fun r => r) (fst p * ix) (snd p * iy) in
  Ret (Z.of_N c).
(** mortonSortVertices' key *)
Definition linear_vcode (m : mesh R) (p : R * R) : outcome Z := scaled_code (mv m) p.
(** centroid of a triangle (triangle.hpp:271-276) *)
Definition tri_centroid (p : list (R * R)) : outcome (R * R) :=
  let* a := rd p 0 in let* b := rd p 1 in let* c := rd p 2 in
  Ret ((fst a + fst b + fst c) / 3, (snd a + snd b + snd c) / 3).
(** mortonSortFaces' key in a TriFVM *)
Definition tri_fcode (m : mesh R) (p : list (R * R)) : outcome Z :=
  let* c := tri_centroid p in scaled_code (mv m) c.
