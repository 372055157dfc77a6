(** Model of FaceVertexMesh: include/um2/mesh/face_vertex_mesh.hpp and
    src/mesh/face_vertex_mesh.cpp (validation is in Manifold_Model, sortRayMeshIntersections in
    RayMesh_Model).

    Coordinates are of an arbitrary type [F]; a vertex is a pair.  Vertex ids are [Z] (the caller
    may pass any Int).  Sizes and face numbers are [nat]: that they stay below 2^31 is not modelled.
    A FaceConn is a Vec<N, Int>, here a list whose length is [nverts] of the mesh's kind. *)
From Coq Require Import List Arith ZArith Bool.
From Verif Require Import Base Loops Sort_Model Elem_Model Soup_Model.
Import ListNotations.

(** The four instantiations (face_vertex_mesh.cpp:597-600) *)
Inductive kind := Tri | Quad | Tri6 | Quad8.
(** the template parameter N *)
Definition nverts (k : kind) : nat := match k with Tri => 3 | Quad => 4 | Tri6 => 6 | Quad8 => 8 end.
(** polygonNumEdges<P, N>() (polytope.hpp): N / P *)
Definition nedges (k : kind) : nat := match k with Tri => 3 | Quad => 4 | Tri6 => 3 | Quad8 => 4 end.
Definition quadratic (k : kind) : bool := match k with Tri | Quad => false | _ => true end.
(** getVTKElemType (face_vertex_mesh.cpp:36-50) *)
Definition elem_type (k : kind) : vtk :=
  match k with
  | Tri => V_Triangle | Quad => V_Quad | Tri6 => V_QuadraticTriangle | Quad8 => V_QuadraticQuad
  end.

(** Array write with a signed index. *)
Definition wrz {A} (l : list A) (i : Z) (a : A) : outcome (list A) :=
  if (i <? 0)%Z then Ub else wr l (Z.to_nat i) a.
(** for (auto const & x : l) s = f(x, s) *)
Fixpoint foreach {A S : Type} (l : list A) (f : A -> S -> outcome S) (s : S) : outcome S :=
  match l with [] => Ret s | a :: l' => let* s := f a s in foreach l' f s end.
(** for (i = i0; ...) with l[i] at hand *)
Fixpoint foreachi {A S : Type} (l : list A) (i : nat) (f : nat -> A -> S -> outcome S) (s : S)
  : outcome S :=
  match l with [] => Ret s | a :: l' => let* s := f i a s in foreachi l' (Datatypes.S i) f s end.

(** face_vertex_mesh.hpp:322-370 and polygon.hpp:60-83: the vertices of an edge, end points first,
    of a face given as a list of ids (getEdgeConn) or of points (getEdge) *)
Definition edge_at {A} (k : kind) (c : list A) (i : nat) : outcome (list A) :=
  let m := nedges k in
  if m <=? i then Ub
  else if quadratic k then
    if i <? m - 1 then
      let* a := rd c i in let* b := rd c (i + 1) in let* q := rd c (i + m) in Ret [a; b; q]
    else
      let* a := rd c (m - 1) in let* b := rd c 0 in let* q := rd c (nverts k - 1) in Ret [a; b; q]
  else
    if i <? m - 1 then let* a := rd c i in let* b := rd c (i + 1) in Ret [a; b]
    else let* a := rd c (nverts k - 1) in let* b := rd c 0 in Ret [a; b].

Section Fvm.
Context {F : Type}.
Notation P2 := (F * F)%type.
Notation P3 := (F * F * F)%type.

(** face_vertex_mesh.hpp:66-72 *)
Record mesh := mkMesh {
  is_morton : bool;
  has_vf : bool;
  mv : list P2;
  fv : list (list Z);
  vf_offs : list nat;
  vf : list nat
}.
Definition empty_mesh : mesh := mkMesh false false [] [] [] [].

(** ** Getters and small modifiers *)
(** face_vertex_mesh.hpp:347-370 *)
Definition getEdgeConn (k : kind) (m : mesh) (iface iedge : nat) : outcome (list Z) :=
  let* c := rd (fv m) iface in edge_at k c iedge.
(** face_vertex_mesh.hpp:322-345 *)
Definition getEdge (k : kind) (m : mesh) (iface iedge : nat) : outcome (list P2) :=
  let* c := rd (fv m) iface in
  let* e := edge_at k c iedge in
  mapo (rdz (mv m)) e.
(** face_vertex_mesh.hpp:372-379: the face as a polygon *)
Definition getFace (m : mesh) (i : nat) : outcome (list P2) :=
  let* c := rd (fv m) i in mapo (rdz (mv m)) c.
(** face_vertex_mesh.hpp:394-400 *)
Definition addVertex2 (m : mesh) (p : P2) : mesh :=
  mkMesh (is_morton m) false (mv m ++ [p]) (fv m) (vf_offs m) (vf m).
(** face_vertex_mesh.hpp:402-408 *)
Definition addFace (m : mesh) (c : list Z) : mesh :=
  mkMesh (is_morton m) false (mv m) (fv m ++ [c]) (vf_offs m) (vf m).

(** The swaps of flipFace on one face *)
Definition flip_conn (k : kind) (c : list Z) : outcome (list Z) :=
  match k with
  | Tri => swap_at c 1 2
  | Quad => swap_at c 1 3
  | Tri6 => let* c := swap_at c 1 2 in swap_at c 3 5
  | Quad8 => let* c := swap_at c 1 3 in swap_at c 4 7
  end.
(** face_vertex_mesh.hpp:410-426 *)
Definition flipFace (k : kind) (m : mesh) (i : nat) : outcome mesh :=
  let* c := rd (fv m) i in
  let* c := flip_conn k c in
  let* f := wr (fv m) i c in
  Ret (mkMesh (is_morton m) false (mv m) f (vf_offs m) (vf m)).

(** ** populateVF (face_vertex_mesh.cpp:178-217) *)
(** ++vert_counts[v] for every vertex id (183-190) *)
Definition count_face (face : list Z) (c : list nat) : outcome (list nat) :=
  foreach face (fun v c => let* x := rdz c v in wrz c v (x + 1)) c.
(** std::inclusive_scan *)
Fixpoint scan (acc : nat) (l : list nat) : list nat :=
  match l with [] => [] | x :: l' => (acc + x) :: scan (acc + x) l' end.
(** the body of the second loop (204-212); the state is (_vf, vert_offsets) *)
Definition fill_face (i : nat) (face : list Z) (st : list nat * list nat)
  : outcome (list nat * list nat) :=
  foreach face (fun v st =>
    let '(f, o) := st in
    let* k := rdz o v in
    let* f := wr f k i in
    let* o := wrz o v (k + 1) in
    Ret (f, o)) st.
Definition populateVF (m : mesh) : outcome mesh :=
  let nv := length (mv m) in
  let* counts := foreach (fv m) count_face (repeat 0 nv) in
  let offs := 0 :: scan 0 counts in
  let* total := rd offs nv in
  let* st := foreachi (fv m) 0 fill_face (resized (vf m) total 0, offs) in
  Ret (mkMesh (is_morton m) true (mv m) (fv m) offs (fst st)).

(** ** Morton sorting *)
Variable stdsort : (nat -> nat -> bool) -> list nat -> list nat.
(** The Morton code of a vertex, and of a face's centroid, after scaling by the inverse of the
    extents of the mesh's bounding box: Ub if the scaled point is outside of the unit square
    (Morton_Model; the linear case is FvmMorton_Model) *)
Variable vcode : mesh -> P2 -> outcome Z.
Variable fcode : mesh -> list P2 -> outcome Z.

(** mortonSortPermutation (morton_sort_points.hpp:89-100); with fewer than two points nothing is
    compared, so no code is computed *)
Definition mortonSortPermutation {A} (code : A -> outcome Z) (l : list A) : outcome (list nat) :=
  let n := length l in
  let* codes := if n <=? 1 then Ret (repeat 0%Z n) else mapo code l in
  sortPermutation stdsort Z.ltb codes (repeat 0 n).

(** face_vertex_mesh.cpp:146-176 *)
Definition mortonSortVertices (m : mesh) : outcome mesh :=
  let n := length (mv m) in
  let* perm := mortonSortPermutation (vcode m) (mv m) in
  let* inv := invertPermutation perm (repeat 0 n) in
  let* v := applyPermutation (mv m) perm in
  let* f := mapo (mapo (fun i => let* j := rdz inv i in Ret (Z.of_nat j))) (fv m) in
  Ret (mkMesh (is_morton m) false v f (vf_offs m) (vf m)).

(** face_vertex_mesh.cpp:118-144 *)
Definition mortonSortFaces (m : mesh) : outcome mesh :=
  let* faces := mapo (mapo (rdz (mv m))) (fv m) in
  let* perm := mortonSortPermutation (fcode m) faces in
  let* f := applyPermutation (fv m) perm in
  Ret (mkMesh (is_morton m) false (mv m) f (vf_offs m) (vf m)).

(** face_vertex_mesh.cpp:102-116 *)
Definition mortonSort (m : mesh) : outcome mesh :=
  let had_vf := has_vf m in
  let* m := mortonSortVertices m in
  let* m := mortonSortFaces m in
  let m := mkMesh true (has_vf m) (mv m) (fv m) (vf_offs m) (vf m) in
  if had_vf then populateVF m else Ret m.

(** ** Conversions *)
(** face_vertex_mesh.cpp:223-245; [zero] is the default z of PolytopeSoup::addVertex
    (polytope_soup.hpp:121) *)
Definition to_soup {G} (zero : F) (k : kind) (m : mesh) : outcome (soup P3 G) :=
  let s := fold_left (fun s p => fst (addVertex s (fst p, snd p, zero))) (mv m) empty_soup in
  foreach (fv m) (fun c s => let* r := addElement s (elem_type k) c in Ret (fst r)) s.

(** The vertex loop (face_vertex_mesh.cpp:71-84).  The loop is left at the first vertex out of the
    plane; the vertices after it keep the unspecified value of resize, here [junk].  [far] is
    "abs(p[2] - z) > epsDistance" *)
Fixpoint copy_planar (far : F -> F -> bool) (junk : P2) (z : F) (l : list P3) : list P2 :=
  match l with
  | [] => []
  | (x, y, pz) :: l' =>
      (x, y) :: (if far pz z then map (fun _ => junk) l' else copy_planar far junk z l')
  end.

(** face_vertex_mesh.cpp:53-96.  LOG_ERROR ends the process by default (settings.hpp:29): [Fail].
    [valid] is validate(), or returns its argument if the flag is off *)
Definition from_soup {G} (far : F -> F -> bool) (junk : P2) (valid : mesh -> outcome mesh) (k : kind)
  (s : soup P3 G) : outcome mesh :=
  let types := getElemTypes (etypes s) in
  if negb (length types =? 1) then Fail
  else
    let* t := rd types 0 in
    if negb (vtk_eqb t (elem_type k)) then Fail
    else
      let* v0 := rd (verts s) 0 in
      let v := copy_planar far junk (snd v0) (verts s) in
      let N := nverts k in
      let* f := mapo (fun i => mapo (fun j => rd (econn s) (i * N + j)) (seq 0 N))
                  (seq 0 (length (etypes s))) in
      valid (mkMesh false false v f [] []).

(** ** Queries *)
Section Queries.
(** "polygon contains point" *)
Variable contains : list P2 -> bool.
(** What an edge's intersect(ray, buffer) does: the values it writes from [buffer] on, and how many
    of them it reports as hits.  A line segment writes one value even if it does not report it
    (line_segment.hpp:367-368); a quadratic segment writes its hits (quadratic_segment.hpp:688-699) *)
Variable edge_hits : list P2 -> list F * nat.

(** face_vertex_mesh.hpp:458-468 *)
Fixpoint faceContaining_loop (m : mesh) (i : nat) (fs : list (list Z)) : outcome Z :=
  match fs with
  | [] => Ret (-1)%Z
  | c :: fs' =>
      let* p := mapo (rdz (mv m)) c in
      if contains p then Ret (Z.of_nat i) else faceContaining_loop m (S i) fs'
  end.
Definition faceContaining (m : mesh) : outcome Z := faceContaining_loop m 0 (fv m).

(** polygon.hpp:251-262; [at_] is the position of [buffer] in the caller's array [buf] *)
Definition intersect_face (k : kind) (poly : list P2) (at_ : nat) (buf : list F)
  : outcome (nat * list F) :=
  for_ (nedges k) 0 (fun i st =>
    let '(hits, buf) := st in
    let* e := edge_at k poly i in
    let '(w, h) := edge_hits e in
    let* buf := blit buf (at_ + hits) w in
    Ret (hits + h, buf)) (0, buf).

(** face_vertex_mesh.hpp:470-480: number of hits and the array *)
Definition intersect (k : kind) (m : mesh) (coords : list F) : outcome (nat * list F) :=
  for_ (length (fv m)) 0 (fun i st =>
    let '(hits, coords) := st in
    let* p := getFace m i in
    let* r := intersect_face k p hits coords in
    let '(h, coords) := r in
    Ret (hits + h, coords)) (0, coords).

(** face_vertex_mesh.hpp:482-500: (total_hits, num_faces, coords, offsets, faces) *)
Definition intersect_offsets (k : kind) (m : mesh) (coords : list F) (offsets faces : list nat)
  : outcome (nat * nat * list F * list nat * list nat) :=
  let* offsets := wr offsets 0 0 in
  for_ (length (fv m)) 0 (fun i st =>
    let '(total, nf, coords, offsets, faces) := st in
    let* p := getFace m i in
    let* r := intersect_face k p total coords in
    let '(h, coords) := r in
    if 0 <? h then
      let total := total + h in
      let* offsets := wr offsets (nf + 1) total in
      let* faces := wr faces nf i in
      Ret (total, nf + 1, coords, offsets, faces)
    else Ret (total, nf, coords, offsets, faces)) (0, 0, coords, offsets, faces).
End Queries.
End Fvm.
Arguments mesh : clear implicits.
