(** Model of sortRayMeshIntersections (src/mesh/face_vertex_mesh.cpp:531-591).

    Coordinates are of a type [T] with operator< [ltb] and [avg r0 r1] for "(r0 + r1) / 2".  The
    arrays are distinct (RESTRICT); each is a list, and an access outside of it is Ub.  Array
    indices are [nat]. *)
From Coq Require Import List Arith Bool.
From Verif Require Import Base Loops Sort_Model Soup_Model.
Import ListNotations.

Section RayMesh.
Context {T : Type}.
Variable ltb : T -> T -> bool.
Variable avg : T -> T -> T.
(** std::sort *)
Variable stdsort : forall A : Type, (A -> A -> bool) -> list A -> list A.

(** One step of the search for the two smallest coordinates (561-569) *)
Definition two_smallest (r : T) (st : T * T) : T * T :=
  let '(r0, r1) := st in
  if ltb r r0 then (r, r0) else if ltb r r1 then (r0, r) else (r0, r1).
(** The key of a face (556-571) *)
Definition face_key (coords : list T) (offset next_offset : nat) : outcome T :=
  let* r := rd coords offset in
  let* st := for_ (next_offset - (offset + 1)) (offset + 1) (fun i st =>
    let* r := rd coords i in Ret (two_smallest r st)) (r, r) in
  Ret (avg (fst st) (snd st)).

(** The body of the last loop (578-589); the state is (sorted_coords, sorted_offsets, sorted_faces).
    The copy loop is [blit]; a negative size is undefined behaviour in std::sort. *)
Definition place_face (coords : list T) (offsets faces perm : list nat) (iface : nat)
  (st : list T * list nat * list nat) : outcome (list T * list nat * list nat) :=
  let '(sc, so, sf) := st in
  let* ind := rd perm iface in
  let* a := rd offsets ind in
  let* b := rd offsets (ind + 1) in
  let* at_ := rd so iface in
  if b <? a then Ub
  else
    let* so := wr so (iface + 1) (at_ + (b - a)) in
    let* f := rd faces ind in
    let* sf := wr sf iface f in
    let* c := range coords a b in
    let* sc := blit sc at_ c in
    let* c := range sc at_ (at_ + (b - a)) in
    let* sc := blit sc at_ (stdsort T ltb c) in
    Ret (sc, so, sf).

(** 531-591: (sorted_coords, sorted_offsets, sorted_faces, perm).  The keys are kept in
    sorted_coords until the permutation is known. *)
Definition sortRayMeshIntersections (coords : list T) (offsets faces : list nat)
  (sorted_coords : list T) (sorted_offsets sorted_faces perm : list nat) (num_faces : nat)
  : outcome (list T * list nat * list nat * list nat) :=
  let* sc := for_ num_faces 0 (fun iface sc =>
    let* offset := rd offsets iface in
    let* next_offset := rd offsets (iface + 1) in
    let* k := face_key coords offset next_offset in
    wr sc iface k) sorted_coords in
  let* keys := range sc 0 num_faces in
  let* p := range perm 0 num_faces in
  let* p := sortPermutation (stdsort nat) ltb keys p in
  let* perm := blit perm 0 p in
  let* so := wr sorted_offsets 0 0 in
  let* st := for_ num_faces 0 (place_face coords offsets faces perm) (sc, so, sorted_faces) in
  Ret (fst (fst st), snd (fst st), snd st, perm).
End RayMesh.
