(** Model of the C interface to an MPACT model (src/um2c.cpp), over exact real numbers.

    Simplifications: the pointers of the caller are buffers (lists) given and returned; malloc is a new list; memcpy of the
    vertices or of the connectivity is the list of the numbers in the order in which they lie in memory. The assertions of the
    getters are those of the modelled grids (enabled). A std::sort whose comparator is not a strict weak order on the elements
    is undefined behaviour. *)
From Coq Require Import String.
From Coq Require Import List Arith ZArith Bool Reals.
From Verif Require Import Base Loops Arith Grid_Model Fvm_Model Mpact_Model.
Import ListNotations.
Local Open Scope list_scope.
Local Open Scope R_scope.

(** the eps of the three functions (um2c.cpp:414, 482, 543) *)
Definition eps4 : R := 1 / 10000.

(** assembly.grid().getBox(i).extents(0) *)
Definition layer_height (a : list (list R) * list Z) (i : nat) : outcome R :=
  let* b := rect_getBox (fst a) [Z.of_nat i] in
  let* p := rd b 0 in Ret (snd p - fst p).
(** um2c.cpp:442-452 = 507-516 = 567-576: add the pair if it is not in the vector *)
Definition seen (u : list (Z * R)) (p : Z * R) : bool :=
  existsb (fun q => (fst q =? fst p)%Z && Rltb (Rabs (snd q - snd p)) eps4) u.
Definition add_pair (u : list (Z * R)) (p : Z * R) : list (Z * R) := if seen u p then u else u ++ [p].

(** the loops over the assemblies and their lattices (423-433, 489-501, 550-564); [f] is the rest of the body *)
Definition walk (m : model) (f : Z -> list axis * list Z -> R -> list (Z * R) -> outcome (list (Z * R))) : outcome (list (Z * R)) :=
  foreach (assemblies m) (fun a u =>
    for_ (length (snd a)) 0 (fun i u =>
      let* dz := layer_height a i in
      let* lat_id := rect_getChild Z a [Z.of_nat i] in
      let* lattice := rdz (lattices m) lat_id in
      f lat_id lattice dz u) u) [].
Definition lattice_pairs (m : model) : outcome (list (Z * R)) :=
  walk m (fun lat_id _ dz u => Ret (add_pair u (lat_id, dz))).
Definition rtm_pairs (m : model) : outcome (list (Z * R)) :=
  walk m (fun _ lattice dz u => foreach (snd lattice) (fun rtm_id u => Ret (add_pair u (rtm_id, dz))) u).
Definition cell_pairs (m : model) : outcome (list (Z * R)) :=
  walk m (fun _ lattice dz u => foreach (snd lattice) (fun rtm_id u =>
    let* rtm := rdz (rtms m) rtm_id in
    foreach (snd rtm) (fun cc_id u => Ret (add_pair u (cc_id, dz))) u) u).

(** the comparator (461-464, 522-525, 578-581) *)
Definition cmp (p q : Z * R) : bool :=
  if Rltb (Rabs (snd p - snd q)) eps4 then (fst p <? fst q)%Z else Rltb (snd p) (snd q).
(** the requirement of std::sort on the elements *)
Definition swo {A} (lt : A -> A -> bool) (l : list A) : bool :=
  forallb (fun a => negb (lt a a)) l &&
  forallb (fun a => forallb (fun b => forallb (fun c =>
    (if lt a b && lt b c then lt a c else true) && (if lt a b || lt b c then true else negb (lt a c))) l) l) l.

Section CApi.
Variable stdsort : forall A : Type, (A -> A -> bool) -> list A -> list A.

Definition sort {A} (lt : A -> A -> bool) (l : list A) : outcome (list A) :=
  if swo lt l then Ret (stdsort A lt l) else Ub.
(** the rest of the three functions: n, the ids and the heights *)
Definition output (pairs : outcome (list (Z * R))) : outcome (Z * list Z * list R) :=
  let* u := pairs in
  let* s := sort cmp u in
  Ret (Z.of_nat (length s), map fst s, map snd s).
(** um2c.cpp:409-475 *)
Definition um2MPACTCoarseCellHeights (m : model) := output (cell_pairs m).
(** um2c.cpp:477-536 *)
Definition um2MPACTRTMHeights (m : model) := output (rtm_pairs m).
(** um2c.cpp:538-592 *)
Definition um2MPACTLatticeHeights (m : model) := output (lattice_pairs m).

(** um2c.cpp:594-602 *)
Definition um2MPACTAssemblyHeights (m : model) (asy_id : Z) (heights : list R) : outcome (list R) :=
  let* a := rdz (assemblies m) asy_id in
  for_ (length (snd a)) 0 (fun i heights => let* h := layer_height a i in wr heights i h) heights.

(** um2c.cpp:347-355 *)
Definition um2MPACTCoarseCellMaterialIDs (m : model) (cc_id : Z) (mat_ids : list Z) : outcome (list Z) :=
  let* cc := rdz (cells m) cc_id in
  for_ (length (material_ids cc)) 0 (fun i buf => let* x := rd (material_ids cc) i in wr buf i x) mat_ids.

(** the switch on the mesh type, as in um2c.cpp:366-389 and 613-685; [e] is what follows LOG_ERROR *)
Definition with_mesh {A} (m : model) (cc_id : Z) (e : outcome A) (f : kind -> mesh R -> outcome A) : outcome A :=
  let* cc := rdz (cells m) cc_id in
  match mtype cc with
  | MT_Tri => let* x := rdz (tris m) (mesh_id cc) in f Tri x
  | MT_Quad => let* x := rdz (quads m) (mesh_id cc) in f Quad x
  | MT_Tri6 => let* x := rdz (tri6s m) (mesh_id cc) in f Tri6 x
  | MT_Quad8 => let* x := rdz (quad8s m) (mesh_id cc) in f Quad8 x
  | _ => e
  end.
(** LOG_ERROR ends the program if exit_on_error *)
Variable exit_on_error : bool.
Definition log_error {A} (x : A) : outcome A := if exit_on_error then Fail else Ret x.

(** um2c.cpp:357-392: n and the buffer *)
Definition um2MPACTIntersectCoarseCell (m : model) (cc_id : Z) (edge_hits : list (R * R) -> list R * nat) (buf : list R)
  : outcome (Z * list R) :=
  with_mesh m cc_id (log_error ((-1)%Z, buf)) (fun k x =>
    let* r := intersect edge_hits k x buf in
    let '(n, buf) := r in
    let* s := sort Rltb (firstn n buf) in
    Ret (Z.of_nat n, s ++ skipn n buf)).
(** um2c.cpp:281-308 *)
Definition um2MPACTCoarseCellFaceContaining (m : model) (cc_id : Z) (contains : list (R * R) -> bool) (face_id : Z) : outcome Z :=
  with_mesh m cc_id (log_error face_id) (fun _ x => faceContaining contains x).
(** um2c.cpp:604-686: mesh_type is set before the switch, nothing else after LOG_ERROR. (num_vertices, num_faces, vertices, fv) *)
Definition um2MPACTCoarseCellFaceData (m : model) (cc_id : Z) : outcome (option (Z * Z * list R * list Z)) :=
  with_mesh m cc_id (log_error None) (fun _ x =>
    Ret (Some (Z.of_nat (length (mv x)), Z.of_nat (length (fv x)), flat_map (fun p => [fst p; snd p]) (mv x), concat (fv x)))).
End CApi.
