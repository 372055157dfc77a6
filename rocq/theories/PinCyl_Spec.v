(** Areas of the faces of a mesh, and the circles of a pin. *)
From Coq Require Import List Arith ZArith Reals.
From Verif Require Import Base Seg_Spec Poly_Spec Fvm_Model Fvm_Spec Manifold_Spec.
Import ListNotations.
Local Open Scope R_scope.

(** the shoelace formula *)
Definition polygon_area (p : list (R * R)) : R :=
  rsum (map (fun e => (fst (fst e) * snd (snd e) - snd (fst e) * fst (snd e)) / 2) (edges p)).
(** the area between the chord from [a] to [b] and the parabolic arc from [a] to [b] through [c] (its value
    halfway), positive on the right of the chord: two thirds of the area of the parallelogram around it, that
    is four thirds of that of the triangle a c b *)
Definition arc_area (a b c : R * R) : R := 4 / 3 * tarea a c b.
Definition face_area (m : mesh R) (c : list Z) (A : R) : Prop :=
  exists p, map Some p = corners (mv m) c /\
  match p with
  | [a; b; c; d] => polygon_area [a; b; c; d] = A
  | [a; b; c; d; ab; bc; cd; da] =>
      polygon_area [a; b; c; d] + (arc_area a b ab + arc_area b c bc + arc_area c d cd + arc_area d a da) = A
  | _ => False
  end.
Definition total_area (m : mesh R) (fs : list (list Z)) (A : R) : Prop :=
  exists As, Forall2 (face_area m) fs As /\ rsum As = A.
(** the k-th circle; circle 0 is the centre *)
Definition circle (radii : list R) (k : nat) : R := nth k (0 :: radii) 0.
(** the radii are positive and increasing, and there is a positive number of rings for each *)
Definition pin_ok (radii : list R) (num_rings : list nat) : Prop :=
  radii <> [] /\ length num_rings = length radii /\ (forall n, In n num_rings -> (0 < n)%nat) /\
  forall k, (k < length radii)%nat -> circle radii k < circle radii (S k).
(** area of one of the rings of the region between circles k and k + 1 *)
Definition ring_area (radii : list R) (num_rings : list nat) (k : nat) : R :=
  PI * (circle radii (S k) ^ 2 - circle radii k ^ 2) / INR (nth k num_rings 0%nat).
(** number of the first ring of region k *)
Definition first_ring (num_rings : list nat) (k : nat) : nat := list_sum (firstn k num_rings).
(** all the vertices of [e] lie on the same side of the square [0, w] x [0, w] *)
Definition on_side (m : mesh R) (w : R) (e : list Z) : Prop :=
  exists ps, map Some ps = corners (mv m) e /\
    ((forall p, In p ps -> fst p = 0) \/ (forall p, In p ps -> fst p = w) \/
     (forall p, In p ps -> snd p = 0) \/ (forall p, In p ps -> snd p = w)).
(** [m] is a mesh of a pin with [na] azimuthal sectors in a square of side [pitch] *)
Definition pin_mesh (k : kind) (m : mesh R) (pitch : R) (radii : list R) (num_rings : list nat) (na : nat) : Prop :=
  let rings := list_sum num_rings in
  let es := all_edges k (fv m) in
  mesh_ok k m /\
  length (fv m) = (na * (rings + 1))%nat /\
  (* the faces of a ring share the area of the ring, and the rings of a region share that of the annulus *)
  (forall k s j, (k < length radii)%nat -> (s < nth k num_rings 0)%nat -> (j < na)%nat ->
     exists c, nth_error (fv m) ((first_ring num_rings k + s) * na + j) = Some c /\
       face_area m c (ring_area radii num_rings k / INR na)) /\
  (* the last faces cover what is outside the last circle *)
  total_area m (skipn (rings * na) (fv m)) (pitch ^ 2 - PI * circle radii (length radii) ^ 2) /\
  total_area m (fv m) (pitch ^ 2) /\
  (forall c, In c (fv m) -> exists A, face_area m c A /\ 0 < A) /\
  (forall v, In v (mv m) -> 0 <= fst v <= pitch /\ 0 <= snd v <= pitch) /\
  (* connectivity: an edge is shared by two faces, one in each direction, unless it lies on the border *)
  NoDup es /\ watertight es /\ (forall e, In e es -> (In (reverse_edge e) es <-> ~ on_side m pitch e)).
