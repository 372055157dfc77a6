(** Model of the planar quadratic polygons of include/um2/geometry/polygon.hpp.

    A quadratic polygon with N = 2 m vertices is the list of them: the m corners, then the m mid
    nodes.  ASSERTs are no-ops in a release build and are not modelled.  hasSelfIntersection and
    fixSelfIntersection (269-388) are in QInt_Model. *)
From Coq Require Import List Arith ZArith Bool Reals.
From Verif Require Import Base Loops Arith Vec_Model Box_Model Seg_Model Poly_Model QSeg_Model.
Import ListNotations.

Section Ops.
Context {T : Type} (o : arith T).
Notation pt := (T * T)%type.
(** linearPolygon (45-54) *)
Definition linearPolygon {A} (q : list A) : outcome (list A) :=
  mapo (fun i => rd q i) (seq 0 (length q / 2)).
(** area and centroid of the linear polygon: the overloads for triangles (triangle.hpp:249-257,
    271-276) and quadrilaterals (quadrilateral.hpp:291-300, 314-337), else polygon.hpp:143-155, 177-191 *)
Definition lin_area (p : list pt) : outcome T :=
  match p with
  | [a; b; c] => Ret (tri_area o a b c)
  | [a; b; c; d] => Ret (quad_area o a b c d)
  | _ => area o p
  end.
Definition lin_centroid (p : list pt) : outcome pt :=
  match p with
  | [a; b; c] => Ret (tri_centroid o a b c)
  | [a; b; c; d] => Ret (quad_centroid o a b c d)
  | _ => centroid o p
  end.
(** perimeter (106-118), for the length of an edge *)
Definition q_perimeter (len : pt -> pt -> pt -> T) (q : list pt) : outcome T :=
  let m := length q / 2 in
  let* e := getEdgeQ q 0 in
  let '(a, b, c) := e in
  for_ (m - 1) 1 (fun i s =>
    let* e := getEdgeQ q i in
    let '(a, b, c) := e in
    Ret (oadd o s (len a b c))) (len a b c).
(** boundingBox (124-134) *)
Definition edge_box (a b c : pt) : box := qs_box o [fst a; snd a] [fst b; snd b] [fst c; snd c].
Definition q_boundingBox (q : list pt) : outcome box :=
  let m := length q / 2 in
  let* e := getEdgeQ q 0 in
  let '(a, b, c) := e in
  for_ (m - 1) 1 (fun i s =>
    let* e := getEdgeQ q i in
    let '(a, b, c) := e in
    Ret (box_add o s (edge_box a b c))) (edge_box a b c).
(** area (157-171) *)
Definition q_area (q : list pt) : outcome T :=
  let* l := linearPolygon q in
  let* result := lin_area l in
  for_ (length q / 2) 0 (fun i s =>
    let* e := getEdgeQ q i in
    let '(a, b, c) := e in
    Ret (oadd o s (enclosedArea o a b c))) result.
(** centroid (193-208) *)
Definition q_centroid (q : list pt) : outcome pt :=
  let* l := linearPolygon q in
  let* area_sum := lin_area l in
  let* cl := lin_centroid l in
  let* s := for_ (length q / 2) 0 (fun i s =>
    let* e := getEdgeQ q i in
    let '(a, b, c) := e in
    let ea := enclosedArea o a b c in
    Ret (oadd o (fst s) ea, padd o (snd s) (pscale o ea (enclosedCentroid o a b c))))
    (area_sum, pscale o area_sum cl) in
  Ret (pdivs o (snd s) (fst s)).
(** meanChordLength (238-245) *)
Definition q_meanChordLength (len : pt -> pt -> pt -> T) (pi : T) (q : list pt) : outcome T :=
  let* a := q_area q in
  let* l := q_perimeter len q in
  Ret (odiv o (omul o pi a) l).
End Ops.
(** contains (214-226): the first edge p is not left of ends the loop *)
Fixpoint q_contains_from (eps2 : R) (q : list (R * R)) (p : R * R) (n i : nat) : outcome bool :=
  match n with
  | O => Ret true
  | S n' =>
      let* e := getEdgeQ q i in
      let '(a, b, c) := e in
      if negb (qs_isLeft eps2 a b c p) then Ret false else q_contains_from eps2 q p n' (S i)
  end.
Definition q_contains (eps2 : R) (q : list (R * R)) (p : R * R) : outcome bool :=
  q_contains_from eps2 q p (length q / 2) 0.
(** intersect(ray) (251-262): the values written to the buffer *)
Definition q_intersect (q : list (R * R)) (ro rd : R * R) : outcome (list R) :=
  for_ (length q / 2) 0 (fun i hits =>
    let* e := getEdgeQ q i in
    let '(a, b, c) := e in
    Ret (hits ++ qs_intersect a b c ro rd)) [].
