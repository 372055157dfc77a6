(** Model of the planar linear polygons: include/um2/geometry/polygon.hpp, triangle.hpp and
    quadrilateral.hpp, over an arbitrary arithmetic.

    A polygon with N vertices is the list of them.  ASSERTs are no-ops in a release build and are not
    modelled. *)
From Coq Require Import List Arith ZArith Bool.
From Verif Require Import Base Loops Arith Vec_Model Box_Model Seg_Model.
Import ListNotations.

Section Ops.
Context {T : Type} (o : arith T).
Notation pt := (T * T)%type.
(** the literal 3 *)
Definition o3 : T := oadd o (o2 o) (o1 o).
Definition pdivs (a : pt) (s : T) : pt := (odiv o (fst a) s, odiv o (snd a) s).
(** vec.hpp distanceTo in the plane *)
Definition pdist (a b : pt) : T :=
  let d := psub o a b in osqrt o (oadd o (omul o (fst d) (fst d)) (omul o (snd d) (snd d))).

(** * polygon.hpp *)
(** getEdge of a linear polygon (61-70) *)
Definition getEdge {A} (p : list A) (i : nat) : outcome (A * A) :=
  let n := length p in
  if i <? n - 1 then let* a := rd p i in let* b := rd p (i + 1) in Ret (a, b)
  else let* a := rd p (n - 1) in let* b := rd p 0 in Ret (a, b).
(** perimeter (92-104) *)
Definition perimeter (p : list pt) : outcome T :=
  let n := length p in
  let* a := rd p (n - 1) in
  let* b := rd p 0 in
  for_ (n - 1) 0 (fun i s =>
    let* a := rd p i in let* b := rd p (i + 1) in Ret (oadd o s (pdist a b))) (pdist a b).
(** area (143-155) *)
Definition area (p : list pt) : outcome T :=
  let n := length p in
  let* a := rd p (n - 1) in
  let* b := rd p 0 in
  let* sum := for_ (n - 1) 0 (fun i s =>
    let* a := rd p i in let* b := rd p (i + 1) in Ret (oadd o s (cross2 o a b))) (cross2 o a b) in
  Ret (odiv o sum (o2 o)).
(** centroid (177-191) *)
Definition centroid (p : list pt) : outcome pt :=
  let n := length p in
  let* a := rd p (n - 1) in
  let* b := rd p 0 in
  let area_sum := cross2 o a b in
  let centroid_sum := pscale o area_sum (padd o a b) in
  let* s := for_ (n - 1) 0 (fun i s =>
    let* a := rd p i in
    let* b := rd p (i + 1) in
    let c := cross2 o a b in
    Ret (oadd o (fst s) c, padd o (snd s) (pscale o c (padd o a b)))) (area_sum, centroid_sum) in
  Ret (pdivs (snd s) (omul o o3 (fst s))).
(** meanChordLength (238-245), for the value of pi *)
Definition meanChordLength (pi : T) (p : list pt) : outcome T :=
  let* a := area p in
  let* l := perimeter p in
  Ret (odiv o (omul o pi a) l).

(** * triangle.hpp *)
(** area (249-257) *)
Definition tri_area (a b c : pt) : T := odiv o (cross2 o (psub o b a) (psub o c a)) (o2 o).
(** centroid (271-276) *)
Definition tri_centroid (a b c : pt) : pt := pdivs (padd o (padd o a b) c) o3.
(** isCCW (296-301) *)
Definition tri_isCCW (a b c : pt) : bool := areCCW o a b c.
(** contains (337-349) *)
Definition tri_contains (a b c p : pt) : bool := areCCW o a b p && areCCW o b c p && areCCW o c a p.
(** flip (315-320): the vertices afterwards *)
Definition tri_flip {A} (v : A * A * A) : A * A * A := let '(a, b, c) := v in (a, c, b).

(** * quadrilateral.hpp *)
(** isConvex (246-258) *)
Definition quad_isConvex (a b c d : pt) : bool :=
  areCCW o a b c && areCCW o b c d && areCCW o c d a && areCCW o d a b.
(** area (291-300) *)
Definition quad_area (a b c d : pt) : T := odiv o (cross2 o (psub o c a) (psub o d b)) (o2 o).
(** centroid (314-337) *)
Definition quad_centroid (a b c d : pt) : pt :=
  let v10 := psub o b a in
  let v20 := psub o c a in
  let v30 := psub o d a in
  let a1 := cross2 o v10 v20 in
  let a2 := cross2 o v20 v30 in
  let a12 := oadd o a1 a2 in
  pdivs (padd o (padd o (pscale o a1 b) (pscale o a2 d)) (pscale o a12 (padd o a c))) (omul o o3 a12).
(** isCCW (351-358) *)
Definition quad_isCCW (eps : T) (a b c d : pt) : bool := areApproxCCW o eps a b c && areApproxCCW o eps a c d.
(** contains (383-394) *)
Definition quad_contains (a b c d p : pt) : bool :=
  areCCW o a b p && areCCW o b c p && areCCW o c d p && areCCW o d a p.
(** flip (372-377) *)
Definition quad_flip {A} (v : A * A * A * A) : A * A * A * A := let '(a, b, c, d) := v in (a, d, c, b).
End Ops.

(** * quadratic_triangle.hpp flip (247-253), quadratic_quadrilateral.hpp flip (270-276) and getEdge of
    a quadratic polygon (polygon.hpp:72-83), on any vertex type *)
Definition swap_at {A} (l : list A) (i j : nat) : outcome (list A) :=
  let* a := rd l i in
  let* b := rd l j in
  let* l := wr l i b in
  wr l j a.
Definition tri6_flip {A} (v : list A) : outcome (list A) :=
  let* v := swap_at v 1 2 in swap_at v 3 5.
Definition quad8_flip {A} (v : list A) : outcome (list A) :=
  let* v := swap_at v 1 3 in swap_at v 4 7.
Definition getEdgeQ {A} (q : list A) (i : nat) : outcome (A * A * A) :=
  let m := length q / 2 in
  if i <? m - 1 then
    let* a := rd q i in let* b := rd q (i + 1) in let* c := rd q (i + m) in Ret (a, b, c)
  else let* a := rd q (m - 1) in let* b := rd q 0 in let* c := rd q (length q - 1) in Ret (a, b, c).
