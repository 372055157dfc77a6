(** C30: quadratic polygons *)
From Coq Require Import List Arith ZArith Reals Lia Lra Bool.
From Coquelicot Require Import Coquelicot.
From Verif Require Import Base Arith Vec_Model Box_Model Seg_Model Seg_Spec Poly_Model Poly_Spec QSeg_Model QSeg_Spec
  QSeg_Len_Proofs QPoly_Model QPoly_Spec QPoly_Proofs.
Import ListNotations.
Local Open Scope R_scope.

(** For every polygon with corners [vs] and mid nodes [ms], the area is the boundary integral of
    (x dy - y dx) / 2 over its curved edges, and is the area of the linear polygon plus the signed areas
    between the edges and their chords. *)
Theorem C30_area : forall vs ms, vs <> [] -> length vs = length ms -> exists A Is,
  q_area Rarith (vs ++ ms) = Ret A /\ integrals green (qedges vs ms) Is /\ A = rsum Is /\
  exists Al, area Rarith vs = Ret Al /\ A = Al + rsum (map (eget (enclosedArea Rarith)) (qedges vs ms)).
Proof. exact q_area_ok. Qed.
Print Assumptions C30_area.
Example C30_area_example : let vs := [(0, 0); (4, 0); (0, 4)] in let ms := [(2, -1); (3, 3); (0, 2)] in
  q_area Rarith (vs ++ ms) = Ret (8 + 8 / 3 + 16 / 3).
Proof. exact q_example. Qed.
(** If every mid node is on the line of its edge, the area is that of the linear polygon. *)
Theorem C30_area_straight : forall vs ms, vs <> [] -> length vs = length ms ->
  (forall a b c, In (a, b, c) (qedges vs ms) -> orient a b c = 0) -> q_area Rarith (vs ++ ms) = area Rarith vs.
Proof. exact q_area_straight. Qed.
Print Assumptions C30_area_straight.
(** If every mid node is on the middle half of its edge, area, perimeter and mean chord length are those
    of the linear polygon. *)
Theorem C30_straight : forall eps2 pi vs ms A P, 0 < eps2 -> vs <> [] -> length vs = length ms ->
  (forall a b c, In (a, b, c) (qedges vs ms) -> mid_half a b c) -> area Rarith vs = Ret A -> perimeter Rarith vs = Ret P ->
  q_area Rarith (vs ++ ms) = Ret A /\ q_perimeter Rarith (qs_length Rarith ln eps2) (vs ++ ms) = Ret P /\
  q_meanChordLength Rarith (qs_length Rarith ln eps2) pi (vs ++ ms) = meanChordLength Rarith pi vs.
Proof. exact q_straight_ok. Qed.
Print Assumptions C30_straight.
Example C30_straight_example :
  forall a b c, In (a, b, c) (qedges [(0, 0); (4, 0); (4, 4); (0, 4)] [(2, 0); (4, 1); (2, 4); (0, 3)]) -> mid_half a b c.
Proof. exact q_straight_example. Qed.
(** The perimeter is the sum of the arc lengths of the edges. *)
Theorem C30_perimeter : forall eps2 vs ms, 0 < eps2 -> vs <> [] -> length vs = length ms ->
  (forall a b c, In (a, b, c) (qedges vs ms) ->
     mid_half a b c \/ (orient a b c <> 0 /\ isStraight Rarith eps2 a b c = false)) ->
  exists P Ls, q_perimeter Rarith (qs_length Rarith ln eps2) (vs ++ ms) = Ret P /\
    integrals arclength (qedges vs ms) Ls /\ P = rsum Ls.
Proof. exact q_perimeter_arc. Qed.
Print Assumptions C30_perimeter.
(** The centroid times the area is the pair of first moments, as boundary integrals. *)
Theorem C30_centroid : forall vs ms Al A, length vs = length ms -> area Rarith vs = Ret Al -> Al <> 0 ->
  (forall a b c, In (a, b, c) (qedges vs ms) -> a <> b) -> q_area Rarith (vs ++ ms) = Ret A -> A <> 0 ->
  exists c Xs Ys, q_centroid Rarith (vs ++ ms) = Ret c /\
    integrals green_x (qedges vs ms) Xs /\ integrals green_y (qedges vs ms) Ys /\
    A * fst c = rsum Xs /\ A * snd c = rsum Ys.
Proof. exact q_centroid_ok. Qed.
Print Assumptions C30_centroid.
(** A polygon that meets the hypotheses of C30_perimeter, C30_centroid and C30_intersect. *)
Example C30_curved_example : let vs := [(0, 0); (4, 0); (0, 4)] in let ms := [(2, -1); (3, 3); (0, 2)] in
  (forall a b c, In (a, b, c) (qedges vs ms) ->
     a <> b /\ (mid_half a b c \/ (orient a b c <> 0 /\ isStraight Rarith (1/100) a b c = false)) /\
     ~ (parallel (fst b - fst a, snd b - snd a) (1, 0) /\ parallel (fst c - fst a, snd c - snd a) (1, 0))) /\
  area Rarith vs = Ret 8.
Proof. exact q_curved_example. Qed.
(** contains: p is to the left of every edge (isLeft itself is C66). *)
Theorem C30_contains : forall eps2 vs ms p, length vs = length ms -> exists r, q_contains eps2 (vs ++ ms) p = Ret r /\
  (r = true <-> forall a b c, In (a, b, c) (qedges vs ms) -> qs_isLeft eps2 a b c p = true).
Proof. exact q_contains_ok. Qed.
Print Assumptions C30_contains.
(** The bounding box contains the curved edges and is the smallest box that does. *)
Theorem C30_boundingBox : forall vs ms, vs <> [] -> length vs = length ms -> exists x0 y0 x1 y1,
  q_boundingBox Rarith (vs ++ ms) = Ret (mkBox [x0; y0] [x1; y1]) /\ encloses (qedges vs ms) x0 y0 x1 y1.
Proof. exact q_box_ok. Qed.
Print Assumptions C30_boundingBox.
(** The ray hits reported are those on the edges. *)
Theorem C30_intersect : forall vs ms ro d, length vs = length ms -> fst d * fst d + snd d * snd d = 1 ->
  (forall a b c, In (a, b, c) (qedges vs ms) ->
    ~ (parallel (fst b - fst a, snd b - snd a) d /\ parallel (fst c - fst a, snd c - snd a) d)) ->
  exists hits, q_intersect (vs ++ ms) ro d = Ret hits /\ (length hits <= 2 * length vs)%nat /\
    forall r, In r hits <-> 0 <= r /\ exists a b c s, In (a, b, c) (qedges vs ms) /\ 0 <= s <= 1 /\ ray2 ro d r = curve2 a b c s.
Proof. exact q_intersect_ok. Qed.
Print Assumptions C30_intersect.
(** Flipping a quadratic triangle negates its area; flipping a quadratic quadrilateral need not. *)
Theorem C30_flip_triangle : forall q, length q = 6%nat -> exists q' A,
  tri6_flip q = Ret q' /\ q_area Rarith q = Ret A /\ q_area Rarith q' = Ret (- A).
Proof. exact tri6_area_flip. Qed.
Print Assumptions C30_flip_triangle.
Theorem C30_flip_quadrilateral_refuted : exists q q' A, length q = 8%nat /\ quad8_flip q = Ret q' /\
  q_area Rarith q = Ret A /\ q_area Rarith q' <> Ret (- A).
Proof. exact quad8_area_flip. Qed.
Print Assumptions C30_flip_quadrilateral_refuted.
