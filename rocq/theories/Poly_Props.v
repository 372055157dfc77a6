(** C27, C28: planar polygons *)
From Coq Require Import List Arith ZArith Reals Lia Lra Bool Sorting.Permutation.
From Verif Require Import Base Arith Vec_Model Seg_Model Seg_Spec Poly_Model Poly_Spec Poly_Proofs.
Import ListNotations.
Local Open Scope R_scope.

(** * C27 *)
(** A counter-clockwise triangle contains exactly the convex combinations of its vertices. *)
Theorem C27_triangle : forall a b c p, 0 < orient a b c ->
  (tri_contains Rarith a b c p = true <-> hull [a; b; c] p).
Proof. exact tri_contains_ok. Qed.
Print Assumptions C27_triangle.
Example C27_example_triangle : 0 < orient (0, 0) (2, 0) (0, 2) /\
  tri_contains Zarith (0, 0)%Z (2, 0)%Z (0, 2)%Z (1, 1)%Z = true /\ tri_contains Zarith (0, 0)%Z (2, 0)%Z (0, 2)%Z (2, 1)%Z = false.
Proof. split; [unfold orient; cbn; lra|]. split; reflexivity. Qed.
(** The strict inequality is needed: a flat triangle passes isCCW but contains points that are not
    between its vertices. *)
Theorem C27_degenerate_refuted : exists a b c p,
  tri_isCCW Rarith a b c = true /\ tri_contains Rarith a b c p = true /\ ~ hull [a; b; c] p.
Proof. exact degenerate_refuted. Qed.
Print Assumptions C27_degenerate_refuted.
(** A convex quadrilateral of positive area contains exactly the convex combinations of its vertices. *)
Theorem C27_quadrilateral : forall a b c d p,
  quad_isConvex Rarith a b c d = true -> 0 < quad_area Rarith a b c d ->
  (quad_contains Rarith a b c d p = true <-> hull [a; b; c; d] p).
Proof. exact quad_contains_ok. Qed.
Print Assumptions C27_quadrilateral.
Example C27_example_quadrilateral :
  quad_isConvex Zarith (0, 0)%Z (4, 0)%Z (4, 2)%Z (0, 2)%Z = true /\ quad_area Zarith (0, 0)%Z (4, 0)%Z (4, 2)%Z (0, 2)%Z = 8%Z.
Proof. split; reflexivity. Qed.
(** isCCW is the sign of the area; flip is an involution on the same vertices that negates it. *)
Theorem C27_triangle_orientation : forall a b c,
  (tri_isCCW Rarith a b c = true <-> 0 <= tarea a b c) /\
  tri_flip (tri_flip (a, b, c)) = (a, b, c) /\
  (forall a' b' c', tri_flip (a, b, c) = (a', b', c') ->
     Permutation [a; b; c] [a'; b'; c'] /\
     tri_area Rarith a' b' c' = - tri_area Rarith a b c /\
     (tarea a b c <> 0 -> tri_isCCW Rarith a' b' c' = negb (tri_isCCW Rarith a b c))).
Proof. exact tri_orient_ok. Qed.
Print Assumptions C27_triangle_orientation.
Example C27_example_orientation : tri_isCCW Zarith (0, 0)%Z (2, 0)%Z (0, 2)%Z = true /\ tri_isCCW Zarith (0, 0)%Z (0, 2)%Z (2, 0)%Z = false.
Proof. split; reflexivity. Qed.
(** The quadrilateral's isCCW has a tolerance eps. *)
Theorem C27_quadrilateral_orientation : forall eps a b c d, 0 <= eps ->
  (quad_isConvex Rarith a b c d = true -> quad_isCCW Rarith eps a b c d = true) /\
  (quad_isCCW Rarith eps a b c d = true -> - eps <= quad_area Rarith a b c d) /\
  quad_flip (quad_flip (a, b, c, d)) = (a, b, c, d) /\
  (forall a' b' c' d', quad_flip (a, b, c, d) = (a', b', c', d') ->
     Permutation [a; b; c; d] [a'; b'; c'; d'] /\
     quad_area Rarith a' b' c' d' = - quad_area Rarith a b c d /\
     (quad_isConvex Rarith a b c d = true -> eps < quad_area Rarith a b c d ->
        quad_isCCW Rarith eps a' b' c' d' = false)).
Proof. exact quad_orient_ok. Qed.
Print Assumptions C27_quadrilateral_orientation.
(** isConvex: no corner turns right; isCCW: neither half is more than eps (twice the area) clockwise. *)
Theorem C27_convex : forall a b c d,
  quad_isConvex Rarith a b c d = true <-> 0 <= orient a b c /\ 0 <= orient b c d /\ 0 <= orient c d a /\ 0 <= orient d a b.
Proof. exact convex_ok. Qed.
Print Assumptions C27_convex.
Theorem C27_isCCW : forall eps a b c d, quad_isCCW Rarith eps a b c d = true <-> - eps <= orient a b c /\ - eps <= orient a c d.
Proof. exact ccw_tolerance. Qed.
Print Assumptions C27_isCCW.
Example C27_example_quad_orientation :
  quad_isCCW Zarith 1%Z (0, 0)%Z (4, 0)%Z (4, 2)%Z (0, 2)%Z = true /\ quad_isCCW Zarith 1%Z (0, 0)%Z (0, 2)%Z (4, 2)%Z (4, 0)%Z = false.
Proof. split; reflexivity. Qed.
(** Flipping a 6-node triangle reverses every curved edge and keeps its mid node. *)
Theorem C27_quadratic_triangle_flip : forall A (v : list A), length v = 6%nat ->
  exists v', tri6_flip v = Ret v' /\ Permutation v v' /\ tri6_flip v' = Ret v /\
    forall a b m, (exists i, (i < 3)%nat /\ getEdgeQ v i = Ret (a, b, m)) <->
                  (exists j, (j < 3)%nat /\ getEdgeQ v' j = Ret (b, a, m)).
Proof. exact @tri6_flip_ok. Qed.
Print Assumptions C27_quadratic_triangle_flip.
Example C27_example_tri6 : tri6_flip [0; 1; 2; 3; 4; 5]%nat = Ret [0; 2; 1; 5; 4; 3]%nat.
Proof. reflexivity. Qed.
(** Flipping an 8-node quadrilateral does not: the edge from vertex 2 to vertex 3 gets another edge's
    mid node. *)
Theorem C27_quadratic_quadrilateral_flip_refuted : exists v v' : list nat, length v = 8%nat /\ quad8_flip v = Ret v' /\
  exists a b m, getEdgeQ v 2 = Ret (a, b, m) /\ ~ (exists j, (j < 4)%nat /\ getEdgeQ v' j = Ret (b, a, m)) /\
    (exists j m', (j < 4)%nat /\ m' <> m /\ getEdgeQ v' j = Ret (b, a, m')).
Proof. exact quad8_refuted. Qed.
Print Assumptions C27_quadratic_quadrilateral_flip_refuted.

(** * C28 *)
(** getEdge i is the edge from vertex i to the next one, cyclically. *)
Theorem C28_edges : forall A (p : list (A * A)) i, (i < length p)%nat ->
  exists e, getEdge p i = Ret e /\ nth_error (edges p) i = Some e.
Proof. exact @getEdge_ok. Qed.
Print Assumptions C28_edges.
Example C28_example_edges : getEdge [(0, 0); (4, 0); (0, 3)]%Z 2 = Ret ((0, 3), (0, 0))%Z.
Proof. reflexivity. Qed.
(** The area is the sum of the signed areas of the triangles from any apex to the edges. *)
Theorem C28_area : forall p, p <> [] -> exists A, area Rarith p = Ret A /\
  forall q, A = rsum (map (fun e => tarea q (fst e) (snd e)) (edges p)).
Proof. exact area_ok. Qed.
Print Assumptions C28_area.
Example C28_example_area : area Zarith [(0, 0); (4, 0); (4, 2); (2, 1); (0, 2)]%Z = Ret 6%Z.
Proof. reflexivity. Qed.
(** Translations and rotations keep it, reflections negate it: any affine map scales it by its
    determinant. *)
Theorem C28_area_affine : forall m p A, area Rarith p = Ret A -> area Rarith (map (apply m) p) = Ret (det m * A).
Proof. exact area_apply. Qed.
Print Assumptions C28_area_affine.
Example C28_example_affine : let rot := mkAffine 0 (-1) 1 0 7 8 in det rot = 1 /\ isometry rot /\ apply rot (1, 0) = (7, 9).
Proof. unfold det, isometry, apply. cbn. repeat split; try lra. f_equal; lra. Qed.
(** Nothing depends on which vertex comes first. *)
Theorem C28_cyclic : forall l m, l ++ m <> [] ->
  area Rarith (l ++ m) = area Rarith (m ++ l) /\ centroid Rarith (l ++ m) = centroid Rarith (m ++ l) /\
  perimeter Rarith (l ++ m) = perimeter Rarith (m ++ l).
Proof. exact rot_ok. Qed.
Print Assumptions C28_cyclic.
Example C28_example_cyclic : area Zarith [(0, 0); (4, 0); (4, 2)]%Z = area Zarith [(4, 0); (4, 2); (0, 0)]%Z.
Proof. reflexivity. Qed.
(** Reversal negates the area, and keeps the perimeter and the centroid. *)
Theorem C28_reverse : forall p A, area Rarith p = Ret A ->
  area Rarith (rev p) = Ret (- A) /\ perimeter Rarith (rev p) = perimeter Rarith p /\
  (A <> 0 -> centroid Rarith (rev p) = centroid Rarith p).
Proof. exact rev_ok. Qed.
Print Assumptions C28_reverse.
Example C28_example_reverse : area Zarith (rev [(0, 0); (4, 0); (4, 2)]%Z) = Ret (-4)%Z.
Proof. reflexivity. Qed.
(** Cutting along the diagonal from a to b: areas add, and the centroid is their weighted mean. *)
Theorem C28_cut : forall a b l1 l2 A A1 A2,
  area Rarith (a :: l1 ++ b :: l2) = Ret A -> area Rarith (a :: l1 ++ [b]) = Ret A1 -> area Rarith (b :: l2 ++ [a]) = Ret A2 ->
  A = A1 + A2 /\
  (A <> 0 -> A1 <> 0 -> A2 <> 0 -> exists c c1 c2,
    centroid Rarith (a :: l1 ++ b :: l2) = Ret c /\ centroid Rarith (a :: l1 ++ [b]) = Ret c1 /\
    centroid Rarith (b :: l2 ++ [a]) = Ret c2 /\
    A * fst c = A1 * fst c1 + A2 * fst c2 /\ A * snd c = A1 * snd c1 + A2 * snd c2).
Proof. exact cut_ok. Qed.
Print Assumptions C28_cut.
Example C28_example_cut : area Zarith ((0, 0) :: [(4, 0)] ++ (4, 2) :: [(0, 2)])%Z = Ret 8%Z /\
  area Zarith ((0, 0) :: [(4, 0)] ++ [(4, 2)])%Z = Ret 4%Z /\ area Zarith ((4, 2) :: [(0, 2)] ++ [(0, 0)])%Z = Ret 4%Z.
Proof. repeat split; reflexivity. Qed.
Theorem C28_rectangle : forall x y w h,
  area Rarith [(x, y); (x + w, y); (x + w, y + h); (x, y + h)] = Ret (w * h) /\
  perimeter Rarith [(x, y); (x + w, y); (x + w, y + h); (x, y + h)] = Ret (2 * (Rabs w + Rabs h)).
Proof. exact rectangle_ok. Qed.
Print Assumptions C28_rectangle.
(** The centroid is the mean of the triangles' centroids, weighted by signed area, for any apex. *)
Theorem C28_centroid : forall p A, area Rarith p = Ret A -> A <> 0 -> exists c, centroid Rarith p = Ret c /\
  forall q, A * fst c = rsum (map (fun e => tarea q (fst e) (snd e) * fst (tcentroid q (fst e) (snd e))) (edges p)) /\
            A * snd c = rsum (map (fun e => tarea q (fst e) (snd e) * snd (tcentroid q (fst e) (snd e))) (edges p)).
Proof. exact centroid_ok. Qed.
Print Assumptions C28_centroid.
Example C28_example_centroid : centroid Zarith [(0, 0); (4, 0); (4, 2); (0, 2)]%Z = Ret (2, 1)%Z.
Proof. reflexivity. Qed.
(** It moves with every invertible affine map. *)
Theorem C28_centroid_affine : forall m p A c, area Rarith p = Ret A -> A <> 0 -> det m <> 0 -> centroid Rarith p = Ret c ->
  centroid Rarith (map (apply m) p) = Ret (apply m c).
Proof. exact centroid_apply. Qed.
Print Assumptions C28_centroid_affine.
Example C28_example_centroid_affine : area Zarith [(0, 0); (4, 0); (4, 2); (0, 2)]%Z = Ret 8%Z /\ det (mkAffine 1 0 0 1 5 5) <> 0.
Proof. split; [reflexivity|]. unfold det. cbn. lra. Qed.
(** The triangle's and the quadrilateral's own formulas agree with the polygon's. *)
Theorem C28_triangle : forall a b c,
  area Rarith [a; b; c] = Ret (tri_area Rarith a b c) /\ tri_area Rarith a b c = tarea a b c /\
  (tarea a b c <> 0 -> centroid Rarith [a; b; c] = Ret (tri_centroid Rarith a b c)) /\
  tri_centroid Rarith a b c = tcentroid a b c /\ hull [a; b; c] (tri_centroid Rarith a b c).
Proof.
  exact (fun a b c => let '(conj h1 (conj h2 (conj h3 h4))) := tri_agree a b c in
    conj h1 (conj h2 (conj h3 (conj h4 (centroid_hull a b c))))).
Qed.
Print Assumptions C28_triangle.
Example C28_example_triangle : tarea (0, 0) (2, 0) (0, 2) <> 0.
Proof. unfold tarea, orient. cbn. lra. Qed.
Theorem C28_quadrilateral : forall a b c d,
  area Rarith [a; b; c; d] = Ret (quad_area Rarith a b c d) /\
  (quad_area Rarith a b c d <> 0 -> centroid Rarith [a; b; c; d] = Ret (quad_centroid Rarith a b c d)).
Proof. exact quad_agree. Qed.
Print Assumptions C28_quadrilateral.
Example C28_example_quadrilateral : quad_area Zarith (0, 0)%Z (4, 0)%Z (4, 2)%Z (0, 2)%Z = 8%Z /\
  quad_centroid Zarith (0, 0)%Z (4, 0)%Z (4, 2)%Z (0, 2)%Z = (2, 1)%Z.
Proof. split; reflexivity. Qed.
(** The perimeter is the sum of the edge lengths, and rigid motions keep it; meanChordLength is
    pi * area / perimeter. *)
Theorem C28_perimeter : forall p, p <> [] ->
  perimeter Rarith p = Ret (rsum (map (fun e => dist2 (fst e) (snd e)) (edges p))).
Proof. exact perimeter_ok. Qed.
Print Assumptions C28_perimeter.
Theorem C28_perimeter_isometry : forall m p L, isometry m -> perimeter Rarith p = Ret L ->
  perimeter Rarith (map (apply m) p) = Ret L.
Proof. exact perimeter_apply. Qed.
Print Assumptions C28_perimeter_isometry.
Theorem C28_meanChordLength : forall pi p A L, area Rarith p = Ret A -> perimeter Rarith p = Ret L ->
  meanChordLength Rarith pi p = Ret (pi * A / L).
Proof. exact mcl_ok. Qed.
Print Assumptions C28_meanChordLength.
Example C28_example_perimeter : perimeter Rarith [(0, 0); (0 + 4, 0); (0 + 4, 0 + 2); (0, 0 + 2)] = Ret (2 * (Rabs 4 + Rabs 2)).
Proof. apply C28_rectangle. Qed.
