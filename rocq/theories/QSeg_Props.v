(** C29, C65, C66: quadratic segments *)
From Coq Require Import List Arith ZArith Reals Lia Lra Bool.
From Coquelicot Require Import Coquelicot.
From Verif Require Import Base Arith XReal Vec_Model Box_Model Seg_Model Seg_Spec Poly_Model Poly_Spec Roots_Model Roots_Proofs
  QSeg_Model QSeg_Spec QSeg_Proofs QSeg_Ray_Proofs QSeg_Len_Proofs QSeg_Near_Proofs QSeg_Left_Proofs.
Import ListNotations.
Local Open Scope R_scope.

(** * C29 *)
(** The segment is the parabola through its vertices at r = 0, 1, 1/2, in any dimension. *)
Theorem C29_interpolates : forall v0 v1 v2, length v0 = length v1 -> length v0 = length v2 ->
  (forall r, qs_at Rarith v0 v1 v2 r = curve v0 v1 v2 r) /\
  qs_at Rarith v0 v1 v2 0 = v0 /\ qs_at Rarith v0 v1 v2 1 = v1 /\ qs_at Rarith v0 v1 v2 (/2) = v2.
Proof. exact interpolates_ok. Qed.
Print Assumptions C29_interpolates.
(** The polynomial coefficients and the Bezier control point describe the same curve. *)
Theorem C29_forms : forall v0 v1 v2 C B A, length v0 = length v1 -> length v0 = length v2 ->
  qs_poly Rarith v0 v1 v2 = (C, B, A) ->
  length C = length v0 /\ length B = length v0 /\ length A = length v0 /\ length (qs_bezier Rarith v0 v1 v2) = length v0 /\
  forall r i, (i < length v0)%nat ->
    nth i (curve v0 v1 v2 r) 0 = nth i C 0 + r * nth i B 0 + r * r * nth i A 0 /\
    nth i (curve v0 v1 v2 r) 0 = bez (nth i v0 0) (nth i (qs_bezier Rarith v0 v1 v2) 0) (nth i v1 0) r.
Proof. exact forms_ok. Qed.
Print Assumptions C29_forms.
Theorem C29_jacobian : forall v0 v1 v2 r i, length v0 = length v1 -> length v0 = length v2 -> (i < length v0)%nat ->
  is_derive (fun t => nth i (curve v0 v1 v2 t) 0) r (nth i (qs_jacobian Rarith v0 v1 v2 r) 0).
Proof. exact jacobian_ok. Qed.
Print Assumptions C29_jacobian.
(** The bounding box contains the whole curve, and every side of it is touched. *)
Theorem C29_bounding_box : forall v0 v1 v2 mn mx, length v0 = length v1 -> length v0 = length v2 ->
  qs_box Rarith v0 v1 v2 = mkBox mn mx ->
  length mn = length v0 /\ length mx = length v0 /\
  forall i, (i < length v0)%nat ->
    (forall t, 0 <= t <= 1 -> nth i mn 0 <= nth i (curve v0 v1 v2 t) 0 <= nth i mx 0) /\
    (exists t, 0 <= t <= 1 /\ nth i (curve v0 v1 v2 t) 0 = nth i mn 0) /\
    (exists t, 0 <= t <= 1 /\ nth i (curve v0 v1 v2 t) 0 = nth i mx 0).
Proof. exact box_ok. Qed.
Print Assumptions C29_bounding_box.
Example C29_example_3d : curve [0; 0; 0] [2; 0; 1] [1; 1; 0] (/2) = [1; 1; 0] /\ nth 1 (curve [0; 0; 0] [2; 0; 1] [1; 1; 0] (/4)) 0 = 3 / 4.
Proof. split; [|cbn; unfold lag; lra]. apply curve_vertices; reflexivity. Qed.
(** enclosedArea is the boundary integral over the curve minus the one over the chord: the signed
    area between them. *)
Theorem C29_enclosed_area : forall v0 v1 v2, exists Ic Il,
  green (curve2 v0 v1 v2) Ic /\ green (along2 v0 v1) Il /\ enclosedArea Rarith v0 v1 v2 = Ic - Il.
Proof. exact enclosed_ok. Qed.
Print Assumptions C29_enclosed_area.
(** enclosedCentroid is the centroid of that area: times the area it gives the first moments. *)
Theorem C29_enclosed_centroid : forall v0 v1 v2, v0 <> v1 -> exists Xc Xl Yc Yl,
  green_x (curve2 v0 v1 v2) Xc /\ green_x (along2 v0 v1) Xl /\ green_y (curve2 v0 v1 v2) Yc /\ green_y (along2 v0 v1) Yl /\
  enclosedArea Rarith v0 v1 v2 * fst (enclosedCentroid Rarith v0 v1 v2) = Xc - Xl /\
  enclosedArea Rarith v0 v1 v2 * snd (enclosedCentroid Rarith v0 v1 v2) = Yc - Yl.
Proof. exact centroid_moments. Qed.
Print Assumptions C29_enclosed_centroid.
Theorem C29_curves_left : forall v0 v1 v2, curvesLeft Rarith v0 v1 v2 = true <-> 0 <= enclosedArea Rarith v0 v1 v2 .
Proof. exact curvesLeft_ok. Qed.
Print Assumptions C29_curves_left.
Example C29_example_area : enclosedArea Rarith (0, 0) (2, 0) (1, -1) = 4 / 3.
Proof. rewrite enclosed_val. cbn. lra. Qed.
(** Every hit reported by intersect (at most two) is on the ray and on the curve; every common point
    is reported, unless the three vertices are on a line parallel to the ray: then nothing is. *)
Theorem C29_intersect : forall v0 v1 v2 ro d, fst d * fst d + snd d * snd d = 1 ->
  let hits := qs_intersect v0 v1 v2 ro d in
  (length hits <= 2)%nat /\
  (forall r, In r hits -> 0 <= r /\ exists s, 0 <= s <= 1 /\ ray2 ro d r = curve2 v0 v1 v2 s) /\
  (~ (parallel (fst v1 - fst v0, snd v1 - snd v0) d /\ parallel (fst v2 - fst v0, snd v2 - snd v0) d) ->
     forall r s, 0 <= r -> 0 <= s <= 1 -> ray2 ro d r = curve2 v0 v1 v2 s -> In r hits) /\
  (parallel (fst v1 - fst v0, snd v1 - snd v0) d /\ parallel (fst v2 - fst v0, snd v2 - snd v0) d -> hits = []).
Proof. exact qs_intersect_ok. Qed.
Print Assumptions C29_intersect.
(** A tangent point is reported twice, and hits are not in order along the ray. *)
Theorem C29_hits_distinct_refuted : exists v0 v1 v2 ro d r, fst d * fst d + snd d * snd d = 1 /\ v0 <> v1 /\
  qs_intersect v0 v1 v2 ro d = [r; r].
Proof. exact tangent_twice. Qed.
Print Assumptions C29_hits_distinct_refuted.
Theorem C29_hits_sorted_refuted : exists v0 v1 v2 ro d r0 r1, fst d * fst d + snd d * snd d = 1 /\
  qs_intersect v0 v1 v2 ro d = [r0; r1] /\ r1 < r0.
Proof. exact hits_unsorted. Qed.
Print Assumptions C29_hits_sorted_refuted.

(** * C65 *)
(** isStraight: the mid node is closer to the first vertex than the second one is, and less than sqrt eps2 away from their line. *)
Theorem C65_isStraight : forall eps2 v0 v1 v2, isStraight Rarith eps2 v0 v1 v2 = true <->
  dsq v0 v2 < dsq v0 v1 /\ exists k, dsq v2 (along2 v0 v1 k) < eps2.
Proof. exact straight_meaning. Qed.
Print Assumptions C65_isStraight.
(** length is the arc length, when the vertices are not collinear and isStraight does not cut in. *)
Theorem C65_length : forall eps2 v0 v1 v2, orient v0 v1 v2 <> 0 -> isStraight Rarith eps2 v0 v1 v2 = false ->
  arclength (curve2 v0 v1 v2) (qs_length Rarith ln eps2 v0 v1 v2).
Proof. exact length_ok. Qed.
Print Assumptions C65_length.
(** It is also when the mid node is on the middle half of the chord. *)
Theorem C65_length_straight : forall eps2 v0 v1 v2 k, 0 < eps2 -> v0 <> v1 -> 1/4 <= k <= 3/4 -> v2 = along2 v0 v1 k ->
  isStraight Rarith eps2 v0 v1 v2 = true /\ qs_length Rarith ln eps2 v0 v1 v2 = dist2 v0 v1 /\
  arclength (curve2 v0 v1 v2) (dist2 v0 v1).
Proof. exact straight_length_ok. Qed.
Print Assumptions C65_length_straight.
(** Outside the middle half the curve overshoots the chord, and length misses that. *)
Theorem C65_length_refuted : forall eps2, 0 < eps2 -> exists v0 v1 v2 L, isStraight Rarith eps2 v0 v1 v2 = true /\
  arclength (curve2 v0 v1 v2) L /\ qs_length Rarith ln eps2 v0 v1 v2 < L.
Proof. exact straight_length_refuted. Qed.
Print Assumptions C65_length_refuted.
(** Beyond the end of the chord the closed form gives NaN. *)
Theorem C65_length_nan_refuted : exists v0 v1 v2, forall eps2, qs_length Xarith xlog eps2 v0 v1 v2 = NaN.
Proof. exact (ex_intro _ _ (ex_intro _ _ (ex_intro _ _ length_nan))). Qed.
Print Assumptions C65_length_nan_refuted.
Example C65_example_curved : orient (0, 0) (2, 0) (1, 1) <> 0 /\ isStraight Rarith (1/100) (0, 0) (2, 0) (1, 1) = false.
Proof. exact curved_example. Qed.
(** For a curved segment, pointClosestTo (when the Newton iteration of solveCubic ends) returns a
    parameter in [0,1] of least distance over the whole curve. *)
Theorem C65_closest : forall eps2 lambda ope fuel v0 v1 v2 p r, good_constants lambda ope ->
  isStraight Rarith eps2 v0 v1 v2 = false -> qs_pointClosestTo eps2 lambda ope fuel v0 v1 v2 p = Ret r ->
  0 <= r <= 1 /\ (forall t, 0 <= t <= 1 -> dsq p (curve2 v0 v1 v2 r) <= dsq p (curve2 v0 v1 v2 t)).
Proof. exact closest_curve_ok. Qed.
Print Assumptions C65_closest.
(** It does for a chord with the mid node in the middle. *)
Theorem C65_closest_centred : forall eps2 lambda ope fuel v0 v1 p, 0 < eps2 -> v0 <> v1 ->
  let v2 := along2 v0 v1 (/2) in
  exists r, qs_pointClosestTo eps2 lambda ope fuel v0 v1 v2 p = Ret r /\ 0 <= r <= 1 /\
    forall t, 0 <= t <= 1 -> dsq p (curve2 v0 v1 v2 r) <= dsq p (curve2 v0 v1 v2 t).
Proof. exact closest_centred_ok. Qed.
Print Assumptions C65_closest_centred.
(** It does not when the mid node of a straight segment is off centre. *)
Theorem C65_closest_refuted : forall eps2, 0 < eps2 -> forall lambda ope fuel, exists v0 v1 v2 p r,
  isStraight Rarith eps2 v0 v1 v2 = true /\ qs_pointClosestTo eps2 lambda ope fuel v0 v1 v2 p = Ret r /\
  0 < dsq p (curve2 v0 v1 v2 r) /\ exists t, 0 <= t <= 1 /\ curve2 v0 v1 v2 t = p.
Proof. exact closest_straight_refuted. Qed.
Print Assumptions C65_closest_refuted.
Theorem C65_distance : forall eps2 lambda ope fuel v0 v1 v2 p r, qs_pointClosestTo eps2 lambda ope fuel v0 v1 v2 p = Ret r ->
  qs_squaredDistanceTo eps2 lambda ope fuel v0 v1 v2 p = Ret (dsq p (curve2 v0 v1 v2 r)) /\
  qs_distanceTo eps2 lambda ope fuel v0 v1 v2 p = Ret (dist2 p (curve2 v0 v1 v2 r)).
Proof. exact distance_ok. Qed.
Print Assumptions C65_distance.
Example C65_example_closest : exists r, qs_pointClosestTo (1/100) lambda_double ope_double 0 (0, 0) (2, 0) (1, 1) (0, 0) = Ret r.
Proof. exact closest_example. Qed.

(** * C66 *)
(** A point off the curve is to the left of a curved segment iff it is to the left of the chord, with the
    points between chord and curve removed (curve bulging to the left) or added (to the right). *)
Theorem C66_isLeft : forall eps2 v0 v1 v2 p, isStraight Rarith eps2 v0 v1 v2 = false -> orient v0 v1 v2 <> 0 ->
  (forall t, 0 <= t <= 1 -> p <> curve2 v0 v1 v2 t) ->
  (qs_isLeft eps2 v0 v1 v2 p = true <->
   (0 < orient v0 v1 v2 /\ 0 <= orient v0 v1 p /\ ~ bulge v0 v1 v2 p) \/
   (orient v0 v1 v2 < 0 /\ (0 <= orient v0 v1 p \/ bulge v0 v1 v2 p))).
Proof. exact isLeft_curve_ok. Qed.
Print Assumptions C66_isLeft.
Theorem C66_isLeft_straight : forall eps2 v0 v1 v2 p, isStraight Rarith eps2 v0 v1 v2 = true ->
  (qs_isLeft eps2 v0 v1 v2 p = true <-> 0 <= orient v0 v1 p).
Proof. exact isLeft_straight_ok. Qed.
Print Assumptions C66_isLeft_straight.
Example C66_example : isStraight Rarith (1/100) (0, 0) (2, 0) (1, 1) = false /\ 0 < orient (0, 0) (2, 0) (1, 1) /\
  bulge (0, 0) (2, 0) (1, 1) (1, 1/2) /\ (forall t, 0 <= t <= 1 -> (1, 1/2) <> curve2 (0, 0) (2, 0) (1, 1) t).
Proof. exact bulge_example. Qed.
