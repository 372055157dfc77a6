(** C23, C24: axis-aligned boxes *)
From Coq Require Import List Arith ZArith Reals Lia Lra.
From Verif Require Import Base Arith Vec_Model XReal Box_Model Box_Spec Box_Proofs.
Import ListNotations.

(** * C23, for every T whose operator< is a total order *)
(** a + b is the smallest box that contains both *)
Theorem C23_join : forall T (o : arith T) le, total_order o le -> forall a b D,
  valid_box le D a -> valid_box le D b ->
  valid_box le D (box_add o a b) /\
  forall c, subset le (box_add o a b) c <-> subset le a c /\ subset le b c.
Proof. exact @box_add_least. Qed.
Print Assumptions C23_join.
(** + is commutative, associative and idempotent *)
Theorem C23_laws : forall T (o : arith T) le, total_order o le -> forall a b c,
  box_add o a b = box_add o b a /\
  box_add o a (box_add o b c) = box_add o (box_add o a b) c /\
  box_add o a a = a.
Proof. exact @box_add_laws. Qed.
Print Assumptions C23_laws.
(** box + p is the smallest box that contains the box and the point *)
Theorem C23_add_point : forall T (o : arith T) le, total_order o le -> forall b p D,
  valid_box le D b -> length p = D ->
  valid_box le D (box_add_pt o b p) /\ in_box le (box_add_pt o b p) p /\ subset le b (box_add_pt o b p) /\
  forall c, subset le (box_add_pt o b p) c <-> subset le b c /\ in_box le c p.
Proof. exact @box_add_pt_least. Qed.
Print Assumptions C23_add_point.
(** boundingBox is the smallest box that contains all points; each of its sides touches a point *)
Theorem C23_boundingBox : forall T (o : arith T) le, total_order o le -> forall ps D,
  ps <> [] -> (forall p, In p ps -> length p = D) ->
  exists b, boundingBox o ps = Ret b /\ valid_box le D b /\
    (forall c, subset le b c <-> forall p, In p ps -> in_box le c p) /\
    (forall i, i < D -> (exists p, In p ps /\ nth_error p i = nth_error (bmin b) i) /\
                        (exists p, In p ps /\ nth_error p i = nth_error (bmax b) i)).
Proof. exact @boundingBox_ok. Qed.
Print Assumptions C23_boundingBox.
(** contains is membership, intersects is the existence of a common point *)
Theorem C23_contains : forall T (o : arith T) le, total_order o le -> forall b p D,
  length (bmin b) = D -> length (bmax b) = D -> length p = D ->
  (box_contains o b p = true <-> in_box le b p).
Proof. exact @contains_iff. Qed.
Print Assumptions C23_contains.
Theorem C23_intersects : forall T (o : arith T) le, total_order o le -> forall a b D,
  valid_box le D a -> valid_box le D b ->
  (box_intersects o a b = true <-> exists p, in_box le a p /\ in_box le b p).
Proof. exact @intersects_iff. Qed.
Print Assumptions C23_intersects.
(** The empty box contains nothing; it is neutral for boxes within infDistance of the origin. *)
Theorem C23_empty : forall T (o : arith T) le, total_order o le -> forall big D,
  (forall p, D > 0 -> ~ le big (oopp o big) -> ~ in_box le (box_empty o big D) p) /\
  (forall b, length (bmin b) = D -> length (bmax b) = D ->
     Forall (fun x => le x big) (bmin b) -> Forall (fun x => le (oopp o big) x) (bmax b) ->
     box_add o (box_empty o big D) b = b /\ box_add o b (box_empty o big D) = b).
Proof. intros T o le H big D. split; intros; [now apply (box_empty_nothing o le H)|now apply (box_empty_neutral o le H)]. Qed.
Print Assumptions C23_empty.
(** beyond that distance it is not: the box of one point is not the point *)
Theorem C23_empty_far_refuted : exists p : list R,
  box_add_pt Rarith (box_empty Rarith 100000000%R 1) p <> mkBox p p.
Proof.
  exists [200000000]%R. unfold box_add_pt, box_empty, vmin, vmax. cbn [repeat map2 bmin bmax]. unfold tmin, tmax. cbn [Rarith oltb].
  rewrite (proj2 (Rltb_false 200000000 100000000)) by lra. intros E. injection E as E _. lra.
Qed.
Print Assumptions C23_empty_far_refuted.
(** the centroid is in the box; scaling by s >= 0 keeps it and multiplies the extents by s *)
Theorem C23_scale : forall D b s, valid_box Rle D b ->
  in_box Rle b (box_centroid Rarith b) /\ Forall (Rle 0) (extents Rarith b) /\
  let b' := box_scale Rarith b s in
  box_centroid Rarith b' = box_centroid Rarith b /\ extents Rarith b' = map (Rmult s) (extents Rarith b) /\
  ((0 <= s)%R -> valid_box Rle D b').
Proof.
  intros D b s V. destruct (box_centroid_in D b V), (box_scale_ok D b s V).
  repeat (split; [assumption|]). now apply box_scale_valid.
Qed.
Print Assumptions C23_scale.
(** extents and centroid, component by component *)
Theorem C23_measures : forall (b : @box R) i x y, nth_error (bmin b) i = Some x -> nth_error (bmax b) i = Some y ->
  nth_error (extents Rarith b) i = Some (y - x)%R /\ nth_error (box_centroid Rarith b) i = Some ((x + y) / 2)%R.
Proof. exact measures_ok. Qed.
Print Assumptions C23_measures.
(** the reals and the integers qualify *)
Example C23_orders : total_order Rarith Rle /\ total_order Zarith Z.le.
Proof. exact (conj R_total Z_total). Qed.
Example C23_example :
  valid_box Z.le 2 (mkBox [0; 0] [2; 1])%Z /\
  box_add Zarith (mkBox [0; 0] [2; 1])%Z (mkBox [1; -1] [3; 0])%Z = mkBox [0; -1]%Z [3; 1]%Z /\
  boundingBox Zarith [[3; 1]; [0; 5]; [2; -2]]%Z = Ret (mkBox [0; -2] [3; 5])%Z /\
  box_contains Zarith (mkBox [0; 0] [2; 1])%Z [2; 0]%Z = true /\
  box_intersects Zarith (mkBox [0; 0] [2; 1])%Z (mkBox [2; 1] [3; 3])%Z = true.
Proof. repeat split; repeat constructor; cbn; lia. Qed.

(** * C24 *)
Local Open Scope R_scope.
(** Whatever the direction, provided a ray parallel to a pair of faces does not start exactly in one
    of their planes: the result is the interval of parameters in [0, 1e8] at which the ray is in the
    box, and (-1, -1) iff there is none. *)
Theorem C24_intersect_partial : forall big D lo hi ro rd,
  0 <= big -> valid_box Rle D (mkBox lo hi) -> length ro = D -> length rd = D ->
  Forall finite_dir rd -> off_faces lo hi ro (map dir_val rd) ->
  let res := box_intersect Xarith (Fin big) (mkBox (map Fin lo) (map Fin hi)) (map Fin ro) rd in
  (exists a b, res = (Fin a, Fin b) /\ 0 <= a <= b /\ b <= big /\
     forall t, a <= t <= b <-> ray_in_box lo hi ro (map dir_val rd) t /\ 0 <= t <= big) \/
  (res = (Fin (-1), Fin (-1)) /\ forall t, 0 <= t <= big -> ~ ray_in_box lo hi ro (map dir_val rd) t).
Proof. exact box_intersect_ok. Qed.
Print Assumptions C24_intersect_partial.
Ltac f2 := repeat first [apply Forall2_nil | apply Forall2_cons]; try lra.
Ltac xev := repeat first
  [ rewrite (proj2 (Reqb_false _ _)) by lra | rewrite (proj2 (Reqb_true _ _)) by lra
  | rewrite (proj2 (Rltb_false _ _)) by lra | rewrite (proj2 (Rltb_true _ _)) by lra | progress cbn [xmul xdiv xinv xopp map2 Xarith oltb oeqb xltb xeqb negb orb andb xorb Bool.eqb rneg] | progress unfold rneg ].
(** a diagonal and a parallel ray through the unit square *)
Example C24_example :
  valid_box Rle 2 (mkBox [0; 0] [1; 1]) /\ off_faces [0; 0] [1; 1] [-2; 1/2] [1; 0] /\
  Forall finite_dir [Fin 1; NZero].
Proof.
  split; [|split].
  - do 2 (split; [reflexivity|]); cbn; f2.
  - intros [|[|[|i]]] d E Hd; cbn in *; try discriminate; injection E as <-; try lra. split; intros E'; injection E'; lra.
  - repeat constructor.
Qed.
(** A ray that starts above the square and runs away in the plane of its left side is reported to
    meet it, at negative parameters. *)
Theorem C24_min_face_refuted :
  box_intersect Xarith (Fin 100000000) (mkBox [Fin 0; Fin 0] [Fin 1; Fin 1]) [Fin 0; Fin 5] [Fin 0; Fin 1]
    = (Fin (-5), Fin (-4)) /\
  forall t, 0 <= t -> ~ ray_in_box [0; 0] [1; 1] [0; 5] [0; 1] t.
Proof.
  split.
  - unfold box_intersect, box_intersect_inv, inverseDirection, sdivv, vmul, vsub. cbn [map map2 bmin bmax].
    cbn [Xarith osub omul odiv o1 o0 oopp]. rewrite !xsub_Fin. unfold slab_loop, tmin, tmax, oleb. cbn [xmul xdiv xinv map2 Xarith oltb oeqb xltb xeqb negb orb andb Bool.eqb]. xev.
    f_equal; f_equal; field.
  - intros t Ht (A & B). cbn in *. inversion B; subst. inversion H4; subst. lra.
Qed.
Print Assumptions C24_min_face_refuted.
(** A ray that starts below the square and runs along its right side is reported to miss it. *)
Theorem C24_max_face_refuted :
  box_intersect Xarith (Fin 100000000) (mkBox [Fin 0; Fin 0] [Fin 1; Fin 1]) [Fin 1; Fin (-5)] [Fin 0; Fin 1]
    = (Fin (-1), Fin (-1)) /\
  forall t, 5 <= t <= 6 <-> ray_in_box [0; 0] [1; 1] [1; -5] [0; 1] t.
Proof.
  split.
  - unfold box_intersect, box_intersect_inv, inverseDirection, sdivv, vmul, vsub. cbn [map map2 bmin bmax].
    cbn [Xarith osub omul odiv o1 o0 oopp]. rewrite !xsub_Fin. unfold slab_loop, tmin, tmax, oleb. cbn [xmul xdiv xinv map2 Xarith oltb oeqb xltb xeqb negb orb andb Bool.eqb]. xev.
    f_equal; f_equal; field.
  - intros t. unfold ray_in_box, in_box. cbn. split.
    + intros Ht. split; f2.
    + intros (A & B). inversion A; inversion B; subst. inversion H4; inversion H10; subst. lra.
Qed.
Print Assumptions C24_max_face_refuted.
(** a box further away than infDistance is reported as missed *)
Theorem C24_far_refuted :
  box_intersect Xarith (Fin 100000000) (mkBox [Fin 200000000] [Fin 300000000]) [Fin 0] [Fin 1]
    = (Fin (-1), Fin (-1)) /\
  ray_in_box [200000000] [300000000] [0] [1] 200000000.
Proof.
  split.
  - assert (V : valid_box Rle 1 (mkBox [200000000] [300000000])) by (do 2 (split; [reflexivity|]); cbn; f2).
    assert (O : off_faces [200000000] [300000000] [0] (map dir_val [Fin 1])).
    { intros [|[|i]] d E Hd; cbn in *; try discriminate. injection E as <-. lra. }
    destruct (C24_intersect_partial 100000000 1 [200000000] [300000000] [0] [Fin 1] ltac:(lra) V eq_refl eq_refl
      ltac:(repeat constructor) O) as [(a & b & E & H1 & H2 & H3)|[E _]]; [|exact E].
    exfalso. destruct (proj1 (H3 a)) as [[A B] C]; [lra|]. cbn in *. inversion A as [|? ? ? ? A1 A2]; subst. clear - A1 C. lra.
  - unfold ray_in_box, in_box. cbn. split; f2.
Qed.
Print Assumptions C24_far_refuted.
