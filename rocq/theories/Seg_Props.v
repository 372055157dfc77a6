(** C25, C26: line segments *)
From Coq Require Import List Arith ZArith Reals Lia Lra.
From Verif Require Import Base Arith Vec_Model XReal Seg_Model Seg_Spec Seg_Proofs.
Import ListNotations.
Local Open Scope R_scope.

(** * C25 *)
(** For a ray that is not parallel to the segment: one hit is reported iff the ray meets the
    segment, at the parameter r stored in the buffer, which is the only one; otherwise none.  For a
    parallel ray no hit is reported. *)
Theorem C25_intersect : forall v0 v1 ro rd,
  let '(x, n) := seg_intersect Xarith (Fin2 v0) (Fin2 v1) (Fin2 ro) (Fin2 rd) in
  (~ parallel (fst v1 - fst v0, snd v1 - snd v0) rd ->
    (n = 1%nat /\ exists r s, xfin x r /\ 0 <= r /\ 0 <= s <= 1 /\ ray2 ro rd r = along2 v0 v1 s /\
       forall r' s', ray2 ro rd r' = along2 v0 v1 s' -> r' = r /\ s' = s) \/
    (n = 0%nat /\ forall r s, 0 <= r -> 0 <= s <= 1 -> ray2 ro rd r <> along2 v0 v1 s)) /\
  (parallel (fst v1 - fst v0, snd v1 - snd v0) rd -> n = 0%nat).
Proof. exact seg_intersect_ok. Qed.
Print Assumptions C25_intersect.
Example C25_example : ~ parallel (2 - 0, 2 - 0) (1, 0) /\ ray2 (-1, 1) (1, 0) 2 = along2 (0, 0) (2, 2) (1/2).
Proof. unfold parallel, ray2, along2. cbn. split; [lra|]. f_equal; lra. Qed.
(** isLeft: p is on the line or on its left side *)
Theorem C25_isLeft : forall v0 v1 p, v0 <> v1 ->
  (seg_isLeft Rarith v0 v1 p = true <->
   exists s t, 0 <= t /\ p = (fst v0 + s * (fst v1 - fst v0) - t * (snd v1 - snd v0),
                              snd v0 + s * (snd v1 - snd v0) + t * (fst v1 - fst v0))).
Proof. exact isLeft_ok. Qed.
Print Assumptions C25_isLeft.
Example C25_example_left : seg_isLeft Zarith (0, 0)%Z (2, 0)%Z (1, 1)%Z = true /\ seg_isLeft Zarith (0, 0)%Z (2, 0)%Z (1, -1)%Z = false.
Proof. split; reflexivity. Qed.

(** * C26, in any dimension *)
(** pointClosestTo returns the only parameter in [0,1] of least distance to p; distanceTo is that
    distance, and is zero iff p is on the segment. *)
Theorem C26_closest : forall a b p, a <> b -> length a = length b -> length a = length p ->
  exists r d2 d, pointClosestTo Rarith a b p = Ret r /\ 0 <= r <= 1 /\
    (forall t, 0 <= t <= 1 -> t <> r -> sqdist (along a b r) p < sqdist (along a b t) p) /\
    seg_squaredDistanceTo Rarith a b p = Ret d2 /\ d2 = sqdist (along a b r) p /\
    seg_distanceTo Rarith a b p = Ret d /\ d = sqrt d2 /\
    (d = 0 <-> exists t, 0 <= t <= 1 /\ p = along a b t).
Proof. exact closest_ok. Qed.
Print Assumptions C26_closest.
Example C26_example : [0; 0; 0] <> [3; 0; 0] /\ length [0; 0; 0] = length [3; 0; 0] /\
  along [0; 0; 0] [3; 0; 0] (1/3) = [1; 0; 0].
Proof. split; [intros E; injection E; lra|]. split; [reflexivity|]. cbn. repeat f_equal; lra. Qed.
(** getRotation: a rotation (determinant 1, preserving lengths) that maps the segment's direction to
    the positive x axis *)
Theorem C26_rotation : forall x0 y0 x1 y1, (x0, y0) <> (x1, y1) ->
  exists m L, getRotation Rarith [x0; y0] [x1; y1] = Ret m /\ seg_length Rarith [x0; y0] [x1; y1] = Ret L /\ 0 < L /\
    L * L = (x1 - x0) * (x1 - x0) + (y1 - y0) * (y1 - y0) /\
    mat_vec Rarith 2 2 m [x1 - x0; y1 - y0] = Ret [L; 0] /\
    (forall x y, exists x' y', mat_vec Rarith 2 2 m [x; y] = Ret [x'; y'] /\ x' * x' + y' * y' = x * x + y * y) /\
    (exists a b c d, m = [[a; c]; [b; d]] /\ a * d - b * c = 1).
Proof. exact rotation_seg_ok. Qed.
Print Assumptions C26_rotation.
Example C26_example_rotation : (1, 2) <> (3, 5).
Proof. intros E. injection E. lra. Qed.
