(** C32: modular rays *)
From Coq Require Import ZArith Reals.
From Verif Require Import Base Arith Rays_Model Rays_Spec Rays_Proofs.
Local Open Scope R_scope.

(** The constructor is defined; the numbers of rays on the two edges are the smallest for which the
    spacing along the requested angle is not larger than requested, and the direction is a unit vector
    pointing upwards, to the right below pi/2 and to the left above. *)
Theorem C32_parameters : forall a s x0 y0 x1 y1, good a s x0 y0 x1 y1 -> exists m, make a s x0 y0 x1 y1 = Ret m /\
  getTotalNumRays m = Ret (p_nx m + p_ny m)%Z /\
  (IZR (p_nx m) - 1) * s < (x1 - x0) * sin a <= IZR (p_nx m) * s /\
  (IZR (p_ny m) - 1) * s < (y1 - y0) * Rabs (cos a) <= IZR (p_ny m) * s /\
  p_sx m = (x1 - x0) / IZR (p_nx m) /\ p_sy m = (y1 - y0) / IZR (p_ny m) /\
  p_dx m * p_dx m + p_dy m * p_dy m = 1 /\ 0 < p_dy m /\ (0 < p_dx m <-> a < PI / 2) /\ (p_dx m < 0 <-> PI / 2 < a).
Proof. exact rays_make. Qed.
Print Assumptions C32_parameters.
Example C32_example : good (PI / 4) (1/10) 0 0 2 1.
Proof. exact rays_example. Qed.
(** The first nx rays start on the bottom edge of the box, the others on the edge the direction points
    away from. *)
Theorem C32_origins : forall a s x0 y0 x1 y1 m, good a s x0 y0 x1 y1 -> make a s x0 y0 x1 y1 = Ret m ->
  forall i, (0 <= i < p_nx m + p_ny m)%Z -> exists o, getRay m i = Ret (o, (p_dx m, p_dy m)) /\
    (((i < p_nx m)%Z /\ snd o = y0 /\ x0 < fst o < x1) \/
     ((p_nx m <= i)%Z /\ fst o = (if Rltb (PI / 2) a then x1 else x0) /\ y0 < snd o < y1)).
Proof. exact rays_start. Qed.
Print Assumptions C32_origins.
(** All neighbouring rays are the same distance [delta] apart, at most the requested spacing; the first
    and the last are half of it away from the corners. *)
Theorem C32_spacing : forall a s x0 y0 x1 y1 m, good a s x0 y0 x1 y1 -> make a s x0 y0 x1 y1 = Ret m ->
  exists delta g, 0 < delta <= s /\ (g = 1 \/ g = -1) /\
  forall o0, getRay m 0 = Ret (o0, (p_dx m, p_dy m)) ->
    offset (p_dx m, p_dy m) (if Rltb (PI / 2) a then x0 else x1, y0) o0 = g * (delta / 2) /\
    (forall i o, (0 <= i < p_nx m + p_ny m)%Z -> getRay m i = Ret (o, (p_dx m, p_dy m)) ->
       offset (p_dx m, p_dy m) o0 o = g * (IZR i * delta)) /\
    (forall o, getRay m (p_nx m + p_ny m - 1) = Ret (o, (p_dx m, p_dy m)) ->
       offset (p_dx m, p_dy m) o (if Rltb (PI / 2) a then x1 else x0, y1) = g * (delta / 2)).
Proof. exact rays_spacing. Qed.
Print Assumptions C32_spacing.
(** Every ray crosses the interior of the box and leaves it where, in the neighbouring box, a ray of the
    same angle starts. *)
Theorem C32_modular : forall a s x0 y0 x1 y1 m, good a s x0 y0 x1 y1 -> make a s x0 y0 x1 y1 = Ret m ->
  forall i, (0 <= i < p_nx m + p_ny m)%Z -> exists o e j o', getRay m i = Ret (o, (p_dx m, p_dy m)) /\
    leaves x0 y0 x1 y1 o (p_dx m, p_dy m) e /\
    (0 <= j < p_nx m + p_ny m)%Z /\ getRay m j = Ret (o', (p_dx m, p_dy m)) /\
    ((fst e = (if Rltb (PI / 2) a then x0 else x1) /\ fst o' = (if Rltb (PI / 2) a then x1 else x0) /\ snd o' = snd e) \/
     (snd e = y1 /\ snd o' = y0 /\ fst o' = fst e)).
Proof. exact rays_linked. Qed.
Print Assumptions C32_modular.
(** Where it leaves, a ray of the complementary angle starts (on the sides) or ends (on the top), with
    the reflected direction: reflected tracks are tracks. *)
Theorem C32_cyclic : forall a s x0 y0 x1 y1 m m', good a s x0 y0 x1 y1 ->
  make a s x0 y0 x1 y1 = Ret m -> make (PI - a) s x0 y0 x1 y1 = Ret m' ->
  p_nx m' = p_nx m /\ p_ny m' = p_ny m /\ p_dx m' = - p_dx m /\ p_dy m' = p_dy m /\
  forall i, (0 <= i < p_nx m + p_ny m)%Z -> exists o e j o', getRay m i = Ret (o, (p_dx m, p_dy m)) /\
    leaves x0 y0 x1 y1 o (p_dx m, p_dy m) e /\
    (0 <= j < p_nx m + p_ny m)%Z /\ getRay m' j = Ret (o', (p_dx m', p_dy m')) /\
    ((fst e = (if Rltb (PI / 2) a then x0 else x1) /\ o' = e) \/
     (snd e = y1 /\ leaves x0 y0 x1 y1 o' (p_dx m', p_dy m') e)).
Proof. exact rays_reflect. Qed.
Print Assumptions C32_cyclic.
