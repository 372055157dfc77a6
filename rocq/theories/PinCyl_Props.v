(** C58: cylindrical pin meshes. *)
From Coq Require Import List Arith ZArith Bool Reals Lra Lia.
From Verif Require Import Base Loops Arith Fvm_Model Fvm_Spec Manifold_Spec Soup_Spec Soup_Final_Proofs
  PinCyl_Model PinCyl_Spec PinCyl_Quad_Proofs PinCyl_Proofs.
Import ListNotations.
Local Open Scope R_scope.

(** Mesh order 1, increasing positive radii, at least one ring for each, 2^e >= 8 azimuthal sectors, and circles
    that, inflated to the polygons of equal area, stay clear of the border by the tolerance [eps] (the points
    are snapped at that tolerance): the mesh is appended to the quadrilateral meshes, its id is returned, and
    it is a mesh of the pin: the faces have the exact areas of the requested annuli, equally split among rings
    and sectors, their total is pitch^2, every inner edge is shared by two faces and the others lie on the
    border of the square. *)
Theorem C58_linear : forall stdsort selfcheck eps exit quads quad8s pitch radii num_rings e,
  let na := (2 ^ e)%nat in let theta := 2 * PI / INR na in
  sort_contract stdsort -> pin_ok radii num_rings -> (3 <= e)%nat -> 0 < pitch ->
  0 < eps -> eps <= sin theta -> eps <= pitch / 2 * sin theta ->
  circle radii (length radii) * sqrt (theta / sin theta) + eps <= pitch / 2 ->
  (Z.of_nat (1 + (list_sum num_rings + 1) * na + na / 2) <= intMax)%Z ->
  exists m, addCylindricalPinMesh stdsort selfcheck eps exit quads quad8s pitch radii num_rings (Z.of_nat na) 1 =
      Ret (quads ++ [m], quad8s, Z.of_nat (length quads)) /\
    pin_mesh Quad m pitch radii num_rings na.
Proof. exact linear_ok. Qed.
Print Assumptions C58_linear.

(** Mesh order 2. The constructor's check for self-intersecting faces is a parameter of the model: what is
    proved is about the mesh handed to that check. Missing: that the check leaves this mesh alone. *)
Theorem C58_quadratic_partial : forall stdsort selfcheck eps exit quads quad8s pitch radii num_rings e,
  let na := (2 ^ e)%nat in let gamma := PI / INR na in
  sort_contract stdsort -> pin_ok radii num_rings -> (3 <= e)%nat -> 0 < pitch ->
  0 < eps -> eps <= sin gamma -> eps <= pitch / 2 * sin gamma ->
  circle radii (length radii) + 2 * eps <= pitch / 2 ->
  circle radii (length radii) * (3 * gamma / (4 * sin gamma) + cos gamma / 4) + eps <= pitch / 2 ->
  (Z.of_nat (1 + 4 * na + 3 * na * list_sum num_rings) <= intMax)%Z ->
  exists m, addCylindricalPinMesh stdsort selfcheck eps exit quads quad8s pitch radii num_rings (Z.of_nat na) 2 =
      (let* m := selfcheck m in Ret (quads, quad8s ++ [m], Z.of_nat (length quad8s))) /\
    pin_mesh Quad8 m pitch radii num_rings na.
Proof. exact quadratic_ok. Qed.
Print Assumptions C58_quadratic_partial.

(** A wrong mesh order, a number of sectors that is not a power of two from 8 on, lists of different length, a
    radius beyond half the pitch: with exit_on_error the program ends; without it -1 is returned and nothing
    has changed. *)
Theorem C58_rejected : forall stdsort selfcheck eps exit quads quad8s pitch radii num_rings na order,
  (order <> 1 /\ order <> 2)%Z \/ ~ (exists e, (3 <= e)%Z /\ na = (2 ^ e)%Z) \/
  length radii <> length num_rings \/ (exists r, In r radii /\ pitch / 2 < r) ->
  addCylindricalPinMesh stdsort selfcheck eps exit quads quad8s pitch radii num_rings na order =
  if exit then Fail else Ret (quads, quad8s, (-1)%Z).
Proof. exact rejected. Qed.
Print Assumptions C58_rejected.

(** So is a pin whose last circle fits into the square but whose polygon of equal area does not. *)
Theorem C58_rejected_linear : forall stdsort selfcheck eps exit quads quad8s pitch radii num_rings e,
  let na := (2 ^ e)%nat in let theta := 2 * PI / INR na in
  pin_ok radii num_rings -> (3 <= e)%nat -> pitch / 2 < circle radii (length radii) * sqrt (theta / sin theta) ->
  addCylindricalPinMesh stdsort selfcheck eps exit quads quad8s pitch radii num_rings (Z.of_nat na) 1 =
  if exit then Fail else Ret (quads, quad8s, (-1)%Z).
Proof. exact rejected_linear. Qed.
Print Assumptions C58_rejected_linear.
Theorem C58_rejected_quadratic : forall stdsort selfcheck eps exit quads quad8s pitch radii num_rings e,
  let na := (2 ^ e)%nat in let gamma := PI / INR na in
  pin_ok radii num_rings -> (3 <= e)%nat ->
  pitch / 2 < circle radii (length radii) * (3 * gamma / (4 * sin gamma) + cos gamma / 4) ->
  addCylindricalPinMesh stdsort selfcheck eps exit quads quad8s pitch radii num_rings (Z.of_nat na) 2 =
  if exit then Fail else Ret (quads, quad8s, (-1)%Z).
Proof. exact rejected_quadratic. Qed.
Print Assumptions C58_rejected_quadratic.

(** Two empty lists are not rejected: the first entries are read all the same. *)
Theorem C58_empty_undefined : forall stdsort selfcheck eps exit quads quad8s pitch order,
  order = 1%Z \/ order = 2%Z ->
  addCylindricalPinMesh stdsort selfcheck eps exit quads quad8s pitch [] [] 8 order = Ub.
Proof. intros ? ? ? ? ? ? ? ? [->| ->]; reflexivity. Qed.
Print Assumptions C58_empty_undefined.

(** * Examples *)
Lemma ex_pin : pin_ok [1 / 2; 7 / 10] [2; 1]%nat.
Proof.
  split; [discriminate|]. split; [auto|]. split; [cbn; lia|]. intros [|[|k]]; cbn; intros; try lra. lia.
Qed.
Lemma sin_bounds : 7 / 10 <= sin (PI / 4) /\ sin (PI / 4) <= 1 /\ 7 / 10 <= cos (PI / 4).
Proof.
  rewrite sin_PI4, cos_PI4. assert (S2 : 0 < sqrt 2) by (apply sqrt_lt_R0; lra). assert (E := sqrt_sqrt 2 ltac:(lra)).
  assert (U : sqrt 2 <= 10 / 7) by nra. assert (L : 1 <= sqrt 2) by nra.
  assert (I : 7 / 10 * sqrt 2 <= 1) by nra. repeat split.
  - apply Rmult_le_reg_r with (sqrt 2); auto. replace (1 / sqrt 2 * sqrt 2) with 1 by (field; lra). lra.
  - apply Rmult_le_reg_r with (sqrt 2); auto. replace (1 / sqrt 2 * sqrt 2) with 1 by (field; lra). lra.
  - apply Rmult_le_reg_r with (sqrt 2); auto. replace (1 / sqrt 2 * sqrt 2) with 1 by (field; lra). lra.
Qed.
Example C58_example : exists m, addCylindricalPinMesh isort_poly (fun m => Ret m) (1 / 10000) true [] [] 2 [1 / 2; 7 / 10] [2; 1]%nat 8 1 = Ret ([m], [], 0%Z) /\
  pin_mesh Quad m 2 [1 / 2; 7 / 10] [2; 1]%nat 8.
Proof.
  assert (T : 2 * PI / INR (2 ^ 3) = PI / 4) by (change (2 ^ 3)%nat with 8%nat; cbn [INR]; field).
  assert (B := sin_bounds). assert (P := PI_4). assert (Pp := PI_RGT_0).
  apply (C58_linear isort_poly (fun m => Ret m) (1 / 10000) true [] [] 2 [1 / 2; 7 / 10] [2; 1]%nat 3);
    try rewrite T; try lra; [exact isort_poly_contract|exact ex_pin|lia| |unfold intMax; cbn; lia].
  cbn [circle nth length]. assert (X : PI / 4 / sin (PI / 4) <= 144 / 100).
  { apply Rmult_le_reg_r with (sin (PI / 4)); [lra|]. replace (PI / 4 / sin (PI / 4) * sin (PI / 4)) with (PI / 4) by (field; lra). lra. }
  assert (sqrt (PI / 4 / sin (PI / 4)) <= 12 / 10).
  { rewrite <- (sqrt_square (12 / 10)) by lra. apply sqrt_le_1_alt. lra. }
  lra.
Qed.
Lemma gamma_bounds : let g := PI / 8 in 2 / 10 <= sin g /\ 0 < g / sin g <= 10 / 7 /\ cos g <= 1.
Proof.
  intros g. assert (P := PI2_3_2). assert (P4 := PI_4). assert (B := sin_bounds).
  assert (C : 7 / 10 <= cos g). { apply Rle_trans with (cos (PI / 4)); [lra|]. unfold g. apply cos_decr_1; lra. }
  assert (S : g * cos g < sin g) by (apply sin_cos_le; unfold g; lra).
  assert (G : 3 / 8 <= g) by (unfold g; lra). assert (2 / 10 <= sin g) by nra. split; [lra|]. split; [|apply COS_bound]. split.
  - apply Rdiv_lt_0_compat; lra.
  - apply Rmult_le_reg_r with (sin g); [lra|]. replace (g / sin g * sin g) with g by (field; lra). nra.
Qed.
Example C58_example_quadratic : exists m, addCylindricalPinMesh isort_poly (fun m => Ret m) (1 / 10000) true [] [] 2 [1 / 2; 7 / 10] [2; 1]%nat 8 2 = Ret ([], [m], 0%Z) /\
  pin_mesh Quad8 m 2 [1 / 2; 7 / 10] [2; 1]%nat 8.
Proof.
  assert (T : PI / INR (2 ^ 3) = PI / 8) by (change (2 ^ 3)%nat with 8%nat; cbn [INR]; field).
  destruct gamma_bounds as (B1 & B2 & B3).
  apply (C58_quadratic_partial isort_poly (fun m => Ret m) (1 / 10000) true [] [] 2 [1 / 2; 7 / 10] [2; 1]%nat 3);
    try rewrite T; try lra; [exact isort_poly_contract|exact ex_pin|lia|cbn [circle nth length]; lra| |unfold intMax; cbn; lia].
  cbn [circle nth length]. replace (3 * (PI / 8) / (4 * sin (PI / 8))) with (3 / 4 * (PI / 8 / sin (PI / 8))) by (field; lra). lra.
Qed.
Example C58_example_rejected : addCylindricalPinMesh isort_poly (fun m => Ret m) (1 / 10000) false [] [] 2 [1 / 2] [2]%nat 12 1 = Ret ([], [], (-1)%Z).
Proof.
  apply C58_rejected. right. left. intros (e & He & E). assert (D : (e = 3 \/ 4 <= e)%Z) by lia. destruct D as [->|D]; [discriminate|].
  assert (X := Z.pow_le_mono_r 2 4 e ltac:(lia) D). lia.
Qed.
Example C58_example_rejected_linear : addCylindricalPinMesh isort_poly (fun m => Ret m) (1 / 10000) true [] [] 2 [99 / 100] [2]%nat 8 1 = Fail.
Proof.
  apply (C58_rejected_linear isort_poly _ _ true [] [] 2 [99 / 100] [2]%nat 3); [|lia|].
  - split; [discriminate|]. split; [auto|]. split; [cbn; lia|]. intros [|k]; cbn; intros; try lra. lia.
  - replace (2 * PI / INR (2 ^ 3)) with (PI / 4) by (change (2 ^ 3)%nat with 8%nat; cbn [INR]; field).
    cbn [circle nth length]. rewrite sin_PI4. assert (S2 : 0 < sqrt 2) by (apply sqrt_lt_R0; lra). assert (E := sqrt_sqrt 2 ltac:(lra)).
    assert (L : 14 / 10 <= sqrt 2) by nra. assert (P := PI2_3_2).
    replace (PI / 4 / (1 / sqrt 2)) with (PI / 4 * sqrt 2) by (field; lra).
    assert (X : sqrt ((102 / 100) * (102 / 100)) < sqrt (PI / 4 * sqrt 2)) by (apply sqrt_lt_1_alt; nra).
    rewrite sqrt_square in X by lra. lra.
Qed.
