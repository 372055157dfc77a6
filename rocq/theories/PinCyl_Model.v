(** Model of Model::addCylindricalPinMesh (src/mpact/model.cpp:136-649), over exact real numbers.

    pi<Float> is [PI]; sin, cos and sqrt are exact.  Ring counts and the number of azimuthal divisions of
    the loops are natural numbers; num_rings[i] <= 0 is outside of the model.  The number of points, the
    largest of the 32-bit integers computed, is checked for overflow.  Vector<Float>(n) is [repeat 0 n].
    The constructor of a mesh validates it (face_vertex_mesh.hpp:239-245).  checkSelfIntersections
    (face_vertex_mesh.cpp:428-504), its last step for quadratic meshes, is a parameter.  LOG_DEBUG and the
    assertions are not modelled. *)
From Coq Require Import List Arith ZArith Bool Reals.
From Verif Require Import Base Loops Arith Fvm_Model Manifold_Model PinRect_Model.
Import ListNotations.
Local Open Scope R_scope.

(** * Ring radii and areas *)
(** 196-207; the last entry is not used below *)
Definition region_areas (pitch : R) (radii : list R) : outcome (list R) :=
  let n := (length radii + 1)%nat in
  let* r0 := rd radii 0 in
  let* a := wr (repeat 0 n) 0 (PI * r0 * r0) in
  let* a := for_ (n - 2) 1 (fun i a =>
    let* r := rd radii i in
    let* q := rd radii (i - 1) in
    wr a i (PI * (r * r - q * q))) a in
  let* p := rd a (n - 2) in
  wr a (n - 1) (pitch * pitch - p).
(** 213-237: ring_areas and ring_radii *)
Definition rings (pitch : R) (radii : list R) (num_rings : list nat) : outcome (list R * list R) :=
  let* regs := region_areas pitch radii in
  let total := fold_left Nat.add num_rings 0%nat in
  let* n0 := rd num_rings 0 in
  let* a0 := rd regs 0 in
  let* areas := wr (repeat 0 (total + 1)) 0 (a0 / INR n0) in
  let* rr := wr (repeat 0 total) 0 (sqrt (a0 / INR n0 / PI)) in
  let* st := for_ (n0 - 1) 1 (fun i st =>
    let* a := rd (fst st) 0 in
    let* areas := wr (fst st) i a in
    let* q := rd (snd st) (i - 1) in
    let* rr := wr (snd st) i (sqrt (a / PI + q * q)) in
    Ret (areas, rr)) (areas, rr) in
  let* st := for_ (length radii + 1 - 2) 1 (fun ireg st =>
    let* n := rd num_rings ireg in
    let* reg := rd regs ireg in
    let a := reg / INR n in
    for_ n 0 (fun _ st =>
      let '(areas, rr, ctr) := st in
      let* areas := wr areas ctr a in
      let* q := rd rr (ctr - 1) in
      let* rr := wr rr ctr (sqrt (a / PI + q * q)) in
      Ret (areas, rr, (ctr + 1)%nat)) st) (fst st, snd st, n0) in
  let '(areas, rr, ctr) := st in
  let* last := rd rr (length rr - 1) in
  let* areas := wr areas ctr (pitch * pitch - PI * last * last) in
  Ret (areas, rr).

(** * Points *)
(** a value close to zero is set to zero (315-320 and others) *)
Definition snap (eps x : R) : R := if Rltb (Rabs x) eps then 0 else x.
(** the distance to the boundary of the pin in a direction (337-339 and others): dividing by zero gives
    infinity, of which the minimum is the other value *)
Definition bound_r (pitch c s : R) : R :=
  if Reqb c 0 then Rabs (pitch / (2 * s))
  else if Reqb s 0 then Rabs (pitch / (2 * c))
  else Rmin (Rabs (pitch / (2 * c))) (Rabs (pitch / (2 * s))).
(** 382-393, 630-641 *)
Definition shift_points (eps pitch : R) (vs : list (R * R)) : outcome (list (R * R)) :=
  let half_pitch := pitch / 2 in
  for_ (length vs) 0 (fun i vs =>
    let* v := rd vs i in
    let x := fst v + half_pitch in
    let y := snd v + half_pitch in
    wr vs i (snap eps x, snap eps y)) vs.

(** * Linear quadrilaterals *)
(** 250-264: the equivalent radii *)
Definition eq_radii1 (na : nat) (ring_areas : list R) (total_rings : nat) : outcome (list R) :=
  let theta := 2 * PI / INR na in
  let* a0 := rd ring_areas 0 in
  let* eq := wr (repeat 0 total_rings) 0 (sqrt (2 * a0 / (sin theta * INR na))) in
  for_ (total_rings - 1) 1 (fun i eq =>
    let* a := rd ring_areas i in
    let* q := rd eq (i - 1) in
    wr eq i (sqrt (2 * a / (sin theta * INR na) + q * q))) eq.
(** 295-342 *)
Definition vertices1 (eps pitch : R) (na nr : nat) (eq : list R) : outcome (list (R * R)) :=
  let theta := 2 * PI / INR na in
  let* vs := wr (repeat (0, 0) (1 + (nr + 1) * na + na / 2)) 0 (0, 0) in
  let* e0 := rd eq 0 in
  let rt := e0 / 2 in
  let* vs := for_ (na / 2) 0 (fun ia vs =>
    let s := sin (theta * (2 * INR ia + 1)) in
    let c := cos (theta * (2 * INR ia + 1)) in
    wr vs (1 + ia) (rt * c, rt * s)) vs in
  let* vs := for_ nr 0 (fun ir vs =>
    let num_prev_points := (1 + na / 2 + ir * na)%nat in
    for_ na 0 (fun ia vs =>
      let s := snap eps (sin (theta * INR ia)) in
      let c := snap eps (cos (theta * INR ia)) in
      let* r := rd eq ir in
      wr vs (num_prev_points + ia) (r * c, r * s)) vs) vs in
  let num_prev_points := (1 + na / 2 + nr * na)%nat in
  for_ na 0 (fun ia vs =>
    let s := snap eps (sin (theta * INR ia)) in
    let c := snap eps (cos (theta * INR ia)) in
    let rb := bound_r pitch c s in
    wr vs (num_prev_points + ia) (rb * c, rb * s)) vs.
(** 347-381 *)
Definition faces1 (na nr : nat) : outcome (list (list Z)) :=
  let ntric := (1 + na / 2)%nat in
  let* fs := for_ (na / 2) 0 (fun ia fs =>
    let p0 := 0%nat in
    let p1 := (ntric + ia * 2)%nat in
    let p2 := (ntric + ia * 2 + 1)%nat in
    let p3 := (1 + ia)%nat in
    let p4 := (ntric + ia * 2 + 2)%nat in
    let p4 := if (p4 =? ntric + na)%nat then ntric else p4 in
    let* fs := wr fs (2 * ia) (map Z.of_nat [p0; p1; p2; p3]) in
    wr fs (2 * ia + 1) (map Z.of_nat [p0; p3; p2; p4])) (repeat [0; 0; 0; 0]%Z (na * (nr + 1))) in
  for_ nr 1 (fun ir fs =>
    for_ na 0 (fun ia fs =>
      let p0 := (ntric + (ir - 1) * na + ia)%nat in
      let p1 := (ntric + ir * na + ia)%nat in
      let p2 := (ntric + ir * na + ia + 1)%nat in
      let p3 := (ntric + (ir - 1) * na + ia + 1)%nat in
      let p2' := if (ia + 1 =? na)%nat then (p2 - na)%nat else p2 in
      let p3' := if (ia + 1 =? na)%nat then (p3 - na)%nat else p3 in
      wr fs (ir * na + ia) (map Z.of_nat [p0; p1; p2'; p3'])) fs) fs.

(** * Quadratic quadrilaterals *)
(** 400-441 *)
Definition eq_radii2 (na : nat) (ring_areas ring_radii : list R) (total_rings : nat) : outcome (list R) :=
  let gamma := 2 * PI / INR na / 2 in
  let sg := sin gamma in
  let cg := cos gamma in
  let sc := sg * cg in
  let* l0 := rd ring_radii 0 in
  let tri_area := l0 * l0 * sc in
  let* a0 := rd ring_areas 0 in
  let ring_area := a0 / INR na in
  let* eq := wr (repeat 0 total_rings) 0 (3 / 4 * (ring_area - tri_area) / (l0 * sg) + l0 * cg) in
  for_ (total_rings - 1) 1 (fun i eq =>
    let* l1 := rd ring_radii (i - 1) in
    let* ll1 := rd eq (i - 1) in
    let a_edge1 := l1 * sg * (ll1 - l1 * cg) / (3 / 4) in
    let* l := rd ring_radii i in
    let a_quad := (l * l - l1 * l1) * sc in
    let* a := rd ring_areas i in
    let a_ring := a / INR na in
    wr eq i (3 / 4 * (a_ring - a_quad + a_edge1) / (l * sg) + l * cg)) eq.
(** the points of one ring: even ones at the ring's radius, odd ones at the equivalent radius (482-501, 519-537) *)
Definition ring_points2 (eps : R) (na num_prev_points : nat) (ir : nat) (ring_radii eq : list R) (vs : list (R * R)) : outcome (list (R * R)) :=
  let gamma := 2 * PI / INR na / 2 in
  for_ (2 * na) 0 (fun ia vs =>
    let s := snap eps (sin (INR ia * gamma)) in
    let c := snap eps (cos (INR ia * gamma)) in
    let* l := rd ring_radii ir in
    let* e := rd eq ir in
    if (ia mod 2 =? 0)%nat then wr vs (num_prev_points + ia) (l * c, l * s)
    else wr vs (num_prev_points + ia) (e * c, e * s)) vs.
(** 459-572 *)
Definition vertices2 (eps pitch : R) (na nr : nat) (ring_radii eq : list R) : outcome (list (R * R)) :=
  let theta := 2 * PI / INR na in
  let gamma := theta / 2 in
  let* vs := wr (repeat (0, 0) (1 + 4 * na + 3 * na * nr)) 0 (0, 0) in
  let* l0 := rd ring_radii 0 in
  let rt := l0 / 2 in
  let* vs := for_ na 0 (fun ia vs =>
    let s := sin (INR ia * theta) in
    let c := cos (INR ia * theta) in
    if (ia mod 2 =? 0)%nat then wr vs (1 + 2 * ia) (rt * c, rt * s)
    else
      let* vs := wr vs (2 * ia) (rt * c / 2, rt * s / 2) in
      let* vs := wr vs (2 * ia + 1) (rt * c, rt * s) in
      wr vs (2 * ia + 2) (3 * rt * c / 2, 3 * rt * s / 2)) vs in
  let* vs := ring_points2 eps na (1 + 2 * na) 0 ring_radii eq vs in
  let* vs := for_ (nr - 1) 1 (fun ir vs =>
    let num_prev_points := (1 + 4 * na + 3 * na * (ir - 1))%nat in
    let* vs := for_ na 0 (fun ia vs =>
      let s := snap eps (sin (INR ia * theta)) in
      let c := snap eps (cos (INR ia * theta)) in
      let* l := rd ring_radii ir in
      let* l1 := rd ring_radii (ir - 1) in
      let r := (l + l1) / 2 in
      wr vs (num_prev_points + ia) (r * c, r * s)) vs in
    ring_points2 eps na (num_prev_points + na) ir ring_radii eq vs) vs in
  let num_prev_points := (1 + 4 * na + 3 * na * (nr - 1))%nat in
  let* vs := for_ na 0 (fun ia vs =>
    let s := snap eps (sin (INR ia * theta)) in
    let c := snap eps (cos (INR ia * theta)) in
    let rb := bound_r pitch c s in
    let* l := rd ring_radii (nr - 1) in
    let r := (rb + l) / 2 in
    wr vs (num_prev_points + ia) (r * c, r * s)) vs in
  for_ (2 * na) 0 (fun ia vs =>
    let s := snap eps (sin (gamma * INR ia)) in
    let c := snap eps (cos (gamma * INR ia)) in
    let rb := bound_r pitch c s in
    wr vs (num_prev_points + na + ia) (rb * c, rb * s)) vs.
(** 580-624 *)
Definition faces2 (na nr : nat) : outcome (list (list Z)) :=
  let* fs := for_ (na / 2) 0 (fun ia fs =>
    let p0 := 0%nat in
    let p1 := (1 + 2 * na + 4 * ia)%nat in
    let p2 := (p1 + 2)%nat in
    let p3 := (3 + 4 * ia)%nat in
    let p4 := (p2 + 2)%nat in
    let p5 := (1 + 4 * ia)%nat in
    let p6 := (p1 + 1)%nat in
    let p7 := (p3 + 1)%nat in
    let p8 := (p3 - 1)%nat in
    let p9 := (p2 + 1)%nat in
    let p10 := (p7 + 1)%nat in
    let p4' := if (p10 =? 1 + 2 * na)%nat then (p4 - 2 * na)%nat else p4 in
    let p10' := if (p10 =? 1 + 2 * na)%nat then (p10 - 2 * na)%nat else p10 in
    let* fs := wr fs (2 * ia) (map Z.of_nat [p0; p1; p2; p3; p5; p6; p7; p8]) in
    wr fs (2 * ia + 1) (map Z.of_nat [p0; p3; p2; p4'; p8; p7; p9; p10']))
    (repeat [0; 0; 0; 0; 0; 0; 0; 0]%Z (na * (nr + 1))) in
  for_ nr 1 (fun ir fs =>
    let np := (1 + 2 * na + 3 * na * (ir - 1))%nat in
    for_ na 0 (fun ia fs =>
      let p0 := (np + 2 * ia)%nat in
      let p1 := (p0 + 3 * na)%nat in
      let p2 := (p1 + 2)%nat in
      let p3 := (p0 + 2)%nat in
      let p4 := (np + 2 * na + ia)%nat in
      let p5 := (p1 + 1)%nat in
      let p6 := (p4 + 1)%nat in
      let p7 := (p0 + 1)%nat in
      let p2' := if (ia + 1 =? na)%nat then (p2 - 2 * na)%nat else p2 in
      let p3' := if (ia + 1 =? na)%nat then (p3 - 2 * na)%nat else p3 in
      let p6' := if (ia + 1 =? na)%nat then (p6 - na)%nat else p6 in
      wr fs (ir * na + ia) (map Z.of_nat [p0; p1; p2'; p3'; p4; p5; p6'; p7])) fs) fs.

(** * addCylindricalPinMesh (136-649) *)
(** isCCW of a quadratic face is that of its corners (quadratic_quadrilateral.hpp:321-327) *)
Definition face8_isCCW (eps : R) (p : list (R * R)) : bool := face_isCCW eps (firstn 4 p).
Section Add.
Variable stdsort : forall A : Type, (A -> A -> bool) -> list A -> list A.
Variable selfcheck : mesh R -> outcome (mesh R).
(** epsDistance<Float>() and the setting exit_on_error *)
Variable eps : R.
Variable exit_on_error : bool.
(** the vectors of quadrilateral and quadratic quadrilateral meshes, and the value returned *)
Definition addCylindricalPinMesh (quads quad8s : list (mesh R)) (pitch : R) (radii : list R) (num_rings : list nat)
  (num_azimuthal mesh_order : Z) : outcome (list (mesh R) * list (mesh R) * Z) :=
  let refuse := error exit_on_error (quads, quad8s, (-1)%Z) in
  let na := Z.to_nat num_azimuthal in
  if negb ((mesh_order =? 1) || (mesh_order =? 2))%Z then refuse
  else if (num_azimuthal <? 8)%Z then refuse
  else if negb (Z.land num_azimuthal (num_azimuthal - 1) =? 0)%Z then refuse
  else if negb (length radii =? length num_rings)%nat then refuse
  else if existsb (fun r => Rltb (pitch / 2) r) radii then refuse
  else
    let* st := rings pitch radii num_rings in
    let '(ring_areas, ring_radii) := st in
    let nr := fold_left Nat.add num_rings 0%nat in
    if (mesh_order =? 1)%Z then
      let* eq := eq_radii1 na ring_areas nr in
      if existsb (fun r => Rltb (pitch / 2) r) eq then refuse
      else
        let* _ := i32 (Z.of_nat (1 + (nr + 1) * na + na / 2)) in
        let* vs := vertices1 eps pitch na nr eq in
        let* fs := faces1 na nr in
        let* vs := shift_points eps pitch vs in
        let* m := validate stdsort (face_isCCW eps) selfcheck (4 * length fs) Quad (mkMesh false false vs fs [] []) in
        Ret (quads ++ [m], quad8s, Z.of_nat (length quads))
    else
      let* eq := eq_radii2 na ring_areas ring_radii nr in
      if existsb (fun r => Rltb (pitch / 2) r) eq then refuse
      else
        let* _ := i32 (Z.of_nat (1 + 4 * na + 3 * na * nr)) in
        let* vs := vertices2 eps pitch na nr ring_radii eq in
        let* fs := faces2 na nr in
        let* vs := shift_points eps pitch vs in
        let* m := validate stdsort (face8_isCCW eps) selfcheck (4 * length fs) Quad8 (mkMesh false false vs fs [] []) in
        Ret (quads, quad8s ++ [m], Z.of_nat (length quad8s)).
End Add.
