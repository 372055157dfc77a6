(** Model of include/um2/geometry/quadratic_segment.hpp.

    D-dimensional points are lists of components; functions restricted to, or modelled only in, the
    plane use pairs.  intersect and intersects of two quadratic segments (707-867) are in
    QInt_Model. *)
From Coq Require Import List Arith ZArith Bool Reals.
From Verif Require Import Base Arith XReal Vec_Model Box_Model Seg_Model Poly_Model Roots_Model.
Import ListNotations.
Local Open Scope bool_scope.

Section Ops.
Context {T : Type} (o : arith T).
Notation pt := (T * T)%type.
(** the literals 4 and 8 *)
Definition o4 : T := oadd o (o2 o) (o2 o).
Definition o8 : T := oadd o o4 o4.
(** the weights of interpolate: (2r-1)(r-1), (2r-1)r and -4r(r-1) *)
Definition qw0 (r : T) : T := omul o (osub o (omul o (o2 o) r) (o1 o)) (osub o r (o1 o)).
Definition qw1 (r : T) : T := omul o (osub o (omul o (o2 o) r) (o1 o)) r.
Definition qw2 (r : T) : T := omul o (omul o (oopp o o4) r) (osub o r (o1 o)).
(** interpolate and operator() (199-215) *)
Definition qs_at (v0 v1 v2 : list T) (r : T) : list T :=
  vadd o (vadd o (vscale o (qw0 r) v0) (vscale o (qw1 r) v1)) (vscale o (qw2 r) v2).
(** jacobian (221-236) *)
Definition qs_jacobian (v0 v1 v2 : list T) (r : T) : list T :=
  let w0 := osub o (omul o o4 r) (o3 o) in
  let w1 := osub o (omul o o4 r) (o1 o) in
  vadd o (vscale o w0 (vsub o v0 v2)) (vscale o w1 (vsub o v1 v2)).
(** getPolyCoeffs (242-260) *)
Definition qs_poly (v0 v1 v2 : list T) : list T * list T * list T :=
  let v02 := vsub o v2 v0 in
  let v12 := vsub o v2 v1 in
  let b := vadd o (vscale o (o3 o) v02) v12 in
  let a := vscale o (oopp o (o2 o)) (vadd o v02 v12) in
  (v0, b, a).
(** getBezierControlPoint (515-523) *)
Definition qs_bezier (v0 v1 v2 : list T) : list T :=
  vsub o (vscale o (o2 o) v2) (vdivs o (vadd o v0 v1) (o2 o)).
(** boundingBox (369-404): component i of the loop, given min(v0,v1), max(v0,v1), v0, b and a *)
Definition bb_step (mn mx c b a : T) : T * T :=
  if oeqb o a (o0 o) then (mn, mx)
  else
    let half_b := odiv o b (o2 o) in
    let r := odiv o (oopp o half_b) a in
    if oltb o (o0 o) r && oltb o r (o1 o) then
      let x := oadd o c (omul o r half_b) in
      (tmin o mn x, tmax o mx x)
    else (mn, mx).
Fixpoint bb_loop (mn mx c b a : list T) : list (T * T) :=
  match mn, mx, c, b, a with
  | m :: mn', x :: mx', c0 :: c', b0 :: b', a0 :: a' => bb_step m x c0 b0 a0 :: bb_loop mn' mx' c' b' a'
  | _, _, _, _, _ => []
  end.
Definition qs_box (v0 v1 v2 : list T) : @box T :=
  let '(c, b, a) := qs_poly v0 v1 v2 in
  let l := bb_loop (vmin o v0 v1) (vmax o v0 v1) c b a in
  mkBox (map fst l) (map snd l).

(** * the plane *)
Definition pdot (a b : pt) : T := oadd o (omul o (fst a) (fst b)) (omul o (snd a) (snd b)).
Definition psq (a : pt) : T := pdot a a.
(** the functions above for D = 2 *)
Definition pqs_at (v0 v1 v2 : pt) (r : T) : pt :=
  padd o (padd o (pscale o (qw0 r) v0) (pscale o (qw1 r) v1)) (pscale o (qw2 r) v2).
Definition pqs_poly (v0 v1 v2 : pt) : pt * pt * pt :=
  let v02 := psub o v2 v0 in
  let v12 := psub o v2 v1 in
  (v0, padd o (pscale o (o3 o) v02) v12, pscale o (oopp o (o2 o)) (padd o v02 v12)).
Definition pqs_bezier (v0 v1 v2 : pt) : pt :=
  psub o (pscale o (o2 o) v2) (pdivs o (padd o v0 v1) (o2 o)).
(** isStraight (266-291), with epsDistance2<T>() *)
Definition isStraight (eps2 : T) (v0 v1 v2 : pt) : bool :=
  let v10 := psub o v1 v0 in
  let v20 := psub o v2 v0 in
  let v10_sq := psq v10 in
  let v20_sq := psq v20 in
  if oleb o v10_sq v20_sq then false
  else
    let cp := cross2 o v10 v20 in
    oltb o (odiv o (omul o cp cp) v10_sq) eps2.
(** quadratic_equation.hpp:52-60 *)
Definition discriminant (a b c : T) : T :=
  let a4 := omul o o4 a in
  let w := omul o a4 c in
  let e := ofma o (oopp o c) a4 w in
  let f := ofma o b b (oopp o w) in
  oadd o f e.
(** length (297-363), with the logarithm *)
Definition qs_length (log : T -> T) (eps2 : T) (v0 v1 v2 : pt) : T :=
  if isStraight eps2 v0 v1 v2 then pdist o v0 v1
  else
    let '(_, x1, x2) := pqs_poly v0 v1 v2 in
    let a := omul o o4 (psq x2) in
    let b := omul o o4 (pdot x2 x1) in
    let c := psq x1 in
    let sa := osqrt o a in
    let sc := osqrt o c in
    let sabc := osqrt o (oadd o (oadd o a b) c) in
    let disc := discriminant a b c in
    let a2b := oadd o (omul o (o2 o) a) b in
    let num := oadd o
      (omul o disc (log (odiv o (oadd o (omul o (omul o (o2 o) sa) sc) b)
                                (oadd o (omul o (omul o (o2 o) sa) sabc) a2b))))
      (omul o sa (omul o (o2 o) (osub o (omul o a2b sabc) (omul o b sc)))) in
    let den := omul o (omul o (omul o o8 sa) sa) sa in
    odiv o num den.
(** enclosedArea (891-902) *)
Definition enclosedArea (v0 v1 v2 : pt) : T :=
  let two_thirds := odiv o (o2 o) (o3 o) in
  omul o two_thirds (cross2 o (psub o v2 v0) (psub o v1 v0)).
(** enclosedCentroid (908-966) *)
Definition enclosedCentroid (v0 v1 v2 : pt) : pt :=
  let v12 := psub o v1 v0 in
  let v13 := psub o v2 v0 in
  let u1 := pdivs o v12 (osqrt o (psq v12)) in
  let u2 := (oopp o (snd u1), fst u1) in
  let p2ux := pdot u1 v12 in
  let p3ux := pdot u1 v13 in
  let p3uy := pdot u2 v13 in
  let ten := oadd o o8 (o2 o) in
  let tenth := odiv o (o1 o) ten in
  let cu := pscale o tenth (oadd o (omul o (o3 o) p2ux) (omul o o4 p3ux), omul o o4 p3uy) in
  (* u * cu, the matrix with columns u1 and u2 *)
  padd o (oadd o (omul o (fst u1) (fst cu)) (omul o (fst u2) (snd cu)),
          oadd o (omul o (snd u1) (fst cu)) (omul o (snd u2) (snd cu))) v0.
(** curvesLeft (972-978) *)
Definition curvesLeft (v0 v1 v2 : pt) : bool := areCCW o v0 v2 v1.
End Ops.

(** log of an extended real, as the C library defines it *)
Definition xlog (x : xr) : xr :=
  match x with
  | Fin a => if Rltb 0 a then Fin (ln a) else if Reqb a 0 then Inf true else NaN
  | NZero => Inf true | Inf false => Inf false | _ => NaN
  end.

Local Open Scope R_scope.
Notation RA := Rarith.
Notation rpt := (R * R)%type.
(** intersect(ray) (667-701): the values stored in the buffer, in order; their number is returned *)
Definition qs_intersect (v0 v1 v2 ro rd : rpt) : list R :=
  let '(vc, vb, va) := pqs_poly RA v0 v1 v2 in
  let voc := psub RA vc ro in
  let a := cross2 RA va rd in
  let b := cross2 RA vb rd in
  let c := cross2 RA voc rd in
  let '(s0, s1) := solveQuadratic a b c in
  let hit s :=
    if oleb RA 0 s && oleb RA s 1 then
      let r := pdot RA (padd RA voc (pscale RA s (padd RA vb (pscale RA s va)))) rd in
      if oleb RA 0 r then [r] else []
    else [] in
  hit s0 ++ hit s1.
(** pointClosestTo (410-475); lambda, ope and fuel as for solveCubic *)
Definition qs_pointClosestTo (eps2 lambda ope : R) (fuel : nat) (v0 v1 v2 p : rpt) : outcome R :=
  if isStraight RA eps2 v0 v1 v2 then
    pointClosestTo RA [fst v0; snd v0] [fst v1; snd v1] [fst p; snd p]
  else
    let '(vc, vb, va) := pqs_poly RA v0 v1 v2 in
    let vw := psub RA vc p in
    let a := 2 * psq RA va in
    let b := 3 * pdot RA va vb in
    let c := psq RA vb + 2 * pdot RA va vw in
    let d := pdot RA vb vw in
    let* roots := solveCubic lambda ope fuel a b c d in
    let '(r0, r1, r2) := roots in
    let sq_dist0 := psq RA (psub RA p v0) in
    let sq_dist1 := psq RA (psub RA p v1) in
    let best := if Rltb sq_dist1 sq_dist0 then (1, sq_dist1) else (0, sq_dist0) in
    let try best rr :=
      if oleb RA 0 rr && oleb RA rr 1 then
        let p_sq_dist := psq RA (psub RA p (pqs_at RA v0 v1 v2 rr)) in
        if Rltb p_sq_dist (snd best) then (rr, p_sq_dist) else best
      else best in
    Ret (fst (try (try (try best r0) r1) r2)).
(** squaredDistanceTo and distanceTo (481-495) *)
Definition qs_squaredDistanceTo (eps2 lambda ope : R) (fuel : nat) (v0 v1 v2 p : rpt) : outcome R :=
  let* r := qs_pointClosestTo eps2 lambda ope fuel v0 v1 v2 p in
  Ret (psq RA (psub RA (pqs_at RA v0 v1 v2 r) p)).
Definition qs_distanceTo (eps2 lambda ope : R) (fuel : nat) (v0 v1 v2 p : rpt) : outcome R :=
  let* s := qs_squaredDistanceTo eps2 lambda ope fuel v0 v1 v2 p in Ret (sqrt s).
(** isLeft (529-639) *)
Definition qs_isLeft (eps2 : R) (v0 v1 v2 p : rpt) : bool :=
  if isStraight RA eps2 v0 v1 v2 then areCCW RA v0 v1 p
  else
    let bcp := pqs_bezier RA v0 v1 v2 in
    let '(t0, t1, t2) := if tri_isCCW RA v0 v1 bcp then (v0, v1, bcp) else tri_flip (v0, v1, bcp) in
    if negb (tri_contains RA t0 t1 t2 p) then areCCW RA v0 v1 p
    else
      let q1 := psub RA v1 v0 in
      let q2 := psub RA v2 v0 in
      (* getRotation (line_segment.hpp:276-313) *)
      let a := pdivs RA q1 (sqrt (psq RA q1)) in
      let rot v := (fst a * fst v + snd a * snd v, - snd a * fst v + fst a * snd v) in
      let q1 := rot q1 in
      let q2 := rot q2 in
      let pr := rot (psub RA p v0) in
      let curves_right := oleb RA 0 (snd q2) in
      let q2 := if curves_right then q2 else (fst q2, - snd q2) in
      let pr := if curves_right then pr else (fst pr, - snd pr) in
      let bb := qs_box RA [0; 0] [fst q1; snd q1] [fst q2; snd q2] in
      if negb (box_contains RA bb [fst pr; snd pr]) then curves_right
      else
        let bx := - fst q1 + 4 * fst q2 in
        let by_ := 4 * snd q2 in
        let ax := - bx + fst q1 in
        let ay := - by_ in
        let '(r0, r1) := solveQuadratic ax bx (- fst pr) in
        if Rltb (IZR (10 ^ 15)) r1 then
          let qy := r0 * (by_ + r0 * ay) in
          let is_left := oleb RA qy (snd pr) in
          if curves_right then is_left else negb is_left
        else
          let qy0 := r0 * (by_ + r0 * ay) in
          let qy1 := r1 * (by_ + r1 * ay) in
          let qymin := tmin RA qy0 qy1 in
          let qymax := tmax RA qy0 qy1 in
          let contained := oleb RA qymin (snd pr) && oleb RA (snd pr) qymax in
          if curves_right then negb contained else contained.
