(** Model of intersect and intersects of two quadratic segments (quadratic_segment.hpp:707-867),
    of hasSelfIntersection and fixSelfIntersection of quadratic polygons (polygon.hpp:269-388) and of
    checkSelfIntersections (src/mesh/face_vertex_mesh.cpp:428-504).

    Over an arbitrary arithmetic.  A segment is the triple of its vertices, the mid node last; a
    quadratic polygon is the list of its N vertices.  The pointer to the buffer is the buffer and the
    index of its first slot.  [dbg] says whether ASSERT is compiled in; a failed one ends the process
    ([Fail]), as does LOG_ERROR (settings.hpp:29).  LOG_WARN is not modelled. *)
From Coq Require Import List Arith ZArith Bool Floats.SpecFloat.
From Verif Require Import Base Loops Arith Vec_Model Box_Model Seg_Model Poly_Model QSeg_Model QPoly_Model Soup_Model Fvm_Model.
Import ListNotations.
Local Open Scope bool_scope.

Section Ops.
Context {T : Type} (o : arith T).
(** epsDistance<T>() (vec.hpp:44-54) *)
Variable eps : T.
Notation pt := (T * T)%type.
Notation qseg := (T * T * (T * T) * (T * T))%type.

(** the literals 1.015625 = 1 + 1/64, 0.25, 0.75 and 100 * epsDistance<T>() *)
Definition o64 : T := omul o (o8 o) (o8 o).
Definition scaling : T := oadd o (o1 o) (odiv o (o1 o) o64).
Definition fourth : T := odiv o (o1 o) (o4 o).
Definition three_fourths : T := odiv o (o3 o) (o4 o).
Definition o100 : T := oadd o (oadd o o64 (omul o (o4 o) (o8 o))) (o4 o).
Definition err_tol : T := omul o o100 eps.
(** epsDistance2<T>() (vec.hpp:56-61) and isApprox of points (vec.hpp:820-825) *)
Definition eps2 : T := omul o eps eps.
Definition approx (a b : pt) : bool := oltb o (psq o (psub o a b)) eps2.

(** operator(), jacobian and boundingBox of a segment in the plane (199-236, 369-404) *)
Definition q_at (q : qseg) (r : T) : pt := let '(v0, v1, v2) := q in pqs_at o v0 v1 v2 r.
Definition q_jac (q : qseg) (r : T) : pt :=
  let '(v0, v1, v2) := q in
  let w0 := osub o (omul o (o4 o) r) (o3 o) in
  let w1 := osub o (omul o (o4 o) r) (o1 o) in
  padd o (pscale o w0 (psub o v0 v2)) (pscale o w1 (psub o v1 v2)).
Definition comps (p : pt) : list T := [fst p; snd p].
Definition q_box (q : qseg) : @box T :=
  let '(v0, v1, v2) := q in qs_box o (comps v0) (comps v1) (comps v2).
(** the test 713-721 *)
Definition boxes_meet (q1 q2 : qseg) : bool :=
  box_intersects o (box_scale o (q_box q1) scaling) (box_scale o (q_box q2) scaling).
(** the halves (768-775) *)
Definition left_half (q : qseg) : qseg := let '(v0, v1, v2) := q in (v0, v2, q_at q fourth).
Definition right_half (q : qseg) : qseg := let '(v0, v1, v2) := q in (v2, v1, q_at q three_fourths).

(** the loop 733-755: [n] turns are left, the state is (rs, f_rs, err_next); None if det is zero *)
Fixpoint newton (n : nat) (q1 q2 : qseg) (rs f : pt) (err : T) : option (pt * T) :=
  match n with
  | O => Some (rs, err)
  | S n' =>
      let err_prev := err in
      let j1 := q_jac q1 (fst rs) in
      let j2 := q_jac q2 (snd rs) in
      let a := fst j1 in
      let b := oopp o (fst j2) in
      let c := snd j1 in
      let d := oopp o (snd j2) in
      let det := det2x2 o a b c d in
      if oeqb o det (o0 o) then None
      else
        let col0 := (odiv o d det, odiv o (oopp o c) det) in
        let col1 := (odiv o (oopp o b) det, odiv o a det) in
        (* inv_jac * f_rs (mat.hpp:222-231) *)
        let step := padd o (padd o (o0 o, o0 o) (pscale o (fst f) col0)) (pscale o (snd f) col1) in
        let rs := psub o rs step in
        let f := psub o (q_at q1 (fst rs)) (q_at q2 (snd rs)) in
        let err := psq o f in
        if oltb o err err_prev && negb (n' =? 0) then newton n' q1 q2 rs f err else Some (rs, err)
  end.
(** 726-765: the point written and counted, if any *)
Definition leaf (q1 q2 : qseg) : option pt :=
  let f := psub o (q_at q1 (o0 o)) (q_at q2 (o0 o)) in
  match newton 10 q1 q2 (o0 o, o0 o) f (psq o f) with
  | None => None
  | Some (rs, err) =>
      let '(r, s) := rs in
      let hi := oadd o (o1 o) err_tol in
      if oltb o err err_tol && oleb o (oopp o err_tol) r && oleb o r hi
         && oleb o (oopp o err_tol) s && oleb o s hi
      then Some (q_at q1 r) else None
  end.

(** the removal of duplicates (785-793) on the [n] points from slot [b] on: the loop over j, then the
    loop over i.  They need at most n turns. *)
Fixpoint dd_inner (fuel : nat) (buf : list pt) (b i j n : nat) : outcome (list pt * nat) :=
  match fuel with
  | O => OutOfFuel
  | S fuel' =>
      if j <? n then
        let* x := rd buf (b + i) in
        let* y := rd buf (b + j) in
        if approx x y then
          let* z := rd buf (b + (n - 1)) in
          let* buf := wr buf (b + j) z in
          dd_inner fuel' buf b i j (n - 1)
        else dd_inner fuel' buf b i (j + 1) n
      else Ret (buf, n)
  end.
Fixpoint dd_outer (fuel : nat) (buf : list pt) (b i n : nat) : outcome (list pt * nat) :=
  match fuel with
  | O => OutOfFuel
  | S fuel' =>
      if i <? n then
        let* r := dd_inner (S n) buf b i (i + 1) n in
        dd_outer fuel' (fst r) b (i + 1) (snd r)
      else Ret (buf, n)
  end.
(** intersect (707-797); [k] = 5 - iters levels of bisection are left.  The buffer and the number of
    points reported, which are in the slots from [b] on. *)
Fixpoint intersect (dbg : bool) (k : nat) (q1 q2 : qseg) (buf : list pt) (b : nat) : outcome (list pt * nat) :=
  if negb (boxes_meet q1 q2) then Ret (buf, 0)
  else
    match k with
    | O =>
        match leaf q1 q2 with
        | Some p => let* buf := wr buf b p in Ret (buf, 1)
        | None => Ret (buf, 0)
        end
    | S k' =>
        let q1l := left_half q1 in
        let q1r := right_half q1 in
        let q2l := left_half q2 in
        let q2r := right_half q2 in
        let* (buf, n1) := intersect dbg k' q1l q2l buf b in
        let* (buf, n2) := intersect dbg k' q1l q2r buf (b + n1) in
        let* (buf, n3) := intersect dbg k' q1r q2l buf (b + (n1 + n2)) in
        let* (buf, n4) := intersect dbg k' q1r q2r buf (b + (n1 + n2 + n3)) in
        let n := n1 + n2 + n3 + n4 in
        let* (buf, n) := dd_outer (S n) buf b 0 n in
        if dbg && negb (n <=? 2) then Fail else Ret (buf, n)
    end.
(** intersects (799-867) *)
Fixpoint intersects (k : nat) (q1 q2 : qseg) : bool :=
  if negb (boxes_meet q1 q2) then false
  else
    match k with
    | O => match leaf q1 q2 with Some _ => true | None => false end
    | S k' =>
        let q1l := left_half q1 in
        let q1r := right_half q1 in
        let q2l := left_half q2 in
        let q2r := right_half q2 in
        intersects k' q1l q2l || intersects k' q1l q2r || intersects k' q1r q2l || intersects k' q1r q2r
    end.
(** iters = 0 *)
Definition levels : nat := 5.

(** * polygon.hpp *)
(** poly.getEdge(i).intersect(poly.getEdge(j), buffer) *)
Definition edge_hits (dbg : bool) (p : list pt) (i j : nat) (buf : list pt) : outcome (list pt * nat) :=
  let* e := getEdgeQ p i in
  let* f := getEdgeQ p j in
  intersect dbg levels e f buf 0.
(** the loop over i < m - 1 (275-279, 331-337): the first i with more than one hit; [n] turns left *)
Fixpoint adjacent (dbg : bool) (n i : nat) (p : list pt) (buf : list pt) : outcome (list pt * option nat) :=
  match n with
  | O => Ret (buf, None)
  | S n' =>
      let* (buf, h) := edge_hits dbg p i (i + 1) buf in
      if 1 <? h then Ret (buf, Some i) else adjacent dbg n' (i + 1) p buf
  end.
(** hasSelfIntersection (269-298) *)
Definition hasSelfIntersection (dbg : bool) (p : list pt) (buf : list pt) : outcome (list pt * bool) :=
  let m := length p / 2 in
  let* (buf, a) := adjacent dbg (m - 1) 0 p buf in
  match a with
  | Some _ => Ret (buf, true)
  | None =>
      let* (buf, h) := edge_hits dbg p (m - 1) 0 buf in
      if 1 <? h then Ret (buf, true)
      else if m =? 4 then
        let* (buf, h) := edge_hits dbg p 0 2 buf in
        if 1 <? h then Ret (buf, true)
        else
          let* (buf, h) := edge_hits dbg p 1 3 buf in
          Ret (buf, 1 <? h)
      else Ret (buf, false)
  end.
(** fixSelfIntersection (323-388): the edges e0 and e1 found (329-358), None for -1 *)
Definition find_edges (dbg : bool) (p : list pt) (buf : list pt) : outcome (list pt * option (nat * nat)) :=
  let m := length p / 2 in
  let* (buf, a) := adjacent dbg (m - 1) 0 p buf in
  let e := match a with Some i => Some (i, i + 1) | None => None end in
  let* (buf, h) := edge_hits dbg p (m - 1) 0 buf in
  let e := if 1 <? h then Some (m - 1, 0) else e in
  if m =? 4 then
    let* (buf, h) := edge_hits dbg p 0 2 buf in
    let e := if 1 <? h then Some (0, 2) else e in
    let* (buf, h) := edge_hits dbg p 1 3 buf in
    Ret (buf, if 1 <? h then Some (1, 3) else e)
  else Ret (buf, e).
(** the displacement of a mid node from the chord (377), after line.pointClosestTo *)
Definition offset (e : qseg) : outcome pt :=
  let '(a, b, c) := e in
  let* r := pointClosestTo o (comps a) (comps b) (comps c) in
  Ret (psub o c (padd o a (pscale o r (psub o b a)))).
Definition chord_dist (e : qseg) : outcome T :=
  let '(a, b, c) := e in seg_distanceTo o (comps a) (comps b) (comps c).
(** 360-388: the new polygon, buffer and vid, or None when it returns false (the polygon is then
    unchanged) *)
Definition fixSelfIntersection (dbg : bool) (p : list pt) (buf : list pt)
  : outcome (list pt * option (list pt * nat)) :=
  let m := length p / 2 in
  let* (buf, e) := find_edges dbg p buf in
  match e with
  | None => Ub
  | Some (e0, e1) =>
      let* edge0 := getEdgeQ p e0 in
      let* edge1 := getEdgeQ p e1 in
      let* d0 := chord_dist edge0 in
      let* d1 := chord_dist edge1 in
      let '(e0, edge0, edge1) := if oltb o d1 d0 then (e1, edge1, edge0) else (e0, edge0, edge1) in
      let* disp := offset edge1 in
      let '(a, b, c) := edge0 in
      let* (buf, h) := intersect dbg levels (a, b, padd o c disp) edge1 buf 0 in
      if 1 <? h then Ret (buf, None)
      else
        let vid := m + e0 in
        let* buf := wr buf 0 disp in
        let* x := rd p vid in
        let* p := wr p vid (padd o x disp) in
        Ret (buf, Some (p, vid))
  end.

(** * checkSelfIntersections *)
(** boundingBox of a quadratic mesh (face_vertex_mesh.hpp:440-449) *)
Fixpoint mesh_box_from (n i : nat) (m : mesh T) (b : box (T := T)) : outcome (box (T := T)) :=
  match n with
  | O => Ret b
  | S n' =>
      let* p := getFace m i in
      let* c := q_boundingBox o p in
      mesh_box_from n' (i + 1) m (box_add o b c)
  end.
Definition mesh_box (m : mesh T) : outcome (box (T := T)) :=
  let* p := getFace m 0 in
  let* b := q_boundingBox o p in
  mesh_box_from (length (fv m) - 1) 1 m b.
(** AxisAlignedBox::isApprox (axis_aligned_box.hpp:269-276) *)
Definition box_approx (a b : box (T := T)) : outcome bool :=
  let* x := isApprox o eps2 (bmin a) (bmin b) in
  let* y := isApprox o eps2 (bmax a) (bmax b) in
  Ret (x && y).
(** the loop over the faces (439-501) up to the first one with a self-intersection; [n] faces left *)
Fixpoint first_bad (dbg : bool) (n i : nat) (m : mesh T) (buf : list pt) : outcome (list pt * option nat) :=
  match n with
  | O => Ret (buf, None)
  | S n' =>
      let* p := getFace m i in
      let* (buf, h) := hasSelfIntersection dbg p buf in
      if h then Ret (buf, Some i) else first_bad dbg n' (i + 1) m buf
  end.
(** _v[vid] += buffer[0] *)
Definition move_vertex (m : mesh T) (v : Z) (d : pt) : outcome (mesh T) :=
  let* x := rdz (mv m) v in
  let* vs := wrz (mv m) v (padd o x d) in
  Ret (mkMesh (is_morton m) (has_vf m) vs (fv m) (vf_offs m) (vf m)).
(** the repair of face [i] (460-499) *)
Definition repair (dbg : bool) (m : mesh T) (i : nat) (buf : list pt) : outcome (list pt * mesh T) :=
  let* before := mesh_box m in
  let* p := getFace m i in
  let* (buf, r) := fixSelfIntersection dbg p buf in
  match r with
  | None => Fail
  | Some (_, vid) =>
      let* c := rd (fv m) i in
      let* v := rd c vid in
      let* d := rd buf 0 in
      let* m := move_vertex m v d in
      let* after := mesh_box m in
      let* ok := box_approx before after in
      if ok then Ret (buf, m) else Fail
  end.
(** checkSelfIntersections (428-504); OutOfFuel if the while loop has not ended after [fuel] turns.
    [buf] is the uninitialised local buffer of 2 N points. *)
Fixpoint checkSelfIntersections (dbg : bool) (fuel : nat) (buf : list pt) (m : mesh T) : outcome (mesh T) :=
  match fuel with
  | O => OutOfFuel
  | S fuel' =>
      let* (buf, r) := first_bad dbg (length (fv m)) 0 m buf in
      match r with
      | None => Ret m
      | Some i =>
          let* (buf, m) := repair dbg m i buf in
          checkSelfIntersections dbg fuel' buf m
      end
  end.
End Ops.

(** * IEEE arithmetic
    The number types float (24, 128) and double (53, 1024), rounding to nearest even. *)
Section Ieee.
Variables prec emax : Z.
(** the integer m and exponent e of a finite number m * 2^e *)
Definition sf_parts (x : spec_float) : option (Z * Z) :=
  match x with
  | S754_zero _ => Some (0, 0)%Z
  | S754_finite s m e => Some ((if s then Z.neg m else Z.pos m), e)
  | _ => None
  end.
(** fma of finite numbers with one rounding; of others, SFadd and SFmul give the same infinity or
    NaN.  The sign of a zero result is not modelled. *)
Definition sf_fma (a b c : spec_float) : spec_float :=
  match sf_parts a, sf_parts b, sf_parts c with
  | Some (ma, ea), Some (mb, eb), Some (mc, ec) =>
      let m := (ma * mb)%Z in
      let e := (ea + eb)%Z in
      let k := Z.min e ec in
      binary_normalize prec emax (m * 2 ^ (e - k) + mc * 2 ^ (ec - k)) k false
  | _, _, _ => SFadd prec emax (SFmul prec emax a b) c
  end.
Definition sf_int (z : Z) : spec_float := binary_normalize prec emax z 0 false.
Definition SFarith : arith spec_float :=
  mkArith spec_float (S754_zero false) (sf_int 1) (SFadd prec emax) (SFsub prec emax) (SFmul prec emax)
    (SFdiv prec emax) SFopp sf_fma (SFsqrt prec emax) SFltb SFeqb.
(** n / d, correctly rounded: the value of a literal such as 1e-7 *)
Definition sf_lit (n d : Z) : spec_float := SFdiv prec emax (sf_int n) (sf_int d).
End Ieee.
Definition F64 : arith spec_float := SFarith 53 1024.
Definition F32 : arith spec_float := SFarith 24 128.
(** epsDistance<double>() and epsDistance<float>() *)
Definition eps64 : spec_float := sf_lit 53 1024 1 10000000.
Definition eps32 : spec_float := sf_lit 24 128 1 10000.
