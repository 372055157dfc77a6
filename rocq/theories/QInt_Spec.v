(** Where two quadratic segments meet. *)
From Coq Require Import List Arith ZArith Reals Floats.SpecFloat.
From Verif Require Import Base Fvm_Model Seg_Spec QSeg_Spec.
Import ListNotations.

(** the pairs of edges of a polygon with m edges that are compared: each two different edges once, if
    m is 3 or 4 *)
Definition compared (m i j : nat) : Prop :=
  (j = i + 1 /\ i + 1 < m) \/ (i = m - 1 /\ j = 0) \/ (m = 4 /\ ((i = 0 /\ j = 2) \/ (i = 1 /\ j = 3))).

(** edge i of a polygon with m edges: from corner i to the next one, with mid node m + i *)
Definition edge_of {A} (p : list A) (m i : nat) (e : A * A * A) : Prop :=
  nth_error p i = Some (fst (fst e)) /\ nth_error p ((i + 1) mod m) = Some (snd (fst e)) /\ nth_error p (m + i) = Some (snd e).
(** the slots a call with a buffer may use, counted from its first one *)
Definition slots (dbg : bool) : nat := if dbg then 28 else Z.to_nat 1024.
(** everything is the same but vertices that are mid nodes of faces *)
Definition same_but_mids {F} (k : kind) (m m' : mesh F) : Prop :=
  fv m' = fv m /\ is_morton m' = is_morton m /\ has_vf m' = has_vf m /\ vf_offs m' = vf_offs m /\ vf m' = vf m /\
  length (mv m') = length (mv m) /\
  forall v, (forall c t, In c (fv m) -> nedges k <= t -> nth_error c t <> Some (Z.of_nat v)) ->
    nth_error (mv m') v = nth_error (mv m) v.

Local Open Scope R_scope.
Notation rseg := (R * R * (R * R) * (R * R))%type.
(** the points of a segment *)
Definition on_curve (q : rseg) (t : R) : R * R := let '(v0, v1, v2) := q in curve2 v0 v1 v2 t.
(** p is at parameter r of q1, at a squared distance of less than [d] from the point of q2 at s, both
    parameters in [0, 1] up to [t] *)
Definition near_hit (d t : R) (q1 q2 : rseg) (p : R * R) : Prop :=
  exists r s, - t <= r <= 1 + t /\ - t <= s <= 1 + t /\ p = on_curve q1 r /\ dsq (on_curve q1 r) (on_curve q2 s) < d.
(** x is the point of the chord closest to the mid node *)
Definition foot (q : rseg) (x : R * R) : Prop :=
  let '(v0, v1, v2) := q in
  (exists t, 0 <= t <= 1 /\ x = along2 v0 v1 t) /\ forall t, 0 <= t <= 1 -> dsq v2 x <= dsq v2 (along2 v0 v1 t).
(** a segment with its mid node in the middle of the chord *)
Definition centred (q : rseg) : Prop :=
  let '(v0, v1, v2) := q in v2 = ((fst v0 + fst v1) / 2, (snd v0 + snd v1) / 2).
Definition direction (q : rseg) : R * R := let '(v0, v1, _) := q in (fst v1 - fst v0, snd v1 - snd v0).
(** the chords are not parallel *)
Definition across (q1 q2 : rseg) : Prop :=
  fst (direction q1) * snd (direction q2) - snd (direction q1) * fst (direction q2) <> 0.

(** the value of an IEEE number *)
Definition sf_val (x : spec_float) : R :=
  match x with
  | S754_finite s m e => (if s then -1 else 1) * IZR (Z.pos m) * powerRZ 2 e
  | _ => 0
  end.
Definition pt_val (p : spec_float * spec_float) : R * R := (sf_val (fst p), sf_val (snd p)).
Definition seg_val (q : spec_float * spec_float * (spec_float * spec_float) * (spec_float * spec_float)) : rseg :=
  let '(a, b, c) := q in (pt_val a, pt_val b, pt_val c).
