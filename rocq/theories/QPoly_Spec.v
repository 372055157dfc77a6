(** Closed paths of quadratic segments. *)
From Coq Require Import List Arith Reals.
From Verif Require Import Seg_Spec Poly_Spec QSeg_Spec.
Import ListNotations.
Local Open Scope R_scope.

(** the edges (a, b, c): from corner a to the next corner b, with mid node c *)
Definition qedges (vs ms : list (R * R)) : list ((R * R) * (R * R) * (R * R)) := combine (edges vs) ms.
Definition eget {A} (f : R * R -> R * R -> R * R -> A) (e : (R * R) * (R * R) * (R * R)) : A :=
  f (fst (fst e)) (snd (fst e)) (snd e).
(** for every edge, the integral I of the list is the one of kind [G] along the edge *)
Definition integrals (G : (R -> R * R) -> R -> Prop) (es : list ((R * R) * (R * R) * (R * R))) (Is : list R) : Prop :=
  Forall2 (fun e I => G (eget curve2 e) I) es Is.
(** the mid node is on the middle half of the chord *)
Definition mid_half (a b c : R * R) : Prop := a <> b /\ exists k, 1/4 <= k <= 3/4 /\ c = along2 a b k.
(** the box [x0, x1] x [y0, y1] contains the edges and each of its sides meets one of them *)
Definition encloses (es : list ((R * R) * (R * R) * (R * R))) (x0 y0 x1 y1 : R) : Prop :=
  (forall a b c t, In (a, b, c) es -> 0 <= t <= 1 ->
     x0 <= fst (curve2 a b c t) <= x1 /\ y0 <= snd (curve2 a b c t) <= y1) /\
  (exists a b c t, In (a, b, c) es /\ 0 <= t <= 1 /\ fst (curve2 a b c t) = x0) /\
  (exists a b c t, In (a, b, c) es /\ 0 <= t <= 1 /\ fst (curve2 a b c t) = x1) /\
  (exists a b c t, In (a, b, c) es /\ 0 <= t <= 1 /\ snd (curve2 a b c t) = y0) /\
  (exists a b c t, In (a, b, c) es /\ 0 <= t <= 1 /\ snd (curve2 a b c t) = y1).
