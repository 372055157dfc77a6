(** Model of include/um2/math/vec.hpp and include/um2/math/mat.hpp.

    A Vec<D, T> is the list of its D components, a Mat<M, N, T> the list of its N columns.  Every
    definition is over an arbitrary arithmetic [o] of T (Arith.v).  The SIMD branches
    (is_simd_vec) apply the same operation to every lane and are not modelled separately. *)
From Coq Require Import List Arith ZArith Bool.
From Verif Require Import Base Loops Arith.
Import ListNotations.

Section Ops.
Context {T : Type} (o : arith T).

(** result[i] = f(u[i], v[i]) for i = 0 .. D - 1; both operands have D components by typing *)
Fixpoint map2 (f : T -> T -> T) (u v : list T) : list T :=
  match u, v with
  | x :: u', y :: v' => f x y :: map2 f u' v'
  | _, _ => []
  end.

(** vec.hpp:542-558 *)
Definition vneg (u : list T) : list T := map (oopp o) u.
(** vec.hpp:564-576 and 950-955 *)
Definition vadd (u v : list T) : list T := map2 (oadd o) u v.
(** vec.hpp:578-590 and 957-962 *)
Definition vsub (u v : list T) : list T := map2 (osub o) u v.
(** vec.hpp:592-604 *)
Definition vmul (u v : list T) : list T := map2 (omul o) u v.
(** vec.hpp:606-618 *)
Definition vdiv (u v : list T) : list T := map2 (odiv o) u v.
(** vec.hpp:665-678; scalar on either side (1014-1028) evaluates u[i] * s *)
Definition vscale (s : T) (u : list T) : list T := map (fun x => omul o x s) u.
(** vec.hpp:680-693 *)
Definition vdivs (u : list T) (s : T) : list T := map (fun x => odiv o x s) u.
(** vec.hpp:635-648 and 650-663 *)
Definition vadds (u : list T) (s : T) : list T := map (fun x => oadd o x s) u.
Definition vsubs (u : list T) (s : T) : list T := map (fun x => osub o x s) u.
(** vec.hpp:995-1006 (scalar - vector) and 1038-1047 (scalar / vector) *)
Definition ssubv (s : T) (u : list T) : list T := map (fun x => osub o s x) u.
Definition sdivv (s : T) (u : list T) : list T := map (fun x => odiv o s x) u.

(** vec.hpp:699-708 *)
Definition vzero (D : nat) : list T := repeat (o0 o) D.
(** min.hpp:9-13 (b < a ? b : a) and max.hpp (a < b ? b : a) *)
Definition tmin (a b : T) : T := if oltb o b a then b else a.
Definition tmax (a b : T) : T := if oltb o a b then b else a.
(** vec.hpp:710-726 and 831-845 *)
Definition vmin (u v : list T) : list T := map2 tmin u v.
Definition vmax (u v : list T) : list T := map2 tmax u v.

(** vec.hpp:728-737: starts with the first product, D > 0 by the class's static_assert *)
Definition dot (u v : list T) : outcome T :=
  match u, v with
  | x :: u', y :: v' =>
      Ret (fold_left (fun s p => oadd o s (omul o (fst p) (snd p))) (combine u' v') (omul o x y))
  | _, _ => Ub
  end.
(** vec.hpp:739-748 *)
Definition squaredNorm (u : list T) : outcome T := dot u u.
(** vec.hpp:750-755 *)
Definition norm (u : list T) : outcome T := let* s := squaredNorm u in Ret (osqrt o s).
(** vec.hpp:757-771 *)
Definition normalized (u : list T) : outcome (list T) := let* n := norm u in Ret (vdivs u n).
(** vec.hpp:804-811, 813-818, 820-825 *)
Definition squaredDistanceTo (u v : list T) : outcome T := squaredNorm (vsub u v).
Definition distanceTo (u v : list T) : outcome T :=
  let* s := squaredDistanceTo u v in Ret (osqrt o s).
Definition isApprox (eps2 : T) (u v : list T) : outcome bool :=
  let* s := squaredDistanceTo u v in Ret (oltb o s eps2).

(** vec.hpp:773-783, Kahan's algorithm for a * d - b * c *)
Definition det2x2 (a b c d : T) : T :=
  let w := omul o b c in
  let e := ofma o (oopp o b) c w in
  let f := ofma o a d (oopp o w) in
  oadd o f e.
(** vec.hpp:785-794 *)
Definition cross2 (u v : T * T) : T := det2x2 (fst u) (snd u) (fst v) (snd v).
(** vec.hpp:796-803 *)
Definition cross3 (u v : T * T * T) : T * T * T :=
  let '(u0, u1, u2) := u in
  let '(v0, v1, v2) := v in
  (det2x2 u1 u2 v1 v2, det2x2 u2 u0 v2 v0, det2x2 u0 u1 v0 v1).

(** vec.hpp:893-903 *)
Fixpoint veqb (u v : list T) : bool :=
  match u, v with
  | x :: u', y :: v' => if negb (oeqb o x y) then false else veqb u' v'
  | _, _ => true
  end.
(** vec.hpp:906-919 *)
Fixpoint vltb (u v : list T) : bool :=
  match u, v with
  | x :: u', y :: v' => if oltb o x y then true else if oltb o y x then false else vltb u' v'
  | _, _ => false
  end.
(** vec.hpp:921-947 *)
Definition vneqb (u v : list T) : bool := negb (veqb u v).
Definition vgtb (u v : list T) : bool := vltb v u.
Definition vleb (u v : list T) : bool := negb (vltb v u).
Definition vgeb (u v : list T) : bool := negb (vltb u v).

(** mat.hpp:134-154: element (i, j) is component i of column j *)
Definition elem (a : list (list T)) (i j : nat) : outcome T := let* c := rd a j in rd c i.
(** mat.hpp:174-183 *)
Definition mzero (M N : nat) : list (list T) := repeat (vzero M) N.
(** mat.hpp:185-195 *)
Definition mident (N : nat) : outcome (list (list T)) :=
  for_ N 0 (fun i m => let* c := rd m i in let* c := wr c i (o1 o) in wr m i c) (mzero N N).

(** mat.hpp:200-220: column by column into a result that starts uninitialised ([None]) *)
Definition mcols (N P : nat) (f : nat -> outcome (list T)) : outcome (list (option (list T))) :=
  for_ N 0 (fun i r => let* c := f i in wr r i (Some c)) (repeat None P).
Definition madd (N : nat) (a b : list (list T)) :=
  mcols N N (fun i => let* x := rd a i in let* y := rd b i in Ret (vadd x y)).
Definition msub (N : nat) (a b : list (list T)) :=
  mcols N N (fun i => let* x := rd a i in let* y := rd b i in Ret (vsub x y)).

(** mat.hpp:222-231 *)
Definition mat_vec (M N : nat) (a : list (list T)) (x : list T) : outcome (list T) :=
  for_ N 0 (fun i res => let* xi := rd x i in let* c := rd a i in Ret (vadd res (vscale xi c)))
    (vzero M).

(** mat.hpp:233-246.  The loop runs to N, although the result has P columns; a column of [None] was
    never written. *)
Definition mat_mat (M N P : nat) (a b : list (list T)) : outcome (list (option (list T))) :=
  mcols N P (fun i => let* bi := rd b i in mat_vec M N a bi).

(** mat.hpp:249-263, with the values of cos and sin as arguments *)
Definition makeRotation (c s : T) : list (list T) := [[c; s]; [oopp o s; c]].

(** mat.hpp:265-289.  det = 0 fails an ASSERT (a release build divides by zero): [Fail]. *)
Definition inv (m : list (list T)) : outcome (list (list T)) :=
  let* a := elem m 0 0 in
  let* c := elem m 1 0 in
  let* b := elem m 0 1 in
  let* d := elem m 1 1 in
  let det := det2x2 a b c d in
  if oeqb o det (o0 o) then Fail
  else Ret [[odiv o d det; odiv o (oopp o c) det]; [odiv o (oopp o b) det; odiv o a det]].
End Ops.
