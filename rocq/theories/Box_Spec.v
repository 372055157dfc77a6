(** Boxes as sets of points. *)
From Coq Require Import List Arith Reals.
From Verif Require Import Base Arith XReal Box_Model.
Import ListNotations.

Section Spec.
Context {T : Type} (le : T -> T -> Prop).
(** [p] lies in the box, componentwise *)
Definition in_box (b : box (T := T)) (p : list T) : Prop := Forall2 le (bmin b) p /\ Forall2 le p (bmax b).
(** a box with D components and minima <= maxima *)
Definition valid_box (D : nat) (b : box (T := T)) : Prop :=
  length (bmin b) = D /\ length (bmax b) = D /\ Forall2 le (bmin b) (bmax b).
(** every point of [a] is in [b] *)
Definition subset (a b : box (T := T)) : Prop := forall p, in_box a p -> in_box b p.
(** order of the corners *)
Definition within (a b : box (T := T)) : Prop := Forall2 le (bmin b) (bmin a) /\ Forall2 le (bmax a) (bmax b).
End Spec.

(** operator< decides a total order *)
Record total_order {T} (o : arith T) (le : T -> T -> Prop) : Prop := {
  to_refl : forall x, le x x;
  to_trans : forall x y z, le x y -> le y z -> le x z;
  to_anti : forall x y, le x y -> le y x -> x = y;
  to_ltb : forall x y, oltb o x y = false <-> le y x;
  to_ltb_le : forall x y, oltb o x y = true -> le x y }.

(** a component of a ray's direction: a real or the negative zero *)
Definition finite_dir (x : xr) : Prop := match x with Fin _ | NZero => True | _ => False end.
Definition dir_val (x : xr) : R := match x with Fin r => r | _ => 0%R end.
(** the ray with origin [ro] and direction [rd] is at [t] in the closed box *)
Definition ray_in_box (lo hi ro rd : list R) (t : R) : Prop :=
  in_box Rle (mkBox lo hi) (map (fun p => fst p + t * snd p)%R (combine ro rd)).
(** a ray parallel to a face does not run in the plane of that face *)
Definition off_faces (lo hi ro rd : list R) : Prop :=
  forall i d, nth_error rd i = Some d -> d = 0%R ->
    nth_error ro i <> nth_error lo i /\ nth_error ro i <> nth_error hi i.
