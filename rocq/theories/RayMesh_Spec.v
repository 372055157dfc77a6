(** Intersections of a ray with the faces of a mesh, and their order along the ray. *)
From Coq Require Import List Arith.
From Verif Require Import Base Sort_Spec Soup_Spec.
Import ListNotations.

Section RaySpec.
  Context {T : Type}.
  Variable ltb : T -> T -> bool.
  (** A record: for every face that is hit, its number and the coordinates of its intersections.
      It is stored in three arrays, which may be longer than needed. *)
  Definition holds (hs : list (nat * list T)) (coords : list T) (offsets faces : list nat) : Prop :=
    (exists r, coords = concat (map snd hs) ++ r) /\
    (exists r, offsets = sums 0 (map (fun h => length (snd h)) hs) ++ r) /\
    (exists r, faces = map fst hs ++ r).
  (** the same face, with its intersections in ascending order *)
  Definition face_sorted (h h' : nat * list T) : Prop := fst h' = fst h /\ sorts ltb (snd h) (snd h').

  (** a <= b *)
  Definition leq (a b : T) : Prop := ltb b a = false.
  (** the first segment of the ray in the face: smallest and second smallest coordinate (the same,
      if there is only one) *)
  Definition first_segment (h : nat * list T) (c0 c1 : T) : Prop :=
    match snd h with
    | [] => False
    | [a] => c0 = a /\ c1 = a
    | a :: b :: _ => c0 = a /\ c1 = b
    end.
  (** the same for a record whose coordinates are in any order *)
  Definition enters (h : nat * list T) (c0 c1 : T) : Prop :=
    exists cs, sorts ltb (snd h) cs /\ first_segment (fst h, cs) c0 c1.
  (** the first segments of different faces do not overlap and are not empty *)
  Definition disjoint_segments (hs : list (nat * list T)) : Prop :=
    (forall h c0 c1, In h hs -> enters h c0 c1 -> ltb c0 c1 = true) /\
    forall i j g h c0 c1 d0 d1, i <> j -> nth_error hs i = Some g -> nth_error hs j = Some h ->
      enters g c0 c1 -> enters h d0 d1 -> leq c1 d0 \/ leq d1 c0.
  (** [avg a b] lies between [a] and [b] *)
  Definition between (avg : T -> T -> T) : Prop := forall a b, leq a b -> leq a (avg a b) /\ leq (avg a b) b.
  Definition below_max (avg : T -> T -> T) : Prop := forall a b, ltb a b = true -> ltb (avg a b) b = true.
End RaySpec.
