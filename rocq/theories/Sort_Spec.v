(** What "sorted", "same values", "stable", "permutation" mean. *)
From Coq Require Import List Arith Permutation.
Import ListNotations.

Section Order.
  Context {A : Type}.
  Variable ltb : A -> A -> bool.

  (** operator< is a strict weak order on the values satisfying [P], the standing C++
      requirement on comparators (it need only hold for the values being sorted). *)
  Record strict_weak_order_on (P : A -> Prop) : Prop := {
    swo_irrefl : forall a, P a -> ltb a a = false;
    swo_trans  : forall a b c, P a -> P b -> P c ->
                   ltb a b = true -> ltb b c = true -> ltb a c = true;
    swo_incomp : forall a b c, P a -> P b -> P c ->
                   ltb a b = false -> ltb b c = false -> ltb a c = false
  }.

  (** No later element is less than an earlier one. *)
  Definition sorted (l : list A) : Prop :=
    forall i j a b, i < j -> nth_error l i = Some a -> nth_error l j = Some b ->
                    ltb b a = false.

  (** [a] and [b] are equivalent for the order. *)
  Definition equivb (a b : A) : bool := negb (ltb a b) && negb (ltb b a).

  (** Elements equivalent to any [v] of the list appear in the same order. *)
  Definition stable (l l' : list A) : Prop :=
    forall v, In v l -> filter (equivb v) l' = filter (equivb v) l.

  (** The contract of std::sort: the output is an ordered rearrangement. *)
  Definition sorts (l l' : list A) : Prop := Permutation l l' /\ sorted l'.
End Order.

(** What the C++ standard promises about std::sort, for comparators that are strict weak orders. *)
Definition std_sort_contract (stdsort : (nat -> nat -> bool) -> list nat -> list nat) : Prop :=
  forall cmp l, strict_weak_order_on cmp (fun x => In x l) -> sorts cmp l (stdsort cmp l).

(** [p] is a permutation of 0..n-1. *)
Definition is_perm (n : nat) (p : list nat) : Prop := Permutation p (seq 0 n).

(** [d'] is [d] read through [p]. *)
Definition reads_through {A} (d : list A) (p : list nat) (d' : list A) : Prop :=
  length d' = length p /\
  forall i k, nth_error p i = Some k -> nth_error d' i = nth_error d k.
