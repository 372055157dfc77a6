(** Model of UM2's sorting and permutation utilities.
    - include/um2/common/insertion_sort.hpp
    - include/um2/common/branchless_sort.hpp
    - include/um2/common/permutation.hpp
    - include/um2/stdlib/utility/swap.hpp, include/um2/stdlib/numeric/iota.hpp *)
From Coq Require Import List Arith Bool.
From Verif Require Import Base.
Import ListNotations.

(** ** insertionSort (insertion_sort.hpp:16-39)

    The memory is a list of slots.  [None] is a slot whose object has been moved
    from: reading it before it is assigned again is modelled as [Ub] (stronger
    than C++, where it is merely an unspecified value).  Pointers are indices in
    the memory, so that the range [first,last) sits inside a larger memory. *)
Section InsertionSort.
  Context {A : Type}.
  (** operator< of the element type *)
  Variable ltb : A -> A -> bool.

  Definition slot := option A.

  (** Read of an object that must be alive. *)
  Definition load (mem : list slot) (i : nat) : outcome A :=
    let* s := rd mem i in
    match s with Some a => Ret a | None => Ub end.

  (** um2::move( *i ) used as an initialiser: the value leaves the slot. *)
  Definition take (mem : list slot) (i : nat) : outcome (A * list slot) :=
    let* a := load mem i in
    let* mem' := wr mem i None in
    Ret (a, mem').

  (** insertion_sort.hpp:32-36
      do { *j = move( *k ); j = k; } while (j != first && t < *--k);  *j = move(t);
      The pointer k is only decremented when j != first, as in the code.
      [fuel] bounds the number of iterations. *)
  Fixpoint shift_loop (fuel : nat) (mem : list slot) (first j k : nat) (t : A)
    : outcome (list slot) :=
    match fuel with
    | O => OutOfFuel
    | S fuel' =>
        let* v := take mem k in
        let '(a, mem1) := v in
        let* mem2 := wr mem1 j (Some a) in
        let j' := k in
        if j' =? first then wr mem2 j' (Some t)
        else
          (* --k : a pointer before the start of the memory is UB *)
          match k with
          | O => Ub
          | S k' =>
              let* b := load mem2 k' in
              if ltb t b then shift_loop fuel' mem2 first j' k' t
              else wr mem2 j' (Some t)
          end
    end.

  (** insertion_sort.hpp:26-38, one iteration of the outer loop *)
  Definition insert_step (mem : list slot) (first i : nat) : outcome (list slot) :=
    let j := i - 1 in
    let* xi := load mem i in
    let* xj := load mem j in
    if ltb xi xj then
      let* v := take mem i in
      let '(t, mem1) := v in
      shift_loop (S i) mem1 first i j t
    else Ret mem.

  (** insertion_sort.hpp:25-26: for (i = first + 1; i != last; ++i) *)
  Fixpoint outer_loop (fuel : nat) (mem : list slot) (first last i : nat)
    : outcome (list slot) :=
    if i =? last then Ret mem
    else match fuel with
         | O => OutOfFuel
         | S fuel' =>
             let* mem' := insert_step mem first i in
             outer_loop fuel' mem' first last (S i)
         end.

  (** insertion_sort.hpp:18-39.  The fuel is the size of the memory: if
      last < first the code runs off the memory, which is [Ub]. *)
  Definition insertionSort (mem : list slot) (first last : nat) : outcome (list slot) :=
    if first =? last then Ret mem
    else outer_loop (length mem) mem first last (S first).
End InsertionSort.

(** ** sort3, sort4 (branchless_sort.hpp:13-60)

    The three (four) pointers are taken to be distinct, so the function maps the
    triple of pointed-to values to the new triple.  swap (swap.hpp:13-22) exchanges. *)
Section Sort34.
  Context {A : Type}.
  Variable ltb : A -> A -> bool.

  (** branchless_sort.hpp:13-40 *)
  Definition sort3 (v : A * A * A) : A * A * A :=
    let '(x, y, z) := v in
    if negb (ltb y x) then
      if negb (ltb z y) then (x, y, z)
      else
        let '(y, z) := (z, y) in
        if ltb y x then
          let '(x, y) := (y, x) in (x, y, z)
        else (x, y, z)
    else
      if ltb z y then
        let '(x, z) := (z, x) in (x, y, z)
      else
        let '(x, y) := (y, x) in
        if ltb z y then
          let '(y, z) := (z, y) in (x, y, z)
        else (x, y, z).

  (** branchless_sort.hpp:46-60 *)
  Definition sort4 (v : A * A * A * A) : A * A * A * A :=
    let '(x1, x2, x3, x4) := v in
    let '(x1, x2, x3) := sort3 (x1, x2, x3) in
    if ltb x4 x3 then
      let '(x3, x4) := (x4, x3) in
      if ltb x3 x2 then
        let '(x2, x3) := (x3, x2) in
        if ltb x2 x1 then
          let '(x1, x2) := (x2, x1) in (x1, x2, x3, x4)
        else (x1, x2, x3, x4)
      else (x1, x2, x3, x4)
    else (x1, x2, x3, x4).
End Sort34.

(** ** iota (numeric/iota.hpp): for (; first != last; ++first, ++value) *first = value;
    On a buffer of which [n] entries starting at [first] are written. *)
Fixpoint iota_loop (n : nat) (buf : list nat) (first value : nat) : outcome (list nat) :=
  match n with
  | O => Ret buf
  | S n' =>
      let* buf' := wr buf first value in
      iota_loop n' buf' (S first) (S value)
  end.

(** ** sortPermutation (permutation.hpp:19-28)

    std::sort is not UM2's code.  It is modelled by its contract: it is given as
    a function [stdsort] from comparator and input to output; the theorems
    quantify over every [stdsort] that satisfies the contract
    ([Sort_Spec.std_sort_contract]).  [perm] is the caller's buffer. *)
Definition sortPermutation {A} (stdsort : (nat -> nat -> bool) -> list nat -> list nat)
  (ltb : A -> A -> bool) (data : list A) (perm : list nat) : outcome (list nat) :=
  let n := length data in
  let* p := iota_loop n perm 0 0 in
  let less i j :=
    match nth_error data i, nth_error data j with
    | Some a, Some b => ltb a b
    | _, _ => false
    end in
  Ret (stdsort less p).

(** ** applyPermutation (permutation.hpp:35-53) *)

(** swap(begin[i], begin[j]) (swap.hpp:13-22); i = j is allowed *)
Definition swap_at {A} (l : list A) (i j : nat) : outcome (list A) :=
  let* a := rd l i in
  let* b := rd l j in
  let* l1 := wr l i b in
  wr l1 j a.

(** while (ind < i) ind = perm[ind];   (permutation.hpp:46-50) *)
Fixpoint follow (fuel : nat) (perm : list nat) (i ind : nat) : outcome nat :=
  if ind <? i then
    match fuel with
    | O => OutOfFuel
    | S fuel' => let* ind' := rd perm ind in follow fuel' perm i ind'
    end
  else Ret ind.

(** The body of the for loop at index [i], then the rest (permutation.hpp:43-52);
    [n] iterations are left. Int is modelled as nat: the ASSERTs require
    non-negative entries. *)
Fixpoint apply_loop {A} (n : nat) (data : list A) (perm : list nat) (i : nat)
  : outcome (list A) :=
  match n with
  | O => Ret data
  | S n' =>
      let* ind := rd perm i in
      let* ind := follow (length perm) perm i ind in
      let* data' := swap_at data i ind in
      apply_loop n' data' perm (S i)
  end.

Definition applyPermutation {A} (data : list A) (perm : list nat) : outcome (list A) :=
  let size := length data in
  if size =? 0 then Ret data else apply_loop (size - 1) data perm 0.

(** ** invertPermutation (permutation.hpp:60-68): inv_perm[p_begin[i]] = i *)
Fixpoint invert_loop (p : list nat) (inv : list nat) (i : nat) : outcome (list nat) :=
  match p with
  | [] => Ret inv
  | x :: p' =>
      let* inv' := wr inv x i in
      invert_loop p' inv' (S i)
  end.

Definition invertPermutation (p inv : list nat) : outcome (list nat) :=
  invert_loop p inv 0.
