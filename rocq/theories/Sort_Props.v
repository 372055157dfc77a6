(** Property theorems C09, C10, C11. *)
From Coq Require Import List Arith Permutation ZArith Bool Lia.
From Verif Require Import Base Sort_Model Sort_Spec Sort_Proofs.
Import ListNotations.

(** C09. On any memory containing the live range [xs] between [L] and [R] (whose
    slots may even be dead objects), insertionSort terminates without undefined
    behaviour, never reads a moved-from object, leaves [L] and [R] untouched and
    turns [xs] into an ordered, stable rearrangement of itself. *)
Theorem C09_insertionSort :
  forall (A : Type) (ltb : A -> A -> bool) (L : list (option A)) (xs : list A) (R : list (option A)),
    strict_weak_order_on ltb (fun x => In x xs) ->
    exists ys,
      insertionSort ltb (L ++ map Some xs ++ R) (length L) (length L + length xs)
      = Ret (L ++ map Some ys ++ R) /\
      Permutation xs ys /\ sorted ltb ys /\ stable ltb xs ys.
Proof. exact @insertionSort_correct. Qed.
Print Assumptions C09_insertionSort.

(** Example: pairs ordered by their first component only, with dead slots around. *)
Definition key_lt (a b : Z * Z) : bool := Z.ltb (fst a) (fst b).
Lemma key_lt_swo : forall P, strict_weak_order_on key_lt P.
Proof. split; unfold key_lt; intros; lia. Qed.
Example C09_example :
  insertionSort key_lt
    ([None; Some (9, 9)] ++ map Some [(3, 0); (1, 0); (3, 1); (0, 5); (1, 1)] ++ [None])%Z 2 7
  = Ret ([None; Some (9, 9)] ++ map Some [(0, 5); (1, 0); (1, 1); (3, 0); (3, 1)] ++ [None])%Z.
Proof. reflexivity. Qed.
Example C09_hypothesis :
  strict_weak_order_on key_lt (fun x => In x [(3, 0); (1, 0); (3, 1); (0, 5); (1, 1)]%Z).
Proof. exact (key_lt_swo _). Qed.

(** C10. *)
Theorem C10_sort3 :
  forall (A : Type) (ltb : A -> A -> bool) x y z x' y' z',
    strict_weak_order_on ltb (fun v => In v [x; y; z]) ->
    sort3 ltb (x, y, z) = (x', y', z') ->
    Permutation [x; y; z] [x'; y'; z'] /\ sorted ltb [x'; y'; z'].
Proof. exact @sort3_correct. Qed.
Print Assumptions C10_sort3.

Theorem C10_sort4 :
  forall (A : Type) (ltb : A -> A -> bool) x y z w x' y' z' w',
    strict_weak_order_on ltb (fun v => In v [x; y; z; w]) ->
    sort4 ltb (x, y, z, w) = (x', y', z', w') ->
    Permutation [x; y; z; w] [x'; y'; z'; w'] /\ sorted ltb [x'; y'; z'; w'].
Proof. exact @sort4_correct. Qed.
Print Assumptions C10_sort4.

Lemma Zlt_swo : forall P, strict_weak_order_on Z.ltb P.
Proof. split; intros; lia. Qed.
Example C10_example : sort4 Z.ltb (4, 2, 7, 1)%Z = (1, 2, 4, 7)%Z /\
  strict_weak_order_on Z.ltb (fun v => In v [4; 2; 7; 1]%Z).
Proof. split; [reflexivity|apply Zlt_swo]. Qed.

(** C11, sortPermutation: for every std::sort satisfying its contract, the result
    is a permutation of 0..n-1 through which the data reads in order. *)
Theorem C11_sortPermutation :
  forall (A : Type) stdsort (ltb : A -> A -> bool) (data : list A) (perm : list nat),
    std_sort_contract stdsort ->
    strict_weak_order_on ltb (fun x => In x data) ->
    length perm = length data ->
    exists p, sortPermutation stdsort ltb data perm = Ret p /\
              is_perm (length data) p /\
              (forall d', reads_through data p d' -> sorted ltb d') /\
              (exists d', reads_through data p d').
Proof. exact @sortPermutation_correct. Qed.
Print Assumptions C11_sortPermutation.

(** The contract of std::sort can be met: by insertion sort. *)
Definition isort_witness (cmp : nat -> nat -> bool) (l : list nat) : list nat :=
  match insertionSort cmp (map Some l) 0 (length l) with
  | Ret m => flat_map (fun o => match o with Some a => [a] | None => [] end) m
  | _ => []
  end.
Lemma std_sort_contract_satisfiable : std_sort_contract isort_witness.
Proof.
  intros cmp l H. unfold isort_witness.
  destruct (C09_insertionSort _ cmp [] l [] H) as (ys & E & P & S & _).
  simpl in E. rewrite app_nil_r in E. rewrite E. rewrite app_nil_r.
  assert (F : flat_map (fun o : option nat => match o with Some a => [a] | None => [] end)
                (map Some ys) = ys) by (clear; induction ys; simpl; congruence).
  rewrite F. split; auto.
Qed.
Example C11_sortPermutation_example :
  sortPermutation isort_witness Z.ltb [30; 10; 20; 10]%Z [0; 0; 0; 0] = Ret [1; 3; 2; 0].
Proof. reflexivity. Qed.

(** C11, applyPermutation: in place, for every permutation (any cycle structure). *)
Theorem C11_applyPermutation :
  forall (A : Type) (p : list nat) (n : nat), is_perm n p ->
  forall d0 : list A, length d0 = n ->
    exists d', applyPermutation d0 p = Ret d' /\ reads_through d0 p d'.
Proof. exact @applyPermutation_ok. Qed.
Print Assumptions C11_applyPermutation.

Theorem C11_invertPermutation :
  forall n p buf, is_perm n p -> length buf = n ->
  exists q, invertPermutation p buf = Ret q /\ is_perm n q /\
    (forall i k, nth_error p i = Some k <-> nth_error q k = Some i).
Proof. exact invertPermutation_correct. Qed.
Print Assumptions C11_invertPermutation.

Theorem C11_invert_involutive :
  forall n p buf buf', is_perm n p -> length buf = n -> length buf' = n ->
  exists q, invertPermutation p buf = Ret q /\ invertPermutation q buf' = Ret p.
Proof. exact invert_involutive. Qed.
Print Assumptions C11_invert_involutive.

Theorem C11_apply_then_inverse :
  forall (A : Type) n (p buf : list nat) (d : list A),
    is_perm n p -> length buf = n -> length d = n ->
    exists d1 q, applyPermutation d p = Ret d1 /\ invertPermutation p buf = Ret q /\
      applyPermutation d1 q = Ret d.
Proof. exact @apply_invert_roundtrip. Qed.
Print Assumptions C11_apply_then_inverse.

Example C11_perm_example : is_perm 5 [2; 4; 0; 3; 1].
Proof.
  unfold is_perm. apply NoDup_Permutation_bis; [|simpl; lia|].
  - repeat constructor; simpl; lia.
  - intros x. simpl. lia.
Qed.
Example C11_apply_example :
  applyPermutation [10; 11; 12; 13; 14] [2; 4; 0; 3; 1] = Ret [12; 14; 10; 13; 11] /\
  invertPermutation [1; 2; 0] [9; 9; 9] = Ret [2; 0; 1].
Proof. split; reflexivity. Qed.
