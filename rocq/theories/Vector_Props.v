(** Property theorems C01, C02, C03. *)
From Coq Require Import List Arith ZArith Lia Bool.
From Verif Require Import Base Vector_Model Vector_Spec Vector_Proofs.
Import ListNotations.

(** C01. Every program over vector variables that respects the preconditions
    (the abstract run is defined) and whose sizes stay below the Int limit runs without
    undefined behaviour; afterwards every variable shows exactly the sequence that the
    same program computes on plain lists; every heap block still allocated is
    owned by exactly one live vector. *)
Theorem C01_history : forall (A : Type) (dflt : A) (triv : bool) (moved : A -> A) B os aw,
  (triv = true -> forall a, moved a = a) ->
  (Z.of_nat (2 * B) <= intMax)%Z ->
  arun dflt [] os = Some aw -> small_run dflt B [] os ->
  (no_self_push os \/ forall a, moved a = a) ->
  exists w, run dflt triv moved empty_world os = Ret w /\
    (forall x l, avar aw x = Some l -> shows w x l) /\
    (forall b, allocated w b -> exists x l, avar aw x = Some l /\
       exists v, nth_error (vars w) x = Some (Some v) /\ begin v = Some b) /\
    (forall x y vx vy b, nth_error (vars w) x = Some (Some vx) ->
       nth_error (vars w) y = Some (Some vy) -> begin vx = Some b -> begin vy = Some b -> x = y).
Proof. exact @vector_history. Qed.
Print Assumptions C01_history.

(** Once all vectors are destroyed nothing is left allocated (and, by the model of
    operator delete, every object was destroyed exactly once). *)
Theorem C01_no_leak : forall (A : Type) (dflt : A) (triv : bool) (moved : A -> A) B os aw,
  (triv = true -> forall a, moved a = a) ->
  (Z.of_nat (2 * B) <= intMax)%Z ->
  arun dflt [] os = Some aw -> small_run dflt B [] os ->
  (no_self_push os \/ forall a, moved a = a) ->
  (forall x, avar aw x = None) ->
  exists w, run dflt triv moved empty_world os = Ret w /\ forall b, ~ allocated w b.
Proof. exact @vector_no_leak. Qed.
Print Assumptions C01_no_leak.

(** reserve(n): capacity never shrinks, is at least n afterwards, no content changes;
    nothing happens at all when the capacity suffices. *)
Theorem C01_reserve : forall (A : Type) (dflt : A) (triv : bool) (moved : A -> A) B os aw x l n,
  (triv = true -> forall a, moved a = a) ->
  (Z.of_nat (2 * B) <= intMax)%Z ->
  arun dflt [] os = Some aw -> small_run dflt B [] os ->
  (no_self_push os \/ forall a, moved a = a) ->
  avar aw x = Some l -> n <= B ->
  exists w w' v v', run dflt triv moved empty_world os = Ret w /\
    step dflt triv moved w (Reserve x n) = Ret w' /\
    nth_error (vars w) x = Some (Some v) /\ nth_error (vars w') x = Some (Some v') /\
    cap v <= cap v' /\ n <= cap v' /\ (n <= cap v -> w' = w) /\
    forall y ly, avar aw y = Some ly -> shows w' y ly.
Proof. exact @vector_reserve. Qed.
Print Assumptions C01_reserve.

(** A program with reallocations, copies, moves and a destroyed variable meets the
    hypotheses, for a type whose moved-from value differs. *)
Definition prog : list (@op nat) :=
  [NewList [1; 2; 3]; NewCopy 0; PushBack 0 4; PushElem 1 0 3; NewMove 0; Resize 2 6;
   Assign 0 2; Write 0 5 9; PopBack 2; Reserve 2 40; MoveAssign 1 0; Clear 2; AssignList 2 [7; 8];
   Delete 0].
Example C01_example :
  arun 0 [] prog = Some [None; Some [1; 2; 3; 4; 0; 9]; Some [7; 8]] /\
  small_run 0 100 [] prog /\ no_self_push prog /\ (Z.of_nat (2 * 100) <= intMax)%Z /\
  exists w, run 0 false (fun _ => 0) empty_world prog = Ret w.
Proof.
  split; [reflexivity|]. split.
  - cbn. repeat split; try lia; intros [|[|[|[|x]]]] l; cbn; intros [= <-]; cbn; lia.
  - split; [|split; [vm_compute; discriminate|vm_compute; eauto]].
    intros x i H. cbn in H. repeat destruct H as [H|H]; try discriminate; auto.
    assert (1 = 0) by congruence. discriminate.
Qed.

(** Beyond the Int limit the doubling of the capacity overflows. *)
Theorem C01_overflow_refuted : forall (A : Type) triv moved (h : heap A) v s,
  size v = cap v -> (Z.of_nat (cap v) >= 2 ^ 30)%Z -> push_back triv moved h v s = Ub.
Proof. exact @push_overflow. Qed.
Print Assumptions C01_overflow_refuted.

(** C02. v.push_back(v[i]) after any program: nothing undefined happens, all other
    variables are as before, the old elements are kept, and the appended value is v[i]
    when there is room, or when T is trivially movable, or when moving leaves the value
    intact; otherwise it is what the move left behind. *)
Theorem C02_push_own_partial : forall (A : Type) (dflt : A) (triv : bool) (moved : A -> A) B os aw x l i a,
  (triv = true -> forall a, moved a = a) ->
  (Z.of_nat (2 * B) <= intMax)%Z ->
  arun dflt [] os = Some aw -> small_run dflt B [] os ->
  (no_self_push os \/ forall a, moved a = a) ->
  avar aw x = Some l -> nth_error l i = Some a -> length l + 1 <= B ->
  exists w v w', run dflt triv moved empty_world os = Ret w /\
    nth_error (vars w) x = Some (Some v) /\
    step dflt triv moved w (PushElem x x i) = Ret w' /\
    (size v < cap v -> shows w' x (l ++ [a])) /\
    (size v = cap v -> shows w' x (l ++ [if triv then a else moved a])) /\
    (forall y ly, y <> x -> avar aw y = Some ly -> shows w' y ly).
Proof. exact @push_own. Qed.
Print Assumptions C02_push_own_partial.

(** The full statement is false for types with a real move: a full vector [5; 6],
    moved-from value 0 (as um2::String leaves the empty string). *)
Theorem C02_push_own_refuted :
  exists (os : list (@op nat)) w v, arun 0 [] os = Some [Some [5; 6; 5]] /\
    run 0 false (fun _ => 0) empty_world os = Ret w /\
    nth_error (vars w) 0 = Some (Some v) /\ get (mem w) v 2 = Ret 0.
Proof.
  exists [NewList [5; 6]; PushElem 0 0 0]. eexists. eexists.
  split; [reflexivity|]. split; [vm_compute; reflexivity|]. split; [reflexivity|]. reflexivity.
Qed.
Print Assumptions C02_push_own_refuted.
Example C02_example : exists w, run 0 true (fun a => a) empty_world
    [NewList [5; 6]; PushElem 0 0 0] = Ret w /\ shows w 0 [5; 6; 5].
Proof.
  eexists. split; [vm_compute; reflexivity|]. eexists. split; [reflexivity|]. cbn.
  split; [reflexivity|]. split; [lia|].
  intros [|[|[|i]]] a Hi; try (injection Hi as <-; reflexivity). destruct i; discriminate.
Qed.

(** C03. *)
Theorem C03_equality : forall (A : Type) (eqb : A -> A -> bool),
  (forall a b, eqb a b = true <-> a = b) -> forall l r,
  (exists b, vec_eq eqb l r = Ret b /\ (b = true <-> l = r)) /\
  (exists b, vec_ne eqb l r = Ret b /\ (b = true <-> l <> r)).
Proof. exact (fun A eqb H l r => conj (vec_eq_ok eqb H l r) (vec_ne_ok eqb H l r)). Qed.
Print Assumptions C03_equality.

Theorem C03_lexicographic : forall (A : Type) (ltb : A -> A -> bool), strict_total ltb ->
  forall l r, vec_lt ltb l r = true <-> lex (fun a b => ltb a b = true) l r.
Proof. exact (fun A ltb H => vec_lt_lex ltb H). Qed.
Print Assumptions C03_lexicographic.

Theorem C03_order : forall (A : Type) (ltb : A -> A -> bool), strict_total ltb ->
  (forall l, vec_lt ltb l l = false) /\
  (forall l1 l2 l3, vec_lt ltb l1 l2 = true -> vec_lt ltb l2 l3 = true -> vec_lt ltb l1 l3 = true) /\
  (forall l r, vec_lt ltb l r = true \/ l = r \/ vec_lt ltb r l = true).
Proof.
  exact (fun A ltb H => conj (vec_lt_irrefl ltb H) (conj (vec_lt_trans ltb H) (vec_lt_total ltb H))).
Qed.
Print Assumptions C03_order.

Theorem C03_derived : forall (A : Type) (ltb : A -> A -> bool), strict_total ltb -> forall l r,
  (vec_gt ltb l r = true <-> vec_lt ltb r l = true) /\
  (vec_le ltb l r = true <-> vec_lt ltb l r = true \/ l = r) /\
  (vec_ge ltb l r = true <-> vec_lt ltb r l = true \/ l = r).
Proof. exact (fun A ltb H => vec_derived ltb H). Qed.
Print Assumptions C03_derived.
Example C03_example : strict_total Nat.ltb /\ vec_lt Nat.ltb [1; 2] [1; 3; 0] = true.
Proof.
  split; [|reflexivity]. split; [|split].
  - intros a. apply Nat.ltb_irrefl.
  - intros a b c H1 H2. apply Nat.ltb_lt in H1, H2. apply Nat.ltb_lt. lia.
  - intros a b. rewrite !Nat.ltb_lt. lia.
Qed.
