(** Property theorems C04. *)
From Coq Require Import List Arith ZArith Lia Bool.
From Verif Require Import Base String_Model String_Spec String_Proofs.
Import ListNotations.

(** C04. Every program over String variables that respects the preconditions (the
    abstract run is defined) and keeps every string within B chars, 2B+1 <= INT32_MAX, runs
    without undefined behaviour; afterwards every variable shows exactly the chars the same
    program computes on plain lists, followed by the terminator; every heap block
    still allocated is owned by exactly one live String.  The operations include x += x,
    assignment between strings of either representation, moves and self-assignment. *)
Theorem C04_history : forall B os aw,
  (Z.of_nat (2 * B + 1) <= intMax)%Z ->
  arun [] os = Some aw -> small_run B [] os ->
  exists w, run empty_world os = Ret w /\
    (forall x l, avar aw x = Some l -> shows w x l) /\
    (forall b, allocated w b -> exists x l v, avar aw x = Some l /\
       nth_error (vars w) x = Some (Some v) /\ owns v b) /\
    (forall x y vx vy b, nth_error (vars w) x = Some (Some vx) ->
       nth_error (vars w) y = Some (Some vy) -> owns vx b -> owns vy b -> x = y).
Proof. exact string_history. Qed.
Print Assumptions C04_history.

(** Once all strings are destroyed nothing is left allocated. *)
Theorem C04_no_leak : forall B os aw,
  (Z.of_nat (2 * B + 1) <= intMax)%Z ->
  arun [] os = Some aw -> small_run B [] os -> (forall x, avar aw x = None) ->
  exists w, run empty_world os = Ret w /\ forall b, ~ allocated w b.
Proof. exact string_no_leak. Qed.
Print Assumptions C04_no_leak.

(** A program that crosses the short/long boundary in both directions, appends a
    string to itself in both representations, and moves and copies. *)
Definition prog : list op :=
  [NewText [97; 98; 99; 100; 101; 102; 103; 104; 105; 106; 107; 108]%Z;
   Append 0 0; Append 0 0; NewCopy 0; NewSub 1 20 100; NewMove 0;
   AssignText 3 [65]%Z; Append 3 2; Append 3 3; Append 0 3; AssignSub 3 3 30 20; Assign 0 3;
   NewConcat 0 2; MoveAssign 1 4; NewFmt [45; 49; 50]%Z; Write 1 0 33%Z; Assign 2 5; Delete 3].
Example C04_example : exists aw, arun [] prog = Some aw /\ small_run 200 [] prog /\
  (Z.of_nat (2 * 200 + 1) <= intMax)%Z /\ avar aw 2 = Some [45; 49; 50]%Z /\
  (exists l, avar aw 0 = Some l /\ length l = 20) /\ (exists l, avar aw 1 = Some l /\ length l = 48).
Proof.
  eexists. split; [vm_compute; reflexivity|]. split.
  - cbn -[small]. repeat split; try lia;
      intros [|[|[|[|[|[|[|x]]]]]]] l; cbn; try discriminate; intros [= <-]; cbn; lia.
  - split; [vm_compute; discriminate|]. split; [reflexivity|].
    split; eexists; (split; [reflexivity|reflexivity]).
Qed.

(** String(double) prints with "%f" into a 32-byte buffer but copies the full printed
    length: 1e31 prints 39 chars, so the constructor reads behind the buffer. *)
Theorem C04_number_refuted : exists l, length l = 39 /\ forall w, step w (NewFmt l) = Ub.
Proof. exact fmt_overflow. Qed.
Print Assumptions C04_number_refuted.

(** Assigning a part of itself that overlaps the destination (x = StringView(x) minus its
    first char) is a memcpy between overlapping ranges. *)
Theorem C04_assign_own_part_refuted :
  run empty_world [NewText [97; 98; 99]%Z; AssignSub 0 0 1 2] = Ub.
Proof. exact assign_overlap. Qed.
Print Assumptions C04_assign_own_part_refuted.
