(** Numbered names: see [dec] of StringView_Spec for decimal digits. *)
From Coq Require Import List ZArith.
From Verif Require Import Base StringView_Model StringView_Spec Ascii_Model.
Import ListNotations.
Open Scope Z_scope.

(** n decimal digits denoting z *)
Definition digits (n : nat) (l : list char) (z : Z) : Prop := length l = n /\ dec l z.
(** incrementing k times *)
Fixpoint increments (k : nat) (s : list char) : outcome (list char) :=
  match k with O => Ret s | S k => let* s := increments k s in incrementASCIINumber s end.
