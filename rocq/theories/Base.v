(** Base vocabulary shared by every model.

    [outcome] is what a call of a modelled function can do.  Undefined behaviour
    is a distinct outcome, never assumed away. *)
From Coq Require Import List Arith Lia Bool.
Import ListNotations.

Inductive outcome (A : Type) : Type :=
| Ret (a : A)        (** the call returned [a] *)
| Ub                 (** out-of-bounds access, read of a dead/moved-from object, signed overflow, ... *)
| Fail               (** an error was reported through the logger (LOG_ERROR) *)
| OutOfFuel.         (** the model's loop bound was too small: never a legitimate result *)
Arguments Ret {A} a.
Arguments Ub {A}.
Arguments Fail {A}.
Arguments OutOfFuel {A}.

Definition bind {A B} (m : outcome A) (k : A -> outcome B) : outcome B :=
  match m with
  | Ret a => k a
  | Ub => Ub
  | Fail => Fail
  | OutOfFuel => OutOfFuel
  end.

Declare Scope outcome_scope.
Delimit Scope outcome_scope with outcome.
Notation "'let*' x ':=' m 'in' k" := (bind m (fun x => k))
  (at level 200, x pattern, m at level 100, k at level 200, right associativity)
  : outcome_scope.
Open Scope outcome_scope.

(** Array write on a list: position [i] becomes [a], everything else stays. *)
Fixpoint upd {A} (l : list A) (i : nat) (a : A) : list A :=
  match l, i with
  | [], _ => []
  | _ :: t, O => a :: t
  | h :: t, S i' => h :: upd t i' a
  end.

(** Checked array read: an index outside of the array is undefined behaviour. *)
Definition rd {A} (l : list A) (i : nat) : outcome A :=
  match nth_error l i with Some a => Ret a | None => Ub end.

(** Checked array write. *)
Definition wr {A} (l : list A) (i : nat) (a : A) : outcome (list A) :=
  if i <? length l then Ret (upd l i a) else Ub.

(** * Facts *)

Lemma upd_length {A} (l : list A) i a : length (upd l i a) = length l.
Proof. revert i; induction l as [|h t IH]; intros [|i]; simpl; auto. Qed.

Lemma nth_error_upd_eq {A} (l : list A) i a :
  i < length l -> nth_error (upd l i a) i = Some a.
Proof.
  revert i; induction l as [|h t IH]; intros [|i] H; simpl in *; try lia; auto.
  apply IH; lia.
Qed.

Lemma nth_error_upd_neq {A} (l : list A) i j a :
  i <> j -> nth_error (upd l i a) j = nth_error l j.
Proof.
  revert i j; induction l as [|h t IH]; intros [|i] [|j] H; simpl; auto; try lia.
Qed.

Lemma nth_error_upd {A} (l : list A) i j a :
  nth_error (upd l i a) j =
  if (i =? j) && (i <? length l) then Some a else nth_error l j.
Proof.
  destruct (Nat.eqb_spec i j) as [->|Hn]; simpl.
  - destruct (Nat.ltb_spec j (length l)).
    + now apply nth_error_upd_eq.
    + rewrite (proj2 (nth_error_None l j)) by lia.
      apply nth_error_None. rewrite upd_length; lia.
  - now apply nth_error_upd_neq.
Qed.

Lemma upd_app_l {A} (l1 l2 : list A) i a :
  i < length l1 -> upd (l1 ++ l2) i a = upd l1 i a ++ l2.
Proof.
  revert i; induction l1 as [|h t IH]; intros [|i] H; simpl in *; try lia; auto.
  f_equal; apply IH; lia.
Qed.

Lemma upd_app_r {A} (l1 l2 : list A) i a :
  upd (l1 ++ l2) (length l1 + i) a = l1 ++ upd l2 i a.
Proof. induction l1; simpl; auto. now f_equal. Qed.

Lemma upd_mid {A} (l1 l2 : list A) x a :
  upd (l1 ++ x :: l2) (length l1) a = l1 ++ a :: l2.
Proof. rewrite <- (Nat.add_0_r (length l1)) at 1. now rewrite upd_app_r. Qed.

Lemma nth_error_mid {A} (l1 l2 : list A) x :
  nth_error (l1 ++ x :: l2) (length l1) = Some x.
Proof. induction l1; simpl; auto. Qed.

Lemma rd_Ret {A} (l : list A) i a : rd l i = Ret a <-> nth_error l i = Some a.
Proof. unfold rd; destruct (nth_error l i); split; congruence. Qed.

Lemma wr_Ret {A} (l : list A) i a l' :
  wr l i a = Ret l' <-> i < length l /\ l' = upd l i a.
Proof.
  unfold wr; destruct (Nat.ltb_spec i (length l)); split.
  - now injection 1 as <-.
  - now intros [_ ->].
  - discriminate.
  - intros [? _]; lia.
Qed.

Lemma wr_ok {A} (l : list A) i a : i < length l -> wr l i a = Ret (upd l i a).
Proof. intros H; now apply wr_Ret. Qed.

Lemma bind_Ret {A B} (m : outcome A) (k : A -> outcome B) b :
  bind m k = Ret b -> exists a, m = Ret a /\ k a = Ret b.
Proof. destruct m; simpl; try discriminate; eauto. Qed.

(** Two lists with the same reads are equal. *)
Lemma nth_error_ext {A} (l1 l2 : list A) :
  (forall i, nth_error l1 i = nth_error l2 i) -> l1 = l2.
Proof.
  revert l2; induction l1 as [|a l1 IH]; intros [|b l2] H; auto.
  - specialize (H 0); discriminate.
  - specialize (H 0); discriminate.
  - f_equal.
    + specialize (H 0); simpl in H; congruence.
    + apply IH; intros i; exact (H (S i)).
Qed.

#[global] Hint Rewrite @app_length @map_length @upd_length @seq_length @rev_length
  @repeat_length @firstn_length @skipn_length @combine_length : len.

(** Arithmetic goals about lengths. *)
Ltac len := simpl in *; autorewrite with len in *; simpl in *; autorewrite with len in *; simpl in *; lia.
