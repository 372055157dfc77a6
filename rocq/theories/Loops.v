(** Counting loops and 32-bit integers, shared by the models. *)
From Coq Require Import List Arith ZArith Lia Bool.
From Verif Require Import Base.
Import ListNotations.

(** for (i = i0; i < i0 + n; ++i) s = f(i, s) *)
Fixpoint for_ {S : Type} (n i : nat) (f : nat -> S -> outcome S) (s : S) : outcome S :=
  match n with
  | O => Ret s
  | Datatypes.S n' => let* s' := f i s in for_ n' (Datatypes.S i) f s'
  end.

(** Int = int32_t (cmake/config.hpp.in:152): a result outside of its range is a signed
    overflow (or an out-of-range conversion), which is undefined behaviour. *)
Definition intMax : Z := 2147483647.
Definition intMin : Z := -2147483648.
Definition in_i32 (z : Z) : Prop := (intMin <= z <= intMax)%Z.
Definition i32 (z : Z) : outcome Z :=
  if ((intMin <=? z) && (z <=? intMax))%Z then Ret z else Ub.

(** Array read with a signed index. *)
Definition rdz {A} (l : list A) (i : Z) : outcome A :=
  if (i <? 0)%Z then Ub else rd l (Z.to_nat i).

(** Element-wise application that stops at the first bad outcome. *)
Fixpoint mapo {A B} (f : A -> outcome B) (l : list A) : outcome (list B) :=
  match l with
  | [] => Ret []
  | a :: l' => let* b := f a in let* r := mapo f l' in Ret (b :: r)
  end.
Fixpoint map2o {A B C} (f : A -> B -> outcome C) (l : list A) (m : list B) : outcome (list C) :=
  match l, m with
  | [], _ => Ret []
  | a :: l', b :: m' => let* c := f a b in let* r := map2o f l' m' in Ret (c :: r)
  | _ :: _, [] => Ub
  end.

(** * Facts *)
Lemma for_inv {S : Type} (P : nat -> S -> Prop) f : forall n i s, P i s ->
  (forall j s, i <= j < i + n -> P j s -> exists s', f j s = Ret s' /\ P (Datatypes.S j) s') ->
  exists s', for_ n i f s = Ret s' /\ P (i + n) s'.
Proof.
  induction n as [|n IH]; intros i s H0 Hs; cbn.
  - rewrite Nat.add_0_r. eauto.
  - destruct (Hs i s) as (s1 & E & H1); [lia|auto|]. rewrite E. cbn.
    destruct (IH (Datatypes.S i) s1) as (s2 & E2 & H2); auto.
    + intros j s' Hj. apply Hs. lia.
    + exists s2. rewrite Nat.add_succ_r. auto.
Qed.

Lemma i32_ok z : in_i32 z -> i32 z = Ret z.
Proof.
  unfold in_i32, i32. intros [H1 H2].
  apply Z.leb_le in H1, H2. now rewrite H1, H2.
Qed.
Lemma i32_bad z : ~ in_i32 z -> i32 z = Ub.
Proof.
  unfold in_i32, i32. intros H. destruct (Z.leb_spec intMin z), (Z.leb_spec z intMax); cbn; auto.
  exfalso. lia.
Qed.
Lemma rdz_nth {A} (l : list A) (i : Z) a : (0 <= i)%Z -> nth_error l (Z.to_nat i) = Some a -> rdz l i = Ret a.
Proof.
  intros H E. unfold rdz. destruct (Z.ltb_spec i 0); [lia|]. unfold rd. now rewrite E.
Qed.

Lemma mapo_ok {A B} (f : A -> outcome B) (g : A -> B) l :
  (forall a, In a l -> f a = Ret (g a)) -> mapo f l = Ret (map g l).
Proof.
  induction l as [|a l IH]; intros H; cbn; auto.
  rewrite H by now left. cbn. rewrite IH; auto. intros; apply H; now right.
Qed.

Lemma Forall2_length {A B} (P : A -> B -> Prop) l m : Forall2 P l m -> length l = length m.
Proof. induction 1; cbn; auto. Qed.
Lemma Forall2_nth {A B} (P : A -> B -> Prop) l m i a b :
  Forall2 P l m -> nth_error l i = Some a -> nth_error m i = Some b -> P a b.
Proof.
  intros H. revert i. induction H; intros [|i] Ha Hb; cbn in *; try discriminate; eauto.
  injection Ha as <-. injection Hb as <-. auto.
Qed.
Lemma Forall2_nth_intro {A B} (P : A -> B -> Prop) l : forall m, length l = length m ->
  (forall i a b, nth_error l i = Some a -> nth_error m i = Some b -> P a b) -> Forall2 P l m.
Proof.
  induction l as [|a l IH]; intros [|b m] Hl H; try discriminate; constructor.
  - apply (H 0); auto.
  - apply IH; [cbn in Hl; lia|]. intros i a' b' Ha Hb. apply (H (Datatypes.S i)); auto.
Qed.
Lemma Forall2_cons_r {A B} (P : A -> B -> Prop) l b m :
  Forall2 P l (b :: m) <-> exists a l', l = a :: l' /\ P a b /\ Forall2 P l' m.
Proof.
  split.
  - intros H. inversion H; subst. eauto.
  - intros (a & l' & -> & H1 & H2). constructor; auto.
Qed.
Lemma for_ext {S : Type} (f g : nat -> S -> outcome S) n : forall i s,
  (forall j s, f j s = g j s) -> for_ n i f s = for_ n i g s.
Proof.
  induction n as [|n IH]; intros i s H; cbn; auto. rewrite H. destruct (g i s); cbn; auto.
Qed.
