(** Loops that fill an array block by block, and lists of equal blocks. *)
From Coq Require Import List Arith ZArith Lia Bool.
From Verif Require Import Base Loops.
Import ListNotations.

(** A loop whose j-th turn replaces the j-th block of [m] elements. *)
Lemma fill_blocks {A} (F : nat -> list A -> outcome (list A)) (B : nat -> list A) (m : nat) : forall n j l1 old l2,
  (forall j' s1 o s2, j <= j' < j + n -> length s1 = length l1 + (j' - j) * m -> length o = m ->
     F j' (s1 ++ o ++ s2) = Ret (s1 ++ B j' ++ s2)) ->
  (forall j', j <= j' < j + n -> length (B j') = m) ->
  length old = n * m ->
  for_ n j F (l1 ++ old ++ l2) = Ret (l1 ++ concat (map B (seq j n)) ++ l2).
Proof.
  induction n as [|n IH]; intros j l1 old l2 HF HB Hl.
  - destruct old; [|discriminate]. reflexivity.
  - cbn [for_ seq map concat]. rewrite <- (firstn_skipn m old).
    assert (L1 : length (firstn m old) = m) by (rewrite firstn_length; nia).
    assert (L2 : length (skipn m old) = n * m) by (rewrite skipn_length; nia).
    rewrite <- (app_assoc (firstn m old)), HF by (auto; try lia; rewrite Nat.sub_diag; lia). cbn [bind].
    rewrite (app_assoc l1), IH; auto.
    + now rewrite <- !app_assoc.
    + intros j' s1 o s2 Hj Hs Ho. apply HF; auto; [lia|]. rewrite Hs, app_length, HB by lia.
      replace (j' - j) with (S (j' - S j)) by lia. lia.
    + intros j' Hj. apply HB. lia.
Qed.
(** ... and one element per turn *)
Lemma fill_range {A} (F : nat -> list A -> outcome (list A)) (g : nat -> A) : forall n j l1 old l2,
  (forall j' s, j <= j' < j + n -> length s = length l1 + n + length l2 -> F j' s = wr s (length l1 + (j' - j)) (g j')) ->
  length old = n ->
  for_ n j F (l1 ++ old ++ l2) = Ret (l1 ++ map g (seq j n) ++ l2).
Proof.
  induction n as [|n IH]; intros j l1 old l2 HF Hl; destruct old as [|x old]; cbn in Hl; try discriminate; auto.
  cbn [for_ seq map]. rewrite HF by (try lia; rewrite !app_length; cbn; lia).
  rewrite Nat.sub_diag, Nat.add_0_r. cbn [app]. rewrite wr_ok by (rewrite app_length; cbn; lia). rewrite upd_mid. cbn [bind].
  change (l1 ++ g j :: old ++ l2) with (l1 ++ [g j] ++ old ++ l2). rewrite app_assoc, IH.
  - now rewrite <- app_assoc.
  - intros j' s Hj Hs. rewrite app_length in *. cbn in *. rewrite HF by lia. f_equal. lia.
  - lia.
Qed.

Lemma concat_length_eq {A} (ls : list (list A)) m : (forall l, In l ls -> length l = m) -> length (concat ls) = length ls * m.
Proof.
  induction ls as [|l ls IH]; intros H; auto. cbn. rewrite app_length, H, IH; auto; [intros; apply H; now right|now left].
Qed.
Lemma nth_error_concat {A} (ls : list (list A)) m : (forall l, In l ls -> length l = m) ->
  forall j l i, nth_error ls j = Some l -> i < m -> nth_error (concat ls) (j * m + i) = nth_error l i.
Proof.
  induction ls as [|l0 ls IH]; intros H [|j] l i E Hi; try discriminate; cbn in E |- *.
  - injection E as ->. apply nth_error_app1. rewrite H by now left. lia.
  - assert (L : length l0 = m) by (apply H; now left). rewrite nth_error_app2, L by lia.
    replace (m + j * m + i - m) with (j * m + i) by lia. apply IH; auto. intros; apply H; now right.
Qed.
Lemma nth_error_seq i n : forall s, i < n -> nth_error (seq s n) i = Some (s + i).
Proof.
  revert i. induction n as [|n IH]; intros [|i] s H; cbn; try lia; [f_equal; lia|].
  rewrite IH by lia. f_equal. lia.
Qed.
Lemma nth_error_map_seq {A} (f : nat -> A) n i : i < n -> nth_error (map f (seq 0 n)) i = Some (f i).
Proof. intros H. rewrite nth_error_map, nth_error_seq by auto. reflexivity. Qed.
Lemma NoDup_concat_map {A B} (f : A -> list B) l : NoDup l -> (forall x, In x l -> NoDup (f x)) ->
  (forall x y b, In x l -> In y l -> In b (f x) -> In b (f y) -> x = y) -> NoDup (concat (map f l)).
Proof.
  induction l as [|x l IH]; intros N H1 H2; cbn; [constructor|]. inversion N as [|? ? N1 N2]; subst.
  assert (IH' : NoDup (concat (map f l))).
  { apply IH; auto; [intros; apply H1; now right|]. intros y z b Hy Hz. apply H2; now right. }
  assert (D : forall b, In b (f x) -> In b (concat (map f l)) -> False).
  { intros b Hb Hc. apply in_concat in Hc as (c & Hc & Hb'). apply in_map_iff in Hc as (y & <- & Hy).
    assert (x = y) by (eapply H2; eauto; [now left|now right]). subst. contradiction. }
  specialize (H1 x (or_introl eq_refl)). revert H1 D. generalize (f x) as k. induction k as [|b k IHk]; intros Nk D; auto.
  cbn. inversion Nk as [|? ? K1 K2]; subst. constructor.
  - rewrite in_app_iff. intros [H|H]; [contradiction|]. apply (D b); [now left|auto].
  - apply IHk; auto. intros c Hc. apply D. now right.
Qed.
