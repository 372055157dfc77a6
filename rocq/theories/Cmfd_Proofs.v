(** Lemmas for the CMFD model. *)
From Coq Require Import List Arith ZArith Reals Lia Lra Bool.
From Coquelicot Require Import Complex.
From Coquelicot Require Derive Hierarchy.
From Verif Require Import Base Loops Arith Matrix_Model Matrix_Spec Matrix_Proofs Cmfd_Model Cmfd_Spec.
Import ListNotations.
Open Scope C_scope.

(** * sums *)
Lemma csum_ext n f g : (forall k, (k < n)%nat -> f k = g k) -> csum n f = csum n g.
Proof. induction n as [|n IH]; intros H; cbn; auto. rewrite IH by auto. rewrite H by lia. reflexivity. Qed.
Lemma csum_plus n f g : csum n (fun k => f k + g k) = csum n f + csum n g.
Proof. induction n as [|n IH]; cbn; [ring|]. rewrite IH. ring. Qed.
Lemma csum_scal n c f : csum n (fun k => c * f k) = c * csum n f.
Proof. induction n as [|n IH]; cbn; [ring|]. rewrite IH. ring. Qed.
Lemma csum_zero n : csum n (fun _ => 0) = 0.
Proof. induction n as [|n IH]; cbn; [ring|]. rewrite IH. ring. Qed.
Lemma csum_one n : csum n (fun _ => 1) = RtoC (INR n).
Proof. induction n as [|n IH]; [reflexivity|]. cbn [csum]. rewrite IH, S_INR, RtoC_plus. ring. Qed.
Lemma csum_swap n m f : csum n (fun i => csum m (fun j => f i j)) = csum m (fun j => csum n (fun i => f i j)).
Proof.
  induction n as [|n IH]; cbn [csum].
  - now rewrite csum_zero.
  - rewrite IH, <- csum_plus. reflexivity.
Qed.
(** one non-zero term *)
Lemma csum_at n j f : (j < n)%nat -> csum n (fun k => if (k =? j)%nat then f k else 0) = f j.
Proof.
  induction n as [|n IH]; intros H; [lia|]. cbn [csum]. destruct (Nat.eqb_spec n j) as [->|Hne].
  - rewrite (csum_ext j _ (fun _ => 0)), csum_zero; [ring|].
    intros k Hk. destruct (Nat.eqb_spec k j); [lia|auto].
  - rewrite IH by lia. ring.
Qed.
Lemma csum_none n j f : (n <= j)%nat -> csum n (fun k => if (k =? j)%nat then f k else 0) = 0.
Proof.
  intros H. rewrite (csum_ext n _ (fun _ => 0)), csum_zero; auto.
  intros k Hk. destruct (Nat.eqb_spec k j); [lia|auto].
Qed.
Lemma csum_acc n s f : acc Carith s n f = s + csum n f.
Proof.
  induction n as [|n IH]; [cbn; ring|]. rewrite acc_S, IH. cbn. ring.
Qed.

(** * the cyclic matrices *)
(** row i of a cyclic matrix *)
Lemma cyclic_row p d u e i f : (1 <= p)%nat -> (i < p)%nat ->
  csum p (fun k => cyclic p d u e i k * f k) =
  d * f i + u * (if (i + 1 <? p)%nat then f (i + 1)%nat else e * f 0%nat).
Proof.
  intros Hp Hi. unfold cyclic.
  rewrite (csum_ext p _ (fun k => ((if (k =? i)%nat then d * f k else 0) +
    (if (k =? i + 1)%nat then u * f k else 0)) +
    (if (k =? 0)%nat then (if (i =? p - 1)%nat then u * e * f k else 0) else 0))).
  2:{ intros k _. destruct (k =? i)%nat, (k =? i + 1)%nat, (i =? p - 1)%nat, (k =? 0)%nat; cbn [andb]; ring. }
  rewrite !csum_plus. rewrite csum_at by auto. rewrite (csum_at p 0) by lia.
  destruct (Nat.ltb_spec (i + 1) p) as [H|H].
  - rewrite csum_at by auto. destruct (Nat.eqb_spec i (p - 1)); [lia|]. ring.
  - rewrite csum_none by auto. destruct (Nat.eqb_spec i (p - 1)); [|lia]. ring.
Qed.
Lemma cyclic_plus p d u d' u' e i j :
  cyclic p d u e i j + cyclic p d' u' e i j = cyclic p (d + d') (u + u') e i j.
Proof.
  unfold cyclic. destruct (j =? i)%nat, (j =? i + 1)%nat, ((i =? p - 1)%nat && (j =? 0)%nat)%bool; ring.
Qed.
Lemma cyclic_off p d u e : off_pattern_zero p (cyclic p d u e).
Proof.
  intros i j Hi Hj H1 H2 H3. unfold cyclic.
  destruct (Nat.eqb_spec j i); [lia|]. destruct (Nat.eqb_spec j (i + 1)); [lia|].
  destruct (Nat.eqb_spec i (p - 1)), (Nat.eqb_spec j 0); cbn [andb]; try lia; ring.
Qed.

Fixpoint cpow (x : C) (n : nat) : C := match n with O => 1 | S n => x * cpow x n end.
Lemma Cmult_cancel (r x y : C) : r <> 0 -> x * r = y * r -> x = y.
Proof.
  intros H E. transitivity (x * r / r); [field; auto|]. rewrite E. field. auto.
Qed.
Lemma Cmod_cpow (x : C) n : Cmod (cpow x n) = (Cmod x ^ n)%R.
Proof. induction n as [|n IH]; cbn; [apply Cmod_1|]. now rewrite Cmod_mult, IH. Qed.

(** explicit inverse *)
Definition det (p : nat) (d u e : C) : C := cpow d p - e * cpow (- u) p.
Definition cinv (p : nat) (d u e : C) (i j : nat) : C :=
  (if (i <=? j)%nat then cpow (- u) (j - i) * cpow d (p - 1 - (j - i))
   else e * (cpow (- u) (j + p - i) * cpow d (i - j - 1))) / det p d u e.

Lemma cinv_ok p d u e : (1 <= p)%nat -> det p d u e <> 0 -> right_inverse p (cyclic p d u e) (cinv p d u e).
Proof.
  intros Hp Hd i j Hi Hj. rewrite cyclic_row by auto. unfold cinv, delta_.
  assert (Hg : det p d u e = d * cpow d (p - 1) + u * e * cpow (- u) (p - 1)).
  { unfold det. replace p with (S (p - 1)) at 1 2 by lia. cbn [cpow]. ring. }
  set (g := det p d u e) in *. clearbody g. apply (Cmult_cancel g) ; auto.
  destruct (Nat.ltb_spec (i + 1) p) as [H|H].
  - destruct (Nat.leb_spec i j) as [Hij|Hij].
    + destruct (Nat.eqb_spec i j) as [<-|Hne].
      * destruct (Nat.leb_spec (i + 1) i); [lia|]. rewrite Nat.sub_diag. cbn [cpow].
        replace (i + p - (i + 1))%nat with (p - 1)%nat by lia. replace (i + 1 - i - 1)%nat with 0%nat by lia.
        cbn [cpow]. rewrite Nat.sub_0_r. transitivity g; [|ring].
        transitivity (d * cpow d (p - 1) + u * e * cpow (- u) (p - 1)); [field; auto|auto].
      * destruct (Nat.leb_spec (i + 1) j); [|lia].
        replace (j - i)%nat with (S (j - (i + 1))) by lia. replace (p - 1 - (j - (i + 1)))%nat with (S (p - 1 - S (j - (i + 1)))) by lia.
        cbn [cpow]. field. auto.
    + destruct (Nat.eqb_spec i j); [lia|]. destruct (Nat.leb_spec (i + 1) j); [lia|].
      replace (j + p - i)%nat with (S (j + p - (i + 1))) by lia.
      replace (i + 1 - j - 1)%nat with (S (i - j - 1)) by lia. cbn [cpow]. field. auto.
  - assert (i = p - 1)%nat as -> by lia. cbn [Nat.leb]. rewrite Nat.sub_0_r.
    destruct (Nat.eqb_spec (p - 1) j) as [<-|Hne].
    + rewrite Nat.leb_refl, !Nat.sub_diag, Nat.sub_0_r. cbn [cpow]. transitivity g; [|ring].
      transitivity (d * cpow d (p - 1) + u * e * cpow (- u) (p - 1)); [field; auto|auto].
    + destruct (Nat.leb_spec (p - 1) j); [lia|].
      replace (j + p - (p - 1))%nat with (S j) by lia. set (v := (p - 1 - j - 1)%nat).
      replace (p - 1 - j)%nat with (S v) by lia. cbn [cpow]. field. auto.
Qed.

(** no non-zero solution of the homogeneous system *)
Lemma cyclic_inj p d u e y : (1 <= p)%nat -> det p d u e <> 0 ->
  (forall i, (i < p)%nat -> csum p (fun k => cyclic p d u e i k * y k) = 0) ->
  forall i, (i < p)%nat -> y i = 0.
Proof.
  intros Hp Hd H.
  assert (Hr : forall i, (i < p)%nat -> d * y i + u * (if (i + 1 <? p)%nat then y (i + 1)%nat else e * y 0%nat) = 0).
  { intros i Hi. rewrite <- (cyclic_row p d u e i y) by auto. auto. }
  set (z := fun k => if (k <? p)%nat then y k else e * y 0%nat).
  assert (Hz : forall i, (i < p)%nat -> d * z i = - u * z (S i)).
  { intros i Hi. unfold z. destruct (Nat.ltb_spec i p); [|lia]. specialize (Hr i Hi).
    replace (S i) with (i + 1)%nat by lia. transitivity (d * y i + u * (if (i + 1 <? p)%nat then y (i + 1)%nat else e * y 0%nat) + - u * (if (i + 1 <? p)%nat then y (i + 1)%nat else e * y 0%nat)); [ring|].
    rewrite Hr. ring. }
  assert (Hk : forall k, (k <= p)%nat -> cpow d k * z 0%nat = cpow (- u) k * z k).
  { induction k as [|k IH]; intros Hk; [reflexivity|]. cbn [cpow]. rewrite <- Cmult_assoc, IH by lia.
    transitivity (cpow (- u) k * (d * z k)); [ring|]. rewrite Hz by lia. ring. }
  assert (H0 : z 0%nat = 0).
  { specialize (Hk p (le_n p)).
    assert (Ep : z p = e * z 0%nat). { unfold z. rewrite Nat.ltb_irrefl. destruct (Nat.ltb_spec 0 p); [auto|lia]. }
    rewrite Ep in Hk. apply (Cmult_cancel (det p d u e)); auto. unfold det.
    transitivity (cpow d p * z 0%nat - cpow (- u) p * (e * z 0%nat)); [ring|]. rewrite Hk. ring. }
  assert (Hu : forall i, (i <= p)%nat -> z i = 0).
  { destruct (Ceq_dec u 0) as [->|Hu0].
    - assert (Hd0 : d <> 0).
      { intros ->. apply Hd. unfold det. destruct p as [|p']; [lia|]. cbn [cpow]. ring. }
      intros i Hi. destruct (Nat.eq_dec i p) as [->|Hne].
      + unfold z. rewrite Nat.ltb_irrefl. unfold z in H0. destruct (Nat.ltb_spec 0 p); [|lia]. rewrite H0. ring.
      + apply (Cmult_cancel d); auto. transitivity (d * z i); [ring|]. rewrite Hz by lia. ring.
    - induction i as [|i IH]; intros Hi; [auto|].
      apply (Cmult_cancel (- u)). { intros E. apply Hu0. transitivity (- - u); [ring|]. rewrite E. ring. }
      transitivity (- u * z (S i)); [ring|]. rewrite <- Hz by lia. rewrite IH by lia. ring. }
  intros i Hi. specialize (Hu i). unfold z in Hu. destruct (Nat.ltb_spec i p); [|lia]. apply Hu. lia.
Qed.
