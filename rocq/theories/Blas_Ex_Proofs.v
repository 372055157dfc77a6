(** A matrix has dependent rows or solves every system, over any field. *)
From Coq Require Import List Arith ZArith Bool Reals Lia Classical IndefiniteDescription Field.
From Coquelicot Require Import Complex.
From Verif Require Import Base Loops Arith Matrix_Model Matrix_Spec Matrix_Proofs Blas_Model Blas_Spec Blas_Proofs.
Import ListNotations.
Local Open Scope nat_scope.

Section Field.
Context {T : Type} (o : arith T) (inv : T -> T).
Hypothesis FT : field_theory (o0 o) (o1 o) (oadd o) (omul o) (osub o) (oopp o) (odiv o) inv eq.
Add Field Tfield : FT.
Declare Scope T_scope.
Notation "0" := (o0 o) : T_scope. Notation "1" := (o1 o) : T_scope.
Notation "x + y" := (oadd o x y) : T_scope. Notation "x * y" := (omul o x y) : T_scope.
Notation "x - y" := (osub o x y) : T_scope. Notation "- x" := (oopp o x) : T_scope. Notation "x / y" := (odiv o x y) : T_scope.
Delimit Scope T_scope with T.
Notation sum := (sum_left o).

Lemma sum_plus n f g : sum n (fun k => f k + g k)%T = (sum n f + sum n g)%T.
Proof. induction n as [|n IH]; [rewrite !sum_left_0; ring|]. rewrite !sum_left_S, IH. ring. Qed.
Lemma sum_scal n c f : sum n (fun k => c * f k)%T = (c * sum n f)%T.
Proof. induction n as [|n IH]; [rewrite !sum_left_0; ring|]. rewrite !sum_left_S, IH. ring. Qed.
Lemma sum_zero n f : (forall k, k < n -> f k = 0%T) -> sum n f = 0%T.
Proof. induction n as [|n IH]; intros H; [reflexivity|]. rewrite sum_left_S, IH, H by auto. ring. Qed.

Definition sk (r i : nat) : nat := if i <? r then i else S i.
Lemma sk_ne r i : sk r i <> r. Proof. unfold sk. destruct (Nat.ltb_spec i r); lia. Qed.
Lemma sk_lt r i m : r < S m -> i < m -> sk r i < S m. Proof. unfold sk. destruct (Nat.ltb_spec i r); lia. Qed.
Lemma sum_sk m r f : r < S m -> sum (S m) f = (f r + sum m (fun i => f (sk r i)))%T.
Proof.
  revert r. induction m as [|m IH]; intros r Hr.
  - assert (r = 0%nat) as -> by lia. rewrite sum_left_S, !sum_left_0. ring.
  - rewrite sum_left_S. destruct (Nat.eq_dec r (S m)) as [->|N].
    + rewrite (sum_left_ext o (S m) (fun i => f (sk (S m) i)) f); [ring|]. intros k Hk. unfold sk. destruct (Nat.ltb_spec k (S m)); [reflexivity|lia].
    + rewrite (IH r) by lia. rewrite sum_left_S. replace (sk r m) with (S m) by (unfold sk; destruct (Nat.ltb_spec m r); lia). ring.
Qed.

Definition rows_dep (m n : nat) (A : nat -> nat -> T) : Prop :=
  exists w : nat -> T, (exists i, i < m /\ w i <> 0%T) /\ forall k, k < n -> sum m (fun i => w i * A i k)%T = 0%T.
Definition onto (m n : nat) (A : nat -> nat -> T) : Prop :=
  forall b, exists x, forall i, i < m -> sum n (fun k => A i k * x k)%T = b i.

Lemma unsk r : exists u : nat -> nat, forall i, u (sk r i) = i.
Proof. exists (fun k => if k <? r then k else k - 1). intros i. unfold sk. destruct (Nat.ltb_spec i r); [destruct (Nat.ltb_spec i r); lia|]. destruct (Nat.ltb_spec (S i) r); lia. Qed.

Lemma dep_or_onto : forall n m A, rows_dep m n A \/ onto m n A.
Proof.
  induction n as [|n IH]; intros m A.
  - destruct m as [|m]; [right; intros b; exists (fun _ => 0%T); intros i Hi; lia|].
    left. exists (fun _ => 1%T). split; [exists 0%nat; split; [lia|]|intros; lia]. apply (F_1_neq_0 FT).
  - destruct (classic (forall i, i < m -> A i n = 0%T)) as [Hz|Hz].
    + destruct (IH m A) as [(w & Hw & H)|H].
      * left. exists w. split; auto. intros k Hk. destruct (Nat.eq_dec k n) as [->|N]; [|apply H; lia].
        apply sum_zero. intros i Hi. rewrite Hz by auto. ring.
      * right. intros b. destruct (H b) as (x & Hx). exists (fun k => if k =? n then 0%T else x k). intros i Hi.
        rewrite sum_left_S, Nat.eqb_refl, <- (Hx i Hi). rewrite (sum_left_ext o n _ (fun k => A i k * x k)%T); [ring|].
        intros k Hk. destruct (Nat.eqb_spec k n); [lia|reflexivity].
    + apply not_all_ex_not in Hz as (r & Hz). apply imply_to_and in Hz as (Hr & Hz). destruct m as [|m]; [lia|].
      set (q := fun i => (A (sk r i) n / A r n)%T).
      set (A' := fun i k => (A (sk r i) k - q i * A r k)%T).
      destruct (unsk r) as (u & Hu).
      destruct (IH m A') as [(w & (i0 & Hi0 & Hw) & H)|H].
      * left. exists (fun i => if i =? r then (- sum m (fun i => w i * q i))%T else w (u i)). split.
        { exists (sk r i0). split; [now apply sk_lt|]. destruct (Nat.eqb_spec (sk r i0) r) as [E|E]; [now apply sk_ne in E|]. now rewrite Hu. }
        intros k Hk. rewrite (sum_sk m r) by auto. rewrite Nat.eqb_refl.
        transitivity (- sum m (fun i => w i * q i) * A r k + sum m (fun i => w i * A (sk r i) k))%T.
        { f_equal. apply sum_left_ext. intros i Hi. destruct (Nat.eqb_spec (sk r i) r) as [E|E]; [now apply sk_ne in E|]. now rewrite Hu. }
        assert (Ek : sum m (fun i => w i * A (sk r i) k)%T = (A r k * sum m (fun i => w i * q i))%T).
        { rewrite <- sum_scal. destruct (Nat.eq_dec k n) as [->|N].
          - apply sum_left_ext. intros i Hi. unfold q. field. exact Hz.
          - specialize (H k ltac:(lia)). unfold A' in H.
            rewrite (sum_left_ext o m _ (fun i => A r k * (w i * q i) + w i * (A (sk r i) k - q i * A r k))%T) by (intros; ring).
            rewrite sum_plus, H. ring. }
        rewrite Ek. ring.
      * right. intros b. destruct (H (fun i => b (sk r i) - q i * b r)%T) as (x & Hx).
        set (xn := ((b r - sum n (fun k => A r k * x k)) / A r n)%T).
        exists (fun k => if k =? n then xn else x k).
        assert (Es : forall i, sum (S n) (fun k => A i k * (if k =? n then xn else x k))%T = (sum n (fun k => A i k * x k) + A i n * xn)%T).
        { intros i. rewrite sum_left_S, Nat.eqb_refl. f_equal. apply sum_left_ext. intros k Hk. destruct (Nat.eqb_spec k n); [lia|reflexivity]. }
        assert (Er : (sum n (fun k => A r k * x k) + A r n * xn)%T = b r) by (unfold xn; field; exact Hz).
        intros i Hi. rewrite Es. destruct (Nat.eq_dec i r) as [->|N]; [exact Er|].
        assert (exists j, j < m /\ i = sk r j) as (j & Hj & ->).
        { exists (if i <? r then i else i - 1)%nat. unfold sk. destruct (Nat.ltb_spec i r); [destruct (Nat.ltb_spec i r); lia|]. destruct (Nat.ltb_spec (i - 1) r); lia. }
        specialize (Hx j Hj). unfold A' in Hx.
        rewrite (sum_left_ext o n _ (fun k => A (sk r j) k * x k + (- q j) * (A r k * x k))%T) in Hx by (intros; ring).
        rewrite sum_plus, sum_scal in Hx. assert (En : A (sk r j) n = (q j * A r n)%T) by (unfold q; field; exact Hz).
        rewrite En. transitivity ((sum n (fun k => A (sk r j) k * x k) + - q j * sum n (fun k => A r k * x k)) + q j * (sum n (fun k => A r k * x k) + A r n * xn))%T; [ring|].
        rewrite Hx, Er. ring.
Qed.

(** independent rows and a right inverse exclude each other's failure *)
Lemma sum_swap n m f : sum n (fun i => sum m (fun j => f i j)) = sum m (fun j => sum n (fun i => f i j)).
Proof.
  induction n as [|n IH]; [rewrite sum_left_0; symmetry; apply sum_zero; reflexivity|].
  rewrite sum_left_S, IH, <- sum_plus. apply sum_left_ext. intros k _. now rewrite sum_left_S.
Qed.
Lemma dependent_no_inverse n a x : solves o n n a x (fun i j => if i =? j then 1%T else 0%T) -> ~ dependent o n a.
Proof.
  intros Hx (w & (j & Hj & Hw) & H). apply Hw.
  transitivity (sum n (fun i => w i * (if i =? j then 1 else 0))%T).
  - destruct n as [|n]; [lia|]. rewrite (sum_sk n j) by lia. rewrite Nat.eqb_refl, sum_zero; [ring|].
    intros k Hk. destruct (Nat.eqb_spec (sk j k) j) as [E|E]; [now apply sk_ne in E|ring].
  - rewrite (sum_left_ext o n _ (fun i => sum n (fun k => w i * (a i k * x k j)))%T) by (intros i Hi; rewrite sum_scal, (Hx i j) by auto; reflexivity).
    rewrite sum_swap. apply sum_zero. intros k Hk.
    rewrite (sum_left_ext o n _ (fun i => x k j * (w i * a i k))%T) by (intros; ring). rewrite sum_scal, H by auto. ring.
Qed.

(** some routine keeps LAPACK's promise *)
Lemma gesv_exists : exists gesv, lapack_solves o gesv.
Proof.
  set (P := fun n nrhs (a : list T) (ipiv : list Z) (b : list T) (r : list T * list Z * list T * Z) => 1 <= n -> length a = n * n -> length ipiv = n -> length b = n * nrhs ->
    let '(a', p', b', info) := r in length a' = n * n /\ length p' = n /\ length b' = n * nrhs /\
      ((info = 0%Z /\ solves o n nrhs (at_ o n a) (at_ o n b') (at_ o n b)) \/ ((0 < info)%Z /\ dependent o n (at_ o n a) /\ b' = b))).
  assert (H : forall n nrhs a ipiv b, exists r, P n nrhs a ipiv b r).
  { intros n nrhs a ipiv b. destruct (dep_or_onto n n (at_ o n a)) as [Hd|Ho].
    - exists (a, ipiv, b, 1%Z). intros Hn Ha Hi Hb. repeat split; auto. right. split; [lia|]. split; auto.
    - destruct (functional_choice _ (fun j => Ho (fun i => at_ o n b i j))) as (x & Hx).
      exists (a, ipiv, map (fun k => x (k / n)%nat (k mod n)%nat) (seq 0 (n * nrhs)), 0%Z). intros Hn Ha Hi Hb.
      split; [auto|]. split; [auto|]. split; [now rewrite map_length, seq_length|]. left. split; [reflexivity|].
      intros i j Hi' Hj. rewrite <- (Hx j i Hi'). apply sum_left_ext. intros k Hk. f_equal. unfold at_ at 1.
      rewrite (nth_indep _ _ ((fun q => x (q / n)%nat (q mod n)%nat) 0%nat)) by (rewrite map_length, seq_length; now apply index_bound).
      rewrite (map_nth (fun q => x (q / n)%nat (q mod n)%nat)), seq_nth by (now apply index_bound). cbn [Nat.add].
      rewrite Nat.add_comm, Nat.mod_add, Nat.div_add, Nat.mod_small, Nat.div_small by lia. reflexivity. }
  exists (fun n nrhs a _ ipiv b _ => Ret (proj1_sig (constructive_indefinite_description _ (H n nrhs a ipiv b)))).
  intros n nrhs a ipiv b Hn Ha Hi Hb. destruct (constructive_indefinite_description _ (H n nrhs a ipiv b)) as ((((a', p'), b'), info) & Hr). cbn [proj1_sig].
  exists a', p', b', info. split; [reflexivity|]. exact (Hr Hn Ha Hi Hb).
Qed.
End Field.
