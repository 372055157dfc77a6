(** Arithmetic of a C++ number type T, as a record of its operations.  Models written against it
    hold for every T: exact reals, rationals, integers and IEEE numbers alike. *)
From Coq Require Import List Arith ZArith QArith Reals Lia.
Import ListNotations.

Record arith (T : Type) := mkArith {
  o0 : T; o1 : T;
  oadd : T -> T -> T; osub : T -> T -> T; omul : T -> T -> T; odiv : T -> T -> T;
  oopp : T -> T;
  ofma : T -> T -> T -> T;           (** fma(a, b, c) = a * b + c *)
  osqrt : T -> T;
  oltb : T -> T -> bool;             (** operator< *)
  oeqb : T -> T -> bool              (** operator== *)
}.
Arguments o0 {T}. Arguments o1 {T}. Arguments oadd {T}. Arguments osub {T}. Arguments omul {T}.
Arguments odiv {T}. Arguments oopp {T}. Arguments ofma {T}. Arguments osqrt {T}.
Arguments oltb {T}. Arguments oeqb {T}.

(** exact real arithmetic *)
Definition Rltb (x y : R) : bool := if Rlt_dec x y then true else false.
Definition Reqb (x y : R) : bool := if Req_EM_T x y then true else false.
Definition Rarith : arith R :=
  mkArith R 0%R 1%R Rplus Rminus Rmult Rdiv Ropp (fun a b c => a * b + c)%R R_sqrt.sqrt Rltb Reqb.
(** exact integer arithmetic, to evaluate examples (division and square root truncate) *)
Definition Zarith : arith Z :=
  mkArith Z 0%Z 1%Z Z.add Z.sub Z.mul Z.div Z.opp (fun a b c => a * b + c)%Z Z.sqrt Z.ltb Z.eqb.

(** ((0 + f(0)) + f(1)) + ... + f(n-1), in this order *)
Definition sum_left {T} (o : arith T) (n : nat) (f : nat -> T) : T :=
  fold_left (fun s k => oadd o s (f k)) (seq 0 n) (o0 o).

Lemma sum_left_S {T} (o : arith T) n f : sum_left o (S n) f = oadd o (sum_left o n f) (f n).
Proof. unfold sum_left. rewrite seq_S, fold_left_app. reflexivity. Qed.
Lemma sum_left_0 {T} (o : arith T) f : sum_left o 0 f = o0 o.
Proof. reflexivity. Qed.
Lemma sum_left_ext {T} (o : arith T) n f g :
  (forall k, (k < n)%nat -> f k = g k) -> sum_left o n f = sum_left o n g.
Proof.
  induction n as [|n IH]; intros H; auto. rewrite !sum_left_S, IH, H; auto.
Qed.

(** laws of the exact real instance *)
Lemma sumR_plus n f g : sum_left Rarith n (fun k => f k + g k)%R = (sum_left Rarith n f + sum_left Rarith n g)%R.
Proof. induction n as [|n IH]; [cbn; ring|]. rewrite !sum_left_S, IH. cbn [Rarith oadd]. ring. Qed.
Lemma sumR_scal n c f : sum_left Rarith n (fun k => c * f k)%R = (c * sum_left Rarith n f)%R.
Proof. induction n as [|n IH]; [cbn; ring|]. rewrite !sum_left_S, IH. cbn [Rarith oadd]. ring. Qed.
Lemma sumR_0 n : sum_left Rarith n (fun _ => 0%R) = 0%R.
Proof. induction n as [|n IH]; [reflexivity|]. rewrite !sum_left_S, IH. cbn [Rarith oadd]. ring. Qed.
Lemma sumR_swap n m f :
  sum_left Rarith n (fun i => sum_left Rarith m (fun j => f i j)) =
  sum_left Rarith m (fun j => sum_left Rarith n (fun i => f i j)).
Proof.
  induction n as [|n IH].
  - rewrite sum_left_0. symmetry. erewrite sum_left_ext; [apply sumR_0|reflexivity].
  - rewrite sum_left_S, IH. cbn [Rarith oadd].
    rewrite <- sumR_plus. apply sum_left_ext. intros k Hk. rewrite sum_left_S. reflexivity.
Qed.
