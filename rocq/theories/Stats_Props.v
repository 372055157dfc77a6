(** C14: the statistics of stats.hpp, for data of every length. *)
From Coq Require Import List Arith ZArith Reals Lia Lra.
From Verif Require Import Base Loops Stats_Model Stats_Spec Stats_Proofs.
Import ListNotations.
Local Open Scope R_scope.

(** Naive (device) and pairwise (host) summation both return the sum, for every length. *)
Theorem C14_sum : forall l, l <> [] -> sum l = Ret (total l) /\ sum_device l = Ret (total l).
Proof. exact (fun l H => conj (sum_total l H) (naive_total l H)). Qed.
Print Assumptions C14_sum.

Theorem C14_mean : forall l, l <> [] ->
  mean l = Ret (average l) /\
  forall lo hi, (forall x, In x l -> lo <= x <= hi) -> lo <= average l <= hi.
Proof. exact (fun l H => conj (mean_average l H) (fun lo hi => average_bounds l lo hi H)). Qed.
Print Assumptions C14_mean.

(** At least half of the values are on each side of the median; it is the middle value, or the
    midpoint of the two middle ones. *)
Theorem C14_median : forall l, l <> [] -> ascending l ->
  exists m, median l = Ret m /\ is_median m l /\
    (forall k, length l = (2 * k + 1)%nat -> nth_error l k = Some m) /\
    (forall k a b, length l = (2 * k + 2)%nat -> nth_error l k = Some a ->
       nth_error l (S k) = Some b -> m = (a + b) / 2).
Proof. exact median_ok. Qed.
Print Assumptions C14_median.

(** The one-pass algorithm computes the textbook value. *)
Theorem C14_variance : forall l, (2 <= length l)%nat -> (Z.of_nat (length l) <= intMax)%Z ->
  variance l = Ret (sample_variance l) /\ 0 <= sample_variance l /\
  (sample_variance l = 0 <-> forall x y, In x l -> In y l -> x = y).
Proof.
  exact (fun l H1 H2 => conj (variance_ok l H1 H2)
    (conj (sample_variance_nonneg l H1) (sample_variance_zero l H1))).
Qed.
Print Assumptions C14_variance.

Theorem C14_stdDev : forall l, (2 <= length l)%nat -> (Z.of_nat (length l) <= intMax)%Z ->
  exists s, stdDev l = Ret s /\ 0 <= s /\ s * s = sample_variance l.
Proof. exact stdDev_ok. Qed.
Print Assumptions C14_stdDev.

(** A concrete case: 1, 2, 4, 9 has mean 4, median 3 and variance 38/3. *)
Example C14_example :
  mean [1; 2; 4; 9] = Ret 4 /\ median [1; 2; 4; 9] = Ret 3 /\ variance [1; 2; 4; 9] = Ret (38 / 3).
Proof.
  split; [|split].
  - rewrite (proj1 (C14_mean [1; 2; 4; 9] ltac:(discriminate))). f_equal. unfold average, total. cbn. lra.
  - cbn. f_equal. lra.
  - rewrite (proj1 (C14_variance [1; 2; 4; 9] ltac:(cbn; lia) ltac:(unfold intMax; cbn; lia))).
    f_equal. unfold sample_variance, average, total. cbn. lra.
Qed.
