(** What the statistics are, independently of how the code computes them. *)
From Coq Require Import List Arith ZArith Reals.
Import ListNotations.
Local Open Scope R_scope.

(** x_0 + x_1 + ... *)
Definition total (l : list R) : R := fold_right Rplus 0 l.
Definition average (l : list R) : R := total l / INR (length l).
(** sum of squared deviations from the average, over n - 1 *)
Definition sample_variance (l : list R) : R :=
  total (map (fun x => (x - average l) * (x - average l)) l) / INR (length l - 1).
Definition count (P : R -> bool) (l : list R) : nat := length (filter P l).
Definition leb (x y : R) : bool := if Rle_dec x y then true else false.
(** at least half of the data are <= m and at least half are >= m *)
Definition is_median (m : R) (l : list R) : Prop :=
  (length l <= 2 * count (fun x => leb x m) l)%nat /\
  (length l <= 2 * count (fun x => leb m x) l)%nat.
Definition ascending (l : list R) : Prop :=
  forall i j x y, (i <= j)%nat -> nth_error l i = Some x -> nth_error l j = Some y -> x <= y.
