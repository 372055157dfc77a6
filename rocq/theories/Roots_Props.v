(** C17, C18: the polynomial solvers over exact arithmetic. *)
From Coq Require Import List ZArith Reals Lra Permutation.
From Verif Require Import Base Arith Sort_Model Roots_Model Roots_Spec Roots_Proofs.
Import ListNotations.
Local Open Scope R_scope.

(** C17: for every a, b, c, in the four cases that exhaust them: two ascending values that are
    exactly the real roots (with multiplicity); no real root and two markers; the linear equation's
    root and a marker; two markers for the equation without x. *)
Theorem C17_solveQuadratic : forall a b c,
  let r := solveQuadratic a b c in
  (a <> 0 -> 0 <= b ^ 2 - 4 * a * c ->
     fst r <= snd r /\ (forall x, quadratic a b c x = 0 <-> x = fst r \/ x = snd r) /\
     (forall x, quadratic a b c x = a * (x - fst r) * (x - snd r))) /\
  (a <> 0 -> b ^ 2 - 4 * a * c < 0 ->
     r = (no_root, no_root) /\ forall x, quadratic a b c x <> 0) /\
  (a = 0 -> b <> 0 -> snd r = no_root /\ forall x, quadratic a b c x = 0 <-> x = fst r) /\
  (a = 0 -> b = 0 -> r = (no_root, no_root)).
Proof. exact solveQuadratic_roots. Qed.
Print Assumptions C17_solveQuadratic.

Theorem C17_discriminant : forall a b c, quadraticDiscriminant a b c = b ^ 2 - 4 * a * c.
Proof. exact disc_val. Qed.
Print Assumptions C17_discriminant.

(** x^2 - 3 x + 2 has two roots, x^2 + 1 none *)
Example C17_example : 0 <= (-3) ^ 2 - 4 * 1 * 2 /\ quadratic 1 (-3) 2 1 = 0 /\ quadratic 1 (-3) 2 2 = 0 /\
  (0 ^ 2 - 4 * 1 * 1 < 0) /\ solveQuadratic 1 0 1 = (no_root, no_root).
Proof.
  unfold quadratic. repeat split; try lra.
  apply (proj1 (proj2 (solveQuadratic_roots 1 0 1))); lra.
Qed.

(** C18: whenever solveCubic returns (in exact arithmetic its Newton loop ends only at an exact root,
    for the constants of float and of double), the values are ascending, every real root is among
    them, and either they are the three real roots with multiplicity or there is one real root and
    the other two values are the marker. *)
Theorem C18_solveCubic : forall lambda ope fuel a b c d r0 r1 r2,
  good_constants lambda ope -> a <> 0 ->
  solveCubic lambda ope fuel a b c d = Ret (r0, r1, r2) ->
  r0 <= r1 <= r2 /\
  (forall t, cubic a b c d t = 0 -> In t [r0; r1; r2]) /\
  ((forall t, cubic a b c d t = a * (t - r0) * (t - r1) * (t - r2)) \/
   (exists x, cubic a b c d x = 0 /\ (forall t, cubic a b c d t = 0 -> t = x) /\
      Permutation [r0; r1; r2] [no_root; no_root; x])).
Proof. exact solveCubic_roots. Qed.
Print Assumptions C18_solveCubic.
Theorem C18_constants : good_constants lambda_double ope_double /\ good_constants lambda_float ope_float.
Proof. exact (conj good_double good_float). Qed.
Print Assumptions C18_constants.

(** a = 0 solves the quadratic b x^2 + c x + d *)
Theorem C18_quadratic : forall lambda ope fuel b c d,
  exists r0 r1 r2, solveCubic lambda ope fuel 0 b c d = Ret (r0, r1, r2) /\ r0 <= r1 <= r2 /\
    Permutation [r0; r1; r2] [fst (solveQuadratic b c d); snd (solveQuadratic b c d); no_root].
Proof. exact solveCubic_quadratic. Qed.
Print Assumptions C18_quadratic.

(** The deflation, for any x at all (exact or not): the three values handed on are exactly the roots
    of the cubic with its constant coefficient, or its quadratic one, changed by the residual at x. *)
Theorem C18_deflation : forall a b c d x b1 c2,
  deflate a c d x (a * x + b) ((a * x + b) * x + c) = (b1, c2) ->
  (forall t, (t - x) * quadratic a b1 c2 t = cubic a b c (d - cubic a b c d x) t) \/
  (x <> 0 /\ forall t, (t - x) * quadratic a b1 c2 t = cubic a (b - cubic a b c d x / x ^ 2) c d t).
Proof. exact deflate_backward. Qed.
Print Assumptions C18_deflation.

(** x^3 - 8: the loop runs once and returns; x^3 - x: the d = 0 case *)
Example C18_example_loop : exists r, solveCubic lambda_double ope_double 1 1 0 0 (-8) = Ret r.
Proof.
  unfold solveCubic. destruct (Reqb_spec 1 0); [lra|]. destruct (Reqb_spec (-8) 0); [lra|].
  cbn zeta. rewrite eval_val. cbn beta iota.
  replace (- (0 / 1) / 3) with 0 by field.
  replace (cubic 1 0 0 (-8) 0 / 1) with (-8) by (unfold cubic; field).
  destruct (Rltb_spec (-8) 0); [|lra].
  replace (- (3 * 1 * 0 ^ 2 + 2 * 0 * 0 + 0) / 1) with 0 by field.
  destruct (Rltb_spec 0 0); [lra|].
  destruct (cbrt_pow (Rabs (-8)) (Rabs_pos _)) as (C0 & C3). set (w := cbrt (Rabs (-8))) in *.
  replace (0 - -1 * w) with w by ring.
  assert (Hw : w <> 0). { intros E. rewrite E in C3. rewrite Rabs_left in C3; lra. }
  destruct (Reqb_spec w 0); [contradiction|].
  assert (N : exists x b1 c2, newton ope_double 1 1 0 0 (-8) (-1) w = Ret (x, b1, c2)).
  { cbn [newton]. rewrite eval_val. cbn beta iota zeta.
    assert (Hq : cubic 1 0 0 (-8) w = 0). { unfold cubic. rewrite C3, Rabs_left; lra. }
    rewrite Hq. replace (w - 0 / (3 * 1 * w ^ 2 + 2 * 0 * w + 0) / ope_double) with w
      by (unfold Rdiv; ring).
    destruct (Reqb _ 0); destruct (Rltb_spec (-1 * w) (-1 * w)); try lra; eauto. }
  destruct N as (x & b1 & c2 & ->). cbn [bind].
  destruct (deflate 1 0 (-8) x b1 c2). eauto.
Qed.
Example C18_example_zero : exists r, solveCubic lambda_double ope_double 0 1 0 (-1) 0 = Ret r.
Proof.
  unfold solveCubic. destruct (Reqb_spec 1 0); [lra|]. destruct (Reqb_spec 0 0); [|lra]. eauto.
Qed.
