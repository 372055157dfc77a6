From Coq Require Import List ZArith Reals Lra Lia Permutation Bool.
From Verif Require Import Base Arith Sort_Model Sort_Proofs Roots_Model Roots_Spec.
Import ListNotations.
Local Open Scope R_scope.

Lemma Reqb_spec x y : reflect (x = y) (Reqb x y).
Proof. unfold Reqb. destruct (Req_EM_T x y); constructor; auto. Qed.
Lemma Rltb_spec x y : reflect (x < y) (Rltb x y).
Proof. unfold Rltb. destruct (Rlt_dec x y); constructor; auto. Qed.

Lemma sq_pos u : u <> 0 -> 0 < u ^ 2.
Proof. intros H. apply Rsqr_pos_lt in H. unfold Rsqr in H. lra. Qed.
Lemma invalid_val : invalid = no_root.
Proof. unfold invalid, no_root. cbn. lra. Qed.

Lemma disc_val a b c : quadraticDiscriminant a b c = b ^ 2 - 4 * a * c.
Proof. unfold quadraticDiscriminant. ring. Qed.

(** completing the square *)
Lemma square_done a b c x : 4 * a * quadratic a b c x = (2 * a * x + b) ^ 2 - (b ^ 2 - 4 * a * c).
Proof. unfold quadratic. ring. Qed.
Lemma no_real_root a b c x : a <> 0 -> b ^ 2 - 4 * a * c < 0 -> quadratic a b c x <> 0.
Proof.
  intros Ha Hd E. pose proof (square_done a b c x) as S. rewrite E in S.
  pose proof (pow2_ge_0 (2 * a * x + b)). lra.
Qed.

Definition factored a b c r0 r1 := r0 <= r1 /\ forall x, quadratic a b c x = a * (x - r0) * (x - r1).

Lemma factored_swap a b c r0 r1 : (forall x, quadratic a b c x = a * (x - r0) * (x - r1)) ->
  forall r, r = (if Rltb r1 r0 then (r1, r0) else (r0, r1)) -> factored a b c (fst r) (snd r).
Proof.
  intros H r ->. destruct (Rltb_spec r1 r0); cbn; split; try lra; auto.
  intros x. rewrite H. ring.
Qed.

Lemma quad_real a b c : a <> 0 -> 0 <= b ^ 2 - 4 * a * c ->
  factored a b c (fst (solveQuadratic a b c)) (snd (solveQuadratic a b c)).
Proof.
  intros Ha Hd. unfold solveQuadratic.
  destruct (Reqb_spec a 0); [contradiction|].
  destruct (Reqb_spec b 0) as [->|Hb].
  - cbn zeta. destruct (Rltb_spec (- c / a) 0) as [Hn|Hn].
    + exfalso. assert (Hp : (- c / a) * (a * a) = - c * a) by (field; auto).
      assert (0 < a * a) by (apply Rsqr_pos_lt in Ha; exact Ha).
      assert ((- c / a) * (a * a) < 0) by (rewrite <- (Rmult_0_l (a * a)); now apply Rmult_lt_compat_r).
      lra.
    + cbn. assert (Hs : 0 <= - c / a) by lra.
      pose proof (sqrt_sqrt _ Hs) as Hq. pose proof (sqrt_pos (- c / a)) as Hp. split; [lra|].
      intros x. unfold quadratic.
      replace (a * (x - - sqrt (- c / a)) * (x - sqrt (- c / a)))
        with (a * x ^ 2 - a * (sqrt (- c / a) * sqrt (- c / a))) by ring.
      rewrite Hq. field. auto.
  - cbn zeta. rewrite disc_val. destruct (Rltb_spec (b ^ 2 - 4 * a * c) 0); [lra|].
    set (D := b ^ 2 - 4 * a * c) in *. set (w := sqrt D).
    set (q := - (b + copysign w b) / 2).
    pose proof (sqrt_sqrt D Hd) as Hw. fold w in Hw. pose proof (sqrt_pos D) as Hw0. fold w in Hw0.
    assert (Hq0 : q <> 0).
    { unfold q, copysign. rewrite (Rabs_right w) by lra. destruct (Rltb_spec b 0); lra. }
    assert (Hq2 : q * q + b * q + a * c = 0).
    { unfold q, copysign. rewrite (Rabs_right w) by lra.
      destruct (Rltb_spec b 0).
      - replace (- (b + - w) / 2 * (- (b + - w) / 2) + b * (- (b + - w) / 2) + a * c)
          with ((w * w - b ^ 2) / 4 + a * c) by field. rewrite Hw. unfold D. field.
      - replace (- (b + w) / 2 * (- (b + w) / 2) + b * (- (b + w) / 2) + a * c)
          with ((w * w - b ^ 2) / 4 + a * c) by field. rewrite Hw. unfold D. field. }
    eapply factored_swap; [|reflexivity].
    intros x. unfold quadratic.
    assert (Hb' : b = - (q * q + a * c) / q) by (field_simplify_eq; [lra|auto]).
    rewrite Hb'. field. auto.
Qed.

Lemma quad_complex a b c : a <> 0 -> b ^ 2 - 4 * a * c < 0 -> solveQuadratic a b c = (invalid, invalid).
Proof.
  intros Ha Hd. unfold solveQuadratic.
  destruct (Reqb_spec a 0); [contradiction|].
  destruct (Reqb_spec b 0) as [->|Hb].
  - cbn zeta. destruct (Rltb_spec (- c / a) 0) as [Hn|Hn]; auto.
    exfalso. assert (Hp : (- c / a) * (a * a) = - c * a) by (field; auto).
    assert (0 < a * a) by (apply Rsqr_pos_lt in Ha; exact Ha).
    assert (0 <= (- c / a) * (a * a)) by (apply Rmult_le_pos; lra). lra.
  - cbn zeta. rewrite disc_val. destruct (Rltb_spec (b ^ 2 - 4 * a * c) 0); [auto|lra].
Qed.

Lemma quad_linear b c : b <> 0 -> solveQuadratic 0 b c = (- c / b, invalid).
Proof.
  intros Hb. unfold solveQuadratic. destruct (Reqb_spec 0 0); [|contradiction].
  destruct (Reqb_spec b 0); [contradiction|auto].
Qed.
Lemma quad_degenerate c : solveQuadratic 0 0 c = (invalid, invalid).
Proof. unfold solveQuadratic. destruct (Reqb_spec 0 0); [auto|contradiction]. Qed.

Lemma factored_roots a b c r0 r1 : a <> 0 -> factored a b c r0 r1 ->
  forall x, quadratic a b c x = 0 <-> x = r0 \/ x = r1.
Proof.
  intros Ha (_ & H) x. rewrite H. split.
  - intros E. apply Rmult_integral in E as [E|E]; [|right; lra].
    apply Rmult_integral in E as [E|E]; [contradiction|left; lra].
  - intros [-> | ->]; ring.
Qed.

Theorem solveQuadratic_roots a b c :
  let r := solveQuadratic a b c in
  (a <> 0 -> 0 <= b ^ 2 - 4 * a * c ->
     fst r <= snd r /\ (forall x, quadratic a b c x = 0 <-> x = fst r \/ x = snd r) /\
     (forall x, quadratic a b c x = a * (x - fst r) * (x - snd r))) /\
  (a <> 0 -> b ^ 2 - 4 * a * c < 0 ->
     r = (no_root, no_root) /\ forall x, quadratic a b c x <> 0) /\
  (a = 0 -> b <> 0 -> snd r = no_root /\ forall x, quadratic a b c x = 0 <-> x = fst r) /\
  (a = 0 -> b = 0 -> r = (no_root, no_root)).
Proof.
  cbn zeta. split; [|split; [|split]].
  - intros Ha Hd. pose proof (quad_real a b c Ha Hd) as F. split; [apply F|split; [|apply F]].
    now apply factored_roots.
  - intros Ha Hd. rewrite quad_complex by auto. rewrite invalid_val. split; auto.
    intros x. now apply no_real_root.
  - intros -> Hb. rewrite quad_linear by auto. cbn. split; [apply invalid_val|].
    intros x. unfold quadratic. split; intros E.
    + field_simplify_eq; auto. lra.
    + subst x. field. auto.
  - intros -> ->. rewrite quad_degenerate, invalid_val. reflexivity.
Qed.

(** ** cubic *)
Lemma cbrt_pow x : 0 <= x -> 0 <= cbrt x /\ cbrt x ^ 3 = x.
Proof.
  intros H. unfold cbrt. destruct (Reqb_spec x 0) as [->|Hn]; [split; [lra|ring]|].
  destruct (Rltb_spec x 0); [lra|]. pose proof (exp_pos (ln x / 3)). split; [lra|].
  replace (exp (ln x / 3) ^ 3) with (exp (ln x / 3 + ln x / 3 + ln x / 3)) by (rewrite !exp_plus; ring).
  replace (ln x / 3 + ln x / 3 + ln x / 3) with (ln x) by field. apply exp_ln. lra.
Qed.

Lemma eval_val a b c d x : eval a b c d x =
  (a * x + b, (a * x + b) * x + c, 3 * a * x ^ 2 + 2 * b * x + c, cubic a b c d x).
Proof. unfold eval, cubic. f_equal; [f_equal|]; ring. Qed.

(** division of the cubic by (t - x) leaves the remainder cubic(x) *)
Lemma horner a b c d x t :
  cubic a b c d t = (t - x) * quadratic a (a * x + b) ((a * x + b) * x + c) t + cubic a b c d x.
Proof. unfold cubic, quadratic. ring. Qed.
Lemma deflate_exact a b c d x t b1 c2 : cubic a b c d x = 0 ->
  deflate a c d x (a * x + b) ((a * x + b) * x + c) = (b1, c2) ->
  cubic a b c d t = (t - x) * quadratic a b1 c2 t.
Proof.
  intros H E. unfold deflate in E.
  assert (D : cubic a b c d t = (t - x) * quadratic a (a * x + b) ((a * x + b) * x + c) t).
  { rewrite (horner a b c d x t), H. ring. }
  destruct (Reqb_spec x 0) as [Hx|Hx]; [injection E as <- <-; auto|].
  destruct (Rltb_spec (Rabs (d / x)) (Rabs a * x * x)); injection E as <- <-; auto.
  assert (Hd : d = - (a * x ^ 3 + b * x ^ 2 + c * x)) by (unfold cubic in H; lra).
  unfold cubic, quadratic. rewrite Hd. field. auto.
Qed.
(** and for an inexact x, the deflated polynomial is the cubic with one coefficient changed *)
Lemma deflate_backward a b c d x b1 c2 :
  deflate a c d x (a * x + b) ((a * x + b) * x + c) = (b1, c2) ->
  (forall t, (t - x) * quadratic a b1 c2 t = cubic a b c (d - cubic a b c d x) t) \/
  (x <> 0 /\ forall t, (t - x) * quadratic a b1 c2 t = cubic a (b - cubic a b c d x / x ^ 2) c d t).
Proof.
  intros E. unfold deflate in E.
  destruct (Reqb_spec x 0) as [Hx|Hx]; [injection E as <- <-; left|].
  { intros t. unfold cubic, quadratic. ring. }
  destruct (Rltb_spec (Rabs (d / x)) (Rabs a * x * x)); injection E as <- <-; [right|left].
  - split; auto. intros t. unfold cubic, quadratic. field. auto.
  - intros t. unfold cubic, quadratic. ring.
Qed.

(** the outcome: [x] and the two results of the quadratic, sorted *)
Definition deflated (a b c d : R) (r : R * R * R) : Prop :=
  let '(r0, r1, r2) := r in
  r0 <= r1 <= r2 /\
  exists x b1 c2, (forall t, cubic a b c d t = (t - x) * quadratic a b1 c2 t) /\
    Permutation [r0; r1; r2] [fst (solveQuadratic a b1 c2); snd (solveQuadratic a b1 c2); x].

Lemma sort3_R x y z r0 r1 r2 : sort3 Rltb (x, y, z) = (r0, r1, r2) ->
  Permutation [r0; r1; r2] [x; y; z] /\ r0 <= r1 <= r2.
Proof.
  unfold sort3. intros E.
  repeat match type of E with context [Rltb ?p ?q] => destruct (Rltb_spec p q); cbn [negb] in E end;
  injection E as <- <- <-; split; try lra;
  try apply Permutation_refl; try apply perm_swap.
  all: try (apply perm_skip, perm_swap).
  all: try (eapply perm_trans; [apply perm_swap|apply perm_skip, perm_swap]).
  all: try (eapply perm_trans; [apply perm_skip, perm_swap|apply perm_swap]).
  all: eapply perm_trans; [apply perm_swap|]; eapply perm_trans; [apply perm_skip, perm_swap|apply perm_swap].
Qed.

Lemma fin_ok a b c d x b1 c2 : (forall t, cubic a b c d t = (t - x) * quadratic a b1 c2 t) ->
  deflated a b c d (fin a b1 c2 x).
Proof.
  intros H. unfold fin, deflated. destruct (solveQuadratic a b1 c2) as [q0 q1] eqn:E.
  destruct (sort3 Rltb (q0, q1, x)) as [[r0 r1] r2] eqn:Es.
  apply sort3_R in Es as (Hp & Ho). split; auto.
  exists x, b1, c2. rewrite E. auto.
Qed.

(** u^3 + p u + m: the cubic over a, mirrored and shifted so that the inflection is at u = 0 *)
Section Newton.
Variables (a b c d s one_plus_eps : R).
Hypothesis Ha : a <> 0.
Hypothesis Hs : s = 1 \/ s = -1.
Hypothesis Hope : 1 <= one_plus_eps.
Let z := - (b / a) / 3.
Let p := (3 * a * z ^ 2 + 2 * b * z + c) / a.
Let m := s * (cubic a b c d z / a).
Hypothesis Hm : 0 <= m.
Definition reduced (u : R) := u ^ 3 + p * u + m.

Lemma ss : s * s = 1. Proof. destruct Hs as [-> | ->]; ring. Qed.
Lemma cubic_reduced x : cubic a b c d x / a = s * reduced (s * (x - z)).
Proof.
  unfold reduced, m.
  assert (E : cubic a b c d x / a = (x - z) ^ 3 + p * (x - z) + cubic a b c d z / a).
  { unfold p, cubic. unfold z. field. auto. }
  rewrite E. assert (S2 := ss).
  replace (s * ((s * (x - z)) ^ 3 + p * (s * (x - z)) + s * (cubic a b c d z / a)))
    with (s * s * (s * s) * (x - z) ^ 3 + s * s * (p * (x - z)) + s * s * (cubic a b c d z / a)) by ring.
  rewrite S2. ring.
Qed.
Lemma slope_reduced x : (3 * a * x ^ 2 + 2 * b * x + c) / a = 3 * (s * (x - z)) ^ 2 + p.
Proof.
  replace (3 * (s * (x - z)) ^ 2) with (s * s * (3 * (x - z) ^ 2)) by ring. rewrite ss.
  unfold p, z. field. auto.
Qed.

Definition before (u : R) := u < 0 /\ reduced u <= 0.
Lemma before_slope u : before u -> 0 < 3 * u ^ 2 + p.
Proof.
  intros (Hu & Hr). unfold reduced in Hr.
  assert (0 <= u ^ 2 + p).
  { destruct (Rle_or_lt 0 (u ^ 2 + p)) as [|Hn]; auto. exfalso.
    assert (0 < (- u) * (- (u ^ 2 + p))) by (apply Rmult_lt_0_compat; lra). lra. }
  assert (0 < u ^ 2) by (apply sq_pos; lra). lra.
Qed.
Lemma before_step u : before u -> before (u - reduced u / (3 * u ^ 2 + p) / one_plus_eps).
Proof.
  intros Hb. pose proof (before_slope u Hb) as Hsl. destruct Hb as (Hu & Hr).
  set (f := reduced u) in *. set (f' := 3 * u ^ 2 + p) in *.
  set (k := / one_plus_eps). assert (Hk : 0 < k <= 1).
  { unfold k. split; [apply Rinv_0_lt_compat; lra|]. rewrite <- Rinv_1. apply Rinv_le_contravar; lra. }
  set (h := - f / f'). assert (Hh : 0 <= h).
  { unfold h, Rdiv. apply Rmult_le_pos; [lra|]. left. now apply Rinv_0_lt_compat. }
  assert (Hhf : h * f' = - f) by (unfold h; field; lra).
  replace (u - f / f' / one_plus_eps) with (u + k * h) by (unfold h, k; field; split; lra).
  (* the full step stays left of 0 *)
  assert (Hneg : u + h < 0).
  { assert (Hq : (u + h) * f' = 2 * u ^ 3 - m).
    { rewrite Rmult_plus_distr_r, Hhf. unfold f', f, reduced. ring. }
    assert (u ^ 3 < 0).
    { replace (u ^ 3) with (u * u ^ 2) by ring.
      assert (0 < u ^ 2) by (apply sq_pos; lra).
      rewrite <- (Rmult_0_l (u ^ 2)). apply Rmult_lt_compat_r; lra. }
    destruct (Rlt_or_le (u + h) 0) as [|Hn]; auto. exfalso.
    assert (0 <= (u + h) * f') by (apply Rmult_le_pos; lra). lra. }
  assert (Hkh : 0 <= k * h <= h).
  { split; [apply Rmult_le_pos; lra|]. rewrite <- (Rmult_1_l h) at 2. apply Rmult_le_compat_r; lra. }
  split; [lra|].
  set (e := k * h) in *.
  assert (E : reduced (u + e) = f + e * f' + e ^ 2 * (3 * u + e)).
  { unfold reduced, f, f', reduced. ring. }
  rewrite E.
  assert (e * f' <= - f). { rewrite <- Hhf. apply Rmult_le_compat_r; lra. }
  assert (e ^ 2 * (3 * u + e) <= 0).
  { pose proof (pow2_ge_0 e). assert (3 * u + e <= 0) by lra.
    assert (0 <= e ^ 2 * - (3 * u + e)) by (apply Rmult_le_pos; lra). lra. }
  lra.
Qed.

Lemma newton_ok n : forall x0 r, before (s * (x0 - z)) ->
  newton one_plus_eps n a b c d s x0 = Ret r ->
  exists x, r = (x, a * x + b, (a * x + b) * x + c) /\ cubic a b c d x = 0.
Proof.
  induction n as [|n IH]; intros x0 r Hb; cbn [newton]; [discriminate|].
  rewrite eval_val. cbn beta iota zeta.
  pose proof (before_slope _ Hb) as Hsl. rewrite <- slope_reduced in Hsl.
  set (dq := 3 * a * x0 ^ 2 + 2 * b * x0 + c) in *.
  assert (Hdq : dq <> 0). { intros E. rewrite E in Hsl. unfold Rdiv in Hsl. rewrite Rmult_0_l in Hsl. lra. }
  destruct (Reqb_spec dq 0); [contradiction|].
  set (x1 := x0 - cubic a b c d x0 / dq / one_plus_eps).
  assert (E1 : s * (x1 - z) = s * (x0 - z) - reduced (s * (x0 - z)) / (3 * (s * (x0 - z)) ^ 2 + p) / one_plus_eps).
  { rewrite <- slope_reduced. fold dq. unfold x1.
    replace (cubic a b c d x0 / dq) with ((cubic a b c d x0 / a) / (dq / a)) by (field; auto).
    rewrite cubic_reduced.
    replace (s * (x0 - s * reduced (s * (x0 - z)) / (dq / a) / one_plus_eps - z))
      with (s * (x0 - z) - s * s * reduced (s * (x0 - z)) / (dq / a) / one_plus_eps)
      by (field; repeat split; auto; lra).
    rewrite ss. field. repeat split; auto; lra. }
  pose proof (before_step _ Hb) as Hb'. rewrite <- E1 in Hb'.
  destruct (Rltb_spec (s * x0) (s * x1)) as [Hc|Hc].
  - intros E. eapply IH; eauto.
  - intros [= <-]. exists x0. split; auto.
    assert (Hge : 0 <= reduced (s * (x0 - z))).
    { destruct (Rle_or_lt 0 (reduced (s * (x0 - z)))) as [|Hn]; auto. exfalso.
      set (f := reduced (s * (x0 - z))) in *. set (f' := 3 * (s * (x0 - z)) ^ 2 + p) in *.
      assert (0 < f') by (unfold f'; rewrite <- slope_reduced; exact Hsl).
      assert (0 < - f / f' / one_plus_eps).
      { unfold Rdiv. apply Rmult_lt_0_compat; [apply Rmult_lt_0_compat; [lra|]|]; apply Rinv_0_lt_compat; lra. }
      replace (f / f' / one_plus_eps) with (- (- f / f' / one_plus_eps)) in E1 by (field; split; lra). lra. }
    destruct Hb as (_ & Hle).
    assert (E0 : reduced (s * (x0 - z)) = 0) by lra.
    pose proof (cubic_reduced x0) as Ec. rewrite E0, Rmult_0_r in Ec.
    replace (cubic a b c d x0) with (cubic a b c d x0 / a * a) by (field; auto). rewrite Ec. ring.
Qed.
End Newton.

(** constants: lambda^3 >= lambda + 1 *)
Definition good_constants (lambda ope : R) := 0 < lambda /\ lambda + 1 <= lambda ^ 3 /\ 1 <= ope.
Lemma good_double : good_constants lambda_double ope_double.
Proof. unfold good_constants, lambda_double, ope_double. repeat split; lra. Qed.
Lemma good_float : good_constants lambda_float ope_float.
Proof. unfold good_constants, lambda_float, ope_float. repeat split; lra. Qed.

Lemma rmax_l x y : x <= rmax x y /\ y <= rmax x y /\ (rmax x y = x \/ rmax x y = y).
Proof. unfold rmax. destruct (Rltb_spec x y); lra. Qed.

Theorem cubic_deflated lambda ope fuel a b c d r : good_constants lambda ope -> a <> 0 ->
  solveCubic lambda ope fuel a b c d = Ret r -> deflated a b c d r.
Proof.
  intros (Hl0 & Hl3 & Hope) Ha. unfold solveCubic.
  destruct (Reqb_spec a 0); [contradiction|].
  destruct (Reqb_spec d 0) as [->|Hd].
  { intros [= <-]. apply fin_ok. intros t. unfold cubic, quadratic. ring. }
  cbn zeta. rewrite eval_val. cbn beta iota.
  set (z := - (b / a) / 3).
  set (dq := 3 * a * z ^ 2 + 2 * b * z + c). set (q := cubic a b c d z).
  set (s := if Rltb (q / a) 0 then -1 else 1).
  assert (Hs : s = 1 \/ s = -1) by (unfold s; destruct (Rltb (q / a) 0); auto).
  assert (Hm : s * (q / a) = Rabs (q / a)).
  { unfold s. destruct (Rltb_spec (q / a) 0); [rewrite Rabs_left|rewrite Rabs_right]; lra. }
  destruct (cbrt_pow (Rabs (q / a)) (Rabs_pos _)) as (Hc0 & Hc3).
  set (cb := cbrt (Rabs (q / a))) in *.
  set (r1 := if Rltb 0 (- dq / a) then lambda * rmax cb (sqrt (- dq / a)) else cb).
  set (p := dq / a). assert (Hp : - dq / a = - p) by (unfold p; field; auto).
  assert (Hr1 : 0 <= r1 /\ (r1 = 0 -> q = 0) /\ - r1 ^ 3 - p * r1 + Rabs (q / a) <= 0).
  { unfold r1. rewrite Hp. destruct (Rltb_spec 0 (- p)) as [Hpp|Hpp].
    - destruct (rmax_l cb (sqrt (- p))) as (L1 & L2 & _).
      pose proof (sqrt_lt_R0 _ Hpp) as Hsq. pose proof (sqrt_sqrt (- p) (Rlt_le _ _ Hpp)) as Hss.
      set (w := sqrt (- p)) in *. set (M := rmax cb w) in *.
      assert (HM : 0 < M) by lra.
      assert (HlM : 0 < lambda * M) by (apply Rmult_lt_0_compat; auto).
      split; [lra|split; [lra|]].
      assert (cb ^ 3 <= M ^ 3) by (apply pow_incr; lra).
      assert (w * w <= M * M) by (apply Rmult_le_compat; lra).
      assert (- p * (lambda * M) <= M * M * (lambda * M)) by (apply Rmult_le_compat_r; lra).
      assert (0 < M ^ 3) by (apply pow_lt; auto).
      assert (0 <= (lambda ^ 3 - lambda - 1) * M ^ 3) by (apply Rmult_le_pos; lra).
      replace ((lambda * M) ^ 3) with (lambda ^ 3 * M ^ 3) by ring.
      replace (M * M * (lambda * M)) with (lambda * M ^ 3) in H1 by ring.
      rewrite <- Hc3. lra.
    - split; [lra|split].
      + intros E. rewrite E in Hc3. rewrite pow_ne_zero in Hc3 by lia.
        assert (q / a = 0).
        { destruct (Req_dec (q / a) 0) as [|Hx]; auto. apply Rabs_no_R0 in Hx. lra. }
        replace q with (q / a * a) by (field; auto). rewrite H. ring.
      + rewrite Hc3. assert (0 <= p * cb) by (apply Rmult_le_pos; lra). lra. }
  destruct Hr1 as (Hr0 & Hrz & Hred).
  destruct (Reqb_spec (z - s * r1) z) as [Hz|Hz].
  { assert (r1 = 0) by (destruct Hs as [-> | ->]; lra).
    intros [= <-]. apply fin_ok. intros t. rewrite (horner a b c d z t). fold q. rewrite (Hrz H). ring. }
  assert (Hrpos : 0 < r1).
  { destruct Hr0 as [|<-]; auto. exfalso. apply Hz. ring. }
  destruct (newton ope fuel a b c d s (z - s * r1)) as [nr| | |] eqn:En; cbn [bind]; try discriminate.
  apply newton_ok in En; auto.
  - destruct En as (x & -> & Hx).
    destruct (deflate a c d x (a * x + b) ((a * x + b) * x + c)) as [b1 c2] eqn:Ed.
    intros [= <-]. apply fin_ok. intros t. eapply deflate_exact; eauto.
  - fold z q. rewrite Hm. apply Rabs_pos.
  - fold z. replace (s * (z - s * r1 - z)) with (- (s * s * r1)) by ring.
    assert (S1 : s * s = 1) by (destruct Hs as [E|E]; rewrite E; ring).
    rewrite S1, Rmult_1_l. split; [lra|]. unfold reduced. fold z dq q.
    rewrite Hm. fold p. replace ((- r1) ^ 3 + p * - r1 + Rabs (q / a)) with (- r1 ^ 3 - p * r1 + Rabs (q / a)) by ring.
    exact Hred.
Qed.

(** consequences for the returned triple *)
Theorem solveCubic_roots lambda ope fuel a b c d r0 r1 r2 : good_constants lambda ope -> a <> 0 ->
  solveCubic lambda ope fuel a b c d = Ret (r0, r1, r2) ->
  r0 <= r1 <= r2 /\
  (forall t, cubic a b c d t = 0 -> In t [r0; r1; r2]) /\
  ((forall t, cubic a b c d t = a * (t - r0) * (t - r1) * (t - r2)) \/
   (exists x, cubic a b c d x = 0 /\ (forall t, cubic a b c d t = 0 -> t = x) /\
      Permutation [r0; r1; r2] [no_root; no_root; x])).
Proof.
  intros Hg Ha E. apply cubic_deflated in E; auto.
  destruct E as (Ho & x & b1 & c2 & Hf & Hp). split; auto.
  destruct (Rlt_or_le (b1 ^ 2 - 4 * a * c2) 0) as [Hd|Hd].
  - rewrite quad_complex in Hp by auto. cbn in Hp. rewrite invalid_val in Hp.
    assert (Hu : forall t, cubic a b c d t = 0 -> t = x).
    { intros t Ht. rewrite Hf in Ht. apply Rmult_integral in Ht as [Ht|Ht]; [lra|].
      exfalso. now apply (no_real_root a b1 c2 t). }
    split.
    + intros t Ht. apply Permutation_sym in Hp. eapply Permutation_in; [exact Hp|]. rewrite (Hu t Ht). cbn. auto.
    + right. exists x. split; [rewrite Hf; ring|]. auto.
  - destruct (quad_real a b1 c2 Ha Hd) as (_ & Hq).
    set (q0 := fst (solveQuadratic a b1 c2)) in *. set (q1 := snd (solveQuadratic a b1 c2)) in *.
    assert (Hc : forall t, cubic a b c d t = a * (t - q0) * (t - q1) * (t - x)).
    { intros t. rewrite Hf, Hq. ring. }
    assert (Hall : forall t, a * (t - q0) * (t - q1) * (t - x) = a * (t - r0) * (t - r1) * (t - r2)).
    { intros t.
      assert (HP : forall l l', Permutation l l' ->
        fold_right (fun y acc => (t - y) * acc) 1 l = fold_right (fun y acc => (t - y) * acc) 1 l').
      { induction 1; cbn; try congruence; try lra. }
      specialize (HP _ _ Hp). cbn in HP. rewrite !Rmult_assoc. f_equal.
      rewrite !Rmult_1_r in HP. symmetry. exact HP. }
    split.
    + intros t Ht. rewrite Hc, Hall in Ht. cbn.
      apply Rmult_integral in Ht as [Ht|Ht]; [|right; right; left; lra].
      apply Rmult_integral in Ht as [Ht|Ht]; [|right; left; lra].
      apply Rmult_integral in Ht as [Ht|Ht]; [contradiction|left; lra].
    + left. intros t. rewrite Hc. apply Hall.
Qed.

(** a = 0: the quadratic b x^2 + c x + d, and the marker *)
Theorem solveCubic_quadratic lambda ope fuel b c d :
  exists r0 r1 r2, solveCubic lambda ope fuel 0 b c d = Ret (r0, r1, r2) /\ r0 <= r1 <= r2 /\
    Permutation [r0; r1; r2] [fst (solveQuadratic b c d); snd (solveQuadratic b c d); no_root].
Proof.
  unfold solveCubic. destruct (Reqb_spec 0 0); [|contradiction]. unfold fin.
  destruct (solveQuadratic b c d) as [q0 q1]. destruct (sort3 Rltb (q0, q1, invalid)) as [[r0 r1] r2] eqn:E.
  apply sort3_R in E as (Hp & Ho). exists r0, r1, r2. rewrite <- invalid_val. auto.
Qed.
