(** The step characteristic weights: sign, attenuation, non-singularity; the quadrature table. *)
From Coq Require Import List Arith ZArith Reals Lia Lra Bool.
From Coquelicot Require Import Complex.
From Coquelicot Require Hierarchy Derive AutoDerive.
From Verif Require Import Base Loops Arith Matrix_Model Matrix_Spec Cmfd_Model Cmfd_Spec Cmfd_Proofs.
Import ListNotations.
Open Scope R_scope.

Lemma sinh_pos x : 0 < x -> 0 < sinh x.
Proof. intros H. unfold sinh. assert (exp (- x) < exp x) by (apply exp_increasing; lra). lra. Qed.
Lemma sinh_opp x : sinh (- x) = - sinh x.
Proof. unfold sinh. rewrite Ropp_involutive. lra. Qed.
Lemma cosh_opp x : cosh (- x) = cosh x.
Proof. unfold cosh. rewrite Ropp_involutive. lra. Qed.
Lemma cosh_pos x : 0 < cosh x.
Proof. unfold cosh. pose proof (exp_pos x). pose proof (exp_pos (- x)). lra. Qed.
Lemma sinh_nz x : x <> 0 -> sinh x <> 0.
Proof.
  intros H. destruct (Rlt_le_dec 0 x) as [Hx|Hx]; [pose proof (sinh_pos x Hx); lra|].
  assert (0 < sinh (- x)) by (apply sinh_pos; lra). rewrite sinh_opp in H0. lra.
Qed.

Lemma sinh_lt_xcosh x : 0 < x -> sinh x < x * cosh x.
Proof.
  intros H. set (f := fun t => t * cosh t - sinh t).
  destruct (MVT_cor2 f (fun t => t * sinh t) 0 x H) as (c & E & Hc).
  - intros c Hc. unfold f.
    replace (c * sinh c) with ((1 * cosh c + c * sinh c) - cosh c) by lra.
    apply derivable_pt_lim_minus; [|apply derivable_pt_lim_sinh].
    apply derivable_pt_lim_mult; [apply derivable_pt_lim_id|apply derivable_pt_lim_cosh].
  - unfold f in E. rewrite sinh_0 in E. rewrite Rmult_0_l, Rminus_0_r, Rminus_0_r in E.
    assert (0 < c * sinh c * x).
    { apply Rmult_lt_0_compat; [apply Rmult_lt_0_compat; [lra|apply sinh_pos; lra]|lra]. }
    lra.
Qed.
Lemma coth_weight_pos z : 0 < z -> 0 < coth_weight z.
Proof.
  intros H. unfold coth_weight. pose proof (sinh_pos z H). pose proof (sinh_lt_xcosh z H).
  replace (cosh z / sinh z - / z) with ((z * cosh z - sinh z) / (z * sinh z)) by (field; lra).
  apply Rdiv_lt_0_compat; [lra|]. apply Rmult_lt_0_compat; lra.
Qed.
Lemma coth_weight_opp z : z <> 0 -> coth_weight (- z) = - coth_weight z.
Proof.
  intros H. unfold coth_weight. rewrite sinh_opp, cosh_opp. pose proof (sinh_nz z H). field. split; auto.
Qed.
Lemma beta_weight h mu : h <> 0 -> mu <> 0 -> beta_n h mu = coth_weight (h / (2 * mu)).
Proof.
  intros Hh Hm. unfold beta_n, coth_weight, tanh.
  assert (Hz : h / (2 * mu) <> 0).
  { unfold Rdiv. apply Rmult_integral_contrapositive_currified; auto. apply Rinv_neq_0_compat. lra. }
  set (z := h / (2 * mu)) in *. pose proof (sinh_nz z Hz). pose proof (cosh_pos z). field. repeat split; auto; lra.
Qed.

(** the weights differ: their difference has the sign of mu *)
Lemma weight_gap h s mu : 0 < h -> 0 < s -> mu <> 0 ->
  coth_weight (h / (2 * mu)) + 2 * (mu / (s * h)) <> 0.
Proof.
  intros Hh Hs Hm.
  assert (P : forall m, 0 < m -> 0 < coth_weight (h / (2 * m)) + 2 * (m / (s * h))).
  { intros m H. assert (0 < coth_weight (h / (2 * m))) by (apply coth_weight_pos; apply Rdiv_lt_0_compat; lra).
    assert (0 < m / (s * h)) by (apply Rdiv_lt_0_compat; [auto|apply Rmult_lt_0_compat; auto]). lra. }
  destruct (Rlt_le_dec 0 mu) as [H|H]; [specialize (P mu H); lra|].
  specialize (P (- mu) ltac:(lra)).
  replace (h / (2 * - mu)) with (- (h / (2 * mu))) in P by (field; lra).
  rewrite coth_weight_opp in P.
  2:{ unfold Rdiv. apply Rmult_integral_contrapositive_currified; [lra|]. apply Rinv_neq_0_compat. lra. }
  replace (- mu / (s * h)) with (- (mu / (s * h))) in P by (field; split; lra). lra.
Qed.

Lemma Cmod_phase q alpha : Cmod (phase q alpha) = 1.
Proof.
  unfold Cmod, phase. cbn [fst snd]. rewrite <- sqrt_1. f_equal.
  pose proof (sin2_cos2 (alpha * delta q)) as H. unfold Rsqr in H. cbn [pow]. lra.
Qed.

Lemma pow_abs_neq a b n : (1 <= n)%nat -> 0 <= a -> 0 <= b -> a <> b -> a ^ n <> b ^ n.
Proof.
  intros Hn Ha Hb Hne.
  assert (L : forall x y, 0 <= x -> x < y -> x ^ n < y ^ n).
  { intros x y Hx Hxy. destruct n as [|n]; [lia|]. clear Hn. induction n as [|n IH]; cbn; [lra|].
    cbn in IH. apply Rmult_le_0_lt_compat; auto. apply Rmult_le_pos; auto. now apply pow_le. }
  destruct (Rtotal_order a b) as [H|[H|H]]; [pose proof (L a b Ha H); lra|contradiction|pose proof (L b a Hb H); lra].
Qed.

Lemma det_nz p d u q alpha : (1 <= p)%nat -> d + u = 1 -> d <> u ->
  det p (RtoC d) (RtoC u) (phase q alpha) <> RtoC 0.
Proof.
  intros Hp Hs Hne E. unfold det in E.
  assert (E2 : cpow (RtoC d) p = Cmult (phase q alpha) (cpow (Copp (RtoC u)) p)).
  { transitivity (Cplus (Cminus (cpow (RtoC d) p) (Cmult (phase q alpha) (cpow (Copp (RtoC u)) p))) (Cmult (phase q alpha) (cpow (Copp (RtoC u)) p))); [ring|].
    rewrite E. ring. }
  apply (f_equal Cmod) in E2. rewrite Cmod_mult, Cmod_phase, Rmult_1_l, !Cmod_cpow, Cmod_opp, !Cmod_R in E2.
  revert E2. apply pow_abs_neq; auto; try apply Rabs_pos.
  unfold Rabs. destruct (Rcase_abs d), (Rcase_abs u); lra.
Qed.

Lemma average_entry q mu alpha i j : average_matrix q mu alpha i j =
  cyclic (pp q) (RtoC ((1 - coth_weight (ph q / (2 * mu))) / 2)) (RtoC ((1 + coth_weight (ph q / (2 * mu))) / 2)) (phase q alpha) i j.
Proof. reflexivity. Qed.

Lemma balance_det q mu alpha : cell_ok q -> mu <> 0 ->
  det (pp q) (RtoC ((1 - coth_weight (ph q / (2 * mu))) / 2 - mu / (Sigma_t q * ph q)))
             (RtoC ((1 + coth_weight (ph q / (2 * mu))) / 2 + mu / (Sigma_t q * ph q))) (phase q alpha) <> RtoC 0.
Proof.
  intros (Hp & _ & Hs & Hh) Hm. apply det_nz; [lia|lra|].
  pose proof (weight_gap (ph q) (Sigma_t q) mu Hh Hs Hm). lra.
Qed.
Lemma balance_inverse q mu alpha : cell_ok q -> mu <> 0 -> exists x, right_inverse (pp q) (balance_matrix q mu alpha) x.
Proof.
  intros Hq Hm. eexists. apply cinv_ok; [destruct Hq; lia|]. now apply balance_det.
Qed.

(** the code's corner factor *)
Lemma corner_phase alpha q :
  Cexp (Cmult (Cmult ((0, 1) : C) (RtoC alpha)) (RtoC (delta q))) = phase q alpha.
Proof.
  unfold Cexp, phase, Cmult, RtoC. cbn [fst snd].
  replace (_ * delta q - _ * 0) with 0 by ring. rewrite exp_0, !Rmult_1_l.
  f_equal; f_equal; ring.
Qed.

(** the quadrature *)
Lemma mus_nz n : (n < 32)%nat -> nth n mus 0 <> 0.
Proof. intros H. do 32 (destruct n as [|n]; [cbn; lra|]). lia. Qed.
Definition wsum : R := fold_right Rplus 0 ws.
Lemma wsum_near : - / 10 ^ 15 < wsum - 2 < / 10 ^ 15.
Proof. unfold wsum, ws. cbn [fold_right]. lra. Qed.
Lemma mus_odd n : (n < 32)%nat -> nth (31 - n) mus 0 = - nth n mus 0.
Proof. intros H. do 32 (destruct n as [|n]; [cbn; lra|]). lia. Qed.
Lemma ws_even n : (n < 32)%nat -> nth (31 - n) ws 0 = nth n ws 0.
Proof. intros H. do 32 (destruct n as [|n]; [cbn; lra|]). lia. Qed.
Lemma ws_pos n : (n < 32)%nat -> 0 < nth n ws 0.
Proof. intros H. do 32 (destruct n as [|n]; [cbn; lra|]). lia. Qed.
Lemma mus_in n : (n < 32)%nat -> -1 < nth n mus 0 < 1.
Proof. intros H. do 32 (destruct n as [|n]; [cbn; lra|]). lia. Qed.

(** attenuation: without a source the flux falls by exp (- 2 z) over a fine cell *)
Lemma attenuation z : z <> 0 ->
  ((1 - coth_weight z) / 2 - / (2 * z)) + ((1 + coth_weight z) / 2 + / (2 * z)) * exp (- (2 * z)) = 0.
Proof.
  intros H. unfold coth_weight. pose proof (sinh_nz z H) as Hs.
  replace ((1 - (cosh z / sinh z - / z)) / 2 - / (2 * z)) with ((sinh z - cosh z) / (2 * sinh z)) by (field; auto).
  replace ((1 + (cosh z / sinh z - / z)) / 2 + / (2 * z)) with ((sinh z + cosh z) / (2 * sinh z)) by (field; auto).
  replace (sinh z - cosh z) with (- exp (- z)) by (unfold sinh, cosh; lra).
  replace (sinh z + cosh z) with (exp z) by (unfold sinh, cosh; lra).
  replace (- (2 * z)) with (- z + - z) by lra. rewrite exp_plus.
  assert (E : exp z * exp (- z) = 1) by (rewrite <- exp_plus, Rplus_opp_r; apply exp_0).
  transitivity ((- exp (- z) + (exp z * exp (- z)) * exp (- z)) / (2 * sinh z)); [field; auto|]. rewrite E. field. auto.
Qed.
