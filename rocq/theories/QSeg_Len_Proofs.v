From Coq Require Import List Arith ZArith Reals Lia Lra Bool Psatz Permutation.
From Coquelicot Require Import Coquelicot.
From Verif Require Import Base Loops Arith XReal Vec_Model Box_Model Box_Proofs Seg_Model Seg_Spec Seg_Proofs
  Poly_Model Poly_Spec Poly_Proofs Roots_Model Roots_Spec Roots_Proofs QSeg_Model QSeg_Spec QSeg_Proofs.
Import ListNotations.
Local Open Scope R_scope.
Ltac eqR := match goal with |- ?x = ?y => change (@eq R x y) end.

(** * the integral of the square root of a quadratic polynomial without real roots *)
Section Integral.
Variables a b c : R.
Hypothesis (Ha : 0 < a) (Hd : b * b - 4 * a * c < 0).
Let P x := a * x * x + b * x + c.
Lemma P_pos x : 0 < P x.
Proof.
  assert (4 * a * P x = (2 * a * x + b) * (2 * a * x + b) - (b * b - 4 * a * c)) by (unfold P; ring).
  pose proof (Seg_Proofs.sq_pos (2 * a * x + b)). assert (0 < 4 * a * P x) by lra.
  apply Rmult_lt_reg_l with (4 * a); lra.
Qed.
Lemma arg_pos x : 0 < b + 2 * a * x + 2 * sqrt a * sqrt (P x).
Proof.
  pose proof (P_pos x). pose proof (sqrt_lt_R0 a Ha). pose proof (sqrt_lt_R0 _ H).
  assert (S : (2 * sqrt a * sqrt (P x)) * (2 * sqrt a * sqrt (P x)) = 4 * a * P x).
  { transitivity (4 * (sqrt a * sqrt a) * (sqrt (P x) * sqrt (P x))); [ring|]. rewrite !sqrt_sqrt by lra. reflexivity. }
  assert (4 * a * P x = (2 * a * x + b) * (2 * a * x + b) - (b * b - 4 * a * c)) by (unfold P; ring).
  set (u := 2 * sqrt a * sqrt (P x)) in *. assert (0 < u) by (unfold u; apply Rmult_lt_0_compat; [lra|lra]).
  set (w := 2 * a * x + b) in *. replace (b + 2 * a * x + u) with (u + w) by (unfold w; ring).
  destruct (Rlt_or_le 0 (u + w)); auto. exfalso. assert (u * u <= w * w); [|lra].
  assert (0 <= (- w - u) * (- w + u)) by (apply Rmult_le_pos; lra). lra.
Qed.
Definition F x := (b + 2 * a * x) * sqrt (P x) / (4 * a) -
  (b * b - 4 * a * c) * ln (b + 2 * a * x + 2 * sqrt a * sqrt (P x)) / (8 * a * sqrt a).
Lemma F_derive x : is_derive F x (sqrt (P x)).
Proof.
  pose proof (P_pos x) as H. pose proof (arg_pos x) as H0. pose proof (sqrt_lt_R0 a Ha) as H1. pose proof (sqrt_lt_R0 _ H) as H2.
  unfold F, P. auto_derive.
  - fold (P x). replace (a * x * x + b * x + c) with (P x) by reflexivity. repeat split; auto.
  - replace (a * x * x + b * x + c) with (P x) by reflexivity.
    assert (S : sqrt (P x) * sqrt (P x) = P x) by (apply sqrt_sqrt; lra).
    assert (S' : sqrt a * sqrt a = a) by (apply sqrt_sqrt; lra).
    set (s := sqrt (P x)) in *. set (q := sqrt a) in *. clearbody q.
    assert (PX : P x = a * x * x + b * x + c) by reflexivity.
    set (w := b + 2 * a * x + 2 * q * s) in *.
    assert (W : 2 * a + q * (b + 2 * a * x) / s = q * w / s).
    { unfold w. replace (2 * a) with (2 * (q * q)) at 1 by (rewrite S'; auto). field. lra. }
    transitivity ((4 * a * (s * s) + (b + 2 * a * x) * (b + 2 * a * x)) / (8 * a * s) - (b * b - 4 * a * c) * ((q * w / s) / w) / (8 * a * q)).
    { rewrite <- W. field. repeat split; lra. }
    transitivity ((4 * a * (s * s) + (b + 2 * a * x) * (b + 2 * a * x) - (b * b - 4 * a * c)) / (8 * a * s)); [field; repeat split; lra|].
    replace ((b + 2 * a * x) * (b + 2 * a * x) - (b * b - 4 * a * c)) with (4 * a * P x) by (rewrite PX; ring).
    replace (4 * a * (s * s) + (b + 2 * a * x) * (b + 2 * a * x) - (b * b - 4 * a * c)) with (4 * a * (s * s) + 4 * a * P x) by (rewrite PX; ring).
    rewrite <- S. field. lra.
Qed.
Lemma int_sqrt : is_RInt (fun x => sqrt (P x)) 0 1 (F 1 - F 0).
Proof.
  apply (is_RInt_derive F).
  - intros x _. apply F_derive.
  - intros x _. apply continuous_comp; [|apply continuous_sqrt].
    unfold P. apply (ex_derive_continuous (fun x : R => a * x * x + b * x + c)). auto_derive. auto.
Qed.
End Integral.

Lemma disc_R a b c : discriminant RA a b c = b * b - 4 * a * c.
Proof. unfold discriminant, o4, o2. cbn. ring. Qed.
Lemma curve_speed v0 v1 v2 B A t : pqs_poly RA v0 v1 v2 = (v0, B, A) ->
  Derive (fun s => fst (curve2 v0 v1 v2 s)) t ^ 2 + Derive (fun s => snd (curve2 v0 v1 v2 s)) t ^ 2 =
  4 * psq RA A * t * t + 4 * pdot RA A B * t + psq RA B.
Proof.
  intros E. destruct (pqs_poly_at v0 v1 v2) as (B' & A' & EP & _ & EB & EA). rewrite E in EP. injection EP as <- <-.
  rewrite curve_Derive_x, curve_Derive_y, EB, EA. unfold psq, pdot. cbn. ring.
Qed.
Lemma length_ok eps2 v0 v1 v2 : orient v0 v1 v2 <> 0 -> isStraight RA eps2 v0 v1 v2 = false ->
  arclength (curve2 v0 v1 v2) (qs_length RA ln eps2 v0 v1 v2).
Proof.
  intros Ho NS. unfold arclength, qs_length. rewrite NS.
  destruct (pqs_poly_at v0 v1 v2) as (B & A & EP & EQ & EB & EA). rewrite EP.
  assert (X : fst A * snd B - snd A * fst B = 4 * orient v0 v1 v2) by (rewrite EA, EB; unfold orient; cbn [fst snd]; ring).
  assert (Lag : psq RA A * psq RA B - pdot RA A B * pdot RA A B = (fst A * snd B - snd A * fst B) * (fst A * snd B - snd A * fst B)).
  { unfold psq, pdot. cbn. ring. }
  assert (XP : 0 < (fst A * snd B - snd A * fst B) * (fst A * snd B - snd A * fst B)).
  { apply Rlt_0_sqr. rewrite X. lra. }
  assert (PA : 0 < psq RA A).
  { assert (0 <= psq RA A). { unfold psq, pdot. cbn. pose proof (Seg_Proofs.sq_pos (fst A)). pose proof (Seg_Proofs.sq_pos (snd A)). lra. }
    destruct (Req_dec (psq RA A) 0) as [Z|Z]; [|lra]. rewrite Z in Lag. pose proof (Seg_Proofs.sq_pos (pdot RA A B)). lra. }
  set (a := 4 * psq RA A). set (b := 4 * pdot RA A B). set (c := psq RA B).
  assert (Ha : 0 < a) by (unfold a; lra). assert (Hd : b * b - 4 * a * c < 0).
  { replace (b * b - 4 * a * c) with (- 16 * (psq RA A * psq RA B - pdot RA A B * pdot RA A B)) by (unfold a, b, c; ring). lra. }
  eapply is_RInt_ext; [intros t _; rewrite (curve_speed v0 v1 v2 B A t EP); reflexivity|].
  fold a b c. evar_last; [apply (int_sqrt a b c Ha Hd)|].
  unfold F.
  assert (E4 : o4 RA = 4) by (unfold o4, o2; cbn; lra). assert (E8 : o8 RA = 8) by (unfold o8, o4, o2; cbn; lra).
  assert (E2 : o2 RA = 2) by (unfold o2; cbn; lra). rewrite E4, E8, E2. cbn [Rarith omul oadd osub odiv osqrt]. fold a b c.
  rewrite disc_R.
  replace (a * 1 * 1 + b * 1 + c) with (a + b + c) by ring. replace (a * 0 * 0 + b * 0 + c) with c by ring.
  pose proof (arg_pos a b c Ha Hd 0) as G0. pose proof (arg_pos a b c Ha Hd 1) as G1. cbv beta in G0, G1.
  replace (a * 1 * 1 + b * 1 + c) with (a + b + c) in G1 by ring. replace (a * 0 * 0 + b * 0 + c) with c in G0 by ring.
  replace (2 * sqrt a * sqrt c + b) with (b + 2 * a * 0 + 2 * sqrt a * sqrt c) by ring.
  replace (2 * sqrt a * sqrt (a + b + c) + (2 * a + b)) with (b + 2 * a * 1 + 2 * sqrt a * sqrt (a + b + c)) by ring.
  rewrite ln_div; [|exact G0|exact G1].
  pose proof (sqrt_lt_R0 a Ha) as SA. assert (S : sqrt a * sqrt a = a) by (apply sqrt_sqrt; lra).
  set (l0 := ln (b + 2 * a * 0 + 2 * sqrt a * sqrt c)). set (l1 := ln (b + 2 * a * 1 + 2 * sqrt a * sqrt (a + b + c))).
  set (q := sqrt a) in *. clearbody q l0 l1.
  replace (8 * q * q * q) with (8 * (q * q) * q) by ring. rewrite S. field. lra.
Qed.
(** points on the chord, away from its ends *)
Lemma straight_length_ok eps2 v0 v1 v2 k : 0 < eps2 -> v0 <> v1 -> 1/4 <= k <= 3/4 -> v2 = along2 v0 v1 k ->
  isStraight RA eps2 v0 v1 v2 = true /\ qs_length RA ln eps2 v0 v1 v2 = dist2 v0 v1 /\
  arclength (curve2 v0 v1 v2) (dist2 v0 v1).
Proof.
  intros He Hn Hk E. assert (D : 0 < dist2 v0 v1).
  { unfold dist2. apply sqrt_lt_R0. destruct v0 as [x0 y0], v1 as [x1 y1]. cbn [fst snd].
    destruct (Req_dec (x0 - x1) 0) as [Eu|Eu]; [destruct (Req_dec (y0 - y1) 0) as [Ew|Ew]|].
    - exfalso. apply Hn. f_equal; lra.
    - apply Rplus_le_lt_0_compat; [apply Rle_0_sqr|apply Rlt_0_sqr; auto].
    - apply Rplus_lt_le_0_compat; [apply Rlt_0_sqr; auto|apply Rle_0_sqr]. }
  assert (D2 : dist2 v0 v1 * dist2 v0 v1 = (fst v0 - fst v1) * (fst v0 - fst v1) + (snd v0 - snd v1) * (snd v0 - snd v1)).
  { apply sqrt_sqrt. pose proof (Seg_Proofs.sq_pos (fst v0 - fst v1)). pose proof (Seg_Proofs.sq_pos (snd v0 - snd v1)). lra. }
  assert (S : isStraight RA eps2 v0 v1 v2 = true).
  { unfold isStraight. rewrite cross2_R, E. unfold psq, pdot, psub, along2. cbn.
    match goal with |- (if oleb RA ?x ?y then _ else _) = _ => destruct (oleb RA x y) eqn:L; [exfalso; apply oleb_R in L|] end.
    - assert (X : 0 < (fst v1 - fst v0) * (fst v1 - fst v0) + (snd v1 - snd v0) * (snd v1 - snd v0)) by (replace ((fst v1 - fst v0) * (fst v1 - fst v0) + (snd v1 - snd v0) * (snd v1 - snd v0)) with (dist2 v0 v1 * dist2 v0 v1) by (rewrite D2; ring); apply Rmult_lt_0_compat; auto).
      set (N := (fst v1 - fst v0) * (fst v1 - fst v0) + (snd v1 - snd v0) * (snd v1 - snd v0)) in *.
      assert (L' : N <= k * k * N) by (unfold N at 2; lra). assert (k * k < 1) by nra. nra.
    - apply Rltb_true. match goal with |- ?x * ?y / ?z < _ => replace x with 0 by ring end. unfold Rdiv. rewrite !Rmult_0_l. auto. }
  split; [auto|]. split; [unfold qs_length; rewrite S; reflexivity|].
  unfold arclength. apply is_RInt_ext with (fun t => dist2 v0 v1 * (4 * k - 1) + dist2 v0 v1 * (4 * (1 - 2 * k)) * t + 0 * t ^ 2 + 0 * t ^ 3 + 0 * t ^ 4 + 0 * t ^ 5).
  - intros t Ht. rewrite Rmin_left, Rmax_right in Ht by lra. rewrite curve_Derive_x, curve_Derive_y, E. unfold along2. cbn [fst snd].
    set (g := 4 * t * (1 - 2 * k) + 4 * k - 1).
    assert (G : 0 <= g). { unfold g. assert (0 <= (1 - t) * (4 * k - 1)) by (apply Rmult_le_pos; lra). assert (0 <= t * (3 - 4 * k)) by (apply Rmult_le_pos; lra). lra. }
    transitivity (sqrt ((dist2 v0 v1 * g) * (dist2 v0 v1 * g))).
    + rewrite sqrt_square by (apply Rmult_le_pos; lra). unfold g. eqR. ring.
    + eqR. f_equal. transitivity (dist2 v0 v1 * dist2 v0 v1 * (g * g)); [ring|]. rewrite D2. unfold g. ring.
  - evar_last; [apply is_RInt_poly|]. field.
Qed.
(** a mid node outside the middle half makes the curve overshoot *)
Lemma straight_length_refuted eps2 : 0 < eps2 -> exists v0 v1 v2 L, isStraight RA eps2 v0 v1 v2 = true /\
  arclength (curve2 v0 v1 v2) L /\ qs_length RA ln eps2 v0 v1 v2 < L.
Proof.
  intros He. exists (0, 0), (8, 0), (7, 0), (26 / 3).
  assert (S : isStraight RA eps2 (0, 0) (8, 0) (7, 0) = true).
  { unfold isStraight. rewrite cross2_R. unfold psq, pdot, psub. cbn.
    match goal with |- (if oleb RA ?x ?y then _ else _) = _ => destruct (oleb RA x y) eqn:L; [exfalso; apply oleb_R in L; lra|] end.
    apply Rltb_true. match goal with |- ?x * ?y / ?z < _ => replace x with 0 by ring end. unfold Rdiv. rewrite !Rmult_0_l. auto. }
  split; [auto|]. split.
  - unfold arclength. evar_last; [apply is_RInt_Chasles with (5 / 6)|].
    + apply is_RInt_ext with (fun t => 20 + (- 24) * t + 0 * t ^ 2 + 0 * t ^ 3 + 0 * t ^ 4 + 0 * t ^ 5).
      * intros t Ht. rewrite Rmin_left, Rmax_right in Ht by lra. rewrite curve_Derive_x, curve_Derive_y. cbn [fst snd].
        transitivity (sqrt ((20 - 24 * t) * (20 - 24 * t))); [rewrite sqrt_square by lra; eqR; ring|eqR; f_equal; ring].
      * apply (is_RInt_derive (fun t => 20 * t - 12 * t * t)).
        -- intros x _. auto_derive; auto. ring.
        -- intros x _. apply (ex_derive_continuous (fun t : R => 20 + (- 24) * t + 0 * t ^ 2 + 0 * t ^ 3 + 0 * t ^ 4 + 0 * t ^ 5)). auto_derive. auto.
    + apply is_RInt_ext with (fun t => - 20 + 24 * t + 0 * t ^ 2 + 0 * t ^ 3 + 0 * t ^ 4 + 0 * t ^ 5).
      * intros t Ht. rewrite Rmin_left, Rmax_right in Ht by lra. rewrite curve_Derive_x, curve_Derive_y. cbn [fst snd].
        transitivity (sqrt ((24 * t - 20) * (24 * t - 20))); [rewrite sqrt_square by lra; eqR; ring|eqR; f_equal; ring].
      * apply (is_RInt_derive (fun t => - 20 * t + 12 * t * t)).
        -- intros x _. auto_derive; auto. ring.
        -- intros x _. apply (ex_derive_continuous (fun t : R => - 20 + 24 * t + 0 * t ^ 2 + 0 * t ^ 3 + 0 * t ^ 4 + 0 * t ^ 5)). auto_derive. auto.
    + unfold minus, plus, opp. cbn. field.
  - unfold qs_length. rewrite S. unfold pdist. cbn [psub fst snd osub oadd omul osqrt Rarith].
    replace ((0 - 8) * (0 - 8) + (0 - 0) * (0 - 0)) with (8 * 8) by ring. rewrite sqrt_square by lra. lra.
Qed.
(** the closed form is not a number on a collinear segment whose mid node lies beyond its end *)
Lemma Rsqrt_eq a b : 0 <= b -> a = b * b -> sqrt a = b.
Proof. intros H ->. now apply sqrt_square. Qed.
Lemma xsqrt_fin x r s : xfin x r -> 0 < s -> r = s * s -> xsqrt x = Fin s.
Proof.
  intros [->|(-> & E)] H Er; [|nra]. cbn. destruct (Rltb r 0) eqn:L; [apply Rltb_true in L; nra|].
  f_equal. apply Rsqrt_eq; lra.
Qed.
Ltac xf := repeat first [apply xfin_Fin | apply xfin_add | apply xfin_sub | apply xfin_mul | apply xfin_opp | apply xfin_det].
Lemma length_nan : forall eps2, qs_length Xarith xlog eps2 (Fin 0, Fin 0) (Fin 1, Fin 0) (Fin 2, Fin 0) = NaN.
Proof.
  intros eps2. unfold qs_length.
  assert (S : isStraight Xarith eps2 (Fin 0, Fin 0) (Fin 1, Fin 0) (Fin 2, Fin 0) = false).
  { unfold isStraight. match goal with |- (if oleb Xarith ?x ?y then _ else _) = _ => assert (oleb Xarith x y = true) as -> end; auto.
    unfold psq, pdot, psub. cbn [fst snd osub oadd omul Xarith]. eapply xleb_fin; [xf|xf|]. lra. }
  rewrite S. unfold pqs_poly. cbn zeta beta iota.
  set (x1 := padd Xarith (pscale Xarith (o3 Xarith) _) _). set (x2 := pscale Xarith (oopp Xarith _) _).
  assert (E2 : o2 Xarith = Fin 2) by (unfold o2; cbn; f_equal; lra).
  assert (E3 : o3 Xarith = Fin 3) by (unfold o3; cbn; f_equal; lra).
  assert (E4 : o4 Xarith = Fin 4) by (unfold o4; rewrite ?E2; cbn; f_equal; lra).
  assert (E8 : o8 Xarith = Fin 8) by (unfold o8; rewrite ?E4; cbn; f_equal; lra).
  assert (X1 : xfin (fst x1) 7 /\ xfin (snd x1) 0).
  { subst x1. rewrite E3. unfold padd, pscale, psub. cbn [fst snd oadd osub omul Xarith]. split.
    - evar_last; [xf|lra].
    - evar_last; [xf|lra]. }
  assert (X2 : xfin (fst x2) (- 6) /\ xfin (snd x2) 0).
  { subst x2. rewrite E2. unfold padd, pscale, psub. cbn [fst snd oadd osub omul oopp Xarith]. split.
    - evar_last; [xf|lra].
    - evar_last; [xf|lra]. }
  destruct X1 as [X1 Y1], X2 as [X2 Y2]. clearbody x1 x2. rewrite E2, E4, E8.
  set (a := omul Xarith (Fin 4) (psq Xarith x2)). set (b := omul Xarith (Fin 4) (pdot Xarith x2 x1)). set (c := psq Xarith x1).
  assert (Ha : xfin a 144). { unfold a, psq, pdot. cbn [oadd omul Xarith]. evar_last; [apply xfin_mul; [xf|apply xfin_add; apply xfin_mul; eauto]|lra]. }
  assert (Hb : xfin b (- 168)). { unfold b, psq, pdot. cbn [oadd omul Xarith]. evar_last; [apply xfin_mul; [xf|apply xfin_add; apply xfin_mul; eauto]|lra]. }
  assert (Hc : xfin c 49). { unfold c, psq, pdot. cbn [oadd omul Xarith]. evar_last; [apply xfin_add; apply xfin_mul; eauto|lra]. }
  clearbody a b c.
  assert (Sa : osqrt Xarith a = Fin 12) by (apply (xsqrt_fin _ _ _ Ha); lra).
  assert (Sc : osqrt Xarith c = Fin 7) by (apply (xsqrt_fin _ _ _ Hc); lra).
  assert (Sabc : osqrt Xarith (oadd Xarith (oadd Xarith a b) c) = Fin 5).
  { cbn [osqrt oadd Xarith]. eapply xsqrt_fin; [apply xfin_add; [apply xfin_add|]; eauto| |]; lra. }
  rewrite Sa, Sc, Sabc.
  assert (Hd : xfin (discriminant Xarith a b c) 0).
  { unfold discriminant. rewrite E4. cbn [omul oadd osub oopp ofma Xarith].
    evar_last; [repeat first [eassumption | apply xfin_add | apply xfin_sub | apply xfin_mul | apply xfin_opp | apply xfin_Fin]|lra]. }
  set (l := xlog _).
  assert (L : l = Inf true).
  { unfold l. cbn [omul oadd osub odiv Xarith].
    match goal with |- xlog ?q = _ => assert (Q : xfin q 0) end.
    { evar_last; [apply xfin_div; [apply xfin_add; [xf|eassumption]|apply xfin_add; [xf|apply xfin_add; [apply xfin_mul; [xf|eassumption]|eassumption]]|lra]|lra]. }
    destruct Q as [->|(-> & _)]; cbn; auto.
    destruct (Rltb 0 0) eqn:L; [apply Rltb_true in L; lra|]. destruct (Reqb 0 0) eqn:M; auto. apply Reqb_false in M. lra. }
  rewrite L. assert (N : omul Xarith (discriminant Xarith a b c) (Inf true) = NaN).
  { destruct Hd as [->|(-> & _)]; cbn; auto. destruct (Reqb 0 0) eqn:M; auto. apply Reqb_false in M. lra. }
  rewrite N. reflexivity.
Qed.
