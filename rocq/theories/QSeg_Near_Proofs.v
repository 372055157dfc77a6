From Coq Require Import List Arith ZArith Reals Lia Lra Bool Psatz Permutation.
From Coquelicot Require Import Coquelicot.
From Verif Require Import Base Loops Arith XReal Vec_Model Box_Model Box_Proofs Seg_Model Seg_Spec Seg_Proofs
  Poly_Model Poly_Spec Poly_Proofs Roots_Model Roots_Spec Roots_Proofs QSeg_Model QSeg_Spec QSeg_Proofs QSeg_Len_Proofs.
Import ListNotations.
Local Open Scope R_scope.

(** * closest point *)
Lemma psq_R p q : psq RA (psub RA p q) = dsq p q.
Proof. reflexivity. Qed.
Lemma psq_zero A : psq RA A = 0 -> A = (0, 0).
Proof.
  unfold psq, pdot. cbn. destruct A as [x y]. cbn [fst snd]. intros H. pose proof (Seg_Proofs.sq_pos x). pose proof (Seg_Proofs.sq_pos y).
  f_equal; apply sq_zero; lra.
Qed.
Definition try_root (v0 v1 v2 p : R * R) (best : R * R) (rr : R) : R * R :=
  if oleb RA 0 rr && oleb RA rr 1 then
    let d := psq RA (psub RA p (pqs_at RA v0 v1 v2 rr)) in
    if Rltb d (snd best) then (rr, d) else best
  else best.
Lemma try_ok v0 v1 v2 p best rr : 0 <= fst best <= 1 -> snd best = dsq p (curve2 v0 v1 v2 (fst best)) ->
  let b := try_root v0 v1 v2 p best rr in
  0 <= fst b <= 1 /\ snd b = dsq p (curve2 v0 v1 v2 (fst b)) /\ snd b <= snd best /\
  (0 <= rr <= 1 -> snd b <= dsq p (curve2 v0 v1 v2 rr)).
Proof.
  intros H1 H2. unfold try_root. rewrite psq_R, pqs_at_ok. destruct (oleb RA 0 rr && oleb RA rr 1) eqn:E.
  - apply andb_true_iff in E. rewrite !oleb_R in E. cbn zeta. destruct (Rltb _ (snd best)) eqn:L; cbn [fst snd].
    + apply Rltb_true in L. repeat split; try lra.
    + apply Rltb_false in L. repeat split; try lra.
  - cbn zeta. split; [auto|]. split; [auto|]. split; [lra|]. intros [G1 G2]. apply oleb_R in G1, G2. rewrite G1, G2 in E. discriminate.
Qed.
Lemma dist_min v0 v1 v2 p : exists m, 0 <= m <= 1 /\ (forall t, 0 <= t <= 1 -> dsq p (curve2 v0 v1 v2 m) <= dsq p (curve2 v0 v1 v2 t)).
Proof.
  destruct (continuity_ab_min (fun t => dsq p (curve2 v0 v1 v2 t)) 0 1) as (m & H & Hm); [lra| |exists m; split; auto].
  intros c _. apply derivable_continuous_pt, ex_derive_Reals_0. unfold dsq, curve2, lag. cbn [fst snd]. auto_derive. auto.
Qed.
Lemma dist_crit v0 v1 v2 p B A m : pqs_poly RA v0 v1 v2 = (v0, B, A) ->
  0 < m < 1 -> (forall t, 0 <= t <= 1 -> dsq p (curve2 v0 v1 v2 m) <= dsq p (curve2 v0 v1 v2 t)) ->
  cubic (2 * psq RA A) (3 * pdot RA A B) (psq RA B + 2 * pdot RA A (psub RA v0 p)) (pdot RA B (psub RA v0 p)) m = 0.
Proof.
  intros EP Hm Hmin. destruct (pqs_poly_at v0 v1 v2) as (B' & A' & EP' & EQ & _). rewrite EP in EP'. injection EP' as <- <-.
  set (f := fun t => dsq p (curve2 v0 v1 v2 t)).
  assert (D : is_derive f m (2 * cubic (2 * psq RA A) (3 * pdot RA A B) (psq RA B + 2 * pdot RA A (psub RA v0 p)) (pdot RA B (psub RA v0 p)) m)).
  { apply (is_derive_ext (fun t => (fst p - (fst v0 + t * fst B + t * t * fst A)) * (fst p - (fst v0 + t * fst B + t * t * fst A)) +
       (snd p - (snd v0 + t * snd B + t * t * snd A)) * (snd p - (snd v0 + t * snd B + t * t * snd A)))).
    - intros t. unfold f, dsq. rewrite EQ. reflexivity.
    - auto_derive; [auto|]. unfold cubic, psq, pdot, psub. cbn. ring. }
  assert (P : derivable_pt f m). { exists (2 * cubic (2 * psq RA A) (3 * pdot RA A B) (psq RA B + 2 * pdot RA A (psub RA v0 p)) (pdot RA B (psub RA v0 p)) m). apply is_derive_Reals. exact D. }
  assert (Z : derive_pt f m P = 0).
  { apply (deriv_minimum f 0 1 m P); [lra|lra|]. intros x X1 X2. apply Hmin. lra. }
  assert (W : derive_pt f m P = 2 * cubic (2 * psq RA A) (3 * pdot RA A B) (psq RA B + 2 * pdot RA A (psub RA v0 p)) (pdot RA B (psub RA v0 p)) m).
  { apply derive_pt_eq_0. apply is_derive_Reals. exact D. }
  lra.
Qed.
Lemma closest_curve_ok eps2 lambda ope fuel v0 v1 v2 p r : good_constants lambda ope ->
  isStraight RA eps2 v0 v1 v2 = false -> qs_pointClosestTo eps2 lambda ope fuel v0 v1 v2 p = Ret r ->
  0 <= r <= 1 /\ (forall t, 0 <= t <= 1 -> dsq p (curve2 v0 v1 v2 r) <= dsq p (curve2 v0 v1 v2 t)).
Proof.
  intros G NS H. unfold qs_pointClosestTo in H. rewrite NS in H.
  destruct (pqs_poly_at v0 v1 v2) as (B & A & EP & EQ & EB & EA). rewrite EP in H.
  set (a := 2 * psq RA A) in *. set (b := 3 * pdot RA A B) in *. set (c := psq RA B + 2 * pdot RA A (psub RA v0 p)) in *.
  set (d := pdot RA B (psub RA v0 p)) in *.
  destruct (solveCubic lambda ope fuel a b c d) as [[[r0 r1] r2]| | |] eqn:SC; cbn [bind] in H; try discriminate.
  rewrite !psq_R in H.
  set (best := if Rltb (dsq p v1) (dsq p v0) then (1, dsq p v1) else (0, dsq p v0)) in *.
  change (Ret (fst (try_root v0 v1 v2 p (try_root v0 v1 v2 p (try_root v0 v1 v2 p best r0) r1) r2)) = Ret r) in H.
  assert (C0 : curve2 v0 v1 v2 0 = v0) by (rewrite EQ; destruct v0; cbn [fst snd]; f_equal; ring).
  assert (C1 : curve2 v0 v1 v2 1 = v1). { rewrite EQ, EA, EB. destruct v1; cbn [fst snd]; f_equal; ring. }
  assert (I : 0 <= fst best <= 1 /\ snd best = dsq p (curve2 v0 v1 v2 (fst best)) /\ snd best <= dsq p v0 /\ snd best <= dsq p v1).
  { unfold best. destruct (Rltb (dsq p v1) (dsq p v0)) eqn:L; cbn [fst snd].
    - apply Rltb_true in L. rewrite C1. repeat split; lra.
    - apply Rltb_false in L. rewrite C0. repeat split; lra. }
  destruct I as (I1 & I2 & I3 & I4). clearbody best.
  destruct (try_ok v0 v1 v2 p best r0 I1 I2) as (J1 & J2 & J3 & J4). set (b1 := try_root v0 v1 v2 p best r0) in *. clearbody b1.
  destruct (try_ok v0 v1 v2 p b1 r1 J1 J2) as (K1 & K2 & K3 & K4). set (b2 := try_root v0 v1 v2 p b1 r1) in *. clearbody b2.
  destruct (try_ok v0 v1 v2 p b2 r2 K1 K2) as (M1 & M2 & M3 & M4). set (b3 := try_root v0 v1 v2 p b2 r2) in *. clearbody b3.
  injection H as <-. split; [auto|]. rewrite <- M2.
  assert (CAND : forall m, 0 <= m <= 1 -> In m [r0; r1; r2] -> snd b3 <= dsq p (curve2 v0 v1 v2 m)).
  { intros m Hm [<-|[<-|[<-|[]]]]; [specialize (J4 Hm)|specialize (K4 Hm)|specialize (M4 Hm)]; lra. }
  assert (RT : (forall m, cubic a b c d m = 0 -> In m [r0; r1; r2]) \/ (forall t, dsq p (curve2 v0 v1 v2 t) = dsq p v0)).
  { destruct (Req_dec a 0) as [Za|Za].
    - assert (HA : A = (0, 0)).
      { apply psq_zero. unfold a in Za. lra. }
      assert (Zb : b = 0) by (unfold b, pdot; rewrite HA; cbn; ring).
      destruct (Req_dec c 0) as [Zc|Zc].
      + right. assert (HB : B = (0, 0)).
        { apply psq_zero. unfold c in Zc. rewrite HA in Zc.
          assert (X : forall w, pdot RA (0, 0) w = 0) by (intros; unfold pdot; cbn; ring). rewrite X in Zc. lra. }
        intros t. unfold dsq. rewrite EQ, HA, HB. cbn [fst snd]. ring.
      + left. intros m Hm. rewrite Za, Zb in *.
        destruct (solveCubic_quadratic lambda ope fuel 0 c d) as (s0 & s1 & s2 & E & _ & P). rewrite SC in E. injection E as <- <- <-.
        eapply Permutation_in; [apply Permutation_sym, P|]. left. symmetry.
        destruct (solveQuadratic_roots 0 c d) as (_ & _ & Q & _). destruct (Q eq_refl Zc) as [_ Q']. apply Q'.
        unfold cubic in Hm. unfold quadratic. lra.
    - left. exact (proj1 (proj2 (solveCubic_roots lambda ope fuel a b c d r0 r1 r2 G Za SC))). }
  intros t Ht. destruct RT as [RT|RT]; [|rewrite RT; lra].
  destruct (dist_min v0 v1 v2 p) as (m & Hm & Hmin).
  apply Rle_trans with (dsq p (curve2 v0 v1 v2 m)); [|auto].
  destruct (Req_dec m 0) as [->|N0]; [rewrite C0; lra|]. destruct (Req_dec m 1) as [->|N1]; [rewrite C1; lra|].
  apply CAND; auto. apply RT. apply (dist_crit v0 v1 v2 p B A m EP); [lra|auto].
Qed.
Lemma closest_straight_refuted : forall eps2, 0 < eps2 -> forall lambda ope fuel, exists v0 v1 v2 p r,
  isStraight RA eps2 v0 v1 v2 = true /\ qs_pointClosestTo eps2 lambda ope fuel v0 v1 v2 p = Ret r /\
  0 < dsq p (curve2 v0 v1 v2 r) /\ exists t, 0 <= t <= 1 /\ curve2 v0 v1 v2 t = p.
Proof.
  intros eps2 He lambda ope fuel. exists (0, 0), (10, 0), (4, 0), (7/4, 0), (7/40).
  assert (S : isStraight RA eps2 (0, 0) (10, 0) (4, 0) = true).
  { unfold isStraight. rewrite cross2_R. unfold psq, pdot, psub. cbn.
    destruct (oleb RA ((10 - 0) * (10 - 0) + (0 - 0) * (0 - 0)) ((4 - 0) * (4 - 0) + (0 - 0) * (0 - 0))) eqn:E; [apply oleb_R in E; lra|].
    apply Rltb_true. replace (((10 - 0) * (0 - 0) - (0 - 0) * (4 - 0)) * ((10 - 0) * (0 - 0) - (0 - 0) * (4 - 0))) with 0 by ring. unfold Rdiv. rewrite Rmult_0_l. auto. }
  split; [auto|]. unfold qs_pointClosestTo. rewrite S. cbn [fst snd]. split.
  - destruct (closest_ok [0; 0] [10; 0] [7/4; 0]) as (r & d2 & d & E & Hr & U & _); [intros E; injection E; lra|reflexivity|reflexivity|].
    rewrite E. f_equal. destruct (Req_dec (7/40) r) as [->|N]; [auto|]. specialize (U (7/40) ltac:(lra) N). cbn in U.
    pose proof (Seg_Proofs.sq_pos (0 + r * (10 - 0) - 7/4)). lra.
  - split; [unfold dsq, curve2, lag; cbn [fst snd]; lra|]. exists (/4). split; [lra|]. unfold curve2. rewrite !lag_poly. cbn [fst snd]. f_equal; lra.
Qed.
Lemma dsq_sym p q : dsq p q = dsq q p. Proof. unfold dsq. ring. Qed.
Lemma closest_centred_ok eps2 lambda ope fuel v0 v1 p : 0 < eps2 -> v0 <> v1 ->
  let v2 := along2 v0 v1 (/2) in
  exists r, qs_pointClosestTo eps2 lambda ope fuel v0 v1 v2 p = Ret r /\ 0 <= r <= 1 /\
    forall t, 0 <= t <= 1 -> dsq p (curve2 v0 v1 v2 r) <= dsq p (curve2 v0 v1 v2 t).
Proof.
  intros He Hn v2. destruct (straight_length_ok eps2 v0 v1 v2 (/2) He Hn ltac:(lra) eq_refl) as (S & _ & _).
  unfold qs_pointClosestTo. rewrite S. destruct v0 as [x0 y0], v1 as [x1 y1], p as [px py]. cbn [fst snd].
  destruct (closest_ok [x0; y0] [x1; y1] [px; py]) as (r & d2 & d & E & Hr & U & _); [intros E; apply Hn; injection E as -> ->; auto|reflexivity|reflexivity|].
  exists r. split; [exact E|]. split; [exact Hr|]. intros t Ht. destruct (Req_dec t r) as [->|N]; [lra|].
  specialize (U t Ht N). cbn in U. unfold dsq, curve2, v2, along2. rewrite !lag_poly. cbn [fst snd]. left.
  match goal with |- ?a < ?b => match type of U with ?x < ?y => replace a with x by field; replace b with y by field end end. exact U.
Qed.
Lemma distance_ok eps2 lambda ope fuel v0 v1 v2 p r : qs_pointClosestTo eps2 lambda ope fuel v0 v1 v2 p = Ret r ->
  qs_squaredDistanceTo eps2 lambda ope fuel v0 v1 v2 p = Ret (dsq p (curve2 v0 v1 v2 r)) /\
  qs_distanceTo eps2 lambda ope fuel v0 v1 v2 p = Ret (dist2 p (curve2 v0 v1 v2 r)).
Proof.
  intros H. unfold qs_distanceTo, qs_squaredDistanceTo. rewrite H. cbn [bind]. rewrite pqs_at_ok, psq_R, dsq_sym. auto.
Qed.
