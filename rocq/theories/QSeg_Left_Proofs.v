From Coq Require Import List Arith ZArith Reals Lia Lra Bool Psatz Permutation.
From Coquelicot Require Import Coquelicot.
From Verif Require Import Base Loops Arith XReal Vec_Model Box_Model Box_Spec Box_Proofs Seg_Model Seg_Spec Seg_Proofs
  Poly_Model Poly_Spec Poly_Proofs Roots_Model Roots_Spec Roots_Proofs QSeg_Model QSeg_Spec QSeg_Proofs QSeg_Ray_Proofs.
Import ListNotations.
Local Open Scope R_scope.

(** * coordinates along the two polynomial coefficients of the curve *)
Definition cB (v0 v1 v2 : R) : R := 3 * (v2 - v0) + (v2 - v1).
Definition cA (v0 v1 v2 : R) : R := -2 * ((v2 - v0) + (v2 - v1)).
Definition at_ (v0 v1 v2 : R * R) (x n : R) : R * R :=
  (fst v0 + x * cB (fst v0) (fst v1) (fst v2) + n * cA (fst v0) (fst v1) (fst v2),
   snd v0 + x * cB (snd v0) (snd v1) (snd v2) + n * cA (snd v0) (snd v1) (snd v2)).
Lemma curve_at v0 v1 v2 t : curve2 v0 v1 v2 t = at_ v0 v1 v2 t (t * t).
Proof. unfold curve2, at_, cB, cA. rewrite !lag_poly. reflexivity. Qed.
Lemma at_inj v0 v1 v2 x n x' n' : orient v0 v1 v2 <> 0 -> at_ v0 v1 v2 x n = at_ v0 v1 v2 x' n' -> x = x' /\ n = n'.
Proof.
  unfold at_, cA, cB. intros Ho E. destruct v0 as [ax ay], v1 as [bx by_], v2 as [cx cy]. unfold orient in Ho. cbn [fst snd] in *.
  injection E as E1 E2.
  set (Bx := 3 * (cx - ax) + (cx - bx)) in *. set (By := 3 * (cy - ay) + (cy - by_)) in *.
  set (Ax := -2 * (cx - ax + (cx - bx))) in *. set (Ay := -2 * (cy - ay + (cy - by_))) in *.
  assert (D : Bx * Ay - By * Ax = - 4 * ((bx - ax) * (cy - ay) - (by_ - ay) * (cx - ax))) by (unfold Bx, By, Ax, Ay; ring).
  assert (D0 : Bx * Ay - By * Ax <> 0) by lra. clearbody Bx By Ax Ay. split.
  - assert (Z : (x - x') * (Bx * Ay - By * Ax) = 0).
    { replace ((x - x') * (Bx * Ay - By * Ax)) with ((ax + x * Bx + n * Ax - (ax + x' * Bx + n' * Ax)) * Ay - (ay + x * By + n * Ay - (ay + x' * By + n' * Ay)) * Ax) by ring.
      rewrite E1, E2. ring. }
    apply Rmult_integral in Z. destruct Z; [lra|contradiction].
  - assert (Z : (n - n') * (Bx * Ay - By * Ax) = 0).
    { replace ((n - n') * (Bx * Ay - By * Ax)) with ((ay + x * By + n * Ay - (ay + x' * By + n' * Ay)) * Bx - (ax + x * Bx + n * Ax - (ax + x' * Bx + n' * Ax)) * By) by ring.
      rewrite E1, E2. ring. }
    apply Rmult_integral in Z. destruct Z; [lra|contradiction].
Qed.
Lemma at_surj v0 v1 v2 p : orient v0 v1 v2 <> 0 -> exists x n, p = at_ v0 v1 v2 x n.
Proof.
  unfold at_, cA, cB. intros Ho. destruct v0 as [ax ay], v1 as [bx by_], v2 as [cx cy], p as [px py]. unfold orient in Ho. cbn [fst snd] in *.
  set (Bx := 3 * (cx - ax) + (cx - bx)) in *. set (By := 3 * (cy - ay) + (cy - by_)) in *.
  set (Ax := -2 * (cx - ax + (cx - bx))) in *. set (Ay := -2 * (cy - ay + (cy - by_))) in *.
  assert (D : Bx * Ay - By * Ax = - 4 * ((bx - ax) * (cy - ay) - (by_ - ay) * (cx - ax))) by (unfold Bx, By, Ax, Ay; ring).
  assert (D0 : Bx * Ay - By * Ax <> 0) by lra. clearbody Bx By Ax Ay.
  exists (((px - ax) * Ay - (py - ay) * Ax) / (Bx * Ay - By * Ax)), (((py - ay) * Bx - (px - ax) * By) / (Bx * Ay - By * Ax)).
  f_equal; field; auto.
Qed.
(** between the arc and the chord *)
Lemma bulge_at v0 v1 v2 x n : orient v0 v1 v2 <> 0 -> (bulge v0 v1 v2 (at_ v0 v1 v2 x n) <-> x * x <= n <= x).
Proof.
  intros Ho. split.
  - intros (s & t & u & Hs & Ht & Hu & E).
    assert (E' : at_ v0 v1 v2 x n = at_ v0 v1 v2 ((1 - u) * s + u * t) ((1 - u) * (s * s) + u * (t * t))).
    { rewrite E, !curve_at. unfold at_. cbn [fst snd]. f_equal; ring. }
    apply at_inj in E'; auto. destruct E' as [-> ->]. split.
    + assert (0 <= u * (1 - u) * ((s - t) * (s - t))); [|lra].
      apply Rmult_le_pos; [apply Rmult_le_pos; lra|apply Seg_Proofs.sq_pos].
    + assert (0 <= (1 - u) * (s * (1 - s))) by (apply Rmult_le_pos; [lra|apply Rmult_le_pos; lra]).
      assert (0 <= u * (t * (1 - t))) by (apply Rmult_le_pos; [lra|apply Rmult_le_pos; lra]). lra.
  - intros [H1 H2]. assert (X0 : 0 <= x) by (pose proof (Seg_Proofs.sq_pos x); lra).
    assert (X1 : x <= 1). { destruct (Rle_or_lt x 1); auto. assert (0 < x * (x - 1)) by (apply Rmult_lt_0_compat; lra). lra. }
    unfold bulge. destruct (Req_dec x 0) as [->|Hx].
    + exists 0, 0, 0. do 3 (split; [lra|]). rewrite !curve_at. assert (n = 0) as -> by lra. unfold at_. cbn [fst snd]. f_equal; ring.
    + assert (0 < n). { assert (0 < x * x) by (apply Rlt_0_sqr; auto). lra. }
      exists 0, (n / x), (x * x / n).
      assert (T0 : 0 <= n / x) by (apply Rmult_le_pos; [lra|left; apply Rinv_0_lt_compat; lra]).
      assert (T1 : n / x <= 1). { apply Rmult_le_reg_r with x; [lra|]. unfold Rdiv. rewrite Rmult_assoc, Rinv_l by lra. lra. }
      assert (U0 : 0 <= x * x / n) by (apply Rmult_le_pos; [apply Seg_Proofs.sq_pos|left; apply Rinv_0_lt_compat; lra]).
      assert (U1 : x * x / n <= 1). { apply Rmult_le_reg_r with n; [lra|]. unfold Rdiv. rewrite Rmult_assoc, Rinv_l by lra. lra. }
      do 3 (split; [lra|]). rewrite !curve_at. unfold at_. cbn [fst snd]. f_equal; field; lra.
Qed.
Lemma on_at v0 v1 v2 x n : orient v0 v1 v2 <> 0 -> ((exists t, 0 <= t <= 1 /\ at_ v0 v1 v2 x n = curve2 v0 v1 v2 t) <-> 0 <= x <= 1 /\ n = x * x).
Proof.
  intros Ho. split.
  - intros (t & Ht & E). rewrite curve_at in E. apply at_inj in E; auto. destruct E as [-> ->]. auto.
  - intros [H ->]. exists x. rewrite curve_at. auto.
Qed.
(** * the decision in the frame of the chord *)
Definition outside (L m h px py : R) : bool :=
  if negb (box_contains RA (qs_box RA [0; 0] [L; 0] [m; h]) [px; py]) then true
  else
    let bx := - L + 4 * m in
    let by_ := 4 * h in
    let ax := - bx + L in
    let ay := - by_ in
    let '(r0, r1) := solveQuadratic ax bx (- px) in
    if Rltb (IZR (10 ^ 15)) r1 then oleb RA (r0 * (by_ + r0 * ay)) py
    else
      let qy0 := r0 * (by_ + r0 * ay) in
      let qy1 := r1 * (by_ + r1 * ay) in
      negb (oleb RA (tmin RA qy0 qy1) py && oleb RA py (tmax RA qy0 qy1)).
Lemma between u v y : Rmin u v <= y <= Rmax u v <-> (u - y) * (v - y) <= 0.
Proof.
  split.
  - intros [H1 H2]. unfold Rmin, Rmax in *. destruct (Rle_dec u v).
    + assert (0 <= (y - u) * (v - y)) by (apply Rmult_le_pos; lra). lra.
    + assert (0 <= (u - y) * (y - v)) by (apply Rmult_le_pos; lra). lra.
  - intros H. unfold Rmin, Rmax. destruct (Rle_dec u v); split; apply Rnot_lt_le; intros C.
    + assert (0 < (u - y) * (v - y)) by (apply Rmult_lt_0_compat; lra). lra.
    + assert (0 < (y - u) * (y - v)) by (apply Rmult_lt_0_compat; lra). lra.
    + assert (0 < (u - y) * (v - y)) by (apply Rmult_lt_0_compat; lra). lra.
    + assert (0 < (y - u) * (y - v)) by (apply Rmult_lt_0_compat; lra). lra.
Qed.
Lemma big15 : 1 < IZR (10 ^ 15). Proof. apply IZR_lt. reflexivity. Qed.
Lemma big16 : IZR (10 ^ 15) < no_root. Proof. rewrite <- invalid_val. unfold invalid. apply IZR_lt. reflexivity. Qed.
Lemma box2_contains v0 v1 v2 px py : box_contains RA (qs_box RA [fst v0; snd v0] [fst v1; snd v1] [fst v2; snd v2]) [px; py] = false -> ~ bulge v0 v1 v2 (px, py).
Proof.
  intros E (s & t & u & Hs & Ht & Hu & Ep). destruct (qs_box RA [fst v0; snd v0] [fst v1; snd v1] [fst v2; snd v2]) as [mn mx] eqn:B.
  destruct (box_ok [fst v0; snd v0] [fst v1; snd v1] [fst v2; snd v2] mn mx eq_refl eq_refl B) as (L1 & L2 & H).
  destruct mn as [|mn0 [|mn1 [|? ?]]]; try discriminate. destruct mx as [|mx0 [|mx1 [|? ?]]]; try discriminate.
  pose proof (proj1 (H 0%nat ltac:(cbn; lia))) as H0. pose proof (proj1 (H 1%nat ltac:(cbn; lia))) as H1. cbn [nth curve] in H0, H1.
  assert (T : box_contains RA (mkBox [mn0; mn1] [mx0; mx1]) [px; py] = true); [|congruence].
  unfold curve2 in Ep. cbn [fst snd] in Ep. injection Ep as -> ->.
  pose proof (H0 s Hs). pose proof (H0 t Ht). pose proof (H1 s Hs). pose proof (H1 t Ht).
  assert (CV : forall l r a b, l <= a <= r -> l <= b <= r -> l <= (1 - u) * a + u * b <= r).
  { intros l r a b Ha Hb. assert (0 <= (1 - u) * (a - l)) by (apply Rmult_le_pos; lra). assert (0 <= u * (b - l)) by (apply Rmult_le_pos; lra).
    assert (0 <= (1 - u) * (r - a)) by (apply Rmult_le_pos; lra). assert (0 <= u * (r - b)) by (apply Rmult_le_pos; lra). lra. }
  apply (contains_iff RA Rle R_total _ _ 2); auto.
  pose proof (CV _ _ _ _ H2 H3). pose proof (CV _ _ _ _ H4 H5). split; cbn [bmin bmax].
  - constructor; [lra|constructor; [lra|constructor]].
  - constructor; [lra|constructor; [lra|constructor]].
Qed.
Lemma qs_quadratic a b c r : quadratic a b c r = a * (r * r) + b * r + c. Proof. unfold quadratic. ring. Qed.
Lemma outside_ok L m h x n (px := x * (- L + 4 * m) + n * (2 * L - 4 * m)) (py := 4 * h * (x - n)) :
  0 < L -> 0 < h -> 0 <= n -> n <= x -> 0 <= 1 - 2 * x + n -> n <> x * x ->
  (outside L m h px py = true <-> n < x * x).
Proof.
  intros HL Hh T1 T2 T3 NC.
  assert (PY : 0 <= py) by (unfold py; apply Rmult_le_pos; lra).
  unfold outside. destruct (box_contains RA (qs_box RA [0; 0] [L; 0] [m; h]) [px; py]) eqn:EB; cbn [negb].
  2:{ split; auto. intros _. apply (box2_contains (0, 0) (L, 0) (m, h)) in EB.
      assert (Ho : orient (0, 0) (L, 0) (m, h) <> 0). { unfold orient. cbn [fst snd]. assert (0 < L * h) by (apply Rmult_lt_0_compat; lra). lra. }
      assert (E : (px, py) = at_ (0, 0) (L, 0) (m, h) x n). { unfold at_, cA, cB, px, py. cbn [fst snd]. f_equal; ring. }
      rewrite E, bulge_at in EB by auto. destruct (Rlt_or_le n (x * x)); auto. exfalso. apply EB. lra. }
  clear EB. cbn zeta. set (bx := - L + 4 * m). set (ax := - bx + L).
  assert (EL : ax + bx = L) by (unfold ax; ring).
  assert (EX : px = x * bx + n * ax) by (unfold px, ax, bx; ring).
  pose proof (solveQuadratic_roots ax bx (- px)) as SQ. cbn zeta in SQ.
  destruct (solveQuadratic ax bx (- px)) as [r0 r1]. cbn [fst snd] in SQ. destruct SQ as (Q1 & Q2 & Q3 & _).
  clearbody ax bx px. pose proof big15 as B15. pose proof big16 as B16.
  assert (GY : forall r, r * (4 * h + r * - (4 * h)) <= py <-> r - r * r <= x - n).
  { intros r. unfold py. replace (r * (4 * h + r * - (4 * h))) with (4 * h * (r - r * r)) by ring. split; intros H.
    - apply Rmult_le_reg_l with (4 * h); lra.
    - apply Rmult_le_compat_l; lra. }
  assert (BIG : forall r, 1 < r -> r - r * r < 0). { intros r Hr. assert (0 < r * (r - 1)) by (apply Rmult_lt_0_compat; lra). lra. }
  destruct (Req_dec ax 0) as [Za|Za].
  { destruct (Q3 Za ltac:(lra)) as [E1 E2]. subst r1. rewrite (proj2 (Box_Proofs.Rltb_true _ _) B16), oleb_R, GY.
    assert (x = r0) as <-. { apply E2. rewrite qs_quadratic, Za, EX, Za. ring. }
    lra. }
  destruct (Rlt_or_le (bx ^ 2 - 4 * ax * - px) 0) as [D|D].
  { destruct (Q2 Za D) as [E _]. injection E as -> ->. rewrite (proj2 (Box_Proofs.Rltb_true _ _) B16), oleb_R, GY.
    split; [|intros _; pose proof (BIG no_root); lra]. intros _.
    destruct (Rlt_or_le n (x * x)) as [?|C]; auto. exfalso.
    assert (0 <= ax * ax * (n - x * x)) by (apply Rmult_le_pos; [apply Seg_Proofs.sq_pos|lra]).
    pose proof (Seg_Proofs.sq_pos (bx + 2 * ax * x)). subst px. lra. }
  destruct (Q1 Za D) as (Hr & _ & HF). clear Q1 Q2 Q3.
  assert (S : r0 + r1 = - bx / ax /\ r0 * r1 = - bx / ax * x - n).
  { pose proof (HF 0) as F0. pose proof (HF 1) as F1. rewrite !qs_quadratic in F0, F1.
    assert (P : r0 * r1 = - px / ax). { apply Rmult_eq_reg_l with ax; auto. replace (ax * (- px / ax)) with (- px) by (field; auto). lra. }
    split.
    - apply Rmult_eq_reg_l with ax; auto. replace (ax * (- bx / ax)) with (- bx) by (field; auto). lra.
    - rewrite P, EX. field. auto. }
  set (k := - bx / ax) in *. destruct S as [S P].
  assert (K : 1 - k <> 0). { unfold k. replace (1 - - bx / ax) with ((ax + bx) / ax) by (field; auto). rewrite EL. unfold Rdiv. apply Rmult_integral_contrapositive_currified; [lra|apply Rinv_neq_0_compat; auto]. }
  assert (KS : 0 < (1 - k) * (1 - k)) by (apply Rlt_0_sqr; auto).
  assert (ID : (r0 - r0 * r0 - (x - n)) * (r1 - r1 * r1 - (x - n)) = (1 - k) * (1 - k) * (x * x - n)).
  { assert (ES : r0 * r0 + r1 * r1 = k * k - 2 * (k * x - n)) by (rewrite <- P, <- S; ring).
    transitivity (r0 * r1 - (r0 * r1) * (r0 + r1) + (r0 * r1) * (r0 * r1) - (x - n) * ((r0 + r1) - (r0 * r0 + r1 * r1)) + (x - n) * (x - n)); [ring|].
    rewrite ES, S, P. ring. }
  set (w := (1 - k) * (1 - k)) in *. clearbody w k.
  destruct (Rltb (IZR (10 ^ 15)) r1) eqn:ER.
  - apply Box_Proofs.Rltb_true in ER. rewrite oleb_R, GY. pose proof (BIG r1 ltac:(lra)) as G1.
    assert (G1' : r1 - r1 * r1 - (x - n) < 0) by lra. set (g1 := r1 - r1 * r1 - (x - n)) in *. clearbody g1.
    split; intros H.
    + destruct (Rlt_or_le n (x * x)) as [?|C]; auto. exfalso.
      assert (C' : 0 < x - n - (r0 - r0 * r0) \/ x - n = r0 - r0 * r0) by lra.
      assert (0 < w * (n - x * x)) by (apply Rmult_lt_0_compat; lra).
      assert (0 <= (x - n - (r0 - r0 * r0)) * (- g1)) by (apply Rmult_le_pos; lra). lra.
    + apply Rnot_lt_le. intros C. assert (0 < w * (x * x - n)) by (apply Rmult_lt_0_compat; lra).
      assert (0 < (r0 - r0 * r0 - (x - n)) * (- g1)) by (apply Rmult_lt_0_compat; lra). lra.
  - rewrite negb_true_iff, <- not_true_iff_false, andb_true_iff, !oleb_R, tmin_R, tmax_R, between.
    assert (EE : (r0 * (4 * h + r0 * - (4 * h)) - py) * (r1 * (4 * h + r1 * - (4 * h)) - py) = 16 * h * h * (w * (x * x - n))).
    { rewrite <- ID. unfold py. ring. }
    rewrite EE. assert (HH : 0 < 16 * h * h) by (apply Rmult_lt_0_compat; lra). split; intros H.
    + destruct (Rlt_or_le n (x * x)) as [?|C]; auto. exfalso. apply H.
      assert (0 <= 16 * h * h * (w * (n - x * x))) by (apply Rmult_le_pos; [lra|apply Rmult_le_pos; lra]). lra.
    + intros C. assert (0 < 16 * h * h * (w * (x * x - n))) by (apply Rmult_lt_0_compat; [lra|apply Rmult_lt_0_compat; lra]). lra.
Qed.

(** * the whole function *)
Lemma isLeft_curve_ok eps2 v0 v1 v2 p : isStraight RA eps2 v0 v1 v2 = false -> orient v0 v1 v2 <> 0 ->
  (forall t, 0 <= t <= 1 -> p <> curve2 v0 v1 v2 t) ->
  (qs_isLeft eps2 v0 v1 v2 p = true <->
   (0 < orient v0 v1 v2 /\ 0 <= orient v0 v1 p /\ ~ bulge v0 v1 v2 p) \/
   (orient v0 v1 v2 < 0 /\ (0 <= orient v0 v1 p \/ bulge v0 v1 v2 p))).
Proof.
  intros NS Ho NC. destruct (at_surj v0 v1 v2 p Ho) as (x & n & Ep). subst p. rewrite bulge_at by auto.
  assert (NC' : ~ (0 <= x <= 1 /\ n = x * x)). { rewrite <- (on_at v0 v1 v2 x n Ho). intros (t & Ht & E). exact (NC t Ht E). }
  clear NC. unfold qs_isLeft. rewrite NS. set (bcp := pqs_bezier RA v0 v1 v2). set (p := at_ v0 v1 v2 x n).
  set (O := orient v0 v1 v2) in *.
  assert (Eb : bcp = at_ v0 v1 v2 (/ 2) 0).
  { unfold bcp, pqs_bezier, psub, pscale, pdivs, padd, at_, cA, cB, o2. cbn. f_equal; field. }
  assert (O1 : orient v0 v1 p = 4 * (x - n) * O) by (unfold p, O, orient, at_, cA, cB; cbn [fst snd]; ring).
  assert (O2 : orient v0 v1 bcp = 2 * O) by (rewrite Eb; unfold O, orient, at_, cA, cB; cbn [fst snd]; field).
  assert (O3 : orient v1 bcp p = 2 * (1 - 2 * x + n) * O) by (rewrite Eb; unfold p, O, orient, at_, cA, cB; cbn [fst snd]; field).
  assert (O4 : orient bcp v0 p = 2 * n * O) by (rewrite Eb; unfold p, O, orient, at_, cA, cB; cbn [fst snd]; field).
  assert (SW : forall a b c, orient b a c = - orient a b c) by (intros; unfold orient; ring).
  assert (SG : forall u, (0 < O -> (0 <= u * O <-> 0 <= u)) /\ (O < 0 -> (0 <= - (u * O) <-> 0 <= u))).
  { intros u. split; intros H.
    - split; intros G; [apply Rmult_le_reg_r with O; lra|apply Rmult_le_pos; lra].
    - split; intros G; [apply Rmult_le_reg_r with (- O); lra|]. assert (0 <= u * - O) by (apply Rmult_le_pos; lra). lra. }
  assert (TRI : exists t0 t1 t2, (if tri_isCCW RA v0 v1 bcp then (v0, v1, bcp) else tri_flip (v0, v1, bcp)) = (t0, t1, t2) /\
    (tri_contains RA t0 t1 t2 p = true <-> n <= x /\ 0 <= 1 - 2 * x + n /\ 0 <= n)).
  { destruct (tri_isCCW RA v0 v1 bcp) eqn:C; unfold tri_isCCW in C.
    - apply areCCW_R in C. rewrite O2 in C. exists v0, v1, bcp. split; auto. rewrite tri_contains_R, O1, O3, O4.
      destruct (SG (4 * (x - n))) as [G1 _]. destruct (SG (2 * (1 - 2 * x + n))) as [G2 _]. destruct (SG (2 * n)) as [G3 _].
      rewrite G1, G2, G3 by lra. lra.
    - assert (C' : ~ 0 <= 2 * O) by (rewrite <- O2, <- areCCW_R; congruence). exists v0, bcp, v1. split; auto.
      rewrite tri_contains_R, (SW bcp v0), (SW v1 bcp), (SW v0 v1), O1, O3, O4.
      destruct (SG (4 * (x - n))) as [_ G1]. destruct (SG (2 * (1 - 2 * x + n))) as [_ G2]. destruct (SG (2 * n)) as [_ G3].
      rewrite G1, G2, G3 by lra. lra. }
  destruct TRI as (t0 & t1 & t2 & -> & TC).
  assert (SQ : 0 <= (1 - x) * (1 - x)) by apply Seg_Proofs.sq_pos.
  assert (SQ' : 0 <= x * x) by apply Seg_Proofs.sq_pos.
  destruct (tri_contains RA t0 t1 t2 p); cbn [negb].
  2:{ assert (NT : ~ (n <= x /\ 0 <= 1 - 2 * x + n /\ 0 <= n)) by (rewrite <- TC; discriminate).
      assert (NB : ~ x * x <= n <= x) by (intros [G1 G2]; apply NT; lra).
      rewrite areCCW_R. destruct (Rlt_or_le 0 O); [tauto|]. assert (O < 0) by lra. split; [tauto|]. intros [?|?]; [lra|tauto]. }
  destruct TC as [TC _]. specialize (TC eq_refl). destruct TC as (T1 & T2 & T3).
  assert (X1 : 0 <= x <= 1) by lra. assert (NE : n <> x * x) by (intros E; apply NC'; auto).
  set (q1 := psub RA v1 v0). set (L := sqrt (psq RA q1)).
  assert (LP : 0 < psq RA q1).
  { unfold psq, pdot, q1, psub. cbn. destruct (Req_dec (fst v1 - fst v0) 0) as [Eu|Eu].
    - assert (snd v1 - snd v0 <> 0). { intros E. apply Ho. unfold O, orient. rewrite Eu, E. ring. }
      apply Rplus_le_lt_0_compat; [apply Rle_0_sqr|apply Rlt_0_sqr; auto].
    - apply Rplus_lt_le_0_compat; [apply Rlt_0_sqr; auto|apply Rle_0_sqr]. }
  assert (L0 : 0 < L) by (apply sqrt_lt_R0; auto).
  assert (LL : L * L = fst q1 * fst q1 + snd q1 * snd q1). { unfold L. rewrite sqrt_sqrt by lra. unfold psq, pdot. cbn. ring. }
  set (q2 := psub RA v2 v0). unfold pdivs. cbn [odiv Rarith fst snd].
  set (m := fst q1 / L * fst q2 + snd q1 / L * snd q2). set (h := - (snd q1 / L) * fst q2 + fst q1 / L * snd q2).
  assert (HO : h = O / L). { unfold h, O, orient, q1, q2, psub. cbn. field. lra. }
  assert (R1 : fst q1 / L * fst q1 + snd q1 / L * snd q1 = L).
  { transitivity ((fst q1 * fst q1 + snd q1 * snd q1) / L); [field; lra|]. rewrite <- LL. field. lra. }
  assert (R2 : - (snd q1 / L) * fst q1 + fst q1 / L * snd q1 = 0) by (field; lra).
  rewrite R1, R2.
  assert (EP : psub RA p v0 = (x * (4 * fst q2 - fst q1) + n * (2 * fst q1 - 4 * fst q2), x * (4 * snd q2 - snd q1) + n * (2 * snd q1 - 4 * snd q2))).
  { unfold p, q1, q2, psub, at_, cA, cB. cbn. f_equal; ring. }
  assert (PX : fst q1 / L * fst (psub RA p v0) + snd q1 / L * snd (psub RA p v0) = x * (- L + 4 * m) + n * (2 * L - 4 * m)).
  { rewrite EP. cbn [fst snd]. rewrite <- R1 at 3 4. unfold m. field. lra. }
  assert (PY : - (snd q1 / L) * fst (psub RA p v0) + fst q1 / L * snd (psub RA p v0) = 4 * h * (x - n)).
  { rewrite EP. cbn [fst snd]. unfold h. field. lra. }
  rewrite PX, PY. clear PX PY EP R1 R2.
  destruct (Rlt_or_le 0 O) as [OP|ON].
  - assert (H0 : 0 < h). { rewrite HO. apply Rmult_lt_0_compat; [auto|apply Rinv_0_lt_compat; auto]. }
    assert (CR : oleb RA 0 h = true) by (apply oleb_R; lra). rewrite CR. cbn [fst snd].
    pose proof (outside_ok L m h x n L0 H0 T3 T1 T2 NE) as OK. unfold outside in OK. cbn zeta in OK.
    cbn zeta. clearbody m h L. 
    etransitivity; [exact OK|]. assert (0 <= orient v0 v1 p) by (rewrite O1; apply Rmult_le_pos; lra).
    split; [intros ?; left; repeat split; auto; lra|]. intros [(_ & _ & ?)|(? & _)]; [|lra]. destruct (Rlt_or_le n (x * x)); auto; exfalso; lra.
  - assert (ON' : O < 0) by lra. assert (H0 : h < 0). { rewrite HO. assert (0 < - O * / L) by (apply Rmult_lt_0_compat; [lra|apply Rinv_0_lt_compat; auto]). unfold Rdiv. lra. }
    assert (CR : oleb RA 0 h = false) by (apply not_true_iff_false; rewrite oleb_R; lra). rewrite CR. cbn [fst snd].
    pose proof (outside_ok L m (- h) x n L0 ltac:(lra) T3 T1 T2 NE) as OK. unfold outside in OK. cbn zeta in OK.
    replace (- (4 * h * (x - n))) with (4 * (- h) * (x - n)) by ring. set (h' := - h) in *.
    cbn zeta. clearbody m h' L.
    match goal with |- ?l = true <-> _ => match type of OK with ?r = true <-> _ => assert (EQ : l = negb r) end end.
    { destruct (negb _); auto. destruct (solveQuadratic _ _ _) as [r0 r1]. destruct (Rltb _ _); auto. rewrite negb_involutive. auto. }
    rewrite EQ, negb_true_iff, <- not_true_iff_false, OK.
    split; [intros ?; right; split; auto; lra|]. intros [(? & _)|(_ & [G|G])]; [lra| |lra].
    intros C. rewrite O1 in G. assert (0 <= (n - x) * - O) by (apply Rmult_le_pos; [|lra]; clear - G ON' T1; nra).
    assert (x = n). { clear - G ON' T1. destruct (Req_dec x n); auto. exfalso. assert (0 < 4 * (x - n) * - O) by (apply Rmult_lt_0_compat; lra). lra. }
    subst n. assert (0 <= x * (1 - x)) by (apply Rmult_le_pos; lra). lra.
Qed.

Lemma isLeft_straight_ok eps2 v0 v1 v2 p : isStraight RA eps2 v0 v1 v2 = true -> (qs_isLeft eps2 v0 v1 v2 p = true <-> 0 <= orient v0 v1 p).
Proof. intros S. unfold qs_isLeft. rewrite S. apply areCCW_R. Qed.
Lemma curved_example : orient (0, 0) (2, 0) (1, 1) <> 0 /\ isStraight RA (1/100) (0, 0) (2, 0) (1, 1) = false.
Proof.
  split; [unfold orient; cbn [fst snd]; lra|]. unfold isStraight. rewrite cross2_R. unfold psq, pdot, psub. cbn.
  match goal with |- (if oleb RA ?x ?y then _ else _) = _ => destruct (oleb RA x y) end; auto. apply Box_Proofs.Rltb_false. lra.
Qed.
Lemma bulge_example : isStraight RA (1/100) (0, 0) (2, 0) (1, 1) = false /\ 0 < orient (0, 0) (2, 0) (1, 1) /\
  bulge (0, 0) (2, 0) (1, 1) (1, 1/2) /\ (forall t, 0 <= t <= 1 -> (1, 1/2) <> curve2 (0, 0) (2, 0) (1, 1) t).
Proof.
  split; [apply curved_example|]. assert (O : 0 < orient (0, 0) (2, 0) (1, 1)) by (unfold orient; cbn [fst snd]; lra). split; [auto|].
  assert (E : (1, 1/2) = at_ (0, 0) (2, 0) (1, 1) (/2) (3/8)) by (unfold at_, cA, cB; cbn [fst snd]; f_equal; lra).
  rewrite E. split; [apply bulge_at; [lra|]; lra|]. intros t Ht C. assert (X : 0 <= /2 <= 1 /\ 3/8 = /2 * /2).
  { apply (on_at (0, 0) (2, 0) (1, 1)); [lra|]. exists t. split; auto. }
  lra.
Qed.
Lemma cubic_zero l o n a b c d : d = 0 -> exists r0 r1 r2, solveCubic l o n a b c d = Ret (r0, r1, r2).
Proof.
  intros ->. unfold solveCubic. destruct (Reqb a 0).
  - destruct (fin b c 0 invalid) as [[r0 r1] r2]. eauto.
  - destruct (Reqb 0 0) eqn:Z0; [|apply Box_Proofs.Reqb_false in Z0; lra]. destruct (fin a b c 0) as [[r0 r1] r2]. eauto.
Qed.
Lemma closest_example : exists r, qs_pointClosestTo (1/100) lambda_double ope_double 0 (0, 0) (2, 0) (1, 1) (0, 0) = Ret r.
Proof.
  unfold qs_pointClosestTo. rewrite (proj2 curved_example). destruct (pqs_poly RA (0, 0) (2, 0) (1, 1)) as [[C B] A] eqn:E.
  injection E as <- <- <-.
  match goal with |- context [solveCubic ?l ?o ?n ?a ?b ?c ?d] => destruct (cubic_zero l o n a b c d) as (r0 & r1 & r2 & EQ) end.
  { unfold pdot, psub, padd, pscale, o3, o2. cbn. ring. }
  rewrite EQ. cbn [bind]. eexists. reflexivity.
Qed.
