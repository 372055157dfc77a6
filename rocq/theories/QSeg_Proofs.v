From Coq Require Import List Arith ZArith Reals Lia Lra Bool Psatz Permutation.
From Coquelicot Require Import Coquelicot.
From Verif Require Import Base Loops Arith XReal Vec_Model Box_Model Box_Proofs Seg_Model Seg_Spec Seg_Proofs
  Poly_Model Poly_Spec Poly_Proofs Roots_Model Roots_Spec Roots_Proofs QSeg_Model QSeg_Spec.
Import ListNotations.
Local Open Scope R_scope.

Lemma lag_poly x0 x1 x2 t : lag x0 x1 x2 t = x0 + t * (3 * (x2 - x0) + (x2 - x1)) + t * t * (-2 * ((x2 - x0) + (x2 - x1))).
Proof. unfold lag. field. Qed.
Lemma qs_at_ok v0 : forall v1 v2 r, qs_at RA v0 v1 v2 r = curve v0 v1 v2 r.
Proof.
  unfold qs_at, vadd, vscale. induction v0 as [|a v0 IH]; intros [|b v1] [|c v2] r; cbn [map map2 curve]; auto.
  rewrite <- IH. f_equal. unfold qw0, qw1, qw2, o4, o2, lag. cbn. field.
Qed.
Lemma pqs_at_ok v0 v1 v2 r : pqs_at RA v0 v1 v2 r = curve2 v0 v1 v2 r.
Proof. unfold pqs_at, curve2, padd, pscale, qw0, qw1, qw2, o4, o2, lag. cbn. f_equal; field. Qed.
Lemma curve_vertices v0 : forall v1 v2, length v0 = length v1 -> length v0 = length v2 ->
  curve v0 v1 v2 0 = v0 /\ curve v0 v1 v2 1 = v1 /\ curve v0 v1 v2 (/2) = v2.
Proof.
  induction v0 as [|a v0 IH]; intros [|b v1] [|c v2] L1 L2; cbn in L1, L2; try discriminate; [auto|].
  destruct (IH v1 v2) as (E0 & E1 & E2); [lia|lia|]. cbn [curve]. rewrite E0, E1, E2. unfold lag. repeat split; f_equal; field.
Qed.
Lemma poly_ok v0 : forall v1 v2 r C B A, length v0 = length v1 -> length v0 = length v2 -> qs_poly RA v0 v1 v2 = (C, B, A) ->
  vadd RA (vadd RA C (vscale RA r B)) (vscale RA (r * r) A) = curve v0 v1 v2 r /\
  curve v0 v1 v2 r = map2 (fun x y => x + y) (map2 (fun x y => (1 - r) * (1 - r) * x + 2 * r * (1 - r) * y) v0 (qs_bezier RA v0 v1 v2)) (map (fun x => r * r * x) v1).
Proof.
  unfold qs_poly, qs_bezier, vadd, vscale, vsub, vdivs.
  induction v0 as [|a v0 IH]; intros [|b v1] [|c v2] r C B A L1 L2 E; cbn in L1, L2; try discriminate; cbn [map map2 curve] in *.
  - injection E as <- <- <-. auto.
  - injection E as <- <- <-. destruct (IH v1 v2 r _ _ _ ltac:(lia) ltac:(lia) eq_refl) as [E1 E2]. cbn [map map2].
    split; (f_equal; [unfold lag, o2, o3; cbn; field|assumption]).
Qed.
Lemma pqs_poly_at v0 v1 v2 : exists B A, pqs_poly RA v0 v1 v2 = (v0, B, A) /\
  (forall t, curve2 v0 v1 v2 t = (fst v0 + t * fst B + t * t * fst A, snd v0 + t * snd B + t * t * snd A)) /\
  B = (3 * (fst v2 - fst v0) + (fst v2 - fst v1), 3 * (snd v2 - snd v0) + (snd v2 - snd v1)) /\
  A = (-2 * ((fst v2 - fst v0) + (fst v2 - fst v1)), -2 * ((snd v2 - snd v0) + (snd v2 - snd v1))).
Proof.
  eexists. eexists. split; [reflexivity|].
  assert (H1 : forall P Q : Prop, (Q -> P) /\ Q -> P /\ Q) by tauto. apply H1. split.
  - intros [E1 E2] t. rewrite E1, E2. unfold curve2. rewrite !lag_poly. cbn [fst snd]. f_equal; ring.
  - unfold padd, pscale, psub, o3, o2. cbn. split; f_equal; ring.
Qed.
(** derivative *)
Lemma lag_derive x0 x1 x2 t : is_derive (lag x0 x1 x2) t ((4 * t - 3) * (x0 - x2) + (4 * t - 1) * (x1 - x2)).
Proof. unfold lag. auto_derive; [auto|]. field. Qed.
Lemma lag_Derive x0 x1 x2 t : Derive (lag x0 x1 x2) t = (4 * t - 3) * (x0 - x2) + (4 * t - 1) * (x1 - x2).
Proof. apply is_derive_unique. apply lag_derive. Qed.
Lemma jacobian_ok v0 : forall v1 v2 r i, length v0 = length v1 -> length v0 = length v2 -> (i < length v0)%nat ->
  is_derive (fun t => nth i (curve v0 v1 v2 t) 0) r (nth i (qs_jacobian RA v0 v1 v2 r) 0).
Proof.
  unfold qs_jacobian, vadd, vscale, vsub.
  induction v0 as [|a v0 IH]; intros [|b v1] [|c v2] r i L1 L2 Hi; cbn in L1, L2, Hi; try discriminate; [lia|].
  cbn [map map2 curve]. destruct i as [|i]; cbn [nth].
  - evar_last; [apply lag_derive|]. unfold o4, o3, o2. cbn. ring.
  - apply (IH v1 v2 r i); lia.
Qed.

(** * bounding box *)
Lemma tmin_R a b : tmin RA a b = Rmin a b.
Proof. unfold tmin. cbn. destruct (Rltb b a) eqn:H; [apply Rltb_true in H; rewrite Rmin_right; lra|apply Rltb_false in H; rewrite Rmin_left; lra]. Qed.
Lemma tmax_R a b : tmax RA a b = Rmax a b.
Proof. unfold tmax. cbn. destruct (Rltb a b) eqn:H; [apply Rltb_true in H; rewrite Rmax_right; lra|apply Rltb_false in H; rewrite Rmax_left; lra]. Qed.
Lemma bb_step_ok x0 x1 x2 mn mx : let b := 3 * (x2 - x0) + (x2 - x1) in let a := -2 * ((x2 - x0) + (x2 - x1)) in
  bb_step RA (tmin RA x0 x1) (tmax RA x0 x1) x0 b a = (mn, mx) ->
  (forall t, 0 <= t <= 1 -> mn <= lag x0 x1 x2 t <= mx) /\
  (exists t, 0 <= t <= 1 /\ lag x0 x1 x2 t = mn) /\ (exists t, 0 <= t <= 1 /\ lag x0 x1 x2 t = mx).
Proof.
  cbv zeta. intros E.
  set (b := 3 * (x2 - x0) + (x2 - x1)) in *. set (a := -2 * ((x2 - x0) + (x2 - x1))) in *.
  assert (Q : forall t, lag x0 x1 x2 t = x0 + t * b + t * t * a) by (intros; apply lag_poly).
  assert (X1 : x1 = x0 + b + a) by (unfold a, b; ring).
  rewrite tmin_R, tmax_R in E.
  assert (End : forall z, (z = Rmin x0 x1 \/ z = Rmax x0 x1) -> exists t, 0 <= t <= 1 /\ lag x0 x1 x2 t = z).
  { intros z Hz. assert (z = x0 \/ z = x1) as [->| ->].
    { destruct Hz as [-> | ->]; [unfold Rmin|unfold Rmax]; destruct (Rle_dec x0 x1); auto. }
    - exists 0. split; [lra|]. rewrite Q. ring.
    - exists 1. split; [lra|]. rewrite Q, X1. ring. }
  (* between the end points, when the vertex is outside *)
  assert (Mono : (forall t, 0 <= t <= 1 -> 0 <= b + 2 * a * t) \/ (forall t, 0 <= t <= 1 -> b + 2 * a * t <= 0) ->
    forall t, 0 <= t <= 1 -> Rmin x0 x1 <= lag x0 x1 x2 t <= Rmax x0 x1).
  { intros [D|D] t Ht; rewrite Q; pose proof (D 0 ltac:(lra)); pose proof (D 1 ltac:(lra)); pose proof (D t Ht).
    - rewrite Rmin_left, Rmax_right by lra. rewrite X1 at 1.
      assert (0 <= t * (b + a * t)) by (apply Rmult_le_pos; lra).
      assert (0 <= (1 - t) * (b + a * (1 + t))) by (apply Rmult_le_pos; lra). split; lra.
    - rewrite Rmin_right, Rmax_left by lra.
      assert (0 <= t * - (b + a * t)) by (apply Rmult_le_pos; lra).
      assert (0 <= (1 - t) * - (b + a * (1 + t))) by (apply Rmult_le_pos; lra). split; [rewrite X1|]; lra. }
  unfold bb_step in E. cbn [Rarith oeqb oltb o0 o1 odiv oopp oadd omul] in E. unfold o2 in E. cbn [Rarith o1 oadd] in E.
  destruct (Reqb a 0) eqn:Ea.
  - apply Reqb_true in Ea. injection E as <- <-. split; [|split; apply End; auto]. apply Mono.
    destruct (Rle_or_lt 0 b); [left|right]; intros; rewrite Ea; lra.
  - apply Reqb_false in Ea. set (r := - (b / (1 + 1)) / a) in *.
    assert (Hr : b = - 2 * a * r) by (unfold r; field; auto).
    destruct (Rltb 0 r && Rltb r 1) eqn:B.
    + apply andb_true_iff in B. destruct B as [B1 B2]. apply Rltb_true in B1, B2.
      assert (V : x0 + r * (b / (1 + 1)) = lag x0 x1 x2 r) by (rewrite Q, Hr; field).
      rewrite V in E.
      assert (S : forall t, lag x0 x1 x2 t = lag x0 x1 x2 r + a * ((t - r) * (t - r))) by (intros; rewrite !Q, Hr; ring).
      assert (mn = Rmin (Rmin x0 x1) (lag x0 x1 x2 r) /\ mx = Rmax (Rmax x0 x1) (lag x0 x1 x2 r)) as [-> ->].
      { injection E as <- <-. rewrite tmin_R, tmax_R. auto. }
      split.
      * intros t Ht. assert (S0 : x0 = lag x0 x1 x2 r + a * (r * r)) by (rewrite <- (Rplus_0_r x0) at 1; rewrite Q, Hr; ring).
        assert (S1 : x1 = lag x0 x1 x2 r + a * ((1 - r) * (1 - r))) by (rewrite X1 at 1; rewrite Q, Hr; ring).
        pose proof (Rmin_l (Rmin x0 x1) (lag x0 x1 x2 r)). pose proof (Rmin_r (Rmin x0 x1) (lag x0 x1 x2 r)).
        pose proof (Rmax_l (Rmax x0 x1) (lag x0 x1 x2 r)). pose proof (Rmax_r (Rmax x0 x1) (lag x0 x1 x2 r)).
        pose proof (Rmin_l x0 x1). pose proof (Rmin_r x0 x1). pose proof (Rmax_l x0 x1). pose proof (Rmax_r x0 x1).
        set (l := lag x0 x1 x2 r) in *. pose proof (sq_pos (t - r)) as P. rewrite (S t). fold l.
        assert (Le : (t - r) * (t - r) <= r * r \/ (t - r) * (t - r) <= (1 - r) * (1 - r)).
        { destruct (Rle_or_lt t r); [left|right]; nra. }
        destruct (Rle_or_lt 0 a) as [Sa|Sa].
        -- split; [nra|]. destruct Le as [Le|Le]; [assert (a * ((t - r) * (t - r)) <= a * (r * r)) by nra; lra|
             assert (a * ((t - r) * (t - r)) <= a * ((1 - r) * (1 - r))) by nra; lra].
        -- split; [|nra]. destruct Le as [Le|Le]; [assert (a * ((t - r) * (t - r)) >= a * (r * r)) by nra; lra|
             assert (a * ((t - r) * (t - r)) >= a * ((1 - r) * (1 - r))) by nra; lra].
      * split.
        -- unfold Rmin at 1. destruct (Rle_dec (Rmin x0 x1) (lag x0 x1 x2 r)); [apply End; auto|exists r; split; [lra|auto]].
        -- unfold Rmax at 1. destruct (Rle_dec (Rmax x0 x1) (lag x0 x1 x2 r)); [exists r; split; [lra|auto]|apply End; auto].
    + injection E as <- <-. split; [|split; apply End; auto]. apply Mono.
      assert (r <= 0 \/ 1 <= r) as R.
      { destruct (Rltb 0 r) eqn:R1; [|left; apply Rltb_false in R1; lra]. destruct (Rltb r 1) eqn:R2; [discriminate|]. right. apply Rltb_false in R2. lra. }
      destruct (Rle_or_lt 0 a) as [Sa|Sa], R as [R|R]; [left|right|right|left]; intros t Ht; rewrite Hr; nra.
Qed.
Lemma box_ok v0 : forall v1 v2 mn mx, length v0 = length v1 -> length v0 = length v2 -> qs_box RA v0 v1 v2 = mkBox mn mx ->
  length mn = length v0 /\ length mx = length v0 /\
  forall i, (i < length v0)%nat ->
    (forall t, 0 <= t <= 1 -> nth i mn 0 <= nth i (curve v0 v1 v2 t) 0 <= nth i mx 0) /\
    (exists t, 0 <= t <= 1 /\ nth i (curve v0 v1 v2 t) 0 = nth i mn 0) /\
    (exists t, 0 <= t <= 1 /\ nth i (curve v0 v1 v2 t) 0 = nth i mx 0).
Proof.
  unfold qs_box, qs_poly, vmin, vmax, vadd, vscale, vsub.
  induction v0 as [|x0 v0 IH]; intros [|x1 v1] [|x2 v2] mn mx L1 L2 E; cbn in L1, L2; try discriminate; cbn [map map2 bb_loop] in E.
  - injection E as <- <-. split; [auto|]. split; [auto|]. cbn. intros; lia.
  - injection E as <- <-. destruct (IH v1 v2 _ _ ltac:(lia) ltac:(lia) eq_refl) as (M1 & M2 & H).
    cbn [length]. split; [f_equal; exact M1|]. split; [f_equal; exact M2|].
    intros [|i] Hi; cbn [nth curve].
    + apply bb_step_ok. rewrite <- surjective_pairing. unfold o3, o2. cbn. f_equal; [ring|ring].
    + apply H. lia.
Qed.

(** * boundary integrals *)
Lemma is_RInt_poly k0 k1 k2 k3 k4 k5 : is_RInt (fun t => k0 + k1 * t + k2 * t ^ 2 + k3 * t ^ 3 + k4 * t ^ 4 + k5 * t ^ 5) 0 1
  (k0 + k1 / 2 + k2 / 3 + k3 / 4 + k4 / 5 + k5 / 6).
Proof.
  evar_last.
  - apply (is_RInt_derive (fun t => k0 * t + k1 * t ^ 2 / 2 + k2 * t ^ 3 / 3 + k3 * t ^ 4 / 4 + k4 * t ^ 5 / 5 + k5 * t ^ 6 / 6)).
    + intros x _. auto_derive; [auto|]. field.
    + intros x _. apply (ex_derive_continuous (fun t : R => k0 + k1 * t + k2 * t ^ 2 + k3 * t ^ 3 + k4 * t ^ 4 + k5 * t ^ 5)). auto_derive. auto.
  - unfold minus, plus, opp. cbn. field.
Qed.
Lemma RInt_poly f k0 k1 k2 k3 k4 k5 I : (forall t, f t = k0 + k1 * t + k2 * t ^ 2 + k3 * t ^ 3 + k4 * t ^ 4 + k5 * t ^ 5) ->
  I = k0 + k1 / 2 + k2 / 3 + k3 / 4 + k4 / 5 + k5 / 6 -> is_RInt f 0 1 I.
Proof.
  intros Ef ->. eapply is_RInt_ext; [|apply is_RInt_poly]. intros t _. rewrite Ef. reflexivity.
Qed.
Lemma curve_Derive_x v0 v1 v2 t : Derive (fun s => fst (curve2 v0 v1 v2 s)) t = (4 * t - 3) * (fst v0 - fst v2) + (4 * t - 1) * (fst v1 - fst v2).
Proof. apply lag_Derive. Qed.
Lemma curve_Derive_y v0 v1 v2 t : Derive (fun s => snd (curve2 v0 v1 v2 s)) t = (4 * t - 3) * (snd v0 - snd v2) + (4 * t - 1) * (snd v1 - snd v2).
Proof. apply lag_Derive. Qed.
Lemma along_Derive_x v0 v1 t : Derive (fun s => fst (along2 v0 v1 s)) t = fst v1 - fst v0.
Proof. apply is_derive_unique. unfold along2. cbn [fst]. auto_derive; [auto|]. ring. Qed.
Lemma along_Derive_y v0 v1 t : Derive (fun s => snd (along2 v0 v1 s)) t = snd v1 - snd v0.
Proof. apply is_derive_unique. unfold along2. cbn [snd]. auto_derive; [auto|]. ring. Qed.
Lemma enclosed_val v0 v1 v2 : enclosedArea RA v0 v1 v2 = 2 / 3 * ((fst v2 - fst v0) * (snd v1 - snd v0) - (snd v2 - snd v0) * (fst v1 - fst v0)).
Proof. unfold enclosedArea. rewrite cross2_R. unfold psub, o2, o3. cbn. field. Qed.
Lemma green_curve v0 v1 v2 : green (curve2 v0 v1 v2) (cr v0 v1 / 2 + enclosedArea RA v0 v1 v2).
Proof.
  rewrite enclosed_val. unfold green, cr. destruct v0 as [x0 y0], v1 as [x1 y1], v2 as [x2 y2].
  set (bx := 3 * (x2 - x0) + (x2 - x1)). set (ax := -2 * ((x2 - x0) + (x2 - x1))).
  set (by_ := 3 * (y2 - y0) + (y2 - y1)). set (ay := -2 * ((y2 - y0) + (y2 - y1))).
  apply (RInt_poly _ ((x0 * by_ - y0 * bx) / 2) (x0 * ay - y0 * ax) ((bx * ay - by_ * ax) / 2) 0 0 0).
  - intros t. rewrite curve_Derive_x, curve_Derive_y. unfold curve2. cbn [fst snd]. rewrite !lag_poly. unfold ax, ay, bx, by_. field.
  - unfold ax, ay, bx, by_. cbn [fst snd]. field.
Qed.
Lemma green_chord v0 v1 : green (along2 v0 v1) (cr v0 v1 / 2).
Proof.
  unfold green, cr. destruct v0 as [x0 y0], v1 as [x1 y1].
  apply (RInt_poly _ ((x0 * y1 - y0 * x1) / 2) 0 0 0 0 0).
  - intros t. rewrite along_Derive_x, along_Derive_y. unfold along2. cbn [fst snd]. field.
  - cbn [fst snd]. field.
Qed.
Lemma enclosed_ok v0 v1 v2 : exists Ic Il, green (curve2 v0 v1 v2) Ic /\ green (along2 v0 v1) Il /\ enclosedArea RA v0 v1 v2 = Ic - Il.
Proof. do 2 eexists. split; [apply green_curve|]. split; [apply green_chord|]. ring. Qed.
Lemma enclosedCentroid_val v0 v1 v2 : v0 <> v1 -> enclosedCentroid RA v0 v1 v2 =
  ((3 * (fst v0 + fst v1) + 4 * fst v2) / 10, (3 * (snd v0 + snd v1) + 4 * snd v2) / 10).
Proof.
  intros Hn. destruct v0 as [x0 y0], v1 as [x1 y1], v2 as [x2 y2]. unfold enclosedCentroid, psub, pdivs, psq, pdot, pscale, padd, o8, o4, o3, o2. cbn.
  set (u := x1 - x0). set (w := y1 - y0). set (N := sqrt (u * u + w * w)).
  assert (P : 0 < u * u + w * w).
  { destruct (Req_dec u 0) as [Eu|Eu]; [destruct (Req_dec w 0) as [Ew|Ew]|].
    - exfalso. apply Hn. unfold u in Eu. unfold w in Ew. f_equal; lra.
    - apply Rplus_le_lt_0_compat; [apply Rle_0_sqr|apply Rlt_0_sqr; auto].
    - apply Rplus_lt_le_0_compat; [apply Rlt_0_sqr; auto|apply Rle_0_sqr]. }
  assert (S : N * N = u * u + w * w) by (apply sqrt_sqrt; lra).
  assert (NP : 0 < N) by (apply sqrt_lt_R0; auto).
  assert (I : / (N * N) * (u * u + w * w) = 1) by (rewrite S; field; lra).
  f_equal.
  - replace x1 with (u + x0) by (unfold u; ring).
    transitivity (x0 + (3 * u + 4 * (x2 - x0)) / 10 * (/ (N * N) * (u * u + w * w))); [field; lra|]. rewrite I. field.
  - replace y1 with (w + y0) by (unfold w; ring).
    transitivity (y0 + (3 * w + 4 * (y2 - y0)) / 10 * (/ (N * N) * (u * u + w * w))); [field; lra|]. rewrite I. field.
Qed.
Lemma centroid_moments v0 v1 v2 : v0 <> v1 -> exists Xc Xl Yc Yl,
  green_x (curve2 v0 v1 v2) Xc /\ green_x (along2 v0 v1) Xl /\ green_y (curve2 v0 v1 v2) Yc /\ green_y (along2 v0 v1) Yl /\
  enclosedArea RA v0 v1 v2 * fst (enclosedCentroid RA v0 v1 v2) = Xc - Xl /\
  enclosedArea RA v0 v1 v2 * snd (enclosedCentroid RA v0 v1 v2) = Yc - Yl.
Proof.
  intros Hn. rewrite (enclosedCentroid_val v0 v1 v2 Hn), enclosed_val. destruct v0 as [x0 y0], v1 as [x1 y1], v2 as [x2 y2]. cbn [fst snd].
  set (bx := 3 * (x2 - x0) + (x2 - x1)). set (ax := -2 * ((x2 - x0) + (x2 - x1))).
  set (by_ := 3 * (y2 - y0) + (y2 - y1)). set (ay := -2 * ((y2 - y0) + (y2 - y1))).
  do 4 eexists. split; [|split; [|split; [|split]]].
  - apply (RInt_poly _ (x0 * x0 * by_ / 2) (x0 * x0 * ay + x0 * bx * by_)
       ((2 * x0 * bx * 2 * ay + (bx * bx + 2 * x0 * ax) * by_) / 2) ((bx * bx + 2 * x0 * ax) * ay + bx * ax * by_)
       (2 * bx * ax * ay + ax * ax * by_ / 2) (ax * ax * ay)); [|reflexivity].
    intros t. rewrite curve_Derive_y. unfold curve2. cbn [fst snd]. rewrite !lag_poly. unfold ax, ay, bx, by_. field.
  - apply (RInt_poly _ (x0 * x0 * (y1 - y0) / 2) (x0 * (x1 - x0) * (y1 - y0)) ((x1 - x0) * (x1 - x0) * (y1 - y0) / 2) 0 0 0); [|reflexivity].
    intros t. rewrite along_Derive_y. unfold along2. cbn [fst snd]. field.
  - apply (RInt_poly _ (- (y0 * y0 * bx / 2)) (- (y0 * y0 * ax + y0 * by_ * bx))
       (- ((2 * y0 * by_ * 2 * ax + (by_ * by_ + 2 * y0 * ay) * bx) / 2)) (- ((by_ * by_ + 2 * y0 * ay) * ax + by_ * ay * bx))
       (- (2 * by_ * ay * ax + ay * ay * bx / 2)) (- (ay * ay * ax))); [|reflexivity].
    intros t. rewrite curve_Derive_x. unfold curve2. cbn [fst snd]. rewrite !lag_poly. unfold ax, ay, bx, by_. field.
  - apply (RInt_poly _ (- (y0 * y0 * (x1 - x0) / 2)) (- (y0 * (y1 - y0) * (x1 - x0))) (- ((y1 - y0) * (y1 - y0) * (x1 - x0) / 2)) 0 0 0); [|reflexivity].
    intros t. rewrite along_Derive_x. unfold along2. cbn [fst snd]. field.
  - unfold ax, ay, bx, by_. split; field.
Qed.
Lemma curvesLeft_ok v0 v1 v2 : curvesLeft RA v0 v1 v2 = true <-> 0 <= enclosedArea RA v0 v1 v2.
Proof. unfold curvesLeft. rewrite areCCW_R, enclosed_val. unfold orient. lra. Qed.

Lemma interpolates_ok v0 v1 v2 : length v0 = length v1 -> length v0 = length v2 ->
  (forall r, qs_at RA v0 v1 v2 r = curve v0 v1 v2 r) /\
  qs_at RA v0 v1 v2 0 = v0 /\ qs_at RA v0 v1 v2 1 = v1 /\ qs_at RA v0 v1 v2 (/2) = v2.
Proof. intros L1 L2. split; [intros; apply qs_at_ok|]. rewrite !qs_at_ok. now apply curve_vertices. Qed.
Lemma forms_ok v0 : forall v1 v2 C B A, length v0 = length v1 -> length v0 = length v2 ->
  qs_poly RA v0 v1 v2 = (C, B, A) ->
  length C = length v0 /\ length B = length v0 /\ length A = length v0 /\ length (qs_bezier RA v0 v1 v2) = length v0 /\
  forall r i, (i < length v0)%nat ->
    nth i (curve v0 v1 v2 r) 0 = nth i C 0 + r * nth i B 0 + r * r * nth i A 0 /\
    nth i (curve v0 v1 v2 r) 0 = bez (nth i v0 0) (nth i (qs_bezier RA v0 v1 v2) 0) (nth i v1 0) r.
Proof.
  unfold qs_poly, qs_bezier, vadd, vscale, vsub, vdivs.
  induction v0 as [|a v0 IH]; intros [|b v1] [|c v2] C B A L1 L2 E; cbn in L1, L2; try discriminate; cbn [map map2 curve] in *.
  - injection E as <- <- <-. do 4 (split; [auto|]). cbn. intros; lia.
  - injection E as <- <- <-. destruct (IH v1 v2 _ _ _ ltac:(lia) ltac:(lia) eq_refl) as (M1 & M2 & M3 & M4 & H). cbn [map map2 length].
    do 4 (split; [auto|]). intros r [|i] Hi; cbn [nth].
    + unfold lag, bez, o2, o3; cbn. split; field.
    + apply H. lia.
Qed.

Lemma straight_meaning eps2 v0 v1 v2 : isStraight RA eps2 v0 v1 v2 = true <->
  dsq v0 v2 < dsq v0 v1 /\ exists k, dsq v2 (along2 v0 v1 k) < eps2.
Proof.
  destruct v0 as [x0 y0], v1 as [x1 y1], v2 as [x2 y2]. unfold isStraight, psub. unfold psq, pdot. cbn [RA Rarith osub omul oadd fst snd].
  assert (D1 : dsq (x0, y0) (x1, y1) = (x1 - x0) * (x1 - x0) + (y1 - y0) * (y1 - y0)) by (unfold dsq; cbn; ring).
  assert (D2 : dsq (x0, y0) (x2, y2) = (x2 - x0) * (x2 - x0) + (y2 - y0) * (y2 - y0)) by (unfold dsq; cbn; ring).
  rewrite D1, D2. set (L := (x1 - x0) * (x1 - x0) + (y1 - y0) * (y1 - y0)). set (M := (x2 - x0) * (x2 - x0) + (y2 - y0) * (y2 - y0)).
  destruct (oleb RA L M) eqn:E.
  - apply oleb_R in E. split; [discriminate|]. intros (X & _). lra.
  - assert (HL : M < L). { destruct (Rlt_le_dec M L) as [X|X]; [exact X|]. apply oleb_R in X. congruence. }
    assert (HM : 0 <= M) by (unfold M; apply Rplus_le_le_0_compat; apply Rle_0_sqr). rewrite cross2_R. cbn [RA Rarith omul odiv oltb]. rewrite Rltb_true. cbn [fst snd].
    set (c := (x1 - x0) * (y2 - y0) - (y1 - y0) * (x2 - x0)). set (q := (x2 - x0) * (x1 - x0) + (y2 - y0) * (y1 - y0)).
    assert (G : forall k, dsq (x2, y2) (along2 (x0, y0) (x1, y1) k) = c * c / L + (k * L - q) * (k * L - q) / L).
    { intros k. unfold dsq, along2. cbn [fst snd]. unfold c, q. fold L. assert (L <> 0) by lra. unfold L in *. field. exact H. }
    split.
    + intros H. split; [exact HL|]. exists (q / L). rewrite G. replace (q / L * L - q) with 0 by (field; lra). unfold Rdiv at 2. lra.
    + intros (_ & k & H). rewrite G in H. assert (0 <= (k * L - q) * (k * L - q) / L) by (apply Rmult_le_pos; [apply Rle_0_sqr|]; apply Rlt_le, Rinv_0_lt_compat; lra). lra.
Qed.
