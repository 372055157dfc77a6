From Coq Require Import List Arith ZArith Reals Lia Lra Bool Psatz.
From Verif Require Import Base Loops Arith Vec_Model Vec_Proofs XReal Box_Model Box_Proofs Seg_Model Seg_Spec.
Import ListNotations.
Local Open Scope R_scope.
Notation RA := Rarith.

Lemma sq_pos x : 0 <= x * x. Proof. apply Rle_0_sqr. Qed.
Lemma sq_zero x : x * x = 0 -> x = 0. Proof. apply Rsqr_0_uniq. Qed.
(** dot as a sum *)
Fixpoint dotp (u v : list R) : R := match u, v with x :: u', y :: v' => x * y + dotp u' v' | _, _ => 0 end.
Lemma fold_dot l : forall a, fold_left (fun s p => oadd RA s (omul RA (fst p) (snd p))) l a =
  a + fold_right (fun p s => fst p * snd p + s) 0 l.
Proof. induction l as [|p l IH]; intros a; cbn; [lra|]. rewrite IH. cbn. lra. Qed.
Lemma dotp_combine u : forall v, dotp u v = fold_right (fun p s => fst p * snd p + s) 0 (combine u v).
Proof. induction u as [|x u IH]; intros [|y v]; cbn; auto. now rewrite IH. Qed.
Lemma dot_ok u v : u <> [] -> length u = length v -> dot RA u v = Ret (dotp u v).
Proof.
  destruct u as [|x u]; [congruence|]. destruct v as [|y v]; [discriminate|]. intros _ _.
  unfold dot. rewrite fold_dot. cbn [dotp]. rewrite dotp_combine. reflexivity.
Qed.
Lemma seg_at_along a : forall b t, seg_at RA a b t = along a b t.
Proof.
  unfold seg_at, vadd, vscale, vsub. induction a as [|x a IH]; intros [|y b] t; cbn; auto. f_equal; [lra|apply IH].
Qed.
Lemma sqdist_dot u : forall v, sqdist u v = dotp (vsub RA u v) (vsub RA u v).
Proof. induction u as [|x u IH]; intros [|y v]; cbn; auto. f_equal. apply IH. Qed.
Lemma sqdist_pos u : forall v, 0 <= sqdist u v.
Proof. induction u as [|x u IH]; intros [|y v]; cbn; try lra. specialize (IH v). pose proof (sq_pos (x - y)). lra. Qed.
Lemma sqdist_zero u : forall v, length u = length v -> (sqdist u v = 0 <-> u = v).
Proof.
  induction u as [|x u IH]; intros [|y v] E; cbn in *; try lia; [tauto|].
  pose proof (sqdist_pos u v). specialize (IH v ltac:(lia)). split.
  - intros Hs. pose proof (sq_pos (x - y)). assert (sqdist u v = 0) by lra. assert (x - y = 0) by (apply sq_zero; lra). f_equal; [lra|tauto].
  - intros E'. injection E' as -> ->. rewrite (proj2 IH eq_refl). lra.
Qed.
Lemma along_sq a : forall b p t, length a = length b -> length a = length p ->
  sqdist (along a b t) p = dotp (vsub RA b a) (vsub RA b a) * (t * t) - 2 * t * dotp (vsub RA p a) (vsub RA b a) + sqdist p a.
Proof.
  unfold vsub. induction a as [|x a IH]; intros [|y b] [|z p] t E1 E2; cbn in *; try lia; [lra|].
  rewrite (IH b p t) by lia. lra.
Qed.
Lemma along_length a : forall b t, length a = length b -> length (along a b t) = length a.
Proof. induction a as [|x a IH]; intros [|y b] t E; cbn in *; try lia. now rewrite IH by lia. Qed.
Lemma length_vsub u v : length u = length v -> length (vsub RA u v) = length u.
Proof. apply map2_length. Qed.
Lemma vsub_nonnil u v : u <> [] -> length u = length v -> vsub RA u v <> [].
Proof. destruct u, v; cbn; congruence. Qed.
Lemma clamp_1 q : let r := clamp RA q 0 1 in 0 <= r <= 1 /\ (q < 0 -> r = 0) /\ (1 < q -> r = 1) /\ (0 <= q <= 1 -> r = q).
Proof.
  unfold clamp. cbn [oltb Rarith]. unfold Rltb.
  destruct (Rlt_dec q 0) as [A|A]; [|destruct (Rlt_dec 1 q) as [B|B]]; cbv zeta; repeat split; intros; lra.
Qed.
Lemma clamp_01 q : let r := clamp RA (clamp RA q 0 1) 0 1 in 0 <= r <= 1 /\ (q < 0 -> r = 0) /\ (1 < q -> r = 1) /\ (0 <= q <= 1 -> r = q).
Proof.
  destruct (clamp_1 q) as (A & B & C & D). destruct (clamp_1 (clamp RA q 0 1)) as (_ & _ & _ & E).
  cbv zeta. rewrite (E A). auto.
Qed.

Lemma closest_ok a b p : a <> b -> length a = length b -> length a = length p ->
  exists r d2 d, pointClosestTo RA a b p = Ret r /\ 0 <= r <= 1 /\
    (forall t, 0 <= t <= 1 -> t <> r -> sqdist (along a b r) p < sqdist (along a b t) p) /\
    seg_squaredDistanceTo RA a b p = Ret d2 /\ d2 = sqdist (along a b r) p /\
    seg_distanceTo RA a b p = Ret d /\ d = sqrt d2 /\
    (d = 0 <-> exists t, 0 <= t <= 1 /\ p = along a b t).
Proof.
  intros Hne E1 E2.
  assert (Hnn : b <> []) by (destruct a, b; cbn in *; congruence).
  assert (Ha : a <> []) by (destruct a, b; cbn in *; congruence).
  assert (Hp : p <> []) by (destruct a, p; cbn in *; congruence).
  set (ab := vsub RA b a). set (N := dotp ab ab). set (D := dotp (vsub RA p a) ab).
  assert (HN : 0 < N).
  { unfold N, ab. rewrite <- sqdist_dot. pose proof (sqdist_pos b a). destruct (Req_dec (sqdist b a) 0) as [Z|Z]; [|lra].
    apply sqdist_zero in Z; congruence. }
  unfold seg_distanceTo, seg_squaredDistanceTo, pointClosestTo. fold ab.
  rewrite dot_ok; [|apply vsub_nonnil; congruence|unfold ab; rewrite !length_vsub; congruence].
  unfold squaredNorm. rewrite dot_ok; [|apply vsub_nonnil; congruence|reflexivity]. cbn [bind].
  fold D N. change (odiv RA D N) with (D / N). cbn [o0 o1 Rarith]. fold RA.
  set (q := D / N). set (r := clamp RA (clamp RA q 0 1) 0 1).
  destruct (clamp_01 q) as (R1 & R2 & R3 & R4). fold r in R1, R2, R3, R4.
  assert (Hq : D = q * N) by (unfold q; field; lra).
  assert (Hmin : forall t, 0 <= t <= 1 -> t <> r -> sqdist (along a b r) p < sqdist (along a b t) p).
  { intros t Ht Htr. rewrite !along_sq by auto. fold ab N D. rewrite Hq.
    assert (K : (r - q) * (r - q) < (t - q) * (t - q)).
    { destruct (Rlt_dec q 0) as [L|L]; [rewrite (R2 L) in *; nra|].
      destruct (Rlt_dec 1 q) as [L'|L']; [rewrite (R3 L') in *; nra|]. rewrite R4 in * by lra.
      assert (t - q <> 0) by lra. nra. }
    nra. }
  exists r, (sqdist (along a b r) p), (sqrt (sqdist (along a b r) p)).
  assert (El : length (along a b r) = length a).
  { now apply along_length. }
  assert (E2d : squaredDistanceTo RA (seg_at RA a b r) p = Ret (sqdist (along a b r) p)).
  { unfold squaredDistanceTo, squaredNorm. rewrite seg_at_along, dot_ok, sqdist_dot; auto.
    apply vsub_nonnil; [|congruence]. intros Z. rewrite Z in El. cbn in El. destruct a; cbn in *; congruence. }
  split; [auto|]. split; [auto|]. split; [auto|]. rewrite E2d. cbn [bind].
  do 4 (split; [reflexivity|]).
  pose proof (sqdist_pos (along a b r) p) as Hpos.
  assert (Es : sqrt (sqdist (along a b r) p) = 0 <-> sqdist (along a b r) p = 0).
  { split; intros Z; [now apply sqrt_eq_0|rewrite Z; apply sqrt_0]. }
  rewrite Es. split.
  - intros Z. exists r. split; [auto|]. apply sqdist_zero in Z; [auto|congruence].
  - intros (t & Ht & ->). destruct (Req_dec t r) as [Et|Ne].
    + rewrite <- Et. now apply (proj2 (sqdist_zero _ _ eq_refl)).
    + specialize (Hmin t Ht Ne). rewrite (proj2 (sqdist_zero (along a b t) _ eq_refl) eq_refl) in Hmin. lra.
Qed.

Lemma rotation_seg_ok x0 y0 x1 y1 : (x0, y0) <> (x1, y1) ->
  exists m L, getRotation RA [x0; y0] [x1; y1] = Ret m /\ seg_length RA [x0; y0] [x1; y1] = Ret L /\ 0 < L /\
    L * L = (x1 - x0) * (x1 - x0) + (y1 - y0) * (y1 - y0) /\
    mat_vec RA 2 2 m [x1 - x0; y1 - y0] = Ret [L; 0] /\
    (forall x y, exists x' y', mat_vec RA 2 2 m [x; y] = Ret [x'; y'] /\ x' * x' + y' * y' = x * x + y * y) /\
    (exists a b c d, m = [[a; c]; [b; d]] /\ a * d - b * c = 1).
Proof.
  intros Hne. unfold getRotation, normalized, norm, seg_length, distanceTo, squaredDistanceTo, squaredNorm, vsub, map2, dot.
  cbn [combine fold_left bind fst snd Rarith osub oadd omul osqrt oopp].
  set (dx := x1 - x0). set (dy := y1 - y0).
  assert (Hpos : 0 < dx * dx + dy * dy).
  { destruct (Req_dec dx 0) as [E|E]; [destruct (Req_dec dy 0) as [E'|E']|].
    - exfalso. apply Hne. unfold dx, dy in *. f_equal; lra.
    - nra.
    - nra. }
  set (L := sqrt (dx * dx + dy * dy)).
  assert (HL : 0 < L) by (now apply sqrt_lt_R0).
  assert (HLL : L * L = dx * dx + dy * dy) by (apply sqrt_sqrt; lra).
  replace ((x0 - x1) * (x0 - x1) + (y0 - y1) * (y0 - y1)) with (dx * dx + dy * dy) by (unfold dx, dy; ring).
  fold L. unfold vdivs. cbn [map rd nth_error bind Rarith odiv oopp].
  do 2 eexists. split; [reflexivity|]. split; [reflexivity|]. split; [auto|]. split; [auto|].
  assert (Q : dx / L * (dx / L) + dy / L * (dy / L) = 1).
  { replace (dx / L * (dx / L) + dy / L * (dy / L)) with ((dx * dx + dy * dy) / (L * L)) by (field; lra). rewrite HLL. field. lra. }
  split; [|split].
  - unfold mat_vec, for_. cbn. f_equal. f_equal; [|f_equal].
    + replace (0 + dx / L * dx + dy / L * dy) with ((dx * dx + dy * dy) / L) by (field; lra). rewrite <- HLL. field. lra.
    + field. lra.
  - intros x y. unfold mat_vec, for_. cbn. do 2 eexists. split; [reflexivity|].
    replace ((0 + dx / L * x + dy / L * y) * (0 + dx / L * x + dy / L * y) +
      (0 + - (dy / L) * x + dx / L * y) * (0 + - (dy / L) * x + dx / L * y)) with ((dx / L * (dx / L) + dy / L * (dy / L)) * (x * x + y * y)) by ring.
    rewrite Q. ring.
  - exists (dx / L), (dy / L), (- (dy / L)), (dx / L). split; [reflexivity|]. lra.
Qed.

(** * the plane, over the reals *)
Lemma cross2_R u v : cross2 RA u v = fst u * snd v - snd u * fst v.
Proof. unfold cross2. now rewrite det_R. Qed.
Lemma oleb_R a b : oleb RA a b = true <-> a <= b.
Proof.
  unfold oleb. cbn [Rarith oltb oeqb]. rewrite orb_true_iff, Box_Proofs.Rltb_true, Box_Proofs.Reqb_true. lra.
Qed.
Lemma areCCW_R a b c : areCCW RA a b c = true <-> 0 <= orient a b c.
Proof. unfold areCCW. rewrite oleb_R, cross2_R. unfold psub, orient. cbn. tauto. Qed.

(** * extended reals: a finite value *)
Definition xfin (x : xr) (r : R) : Prop := x = Fin r \/ (x = NZero /\ r = 0).
Lemma xfin_Fin r : xfin (Fin r) r. Proof. now left. Qed.
Lemma xfin_opp x r : xfin x r -> xfin (xopp x) (- r).
Proof.
  intros [->|[-> ->]]; cbn.
  - destruct (Reqb r 0) eqn:E; [apply Box_Proofs.Reqb_true in E; right; split; [auto|lra]|now left].
  - left. f_equal. lra.
Qed.
Lemma xfin_add x y a b : xfin x a -> xfin y b -> xfin (xadd x y) (a + b).
Proof. intros [->|[-> ->]] [->|[-> ->]]; cbn; try (left; f_equal; lra). right. split; [auto|lra]. Qed.
Lemma xfin_sub x y a b : xfin x a -> xfin y b -> xfin (xsub x y) (a - b).
Proof. intros Hx Hy. unfold xsub. apply xfin_add; [auto|now apply xfin_opp]. Qed.
Lemma xfin_mul x y a b : xfin x a -> xfin y b -> xfin (xmul x y) (a * b).
Proof. intros [->|[-> ->]] [->|[-> ->]]; cbn; left; f_equal; lra. Qed.
Lemma xfin_det a b c d a' b' c' d' : xfin a a' -> xfin b b' -> xfin c c' -> xfin d d' ->
  xfin (det2x2 Xarith a b c d) (a' * d' - b' * c').
Proof.
  intros Ha Hb Hc Hd. unfold det2x2. cbn [Xarith omul ofma oopp oadd].
  replace (a' * d' - b' * c') with ((a' * d' + - (b' * c')) + (- b' * c' + b' * c')) by ring.
  repeat (apply xfin_add || apply xfin_mul || apply xfin_opp); auto.
Qed.
Lemma xfin_div x y a b : xfin x a -> xfin y b -> b <> 0 -> xfin (xdiv x y) (a / b).
Proof.
  intros Hx [->|[-> ->]] Hb; [|lra].
  assert (E : xdiv x (Fin b) = xmul x (Fin (/ b))).
  { assert (Q : Reqb b 0 = false) by (now apply Box_Proofs.Reqb_false). destruct Hx as [->|[-> ->]]; cbn; now rewrite Q. }
  rewrite E. apply xfin_mul; [auto|apply xfin_Fin].
Qed.
Lemma xdiv_zero x y a : xfin x a -> xfin y 0 -> (exists s, xdiv x y = Inf s) \/ xdiv x y = NaN.
Proof.
  intros Hx Hy. assert (Hi : exists s, xinv y = Inf s).
  { destruct Hy as [->|[-> _]]; cbn; [|eauto]. rewrite (proj2 (Box_Proofs.Reqb_true 0 0)) by auto. eauto. }
  destruct Hi as [s Hi]. destruct Hx as [->|[-> ->]]; unfold xdiv; rewrite Hi; cbn; auto.
  destruct (Reqb a 0); eauto.
Qed.
Lemma xleb_fin x y a b : xfin x a -> xfin y b -> (oleb Xarith x y = true <-> a <= b).
Proof.
  intros [->|[-> ->]] [->|[-> ->]]; unfold oleb; cbn; rewrite ?orb_true_iff, ?Box_Proofs.Rltb_true, ?Box_Proofs.Reqb_true; intuition (try lra; try discriminate).
Qed.

Lemma seg_intersect_ok v0 v1 ro rd :
  let '(x, n) := seg_intersect Xarith (Fin2 v0) (Fin2 v1) (Fin2 ro) (Fin2 rd) in
  (~ parallel (fst v1 - fst v0, snd v1 - snd v0) rd ->
    (n = 1%nat /\ exists r s, xfin x r /\ 0 <= r /\ 0 <= s <= 1 /\ ray2 ro rd r = along2 v0 v1 s /\
       forall r' s', ray2 ro rd r' = along2 v0 v1 s' -> r' = r /\ s' = s) \/
    (n = 0%nat /\ forall r s, 0 <= r -> 0 <= s <= 1 -> ray2 ro rd r <> along2 v0 v1 s)) /\
  (parallel (fst v1 - fst v0, snd v1 - snd v0) rd -> n = 0%nat).
Proof.
  unfold seg_intersect. destruct v0 as [x0 y0], v1 as [x1 y1], ro as [ox oy], rd as [dx dy].
  unfold Fin2, psub, cross2, parallel. cbn [fst snd Xarith osub].
  rewrite !xsub_Fin. fold Xarith.
  set (vx := x1 - x0). set (vy := y1 - y0). set (ux := ox - x0). set (uy := oy - y0).
  pose proof (xfin_det _ _ _ _ _ _ _ _ (xfin_Fin vx) (xfin_Fin vy) (xfin_Fin dx) (xfin_Fin dy)) as Hz.
  pose proof (xfin_det _ _ _ _ _ _ _ _ (xfin_Fin ux) (xfin_Fin uy) (xfin_Fin dx) (xfin_Fin dy)) as Hs.
  pose proof (xfin_det _ _ _ _ _ _ _ _ (xfin_Fin ux) (xfin_Fin uy) (xfin_Fin vx) (xfin_Fin vy)) as Hr.
  set (zx := det2x2 Xarith (Fin vx) (Fin vy) (Fin dx) (Fin dy)) in *.
  set (sx := det2x2 Xarith (Fin ux) (Fin uy) (Fin dx) (Fin dy)) in *.
  set (rx := det2x2 Xarith (Fin ux) (Fin uy) (Fin vx) (Fin vy)) in *.
  set (z := vx * dy - vy * dx) in *. cbn [odiv o0 o1 Xarith]. fold Xarith.
  split.
  - intros Hnp. assert (Hz0 : z <> 0) by (unfold z; lra).
    pose proof (xfin_div _ _ _ _ Hs Hz Hz0) as Fs. pose proof (xfin_div _ _ _ _ Hr Hz Hz0) as Fr.
    set (s := (ux * dy - uy * dx) / z) in *. set (r := (ux * vy - uy * vx) / z) in *.
    assert (Sz : s * z = ux * dy - uy * dx) by (unfold s; field; auto).
    assert (Rz : r * z = ux * vy - uy * vx) by (unfold r; field; auto).
    assert (Hon : ray2 (ox, oy) (dx, dy) r = along2 (x0, y0) (x1, y1) s).
    { unfold ray2, along2. cbn [fst snd]. fold vx vy.
      assert (X : (ox + r * dx - (x0 + s * vx)) * z = 0).
      { replace ((ox + r * dx - (x0 + s * vx)) * z) with (ux * z + (r * z) * dx - (s * z) * vx) by (unfold ux; ring).
        rewrite Rz, Sz. unfold z. ring. }
      assert (Y : (oy + r * dy - (y0 + s * vy)) * z = 0).
      { replace ((oy + r * dy - (y0 + s * vy)) * z) with (uy * z + (r * z) * dy - (s * z) * vy) by (unfold uy; ring).
        rewrite Rz, Sz. unfold z. ring. }
      apply Rmult_integral in X as [X|X]; [|lra]. apply Rmult_integral in Y as [Y|Y]; [|lra]. f_equal; lra. }
    assert (Hun : forall r' s', ray2 (ox, oy) (dx, dy) r' = along2 (x0, y0) (x1, y1) s' -> r' = r /\ s' = s).
    { intros r' s' E. unfold ray2, along2 in E. cbn [fst snd] in E. fold vx vy in E. injection E as E1 E2.
      assert (U1 : ux = s' * vx - r' * dx) by (unfold ux; lra).
      assert (U2 : uy = s' * vy - r' * dy) by (unfold uy; lra).
      split; apply Rmult_eq_reg_r with z; auto.
      - rewrite Rz, U1, U2. unfold z. ring.
      - rewrite Sz, U1, U2. unfold z. ring. }
    pose proof (xleb_fin _ _ _ _ (xfin_Fin 0) Fs) as L1. pose proof (xleb_fin _ _ _ _ Fs (xfin_Fin 1)) as L2.
    pose proof (xleb_fin _ _ _ _ (xfin_Fin 0) Fr) as L3.
    destruct (oleb Xarith (Fin 0) (xdiv sx zx) && oleb Xarith (xdiv sx zx) (Fin 1) && oleb Xarith (Fin 0) (xdiv rx zx)) eqn:E.
    + left. split; [auto|]. apply andb_prop in E as [E E3]. apply andb_prop in E as [E1 E2].
      exists r, s. split; [auto|]. rewrite L1 in E1. rewrite L2 in E2. rewrite L3 in E3. auto.
    + right. split; [auto|]. intros r' s' Hr' Hs' E'. destruct (Hun r' s' E') as [-> ->].
      rewrite (proj2 L1), (proj2 L2), (proj2 L3) in E by lra. discriminate.
  - intros Hp. assert (Hz0 : z = 0) by (unfold z; lra). rewrite Hz0 in Hz.
    destruct (xdiv_zero _ _ _ Hs Hz) as [[[] Es]|Es]; rewrite Es; reflexivity.
Qed.

Lemma isLeft_ok v0 v1 p : v0 <> v1 ->
  (seg_isLeft RA v0 v1 p = true <->
   exists s t, 0 <= t /\ p = (fst v0 + s * (fst v1 - fst v0) - t * (snd v1 - snd v0),
                              snd v0 + s * (snd v1 - snd v0) + t * (fst v1 - fst v0))).
Proof.
  intros Hne. unfold seg_isLeft. rewrite areCCW_R. destruct v0 as [x0 y0], v1 as [x1 y1], p as [x y]. unfold orient. cbn [fst snd].
  set (vx := x1 - x0). set (vy := y1 - y0).
  assert (Hpos : 0 < vx * vx + vy * vy).
  { pose proof (sq_pos vx). pose proof (sq_pos vy). destruct (Req_dec (vx * vx + vy * vy) 0) as [E|E]; [|lra].
    exfalso. apply Hne. assert (vx = 0) by (apply sq_zero; lra). assert (vy = 0) by (apply sq_zero; lra).
    unfold vx, vy in *. f_equal; lra. }
  set (n := vx * vx + vy * vy) in *. split.
  - intros Ho. exists (((x - x0) * vx + (y - y0) * vy) / n), ((vx * (y - y0) - vy * (x - x0)) / n). split.
    + apply Rmult_le_pos; [auto|]. left. now apply Rinv_0_lt_compat.
    + f_equal; apply Rmult_eq_reg_r with n; try lra; unfold n; field; unfold n in Hpos; lra.
  - intros (s & t & Ht & E). injection E as -> ->.
    replace (vx * (y0 + s * vy + t * vx - y0) - vy * (x0 + s * vx - t * vy - x0)) with (t * n) by (unfold n; ring). nra.
Qed.
