(** Hits in exact arithmetic. *)
From Coq Require Import List Arith ZArith Reals Lia Lra Bool Psatz.
From Verif Require Import Base Loops Arith XReal Vec_Model Vec_Proofs Box_Model Box_Spec Box_Proofs Seg_Model Seg_Spec Seg_Proofs
  Poly_Model Poly_Spec Poly_Proofs QSeg_Model QSeg_Spec QSeg_Proofs QSeg_Near_Proofs QPoly_Model Soup_Model Fvm_Model
  QInt_Model QInt_Spec QInt_Proofs QInt_Poly_Proofs.
Import ListNotations.
Local Open Scope R_scope.

Lemma q_at_ok q r : q_at RA q r = on_curve q r.
Proof. destruct q as [[v0 v1] v2]. apply pqs_at_ok. Qed.
Lemma tol_R eps : err_tol RA eps = 100 * eps.
Proof. unfold err_tol, o100, o64, o8, o4, o2. cbn. ring. Qed.
Lemma approx_R eps a b : approx RA eps a b = true <-> dsq a b < eps * eps.
Proof. unfold approx, eps2. rewrite psq_R. apply Rltb_true. Qed.
Lemma approx_R_false eps a b : approx RA eps a b = false <-> eps * eps <= dsq a b.
Proof. unfold approx, eps2. rewrite psq_R. apply Rltb_false. Qed.

(** the halves are the halves of the curve *)
Lemma left_ok q t : on_curve (left_half RA q) t = on_curve q (t / 2).
Proof.
  destruct q as [[v0 v1] v2]. cbn [left_half on_curve]. rewrite q_at_ok. cbn [on_curve].
  unfold fourth, o4, o2. cbn. unfold curve2, lag. cbn. f_equal; field.
Qed.
Lemma right_ok q t : on_curve (right_half RA q) t = on_curve q ((1 + t) / 2).
Proof.
  destruct q as [[v0 v1] v2]. cbn [right_half on_curve]. rewrite q_at_ok. cbn [on_curve].
  unfold three_fourths, o4, o3, o2. cbn. unfold curve2, lag. cbn. f_equal; field.
Qed.

(** one turn of the Newton iteration *)
Definition step_det (q1 q2 : rseg) (rs : R * R) : R :=
  det2x2 RA (fst (q_jac RA q1 (fst rs))) (- fst (q_jac RA q2 (snd rs))) (snd (q_jac RA q1 (fst rs))) (- snd (q_jac RA q2 (snd rs))).
Definition step_to (j1 j2 : R * R) (det : R) (rs f : R * R) : R * R :=
  psub RA rs (padd RA (padd RA (0, 0) (pscale RA (fst f) (- snd j2 / det, - snd j1 / det)))
    (pscale RA (snd f) (- - fst j2 / det, fst j1 / det))).
Definition step_err (q1 q2 : rseg) (rs : R * R) : R := psq RA (psub RA (q_at RA q1 (fst rs)) (q_at RA q2 (snd rs))).
Lemma newton_S n q1 q2 rs f err : newton RA (S n) q1 q2 rs f err =
  if oeqb RA (step_det q1 q2 rs) 0 then None
  else
    let rs1 := step_to (q_jac RA q1 (fst rs)) (q_jac RA q2 (snd rs)) (step_det q1 q2 rs) rs f in
    if (oltb RA (step_err q1 q2 rs1) err && negb (n =? 0)%nat)%bool
    then newton RA n q1 q2 rs1 (psub RA (q_at RA q1 (fst rs1)) (q_at RA q2 (snd rs1))) (step_err q1 q2 rs1)
    else Some (rs1, step_err q1 q2 rs1).
Proof. reflexivity. Qed.
Lemma step_err_ok q1 q2 rs : step_err q1 q2 rs = dsq (on_curve q1 (fst rs)) (on_curve q2 (snd rs)).
Proof. unfold step_err. now rewrite psq_R, !q_at_ok. Qed.

(** * soundness *)
Lemma newton_err n : forall q1 q2 rs f err rs' err', err = dsq (on_curve q1 (fst rs)) (on_curve q2 (snd rs)) ->
  newton RA n q1 q2 rs f err = Some (rs', err') -> err' = dsq (on_curve q1 (fst rs')) (on_curve q2 (snd rs')).
Proof.
  induction n as [|n IH]; intros q1 q2 rs f err rs' err' H E; [cbn [newton] in E; injection E as <- <-; auto|].
  rewrite newton_S in E. destruct (oeqb RA _ _); [discriminate|]. cbv zeta in E. rewrite !step_err_ok in E.
  destruct (_ && _)%bool.
  - eapply IH; [|exact E]. reflexivity.
  - injection E as <- <-. reflexivity.
Qed.
Lemma leaf_sound eps q1 q2 p : leaf RA eps q1 q2 = Some p -> near_hit (100 * eps) (100 * eps) q1 q2 p.
Proof.
  unfold leaf. rewrite tol_R. destruct (newton _ _ _ _ _ _ _) as [[[r s] err]|] eqn:E; [|discriminate].
  apply newton_err in E; [|rewrite psq_R, !q_at_ok; reflexivity]. cbn [fst snd] in E.
  destruct (_ && _)%bool eqn:B; [|discriminate]. injection 1 as <-.
  rewrite !andb_true_iff in B. destruct B as ((((B1 & B2) & B3) & B4) & B5). apply Rltb_true in B1.
  rewrite oleb_R in B2, B3, B4, B5. cbn in B2, B3, B4, B5. rewrite q_at_ok. exists r, s. rewrite <- E. repeat split; lra.
Qed.
Lemma near_half d t q1 q2 p h1 h2 : 0 <= t ->
  (h1 = left_half RA q1 \/ h1 = right_half RA q1) -> (h2 = left_half RA q2 \/ h2 = right_half RA q2) ->
  near_hit d t h1 h2 p -> near_hit d (t / 2) q1 q2 p.
Proof.
  intros Ht H1 H2 (r & s & Hr & Hs & -> & Hd). unfold near_hit.
  destruct H1 as [->| ->], H2 as [->| ->]; rewrite ?left_ok, ?right_ok in *.
  - exists (r / 2), (s / 2). repeat split; auto; lra.
  - exists (r / 2), ((1 + s) / 2). repeat split; auto; lra.
  - exists ((1 + r) / 2), (s / 2). repeat split; auto; lra.
  - exists ((1 + r) / 2), ((1 + s) / 2). repeat split; auto; lra.
Qed.
Lemma over1 x : x / 1 = x.
Proof. field. Qed.
Lemma pow2 k : 0 < 2 ^ k.
Proof. apply pow_lt. lra. Qed.
Lemma half_pow t k : t / 2 ^ S k = t / 2 ^ k / 2.
Proof. pose proof (pow2 k). cbn [pow]. field. lra. Qed.
Lemma hits_sound eps k : 0 < eps -> forall q1 q2 p, In p (hits RA eps k q1 q2) -> near_hit (100 * eps) (100 * eps / 2 ^ k) q1 q2 p.
Proof.
  intros He. induction k as [|k IH]; intros q1 q2 p Hp; cbn [hits] in Hp; destruct (negb _); try destruct Hp.
  - cbn [pow]. rewrite over1. destruct (leaf RA eps q1 q2) eqn:E; [|destruct Hp]. destruct Hp as [->|[]]. now apply leaf_sound.
  - apply dd_incl in Hp. rewrite half_pow.
    assert (Ht : 0 <= 100 * eps / 2 ^ k) by (apply Rmult_le_pos; [lra|apply Rlt_le, Rinv_0_lt_compat, pow2]).
    rewrite !in_app_iff in Hp. destruct Hp as [Hp|[Hp|[Hp|Hp]]]; apply IH in Hp;
      (eapply near_half; [exact Ht| | |exact Hp]; auto).
Qed.

(** * the search *)
Lemma q_box_ok q : exists x0 y0 x1 y1, q_box RA q = mkBox [x0; y0] [x1; y1] /\ x0 <= x1 /\ y0 <= y1 /\
  forall t, 0 <= t <= 1 -> x0 <= fst (on_curve q t) <= x1 /\ y0 <= snd (on_curve q t) <= y1.
Proof.
  destruct q as [[[a0 a1] [b0 b1]] [c0 c1]]. cbn [q_box comps fst snd].
  destruct (qs_box RA [a0; a1] [b0; b1] [c0; c1]) as [mn mx] eqn:E.
  destruct (box_ok [a0; a1] [b0; b1] [c0; c1] mn mx eq_refl eq_refl E) as (L1 & L2 & H).
  destruct mn as [|x0 [|y0 [|]]]; try discriminate. destruct mx as [|x1 [|y1 [|]]]; try discriminate.
  destruct (H 0%nat ltac:(cbn; lia)) as (H0 & _). destruct (H 1%nat ltac:(cbn; lia)) as (H1 & _). cbn in H0, H1.
  exists x0, y0, x1, y1. split; [auto|]. pose proof (H0 0 ltac:(lra)). pose proof (H1 0 ltac:(lra)).
  split; [lra|]. split; [lra|]. intros t Ht. cbn. auto.
Qed.
Lemma boxes_ok q1 q2 r s : 0 <= r <= 1 -> 0 <= s <= 1 -> on_curve q1 r = on_curve q2 s -> boxes_meet RA q1 q2 = true.
Proof.
  intros Hr Hs E. unfold boxes_meet.
  assert (Hsc : scaling RA = 65 / 64) by (unfold scaling, o64, o8, o4, o2; cbn; field).
  rewrite Hsc.
  assert (V : forall q t, 0 <= t <= 1 -> valid_box Rle 2 (box_scale RA (q_box RA q) (65/64)) /\
    in_box Rle (box_scale RA (q_box RA q) (65/64)) [fst (on_curve q t); snd (on_curve q t)]).
  { intros q t Ht. destruct (q_box_ok q) as (x0 & y0 & x1 & y1 & -> & Hx & Hy & H). specialize (H t Ht). split.
    - apply box_scale_valid; [|lra]. split; [reflexivity|]. split; [reflexivity|]. cbn. apply Forall2_cons; [lra|]. apply Forall2_cons; [lra|]. constructor.
    - unfold box_scale, extents, o2. cbn. split; cbn; (apply Forall2_cons; [lra|]; apply Forall2_cons; [lra|]; constructor). }
  destruct (V q1 r Hr) as [V1 P1]. destruct (V q2 s Hs) as [V2 P2].
  apply (intersects_iff RA Rle R_total _ _ 2 V1 V2). rewrite <- E in P2. eauto.
Qed.
(** one level of the search *)
Lemma split_param r : 0 <= r <= 1 -> (0 <= 2 * r <= 1) \/ (0 <= 2 * r - 1 <= 1).
Proof. intros H. destruct (Rle_dec (2 * r) 1); [left|right]; lra. Qed.
Definition sub (q sq : rseg) (i n : nat) : Prop := forall t, on_curve sq t = on_curve q ((INR i + t) / INR n).
Lemma dsq_tri a b c x y : 0 <= x -> 0 <= y -> dsq a b <= x * x -> dsq b c <= y * y -> dsq a c <= (x + y) * (x + y).
Proof.
  unfold dsq. intros Hx Hy H1 H2. set (u := fst a - fst b) in *. set (v := snd a - snd b) in *.
  set (u' := fst b - fst c) in *. set (v' := snd b - snd c) in *.
  replace (fst a - fst c) with (u + u') by (unfold u, u'; ring). replace (snd a - snd c) with (v + v') by (unfold v, v'; ring).
  assert (Hd : u * u' + v * v' <= x * y).
  { destruct (Rle_dec (u * u' + v * v') 0); [nra|]. apply Rsqr_incr_0; [unfold Rsqr|lra|nra].
    assert (L : (u * u' + v * v') * (u * u' + v * v') <= (u * u + v * v) * (u' * u' + v' * v')) by (pose proof (Rle_0_sqr (u * v' - v * u')) as Q; unfold Rsqr in Q; lra).
    assert ((u * u + v * v) * (u' * u' + v' * v') <= (x * x) * (y * y)).
    { apply Rmult_le_compat; auto; nra. }
    nra. }
  nra.
Qed.
Lemma search_ok eps k : 0 < eps -> forall q1 q2 r s, 0 <= r <= 1 -> 0 <= s <= 1 -> on_curve q1 r = on_curve q2 s ->
  exists i j s1 s2, (i < 2 ^ k)%nat /\ (j < 2 ^ k)%nat /\ sub q1 s1 i (2 ^ k) /\ sub q2 s2 j (2 ^ k) /\
    INR i <= r * INR (2 ^ k) <= INR i + 1 /\ INR j <= s * INR (2 ^ k) <= INR j + 1 /\
    forall p, leaf RA eps s1 s2 = Some p -> exists p', In p' (hits RA eps k q1 q2) /\ dsq p' p <= (INR k * eps) * (INR k * eps).
Proof.
  intros He. induction k as [|k IH]; intros q1 q2 r s Hr Hs E.
  - exists 0%nat, 0%nat, q1, q2. cbn [Nat.pow INR hits]. rewrite (boxes_ok q1 q2 r s Hr Hs E). cbn [negb].
    split; [lia|]. split; [lia|].
    split; [intros t; f_equal; cbn; field|]. split; [intros t; f_equal; cbn; field|]. split; [lra|]. split; [lra|].
    intros p ->. exists p. split; [now left|]. unfold dsq. nra.
  - assert (Hi : INR (2 ^ S k) = 2 * INR (2 ^ k)) by (rewrite Nat.pow_succ_r', mult_INR; reflexivity).
    assert (Hp : 0 < INR (2 ^ k)) by (apply lt_0_INR; pose proof (Nat.pow_nonzero 2 k); lia).
    assert (K : forall h1 h2 d1 d2 r' s', (h1 = left_half RA q1 /\ d1 = 0 \/ h1 = right_half RA q1 /\ d1 = 1) ->
      (h2 = left_half RA q2 /\ d2 = 0 \/ h2 = right_half RA q2 /\ d2 = 1) -> r = (d1 + r') / 2 -> s = (d2 + s') / 2 ->
      0 <= r' <= 1 -> 0 <= s' <= 1 ->
      (forall p, In p (hits RA eps k h1 h2) -> exists p', In p' (hits RA eps (S k) q1 q2) /\ dsq p' p <= eps * eps) ->
      exists i j s1 s2, (i < 2 ^ S k)%nat /\ (j < 2 ^ S k)%nat /\ sub q1 s1 i (2 ^ S k) /\ sub q2 s2 j (2 ^ S k) /\
        INR i <= r * INR (2 ^ S k) <= INR i + 1 /\ INR j <= s * INR (2 ^ S k) <= INR j + 1 /\
        forall p, leaf RA eps s1 s2 = Some p -> exists p', In p' (hits RA eps (S k) q1 q2) /\ dsq p' p <= (INR (S k) * eps) * (INR (S k) * eps)).
    { intros h1 h2 d1 d2 r' s' H1 H2 -> -> Hr' Hs' Hkeep.
      assert (P1 : forall t, on_curve h1 t = on_curve q1 ((d1 + t) / 2)).
      { intros t. destruct H1 as [[-> ->]|[-> ->]]; [rewrite left_ok; f_equal; lra|apply right_ok]. }
      assert (P2 : forall t, on_curve h2 t = on_curve q2 ((d2 + t) / 2)).
      { intros t. destruct H2 as [[-> ->]|[-> ->]]; [rewrite left_ok; f_equal; lra|apply right_ok]. }
      destruct (IH h1 h2 r' s' Hr' Hs' ltac:(rewrite P1, P2; exact E)) as (i & j & s1 & s2 & Li & Lj & S1 & S2 & Bi & Bj & Hl).
      assert (N1 : exists n1, INR n1 = d1 * INR (2 ^ k) /\ (n1 <= 2 ^ k)%nat).
      { destruct H1 as [[_ ->]|[_ ->]]; [exists 0%nat|exists (2 ^ k)%nat]; split; cbn; try lra; lia. }
      assert (N2 : exists n2, INR n2 = d2 * INR (2 ^ k) /\ (n2 <= 2 ^ k)%nat).
      { destruct H2 as [[_ ->]|[_ ->]]; [exists 0%nat|exists (2 ^ k)%nat]; split; cbn; try lra; lia. }
      destruct N1 as (n1 & N1 & L1), N2 as (n2 & N2 & L2).
      exists (n1 + i)%nat, (n2 + j)%nat, s1, s2. rewrite Hi, !plus_INR, N1, N2.
      split; [rewrite Nat.pow_succ_r'; lia|]. split; [rewrite Nat.pow_succ_r'; lia|].
      split. { intros t. rewrite S1, P1, plus_INR, N1, Hi. f_equal. field. lra. }
      split. { intros t. rewrite S2, P2, plus_INR, N2, Hi. f_equal. field. lra. }
      split; [nra|]. split; [nra|].
      intros p Hp'. destruct (Hl p Hp') as (p1 & I1 & D1). destruct (Hkeep p1 I1) as (p2 & I2 & D2). exists p2. split; [auto|].
      rewrite S_INR. replace ((INR k + 1) * eps) with (eps + INR k * eps) by ring.
      apply (dsq_tri p2 p1 p); auto; [lra|]. apply Rmult_le_pos; [apply pos_INR|lra]. }
    assert (Hk : forall p l, In p l -> exists p', In p' (dedup RA eps l) /\ dsq p' p <= eps * eps).
    { intros p l Hin. destruct (dd_keep RA eps (length l) l (le_n _) p Hin) as (y & Hy & [->|Hy']).
      - exists p. split; [auto|]. unfold dsq. nra.
      - exists y. split; [auto|]. apply approx_R in Hy'. lra. }
    assert (Hh : hits RA eps (S k) q1 q2 =
      dedup RA eps (hits RA eps k (left_half RA q1) (left_half RA q2) ++ hits RA eps k (left_half RA q1) (right_half RA q2) ++
             hits RA eps k (right_half RA q1) (left_half RA q2) ++ hits RA eps k (right_half RA q1) (right_half RA q2))).
    { cbn [hits]. now rewrite (boxes_ok q1 q2 r s Hr Hs E). }
    destruct (split_param r Hr) as [Hr'|Hr'], (split_param s Hs) as [Hs'|Hs'].
    + apply (K (left_half RA q1) (left_half RA q2) 0 0 (2 * r) (2 * s)); auto; try lra.
      intros p Hin. rewrite Hh. apply Hk. rewrite !in_app_iff. auto.
    + apply (K (left_half RA q1) (right_half RA q2) 0 1 (2 * r) (2 * s - 1)); auto; try lra.
      intros p Hin. rewrite Hh. apply Hk. rewrite !in_app_iff. auto.
    + apply (K (right_half RA q1) (left_half RA q2) 1 0 (2 * r - 1) (2 * s)); auto; try lra.
      intros p Hin. rewrite Hh. apply Hk. rewrite !in_app_iff. auto.
    + apply (K (right_half RA q1) (right_half RA q2) 1 1 (2 * r - 1) (2 * s - 1)); auto; try lra.
      intros p Hin. rewrite Hh. apply Hk. rewrite !in_app_iff. auto.
Qed.

(** * straight segments *)
Lemma centred_at q t : centred q -> on_curve q t =
  (fst (on_curve q 0) + t * fst (direction q), snd (on_curve q 0) + t * snd (direction q)).
Proof.
  destruct q as [[[a0 a1] [b0 b1]] c]. cbn. intros ->. unfold curve2, lag. cbn. f_equal; field.
Qed.
Lemma centred_jac q t : centred q -> q_jac RA q t = direction q.
Proof.
  destruct q as [[[a0 a1] [b0 b1]] c]. intros ->. unfold q_jac, direction, padd, pscale, psub, o4, o3, o2. cbn. f_equal; field.
Qed.
Lemma centred_left q : centred q -> centred (left_half RA q) /\ direction (left_half RA q) = (fst (direction q) / 2, snd (direction q) / 2).
Proof.
  destruct q as [[[a0 a1] [b0 b1]] c]. intros ->. cbn [left_half centred direction]. rewrite q_at_ok. cbn [on_curve].
  unfold fourth, o4, o2. cbn. unfold curve2, lag. cbn. split; f_equal; field.
Qed.
Lemma centred_right q : centred q -> centred (right_half RA q) /\ direction (right_half RA q) = (fst (direction q) / 2, snd (direction q) / 2).
Proof.
  destruct q as [[[a0 a1] [b0 b1]] c]. intros ->. cbn [right_half centred direction]. rewrite q_at_ok. cbn [on_curve].
  unfold three_fourths, o4, o3, o2. cbn. unfold curve2, lag. cbn. split; f_equal; field.
Qed.
Definition wedge (q1 q2 : rseg) : R := fst (direction q1) * snd (direction q2) - snd (direction q1) * fst (direction q2).
Lemma leaf_parallel eps q1 q2 : centred q1 -> centred q2 -> wedge q1 q2 = 0 -> leaf RA eps q1 q2 = None.
Proof.
  intros C1 C2 W. unfold leaf. rewrite newton_S. unfold step_det. rewrite !centred_jac by auto. rewrite det_R.
  destruct (oeqb RA _ _) eqn:E; [reflexivity|]. exfalso. apply Reqb_false in E. apply E. unfold wedge in W. lra.
Qed.
Lemma dsq_self a : dsq a a = 0.
Proof. unfold dsq. ring. Qed.
Lemma newton_step q1 q2 rs f r s : centred q1 -> centred q2 -> wedge q1 q2 <> 0 ->
  f = psub RA (on_curve q1 (fst rs)) (on_curve q2 (snd rs)) -> on_curve q1 r = on_curve q2 s ->
  step_to (direction q1) (direction q2)
    (det2x2 RA (fst (direction q1)) (- fst (direction q2)) (snd (direction q1)) (- snd (direction q2))) rs f = (r, s).
Proof.
  intros C1 C2 W -> E. unfold step_to. rewrite det_R. rewrite (centred_at q1 (fst rs)), (centred_at q2 (snd rs)) by auto.
  rewrite (centred_at q1 r), (centred_at q2 s) in E by auto. injection E as E1 E2. unfold wedge in W.
  set (u := fst (direction q1)) in *. set (v := snd (direction q1)) in *. set (x := fst (direction q2)) in *. set (y := snd (direction q2)) in *.
  set (a := fst (on_curve q1 0)) in *. set (b := snd (on_curve q1 0)) in *.
  set (c := fst (on_curve q2 0)) in *. set (d := snd (on_curve q2 0)) in *.
  clearbody u v x y a b c d. destruct rs as [r0 s0]. unfold psub, padd, pscale. cbn.
  assert (Hd : u * - y - - x * v <> 0) by lra.
  assert (Ea : a = c + s * x - r * u) by lra. assert (Eb : b = d + s * y - r * v) by lra.
  rewrite Ea, Eb. f_equal; field; lra.
Qed.
Lemma newton_exact n q1 q2 rs f err r s : centred q1 -> centred q2 -> wedge q1 q2 <> 0 ->
  f = psub RA (on_curve q1 (fst rs)) (on_curve q2 (snd rs)) -> on_curve q1 r = on_curve q2 s ->
  newton RA (S n) q1 q2 rs f err = Some ((r, s), 0).
Proof.
  revert rs f err. induction n as [|n IH]; intros rs f err C1 C2 W Hf E; rewrite newton_S; unfold step_det;
    rewrite !centred_jac by auto;
    (destruct (oeqb RA _ _) eqn:Ed; [exfalso; apply Reqb_true in Ed; rewrite det_R in Ed; unfold wedge in W; lra|]);
    cbv zeta; rewrite (newton_step q1 q2 rs f r s C1 C2 W Hf E), step_err_ok; cbn [fst snd]; rewrite !q_at_ok, E, dsq_self.
  - destruct (oltb _ _ _); reflexivity.
  - destruct (_ && _)%bool; [|reflexivity]. apply IH; auto. cbn [fst snd]. now rewrite E.
Qed.
Definition in_tol (t x : R) : Prop := - t <= x <= 1 + t.
Lemma leaf_exact eps q1 q2 r s : 0 < eps -> centred q1 -> centred q2 -> wedge q1 q2 <> 0 -> on_curve q1 r = on_curve q2 s ->
  (leaf RA eps q1 q2 = Some (on_curve q1 r) /\ in_tol (100 * eps) r /\ in_tol (100 * eps) s) \/
  (leaf RA eps q1 q2 = None /\ ~ (in_tol (100 * eps) r /\ in_tol (100 * eps) s)).
Proof.
  intros He C1 C2 W E. unfold leaf. rewrite (newton_exact 9 _ _ _ _ _ r s) by (auto; rewrite !q_at_ok; reflexivity).
  rewrite tol_R, q_at_ok. unfold in_tol.
  destruct (_ && _)%bool eqn:B; [left|right].
  - rewrite !andb_true_iff, !oleb_R in B. cbn in B. split; [reflexivity|lra].
  - split; [reflexivity|]. intros [H1 H2]. apply not_true_iff_false in B. apply B.
    rewrite !andb_true_iff, !oleb_R. cbn. rewrite Rltb_true. lra.
Qed.
Lemma dd_same eps P f l : 0 < eps -> (forall x, In x l -> x = P) -> (length l <= f)%nat -> l <> [] -> dd RA eps f l = [P].
Proof.
  intros He Hl Hf Hn. destruct l as [|h t]; [congruence|]. destruct f as [|f]; [cbn in Hf; lia|]. cbn [dd].
  rewrite (Hl h (or_introl eq_refl)). f_equal.
  assert (Hs : strip RA eps (length t) P t = []).
  { destruct (strip RA eps (length t) P t) as [|x u] eqn:E; [auto|].
    assert (Hx : In x (strip RA eps (length t) P t)) by (rewrite E; now left).
    pose proof (strip_far RA eps _ P t (le_n _) x Hx) as F. apply strip_incl in Hx. rewrite (Hl x (or_intror Hx)) in F.
    apply approx_R_false in F. rewrite dsq_self in F. nra. }
  rewrite Hs. destruct f; reflexivity.
Qed.
Lemma hits_parallel eps k : forall q1 q2, centred q1 -> centred q2 -> wedge q1 q2 = 0 -> hits RA eps k q1 q2 = [].
Proof.
  induction k as [|k IH]; intros q1 q2 C1 C2 W; cbn [hits]; destruct (negb _); auto.
  - now rewrite leaf_parallel.
  - destruct (centred_left q1 C1) as [A1 D1], (centred_right q1 C1) as [A2 D2], (centred_left q2 C2) as [A3 D3], (centred_right q2 C2) as [A4 D4].
    rewrite !IH; auto; unfold wedge in *; rewrite ?D1, ?D2, ?D3, ?D4; cbn; lra.
Qed.
Lemma hits_straight eps k : 0 < eps -> forall q1 q2 r s, centred q1 -> centred q2 -> wedge q1 q2 <> 0 -> on_curve q1 r = on_curve q2 s ->
  (hits RA eps k q1 q2 = [on_curve q1 r] /\ in_tol (100 * eps / 2 ^ k) r /\ in_tol (100 * eps / 2 ^ k) s) \/
  (hits RA eps k q1 q2 = [] /\ ~ (0 <= r <= 1 /\ 0 <= s <= 1)).
Proof.
  intros He. induction k as [|k IH]; intros q1 q2 r s C1 C2 W E; cbn [hits]; destruct (boxes_meet RA q1 q2) eqn:Eb; cbn [negb].
  - cbn [pow]. rewrite over1. destruct (leaf_exact eps q1 q2 r s He C1 C2 W E) as [(-> & H1 & H2)|(-> & H)]; [left; auto|right].
    split; [auto|]. intros [A1 A2]. apply H. unfold in_tol. lra.
  - right. split; [auto|]. intros [A1 A2]. rewrite (boxes_ok q1 q2 r s A1 A2 E) in Eb. discriminate.
  - destruct (centred_left q1 C1) as [A1 D1], (centred_right q1 C1) as [A2 D2], (centred_left q2 C2) as [A3 D3], (centred_right q2 C2) as [A4 D4].
    assert (W1 : wedge (left_half RA q1) (left_half RA q2) <> 0) by (unfold wedge in *; rewrite D1, D3; cbn; lra).
    assert (W2 : wedge (left_half RA q1) (right_half RA q2) <> 0) by (unfold wedge in *; rewrite D1, D4; cbn; lra).
    assert (W3 : wedge (right_half RA q1) (left_half RA q2) <> 0) by (unfold wedge in *; rewrite D2, D3; cbn; lra).
    assert (W4 : wedge (right_half RA q1) (right_half RA q2) <> 0) by (unfold wedge in *; rewrite D2, D4; cbn; lra).
    assert (L1 : on_curve (left_half RA q1) (2 * r) = on_curve q1 r) by (rewrite left_ok; f_equal; lra).
    assert (R1 : on_curve (right_half RA q1) (2 * r - 1) = on_curve q1 r) by (rewrite right_ok; f_equal; lra).
    assert (L2 : on_curve (left_half RA q2) (2 * s) = on_curve q2 s) by (rewrite left_ok; f_equal; lra).
    assert (R2 : on_curve (right_half RA q2) (2 * s - 1) = on_curve q2 s) by (rewrite right_ok; f_equal; lra).
    pose proof (IH _ _ (2 * r) (2 * s) A1 A3 W1 ltac:(congruence)) as I1. pose proof (IH _ _ (2 * r) (2 * s - 1) A1 A4 W2 ltac:(congruence)) as I2.
    pose proof (IH _ _ (2 * r - 1) (2 * s) A2 A3 W3 ltac:(congruence)) as I3. pose proof (IH _ _ (2 * r - 1) (2 * s - 1) A2 A4 W4 ltac:(congruence)) as I4.
    rewrite L1 in I1, I2. rewrite R1 in I3, I4. clear IH.
    set (h1 := hits RA eps k (left_half RA q1) (left_half RA q2)) in *. set (h2 := hits RA eps k (left_half RA q1) (right_half RA q2)) in *.
    set (h3 := hits RA eps k (right_half RA q1) (left_half RA q2)) in *. set (h4 := hits RA eps k (right_half RA q1) (right_half RA q2)) in *.
    rewrite half_pow. assert (Ht : 0 <= 100 * eps / 2 ^ k) by (apply Rmult_le_pos; [lra|apply Rlt_le, Rinv_0_lt_compat, pow2]).
    set (t := 100 * eps / 2 ^ k) in *. unfold in_tol in *.
    assert (Hall : forall x, In x (h1 ++ h2 ++ h3 ++ h4) -> x = on_curve q1 r).
    { intros x Hx. rewrite !in_app_iff in Hx.
      destruct Hx as [Hx|[Hx|[Hx|Hx]]];
        [destruct I1 as [(Eh & _)|(Eh & _)]|destruct I2 as [(Eh & _)|(Eh & _)]|destruct I3 as [(Eh & _)|(Eh & _)]|destruct I4 as [(Eh & _)|(Eh & _)]];
        rewrite Eh in Hx; try destruct Hx as [<-|[]]; try reflexivity; destruct Hx. }
    destruct (h1 ++ h2 ++ h3 ++ h4) as [|x l] eqn:El.
    + right. split; [reflexivity|]. intros [Br Bs].
      apply app_eq_nil in El as [Z1 El]. apply app_eq_nil in El as [Z2 El]. apply app_eq_nil in El as [Z3 Z4].
      destruct I1 as [(Eh & _)|(_ & N1)]; [congruence|]. destruct I2 as [(Eh & _)|(_ & N2)]; [congruence|].
      destruct I3 as [(Eh & _)|(_ & N3)]; [congruence|]. destruct I4 as [(Eh & _)|(_ & N4)]; [congruence|].
      destruct (split_param r Br), (split_param s Bs); tauto.
    + left. unfold dedup. rewrite (dd_same eps (on_curve q1 r)); auto; [|congruence]. split; [auto|].
      assert (Hor : h1 <> [] \/ h2 <> [] \/ h3 <> [] \/ h4 <> []).
      { destruct h1; [|left; congruence]. destruct h2; [|right; left; congruence]. destruct h3; [|right; right; left; congruence].
        destruct h4; [discriminate|right; right; right; congruence]. }
      destruct Hor as [Hn|[Hn|[Hn|Hn]]].
      * destruct I1 as [(_ & ?)|(? & _)]; [lra|congruence].
      * destruct I2 as [(_ & ?)|(? & _)]; [lra|congruence].
      * destruct I3 as [(_ & ?)|(? & _)]; [lra|congruence].
      * destruct I4 as [(_ & ?)|(? & _)]; [lra|congruence].
  - right. split; [auto|]. intros [A1 A2]. rewrite (boxes_ok q1 q2 r s A1 A2 E) in Eb. discriminate.
Qed.
Lemma lines_meet q1 q2 : centred q1 -> centred q2 -> wedge q1 q2 <> 0 -> exists r s, on_curve q1 r = on_curve q2 s.
Proof.
  intros C1 C2 W. set (e := (fst (on_curve q2 0) - fst (on_curve q1 0))). set (f := (snd (on_curve q2 0) - snd (on_curve q1 0))).
  exists ((e * snd (direction q2) - f * fst (direction q2)) / wedge q1 q2), ((e * snd (direction q1) - f * fst (direction q1)) / wedge q1 q2).
  rewrite centred_at by auto. rewrite (centred_at q2) by auto. unfold e, f, wedge in *. f_equal; field; auto.
Qed.
Lemma hits_straight_le eps k q1 q2 : 0 < eps -> centred q1 -> centred q2 -> (length (hits RA eps k q1 q2) <= 1)%nat.
Proof.
  intros He C1 C2. destruct (Req_dec (wedge q1 q2) 0) as [W|W]; [rewrite hits_parallel by auto; cbn; lia|].
  destruct (lines_meet q1 q2 C1 C2 W) as (r & s & E).
  destruct (hits_straight eps k He q1 q2 r s C1 C2 W E) as [(-> & _)|(-> & _)]; cbn; lia.
Qed.
