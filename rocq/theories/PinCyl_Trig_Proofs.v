(** Points at equal angles: the values of sine and cosine, and the distance to the border of a square. *)
From Coq Require Import List Arith ZArith Bool Reals Lra Lia Psatz.
From Verif Require Import Base Loops Arith Fill Box_Proofs Poly_Spec Poly_Proofs PinCyl_Model.
Import ListNotations.
Local Open Scope R_scope.

Lemma sin_step n i : (0 < n)%nat -> sin (INR i * (PI / INR n)) = 0 \/ sin (PI / INR n) <= Rabs (sin (INR i * (PI / INR n))).
Proof.
  intros Hn. assert (P := PI_RGT_0). assert (N : 0 < INR n) by now apply lt_0_INR.
  set (d := PI / INR n). assert (Hd : INR n * d = PI) by (unfold d; field; lra). assert (D : 0 < d) by (unfold d; now apply Rdiv_lt_0_compat).
  assert (X : forall k q, sin (INR (k + q * n) * d) = sin (INR k * d) \/ sin (INR (k + q * n) * d) = - sin (INR k * d)).
  { intros k. induction q as [|q IH]; [rewrite Nat.add_0_r; auto|].
    assert (E : INR (k + S q * n) * d = INR (k + q * n) * d + PI).
    { replace (k + S q * n)%nat with (k + q * n + n)%nat by lia. rewrite (plus_INR (k + q * n)), Rmult_plus_distr_r, Hd. reflexivity. }
    rewrite E, neg_sin. destruct IH as [->| ->]; [right|left]; ring. }
  assert (Y : forall k, (k < n)%nat -> sin (INR k * d) = 0 \/ sin d <= sin (INR k * d)).
  { intros [|k] Hk; [left; cbn; rewrite Rmult_0_l; apply sin_0|]. right.
    assert (L1 : d <= INR (S k) * d) by (rewrite S_INR; assert (0 <= INR k) by apply pos_INR; nra).
    assert (L2 : INR (S k) * d + d <= PI).
    { rewrite <- Hd. replace (INR (S k) * d + d) with (INR (S (S k)) * d) by (rewrite (S_INR (S k)); ring).
      apply Rmult_le_compat_r; [lra|]. apply le_INR. lia. }
    destruct (Rle_lt_dec (INR (S k) * d) (PI / 2)) as [L|L].
    - apply sin_incr_1; lra.
    - rewrite <- (sin_PI_x (INR (S k) * d)). apply sin_incr_1; lra. }
  assert (Z0 : (i mod n < n)%nat) by (apply Nat.mod_upper_bound; lia).
  assert (E : i = (i mod n + i / n * n)%nat) by (rewrite (Nat.div_mod i n) at 1 by lia; lia).
  destruct (X (i mod n)%nat (i / n)%nat) as [A|A]; rewrite <- E in A; rewrite A; destruct (Y _ Z0) as [B|B].
  - left. auto.
  - right. eapply Rle_trans; [exact B|]. apply Rle_abs.
  - left. rewrite B. ring.
  - right. rewrite Rabs_Ropp. eapply Rle_trans; [exact B|]. apply Rle_abs.
Qed.

Lemma rsum_seq_split f a b s : rsum (map f (seq s (a + b))) = rsum (map f (seq s a)) + rsum (map f (seq (s + a) b)).
Proof. now rewrite seq_app, map_app, rsum_app. Qed.
Lemma rsum_seq_ext f g n s t : (forall i, (i < n)%nat -> f (s + i)%nat = g (t + i)%nat) -> rsum (map f (seq s n)) = rsum (map g (seq t n)).
Proof.
  revert s t. induction n as [|n IH]; intros s t H; auto. cbn [seq map]. rewrite !rsum_cons. apply f_equal2.
  - specialize (H 0%nat ltac:(lia)). now rewrite !Nat.add_0_r in H.
  - apply IH. intros i Hi. specialize (H (S i) ltac:(lia)). now rewrite !Nat.add_succ_r in H.
Qed.
Lemma rsum_seq_rev f n : rsum (map f (seq 0 n)) = rsum (map (fun i => f (n - 1 - i)%nat) (seq 0 n)).
Proof.
  induction n as [|n IH]; auto.
  replace (seq 0 (S n)) with (seq 0 n ++ [n]) at 1 by (rewrite <- (seq_app n 1); f_equal; lia).
  rewrite map_app, rsum_app, IH. cbn [seq map rsum fold_right]. rewrite <- seq_shift, map_map.
  replace (S n - 1 - 0)%nat with n by lia. rewrite Rplus_comm, !rsum_cons, rsum_nil, Rplus_0_r. apply f_equal2; [auto|].
  apply rsum_seq_ext. intros i Hi. cbn. f_equal. lia.
Qed.
Lemma rsum_telescope f n : rsum (map (fun i => f (S i) - f i) (seq 0 n)) = f n - f 0%nat.
Proof.
  induction n as [|n IH]; [cbn [seq map]; rewrite rsum_nil; lra|]. replace (S n) with (n + 1)%nat at 1 by lia.
  rewrite rsum_seq_split, IH. cbn [Nat.add seq map]. rewrite rsum_cons, rsum_nil. lra.
Qed.
Lemma rsum_const c n s : rsum (map (fun _ => c) (seq s n)) = INR n * c.
Proof. revert s. induction n as [|n IH]; intros s; cbn [seq map]; [rewrite rsum_nil; cbn; ring|]. rewrite rsum_cons, S_INR, IH. ring. Qed.

(** * [8 K] equal steps *)
Section Steps.
Variable K : nat.
Hypothesis HK : (0 < K)%nat.
Definition dl : R := PI / INR (4 * K).
Definition C (i : nat) : R := cos (INR i * dl).
Definition Sn (i : nat) : R := sin (INR i * dl).
Definition M (i : nat) : R := Rmax (Rabs (C i)) (Rabs (Sn i)).
Lemma dl_pos : 0 < dl.
Proof. apply Rdiv_lt_0_compat; [apply PI_RGT_0|]. apply lt_0_INR. lia. Qed.
Lemma dl_K : INR K * dl = PI / 4.
Proof. unfold dl. rewrite mult_INR. cbn. assert (INR K <> 0) by (apply not_0_INR; lia). field. auto. Qed.
Lemma dl_le : dl <= PI / 4.
Proof.
  rewrite <- dl_K. assert (X := dl_pos). assert (INR 1 <= INR K) by (apply le_INR; lia). cbn in *. nra.
Qed.
Lemma CS i : C i * C i + Sn i * Sn i = 1.
Proof. unfold C, Sn. assert (X := sin2_cos2 (INR i * dl)). unfold Rsqr in X. lra. Qed.
Lemma C_quarter i : C (i + 2 * K) = - Sn i.
Proof.
  unfold C, Sn. replace (INR (i + 2 * K) * dl) with (PI / 2 + INR i * dl); [rewrite (cos_sin (PI / 2 + _)), <- (sin_neg (INR i * dl))|].
  - replace (PI / 2 + (PI / 2 + INR i * dl)) with (INR i * dl + PI) by lra. now rewrite neg_sin, sin_neg.
  - rewrite plus_INR, mult_INR. assert (X := dl_K). cbn [INR]. lra.
Qed.
Lemma S_quarter i : Sn (i + 2 * K) = C i.
Proof.
  unfold C, Sn. replace (INR (i + 2 * K) * dl) with (PI / 2 + INR i * dl); [now rewrite <- cos_sin|].
  rewrite plus_INR, mult_INR. assert (X := dl_K). cbn [INR]. lra.
Qed.
Lemma C_period i : C (i + 8 * K) = C i.
Proof.
  replace (i + 8 * K)%nat with (i + 2 * K + 2 * K + 2 * K + 2 * K)%nat by lia.
  rewrite C_quarter, S_quarter, C_quarter, S_quarter. ring.
Qed.
Lemma S_period i : Sn (i + 8 * K) = Sn i.
Proof.
  replace (i + 8 * K)%nat with (i + 2 * K + 2 * K + 2 * K + 2 * K)%nat by lia.
  rewrite S_quarter, C_quarter, S_quarter, C_quarter. ring.
Qed.
Lemma C_reflect i : (i <= 2 * K)%nat -> C (2 * K - i) = Sn i.
Proof.
  intros H. unfold C, Sn. rewrite minus_INR by auto. rewrite mult_INR, Rmult_minus_distr_r.
  assert (X := dl_K). cbn [INR]. replace ((1 + 1) * INR K * dl) with (PI / 2) by lra. apply cos_shift.
Qed.
Lemma S_reflect i : (i <= 2 * K)%nat -> Sn (2 * K - i) = C i.
Proof.
  intros H. unfold C, Sn. rewrite minus_INR by auto. rewrite mult_INR, Rmult_minus_distr_r.
  assert (X := dl_K). cbn [INR]. replace ((1 + 1) * INR K * dl) with (PI / 2) by lra. apply sin_shift.
Qed.
Lemma S_step i : Sn i = 0 \/ sin dl <= Rabs (Sn i).
Proof. apply sin_step. lia. Qed.
Lemma C_step i : C i = 0 \/ sin dl <= Rabs (C i).
Proof. rewrite <- S_quarter. apply S_step. Qed.
Lemma angle_first i : (i <= K)%nat -> 0 <= INR i * dl <= PI / 4.
Proof.
  intros H. assert (X := dl_pos). rewrite <- dl_K. split; [apply Rmult_le_pos; [apply pos_INR|lra]|].
  apply Rmult_le_compat_r; [lra|]. now apply le_INR.
Qed.
Lemma first_octant i : (i <= K)%nat -> 0 < C i /\ 0 <= Sn i <= C i.
Proof.
  intros H. assert (X := angle_first i H). assert (P := PI_RGT_0). unfold C, Sn.
  assert (A : 0 < cos (INR i * dl)) by (apply cos_gt_0; lra).
  split; [auto|]. split; [apply sin_ge_0; lra|]. rewrite <- sin_shift. apply sin_incr_1; lra.
Qed.
Lemma M_first i : (i <= K)%nat -> M i = C i.
Proof. intros H. destruct (first_octant i H) as (A & B & D). unfold M. rewrite !Rabs_right by lra. apply Rmax_left. lra. Qed.
Lemma M_quarter i : M (i + 2 * K) = M i.
Proof. unfold M. rewrite C_quarter, S_quarter, Rabs_Ropp. apply Rmax_comm. Qed.
Lemma M_reflect i : (i <= 2 * K)%nat -> M (2 * K - i) = M i.
Proof. intros H. unfold M. rewrite C_reflect, S_reflect by auto. apply Rmax_comm. Qed.
Lemma M_pos i : 0 < M i.
Proof.
  assert (X := CS i). unfold M. destruct (Req_dec (C i) 0) as [E|E].
  - apply Rlt_le_trans with (Rabs (Sn i)); [apply Rabs_pos_lt; nra|apply Rmax_r].
  - apply Rlt_le_trans with (Rabs (C i)); [now apply Rabs_pos_lt|apply Rmax_l].
Qed.
Lemma M_period i : M (i + 8 * K) = M i.
Proof. unfold M. now rewrite C_period, S_period. Qed.
Lemma sin_dl_pos : 0 < sin dl.
Proof. assert (X := dl_pos). assert (Y := dl_le). assert (P := PI_RGT_0). apply sin_gt_0; lra. Qed.

(** the area, seen from the centre, of the square [-1, 1] x [-1, 1] is 4 *)
Definition wedge (i : nat) : R := sin dl / (M i * M (S i)).
Lemma C1 : C K = Sn K.
Proof. replace K with (2 * K - K)%nat at 1 by lia. apply C_reflect. lia. Qed.
Lemma wedge_octant : rsum (map wedge (seq 0 K)) = 1.
Proof.
  rewrite (rsum_seq_ext wedge (fun i => Sn (S i) / C (S i) - Sn i / C i) K 0 0).
  - rewrite (rsum_telescope (fun i => Sn i / C i)). destruct (first_octant K ltac:(lia)) as (A & _). rewrite <- C1.
    unfold C, Sn. cbn [INR]. rewrite Rmult_0_l, sin_0. unfold C in A. rewrite cos_0. field. lra.
  - intros i Hi. cbn [Nat.add]. unfold wedge. rewrite !M_first by lia.
    destruct (first_octant i ltac:(lia)) as (A & _). destruct (first_octant (S i) ltac:(lia)) as (B & _).
    replace (sin dl) with (Sn (S i) * C i - C (S i) * Sn i); [field; lra|].
    unfold C, Sn. rewrite <- sin_minus. f_equal. rewrite S_INR. ring.
Qed.
Lemma wedge_quarter : rsum (map wedge (seq 0 (2 * K))) = 2.
Proof.
  replace (2 * K)%nat with (K + K)%nat by lia. rewrite rsum_seq_split, wedge_octant. cbn [Nat.add].
  rewrite (rsum_seq_ext wedge (fun i => wedge (K - 1 - i)) K K 0).
  - rewrite <- rsum_seq_rev, wedge_octant. lra.
  - intros i Hi. cbn [Nat.add]. unfold wedge. replace (S (K - 1 - i)) with (K - i)%nat by lia.
    rewrite <- (M_reflect (K + i)), <- (M_reflect (S (K + i))) by lia.
    replace (2 * K - (K + i))%nat with (K - i)%nat by lia. replace (2 * K - S (K + i))%nat with (K - 1 - i)%nat by lia.
    now rewrite Rmult_comm.
Qed.
Lemma wedge_shift i : wedge (i + 2 * K) = wedge i.
Proof. unfold wedge. replace (S (i + 2 * K)) with (S i + 2 * K)%nat by lia. now rewrite !M_quarter. Qed.
Lemma wedge_total : rsum (map wedge (seq 0 (8 * K))) = 8.
Proof.
  assert (X : forall q, rsum (map wedge (seq (q * (2 * K)) (2 * K))) = 2).
  { induction q as [|q IH]; [apply wedge_quarter|]. rewrite <- IH. apply rsum_seq_ext. intros i Hi.
    replace (S q * (2 * K) + i)%nat with (q * (2 * K) + i + 2 * K)%nat by lia. apply wedge_shift. }
  replace (8 * K)%nat with (2 * K + (2 * K + (2 * K + 2 * K)))%nat by lia. rewrite !rsum_seq_split. cbn [Nat.add].
  assert (X0 := X 0%nat). assert (X1 := X 1%nat). assert (X2 := X 2%nat). assert (X3 := X 3%nat).
  replace (0 * (2 * K))%nat with 0%nat in X0 by lia. replace (1 * (2 * K))%nat with (2 * K)%nat in X1 by lia.
  replace (2 * (2 * K))%nat with (2 * K + 2 * K)%nat in X2 by lia. replace (3 * (2 * K))%nat with (2 * K + 2 * K + 2 * K)%nat in X3 by lia.
  lra.
Qed.

(** * The border of the square *)
Lemma bound_r_M pitch c s : 0 < pitch -> c * c + s * s = 1 -> bound_r pitch c s = pitch / (2 * Rmax (Rabs c) (Rabs s)).
Proof.
  intros P E.
  assert (Q : forall x, x <> 0 -> Rabs (pitch / (2 * x)) = pitch / (2 * Rabs x)).
  { intros x Hx. unfold Rdiv. rewrite Rabs_mult, Rabs_right, Rabs_inv, Rabs_mult by lra. rewrite (Rabs_right 2) by lra. reflexivity. }
  unfold bound_r, Reqb. destruct (Req_EM_T c 0) as [->|Hc].
  - rewrite Q by nra. rewrite Rabs_R0, Rmax_right by apply Rabs_pos. reflexivity.
  - destruct (Req_EM_T s 0) as [->|Hs].
    + rewrite Q by auto. rewrite Rabs_R0, Rmax_left by apply Rabs_pos. reflexivity.
    + rewrite !Q by auto. assert (A := Rabs_pos_lt _ Hc). assert (B := Rabs_pos_lt _ Hs).
      assert (D : forall x y, 0 < x -> x <= y -> pitch / (2 * y) <= pitch / (2 * x)).
      { intros x y Hx Hy. unfold Rdiv. apply Rmult_le_compat_l; [lra|]. apply Rinv_le_contravar; lra. }
      unfold Rmax. destruct (Rle_dec (Rabs c) (Rabs s)) as [L|L].
      * apply Rmin_right. apply D; auto.
      * apply Rmin_left. apply D; lra.
Qed.
Lemma snap_id eps x : x = 0 \/ eps <= Rabs x -> snap eps x = x.
Proof.
  unfold snap. intros H. destruct (Rltb (Rabs x) eps) eqn:E; auto. apply Rltb_true in E. destruct H as [->|H]; auto. lra.
Qed.
Lemma snap_S eps i : eps <= sin dl -> snap eps (Sn i) = Sn i.
Proof. intros H. apply snap_id. destruct (S_step i); [auto|right; lra]. Qed.
Lemma snap_C eps i : eps <= sin dl -> snap eps (C i) = C i.
Proof. intros H. apply snap_id. destruct (C_step i); [auto|right; lra]. Qed.
(** the point on the border in direction i *)
Definition Bx (h : R) (i : nat) : R := h / M i * C i.
Definition By (h : R) (i : nat) : R := h / M i * Sn i.
Lemma ratio_gap i : C i = - M i \/ sin dl <= 1 + C i / M i.
Proof.
  assert (Mp := M_pos i). assert (SP := sin_dl_pos). assert (E := CS i).
  assert (A : Rabs (C i) <= M i) by apply Rmax_l. assert (B : Rabs (Sn i) <= M i) by apply Rmax_r.
  destruct (Rle_lt_dec (Rabs (Sn i)) (Rabs (C i))) as [L|L].
  - assert (EM : M i = Rabs (C i)) by (apply Rmax_left; auto). rewrite EM in *. unfold Rabs in *.
    destruct (Rcase_abs (C i)); [left; lra|]. right. replace (C i / C i) with 1 by (field; lra).
    assert (X := SIN_bound dl). lra.
  - right. assert (EM : M i = Rabs (Sn i)) by (apply Rmax_right; lra). rewrite EM in *.
    set (s := Rabs (Sn i)) in *. set (c := Rabs (C i)) in *.
    assert (E' : c * c + s * s = 1).
    { unfold c, s. rewrite <- (Rabs_right 1), <- E by lra. rewrite <- !Rabs_mult.
      rewrite (Rabs_right (C i * C i)), (Rabs_right (Sn i * Sn i)), (Rabs_right (_ + _)) by nra. reflexivity. }
    assert (Cp : 0 <= c) by apply Rabs_pos.
    (* cos (2 i dl) is not zero, so at least sin (2 dl) in size *)
    assert (G : 2 * sin dl * cos dl <= s * s - c * c).
    { assert (CC : cos (2 * (INR i * dl)) = c * c - s * s).
      { rewrite cos_2a. unfold c, s, C, Sn. rewrite <- !Rabs_mult, !Rabs_right by nra. reflexivity. }
      assert (T := sin_step (2 * K) (i + K) ltac:(lia)).
      assert (D2 : PI / INR (2 * K) = 2 * dl).
      { unfold dl. rewrite !mult_INR. cbn [INR]. assert (INR K <> 0) by (apply not_0_INR; lia). field. auto. }
      rewrite D2 in T. replace (INR (i + K) * (2 * dl)) with (PI / 2 + 2 * (INR i * dl)) in T.
      2:{ rewrite plus_INR. assert (X := dl_K). lra. }
      rewrite <- cos_sin, CC, sin_2a in T. destruct T as [T|T]; [nra|].
      rewrite Rabs_left in T by nra. lra. }
    assert (CD : 1 <= 2 * (cos dl * cos dl)).
    { assert (X := first_octant 1 ltac:(lia)). assert (Y := CS 1). unfold C, Sn in X, Y. cbn [INR] in X, Y. rewrite !Rmult_1_l in X, Y. nra. }
    assert (SD : sin dl <= s - c).
    { apply Rnot_lt_le. intros Hlt. assert (Cdl : 0 < cos dl).
      { assert (X := first_octant 1 ltac:(lia)). unfold C in X. cbn [INR] in X. rewrite Rmult_1_l in X. lra. }
      assert (S2 : (s + c) * (s + c) <= 2) by nra. assert (S0 : 0 < s + c) by lra.
      assert (Q : 2 * sin dl * cos dl < sin dl * (s + c)) by nra.
      assert (Q' : 2 * cos dl < s + c) by nra. nra. }
    assert (s1 : s <= 1) by nra. assert (C1' : - c <= C i) by (unfold c, Rabs; destruct (Rcase_abs (C i)); lra).
    apply Rmult_le_reg_r with s; [lra|]. replace ((1 + C i / s) * s) with (s + C i) by (field; lra). nra.
Qed.
Lemma ratio_gap_S i : Sn i = - M i \/ sin dl <= 1 + Sn i / M i.
Proof.
  assert (X := ratio_gap (i + 6 * K)). replace (i + 6 * K)%nat with (i + 2 * K + 2 * K + 2 * K)%nat in X by lia.
  rewrite !M_quarter, C_quarter, S_quarter, C_quarter, Ropp_involutive in X. exact X.
Qed.
Lemma abs_C_M i : Rabs (C i) <= M i. Proof. apply Rmax_l. Qed.
Lemma abs_S_M i : Rabs (Sn i) <= M i. Proof. apply Rmax_r. Qed.
Lemma Bx_abs h i : 0 <= h -> Rabs (Bx h i) <= h.
Proof.
  intros H. unfold Bx, Rdiv. assert (Mp := M_pos i). assert (X := abs_C_M i). rewrite !Rabs_mult, Rabs_inv, (Rabs_right (M i)), (Rabs_right h) by lra.
  apply Rmult_le_reg_r with (M i); auto. replace (h * / M i * Rabs (C i) * M i) with (h * Rabs (C i)) by (field; lra).
  apply Rmult_le_compat_l; auto.
Qed.
Lemma By_abs h i : 0 <= h -> Rabs (By h i) <= h.
Proof.
  intros H. unfold By, Rdiv. assert (Mp := M_pos i). assert (X := abs_S_M i). rewrite !Rabs_mult, Rabs_inv, (Rabs_right (M i)), (Rabs_right h) by lra.
  apply Rmult_le_reg_r with (M i); auto. replace (h * / M i * Rabs (Sn i) * M i) with (h * Rabs (Sn i)) by (field; lra).
  apply Rmult_le_compat_l; auto.
Qed.
Lemma B_cross h i : Bx h i * By h (S i) - By h i * Bx h (S i) = h * h * wedge i.
Proof.
  unfold Bx, By, wedge. assert (A := M_pos i). assert (B := M_pos (S i)).
  replace (sin dl) with (Sn (S i) * C i - C (S i) * Sn i); [field; lra|].
  unfold C, Sn. rewrite <- sin_minus. f_equal. rewrite S_INR. ring.
Qed.
Lemma B_snap_x eps h i : 0 < h -> eps <= h * sin dl -> snap eps (Bx h i + h) = Bx h i + h.
Proof.
  intros Hh He. apply snap_id. assert (Mp := M_pos i). destruct (ratio_gap i) as [E|E].
  - left. unfold Bx. rewrite E. field. lra.
  - right. eapply Rle_trans; [|apply Rle_abs]. replace (Bx h i + h) with (h * (1 + C i / M i)) by (unfold Bx; field; lra). nra.
Qed.
Lemma B_snap_y eps h i : 0 < h -> eps <= h * sin dl -> snap eps (By h i + h) = By h i + h.
Proof.
  intros Hh He. apply snap_id. assert (Mp := M_pos i). destruct (ratio_gap_S i) as [E|E].
  - left. unfold By. rewrite E. field. lra.
  - right. eapply Rle_trans; [|apply Rle_abs]. replace (By h i + h) with (h * (1 + Sn i / M i)) by (unfold By; field; lra). nra.
Qed.
Lemma Bx_quarter h i : Bx h (i + 2 * K) = - By h i.
Proof. unfold Bx, By. rewrite M_quarter, C_quarter. ring. Qed.
Lemma By_quarter h i : By h (i + 2 * K) = Bx h i.
Proof. unfold Bx, By. rewrite M_quarter, S_quarter. ring. Qed.
Lemma B_first h i : (i <= K)%nat -> Bx h i = h.
Proof. intros H. unfold Bx. rewrite M_first by auto. destruct (first_octant i H) as (A & _). field. lra. Qed.
(** the points of an octant lie on one side *)
Definition side (a b : R) : Prop := a = 1 /\ b = 0 \/ a = 0 /\ b = 1 \/ a = -1 /\ b = 0 \/ a = 0 /\ b = -1.
Lemma octant_side q : exists a b, side a b /\ forall h i, (q * K <= i <= q * K + K)%nat -> a * Bx h i + b * By h i = h.
Proof.
  assert (X : forall q, (exists a b, side a b /\ forall h i, (q * K <= i <= q * K + K)%nat -> a * Bx h i + b * By h i = h) /\
    (exists a b, side a b /\ forall h i, (S q * K <= i <= S q * K + K)%nat -> a * Bx h i + b * By h i = h)); [|apply X].
  intros q0. induction q0 as [|q0 [IH1 IH2]].
  - split.
    + exists 1, 0. split; [left; auto|]. intros h i Hi. rewrite B_first by lia. ring.
    + exists 0, 1. split; [right; left; auto|]. intros h i Hi. rewrite Rmult_0_l, Rmult_1_l, Rplus_0_l.
      unfold By. rewrite <- M_reflect, <- C_reflect by lia. apply B_first. lia.
  - split; [exact IH2|]. destruct IH1 as (a & b & D & E). exists (- b), a. split; [unfold side in *; lra|].
    intros h i Hi. replace i with (i - 2 * K + 2 * K)%nat by lia. rewrite Bx_quarter, By_quarter.
    rewrite <- (E h (i - 2 * K)%nat) at 3 by lia. ring.
Qed.
End Steps.
