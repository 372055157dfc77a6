From Coq Require Import List Arith ZArith Reals Lia Lra Bool Psatz Permutation.
From Verif Require Import Base Loops Stats_Model Stats_Spec.
Import ListNotations.
Local Open Scope R_scope.

Lemma fold_left_plus l : forall x, fold_left Rplus l x = x + total l.
Proof.
  induction l as [|y l IH]; intros x; cbn; [lra|]. rewrite IH. unfold total. lra.
Qed.
Lemma total_app l m : total (l ++ m) = total l + total m.
Proof. induction l as [|x l IH]; cbn; [unfold total; lra|]. fold (total (l ++ m)) (total l). lra. Qed.

Lemma naive_total l : l <> [] -> naiveSum l = Ret (total l).
Proof. destruct l; [congruence|]. intros _. cbn. now rewrite fold_left_plus. Qed.

Lemma pairwise_total : forall fuel l, l <> [] -> (length l < fuel)%nat ->
  pairwiseSum fuel l = Ret (total l).
Proof.
  induction fuel as [|fuel IH]; intros l Hl Hf; [lia|].
  cbn [pairwiseSum].
  assert (Hn : length l <> 0%nat) by (destruct l; cbn; congruence).
  destruct (Nat.eqb_spec (length l) 0); [lia|].
  destruct (Nat.leb_spec (length l) 128); [now apply naive_total|].
  pose proof (Nat.div_mod (length l) 2) as Hd.
  pose proof (Nat.mod_upper_bound (length l) 2) as Hm.
  set (m := (length l / 2)%nat) in *.
  assert (Hm1 : (0 < m < length l)%nat) by lia.
  assert (L1 : length (firstn m l) = m) by (rewrite firstn_length; lia).
  assert (L2 : length (skipn m l) = (length l - m)%nat) by now rewrite skipn_length.
  rewrite IH, IH; try lia.
  - cbn. f_equal. rewrite <- total_app, firstn_skipn. auto.
  - intros E. rewrite E in L2. cbn [length] in L2. lia.
  - intros E. rewrite E in L1. cbn [length] in L1. lia.
Qed.

Lemma sum_total l : l <> [] -> sum l = Ret (total l).
Proof. intros H. apply pairwise_total; auto. Qed.

Lemma mean_average l : l <> [] -> mean l = Ret (average l).
Proof.
  intros H. unfold mean. destruct l as [|x l]; [congruence|].
  now rewrite sum_total.
Qed.

Lemma total_bounds l lo hi : (forall x, In x l -> lo <= x <= hi) ->
  lo * INR (length l) <= total l <= hi * INR (length l).
Proof.
  induction l as [|x l IH]; intros H; [cbn; lra|].
  assert (Hx := H x (or_introl eq_refl)).
  assert (IHl := IH (fun y Hy => H y (or_intror Hy))).
  cbn [length]. rewrite S_INR. change (total (x :: l)) with (x + total l). nra.
Qed.

Lemma INR_pos l : l <> @nil R -> 0 < INR (length l).
Proof. intros H. apply lt_0_INR. destruct l; cbn; [congruence|lia]. Qed.

Lemma average_bounds l lo hi : l <> [] -> (forall x, In x l -> lo <= x <= hi) ->
  lo <= average l <= hi.
Proof.
  intros Hl H. pose proof (INR_pos l Hl) as Hp. apply total_bounds in H.
  unfold average. split.
  - apply Rmult_le_reg_r with (INR (length l)); auto. unfold Rdiv. rewrite Rmult_assoc, Rinv_l; lra.
  - apply Rmult_le_reg_r with (INR (length l)); auto. unfold Rdiv. rewrite Rmult_assoc, Rinv_l; lra.
Qed.

(** ** median *)
Lemma count_app P l m : count P (l ++ m) = (count P l + count P m)%nat.
Proof. unfold count. rewrite filter_app, app_length. auto. Qed.
Lemma count_all P l : (forall x, In x l -> P x = true) -> count P l = length l.
Proof.
  unfold count. induction l as [|x l IH]; intros H; cbn; auto.
  rewrite (H x) by now left. cbn. rewrite IH; auto. intros; apply H; now right.
Qed.
Lemma leb_true x y : x <= y -> leb x y = true.
Proof. unfold leb. destruct (Rle_dec x y); tauto. Qed.

Lemma count_prefix P l k : (k <= length l)%nat ->
  (forall i x, (i < k)%nat -> nth_error l i = Some x -> P x = true) -> (k <= count P l)%nat.
Proof.
  intros Hk H. rewrite <- (firstn_skipn k l), count_app.
  rewrite (count_all P (firstn k l)).
  - rewrite firstn_length. lia.
  - intros x Hx. apply In_nth_error in Hx. destruct Hx as (i & Hi).
    assert (Hik : (i < k)%nat).
    { apply Nat.nle_gt. intros Hc. rewrite (proj2 (nth_error_None _ _)) in Hi; [discriminate|].
      rewrite firstn_length. lia. }
    apply (H i); auto. rewrite <- Hi. symmetry.
    rewrite <- (firstn_skipn k l) at 2. rewrite nth_error_app1; auto. rewrite firstn_length. lia.
Qed.
Lemma count_suffix P l k : (k <= length l)%nat ->
  (forall i x, (k <= i)%nat -> nth_error l i = Some x -> P x = true) -> (length l - k <= count P l)%nat.
Proof.
  intros Hk H. rewrite <- (firstn_skipn k l) at 2. rewrite count_app.
  rewrite (count_all P (skipn k l)).
  - rewrite skipn_length. lia.
  - intros x Hx. apply In_nth_error in Hx. destruct Hx as (i & Hi).
    apply (H (k + i)%nat); [lia|]. rewrite <- Hi.
    rewrite <- (firstn_skipn k l) at 1. rewrite nth_error_app2; rewrite firstn_length; [|lia].
    f_equal. lia.
Qed.

Lemma median_ok l : l <> [] -> ascending l ->
  exists m, median l = Ret m /\ is_median m l /\
    (forall k, length l = (2 * k + 1)%nat -> nth_error l k = Some m) /\
    (forall k a b, length l = (2 * k + 2)%nat -> nth_error l k = Some a ->
       nth_error l (S k) = Some b -> m = (a + b) / 2).
Proof.
  intros Hl Ha.
  assert (Hn : (0 < length l)%nat) by (destruct l; cbn; [congruence|lia]).
  assert (Hm : median l =
    if (length l mod 2 =? 1)%nat then rd l (length l / 2)
    else let* a := rd l (length l / 2) in let* b := rd l (length l / 2 - 1) in Ret ((a + b) / 2)).
  { destruct l; [congruence|reflexivity]. }
  rewrite Hm. clear Hm.
  pose proof (Nat.div_mod (length l) 2) as Hd.
  pose proof (Nat.mod_upper_bound (length l) 2) as Hu.
  destruct (Nat.eqb_spec (length l mod 2) 1) as [E|E].
  - set (k := (length l / 2)%nat) in *.
    assert (Hk : length l = (2 * k + 1)%nat) by lia.
    destruct (nth_error l k) as [m|] eqn:Em.
    2:{ apply nth_error_None in Em. lia. }
    exists m. unfold rd. rewrite Em. split; [reflexivity|].
    split; [split|split].
    + pose proof (count_prefix (fun x => leb x m) l (S k)) as H.
      enough ((S k <= count (fun x => leb x m) l)%nat) by lia.
      apply H; [lia|]. intros i x Hi Ex. apply leb_true. apply (Ha i k); auto. lia.
    + pose proof (count_suffix (fun x => leb m x) l k) as H.
      enough ((length l - k <= count (fun x => leb m x) l)%nat) by lia.
      apply H; [lia|]. intros i x Hi Ex. apply leb_true. apply (Ha k i); auto.
    + intros k' Hk'. replace k' with k by lia. auto.
    + intros k' a b Hk'. lia.
  - set (k := (length l / 2)%nat) in *.
    assert (Hk : length l = (2 * k)%nat) by lia.
    destruct (nth_error l k) as [a|] eqn:Eh.
    2:{ apply nth_error_None in Eh. lia. }
    destruct (nth_error l (k - 1)) as [b|] eqn:Eb.
    2:{ apply nth_error_None in Eb. lia. }
    exists ((a + b) / 2). unfold rd. rewrite Eh, Eb. split; [reflexivity|].
    assert (Hba : b <= a) by (apply (Ha (k - 1)%nat k); auto; lia).
    split; [split|split].
    + enough ((k <= count (fun x => leb x ((a + b) / 2)) l)%nat) by lia.
      apply count_prefix; [lia|]. intros i x Hi Ex. apply leb_true.
      assert (x <= b) by (apply (Ha i (k - 1)%nat); auto; lia). lra.
    + enough ((length l - k <= count (fun x => leb ((a + b) / 2) x) l)%nat) by lia.
      apply count_suffix; [lia|]. intros i x Hi Ex. apply leb_true.
      assert (a <= x) by (apply (Ha k i); auto). lra.
    + intros k' Hk'. lia.
    + intros k' a' b' Hk' Ea' Eb'. replace k' with (k - 1)%nat in * by lia.
      replace (S (k - 1)) with k in Eb' by lia. rewrite Eb in Ea'. rewrite Eh in Eb'.
      injection Ea' as <-. injection Eb' as <-. lra.
Qed.

(** ** variance *)
Definition sq (l : list R) : R := total (map (fun x => x * x) l).
Definition dev (m : R) (l : list R) : R := total (map (fun x => (x - m) * (x - m)) l).

Lemma dev_expand m l : dev m l = sq l - 2 * m * total l + m * m * INR (length l).
Proof.
  unfold dev, sq. induction l as [|x l IH]; [cbn; lra|].
  cbn [map length]. rewrite S_INR. unfold total in *. cbn [fold_right]. rewrite IH. ring.
Qed.

(** the state after having seen the values [p] *)
Definition seen (p : list R) (s : Z * R * R) : Prop :=
  let '(n, mean, m2) := s in
  n = Z.of_nat (length p) /\ mean * INR (length p) = total p /\ m2 = dev mean p /\
  (p = [] -> mean = 0).

Lemma sq_app l m : sq (l ++ m) = sq l + sq m.
Proof. unfold sq. now rewrite map_app, total_app. Qed.

Lemma welford_step p n mean m2 x : seen p (n, mean, m2) ->
  let mean' := mean + (x - mean) / IZR (n + 1) in
  seen (p ++ [x]) ((n + 1)%Z, mean', m2 + (x - mean) * (x - mean')).
Proof.
  intros (Hn & Hm & H2 & H0) mean'. subst n.
  assert (HK : IZR (Z.of_nat (length p) + 1) = INR (length p) + 1).
  { rewrite plus_IZR, <- INR_IZR_INZ. auto. }
  assert (Hp : 0 <= INR (length p)) by apply pos_INR.
  set (k := INR (length p)) in *.
  assert (Hmean : mean' * (k + 1) = total p + x).
  { unfold mean'. rewrite HK, <- Hm. field. lra. }
  repeat split.
  - rewrite app_length. cbn. lia.
  - rewrite app_length, plus_INR, total_app. cbn. fold k. rewrite Hmean. lra.
  - rewrite dev_expand, app_length, plus_INR, total_app, sq_app. cbn [length]. fold k.
    rewrite H2, dev_expand. change (sq [x]) with (x * x + 0). change (total [x]) with (x + 0). cbn [INR].
    fold k. rewrite <- Hm.
    assert (Hx : x = mean' * (k + 1) - mean * k) by lra.
    rewrite Hx. ring.
  - intros E. destruct p; discriminate.
Qed.

Lemma welford_ok l : forall p s, seen p s ->
  (Z.of_nat (length p + length l) <= intMax)%Z ->
  exists s', welford l s = Ret s' /\ seen (p ++ l) s'.
Proof.
  induction l as [|x l IH]; intros p [[n mean] m2] Hs Hb; cbn [welford].
  - exists (n, mean, m2). rewrite app_nil_r. auto.
  - assert (Hn : n = Z.of_nat (length p)) by apply Hs.
    cbn [length] in Hb.
    rewrite i32_ok. 2:{ unfold in_i32, intMin. lia. }
    cbn [bind].
    destruct (IH (p ++ [x]) _ (welford_step p n mean m2 x Hs)) as (s' & E & H').
    { rewrite app_length. cbn [length]. lia. }
    exists s'. rewrite <- app_assoc in H'. auto.
Qed.

Lemma variance_ok l : (2 <= length l)%nat -> (Z.of_nat (length l) <= intMax)%Z ->
  variance l = Ret (sample_variance l).
Proof.
  intros Hl Hb. unfold variance.
  assert (Hne : l <> []) by (intros ->; cbn in Hl; lia).
  destruct (welford_ok l [] (0%Z, 0, 0)) as ([[n mean] m2] & E & Hs); auto.
  { repeat split; cbn; try lra. }
  destruct l as [|x l]; [congruence|]. rewrite E. cbn [bind].
  cbn [app] in Hs. destruct Hs as (Hn & Hm & H2 & _).
  destruct (Z.gtb_spec n 1); [|lia].
  f_equal. unfold sample_variance.
  pose proof (INR_pos (x :: l) Hne) as Hp.
  assert (Hav : mean = average (x :: l)).
  { unfold average. rewrite <- Hm. field. lra. }
  rewrite <- Hav, H2. unfold dev. f_equal.
  rewrite Hn, INR_IZR_INZ. f_equal. lia.
Qed.

Lemma total_nonneg l : (forall x, In x l -> 0 <= x) -> 0 <= total l.
Proof.
  induction l as [|x l IH]; intros H; [cbn; lra|].
  change (total (x :: l)) with (x + total l).
  pose proof (H x (or_introl eq_refl)). pose proof (IH (fun y Hy => H y (or_intror Hy))). lra.
Qed.
Lemma total_zero l : (forall x, In x l -> 0 <= x) -> total l = 0 -> forall x, In x l -> x = 0.
Proof.
  induction l as [|y l IH]; intros H E x Hx; [destruct Hx|].
  change (total (y :: l)) with (y + total l) in E.
  pose proof (H y (or_introl eq_refl)).
  pose proof (total_nonneg l (fun y Hy => H y (or_intror Hy))).
  destruct Hx as [<-|Hx]; [lra|].
  apply IH; auto. intros; apply H; now right. lra.
Qed.

Lemma INR_pred_pos (l : list R) : (2 <= length l)%nat -> 0 < INR (length l - 1).
Proof. intros H. apply lt_0_INR. lia. Qed.

Lemma sqdev_nonneg a l : forall x, In x (map (fun x => (x - a) * (x - a)) l) -> 0 <= x.
Proof. intros x Hx. apply in_map_iff in Hx. destruct Hx as (y & <- & _). exact (Rle_0_sqr (y - a)). Qed.

Lemma sample_variance_nonneg l : (2 <= length l)%nat -> 0 <= sample_variance l.
Proof.
  intros H. unfold sample_variance. apply Rmult_le_pos.
  - apply total_nonneg, sqdev_nonneg.
  - left. apply Rinv_0_lt_compat, INR_pred_pos, H.
Qed.

Lemma sample_variance_zero l : (2 <= length l)%nat ->
  (sample_variance l = 0 <-> forall x y, In x l -> In y l -> x = y).
Proof.
  intros Hl. split.
  - intros E. unfold sample_variance in E.
    pose proof (INR_pred_pos l Hl) as Hp.
    assert (Hz : total (map (fun x => (x - average l) * (x - average l)) l) = 0).
    { apply Rmult_eq_reg_r with (/ INR (length l - 1)).
      - rewrite Rmult_0_l. exact E.
      - apply Rinv_neq_0_compat. lra. }
    assert (Ha : forall x, In x l -> x = average l).
    { intros x Hx.
      assert ((x - average l) * (x - average l) = 0).
      { apply (total_zero _ (sqdev_nonneg (average l) l) Hz).
        apply in_map_iff. exists x. auto. }
      assert (x - average l = 0) by (apply Rsqr_0_uniq; auto). lra. }
    intros x y Hx Hy. rewrite (Ha x), (Ha y); auto.
  - intros H. assert (Hne : l <> []) by (intros ->; cbn in Hl; lia).
    destruct l as [|a l]; [congruence|].
    assert (Hav : average (a :: l) = a).
    { apply Rle_antisym; apply (average_bounds (a :: l) a a Hne);
        intros x Hx; rewrite (H x a Hx (or_introl eq_refl)); lra. }
    unfold sample_variance. rewrite Hav.
    assert (Hz : forall m, (forall x, In x m -> x = a) -> total (map (fun x => (x - a) * (x - a)) m) = 0).
    { induction m as [|y m IH]; intros Hm; [reflexivity|].
      cbn [map]. change (total (?u :: ?v)) with (u + total v).
      rewrite IH by (intros; apply Hm; now right). rewrite (Hm y) by now left. ring. }
    rewrite Hz; [unfold Rdiv; ring|]. intros x Hx. apply H; auto. now left.
Qed.

Lemma stdDev_ok l : (2 <= length l)%nat -> (Z.of_nat (length l) <= intMax)%Z ->
  exists s, stdDev l = Ret s /\ 0 <= s /\ s * s = sample_variance l.
Proof.
  intros H1 H2. unfold stdDev. rewrite variance_ok by auto. cbn.
  eexists. split; [reflexivity|]. split; [apply sqrt_pos|].
  apply sqrt_sqrt, sample_variance_nonneg, H1.
Qed.
