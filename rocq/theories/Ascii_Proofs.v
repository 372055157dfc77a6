From Coq Require Import List ZArith Lia.
From Verif Require Import Base Loops StringView_Model StringView_Spec Ascii_Model Ascii_Spec.
Import ListNotations.
Open Scope Z_scope.

Lemma dec_len_pos l z : dec l z -> (1 <= length l)%nat.
Proof. induction 1; rewrite ?app_length; cbn; lia. Qed.
Lemma dec_range l z : dec l z -> 0 <= z < 10 ^ Z.of_nat (length l).
Proof.
  induction 1; [cbn; lia|]. rewrite app_length, Nat2Z.inj_add. cbn [length]. rewrite Z.pow_add_r by lia.
  change (10 ^ Z.of_nat 1) with 10. lia.
Qed.
Lemma dec_inj' l z : dec l z -> forall l' z', dec l' z' -> z = z' -> length l' = length l -> l = l'.
Proof.
  induction 1 as [d Hd|l z d H IH Hd]; intros l' z' H' E HL; destruct H' as [d' Hd'|l1 z1 d1 H1 Hd1].
  - now subst.
  - rewrite app_length in HL. cbn in HL. pose proof (dec_len_pos _ _ H1). lia.
  - rewrite app_length in HL. cbn in HL. pose proof (dec_len_pos _ _ H). lia.
  - rewrite !app_length in HL. cbn in HL. assert (z1 = z) by lia. assert (d1 = d) by lia. subst.
    f_equal. apply (IH l1 z); auto. lia.
Qed.
Lemma dec_inj l z : dec l z -> forall l', length l' = length l -> dec l' z -> l = l'.
Proof. intros H l' L H'. exact (dec_inj' l z H l' z H' eq_refl L). Qed.
Lemma dec_val' l z : dec l z -> forall l' z', dec l' z' -> l = l' -> z = z'.
Proof.
  induction 1 as [d Hd|l z d H IH Hd]; intros l' z' H' E; destruct H' as [d' Hd'|l1 z1 d1 H1 Hd1].
  - apply (f_equal (fun l => nth 0 l 0)) in E. cbn [nth] in E. lia.
  - apply (f_equal (@length _)) in E. rewrite app_length in E. cbn in E. pose proof (dec_len_pos _ _ H1). lia.
  - apply (f_equal (@length _)) in E. rewrite app_length in E. cbn in E. pose proof (dec_len_pos _ _ H). lia.
  - apply app_inj_tail in E. destruct E as [-> E]. rewrite (IH l1 z1 H1 eq_refl). lia.
Qed.
Lemma dec_val l z : dec l z -> forall z', dec l z' -> z = z'.
Proof. intros H z' H'. exact (dec_val' l z H l z' H' eq_refl). Qed.

Lemma upd_app_r {A} (l : list A) (r : list A) i x : upd (l ++ r) (length l + i) x = l ++ upd r i x.
Proof. induction l; cbn; congruence. Qed.
Lemma upd_app_l {A} (l r : list A) i x : (i < length l)%nat -> upd (l ++ r) i x = upd l i x ++ r.
Proof. revert i. induction l; intros i H; cbn in *; [lia|]. destruct i; cbn; auto. rewrite IHl by lia. auto. Qed.

Lemma to_char_small x : -128 <= x < 128 -> to_char x = x.
Proof. intros H. unfold to_char. rewrite Z.mod_small; lia. Qed.

(** the last character of the counter, with whatever follows it *)
Lemma bump_at s c t : bump (length s) (s ++ c :: t) =
  (if c =? 57 then match s with [] => Ub | _ => bump (length s - 1) (s ++ 48 :: t) end
   else Ret (s ++ to_char (c + 1) :: t)).
Proof.
  assert (R : rd (s ++ c :: t) (length s) = Ret c).
  { unfold rd. rewrite nth_error_app2, Nat.sub_diag by lia. reflexivity. }
  assert (W : forall x, wr (s ++ c :: t) (length s) x = Ret (s ++ x :: t)).
  { intros x. rewrite wr_ok by (rewrite app_length; cbn; lia).
    f_equal. rewrite <- (Nat.add_0_r (length s)), upd_app_r. reflexivity. }
  destruct s as [|b s].
  - cbn [length bump app] in *. rewrite R. cbn [bind]. rewrite !W. cbn [bind]. reflexivity.
  - cbn [length] in *. cbn [bump]. rewrite R. cbn [bind]. rewrite !W. cbn [bind]. rewrite Nat.sub_succ, Nat.sub_0_r. reflexivity.
Qed.

Lemma bump_dec l z : dec l z -> forall pre t, z + 1 < 10 ^ Z.of_nat (length l) ->
  exists l', bump (length pre + length l - 1) (pre ++ l ++ t) = Ret (pre ++ l' ++ t) /\
    length l' = length l /\ dec l' (z + 1).
Proof.
  induction 1 as [d Hd|l z d H IH Hd]; intros pre t Hz.
  - cbn [length] in *. change (10 ^ Z.of_nat 1) with 10 in Hz. replace (length pre + 1 - 1)%nat with (length pre) by lia.
    cbn [app]. rewrite bump_at. destruct (Z.eqb_spec (48 + d) 57); [lia|].
    exists [48 + (d + 1)]. rewrite to_char_small by lia. split; [rewrite Z.add_assoc; reflexivity|]. split; auto. constructor. lia.
  - rewrite app_length in *. cbn [length] in *. rewrite Nat2Z.inj_add in Hz. rewrite Z.pow_add_r in Hz by lia. change (10 ^ Z.of_nat 1) with 10 in Hz.
    replace (length pre + (length l + 1) - 1)%nat with (length (pre ++ l)) by (rewrite app_length; lia).
    rewrite <- app_assoc, app_assoc. cbn [app]. rewrite bump_at.
    pose proof (dec_len_pos _ _ H) as HL.
    destruct (Z.eqb_spec (48 + d) 57).
    + assert (d = 9) by lia. subst d.
      destruct (IH pre (48 :: t)) as (l' & E & L & D); [lia|].
      rewrite <- app_assoc, app_length. rewrite E.
      assert (Hne : pre ++ l <> []) by (destruct l; [cbn in HL; lia|destruct pre; discriminate]).
      exists (l' ++ [48 + 0]). split; [|split].
      * rewrite <- app_assoc. cbn [app]. destruct (pre ++ l); [contradiction|reflexivity].
      * rewrite app_length. cbn. lia.
      * replace (10 * z + 9 + 1) with (10 * (z + 1) + 0) by lia. constructor; auto; lia.
    + exists (l ++ [48 + (d + 1)]). rewrite to_char_small by lia. split; [|split].
      * rewrite <- !app_assoc, Z.add_assoc. reflexivity.
      * rewrite app_length. cbn. lia.
      * replace (10 * z + d + 1) with (10 * z + (d + 1)) by lia. constructor; auto. lia.
Qed.

Lemma increment_dec pre l z : dec l z -> z + 1 < 10 ^ Z.of_nat (length l) ->
  exists l', incrementASCIINumber (pre ++ l) = Ret (pre ++ l') /\ length l' = length l /\ dec l' (z + 1).
Proof.
  intros H Hz. pose proof (dec_len_pos _ _ H). unfold incrementASCIINumber.
  destruct (bump_dec l z H pre [] Hz) as (l' & E & L & D). rewrite !app_nil_r in E.
  exists l'. split; auto. rewrite app_length.
  destruct (length pre + length l)%nat as [|p] eqn:Ep; [lia|]. rewrite Nat.sub_succ, Nat.sub_0_r in E. exact E.
Qed.

Lemma dec_snoc l z x : dec l z -> 0 <= x <= 9 -> dec (l ++ [48 + x]) (10 * z + x).
Proof. intros. now constructor. Qed.
Lemma quot10 n : 0 <= n -> Z.quot n 10 = n / 10.
Proof. intros. apply Z.quot_div_nonneg; lia. Qed.
Lemma rem10 n : 0 <= n -> Z.rem n 10 = n mod 10.
Proof. intros. apply Z.rem_mod_nonneg; lia. Qed.
Ltac quots n := assert (0 <= n) by lia; assert (0 <= n / 10) by (apply Z.div_pos; lia);
  assert (0 <= n / 10 / 10) by (apply Z.div_pos; lia); assert (0 <= n / 10 / 10 / 10) by (apply Z.div_pos; lia);
  assert (0 <= n / 10 / 10 / 10 / 10) by (apply Z.div_pos; lia);
  rewrite ?(quot10 n), ?(rem10 n), ?(quot10 (n / 10)), ?(rem10 (n / 10)), ?(quot10 (n / 10 / 10)), ?(rem10 (n / 10 / 10)),
    ?(quot10 (n / 10 / 10 / 10)), ?(rem10 (n / 10 / 10 / 10)), ?(rem10 (n / 10 / 10 / 10 / 10)) by assumption.
Lemma get_digits num : 0 <= num < 100000 -> exists s, getASCIINumber num = Ret s /\ digits 5 s num.
Proof.
  intros H. unfold getASCIINumber. cbn [for_ put_digit bind]. cbn [wr Base.wr length Nat.sub upd]. 
  cbn -[Z.rem Z.quot to_char]. quots num.
  eexists. split; [reflexivity|]. split; [reflexivity|].
  set (a := num / 10). set (b := a / 10). set (c := b / 10). set (e := c / 10).
  pose proof (Z.div_mod num 10). pose proof (Z.div_mod a 10). pose proof (Z.div_mod b 10). pose proof (Z.div_mod c 10).
  pose proof (Z.mod_pos_bound num 10). pose proof (Z.mod_pos_bound a 10). pose proof (Z.mod_pos_bound b 10). pose proof (Z.mod_pos_bound c 10).
  fold a in H0. fold b in H1. fold c in H2. fold e in H3.
  assert (He : 0 <= e <= 9) by lia. rewrite (Z.mod_small e) by lia.
  rewrite !to_char_small by lia.
  replace num with (10 * (10 * (10 * (10 * e + c mod 10) + b mod 10) + a mod 10) + num mod 10) at 2 by lia.
  rewrite !(Z.add_comm _ 48).
  change ([48 + e; 48 + c mod 10; 48 + b mod 10; 48 + a mod 10; 48 + num mod 10]) with
    (((([48 + e] ++ [48 + c mod 10]) ++ [48 + b mod 10]) ++ [48 + a mod 10]) ++ [48 + num mod 10]).
  repeat apply dec_snoc; try lia. constructor. lia.
Qed.

Lemma dec_zeros n : dec (repeat 48 (S n)) 0.
Proof.
  induction n as [|n IH]; [apply (dec_one 0); lia|].
  replace (repeat 48 (S (S n))) with (repeat 48 (S n) ++ [48 + 0]).
  - apply (dec_more _ 0 0); auto. lia.
  - change [48 + 0] with (repeat 48 1). rewrite <- repeat_app. f_equal. lia.
Qed.
Lemma increments_dec pre l z k : dec l z -> z + Z.of_nat k < 10 ^ Z.of_nat (length l) ->
  exists l', increments k (pre ++ l) = Ret (pre ++ l') /\ length l' = length l /\ dec l' (z + Z.of_nat k).
Proof.
  intros H. induction k as [|k IH]; intros Hk.
  - exists l. rewrite Z.add_0_r. auto.
  - destruct IH as (l1 & E & L & D); [lia|]. cbn [increments]. rewrite E. cbn [bind].
    destruct (increment_dec pre l1 _ D) as (l2 & E2 & L2 & D2); [rewrite L; lia|].
    exists l2. split; auto. split; [congruence|]. replace (z + Z.of_nat (S k)) with (z + Z.of_nat k + 1) by lia. auto.
Qed.
Lemma increments_get pre k : Z.of_nat k < 100000 -> exists s, getASCIINumber (Z.of_nat k) = Ret s /\
  increments k (pre ++ [48; 48; 48; 48; 48]) = Ret (pre ++ s) /\ digits 5 s (Z.of_nat k).
Proof.
  intros H. destruct (get_digits (Z.of_nat k)) as (s & E & L & D); [lia|].
  destruct (increments_dec pre [48; 48; 48; 48; 48] 0 k (dec_zeros 4)) as (l & E2 & L2 & D2); [cbn; lia|].
  exists s. split; auto. split; [|split; auto]. refine (eq_trans E2 _). do 2 f_equal.
  apply (dec_inj l (0 + Z.of_nat k)); auto. cbn in L2. lia.
Qed.
Lemma increment_nines pre c n : c <> 57 -> incrementASCIINumber (pre ++ c :: repeat 57 n) = Ret (pre ++ to_char (c + 1) :: repeat 48 n).
Proof.
  intros Hc. unfold incrementASCIINumber. rewrite app_length. cbn [length]. rewrite repeat_length, Nat.add_succ_r.
  assert (H : forall k, bump (length pre + n) (pre ++ c :: repeat 57 n ++ repeat 48 k) = Ret (pre ++ to_char (c + 1) :: repeat 48 n ++ repeat 48 k)).
  { induction n as [|n IH]; intros k.
    - rewrite Nat.add_0_r. cbn [repeat app]. rewrite bump_at. destruct (Z.eqb_spec c 57); [contradiction|]. reflexivity.
    - replace (repeat 57 (S n)) with (repeat 57 n ++ [57]).
      2:{ change [57] with (repeat 57 1). rewrite <- repeat_app. f_equal. lia. }
      rewrite <- app_assoc. cbn [app].
      replace (pre ++ c :: repeat 57 n ++ 57 :: repeat 48 k) with ((pre ++ c :: repeat 57 n) ++ 57 :: repeat 48 k) by (rewrite <- app_assoc; reflexivity).
      replace (length pre + S n)%nat with (length (pre ++ c :: repeat 57 n)) by (rewrite app_length; cbn; rewrite repeat_length; lia).
      rewrite bump_at, Z.eqb_refl.
      destruct (pre ++ c :: repeat 57 n) eqn:E; [destruct pre; discriminate|]. rewrite <- E.
      rewrite app_length. cbn [length]. rewrite repeat_length. replace (length pre + S n - 1)%nat with (length pre + n)%nat by lia.
      rewrite <- app_assoc. cbn [app]. change (48 :: repeat 48 k) with (repeat 48 (S k)). rewrite IH.
      do 3 f_equal. rewrite <- !repeat_app. f_equal. lia. }
  specialize (H 0%nat). cbn [repeat] in H. rewrite !app_nil_r in H. exact H.
Qed.
Lemma get_wraps num : 0 <= num -> getASCIINumber (num + 100000) = getASCIINumber num.
Proof.
  intros H. unfold getASCIINumber. cbn -[Z.rem Z.quot to_char].
  quots (num + 100000). quots num.
  replace (num + 100000) with (num + 10000 * 10) by lia. rewrite Z.mod_add, Z.div_add by lia.
  replace (num / 10 + 10000) with (num / 10 + 1000 * 10) by lia. rewrite Z.mod_add, Z.div_add by lia.
  replace (num / 10 / 10 + 1000) with (num / 10 / 10 + 100 * 10) by lia. rewrite Z.mod_add, Z.div_add by lia.
  replace (num / 10 / 10 / 10 + 100) with (num / 10 / 10 / 10 + 10 * 10) by lia. rewrite Z.mod_add, Z.div_add by lia.
  replace (num / 10 / 10 / 10 / 10 + 10) with (num / 10 / 10 / 10 / 10 + 1 * 10) by lia. rewrite Z.mod_add by lia.
  reflexivity.
Qed.
