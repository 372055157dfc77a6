(** Proofs for the String model: a representation invariant kept by every operation. *)
From Coq Require Import List Arith ZArith Lia Bool.
From Verif Require Import Base Own String_Model String_Spec.
Import ListNotations.

Arguments min_cap : simpl never.

Lemma toInt_ok n : (Z.of_nat n <= intMax)%Z -> toInt n = Ret n.
Proof. intros H. unfold toInt. apply Z.leb_le in H. now rewrite H. Qed.

(** ** Reading and writing runs of chars *)
Lemma rdn_app (p : block) l q : rdn (p ++ map Some l ++ q) (length p) (length l) = Ret l.
Proof.
  revert p; induction l as [|a l IH]; intros p; cbn; auto.
  unfold rd. rewrite nth_error_mid. cbn.
  specialize (IH (p ++ [Some a])). rewrite <- app_assoc in IH. cbn in IH.
  rewrite app_length in IH. cbn in IH. rewrite Nat.add_1_r in IH. rewrite IH. reflexivity.
Qed.

Lemma slice_length l pos n : pos + n <= length l -> length (slice l pos n) = n.
Proof. intros. unfold slice. len. Qed.
Lemma slice_all l : slice l 0 (length l) = l.
Proof. unfold slice. cbn. apply firstn_all. Qed.

Lemma rdn_slice l (r : block) pos n : pos + n <= length l ->
  rdn (map Some l ++ r) pos n = Ret (slice l pos n).
Proof.
  intros H. rewrite <- (firstn_skipn pos l) at 1.
  rewrite <- (firstn_skipn n (skipn pos l)) at 1.
  rewrite !map_app, <- !app_assoc. fold (slice l pos n).
  pose proof (rdn_app (map Some (firstn pos l)) (slice l pos n)
    (map Some (skipn n (skipn pos l)) ++ r)) as E.
  rewrite slice_length in E by auto.
  replace (length (map Some (firstn pos l))) with pos in E by len. exact E.
Qed.

Lemma wrn_app (p m q : block) l : length m = length l ->
  wrn (p ++ m ++ q) (length p) l = Ret (p ++ map Some l ++ q).
Proof.
  revert p m; induction l as [|a l IH]; intros p [|x m] H; cbn in *; try discriminate; auto.
  rewrite wr_ok by len. cbn. rewrite upd_mid.
  specialize (IH (p ++ [Some a]) m). rewrite <- !app_assoc in IH. cbn in IH.
  rewrite app_length in IH. cbn in IH. rewrite Nat.add_1_r in IH. rewrite IH by lia. reflexivity.
Qed.

(** ** Buffers *)
Definition own (v : str) : option nat := match v with Short _ _ => None | Long b _ _ => Some b end.
Definition buf (h : heap) (v : str) : option block :=
  match v with
  | Short d _ => Some d
  | Long b _ _ => match nth_error h b with Some (Some c) => Some c | _ => None end
  end.
Definition bcap (v : str) : nat := match v with Short _ _ => min_cap | Long _ _ c => c end.

Notation inplace := (Own.inplace (C := block) own).
Notation frame := (Own.frame (C := block) own).

Lemma inplace_trans h v h1 v1 h2 : own v1 = own v -> inplace h v h1 -> inplace h1 v1 h2 ->
  inplace h v h2.
Proof.
  intros E [L1 H1] [L2 H2]. split; [lia|]. intros b Hb. rewrite H2 by congruence. auto.
Qed.

Lemma put_ok h v off l c c' : buf h v = Some c -> wrn c off l = Ret c' ->
  exists h' v', put h v off l = Ret (h', v') /\ buf h' v' = Some c' /\ size v' = size v /\
    own v' = own v /\ bcap v' = bcap v /\ inplace h v h'.
Proof.
  intros Hb Hw. destruct v as [d n|b n cap]; cbn in *.
  - injection Hb as ->. rewrite Hw. cbn. do 2 eexists. split; [reflexivity|]. cbn.
    do 4 (split; [reflexivity|]). apply inplace_refl.
  - destruct (nth_error h b) as [[c0|]|] eqn:E; try discriminate. injection Hb as ->.
    unfold blk, rd. rewrite E. cbn. rewrite Hw. cbn.
    assert (Hl := nth_lt _ _ _ E). rewrite wr_ok by auto. cbn.
    do 2 eexists. split; [reflexivity|]. cbn. rewrite nth_error_upd_eq by auto.
    do 4 (split; [reflexivity|]). split; [len|].
    cbn. intros b' Hb'. apply nth_error_upd_neq. congruence.
Qed.

Lemma copyTo_ok h v s l m1 m2 m3 : overlap v (length m1) s = false -> read h v s = Ret l ->
  buf h v = Some (m1 ++ m2 ++ m3) -> length m2 = length l ->
  exists h' v', copyTo h v (length m1) s = Ret (h', v') /\
    buf h' v' = Some (m1 ++ map Some l ++ m3) /\ size v' = size v /\
    own v' = own v /\ bcap v' = bcap v /\ inplace h v h'.
Proof.
  intros Ho Hr Hb Hl. unfold copyTo. rewrite Ho, Hr. cbn [bind].
  eapply put_ok; eauto. now apply wrn_app.
Qed.

Section B.
  Variable B : nat.

  Definition rep (h : heap) (v : str) (l : list char) : Prop :=
    exists r, buf h v = Some (map Some l ++ Some NUL :: r) /\
      length l + 1 + length r = bcap v /\ size v = length l /\
      (own v = None \/ (min_cap < bcap v /\ bcap v <= 2 * B + 1)).

  Lemma rep_pres h h' v l : rep h v l ->
    (forall b, own v = Some b -> b < length h -> nth_error h' b = nth_error h b) -> rep h' v l.
  Proof.
    intros (r & Hb & H) E. exists r. split; auto. destruct v as [d n|b n cap]; auto.
    cbn in *. rewrite E; auto.
    destruct (nth_error h b) eqn:En; try discriminate. eapply nth_lt; eauto.
  Qed.
  Lemma rep_block h v l b : rep h v l -> own v = Some b -> alloc h b.
  Proof.
    intros (r & Hb & _) E. destruct v as [|b' n c]; cbn in *; try discriminate.
    injection E as ->. destruct (nth_error h b) as [[c'|]|] eqn:En; try discriminate.
    exists c'. auto.
  Qed.
  Lemma rep_null h : rep h empty_str [].
  Proof. exists (repeat (Some NUL) 22). cbn. repeat split; auto. Qed.

  Lemma rep_buf_free h v l : rep h v l ->
    exists m, buf h v = Some m /\ length m = bcap v.
  Proof. intros (r & Hb & Hl & _). eexists. split; eauto. len. Qed.

  (** Terminator written behind the chars. *)
  Lemma finish h v l m : buf h v = Some (map Some l ++ m) -> length l + length m = bcap v ->
    1 <= length m -> size v = length l ->
    (own v = None \/ (min_cap < bcap v /\ bcap v <= 2 * B + 1)) ->
    exists h' v', put h v (length l) [NUL] = Ret (h', v') /\ rep h' v' l /\
      own v' = own v /\ bcap v' = bcap v /\ inplace h v h'.
  Proof.
    intros Hb Hl Hm Hs Ho. destruct m as [|x m]; [cbn in Hm; lia|].
    destruct (put_ok h v (length l) [NUL] _ (map Some l ++ map Some [NUL] ++ m) Hb)
      as (h' & v' & E & Hb' & Hs' & Ho' & Hc' & Hi).
    { replace (length l) with (length (map (@Some char) l)) by len.
      apply (wrn_app _ [x] m [NUL]). reflexivity. }
    exists h', v'. rewrite E. split; [reflexivity|]. split; [|auto].
    exists m. cbn in *. rewrite Hb', Hc', Hs'. split; [reflexivity|]. split; [lia|].
    split; [auto|]. rewrite Ho'. auto.
  Qed.

  Lemma read_pres h h' v v' s l : read h v s = Ret l ->
    (forall b i n, s = Blk b i n -> nth_error h' b = nth_error h b) ->
    (forall i n, s = Self i n -> own v = None -> own v' = None /\ buf h' v' = buf h v) ->
    read h' v' s = Ret l.
  Proof.
    intros H Hb Hs. destruct s as [l0|i n|b i n]; cbn in *; auto.
    - destruct v as [d k|b k c]; try discriminate.
      destruct (Hs i n eq_refl eq_refl) as [E1 E2]. destruct v' as [d' k'|]; try discriminate.
      cbn in E2. injection E2 as ->. auto.
    - unfold blk, rd in *. now rewrite (Hb b i n eq_refl).
  Qed.

  Lemma read_block h v b i n l : read h v (Blk b i n) = Ret l -> b < length h.
  Proof.
    cbn. unfold blk, rd. destruct (nth_error h b) eqn:E; try discriminate.
    intros _. eapply nth_lt; eauto.
  Qed.

  Lemma read_own h v l pos n : rep h v l -> pos + n <= length l ->
    read h v (own_src v pos n) = Ret (slice l pos n).
  Proof.
    intros (r & Hb & _) Hn. destruct v as [d k|b k c]; cbn in *.
    - injection Hb as ->. now apply rdn_slice.
    - unfold blk, rd. destruct (nth_error h b) as [[c0|]|]; try discriminate. cbn.
      injection Hb as ->. now apply rdn_slice.
  Qed.

  Definition not_self (s : src) := match s with Self _ _ => False | _ => True end.

  Lemma init_rep h s l n : read h empty_str s = Ret l -> not_self s -> length l = n -> n <= B ->
    (Z.of_nat (2 * B + 1) <= intMax)%Z ->
    exists h' v', init h s n = Ret (h', v') /\ rep h' v' l /\ frame h empty_str h' v'.
  Proof.
    intros Hr Hns Hl Hn HB. unfold init. rewrite toInt_ok by lia. cbn [bind].
    unfold fitsInShort. destruct (Nat.ltb_spec n min_cap) as [Hlt|Hge].
    - (* short *)
      assert (Hc : exists h2 t2,
        (if n =? 0 then Ret (h, Short (repeat None min_cap) n)
         else copyTo h (Short (repeat None min_cap) n) 0 s) = Ret (h2, t2) /\
        buf h2 t2 = Some (map Some l ++ repeat None (min_cap - n)) /\ size t2 = n /\
        own t2 = None /\ bcap t2 = min_cap /\ inplace h (Short (repeat None min_cap) n) h2).
      { destruct (Nat.eqb_spec n 0) as [E|E].
        - do 2 eexists. split; [reflexivity|]. destruct l; [|cbn in Hl; lia].
          cbn. rewrite E, Nat.sub_0_r. do 4 (split; [reflexivity|]). apply inplace_refl.
        - apply (copyTo_ok h (Short (repeat None min_cap) n) s l [] (repeat None n)
                   (repeat None (min_cap - n))).
          + destruct s; try contradiction; reflexivity.
          + eapply read_pres; eauto. intros i k ->. contradiction.
          + cbn. rewrite <- repeat_app. do 2 f_equal. lia.
          + len. }
      destruct Hc as (h2 & t2 & E & Hb & Hs & Ho & Hcap & Hi).
      rewrite E. cbn [bind].
      destruct (finish h2 t2 l (repeat None (min_cap - n))) as (h3 & t3 & E3 & R & Ho3 & _ & Hi3);
        auto; try (rewrite ?Hs, ?Hcap, ?repeat_length; lia).
      rewrite Hl in E3. rewrite E3. exists h3, t3. split; [reflexivity|]. split; auto.
      apply frame_inplace; [|cbn; congruence].
      eapply inplace_trans; [|exact Hi|exact Hi3]. auto.
    - (* long *)
      destruct (Nat.eqb_spec n 0) as [E|E]; [unfold min_cap in *; lia|].
      set (h1 := h ++ [Some (repeat None (n + 1))]).
      destruct (copyTo_ok h1 (Long (length h) n (n + 1)) s l [] (repeat None n) [None])
        as (h2 & t2 & E2 & Hb & Hs & Ho & Hcap & Hi).
      + destruct s as [| |b i k]; try contradiction; try reflexivity. cbn.
        apply read_block in Hr. destruct (Nat.eqb_spec (length h) b); [lia|reflexivity].
      + eapply read_pres; eauto.
        * intros b i k ->. apply read_block in Hr. unfold h1. now rewrite nth_error_app1.
        * intros i k ->. contradiction.
      + cbn. unfold h1. rewrite nth_error_mid. f_equal. now rewrite repeat_app.
      + len.
      + cbn [length] in E2. rewrite E2. cbn [bind].
        destruct (finish h2 t2 l [None]) as (h3 & t3 & E3 & R & Ho3 & _ & Hi3); auto;
          rewrite ?Hs, ?Hcap; cbn; try lia.
        rewrite Hl in E3. rewrite E3. exists h3, t3. split; [reflexivity|]. split; auto.
        assert (I : inplace h1 (Long (length h) n (n + 1)) h3)
          by (eapply inplace_trans; [|exact Hi|exact Hi3]; auto).
        destruct I as [L1 L2]. cbn in L2. constructor; cbn.
        * unfold h1 in L1. rewrite app_length in L1. lia.
        * intros b Hb' _. rewrite L2 by (intros [=]; lia). unfold h1. now rewrite nth_error_app1.
        * intros b Hb' Ha. apply alloc_lt in Ha. unfold h1 in L1. rewrite app_length in L1.
          cbn in L1. rewrite Ho3, Ho. cbn. f_equal. lia.
        * discriminate.
        * intros b. rewrite Ho3, Ho. cbn. intros [=]. right. lia.
  Qed.

  (** A move to a freshly allocated block at the end of the heap. *)
  Lemma frame_new h v h' v' : own v' = Some (length h) -> length h' = S (length h) ->
    (forall b, b < length h -> own v <> Some b -> nth_error h' b = nth_error h b) ->
    (forall b, own v = Some b -> nth_error h' b = Some None) ->
    (forall b, own v = Some b -> b < length h) ->
    frame h v h' v'.
  Proof.
    intros Ho Hl H1 H2 H3. constructor.
    - lia.
    - auto.
    - intros b Hb Ha. apply alloc_lt in Ha. rewrite Ho. f_equal. lia.
    - intros b Hb _ [c Hc]. rewrite (H2 b Hb) in Hc. discriminate.
    - intros b. rewrite Ho. intros [= <-]. right. lia.
  Qed.

  Lemma own_setSize v n : own (setSize v n) = own v. Proof. now destruct v. Qed.
  Lemma bcap_setSize v n : bcap (setSize v n) = bcap v. Proof. now destruct v. Qed.
  Lemma buf_setSize h v n : buf h (setSize v n) = buf h v. Proof. now destruct v. Qed.
  Lemma size_setSize v n : size (setSize v n) = n. Proof. now destruct v. Qed.
  Lemma overlap_setSize v n off s : overlap (setSize v n) off s = overlap v off s.
  Proof. now destruct v. Qed.
  Lemma read_setSize h v n s : read h (setSize v n) s = read h v s.
  Proof. now destruct v, s. Qed.
  Hint Rewrite own_setSize bcap_setSize buf_setSize size_setSize overlap_setSize read_setSize : ss.

  Lemma inplace_setSize h v n h' : inplace h (setSize v n) h' <-> inplace h v h'.
  Proof. unfold Own.inplace. rewrite own_setSize. tauto. Qed.

  Lemma capacity_ok h v l : rep h v l -> (Z.of_nat (2 * B + 1) <= intMax)%Z ->
    capacity v = Ret (bcap v - 1).
  Proof.
    intros (r & _ & _ & _ & Ho) HB. destruct v as [d n|b n c]; cbn in *; auto.
    rewrite toInt_ok; auto. destruct Ho as [|[? ?]]; [discriminate|lia].
  Qed.

  (** In-place overwrite of the front of the buffer. *)
  Lemma overwrite h v l s l' n k0 : rep h v l -> read h v s = Ret l' -> length l' = n ->
    overlap v 0 s = false -> n < bcap v ->
    exists h1 v1 h2 v2, copyTo h (setSize v k0) 0 s = Ret (h1, v1) /\
      put h1 (setSize v1 n) n [NUL] = Ret (h2, v2) /\ rep h2 v2 l' /\ frame h v h2 v2 /\
      (k0 = n -> setSize v1 n = v1).
  Proof.
    intros (r & Hb & Hlen & Hsz & Ho) Hr Hl Hov Hn.
    set (m := map Some l ++ Some NUL :: r) in *.
    assert (Hm : length m = bcap v) by (unfold m; len).
    destruct (copyTo_ok h (setSize v k0) s l' [] (firstn n m) (skipn n m))
      as (h1 & v1 & E1 & Hb1 & Hs1 & Ho1 & Hc1 & Hi1); autorewrite with ss in *; auto.
    { cbn. rewrite firstn_skipn. auto. }
    { len. }
    destruct (finish h1 (setSize v1 n) l' (skipn n m)) as (h2 & v2 & E2 & R & Ho2 & Hc2 & Hi2);
      autorewrite with ss in *; rewrite ?Hc1, ?Ho1; auto; try len.
    exists h1, v1, h2, v2. cbn in E1. rewrite Hl in E2. repeat (split; [eassumption|]).
    split.
    - apply frame_inplace; [|congruence].
      eapply inplace_trans; [|exact (proj1 (inplace_setSize _ _ _ _) Hi1)|
                              exact (proj1 (inplace_setSize _ _ _ _) Hi2)]. auto.
    - intros <-. destruct v, v1; cbn in *; congruence.
  Qed.

  Lemma free_ok h b c : nth_error h b = Some (Some c) -> free h b = Ret (upd h b None).
  Proof.
    intros E. unfold free, blk, rd. rewrite E. cbn. apply wr_ok. eapply nth_lt; eauto.
  Qed.

  Lemma buf_long h b n c m : buf h (Long b n c) = Some m -> nth_error h b = Some (Some m).
  Proof. cbn. destruct (nth_error h b) as [[c0|]|]; congruence. Qed.

  Lemma assign_rep h v l s l' n : rep h v l -> read h v s = Ret l' -> length l' = n ->
    overlap v 0 s = false -> n <= B -> (Z.of_nat (2 * B + 1) <= intMax)%Z ->
    exists h' v', assign h v s n = Ret (h', v') /\ rep h' v' l' /\ frame h v h' v'.
  Proof.
    intros Hrep Hr Hl Hov Hn HB. unfold assign, fitsInShort.
    destruct (Nat.ltb_spec n min_cap) as [Hlt|Hge].
    - (* assignShort *)
      assert (Hc : n < bcap v).
      { destruct Hrep as (r & _ & _ & _ & [Ho|[Ho _]]); [destruct v; cbn in *; [auto|discriminate]|lia]. }
      destruct (overwrite h v l s l' n n Hrep Hr Hl Hov Hc)
        as (h1 & v1 & h2 & v2 & E1 & E2 & R & F & Es).
      unfold assignShort. rewrite E1. cbn [bind]. rewrite Es in E2 by auto. eauto.
    - unfold assignLong. rewrite (capacity_ok h v l Hrep HB). cbn [bind].
      destruct (Nat.ltb_spec (bcap v - 1) n) as [Hc|Hc].
      + (* reallocation *)
        rewrite Hr. cbn [bind]. set (h1 := h ++ [Some (repeat None (n + 1))]).
        destruct (put_ok h1 (Long (length h) n (n + 1)) 0 l' (repeat None (n + 1)) (map Some l' ++ [None]))
          as (h2 & v2 & E2 & Hb2 & Hs2 & Ho2 & Hc2 & Hi2).
        { cbn. unfold h1. now rewrite nth_error_mid. }
        { rewrite repeat_app. apply (wrn_app [] (repeat None n) [None] l'). len. }
        rewrite E2. cbn [bind].
        assert (v2 = Long (length h) n (n + 1)).
        { destruct v2 as [|b2 n2 c2]; cbn in *; [discriminate|]. congruence. }
        subst v2.
        assert (L2 : length h2 = S (length h)).
        { destruct Hi2 as [L _]. unfold h1 in L. rewrite app_length in L. cbn in L. lia. }
        assert (Hold : forall b, b < length h -> nth_error h2 b = nth_error h b).
        { intros b Hb. destruct Hi2 as [_ H]. rewrite H by (cbn; intros [=]; lia).
          unfold h1. now rewrite nth_error_app1. }
        set (h3o := match v with Long b _ _ => free h2 b | Short _ _ => Ret h2 end).
        assert (H3 : exists h3, h3o = Ret h3 /\ length h3 = length h2 /\
          nth_error h3 (length h) = nth_error h2 (length h) /\
          (forall b, b < length h -> own v <> Some b -> nth_error h3 b = nth_error h b) /\
          (forall b, own v = Some b -> nth_error h3 b = Some None)).
        { unfold h3o. destruct v as [d k|b k c].
          - exists h2. repeat split; auto. discriminate.
          - destruct (rep_block _ _ _ b Hrep eq_refl) as [c0 Hc0].
            assert (Hb := nth_lt _ _ _ Hc0).
            rewrite (free_ok h2 b c0) by (rewrite Hold; auto).
            exists (upd h2 b None). split; [reflexivity|]. split; [len|].
            split; [apply nth_error_upd_neq; lia|]. split.
            + intros b' Hb' Hne. rewrite nth_error_upd_neq by (cbn in Hne; congruence). auto.
            + cbn. intros b' [= <-]. apply nth_error_upd_eq. lia. }
        destruct H3 as (h3 & E3 & L3 & N3 & O3 & D3). rewrite E3. cbn [bind].
        destruct (finish h3 (Long (length h) n (n + 1)) l' [None]) as (h4 & v4 & E4 & R & Ho4 & _ & Hi4);
          cbn; try lia.
        { rewrite N3. cbn in Hb2. exact Hb2. }
        rewrite Hl in E4. exists h4, v4. split; [exact E4|]. split; auto.
        destruct Hi4 as [L4 O4]. cbn in O4.
        apply frame_new; auto.
        * lia.
        * intros b Hb Hne. rewrite O4 by (intros [=]; lia). auto.
        * intros b Hb. rewrite O4; auto. intros [=].
          pose proof (alloc_lt _ _ (rep_block _ _ _ _ Hrep Hb)). lia.
        * intros b Hb. eapply alloc_lt, rep_block; eauto.
      + (* enough room: the string is long *)
        assert (Hlong : exists b k c, v = Long b k c).
        { destruct v as [d k|b k c]; eauto. cbn in Hc. unfold min_cap in *. lia. }
        destruct (overwrite h v l s l' n (size v) Hrep Hr Hl Hov) as (h1 & v1 & h2 & v2 & E1 & E2 & R & F & _).
        { unfold min_cap in *; lia. }
        destruct Hlong as (b & k & c & ->). cbn [setSize size] in E1. rewrite E1. cbn [bind].
        rewrite E2. eauto.
  Qed.

  Lemma append_rep h v l s l' n : rep h v l -> read h v s = Ret l' -> length l' = n ->
    overlap v (length l) s = false -> length l + n <= B -> (Z.of_nat (2 * B + 1) <= intMax)%Z ->
    exists h' v', append h v s n = Ret (h', v') /\ rep h' v' (l ++ l') /\ frame h v h' v'.
  Proof.
    intros Hrep Hr Hl Hov Hn HB. unfold append.
    rewrite (capacity_ok h v l Hrep HB). cbn [bind].
    pose proof Hrep as (r & Hb & Hlen & Hsz & Ho).
    rewrite Hsz, !toInt_ok by lia. cbn [bind].
    destruct (Nat.leb_spec n (bcap v - 1 - length l)) as [Hc|Hc].
    - (* in place *)
      set (m := Some NUL :: r) in *.
      assert (Hm : length m = S (length r)) by reflexivity.
      assert (Hln : length (map (@Some char) l) = length l) by len.
      destruct (copyTo_ok h v s l' (map Some l) (firstn n m) (skipn n m))
        as (h1 & v1 & E1 & Hb1 & Hs1 & Ho1 & Hc1 & Hi1); auto.
      { now rewrite Hln. }
      { now rewrite firstn_skipn. }
      { rewrite firstn_length. lia. }
      rewrite Hln in E1. rewrite E1. cbn [bind].
      destruct (finish h1 (setSize v1 (length l + n)) (l ++ l') (skipn n m))
        as (h2 & v2 & E2 & R & Ho2 & Hc2 & Hi2); autorewrite with ss in *; rewrite ?Hc1, ?Ho1; auto.
      { now rewrite map_app, <- app_assoc. }
      { rewrite app_length, skipn_length. lia. }
      { rewrite skipn_length. lia. }
      { rewrite app_length. lia. }
      rewrite app_length, Hl in E2. exists h2, v2. split; [exact E2|]. split; auto.
      apply frame_inplace; [|congruence].
      eapply inplace_trans; [|exact Hi1|exact (proj1 (inplace_setSize _ _ _ _) Hi2)]. auto.
    - (* growByAndReplace *)
      unfold growByAndReplace.
      set (cap := Nat.max (bcap v - 1 + (n - (bcap v - 1 - length l))) (2 * (bcap v - 1))).
      assert (Hbc : min_cap <= bcap v).
      { destruct Ho as [Ho|[Ho _]]; [destruct v; cbn in *; [auto|discriminate]|lia]. }
      unfold min_cap in Hbc.
      assert (Hcap : length l + n <= cap /\ cap <= 2 * B /\ 23 <= cap) by (unfold cap; lia).
      set (h0 := h ++ [Some (repeat None (cap + 1))]).
      assert (L0 : length h0 = S (length h)) by (unfold h0; len).
      assert (Hold0 : forall b, b < length h -> nth_error h0 b = nth_error h b)
        by (intros; unfold h0; now rewrite nth_error_app1).
      set (new := Long (length h) (length l) (cap + 1)).
      assert (Hkeep : forall hh, (forall b, b < length h -> nth_error hh b = nth_error h b) ->
                rep hh v l /\ read hh v s = Ret l').
      { intros hh Hh. split.
        - eapply rep_pres; eauto.
        - eapply read_pres; eauto.
          + intros b i k ->. apply read_block in Hr. auto.
          + intros i k -> Hov'. split; auto. destruct v; [reflexivity|discriminate]. }
      assert (Pnew : forall hh off (ll : list char) p m q, length hh = S (length h) ->
        (forall b, b < length h -> nth_error hh b = nth_error h b) ->
        nth_error hh (length h) = Some (Some (p ++ m ++ q)) -> length p = off -> length m = length ll ->
        exists hh', put hh new off ll = Ret (hh', new) /\ length hh' = S (length h) /\
          (forall b, b < length h -> nth_error hh' b = nth_error h b) /\
          nth_error hh' (length h) = Some (Some (p ++ map Some ll ++ q))).
      { intros hh off ll p m q Lh Oh Nh Hp Hm.
        destruct (put_ok hh new off ll (p ++ m ++ q) (p ++ map Some ll ++ q))
          as (hh' & v' & E & Hb' & Hs' & Ho' & Hc' & Hi').
        { cbn. now rewrite Nh. }
        { subst off. now apply wrn_app. }
        assert (v' = new).
        { destruct v' as [|b2 n2 c2]; cbn in *; [discriminate|]. unfold new. congruence. }
        subst v'. exists hh'. split; [exact E|]. destruct Hi' as [Li Oi]. split; [lia|]. split.
        - intros b Hbl. rewrite Oi by (cbn; intros [=]; lia). auto.
        - apply buf_long in Hb'. exact Hb'. }
      destruct (Hkeep h0 Hold0) as [R0 _].
      rewrite (read_own h0 v l 0 (length l) R0) by lia. cbn [bind]. rewrite slice_all.
      destruct (Pnew h0 0 l [] (repeat None (length l)) (repeat None (cap + 1 - length l)))
        as (h1 & E1 & L1 & O1 & N1); auto.
      { unfold h0. rewrite nth_error_mid. cbn. rewrite <- repeat_app. do 3 f_equal. lia. }
      { len. }
      rewrite E1. cbn [bind].
      destruct (Hkeep h1 O1) as [_ Rd1]. rewrite Rd1. cbn [bind].
      destruct (Pnew h1 (length l) l' (map Some l) (repeat None n) (repeat None (cap + 1 - length l - n)))
        as (h2 & E2 & L2 & O2 & N2); auto.
      { rewrite N1. cbn. rewrite <- repeat_app. do 3 f_equal. f_equal. lia. }
      { len. }
      { len. }
      rewrite E2. cbn [bind].
      replace (length l - 0 - length l) with 0 by lia.
      destruct (Hkeep h2 O2) as [R2 _].
      rewrite (read_own h2 v l (length l + 0) 0 R2) by lia. cbn [bind].
      unfold slice. cbn [firstn].
      destruct (Pnew h2 (length l + n) [] (map Some l ++ map Some l') [] (repeat None (cap + 1 - length l - n)))
        as (h3 & E3 & L3 & O3 & N3); auto.
      { rewrite N2. cbn. now rewrite <- app_assoc. }
      { len. }
      rewrite E3. cbn [bind].
      set (h4o := if _ =? min_cap then _ else _).
      assert (H4 : exists h4, h4o = Ret h4 /\ length h4 = S (length h) /\
          nth_error h4 (length h) = nth_error h3 (length h) /\
          (forall b, b < length h -> own v <> Some b -> nth_error h4 b = nth_error h b) /\
          (forall b, own v = Some b -> nth_error h4 b = Some None)).
      { unfold h4o. destruct v as [d k|b k c]; cbn [bcap] in *.
        - rewrite (proj2 (Nat.eqb_eq _ _)) by (unfold min_cap; lia).
          exists h3. repeat split; auto. discriminate.
        - destruct Ho as [Ho|[Ho _]]; [discriminate|].
          rewrite (proj2 (Nat.eqb_neq _ _)) by (unfold min_cap in *; lia).
          destruct (rep_block _ _ _ b Hrep eq_refl) as [c0 Hc0].
          assert (Hbl := nth_lt _ _ _ Hc0).
          rewrite (free_ok h3 b c0) by (rewrite O3; auto).
          exists (upd h3 b None). split; [reflexivity|]. split; [len|].
          split; [apply nth_error_upd_neq; lia|]. split.
          + intros b' Hb' Hne. rewrite nth_error_upd_neq by (cbn in Hne; congruence). auto.
          + cbn. intros b' [= <-]. apply nth_error_upd_eq. lia. }
      destruct H4 as (h4 & E4 & L4 & N4 & O4 & D4). rewrite E4. cbn [bind].
      rewrite Nat.add_0_r.
      destruct (finish h4 (Long (length h) (length l + n) (cap + 1)) (l ++ l')
                  (repeat None (cap + 1 - length l - n))) as (h5 & v5 & E5 & R & Ho5 & _ & Hi5).
      { cbn. rewrite N4, N3. cbn. now rewrite map_app, <- !app_assoc. }
      { cbn. len. }
      { len. }
      { cbn. len. }
      { right. cbn. unfold min_cap. lia. }
      rewrite app_length, Hl in E5. exists h5, v5. split; [exact E5|]. split; auto.
      destruct Hi5 as [L5 O5]. cbn in O5.
      apply frame_new; auto.
      + lia.
      + intros b Hbl Hne. rewrite O5 by (intros [=]; lia). auto.
      + intros b Hbl. rewrite O5; auto. intros [=].
        pose proof (alloc_lt _ _ (rep_block _ _ _ _ Hrep Hbl)). lia.
      + intros b Hbl. eapply alloc_lt, rep_block; eauto.
  Qed.

  Lemma write_rep h v l i a : rep h v l -> i < length l ->
    exists h' v', put h v i [a] = Ret (h', v') /\ rep h' v' (upd l i a) /\ frame h v h' v'.
  Proof.
    intros (r & Hb & Hlen & Hsz & Ho) Hi.
    destruct (put_ok h v i [a] _ (map Some (upd l i a) ++ Some NUL :: r) Hb)
      as (h' & v' & E & Hb' & Hs' & Ho' & Hc' & Hin).
    { cbn. rewrite wr_ok by len. cbn. rewrite upd_app_l by len. f_equal. f_equal.
      clear. revert i; induction l; intros [|i]; cbn; f_equal; auto. }
    exists h', v'. split; [exact E|]. split.
    - exists r. rewrite Hb', Hc', Hs', Ho'. rewrite upd_length. auto.
    - now apply frame_inplace.
  Qed.

  Lemma destructor_rep h v l : rep h v l ->
    exists h', destructor h v = Ret h' /\ frame h v h' empty_str.
  Proof.
    intros R. destruct v as [d n|b n c]; cbn.
    - exists h. split; auto. now apply frame_refl.
    - destruct (rep_block _ _ _ b R eq_refl) as [c0 Hc0].
      assert (Hbl := nth_lt _ _ _ Hc0). rewrite (free_ok h b c0) by auto.
      eexists. split; [reflexivity|]. constructor; cbn.
      + len.
      + intros b' Hb' Hn. apply nth_error_upd_neq. congruence.
      + intros b' Hb' Ha. apply alloc_lt in Ha. len.
      + intros b' [= <-] _ [c' Hc']. rewrite nth_error_upd_eq in Hc' by auto. discriminate.
      + discriminate.
  Qed.

  Lemma copy_ctor_rep h v l : rep h v l -> length l <= B -> (Z.of_nat (2 * B + 1) <= intMax)%Z ->
    exists h' v', copy_ctor h v = Ret (h', v') /\ rep h' v' l /\ frame h empty_str h' v'.
  Proof.
    intros R Hl HB. destruct v as [d n|b n c]; cbn.
    - exists h, (Short d n). split; [reflexivity|]. split; auto. now apply frame_refl.
    - assert (Hn : n = length l) by (destruct R as (r & _ & _ & Hs & _); exact Hs).
      pose proof (read_own _ _ _ 0 (length l) R) as Hr. cbn [own_src] in Hr.
      rewrite slice_all in Hr. subst n. apply init_rep; auto; try exact I.
  Qed.

  Lemma from_fmt_rep h l : length l <= 31 -> length l <= B -> (Z.of_nat (2 * B + 1) <= intMax)%Z ->
    exists h' v', from_fmt h l = Ret (h', v') /\ rep h' v' l /\ frame h empty_str h' v'.
  Proof.
    intros H31 Hl HB. unfold from_fmt.
    rewrite firstn_all2 by lia. rewrite map_app, <- app_assoc.
    rewrite rdn_slice by lia. cbn [bind]. rewrite slice_all.
    apply init_rep; auto; exact I.
  Qed.

  (** ** Histories *)
  Notation wok := (Own.wok own rep).
  Definition WOK (w : world) (aw : aworld) : Prop := wok (mem w) (vars w) aw.

  Lemma WOK_var w aw x l : WOK w aw -> avar aw x = Some l ->
    exists v, nth_error (vars w) x = Some (Some v) /\ var w x = Ret v /\ rep (mem w) v l.
  Proof.
    intros W H. unfold avar in H. destruct (nth_error aw x) as [[l'|]|] eqn:E; try discriminate.
    injection H as ->. destruct (wok_var _ _ _ _ _ _ _ W E) as (v & Hv & R).
    exists v. split; auto. split; auto. unfold var, rd. now rewrite Hv.
  Qed.

  Lemma avar_nth aw x l : avar aw x = Some l -> nth_error aw x = Some (Some l).
  Proof. unfold avar. destruct (nth_error aw x) as [[?|]|]; congruence. Qed.

  Lemma set_var_ok w aw x v h' v' l' r : WOK w aw -> nth_error (vars w) x = Some (Some v) ->
    r = Ret (h', v') -> frame (mem w) v h' v' -> rep h' v' l' ->
    exists w', set_var w x r = Ret w' /\ WOK w' (upd aw x (Some l')).
  Proof.
    intros W Hx -> F R. unfold set_var. cbn [bind]. rewrite wr_ok by (eapply nth_lt; eauto).
    cbn [bind]. eexists. split; [reflexivity|]. unfold WOK. cbn.
    eapply (set_ok own rep rep_pres rep_block); eauto.
  Qed.
  Lemma add_var_ok w aw h' v' l' r : WOK w aw -> r = Ret (h', v') ->
    frame (mem w) empty_str h' v' -> rep h' v' l' ->
    exists w', add_var w r = Ret w' /\ WOK w' (aw ++ [Some l']).
  Proof.
    intros W -> F R. unfold add_var. cbn [bind]. eexists. split; [reflexivity|].
    unfold WOK. cbn.
    eapply (add_ok own rep empty_str [] rep_pres rep_block eq_refl rep_null); eauto.
  Qed.

  Lemma read_any h v v' b i n : read h v (Blk b i n) = read h v' (Blk b i n).
  Proof. reflexivity. Qed.

  (** The source made for an operation on x from variable y. *)
  Lemma var_src_ok w aw x y vy ly pos n : WOK w aw -> nth_error (vars w) y = Some (Some vy) ->
    rep (mem w) vy ly -> pos + n <= length ly ->
    exists s, var_src w x y vy pos n = Ret s /\
      (x = y -> s = own_src vy pos n) /\
      (x <> y -> not_self s /\ (forall v, read (mem w) v s = Ret (slice ly pos n)) /\
         forall vx off, nth_error (vars w) x = Some (Some vx) -> overlap vx off s = false).
  Proof.
    intros W Hy R Hn. pose proof (read_own _ _ _ _ _ R Hn) as Hr.
    destruct vy as [d k|b k c]; cbn [var_src own_src] in *.
    - cbn in Hr. destruct (Nat.eqb_spec x y) as [E|E].
      + exists (Self pos n). split; auto. split; auto. contradiction.
      + rewrite Hr. cbn [bind]. exists (Ext (slice ly pos n)). split; auto.
        split; [contradiction|]. intros _. split; [exact I|]. split; [reflexivity|].
        intros vx off Hx. destruct vx; reflexivity.
    - exists (Blk b pos n). split; auto. split; auto. intros E. split; [exact I|].
      split; [intros v; rewrite <- Hr; reflexivity|].
      intros [d k'|b' k' c'] off Hx; cbn; auto.
      destruct (Nat.eqb_spec b' b) as [->|]; auto. exfalso. apply E.
      eapply (w_dis _ _ _ _ _ W); eauto; reflexivity.
  Qed.

  Lemma var_src_fresh w aw y vy ly pos n : WOK w aw -> nth_error (vars w) y = Some (Some vy) ->
    rep (mem w) vy ly -> pos + n <= length ly ->
    exists s, var_src w (length (vars w)) y vy pos n = Ret s /\ not_self s /\
      (forall v, read (mem w) v s = Ret (slice ly pos n)).
  Proof.
    intros W Hy R Hn. destruct (var_src_ok w aw (length (vars w)) y vy ly pos n W Hy R Hn)
      as (s & E & _ & H). exists s. split; auto.
    destruct H as (H1 & H2 & _); auto. apply nth_lt in Hy. lia.
  Qed.

  Lemma overlap_own v l h : rep h v l -> overlap v (length l) (own_src v 0 (length l)) = false.
  Proof.
    intros _. assert (T : touch 0 (length l) (length l) = false).
    { unfold touch. rewrite Nat.add_0_l, Nat.ltb_irrefl, andb_false_r. reflexivity. }
    destruct v; cbn; rewrite T; auto using andb_false_r.
  Qed.

  Lemma avar_upd (aw : aworld) x l : x < length aw -> avar (upd aw x (Some l)) x = Some l.
  Proof. intros H. unfold avar. now rewrite nth_error_upd_eq. Qed.
  Lemma avar_last (aw : aworld) l : avar (aw ++ [Some l]) (length aw) = Some l.
  Proof. unfold avar. now rewrite nth_error_mid. Qed.

  Lemma step_ok w aw o aw' : WOK w aw -> small B aw -> astep aw o = Some aw' -> small B aw' ->
    (Z.of_nat (2 * B + 1) <= intMax)%Z ->
    exists w', step w o = Ret w' /\ WOK w' aw'.
  Proof.
    intros W S0 H S1 HB.
    assert (Hadd : forall l, Some (aw ++ [Some l]) = Some aw' -> length l <= B).
    { intros l [= <-]. apply (S1 (length aw)). apply avar_last. }
    assert (Hset : forall x l0 l, avar aw x = Some l0 -> Some (upd aw x (Some l)) = Some aw' ->
              length l <= B).
    { intros x l0 l Hx [= <-]. apply (S1 x). apply avar_upd.
      apply avar_nth in Hx. eapply nth_lt; eauto. }
    destruct o; cbn [astep step] in *.
    - (* New *)
      injection H as <-. eapply add_var_ok; eauto. now apply frame_refl. apply rep_null.
    - (* NewText *)
      specialize (Hadd _ H). injection H as <-.
      destruct (init_rep (mem w) (Ext l) l (length l)) as (h' & v' & E & R & F); auto; [exact I|].
      eapply add_var_ok; eauto.
    - (* NewFmt *)
      destruct (Nat.leb_spec (length l) 31); try discriminate.
      specialize (Hadd _ H). injection H as <-.
      destruct (from_fmt_rep (mem w) l) as (h' & v' & E & R & F); auto.
      eapply add_var_ok; eauto.
    - (* NewCopy *)
      destruct (avar aw y) as [l|] eqn:Ey; try discriminate.
      destruct (WOK_var _ _ _ _ W Ey) as (vy & Hy & Ev & R). rewrite Ev. cbn [bind].
      injection H as <-.
      destruct (copy_ctor_rep (mem w) vy l R) as (h' & v' & E & R' & F); auto.
      eapply add_var_ok; eauto.
    - (* NewMove *)
      destruct (avar aw y) as [l|] eqn:Ey; try discriminate. injection H as <-.
      destruct (WOK_var _ _ _ _ W Ey) as (vy & Hy & Ev & R). rewrite Ev. cbn [bind].
      assert (Hyl := nth_lt _ _ _ Hy). rewrite wr_ok by auto. cbn [bind].
      eexists. split; [reflexivity|]. unfold WOK, add_var. cbn.
      (* view it as a transfer into a fresh empty variable *)
      pose proof (add_null own rep empty_str [] eq_refl rep_null _ _ _ W) as W1.
      pose proof (transfer_ok own rep empty_str [] eq_refl rep_null _ _ _
                    (length (vars w)) y vy l W1) as T.
      rewrite upd_mid in T.
      replace (upd (aw ++ [Some []]) (length (vars w)) (Some l)) with (aw ++ [Some l]) in T
        by (rewrite (w_len _ _ _ _ _ W); symmetry; apply upd_mid).
      rewrite !upd_app_l in T; [|rewrite <- (w_len _ _ _ _ _ W); auto|auto].
      apply T.
      + lia.
      + exists empty_str. rewrite nth_error_mid. auto.
      + now rewrite nth_error_app1.
      + apply avar_nth in Ey. rewrite nth_error_app1; auto. eapply nth_lt; eauto.
    - (* NewSub *)
      destruct (avar aw y) as [l|] eqn:Ey; try discriminate.
      destruct (Nat.leb_spec pos (length l)); try discriminate.
      destruct (WOK_var _ _ _ _ W Ey) as (vy & Hy & Ev & R). rewrite Ev. cbn [bind].
      assert (Hs : size vy = length l) by (destruct R as (r & _ & _ & Hs & _); auto).
      rewrite Hs. destruct (Nat.ltb_spec (length l) pos); [lia|].
      specialize (Hadd _ H). injection H as <-.
      destruct (var_src_fresh w aw y vy l pos (Nat.min count (length l - pos)) W Hy R)
        as (s & Es & Hns & Hr); [lia|].
      rewrite Es. cbn [bind].
      assert (Hsl : slice l pos (Nat.min count (length l - pos)) = slice l pos count).
      { unfold slice. replace (length l - pos) with (length (skipn pos l)) by len.
        rewrite <- firstn_firstn, (firstn_all (skipn pos l)). reflexivity. }
      rewrite Hsl in Hr.
      destruct (init_rep (mem w) s (slice l pos count) (Nat.min count (length l - pos)))
        as (h' & v' & E & R' & F); auto.
      + unfold slice. len.
      + unfold slice in Hadd. len.
      + eapply add_var_ok; eauto.
    - (* NewConcat *)
      destruct (avar aw y) as [l1|] eqn:Ey; try discriminate.
      destruct (avar aw z) as [l2|] eqn:Ez; try discriminate.
      destruct (WOK_var _ _ _ _ W Ey) as (vy & Hy & Ev & R1). rewrite Ev. cbn [bind].
      destruct (WOK_var _ _ _ _ W Ez) as (vz & Hz & Evz & R2). rewrite Evz. cbn [bind].
      specialize (Hadd _ H). injection H as <-. rewrite app_length in Hadd.
      destruct (copy_ctor_rep (mem w) vy l1 R1) as (h' & v' & E & R' & F); auto; [lia|].
      rewrite E. cbn [bind].
      assert (Hs : size vz = length l2) by (destruct R2 as (r & _ & _ & Hs & _); auto).
      rewrite Hs.
      destruct (var_src_fresh w aw z vz l2 0 (length l2) W Hz R2) as (s & Es & Hns & Hr); [lia|].
      rewrite Es. cbn [bind]. rewrite slice_all in Hr.
      assert (Hblk : forall b i n, s = Blk b i n -> b < length (mem w)).
      { intros b i n ->. eapply (read_block _ empty_str); eauto. }
      destruct (append_rep h' v' l1 s l2 (length l2)) as (h2 & v2 & E2 & R2' & F2); auto.
      + eapply (read_pres (mem w) h' v' v'); eauto.
        * intros b i n Eb. apply (f_other _ _ _ _ _ F); eauto. cbn. discriminate.
        * intros i n ->. contradiction.
      + destruct s as [|i n|b i n]; try contradiction; destruct v' as [d k|b' k c]; cbn; auto.
        destruct (Nat.eqb_spec b' b) as [->|]; auto. exfalso.
        destruct (f_own _ _ _ _ _ F b eq_refl) as [Hf|Hf]; [discriminate|].
        pose proof (Hblk b i n eq_refl). lia.
      + eapply add_var_ok; eauto.
        eapply frame_trans; [|exact F|exact F2]. cbn. discriminate.
    - (* Assign *)
      destruct (avar aw y) as [l|] eqn:Ey; try discriminate.
      destruct (avar aw x) as [l0|] eqn:Ex; try discriminate.
      destruct (WOK_var _ _ _ _ W Ex) as (vx & Hx & Evx & Rx). rewrite Evx. cbn [bind].
      destruct (WOK_var _ _ _ _ W Ey) as (vy & Hy & Evy & Ry). rewrite Evy. cbn [bind].
      injection H as <-. destruct (Nat.eqb_spec x y) as [<-|Hne].
      + rewrite upd_id by (apply avar_nth; auto). eauto.
      + assert (Hs : size vy = length l) by (destruct Ry as (r & _ & _ & Hs & _); auto).
        rewrite Hs.
        destruct (var_src_ok w aw x y vy l 0 (length l) W Hy Ry) as (s & Es & _ & Hd); [lia|].
        destruct (Hd Hne) as (_ & Hr & Hov). rewrite Es. cbn [bind]. rewrite slice_all in Hr.
        destruct (assign_rep (mem w) vx l0 s l (length l)) as (h' & v' & E & R & F); auto.
        { eapply S0; eauto. }
        eapply set_var_ok; eauto.
    - (* MoveAssign *)
      destruct (avar aw x) as [l0|] eqn:Ex; try discriminate.
      destruct (avar aw y) as [l|] eqn:Ey; try discriminate.
      destruct (WOK_var _ _ _ _ W Ex) as (vx & Hx & Evx & Rx). rewrite Evx. cbn [bind].
      destruct (WOK_var _ _ _ _ W Ey) as (vy & Hy & Evy & Ry). rewrite Evy. cbn [bind].
      destruct (Nat.eqb_spec x y) as [<-|Hne]; injection H as <-; [eauto|].
      destruct (destructor_rep _ _ _ Rx) as (h' & E & F). rewrite E. cbn [bind].
      assert (Hxl := nth_lt _ _ _ Hx). assert (Hyl := nth_lt _ _ _ Hy).
      rewrite wr_ok by auto. cbn [bind]. rewrite wr_ok by len. cbn [bind].
      eexists. split; [reflexivity|]. unfold WOK. cbn.
      pose proof (set_ok own rep rep_pres rep_block _ _ _ x vx h' empty_str [] W Hx F (rep_null h')) as W1.
      pose proof (transfer_ok own rep empty_str [] eq_refl rep_null _ _ _ x y vy l W1 Hne) as T.
      rewrite !upd_upd in T. apply T.
      + exists empty_str. rewrite nth_error_upd_eq; auto.
      + rewrite nth_error_upd_neq; auto.
      + rewrite nth_error_upd_neq; auto. now apply avar_nth.
    - (* AssignText *)
      destruct (avar aw x) as [l0|] eqn:Ex; try discriminate.
      destruct (WOK_var _ _ _ _ W Ex) as (vx & Hx & Evx & Rx). rewrite Evx. cbn [bind].
      specialize (Hset _ _ _ Ex H). injection H as <-.
      destruct (assign_rep (mem w) vx l0 (Ext l) l (length l)) as (h' & v' & E & R & F); auto.
      { destruct vx; reflexivity. }
      eapply set_var_ok; eauto.
    - (* AssignSub *)
      destruct (avar aw y) as [l|] eqn:Ey; try discriminate.
      destruct (Nat.leb_spec (pos + n) (length l)); cbn [andb] in H; try discriminate.
      destruct (_ || _)%bool eqn:Eo in H; try discriminate.
      destruct (avar aw x) as [l0|] eqn:Ex; try discriminate.
      destruct (WOK_var _ _ _ _ W Ex) as (vx & Hx & Evx & Rx). rewrite Evx. cbn [bind].
      destruct (WOK_var _ _ _ _ W Ey) as (vy & Hy & Evy & Ry). rewrite Evy. cbn [bind].
      specialize (Hset _ _ _ Ex H). injection H as <-.
      destruct (var_src_ok w aw x y vy l pos n W Hy Ry) as (s & Es & Hsame & Hd); [lia|].
      rewrite Es. cbn [bind].
      assert (Hlen : length (slice l pos n) = n) by (now apply slice_length).
      assert (P : read (mem w) vx s = Ret (slice l pos n) /\ overlap vx 0 s = false).
      { destruct (Nat.eq_dec x y) as [<-|Hne].
        - rewrite Hsame by auto. rewrite Hx in Hy. injection Hy as <-.
          rewrite Ex in Ey. injection Ey as ->. split.
          + now apply read_own.
          + assert (T : touch pos 0 n = false).
            { rewrite Nat.eqb_refl in Eo. cbn in Eo. unfold touch.
              apply orb_true_iff in Eo. destruct Eo as [Eo|Eo].
              - apply Nat.leb_le in Eo. rewrite Nat.add_0_l, (proj2 (Nat.ltb_ge pos n)) by auto. reflexivity.
              - apply Nat.eqb_eq in Eo. subst n. apply andb_false_r. }
            destruct vx; cbn; rewrite T; auto using andb_false_r.
        - destruct (Hd Hne) as (_ & Hr & Hov). auto. }
      destruct P as [Pr Po].
      destruct (assign_rep (mem w) vx l0 s (slice l pos n) n) as (h' & v' & E & R & F); auto; [lia|].
      eapply set_var_ok; eauto.
    - (* AppendText *)
      destruct (avar aw x) as [l0|] eqn:Ex; try discriminate.
      destruct (WOK_var _ _ _ _ W Ex) as (vx & Hx & Evx & Rx). rewrite Evx. cbn [bind].
      specialize (Hset _ _ _ Ex H). injection H as <-. rewrite app_length in Hset.
      destruct (append_rep (mem w) vx l0 (Ext l) l (length l)) as (h' & v' & E & R & F); auto.
      { destruct vx; reflexivity. }
      eapply set_var_ok; eauto.
    - (* Append *)
      destruct (avar aw y) as [l|] eqn:Ey; try discriminate.
      destruct (avar aw x) as [l0|] eqn:Ex; try discriminate.
      destruct (WOK_var _ _ _ _ W Ex) as (vx & Hx & Evx & Rx). rewrite Evx. cbn [bind].
      destruct (WOK_var _ _ _ _ W Ey) as (vy & Hy & Evy & Ry). rewrite Evy. cbn [bind].
      specialize (Hset _ _ _ Ex H). injection H as <-. rewrite app_length in Hset.
      assert (Hs : size vy = length l) by (destruct Ry as (r & _ & _ & Hs & _); auto).
      rewrite Hs.
      destruct (var_src_ok w aw x y vy l 0 (length l) W Hy Ry) as (s & Es & Hsame & Hd); [lia|].
      rewrite Es. cbn [bind].
      assert (P : read (mem w) vx s = Ret l /\ overlap vx (length l0) s = false).
      { destruct (Nat.eq_dec x y) as [<-|Hne].
        - rewrite Hsame by auto. rewrite Hx in Hy. injection Hy as <-.
          rewrite Ex in Ey. injection Ey as ->. split.
          + rewrite (read_own _ _ _ 0 (length l) Rx) by lia. now rewrite slice_all.
          + eapply overlap_own; eauto.
        - destruct (Hd Hne) as (_ & Hr & Hov). rewrite slice_all in Hr. auto. }
      destruct P as [Pr Po].
      destruct (append_rep (mem w) vx l0 s l (length l)) as (h' & v' & E & R & F); auto.
      eapply set_var_ok; eauto.
    - (* Write *)
      destruct (avar aw x) as [l0|] eqn:Ex; try discriminate.
      destruct (Nat.ltb_spec i (length l0)); try discriminate. injection H as <-.
      destruct (WOK_var _ _ _ _ W Ex) as (vx & Hx & Evx & Rx). rewrite Evx. cbn [bind].
      destruct (write_rep (mem w) vx l0 i a Rx) as (h' & v' & E & R & F); auto.
      eapply set_var_ok; eauto.
    - (* Delete *)
      destruct (avar aw x) as [l0|] eqn:Ex; try discriminate. injection H as <-.
      destruct (WOK_var _ _ _ _ W Ex) as (vx & Hx & Evx & Rx). rewrite Evx. cbn [bind].
      destruct (destructor_rep _ _ _ Rx) as (h' & E & F). rewrite E. cbn [bind].
      rewrite wr_ok by (eapply nth_lt; eauto). cbn [bind].
      eexists. split; [reflexivity|]. unfold WOK. cbn.
      eapply (delete_ok own rep empty_str [] rep_pres rep_block eq_refl rep_null); eauto.
  Qed.

  Lemma run_ok os : forall w aw aw', WOK w aw -> small B aw -> arun aw os = Some aw' ->
    small_run B aw os -> (Z.of_nat (2 * B + 1) <= intMax)%Z ->
    exists w', run w os = Ret w' /\ WOK w' aw'.
  Proof.
    induction os as [|o os IH]; intros w aw aw' W S0 H Hs HB; cbn in *.
    - injection H as <-. eauto.
    - destruct (astep aw o) as [aw1|] eqn:E; try discriminate. destruct Hs as [S1 Hs].
      destruct (step_ok _ _ _ _ W S0 E S1 HB) as (w1 & E1 & W1). rewrite E1. cbn [bind]. eauto.
  Qed.

  Lemma empty_ok : WOK empty_world [].
  Proof. apply wok_empty. Qed.

  Lemma WOK_shows w aw x l : WOK w aw -> avar aw x = Some l ->
    (Z.of_nat (2 * B + 1) <= intMax)%Z -> shows w x l.
  Proof.
    intros W Hx HB. destruct (WOK_var _ _ _ _ W Hx) as (v & Hv & _ & R).
    pose proof R as (r & Hb & Hl & Hs & _).
    exists v, (bcap v - 1). split; auto. split; auto.
    split; [eapply capacity_ok; eauto|]. split; [lia|].
    assert (G : forall i a l', l' = l ++ [NUL] -> nth_error l' i = Some a -> get (mem w) v i = Ret a).
    { intros i a l' -> Hi. assert (Hil := nth_lt _ _ _ Hi).
      unfold get. assert (E : read (mem w) v (own_src v i 1) = Ret (slice (l ++ [NUL]) i 1)).
      { rewrite app_length in Hil. cbn in Hil.
        replace (map Some l ++ Some NUL :: r) with (map (@Some char) (l ++ [NUL]) ++ r) in Hb
          by (rewrite map_app, <- app_assoc; reflexivity).
        destruct v as [d k|b k c]; cbn [own_src read].
        - cbn in Hb. injection Hb as ->. apply rdn_slice. len.
        - apply buf_long in Hb. unfold blk, rd. rewrite Hb. cbn [bind]. apply rdn_slice. len. }
      rewrite E. cbn [bind]. unfold rd, slice.
      assert (Hsk : forall (X : list char) i a, nth_error X i = Some a ->
                nth_error (firstn 1 (skipn i X)) 0 = Some a).
      { clear. induction X; intros [|i] b H; cbn in *; try discriminate; auto. }
      now rewrite (Hsk _ _ _ Hi). }
    split.
    - intros i a Hi. eapply G; eauto. rewrite nth_error_app1; auto. eapply nth_lt; eauto.
    - eapply G; eauto. apply nth_error_mid.
  Qed.

  Theorem string_history os aw : (Z.of_nat (2 * B + 1) <= intMax)%Z ->
    arun [] os = Some aw -> small_run B [] os ->
    exists w, run empty_world os = Ret w /\
      (forall x l, avar aw x = Some l -> shows w x l) /\
      (forall b, allocated w b -> exists x l v, avar aw x = Some l /\
         nth_error (vars w) x = Some (Some v) /\ owns v b) /\
      (forall x y vx vy b, nth_error (vars w) x = Some (Some vx) ->
         nth_error (vars w) y = Some (Some vy) -> owns vx b -> owns vy b -> x = y).
  Proof.
    intros HB H Hs. destruct (run_ok os empty_world [] aw empty_ok) as (w & E & W); auto.
    { intros [|x] l; discriminate. }
    exists w. split; auto. split; [intros; eapply WOK_shows; eauto|]. split.
    - intros b Hb. destruct (w_own _ _ _ _ _ W b Hb) as (x & v & Hx & Ho).
      pose proof (w_rep _ _ _ _ _ W x) as Rx. rewrite Hx in Rx.
      destruct (nth_error aw x) as [[l|]|] eqn:Ea; try contradiction.
      exists x, l, v. split; [unfold avar; now rewrite Ea|]. split; auto.
      destruct v; cbn in Ho; [discriminate|]. injection Ho as ->. unfold owns. eauto.
    - intros x y vx vy b Hx Hy (n1 & c1 & ->) (n2 & c2 & ->).
      eapply (w_dis _ _ _ _ _ W); eauto; reflexivity.
  Qed.

  Theorem string_no_leak os aw : (Z.of_nat (2 * B + 1) <= intMax)%Z ->
    arun [] os = Some aw -> small_run B [] os -> (forall x, avar aw x = None) ->
    exists w, run empty_world os = Ret w /\ forall b, ~ allocated w b.
  Proof.
    intros HB H Hs Hn. destruct (string_history os aw HB H Hs) as (w & E & _ & Ho & _).
    exists w. split; auto. intros b Hb. destruct (Ho b Hb) as (x & l & v & Hx & _).
    rewrite Hn in Hx. discriminate.
  Qed.
End B.

(** "10000000000000000000000000000000.000000" *)
Lemma fmt_overflow : exists l : list char, length l = 39 /\ forall w, step w (NewFmt l) = Ub.
Proof.
  exists (49%Z :: repeat 48%Z 31 ++ 46%Z :: repeat 48%Z 6). split; [reflexivity|].
  intros w. cbn [step]. unfold from_fmt.
  set (o := rdn _ _ _). assert (E : o = Ub) by (vm_compute; reflexivity).
  rewrite E. reflexivity.
Qed.

Lemma assign_overlap : run empty_world [NewText [97; 98; 99]%Z; AssignSub 0 0 1 2] = Ub.
Proof. vm_compute. reflexivity. Qed.
