(** Proofs about Vector: representation invariant and simulation. *)
From Coq Require Import List Arith ZArith Lia Bool.
From Verif Require Import Base Vector_Model Vector_Spec.
Import ListNotations.

Lemma option_eq_dec (b : nat) (o : option nat) : {o = Some b} + {o <> Some b}.
Proof. destruct o as [c|]; [destruct (Nat.eq_dec c b); [left|right]; congruence|right; discriminate]. Qed.

Section Proofs.
  Context {A : Type}.
  Variable dflt : A.
  Variable triv : bool.
  Variable moved : A -> A.
  Notation heap := (heap A).

  (** [v] owns one block, whose first [size v] cells hold [l], the others are raw *)
  Definition rep (h : heap) (v : vec) (l : list A) : Prop :=
    match begin v with
    | None => size v = 0 /\ cap v = 0 /\ l = []
    | Some b => nth_error h b = Some (Some (map Live l ++ repeat Raw (cap v - length l))) /\
                size v = length l /\ length l <= cap v
    end.

  Definition inplace (h : heap) (v : vec) (h' : heap) : Prop :=
    length h' = length h /\
    forall b, begin v <> Some b -> nth_error h' b = nth_error h b.

  Lemma rep_size h v l : rep h v l -> size v = length l /\ length l <= cap v.
  Proof.
    unfold rep. destruct (begin v); [tauto|]. intros (-> & -> & ->); simpl; lia.
  Qed.

  Lemma inplace_refl h v : inplace h v h.
  Proof. split; auto. Qed.
  Lemma inplace_trans h1 v h2 v' h3 :
    begin v' = begin v -> inplace h1 v h2 -> inplace h2 v' h3 -> inplace h1 v h3.
  Proof.
    intros E [L1 H1] [L2 H2]. split; [congruence|].
    intros b Hb. rewrite H2 by congruence. auto.
  Qed.

  Lemma rep_other h v h' v' l : inplace h v h' -> rep h v' l ->
    (forall b, begin v' = Some b -> begin v <> Some b) -> rep h' v' l.
  Proof.
    intros [_ H] R D. unfold rep in *. destruct (begin v') as [b|]; auto.
    rewrite H; auto.
  Qed.

  Lemma nth_rep_live l (r : list (cell A)) i a :
    nth_error l i = Some a -> nth_error (map Live l ++ r) i = Some (Live a).
  Proof.
    intros H. assert (i < length l) by (apply nth_error_Some; congruence).
    rewrite nth_error_app1 by (rewrite map_length; lia).
    now apply map_nth_error.
  Qed.

  Lemma load_rep h v l i a : rep h v l -> nth_error l i = Some a -> load h (begin v) i = Ret a.
  Proof.
    intros R H. unfold rep in R. destruct (begin v) as [b|].
    - destruct R as (R & _ & _). unfold load, blk.
      apply (proj2 (rd_Ret h b _)) in R. rewrite R. cbn [bind].
      apply (nth_rep_live l (repeat Raw (cap v - length l))) in H.
      apply (proj2 (rd_Ret _ _ _)) in H. rewrite H. reflexivity.
    - destruct R as (_ & _ & ->). destruct i; discriminate.
  Qed.

  Lemma map_Live_upd (l : list A) i a : map Live (upd l i a) = upd (map Live l) i (Live a).
  Proof. revert i; induction l; intros [|i]; simpl; auto. now rewrite IHl. Qed.

  Lemma store_rep h v l i a : rep h v l -> i < length l ->
    exists h', store h (begin v) i a = Ret h' /\ rep h' v (upd l i a) /\ inplace h v h'.
  Proof.
    intros R Hi. unfold rep, inplace in *. destruct (begin v) as [b|].
    - destruct R as (R & Hs & Hc).
      assert (Hb : b < length h) by (apply nth_error_Some; congruence).
      unfold store, blk.
      rewrite (proj2 (rd_Ret h b _) R). cbn [bind].
      destruct (nth_error l i) as [x|] eqn:E; [|apply nth_error_None in E; lia].
      rewrite (proj2 (rd_Ret _ _ _) (nth_rep_live l _ i x E)). cbn [bind].
      rewrite wr_ok by len. cbn [bind]. rewrite wr_ok by auto.
      eexists; split; [reflexivity|].
      rewrite upd_length. split; [split|split].
      + rewrite nth_error_upd_eq by auto. rewrite map_Live_upd, upd_app_l by len. reflexivity.
      + auto.
      + now rewrite upd_length.
      + intros b' Hn. apply nth_error_upd_neq. congruence.
    - destruct R as (_ & _ & ->); simpl in Hi; lia.
  Qed.

  Definition grown (v : vec) : vec := mkVec (begin v) (S (size v)) (cap v).

  Lemma construct_rep h v l a : rep h v l -> length l < cap v ->
    exists h', construct h (begin v) (size v) a = Ret h' /\
      rep h' (grown v) (l ++ [a]) /\ inplace h v h'.
  Proof.
    intros R Hi. unfold rep, inplace, grown in *. cbn [begin size cap].
    destruct (begin v) as [b|].
    - destruct R as (R & Hs & Hc).
      assert (Hb : b < length h) by (apply nth_error_Some; congruence).
      unfold construct, blk.
      rewrite (proj2 (rd_Ret h b _) R). cbn [bind]. rewrite Hs.
      replace (cap v - length l) with (S (cap v - length (l ++ [a]))) by len.
      cbn [repeat].
      assert (HL : length l = length (map (@Live A) l)) by len.
      match goal with |- context [rd ?c (length l)] =>
        replace (rd c (length l)) with (Ret (@Raw A))
          by (symmetry; apply rd_Ret; rewrite HL; apply nth_error_mid) end.
      cbn [bind].
      rewrite wr_ok by len. cbn [bind]. rewrite wr_ok by auto.
      eexists; split; [reflexivity|].
      rewrite upd_length. split; [split|split].
      + rewrite nth_error_upd_eq by auto.
        rewrite map_app, <- app_assoc. cbn [map app].
        do 2 f_equal. rewrite HL at 1. apply upd_mid.
      + len.
      + auto.
      + intros b' Hn. apply nth_error_upd_neq. congruence.
    - destruct R as (_ & E & ->); simpl in Hi; lia.
  Qed.

  Lemma destroy_rep h v l a : rep h v (l ++ [a]) ->
    exists h', destroy h (begin v) (size v - 1) = Ret h' /\
      rep h' (mkVec (begin v) (size v - 1) (cap v)) l /\ inplace h v h'.
  Proof.
    intros R. unfold rep, inplace in *. cbn [begin size cap].
    destruct (begin v) as [b|].
    - destruct R as (R & Hs & Hc).
      assert (Hb : b < length h) by (apply nth_error_Some; congruence).
      unfold destroy, blk.
      rewrite (proj2 (rd_Ret h b _) R). cbn [bind]. rewrite Hs.
      rewrite app_length in *. simpl in Hs, Hc.
      replace (length l + length [a] - 1) with (length (map (@Live A) l)) by len.
      rewrite map_app, <- app_assoc. cbn [map app].
      rewrite (proj2 (rd_Ret _ _ _) (nth_error_mid _ _ _)). cbn [bind].
      rewrite wr_ok by len. cbn [bind]. rewrite wr_ok by auto.
      eexists; split; [reflexivity|].
      rewrite upd_length. split; [split|split].
      + rewrite nth_error_upd_eq by auto. rewrite upd_mid.
        do 3 f_equal.
        replace (cap v - length l) with (S (cap v - (length l + length [a]))) by len. reflexivity.
      + len.
      + auto.
      + intros b' Hn. apply nth_error_upd_neq. congruence.
    - destruct R as (_ & _ & E). destruct l; discriminate.
  Qed.

  Lemma constructAtEnd_rep n : forall h v l a, rep h v l -> length l + n <= cap v ->
    exists h', constructAtEnd n h v a = Ret (h', mkVec (begin v) (size v + n) (cap v)) /\
      rep h' (mkVec (begin v) (size v + n) (cap v)) (l ++ repeat a n) /\ inplace h v h'.
  Proof.
    induction n as [|n IH]; intros h v l a R Hc.
    - exists h. rewrite Nat.add_0_r, app_nil_r. destruct v as [vb vs vc]; cbn [begin size cap constructAtEnd].
      repeat split; auto.
    - cbn [constructAtEnd repeat].
      destruct (construct_rep h v l a R) as (h1 & E & R1 & I1); [lia|].
      rewrite E. cbn [bind].
      destruct (IH h1 (grown v) (l ++ [a]) a R1) as (h2 & E2 & R2 & I2).
      { unfold grown; len. }
      unfold grown in *. cbn [begin size cap] in *. rewrite E2.
      exists h2. rewrite <- app_assoc in R2. cbn [app] in R2.
      replace (S (size v) + n) with (size v + S n) in * by lia.
      repeat split; auto; [|eapply inplace_trans; [|exact I1|exact I2]; reflexivity].
      eapply (inplace_trans h v h1 (mkVec (begin v) (S (size v)) (cap v)) h2 eq_refl I1 I2).
  Qed.

  Lemma destruct_loop_rep n : forall h v l1 l2, rep h v (l1 ++ l2) -> length l2 = n ->
    exists h', destruct_loop n h (begin v) (size v) = Ret h' /\
      rep h' (mkVec (begin v) (length l1) (cap v)) l1 /\ inplace h v h'.
  Proof.
    induction n as [|n IH]; intros h v l1 l2 R Hl.
    - destruct l2; [|discriminate]. rewrite app_nil_r in R.
      exists h. destruct (rep_size _ _ _ R) as [<- _]. destruct v as [vb vs vc]; repeat split; auto.
    - destruct (exists_last (l := l2)) as (l2' & a & ->); [now destruct l2|].
      rewrite app_assoc in R.
      destruct (destroy_rep h v _ a R) as (h1 & E & R1 & I1).
      cbn [destruct_loop]. rewrite E. cbn [bind].
      destruct (IH h1 _ l1 l2' R1) as (h2 & E2 & R2 & I2); [len|].
      cbn [begin size cap] in *. rewrite E2. exists h2. repeat split; auto.
      all: eapply (inplace_trans h v h1 (mkVec (begin v) (size v - 1) (cap v)) h2 eq_refl I1 I2).
  Qed.

  Lemma destructAtEnd_rep h v l n : rep h v l -> n <= length l ->
    exists h', destructAtEnd h v n = Ret (h', mkVec (begin v) n (cap v)) /\
      rep h' (mkVec (begin v) n (cap v)) (firstn n l) /\ inplace h v h'.
  Proof.
    intros R Hn. destruct (rep_size _ _ _ R) as [Hs _]. unfold destructAtEnd.
    destruct (Nat.ltb_spec (size v) n); [lia|].
    rewrite <- (firstn_skipn n l) in R.
    destruct (destruct_loop_rep (size v - n) h v _ _ R) as (h' & E & R' & I); [len|].
    rewrite E. cbn [bind]. rewrite firstn_length_le in R' by auto. eauto.
  Qed.

  (** ** Changes of ownership *)
  Definition alloc (h : heap) (b : nat) : Prop := exists c, nth_error h b = Some (Some c).

  Record frame (h : heap) (v : vec) (h' : heap) (v' : vec) : Prop := {
    f_len : length h <= length h';
    f_other : forall b, b < length h -> begin v <> Some b -> nth_error h' b = nth_error h b;
    f_new : forall b, length h <= b -> alloc h' b -> begin v' = Some b;
    f_old : forall b, begin v = Some b -> begin v' <> Some b -> ~ alloc h' b;
    f_own : forall b, begin v' = Some b -> begin v = Some b \/ length h <= b }.

  Lemma frame_inplace h v h' v' : inplace h v h' -> begin v' = begin v -> frame h v h' v'.
  Proof.
    intros [L H] E. constructor.
    - lia.
    - intros b _ Hb; auto.
    - intros b Hb (c & Hc). assert (b < length h') by (apply nth_error_Some; congruence). lia.
    - congruence.
    - intros b Hb; left; congruence.
  Qed.

  Lemma frame_trans h v h1 v1 h2 v2 :
    (forall b, begin v = Some b -> b < length h) ->
    frame h v h1 v1 -> frame h1 v1 h2 v2 -> frame h v h2 v2.
  Proof.
    intros Hv F G. constructor.
    - pose proof (f_len _ _ _ _ F). pose proof (f_len _ _ _ _ G). lia.
    - intros b Hb Hn. rewrite (f_other _ _ _ _ G).
      + apply (f_other _ _ _ _ F); auto.
      + pose proof (f_len _ _ _ _ F); lia.
      + intros E. destruct (f_own _ _ _ _ F b E); [contradiction|lia].
    - intros b Hb Ha. destruct (Nat.lt_ge_cases b (length h1)) as [Hlt|Hge].
      + destruct (option_eq_dec b (begin v1)) as [E|E].
        * destruct (option_eq_dec b (begin v2)) as [E2|E2]; auto.
          exfalso. eapply (f_old _ _ _ _ G); eauto.
        * exfalso. apply E. apply (f_new _ _ _ _ F); auto.
          destruct Ha as [c Hc]. exists c. rewrite <- Hc. symmetry. apply (f_other _ _ _ _ G); auto.
      + apply (f_new _ _ _ _ G); auto.
    - intros b E Hn Ha.
      destruct (option_eq_dec b (begin v1)) as [E1|E1].
      + eapply (f_old _ _ _ _ G); eauto.
      + eapply (f_old _ _ _ _ F); eauto.
        destruct Ha as [c Hc]. exists c. rewrite <- Hc. symmetry.
        apply (f_other _ _ _ _ G); auto. pose proof (f_len _ _ _ _ F). pose proof (Hv b E). lia.
    - intros b E. destruct (f_own _ _ _ _ G b E) as [E1|E1].
      + apply (f_own _ _ _ _ F); auto.
      + right. pose proof (f_len _ _ _ _ F). lia.
  Qed.

  Lemma rep_block h v l b : rep h v l -> begin v = Some b -> b < length h /\ alloc h b.
  Proof.
    unfold rep. intros R E. rewrite E in R. destruct R as (R & _ & _).
    split; [apply nth_error_Some; congruence|eexists; eauto].
  Qed.

  Lemma rep_pres h h' v l : rep h v l ->
    (forall b, begin v = Some b -> b < length h -> nth_error h' b = nth_error h b) -> rep h' v l.
  Proof.
    intros R P. unfold rep in *. destruct (begin v) as [b|]; auto.
    rewrite P; auto. apply nth_error_Some. destruct R as (-> & _). discriminate.
  Qed.

  Lemma allocate_rep h n :
    let '(h1, t) := allocate h n in
    rep h1 t [] /\ begin t = Some (length h) /\ size t = 0 /\ cap t = n /\
    length h1 = S (length h) /\
    (forall b, b < length h -> nth_error h1 b = nth_error h b) /\
    frame h null_vec h1 t.
  Proof.
    unfold allocate. cbn.
    assert (P : forall b, b < length h ->
      nth_error (h ++ [Some (repeat (@Raw A) n)]) b = nth_error h b)
      by (intros; now apply nth_error_app1).
    split; [|split; [|split; [|split; [|split; [|split]]]]]; auto; try solve [len].
    - unfold rep; cbn. rewrite nth_error_app2, Nat.sub_diag by lia. cbn.
      rewrite Nat.sub_0_r. repeat split; lia.
    - constructor; cbn.
      + len.
      + auto.
      + intros b Hb (c & Hc).
        assert (b < length (h ++ [Some (repeat (@Raw A) n)])) by (apply nth_error_Some; congruence).
        rewrite app_length in H; simpl in H. f_equal. lia.
      + discriminate.
      + intros b [= <-]. auto.
  Qed.

  Lemma free_rep h v : forall b, begin v = Some b -> rep h v [] ->
    exists h', free h (begin v) = Ret h' /\ length h' = length h /\
      nth_error h' b = Some None /\ (forall b', b' <> b -> nth_error h' b' = nth_error h b').
  Proof.
    intros b E R. unfold rep in R. rewrite E in *. destruct R as (R & _ & _).
    assert (Hb : b < length h) by (apply nth_error_Some; congruence).
    unfold free, blk. rewrite (proj2 (rd_Ret h b _) R). cbn [bind map app].
    replace (forallb is_raw (repeat Raw (cap v - @length A []))) with true.
    2:{ symmetry. apply forallb_forall. intros x Hx. apply repeat_spec in Hx. now subst. }
    rewrite wr_ok by auto. eexists; split; [reflexivity|].
    rewrite upd_length, nth_error_upd_eq by auto. repeat split; auto.
    intros b' Hb'; apply nth_error_upd_neq; congruence.
  Qed.

  Lemma destructor_rep h v l : rep h v l ->
    exists h', destructor h v = Ret h' /\ frame h v h' null_vec /\ length h' = length h.
  Proof.
    intros R. unfold destructor. destruct (begin v) as [b|] eqn:E.
    - destruct (destructAtEnd_rep h v l 0 R) as (h1 & E1 & R1 & I1); [lia|].
      unfold clear. rewrite E1. cbn [bind firstn] in *.
      destruct (free_rep h1 (mkVec (begin v) 0 (cap v)) b E R1) as (h2 & E2 & L2 & N2 & O2).
      rewrite E2. exists h2. split; [auto|]. destruct I1 as [L1 O1]. split; [|lia].
      constructor; cbn.
      + lia.
      + intros b' Hb' Hn. rewrite O2 by congruence. apply O1. congruence.
      + intros b' Hb' (c & Hc). assert (b' < length h2) by (apply nth_error_Some; congruence). lia.
      + intros b' Eb _ (c & Hc). congruence.
      + discriminate.
    - exists h. split; auto. split; auto. constructor; cbn; auto; try congruence.
      intros b Hb (c & Hc). assert (b < length h) by (apply nth_error_Some; congruence). lia.
  Qed.

  Lemma deallocate_rep h v l : rep h v l ->
    exists h', deallocate h v = Ret (h', null_vec) /\ frame h v h' null_vec /\ length h' = length h.
  Proof.
    intros R. destruct (destructor_rep h v l R) as (h' & E & F & L). exists h'.
    split; [|split; auto]. unfold destructor, deallocate in *.
    destruct v as [[b|] s c]; cbn [begin] in *.
    - destruct (clear h _) as [[h1 v1]| | |]; cbn [bind] in *; try discriminate.
      destruct (free h1 (begin v1)); cbn [bind]; congruence.
    - injection E as <-. destruct R as (Hs & Hc & _); cbn in *; now subst.
  Qed.

  Definition mvf (a : A) : A := if triv then a else moved a.

  Lemma move_loop_rep l2 : forall h p q l1,
    rep h p (map mvf l1 ++ l2) -> rep h q l1 ->
    (forall b, begin p = Some b -> begin q <> Some b) -> length (l1 ++ l2) <= cap q ->
    exists h', move_loop triv moved (length l2) h (begin p) (begin q) (length l1) = Ret h' /\
      rep h' p (map mvf (l1 ++ l2)) /\
      rep h' (mkVec (begin q) (length (l1 ++ l2)) (cap q)) (l1 ++ l2) /\
      length h' = length h /\
      (forall b, begin p <> Some b -> begin q <> Some b -> nth_error h' b = nth_error h b).
  Proof.
    induction l2 as [|a l2 IH]; intros h p q l1 Rp Rq D Hc.
    - exists h. rewrite app_nil_r in *. split; [reflexivity|].
      destruct (rep_size _ _ _ Rq) as [<- _]. destruct q as [qb qs qc]; cbn in *. auto.
    - cbn [length move_loop].
      rewrite (load_rep h p _ (length l1) a Rp)
        by (rewrite <- (map_length mvf l1); apply nth_error_mid).
      cbn [bind].
      destruct (rep_size _ _ _ Rq) as [Hsq _].
      destruct (construct_rep h q l1 a Rq) as (h1 & E1 & R1 & I1); [len|].
      rewrite Hsq in E1. rewrite E1. cbn [bind].
      assert (Rp1 : rep h1 p (map mvf l1 ++ a :: l2)).
      { eapply rep_other; eauto. }
      assert (S2 : exists h2, (if triv then Ret h1 else store h1 (begin p) (length l1) (moved a)) = Ret h2
        /\ rep h2 p (map mvf (l1 ++ [a]) ++ l2) /\ rep h2 (grown q) (l1 ++ [a]) /\
        length h2 = length h /\
        (forall b, begin p <> Some b -> begin q <> Some b -> nth_error h2 b = nth_error h b)).
      { rewrite map_app, <- app_assoc. cbn [map app].
        unfold mvf in *. destruct triv.
        - exists h1. destruct I1 as [L1 O1]. repeat split; auto.
        - destruct (store_rep h1 p _ (length l1) (moved a) Rp1) as (h2 & E2 & R2 & I2); [len|].
          exists h2. split; [auto|].
          destruct I1 as [L1 O1], I2 as [L2 O2].
          rewrite <- (map_length (fun a => moved a) l1), upd_mid in R2.
          repeat split; auto; try lia.
          + eapply (rep_other h1 p); eauto. split; auto.
            intros b Hb. cbn in Hb. intros Hp. apply (D b); auto.
          + intros b Hp Hq. rewrite O2 by auto. auto. }
      destruct S2 as (h2 & E2 & Rp2 & Rq2 & L2 & O2). rewrite E2. cbn [bind].
      destruct (IH h2 p (grown q) (l1 ++ [a]) Rp2 Rq2) as (h' & E' & Rp' & Rq' & L' & O').
      + cbn. auto.
      + unfold grown; len.
      + cbn [grown begin size cap] in *.
        replace (length (l1 ++ [a])) with (S (length l1)) in E' by len.
        rewrite <- app_assoc in Rp', Rq'. cbn [app] in *.
        exists h'. repeat split; auto; try lia.
        intros b Hp Hq. rewrite O' by auto. auto.
  Qed.

  Lemma grow_rep h v l n : rep h v l -> length l <= n ->
    exists h1, grow triv moved h v n = Ret (h1, mkVec (Some (length h)) (size v) n, v) /\
      rep h1 (mkVec (Some (length h)) (size v) n) l /\ rep h1 v (map mvf l) /\
      length h1 = S (length h) /\
      (forall b, b < length h -> begin v <> Some b -> nth_error h1 b = nth_error h b).
  Proof.
    intros R Hn. unfold grow.
    pose proof (allocate_rep h n) as HA.
    destruct (allocate h n) as [h0 t]. destruct HA as (Rt & Bt & St & Ct & L0 & P0 & F0).
    unfold swapBuffers.
    assert (Rv : rep h0 v (map mvf [] ++ l)).
    { cbn. eapply rep_pres; eauto. }
    destruct (move_loop_rep l h0 v t [] Rv Rt) as (h1 & E1 & R1 & R2 & L1 & O1).
    - intros b Hb. rewrite Bt. intros [= <-]. destruct (rep_block _ _ _ _ R Hb). lia.
    - cbn. lia.
    - destruct (rep_size _ _ _ R) as [Hs _]. cbn [length app] in *. rewrite Hs, E1. cbn [bind].
      rewrite Bt, Ct in *. exists h1. split; [auto|]. split; [auto|].
      split; [auto|]. split; [lia|].
      intros b Hb Hv. rewrite O1; auto. intros [= <-]; lia.
  Qed.

  (** After a reallocation the old buffer is destroyed: [frame] from old to new. *)
  Lemma realloc_frame h v l h1 this h2 :
    rep h v l -> begin this = Some (length h) -> length h1 = S (length h) ->
    (forall b, b < length h -> begin v <> Some b -> nth_error h1 b = nth_error h b) ->
    frame h1 v h2 null_vec -> length h2 = length h1 -> frame h v h2 this.
  Proof.
    intros R B L1 O1 F L2. constructor.
    - lia.
    - intros b Hb Hn. rewrite (f_other _ _ _ _ F) by (auto; lia). auto.
    - intros b Hb (c & Hc). assert (b < length h2) by (apply nth_error_Some; congruence).
      rewrite B. f_equal. lia.
    - intros b E _. apply (f_old _ _ _ _ F); auto. discriminate.
    - intros b E. right. rewrite B in E. injection E as <-. lia.
  Qed.

  Lemma rep_keep v l h1 this h2 :
    rep h1 this l -> (forall b, begin v = Some b -> begin this <> Some b) ->
    frame h1 v h2 null_vec -> rep h2 this l.
  Proof.
    intros R D F. eapply rep_pres; eauto. intros b Hb Hl.
    apply (f_other _ _ _ _ F); auto. intros E. eapply D; eauto.
  Qed.

  Lemma chk_ok n : (Z.of_nat n <= intMax)%Z -> chk n = Ret n.
  Proof. intros H. unfold chk. apply Z.leb_le in H. now rewrite H. Qed.

  Lemma recommend_ok v n : (Z.of_nat (2 * cap v) <= intMax)%Z ->
    recommend v n = Ret (max (2 * cap v) n).
  Proof.
    intros H. unfold recommend. rewrite chk_ok by auto. cbn [bind]. f_equal.
    destruct (Nat.ltb_spec (2 * cap v) n); lia.
  Qed.

  (** The value a push appends: the argument, or - if it is an element of this
      very vector and the buffer is reallocated - what moving leaves behind. *)
  Definition pushed (v : vec) (s : @source A) (a : A) : A :=
    match s with
    | SVal _ => a
    | SRef p _ =>
        match p, begin v with
        | Some b, Some b' => if b =? b' then (if size v <? cap v then a else mvf a) else a
        | _, _ => a
        end
    end.

  Lemma push_back_rep h v l s a B : rep h v l -> read_src h s = Ret a ->
    length l + 1 <= B -> cap v <= 2 * B -> (Z.of_nat (2 * B) <= intMax)%Z ->
    (forall p i, s = SRef p i -> exists v' l', rep h v' l' /\ nth_error l' i = Some a /\ p = begin v' /\
       (begin v' = begin v -> l' = l)) ->
    exists h' v', push_back triv moved h v s = Ret (h', v') /\ rep h' v' (l ++ [pushed v s a]) /\
      frame h v h' v' /\ cap v' <= 2 * B /\ cap v <= cap v'.
  Proof.
    intros R Hsrc HB Hcap HZ Href. destruct (rep_size _ _ _ R) as [Hs Hl]. unfold push_back, pushed.
    destruct (Nat.ltb_spec (size v) (cap v)) as [Hlt|Hge].
    - replace (match s with SVal _ => a | SRef p _ =>
        match p with Some b => match begin v with Some b' => if b =? b' then a else a | None => a end
        | None => a end end) with a
        by (destruct s as [|[|] ?]; auto; destruct (begin v); auto; destruct (_ =? _); auto).
      rewrite Hsrc. cbn [bind].
      destruct (construct_rep h v l a R) as (h1 & E1 & R1 & I1); [lia|].
      rewrite E1. cbn [bind]. exists h1, (grown v).
      split; [reflexivity|]. split; [auto|]. split; [now apply frame_inplace|]. cbn. lia.
    - unfold pushBackSlowPath. rewrite chk_ok by lia. cbn [bind].
      rewrite recommend_ok by lia. cbn [bind].
      set (n := max (2 * cap v) (size v + 1)).
      destruct (grow_rep h v l n R) as (h1 & E1 & R1 & R1v & L1 & O1); [unfold n; lia|].
      rewrite E1. cbn [bind begin size cap].
      set (a' := match s with SVal _ => a | SRef p _ =>
        match p with Some b => match begin v with Some b' => if b =? b' then mvf a else a | None => a end
        | None => a end end).
      assert (Hrd : read_src h1 s = Ret a').
      { unfold a'. destruct s as [x|p i]; cbn in *; [congruence|].
        destruct (Href p i eq_refl) as (v' & l' & R' & Hi & -> & Hsame).
        destruct (begin v') as [b'|] eqn:Bv'.
        - destruct (begin v) as [b|] eqn:Bv.
          + destruct (Nat.eqb_spec b' b) as [->|Hn].
            * rewrite <- Bv. rewrite Hsame in Hi by auto.
              eapply load_rep; eauto. now apply map_nth_error.
            * rewrite <- Bv'. eapply load_rep; eauto.
              eapply rep_pres; eauto. intros c Hc Hlt. rewrite O1; auto. rewrite Bv' in Hc. congruence.
          + rewrite <- Bv'. eapply load_rep; eauto.
            eapply rep_pres; eauto. intros c Hc Hlt. rewrite O1; auto. congruence.
        - unfold rep in R'. rewrite Bv' in R'. destruct R' as (_ & _ & ->). destruct i; discriminate. }
      rewrite Hrd. cbn [bind].
      destruct (construct_rep h1 _ l a' R1) as (h2 & E2 & R2 & I2); [cbn; unfold n; lia|].
      cbn [begin size cap] in E2. rewrite E2. cbn [bind].
      assert (D : forall b, begin v = Some b -> Some (length h) <> Some b).
      { intros b Hb [= <-]. destruct (rep_block _ _ _ _ R Hb). lia. }
      assert (Rv2 : rep h2 v (map mvf l)).
      { eapply (rep_other h1); eauto. }
      destruct (destructor_rep h2 v _ Rv2) as (h3 & E3 & F3 & L3).
      rewrite E3. cbn [bind].
      exists h3, (grown (mkVec (Some (length h)) (size v) n)).
      split; [reflexivity|]. split; [|split].
      + eapply rep_keep; eauto.
      + destruct I2 as [L2 O2]. cbn [begin] in O2.
        eapply (realloc_frame h v l h2); eauto; try lia.
        intros b Hb Hn. rewrite O2; [auto|]. intros [= <-]. lia.
      + cbn. unfold n. lia.
  Qed.

  Lemma realloc_rep h v l n : rep h v l -> length l <= n ->
    exists h1 h2, grow triv moved h v n = Ret (h1, mkVec (Some (length h)) (size v) n, v) /\
      destructor h1 v = Ret h2 /\
      rep h2 (mkVec (Some (length h)) (size v) n) l /\
      frame h v h2 (mkVec (Some (length h)) (size v) n).
  Proof.
    intros R Hn. destruct (grow_rep h v l n R Hn) as (h1 & E1 & R1 & R1v & L1 & O1).
    destruct (destructor_rep h1 v _ R1v) as (h2 & E2 & F2 & L2).
    exists h1, h2. split; [auto|]. split; [auto|]. split.
    - eapply rep_keep; eauto. intros b Hb. cbn. intros [= <-]. destruct (rep_block _ _ _ _ R Hb). lia.
    - eapply realloc_frame; eauto.
  Qed.

  Lemma append_rep h v l n B : rep h v l -> length l + n <= B -> cap v <= 2 * B ->
    (Z.of_nat (2 * B) <= intMax)%Z ->
    exists h' v', append dflt triv moved h v n = Ret (h', v') /\ rep h' v' (l ++ repeat dflt n) /\
      frame h v h' v' /\ cap v' <= 2 * B /\ cap v <= cap v'.
  Proof.
    intros R HB Hcap HZ. destruct (rep_size _ _ _ R) as [Hs Hl]. unfold append.
    destruct (Nat.ltb_spec (cap v - size v) n) as [Hlt|Hge].
    - rewrite chk_ok by lia. cbn [bind]. rewrite recommend_ok by lia. cbn [bind].
      set (c := max (2 * cap v) (size v + n)).
      destruct (realloc_rep h v l c R) as (h1 & h2 & E1 & E2 & R2 & F2); [unfold c; lia|].
      rewrite E1. cbn [bind]. rewrite E2. cbn [bind].
      destruct (constructAtEnd_rep n h2 _ l dflt R2) as (h3 & E3 & R3 & I3); [cbn; unfold c; lia|].
      rewrite E3. do 2 eexists. split; [reflexivity|]. split; [auto|]. split.
      + eapply frame_trans; [|exact F2|now apply frame_inplace].
        intros b Hb. now destruct (rep_block _ _ _ _ R Hb).
      + cbn. unfold c. lia.
    - destruct (constructAtEnd_rep n h v l dflt R) as (h3 & E3 & R3 & I3); [lia|].
      rewrite E3. do 2 eexists. split; [reflexivity|]. split; [auto|].
      split; [now apply frame_inplace|]. cbn; lia.
  Qed.

  Lemma reserve_rep h v l n B : rep h v l -> n <= B -> cap v <= 2 * B ->
    exists h' v', reserve triv moved h v n = Ret (h', v') /\ rep h' v' l /\
      frame h v h' v' /\ cap v' <= 2 * B /\ cap v <= cap v' /\ n <= cap v'.
  Proof.
    intros R HB Hcap. destruct (rep_size _ _ _ R) as [Hs Hl]. unfold reserve.
    destruct (Nat.ltb_spec (cap v) n) as [Hlt|Hge].
    - destruct (realloc_rep h v l n R) as (h1 & h2 & E1 & E2 & R2 & F2); [lia|].
      rewrite E1. cbn [bind]. rewrite E2. cbn [bind]. do 2 eexists.
      split; [reflexivity|]. split; [auto|]. split; [auto|]. cbn. lia.
    - exists h, v. split; [auto|]. split; [auto|]. split; [|lia].
      apply frame_inplace; auto. apply inplace_refl.
  Qed.

  Lemma clear_rep h v l : rep h v l ->
    exists h', clear h v = Ret (h', mkVec (begin v) 0 (cap v)) /\
      rep h' (mkVec (begin v) 0 (cap v)) [] /\ inplace h v h'.
  Proof. intros R. apply (destructAtEnd_rep h v l 0 R). lia. Qed.

  Lemma resize_rep h v l n B : rep h v l -> n <= B -> cap v <= 2 * B ->
    (Z.of_nat (2 * B) <= intMax)%Z ->
    exists h' v', resize dflt triv moved h v n = Ret (h', v') /\
      rep h' v' (firstn n l ++ repeat dflt (n - length l)) /\
      frame h v h' v' /\ cap v' <= 2 * B /\ cap v <= cap v'.
  Proof.
    intros R HB Hcap HZ. destruct (rep_size _ _ _ R) as [Hs Hl]. unfold resize. rewrite Hs.
    destruct (Nat.ltb_spec (length l) n) as [Hlt|Hge].
    - rewrite firstn_all2 by lia. apply append_rep; auto. lia.
    - replace (n - length l) with 0 by lia. cbn [repeat]. rewrite app_nil_r.
      destruct (Nat.ltb_spec n (length l)).
      + destruct (destructAtEnd_rep h v l n R) as (h' & E & R' & I); [lia|].
        rewrite E. do 2 eexists. split; [reflexivity|]. split; [auto|].
        split; [now apply frame_inplace|]. cbn; lia.
      + rewrite firstn_all2 by lia. exists h, v. split; [auto|]. split; [auto|].
        split; [apply frame_inplace; auto; apply inplace_refl|]. lia.
  Qed.

  (** ** Ranges *)
  Definition range_rep (h : heap) (r : @range A) (lr : list A) : Prop :=
    match r with
    | Ext l => l = lr
    | Blk p i n => n = length lr /\ forall k a, nth_error lr k = Some a -> load h p (i + k) = Ret a
    end.

  Lemma range_rep_len h r lr : range_rep h r lr -> range_len r = length lr.
  Proof. destruct r; cbn; [congruence|tauto]. Qed.

  Lemma range_rep_head h r a lr : range_rep h r (a :: lr) -> range_head h r = Ret a.
  Proof.
    destruct r as [l|p i n]; cbn.
    - intros ->. reflexivity.
    - intros [_ H]. specialize (H 0 a eq_refl). now rewrite Nat.add_0_r in H.
  Qed.

  Lemma range_rep_tail h r a lr : range_rep h r (a :: lr) -> range_rep h (range_tail r) lr.
  Proof.
    destruct r as [l|p i n]; cbn.
    - now intros ->.
    - intros [-> H]. split; [lia|]. intros k x Hk. rewrite <- (H (S k) x Hk). f_equal. lia.
  Qed.

  Lemma range_rep_skip k : forall h r lr, range_rep h r lr -> k <= length lr ->
    range_rep h (range_skip k r) (skipn k lr).
  Proof.
    induction k as [|k IH]; intros h r lr H Hk; [exact H|].
    destruct lr as [|a lr]; [simpl in Hk; lia|]. cbn. apply IH; [|simpl in Hk; lia].
    eapply range_rep_tail; eauto.
  Qed.

  Lemma range_rep_take k h r lr : range_rep h r lr -> range_rep h (range_take k r) (firstn k lr).
  Proof.
    destruct r as [l|p i n]; cbn.
    - now intros ->.
    - intros [-> H]. split; [len|]. intros j a Hj. apply H.
      assert (j < length (firstn k lr)) by (apply nth_error_Some; congruence).
      rewrite firstn_length in H0. revert Hj. clear -H0.
      revert k j H0; induction lr as [|b lr IH]; intros [|k] [|j] H; simpl in *; try lia; auto.
      intros. apply (IH k); auto. lia.
  Qed.

  (** the blocks a range reads from *)
  Definition reads (r : @range A) (b : nat) : Prop :=
    match r with Ext _ => False | Blk p _ _ => p = Some b end.
  Lemma reads_tail (r : @range A) b : reads (range_tail r) b <-> reads r b.
  Proof. destruct r; cbn; tauto. Qed.
  Lemma reads_skip k : forall (r : @range A) b, reads (range_skip k r) b <-> reads r b.
  Proof. induction k; intros; cbn; [tauto|]. rewrite IHk. apply reads_tail. Qed.
  Lemma reads_take k (r : @range A) b : reads (range_take k r) b <-> reads r b.
  Proof. destruct r; cbn; tauto. Qed.

  Lemma load_same (h h' : heap) p i a : load h p i = Ret a ->
    (forall b, p = Some b -> nth_error h' b = nth_error h b) -> load h' p i = Ret a.
  Proof.
    intros H P. unfold load, blk in *. destruct p as [b|]; [|discriminate].
    unfold rd at 1 in H. unfold rd at 1. rewrite (P b eq_refl). exact H.
  Qed.

  Lemma range_rep_pres h h' r lr : range_rep h r lr ->
    (forall b, reads r b -> nth_error h' b = nth_error h b) -> range_rep h' r lr.
  Proof.
    destruct r as [l|p i n]; cbn; auto. intros [-> H] P. split; auto.
    intros k a Hk. eapply load_same; eauto.
  Qed.

  Lemma constructAtEndRange_rep lr : forall h v l r,
    rep h v l -> range_rep h r lr -> length l + length lr <= cap v ->
    (forall b, reads r b -> begin v <> Some b) ->
    exists h', constructAtEndRange (length lr) h v r =
        Ret (h', mkVec (begin v) (size v + length lr) (cap v)) /\
      rep h' (mkVec (begin v) (size v + length lr) (cap v)) (l ++ lr) /\ inplace h v h'.
  Proof.
    induction lr as [|a lr IH]; intros h v l r R Hr Hc D.
    - exists h. cbn. rewrite Nat.add_0_r, app_nil_r. destruct v as [vb vs vc]; cbn.
      repeat split; auto.
    - cbn [length constructAtEndRange] in *. rewrite (range_rep_head _ _ _ _ Hr). cbn [bind].
      destruct (construct_rep h v l a R) as (h1 & E & R1 & I1); [lia|].
      rewrite E. cbn [bind].
      destruct (IH h1 (grown v) (l ++ [a]) (range_tail r) R1) as (h2 & E2 & R2 & I2).
      + eapply range_rep_pres; [eapply range_rep_tail; eauto|].
        intros b Hb. apply I1. apply D. now apply reads_tail.
      + unfold grown; len.
      + intros b Hb. apply D. now apply reads_tail.
      + unfold grown in *. cbn [begin size cap] in *. rewrite E2.
        exists h2. rewrite <- app_assoc in R2. cbn [app] in R2.
        replace (S (size v) + length lr) with (size v + S (length lr)) in * by lia.
        split; [auto|]. split; [auto|].
        exact (inplace_trans h v h1 (mkVec (begin v) (S (size v)) (cap v)) h2 eq_refl I1 I2).
  Qed.

  Lemma copy_loop_rep lr : forall h v l1 l2 l3 r,
    rep h v (l1 ++ l2 ++ l3) -> length l2 = length lr -> range_rep h r lr ->
    (forall b, reads r b -> begin v <> Some b) ->
    exists h', copy_loop (length lr) h r (begin v) (length l1) = Ret h' /\
      rep h' v (l1 ++ lr ++ l3) /\ inplace h v h'.
  Proof.
    induction lr as [|a lr IH]; intros h v l1 l2 l3 r R Hl Hr D.
    - destruct l2; [|discriminate]. exists h. cbn in *. repeat split; auto.
    - destruct l2 as [|x l2]; [discriminate|]. injection Hl as Hl.
      cbn [length copy_loop]. rewrite (range_rep_head _ _ _ _ Hr). cbn [bind].
      destruct (store_rep h v _ (length l1) a R) as (h1 & E & R1 & I1); [len|].
      rewrite E. cbn [bind app] in *. rewrite upd_mid in R1.
      replace (l1 ++ a :: l2 ++ l3) with ((l1 ++ [a]) ++ l2 ++ l3) in R1 by (now rewrite <- app_assoc).
      destruct (IH h1 v (l1 ++ [a]) l2 l3 (range_tail r) R1 Hl) as (h2 & E2 & R2 & I2).
      + eapply range_rep_pres; [eapply range_rep_tail; eauto|].
        intros b Hb. apply I1. apply D. now apply reads_tail.
      + intros b Hb. apply D. now apply reads_tail.
      + replace (length (l1 ++ [a])) with (S (length l1)) in E2 by len.
        rewrite E2. exists h2. rewrite <- app_assoc in R2. cbn [app] in R2.
        split; [auto|]. split; [auto|]. eapply inplace_trans; eauto.
  Qed.

  Lemma ctor_fill_rep (h : heap) n a :
    exists h' v', ctor_fill h n a = Ret (h', v') /\ rep h' v' (repeat a n) /\
      frame h null_vec h' v' /\ cap v' = n.
  Proof.
    unfold ctor_fill. pose proof (allocate_rep h n) as HA.
    destruct (allocate h n) as [h0 t]. destruct HA as (Rt & Bt & St & Ct & L0 & P0 & F0).
    destruct (constructAtEnd_rep n h0 t [] a Rt) as (h1 & E1 & R1 & I1); [cbn; lia|].
    rewrite E1. do 2 eexists. split; [reflexivity|]. split; [auto|]. split; [|auto].
    eapply frame_trans; [|exact F0|now apply frame_inplace]. discriminate.
  Qed.

  Lemma ctor_range_rep h r lr : range_rep h r lr -> (forall b, reads r b -> b < length h) ->
    exists h' v', ctor_range dflt h r = Ret (h', v') /\ rep h' v' lr /\
      frame h null_vec h' v' /\ cap v' = length lr.
  Proof.
    intros Hr Hd. unfold ctor_range. rewrite (range_rep_len _ _ _ Hr).
    destruct (Nat.eqb_spec (length lr) 0) as [Hz|Hz].
    - destruct lr; [|discriminate]. exists h, null_vec. split; [auto|].
      split; [unfold rep; cbn; auto|]. split; [|auto].
      apply frame_inplace; auto. apply inplace_refl.
    - pose proof (allocate_rep h (length lr)) as HA.
      destruct (allocate h (length lr)) as [h0 t]. destruct HA as (Rt & Bt & St & Ct & L0 & P0 & F0).
      destruct (constructAtEnd_rep (length lr) h0 t [] dflt Rt) as (h1 & E1 & R1 & I1); [cbn; lia|].
      rewrite E1. cbn [bind app] in *.
      assert (HD : forall b, reads r b -> begin t <> Some b).
      { intros b Hb. rewrite Bt. intros [= <-]. apply Hd in Hb. lia. }
      destruct (copy_loop_rep lr h1 _ [] (repeat dflt (length lr)) [] r
                  ltac:(cbn; rewrite app_nil_r; exact R1)) as (h2 & E2 & R2 & I2).
      + now rewrite repeat_length.
      + eapply range_rep_pres; eauto. intros b Hb. destruct I1 as [_ O1].
        rewrite O1 by auto. apply P0. auto.
      + cbn. auto.
      + cbn [begin length app] in *. rewrite E2. cbn [bind]. rewrite app_nil_r in R2.
        do 2 eexists. split; [reflexivity|]. split; [eauto|]. split; [|auto].
        eapply frame_trans; [|exact F0|apply frame_inplace; [|reflexivity]]; [discriminate|].
        eapply inplace_trans; [|exact I1|exact I2]. reflexivity.
  Qed.

  Lemma assign_rep h v l r lr B : rep h v l -> range_rep h r lr ->
    (forall b, reads r b -> begin v <> Some b /\ b < length h) ->
    length lr <= B -> cap v <= 2 * B -> (Z.of_nat (2 * B) <= intMax)%Z ->
    exists h' v', assign h v r = Ret (h', v') /\ rep h' v' lr /\ frame h v h' v' /\ cap v' <= 2 * B.
  Proof.
    intros R Hr D HB Hcap HZ. destruct (rep_size _ _ _ R) as [Hs Hl]. unfold assign.
    rewrite (range_rep_len _ _ _ Hr).
    destruct (Nat.leb_spec (length lr) (cap v)) as [Hle|Hgt].
    - destruct (Nat.ltb_spec (size v) (length lr)) as [Hlt|Hge].
      + rewrite Hs in *.
        destruct (copy_loop_rep (firstn (length l) lr) h v [] l [] (range_take (length l) r))
          as (h1 & E1 & R1 & I1).
        * cbn. now rewrite app_nil_r.
        * len.
        * now apply range_rep_take.
        * intros b Hb. apply D. now apply reads_take in Hb.
        * cbn [length app] in *. rewrite firstn_length_le in E1 by lia. rewrite E1. cbn [bind].
          rewrite app_nil_r in R1.
          destruct (constructAtEndRange_rep (skipn (length l) lr) h1 v _ (range_skip (length l) r) R1)
            as (h2 & E2 & R2 & I2).
          -- eapply range_rep_pres; [apply range_rep_skip; eauto; lia|].
             intros b Hb. apply I1. apply D. now apply reads_skip in Hb.
          -- len.
          -- intros b Hb. apply D. now apply reads_skip in Hb.
          -- rewrite skipn_length in *. rewrite E2. rewrite firstn_skipn in R2.
             do 2 eexists. split; [reflexivity|]. split; [auto|]. split; [|auto].
             apply frame_inplace; [|reflexivity]. eapply inplace_trans; [|exact I1|exact I2]. reflexivity.
      + destruct (copy_loop_rep lr h v [] (firstn (length lr) l) (skipn (length lr) l) r)
          as (h1 & E1 & R1 & I1).
        * cbn. now rewrite firstn_skipn.
        * len.
        * auto.
        * intros b Hb. now apply D.
        * cbn [length app] in *. rewrite E1. cbn [bind].
          destruct (destructAtEnd_rep h1 v _ (length lr) R1) as (h2 & E2 & R2 & I2); [len|].
          rewrite E2. rewrite firstn_app, Nat.sub_diag, firstn_all, firstn_O, app_nil_r in R2.
          do 2 eexists. split; [reflexivity|]. split; [auto|]. split; [|auto].
          apply frame_inplace; [|reflexivity]. eapply inplace_trans; [|exact I1|exact I2]. reflexivity.
    - destruct (deallocate_rep h v l R) as (h1 & E1 & F1 & L1). rewrite E1. cbn [bind].
      rewrite recommend_ok by (cbn; unfold intMax; lia). cbn [bind cap null_vec Nat.mul Nat.add Nat.max].
      pose proof (allocate_rep h1 (length lr)) as HA.
      destruct (allocate h1 (length lr)) as [h2 t].
      destruct HA as (Rt & Bt & St & Ct & L2 & P2 & F2).
      destruct (constructAtEndRange_rep lr h2 t [] r Rt) as (h3 & E3 & R3 & I3).
      + eapply range_rep_pres; eauto. intros b Hb. destruct (D b Hb).
        rewrite P2 by lia. apply (f_other _ _ _ _ F1); auto.
      + cbn; lia.
      + intros b Hb. rewrite Bt. intros [= <-]. destruct (D _ Hb). lia.
      + rewrite E3. do 2 eexists. split; [reflexivity|]. split; [auto|]. split; [|cbn; lia].
        assert (Hv : forall b, begin v = Some b -> b < length h)
          by (intros b Hb; now destruct (rep_block _ _ _ _ R Hb)).
        eapply frame_trans; [auto|exact F1|].
        eapply frame_trans; [discriminate|exact F2|]. now apply frame_inplace.
  Qed.

  Lemma pop_back_rep h v l : rep h v l -> l <> [] ->
    exists h', pop_back h v = Ret (h', mkVec (begin v) (size v - 1) (cap v)) /\
      rep h' (mkVec (begin v) (size v - 1) (cap v)) (removelast l) /\ inplace h v h'.
  Proof.
    intros R Hl. destruct (rep_size _ _ _ R) as [Hs _].
    destruct (exists_last Hl) as (l' & a & ->).
    rewrite removelast_last. unfold pop_back. rewrite app_length in Hs. simpl in Hs.
    replace (size v) with (S (length l')) by lia.
    destruct (destructAtEnd_rep h v _ (length l') R) as (h' & E & R' & I); [len|].
    rewrite E. cbn [Nat.sub]. rewrite Nat.sub_0_r.
    rewrite firstn_app, Nat.sub_diag, firstn_all, firstn_O, app_nil_r in R'. eauto.
  Qed.

  (** ** Programs *)
  Notation world := (@world A).
  Notation aworld := (@aworld A).

  Record wok (B : nat) (w : world) (aw : aworld) : Prop := {
    w_len : length (vars w) = length aw;
    w_rep : forall x, match nth_error (vars w) x, nth_error aw x with
                      | Some (Some v), Some (Some l) => rep (mem w) v l /\ cap v <= 2 * B
                      | Some None, Some None => True
                      | None, None => True
                      | _, _ => False
                      end;
    w_own : forall b, alloc (mem w) b -> exists x v, nth_error (vars w) x = Some (Some v) /\ begin v = Some b;
    w_dis : forall x y vx vy b, nth_error (vars w) x = Some (Some vx) ->
              nth_error (vars w) y = Some (Some vy) ->
              begin vx = Some b -> begin vy = Some b -> x = y }.

  Lemma wok_var B w aw x l : wok B w aw -> avar aw x = Some l ->
    exists v, nth_error (vars w) x = Some (Some v) /\ var w x = Ret v /\ rep (mem w) v l /\
      cap v <= 2 * B /\ nth_error aw x = Some (Some l).
  Proof.
    intros W H. unfold avar in H. pose proof (w_rep _ _ _ W x) as R.
    destruct (nth_error aw x) as [[l'|]|]; try discriminate. injection H as ->.
    destruct (nth_error (vars w) x) as [[v|]|] eqn:E; try contradiction.
    exists v. unfold var. rewrite (proj2 (rd_Ret _ _ _) E). cbn. tauto.
  Qed.

  Lemma nth_some_lt {X} (l : list X) i a : nth_error l i = Some a -> i < length l.
  Proof. intros H. apply nth_error_Some. congruence. Qed.

  Lemma set_ok B w aw x v h' v' l' : wok B w aw ->
    nth_error (vars w) x = Some (Some v) -> frame (mem w) v h' v' ->
    (forall l, rep (mem w) v l -> True) ->
    rep h' v' l' -> cap v' <= 2 * B ->
    wok B (mkWorld h' (upd (vars w) x (Some v'))) (upd aw x (Some l')).
  Proof.
    intros W Hx F _ R Hc.
    assert (Hxl : x < length (vars w)) by (eapply nth_some_lt; eauto).
    assert (Hxa : x < length aw) by (rewrite <- (w_len _ _ _ W); auto).
    assert (Hblk : forall y u b, nth_error (vars w) y = Some (Some u) -> begin u = Some b ->
              b < length (mem w)).
    { intros y u b Hy Hb. pose proof (w_rep _ _ _ W y) as Ry. rewrite Hy in Ry.
      destruct (nth_error aw y) as [[ly|]|]; try contradiction. destruct Ry as [Ry _].
      now destruct (rep_block _ _ _ _ Ry Hb). }
    constructor; cbn [mem vars].
    - rewrite !upd_length. apply W.
    - intros y. destruct (Nat.eq_dec x y) as [->|Hn].
      + rewrite !nth_error_upd_eq by auto. auto.
      + rewrite !nth_error_upd_neq by auto. pose proof (w_rep _ _ _ W y) as Ry.
        destruct (nth_error (vars w) y) as [[u|]|] eqn:Ey;
          destruct (nth_error aw y) as [[ly|]|]; auto.
        destruct Ry as [Ry Cy]. split; auto.
        eapply rep_pres; eauto. intros b Hb Hlt. apply (f_other _ _ _ _ F); auto.
        intros Hb'. apply Hn. eapply (w_dis _ _ _ W); eauto.
    - intros b Ha. destruct (option_eq_dec b (begin v')) as [E|E].
      + exists x, v'. rewrite nth_error_upd_eq by auto. auto.
      + assert (Hb : b < length (mem w)).
        { destruct (Nat.lt_ge_cases b (length (mem w))); auto.
          exfalso. apply E. apply (f_new _ _ _ _ F); auto. }
        assert (Hnv : begin v <> Some b).
        { intros Hv. eapply (f_old _ _ _ _ F); eauto. }
        assert (Ha0 : alloc (mem w) b).
        { destruct Ha as [c Hcc]. exists c. rewrite <- Hcc. symmetry. apply (f_other _ _ _ _ F); auto. }
        destruct (w_own _ _ _ W b Ha0) as (y & u & Hy & Hu).
        exists y, u. split; auto. rewrite nth_error_upd_neq; auto.
        intros <-. rewrite Hx in Hy. congruence.
    - intros y z u1 u2 b Hy Hz Hb1 Hb2.
      rewrite nth_error_upd in Hy, Hz.
      assert (Hlt : x <? length (vars w) = true) by (now apply Nat.ltb_lt).
      rewrite Hlt, andb_true_r in *.
      assert (Aux : forall t u, x <> t -> nth_error (vars w) t = Some (Some u) -> begin u = Some b ->
        begin v' = Some b -> False).
      { intros t u Hxt Ht Hub Hv'. destruct (f_own _ _ _ _ F b Hv') as [Hv|Hge].
        - apply Hxt. eapply (w_dis _ _ _ W); eauto.
        - pose proof (Hblk _ _ _ Ht Hub). lia. }
      destruct (Nat.eqb_spec x y) as [Exy|Hxy], (Nat.eqb_spec x z) as [Exz|Hxz].
      + congruence.
      + exfalso. injection Hy as <-. eapply Aux; eauto.
      + exfalso. injection Hz as <-. eapply Aux; eauto.
      + eapply (w_dis _ _ _ W); eauto.
  Qed.

  Lemma set_var_ok B w aw x v h' v' l' : wok B w aw ->
    nth_error (vars w) x = Some (Some v) -> frame (mem w) v h' v' ->
    rep h' v' l' -> cap v' <= 2 * B ->
    exists w', set_var w x (Ret (h', v')) = Ret w' /\ wok B w' (upd aw x (Some l')).
  Proof.
    intros W Hx F R Hc. unfold set_var. cbn [bind].
    rewrite wr_ok by (eapply nth_some_lt; eauto). cbn [bind].
    eexists; split; [reflexivity|]. eapply set_ok; eauto.
  Qed.

  Lemma add_null B w aw : wok B w aw ->
    wok B (mkWorld (mem w) (vars w ++ [Some null_vec])) (aw ++ [Some []]).
  Proof.
    intros W. pose proof (w_len _ _ _ W) as L.
    assert (K : forall y u b, nth_error (vars w ++ [Some null_vec]) y = Some (Some u) ->
      begin u = Some b -> nth_error (vars w) y = Some (Some u)).
    { intros y u b Hy Hb. destruct (Nat.lt_ge_cases y (length (vars w))).
      - now rewrite nth_error_app1 in Hy by auto.
      - rewrite nth_error_app2 in Hy by auto.
        destruct (y - length (vars w)) as [|[|k]]; cbn in Hy; try discriminate.
        injection Hy as <-. discriminate. }
    constructor; cbn [mem vars].
    - len.
    - intros x. pose proof (w_rep _ _ _ W x) as Rx.
      destruct (Nat.lt_ge_cases x (length (vars w))).
      + rewrite !nth_error_app1 by lia. auto.
      + rewrite !nth_error_app2 by lia. rewrite L.
        destruct (x - length aw) as [|[|k]]; cbn; auto. unfold rep. cbn. repeat split; lia.
    - intros b Ha. destruct (w_own _ _ _ W b Ha) as (y & u & Hy & Hu).
      exists y, u. split; auto. rewrite nth_error_app1; auto. eapply nth_some_lt; eauto.
    - intros x y vx vy b Hx Hy Bx By. eapply (w_dis _ _ _ W); eauto.
  Qed.

  Lemma add_var_ok B w aw h' v' l' : wok B w aw ->
    frame (mem w) null_vec h' v' -> rep h' v' l' -> cap v' <= 2 * B ->
    exists w', add_var w (Ret (h', v')) = Ret w' /\ wok B w' (aw ++ [Some l']).
  Proof.
    intros W F R Hc. eexists; split; [reflexivity|]. cbn [fst snd].
    pose proof (set_ok B _ _ (length (vars w)) null_vec h' v' l' (add_null B w aw W)) as H.
    cbn [mem vars] in H.
    rewrite nth_error_mid, upd_mid in H.
    rewrite (w_len _ _ _ W), upd_mid in H. apply H; auto.
  Qed.

  Lemma frame_null h : frame h null_vec h null_vec.
  Proof. apply frame_inplace; auto. apply inplace_refl. Qed.

  Lemma range_of_var B w aw y l vy : wok B w aw -> nth_error (vars w) y = Some (Some vy) ->
    rep (mem w) vy l -> range_rep (mem w) (Blk (begin vy) 0 (size vy)) l.
  Proof.
    intros W Hy R. cbn. destruct (rep_size _ _ _ R) as [<- _]. split; auto.
    intros k a Hk. eapply load_rep; eauto.
  Qed.

  Lemma upd_same {X} (l : list X) i a : nth_error l i = Some a -> upd l i a = l.
  Proof.
    revert i; induction l as [|b l IH]; intros [|i] H; simpl in *; try discriminate; auto.
    - congruence.
    - f_equal; auto.
  Qed.

  (** ownership moves from [y] to [x], which owns nothing *)
  Lemma transfer_ok B w aw x y vy ly : wok B w aw -> x <> y ->
    nth_error (vars w) x = Some (Some null_vec) ->
    nth_error (vars w) y = Some (Some vy) -> nth_error aw y = Some (Some ly) ->
    wok B (mkWorld (mem w) (upd (upd (vars w) x (Some vy)) y (Some null_vec)))
      (upd (upd aw x (Some ly)) y (Some [])).
  Proof.
    intros W Hn Hx Hy Hay.
    assert (Hxl := nth_some_lt _ _ _ Hx). assert (Hyl := nth_some_lt _ _ _ Hy).
    pose proof (w_len _ _ _ W) as L.
    assert (K : forall z, nth_error (upd (upd (vars w) x (Some vy)) y (Some null_vec)) z =
       if y =? z then Some (Some null_vec) else if x =? z then Some (Some vy) else nth_error (vars w) z).
    { intros z. rewrite !nth_error_upd, upd_length.
      apply Nat.ltb_lt in Hxl, Hyl. rewrite Hxl, Hyl, !andb_true_r. reflexivity. }
    assert (Ka : forall z, nth_error (upd (upd aw x (Some ly)) y (Some [])) z =
       if y =? z then Some (Some []) else if x =? z then Some (Some ly) else nth_error aw z).
    { intros z. rewrite L in *. rewrite !nth_error_upd, upd_length.
      apply Nat.ltb_lt in Hxl, Hyl. rewrite Hxl, Hyl, !andb_true_r. reflexivity. }
    pose proof (w_rep _ _ _ W y) as Ry. rewrite Hy, Hay in Ry.
    constructor; cbn [mem vars].
    - len.
    - intros z. rewrite K, Ka. destruct (Nat.eqb_spec y z); [unfold rep; cbn; repeat split; lia|].
      destruct (Nat.eqb_spec x z); auto. apply (w_rep _ _ _ W z).
    - intros b Ha. destruct (w_own _ _ _ W b Ha) as (z & u & Hz & Hu).
      destruct (Nat.eq_dec y z) as [<-|Hyz].
      + exists x, vy. rewrite K. destruct (Nat.eqb_spec y x); [congruence|].
        rewrite Nat.eqb_refl. rewrite Hy in Hz. injection Hz as <-. auto.
      + exists z, u. rewrite K. destruct (Nat.eqb_spec y z); [congruence|].
        destruct (Nat.eqb_spec x z) as [<-|]; auto.
        rewrite Hx in Hz. injection Hz as <-. discriminate.
    - intros z1 z2 u1 u2 b. rewrite !K. intros H1 H2 B1 B2.
      destruct (Nat.eqb_spec y z1); [injection H1 as <-; discriminate|].
      destruct (Nat.eqb_spec y z2); [injection H2 as <-; discriminate|].
      destruct (Nat.eqb_spec x z1) as [<-|], (Nat.eqb_spec x z2) as [<-|]; auto.
      + injection H1 as <-. exfalso. apply n0. eapply (w_dis _ _ _ W); eauto.
      + injection H2 as <-. exfalso. apply n. eapply (w_dis _ _ _ W); eauto.
      + eapply (w_dis _ _ _ W); eauto.
  Qed.

  Lemma delete_ok B w aw x v h' : wok B w aw -> nth_error (vars w) x = Some (Some v) ->
    frame (mem w) v h' null_vec ->
    wok B (mkWorld h' (upd (vars w) x None)) (upd aw x None).
  Proof.
    intros W Hx F.
    assert (W' : wok B (mkWorld h' (upd (vars w) x (Some null_vec))) (upd aw x (Some []))).
    { eapply set_ok; eauto; unfold rep; cbn; repeat split; lia. }
    assert (Hxl := nth_some_lt _ _ _ Hx).
    assert (Hxa : x < length aw) by (rewrite <- (w_len _ _ _ W); auto).
    assert (Agree : forall {X} (l : list X) (a b : X) z, z <> x ->
      nth_error (upd l x a) z = nth_error (upd l x b) z)
      by (intros; rewrite !nth_error_upd_neq; auto).
    constructor; cbn [mem vars].
    - rewrite !upd_length. apply W.
    - intros z. destruct (Nat.eq_dec z x) as [->|Hn].
      + rewrite !nth_error_upd_eq; auto.
      + pose proof (w_rep _ _ _ W' z) as R. cbn [mem vars] in R.
        rewrite !nth_error_upd_neq in * by auto. exact R.
    - intros b Ha. destruct (w_own _ _ _ W' b Ha) as (z & u & Hz & Hu). cbn [vars] in Hz.
      destruct (Nat.eq_dec z x) as [->|Hn].
      + rewrite nth_error_upd_eq in Hz by auto. injection Hz as <-. discriminate.
      + exists z, u. split; auto. erewrite Agree; eauto.
    - intros z1 z2 u1 u2 b H1 H2.
      assert (z1 <> x) by (intros ->; rewrite nth_error_upd_eq in H1 by auto; discriminate).
      assert (z2 <> x) by (intros ->; rewrite nth_error_upd_eq in H2 by auto; discriminate).
      eapply (w_dis _ _ _ W'); cbn [vars]; rewrite !nth_error_upd_neq in * by auto; eauto.
  Qed.

  Lemma avar_upd (aw : aworld) x l : x < length aw -> avar (upd aw x (Some l)) x = Some l.
  Proof. intros H. unfold avar. now rewrite nth_error_upd_eq. Qed.
  Lemma avar_last (aw : aworld) l : avar (aw ++ [Some l]) (length aw) = Some l.
  Proof. unfold avar. now rewrite nth_error_mid. Qed.

  Lemma step_ok B w aw o aw' :
    (Z.of_nat (2 * B) <= intMax)%Z -> wok B w aw ->
    astep dflt aw o = Some aw' -> small B aw' o ->
    (forall x i, o = PushElem x x i -> forall a, mvf a = a) ->
    exists w', step dflt triv moved w o = Ret w' /\ wok B w' aw'.
  Proof.
    intros HZ W HS [HB1 HB2] Hself.
    assert (HN : forall l, In (Some l) aw' -> length l <= B).
    { intros l Hi. apply In_nth_error in Hi. destruct Hi as [x Hx]. apply (HB1 x).
      unfold avar. now rewrite Hx. }
    assert (HU : forall x v l, nth_error (vars w) x = Some (Some v) -> avar (upd aw x (Some l)) x = Some l).
    { intros x v l Hx. apply avar_upd. rewrite <- (w_len _ _ _ W). eapply nth_some_lt; eauto. }
    destruct o as [|n|n a|l|y|y|x y|x y|x l|x a|x y i|x|x n|x n|x|x i a|x]; cbn [astep step] in *.
    - (* New *) injection HS as <-. eapply add_var_ok; eauto.
      + apply frame_null. + unfold rep; cbn; auto. + cbn; lia.
    - (* NewN *) injection HS as <-.
      destruct (ctor_fill_rep (mem w) n dflt) as (h' & v' & E & R & F & C).
      change (ctor_n dflt (mem w) n) with (ctor_fill (mem w) n dflt). rewrite E.
      eapply add_var_ok; eauto. specialize (HB1 _ _ (avar_last _ _)). len.
    - (* NewFill *) injection HS as <-.
      destruct (ctor_fill_rep (mem w) n a) as (h' & v' & E & R & F & C). rewrite E.
      eapply add_var_ok; eauto. specialize (HB1 _ _ (avar_last _ _)). len.
    - (* NewList *) injection HS as <-.
      destruct (ctor_range_rep (mem w) (Ext l) l) as (h' & v' & E & R & F & C);
        [reflexivity|intros b []|]. rewrite E.
      eapply add_var_ok; eauto. specialize (HB1 _ _ (avar_last _ _)). len.
    - (* NewCopy *)
      destruct (avar aw y) as [ly|] eqn:Ay; [|discriminate]. injection HS as <-.
      destruct (wok_var _ _ _ _ _ W Ay) as (vy & Hy & Ey & Ry & Cy & Hay).
      rewrite Ey. cbn [bind].
      destruct (ctor_range_rep (mem w) (Blk (begin vy) 0 (size vy)) ly) as (h' & v' & E & R & F & C).
      + eapply range_of_var; eauto.
      + cbn. intros b Hb. now destruct (rep_block _ _ _ _ Ry Hb).
      + rewrite E. eapply add_var_ok; eauto. specialize (HB1 _ _ (avar_last _ _)). len.
    - (* NewMove *)
      destruct (avar aw y) as [ly|] eqn:Ay; [|discriminate]. injection HS as <-.
      destruct (wok_var _ _ _ _ _ W Ay) as (vy & Hy & Ey & Ry & Cy & Hay).
      rewrite Ey. cbn [bind]. assert (Hyl := nth_some_lt _ _ _ Hy).
      rewrite wr_ok by auto. cbn [bind].
      eexists; split; [reflexivity|]. cbn [mem vars].
      assert (Hya := nth_some_lt _ _ _ Hay).
      pose proof (transfer_ok B _ _ (length (vars w)) y vy ly (add_null B w aw W)) as T.
      cbn [mem vars] in T.
      rewrite nth_error_mid, upd_mid, upd_app_l in T by len.
      rewrite (nth_error_app1 (vars w)) in T by auto.
      rewrite (w_len _ _ _ W) in T. rewrite upd_mid, nth_error_app1, upd_app_l in T by auto.
      apply T; auto. rewrite <- (w_len _ _ _ W). lia.
    - (* Assign *)
      destruct (avar aw x) as [lx|] eqn:Ax; [|discriminate].
      destruct (avar aw y) as [ly|] eqn:Ay; [|discriminate]. injection HS as <-.
      destruct (wok_var _ _ _ _ _ W Ax) as (vx & Hx & Ex & Rx & Cx & Hax).
      destruct (wok_var _ _ _ _ _ W Ay) as (vy & Hy & Ey & Ry & Cy & Hay).
      rewrite Ex, Ey. cbn [bind].
      destruct (Nat.eqb_spec x y) as [->|Hn].
      + exists w. split; auto. rewrite upd_same; auto.
      + destruct (assign_rep (mem w) vx lx (Blk (begin vy) 0 (size vy)) ly B Rx) as (h' & v' & E & R & F & C); auto.
        * eapply range_of_var; eauto.
        * cbn. intros b Hb. split; [|now destruct (rep_block _ _ _ _ Ry Hb)].
          intros Hb'. apply Hn. eapply (w_dis _ _ _ W); eauto.
        * apply (HB1 x). eapply HU; eauto.
        * rewrite E. eapply set_var_ok; eauto.
    - (* MoveAssign *)
      destruct (avar aw x) as [lx|] eqn:Ax; [|discriminate].
      destruct (avar aw y) as [ly|] eqn:Ay; [|discriminate]. injection HS as <-.
      destruct (wok_var _ _ _ _ _ W Ax) as (vx & Hx & Ex & Rx & Cx & Hax).
      destruct (wok_var _ _ _ _ _ W Ay) as (vy & Hy & Ey & Ry & Cy & Hay).
      rewrite Ex, Ey. cbn [bind].
      destruct (Nat.eqb_spec x y) as [->|Hn].
      + exists w. split; auto.
      + destruct (deallocate_rep (mem w) vx lx Rx) as (h' & E & F & L). rewrite E. cbn [bind].
        assert (Hxl := nth_some_lt _ _ _ Hx). assert (Hyl := nth_some_lt _ _ _ Hy).
        rewrite wr_ok by auto. cbn [bind]. rewrite wr_ok by len. cbn [bind].
        eexists; split; [reflexivity|].
        assert (W1 : wok B (mkWorld h' (upd (vars w) x (Some null_vec))) (upd aw x (Some []))).
        { eapply set_ok; eauto; unfold rep; cbn; repeat split; lia. }
        pose proof (transfer_ok B _ _ x y vy ly W1 Hn) as T. cbn [mem vars] in T.
        assert (Hax' := nth_some_lt _ _ _ Hax).
        assert (UU : forall {X} (l : list X) i a b, upd (upd l i a) i b = upd l i b)
          by (intros X l; induction l; intros [|i]; simpl; intros; f_equal; auto).
        rewrite !UU in T. apply T.
        * now rewrite nth_error_upd_eq.
        * now rewrite nth_error_upd_neq.
        * now rewrite nth_error_upd_neq.
    - (* AssignList *)
      destruct (avar aw x) as [lx|] eqn:Ax; [|discriminate]. injection HS as <-.
      destruct (wok_var _ _ _ _ _ W Ax) as (vx & Hx & Ex & Rx & Cx & Hax). rewrite Ex. cbn [bind].
      destruct (assign_rep (mem w) vx lx (Ext l) l B Rx) as (h' & v' & E & R & F & C); auto.
      + reflexivity.
      + intros b [].
      + apply (HB1 x). eapply HU; eauto.
      + rewrite E. eapply set_var_ok; eauto.
    - (* PushBack *)
      destruct (avar aw x) as [lx|] eqn:Ax; [|discriminate]. injection HS as <-.
      destruct (wok_var _ _ _ _ _ W Ax) as (vx & Hx & Ex & Rx & Cx & Hax). rewrite Ex. cbn [bind].
      destruct (push_back_rep (mem w) vx lx (SVal a) a B Rx) as (h' & v' & E & R & F & C & _); auto.
      + specialize (HB1 x _ (HU _ _ _ Hx)). len.
      + discriminate.
      + rewrite E. eapply set_var_ok; eauto.
    - (* PushElem *)
      destruct (avar aw y) as [ly|] eqn:Ay; [|discriminate].
      destruct (nth_error ly i) as [a|] eqn:Hi; [|discriminate].
      destruct (avar aw x) as [lx|] eqn:Ax; [|discriminate]. injection HS as <-.
      destruct (wok_var _ _ _ _ _ W Ax) as (vx & Hx & Ex & Rx & Cx & Hax).
      destruct (wok_var _ _ _ _ _ W Ay) as (vy & Hy & Ey & Ry & Cy & Hay).
      rewrite Ex, Ey. cbn [bind].
      destruct (push_back_rep (mem w) vx lx (SRef (begin vy) i) a B Rx) as (h' & v' & E & R & F & C & _); auto.
      + cbn. eapply load_rep; eauto.
      + specialize (HB1 x _ (HU _ _ _ Hx)). len.
      + intros p j [= <- <-]. exists vy, ly. repeat split; auto. intros HE.
        destruct (begin vy) as [b|] eqn:Bv.
        * assert (x = y) by (eapply (w_dis _ _ _ W); eauto). subst y. congruence.
        * unfold rep in Rx, Ry. rewrite <- HE in Rx. rewrite Bv in Ry.
          destruct Rx as (_ & _ & ->), Ry as (_ & _ & ->). reflexivity.
      + rewrite E. eapply set_var_ok; eauto.
        assert (P : pushed vx (SRef (begin vy) i) a = a); [|now rewrite P in R].
        unfold pushed. destruct (begin vy) as [b|] eqn:Bv; auto.
        destruct (begin vx) as [b'|] eqn:Bx; auto. destruct (Nat.eqb_spec b b') as [->|]; auto.
        destruct (size vx <? cap vx); auto.
        assert (x = y) by (eapply (w_dis _ _ _ W); eauto). subst y. eapply Hself; eauto.
    - (* PopBack *)
      destruct (avar aw x) as [lx|] eqn:Ax; [|discriminate].
      destruct lx as [|z lx]; [discriminate|]. injection HS as <-.
      destruct (wok_var _ _ _ _ _ W Ax) as (vx & Hx & Ex & Rx & Cx & Hax). rewrite Ex. cbn [bind].
      destruct (pop_back_rep (mem w) vx _ Rx) as (h' & E & R & I); [discriminate|].
      rewrite E. eapply set_var_ok; eauto. now apply frame_inplace.
    - (* Resize *)
      destruct (avar aw x) as [lx|] eqn:Ax; [|discriminate]. injection HS as <-.
      destruct (wok_var _ _ _ _ _ W Ax) as (vx & Hx & Ex & Rx & Cx & Hax). rewrite Ex. cbn [bind].
      destruct (resize_rep (mem w) vx lx n B Rx) as (h' & v' & E & R & F & C & _); auto.
      + specialize (HB1 x _ (HU _ _ _ Hx)). rewrite app_length, firstn_length, repeat_length in HB1. lia.
      + rewrite E. eapply set_var_ok; eauto.
    - (* Reserve *)
      destruct (avar aw x) as [lx|] eqn:Ax; [|discriminate]. injection HS as <-.
      destruct (wok_var _ _ _ _ _ W Ax) as (vx & Hx & Ex & Rx & Cx & Hax). rewrite Ex. cbn [bind].
      destruct (reserve_rep (mem w) vx lx n B Rx) as (h' & v' & E & R & F & C & _); auto.
      rewrite E. eapply set_var_ok; eauto.
    - (* Clear *)
      destruct (avar aw x) as [lx|] eqn:Ax; [|discriminate]. injection HS as <-.
      destruct (wok_var _ _ _ _ _ W Ax) as (vx & Hx & Ex & Rx & Cx & Hax). rewrite Ex. cbn [bind].
      destruct (clear_rep (mem w) vx lx Rx) as (h' & E & R & I).
      rewrite E. eapply set_var_ok; eauto. now apply frame_inplace.
    - (* Write *)
      destruct (avar aw x) as [lx|] eqn:Ax; [|discriminate].
      destruct (Nat.ltb_spec i (length lx)) as [Hi|]; [|discriminate]. injection HS as <-.
      destruct (wok_var _ _ _ _ _ W Ax) as (vx & Hx & Ex & Rx & Cx & Hax). rewrite Ex. cbn [bind].
      destruct (store_rep (mem w) vx lx i a Rx Hi) as (h' & E & R & I).
      unfold set. rewrite E. cbn [bind]. eexists; split; [reflexivity|].
      rewrite <- (upd_same (vars w) x (Some vx)) by auto.
      eapply set_ok; eauto. now apply frame_inplace.
    - (* Delete *)
      destruct (avar aw x) as [lx|] eqn:Ax; [|discriminate]. injection HS as <-.
      destruct (wok_var _ _ _ _ _ W Ax) as (vx & Hx & Ex & Rx & Cx & Hax). rewrite Ex. cbn [bind].
      destruct (destructor_rep (mem w) vx lx Rx) as (h' & E & F & L). rewrite E. cbn [bind].
      rewrite wr_ok by (eapply nth_some_lt; eauto). cbn [bind].
      eexists; split; [reflexivity|]. eapply delete_ok; eauto.
  Qed.

  Lemma empty_ok B : wok B (@empty_world A) [].
  Proof.
    constructor; cbn; auto.
    - intros [|x]; cbn; auto.
    - intros b (c & Hc). destruct b; discriminate.
    - intros [|x] y vx vy b Hx; discriminate.
  Qed.

  Lemma run_ok B os : (Z.of_nat (2 * B) <= intMax)%Z ->
    forall w aw aw', wok B w aw -> arun dflt aw os = Some aw' -> small_run dflt B aw os ->
    (no_self_push os \/ forall a, mvf a = a) ->
    exists w', run dflt triv moved w os = Ret w' /\ wok B w' aw'.
  Proof.
    intros HZ. induction os as [|o os IH]; intros w aw aw' W HR HS Hself.
    - injection HR as <-. exists w; auto.
    - cbn [arun run small_run] in *. destruct (astep dflt aw o) as [aw1|] eqn:E; [|discriminate].
      destruct HS as [HS1 HS2].
      destruct (step_ok B w aw o aw1 HZ W E HS1) as (w1 & E1 & W1).
      { intros x i -> a. destruct Hself as [H|H]; auto. exfalso. apply (H x i). now left. }
      rewrite E1. cbn [bind]. apply (IH w1 aw1 aw'); auto.
      destruct Hself as [H|H]; auto. left. intros x i Hin. apply (H x i). now right.
  Qed.

  Lemma wok_shows B w aw x l : wok B w aw -> avar aw x = Some l -> shows w x l.
  Proof.
    intros W H. destruct (wok_var _ _ _ _ _ W H) as (v & Hv & _ & R & _ & _).
    destruct (rep_size _ _ _ R) as [Hs Hl]. exists v. repeat split; auto; try lia.
    intros i a Hi. unfold get. eapply load_rep; eauto.
  Qed.

  Theorem vector_history B os aw :
    (triv = true -> forall a, moved a = a) ->
    (Z.of_nat (2 * B) <= intMax)%Z ->
    arun dflt [] os = Some aw -> small_run dflt B [] os ->
    (no_self_push os \/ forall a, moved a = a) ->
    exists w, run dflt triv moved empty_world os = Ret w /\
      (forall x l, avar aw x = Some l -> shows w x l) /\
      (forall b, allocated w b -> exists x l, avar aw x = Some l /\
         exists v, nth_error (vars w) x = Some (Some v) /\ begin v = Some b) /\
      (forall x y vx vy b, nth_error (vars w) x = Some (Some vx) ->
         nth_error (vars w) y = Some (Some vy) -> begin vx = Some b -> begin vy = Some b -> x = y).
  Proof.
    intros Htriv HZ HR HS Hself.
    destruct (run_ok B os HZ empty_world [] aw (empty_ok B) HR HS) as (w & E & W).
    { destruct Hself as [H|H]; auto. right. intros a. unfold mvf. destruct triv; auto. }
    exists w. split; [auto|]. split; [|split].
    - intros x l H. eapply wok_shows; eauto.
    - intros b Hb. destruct (w_own _ _ _ W b Hb) as (x & v & Hx & Hv).
      pose proof (w_rep _ _ _ W x) as R. rewrite Hx in R.
      destruct (nth_error aw x) as [[l|]|] eqn:Ea; try contradiction.
      exists x, l. unfold avar. rewrite Ea. split; eauto.
    - apply W.
  Qed.

  Theorem vector_no_leak B os aw :
    (triv = true -> forall a, moved a = a) ->
    (Z.of_nat (2 * B) <= intMax)%Z ->
    arun dflt [] os = Some aw -> small_run dflt B [] os ->
    (no_self_push os \/ forall a, moved a = a) ->
    (forall x, avar aw x = None) ->
    exists w, run dflt triv moved empty_world os = Ret w /\ forall b, ~ allocated w b.
  Proof.
    intros H1 H2 H3 H4 H5 Hnone.
    destruct (vector_history B os aw H1 H2 H3 H4 H5) as (w & E & _ & O & _).
    exists w. split; auto. intros b Hb. destruct (O b Hb) as (x & l & Hl & _).
    rewrite Hnone in Hl. discriminate.
  Qed.

  (** reserve *)
  Theorem vector_reserve B os aw x l n :
    (triv = true -> forall a, moved a = a) ->
    (Z.of_nat (2 * B) <= intMax)%Z ->
    arun dflt [] os = Some aw -> small_run dflt B [] os ->
    (no_self_push os \/ forall a, moved a = a) ->
    avar aw x = Some l -> n <= B ->
    exists w w' v v', run dflt triv moved empty_world os = Ret w /\
      step dflt triv moved w (Reserve x n) = Ret w' /\
      nth_error (vars w) x = Some (Some v) /\ nth_error (vars w') x = Some (Some v') /\
      cap v <= cap v' /\ n <= cap v' /\ (n <= cap v -> w' = w) /\
      forall y ly, avar aw y = Some ly -> shows w' y ly.
  Proof.
    intros Htriv HZ HR HS Hself Hx Hn.
    destruct (run_ok B os HZ empty_world [] aw (empty_ok B) HR HS) as (w & E & W).
    { destruct Hself as [H|H]; auto. right. intros a. unfold mvf. destruct triv; auto. }
    destruct (wok_var _ _ _ _ _ W Hx) as (v & Hv & Ev & R & Cv & Ha).
    destruct (reserve_rep (mem w) v l n B R Hn Cv) as (h' & v' & E' & R' & F & C1 & C2 & C3).
    assert (Hvl := nth_some_lt _ _ _ Hv).
    exists w, (mkWorld h' (upd (vars w) x (Some v'))), v, v'.
    split; [auto|]. split.
    { cbn [step]. rewrite Ev. cbn [bind]. rewrite E'. unfold set_var. cbn [bind].
      rewrite wr_ok by auto. reflexivity. }
    split; [auto|]. split; [cbn; now rewrite nth_error_upd_eq|].
    split; [auto|]. split; [auto|]. split.
    - intros Hle. unfold reserve in E'. destruct (Nat.ltb_spec (cap v) n); [lia|].
      injection E' as <- <-. rewrite upd_same by auto. now destruct w.
    - assert (W' : wok B (mkWorld h' (upd (vars w) x (Some v'))) (upd aw x (Some l)))
        by (eapply set_ok; eauto).
      rewrite (upd_same aw) in W' by auto. intros y ly Hy. eapply wok_shows; eauto.
  Qed.

  (** ** push_back of the vector's own element *)
  Theorem push_own B os aw x l i a :
    (triv = true -> forall a, moved a = a) ->
    (Z.of_nat (2 * B) <= intMax)%Z ->
    arun dflt [] os = Some aw -> small_run dflt B [] os ->
    (no_self_push os \/ forall a, moved a = a) ->
    avar aw x = Some l -> nth_error l i = Some a -> length l + 1 <= B ->
    exists w v w', run dflt triv moved empty_world os = Ret w /\
      nth_error (vars w) x = Some (Some v) /\
      step dflt triv moved w (PushElem x x i) = Ret w' /\
      (size v < cap v -> shows w' x (l ++ [a])) /\
      (size v = cap v -> shows w' x (l ++ [if triv then a else moved a])) /\
      (forall y ly, y <> x -> avar aw y = Some ly -> shows w' y ly).
  Proof.
    intros Htriv HZ HR HS Hself Hx Hi Hl.
    destruct (run_ok B os HZ empty_world [] aw (empty_ok B) HR HS) as (w & E & W).
    { destruct Hself as [H|H]; auto. right. intros b. unfold mvf. destruct triv; auto. }
    destruct (wok_var _ _ _ _ _ W Hx) as (v & Hv & Ev & R & Cv & Ha).
    destruct (push_back_rep (mem w) v l (SRef (begin v) i) a B R) as (h' & v' & E' & R' & F & C1 & C2); auto.
    { cbn. eapply load_rep; eauto. }
    { intros p j [= <- <-]. exists v, l. repeat split; auto. }
    assert (Hvl := nth_some_lt _ _ _ Hv).
    exists w, v, (mkWorld h' (upd (vars w) x (Some v'))).
    split; [auto|]. split; [auto|]. split.
    { cbn [step]. rewrite Ev. cbn [bind]. rewrite E'. unfold set_var. cbn [bind].
      rewrite wr_ok by auto. reflexivity. }
    assert (W' : wok B (mkWorld h' (upd (vars w) x (Some v')))
                   (upd aw x (Some (l ++ [pushed v (SRef (begin v) i) a])))) by (eapply set_ok; eauto).
    assert (Hal := nth_some_lt _ _ _ Ha).
    assert (Hb : exists b, begin v = Some b).
    { unfold rep in R. destruct (begin v) as [b|]; [eauto|]. destruct R as (_ & _ & ->).
      destruct i; discriminate. }
    destruct Hb as [b Hb].
    split; [|split].
    - intros Hlt. apply Nat.ltb_lt in Hlt.
      assert (P : pushed v (SRef (begin v) i) a = a)
        by (unfold pushed; rewrite Hb, Nat.eqb_refl, Hlt; auto).
      rewrite P in W'. eapply wok_shows; eauto. now apply avar_upd.
    - intros Hf. assert (Hlt : size v <? cap v = false) by (apply Nat.ltb_ge; lia).
      assert (P : pushed v (SRef (begin v) i) a = if triv then a else moved a)
        by (unfold pushed; rewrite Hb, Nat.eqb_refl, Hlt; auto).
      rewrite P in W'. eapply wok_shows; eauto. now apply avar_upd.
    - intros y ly Hn Hy. eapply wok_shows; eauto. unfold avar in *. now rewrite nth_error_upd_neq by auto.
  Qed.
End Proofs.

(** ** Overflow: the doubling of the capacity *)
Lemma push_overflow {A} triv moved (h : heap A) v s : size v = cap v ->
  (Z.of_nat (cap v) >= 2 ^ 30)%Z -> push_back triv moved h v s = Ub.
Proof.
  intros Hs Hc. unfold push_back. rewrite Hs, Nat.ltb_irrefl. unfold pushBackSlowPath, chk, recommend.
  destruct (_ <=? _)%Z; [|reflexivity]. cbn [bind]. unfold chk.
  destruct (Z.leb_spec (Z.of_nat (2 * cap v)) intMax); [|reflexivity].
  unfold intMax in *. lia.
Qed.

(** ** Relational operators *)
Section Rel.
  Context {A : Type}.
  Variable eqb ltb : A -> A -> bool.
  Hypothesis eqb_spec : forall a b, eqb a b = true <-> a = b.

  Lemma equal_loop_ok l : forall r, length l = length r ->
    exists b, equal_loop eqb l r = Ret b /\ (b = true <-> l = r).
  Proof.
    induction l as [|a l IH]; intros [|b r] H; try discriminate; cbn.
    - exists true; tauto.
    - destruct (eqb a b) eqn:E; cbn.
      + apply eqb_spec in E. subst b. destruct (IH r) as (x & Ex & Hx); [simpl in H; lia|].
        exists x. split; auto. rewrite Hx. split; congruence.
      + exists false. split; auto. split; [discriminate|]. intros [= -> ->].
        rewrite (proj2 (eqb_spec b b) eq_refl) in E. discriminate.
  Qed.

  Lemma vec_eq_ok l r : exists b, vec_eq eqb l r = Ret b /\ (b = true <-> l = r).
  Proof.
    unfold vec_eq. destruct (Nat.eqb_spec (length l) (length r)) as [H|H].
    - now apply equal_loop_ok.
    - exists false. split; auto. split; [discriminate|]. intros ->. congruence.
  Qed.

  Lemma vec_ne_ok l r : exists b, vec_ne eqb l r = Ret b /\ (b = true <-> l <> r).
  Proof.
    unfold vec_ne. destruct (vec_eq_ok l r) as (b & -> & Hb). cbn. eexists; split; [reflexivity|].
    destruct b; cbn; split; try discriminate; auto.
    - intros H. exfalso. apply H. now apply Hb.
    - intros _ E. apply Hb in E. discriminate.
  Qed.

  Hypothesis ST : strict_total ltb.
  Let irr := proj1 ST.
  Let tra := proj1 (proj2 ST).
  Let tot := proj2 (proj2 ST).

  Lemma vec_lt_lex l : forall r, vec_lt ltb l r = true <-> lex (fun a b => ltb a b = true) l r.
  Proof.
    unfold vec_lt. induction l as [|a l IH]; intros [|b r]; cbn.
    - split; [discriminate|]. inversion 1.
    - split; auto. intros _. constructor.
    - split; [discriminate|]. inversion 1.
    - destruct (ltb a b) eqn:E1.
      + split; auto. intros _. now constructor.
      + destruct (ltb b a) eqn:E2.
        * split; [discriminate|]. inversion 1; subst; congruence.
        * destruct (tot a b) as [H|[->|H]]; try congruence.
          rewrite IH. split; intros H; [now constructor|]. inversion H; subst; auto.
          rewrite irr in *. discriminate.
  Qed.

  Lemma vec_lt_irrefl l : vec_lt ltb l l = false.
  Proof. unfold vec_lt. induction l; cbn; auto. now rewrite irr. Qed.

  Lemma lex_trans l1 : forall l2 l3, lex (fun a b => ltb a b = true) l1 l2 ->
    lex (fun a b => ltb a b = true) l2 l3 -> lex (fun a b => ltb a b = true) l1 l3.
  Proof.
    induction l1 as [|a l1 IH]; intros l2 l3 H1 H2; inversion H1; subst; inversion H2; subst.
    - constructor. - constructor.
    - constructor. eauto. - constructor. auto. - constructor; auto.
    - apply lex_eq. eauto.
  Qed.
  Lemma vec_lt_trans l1 l2 l3 : vec_lt ltb l1 l2 = true -> vec_lt ltb l2 l3 = true ->
    vec_lt ltb l1 l3 = true.
  Proof. rewrite !vec_lt_lex. apply lex_trans. Qed.

  Lemma vec_lt_total l : forall r, vec_lt ltb l r = true \/ l = r \/ vec_lt ltb r l = true.
  Proof.
    unfold vec_lt. induction l as [|a l IH]; intros [|b r]; cbn; auto.
    destruct (tot a b) as [H|[->|H]]; rewrite ?H; auto.
    rewrite irr. destruct (IH r) as [H|[->|H]]; auto.
  Qed.

  Lemma vec_lt_not_ge l r : vec_lt ltb l r = true -> vec_lt ltb r l = false.
  Proof.
    intros H. destruct (vec_lt ltb r l) eqn:E; auto.
    rewrite <- (vec_lt_irrefl l). symmetry. eapply vec_lt_trans; eauto.
  Qed.

  Lemma vec_derived l r :
    (vec_gt ltb l r = true <-> vec_lt ltb r l = true) /\
    (vec_le ltb l r = true <-> vec_lt ltb l r = true \/ l = r) /\
    (vec_ge ltb l r = true <-> vec_lt ltb r l = true \/ l = r).
  Proof.
    assert (K : forall l r, negb (vec_lt ltb r l) = true <-> vec_lt ltb l r = true \/ l = r).
    { intros a b. rewrite negb_true_iff. split.
      - intros H. destruct (vec_lt_total a b) as [H1|[H1|H1]]; auto. congruence.
      - intros [H| ->]; [now apply vec_lt_not_ge|apply vec_lt_irrefl]. }
    unfold vec_gt, vec_le, vec_ge. split; [tauto|]. split; [apply K|].
    rewrite K. split; intros [H|H]; auto.
  Qed.
End Rel.
