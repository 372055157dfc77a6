From Coq Require Import List Arith ZArith Lia Bool Permutation Sorting.Sorted.
From Verif Require Import Base Loops Sort_Model Sort_Spec Sort_Proofs StringView_Model StringView_Spec StringView_Proofs
  Elem_Model Soup_Model Soup_Spec Soup_Proofs.
Import ListNotations.

(** ** orders *)
Lemma lexlt_swo (Q : list Z -> Prop) : strict_weak_order_on name_ltb Q.
Proof.
  split; intros.
  - destruct (name_ltb_spec a a) as [h|]; auto. now apply lexlt_irrefl in h.
  - apply name_ltb_iff in H2, H3. apply name_ltb_iff. eapply lexlt_trans; eauto.
  - destruct (name_ltb_spec a b), (name_ltb_spec b c), (name_ltb_spec a c) as [h|]; try discriminate; auto.
    exfalso. destruct (lexlt_total b c) as [|[->|]]; auto.
    apply n. eapply lexlt_trans; eauto.
Qed.
Lemma pair_ltb_iff a b : pair_ltb a b = true <-> lexlt (fst a) (fst b) \/ (fst a = fst b /\ snd a < snd b).
Proof.
  unfold pair_ltb. rewrite orb_true_iff, andb_true_iff, negb_true_iff, name_ltb_iff, Nat.ltb_lt.
  destruct (name_ltb_spec (fst b) (fst a)) as [h|h]; split; intros [H|(H & H')]; auto; try discriminate.
  - rewrite H in h. now apply lexlt_irrefl in h.
  - destruct (lexlt_total (fst a) (fst b)) as [k|[k|k]]; auto; contradiction.
Qed.
Lemma pair_swo (Q : list Z * nat -> Prop) : strict_weak_order_on pair_ltb Q.
Proof.
  split; intros.
  - destruct (pair_ltb a a) eqn:E; auto. apply pair_ltb_iff in E as [h|(_ & h)]; [now apply lexlt_irrefl in h|lia].
  - apply pair_ltb_iff in H2, H3. apply pair_ltb_iff.
    destruct H2 as [h|(e & h)], H3 as [k|(e' & k)].
    + left. eapply lexlt_trans; eauto.
    + left. now rewrite <- e'.
    + left. now rewrite e.
    + right. split; [congruence|lia].
  - destruct (pair_ltb a c) eqn:E; auto. exfalso.
    assert (N1 : ~ (lexlt (fst a) (fst b) \/ (fst a = fst b /\ snd a < snd b))) by (rewrite <- pair_ltb_iff; congruence).
    assert (N2 : ~ (lexlt (fst b) (fst c) \/ (fst b = fst c /\ snd b < snd c))) by (rewrite <- pair_ltb_iff; congruence).
    apply pair_ltb_iff in E.
    destruct (lexlt_total (fst a) (fst b)) as [|[e|]]; [tauto| |].
    + destruct (lexlt_total (fst b) (fst c)) as [|[e'|k]]; [tauto| |].
      * destruct E as [h|(_ & h)]; [rewrite e, e' in h; now apply lexlt_irrefl in h|].
        destruct (Nat.lt_ge_cases (snd a) (snd b)); [tauto|]. apply N2. right. split; auto. lia.
      * destruct E as [h|(h & _)]; [rewrite e in h; now apply lexlt_asym in h|].
        rewrite <- h, e in k. now apply lexlt_irrefl in k.
    + destruct (lexlt_total (fst b) (fst c)) as [|[e'|k]]; [tauto| |].
      * destruct E as [h|(h & _)]; [rewrite <- e' in h; now apply lexlt_asym in h|].
        rewrite h, <- e' in H4. now apply lexlt_irrefl in H4.
      * destruct E as [h|(h & _)].
        -- apply (lexlt_asym _ _ h). eapply lexlt_trans; eauto.
        -- rewrite h in H4. now apply (lexlt_asym _ _ k) in H4.
Qed.
Lemma Z_swo (Q : Z -> Prop) : strict_weak_order_on Z.ltb Q.
Proof. split; intros; lia. Qed.

(** sorted in the sense of the contract *)
Lemma sorted_cons {A} (ltb : A -> A -> bool) a l : sorted ltb (a :: l) <-> (forall x, In x l -> ltb x a = false) /\ sorted ltb l.
Proof.
  split.
  - intros H. split.
    + intros x Hx. apply In_nth_error in Hx as (j & Hj). apply (H 0 (S j) a x); auto; lia.
    + intros i j x y Hij Hx Hy. apply (H (S i) (S j) x y); auto; lia.
  - intros (H1 & H2) i j x y Hij Hx Hy. destruct j as [|j]; [lia|]. cbn in Hy. destruct i as [|i]; cbn in Hx.
    + injection Hx as <-. apply H1. eapply nth_error_In; eauto.
    + apply (H2 i j x y); auto; lia.
Qed.
Lemma sorted_strong {A} (ltb : A -> A -> bool) (R : A -> A -> Prop) l :
  (forall x y, In x l -> In y l -> ltb y x = false -> x = y \/ R x y) -> NoDup l ->
  sorted ltb l -> StronglySorted R l.
Proof.
  intros HR Hd. induction l as [|a l IH]; intros Hs; constructor.
  - apply sorted_cons in Hs as (_ & Hs). inversion Hd; subst. apply IH; auto.
    intros; apply HR; auto; now right.
  - apply sorted_cons in Hs as (Hs & _). inversion Hd; subst. apply Forall_forall. intros x Hx.
    destruct (HR a x) as [->|]; auto; try (now left); try (now right). contradiction.
Qed.
Lemma sorted_strong_le l : sorted Z.ltb l -> StronglySorted Z.le l.
Proof.
  induction l as [|a l IH]; intros Hs; constructor; apply sorted_cons in Hs as (H1 & H2); auto.
  apply Forall_forall. intros x Hx. specialize (H1 x Hx). lia.
Qed.
Lemma contract_nat stdsort : sort_contract stdsort -> std_sort_contract (stdsort nat).
Proof. intros H cmp l Hs. now apply H. Qed.

(** ** arrays *)
Lemma blit_ok {A} (l rest src : list A) : length src <= length rest ->
  blit (l ++ rest) (length l) src = Ret (l ++ src ++ skipn (length src) rest).
Proof.
  intros H. unfold blit. rewrite app_length, (proj2 (Nat.leb_le _ _)) by lia.
  rewrite firstn_app, Nat.sub_diag, firstn_all, firstn_O, app_nil_r.
  rewrite skipn_app, skipn_all2 by lia. cbn. now replace (length l + length src - length l) with (length src) by lia.
Qed.
Lemma range_mid {A} (l m r : list A) : range (l ++ m ++ r) (length l) (length l + length m) = Ret m.
Proof.
  unfold range. rewrite !app_length, !(proj2 (Nat.leb_le _ _)) by lia. cbn.
  rewrite skipn_app, skipn_all2, Nat.sub_diag by lia. cbn.
  replace (length l + length m - length l) with (length m) by lia.
  rewrite firstn_app, Nat.sub_diag, firstn_all, firstn_O. now rewrite app_nil_r.
Qed.
Lemma wr_mid {A} (l r : list A) x y : wr (l ++ x :: r) (length l) y = Ret (l ++ y :: r).
Proof.
  rewrite wr_ok by (rewrite app_length; cbn; lia). now rewrite upd_mid.
Qed.
Lemma wr_mid' {A} (l r : list A) y n : n = length l -> r <> [] -> wr (l ++ r) n y = Ret ((l ++ [y]) ++ tl r).
Proof. intros -> H. destruct r as [|x r]; [contradiction|]. rewrite wr_mid, <- app_assoc. reflexivity. Qed.

Lemma list_sum_perm l m : Permutation l m -> list_sum l = list_sum m.
Proof. unfold list_sum. induction 1; cbn; lia. Qed.
Lemma sum_firstn l n : list_sum (firstn n l) <= list_sum l.
Proof. revert n. induction l as [|x l IH]; intros [|n]; cbn; try lia. specialize (IH n). unfold list_sum in IH. lia. Qed.

Section Sort.
Context {P F : Type}.
Variable stdsort : forall A : Type, (A -> A -> bool) -> list A -> list A.
Hypothesis Hsort : sort_contract stdsort.
Variables (s : soup P F) (a : asoup P F).
Hypothesis Hs : stores s a.
Hypothesis Hc : content_ok a.
Notation es := (a_elsets a).

Definition lens (l : list (elset F)) := map (fun e => length (es_ids e)) l.
Definition orig (ni : list Z * nat) (e : elset F) := nth_error es (snd ni) = Some e /\ fst ni = es_name e.

Lemma pairs_eq : mapo (A := nat) (B := list Z * nat) (fun i => let* n := rd (snames s) i in Ret (n, i)) (seq 0 (length (snames s)))
  = Ret (combine (snames s) (seq 0 (length (snames s)))).
Proof.
  destruct Hs as (_ & _ & _ & _ & Hn & _). clear Hn.
  assert (G : forall (l pre : list (list Z)), mapo (fun i => let* n := rd (pre ++ l) i in Ret (n, i)) (seq (length pre) (length l))
             = Ret (combine l (seq (length pre) (length l)))).
  { induction l as [|x l IH]; intros pre; cbn [mapo seq length combine]; auto.
    unfold rd at 1. rewrite nth_error_app2, Nat.sub_diag by lia. cbn [nth_error bind].
    specialize (IH (pre ++ [x])). rewrite app_length, <- app_assoc in IH. cbn in IH.
    rewrite Nat.add_1_r in IH. rewrite IH. reflexivity. }
  apply (G (snames s) []).
Qed.

Let prs := combine (snames s) (seq 0 (length (snames s))).
Let srt := stdsort _ pair_ltb prs.

Lemma in_prs ni : In ni prs -> exists e, orig ni e.
Proof.
  destruct Hs as (_ & _ & _ & _ & Hn & _). unfold prs. intros H.
  apply In_nth_error in H as (k & Hk).
  assert (Hk' : nth_error (snames s) k = Some (fst ni) /\ nth_error (seq 0 (length (snames s))) k = Some (snd ni)).
  { clear Hn. revert Hk. generalize (seq 0 (length (snames s))). generalize (snames s). clear.
    intros l. revert k. induction l as [|x l IH]; intros [|k] [|y m] E; cbn in *; try discriminate.
    - injection E as <-. auto.
    - apply IH; auto. }
  destruct Hk' as (H1 & H2).
  assert (k < length (snames s)) by (apply nth_error_Some; congruence).
  assert (snd ni = k).
  { rewrite (nth_error_nth' _ 0) in H2 by (rewrite seq_length; auto). rewrite seq_nth in H2 by auto. injection H2. auto. }
  rewrite Hn, nth_error_map in H1. destruct (nth_error es k) as [e|] eqn:E; [|discriminate].
  exists e. unfold orig. rewrite H0. split; auto. cbn in H1. congruence.
Qed.
Lemma prs_snd : map snd prs = seq 0 (length (snames s)).
Proof.
  unfold prs. assert (G : forall (l : list (list Z)) (m : list nat), length l = length m -> map snd (combine l m) = m).
  { intros l. induction l as [|x l IH]; intros [|y m] H; cbn in *; try discriminate; auto. f_equal. auto. }
  apply G. now rewrite seq_length.
Qed.
Lemma prs_fst : map fst prs = snames s.
Proof.
  unfold prs. assert (G : forall (l : list (list Z)) (m : list nat), length l = length m -> map fst (combine l m) = l).
  { intros l. induction l as [|x l IH]; intros [|y m] H; cbn in *; try discriminate; auto. f_equal. auto. }
  apply G. now rewrite seq_length.
Qed.
Lemma srt_perm : Permutation prs srt.
Proof. apply Hsort, pair_swo. Qed.
Lemma srt_sorted : sorted pair_ltb srt.
Proof. apply Hsort, pair_swo. Qed.
Lemma srt_len : length srt = length es.
Proof.
  rewrite <- (Permutation_length srt_perm), <- (map_length fst), prs_fst.
  destruct Hs as (_ & _ & _ & _ & Hn & _). now rewrite Hn, map_length.
Qed.
Lemma srt_orig i ni : nth_error srt i = Some ni -> exists e, orig ni e.
Proof.
  intros H. apply in_prs. eapply Permutation_in; [apply Permutation_sym, srt_perm|]. eapply nth_error_In; eauto.
Qed.
Lemma srt_nodup_snd : NoDup (map snd srt).
Proof. eapply Permutation_NoDup; [apply Permutation_map, srt_perm|]. rewrite prs_snd. apply seq_NoDup. Qed.
Lemma srt_names : StronglySorted lexlt (map fst srt).
Proof.
  assert (Hnd : NoDup (map fst srt)).
  { eapply Permutation_NoDup; [apply Permutation_map, srt_perm|]. rewrite prs_fst.
    destruct Hs as (_ & _ & _ & _ & Hn & _). rewrite Hn. apply Hc. }
  assert (G : forall l, NoDup (map fst l) -> sorted pair_ltb l -> StronglySorted lexlt (map fst l)).
  { induction l as [|x l IH]; intros Hd Hso; cbn; constructor; inversion Hd; subst.
    - apply IH; auto. now apply sorted_cons in Hso.
    - apply Forall_forall. intros y Hy. apply in_map_iff in Hy as (z & <- & Hz).
      apply sorted_cons in Hso as (Hso & _). specialize (Hso z Hz).
      destruct (lexlt_total (fst x) (fst z)) as [|[e|h]]; auto.
      + exfalso. apply H1. rewrite e. apply in_map. auto.
      + exfalso. assert (pair_ltb z x = true) by (apply pair_ltb_iff; auto). congruence. }
  apply G; auto. apply srt_sorted.
Qed.

(** total length of the ids of a prefix never exceeds the total *)
Definition srclen (ni : list Z * nat) : nat :=
  match nth_error es (snd ni) with Some e => length (es_ids e) | None => 0 end.
Lemma srclen_orig ni e : orig ni e -> srclen ni = length (es_ids e).
Proof. intros (E & _). unfold srclen. now rewrite E. Qed.
Lemma total_len : list_sum (map srclen srt) = length (sids s).
Proof.
  rewrite <- (list_sum_perm _ _ (Permutation_map srclen srt_perm)).
  destruct Hs as (_ & _ & _ & _ & Hn & _ & Hi & _). rewrite Hi, length_concat, <- map_ids_length.
  assert (E : map srclen prs = map (fun k => match nth_error es k with Some e => length (es_ids e) | None => 0 end) (map snd prs)).
  { rewrite map_map. reflexivity. }
  rewrite E, prs_snd, Hn, map_length. f_equal.
  clear.
  assert (G : forall l pre, map (fun k => match nth_error (pre ++ l) k with Some e => length (es_ids e) | None => 0 end)
                 (seq (length pre) (length l)) = map (fun e : elset F => length (es_ids e)) l).
  { induction l as [|x l IH]; intros pre; cbn; auto. f_equal.
    - now rewrite nth_error_app2, Nat.sub_diag by lia.
    - specialize (IH (pre ++ [x])). rewrite app_length, <- app_assoc in IH. cbn in IH.
      rewrite Nat.add_1_r in IH. exact IH. }
  apply (G es []).
Qed.

Record inv (i : nat) (st : sstate (F := F)) (pl : list (elset F)) : Prop := {
  i_proc : Forall2 (fun ni e' => exists e, orig ni e /\ same_sorted e e') (firstn i srt) pl;
  i_names : exists r, st_names st = map es_name pl ++ r /\ length r = length es - i;
  i_offs : exists r, st_offs st = sums 0 (lens pl) ++ r /\ length r = length es - i;
  i_ids : exists r, st_ids st = concat (map es_ids pl) ++ r /\ length (st_ids st) = length (sids s);
  i_data : exists r, st_data st = map es_data pl ++ r /\ length r = length es - i;
  i_old : length (st_old st) = length es /\
          forall j, ~ In j (map snd (firstn i srt)) -> nth_error (st_old st) j = nth_error (sdata s) j;
  i_off : st_offset st = list_sum (lens pl) }.

Lemma lens_concat pl : list_sum (lens pl) = length (concat (map es_ids pl)).
Proof. unfold lens. now rewrite length_concat, map_map. Qed.
Lemma firstn_S {A} (l : list A) i x : nth_error l i = Some x -> firstn (S i) l = firstn i l ++ [x].
Proof.
  revert i. induction l as [|y l IH]; intros [|i] E; cbn in *; try discriminate.
  - now injection E as ->.
  - f_equal. auto.
Qed.
Lemma proc_lens i pl : Forall2 (fun ni e' => exists e, orig ni e /\ same_sorted e e') (firstn i srt) pl ->
  list_sum (lens pl) = list_sum (map srclen (firstn i srt)).
Proof.
  intros H. unfold lens. induction H as [|ni e' l m (e & Ho & (_ & _ & p & Hp & (Hl & _) & _))]; cbn; auto.
  rewrite (srclen_orig _ _ Ho). apply Permutation_length in Hp. rewrite seq_length in Hp.
  cbn in IHForall2. unfold list_sum in IHForall2. lia.
Qed.

Lemma same_sorted_len e e' : same_sorted (F := F) e e' -> length (es_ids e') = length (es_ids e).
Proof.
  intros (_ & _ & p & Hp & (Hl & _) & _). apply Permutation_length in Hp. rewrite seq_length in Hp. lia.
Qed.

Lemma step_inv i st pl : i < length es -> inv i st pl ->
  exists st' e', sort_step stdsort s srt i st = Ret st' /\ inv (S i) st' (pl ++ [e']).
Proof.
  intros Hi I. destruct (nth_error srt i) as [[n iold]|] eqn:Eni.
  2:{ apply nth_error_None in Eni. rewrite srt_len in Eni. lia. }
  destruct (srt_orig _ _ Eni) as (e & Ho). pose proof Ho as (He & Hn). cbn in He, Hn.
  pose proof (firstn_S _ _ _ Eni) as Efs.
  assert (Lpl : length pl = i).
  { rewrite <- (Forall2_length _ _ _ (i_proc _ _ _ I)), firstn_length, srt_len. lia. }
  assert (Hok : elset_ok e). { destruct Hc as (_ & Hf). rewrite Forall_forall in Hf. apply Hf. eapply nth_error_In; eauto. }
  assert (Hnotin : ~ In iold (map snd (firstn i srt))).
  { pose proof srt_nodup_snd as Hd. rewrite <- (firstn_skipn (S i) srt), Efs, !map_app in Hd.
    rewrite <- app_assoc in Hd. cbn in Hd. apply NoDup_remove_2 in Hd. intros Hx. apply Hd, in_or_app. auto. }
  destruct Hs as (_ & _ & _ & _ & Hsn & Hso & Hsi & Hsd).
  destruct (seg_ok (map es_ids es) iold (es_ids e)) as (Ea & Eb & Er).
  { rewrite nth_error_map, He. reflexivity. }
  rewrite <- map_ids_length, <- Hso in Ea, Eb. rewrite <- Hsi in Er.
  set (A := off (map es_ids es) iold) in *. set (B := off (map es_ids es) (S iold)) in *.
  assert (Elen : B - A = length (es_ids e)).
  { unfold A, B. rewrite (off_S _ _ (es_ids e)); [lia|]. rewrite nth_error_map, He. reflexivity. }
  destruct (i_names _ _ _ I) as (rn & En & Ln). destruct (i_offs _ _ _ I) as (ro & Eo & Lo).
  destruct (i_ids _ _ _ I) as (ri & Ei & Li). destruct (i_data _ _ _ I) as (rdt & Ed & Ld).
  destruct (i_old _ _ _ I) as (Lold & Hold). pose proof (i_off _ _ _ I) as Hoff.
  assert (Ls : length (sums 0 (lens pl)) = S i).
  { rewrite sums_length. unfold lens. now rewrite map_length, Lpl. }
  assert (Hfit : length (es_ids e) <= length ri).
  { rewrite Ei, app_length, <- lens_concat, (proc_lens i) in Li by apply I.
    rewrite <- total_len in Li.
    pose proof (sum_firstn (map srclen srt) (S i)) as Hle. rewrite firstn_map, Efs, map_app, list_sum_app in Hle.
    cbn in Hle. rewrite (srclen_orig _ _ Ho) in Hle. lia. }
  unfold sort_step. unfold rd at 1. rewrite Eni. cbn [bind].
  rewrite En, (wr_mid' _ _ n i) by (rewrite ?map_length; auto; intros ->; cbn in Ln; lia). cbn [bind].
  rewrite Ea, Eb. cbn [bind]. rewrite Elen.
  rewrite Eo, (wr_mid' _ _ (st_offset st + length (es_ids e)) (S i)) by (auto; intros ->; cbn in Lo; lia).
  cbn [bind]. rewrite Er. cbn [bind].
  assert (Est : rd ((sums 0 (lens pl) ++ [st_offset st + length (es_ids e)]) ++ tl ro) i = Ret (length (concat (map es_ids pl)))).
  { unfold rd. rewrite nth_error_app1 by (rewrite app_length; cbn; lia). rewrite nth_error_app1 by lia.
    pose proof (sums_last 0 (lens pl)) as Hl. unfold lens in Hl at 2. rewrite map_length, Lpl in Hl. rewrite Hl.
    cbn. now rewrite <- lens_concat. }
  rewrite Est. cbn [bind]. rewrite Ei, blit_ok by auto. cbn [bind].
  assert (Est2 : rd ((sums 0 (lens pl) ++ [st_offset st + length (es_ids e)]) ++ tl ro) (S i)
     = Ret (length (concat (map es_ids pl)) + length (es_ids e))).
  { unfold rd. rewrite nth_error_app1 by (rewrite app_length; cbn; lia). rewrite nth_error_app2 by lia.
    rewrite Ls, Nat.sub_diag. cbn. now rewrite Hoff, lens_concat. }
  rewrite Est2. cbn [bind]. rewrite range_mid. cbn [bind].
  destruct (sortPermutation_correct (stdsort nat) Z.ltb (es_ids e) (repeat 0 (length (es_ids e)))
    (contract_nat _ Hsort) (Z_swo _) (repeat_length _ _)) as (p & Ep & Hp & Hps & _).
  rewrite Ep. cbn [bind].
  destruct (applyPermutation_ok p _ Hp (es_ids e) eq_refl) as (ids' & Eap & Hrt). rewrite Eap. cbn [bind].
  assert (Lids : length ids' = length (es_ids e)).
  { destruct Hrt as (-> & _). apply Permutation_length in Hp. now rewrite seq_length in Hp. }
  assert (Ebl : blit (concat (map es_ids pl) ++ es_ids e ++ skipn (length (es_ids e)) ri) (length (concat (map es_ids pl))) ids'
     = Ret (concat (map es_ids pl) ++ ids' ++ skipn (length (es_ids e)) ri)).
  { rewrite blit_ok by (rewrite app_length; lia). rewrite Lids, skipn_app, skipn_all, Nat.sub_diag. reflexivity. }
  rewrite Ebl. cbn [bind].
  assert (Eod : nth_error (st_old st) iold = Some (es_data e)).
  { rewrite Hold by auto. rewrite Hsd, nth_error_map, He. reflexivity. }
  unfold rd at 1. rewrite Eod. cbn [bind].
  assert (Hiold : iold < length es) by (apply nth_error_Some; congruence).
  rewrite wr_ok by (rewrite Lold; auto). cbn [bind].
  assert (Hdata : exists d', match es_data e with [] => Ret (es_data e) | _ :: _ => applyPermutation (es_data e) p end = Ret d' /\
     ((es_data e = [] /\ d' = []) \/ reads_through (es_data e) p d')).
  { pose proof Hok as (_ & [Hd|Hd]).
    - rewrite Hd. exists []. auto.
    - destruct (applyPermutation_ok p _ Hp (es_data e) Hd) as (d' & E & H).
      exists d'. split; auto. destruct (es_data e) eqn:Ede; [|auto].
      exfalso. destruct Hok as (Hne & _). destruct (es_ids e); [contradiction|discriminate]. }
  destruct Hdata as (d' & Edd & Hdd). rewrite Edd. cbn [bind].
  rewrite Ed, (wr_mid' _ _ d' i) by (rewrite ?map_length; auto; intros ->; cbn in Ld; lia). cbn [bind].
  exists (mkSt ((map es_name pl ++ [n]) ++ tl rn) ((sums 0 (lens pl) ++ [st_offset st + length (es_ids e)]) ++ tl ro)
      (concat (map es_ids pl) ++ ids' ++ skipn (length (es_ids e)) ri) ((map es_data pl ++ [d']) ++ tl rdt)
      (upd (st_old st) iold []) (st_offset st + length (es_ids e))), (mkElset n ids' d').
  split; [reflexivity|].
  assert (Ltl : forall (X : Type) (l : list X), length (tl l) = length l - 1) by (intros X [|]; cbn; lia).
  split; cbn [st_names st_offs st_ids st_data st_old st_offset].
  - rewrite Efs. apply Forall2_app; [apply I|]. constructor; [|constructor].
    exists e. split; auto. unfold same_sorted. cbn. split; auto. split.
    + apply sorted_strong_le. apply Hps. exact Hrt.
    + exists p. auto.
  - exists (tl rn). rewrite map_app. cbn. split; auto. rewrite Ltl. lia.
  - exists (tl ro). unfold lens. rewrite map_app. cbn [map es_ids]. rewrite sums_app. split.
    + f_equal. f_equal. f_equal. cbn. rewrite Hoff. unfold lens. lia.
    + rewrite Ltl. lia.
  - exists (skipn (length (es_ids e)) ri). rewrite map_app, concat_app. cbn. rewrite app_nil_r, <- app_assoc. split; auto.
    rewrite <- Li, Ei. rewrite !app_length, skipn_length, Lids. lia.
  - exists (tl rdt). rewrite map_app. cbn. split; auto. rewrite Ltl. lia.
  - rewrite upd_length. split; auto. intros j Hj. rewrite Efs, map_app in Hj.
    rewrite nth_error_upd_neq; [apply Hold|]; intros Hx; apply Hj; apply in_or_app; [now left|].
    right. left. cbn. auto.
  - rewrite Hoff. unfold lens. rewrite map_app, list_sum_app. cbn. lia.
Qed.

Theorem sortElsets_ok : es <> [] ->
  exists s' l, sortElsets stdsort s = Ret s' /\ stores s' (mkA (a_verts a) (a_elems a) l) /\
    names_sorted l /\ exists m, Permutation es m /\ Forall2 same_sorted m l.
Proof.
  intros Hne. unfold sortElsets. rewrite pairs_eq. cbn [bind]. fold prs. fold srt.
  assert (Hl : length (snames s) = length es) by (destruct Hs as (_ & _ & _ & _ & -> & _); now rewrite map_length).
  assert (Hlo : length (soffs s) = S (length es)).
  { destruct Hs as (_ & _ & _ & _ & _ & -> & _). destruct es as [|e l]; [contradiction|].
    unfold offsets_of. cbn [map]. rewrite sums_length. cbn. now rewrite map_length. }
  assert (Hld : length (sdata s) = length es) by (destruct Hs as (_ & _ & _ & _ & _ & _ & _ & ->); now rewrite map_length).
  rewrite Hlo. cbn [repeat]. unfold wr at 1. cbn [length Nat.ltb Nat.leb upd bind].
  rewrite Hl, Hld.
  set (st0 := mkSt _ _ _ _ _ _).
  assert (I0 : inv 0 st0 []).
  { split; cbn; auto.
    - exists (snames s). split; auto. lia.
    - exists (repeat 0 (length es)). rewrite repeat_length. split; auto. lia.
    - exists (repeat 0%Z (length (sids s))). rewrite repeat_length. auto.
    - exists (repeat [] (length es)). rewrite repeat_length. split; auto. lia. }
  assert (L : forall n i st pl, i + n = length es -> inv i st pl ->
     exists st' pl', for_ n i (sort_step stdsort s srt) st = Ret st' /\ inv (i + n) st' pl').
  { induction n as [|n IH]; intros i st pl Hin I; cbn [for_].
    - exists st, pl. rewrite Nat.add_0_r. auto.
    - destruct (step_inv i st pl) as (st' & e' & -> & I'); [lia|auto|]. cbn [bind].
      destruct (IH (S i) st' (pl ++ [e'])) as (st2 & pl2 & E2 & I2); [lia|auto|].
      exists st2, pl2. rewrite Nat.add_succ_r. auto. }
  destruct (L (length es) 0 st0 [] eq_refl I0) as (st & pl & -> & I). cbn [bind].
  cbn [Nat.add] in I.
  assert (Lpl : length pl = length es).
  { rewrite <- (Forall2_length _ _ _ (i_proc _ _ _ I)), firstn_length, srt_len. lia. }
  destruct (i_names _ _ _ I) as (rn & En & Ln). destruct (i_offs _ _ _ I) as (ro & Eo & Lo).
  destruct (i_ids _ _ _ I) as (ri & Ei & Li). destruct (i_data _ _ _ I) as (rdt & Ed & Ld).
  rewrite Nat.sub_diag in *. destruct rn; [|discriminate]. destruct ro; [|discriminate]. destruct rdt; [|discriminate].
  pose proof (i_proc _ _ _ I) as Hp. rewrite firstn_all2 in Hp by (rewrite srt_len; lia).
  assert (ri = []).
  { rewrite Ei, app_length, <- lens_concat, (proc_lens (length es)) in Li by apply I.
    rewrite firstn_all2 in Li by (rewrite srt_len; lia). rewrite total_len in Li.
    destruct ri; auto. cbn in Li. lia. }
  subst ri. rewrite app_nil_r in *.
  exists (mkSoup (verts s) (etypes s) (eoffs s) (econn s) (st_names st) (st_offs st) (st_ids st) (st_data st)), pl.
  split; [reflexivity|]. split; [|split].
  - destruct Hs as (Hv & Ht & Hof & Hcn & _). unfold stores. cbn. rewrite Eo, Ei, Ed.
    repeat (split; auto). unfold offsets_of. destruct pl as [|e0 pl]; [destruct es; [contradiction|discriminate]|].
    reflexivity.
  - unfold names_sorted. replace (map es_name pl) with (map fst srt); [apply srt_names|].
    clear - Hp. induction Hp as [|ni e' l m (e & (_ & Hn) & (Hn' & _))]; cbn; auto. congruence.
  - assert (G : exists m, Forall2 orig srt m /\ Forall2 same_sorted m pl).
    { clear - Hp. induction Hp as [|ni e' l m (e & H1 & H2) H (m' & I1 & I2)].
      - exists []. auto.
      - exists (e :: m'). auto. }
    destruct G as (m & G1 & G2). exists m. split; auto.
    assert (Em : map Some m = map (fun k => nth_error es k) (map snd srt)).
    { clear - G1. induction G1 as [|ni e l m (H1 & H2)]; cbn; auto. f_equal; auto. }
    assert (Pm : Permutation (map Some es) (map Some m)).
    { rewrite Em. eapply perm_trans; [|apply Permutation_map, Permutation_map, srt_perm].
      rewrite prs_snd, Hl. clear.
      assert (G : forall (l pre : list (elset F)), map (nth_error (pre ++ l)) (seq (length pre) (length l)) = map Some l).
      { induction l as [|x l IH]; intros pre; cbn; auto. f_equal.
        - now rewrite nth_error_app2, Nat.sub_diag by lia.
        - specialize (IH (pre ++ [x])). rewrite app_length, <- app_assoc in IH. cbn in IH.
          rewrite Nat.add_1_r in IH. exact IH. }
      pose proof (G es []) as E. cbn in E. change (fun k : nat => nth_error es k) with (nth_error es). rewrite E. apply Permutation_refl. }
    apply Permutation_map_inv in Pm as (m' & Em' & Pm').
    assert (Inj : forall x y : list (elset F), map Some x = map Some y -> x = y).
    { clear. induction x as [|u x IH]; intros [|v y] E; cbn in E; try discriminate; auto.
      injection E as -> E. f_equal. auto. }
    apply Inj in Em'. subst m'. now apply Permutation_sym.
Qed.
End Sort.

Lemma sortElsets_empty {P F} stdsort (s : soup P F) a : stores s a -> a_elsets a = [] -> sortElsets stdsort s = Ub.
Proof.
  intros (_ & _ & _ & _ & Hn & Ho & _) E. rewrite E in *. unfold sortElsets. rewrite Hn, Ho. reflexivity.
Qed.
