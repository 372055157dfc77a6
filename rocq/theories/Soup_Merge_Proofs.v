From Coq Require Import List Arith ZArith Lia Bool Permutation Sorting.Sorted.
From Verif Require Import Base Loops Sort_Model Sort_Spec Sort_Proofs StringView_Model StringView_Spec StringView_Proofs
  Elem_Model Soup_Model Soup_Spec Soup_Proofs Soup_Sort_Proofs.
Import ListNotations.

(** ** loops *)
Lemma for_fold {S A} (f : nat -> S -> outcome S) (g : S -> A -> S) (l : list A) s :
  (forall j x st, nth_error l j = Some x -> f j st = Ret (g st x)) ->
  for_ (length l) 0 f s = Ret (fold_left g l s).
Proof.
  intros H. assert (G : forall suf pre st, l = pre ++ suf -> for_ (length suf) (length pre) f st = Ret (fold_left g suf st)).
  { induction suf as [|x suf IH]; intros pre st E; cbn [for_ length fold_left]; auto.
    rewrite (H (length pre) x) by (rewrite E; apply nth_error_mid). cbn [bind].
    specialize (IH (pre ++ [x]) (g st x)). rewrite app_length, <- app_assoc in IH. cbn in IH.
    rewrite Nat.add_1_r in IH. auto. }
  apply (G l [] s eq_refl).
Qed.

Lemma perm_in {A} (l m : list A) : Permutation l m -> forall x, In x l <-> In x m.
Proof. intros H x. split; apply Permutation_in; auto. now apply Permutation_sym. Qed.

(** ** offsets *)
Lemma sums_app_gen l m : forall f, sums f (l ++ m) = firstn (length l) (sums f l) ++ sums (f + list_sum l) m.
Proof.
  induction l as [|x l IH]; intros f; cbn.
  - now rewrite Nat.add_0_r.
  - f_equal. rewrite IH. f_equal. f_equal. unfold list_sum. lia.
Qed.
Lemma sums_shift l k : forall f, map (fun o => o + k) (sums f l) = sums (f + k) l.
Proof.
  induction l as [|x l IH]; intros f; cbn; auto. f_equal. rewrite IH. f_equal. lia.
Qed.
Lemma last_sums l : forall f d, last (sums f l) d = f + list_sum l.
Proof.
  induction l as [|x l IH]; intros f d; [cbn; lia|].
  change (last (sums f (x :: l)) d) with (last (f :: sums (f + x) l) d).
  specialize (IH (f + x) d). cbn [list_sum fold_right]. change (fold_right Init.Nat.add 0 l) with (list_sum l).
  destruct (sums (f + x) l) eqn:E; [destruct l; discriminate|].
  change (last (f :: n :: l0) d) with (last (n :: l0) d). rewrite IH. cbn. unfold list_sum. lia.
Qed.

Section Merge.
Context {P F : Type}.
Variable stdsort : forall A : Type, (A -> A -> bool) -> list A -> list A.
Hypothesis Hsort : sort_contract stdsort.
Variables (s t : soup P F) (a b : asoup P F).
Hypothesis Hs : stores s a.
Hypothesis Ht : stores t b.
Hypothesis Hca : NoDup (map es_name (a_elsets a)).
Hypothesis Hcb : NoDup (map es_name (a_elsets b)).

Definition elens (x : asoup P F) := map (fun e => length (snd e)) (a_elems x).
Lemma append_offsets : a_elems b <> [] ->
  for_ (length (etypes t) + 1) 0 (fun i offs =>
      let* o := rd (eoffs t) i in wr offs (length (etypes s) + i) (o + match eoffs s with [] => 0 | o => last o 0 end))
    (resized (eoffs s) (length (etypes s) + length (etypes t) + 1) 0) = Ret (offsets_of (elens a ++ elens b)).
Proof.
  intros Hne. pose proof Hs as (_ & Hst & Hso & _). pose proof Ht as (_ & Htt & Hto & _).
  assert (E1 : length (etypes s) = length (elens a)) by (rewrite Hst; unfold elens; now rewrite !map_length).
  assert (E2 : length (etypes t) = length (elens b)) by (rewrite Htt; unfold elens; now rewrite !map_length).
  assert (Hlast : match eoffs s with [] => 0 | o => last o 0 end = list_sum (elens a)).
  { rewrite Hso. fold (elens a). unfold offsets_of. destruct (elens a) as [|x l] eqn:E; [reflexivity|].
    pose proof (last_sums (x :: l) 0 0) as H. destruct (sums 0 (x :: l)) eqn:E'; [discriminate|]. exact H. }
  rewrite Hlast. fold (elens b) in Hto.
  assert (Hto' : eoffs t = sums 0 (elens b)).
  { rewrite Hto. unfold offsets_of. destruct (elens b) eqn:E; auto. unfold elens in E. destruct (a_elems b); [contradiction|discriminate]. }
  rewrite Hto', E1, E2.
  set (X := firstn (length (elens a)) (eoffs s)).
  assert (LX : length X = length (elens a)).
  { unfold X. rewrite firstn_length. rewrite Hso. fold (elens a). unfold offsets_of.
    destruct (elens a); [reflexivity|]. rewrite sums_length. cbn. lia. }
  assert (HR : exists R, resized (eoffs s) (length (elens a) + length (elens b) + 1) 0 = X ++ R /\ length R = S (length (elens b))).
  { assert (Ef : firstn (length (elens a) + length (elens b) + 1) (eoffs s)
       = X ++ firstn (length (elens a) + length (elens b) + 1 - length X) (skipn (length (elens a)) (eoffs s))).
    { rewrite <- (firstn_skipn (length (elens a)) (eoffs s)) at 1. fold X.
      rewrite firstn_app, firstn_all2 by lia. reflexivity. }
    unfold resized. rewrite Ef, <- app_assoc. eexists. split; [reflexivity|].
    rewrite app_length, firstn_length, repeat_length, LX, skipn_length. 
    assert (length (elens a) <= length (eoffs s)).
    { rewrite <- LX. unfold X. rewrite firstn_length. lia. }
    lia. }
  destruct HR as (R & -> & LR).
  destruct (for_inv (fun i offs => offs = X ++ map (fun o => o + list_sum (elens a)) (firstn i (sums 0 (elens b))) ++ skipn i R)
     (fun i offs => let* o := rd (sums 0 (elens b)) i in wr offs (length (elens a) + i) (o + list_sum (elens a)))
     (length (elens b) + 1) 0 (X ++ R)) as (offs & E & I).
  - reflexivity.
  - intros j st Hj ->. cbn in Hj.
    destruct (nth_error (sums 0 (elens b)) j) as [o|] eqn:Eo.
    2:{ apply nth_error_None in Eo. rewrite sums_length in Eo. lia. }
    unfold rd. rewrite Eo. cbn [bind].
    destruct (nth_error R j) as [r|] eqn:Er; [|apply nth_error_None in Er; lia].
    rewrite app_assoc. rewrite (wr_mid' _ _ (o + list_sum (elens a))).
    + eexists. split; [reflexivity|]. rewrite (firstn_S _ _ _ Eo), map_app. cbn [map].
      rewrite <- !app_assoc. do 3 f_equal. clear - Er. revert j Er. induction R as [|y R IH]; intros [|j] E; cbn in *; auto; try discriminate.
    + rewrite app_length, map_length, LX. f_equal. rewrite firstn_length, sums_length. lia.
    + intros H. apply (f_equal (@length nat)) in H. rewrite skipn_length in H. cbn in H. lia.
  - rewrite E. f_equal. rewrite I. cbn [Nat.add]. rewrite firstn_all2 by (rewrite sums_length; lia).
    rewrite skipn_all2 by lia. rewrite app_nil_r, sums_shift. cbn [Nat.add].
    unfold X. rewrite Hso. fold (elens a). unfold offsets_of. destruct (elens a) as [|x l] eqn:Ea.
    + cbn. destruct (elens b) eqn:Eb; auto. unfold elens in Eb. destruct (a_elems b); [contradiction|discriminate].
    + change ((x :: l) ++ elens b) with (x :: (l ++ elens b)). change (sums 0 (x :: l ++ elens b)) with (sums 0 ((x :: l) ++ elens b)).
      now rewrite sums_app_gen.
Qed.

(** ** the elsets *)
Definition of_name (l : list (elset F)) (n : list Z) := filter (fun e => name_eqb (es_name e) n) l.
Definition ids_of l n := concat (map es_ids (of_name l n)).
Definition data_of l n := concat (map es_data (of_name l n)).
Lemma of_name_none l n : ~ In n (map es_name l) -> of_name l n = [].
Proof.
  induction l as [|e l IH]; cbn; auto. intros H. destruct (name_eqb_spec (es_name e) n) as [E|E]; [exfalso; auto|]. auto.
Qed.
Lemma of_name_some l e : NoDup (map es_name l) -> In e l -> of_name l (es_name e) = [e].
Proof.
  induction l as [|x l IH]; cbn; [tauto|]. intros Hd [->|H]; inversion Hd; subst.
  - destruct (name_eqb_spec (es_name e) (es_name e)); [|congruence]. f_equal. now apply of_name_none.
  - destruct (name_eqb_spec (es_name x) (es_name e)) as [E|]; auto. exfalso. apply H2. rewrite E. now apply in_map.
Qed.

Definition put (shift : Z) (assign : bool) (n : list Z) (st : nat * list Z * list F) (e : elset F) :=
  let '(num, ids, data) := st in
  if name_eqb (es_name e) n then
    (num + length (es_ids e), ids ++ map (fun id => id + shift)%Z (es_ids e),
     match es_data e with [] => data | _ => if assign then es_data e else data ++ es_data e end)
  else st.
Lemma collect_fold (u : soup P F) x shift assign n st : stores u x ->
  for_ (length (snames u)) 0 (collect u shift assign n) st = Ret (fold_left (put shift assign n) (a_elsets x) st).
Proof.
  intros (_ & _ & _ & _ & Hn & Ho & Hi & Hd). rewrite Hn, map_length. apply for_fold.
  intros j e ((num & ids) & data) E. unfold collect, put. rewrite Hn.
  unfold rd at 1. rewrite nth_error_map, E. cbn [option_map bind].
  destruct (name_eqb (es_name e) n); auto.
  destruct (seg_ok (map es_ids (a_elsets x)) j (es_ids e)) as (Ea & Eb & Er).
  { now rewrite nth_error_map, E. }
  rewrite Ho, Hi, map_ids_length, Ea, Eb. cbn [bind]. rewrite Er. cbn [bind].
  rewrite Hd. unfold rd. rewrite nth_error_map, E. cbn [option_map bind].
  rewrite (off_S _ _ (es_ids e)) by (now rewrite nth_error_map, E).
  now replace (off (map es_ids (a_elsets x)) j + length (es_ids e) - off (map es_ids (a_elsets x)) j) with (length (es_ids e)) by lia.
Qed.
Lemma put_false shift n l : forall num ids data,
  fold_left (put shift false n) l (num, ids, data) =
  (num + length (ids_of l n), ids ++ map (fun id => id + shift)%Z (ids_of l n), data ++ data_of l n).
Proof.
  unfold ids_of, data_of, of_name. induction l as [|e l IH]; intros; cbn [fold_left filter].
  - cbn. now rewrite !app_nil_r, Nat.add_0_r.
  - cbn [put]. destruct (name_eqb (es_name e) n); [|apply IH]. rewrite IH. cbn [map concat].
    rewrite app_length, map_app, !app_assoc. f_equal; [f_equal; lia|].
    destruct (es_data e); [now rewrite app_nil_r|auto].
Qed.
Lemma put_none assign shift n l : ~ In n (map es_name l) -> forall st, fold_left (put shift assign n) l st = st.
Proof.
  induction l as [|e l IH]; intros H st; cbn [fold_left]; auto. cbn in H.
  unfold put at 2. destruct st as ((num & ids) & data). destruct (name_eqb_spec (es_name e) n); [exfalso; auto|].
  apply IH. auto.
Qed.
Lemma put_true shift n l : NoDup (map es_name l) -> forall num ids,
  fold_left (put shift true n) l (num, ids, []) =
  (num + length (ids_of l n), ids ++ map (fun id => id + shift)%Z (ids_of l n), data_of l n).
Proof.
  unfold ids_of, data_of. induction l as [|e l IH]; intros Hd num ids; cbn [fold_left of_name filter].
  - cbn. now rewrite app_nil_r, Nat.add_0_r.
  - inversion Hd; subst. cbn [put]. destruct (name_eqb_spec (es_name e) n) as [E|].
    + rewrite put_none by (now rewrite <- E). fold (of_name l n).
      rewrite of_name_none by (now rewrite <- E). cbn [map concat]. rewrite !app_nil_r. f_equal.
      destruct (es_data e); auto.
    + fold (of_name l n). now rewrite IH.
Qed.

Definition mrg (n : list Z) : elset F :=
  mkElset n (ids_of (a_elsets a) n ++ shift_ids (length (a_elems a)) (ids_of (a_elsets b) n))
    (data_of (a_elsets a) n ++ data_of (a_elsets b) n).
Lemma merge_loop names : for_ (length names) 0 (merge_elset s t (Z.of_nat (length (etypes s))) names)
    (0 :: repeat 0 (length names), [], [])
  = Ret (sums 0 (map (fun e => length (es_ids e)) (map mrg names)), concat (map es_ids (map mrg names)), map es_data (map mrg names)).
Proof.
  assert (En : length (etypes s) = length (a_elems a)) by (pose proof Hs as (_ & -> & _); now rewrite map_length).
  destruct (for_inv (fun i st => st = (sums 0 (map (fun e => length (es_ids e)) (map mrg (firstn i names))) ++ repeat 0 (length names - i),
      concat (map es_ids (map mrg (firstn i names))), map es_data (map mrg (firstn i names))))
     (merge_elset s t (Z.of_nat (length (etypes s))) names) (length names) 0 (0 :: repeat 0 (length names), [], [])) as (st & E & I).
  - cbn. now rewrite Nat.sub_0_r.
  - intros j st Hj ->. cbn in Hj. destruct (nth_error names j) as [n|] eqn:Ej; [|apply nth_error_None in Ej; lia].
    unfold merge_elset. unfold rd at 1. rewrite Ej. cbn [bind].
    rewrite (collect_fold s a) by exact Hs. cbn [bind]. rewrite put_true by exact Hca.
    rewrite (collect_fold t b) by exact Ht. cbn [bind]. rewrite put_false.
    set (L := map mrg (firstn j names)).
    assert (LL : length L = j) by (unfold L; rewrite map_length, firstn_length; lia).
    set (sz := map (fun e => length (es_ids e)) L).
    assert (Lsz : length sz = j) by (unfold sz; now rewrite map_length).
    assert (Erd : rd (sums 0 sz ++ repeat 0 (length names - j)) j = Ret (list_sum sz)).
    { unfold rd. rewrite nth_error_app1 by (rewrite sums_length; lia). pose proof (sums_last 0 sz) as Hl. rewrite Lsz in Hl. rewrite Hl. reflexivity. }
    rewrite Erd. cbn [bind].
    replace (length names - j) with (S (length names - S j)) by lia. cbn [repeat].
    rewrite (wr_mid' _ _ (list_sum sz + (0 + length (ids_of (a_elsets a) n) + length (ids_of (a_elsets b) n))) (S j))
      by (rewrite ?sums_length; auto; discriminate).
    cbn [bind tl]. eexists. split; [reflexivity|].
    rewrite (firstn_S _ _ _ Ej), !map_app. cbn [map]. fold L. fold sz.
    assert (Lm : length (es_ids (mrg n)) = length (ids_of (a_elsets a) n) + length (ids_of (a_elsets b) n)).
    { cbn. unfold shift_ids. now rewrite app_length, map_length. }
    rewrite sums_app, concat_app. cbn [Nat.add concat]. rewrite Lm, app_nil_r.
    f_equal. f_equal.
    cbn [mrg es_ids]. unfold shift_ids. rewrite En, <- app_assoc. f_equal. f_equal.
    rewrite <- (map_id (ids_of (a_elsets a) n)) at 2. apply map_ext. intros; lia.
  - rewrite E, I. cbn [Nat.add]. rewrite firstn_all2, Nat.sub_diag by lia. cbn [repeat]. now rewrite app_nil_r.
Qed.

Lemma name_exists_iff l n : name_exists l n = true <-> In n l.
Proof.
  induction l as [|x l IH]; cbn; [split; [discriminate|tauto]|].
  destruct (name_eqb_spec n x) as [->|H]; [tauto|]. rewrite IH. split; auto. intros [E|]; auto. congruence.
Qed.
Lemma fold_names this other : forall acc,
  fold_left (fun acc n => if name_exists this n then acc else acc ++ [n]) other acc
  = acc ++ filter (fun n => negb (name_exists this n)) other.
Proof.
  induction other as [|n l IH]; intros acc; cbn [fold_left filter]; [now rewrite app_nil_r|].
  rewrite IH. destruct (name_exists this n); cbn; auto. now rewrite <- app_assoc.
Qed.
Lemma NoDup_app_intro {A} (l m : list A) : NoDup l -> NoDup m -> (forall x, In x l -> ~ In x m) -> NoDup (l ++ m).
Proof.
  induction l as [|x l IH]; cbn; auto. intros H1 H2 H. inversion H1; subst. constructor.
  - rewrite in_app_iff. intros [?|?]; auto. apply (H x); auto.
  - apply IH; auto.
Qed.
Lemma merged_names_ok this other : NoDup this -> NoDup other ->
  let l := merged_names stdsort this other in
  StronglySorted lexlt l /\ NoDup l /\ forall n, In n l <-> In n this \/ In n other.
Proof.
  intros H1 H2 l. unfold l, merged_names. rewrite fold_names.
  set (m := this ++ filter _ other).
  destruct (Hsort _ name_ltb m (lexlt_swo _)) as (Hp & Hso).
  assert (Hd : NoDup m).
  { unfold m. apply NoDup_app_intro; auto; [now apply NoDup_filter|].
    intros x Hx Hf. apply filter_In in Hf as (_ & Hf). apply name_exists_iff in Hx. rewrite Hx in Hf. discriminate. }
  assert (Hd' : NoDup (stdsort _ name_ltb m)) by (eapply Permutation_NoDup; eauto).
  split; [|split]; auto.
  - apply (sorted_strong name_ltb); auto. intros x y _ _ H.
    destruct (lexlt_total x y) as [|[|h]]; auto. apply name_ltb_iff in h. congruence.
  - intros n. rewrite <- (perm_in _ _ Hp). unfold m. rewrite in_app_iff, filter_In, negb_true_iff.
    split; [tauto|]. intros [|h]; auto. destruct (name_exists this n) eqn:E; auto. apply name_exists_iff in E. auto.
Qed.

Lemma mrg_merged e : In e (map mrg (merged_names stdsort (snames s) (snames t))) <->
  merged (length (a_elems a)) (a_elsets a) (a_elsets b) e.
Proof.
  pose proof Hs as (_ & _ & _ & _ & Hns & _). pose proof Ht as (_ & _ & _ & _ & Hnt & _).
  rewrite Hns, Hnt. destruct (merged_names_ok _ _ Hca Hcb) as (_ & _ & Hin).
  rewrite in_map_iff. split.
  - intros (n & <- & Hn). apply Hin in Hn.
    assert (Dec : forall (l : list (elset F)), In n (map es_name l) \/ ~ In n (map es_name l)).
    { intros l. rewrite <- name_exists_iff. destruct (name_exists _ n); auto. }
    destruct (Dec (a_elsets a)) as [Ha|Ha], (Dec (a_elsets b)) as [Hb|Hb]; [| | |tauto].
    + apply in_map_iff in Ha as (e1 & <- & H1). apply in_map_iff in Hb as (e2 & E & H2).
      unfold mrg, ids_of, data_of. rewrite (of_name_some (a_elsets a)) by auto.
      replace (of_name (a_elsets b) (es_name e1)) with [e2] by (rewrite <- E; symmetry; now apply of_name_some). cbn. rewrite !app_nil_r.
      apply merged_both; auto.
    + apply in_map_iff in Ha as (e1 & <- & H1).
      unfold mrg, ids_of, data_of. rewrite (of_name_some (a_elsets a)), of_name_none by auto. cbn. rewrite !app_nil_r.
      destruct e1. apply merged_first; auto.
    + apply in_map_iff in Hb as (e2 & <- & H2).
      unfold mrg, ids_of, data_of. rewrite (of_name_some (a_elsets b)), of_name_none by auto. cbn. rewrite !app_nil_r.
      apply merged_second; auto.
  - intros H. exists (es_name e). rewrite Hin. destruct H as [e1 e2 H1 H2 E|e1 H1 Hn|e2 H2 Hn]; cbn [es_name].
    + split; [|left; now apply in_map].
      unfold mrg, ids_of, data_of. rewrite (of_name_some (a_elsets a)) by auto.
      replace (of_name (a_elsets b) (es_name e1)) with [e2] by (rewrite E; symmetry; now apply of_name_some). cbn. now rewrite !app_nil_r.
    + split; [|left; now apply in_map].
      unfold mrg, ids_of, data_of. rewrite (of_name_some (a_elsets a)), of_name_none by auto. cbn. rewrite !app_nil_r.
      now destruct e1.
    + split; [|right; now apply in_map].
      unfold mrg, ids_of, data_of. rewrite (of_name_some (a_elsets b)), of_name_none by auto. cbn. now rewrite !app_nil_r.
Qed.

Lemma append_ok : a_elems b <> [] ->
  exists u l, append_soup stdsort s t = Ret u /\
    stores u (mkA (a_verts a ++ a_verts b) (a_elems a ++ shift_elems (length (a_verts a)) (a_elems b)) l) /\
    (a_elsets b = [] -> l = a_elsets a) /\
    (a_elsets b <> [] -> names_sorted l /\
       forall e, In e l <-> merged (length (a_elems a)) (a_elsets a) (a_elsets b) e).
Proof.
  intros Hne. pose proof Hs as (Hv & Hty & _ & Hcn & Hn & Hso & Hsi & Hsd).
  pose proof Ht as (Hv' & Hty' & _ & Hcn' & Hn' & _).
  assert (Hlens : elens a ++ elens b = map (fun e => length (snd e)) (a_elems a ++ shift_elems (length (a_verts a)) (a_elems b))).
  { rewrite map_app. f_equal. unfold elens, shift_elems. rewrite map_map. apply map_ext. intros e. cbn. unfold shift_ids. now rewrite map_length. }
  assert (Hconn : econn s ++ map (fun id => id + Z.of_nat (length (verts s)))%Z (econn t)
     = concat (map snd (a_elems a ++ shift_elems (length (a_verts a)) (a_elems b)))).
  { rewrite map_app, concat_app, Hcn, Hcn', Hv. f_equal. rewrite concat_map. f_equal. unfold shift_elems. rewrite !map_map. reflexivity. }
  assert (Htypes : etypes s ++ etypes t = map fst (a_elems a ++ shift_elems (length (a_verts a)) (a_elems b))).
  { rewrite map_app, Hty, Hty'. f_equal. unfold shift_elems. now rewrite map_map. }
  unfold append_soup. rewrite append_offsets by auto. cbn [bind]. rewrite Hlens, Hconn, Htypes.
  destruct (snames t) as [|n0 ns] eqn:Ent.
  - exists (mkSoup (verts s ++ verts t) (map fst (a_elems a ++ shift_elems (length (a_verts a)) (a_elems b)))
      (offsets_of (map (fun e => length (snd e)) (a_elems a ++ shift_elems (length (a_verts a)) (a_elems b))))
      (concat (map snd (a_elems a ++ shift_elems (length (a_verts a)) (a_elems b)))) (snames s) (soffs s) (sids s) (sdata s)), (a_elsets a).
    split; [reflexivity|]. split; [|split; auto].
    + unfold stores. cbn. rewrite Hv, Hv'. repeat (split; auto).
    + intros H. destruct (a_elsets b); [contradiction|discriminate].
  - set (names := merged_names stdsort (snames s) (n0 :: ns)).
    cbn [repeat]. replace (repeat 0 (length names + 1)) with (0 :: repeat 0 (length names)) by (rewrite Nat.add_1_r; reflexivity).
    change (wr (0 :: repeat 0 (length names)) 0 0) with (Ret (0 :: repeat 0 (length names))). cbn [bind].
    rewrite merge_loop. cbn [bind].
    eexists _, (map mrg names). split; [reflexivity|]. split; [|split].
    + unfold stores. cbn. rewrite Hv, Hv', map_map. cbn. rewrite map_id. repeat (split; auto).
      destruct names eqn:E; auto. exfalso.
      destruct (merged_names_ok (snames s) (n0 :: ns)) as (_ & _ & Hin).
      * rewrite Hn. exact Hca.
      * rewrite Hn'. exact Hcb.
      * fold names in Hin. rewrite E in Hin. apply (Hin n0). right. now left.
    + intros H. rewrite H in Hn'. discriminate.
    + intros _. split.
      * unfold names_sorted. rewrite map_map. cbn. rewrite map_id. unfold names. apply merged_names_ok.
        -- rewrite Hn. exact Hca.
        -- rewrite Hn'. exact Hcb.
      * intros e. unfold names. rewrite <- Ent. apply mrg_merged.
Qed.
End Merge.

Lemma append_empty_ub {P F} stdsort (s t : soup P F) : eoffs t = [] -> append_soup stdsort s t = Ub.
Proof.
  intros E. unfold append_soup. rewrite E, Nat.add_1_r. cbn [for_]. unfold rd. cbn [nth_error bind]. reflexivity.
Qed.

(** ** the result is well formed *)
Section Merged.
Context {P F : Type}.
Variables (a b : asoup P F) (l : list (elset F)).
Hypothesis Hl : names_sorted l.
Hypothesis Hm : forall e, In e l <-> merged (length (a_elems a)) (a_elsets a) (a_elsets b) e.
Let c := mkA (a_verts a ++ a_verts b) (a_elems a ++ shift_elems (length (a_verts a)) (a_elems b)) l.

Lemma strong_nodup l0 : StronglySorted lexlt l0 -> NoDup l0.
Proof.
  induction 1 as [|x l0 H IH Hf]; constructor; auto. intros Hx. rewrite Forall_forall in Hf.
  apply (lexlt_irrefl x). auto.
Qed.
Lemma merged_content : content_ok a -> content_ok b -> data_agree (a_elsets a) (a_elsets b) -> content_ok c.
Proof.
  intros (Ha1 & Ha) (Hb1 & Hb) Hag. split; cbn; [now apply strong_nodup|].
  rewrite Forall_forall in *. intros e He. apply Hm in He. destruct He as [e1 e2 H1 H2 E|e1 H1 Hn|e2 H2 Hn]; auto.
  - destruct (Ha _ H1) as (N1 & D1), (Hb _ H2) as (N2 & D2). specialize (Hag _ _ H1 H2 E). split; cbn.
    + intros H. apply app_eq_nil in H. tauto.
    + rewrite !app_length. unfold shift_ids. rewrite map_length.
      destruct D1 as [D1|D1], D2 as [D2|D2].
      * left. now rewrite D1, D2.
      * left. now rewrite D1, (proj1 Hag D1).
      * left. now rewrite D2, (proj2 Hag D2).
      * right. lia.
  - destruct (Hb _ H2) as (N2 & D2). split; cbn.
    + intros H. apply map_eq_nil in H. auto.
    + unfold shift_ids. now rewrite map_length.
Qed.
Lemma merged_ids : ids_ok a -> ids_ok b -> ids_ok c.
Proof.
  intros (Ha1 & Ha2) (Hb1 & Hb2). split; cbn.
  - intros t0 cn v H Hv. rewrite app_length. apply in_app_iff in H as [H|H].
    + specialize (Ha1 _ _ _ H Hv). lia.
    + unfold shift_elems in H. apply in_map_iff in H as ((t1 & c1) & E & H). cbn in E. injection E as <- <-.
      unfold shift_ids in Hv. apply in_map_iff in Hv as (w & <- & Hw). specialize (Hb1 _ _ _ H Hw). lia.
  - intros e i He Hi. rewrite app_length. unfold shift_elems. rewrite map_length.
    apply Hm in He. unfold shift_ids in *. destruct He as [e1 e2 H1 H2 E|e1 H1 Hn|e2 H2 Hn]; cbn in Hi.
    + apply in_app_iff in Hi as [Hi|Hi].
      * specialize (Ha2 _ _ H1 Hi). lia.
      * apply in_map_iff in Hi as (j & <- & Hj). specialize (Hb2 _ _ H2 Hj). lia.
    + specialize (Ha2 _ _ H1 Hi). lia.
    + apply in_map_iff in Hi as (j & <- & Hj). specialize (Hb2 _ _ H2 Hj). lia.
Qed.
Lemma SS_shift k l0 : StronglySorted Z.lt l0 -> StronglySorted Z.lt (shift_ids k l0).
Proof.
  induction 1 as [|x l0 H IH Hf]; cbn; constructor; auto. rewrite Forall_forall in *.
  intros y Hy. apply in_map_iff in Hy as (z & <- & Hz). specialize (Hf z Hz). lia.
Qed.
Lemma SS_app l0 m0 : StronglySorted Z.lt l0 -> StronglySorted Z.lt m0 ->
  (forall x y, In x l0 -> In y m0 -> (x < y)%Z) -> StronglySorted Z.lt (l0 ++ m0).
Proof.
  induction 1 as [|x l0 H IH Hf]; cbn; auto. intros Hm0 Hlt. constructor.
  - apply IH; auto.
  - apply Forall_app. split; auto. apply Forall_forall. intros y Hy. apply Hlt; auto.
Qed.
Lemma merged_ascending : ids_ok a -> ids_ok b -> ascending (a_elsets a) -> ascending (a_elsets b) -> ascending l.
Proof.
  intros (_ & Ha2) (_ & Hb2) Ha Hb. unfold ascending in *. rewrite Forall_forall in *.
  intros e He. apply Hm in He. destruct He as [e1 e2 H1 H2 E|e1 H1 Hn|e2 H2 Hn]; cbn; auto.
  - apply SS_app; auto; [now apply SS_shift; auto|]. intros x y Hx Hy. unfold shift_ids in Hy.
    apply in_map_iff in Hy as (j & <- & Hj). specialize (Ha2 _ _ H1 Hx). specialize (Hb2 _ _ H2 Hj). lia.
  - apply SS_shift. auto.
Qed.
End Merged.
