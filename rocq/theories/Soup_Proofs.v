From Coq Require Import List Arith ZArith Lia Bool Permutation Sorting.Sorted.
From Verif Require Import Base Loops Sort_Model Sort_Spec StringView_Model StringView_Spec StringView_Proofs
  Elem_Model Soup_Model Soup_Spec.
Import ListNotations.

(** ** names *)
Lemma name_eqb_iff a b : name_eqb a b = true <-> a = b.
Proof. unfold name_eqb. destruct (str_operators_ok a b) as ((r & E & H) & _). now rewrite E. Qed.
Lemma name_ltb_iff a b : name_ltb a b = true <-> lexlt a b.
Proof. unfold name_ltb. destruct (str_operators_ok a b) as (_ & _ & (r & E & H) & _). now rewrite E. Qed.
Lemma name_eqb_spec a b : reflect (a = b) (name_eqb a b).
Proof. apply iff_reflect. symmetry. apply name_eqb_iff. Qed.
Lemma name_ltb_spec a b : reflect (lexlt a b) (name_ltb a b).
Proof. apply iff_reflect. symmetry. apply name_ltb_iff. Qed.
Lemma find_name_none l n i : find_name l n i = None <-> ~ In n l.
Proof.
  revert i. induction l as [|x l IH]; intros i; cbn.
  - split; auto.
  - destruct (name_eqb_spec x n) as [->|Hn].
    + split; [discriminate|]. intros H. exfalso. auto.
    + rewrite IH. split; [intros H [?|?]; auto|intros H ?; auto].
Qed.
Lemma find_name_some l n : forall i k, find_name l n i = Some k ->
  i <= k /\ nth_error l (k - i) = Some n /\ forall j, i <= j < k -> nth_error l (j - i) <> Some n.
Proof.
  induction l as [|x l IH]; intros i k; cbn; [discriminate|].
  destruct (name_eqb_spec x n) as [->|Hn].
  - intros [= <-]. rewrite Nat.sub_diag. repeat split; auto. lia.
  - intros E. apply IH in E as (Hi & He & Hf). split; [lia|]. split.
    + replace (k - i) with (S (k - S i)) by lia. exact He.
    + intros j Hj. destruct (Nat.eq_dec j i) as [->|Hji].
      * rewrite Nat.sub_diag. cbn. congruence.
      * replace (j - i) with (S (j - S i)) by lia. apply Hf. lia.
Qed.
Lemma find_name_in l n : forall i k, NoDup l -> nth_error l k = Some n -> find_name l n i = Some (i + k).
Proof.
  induction l as [|x l IH]; intros i k Hd; [destruct k; discriminate|].
  inversion Hd as [|? ? Hx Hd']; subst. destruct k as [|k]; cbn.
  - intros [= ->]. destruct (name_eqb_spec n n); [|contradiction]. f_equal. lia.
  - intros E. destruct (name_eqb_spec x n) as [->|Hn].
    + exfalso. apply Hx. eapply nth_error_In; eauto.
    + rewrite (IH (S i) k); auto. f_equal. lia.
Qed.

(** ** offsets of a list of lists *)
Section Segs.
Context {A : Type}.
Implicit Types ll : list (list A).
Definition off ll (i : nat) : nat := length (concat (firstn i ll)).
Lemma off_0 ll : off ll 0 = 0. Proof. reflexivity. Qed.
Lemma off_S ll i x : nth_error ll i = Some x -> off ll (S i) = off ll i + length x.
Proof.
  unfold off. revert i. induction ll as [|y ll IH]; intros [|i]; cbn; try discriminate.
  - intros [= ->]. rewrite app_nil_r. reflexivity.
  - intros E. rewrite !app_length. cbn in IH. rewrite (IH i E). lia.
Qed.
Lemma off_all ll i : length ll <= i -> off ll i = length (concat ll).
Proof. intros H. unfold off. now rewrite firstn_all2. Qed.
Lemma off_app ll ll' i : i <= length ll -> off (ll ++ ll') i = off ll i.
Proof.
  intros H. unfold off. rewrite firstn_app. replace (i - length ll) with 0 by lia.
  cbn. now rewrite app_nil_r.
Qed.
Lemma nth_sums ll : forall f i, i <= length ll -> nth_error (sums f (map (@length A) ll)) i = Some (f + off ll i).
Proof.
  unfold off. induction ll as [|x ll IH]; intros f [|i] H; cbn in *; try lia.
  - f_equal. lia.
  - f_equal. lia.
  - rewrite IH by lia. f_equal. rewrite app_length. lia.
Qed.
Lemma sums_length f l : length (sums f l) = S (length l).
Proof. revert f. induction l; intros f; cbn; auto. Qed.
Lemma nth_offsets ll i : ll <> [] -> i <= length ll ->
  nth_error (offsets_of (map (@length A) ll)) i = Some (off ll i).
Proof.
  intros Hn Hi. destruct ll as [|x ll]; [contradiction|]. unfold offsets_of. cbn [map].
  change (length x :: map (@length A) ll) with (map (@length A) (x :: ll)). rewrite nth_sums; auto.
Qed.
Lemma rd_offsets ll i : ll <> [] -> i <= length ll ->
  rd (offsets_of (map (@length A) ll)) i = Ret (off ll i).
Proof. intros. unfold rd. now rewrite nth_offsets. Qed.
Lemma range_concat ll i x : nth_error ll i = Some x ->
  range (concat ll) (off ll i) (off ll (S i)) = Ret x.
Proof.
  intros E. destruct (nth_error_split _ _ E) as (l1 & l2 & -> & Hl).
  rewrite (off_S _ _ x) by exact E.
  assert (O : off (l1 ++ x :: l2) i = length (concat l1)).
  { rewrite off_app by lia. apply off_all. lia. }
  rewrite O. unfold range. rewrite concat_app. cbn [concat]. rewrite !app_length.
  rewrite (proj2 (Nat.leb_le _ _)) by lia. rewrite (proj2 (Nat.leb_le _ _)) by lia. cbn.
  rewrite skipn_app, Nat.sub_diag, skipn_all2 by lia. cbn.
  replace (length (concat l1) + length x - length (concat l1)) with (length x) by lia.
  rewrite firstn_app, Nat.sub_diag, firstn_all. cbn. now rewrite app_nil_r.
Qed.
Lemma seg_ok ll i x : nth_error ll i = Some x ->
  rd (offsets_of (map (@length A) ll)) i = Ret (off ll i) /\
  rd (offsets_of (map (@length A) ll)) (S i) = Ret (off ll (S i)) /\
  range (concat ll) (off ll i) (off ll (S i)) = Ret x.
Proof.
  intros E. assert (Hi : i < length ll) by (apply nth_error_Some; congruence).
  assert (Hn : ll <> []) by (intros ->; cbn in Hi; lia).
  repeat split; try (apply rd_offsets; auto; lia). now apply range_concat.
Qed.
End Segs.

Lemma sums_app f l m : sums f (l ++ [m]) = sums f l ++ [f + list_sum l + m].
Proof.
  revert f. induction l as [|x l IH]; intros f; cbn.
  - f_equal. f_equal. lia.
  - rewrite IH. change (fold_right Init.Nat.add 0 l) with (list_sum l).
    replace (f + x + list_sum l + m) with (f + (x + list_sum l) + m) by lia. reflexivity.
Qed.
Lemma sums_last f l : nth_error (sums f l) (length l) = Some (f + list_sum l).
Proof.
  revert f. induction l as [|x l IH]; intros f; cbn; [f_equal; lia|]. rewrite IH.
  change (fold_right Init.Nat.add 0 l) with (list_sum l). f_equal. lia.
Qed.
Lemma push_offset_ok l n : push_offset (offsets_of l) n = Ret (offsets_of (l ++ [n])).
Proof.
  destruct l as [|x l].
  - cbn. reflexivity.
  - unfold push_offset. replace (match offsets_of (x :: l) with [] => [0] | _ => offsets_of (x :: l) end)
      with (offsets_of (x :: l)) by reflexivity.
    change (offsets_of (x :: l)) with (sums 0 (x :: l)). rewrite sums_length.
    replace (S (length (x :: l)) - 1) with (length (x :: l)) by lia.
    unfold rd. rewrite sums_last. cbn [bind].
    change (offsets_of ((x :: l) ++ [n])) with (sums 0 ((x :: l) ++ [n])).
    rewrite sums_app. reflexivity.
Qed.
Lemma offs_push l n : (match offsets_of l with [] => [0] | o => o end) ++ [list_sum l + n] = offsets_of (l ++ [n]).
Proof.
  destruct l as [|x l]; [reflexivity|].
  change (offsets_of ((x :: l) ++ [n])) with (sums 0 ((x :: l) ++ [n])). rewrite sums_app. reflexivity.
Qed.
Lemma length_concat {A} (ll : list (list A)) : length (concat ll) = list_sum (map (@length A) ll).
Proof. induction ll as [|x ll IH]; cbn; auto. rewrite app_length, IH. reflexivity. Qed.

Section Soup.
Context {P F : Type}.
Implicit Types (s : soup P F) (a : asoup P F).

(** ** getters *)
Lemma getVertex_ok s a i p : stores s a -> nth_error (a_verts a) i = Some p -> getVertex s i = Ret p.
Proof. intros (Hv & _) E. unfold getVertex, rd. now rewrite Hv, E. Qed.
Lemma map_snd_length (l : list (vtk * list Z)) :
  map (fun e => length (snd e)) l = map (@length Z) (map snd l).
Proof. now rewrite map_map. Qed.
Lemma map_ids_length (l : list (elset F)) :
  map (fun e => length (es_ids e)) l = map (@length Z) (map es_ids l).
Proof. now rewrite map_map. Qed.
Lemma getElement_ok s a i t c : stores s a -> nth_error (a_elems a) i = Some (t, c) ->
  getElement s i = Ret (t, c).
Proof.
  intros (_ & Ht & Ho & Hc & _) E. unfold getElement. rewrite Ht, Ho, Hc, map_snd_length.
  unfold rd at 1. rewrite nth_error_map, E. cbn [option_map bind fst].
  destruct (seg_ok (map snd (a_elems a)) i c) as (E1 & E2 & E3).
  { rewrite nth_error_map, E. reflexivity. }
  rewrite E1, E2. cbn [bind]. rewrite E3. reflexivity.
Qed.
Lemma getElset_ok s a i e d : stores s a -> nth_error (a_elsets a) i = Some e ->
  getElset s i d = Ret (es_name e, es_ids e, match es_data e with [] => d | _ => es_data e end).
Proof.
  intros (_ & _ & _ & _ & Hn & Ho & Hi & Hd) E. unfold getElset. rewrite Hn, Ho, Hi, Hd, map_ids_length.
  unfold rd at 1. rewrite nth_error_map, E. cbn [option_map bind].
  destruct (seg_ok (map es_ids (a_elsets a)) i (es_ids e)) as (E1 & E2 & E3).
  { rewrite nth_error_map, E. reflexivity. }
  rewrite E1, E2. cbn [bind]. rewrite E3. cbn [bind]. unfold rd. rewrite nth_error_map, E. reflexivity.
Qed.
Lemma getElsetByName_ok s a e d : stores s a -> content_ok a -> In e (a_elsets a) ->
  getElsetByName s (es_name e) d = Ret (Some (es_ids e, match es_data e with [] => d | _ => es_data e end)).
Proof.
  intros Hs (Hd & _) He. apply In_nth_error in He as (i & Hi). unfold getElsetByName.
  assert (Hn : snames s = map es_name (a_elsets a)) by apply Hs. rewrite Hn.
  rewrite (find_name_in _ _ 0 i); auto.
  - cbn [Nat.add]. rewrite (getElset_ok s a i e d) by auto. reflexivity.
  - now rewrite nth_error_map, Hi.
Qed.
Lemma getElsetByName_none s a n d : stores s a -> ~ In n (map es_name (a_elsets a)) ->
  getElsetByName s n d = Ret None.
Proof.
  intros Hs Hn. unfold getElsetByName. replace (snames s) with (map es_name (a_elsets a)) by (symmetry; apply Hs).
  rewrite (proj2 (find_name_none _ _ _) Hn). reflexivity.
Qed.
Lemma counts_ok s a : stores s a -> length (verts s) = length (a_verts a) /\
  length (etypes s) = length (a_elems a) /\ length (snames s) = length (a_elsets a).
Proof.
  intros (Hv & Ht & _ & _ & Hn & _). rewrite Hv, Ht, Hn, !map_length. auto.
Qed.

(** ** one step *)
Lemma addVertex_ok s a p : stores s a ->
  stores (fst (addVertex s p)) (mkA (a_verts a ++ [p]) (a_elems a) (a_elsets a)) /\
  snd (addVertex s p) = Z.of_nat (length (a_verts a)).
Proof.
  intros Hs. pose proof Hs as (Hv & H). split.
  - unfold stores, addVertex. cbn. rewrite Hv. split; auto.
  - cbn. rewrite app_length, Hv. cbn. lia.
Qed.
Lemma addElement_ok s a t c : stores s a ->
  exists s', addElement s t c = Ret (s', Z.of_nat (length (a_elems a))) /\
    stores s' (mkA (a_verts a) (a_elems a ++ [(t, c)]) (a_elsets a)).
Proof.
  intros (Hv & Ht & Ho & Hc & H). unfold addElement. rewrite Ho, push_offset_ok. cbn [bind].
  eexists. split.
  - rewrite Ht. rewrite app_length, map_length. cbn [length]. f_equal. f_equal. lia.
  - unfold stores. cbn. rewrite !map_app, concat_app, Hc. cbn. rewrite app_nil_r. repeat (split; auto).
Qed.
Lemma acceptable_dec a n (ids : list Z) (d : list F) :
  acceptable a (mkElset n ids d) \/ ~ acceptable a (mkElset n ids d).
Proof.
  unfold acceptable. cbn.
  destruct (in_dec (list_eq_dec Z.eq_dec) n (map es_name (a_elsets a))); [right; tauto|].
  destruct ids as [|i ids]; [right; tauto|].
  destruct d as [|x d]; [left; repeat split; auto; discriminate|].
  destruct (Nat.eq_dec (length (x :: d)) (length (i :: ids))) as [e|e].
  - left. repeat split; auto; discriminate.
  - right. intros (_ & _ & [?|?]); [discriminate|auto].
Qed.
Lemma addElset_accept s a n ids d : stores s a -> acceptable a (mkElset n ids d) ->
  exists s', addElset s n ids d = (s', Z.of_nat (length (a_elsets a)), false) /\
    stores s' (mkA (a_verts a) (a_elems a) (a_elsets a ++ [mkElset n ids d])).
Proof.
  intros (Hv & Ht & Ho & Hc & Hn & Hso & Hi & Hd) (Ha & Hne & Hl). cbn in Ha, Hne, Hl.
  unfold addElset. rewrite Hn, (proj2 (find_name_none _ _ _)) by auto.
  destruct (Nat.eqb_spec (length ids) 0) as [E|_]; [destruct ids; [contradiction|discriminate]|].
  assert (negb (length d =? 0) && negb (length d =? length ids) = false) as ->.
  { destruct Hl as [-> | ->]; [reflexivity|]. rewrite Nat.eqb_refl. cbn. apply andb_false_r. }
  eexists. split.
  - rewrite app_length, map_length. cbn [length]. f_equal. f_equal. lia.
  - unfold stores. cbn. rewrite !map_app, concat_app, Hso, Hi, Hd. cbn. rewrite app_nil_r.
    repeat (split; auto). rewrite length_concat, <- map_ids_length. apply offs_push.
Qed.
Lemma addElset_reject s a n ids d : stores s a -> ~ acceptable a (mkElset n ids d) ->
  addElset s n ids d = (s, (-1)%Z, true).
Proof.
  intros Hs Hna. unfold addElset. replace (snames s) with (map es_name (a_elsets a)) by (symmetry; apply Hs).
  destruct (find_name _ n 0) eqn:E; auto. apply find_name_none in E.
  destruct (Nat.eqb_spec (length ids) 0) as [El|El]; auto.
  destruct (Nat.eqb_spec (length d) 0) as [Ed|Ed]; cbn.
  - exfalso. apply Hna. repeat split; auto; cbn.
    + intros ->. now apply El.
    + left. now destruct d.
  - destruct (Nat.eqb_spec (length d) (length ids)) as [Ee|Ee]; cbn; auto.
    exfalso. apply Hna. repeat split; auto; cbn. intros ->. now apply El.
Qed.

Lemma step_ok padd s a o : stores s a ->
  exists s' a', step padd s o = Ret s' /\ astep padd a o a' /\ stores s' a'.
Proof.
  intros Hs. destruct o as [p|t c|n ids d|v|]; cbn [step].
  - eexists _, _. split; [reflexivity|]. split; [constructor|]. now apply addVertex_ok.
  - destruct (addElement_ok s a t c Hs) as (s' & -> & H). cbn. eexists _, _. split; [reflexivity|].
    split; [constructor|auto].
  - destruct (acceptable_dec a n ids d) as [Ha|Ha].
    + destruct (addElset_accept s a n ids d Hs Ha) as (s' & -> & H). cbn.
      eexists _, _. split; [reflexivity|]. split; [constructor; auto|auto].
    + rewrite (addElset_reject s a n ids d Hs Ha). cbn. exists s, a. split; [reflexivity|].
      split; [now apply astep_rejected|auto].
  - eexists _, _. split; [reflexivity|]. split; [constructor|].
    destruct Hs as (Hv & H). unfold stores. cbn. rewrite Hv. split; auto.
  - exists s, a. split; [reflexivity|]. split; [constructor|auto].
Qed.
Lemma stores_empty : stores (@empty_soup P F) a_empty.
Proof. repeat split. Qed.
Lemma run_ok padd os : forall s a, stores s a ->
  exists s' a', run padd s os = Ret s' /\ asteps padd a os a' /\ stores s' a'.
Proof.
  induction os as [|o os IH]; intros s a Hs; cbn [run].
  - exists s, a. repeat split; auto; try apply Hs. constructor.
  - destruct (step_ok padd s a o Hs) as (s1 & a1 & -> & H1 & Hs1). cbn [bind].
    destruct (IH s1 a1 Hs1) as (s2 & a2 & -> & H2 & Hs2). exists s2, a2. repeat split; auto; try apply Hs2.
    econstructor; eauto.
Qed.
Lemma astep_det padd a o a1 a2 : astep padd a o a1 -> astep padd a o a2 -> a1 = a2.
Proof. intros H1 H2. inversion H1; subst; inversion H2; subst; auto; contradiction. Qed.
Lemma asteps_det padd a os : forall a1 a2, asteps padd a os a1 -> asteps padd a os a2 -> a1 = a2.
Proof.
  intros a1 a2 H1. revert a2. induction H1; intros a' H2; inversion H2; subst; auto.
  apply IHasteps. now rewrite (astep_det _ _ _ _ _ H H5).
Qed.
Lemma NoDup_snoc {A} (l : list A) x : NoDup l -> ~ In x l -> NoDup (l ++ [x]).
Proof.
  intros H Hx. rewrite <- (rev_involutive l) in *. rewrite <- in_rev in Hx.
  replace (rev (rev l) ++ [x]) with (rev (x :: rev l)) by reflexivity.
  apply NoDup_rev. constructor; auto. apply NoDup_rev in H. now rewrite rev_involutive in H.
Qed.
Lemma astep_content padd a o a' : astep padd a o a' -> content_ok a -> content_ok a'.
Proof.
  intros H (Hd & Hf). destruct H as [| | n ids d (Ha & Hb & Hc) | | |]; try (split; assumption).
  split; cbn.
  - rewrite map_app. cbn. now apply NoDup_snoc.
  - apply Forall_app. split; auto. constructor; auto. split; auto.
Qed.
Lemma asteps_content padd a os a' : asteps padd a os a' -> content_ok a -> content_ok a'.
Proof. induction 1; auto. intros Hc. apply IHasteps. eapply astep_content; eauto. Qed.

(** the i-th things are never disturbed: later steps only extend the lists (translations move points) *)
Lemma asteps_extend padd a os a' : asteps padd a os a' ->
  (exists l, a_elems a' = a_elems a ++ l) /\ (exists l, a_elsets a' = a_elsets a ++ l) /\
  (length (a_verts a) <= length (a_verts a')) /\
  ((forall v, ~ In (Translate v) os) -> exists l, a_verts a' = a_verts a ++ l).
Proof.
  induction 1 as [a|a o a1 os a2 H1 H2 (E1 & E2 & E3 & E4)].
  - repeat split; try (exists []; now rewrite app_nil_r). auto.
  - destruct E1 as (l1 & E1), E2 as (l2 & E2).
    assert (S : (exists l, a_elems a1 = a_elems a ++ l) /\ (exists l, a_elsets a1 = a_elsets a ++ l) /\
      (length (a_verts a) <= length (a_verts a1)) /\
      ((forall v, o <> Translate v) -> exists l, a_verts a1 = a_verts a ++ l)).
    { assert (N : forall A (l : list A), exists l', l = l ++ l') by (intros; exists []; now rewrite app_nil_r).
      inversion H1; subst; cbn; (split; [|split; [|split]]); auto; eauto;
        rewrite ?app_length, ?map_length; try lia.
      intros Hv. exfalso. now apply (Hv v). }
    destruct S as ((k1 & S1) & (k2 & S2) & S3 & S4).
    repeat split.
    + exists (k1 ++ l1). now rewrite E1, S1, app_assoc.
    + exists (k2 ++ l2). now rewrite E2, S2, app_assoc.
    + lia.
    + intros Hv. destruct E4 as (l3 & E4). { intros v Hi. apply (Hv v). now right. }
      destruct S4 as (k3 & S4). { intros v ->. apply (Hv v). now left. }
      exists (k3 ++ l3). now rewrite E4, S4, app_assoc.
Qed.
End Soup.
