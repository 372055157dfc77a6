From Coq Require Import List Arith ZArith Lia Bool Permutation Sorting.Sorted.
From Verif Require Import Base Loops Sort_Model Sort_Spec Sort_Proofs StringView_Model StringView_Spec StringView_Proofs
  Elem_Model Soup_Model Soup_Spec Soup_Proofs Soup_Sort_Proofs Soup_Merge_Proofs.
Import ListNotations.

(** ** the standard algorithms on sorted lists *)
Notation SS := (StronglySorted Z.lt).
Lemma is_sorted_iff l : is_sorted l = true <-> StronglySorted Z.le l.
Proof.
  induction l as [|a [|b l] IH].
  - split; auto. constructor.
  - split; auto. constructor; constructor.
  - change (is_sorted (a :: b :: l)) with (if (b <? a)%Z then false else is_sorted (b :: l)).
    destruct (Z.ltb_spec b a).
    + split; [discriminate|]. intros H'. inversion H' as [|? ? _ Hf]; subst. inversion Hf; subst. lia.
    + rewrite IH. split.
      * intros Hl. constructor; auto. constructor; auto. inversion Hl as [|? ? _ Hf]; subst.
        eapply Forall_impl; [|exact Hf]. intros; cbn in *; lia.
      * intros Hl. now inversion Hl.
Qed.
Lemma SS_le l : SS l -> StronglySorted Z.le l.
Proof. induction 1 as [|a l H IH Hf]; constructor; auto. eapply Forall_impl; [|exact Hf]. intros; cbn in *; lia. Qed.
Lemma unique_in l x : In x (unique l) <-> In x l.
Proof.
  induction l as [|a [|b l] IH]; try tauto.
  change (unique (a :: b :: l)) with (if (a =? b)%Z then unique (b :: l) else a :: unique (b :: l)).
  destruct (Z.eqb_spec a b) as [->|].
  - rewrite IH. cbn. tauto.
  - cbn [In]. rewrite IH. cbn. tauto.
Qed.
Lemma unique_SS l : StronglySorted Z.le l -> SS (unique l).
Proof.
  induction l as [|a [|b l] IH]; intros H.
  - constructor.
  - constructor; constructor.
  - change (unique (a :: b :: l)) with (if (a =? b)%Z then unique (b :: l) else a :: unique (b :: l)).
    inversion H as [|? ? H1 H2]; subst. destruct (Z.eqb_spec a b) as [->|Hab]; auto.
    constructor; auto. apply Forall_forall. intros x Hx. apply (proj1 (unique_in _ _)) in Hx.
    inversion H2 as [|? ? Hb _]; subst. destruct Hx as [<-|Hx]; [lia|].
    inversion H1 as [|? ? _ Hf]; subst. rewrite Forall_forall in Hf. specialize (Hf x Hx). lia.
Qed.
Lemma lower_bound_nth l : SS l -> forall j x, nth_error l j = Some x -> lower_bound l x = j.
Proof.
  induction 1 as [|a l H IH Hf]; intros [|j] x E; cbn in *; try discriminate.
  - injection E as ->. now rewrite Z.ltb_irrefl.
  - rewrite Forall_forall in Hf. assert (a < x)%Z by (apply Hf; eapply nth_error_In; eauto).
    apply Z.ltb_lt in H0. rewrite H0. f_equal. auto.
Qed.
Lemma lower_bound_in l x : SS l -> In x l -> nth_error l (lower_bound l x) = Some x.
Proof. intros H Hx. apply In_nth_error in Hx as (j & Hj). now rewrite (lower_bound_nth l H j x Hj). Qed.
Definition mem (l : list Z) (x : Z) : bool := existsb (Z.eqb x) l.
Lemma mem_iff l x : mem l x = true <-> In x l.
Proof.
  unfold mem. rewrite existsb_exists. split.
  - intros (y & Hy & E). apply Z.eqb_eq in E. now subst.
  - intros H. exists x. split; auto. apply Z.eqb_refl.
Qed.
Lemma mem_false l x : mem l x = false <-> ~ In x l.
Proof. rewrite <- mem_iff. destruct (mem l x); split; congruence. Qed.
Lemma filter_none {A} (f : A -> bool) l : (forall x, In x l -> f x = false) -> filter f l = [].
Proof. induction l as [|a l IH]; cbn; auto. intros H. rewrite H by auto. auto. Qed.
Lemma set_intersection_ok l : SS l -> forall m, SS m -> set_intersection l m = filter (mem l) m.
Proof.
  induction 1 as [|a l H IH Hf].
  - intros m _. cbn. symmetry. apply filter_none. auto.
  - rewrite Forall_forall in Hf. induction m as [|b m IHm]; intros Hm; [reflexivity|].
    inversion Hm as [|? ? Hm1 Hm2]; subst. rewrite Forall_forall in Hm2.
    change (set_intersection (a :: l) (b :: m)) with
      (if (a <? b)%Z then set_intersection l (b :: m) else if (b <? a)%Z then set_intersection (a :: l) m
       else a :: set_intersection l m).
    assert (Drop : forall m', (forall x, In x m' -> (a < x)%Z) -> filter (mem l) m' = filter (mem (a :: l)) m').
    { intros m' Hx. apply filter_ext_in. intros x Hin. specialize (Hx x Hin). cbn.
      destruct (Z.eqb_spec x a); [lia|]. reflexivity. }
    destruct (Z.ltb_spec a b).
    + rewrite IH by auto. apply Drop. intros x [<-|Hx]; auto. specialize (Hm2 x Hx). lia.
    + destruct (Z.ltb_spec b a).
      * rewrite IHm by auto. cbn [filter]. assert (E : mem (a :: l) b = false).
        { apply mem_false. intros [->|Hb]; [lia|]. specialize (Hf b Hb). lia. }
        now rewrite E.
      * assert (b = a) by lia. subst b. cbn [filter]. assert (E : mem (a :: l) a = true) by (apply mem_iff; now left).
        rewrite E. f_equal. rewrite IH by auto. apply Drop. auto.
Qed.
Lemma SS_filter f l : SS l -> SS (filter f l).
Proof.
  induction 1 as [|a l H IH Hf]; cbn; [constructor|]. destruct (f a); auto. constructor; auto.
  rewrite Forall_forall in *. intros x Hx. apply filter_In in Hx as (Hx & _). auto.
Qed.
(** the positions that a filter keeps *)
Lemma filter_positions {A} (f : A -> bool) m : exists idx, StronglySorted lt idx /\
  (forall j x, nth_error m j = Some x -> (In j idx <-> f x = true)) /\
  Forall2 (fun j x => nth_error m j = Some x) idx (filter f m).
Proof.
  induction m as [|a m (idx & H1 & H2 & H3)].
  - exists []. split; [constructor|]. split; [intros [|j] x E; discriminate|constructor].
  - assert (Hs : StronglySorted lt (map S idx)).
    { clear - H1. induction H1 as [|k l H IH Hf]; cbn; constructor; auto. rewrite Forall_forall in *.
      intros x Hx. apply in_map_iff in Hx as (y & <- & Hy). specialize (Hf y Hy). lia. }
    assert (Hi : forall j x, nth_error m j = Some x -> (In (S j) (map S idx) <-> f x = true)).
    { intros j x E. rewrite <- (H2 j x E), in_map_iff. split; [intros (y & [= <-] & Hy); auto|eauto]. }
    assert (Hf : Forall2 (fun j x => nth_error (a :: m) j = Some x) (map S idx) (filter f m)).
    { clear - H3. induction H3; cbn; constructor; auto. }
    destruct (f a) eqn:E.
    + exists (0 :: map S idx). split; [|split].
      * constructor; auto. apply Forall_forall. intros x Hx. apply in_map_iff in Hx as (y & <- & _). lia.
      * intros [|j] x Ex; cbn [nth_error] in Ex.
        -- injection Ex as ->. split; auto. intros _. now left.
        -- rewrite <- (Hi j x Ex). split; [intros [H|H]; [discriminate|auto]|now right].
      * cbn [filter]. rewrite E. constructor; auto.
    + exists (map S idx). split; auto. split.
      * intros [|j] x Ex; cbn [nth_error] in Ex; auto.
        injection Ex as ->. rewrite E. split; [|discriminate]. intros H. apply in_map_iff in H as (y & Hy & _). discriminate.
      * cbn [filter]. now rewrite E.
Qed.

Section Subset.
Context {P F : Type}.
Variable stdsort : forall A : Type, (A -> A -> bool) -> list A -> list A.
Hypothesis Hsort : sort_contract stdsort.
Variables (s : soup P F) (a : asoup P F) (e0 : elset F).
Hypothesis Hs : stores s a.
Hypothesis Hc : content_ok a.
Hypothesis Hi : ids_ok a.
Hypothesis He0 : In e0 (a_elsets a).
Hypothesis Hasc : ascending (a_elsets a).
Notation E := (es_ids e0).

Definition elem (i : Z) : vtk * list Z := nth (Z.to_nat i) (a_elems a) (V_Invalid, []).
Lemma E_SS : SS E.
Proof. unfold ascending in Hasc. rewrite Forall_forall in Hasc. now apply Hasc. Qed.
Lemma E_range i : In i E -> (0 <= i < Z.of_nat (length (a_elems a)))%Z.
Proof. intros H. destruct Hi as (_ & H2). eapply H2; eauto. Qed.
Lemma elem_nth i : (0 <= i < Z.of_nat (length (a_elems a)))%Z -> nth_error (a_elems a) (Z.to_nat i) = Some (elem i).
Proof. intros H. apply nth_error_nth'. lia. Qed.
Lemma elem_conn_ok i : In i E -> elem_conn s i = Ret (snd (elem i)).
Proof.
  intros H. pose proof (E_range i H) as Hr. pose proof (elem_nth i Hr) as En. pose proof Hs as (_ & _ & Ho & Hcn & _).
  unfold elem_conn. destruct (seg_ok (map snd (a_elems a)) (Z.to_nat i) (snd (elem i))) as (Ea & Eb & Er).
  { now rewrite nth_error_map, En. }
  unfold rdz. destruct (Z.ltb_spec i 0), (Z.ltb_spec (i + 1) 0); try lia.
  replace (Z.to_nat (i + 1)) with (S (Z.to_nat i)) by lia.
  rewrite Ho, map_snd_length, Ea, Eb. cbn [bind]. now rewrite Hcn.
Qed.
Definition used := unique (stdsort _ Z.ltb (concat (map (fun i => snd (elem i)) E))).
Lemma used_SS : SS used.
Proof.
  apply unique_SS, sorted_strong_le. apply Hsort, Z_swo.
Qed.
Lemma used_in v : In v used <-> exists i t conn, In i E /\ nth_error (a_elems a) (Z.to_nat i) = Some (t, conn) /\ In v conn.
Proof.
  unfold used. rewrite unique_in. destruct (Hsort _ Z.ltb (concat (map (fun i => snd (elem i)) E)) (Z_swo _)) as (Hp & _).
  rewrite <- (perm_in _ _ Hp v), in_concat. split.
  - intros (c & Hc' & Hv). apply in_map_iff in Hc' as (i & <- & H). exists i, (fst (elem i)), (snd (elem i)).
    rewrite (elem_nth i) by (now apply E_range). destruct (elem i). auto.
  - intros (i & t & c & H & En & Hv). exists c. split; auto. apply in_map_iff. exists i. split; auto.
    rewrite (elem_nth i) in En by (now apply E_range). injection En as ->. reflexivity.
Qed.
Lemma used_range v : In v used -> (0 <= v < Z.of_nat (length (a_verts a)))%Z.
Proof.
  intros H. apply used_in in H as (i & t & c & _ & En & Hv). destruct Hi as (H1 & _). eapply H1; eauto.
  eapply nth_error_In; eauto.
Qed.
Lemma verts_exist : exists vs, Forall2 (fun v p => nth_error (a_verts a) (Z.to_nat v) = Some p) used vs.
Proof.
  assert (H : forall v, In v used -> exists p, nth_error (a_verts a) (Z.to_nat v) = Some p).
  { intros v Hv. apply used_range in Hv. destruct (nth_error (a_verts a) (Z.to_nat v)) eqn:En; eauto.
    apply nth_error_None in En. lia. }
  revert H. induction used as [|v l IH]; intros H; [exists []; constructor|].
  destruct (H v) as (p & Hp); [now left|]. destruct IH as (vs & Hvs); [intros; apply H; now right|].
  exists (p :: vs). constructor; auto.
Qed.
Definition sub_elem (i : Z) : vtk * list Z := (fst (elem i), map (fun v => Z.of_nat (lower_bound used v)) (snd (elem i))).

(** the elset [e] restricted to the subset, if anything of it remains *)
Definition rs (e : elset F) : list (elset F) :=
  if name_eqb (es_name e) (es_name e0) then [] else
  match filter (mem E) (es_ids e) with
  | [] => []
  | inter => [mkElset (es_name e) (map (fun x => Z.of_nat (lower_bound E x)) inter)
       (match es_data e with [] => [] | d0 :: _ => map (fun x => nth (lower_bound (es_ids e) x) (es_data e) d0) inter end)]
  end.
Lemma rs_name e e' : In e' (rs e) -> es_name e' = es_name e.
Proof.
  unfold rs. destruct (name_eqb _ _); [intros []|]. destruct (filter _ _); [intros []|].
  intros [<-|[]]. reflexivity.
Qed.
Lemma rs_names_nodup l : NoDup (map es_name l) -> NoDup (map es_name (flat_map rs l)).
Proof.
  induction l as [|e l IH]; cbn; [constructor|]. intros Hd. inversion Hd as [|? ? Hn Hd']; subst.
  rewrite map_app. assert (Hsub : forall n, In n (map es_name (flat_map rs l)) -> In n (map es_name l)).
  { intros n H. apply in_map_iff in H as (e' & <- & H). apply in_flat_map in H as (x & Hx & H).
    rewrite (rs_name x e' H). now apply in_map. }
  pose proof (rs_name e) as Hne. unfold rs in *. destruct (name_eqb _ _); [cbn; auto|].
  destruct (filter _ _); [cbn; auto|]. cbn. constructor; auto.
Qed.

Lemma rd_data_ok e : In e (a_elsets a) -> forall d0 d, es_data e = d0 :: d ->
  mapo (fun x => rd (es_data e) (lower_bound (es_ids e) x)) (filter (mem E) (es_ids e))
  = Ret (map (fun x => nth (lower_bound (es_ids e) x) (es_data e) d0) (filter (mem E) (es_ids e))).
Proof.
  intros He d0 d Ed. apply mapo_ok. intros x Hx. apply filter_In in Hx as (Hx & _).
  destruct Hc as (_ & Hok). rewrite Forall_forall in Hok. destruct (Hok _ He) as (_ & [H|H]); [congruence|].
  assert (SSe : SS (es_ids e)) by (unfold ascending in Hasc; rewrite Forall_forall in Hasc; auto).
  apply rd_Ret. apply nth_error_nth'. rewrite H. apply nth_error_Some. rewrite lower_bound_in; auto. discriminate.
Qed.

Lemma index_name k : nth_error (a_elsets a) k = Some e0 -> forall i e, nth_error (a_elsets a) i = Some e ->
  (i =? k) = name_eqb (es_name e) (es_name e0).
Proof.
  intros Hk i e Hie. destruct (Nat.eqb_spec i k) as [->|Hne].
  - assert (e = e0) by congruence. subst. symmetry. now apply name_eqb_iff.
  - destruct (name_eqb_spec (es_name e) (es_name e0)) as [En|]; auto. exfalso. apply Hne.
    destruct Hc as (Hd & _). rewrite NoDup_nth_error in Hd. apply Hd.
    + rewrite map_length. apply nth_error_Some. congruence.
    + rewrite !nth_error_map, Hie, Hk. cbn. now f_equal.
Qed.

Definition sub_content vs : asoup P F := mkA vs (map sub_elem E) (flat_map rs (a_elsets a)).

Lemma getSubset_run : exists u vs, getSubset stdsort s (es_name e0) empty_soup = Ret (u, false) /\
  Forall2 (fun v p => nth_error (a_verts a) (Z.to_nat v) = Some p) used vs /\ stores u (sub_content vs).
Proof.
  destruct verts_exist as (vs & Hvs).
  pose proof Hs as (Hv & Hty & Ho & Hcn & Hn & Hso & Hsi & Hsd).
  apply In_nth_error in He0 as Hk. destruct Hk as (k & Hk).
  unfold getSubset. rewrite Hn, (find_name_in _ _ 0 k) by (try apply Hc; now rewrite nth_error_map, Hk). cbn [Nat.add].
  destruct (seg_ok (map es_ids (a_elsets a)) k E) as (Ea & Eb & Er); [now rewrite nth_error_map, Hk|].
  rewrite Hso, Hsi, map_ids_length, Ea, Eb. cbn [bind]. rewrite Er. cbn [bind].
  rewrite (proj2 (is_sorted_iff E)) by (apply SS_le, E_SS). cbn [negb].
  rewrite (mapo_ok _ (fun i => snd (elem i))) by (intros; now apply elem_conn_ok). cbn [bind].
  fold used.
  (* vertices *)
  destruct (for_inv (fun i sub => stores sub (mkA (firstn i vs) [] []))
    (fun i (sub : soup P F) => let* v := rd used i in let* p := rdz (verts s) v in Ret (fst (addVertex sub p)))
    (length used) 0 (@empty_soup P F)) as (u1 & E1 & I1).
  { apply stores_empty. }
  { intros j u Hj I. destruct (nth_error used j) as [v|] eqn:Ev; [|apply nth_error_None in Ev; lia].
    unfold rd at 1. rewrite Ev. cbn [bind].
    destruct (nth_error vs j) as [p|] eqn:Ep; [|apply nth_error_None in Ep; rewrite <- (Forall2_length _ _ _ Hvs) in Ep; lia].
    rewrite Hv, (rdz_nth _ v p); [|apply used_range; eapply nth_error_In; eauto|exact (Forall2_nth _ _ _ _ _ _ Hvs Ev Ep)].
    cbn [bind]. eexists. split; [reflexivity|].
    destruct (addVertex_ok _ _ p I) as (St & _). cbn in St. rewrite (firstn_S _ _ _ Ep). exact St. }
  rewrite E1. cbn [bind Nat.add] in *. rewrite firstn_all2 in I1 by (rewrite <- (Forall2_length _ _ _ Hvs); lia).
  (* elements *)
  destruct (for_inv (fun i sub => stores sub (mkA vs (map sub_elem (firstn i E)) []))
    (fun i (sub : soup P F) => let* e := rd E i in subset_element s used e sub)
    (length E) 0 u1) as (u2 & E2 & I2).
  { exact I1. }
  { intros j u Hj I. destruct (nth_error E j) as [i|] eqn:Ei; [|apply nth_error_None in Ei; lia].
    assert (Hin : In i E) by (eapply nth_error_In; eauto).
    unfold rd at 1. rewrite Ei. cbn [bind]. unfold subset_element.
    rewrite Hty, (rdz_nth _ i (fst (elem i))); [|apply E_range; auto|].
    2:{ now rewrite nth_error_map, elem_nth by (now apply E_range). }
    cbn [bind]. rewrite elem_conn_ok by auto. cbn [bind].
    destruct (addElement_ok u _ (fst (elem i)) (map (fun v => Z.of_nat (lower_bound used v)) (snd (elem i))) I) as (u' & Eu & St).
    rewrite Eu. cbn [bind fst]. eexists. split; [reflexivity|].
    rewrite (firstn_S _ _ _ Ei), map_app. exact St. }
  rewrite E2. cbn [bind Nat.add] in *. rewrite firstn_all in I2.
  (* elsets *)
  destruct (for_inv (fun i st => snd st = false /\ stores (fst st) (mkA vs (map sub_elem E) (flat_map rs (firstn i (a_elsets a)))))
    (subset_elset s k E) (length (a_elsets a)) 0 (u2, false)) as (u3 & E3 & I3).
  { auto. }
  { intros j (u & err) Hj (Herr & I). cbn in Herr, I. subst err.
    destruct (nth_error (a_elsets a) j) as [e|] eqn:Ej; [|apply nth_error_None in Ej; lia].
    assert (Hin : In e (a_elsets a)) by (eapply nth_error_In; eauto).
    rewrite (firstn_S _ _ _ Ej), flat_map_app. cbn [flat_map]. rewrite app_nil_r.
    unfold subset_elset. rewrite (index_name k Hk j e Ej).
    destruct (name_eqb (es_name e) (es_name e0)) eqn:Ene.
    { eexists. split; [reflexivity|]. unfold rs at 2. rewrite Ene, app_nil_r. auto. }
    destruct (seg_ok (map es_ids (a_elsets a)) j (es_ids e)) as (Ea' & Eb' & Er'); [now rewrite nth_error_map, Ej|].
    rewrite Hso, Hsi, map_ids_length, Ea', Eb'. cbn [bind]. rewrite Er'. cbn [bind].
    assert (SSe : SS (es_ids e)) by (unfold ascending in Hasc; rewrite Forall_forall in Hasc; auto).
    rewrite set_intersection_ok by (auto; apply E_SS).
    destruct (filter (mem E) (es_ids e)) as [|x inter] eqn:Ef.
    { eexists. split; [reflexivity|]. unfold rs at 2. rewrite Ene, Ef, app_nil_r. auto. }
    rewrite <- Ef in *. rewrite Hn, Hsd. unfold rd at 1. rewrite nth_error_map, Ej. cbn [option_map bind].
    unfold rd at 1. rewrite nth_error_map, Ej. cbn [option_map bind].
    assert (Hnew : ~ In (es_name e) (map es_name (flat_map rs (firstn j (a_elsets a))))).
    { intros H. apply in_map_iff in H as (e' & Ee' & H). apply in_flat_map in H as (y & Hy & H).
      rewrite (rs_name y e' H) in Ee'. destruct Hc as (Hd & _).
      pose proof (firstn_skipn (S j) (a_elsets a)) as Hfs. rewrite (firstn_S _ _ _ Ej), <- app_assoc in Hfs. cbn in Hfs.
      rewrite <- Hfs, map_app in Hd. cbn in Hd. apply NoDup_remove_2 in Hd. apply Hd, in_or_app. left.
      rewrite <- Ee'. now apply in_map. }
    destruct (es_data e) as [|d0 d] eqn:Ed.
    - destruct (addElset_accept u _ (es_name e) (map (fun x => Z.of_nat (lower_bound E x)) (filter (mem E) (es_ids e))) [] I)
        as (u' & Eu & St).
      { unfold acceptable. cbn. split; auto. split; auto. rewrite Ef. discriminate. }
      rewrite Eu. eexists. split; [reflexivity|]. split; [reflexivity|]. cbn [fst].
      unfold rs at 2. rewrite Ene, Ef, Ed, <- Ef. exact St.
    - rewrite <- Ed in *. rewrite (rd_data_ok e Hin d0 d Ed). cbn [bind].
      destruct (addElset_accept u _ (es_name e) (map (fun x => Z.of_nat (lower_bound E x)) (filter (mem E) (es_ids e)))
        (map (fun x => nth (lower_bound (es_ids e) x) (es_data e) d0) (filter (mem E) (es_ids e))) I)
        as (u' & Eu & St).
      { unfold acceptable. cbn. split; auto. split; [rewrite Ef; discriminate|]. right. now rewrite !map_length. }
      rewrite Eu. eexists. split; [reflexivity|]. split; [reflexivity|]. cbn [fst].
      unfold rs at 2. rewrite Ene, Ef, Ed, <- Ef, <- Ed. exact St. }
  rewrite map_length, E3. destruct u3 as (u3 & err). cbn in I3. destruct I3 as (-> & I3).
  exists u3, vs. split; auto. split; auto. rewrite firstn_all in I3. exact I3.
Qed.

Lemma rs_restricted e : In e (a_elsets a) ->
  Forall2 (restricted E) (touching (es_name e0) E [e]) (rs e).
Proof.
  intros He. unfold touching, rs. cbn [filter].
  destruct (list_eq_dec Z.eq_dec (es_name e) (es_name e0)) as [En|En].
  - rewrite (proj2 (name_eqb_iff _ _) En). constructor.
  - destruct (name_eqb_spec (es_name e) (es_name e0)) as [H|_]; [contradiction|]. cbn [andb].
    assert (Eex : existsb (fun i => existsb (Z.eqb i) E) (es_ids e) = match filter (mem E) (es_ids e) with [] => false | _ => true end).
    { induction (es_ids e) as [|x l IH]; auto. cbn [existsb filter]. change (existsb (Z.eqb x) E) with (mem E x).
      destruct (mem E x); auto. }
    rewrite Eex. destruct (filter (mem E) (es_ids e)) as [|x inter] eqn:Ef; [constructor|]. rewrite <- Ef. clear Eex.
    constructor; [|constructor]. split; auto.
    destruct (filter_positions (mem E) (es_ids e)) as (kept & K1 & K2 & K3). exists kept. split; auto. split; [|split].
    + intros j y Hj. rewrite (K2 j y Hj). apply mem_iff.
    + cbn [es_ids]. assert (Hsub : forall y, In y (filter (mem E) (es_ids e)) -> In y E).
      { intros y Hy. apply filter_In in Hy as (_ & Hy). now apply mem_iff. }
      clear - K3 Hsub Hasc He0. induction K3 as [|j y l m Hj HF IH]; cbn [map]; constructor.
      * split; [lia|]. exists y. split; auto. rewrite Nat2Z.id. apply lower_bound_in; [apply E_SS|]. apply Hsub. now left.
      * apply IH. intros; apply Hsub. now right.
    + cbn [es_data]. destruct (es_data e) as [|d0 d] eqn:Ed; [auto|]. right. split; [discriminate|]. rewrite <- Ed.
      destruct Hc as (_ & Hok). rewrite Forall_forall in Hok. destruct (Hok _ He) as (_ & [H|H]); [congruence|].
      assert (SSe : SS (es_ids e)) by (unfold ascending in Hasc; rewrite Forall_forall in Hasc; auto).
      clear - K3 H SSe. induction K3 as [|j y l m Hj HF IH]; cbn [map]; constructor; auto.
      rewrite (lower_bound_nth _ SSe j y Hj). apply nth_error_nth'. rewrite H. apply nth_error_Some. congruence.
Qed.
Lemma all_restricted : Forall2 (restricted E) (touching (es_name e0) E (a_elsets a)) (flat_map rs (a_elsets a)).
Proof.
  pose proof rs_restricted as Hr. revert Hr. generalize (a_elsets a) as l.
  induction l as [|e l IH]; intros Hr; [constructor|]. cbn [flat_map].
  change (touching (es_name e0) E (e :: l)) with (filter
     (fun e => (if list_eq_dec Z.eq_dec (es_name e) (es_name e0) then false else true) && existsb (fun i => existsb (Z.eqb i) E) (es_ids e)) ([e] ++ l)).
  rewrite filter_app. apply Forall2_app.
  - apply Hr. now left.
  - apply IH. intros; apply Hr. now right.
Qed.

Lemma lb_range x : In x E -> lower_bound E x < length E.
Proof. intros H. apply nth_error_Some. rewrite lower_bound_in; auto; [discriminate|apply E_SS]. Qed.
Lemma rs_props e e' : In e (a_elsets a) -> In e' (rs e) ->
  elset_ok e' /\ SS (es_ids e') /\ forall i, In i (es_ids e') -> (0 <= i < Z.of_nat (length E))%Z.
Proof.
  intros He. unfold rs. destruct (name_eqb _ _); [intros []|].
  assert (SSe : SS (es_ids e)) by (unfold ascending in Hasc; rewrite Forall_forall in Hasc; auto).
  assert (HF : forall y, In y (filter (mem E) (es_ids e)) -> In y E).
  { intros y Hy. apply filter_In in Hy as (_ & Hy). now apply mem_iff. }
  pose proof (SS_filter (mem E) _ SSe) as SSf.
  destruct (filter (mem E) (es_ids e)) as [|x inter] eqn:Ef; [intros []|]. rewrite <- Ef in *.
  intros [<-|[]]. split; [|split].
  - split; cbn; [rewrite Ef; discriminate|]. destruct (es_data e) eqn:Ed; auto. right. now rewrite !map_length.
  - cbn. clear Ef. induction (filter (mem E) (es_ids e)) as [|y m IH]; cbn; constructor; inversion SSf as [|? ? S1 S2]; subst.
    + apply IH; auto. intros; apply HF; now right.
    + apply Forall_forall. intros z Hz. apply in_map_iff in Hz as (w & <- & Hw).
      rewrite Forall_forall in S2. specialize (S2 w Hw).
      assert (Ey : In y E) by (apply HF; now left). assert (Ew : In w E) by (apply HF; now right).
      assert (lower_bound E y < lower_bound E w); [|lia].
      destruct (Nat.lt_ge_cases (lower_bound E y) (lower_bound E w)) as [|Hge]; auto. exfalso.
      pose proof (lower_bound_in E y E_SS Ey) as L1. pose proof (lower_bound_in E w E_SS Ew) as L2.
      assert (G : forall l, SS l -> forall i j p q, i < j -> nth_error l i = Some p -> nth_error l j = Some q -> (p < q)%Z).
      { clear. induction 1 as [|a l H IH Hf]; intros [|i] [|j] p q Hij Hp Hq; cbn in *; try discriminate; try lia.
        - injection Hp as <-. rewrite Forall_forall in Hf. apply Hf. eapply nth_error_In; eauto.
        - eapply (IH i j); eauto. lia. }
      apply Nat.lt_eq_cases in Hge as [Hlt|Heq].
      * specialize (G E E_SS _ _ _ _ Hlt L2 L1). lia.
      * rewrite Heq in L2. rewrite L1 in L2. injection L2. lia.
  - cbn. intros i Hx. apply in_map_iff in Hx as (y & <- & Hy). pose proof (lb_range y (HF y Hy)). lia.
Qed.

Theorem getSubset_ok : exists u c, getSubset stdsort s (es_name e0) empty_soup = Ret (u, false) /\
  stores u c /\ subset_of a (es_name e0) E c /\ content_ok c /\ ids_ok c /\ ascending (a_elsets c).
Proof.
  destruct getSubset_run as (u & vs & Eu & Hvs & St). exists u, (sub_content vs). split; auto. split; auto.
  assert (Hused : forall i t c v, In i E -> nth_error (a_elems a) (Z.to_nat i) = Some (t, c) -> In v c -> In v used).
  { intros i t c v H1 H2 H3. apply used_in. eauto 6. }
  split; [|split; [|split]].
  - exists used. split; [apply used_SS|]. split; [apply used_in|]. split; [exact Hvs|]. split; [|apply all_restricted].
    cbn [sub_content a_elems].
    assert (G : forall l, (forall i, In i l -> In i E) -> Forall2 (fun i el => exists t conn conn',
       nth_error (a_elems a) (Z.to_nat i) = Some (t, conn) /\ el = (t, conn') /\
       Forall2 (fun v k => (0 <= k)%Z /\ nth_error used (Z.to_nat k) = Some v) conn conn') l (map sub_elem l)).
    { induction l as [|i l IH]; intros Hl; cbn [map]; constructor; [|apply IH; intros; apply Hl; now right].
      assert (Hin : In i E) by (apply Hl; now left).
      exists (fst (elem i)), (snd (elem i)), (snd (sub_elem i)).
      pose proof (elem_nth i (E_range i Hin)) as En.
      split; [rewrite En; now destruct (elem i)|]. split; [reflexivity|]. cbn [sub_elem snd].
      assert (Hu : forall v, In v (snd (elem i)) -> In v used).
      { intros v Hv. destruct (elem i) as (t & c) eqn:Eel. eapply Hused; eauto. }
      clear - Hu Hsort. induction (snd (elem i)) as [|v c IH]; cbn [map]; constructor.
      - split; [lia|]. rewrite Nat2Z.id. apply lower_bound_in; [apply used_SS|]. apply Hu. now left.
      - apply IH. intros; apply Hu. now right. }
    apply G. auto.
  - split; cbn.
    + apply rs_names_nodup. apply Hc.
    + apply Forall_forall. intros e' H. apply in_flat_map in H as (e & He & H). now apply (rs_props e e').
  - split; cbn.
    + intros t c v H Hv. apply in_map_iff in H as (i & [= <- <-] & Hin). apply in_map_iff in Hv as (w & <- & Hw).
      assert (Hwu : In w used).
      { destruct (elem i) as (t' & c') eqn:Eel. apply (Hused i t' c' w); auto. rewrite (elem_nth i (E_range i Hin)). now f_equal. }
      rewrite <- (Forall2_length _ _ _ Hvs). assert (lower_bound used w < length used); [|lia].
      apply nth_error_Some. rewrite lower_bound_in; auto; [discriminate|apply used_SS].
    + intros e' i H Hx. apply in_flat_map in H as (e & He & H). rewrite map_length.
      destruct (rs_props e e' He H) as (_ & _ & G). auto.
  - unfold ascending. cbn. apply Forall_forall. intros e' H. apply in_flat_map in H as (e & He & H).
    now apply (rs_props e e').
Qed.
End Subset.

Lemma getSubset_unknown {P F} stdsort (s sub : soup P F) a n : stores s a -> ~ In n (map es_name (a_elsets a)) ->
  getSubset stdsort s n sub = Ret (sub, true).
Proof.
  intros Hs Hn. unfold getSubset. replace (snames s) with (map es_name (a_elsets a)) by (symmetry; apply Hs).
  now rewrite (proj2 (find_name_none _ _ _) Hn).
Qed.
Lemma getSubset_unsorted {P F} stdsort (s sub : soup P F) a e : stores s a -> content_ok a -> In e (a_elsets a) ->
  ~ StronglySorted Z.le (es_ids e) -> getSubset stdsort s (es_name e) sub = Ret (sub, true).
Proof.
  intros Hs Hc He Hns. pose proof Hs as (_ & _ & _ & _ & Hn & Hso & Hsi & _).
  apply In_nth_error in He as (k & Hk). unfold getSubset.
  rewrite Hn, (find_name_in _ _ 0 k) by (try apply Hc; now rewrite nth_error_map, Hk). cbn [Nat.add].
  destruct (seg_ok (map es_ids (a_elsets a)) k (es_ids e)) as (Ea & Eb & Er); [now rewrite nth_error_map, Hk|].
  rewrite Hso, Hsi, map_ids_length, Ea, Eb. cbn [bind]. rewrite Er. cbn [bind].
  rewrite <- is_sorted_iff in Hns. now destruct (is_sorted (es_ids e)).
Qed.
