(** Names and sets of faces. *)
From Coq Require Import String.
From Coq Require Import List Arith ZArith Lia Bool Reals Permutation Sorting.Sorted.
From Verif Require Import Base Loops Arith StringView_Model StringView_Spec Ascii_Model Ascii_Spec Ascii_Proofs TextIo_Model Elem_Model Sort_Spec
  Soup_Model Soup_Spec Soup_Proofs Soup_Sort_Proofs Soup_Merge_Proofs Soup_Final_Proofs Fvm_Sort_Proofs
  XSec_Model PinCyl_Model Grid_Model Fvm_Model Fvm_Spec Mpact_Model Mpact_Spec Export_Model Export_Spec.
Import ListNotations.
Local Open Scope list_scope.

(** ** Names *)
Lemma ascii5 z : (0 <= z)%Z -> getASCIINumber z = Ret (digits5 z).
Proof.
  intros H. set (d := fun x => to_char (Z.rem x 10 + 48)). set (q := fun x => Z.quot x 10).
  assert (E : getASCIINumber z = Ret [d (q (q (q (q z)))); d (q (q (q z))); d (q (q z)); d (q z); d z]) by reflexivity.
  rewrite E. clear E.
  assert (D : forall x, (0 <= x)%Z -> d x = (48 + x mod 10)%Z).
  { intros x Hx. unfold d. rewrite Z.rem_mod_nonneg by lia. pose proof (Z.mod_pos_bound x 10). rewrite to_char_small by lia. lia. }
  assert (Q : forall x, (0 <= x)%Z -> q x = (x / 10)%Z /\ (0 <= x / 10)%Z).
  { intros x Hx. unfold q. rewrite Z.quot_div_nonneg by lia. split; auto. apply Z.div_pos; lia. }
  clearbody d q. destruct (Q z H) as (E1 & P1). destruct (Q _ P1) as (E2 & P2). destruct (Q _ P2) as (E3 & P3). destruct (Q _ P3) as (E4 & P4).
  rewrite E1, E2, E3, E4. rewrite !D by assumption. unfold digits5. cbn [map]. repeat rewrite Z.div_div by lia.
  change (10 ^ 4)%Z with (10 * 10 * 10 * 10)%Z. change (10 ^ 3)%Z with (10 * 10 * 10)%Z. change (10 ^ 2)%Z with (10 * 10)%Z.
  change (10 ^ 1)%Z with 10%Z. change (10 ^ 0)%Z with 1%Z. rewrite Z.div_1_r. rewrite !Z.mul_assoc. reflexivity.
Qed.
Lemma label_ok prefix id n : (0 <= id)%Z -> Export_Model.label prefix id (Z.of_nat n) = Ret (named prefix (id, n)).
Proof. intros H. unfold Export_Model.label. rewrite !ascii5 by lia. reflexivity. Qed.
Lemma digits5_len z : length (digits5 z) = 5%nat.
Proof. reflexivity. Qed.
Lemma digits5_inj a b : (0 <= a < 100000)%Z -> (0 <= b < 100000)%Z -> digits5 a = digits5 b -> a = b.
Proof.
  intros Ha Hb E. destruct (get_digits a Ha) as (s1 & E1 & _ & D1). destruct (get_digits b Hb) as (s2 & E2 & _ & D2).
  rewrite ascii5 in E1, E2 by lia. injection E1 as <-. injection E2 as <-. rewrite E in D1. exact (dec_val _ _ D1 _ D2).
Qed.
Lemma digits5_wrap z : digits5 (z + 100000) = digits5 z.
Proof.
  unfold digits5. apply map_ext_in. intros k Hk. f_equal.
  assert (E : exists c, (100000 = 10 ^ k * (10 * c))%Z /\ (0 < 10 ^ k)%Z).
  { cbn in Hk. destruct Hk as [<-|[<-|[<-|[<-|[<-|[]]]]]]; [exists 1%Z|exists 10%Z|exists 100%Z|exists 1000%Z|exists 10000%Z]; split; reflexivity. }
  destruct E as (c & -> & P). rewrite Z.mul_comm, Z.div_add by lia. rewrite Z.mul_comm, Z.mod_add by lia. reflexivity.
Qed.
Lemma app_inj_len {A} (l m r s : list A) : length l = length m -> l ++ r = m ++ s -> l = m /\ r = s.
Proof.
  revert m. induction l as [|a l IH]; intros [|b m] H E; try discriminate; [auto|]. cbn in E. injection E as -> E. injection H as H.
  destruct (IH m H E). subst. auto.
Qed.
Lemma named_inj prefix a b : (0 <= fst a < 100000)%Z -> (0 <= fst b < 100000)%Z ->
  (Z.of_nat (snd a) < 100000)%Z -> (Z.of_nat (snd b) < 100000)%Z -> named prefix a = named prefix b -> a = b.
Proof.
  intros Ha Hb Na Nb E. unfold named in E. apply app_inv_head in E. destruct a as [i n], b as [j k]. cbn [fst snd] in *.
  destruct (app_inj_len _ _ _ _ (eq_refl : length (digits5 i) = length (digits5 j)) E) as (L & M). apply app_inv_head in M.
  apply digits5_inj in L; [|lia|lia]. apply digits5_inj in M; [|lia|lia]. f_equal; lia.
Qed.
(** the names of sets with values *)
Definition value_names : list (list Z) := [lit "Material_ID"; lit "One_Group_XS"; lit "Mean_Chord_Length"; lit "Knudsen_Number"].
Definition prefixes : list string := ["Coarse_Cell_"; "RTM_"; "Lattice_"; "Assembly_"]%string.
Lemma named_value prefix l : In prefix prefixes -> ~ In (named prefix l) value_names.
Proof.
  intros H. cbn in H. destruct H as [<-|[<-|[<-|[<-|[]]]]]; unfold named; intros H; cbn in H;
    repeat destruct H as [H|H]; try contradiction; discriminate H.
Qed.
Lemma named_prefix p q a b : In p prefixes -> In q prefixes -> named p a = named q b -> p = q.
Proof.
  intros Hp Hq E. cbn in Hp, Hq. destruct Hp as [<-|[<-|[<-|[<-|[]]]]], Hq as [<-|[<-|[<-|[<-|[]]]]]; try reflexivity;
    apply (f_equal (hd 0%Z)) in E; discriminate E.
Qed.
Lemma value_names_nodup : NoDup value_names.
Proof. repeat constructor; cbn; intuition discriminate. Qed.

(** ** Sets *)
Definition std (f : face) : Prop := map fst (f_values f) = value_names /\ forall n, In n (f_sets f) -> ~ In n value_names.
Lemma in_set_iff n f : in_set n f = true <-> In n (f_sets f) \/ In n (map fst (f_values f)).
Proof.
  unfold in_set. rewrite orb_true_iff, !existsb_exists, in_map_iff. split.
  - intros [(x & H & E)|(x & H & E)]; apply name_eqb_iff in E; subst; [now left|right; eauto].
  - intros [H|(x & E & H)]; [left|right]; eexists; (split; [eassumption|]); apply name_eqb_iff; auto.
Qed.
Definition set_ids (n : list Z) (fs : list face) (k : nat) : list Z :=
  map (fun p => Z.of_nat (fst p)) (filter (fun p => in_set n (snd p)) (combine (seq k (length fs)) fs)).
Lemma set_ids_eq n fs : es_ids (set_of n fs) = set_ids n fs 0.
Proof. reflexivity. Qed.
Lemma set_ids_cons n f fs k : set_ids n (f :: fs) k = (if in_set n f then [Z.of_nat k] else []) ++ set_ids n fs (S k).
Proof. unfold set_ids. cbn. destruct (in_set n f); reflexivity. Qed.
Lemma set_ids_app n fs gs : forall k, set_ids n (fs ++ gs) k = set_ids n fs k ++ set_ids n gs (length fs + k).
Proof.
  induction fs as [|f fs IH]; intros k; [reflexivity|]. rewrite <- app_comm_cons, !set_ids_cons, IH, app_assoc. f_equal. f_equal. cbn. lia.
Qed.
Lemma set_ids_shift n fs k : forall j, set_ids n fs (k + j) = shift_ids k (set_ids n fs j).
Proof.
  induction fs as [|f fs IH]; intros j; [reflexivity|]. rewrite !set_ids_cons, <- Nat.add_succ_r, IH. unfold shift_ids. rewrite map_app.
  f_equal. destruct (in_set n f); cbn; [|reflexivity]. f_equal. lia.
Qed.
Lemma set_of_app n fs gs : set_of n (fs ++ gs) =
  mkElset n (es_ids (set_of n fs) ++ shift_ids (length fs) (es_ids (set_of n gs))) (es_data (set_of n fs) ++ es_data (set_of n gs)).
Proof.
  unfold set_of at 1. fold (set_ids n (fs ++ gs) 0). rewrite set_ids_app, set_ids_shift, flat_map_app. reflexivity.
Qed.
Lemma set_ids_range n fs : forall k i, In i (set_ids n fs k) <-> exists j f, i = Z.of_nat (k + j) /\ nth_error fs j = Some f /\ in_set n f = true.
Proof.
  induction fs as [|f fs IH]; intros k i.
  - cbn. split; [tauto|]. intros (j & f & _ & E & _). now destruct j.
  - rewrite set_ids_cons, in_app_iff, IH. split.
    + intros [H|(j & g & -> & E & H)].
      * destruct (in_set n f) eqn:Ef; [|contradiction]. destruct H as [<-|[]]. exists 0%nat, f. rewrite Nat.add_0_r. auto.
      * exists (S j), g. rewrite Nat.add_succ_r. auto.
    + intros ([|j] & g & -> & E & H).
      * injection E as <-. left. rewrite H, Nat.add_0_r. now left.
      * right. exists j, g. rewrite Nat.add_succ_r. auto.
Qed.
Lemma set_ids_SS n fs : forall k, StronglySorted Z.lt (set_ids n fs k).
Proof.
  induction fs as [|f fs IH]; intros k; [constructor|]. rewrite set_ids_cons. destruct (in_set n f); cbn; auto. constructor; auto.
  apply Forall_forall. intros i Hi. apply set_ids_range in Hi. destruct Hi as (j & g & -> & _). lia.
Qed.
Lemma set_ids_nonempty n fs k : set_ids n fs k <> [] <-> exists f, In f fs /\ in_set n f = true.
Proof.
  split.
  - intros H. destruct (set_ids n fs k) as [|i l] eqn:E; [easy|]. destruct (proj1 (set_ids_range n fs k i)) as (j & f & _ & Hf & Hi).
    + rewrite E. now left.
    + exists f. split; [eapply nth_error_In; eauto|auto].
  - intros (f & Hf & Hi) E. apply In_nth_error in Hf. destruct Hf as (j & Hj).
    assert (H : In (Z.of_nat (k + j)) (set_ids n fs k)) by (apply set_ids_range; eauto). rewrite E in H. contradiction.
Qed.
Lemma values_std n f : std f -> (In n value_names -> exists v, values_in n f = [v] /\ In (n, v) (f_values f)) /\
  (~ In n value_names -> values_in n f = []).
Proof.
  intros (H & _). unfold values_in. split.
  - intros Hn. rewrite <- H in Hn. assert (D : NoDup (map fst (f_values f))) by (rewrite H; apply value_names_nodup). clear H.
    induction (f_values f) as [|[x v] l IH]; [contradiction|]. cbn in Hn, D. inversion_clear D as [|? ? D1 D2]. cbn [filter map fst].
    destruct (name_eqb_spec n x) as [<-|N].
    + exists v. split; [|now left]. cbn [map snd]. f_equal. clear - D1.
      induction l as [|[y w] l IH]; [reflexivity|]. cbn [filter fst]. destruct (name_eqb_spec n y) as [<-|_]; [exfalso; apply D1; now left|].
      apply IH. intros X. apply D1. now right.
    + destruct Hn as [<-|Hn]; [congruence|]. destruct (IH Hn D2) as (w & E & I0). exists w. split; [exact E|now right].
  - intros Hn. rewrite <- H in Hn. clear H. induction (f_values f) as [|[x v] l IH]; [reflexivity|]. cbn [filter fst].
    destruct (name_eqb_spec n x) as [<-|_]; [exfalso; apply Hn; now left|]. apply IH. intros X. apply Hn. now right.
Qed.
Lemma data_none n fs : Forall std fs -> ~ In n value_names -> es_data (set_of n fs) = [].
Proof.
  intros H Hn. cbn. induction H as [|f fs Hf _ IH]; [reflexivity|]. cbn. rewrite (proj2 (values_std n f Hf) Hn), IH. reflexivity.
Qed.
Lemma data_all n fs : Forall std fs -> In n value_names -> length (es_data (set_of n fs)) = length (es_ids (set_of n fs)).
Proof.
  intros H Hn. rewrite set_ids_eq. cbn [set_of es_data]. generalize 0%nat. induction H as [|f fs Hf _ IH]; intros k; [reflexivity|].
  rewrite set_ids_cons. cbn [flat_map]. rewrite !app_length, (IH (S k)). f_equal. destruct (proj1 (values_std n f Hf) Hn) as (v & -> & _).
  assert (E : in_set n f = true) by (apply in_set_iff; right; destruct Hf as (-> & _); auto). rewrite E. reflexivity.
Qed.
Lemma set_ids_all n fs : forall k, (forall f, In f fs -> in_set n f = true) -> set_ids n fs k = map Z.of_nat (seq k (length fs)).
Proof.
  induction fs as [|f fs IH]; intros k H; [reflexivity|]. rewrite set_ids_cons, H by now left. cbn [length seq map app].
  f_equal. apply IH. intros g Hg. apply H. now right.
Qed.
Lemma set_ids_none n fs : forall k, (forall f, In f fs -> in_set n f = false) -> set_ids n fs k = [].
Proof.
  induction fs as [|f fs IH]; intros k H; [reflexivity|]. rewrite set_ids_cons, H by now left. apply IH. intros g Hg. apply H. now right.
Qed.

Lemma F2_impl {A B} (P Q : A -> B -> Prop) l m : Forall2 P l m -> (forall a b, P a b -> Q a b) -> Forall2 Q l m.
Proof. intros H I0. induction H; constructor; auto. Qed.

(** ** What the soups hold *)
Record holds (a : asoup pt3 R) (fs : list face) : Prop := {
  h_content : content_ok a;
  h_std : Forall std fs;
  h_shows : shows a fs }.
Lemma holds_len a fs : holds a fs -> length (a_elems a) = length fs.
Proof. intros [_ _ (H & _)]. eapply Forall2_length; eauto. Qed.
Lemma holds_empty : holds a_empty [].
Proof.
  split; [split; constructor|constructor|]. split; [constructor|]. intros e. split; [intros []|]. intros (n & -> & H). now destruct H.
Qed.
Lemma holds_sets a f fs : holds a (f :: fs) -> a_elsets a <> [].
Proof.
  intros [_ H (_ & Hs)] E. rewrite E in Hs. apply (proj2 (Hs (set_of (lit "Material_ID") (f :: fs)))).
  exists (lit "Material_ID"). split; auto. rewrite set_ids_eq. apply set_ids_nonempty. exists f. split; [now left|].
  apply in_set_iff. right. inversion H as [|? ? Hf _]; subst. destruct Hf as (-> & _). now left.
Qed.
Lemma holds_append stdsort : sort_contract stdsort -> forall (s t : soup pt3 R) a b fs gs,
  stores s a -> stores t b -> holds a fs -> holds b gs -> gs <> [] ->
  exists u c, append_soup stdsort s t = Ret u /\ stores u c /\ holds c (fs ++ gs) /\ names_sorted (a_elsets c) /\
    a_verts c = a_verts a ++ a_verts b.
Proof.
  intros Hsort s t a b fs gs Hs Ht Ha Hb Hne.
  assert (Ne : a_elems b <> []). { intros E. pose proof (holds_len _ _ Hb) as L. rewrite E in L. destruct gs; [easy|discriminate]. }
  assert (Es : a_elsets b <> []) by (destruct gs; [easy|eapply holds_sets; eauto]).
  destruct (append_content_ok _ _ stdsort Hsort s t a b Hs Ht (h_content _ _ Ha) (h_content _ _ Hb) Ne) as (u & l & E & St & _ & Hl).
  destruct (Hl Es) as (Hn & Hm). eexists u, _. split; [exact E|]. split; [exact St|]. cbn [a_elsets a_verts]. split; [|split; auto].
  destruct Ha as [Ca Sa (Fa & Ea)], Hb as [Cb Sb (Fb & Eb)]. pose proof (Forall2_length _ _ _ Fa) as La.
  assert (Std : Forall std (fs ++ gs)) by (apply Forall_app; auto).
  split; auto.
  - apply merged_content; auto. intros e1 e2 H1 H2 En. apply Ea in H1. apply Eb in H2.
    destruct H1 as (n & -> & N1), H2 as (n2 & -> & N2). cbn [set_of es_name] in En. subst n2.
    destruct (in_dec (list_eq_dec Z.eq_dec) n value_names) as [Hv|Hv].
    + split; intros X; exfalso; [apply N1|apply N2]; apply length_zero_iff_nil;
        [rewrite <- (data_all n fs Sa Hv)|rewrite <- (data_all n gs Sb Hv)]; rewrite X; reflexivity.
    + rewrite (data_none n fs Sa Hv), (data_none n gs Sb Hv). tauto.
  - split; cbn [a_elems a_verts a_elsets].
    + apply Forall2_app.
      * apply (F2_impl _ _ _ _ Fa). intros el f (T & C). split; auto. apply (F2_impl _ _ _ _ C).
        intros v p (V0 & V). split; auto. rewrite nth_error_app1; auto. apply nth_error_Some. congruence.
      * unfold shift_elems. clear - Fb. induction Fb as [|el f els fs0 (T & C) _ IH]; constructor; auto. split; auto. cbn [snd].
        unfold shift_ids. clear - C. induction C as [|v p vs ps (V0 & V) _ IH]; constructor; auto. split; [lia|].
        rewrite Z2Nat.inj_add, Nat2Z.id, nth_error_app2 by lia. rewrite Nat.add_sub. exact V.
    + intros e. rewrite Hm, La. split.
      * intros H. destruct H as [e1 e2 H1 H2 En|e1 H1 Hn1|e2 H2 Hn2].
        -- apply Ea in H1. apply Eb in H2. destruct H1 as (n & -> & N1), H2 as (n2 & -> & N2). cbn [set_of es_name] in En. subst n2.
           exists n. rewrite set_of_app. split; auto. cbn [es_ids]. intros X. apply app_eq_nil in X. tauto.
        -- apply Ea in H1. destruct H1 as (n & -> & N1). exists n. rewrite set_of_app.
           assert (G : es_ids (set_of n gs) = []).
           { destruct (es_ids (set_of n gs)) eqn:Eg; auto. exfalso. apply Hn1. cbn [set_of es_name].
             change n with (es_name (set_of n gs)). apply in_map. apply Eb. exists n. split; auto. congruence. }
           assert (D : es_data (set_of n gs) = []).
           { destruct (in_dec (list_eq_dec Z.eq_dec) n value_names) as [Hv|Hv]; [|now apply data_none].
             apply length_zero_iff_nil. rewrite (data_all n gs Sb Hv), G. reflexivity. }
           rewrite G, D. unfold shift_ids. cbn [map]. rewrite !app_nil_r. split; [reflexivity|exact N1].
        -- apply Eb in H2. destruct H2 as (n & -> & N2). exists n. rewrite set_of_app. cbn [set_of es_name] in Hn2.
           assert (G : es_ids (set_of n fs) = []).
           { destruct (es_ids (set_of n fs)) eqn:Eg; auto. exfalso. apply Hn2. 
             change n with (es_name (set_of n fs)). apply in_map. apply Ea. exists n. split; auto. congruence. }
           assert (D : es_data (set_of n fs) = []).
           { destruct (in_dec (list_eq_dec Z.eq_dec) n value_names) as [Hv|Hv]; [|now apply data_none].
             apply length_zero_iff_nil. rewrite (data_all n fs Sa Hv), G. reflexivity. }
           rewrite G, D. split; [reflexivity|]. cbn [es_ids app]. intros X. apply map_eq_nil in X. auto.
      * intros (n & -> & N). rewrite set_of_app in N |- *. cbn [es_ids] in N.
        destruct (es_ids (set_of n fs)) as [|i1 l1] eqn:G1.
        -- assert (D : es_data (set_of n fs) = []).
           { destruct (in_dec (list_eq_dec Z.eq_dec) n value_names) as [Hv|Hv]; [|now apply data_none].
             apply length_zero_iff_nil. rewrite (data_all n fs Sa Hv), G1. reflexivity. }
           rewrite D. cbn [app]. apply (merged_second _ (a_elsets a) (a_elsets b) (set_of n gs)).
           ++ apply Eb. exists n. split; auto. intros X. apply N. rewrite X. reflexivity.
           ++ cbn [set_of es_name]. intros X. apply in_map_iff in X. destruct X as (e & En & He). apply Ea in He.
              destruct He as (n' & -> & N'). cbn [set_of es_name] in En. subst n'. contradiction.
        -- destruct (es_ids (set_of n gs)) as [|i2 l2] eqn:G2.
           ++ assert (D : es_data (set_of n gs) = []).
              { destruct (in_dec (list_eq_dec Z.eq_dec) n value_names) as [Hv|Hv]; [|now apply data_none].
                apply length_zero_iff_nil. rewrite (data_all n gs Sb Hv), G2. reflexivity. }
              rewrite D. unfold shift_ids. cbn [map]. rewrite !app_nil_r.
              replace (mkElset n (i1 :: l1) (es_data (set_of n fs))) with (set_of n fs)
                by (rewrite <- G1; reflexivity).
              apply merged_first.
              ** apply Ea. exists n. split; auto. congruence.
              ** cbn [set_of es_name]. intros X. apply in_map_iff in X. destruct X as (e & En & He). apply Eb in He.
                 destruct He as (n' & -> & N'). cbn [set_of es_name] in En. subst n'. contradiction.
           ++ rewrite <- G1, <- G2.
              apply (merged_both _ (a_elsets a) (a_elsets b) (set_of n fs) (set_of n gs)); [apply Ea|apply Eb|reflexivity];
                exists n; (split; [reflexivity|congruence]).
Qed.

(** ** Sorting sets whose ids are ascending *)
Lemma SS_perm_eq l : forall l', StronglySorted Z.lt l -> StronglySorted Z.le l' -> Permutation l l' -> l' = l.
Proof.
  induction l as [|a l IH]; intros l' H H' P.
  - now apply Permutation_nil in P.
  - destruct l' as [|b l']; [now apply Permutation_sym, Permutation_nil in P|].
    inversion_clear H as [|? ? H1 H2]. inversion_clear H' as [|? ? H1' H2']. rewrite Forall_forall in H2, H2'.
    assert (b = a).
    { assert (Ib : In b (a :: l)) by (eapply Permutation_in; [apply Permutation_sym; exact P|now left]).
      assert (Ia : In a (b :: l')) by (eapply Permutation_in; [exact P|now left]).
      destruct Ib as [->|Ib]; auto. destruct Ia as [->|Ia]; auto. apply H2 in Ib. apply H2' in Ia. lia. }
    subst b. f_equal. apply IH; auto. eapply Permutation_cons_inv; eauto.
Qed.
Lemma same_sorted_id (e e' : elset R) : elset_ok e -> StronglySorted Z.lt (es_ids e) -> same_sorted e e' -> e' = e.
Proof.
  intros (_ & Hd) Hs (En & Hle & p & Pp & (L & Rd) & D).
  pose proof (Permutation_length Pp) as Lp. rewrite seq_length in Lp.
  assert (Ei : es_ids e' = es_ids e).
  { apply SS_perm_eq; auto. eapply (reads_perm (length (es_ids e))); [exact Pp|reflexivity|split; auto]. }
  assert (N : NoDup (es_ids e)).
  { clear - Hs. induction Hs as [|a l _ IH Ha]; constructor; auto. intros X. rewrite Forall_forall in Ha. apply Ha in X. lia. }
  assert (Id : forall i k, nth_error p i = Some k -> k = i).
  { intros i k Hk. pose proof (Rd i k Hk) as X. rewrite Ei in X. symmetry. rewrite (NoDup_nth_error (es_ids e)) in N. apply N; auto.
    assert (i < length p)%nat by (apply nth_error_Some; congruence). lia. }
  assert (Ed : es_data e' = es_data e).
  { destruct D as [(D1 & D2)|(L2 & R2)]; [congruence|]. apply nth_error_ext. intros i. destruct (nth_error p i) as [k|] eqn:Ek.
    - rewrite (R2 i k Ek), (Id i k Ek). reflexivity.
    - apply nth_error_None in Ek. rewrite (proj2 (nth_error_None _ _)) by lia. symmetry. apply nth_error_None. destruct Hd as [->|Hd]; cbn; lia. }
  destruct e, e'. cbn in *. subst. reflexivity.
Qed.
Lemma sort_ascending stdsort : sort_contract stdsort -> forall (s : soup pt3 R) a, stores s a -> content_ok a ->
  ascending (a_elsets a) -> a_elsets a <> [] ->
  exists s' l, sortElsets stdsort s = Ret s' /\ stores s' (mkA (a_verts a) (a_elems a) l) /\ names_sorted l /\ Permutation (a_elsets a) l.
Proof.
  intros Hsort s a St Co As Ne. destruct (sortElsets_ok stdsort Hsort s a St Co Ne) as (s' & l & E & St' & Hn & q & P & F).
  exists s', l. split; auto. split; auto. split; auto.
  assert (El : l = q).
  { assert (Q : forall e, In e q -> elset_ok e /\ StronglySorted Z.lt (es_ids e)).
    { intros e He. apply (Permutation_in _ (Permutation_sym P)) in He. destruct Co as (_ & Co). unfold ascending in As.
      rewrite Forall_forall in Co, As. auto. }
    clear - F Q. induction F as [|e e' q l H _ IH]; [reflexivity|]. f_equal.
    - destruct (Q e (or_introl eq_refl)). now apply same_sorted_id.
    - apply IH. intros x Hx. apply Q. now right. }
  now subst q.
Qed.
