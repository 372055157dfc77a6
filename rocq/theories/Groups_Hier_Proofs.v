(** The material hierarchy and the colours. *)
From Coq Require Import String.
From Coq Require Import List Arith ZArith Lia Bool Sorted Permutation.
From Verif Require Import Base Loops Groups_Model Groups_Spec Groups_List_Proofs Groups_Ops_Proofs.
Import ListNotations.
Open Scope Z_scope.

Lemma group_of_inj m n : group_of m = group_of n -> m_name m = m_name n.
Proof. unfold group_of. cbn. intros E. now injection E. Qed.

Lemma nodup_nth {A} (l : list A) i j a : NoDup l -> nth_error l i = Some a -> nth_error l j = Some a -> i = j.
Proof.
  intros H E1 E2. rewrite NoDup_nth_error in H. apply H; [|congruence]. apply nth_error_Some. congruence.
Qed.

(** * Index of a material *)
Lemma material_index_ok names m : sortedb String.ltb names = true -> NoDup names ->
  exists r, material_index names m = Ret r /\
    forall a, r = Some a <-> nth_error names a = Some (group_of m).
Proof.
  intros Hs Hn. unfold material_index. change (material_group m) with (group_of m).
  rewrite lower_bound_ok by auto. cbn [bind].
  pose proof (fnl_found _ string_irr string_trans string_tri names (group_of m) Hs) as Hf.
  set (i := first_not_less String.ltb names (group_of m)) in *.
  assert (Hno : ~ In (group_of m) names -> forall a, None = Some a <-> nth_error names a = Some (group_of m)).
  { intros Hni a. split; [discriminate|]. intros E. exfalso. apply Hni. eapply nth_error_In; eauto. }
  destruct (nth_error names i) as [n|] eqn:E.
  - destruct (String.eqb_spec n (group_of m)) as [->|Hne].
    + exists (Some i). split; auto. intros a. split.
      * intros E'. injection E' as <-. exact E.
      * intros E'. f_equal. eapply nodup_nth; eauto.
    + exists None. split; auto. apply Hno. rewrite Hf. congruence.
  - exists None. split; auto. apply Hno. rewrite Hf. congruence.
Qed.

Definition is_index (names : list string) (mats : list material) (indices : list (option nat)) : Prop :=
  length indices = length mats /\
  forall k r, nth_error indices k = Some r -> exists m, nth_error mats k = Some m /\
    forall a, r = Some a <-> nth_error names a = Some (group_of m).

Lemma indices_ok names mats : sortedb String.ltb names = true -> NoDup names ->
  exists indices, mapo (material_index names) mats = Ret indices /\ is_index names mats indices.
Proof.
  intros Hs Hn. induction mats as [|m mats (ind & E & L & H)].
  - exists []. split; auto. split; auto. intros [|k] r; discriminate.
  - destruct (material_index_ok names m Hs Hn) as (r & Er & Hr). exists (r :: ind). cbn. rewrite Er. cbn. rewrite E. cbn.
    split; auto. split; [cbn; congruence|]. intros [|k] r' Ek; cbn in Ek.
    + injection Ek as <-. exists m. auto.
    + apply H. exact Ek.
Qed.

(** * The hierarchy *)
Definition content (post : list (list Z)) (a : nat) (e : Z) : Prop :=
  exists es, nth_error post a = Some es /\ In e es.

Section Hierarchy.
Variables (names : list string) (mats : list material) (indices : list (option nat)) (post0 : list (list Z)).
Hypothesis Hind : is_index names mats indices.
Hypothesis Hnames : NoDup names.
Hypothesis Hmats : NoDup (map m_name mats).
Hypothesis Hlen : length post0 = length names.
Hypothesis Hasc : Forall ascending post0.

Let index (k a : nat) : Prop := nth_error indices k = Some (Some a).

Lemma index_lt k a : index k a -> (a < length post0)%nat.
Proof.
  intros H. destruct (proj2 Hind _ _ H) as (m & _ & Hm). rewrite Hlen. apply nth_error_Some.
  rewrite (proj1 (Hm a) eq_refl). discriminate.
Qed.
Lemma index_inj k j a : index k a -> index j a -> k = j.
Proof.
  intros H1 H2. destruct (proj2 Hind _ _ H1) as (m & E1 & Hm), (proj2 Hind _ _ H2) as (n & E2 & Hn).
  pose proof (proj1 (Hm a) eq_refl) as F1. pose proof (proj1 (Hn a) eq_refl) as F2.
  assert (F3 : group_of m = group_of n) by congruence. apply group_of_inj in F3.
  apply (nodup_nth (map m_name mats) k j (m_name m) Hmats).
  - now rewrite nth_error_map, E1.
  - rewrite nth_error_map, E2. cbn. congruence.
Qed.

(** What position [a] holds once the materials before [k] are taken off. *)
Definition below (k : nat) (a : nat) (e : Z) : Prop :=
  content post0 a e /\ forall j b, (j < k)%nat -> index j b -> ~ content post0 b e.

Definition shaped (post : list (list Z)) : Prop := length post = length post0 /\ Forall ascending post.

Lemma content_upd post a es b e : (a < length post)%nat ->
  content (upd post a es) b e <-> (a = b /\ In e es) \/ (a <> b /\ content post b e).
Proof.
  intros Ha. unfold content. destruct (Nat.eq_dec a b) as [->|Hne].
  - rewrite nth_error_upd_eq by auto. split.
    + intros (es' & E & Hi). injection E as <-. auto.
    + intros [(_ & Hi)|(Hc & _)]; [eauto|congruence].
  - rewrite nth_error_upd_neq by auto. split; [auto|]. intros [(Hc & _)|(_ & Hi)]; [congruence|auto].
Qed.

Lemma subtract_ok post i j a : shaped post -> index i a -> (j < i)%nat ->
  (forall b e, index j b -> (content post b e <-> below j b e)) ->
  (forall e, content post a e <-> below j a e) ->
  exists post', subtract indices a j post = Ret post' /\ shaped post' /\
    (forall e, content post' a e <-> below (S j) a e) /\
    (forall b e, b <> a -> (content post' b e <-> content post b e)).
Proof.
  intros (L & F) Hi Hj Hb Ha. unfold subtract.
  assert (Hjl : (j < length indices)%nat).
  { assert (i < length indices)%nat by (apply nth_error_Some; unfold index in Hi; congruence). lia. }
  destruct (nth_error indices j) as [[b|]|] eqn:E; [| |apply nth_error_None in E; lia].
  - unfold rd at 1. rewrite E. cbn [bind].
    pose proof (index_lt _ _ Hi) as La. pose proof (index_lt _ _ E) as Lb.
    assert (Hab : a <> b). { intros <-. pose proof (index_inj _ _ _ Hi E). lia. }
    destruct (nth_error post a) as [mi|] eqn:Ea; [|apply nth_error_None in Ea; lia].
    destruct (nth_error post b) as [mj|] eqn:Eb; [|apply nth_error_None in Eb; lia].
    rewrite (proj2 (rd_Ret post a mi) Ea), (proj2 (rd_Ret post b mj) Eb). cbn [bind].
    rewrite Forall_forall in F. pose proof (F _ (nth_error_In _ _ Ea)) as Ai. pose proof (F _ (nth_error_In _ _ Eb)) as Aj.
    rewrite both_sorted_ok by auto.
    assert (Ca : forall e, In e mi <-> below j a e).
    { intros e. rewrite <- Ha. unfold content. rewrite Ea. split; [eauto|]. intros (es & E' & Hin). congruence. }
    assert (Cb : forall e, In e mj <-> below j b e).
    { intros e. rewrite <- Hb by exact E. unfold content. rewrite Eb. split; [eauto|]. intros (es & E' & Hin). congruence. }
    assert (Key : forall e, (In e mi /\ ~ In e mj) <-> below (S j) a e).
    { intros e. rewrite Ca, Cb. unfold below. split.
      - intros ((H1 & H2) & H3). split; auto. intros j' b' Hj' Hx Hc.
        destruct (Nat.eq_dec j' j) as [->|Hne].
        + assert (b' = b) by (unfold index in Hx; congruence). subst b'. apply H3. split; auto.
        + apply (H2 j' b'); auto. lia.
      - intros (H1 & H2). split.
        + split; auto. intros j' b' Hj' Hx. apply (H2 j' b'); auto; lia.
        + intros (H3 & _). apply (H2 j b); auto. }
    pose proof (in_intersection mi mj) as Hin.
    destruct (intersection mi mj) as [|z l] eqn:Ei.
    + exists post. split; auto. split; [split; auto; now apply Forall_forall|]. split; [|tauto].
      intros e. rewrite <- Key. unfold content. rewrite Ea. split.
      * intros (es & E' & He). injection E' as <-. split; auto. intros He'. apply (proj2 (Hin e Ai Aj)). auto.
      * intros (He & _). eauto.
    + rewrite wr_ok by lia. eexists. split; [reflexivity|]. split.
      * split; [now rewrite upd_length|]. apply Forall_forall. intros es Hes.
        apply In_nth_error in Hes as (k & Ek). rewrite nth_error_upd in Ek. destruct (_ && _).
        -- injection Ek as <-. now apply asc_difference.
        -- apply F. eapply nth_error_In; eauto.
      * assert (Al : ascending (z :: l)). { rewrite <- Ei. now apply asc_intersection. }
        split.
        -- intros e. rewrite content_upd by lia. rewrite <- Key. split.
           ++ intros [(_ & He)|(Hc & _)]; [|congruence]. apply in_difference in He as (H1 & H2); auto.
              split; auto. intros H3. apply H2. apply Hin; auto.
           ++ intros (H1 & H2). left. split; auto. apply in_difference; auto. split; auto.
              intros H3. apply Hin in H3 as (_ & H3); auto.
        -- intros b' e Hb'. rewrite content_upd by lia. split; [|auto].
           intros [(Hc & _)|(_ & H1)]; [congruence|auto].
  - unfold rd at 1. rewrite E. cbn [bind]. exists post. split; auto. split; [split; auto|]. split; [|tauto].
    intros e. rewrite Ha. unfold below. split.
    + intros (H1 & H2). split; auto. intros j' b' Hj' Hx. destruct (Nat.eq_dec j' j) as [->|Hne].
      * unfold index in Hx. congruence.
      * apply (H2 j' b'); auto. lia.
    + intros (H1 & H2). split; auto. intros j' b' Hj' Hx. apply (H2 j' b'); auto; lia.
Qed.

(** The materials before [i] are done. *)
Definition done (i : nat) (post : list (list Z)) : Prop :=
  shaped post /\
  (forall k a e, (k < i)%nat -> index k a -> (content post a e <-> below k a e)) /\
  (forall a e, (forall k, (k < i)%nat -> ~ index k a) -> (content post a e <-> content post0 a e)).

Lemma one_material_ok i post : (i < length mats)%nat -> done i post ->
  exists post', one_material indices i post = Ret post' /\ done (S i) post'.
Proof.
  intros Hi (D1 & D2 & D3). unfold one_material.
  destruct (nth_error indices i) as [[a|]|] eqn:E.
  3:{ apply nth_error_None in E. destruct Hind as (HL & _). lia. }
  - unfold rd. rewrite E. cbn [bind].
    assert (Hnot : forall k, (k < i)%nat -> ~ index k a).
    { intros k Hk Hx. pose proof (index_inj _ _ _ Hx E). lia. }
    destruct (for_inv (fun j p => (j <= i)%nat /\ shaped p /\ (forall e, content p a e <-> below j a e) /\
        (forall b e, b <> a -> (content p b e <-> content post b e))) (subtract indices a) i 0 post)
      as (post' & Ep & _ & S' & C1 & C2).
    + split; [lia|]. split; auto. split; [|tauto]. intros e. rewrite (D3 a e Hnot). unfold below. split.
      * intros H. split; auto. intros j b Hj. lia.
      * tauto.
    + intros j p Hj (_ & Sp & Ca & Cb).
      destruct (subtract_ok p i j a Sp E) as (p' & Es & Sp' & Ca' & Cb'); auto; [lia| |].
      * intros b e Hx. assert (Hne : b <> a). { intros ->. apply (Hnot j); auto. lia. }
        rewrite Cb by auto. apply D2; auto. lia.
      * exists p'. split; auto. split; [lia|]. split; auto. split; auto.
        intros b e Hne. rewrite Cb' by auto. now apply Cb.
    + rewrite Ep. exists post'. split; auto. split; auto. split.
      * intros k b e Hk Hx. destruct (Nat.eq_dec k i) as [->|Hne].
        -- assert (b = a) by (unfold index in Hx; congruence). subst b. apply C1.
        -- rewrite C2. { apply D2; auto. lia. } intros ->. apply Hne. eapply index_inj; eauto.
      * intros b e Hb. assert (b <> a). { intros ->. apply (Hb i); auto. }
        rewrite C2 by auto. apply D3. intros k Hk. apply Hb. lia.
  - unfold rd. rewrite E. cbn [bind]. exists post. split; auto. split; auto. split.
    + intros k b e Hk Hx. destruct (Nat.eq_dec k i) as [->|Hne]; [unfold index in Hx; congruence|]. apply D2; auto. lia.
    + intros b e Hb. apply D3. intros k Hk. apply Hb. lia.
Qed.

Lemma loop_ok : mats <> [] -> exists post', for_ (length mats - 1) 1 (one_material indices) post0 = Ret post' /\ done (length mats) post'.
Proof.
  intros Hne. assert (1 <= length mats)%nat by (destruct mats; [congruence|cbn; lia]).
  destruct (for_inv (fun i p => done i p) (one_material indices) (length mats - 1) 1 post0) as (p & E & D).
  - split; [split; auto|]. split.
    + intros k a e Hk Hx. unfold below. split; [|tauto]. intros H1. split; auto. intros j b Hj. lia.
    + tauto.
  - intros j p Hj D. apply one_material_ok; auto. lia.
  - exists p. split; auto. now replace (length mats) with (1 + (length mats - 1))%nat by lia.
Qed.
End Hierarchy.

Lemma hierarchy_ok mats names post0 : sortedb String.ltb names = true -> NoDup names ->
  NoDup (map m_name mats) -> length post0 = length names -> Forall ascending post0 ->
  exists post, hierarchy mats names post0 = Ret post /\ length post = length post0 /\ Forall ascending post /\
    forall a n e, nth_error names a = Some n ->
      (content post a e <-> content post0 a e /\
        forall i j m m' b, nth_error mats i = Some m -> nth_error mats j = Some m' -> (j < i)%nat ->
          n = group_of m -> nth_error names b = Some (group_of m') -> ~ content post0 b e).
Proof.
  intros Hs Hn Hm Hl Ha. unfold hierarchy. destruct mats as [|m0 mats0].
  - exists post0. split; auto. split; auto. split; auto. intros a n e _. split; [|tauto]. intros H.
    split; auto. intros [|i]; discriminate.
  - set (mats := m0 :: mats0) in *. destruct (indices_ok names mats Hs Hn) as (ind & -> & Hind). cbn [bind].
    destruct (loop_ok names mats ind post0 Hind Hm Hl Ha) as (post & Ep & (L & F) & D2 & D3); [discriminate|].
    change (for_ (length mats - 1) 1 (one_material ind) post0 = Ret post) in Ep. rewrite Ep.
    exists post. split; auto. split; auto. split; auto.
    assert (Hidx : forall k m, nth_error mats k = Some m -> forall a, nth_error names a = Some (group_of m) ->
      nth_error ind k = Some (Some a)).
    { intros k m Ek a Ea. destruct Hind as (HL & Hind').
      destruct (nth_error ind k) as [r|] eqn:E.
      - destruct (Hind' _ _ E) as (m' & Em & Hr). assert (m' = m) by congruence. subst m'. now apply Hr in Ea as ->.
      - apply nth_error_None in E. assert (k < length mats)%nat by (apply nth_error_Some; congruence). lia. }
    assert (Hback : forall k a, nth_error ind k = Some (Some a) -> exists m, nth_error mats k = Some m /\ nth_error names a = Some (group_of m)).
    { intros k a E. destruct (proj2 Hind _ _ E) as (m & Em & Hr). exists m. split; auto. now apply Hr. }
    intros a n e En. destruct (in_dec string_dec n (map group_of mats)) as [Hin|Hnin].
    + apply in_map_iff in Hin as (m & <- & Hin). apply In_nth_error in Hin as (k & Ek).
      pose proof (Hidx _ _ Ek _ En) as Hk.
      rewrite (D2 k a e); auto. 2:{ apply nth_error_Some. congruence. }
      unfold below. split.
      * intros (H1 & H2). split; auto. intros i j m1 m2 b E1 E2 Hij Eg Eb.
        assert (i = k).
        { apply (nodup_nth (map m_name mats) i k (m_name m) Hm).
          - rewrite nth_error_map, E1. cbn. apply group_of_inj in Eg. congruence.
          - now rewrite nth_error_map, Ek. }
        subst i. apply (H2 j b); auto. eapply Hidx; eauto.
      * intros (H1 & H2). split; auto. intros j b Hj Hx. apply Hback in Hx as (m' & E1 & E2).
        apply (H2 k j m m' b); auto.
    + rewrite D3.
      * split; [|tauto]. intros H1. split; auto. intros i j m m' b E1 _ _ Eg. exfalso. apply Hnin. subst n.
        apply in_map. eapply nth_error_In; eauto.
      * intros k _ Hx. apply Hback in Hx as (m & E1 & E2). apply Hnin. replace n with (group_of m) by congruence.
        apply in_map. eapply nth_error_In; eauto.
Qed.

(** * Colours *)
Lemma set_colour_paint ge l c d : paint (set_colour ge l c) d =
  if existsb (fun x => pair_eq x d || existsb (fun y => pair_eq y d) (down ge x)) l then c else paint ge d.
Proof. reflexivity. Qed.

Definition on (ge : geometry) (l : list dimtag) (d : dimtag) : Prop :=
  exists x, In x l /\ (d = x \/ In d (down ge x)).
Lemma on_iff ge l d : existsb (fun x => pair_eq x d || existsb (fun y => pair_eq y d) (down ge x)) l = true <-> on ge l d.
Proof.
  rewrite existsb_exists. unfold on. split; intros (x & Hx & H); exists x; split; auto.
  - apply orb_true_iff in H as [H|H]; [apply pair_eq_iff in H; auto|]. right.
    apply existsb_exists in H as (y & Hy & E). apply pair_eq_iff in E. now subst.
  - apply orb_true_iff. destruct H as [->|H]; [left; apply pair_eq_refl|]. right.
    apply existsb_exists. exists d. split; auto. apply pair_eq_refl.
Qed.

Lemma index_of_spec l n : match index_of l n with
  | Some i => nth_error l i = Some n /\ forall j, (j < i)%nat -> nth_error l j <> Some n
  | None => ~ In n l
  end.
Proof.
  induction l as [|a l IH]; cbn; auto. destruct (String.eqb_spec a n) as [->|Hne].
  - cbn. split; auto. intros j Hj. lia.
  - destruct (index_of l n); cbn.
    + destruct IH as (H1 & H2). split; auto. intros [|j] Hj; cbn; [congruence|]. apply H2. lia.
    + intros [|]; auto.
Qed.
Lemma prefix_app a b : prefix a (a ++ b) = true.
Proof. induction a as [|c a IH]; cbn; [destruct b; auto|]. destruct (Ascii.ascii_dec c c); [auto|congruence]. Qed.

Lemma material_tags_ok mats dmax l : NoDup (map m_name mats) ->
  (forall x y, In x l -> In y l -> g_dim x = dmax -> g_dim y = dmax -> g_name x = g_name y -> x = y) ->
  forall ptags, length ptags = length mats ->
  (forall i x, nth_error ptags i = Some (Some x) -> exists m, nth_error mats i = Some m /\ g_name x = group_of m /\ g_dim x = dmax) ->
  let r := material_tags (map material_group mats) dmax l ptags in
  length r = length mats /\
  (forall i x, nth_error r i = Some (Some x) -> (In x l \/ nth_error ptags i = Some (Some x)) /\
     exists m, nth_error mats i = Some m /\ g_name x = group_of m /\ g_dim x = dmax) /\
  (forall i m x, nth_error mats i = Some m -> In x l -> g_name x = group_of m -> g_dim x = dmax ->
     nth_error r i = Some (Some x)) /\
  (forall i x, nth_error ptags i = Some (Some x) ->
     (forall y, In y l -> g_dim y = dmax -> g_name y = g_name x -> y = x) -> nth_error r i = Some (Some x)).
Proof.
  intros Hm. induction l as [|x l IH]; intros Hu ptags L Hp; cbn.
  - split; auto. split; [intros i x E; split; auto|]. split; [tauto|auto].
  - set (pt := if (g_dim x =? dmax) && prefix "Material_" (g_name x)
               then match index_of (map material_group mats) (g_name x) with
                    | Some i => upd ptags i (Some x) | None => ptags end
               else ptags).
    assert (Lpt : length pt = length mats).
    { unfold pt. destruct (_ && _); auto. destruct (index_of _ _); auto. now rewrite upd_length. }
    assert (Cases : (forall i m, nth_error mats i = Some m -> g_name x = group_of m -> g_dim x = dmax ->
                       pt = upd ptags i (Some x)) /\
                    ((forall i m, nth_error mats i = Some m -> g_name x = group_of m -> g_dim x <> dmax) -> pt = ptags)).
    { unfold pt. pose proof (index_of_spec (map material_group mats) (g_name x)) as Hix. split.
      - intros i m Ei En Ed. rewrite (proj2 (Z.eqb_eq _ _) Ed). rewrite En at 1. unfold group_of at 1.
        rewrite prefix_app. cbn [andb]. destruct (index_of _ _) as [k|].
        + destruct Hix as (H1 & _). f_equal. rewrite nth_error_map in H1. destruct (nth_error mats k) as [m'|] eqn:Ek; [|discriminate].
          change (Some (group_of m') = Some (g_name x)) in H1. apply (nodup_nth (map m_name mats) k i (m_name m) Hm).
          * rewrite nth_error_map, Ek. cbn. f_equal. apply group_of_inj. congruence.
          * now rewrite nth_error_map, Ei.
        + exfalso. apply Hix. rewrite En. change (group_of m) with (material_group m). apply in_map. eapply nth_error_In; eauto.
      - intros Hno. destruct (Z.eqb_spec (g_dim x) dmax) as [Ed|]; cbn [andb]; auto.
        destruct (prefix _ _); auto. destruct (index_of _ _) as [k|]; auto. destruct Hix as (H1 & _).
        rewrite nth_error_map in H1. destruct (nth_error mats k) as [m'|] eqn:Ek; [|discriminate].
        change (Some (group_of m') = Some (g_name x)) in H1. exfalso. apply (Hno k m'); auto. congruence. }
    destruct Cases as (C1 & C2).
    assert (Hpt : forall i y, nth_error pt i = Some (Some y) -> (x = y \/ nth_error ptags i = Some (Some y)) /\
       exists m, nth_error mats i = Some m /\ g_name y = group_of m /\ g_dim y = dmax).
    { intros i y Ei.
      destruct (Z.eq_dec (g_dim x) dmax) as [Ed|Ed].
      2:{ rewrite C2 in Ei by (intros; auto). split; auto. }
      destruct (in_dec string_dec (g_name x) (map group_of mats)) as [Hin|Hnin].
      - apply in_map_iff in Hin as (m & Em & Hin). apply In_nth_error in Hin as (k & Ek).
        rewrite (C1 k m) in Ei; auto. rewrite nth_error_upd in Ei.
        destruct ((k =? i)%nat && (k <? length ptags)%nat) eqn:Eb.
        + injection Ei as <-. apply andb_true_iff in Eb as (Eb & _). apply Nat.eqb_eq in Eb. subst k. split; eauto.
        + split; auto.
      - rewrite C2 in Ei. { split; auto. } intros i' m Ei' En. exfalso. apply Hnin. rewrite En. apply in_map. eapply nth_error_In; eauto. }
    destruct (IH) with (ptags := pt) as (R1 & R2 & R3 & R4); auto.
    { intros y z Hy Hz. apply Hu; now right. }
    { intros i y Ei. now apply Hpt in Ei as (_ & Ei). }
    split; auto. split.
    + intros i y Ei. apply R2 in Ei as ([Hy|Ey] & Hm'); [auto|]. apply Hpt in Ey as ([->|Ey] & _); auto.
    + split.
      * intros i m y Ei [<- |Hy] En Ed; [|eauto].
        assert (Ept : nth_error pt i = Some (Some x)).
        { rewrite (C1 i m) by auto. apply nth_error_upd_eq. rewrite L. apply nth_error_Some. congruence. }
        apply R4; auto. intros y Hy Edy Eny. apply Hu; auto; [now right|now left].
      * intros i y Ei Hy. apply R4; [|intros z Hz; apply Hy; now right].
        destruct (Hp _ _ Ei) as (m & Em & En & Ed).
        destruct (Z.eq_dec (g_dim x) dmax) as [Edx|Edx].
        2:{ rewrite C2; auto. }
        destruct (string_dec (g_name x) (g_name y)) as [Enx|Enx].
        -- assert (x = y) by (apply Hy; auto). subst y. rewrite (C1 i m) by auto. apply nth_error_upd_eq.
           rewrite L. apply nth_error_Some. congruence.
        -- destruct (in_dec string_dec (g_name x) (map group_of mats)) as [Hin|Hnin].
           ++ apply in_map_iff in Hin as (m' & Em' & Hin). apply In_nth_error in Hin as (k & Ek).
              rewrite (C1 k m') by auto. rewrite nth_error_upd_neq; auto. intros ->. congruence.
           ++ rewrite C2; auto. intros i' m' Ei' En'. exfalso. apply Hnin. rewrite En'. apply in_map. eapply nth_error_In; eauto.
Qed.

Lemma paint_frame ge dmax mats : forall pt, ents (paint_materials ge dmax mats pt) = ents ge /\
  down (paint_materials ge dmax mats pt) = down ge.
Proof. induction mats as [|m mats IH]; intros [|[x|] pt]; cbn; auto. Qed.

Lemma paint_materials_ok ge dmax mats : forall pt, length pt = length mats ->
  let at_ k d := exists x e, nth_error pt k = Some (Some x) /\ In e (g_ents x) /\ (d = (dmax, e) \/ In d (down ge (dmax, e))) in
  (forall d i m, nth_error mats i = Some m -> at_ i d -> (forall j, (j < i)%nat -> ~ at_ j d) ->
     paint (paint_materials ge dmax mats pt) d = m_colour m) /\
  (forall d, (forall i, (i < length mats)%nat -> ~ at_ i d) -> paint (paint_materials ge dmax mats pt) d = paint ge d).
Proof.
  induction mats as [|m mats IH]; intros [|o pt] L; try discriminate; cbn zeta.
  - split; [intros d [|i]; discriminate|auto].
  - cbn in L. destruct (IH pt) as (H1 & H2); [lia|]. cbn zeta in H1, H2.
    assert (Step : forall d, (forall x, o = Some x -> ~ on ge (map (pair dmax) (g_ents x)) d) ->
              paint (paint_materials ge dmax (m :: mats) (o :: pt)) d = paint (paint_materials ge dmax mats pt) d).
    { intros d Hno. destruct o as [x|]; cbn [paint_materials]; auto. rewrite set_colour_paint.
      destruct (existsb _ _) eqn:E; auto. exfalso. apply on_iff in E. apply (Hno x eq_refl).
      unfold on in *. now rewrite (proj2 (paint_frame ge dmax mats pt)) in E. }
    assert (On : forall x d, o = Some x -> (on ge (map (pair dmax) (g_ents x)) d <->
       exists x' e, nth_error (o :: pt) 0 = Some (Some x') /\ In e (g_ents x') /\ (d = (dmax, e) \/ In d (down ge (dmax, e))))).
    { intros x d ->. unfold on. split.
      - intros (y & Hy & Hd). apply in_map_iff in Hy as (e & <- & He). exists x, e. auto.
      - intros (x' & e & E & He & Hd). cbn in E. injection E as <-. exists (dmax, e). split; auto. now apply in_map. }
    split.
    + intros d [|i] m' Em Hat Hbefore.
      * cbn in Em. injection Em as <-. pose proof Hat as (x & e & E & _). cbn in E. injection E as ->.
        cbn [paint_materials]. rewrite set_colour_paint. destruct (existsb _ _) eqn:Ex; auto.
        exfalso. rewrite <- not_true_iff_false, on_iff in Ex. apply Ex.
        unfold on. rewrite (proj2 (paint_frame ge dmax mats pt)). apply (On x d eq_refl). exact Hat.
      * rewrite Step. { apply (H1 d i m'); auto. intros j Hj Hc. apply (Hbefore (S j)); [lia|]. exact Hc. }
        intros x Eo Hon. apply (Hbefore 0%nat); [lia|]. now apply (On x d Eo).
    + intros d Hno. rewrite Step. { apply H2. intros i Hi Hc. apply (Hno (S i)); [cbn; lia|exact Hc]. }
      intros x Eo Hon. apply (Hno 0%nat); [cbn; lia|]. now apply (On x d Eo).
Qed.

Lemma colour_ok g mats dim : well_formed g -> NoDup (map m_name mats) -> groups g <> [] ->
  (forall x, In x (groups g) -> g_dim x <= dim) -> (exists x, In x (groups g) /\ g_dim x = dim) ->
  names_differ g dim ->
  exists g', colour_materials g mats = Ret g' /\ groups g' = groups g /\ ents (geo g') = ents (geo g) /\
    down (geo g') = down (geo g) /\ coloured g' dim mats (geo g).
Proof.
  intros W Hm Hne Hmax (x0 & Hx0 & Ed0) Hn. unfold colour_materials.
  destruct (exists_last Hne) as (l & z & El). rewrite El, rev_app_distr. cbn [rev app]. rewrite <- El.
  assert (Ez : g_dim z = dim).
  { assert (Hz : In z (groups g)) by (rewrite El; apply in_app_iff; right; now left).
    pose proof (Hmax _ Hz). rewrite El in Hx0. apply in_app_iff in Hx0 as [Hx0|[<- |[]]]; auto.
    pose proof (wf_keys _ W) as A. rewrite El, map_app in A.
    assert (B : before (key x0) (key z)).
    { clear - A Hx0. induction l as [|y l IH]; [destruct Hx0|]. cbn [map app] in A. apply ascp_cons in A as (A1 & A2).
      destruct Hx0 as [->|Hx0]; auto. apply A2. apply in_app_iff. right. now left. }
    unfold before, key in B. cbn in B. lia. }
  rewrite Ez. destruct (material_tags_ok mats dim (groups g) Hm) with (ptags := repeat (@None group) (length mats)) as (R1 & R2 & R3 & _).
  { exact Hn. }
  { apply repeat_length. }
  { intros i x E. exfalso. apply nth_error_In, repeat_spec in E. discriminate. }
  set (pt := material_tags (map material_group mats) dim (groups g) (repeat None (length mats))) in *.
  eexists. split; [reflexivity|]. cbn [groups geo]. destruct (paint_frame (geo g) dim mats pt) as (F1 & F2).
  split; auto. split; auto. split; auto.
  destruct (paint_materials_ok (geo g) dim mats pt R1) as (P1 & P2). cbn zeta in P1, P2.
  set (g' := mkGm (groups g) (paint_materials (geo g) dim mats pt)).
  assert (T : forall i m d, nth_error mats i = Some m -> (touches g' dim m d <->
     exists x e, nth_error pt i = Some (Some x) /\ In e (g_ents x) /\ (d = (dim, e) \/ In d (down (geo g) (dim, e))))).
  { intros i m d Em. unfold touches, has. cbn [geo groups g']. rewrite F2. split.
    - intros (tag & e & (es & Hin & He) & Hd). exists (mkG dim tag (group_of m) es), e. split; auto. eapply R3; eauto.
    - intros (x & e & E & He & Hd). apply R2 in E as ([Hx|E] & m' & Em' & En & Ed).
      2:{ apply nth_error_In, repeat_spec in E. discriminate. }
      assert (m' = m) by congruence. subst m'. exists (g_tag x), e. split; auto. exists (g_ents x).
      destruct x as [a b c es]; cbn in *. subst. auto. }
  split.
  - intros d i m Em Ht Hb. cbn [geo]. apply (P1 d i m); auto.
    + now apply (T i m d).
    + intros j Hj Hc. assert (Hlt : (j < length mats)%nat). { assert (i < length mats)%nat by (apply nth_error_Some; congruence). lia. }
      apply nth_error_Some in Hlt. destruct (nth_error mats j) as [n|] eqn:En; [|congruence].
      apply (Hb j n Hj En). now apply (T j n d).
  - intros d Hno. cbn [geo]. apply P2. intros i Hi Hc. apply nth_error_Some in Hi.
    destruct (nth_error mats i) as [n|] eqn:En; [|congruence]. apply (Hno n); [eapply nth_error_In; eauto|].
    now apply (T i n d).
Qed.
