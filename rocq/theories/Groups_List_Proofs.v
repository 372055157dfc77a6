(** Orders, sorted lists and the standard library's algorithms on them. *)
From Coq Require Import String Ascii.
From Coq Require Import List Arith ZArith NArith Lia Bool Sorted.
From Verif Require Import Base Loops Groups_Model Groups_Spec.
Import ListNotations.
Open Scope Z_scope.

(** * Strings *)
Lemma ascii_compare_trans a b c : Ascii.compare a b = Lt -> Ascii.compare b c = Lt -> Ascii.compare a c = Lt.
Proof. unfold Ascii.compare. rewrite !N.compare_lt_iff. lia. Qed.
Lemma ascii_compare_refl a : Ascii.compare a a = Eq.
Proof. unfold Ascii.compare. apply N.compare_refl. Qed.

Lemma string_compare_refl s : String.compare s s = Eq.
Proof. induction s; cbn; auto. now rewrite ascii_compare_refl. Qed.

Lemma string_compare_trans a : forall b c, String.compare a b = Lt -> String.compare b c = Lt -> String.compare a c = Lt.
Proof.
  induction a as [|x a IH]; intros [|y b] [|z c]; cbn; try discriminate; auto.
  destruct (Ascii.compare x y) eqn:E1; try discriminate; destruct (Ascii.compare y z) eqn:E2; try discriminate; intros H1 H2.
  - apply Ascii.compare_eq_iff in E1, E2. subst. rewrite ascii_compare_refl. eauto.
  - apply Ascii.compare_eq_iff in E1. subst. now rewrite E2.
  - apply Ascii.compare_eq_iff in E2. subst. now rewrite E1.
  - now rewrite (ascii_compare_trans _ _ _ E1 E2).
Qed.

Lemma string_irr s : String.ltb s s = false.
Proof. unfold String.ltb. now rewrite string_compare_refl. Qed.
Lemma string_trans a b c : String.ltb a b = true -> String.ltb b c = true -> String.ltb a c = true.
Proof.
  unfold String.ltb. destruct (String.compare a b) eqn:E1; try discriminate.
  destruct (String.compare b c) eqn:E2; try discriminate. now rewrite (string_compare_trans _ _ _ E1 E2).
Qed.
Lemma string_tri a b : String.ltb a b = false -> String.ltb b a = false -> a = b.
Proof.
  unfold String.ltb. rewrite (String.compare_antisym b a). destruct (String.compare a b) eqn:E; cbn; try discriminate.
  intros _ _. now apply String.compare_eq_iff.
Qed.
Lemma z_irr a : Z.ltb a a = false. Proof. lia. Qed.
Lemma z_trans a b c : Z.ltb a b = true -> Z.ltb b c = true -> Z.ltb a c = true. Proof. lia. Qed.
Lemma z_tri a b : Z.ltb a b = false -> Z.ltb b a = false -> a = b. Proof. lia. Qed.

Lemma in_insert_at {A} (l : list A) i (v : A) a : In a (insert_at l i v) <-> a = v \/ In a l.
Proof.
  unfold insert_at. rewrite in_app_iff. cbn. rewrite <- (firstn_skipn i l) at 3. rewrite in_app_iff.
  firstorder congruence.
Qed.
Lemma length_insert_at {A} (l : list A) i v : length (insert_at l i v) = S (length l).
Proof.
  unfold insert_at. rewrite app_length. cbn. rewrite <- (firstn_skipn i l) at 3. rewrite app_length. lia.
Qed.

(** * lower_bound on a total order *)
Section Order.
Context {A : Type} (lt : A -> A -> bool).
Hypothesis irr : forall a, lt a a = false.
Hypothesis tr : forall a b c, lt a b = true -> lt b c = true -> lt a c = true.
Hypothesis tri : forall a b, lt a b = false -> lt b a = false -> a = b.

Lemma nlt_trans a b c : lt b a = false -> lt c b = false -> lt c a = false.
Proof.
  intros H1 H2. destruct (lt c a) eqn:E; auto. exfalso.
  destruct (lt a b) eqn:E1.
  - now rewrite (tr _ _ _ E E1) in H2.
  - pose proof (tri _ _ E1 H1). subst. congruence.
Qed.

Lemma sortedb_cons a l : sortedb lt (a :: l) = true <-> sortedb lt l = true /\ forall b, In b l -> lt b a = false.
Proof.
  revert a. induction l as [|c l IH]; intros a.
  - cbn. split; auto. intros _. split; auto. intros b [].
  - change (sortedb lt (a :: c :: l)) with (negb (lt c a) && sortedb lt (c :: l)).
    rewrite andb_true_iff, negb_true_iff. split.
    + intros (H1 & H2). split; auto. intros b [<- |Hb]; auto.
      apply nlt_trans with c; auto. now apply (proj2 (proj1 (IH c) H2)).
    + intros (H1 & H2). split; auto. apply H2. now left.
Qed.

Lemma fnl_spec l v : sortedb lt l = true ->
  let i := first_not_less lt l v in
  (i <= length l)%nat /\ (forall a, In a (firstn i l) -> lt a v = true) /\
  (forall a, In a (skipn i l) -> lt a v = false).
Proof.
  induction l as [|a l IH]; intros Hs.
  - cbn. repeat split; auto; intros a [].
  - apply sortedb_cons in Hs as (Hs & Ha). cbn. destruct (lt a v) eqn:E.
    + destruct (IH Hs) as (H1 & H2 & H3). cbn. split; [lia|]. split; auto.
      intros b [<- |Hb]; auto.
    + cbn. split; [lia|]. split; [tauto|]. intros b [<- |Hb]; auto.
      apply nlt_trans with a; auto.
Qed.

Lemma sortedb_app l m : sortedb lt (l ++ m) = true <->
  sortedb lt l = true /\ sortedb lt m = true /\ forall a b, In a l -> In b m -> lt b a = false.
Proof.
  induction l as [|c l IH].
  - cbn. tauto.
  - cbn [app]. rewrite !sortedb_cons, IH. split.
    + intros ((H1 & H2 & H3) & H4). repeat split; auto.
      * intros b Hb. apply H4. apply in_app_iff. auto.
      * intros a b [<- |Ha] Hb; auto. apply H4. apply in_app_iff. auto.
    + intros ((H1 & H2) & H3 & H4). repeat split; auto.
      * intros a b Ha Hb. apply H4; auto. now right.
      * intros b Hb. apply in_app_iff in Hb as [Hb|Hb]; auto. apply H4; auto. now left.
Qed.

Lemma insert_sorted l v : sortedb lt l = true -> sortedb lt (insert_at l (first_not_less lt l v) v) = true.
Proof.
  intros Hs. destruct (fnl_spec l v Hs) as (H1 & H2 & H3). set (i := first_not_less lt l v) in *.
  pose proof Hs as Hs'. rewrite <- (firstn_skipn i l) in Hs'. apply sortedb_app in Hs' as (S1 & S2 & S3).
  unfold insert_at. apply sortedb_app. split; auto. split.
  - apply sortedb_cons. split; auto.
  - intros a b Ha [<- |Hb]; auto. destruct (lt v a) eqn:E; auto. specialize (H2 _ Ha).
    pose proof (tr _ _ _ E H2) as Hc. now rewrite irr in Hc.
Qed.

Lemma lower_bound_ok l v : sortedb lt l = true -> lower_bound lt l v = Ret (first_not_less lt l v).
Proof. unfold lower_bound. now intros ->. Qed.

(** The element is found exactly if it is there. *)
Lemma fnl_found l v : sortedb lt l = true -> (In v l <-> nth_error l (first_not_less lt l v) = Some v).
Proof.
  intros Hs. destruct (fnl_spec l v Hs) as (H1 & H2 & H3). set (i := first_not_less lt l v) in *. split.
  - intros Hv. rewrite <- (firstn_skipn i l) in Hv. apply in_app_iff in Hv as [Hv|Hv].
    { apply H2 in Hv. now rewrite irr in Hv. }
    destruct (skipn i l) as [|a r] eqn:E; [destruct Hv|].
    assert (Ea : nth_error l i = Some a).
    { rewrite <- (firstn_skipn i l), nth_error_app2; rewrite firstn_length_le by auto; [|lia].
      rewrite Nat.sub_diag, E. reflexivity. }
    assert (Hs' : sortedb lt (a :: r) = true).
    { rewrite <- (firstn_skipn i l), E in Hs. now apply sortedb_app in Hs as (_ & Hs & _). }
    destruct Hv as [<- |Hv]; auto.
    apply sortedb_cons in Hs' as (_ & Hr). rewrite Ea. f_equal. apply tri; auto. apply H3. now left.
  - intros E. now apply nth_error_In in E.
Qed.
Lemma fnl_next l v a : sortedb lt l = true -> nth_error l (first_not_less lt l v) = Some a -> lt a v = false.
Proof.
  intros Hs E. destruct (fnl_spec l v Hs) as (H1 & H2 & H3). apply H3.
  set (i := first_not_less lt l v) in *. rewrite <- (firstn_skipn i l), nth_error_app2 in E; rewrite firstn_length_le in * by auto; [|lia].
  rewrite Nat.sub_diag in E. now apply nth_error_In in E.
Qed.
End Order.

(** * Ascending numbers *)
Lemma asc_cons a l : ascending (a :: l) <-> ascending l /\ forall b, In b l -> a < b.
Proof.
  unfold ascending. split.
  - intros H. apply StronglySorted_inv in H as (H1 & H2). rewrite Forall_forall in H2. auto.
  - intros (H1 & H2). constructor; auto. now apply Forall_forall.
Qed.
Lemma asc_app l m : ascending (l ++ m) <-> ascending l /\ ascending m /\ forall a b, In a l -> In b m -> a < b.
Proof.
  induction l as [|c l IH].
  - cbn. unfold ascending at 2. split; [|tauto]. intros H. repeat split; auto; [constructor|]. intros ? ? [].
  - cbn [app]. rewrite !asc_cons, IH. split.
    + intros ((H1 & H2 & H3) & H4). repeat split; auto.
      * intros b Hb. apply H4. apply in_app_iff. auto.
      * intros a b [<- |Ha] Hb; auto. apply H4. apply in_app_iff. auto.
    + intros ((H1 & H2) & H3 & H4). repeat split; auto.
      * intros a b Ha Hb. apply H4; auto. now right.
      * intros b Hb. apply in_app_iff in Hb as [Hb|Hb]; auto. apply H4; auto. now left.
Qed.
Lemma asc_nil : ascending []. Proof. constructor. Qed.
Lemma asc_sorted l : ascending l -> sortedb Z.ltb l = true.
Proof.
  induction l as [|a l IH]; intros H; auto. apply asc_cons in H as (H1 & H2).
  apply (sortedb_cons _ z_trans z_tri). split; auto. intros b Hb. specialize (H2 _ Hb). lia.
Qed.
Lemma asc_ext l : forall m, ascending l -> ascending m -> (forall e, In e l <-> In e m) -> l = m.
Proof.
  induction l as [|a l IH]; intros [|b m] Hl Hm H; auto.
  - exfalso. apply (proj2 (H b)). now left.
  - exfalso. apply (proj1 (H a)). now left.
  - apply asc_cons in Hl as (Hl & Ha), Hm as (Hm & Hb).
    assert (a = b).
    { destruct (proj1 (H a) (or_introl eq_refl)) as [E|E]; auto.
      destruct (proj2 (H b) (or_introl eq_refl)) as [E'|E']; auto. specialize (Ha _ E'). specialize (Hb _ E). lia. }
    subst b. f_equal. apply IH; auto. intros e. specialize (H e). cbn in H. split; intros He.
    + destruct (proj1 H (or_intror He)) as [<- |]; auto. specialize (Ha _ He). lia.
    + destruct (proj2 H (or_intror He)) as [<- |]; auto. specialize (Hb _ He). lia.
Qed.

Lemma insert_new_ok new e : ascending new ->
  exists new', insert_new new e = Ret new' /\ ascending new' /\ forall a, In a new' <-> a = e \/ In a new.
Proof.
  intros Ha. pose proof (asc_sorted _ Ha) as Hs. unfold insert_new. rewrite lower_bound_ok by auto. cbn.
  destruct (fnl_spec _ z_trans z_tri new e Hs) as (H1 & H2 & H3).
  pose proof (fnl_found _ z_irr z_trans z_tri new e Hs) as Hf.
  pose proof (fun a => fnl_next _ z_trans z_tri new e a Hs) as Hn.
  set (i := first_not_less Z.ltb new e) in *.
  assert (Hins : ~ In e new -> ascending (insert_at new i e)).
  { intros Hni. unfold insert_at. rewrite <- (firstn_skipn i new) in Ha. apply asc_app in Ha as (A1 & A2 & A3).
    apply asc_app. split; auto. split.
    - apply asc_cons. split; auto. intros b Hb. pose proof (H3 _ Hb).
      assert (b <> e). { intros ->. apply Hni. rewrite <- (firstn_skipn i new). apply in_app_iff. auto. } lia.
    - intros a b Hia [<- |Hb]; auto. specialize (H2 _ Hia). lia. }
  destruct (nth_error new i) as [a|] eqn:E.
  - destruct (Z.eqb_spec a e) as [->|Hne].
    + exists new. split; auto. split; auto. intros a. split; auto. intros [->|]; auto. now apply nth_error_In in E.
    + exists (insert_at new i e). split; auto. split.
      * apply Hins. rewrite Hf. congruence.
      * intros. apply in_insert_at.
  - exists (insert_at new i e). split; auto. split.
    + apply Hins. rewrite Hf. congruence.
    + intros. apply in_insert_at.
Qed.

Lemma insert_news_ok l : forall new, ascending new ->
  exists new', insert_news new l = Ret new' /\ ascending new' /\
    forall a, In a new' <-> In a new \/ exists c, In c l /\ snd c = a.
Proof.
  induction l as [|c l IH]; intros new Ha; cbn.
  - exists new. split; auto. split; auto. intros a. split; auto. intros [|(c & [] & _)]; auto.
  - destruct (insert_new_ok new (snd c) Ha) as (n1 & -> & A1 & I1). cbn.
    destruct (IH n1 A1) as (n2 & -> & A2 & I2). exists n2. split; auto. split; auto.
    intros a. rewrite I2, I1. split.
    + intros [[->|]|(c' & Hc & Hs)]; eauto.
    + intros [|(c' & [<- |Hc] & Hs)]; eauto.
Qed.

(** * normal *)
Lemma in_insert_tag e l a : In a (insert_tag e l) <-> a = e \/ In a l.
Proof.
  induction l as [|b l IH]; cbn; [intuition|]. destruct (Z.ltb_spec e b); cbn; [intuition|].
  destruct (Z.eqb_spec e b); cbn; [subst; intuition|]. rewrite IH. intuition.
Qed.
Lemma asc_insert_tag e l : ascending l -> ascending (insert_tag e l).
Proof.
  induction l as [|b l IH]; intros H; cbn.
  - constructor; constructor.
  - destruct (Z.ltb_spec e b).
    + pose proof H as H'. apply asc_cons in H' as (H1 & H2). apply asc_cons. split; auto.
      intros c [<- |Hc]; auto. specialize (H2 _ Hc). lia.
    + destruct (Z.eqb_spec e b); auto. apply asc_cons in H as (H1 & H2). apply asc_cons. split; auto.
      intros c Hc. apply in_insert_tag in Hc as [->|Hc]; auto. lia.
Qed.
Lemma in_normal l a : In a (normal l) <-> In a l.
Proof. induction l as [|e l IH]; [cbn; tauto|]. unfold normal. cbn [fold_right]. rewrite in_insert_tag. fold (normal l). rewrite IH. cbn. intuition. Qed.
Lemma asc_normal l : ascending (normal l).
Proof. induction l; [constructor|]. unfold normal. cbn [fold_right]. now apply asc_insert_tag. Qed.
Lemma normal_asc l : ascending l -> normal l = l.
Proof. intros H. apply asc_ext; auto using asc_normal. intros; apply in_normal. Qed.

(** * merge, set_intersection, set_difference *)
Lemma in_merge l : forall m e, In e (merge l m) <-> In e l \/ In e m.
Proof.
  induction l as [|a l IH]; [cbn; tauto|]. induction m as [|b m IHm]; intros e; cbn.
  - intuition.
  - destruct (b <? a).
    + cbn. cbn in IHm. rewrite IHm. intuition.
    + cbn. rewrite IH. cbn. intuition.
Qed.
Lemma in_intersection l : forall m e, ascending l -> ascending m -> (In e (intersection l m) <-> In e l /\ In e m).
Proof.
  induction l as [|a l IH]; [cbn; tauto|]. induction m as [|b m IHm]; intros e Hl Hm.
  - cbn. tauto.
  - pose proof Hl as Hl'. pose proof Hm as Hm'. apply asc_cons in Hl' as (Hl1 & Ha), Hm' as (Hm1 & Hb).
    change (intersection (a :: l) (b :: m)) with
      (if a <? b then intersection l (b :: m) else if b <? a then intersection (a :: l) m else a :: intersection l m).
    destruct (Z.ltb_spec a b).
    + rewrite IH by auto. cbn. split; [tauto|]. intros ([->|H1] & H2); auto.
      destruct H2 as [->|H2]; [lia|]. specialize (Hb _ H2). lia.
    + destruct (Z.ltb_spec b a).
      * rewrite IHm by auto. cbn. split; [tauto|]. intros (H1 & [->|H2]); auto.
        destruct H1 as [->|H1]; [lia|]. specialize (Ha _ H1). lia.
      * assert (a = b) by lia. subst b. cbn. rewrite IH by auto. split; [tauto|].
        intros ([->|H1] & [H2|H2]); auto; subst; try tauto.
Qed.
Lemma in_difference l : forall m e, ascending l -> ascending m -> (In e (difference l m) <-> In e l /\ ~ In e m).
Proof.
  induction l as [|a l IH]; [cbn; tauto|]. induction m as [|b m IHm]; intros e Hl Hm.
  - cbn. tauto.
  - pose proof Hl as Hl'. pose proof Hm as Hm'. apply asc_cons in Hl' as (Hl1 & Ha), Hm' as (Hm1 & Hb).
    change (difference (a :: l) (b :: m)) with
      (if a <? b then a :: difference l (b :: m) else if b <? a then difference (a :: l) m else difference l m).
    destruct (Z.ltb_spec a b).
    + cbn [In]. rewrite IH by auto. cbn [In]. split.
      * intros [->|]; [|tauto]. split; auto. intros [->|H1]; [lia|]. specialize (Hb _ H1). lia.
      * intros ([->|H1] & H2); auto.
    + destruct (Z.ltb_spec b a).
      * rewrite IHm by auto. cbn [In]. split; [|tauto]. intros (H1 & H2). split; auto.
        intros [->|H3]; auto. destruct H1 as [->|H1]; [lia|]. specialize (Ha _ H1). lia.
      * assert (a = b) by lia. subst b. rewrite IH by auto. cbn [In]. split.
        -- intros (H1 & H2). split; auto. intros [->|]; auto. specialize (Ha _ H1). lia.
        -- tauto.
Qed.
Lemma asc_filter_like l m : ascending l -> (exists f : Z -> bool, m = filter f l) -> ascending m.
Proof.
  intros H (f & ->). induction l as [|a l IH]; cbn; auto. apply asc_cons in H as (H1 & H2). destruct (f a); auto.
  apply asc_cons. split; auto. intros b Hb. apply filter_In in Hb as (Hb & _). auto.
Qed.
Lemma asc_difference l : forall m, ascending l -> ascending (difference l m).
Proof.
  induction l as [|a l IH]; [cbn; auto|]. intros m Hl. pose proof Hl as Hl'. apply asc_cons in Hl' as (Hl1 & Ha).
  assert (Hsub : forall l m e, In e (difference l m) -> In e l).
  { clear. induction l as [|a l IH]; [cbn; auto|]. induction m as [|b m IHm]; intros e; cbn; auto.
    destruct (a <? b); cbn.
    - intros [->|H]; auto. right. eauto.
    - destruct (b <? a); [exact (IHm e)|]. intros H. right. eauto. }
  induction m as [|b m IHm].
  - auto.
  - change (difference (a :: l) (b :: m)) with
      (if a <? b then a :: difference l (b :: m) else if b <? a then difference (a :: l) m else difference l m).
    destruct (a <? b).
    + apply asc_cons. split; auto. intros c Hc. apply Ha. eauto.
    + destruct (b <? a); auto.
Qed.
Lemma asc_intersection l : forall m, ascending l -> ascending (intersection l m).
Proof.
  induction l as [|a l IH]; [cbn; constructor|]. intros m Hl. pose proof Hl as Hl'. apply asc_cons in Hl' as (Hl1 & Ha).
  assert (Hsub : forall l m e, In e (intersection l m) -> In e l).
  { clear. induction l as [|a l IH]; [cbn; auto|]. induction m as [|b m IHm]; intros e; cbn; [tauto|].
    destruct (a <? b); cbn.
    - intros H. right. eauto.
    - destruct (b <? a); [exact (IHm e)|]. intros [->|H]; auto. right. eauto. }
  induction m as [|b m IHm].
  - cbn. constructor.
  - change (intersection (a :: l) (b :: m)) with
      (if a <? b then intersection l (b :: m) else if b <? a then intersection (a :: l) m else a :: intersection l m).
    destruct (a <? b); auto. destruct (b <? a); auto.
    apply asc_cons. split; auto. intros c Hc. apply Ha. eauto.
Qed.
Lemma both_sorted_ok {A} l m (k : outcome A) : ascending l -> ascending m -> both_sorted l m k = k.
Proof. intros H1 H2. unfold both_sorted. now rewrite !asc_sorted by auto. Qed.
