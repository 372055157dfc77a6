(** gmsh's groups, the check of the input and the new groups after an operation. *)
From Coq Require Import String.
From Coq Require Import List Arith ZArith Lia Bool Sorted Permutation.
From Verif Require Import Base Loops Groups_Model Groups_Spec Groups_List_Proofs.
Import ListNotations.
Open Scope Z_scope.

Lemma pair_lt_iff a b : pair_lt a b = true <-> before a b.
Proof. destruct a, b. unfold pair_lt, before. cbn. rewrite orb_true_iff, andb_true_iff. lia. Qed.
Lemma pair_eq_iff a b : pair_eq a b = true <-> a = b.
Proof.
  destruct a, b. unfold pair_eq. cbn. rewrite andb_true_iff, !Z.eqb_eq. split.
  - intros (-> & ->). reflexivity.
  - intros E. injection E as -> ->. auto.
Qed.
Lemma pair_eq_refl a : pair_eq a a = true.
Proof. now apply pair_eq_iff. Qed.
Lemma before_trans a b c : before a b -> before b c -> before a c.
Proof. destruct a, b, c. unfold before. cbn. lia. Qed.
Lemma before_irr a : ~ before a a.
Proof. destruct a. unfold before. cbn. lia. Qed.
Lemma before_tri a b : ~ before a b -> a <> b -> before b a.
Proof.
  destruct a as [x y], b as [u v]. unfold before. cbn. intros H1 H2.
  destruct (Z.eq_dec x u), (Z.eq_dec y v); subst; try lia. congruence.
Qed.

Lemma ascp_cons a l : ascending_pairs (a :: l) <-> ascending_pairs l /\ forall b, In b l -> before a b.
Proof.
  unfold ascending_pairs. split.
  - intros H. apply StronglySorted_inv in H as (H1 & H2). rewrite Forall_forall in H2. auto.
  - intros (H1 & H2). constructor; auto. now apply Forall_forall.
Qed.
Lemma ascp_nodup l : ascending_pairs l -> NoDup l.
Proof.
  induction l as [|a l IH]; intros H; constructor; apply ascp_cons in H as (H1 & H2); auto.
  intros Hi. exact (before_irr _ (H2 _ Hi)).
Qed.

(** * Groups *)
Lemma in_insert_group x l y : In y (insert_group x l) <-> y = x \/ In y l.
Proof.
  induction l as [|a l IH]; cbn; [intuition|]. destruct (pair_lt _ _); cbn; [intuition|]. rewrite IH. intuition.
Qed.
Lemma ascp_insert_group x l : ascending_pairs (map key l) -> (forall y, In y l -> key y <> key x) ->
  ascending_pairs (map key (insert_group x l)).
Proof.
  induction l as [|a l IH]; intros H Hn.
  - cbn. constructor; constructor.
  - cbn [map] in H. pose proof H as H'. apply ascp_cons in H' as (H1 & H2). cbn [insert_group].
    destruct (pair_lt (key x) (key a)) eqn:E.
    + apply pair_lt_iff in E. cbn [map]. apply ascp_cons. split; auto.
      intros b [<- |Hb]; auto. eapply before_trans; eauto.
    + cbn [map]. apply ascp_cons. split.
      * apply IH; auto. intros y Hy. apply Hn. now right.
      * intros b Hb. apply in_map_iff in Hb as (y & <- & Hy). apply in_insert_group in Hy as [->|Hy].
        -- apply before_tri.
           ++ intros Hb. apply pair_lt_iff in Hb. congruence.
           ++ intros Ek. apply (Hn a); auto. now left.
        -- apply H2. now apply in_map.
Qed.

Lemma wf_keys g : well_formed g -> ascending_pairs (map key (groups g)).
Proof. intros (H & _). exact H. Qed.
Lemma key_inj g x y : well_formed g -> In x (groups g) -> In y (groups g) -> key x = key y -> x = y.
Proof.
  intros H Hx Hy E. apply wf_keys, ascp_nodup in H. induction (groups g) as [|a l IH]; [destruct Hx|].
  cbn in H. inversion H as [|? ? Hn Hd]; subst. destruct Hx as [->|Hx], Hy as [->|Hy]; auto.
  - exfalso. apply Hn. rewrite E. now apply in_map.
  - exfalso. apply Hn. rewrite <- E. now apply in_map.
Qed.
Lemma has_group g x : well_formed g -> In x (groups g) -> exists e, has g (g_dim x) (g_tag x) (g_name x) e.
Proof.
  intros (_ & H) Hx. destruct (H _ Hx) as (_ & Hn & _). destruct x as [d t n es]; cbn in *.
  destruct es as [|e es]; [congruence|]. exists e, (e :: es). split; auto. now left.
Qed.

Lemma new_tag_spec gs dim : 0 < new_tag gs dim /\ forall x, In x gs -> g_dim x = dim -> g_tag x < new_tag gs dim.
Proof.
  unfold new_tag. set (f := fun (x : group) (m : Z) => if g_dim x =? dim then Z.max (g_tag x) m else m).
  assert (H : 0 <= fold_right f 0 gs /\ forall x, In x gs -> g_dim x = dim -> g_tag x <= fold_right f 0 gs).
  { induction gs as [|a gs (H1 & H2)]; cbn; [split; [lia|tauto]|]. unfold f at 1 3. split.
    - destruct (g_dim a =? dim); lia.
    - intros x [<- |Hx] E.
      + rewrite (proj2 (Z.eqb_eq _ _) E). lia.
      + specialize (H2 _ Hx E). destruct (g_dim a =? dim); lia. }
  destruct H as (H1 & H2). split; [lia|]. intros x Hx E. specialize (H2 _ Hx E). lia.
Qed.

Lemma add_group_ok g dim tags tag name : well_formed g -> 0 < tag ->
  (forall x, In x (groups g) -> key x <> (dim, tag)) ->
  exists g', add_group g dim tags tag name = Ret g' /\ well_formed g' /\ geo g' = geo g /\
    forall x, In x (groups g') <-> In x (groups g) \/ (tags <> [] /\ x = mkG dim tag name (normal tags)).
Proof.
  intros W Ht Hk. unfold add_group. destruct (Z.ltb_spec tag 0); [lia|].
  destruct (existsb (fun x => pair_eq (key x) (dim, tag)) (groups g)) eqn:Ex.
  { exfalso. apply existsb_exists in Ex as (x & Hx & E). apply pair_eq_iff in E. exact (Hk _ Hx E). }
  pose proof (asc_normal tags) as An. pose proof (in_normal tags) as In_.
  destruct (normal tags) as [|e es] eqn:E.
  - exists g. split; auto. split; auto. split; auto. intros x. split; auto. intros [|(Hn & _)]; auto.
    destruct tags as [|a tags]; [congruence|]. exfalso. apply (proj2 (In_ a)). now left.
  - eexists. split; [reflexivity|]. split; [|split; auto].
    + split.
      * apply (ascp_insert_group (mkG dim tag name (e :: es))); [now apply wf_keys|]. exact Hk.
      * intros x Hx. cbn in Hx. apply in_insert_group in Hx as [->|Hx]; [|now apply W].
        cbn. split; auto. split; [congruence|auto].
    + intros x. cbn. rewrite in_insert_group. split.
      * intros [->|]; auto. right. split; auto. intros ->. discriminate.
      * intros [|(_ & ->)]; auto.
Qed.
Lemma add_group_new g dim tags tag name : tag < 0 ->
  add_group g dim tags tag name = add_group g dim tags (new_tag (groups g) dim) name.
Proof.
  intros H. unfold add_group. rewrite (proj2 (Z.ltb_lt _ _) H).
  destruct (new_tag_spec (groups g) dim) as (Hp & _). destruct (Z.ltb_spec (new_tag (groups g) dim) 0); [lia|]. reflexivity.
Qed.

Lemma ascp_filter {B} (k : B -> dimtag) f l : ascending_pairs (map k l) -> ascending_pairs (map k (filter f l)).
Proof.
  induction l as [|a l IH]; cbn; auto. intros H. apply ascp_cons in H as (H1 & H2). destruct (f a); auto.
  cbn. apply ascp_cons. split; auto. intros b Hb. apply H2. apply in_map_iff in Hb as (y & <- & Hy).
  apply filter_In in Hy as (Hy & _). now apply in_map.
Qed.
Lemma remove_group_ok g dim tag : well_formed g ->
  well_formed (remove_group g dim tag) /\
  forall x, In x (groups (remove_group g dim tag)) <-> In x (groups g) /\ key x <> (dim, tag).
Proof.
  intros W.
  assert (E : forall x, In x (groups (remove_group g dim tag)) <-> In x (groups g) /\ key x <> (dim, tag)).
  { intros x. cbn. rewrite filter_In, negb_true_iff, <- not_true_iff_false, pair_eq_iff. reflexivity. }
  split; auto. split.
  - cbn. apply (ascp_filter key). now apply wf_keys.
  - intros x Hx. apply E in Hx as (Hx & _). now apply W.
Qed.

(** * The input *)
Lemma ascp_sorted l : ascending_pairs l <-> sortedb pair_lt l = true /\ uniqueb l = true.
Proof.
  induction l as [|a [|b l] IH].
  - cbn. split; auto. intros _. constructor.
  - cbn. split; auto. intros _. constructor; constructor.
  - change (sortedb pair_lt (a :: b :: l)) with (negb (pair_lt b a) && sortedb pair_lt (b :: l)).
    change (uniqueb (a :: b :: l)) with (negb (pair_eq a b) && uniqueb (b :: l)).
    rewrite !andb_true_iff, !negb_true_iff, <- !not_true_iff_false, pair_lt_iff, pair_eq_iff. split.
    + intros H. apply ascp_cons in H as (H1 & H2). apply IH in H1 as (H3 & H4).
      specialize (H2 b (or_introl eq_refl)). repeat split; auto.
      * intros Hc. apply (before_irr a). eapply before_trans; eauto.
      * intros ->. exact (before_irr _ H2).
    + intros ((H1 & H2) & H3 & H4). pose proof (proj2 IH (conj H2 H4)) as H5. apply ascp_cons. split; auto.
      assert (before a b) by (apply before_tri; auto).
      intros c [<- |Hc]; auto. apply ascp_cons in H5 as (_ & H5). eapply before_trans; eauto.
Qed.
Lemma last_in {A} (l : list A) d : l <> [] -> In (last l d) l.
Proof.
  intros H. destruct (exists_last H) as (l' & a & ->). rewrite last_last. apply in_app_iff. right. now left.
Qed.
Lemma ascp_same o l : ascending_pairs (o :: l) -> fst o = fst (last (o :: l) o) ->
  forall d, In d (o :: l) -> fst d = fst o.
Proof.
  intros H E d Hd.
  assert (H1 : fst o <= fst d).
  { apply ascp_cons in H as (_ & H). destruct Hd as [<- |Hd]; [lia|]. specialize (H _ Hd). unfold before in H. lia. }
  assert (H2 : fst d <= fst (last (o :: l) o)).
  { clear E H1. assert (Hn : o :: l <> []) by discriminate. destruct (exists_last Hn) as (l' & z & E).
    rewrite E, last_last in *. clear Hn. revert H Hd. clear E. induction l' as [|y l' IH]; cbn [app].
    - intros _ [<- |[]]. lia.
    - intros H [<- |Hd].
      + apply ascp_cons in H as (_ & H). specialize (H z). rewrite in_app_iff in H.
        specialize (H (or_intror (or_introl eq_refl))). unfold before in H. lia.
      + apply IH; auto. now apply ascp_cons in H as (H & _). }
  lia.
Qed.
Lemma input_check_iff objs tools dim : input_check objs tools = Ret dim <-> accepted objs tools dim.
Proof.
  unfold input_check, accepted. destruct objs as [|o objs]; [split; [discriminate|tauto]|].
  destruct tools as [|t tools]; [split; [discriminate|tauto]|].
  set (O := o :: objs). set (T := t :: tools). rewrite (ascp_sorted O), (ascp_sorted T).
  assert (HO : In (last O o) O) by (apply last_in; discriminate).
  assert (HT : In (last T t) T) by (apply last_in; discriminate).
  destruct (sortedb pair_lt O) eqn:S1; cbn [negb]; [|split; [discriminate|intuition discriminate]].
  destruct (sortedb pair_lt T) eqn:S2; cbn [negb]; [|split; [discriminate|intuition discriminate]].
  destruct (uniqueb O) eqn:U1; cbn [negb]; [|split; [discriminate|intuition discriminate]].
  destruct (uniqueb T) eqn:U2; cbn [negb]; [|split; [discriminate|intuition discriminate]].
  assert (Hall : forall P : Prop, (accepted O T dim -> P) ->
    (O <> [] /\ T <> [] /\ (true = true /\ true = true) /\ (true = true /\ true = true) /\
     (forall d, In d (O ++ T) -> fst d = dim) /\ (dim = 2 \/ dim = 3)) -> P).
  { intros P HP (_ & _ & _ & _ & H3 & H4). apply HP. unfold accepted. rewrite !ascp_sorted.
    split; [discriminate|]. split; [discriminate|]. auto. }
  assert (Ho : In o O) by now left. assert (Htt : In t T) by now left.
  destruct (Z.eqb_spec (fst o) (fst (last O o))) as [E1|E1]; cbn [negb].
  2:{ split; [discriminate|]. apply Hall. intros (_ & _ & _ & _ & H & _). exfalso. apply E1.
      rewrite !H; auto; apply in_app_iff; auto. }
  destruct (Z.eqb_spec (fst t) (fst (last T t))) as [E2|E2]; cbn [negb].
  2:{ split; [discriminate|]. apply Hall. intros (_ & _ & _ & _ & H & _). exfalso. apply E2.
      rewrite !H; auto; apply in_app_iff; auto. }
  destruct (Z.eqb_spec (fst o) (fst t)) as [E3|E3]; cbn [negb].
  2:{ split; [discriminate|]. apply Hall. intros (_ & _ & _ & _ & H & _). exfalso. apply E3.
      rewrite !H; auto; apply in_app_iff; auto. }
  destruct (negb (fst o =? 2) && negb (fst o =? 3)) eqn:E4.
  { split; [discriminate|]. apply Hall. intros (_ & _ & _ & _ & H & H').
    assert (fst o = dim) by (apply H; apply in_app_iff; auto). subst dim.
    rewrite andb_true_iff, !negb_true_iff, !Z.eqb_neq in E4. lia. }
  split.
  - intros E. injection E as <-. split; [discriminate|]. split; [discriminate|]. split; auto. split; auto. split.
    + intros d Hd. apply in_app_iff in Hd as [Hd|Hd].
      * apply (ascp_same o objs); auto. apply ascp_sorted; auto.
      * rewrite E3. apply (ascp_same t tools); auto. apply ascp_sorted; auto.
    + rewrite andb_false_iff, !negb_false_iff, !Z.eqb_eq in E4. auto.
  - apply Hall. intros (_ & _ & _ & _ & H & _). f_equal. apply H. apply in_app_iff; auto.
Qed.
Lemma input_check_cases objs tools : (exists dim, input_check objs tools = Ret dim) \/ input_check objs tools = Fail.
Proof.
  unfold input_check. destruct objs; auto. destruct tools; auto.
  repeat match goal with |- context [if ?b then _ else _] => destruct b; eauto end.
Qed.

(** * The groups by name *)
Lemma perm_insert_at {A} (l : list A) i v : Permutation (v :: l) (insert_at l i v).
Proof. unfold insert_at. rewrite <- (firstn_skipn i l) at 1. apply Permutation_middle. Qed.
Lemma map_insert_at {A B} (f : A -> B) l i v : map f (insert_at l i v) = insert_at (map f l) i (f v).
Proof. unfold insert_at. now rewrite map_app, firstn_map, skipn_map. Qed.

Lemma group_info_ok l dim : forall acc, sortedb String.ltb (map g_name acc) = true ->
  exists info, group_info l dim acc = Ret info /\ sortedb String.ltb (map g_name info) = true /\
    Permutation info (acc ++ filter (fun x => g_dim x =? dim) l).
Proof.
  induction l as [|x l IH]; intros acc Hs; cbn [group_info filter].
  - exists acc. rewrite app_nil_r. auto.
  - destruct (g_dim x =? dim) eqn:E; cbn [negb]; [|now apply IH].
    unfold insert_by_name. rewrite lower_bound_ok by auto. cbn.
    destruct (IH (insert_at acc (first_not_less String.ltb (map g_name acc) (g_name x)) x)) as (info & -> & H1 & H2).
    + rewrite map_insert_at. apply (insert_sorted _ string_irr string_trans string_tri). exact Hs.
    + exists info. split; auto. split; auto. rewrite H2. rewrite <- perm_insert_at. cbn. apply Permutation_middle.
Qed.

(** * The new entities of a group *)
Lemma fnl_skip tags e : forall i, (forall a, In a (firstn i tags) -> a < e) ->
  (i <= length tags)%nat -> advance tags i e = first_not_less Z.ltb tags e.
Proof.
  unfold advance. induction tags as [|a tags IH]; intros [|i] H Hi; auto.
  cbn in Hi. lia. cbn. rewrite (proj2 (Z.ltb_lt a e)) by (apply H; now left). f_equal.
  apply IH; [|cbn in Hi; lia]. intros b Hb. apply H. now right.
Qed.
Lemma fnl_le tags e : (first_not_less Z.ltb tags e <= length tags)%nat.
Proof. induction tags as [|a tags IH]; cbn; [lia|]. destruct (a <? e); lia. Qed.
Lemma fnl_before tags e : forall a, In a (firstn (first_not_less Z.ltb tags e) tags) -> a < e.
Proof.
  induction tags as [|a tags IH]; cbn; [tauto|]. destruct (Z.ltb_spec a e); cbn; [|tauto].
  intros b [<- |Hb]; auto.
Qed.
Lemma at_tag_found tags e : ascending tags ->
  (at_tag tags (first_not_less Z.ltb tags e) e = true <-> In e tags) /\
  (In e tags -> nth_error tags (first_not_less Z.ltb tags e) = Some e).
Proof.
  intros H. pose proof (fnl_found _ z_irr z_trans z_tri tags e (asc_sorted _ H)) as Hf. unfold at_tag.
  destruct (nth_error tags (first_not_less Z.ltb tags e)) as [a|] eqn:E.
  - rewrite Z.eqb_eq. split.
    + rewrite Hf. split; congruence.
    + intros Hi. now apply Hf in Hi.
  - split.
    + rewrite Hf. split; discriminate.
    + intros Hi. now apply Hf in Hi.
Qed.

Lemma asc_snd dim l : ascending_pairs l -> (forall d, In d l -> fst d = dim) -> ascending (map snd l).
Proof.
  induction l as [|a l IH]; intros H Hd; [constructor|]. apply ascp_cons in H as (H1 & H2). cbn.
  apply asc_cons. split.
  - apply IH; auto. intros d Hi. apply Hd. now right.
  - intros b Hb. apply in_map_iff in Hb as (d & <- & Hi). specialize (H2 _ Hi).
    pose proof (Hd a (or_introl eq_refl)). pose proof (Hd d (or_intror Hi)). unfold before in H2. lia.
Qed.
Lemma in_snd (dim : Z) (l : list dimtag) (p : Z) : (forall d, In d l -> fst d = dim) -> (In p (map snd l) <-> In (dim, p) l).
Proof.
  intros H. split.
  - intros Hi. apply in_map_iff in Hi as ((a & b) & <- & Hi). specialize (H _ Hi). cbn in *. now subst.
  - intros Hi. now apply (in_map snd) in Hi.
Qed.
Lemma nth_snd (dim : Z) (l : list dimtag) k (p : Z) : (forall d, In d l -> fst d = dim) ->
  (nth_error (map snd l) k = Some p <-> nth_error l k = Some (dim, p)).
Proof.
  unfold dimtag in *. intros H. rewrite nth_error_map. destruct (nth_error l k) as [(a & b)|] eqn:E; cbn; [|split; discriminate].
  apply nth_error_In in E. specialize (H _ E). cbn in H. subst. split; congruence.
Qed.
Lemma nth_asc_inj l i j a : ascending l -> nth_error l i = Some a -> nth_error l j = Some a -> i = j.
Proof.
  revert i j. induction l as [|b l IH]; intros [|i] [|j] H E1 E2; cbn in *; try discriminate; auto;
    apply asc_cons in H as (H1 & H2).
  - injection E1 as ->. apply nth_error_In in E2. specialize (H2 _ E2). lia.
  - injection E2 as ->. apply nth_error_In in E1. specialize (H2 _ E1). lia.
  - f_equal. eauto.
Qed.

Section New.
Variables (dim : Z) (objs tools : list dimtag) (omap : list (list dimtag)).
Hypothesis acc : accepted objs tools dim.
Hypothesis Hlen : length omap = (length objs + length tools)%nat.

Let otags := map snd objs.
Let ttags := map snd tools.

Lemma fst_objs : forall d, In d objs -> fst d = dim.
Proof. intros d Hd. destruct acc as (_ & _ & _ & _ & H & _). apply H. apply in_app_iff; auto. Qed.
Lemma fst_tools : forall d, In d tools -> fst d = dim.
Proof. intros d Hd. destruct acc as (_ & _ & _ & _ & H & _). apply H. apply in_app_iff; auto. Qed.
Lemma asc_o : ascending otags.
Proof. apply asc_snd with dim; [apply acc|apply fst_objs]. Qed.
Lemma asc_t : ascending ttags.
Proof. apply asc_snd with dim; [apply acc|apply fst_tools]. Qed.

Definition ready (e : Z) (oi ti : nat) : Prop :=
  (oi <= length otags)%nat /\ (ti <= length ttags)%nat /\
  (forall a, In a (firstn oi otags) -> a < e) /\ (forall a, In a (firstn ti ttags) -> a < e).

Lemma step_ok e oi ti new : ready e oi ti -> ascending new ->
  exists oi' ti' new', step otags ttags omap e (oi, ti, new) = Ret (oi', ti', new') /\
    ready e oi' ti' /\ ascending new' /\
    forall a, In a new' <-> In a new \/ piece dim objs tools omap e a.
Proof.
  intros (R1 & R2 & R3 & R4) An. unfold step. rewrite (fnl_skip otags e oi) by auto.
  set (i := first_not_less Z.ltb otags e).
  destruct (at_tag_found otags e asc_o) as (Ho & Hoi). fold i in Ho, Hoi.
  destruct (at_tag otags i e) eqn:Eo.
  - assert (Hi : In e otags) by now apply Ho. specialize (Hoi Hi). apply (nth_snd dim) in Hoi; [|apply fst_objs].
    assert (Hlt : (i < length omap)%nat).
    { rewrite Hlen. assert (i < length objs)%nat by (apply nth_error_Some; congruence). lia. }
    destruct (nth_error omap i) as [cs|] eqn:Ec; [|apply nth_error_None in Ec; lia].
    unfold rd. rewrite Ec. cbn. destruct (insert_news_ok cs new An) as (new' & -> & A' & I'). cbn.
    exists i, ti, new'. split; auto. split.
    { split; [apply fnl_le|]. split; auto. split; [apply fnl_before|auto]. }
    split; auto. intros a. rewrite I'. unfold piece. split.
    + intros [|(c & Hc & Hs)]; auto. right. left. exists i, cs, c. auto.
    + intros [|[(k & cs' & c & K1 & K2 & K3 & K4)|[(K & _)|(K & _)]]]; auto.
      * assert (k = i).
        { apply (nth_snd dim) in K1, Hoi; try apply fst_objs. exact (nth_asc_inj _ _ _ _ asc_o K1 Hoi). }
        subst k. right. exists c. split; congruence.
      * exfalso. apply K. eapply nth_error_In; eauto.
      * exfalso. apply K. eapply nth_error_In; eauto.
  - assert (Hni : ~ In (dim, e) objs).
    { rewrite <- in_snd by apply fst_objs. intros Hc. apply Ho in Hc. discriminate. }
    rewrite (fnl_skip ttags e ti) by auto. set (j := first_not_less Z.ltb ttags e).
    destruct (at_tag_found ttags e asc_t) as (Ht & Htj). fold j in Ht, Htj.
    assert (R' : ready e i j).
    { split; [apply fnl_le|]. split; [apply fnl_le|]. split; apply fnl_before. }
    assert (No : forall a, ~ (exists k cs c, nth_error objs k = Some (dim, e) /\ nth_error omap k = Some cs /\ In c cs /\ snd c = a)).
    { intros a (k & cs & c & K & _). apply Hni. eapply nth_error_In; eauto. }
    destruct (at_tag ttags j e) eqn:Et.
    + assert (Hi : In e ttags) by now apply Ht. specialize (Htj Hi). apply (nth_snd dim) in Htj; [|apply fst_tools].
      assert (Hlt : (j < length tools)%nat) by (apply nth_error_Some; congruence).
      assert (Hlo : length otags = length objs) by apply map_length. rewrite Hlo.
      destruct (nth_error omap (j + length objs)) as [cs|] eqn:Ec; [|apply nth_error_None in Ec; lia].
      unfold rd. rewrite Ec. cbn. destruct (insert_news_ok cs new An) as (new' & -> & A' & I'). cbn.
      exists i, j, new'. split; auto. split; auto. split; auto.
      intros a. rewrite I'. unfold piece. split.
      * intros [|(c & Hc & Hs)]; auto. right. right. left. split; auto. exists j, cs, c.
        rewrite (Nat.add_comm (length objs) j). auto.
      * intros [|[K|[(_ & k & cs' & c & K1 & K2 & K3 & K4)|(_ & K & _)]]]; auto.
        -- exfalso. exact (No _ K).
        -- assert (k = j).
           { apply (nth_snd dim) in K1, Htj; try apply fst_tools. exact (nth_asc_inj _ _ _ _ asc_t K1 Htj). }
           subst k. rewrite (Nat.add_comm (length objs) j) in K2. right. exists c. split; congruence.
        -- exfalso. apply K. eapply nth_error_In; eauto.
    + assert (Hnt : ~ In (dim, e) tools).
      { rewrite <- in_snd by apply fst_tools. intros Hc. apply Ht in Hc. discriminate. }
      destruct (insert_new_ok new e An) as (new' & -> & A' & I'). cbn.
      exists i, j, new'. split; auto. split; auto. split; auto.
      intros a. rewrite I'. unfold piece. split.
      * intros [->|]; auto 6.
      * intros [|[K|[(_ & k & cs' & c & K1 & _)|(_ & _ & ->)]]]; auto.
        -- exfalso. exact (No _ K).
        -- exfalso. apply Hnt. eapply nth_error_In; eauto.
Qed.

Lemma steps_ok tags : forall oi ti new, ascending tags -> (forall e, In e tags -> ready e oi ti) -> ascending new ->
  exists s, steps otags ttags omap tags (oi, ti, new) = Ret s /\ ascending (snd s) /\
    forall a, In a (snd s) <-> In a new \/ exists p, In p tags /\ piece dim objs tools omap p a.
Proof.
  induction tags as [|e tags IH]; intros oi ti new At Hr An; cbn [steps].
  - eexists. split; [reflexivity|]. split; auto. intros a. cbn. split; auto. intros [|(p & [] & _)]; auto.
  - apply asc_cons in At as (At & Ae).
    destruct (step_ok e oi ti new) as (oi' & ti' & new' & -> & R & A' & I'); auto.
    { apply Hr. now left. }
    cbn. destruct (IH oi' ti' new' At) as (s & -> & As & Is); auto.
    { intros e' He'. specialize (Ae _ He'). destruct R as (R1 & R2 & R3 & R4). repeat split; auto.
      - intros a Ha. specialize (R3 _ Ha). lia.
      - intros a Ha. specialize (R4 _ Ha). lia. }
    exists s. split; auto. split; auto. intros a. rewrite Is, I'. split.
    + intros [[|]|(p & Hp & Hpa)]; eauto.
    + intros [|(p & [<- |Hp] & Hpa)]; eauto.
Qed.

Lemma new_group_ok x : ascending (g_ents x) ->
  exists es, new_group otags ttags omap x = Ret es /\ ascending es /\
    forall e, In e es <-> inherits dim objs tools omap x e.
Proof.
  intros H. unfold new_group. destruct (steps_ok (g_ents x) 0 0 [] H) as (s & -> & As & Is).
  - intros e _. repeat split; try lia; intros a [].
  - constructor.
  - cbn. exists (snd s). split; auto. split; auto. intros e. rewrite Is. unfold inherits. split.
    + intros [[]|]; auto.
    + auto.
Qed.

Lemma new_groups_ok info : (forall x, In x info -> ascending (g_ents x)) ->
  exists post, new_groups objs tools omap info = Ret post /\
    Forall2 (fun x es => ascending es /\ forall e, In e es <-> inherits dim objs tools omap x e) info post.
Proof.
  unfold new_groups. fold otags ttags. induction info as [|x info IH]; intros H; cbn.
  - exists []. auto.
  - destruct (new_group_ok x) as (es & -> & A & I_); [apply H; now left|]. cbn.
    destruct IH as (post & -> & F). { intros y Hy. apply H. now right. }
    cbn. exists (es :: post). split; auto.
Qed.
End New.
