(** Proofs for the last part of overlayCoarseGrid. *)
From Coq Require Import String Ascii.
From Coq Require Import Reals.
From Coq Require Import List Arith ZArith Lia Bool Sorted.
From Verif Require Import Base Loops Mpact_Model.
From Verif Require Import Groups_Model Groups_Spec Groups_List_Proofs Groups_Ops_Proofs Groups_Hier_Proofs Groups_Proofs Pins_Proofs.
From Verif Require Import Coarse_Model Overlay_Model Overlay_Spec Overlay_Proofs Slice_Model Slice_Spec.
Import ListNotations.
Open Scope Z_scope.
Local Notation mat := Groups_Model.material.

Lemma asc_nil : ascending []. Proof. constructor. Qed.
Lemma surfaces_of_ok ge : forall vs acc, ascending acc -> exists l, surfaces_of ge vs acc = Ret l /\ ascending l /\
  forall t, In t l <-> In t acc \/ exists v, In v vs /\ In (2, t) (down ge (3, v)).
Proof.
  induction vs as [|v vs IH]; intros acc Ha; cbn [surfaces_of].
  - exists acc. split; auto. split; auto. intros t. split; auto. intros [|(v & [] & _)]; auto.
  - destruct (insert_news_ok (filter (fun d => fst d =? 2) (down ge (3, v))) acc Ha) as (l1 & -> & A1 & I1). cbn [bind].
    destruct (IH l1 A1) as (l & -> & A & I2). exists l. split; auto. split; auto. intros t. rewrite I2, I1.
    assert (Hf : (exists c, In c (filter (fun d => fst d =? 2) (down ge (3, v))) /\ snd c = t) <-> In (2, t) (down ge (3, v))).
    { split.
      - intros ((a, b) & Hc & <-). apply filter_In in Hc as (Hc & E). apply Z.eqb_eq in E. cbn in *. now subst.
      - intros H. exists (2, t). split; auto. apply filter_In. auto. }
    rewrite Hf. split.
    + intros [[H|H]|(w & Hw & H)]; [now left|right; exists v; split; [now left|auto]|right; exists w; split; [now right|auto]].
    + intros [H|(w & [<-|Hw] & H)]; [left; now left|left; now right|right; eauto].
Qed.

Definition surface_of (ge : geometry) (x : group) (e : Z) : Prop := exists v, In v (g_ents x) /\ In (2, e) (down ge (3, v)).
Lemma add_surfaces_ok : forall l g, well_formed g -> names_differ g 2 -> NoDup (map g_name l) ->
  (forall x u e, In x l -> ~ has g 2 u (g_name x) e) ->
  exists g', add_surfaces g l = Ret g' /\ well_formed g' /\ geo g' = geo g /\ names_differ g' 2 /\
    (forall d u n e, has g' d u n e -> has g d u n e \/ (d = 2 /\ exists x, In x l /\ g_name x = n /\ surface_of (geo g) x e)) /\
    (forall d u n e, has g d u n e -> has g' d u n e) /\
    (forall x e, In x l -> surface_of (geo g) x e -> exists u, has g' 2 u (g_name x) e).
Proof.
  induction l as [|x l IH]; intros g W N Hd Hn; cbn [add_surfaces].
  - exists g. split; auto. split; auto. split; auto. split; auto. split; [auto|]. split; auto. intros x e [].
  - destruct (surfaces_of_ok (geo g) (g_ents x) [] asc_nil) as (tags & -> & At & It). cbn [bind].
    rewrite add_group_as.
    2:{ intros y Hy Ed En. destruct (has_group g y W Hy) as (e & He). rewrite Ed, En in He. apply (Hn x (g_tag y) e); [now left|auto]. }
    destruct (add_to_group_ok g 2 tags (-1) (g_name x) W At ltac:(left; lia)) as (g1 & t & E1 & W1 & G1 & H1 & _).
    rewrite E1. cbn [bind]. cbn [map] in Hd. apply NoDup_cons_iff in Hd as (Hx & Hd).
    destruct (IH g1 W1) as (g' & E & W' & G' & N' & F1 & F2 & F3); auto.
    + apply names_by_has; auto. intros u v n e f A B. apply H1 in A as [A|(_ & -> & -> & _)]; apply H1 in B as [B|(_ & -> & Eb & _)].
      * exact (has_by_names _ _ _ _ _ _ _ N A B).
      * subst n. exfalso. eapply Hn; [now left|exact A].
      * exfalso. eapply Hn; [now left|exact B].
      * auto.
    + intros y u e Hy Hh. apply H1 in Hh as [Hh|(_ & _ & En & _)]; [eapply Hn; [right; exact Hy|exact Hh]|]. apply Hx. rewrite <- En. now apply in_map.
    + exists g'. rewrite G1 in *. split; auto. split; auto. split; auto. split; auto. split; [|split].
      * intros d u n e Hh. apply F1 in Hh as [Hh|(-> & y & Hy & En & Hs)].
        -- apply H1 in Hh as [Hh|(-> & _ & -> & He)]; auto. right. split; auto. exists x. split; [now left|]. split; auto. apply It in He as [[]|He]. exact He.
        -- right. split; auto. exists y. split; [now right|auto].
      * intros d u n e Hh. apply F2, H1. now left.
      * intros y e [<-|Hy] Hs; [|now apply F3]. exists t. apply F2, H1. right. split; auto. split; auto. split; auto. apply It. now right.
Qed.

Lemma remove_volumes_ok g : well_formed g ->
  well_formed (remove_volumes g) /\ (forall d u n e, has (remove_volumes g) d u n e <-> has g d u n e /\ d <> 3).
Proof.
  intros W. split.
  - split; [cbn; apply (ascp_filter (fun x => (g_dim x, g_tag x))), W|]. intros x Hx. cbn in Hx. apply filter_In in Hx as (Hx & _). now apply W.
  - intros d u n e. unfold has. cbn [remove_volumes groups]. split.
    + intros (es & Hi & He). apply filter_In in Hi as (Hi & Hd). apply negb_true_iff, Z.eqb_neq in Hd. cbn in Hd. split; eauto.
    + intros ((es & Hi & He) & Hd). exists es. split; auto. apply filter_In. split; auto. now apply negb_true_iff, Z.eqb_neq.
Qed.

Lemma pieces_of_ok omap : forall n i acc, ascending acc -> (i + n <= length omap)%nat ->
  exists l, pieces_of omap i n acc = Ret l /\ ascending l /\
    forall a, In a l <-> In a acc \/ exists k cs c, (i <= k < i + n)%nat /\ nth_error omap k = Some cs /\ In c cs /\ snd c = a.
Proof.
  induction n as [|n IH]; intros i acc Ha Hl; cbn [pieces_of].
  - exists acc. split; auto. split; auto. intros a. split; auto. intros [|(k & _ & _ & H & _)]; [auto|lia].
  - destruct (nth_error omap i) as [cs|] eqn:Ei; [|apply nth_error_None in Ei; lia]. unfold rd. rewrite Ei. cbn [bind].
    destruct (insert_news_ok cs acc Ha) as (l1 & -> & A1 & I1). cbn [bind]. destruct (IH (S i) l1 A1 ltac:(lia)) as (l & -> & A & I2).
    exists l. split; auto. split; auto. intros a. rewrite I2, I1. split.
    + intros [[H|(c & Hc & Hs)]|(k & cs' & c & Hk & H)]; [now left|right; exists i, cs, c; split; [lia|auto]|right; exists k, cs', c; split; [lia|auto]].
    + intros [H|(k & cs' & c & Hk & Ek & Hc & Hs)]; [left; now left|]. destruct (Nat.eq_dec k i) as [->|Hne].
      * left. right. exists c. split; auto. congruence.
      * right. exists k, cs', c. split; [lia|auto].
Qed.

Lemma flat_ents (l : list dimtag) : filter (fun d : dimtag => fst d =? 2) (filter (fun d : dimtag => negb (fst d =? 3)) l) = filter (fun d : dimtag => fst d =? 2) l.
Proof.
  induction l as [|a r IH]; [reflexivity|]. cbn [filter]. destruct (Z.eqb_spec (fst a) 3) as [Ea|Ea]; cbn [negb filter]; rewrite IH; [|reflexivity].
  rewrite Ea. reflexivity.
Qed.

(** what the last removal leaves *)
Lemma drop_ok g keep : well_formed g -> ascending_pairs (ents (geo g)) -> (forall d d', In d' (down (geo g) d) -> fst d' < fst d) ->
  (forall e, In e keep -> In (2, e) (ents (geo g))) -> ascending keep ->
  (forall d u n e, has g d u n e -> d = 2 /\ In (2, e) (ents (geo g))) ->
  let g' := remove_entities g (map (pair 2) (difference (map snd (entities (geo g) 2)) keep)) in
  well_formed g' /\ paint (geo g') = paint (geo g) /\ (forall d u n e, has g' d u n e <-> has g d u n e /\ In e keep) /\
    (forall e, In (2, e) (ents (geo g')) <-> In e keep) /\
    (forall e d, In e keep -> In d (down (geo g) (2, e)) -> In d (ents (geo g)) -> In d (ents (geo g'))) /\
    (forall d, In d (ents (geo g')) -> In d (ents (geo g))).
Proof.
  intros W As Hd Kin Ak Hh. cbv zeta. pose proof (entities_asc (geo g) 2 As) as Ea. set (all := map snd (entities (geo g) 2)) in *.
  set (rm := map (pair 2) (difference all keep)).
  assert (Hrm : forall d e, In (d, e) rm <-> d = 2 /\ In (2, e) (ents (geo g)) /\ ~ In e keep).
  { intros d e. unfold rm. rewrite in_map_iff. split.
    - intros (e' & [= <- <-] & He). apply in_difference in He as (He & Hn); auto. apply in_entities in He. auto.
    - intros (-> & He & Hn). exists e. split; auto. apply in_difference; auto. split; auto. now apply in_entities. }
  assert (Hrd : forall x, In x rm -> fst x = 2). { intros (d, e) Hx. apply Hrm in Hx as (-> & _). reflexivity. }
  assert (Hst : forall e, In e keep -> In (2, e) (filter (fun d => negb (existsb (pair_eq d) rm) && negb (bounds (geo g) rm d)) (ents (geo g)))).
  { intros e He. apply filter_In. split; auto. apply andb_true_iff. rewrite !negb_true_iff, <- !not_true_iff_false, existsb_pair, bounds_iff. split.
    - intros H. apply Hrm in H as (_ & _ & H). auto.
    - intros (x & Hx & Hb). apply Hd in Hb. rewrite (Hrd _ Hx) in Hb. cbn in Hb. lia. }
  destruct (remove_ok g rm W) as (W' & H'). split; auto. split; auto. split; [|split; [|split]].
  - intros d u n e. rewrite H'. split.
    + intros (H & Hn). split; auto. destruct (Hh _ _ _ _ H) as (-> & He).
      destruct (in_dec Z.eq_dec e keep) as [Hi|Hi]; auto. exfalso. apply Hn, Hrm. auto.
    + intros (H & HK). split; auto. intros Hi. apply Hrm in Hi. tauto.
  - intros e. cbn. rewrite filter_In, andb_true_iff, negb_true_iff, <- not_true_iff_false, existsb_pair. split.
    + intros (He & Hn & _). destruct (in_dec Z.eq_dec e keep) as [Hi|Hi]; auto. exfalso. apply Hn, Hrm. auto.
    + intros HK. specialize (Hst e HK). apply filter_In in Hst as (He & E). apply andb_true_iff in E as (E1 & E2).
      rewrite E2. split; auto. split; auto. intros Hi. apply Hrm in Hi. tauto.
  - intros e d HK Hdown Hin. cbn. apply filter_In. split; auto. apply andb_true_iff. split.
    + rewrite negb_true_iff, <- not_true_iff_false, existsb_pair. intros Hi. apply Hrd in Hi. apply Hd in Hdown. cbn in Hdown. lia.
    + apply orb_true_iff. right. apply bounds_iff. exists (2, e). split; auto.
  - intros d H. cbn in H. now apply filter_In in H as (H & _).
Qed.

Section Main.
Variables (g0 g : gm) (fill : mat) (mats : list mat) (make : maker) (op : operation) (ps : list place).
Variables (ge2 : geometry) (tags : list Z) (ge4 : geometry) (omap : list (list dimtag)).
Hypothesis W : well_formed g.
Hypothesis Hnames : names_differ g 3.
Hypothesis Hdim : forall d u n e, has g d u n e -> d = 3 /\ In (3, e) (ents (geo g)).
Hypothesis Hord : ascending_pairs (ents (geo g)).
Hypothesis Hclosed : forall v t, In (3, v) (ents (geo g)) -> In (2, t) (down (geo g) (3, v)) -> In (2, t) (ents (geo g)).
Hypothesis Hpass : passed g0 fill mats.
Hypothesis Hmat : forall u n e, has g 3 u ("Material_" ++ n) e -> exists m, In m mats /\ m_name m = n.
Hypothesis Hgl0 : well_formed g0.
Hypothesis Emake : make_all make (geo g) 2 (map Some ps) = Ret (ge2, tags).
Hypothesis Has : ascending tags.
Hypothesis Hnew : forall t u, In t tags -> In (2, u) (ents (geo g)) -> u < t.
Hypothesis Hne : tags <> [].
Notation objs := (entities (geo g) 2).
Notation tools := (map (pair 2) tags).
Notation pc := (piece 2 objs tools omap).
Definition hollowed : geometry := mkGeo (filter (fun d => negb (fst d =? 3)) (ents ge2)) (down ge2) (paint ge2).
Hypothesis Hop : op hollowed objs tools = (ge4, omap).
Hypothesis Hin : intersects op.
Hypothesis Hsome : exists n e, bounds_group g objs tags omap n e.

Lemma objs_in d : In d objs <-> In d (ents (geo g)) /\ fst d = 2.
Proof. unfold entities. rewrite filter_In, Z.eqb_eq. tauto. Qed.
Lemma objs_asc : ascending_pairs objs.
Proof. unfold entities. rewrite <- map_id. apply ascp_filter. now rewrite map_id. Qed.
Lemma bounding u n v t : has g 3 u n v -> In (2, t) (down (geo g) (3, v)) -> In (2, t) objs.
Proof. intros H Ht. apply objs_in. split; auto. apply (Hclosed v); auto. now apply Hdim in H as (_ & H). Qed.
Lemma acc2 : accepted objs tools 2.
Proof.
  split. { destruct Hsome as (n & e & u & v & t & H & Ht & _). pose proof (bounding _ _ _ _ H Ht) as B. intros E. rewrite E in B. destruct B. }
  split; [destruct tags; [congruence|discriminate]|]. split; [apply objs_asc|]. split.
  - clear -Has. induction tags as [|t r IH]; [constructor|]. apply asc_cons in Has as (H1 & H2). cbn. apply ascp_cons. split; auto.
    intros b Hb. apply in_map_iff in Hb as (c & <- & Hc). right. cbn. auto.
  - split; auto. intros d Hd. apply in_app_iff in Hd as [H|H]; [now apply objs_in in H|]. apply in_map_iff in H as (t & <- & _). reflexivity.
Qed.
Lemma tag_not_obj t : In t tags -> ~ In (2, t) objs.
Proof. intros Ht Ho. apply objs_in in Ho as (Ho & _). specialize (Hnew _ _ Ht Ho). lia. Qed.
Lemma ints : length omap = (length objs + length tools)%nat /\ ascending_pairs (ents ge4) /\
  (forall cs c, In cs omap -> In c cs -> In c (ents ge4) /\ fst c = 2) /\ (forall d d', In d' (down ge4 d) -> fst d' < fst d).
Proof. exact (Hin _ _ _ _ _ _ Hop acc2). Qed.
Lemma piece_ent p e : In (2, p) objs \/ In p tags -> pc p e -> In (2, e) (ents ge4).
Proof.
  destruct ints as (_ & _ & H & _). intros Hp [(k & cs & c & E1 & E2 & Hc & <-)|[(_ & k & cs & c & E1 & E2 & Hc & <-)|(H1 & H2 & _)]].
  - destruct (H cs c) as (A & B); auto; [eapply nth_error_In; eauto|]. rewrite <- B. now destruct c.
  - destruct (H cs c) as (A & B); auto; [eapply nth_error_In; eauto|]. rewrite <- B. now destruct c.
  - exfalso. destruct Hp as [Hp|Hp]; [auto|]. apply H2. now apply in_map.
Qed.

Theorem sliced_ok : exists g', slice make op g (map Some ps) mats = Ret g' /\ sliced g0 g g' fill objs tags ge4 omap.
Proof.
  destruct Hpass as (l & f & Em & Ef & Hnd & Hm). destruct ints as (FL & FA & FC & FD).
  (* the groups of surfaces *)
  assert (No2 : forall u n e, ~ has g 2 u n e) by (intros u n e H; apply Hdim in H as (H & _); lia).
  assert (Gdim : forall x, In x (groups g) -> g_dim x = 3).
  { intros x Hx. destruct (has_group g x W Hx) as (e & He). now apply Hdim in He as (He & _). }
  destruct (add_surfaces_ok (groups g) g W) as (g1 & E1 & W1 & G1 & N1 & F1 & F2 & F3).
  { intros x y Hx _ Ex. rewrite (Gdim x Hx) in Ex. lia. }
  { apply NoDup_nth_error. intros i j Hi Ei. rewrite map_length in Hi. rewrite !nth_error_map in Ei.
    destruct (nth_error (groups g) i) as [x|] eqn:Xi; [|apply nth_error_None in Xi; lia].
    destruct (nth_error (groups g) j) as [y|] eqn:Xj; [|discriminate]. cbn in Ei. injection Ei as Ei.
    assert (x = y). { apply Hnames; auto; try (apply Gdim); eapply nth_error_In; eauto. } subst y.
    assert (ND : NoDup (groups g)). { apply (NoDup_map_inv key). apply ascp_nodup. now apply wf_keys. }
    apply (proj1 (NoDup_nth_error (groups g)) ND); [apply nth_error_Some; congruence|congruence]. }
  { intros x u e _. apply No2. }
  assert (S1 : forall x e, In x (groups g) -> surface_of (geo g) x e -> In (2, e) objs).
  { intros x e Hx (v & Hv & He). apply (bounding (g_tag x) (g_name x) v); auto. rewrite <- (Gdim x Hx). now apply has_of. }
  set (g2 := remove_volumes (mkGm (groups g1) ge2)).
  destruct (remove_volumes_ok (mkGm (groups g1) ge2)) as (W2 & H2).
  { exact W1. }
  fold g2 in W2, H2. change (forall d u n e, has g2 d u n e <-> has g1 d u n e /\ d <> 3) in H2.
  (* g2 in terms of g *)
  assert (B2 : forall u n p, has g2 2 u n p -> exists u' v, has g 3 u' n v /\ In (2, p) (down (geo g) (3, v))).
  { intros u n p H. apply H2 in H as (H & _). apply F1 in H as [H|(_ & x & Hx & En & v & Hv & Hp)]; [destruct (No2 _ _ _ H)|].
    exists (g_tag x), v. split; auto. rewrite <- En, <- (Gdim x Hx). now apply has_of. }
  assert (B2' : forall u' n v p, has g 3 u' n v -> In (2, p) (down (geo g) (3, v)) -> exists u, has g2 2 u n p).
  { intros u' n v p H Hp. apply of_has in H as (x & Hx & _ & _ & En & Hv). destruct (F3 x p Hx) as (u & Hu); [exists v; auto|].
    exists u. apply H2. split; [|lia]. now rewrite <- En. }
  assert (N2 : names_differ g2 2).
  { intros x y Hx Hy. unfold g2 in Hx, Hy. cbn in Hx, Hy. apply filter_In in Hx as (Hx & _). apply filter_In in Hy as (Hy & _). now apply N1. }
  assert (Obj2 : forall u n p, has g2 2 u n p -> In (2, p) objs).
  { intros u n p H. apply B2 in H as (u' & v & H & Hp). eapply bounding; eauto. }
  assert (Inh : forall n u e, (exists x, In x (groups g2) /\ g_dim x = 2 /\ g_tag x = u /\ g_name x = n /\ inherits 2 objs tools omap x e) <->
                exists p, has g2 2 u n p /\ pc p e).
  { intros n u e. split.
    - intros (x & Hx & Ed & <- & <- & p & Hp & Hpe). exists p. split; auto. rewrite <- Ed. now apply has_of.
    - intros (p & Hp & Hpe). apply of_has in Hp as (x & Hx & Ed & Eu & En & Hp). exists x. repeat (split; auto). exists p. auto. }
  assert (Bnd : forall n e, bounds_group g objs tags omap n e <-> exists u p, has g2 2 u n p /\ pc p e).
  { intros n e. split.
    - intros (u & v & t & H & Ht & Hp). destruct (B2' _ _ _ _ H Ht) as (u2 & H'). exists u2, t. auto.
    - intros (u & p & H & Hp). apply B2 in H as (u' & v & H & Hd). exists u', v, p. auto. }
  destruct (group_preserving_ok op g2 objs tools mats 2 ge4 omap W2 acc2) as (g3 & E3 & W3 & P & GE & GD & Col); auto.
  { right. destruct Hsome as (n & e & Hb). apply Bnd in Hb as (u & Hb). apply Inh in Hb as (x & Hx & Ed & _ & _ & Hi). exists x, e. auto. }
  assert (Ex3 : forall d u n e, has g3 d u n e -> d = 2 /\ exists p, has g2 2 u n p /\ pc p e).
  { intros d u n e Hh. apply P in Hh as (-> & x & Hx & Ed & Eu & En & Hi & _). split; auto. apply Inh. exists x. auto. }
  assert (Other3 : forall u n e, (forall m, In m mats -> n <> group_of m) -> (exists p, has g2 2 u n p /\ pc p e) -> has g3 2 u n e).
  { intros u n e Hno Hp. apply Inh in Hp as (x & Hx & Ed & Eu & En & Hi). apply P. split; auto. exists x. repeat (split; auto).
    intros y _ _ (i & j & m & m' & Ei & _ & _ & Ex & _). exfalso. apply (Hno m); [eapply nth_error_In; eauto|congruence]. }
  destruct (pieces_of_ok omap (length tools) (length objs) [] asc_nil ltac:(lia)) as (keep & E5 & Ak & Ik).
  assert (HK : forall e, In e keep <-> in_grid 2 objs tags omap e).
  { intros e. rewrite Ik. split.
    - intros [[]|(k & cs & c & Hk & Ek & Hc & Hs)]. rewrite map_length in Hk. set (i := (k - length objs)%nat).
      destruct (nth_error tags i) as [t|] eqn:Et; [|apply nth_error_None in Et; unfold i in Et; lia].
      exists i, t. split; auto. right. left. split; [apply tag_not_obj; eapply nth_error_In; eauto|]. exists i, cs, c.
      split; [rewrite nth_error_map, Et; reflexivity|]. split; [unfold i; rewrite <- Ek; f_equal; lia|auto].
    - intros (i & t & Et & [(k & cs & c & K1 & _)|[(_ & k & cs & c & K1 & K2 & Hc & Hs)|(_ & K2 & _)]]).
      + exfalso. apply (tag_not_obj t); eapply nth_error_In; eauto.
      + right. exists (length objs + k)%nat, cs, c. split; [|auto]. assert (k < length tools)%nat by (apply nth_error_Some; intros Z0; pose proof (eq_trans (eq_sym K1) Z0); discriminate). lia.
      + exfalso. apply K2. apply in_map. eapply nth_error_In; eauto. }
  assert (Kin : forall e, In e keep -> In (2, e) (ents ge4)).
  { intros e He. apply HK in He as (i & t & Et & Hp). apply (piece_ent t); auto. right. eapply nth_error_In; eauto. }
  destruct (remove_volumes_ok g3 W3) as (W4 & H4). set (g4 := remove_volumes g3) in *.
  assert (Ents4 : forall e, In (2, e) (ents (geo g4)) <-> In (2, e) (ents ge4)).
  { intros e. unfold g4. cbn. rewrite GE, filter_In. cbn. intuition. }
  assert (All4 : entities (geo g4) 2 = entities (geo g3) 2).
  { exact (flat_ents (ents (geo g3))). }
  destruct (drop_ok g4 keep W4) as (W' & PA & H' & HE & HB & HS).
  { unfold g4. cbn. rewrite GE. rewrite <- map_id. apply ascp_filter. now rewrite map_id. }
  { unfold g4. cbn. rewrite GD. exact FD. }
  { intros e He. now apply Ents4, Kin. }
  { exact Ak. }
  { intros d u n e Hh. apply H4 in Hh as (Hh & _). apply Ex3 in Hh as (-> & p & Hp & Hpe). split; auto. apply Ents4. apply (piece_ent p); auto. left. eapply Obj2; eauto. }
  set (g' := remove_entities g4 (map (pair 2) (difference (map snd (entities (geo g4) 2)) keep))) in *.
  assert (Hh' : forall d u n e, has g' d u n e <-> has g3 d u n e /\ in_grid 2 objs tags omap e).
  { intros d u n e. rewrite H', H4, HK. split; [tauto|]. intros (A & B). split; [|auto]. split; auto. apply Ex3 in A as (-> & _). lia. }
  assert (MatOf : forall u n p, has g2 2 u ("Material_" ++ n) p -> exists m, In m mats /\ m_name m = n).
  { intros u n p H. apply B2 in H as (u' & v & H & _). eapply Hmat; eauto. }
  assert (Mat3 : forall u n e, has g3 2 u ("Material_" ++ n) e -> exists m, In m mats /\ m_name m = n /\ group_of m = ("Material_" ++ n)%string).
  { intros u n e Hh. apply Ex3 in Hh as (_ & p & Hp & _). destruct (MatOf _ _ _ Hp) as (m & Hm1 & Hm2). exists m. split; auto. split; auto. now apply group_of_name. }
  pose proof (one_material_of g2 2 objs tools omap mats W2 acc2 FL Hnd g3 P N2) as One.
  assert (Same : forall n n' u u' e, has g3 2 u ("Material_" ++ n) e -> has g3 2 u' ("Material_" ++ n') e -> n = n').
  { intros n n' u u' e A B. destruct (Mat3 _ _ _ A) as (m & Hm1 & En & Eg). destruct (Mat3 _ _ _ B) as (m' & Hm1' & En' & Eg').
    rewrite <- Eg in A. rewrite <- Eg' in B. destruct (One e) as (O1 & _). destruct (O1 m m' u u' Hm1 Hm1' A B) as (Emm & _). rewrite <- En, <- En', Emm. reflexivity. }
  exists g'. split.
  { unfold slice. rewrite E1. cbn [bind]. rewrite G1, Emake. cbn [bind fst snd]. rewrite (sort_asc tags Has). fold g2.
    replace (op (geo g2) objs tools) with (ge4, omap) by (rewrite <- Hop; reflexivity). cbn [snd]. rewrite E3. cbn [bind]. rewrite E5. cbn [bind].
    rewrite both_sorted_ok; [|apply entities_asc; now rewrite GE|auto]. fold g4. unfold g'. now rewrite All4. }
  constructor.
  - intros e. rewrite HE. apply HK.
  - intros e He. apply HS in He. unfold g4 in He. cbn in He. apply filter_In in He as (_ & He). discriminate.
  - intros e d He Hd Hdi. apply HE in He. apply (HB e d He); unfold g4; cbn; [now rewrite GD|].
    rewrite GE. apply filter_In. split; auto. apply negb_true_iff, Z.eqb_neq. apply FD in Hd. cbn in Hd. lia.
  - exact W'.
  - apply names_by_has; auto. intros u v n a b Ha Hb. apply Hh' in Ha as (Ha & _). apply Hh' in Hb as (Hb & _).
    apply Ex3 in Ha as (_ & p & Hp & _). apply Ex3 in Hb as (_ & q & Hq & _). exact (has_by_names _ _ _ _ _ _ _ N2 Hp Hq).
  - intros d u n e H. apply Hh' in H as (H & Hg). apply Ex3 in H as (-> & _). auto.
  - intros n e Hn. split.
    + intros (u & H). apply Hh' in H as (H & Hg). split; auto. apply Ex3 in H as (_ & p & Hp & Hpe). apply Bnd. exists u, p. auto.
    + intros (Hg & Hb). apply Bnd in Hb as (u & Hb). exists u. apply Hh'. split; auto. apply Other3; auto.
      intros m _ E. apply Hn. rewrite E. now exists (m_name m).
  - intros n e (u & H). apply Hh' in H as (H & _). apply Ex3 in H as (_ & p & Hp & Hpe). apply Bnd. exists u, p. auto.
  - intros n n' e (u & A) (u' & B). apply Hh' in A as (A & _). apply Hh' in B as (B & _). exact (Same _ _ _ _ _ A B).
  - intros n e Hg Hb. apply Bnd in Hb as (u & Hb). pose proof Hb as (p & Hp & _). destruct (MatOf _ _ _ Hp) as (m & Hm1 & Em1).
    apply Inh in Hb as (x & Hx & Ed & Eu & En & Hi). destruct (One e) as (_ & O2). destruct (O2 x m) as (m' & v & Hm' & Hh); auto.
    { rewrite En. symmetry. now apply group_of_name. }
    exists (m_name m'), v. apply Hh'. split; auto.
  - intros n e (u & H) Hb. destruct (string_dec n (m_name fill)) as [|Hnn]; auto. exfalso. apply Hh' in H as (H & _).
    apply P in H as (_ & y & Hy & Edy & Euy & Eny & Hiy & Hout). apply Bnd in Hb as (v & Hb). pose proof Hb as (p & Hp & _). destruct (MatOf _ _ _ Hp) as (m' & Hm' & En').
    apply Inh in Hb as (z & Hz & Edz & _ & Enz & Hiz).
    assert (Hl : In m' l). { rewrite Em in Hm'. apply in_app_iff in Hm' as [H|[H|[]]]; auto. exfalso. subst m'. congruence. }
    destruct (In_nth_error _ _ Hl) as (j & Ej). assert (Hjl : (j < length l)%nat) by (apply nth_error_Some; congruence).
    apply (Hout z Hz Edz); auto. exists (length l), j, f, m'. split; [rewrite Em; apply nth_error_mid|].
    split; [rewrite Em, nth_error_app1; auto|]. split; auto. split.
    + rewrite Eny. unfold group_of. congruence.
    + rewrite Enz. symmetry. now apply group_of_name.
  - intros n e (u & Hh). apply Hh' in Hh as (Hh & _). destruct (Mat3 _ _ _ Hh) as (m & Hmi & En & Eg).
    rewrite PA. destruct (In_nth_error _ _ Hmi) as (i & Ei). change (paint (geo g4) (2, e)) with (paint (geo g3) (2, e)).
    assert (Hpaint : paint (geo g3) (2, e) = m_colour m).
    { apply (proj1 Col (2, e) i m Ei).
      - exists u, e. rewrite Eg. auto.
      - intros j m' Hj Ej (u' & e' & Hh2 & [[= <-]|Hdn]).
        + destruct (One e) as (O1 & _). rewrite <- Eg in Hh. destruct (O1 m' m u' u) as (-> & _); auto; [eapply nth_error_In; eauto|].
          assert (j = i); [|lia].
          apply (proj1 (NoDup_nth_error (map m_name mats)) Hnd); [apply nth_error_Some; rewrite nth_error_map, Ej; discriminate|]. now rewrite !nth_error_map, Ej, Ei.
        + rewrite GD in Hdn. apply FD in Hdn. cbn in Hdn. lia. }
    rewrite Hpaint. apply Hm in Hmi as [Hfm|(-> & Hnf)].
    + right. exists m. auto.
    + left. split; auto. split; auto. intros x Hx Hxn. apply Hnf. destruct (In_nth_error _ _ Hx) as (k & Ek).
      rewrite <- En in Hxn. exact (find_names g0 (m_name fill) Hgl0 k x Ek Hxn).
Qed.
End Main.

Theorem flat_grid_ok make fragment intersect m fill g objs ps :
  consists (geo g) 2 objs -> gridless g 2 -> makes make -> adds make -> fragments fragment ->
  find_cells m = Ret (map Some ps) -> ps <> [] -> Z.of_nat (length ps) <= 100000 -> Forall solid_place ps ->
  exists g' ge1 tags ge omap, overlay_grid make fragment intersect m fill g = Ret g' /\ shapes make 2 (geo g) ps ge1 tags /\
    fragment ge1 objs (map (pair 2) tags) = (ge, omap) /\ gridded g g' fill 2 objs tags ge omap.
Proof.
  intros Hc Hgl Hmk Had Hfr Hps Hne Hlen Hsol.
  destruct (lay_ok make fragment fill g 2 objs ps) as (ms & g' & ge1 & tags & ge & omap & Eg & _ & E & Sh & Eop & G); auto.
  exists g', ge1, tags, ge, omap. split; [|auto]. unfold overlay_grid. rewrite (dim_objs g 2 objs Hc (gl_ordered _ _ Hgl)), Hps. cbn [bind]. rewrite Eg. cbn [bind]. rewrite E. reflexivity.
Qed.

Theorem solid_grid_ok make fragment intersect m fill g objs ps :
  consists (geo g) 3 objs -> gridless g 3 -> makes make -> adds make -> fragments fragment -> closes fragment -> intersects intersect ->
  find_cells m = Ret (map Some ps) -> ps <> [] -> Z.of_nat (length ps) <= 100000 -> Forall solid_place ps ->
  exists g1 ge1 tags ge omap,
    (shapes make 3 (geo g) ps ge1 tags /\ fragment ge1 objs (map (pair 3) tags) = (ge, omap) /\ gridded g g1 fill 3 objs tags ge omap) /\
    exists surf ge2 tags2 ge3 ge4 omap2,
      (surfaces (geo g1) surf /\ shapes make 2 (geo g1) ps ge2 tags2 /\ hollow ge2 ge3 /\ intersect ge3 surf (map (pair 2) tags2) = (ge4, omap2)) /\
      ((exists n e, bounds_group g1 surf tags2 omap2 n e) ->
       exists g', overlay_grid make fragment intersect m fill g = Ret g' /\ sliced g g1 g' fill surf tags2 ge4 omap2).
Proof.
  intros Hc Hgl Hmk Had Hfr Hcl Hin Hps Hne Hlen Hsol.
  destruct (lay_ok make fragment fill g 3 objs ps) as (ms & g1 & ge1 & tags & ge & omap & Eg & Hpass & E & Sh & Eop & G); auto.
  exists g1, ge1, tags, ge, omap. split; [auto|].
  destruct (make_all_ok make 2 Hmk Had ps (geo g1) Hsol) as (ge2 & tags2 & Em & Sh2 & L2 & As2 & Hab2 & _).
  destruct (intersect (hollowed ge2) (entities (geo g1) 2) (map (pair 2) tags2)) as (ge4 & omap2) eqn:Ei.
  destruct (gr_ordered _ _ _ _ _ _ _ _ G) as (Ho & Hdn).
  exists (entities (geo g1) 2), ge2, tags2, (hollowed ge2), ge4, omap2. split.
  { split; [split; [now apply objs_asc|intros d; apply objs_in]|]. split; [auto|]. split; [|auto]. split; [|split; reflexivity].
    intros d. cbn. rewrite filter_In, negb_true_iff, Z.eqb_neq. tauto. }
  intros Hsome.
  assert (Ne2 : tags2 <> []) by (intros ->; destruct ps; [congruence|discriminate]).
  assert (Hdim : forall d u n e, has g1 d u n e -> d = 3 /\ In (3, e) (ents (geo g1))).
  { intros d u n e H. apply (gr_dim _ _ _ _ _ _ _ _ G) in H as (-> & H). split; auto. now apply (gr_left _ _ _ _ _ _ _ _ G). }
  assert (Hclosed : forall v t, In (3, v) (ents (geo g1)) -> In (2, t) (down (geo g1) (3, v)) -> In (2, t) (ents (geo g1))).
  { intros v t Hv Ht. rewrite Hdn in Ht. apply (gr_bounds _ _ _ _ _ _ _ _ G v); auto. apply (Hcl _ _ _ _ _ Eop (3, v)); auto.
    apply (gr_left _ _ _ _ _ _ _ _ G) in Hv as (i & t0 & Et & Hp).
    assert (Ft : In t0 tags) by (eapply nth_error_In; eauto).
    assert (Acc : accepted objs (map (pair 3) tags) 3).
    { destruct (make_all_ok make 3 Hmk Had ps (geo g) Hsol) as (ge1' & tags' & Em' & Sh' & L' & As' & Hab' & _).
      assert (tags = tags').
      { clear -Sh Em' Sh'. assert (D : forall ge a ps b ts, shapes make 3 ge ps b ts -> forall ts', shapes make 3 ge ps a ts' -> ts = ts').
        { clear. intros ge a ps b ts H. induction H as [|? ? ? ? ? ? ? Hm Hs IH]; intros ts' H'; inversion H'; subst; auto. rewrite Hm in *. match goal with E : Ret _ = Ret _ |- _ => injection E as <- <- end. f_equal. auto. }
        exact (D _ _ _ _ _ Sh _ Sh'). }
      subst tags'. destruct Hc as (_ & Hob & Ha & Hio). split; auto. split; [destruct tags; [destruct Ft|discriminate]|]. split; auto. split.
      - clear -As'. induction tags as [|t r IH]; [constructor|]. apply asc_cons in As' as (H1 & H2). cbn. apply ascp_cons. split; auto.
        intros b Hb. apply in_map_iff in Hb as (c & <- & Hcc). right. cbn. auto.
      - split; auto. intros d Hd. apply in_app_iff in Hd as [H|H]; [now apply Hio in H|]. apply in_map_iff in H as (t1 & <- & _). reflexivity. }
    destruct (Hfr _ _ _ _ _ _ Eop Acc) as (_ & _ & FC & _).
    destruct Hp as [(k & cs & c & E1 & E2 & Hcc & <-)|[(_ & k & cs & c & E1 & E2 & Hcc & <-)|(_ & H2 & _)]].
    - destruct (FC cs) as (_ & F); [eapply nth_error_In; eauto|]. destruct (F c Hcc) as (A & B). rewrite <- B. now destruct c.
    - destruct (FC cs) as (_ & F); [eapply nth_error_In; eauto|]. destruct (F c Hcc) as (A & B). rewrite <- B. now destruct c.
    - exfalso. apply H2. now apply in_map. }
  assert (Hmat : forall u n e, has g1 3 u ("Material_" ++ n) e -> exists m0, In m0 (order_materials ms fill) /\ m_name m0 = n).
  { intros u n e H. destruct Hpass as (l & f & Eo & Ef & _ & Hm).
    destruct (gr_colour _ _ _ _ _ _ _ _ G n e (ex_intro _ u H)) as [(-> & _)|(m0 & Hf & En & _)].
    - exists f. split; [|auto]. rewrite Eo. apply in_app_iff. right. now left.
    - exists m0. split; [|auto]. apply Hm. now left. }
  destruct (sliced_ok g g1 fill (order_materials ms fill) make intersect ps ge2 tags2 ge4 omap2) as (g' & E' & S'); auto.
  - exact (gr_groups _ _ _ _ _ _ _ _ G).
  - exact (gr_names _ _ _ _ _ _ _ _ G).
  - exact (gl_groups _ _ Hgl).
  - exists g'. split; [|auto]. unfold overlay_grid. rewrite (dim_objs g 3 objs Hc (gl_ordered _ _ Hgl)), Hps. cbn [bind]. rewrite Eg. cbn [bind]. rewrite E. exact E'.
Qed.
