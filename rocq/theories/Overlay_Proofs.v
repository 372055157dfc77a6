(** Proofs for laying a coarse grid over a gmsh model. *)
From Coq Require Import String Ascii.
From Coq Require Import Reals.
From Coq Require Import List Arith ZArith Lia Bool Sorted Permutation.
From Verif Require Import Base Loops StringView_Model Ascii_Model TextIo_Model ModelIo_Model Export_Spec Export_Sets_Proofs Import_Spec Import_Sets_Proofs.
From Verif Require Import Groups_Model Groups_Spec Groups_List_Proofs Groups_Ops_Proofs Groups_Hier_Proofs Groups_Proofs Pins_Proofs.
From Verif Require Import Coarse_Model Overlay_Model Overlay_Spec.
Import ListNotations.
Open Scope Z_scope.

Notation mat := Groups_Model.material.

(** ** Names *)
Lemma string_cell i : string_of (cell_set i) = cell_name i.
Proof.
  unfold cell_set, digits5, cell_name, digit. cbn [map]. change (10 ^ 4) with 10000. change (10 ^ 3) with 1000.
  change (10 ^ 2) with 100. change (10 ^ 1) with 10. change (10 ^ 0) with 1. rewrite Z.div_1_r. reflexivity.
Qed.
Lemma digit_inj a b : digit a = digit b -> a mod 10 = b mod 10.
Proof.
  unfold digit. intros E. apply (f_equal N_of_ascii) in E.
  pose proof (Z.mod_pos_bound a 10 ltac:(lia)). pose proof (Z.mod_pos_bound b 10 ltac:(lia)).
  rewrite !N_ascii_embedding in E by lia. lia.
Qed.
Lemma cell_name_inj i j : Z.of_nat i < 100000 -> Z.of_nat j < 100000 -> cell_name i = cell_name j -> i = j.
Proof.
  intros Hi Hj E. unfold cell_name in E. cbn in E. injection E as E1 E2 E3 E4 E5.
  repeat match goal with H : digit _ = digit _ |- _ => apply digit_inj in H end.
  cut (Z.of_nat i = Z.of_nat j); [lia|]. set (a := Z.of_nat i) in *. set (b := Z.of_nat j) in *.
  assert (0 <= a) by lia. assert (0 <= b) by lia. clearbody a b. Z.div_mod_to_equations. lia.
Qed.
Lemma cell_starts i : starts "Coarse_Cell" (cell_name i).
Proof. unfold starts, cell_name. cbn. eexists. reflexivity. Qed.
Lemma material_not_cell n n' : starts "Coarse_Cell" n -> n = ("Material_" ++ n')%string -> False.
Proof. intros (r & ->) E. discriminate. Qed.
Lemma cell_not_group i (m : mat) : cell_name i <> group_of m.
Proof. unfold cell_name, group_of. cbn. discriminate. Qed.
Lemma starts_iff p s : starts p s <-> prefix p s = true.
Proof. unfold starts. now rewrite prefix_iff. Qed.
Lemma group_of_name (m : mat) n : m_name m = n -> group_of m = ("Material_" ++ n)%string.
Proof. now intros <-. Qed.
Lemma app_material_inj a b : ("Material_" ++ a)%string = ("Material_" ++ b)%string -> a = b.
Proof. cbn. intros E. now injection E. Qed.

(** ** The order of the materials *)
Lemma index_of_some l n i : index_of l n = Some i -> nth_error l i = Some n.
Proof.
  revert i. induction l as [|a l IH]; cbn; [discriminate|]. destruct (String.eqb_spec a n) as [->|Hn].
  - intros i [= <-]. reflexivity.
  - destruct (index_of l n); cbn; [|discriminate]. intros i [= <-]. cbn. auto.
Qed.
Lemma index_of_none l n : index_of l n = None -> ~ In n l.
Proof.
  induction l as [|a l IH]; cbn; [tauto|]. destruct (String.eqb_spec a n) as [->|Hn]; [discriminate|].
  destruct (index_of l n); cbn; [discriminate|]. intros _ [E|E]; [congruence|]. now apply IH.
Qed.
Lemma swap_last_ok (l : list mat) i f : nth_error l i = Some f -> exists l', swap_last l i = l' ++ [f] /\ Permutation l (l' ++ [f]).
Proof.
  intros E. destruct (nth_error_split l i E) as (l1 & l2 & -> & <-).
  unfold swap_last. rewrite E. destruct l2 as [|x l2].
  - exists l1. rewrite app_length. cbn [length]. replace (length l1 + 1 - 1)%nat with (length l1) by lia.
    rewrite E, upd_mid, upd_mid. auto.
  - destruct (@exists_last _ (x :: l2)) as (l3 & b & E3); [discriminate|]. rewrite E3.
    exists (l1 ++ b :: l3).
    assert (El : (length (l1 ++ f :: l3 ++ [b]) - 1)%nat = length (l1 ++ f :: l3)).
    { rewrite !app_length. cbn [length]. rewrite app_length. cbn [length]. lia. }
    assert (Es : l1 ++ f :: l3 ++ [b] = (l1 ++ f :: l3) ++ [b]) by (rewrite <- app_assoc; reflexivity).
    assert (En : nth_error (l1 ++ f :: l3 ++ [b]) (length (l1 ++ f :: l3 ++ [b]) - 1) = Some b).
    { rewrite El, Es. apply nth_error_mid. }
    rewrite En, El, upd_mid.
    assert (Es' : l1 ++ b :: l3 ++ [b] = (l1 ++ b :: l3) ++ [b]) by (rewrite <- app_assoc; reflexivity).
    assert (El' : length (l1 ++ f :: l3) = length (l1 ++ b :: l3)) by (rewrite !app_length; reflexivity).
    rewrite El', Es', upd_mid. split; auto. rewrite <- app_assoc. apply Permutation_app_head. cbn.
    transitivity (f :: b :: l3). { apply perm_skip. symmetry. apply Permutation_cons_append. }
    transitivity (b :: f :: l3); [apply perm_swap|]. apply perm_skip. apply Permutation_cons_append.
Qed.
Lemma order_ok (mats : list mat) fill : NoDup (map m_name mats) ->
  exists l f, order_materials mats fill = l ++ [f] /\ m_name f = m_name fill /\ NoDup (map m_name (l ++ [f])) /\
    (forall m, In m (l ++ [f]) <-> In m mats \/ (m = fill /\ ~ In (m_name fill) (map m_name mats))).
Proof.
  intros Hd. unfold order_materials. destruct (index_of (map m_name mats) (m_name fill)) as [i|] eqn:Ei.
  - apply index_of_some in Ei. pose proof (nth_error_In _ _ Ei) as Hin. rewrite nth_error_map in Ei.
    destruct (nth_error mats i) as [f|] eqn:Ef; [|discriminate]. cbn in Ei. injection Ei as Ei.
    destruct (swap_last_ok mats i f Ef) as (l' & E & P). exists l', f. split; auto. split; auto. split.
    + eapply Permutation_NoDup; [apply Permutation_map; exact P|auto].
    + intros m. split.
      * intros Hm. left. eapply Permutation_in; [symmetry; exact P|auto].
      * intros [Hm|(-> & Hn)]; [|tauto]. eapply Permutation_in; [exact P|auto].
  - apply index_of_none in Ei. exists mats, fill. split; auto. split; auto. split.
    + rewrite map_app. cbn. apply (Permutation_NoDup (l := m_name fill :: map m_name mats)); [apply Permutation_cons_append|]. constructor; auto.
    + intros m. rewrite in_app_iff. cbn. intuition.
Qed.

(** ** Shapes *)
Lemma make_all_ok make dim : makes make -> adds make -> forall ps ge, Forall solid_place ps ->
  exists ge1 ts, make_all make ge dim (map Some ps) = Ret (ge1, ts) /\ shapes make dim ge ps ge1 ts /\
    length ts = length ps /\ ascending ts /\ (forall t u, In t ts -> In (dim, u) (ents ge) -> u < t) /\
    (forall d, In d (ents ge) -> In d (ents ge1)) /\ (forall t, In t ts -> In (dim, t) (ents ge1)).
Proof.
  intros Hm Ha. induction ps as [|p ps IH]; intros ge Hs.
  - exists ge, []. cbn. split; auto. split; [constructor|]. split; auto. split; [constructor|]. repeat split; tauto || auto.
  - inversion Hs as [|? ? Hp Hps]; subst. destruct (Hm ge dim p Hp) as (ge1 & t & E & Hb).
    destruct (Ha _ _ _ _ _ E) as (Ht & Hk). destruct (IH ge1 Hps) as (ge2 & ts & E2 & Sh & Hl & As & Hab & Hkeep & Hin).
    exists ge2, (t :: ts). cbn [map make_all]. rewrite E. cbn [bind fst snd]. rewrite E2. cbn [bind fst snd].
    split; auto. split; [econstructor; eauto|]. split; [cbn; lia|]. split.
    { apply asc_cons. split; auto. }
    split; [|split].
    + intros t' u [<-|Ht'] Hu; auto.
    + auto.
    + intros t' [<-|Ht']; auto.
Qed.

Lemma insert_sorted_head a l : (forall b, In b l -> a < b) -> Overlay_Model.insert_sorted a l = a :: l.
Proof. destruct l as [|b l]; cbn; auto. intros H. specialize (H b (or_introl eq_refl)). destruct (Z.ltb_spec b a); [lia|auto]. Qed.
Lemma sort_asc l : ascending l -> sort_tags l = l.
Proof.
  induction l as [|a l IH]; auto. intros H. apply asc_cons in H as (H1 & H2). unfold sort_tags. cbn [fold_right].
  fold (sort_tags l). rewrite IH by auto. now apply insert_sorted_head.
Qed.

(** ** Groups of the cells *)
Lemma asc_one t : ascending [t]. Proof. repeat constructor. Qed.
Lemma add_group_as g dim tags name : (forall x, In x (groups g) -> g_dim x = dim -> g_name x <> name) ->
  add_group g dim tags (-1) name = add_to_group g dim tags (-1) name.
Proof.
  intros H. unfold add_to_group. destruct (find _ (groups g)) as [x|] eqn:E; auto.
  apply find_some in E as (Hx & E). apply andb_true_iff in E as (E1 & E2). apply Z.eqb_eq in E1. apply String.eqb_eq in E2.
  exfalso. eapply H; eauto.
Qed.
Lemma add_cells_ok dim : forall tags i g, well_formed g -> Z.of_nat (i + length tags) <= 100000 ->
  (forall d u k e, (i <= k < i + length tags)%nat -> d = dim -> ~ has g d u (cell_name k) e) ->
  forall s, (tags = [] \/ s = cell_set i) ->
  exists g' us, add_cells g dim tags s = Ret g' /\ well_formed g' /\ geo g' = geo g /\ length us = length tags /\
    forall d u n e, has g' d u n e <-> has g d u n e \/
      (d = dim /\ exists k, nth_error us k = Some u /\ nth_error tags k = Some e /\ n = cell_name (i + k)).
Proof.
  induction tags as [|t tags IH]; intros i g W Hb Hn s Hs.
  - exists g, []. split; auto. split; auto. split; auto. split; auto. intros d u n e. split; auto.
    intros [H|(_ & [|k] & H & _)]; auto; discriminate.
  - destruct Hs as [Hs| ->]; [discriminate|]. cbn [length] in *. cbn [add_cells]. rewrite string_cell.
    rewrite add_group_as.
    2:{ intros x Hx Ed En. destruct (has_group g x W Hx) as (e & He). rewrite En in He. apply (Hn (g_dim x) (g_tag x) i e); auto. lia. }
    destruct (add_to_group_ok g dim [t] (-1) (cell_name i) W (asc_one t) ltac:(left; lia)) as (g1 & u & E1 & W1 & G1 & H1 & _).
    rewrite E1. cbn [bind].
    destruct (cell_set_increment i ltac:(lia)) as (s' & Es). rewrite Es. cbn [bind].
    destruct (IH (S i) g1 W1 ltac:(lia)) with (s := s') as (g' & us & E & W' & G' & L & H).
    + intros d u' k e Hk Ed Hh. apply H1 in Hh as [Hh|(_ & _ & En & _)].
      * eapply Hn; [|exact Ed|exact Hh]. lia.
      * apply cell_name_inj in En; lia.
    + destruct tags as [|t' tags]; [now left|right]. rewrite cell_set_next in Es by (cbn [length] in Hb; lia). congruence.
    + exists g', (u :: us). split; auto. split; auto. split; [congruence|]. split; [cbn; lia|].
      intros d u' n e. rewrite H, H1. split.
      * intros [[Hh|(-> & -> & -> & [<-|[]])]|(-> & k & Hk1 & Hk2 & ->)]; auto.
        -- right. split; auto. exists O. cbn. rewrite Nat.add_0_r. auto.
        -- right. split; auto. exists (S k). cbn. rewrite Nat.add_succ_r. auto.
      * intros [Hh|(-> & k & Hk1 & Hk2 & ->)]; auto. destruct k as [|k]; cbn in Hk1, Hk2.
        -- injection Hk1 as ->. injection Hk2 as ->. left. right. rewrite Nat.add_0_r. cbn. auto.
        -- right. split; auto. exists k. rewrite Nat.add_succ_r. auto.
Qed.

(** ** What is removed *)
Lemma in_insert e l a : In a (Overlay_Model.insert_sorted e l) <-> a = e \/ In a l.
Proof. induction l as [|b l IH]; cbn; [intuition|]. destruct (b <? e); cbn; [rewrite IH|]; intuition. Qed.
Lemma in_sort l a : In a (sort_tags l) <-> In a l.
Proof. unfold sort_tags. induction l as [|b l IH]; cbn; [tauto|]. rewrite in_insert, IH. intuition. Qed.
Definition nondec (l : list Z) : Prop := StronglySorted Z.le l.
Lemma nondec_insert e l : nondec l -> nondec (Overlay_Model.insert_sorted e l).
Proof.
  induction l as [|b l IH]; intros H; cbn; [repeat constructor|]. apply StronglySorted_inv in H as (H1 & H2).
  destruct (Z.ltb_spec b e).
  - constructor; [now apply IH|]. rewrite Forall_forall in *. intros a Ha. apply in_insert in Ha as [->|Ha]; [lia|auto].
  - constructor; [now constructor|]. constructor; [lia|]. rewrite Forall_forall in *. intros a Ha. specialize (H2 _ Ha). lia.
Qed.
Lemma nondec_sort l : nondec (sort_tags l).
Proof. unfold sort_tags. induction l; cbn; [constructor|]. now apply nondec_insert. Qed.
Lemma drop_repeats_ok l : nondec l -> ascending (drop_repeats l) /\ forall a, In a (drop_repeats l) <-> In a l.
Proof.
  induction l as [|a l IH]; intros H; [split; [constructor|tauto]|]. apply StronglySorted_inv in H as (H1 & H2).
  destruct (IH H1) as (I1 & I2). destruct l as [|b l]; [split; [repeat constructor|tauto]|].
  change (drop_repeats (a :: b :: l)) with (if a =? b then drop_repeats (b :: l) else a :: drop_repeats (b :: l)).
  destruct (Z.eqb_spec a b) as [->|Hn].
  - split; auto. intros c. rewrite I2. cbn. intuition.
  - split.
    + apply asc_cons. split; auto. intros c Hc. apply I2 in Hc. rewrite Forall_forall in H2.
      assert (a <= b) by (apply H2; now left). destruct Hc as [<-|Hc]; [lia|].
      apply StronglySorted_inv in H1 as (_ & H1). rewrite Forall_forall in H1. specialize (H1 _ Hc). lia.
    + intros c. change (a = c \/ In c (drop_repeats (b :: l)) <-> a = c \/ In c (b :: l)). rewrite I2. tauto.
Qed.
Lemma in_to_keep g dim e : In e (to_keep g dim) <-> exists u n, has g dim u n e /\ starts "Coarse_Cell" n.
Proof.
  unfold to_keep. rewrite in_flat_map. split.
  - intros (x & Hx & He). destruct ((g_dim x =? dim) && _) eqn:E; [|destruct He]. apply andb_true_iff in E as (E1 & E2).
    apply Z.eqb_eq in E1. subst dim. exists (g_tag x), (g_name x). split; [now apply has_of|]. now apply starts_iff.
  - intros (u & n & Hh & Hs). apply of_has in Hh as (x & Hx & Ed & Eu & En & He). exists x. split; auto.
    rewrite Ed, Z.eqb_refl, En, (proj1 (starts_iff _ _) Hs). exact He.
Qed.
Lemma entities_asc ge dim : ascending_pairs (ents ge) -> ascending (map snd (entities ge dim)).
Proof.
  unfold entities. induction (ents ge) as [|a l IH]; intros H; [constructor|]. apply ascp_cons in H as (H1 & H2).
  cbn. destruct (Z.eqb_spec (fst a) dim) as [Ea|]; auto. cbn. apply asc_cons. split; auto.
  intros b Hb. apply in_map_iff in Hb as (c & <- & Hc). apply filter_In in Hc as (Hc & Ec). apply Z.eqb_eq in Ec.
  destruct (H2 _ Hc) as [|]; lia.
Qed.
Lemma in_entities ge dim e : In e (map snd (entities ge dim)) <-> In (dim, e) (ents ge).
Proof.
  unfold entities. rewrite in_map_iff. split.
  - intros ((d, e') & <- & H). apply filter_In in H as (H & E). apply Z.eqb_eq in E. cbn in *. now subst.
  - intros H. exists (dim, e). split; auto. apply filter_In. split; auto. cbn. apply Z.eqb_refl.
Qed.
Lemma existsb_pair d l : existsb (pair_eq d) l = true <-> In d l.
Proof.
  rewrite existsb_exists. split; [|intros H; exists d; split; auto; apply pair_eq_refl].
  intros (x & Hx & E). apply pair_eq_iff in E. now subst.
Qed.
Lemma bounds_iff ge l d : bounds ge l d = true <-> exists x, In x l /\ In d (down ge x).
Proof.
  unfold bounds. rewrite existsb_exists. split; intros (x & Hx & H); exists x; split; auto; now apply existsb_pair.
Qed.
Lemma asc_filter f l : ascending l -> ascending (filter f l).
Proof. intros H. apply (asc_filter_like l); eauto. Qed.

Lemma remove_ok g rm : well_formed g ->
  well_formed (remove_entities g rm) /\
  forall d u n e, has (remove_entities g rm) d u n e <-> has g d u n e /\ ~ In (d, e) rm.
Proof.
  intros W. set (f := fun x : group => filter (fun e => negb (existsb (pair_eq (g_dim x, e)) rm)) (g_ents x)).
  assert (Hg : groups (remove_entities g rm) = flat_map (fun x => match f x with [] => [] | es => [mkG (g_dim x) (g_tag x) (g_name x) es] end) (groups g)) by reflexivity.
  assert (Hin : forall z, In z (groups (remove_entities g rm)) <-> exists x, In x (groups g) /\ f x <> [] /\ z = mkG (g_dim x) (g_tag x) (g_name x) (f x)).
  { intros z. rewrite Hg, in_flat_map. split.
    - intros (x & Hx & Hz). exists x. split; auto. destruct (f x) eqn:E; [destruct Hz|]. destruct Hz as [<-|[]]. split; auto. discriminate.
    - intros (x & Hx & Hne & ->). exists x. split; auto. destruct (f x) eqn:E; [congruence|]. now left. }
  assert (Hf : forall x e, In e (f x) <-> In e (g_ents x) /\ ~ In (g_dim x, e) rm).
  { intros x e. unfold f. rewrite filter_In, negb_true_iff, <- existsb_pair, not_true_iff_false. tauto. }
  split.
  - split.
    + rewrite Hg. destruct W as (W & _). clear Hin Hg. induction (groups g) as [|x l IH]; [constructor|].
      cbn [map] in W. apply ascp_cons in W as (W1 & W2). cbn [flat_map]. specialize (IH W1).
      destruct (f x) eqn:E; [exact IH|]. cbn [app map]. apply ascp_cons. split; auto.
      intros b Hb. apply W2. apply in_map_iff in Hb as (y & <- & Hy). apply in_flat_map in Hy as (w & Hw & Hy).
      apply in_map_iff. exists w. split; auto. destruct (f w); [destruct Hy|]. destruct Hy as [<-|[]]. reflexivity.
    + intros z Hz. apply Hin in Hz as (x & Hx & Hne & ->). cbn. destruct (proj2 W x Hx) as (H1 & _ & H3).
      split; auto. split; auto. now apply asc_filter.
  - intros d u n e. split.
    + intros H. apply of_has in H as (z & Hz & <- & <- & <- & He). apply Hin in Hz as (x & Hx & _ & ->). cbn in *.
      apply Hf in He as (He & Hr). split; auto. now apply has_of.
    + intros (H & Hr). apply of_has in H as (x & Hx & <- & <- & <- & He).
      assert (Hfe : In e (f x)) by (apply Hf; auto).
      exists (f x). split; auto. apply Hin. exists x. split; auto. split; auto. intros E. rewrite E in Hfe. destruct Hfe.
Qed.

Lemma keep_ok g dim : well_formed g -> ascending_pairs (ents (geo g)) ->
  (forall d d', In d' (down (geo g) d) -> fst d' < fst d) ->
  (forall d u n e, has g d u n e -> d = dim /\ In (dim, e) (ents (geo g))) ->
  let K e := exists u n, has g dim u n e /\ starts "Coarse_Cell" n in
  exists g', keep_cells g dim = Ret g' /\ well_formed g' /\ paint (geo g') = paint (geo g) /\
    (forall d u n e, has g' d u n e <-> has g d u n e /\ K e) /\
    (forall e, In (dim, e) (ents (geo g')) <-> K e) /\
    (forall e d, K e -> In d (down (geo g) (dim, e)) -> In d (ents (geo g)) -> In d (ents (geo g'))) /\
    ascending_pairs (ents (geo g')) /\ down (geo g') = down (geo g).
Proof.
  intros W As Hd Hh K. unfold keep_cells.
  destruct (drop_repeats_ok _ (nondec_sort (to_keep g dim))) as (K1 & K2).
  set (keep := drop_repeats (sort_tags (to_keep g dim))) in *.
  pose proof (entities_asc (geo g) dim As) as Ea. set (all := map snd (entities (geo g) dim)) in *.
  rewrite both_sorted_ok by auto. set (rm := map (pair dim) (difference all keep)).
  assert (Hk : forall e, In e keep <-> K e). { intros e. rewrite K2, in_sort. apply in_to_keep. }
  assert (Hrm : forall d e, In (d, e) rm <-> d = dim /\ In (dim, e) (ents (geo g)) /\ ~ K e).
  { intros d e. unfold rm. rewrite in_map_iff. rewrite <- Hk. split.
    - intros (e' & [= <- <-] & He). apply in_difference in He as (He & Hn); auto. apply in_entities in He. auto.
    - intros (-> & He & Hn). exists e. split; auto. apply in_difference; auto. split; auto. now apply in_entities. }
  assert (Hrd : forall x, In x rm -> fst x = dim). { intros (d, e) Hx. apply Hrm in Hx as (-> & _). reflexivity. }
  assert (Kin : forall e, K e -> In (dim, e) (ents (geo g))). { intros e (u & n & H & _). now apply Hh in H as (_ & H). }
  assert (Hst : forall e, K e -> In (dim, e) (filter (fun d => negb (existsb (pair_eq d) rm) && negb (bounds (geo g) rm d)) (ents (geo g)))).
  { intros e He. apply filter_In. split; auto. apply andb_true_iff. rewrite !negb_true_iff, <- !not_true_iff_false, existsb_pair, bounds_iff. split.
    - intros H. apply Hrm in H as (_ & _ & H). auto.
    - intros (x & Hx & Hb). apply Hd in Hb. rewrite (Hrd _ Hx) in Hb. cbn in Hb. lia. }
  destruct (remove_ok g rm W) as (W' & H').
  exists (remove_entities g rm). split; auto. split; auto. split; auto. split; [|split; [|split; [|split; [|reflexivity]]]].
  - intros d u n e. rewrite H'. split.
    + intros (H & Hn). split; auto. destruct (Hh _ _ _ _ H) as (-> & He).
      destruct (in_dec Z.eq_dec e keep) as [Hi|Hi]; rewrite Hk in Hi; auto. exfalso. apply Hn, Hrm. auto.
    + intros (H & HK). split; auto. intros Hi. apply Hrm in Hi. tauto.
  - intros e. cbn. rewrite filter_In, andb_true_iff, negb_true_iff, <- not_true_iff_false, existsb_pair. split.
    + intros (He & Hn & _). destruct (in_dec Z.eq_dec e keep) as [Hi|Hi]; rewrite Hk in Hi; auto. exfalso. apply Hn, Hrm. auto.
    + intros HK. specialize (Hst e HK). apply filter_In in Hst as (He & E). apply andb_true_iff in E as (E1 & E2).
      rewrite E2. split; auto. split; auto. intros Hi. apply Hrm in Hi. tauto.
  - intros e d HK Hdown Hin. cbn. apply filter_In. split; auto. apply andb_true_iff. split.
    + rewrite negb_true_iff, <- not_true_iff_false, existsb_pair. intros Hi. apply Hrd in Hi. apply Hd in Hdown. cbn in Hdown. lia.
    + apply orb_true_iff. right. apply bounds_iff. exists (dim, e). split; auto.
  - cbn. rewrite <- map_id. apply ascp_filter. now rewrite map_id.
Qed.

(** ** Groups before the operation *)
Lemma find_names g n : well_formed g -> forall k x, nth_error (groups g) k = Some x -> names_material x n ->
  exists m, Groups_Spec.found g [] m /\ m_name m = n.
Proof.
  intros W k. induction k as [k IH] using lt_wf_ind. intros x Ex Hx.
  assert (D : (exists k' y, (k' < k)%nat /\ nth_error (groups g) k' = Some y /\ names_material y n) \/
              (forall k' y, (k' < k)%nat -> nth_error (groups g) k' = Some y -> ~ names_material y n)).
  { clear IH Ex Hx. induction k as [|k IHk]; [right; intros; lia|]. destruct IHk as [(k' & y & H & R)|Hno]; [left; exists k', y; split; [lia|auto]|].
    destruct (nth_error (groups g) k) as [y|] eqn:Ey.
    - destruct (prefix "Material" (g_name y)) eqn:Ep.
      + apply prefix_iff in Ep as ([|c r] & Er).
        * right. intros k' z Hk Ez (c & Ec). assert (k' = k \/ k' < k)%nat as [->|Hk'] by lia; [|exact (Hno k' z Hk' Ez (ex_intro _ c Ec))].
          assert (z = y) by congruence. subst z. rewrite Er in Ec. discriminate.
        * destruct (string_dec r n) as [->|Hn].
          -- left. exists k, y. split; [lia|]. split; auto. now exists c.
          -- right. intros k' z Hk Ez Hz. assert (k' = k \/ k' < k)%nat as [->|Hk'] by lia; [|exact (Hno k' z Hk' Ez Hz)].
             assert (z = y) by congruence. subst z. apply Hn. apply (names_material_inj y); auto. now exists c.
      + right. intros k' z Hk Ez (c & Ec). assert (k' = k \/ k' < k)%nat as [->|Hk'] by lia; [|exact (Hno k' z Hk' Ez (ex_intro _ c Ec))].
        assert (z = y) by congruence. subst z. rewrite <- not_true_iff_false in Ep. apply Ep. apply prefix_iff. eauto.
    - right. intros k' z Hk Ez Hz. assert (k' = k \/ k' < k)%nat as [->|Hk'] by lia; [congruence|exact (Hno k' z Hk' Ez Hz)]. }
  destruct D as [(k' & y & Hk & Ey & Hy)|Hno]; [exact (IH k' Hk y Ey Hy)|].
  assert (Hin : In x (groups g)) by (eapply nth_error_In; eauto). destruct (proj2 W x Hin) as (_ & Hne & _).
  destruct (g_ents x) as [|e es] eqn:Ee; [congruence|].
  exists (mkM n (paint (geo g) (g_dim x, e))). split; auto. exists k, x, e, es. cbn. repeat (split; auto).
Qed.
Lemma find_of_group g x n : well_formed g -> In x (groups g) -> g_name x = ("Material_" ++ n)%string ->
  exists m, Groups_Spec.found g [] m /\ m_name m = n.
Proof.
  intros W Hx En. destruct (In_nth_error _ _ Hx) as (k & Ek). apply (find_names g n W k x Ek).
  exists "_"%char. exact En.
Qed.
Lemma names_by_has g dim : well_formed g ->
  (forall u v n e f, has g dim u n e -> has g dim v n f -> u = v) -> names_differ g dim.
Proof.
  intros W H x y Hx Hy Ex Ey En. apply (key_inj g); auto. unfold key. f_equal; [congruence|].
  destruct (has_group g x W Hx) as (e & He). destruct (has_group g y W Hy) as (f & Hf).
  rewrite Ex in He. rewrite Ey, <- En in Hf. exact (H _ _ _ _ _ He Hf).
Qed.
Lemma has_by_names g dim u v n e f : names_differ g dim -> has g dim u n e -> has g dim v n f -> u = v.
Proof.
  intros Hn H1 H2. apply of_has in H1 as (x & Hx & Ex & <- & Nx & _). apply of_has in H2 as (y & Hy & Ey & <- & Ny & _).
  rewrite (Hn x y); auto. congruence.
Qed.

Section Main.
Variables (g : gm) (dim : Z) (objs : list dimtag) (fill : mat) (op : operation) (ge1 : geometry) (tags : list Z).
Variables (ge : geometry) (omap : list (list dimtag)).
Hypothesis Hcons : consists (geo g) dim objs.
Hypothesis Hgl : gridless g dim.
Hypothesis Has : ascending tags.
Hypothesis Hne : tags <> [].
Hypothesis Hlen : Z.of_nat (length tags) <= 100000.
Hypothesis Hnew : forall t u, In t tags -> In (dim, u) (ents (geo g)) -> u < t.
Hypothesis Hop : op ge1 objs (map (pair dim) tags) = (ge, omap).
Hypothesis Hfr : fragments op.
Variables (mats l : list mat) (f : mat).
Hypothesis Hmats : mats = l ++ [f].
Hypothesis Hf : m_name f = m_name fill.
Hypothesis Hnd : NoDup (map m_name mats).
Hypothesis Hm : forall m, In m mats <-> Groups_Spec.found g [] m \/ (m = fill /\ ~ exists m', Groups_Spec.found g [] m' /\ m_name m' = m_name fill).

Notation tools := (map (pair dim) tags).
Notation pc := (piece dim objs (map (pair dim) tags) omap).

Lemma acc : accepted objs tools dim.
Proof.
  destruct Hcons as (Hd & Ho & Ha & Hin). split; auto. split; [destruct tags; [congruence|discriminate]|]. split; auto. split.
  - clear -Has. induction tags as [|t r IH]; [constructor|]. apply asc_cons in Has as (H1 & H2). cbn. apply ascp_cons. split; auto.
    intros b Hb. apply in_map_iff in Hb as (c & <- & Hc). right. cbn. auto.
  - split.
    + intros d Hdin. apply in_app_iff in Hdin as [H|H]; [now apply Hin in H|]. apply in_map_iff in H as (t & <- & _). reflexivity.
    + destruct Hd as [->|(-> & _)]; auto.
Qed.
Lemma frs : length omap = (length objs + length tools)%nat /\ ascending_pairs (ents ge) /\
  (forall cs, In cs omap -> cs <> [] /\ forall c, In c cs -> In c (ents ge) /\ fst c = dim) /\
  (forall d d', In d' (down ge d) -> fst d' < fst d).
Proof. exact (Hfr ge1 objs tools ge omap dim Hop acc). Qed.
Lemma tag_not_obj t : In t tags -> ~ In (dim, t) objs.
Proof. intros Ht Ho. apply (proj2 (proj2 (proj2 Hcons))) in Ho as (Ho & _). specialize (Hnew _ _ Ht Ho). lia. Qed.
Lemma piece_some k t : nth_error tags k = Some t -> exists e, pc t e.
Proof.
  intros Ek. destruct frs as (L & _ & H & _).
  assert (Hk : (k < length tags)%nat) by (apply nth_error_Some; congruence).
  destruct (nth_error omap (length objs + k)) as [cs|] eqn:Ec.
  - destruct (H cs) as (Hn & _); [eapply nth_error_In; eauto|]. destruct cs as [|c cs]; [congruence|].
    exists (snd c). right. left. split; [apply tag_not_obj; eapply nth_error_In; eauto|]. exists k, (c :: cs), c.
    split; [rewrite nth_error_map, Ek; reflexivity|]. split; auto. split; [now left|auto].
  - apply nth_error_None in Ec. rewrite L, map_length in Ec. lia.
Qed.
Lemma piece_in p e : (In (dim, p) objs \/ In p tags) -> pc p e -> In (dim, e) (ents ge).
Proof.
  intros Hp [(k & cs & c & E1 & E2 & Hc & <-)|[(_ & k & cs & c & E1 & E2 & Hc & <-)|(H1 & H2 & _)]].
  - destruct frs as (_ & _ & H & _). destruct (H cs) as (_ & H'); [eapply nth_error_In; eauto|]. destruct (H' c Hc) as (H1 & H2). rewrite <- H2. now destruct c.
  - destruct frs as (_ & _ & H & _). destruct (H cs) as (_ & H'); [eapply nth_error_In; eauto|]. destruct (H' c Hc) as (H1 & H2). rewrite <- H2. now destruct c.
  - exfalso. destruct Hp as [Hp|Hp]; [auto|]. apply H2. now apply in_map.
Qed.

(** the groups the operation finds *)
Lemma before_ok : exists g3 uf us,
  (let* x := add_to_group (mkGm (groups g) ge1) dim tags (-1) ("Material_" ++ m_name fill) in
   add_cells x dim tags (lit "Coarse_Cell_00000")) = Ret g3 /\
  well_formed g3 /\ geo g3 = ge1 /\ names_differ g3 dim /\ length us = length tags /\
  forall d u n e, has g3 d u n e <->
    has g d u n e \/ (d = dim /\ u = uf /\ n = ("Material_" ++ m_name fill)%string /\ In e tags) \/
    (d = dim /\ exists k, nth_error us k = Some u /\ nth_error tags k = Some e /\ n = cell_name k).
Proof.
  assert (W : well_formed (mkGm (groups g) ge1)) by (destruct (gl_groups _ _ Hgl); split; auto).
  destruct (add_to_group_ok (mkGm (groups g) ge1) dim tags (-1) ("Material_" ++ m_name fill)%string W Has ltac:(left; lia)) as (g2 & uf & E2 & W2 & G2 & H2 & Hu).
  rewrite E2. cbn [bind].
  assert (Hno : forall u k e, ~ has g2 dim u (cell_name k) e).
  { intros u k e Hh. apply H2 in Hh as [Hh|(_ & _ & En & _)].
    - apply of_has in Hh as (x & Hx & Ed & _ & En & _). apply (gl_cells _ _ Hgl x Hx Ed). rewrite En. apply cell_starts.
    - eapply material_not_cell; [apply cell_starts|exact En]. }
  destruct (add_cells_ok dim tags 0 g2 W2 ltac:(cbn; lia)) with (s := lit "Coarse_Cell_00000") as (g3 & us & E3 & W3 & G3 & L & H3).
  { intros d u k e _ -> . apply Hno. }
  { right. apply cell_set_0. }
  exists g3, uf, us. split; auto. split; auto. split; [rewrite G3, G2; reflexivity|].
  assert (H3' : forall d u n e, has g3 d u n e <->
    has g d u n e \/ (d = dim /\ u = uf /\ n = ("Material_" ++ m_name fill)%string /\ In e tags) \/
    (d = dim /\ exists k, nth_error us k = Some u /\ nth_error tags k = Some e /\ n = cell_name k)).
  { intros d u n e. rewrite H3, H2. cbn [Nat.add]. change (has (mkGm (groups g) ge1) d u n e) with (has g d u n e). tauto. }
  split; [|split; auto].
  apply names_by_has; auto. intros u v n e e' A B.
  assert (Cells : forall u k e, ~ has g dim u (cell_name k) e).
  { intros u0 k e0 Hh. apply (Hno u0 k e0). apply H2. now left. }
  assert (Fill : forall u e, has g dim u ("Material_" ++ m_name fill) e -> u = uf).
  { intros u0 e0 Hh. apply of_has in Hh as (x & Hx & Ed & <- & En & _).
    destruct Hu as [(y & Hy & Edy & Eny & <-)|(Hu & _)].
    - rewrite (gl_names _ _ Hgl x y); auto. congruence.
    - exfalso. exact (proj1 (Hu x Hx Ed) En). }
  apply H3' in A as [A|[(_ & -> & -> & _)|(_ & k & K1 & K2 & ->)]]; apply H3' in B as [B|[(_ & Ev & En & _)|(_ & k' & K1' & K2' & En)]].
  - exact (has_by_names _ _ _ _ _ _ _ (gl_names _ _ Hgl) A B).
  - subst. eauto.
  - subst n. exfalso. eapply Cells; eauto.
  - symmetry. eauto.
  - auto.
  - exfalso. eapply material_not_cell; [apply cell_starts|symmetry; exact En].
  - exfalso. eapply Cells; eauto.
  - exfalso. eapply material_not_cell; [apply cell_starts|exact En].
  - assert (k < length tags)%nat by (apply nth_error_Some; congruence). assert (k' < length tags)%nat by (apply nth_error_Some; congruence).
    apply cell_name_inj in En; [|lia|lia]. congruence.
Qed.

Theorem laid : exists g',
  (let* x := add_to_group (mkGm (groups g) ge1) dim tags (-1) ("Material_" ++ m_name fill) in
   let* x := add_cells x dim tags (lit "Coarse_Cell_00000") in
   let* x := group_preserving op x objs tools mats in
   keep_cells x dim) = Ret g' /\ gridded g g' fill dim objs tags ge omap.
Proof.
  destruct before_ok as (g3 & uf & us & E3 & W3 & G3 & N3 & L & H3).
  destruct frs as (FL & FA & FC & FD).
  (* pieces of what the groups have *)
  assert (Inh : forall n u e, (exists x, In x (groups g3) /\ g_dim x = dim /\ g_tag x = u /\ g_name x = n /\ inherits dim objs tools omap x e) <->
                exists p, has g3 dim u n p /\ pc p e).
  { intros n u e. split.
    - intros (x & Hx & <- & <- & <- & p & Hp & Hpe). exists p. split; auto. now apply has_of.
    - intros (p & Hp & Hpe). apply of_has in Hp as (x & Hx & Ed & Eu & En & Hp). exists x. repeat (split; auto). exists p. auto. }
  assert (Exists3 : forall u n p, has g3 dim u n p -> In (dim, p) objs \/ In p tags).
  { intros u n p Hh. apply H3 in Hh as [Hh|[(_ & _ & _ & Hp)|(_ & k & _ & Hp & _)]]; auto.
    - left. apply of_has in Hh as (x & Hx & Ed & _ & _ & Hp). apply (proj2 (proj2 (proj2 Hcons))). split; auto. rewrite <- Ed. now apply (gl_exist _ _ Hgl).
    - right. eapply nth_error_In; eauto. }
  destruct tags as [|t0 ts] eqn:Et; [congruence|]. rewrite <- Et in *.
  assert (U0 : exists u0, nth_error us 0 = Some u0). { destruct us; [rewrite Et in L; discriminate|]. eexists. reflexivity. }
  destruct U0 as (u0 & U0).
  assert (T0 : nth_error tags 0 = Some t0) by (rewrite Et; reflexivity).
  destruct (piece_some 0 t0 T0) as (e0 & P0).
  destruct (group_preserving_ok op g3 objs tools mats dim ge omap W3 acc) as (g4 & E4 & W4 & P & GE & GD & Col); auto.
  { now rewrite G3. }
  { right. destruct (proj2 (Inh (cell_name 0) u0 e0)) as (x & Hx & Ed & _ & _ & Hi); [|exists x, e0; auto].
    exists t0. split; auto. apply H3. right. right. split; auto. exists O. auto. }
  assert (Ex4 : forall d u n e, has g4 d u n e -> d = dim /\ exists p, has g3 dim u n p /\ pc p e).
  { intros d u n e Hh. apply P in Hh as (-> & x & Hx & Ed & Eu & En & Hi & _). split; auto. apply Inh. exists x. auto. }
  assert (Other4 : forall u n e, (forall m, In m mats -> n <> group_of m) -> (exists p, has g3 dim u n p /\ pc p e) -> has g4 dim u n e).
  { intros u n e Hno Hp. apply Inh in Hp as (x & Hx & Ed & Eu & En & Hi). apply P. split; auto. exists x. repeat (split; auto).
    intros y _ _ (i & j & m & m' & Ei & _ & _ & Ex & _). exfalso. apply (Hno m); [eapply nth_error_In; eauto|congruence]. }
  destruct (keep_ok g4 dim W4) as (g' & E' & W' & PA & H' & HE & HB & HO & HD).
  { now rewrite GE. }
  { now rewrite GD. }
  { intros d u n e Hh. apply Ex4 in Hh as (-> & p & Hp & Hpe). split; auto. rewrite GE. apply (piece_in p); auto. eapply Exists3; eauto. }
  set (K := fun e => exists u n, has g4 dim u n e /\ starts "Coarse_Cell" n) in *.
  change (forall d u n e, has g' d u n e <-> has g4 d u n e /\ K e) in H'. change (forall e, In (dim, e) (ents (geo g')) <-> K e) in HE.
  assert (Cell4 : forall i u e, has g4 dim u (cell_name i) e -> (i < length tags)%nat -> in_cell dim objs tags omap i e).
  { intros i u e Hh Hi. apply Ex4 in Hh as (_ & p & Hp & Hpe). apply H3 in Hp as [Hp|[(_ & _ & En & _)|(_ & k & _ & K2 & En)]].
    - exfalso. apply of_has in Hp as (x & Hx & Ed & _ & En & _). apply (gl_cells _ _ Hgl x Hx Ed). rewrite En. apply cell_starts.
    - exfalso. eapply material_not_cell; [apply cell_starts|exact En].
    - assert (k < length tags)%nat by (apply nth_error_Some; congruence). apply cell_name_inj in En; [|lia|lia]. subst k. exists p. auto. }
  assert (Cell4' : forall i e, in_cell dim objs tags omap i e -> exists u, has g4 dim u (cell_name i) e).
  { intros i e (t & Ht & Hpe). destruct (nth_error us i) as [u|] eqn:Eu.
    - exists u. apply Other4; [intros m _; apply cell_not_group|]. exists t. split; auto. apply H3. right. right. split; auto. exists i. auto.
    - apply nth_error_None in Eu. assert (i < length tags)%nat by (apply nth_error_Some; congruence). lia. }
  assert (HK : forall e, K e <-> in_grid dim objs tags omap e).
  { intros e. split.
    - intros (u & n & Hh & Hs). pose proof Hh as Hh0. apply Ex4 in Hh as (_ & p & Hp & Hpe). apply H3 in Hp as [Hp|[(_ & _ & En & _)|(_ & k & _ & K2 & En)]].
      + exfalso. apply of_has in Hp as (x & Hx & Ed & _ & En & _). apply (gl_cells _ _ Hgl x Hx Ed). now rewrite En.
      + exfalso. eapply material_not_cell; eauto.
      + exists k, p. auto.
    - intros (i & Hi). destruct (Cell4' _ _ Hi) as (u & Hh). exists u, (cell_name i). split; auto. apply cell_starts. }
  (* materials *)
  assert (MatOf : forall u n p, has g3 dim u ("Material_" ++ n) p -> exists m, In m mats /\ m_name m = n).
  { intros u n p Hh. apply H3 in Hh as [Hp|[(_ & _ & En & _)|(_ & k & _ & _ & En)]].
    - apply of_has in Hp as (x & Hx & Ed & _ & En & _). destruct (find_of_group g x n (gl_groups _ _ Hgl) Hx En) as (m & Hfm & Em).
      exists m. split; auto. apply Hm. now left.
    - apply app_material_inj in En. subst n. exists f. split; auto. rewrite Hmats. apply in_app_iff. right. now left.
    - exfalso. eapply material_not_cell; [apply cell_starts|symmetry; exact En]. }
  assert (Mat4 : forall u n e, has g4 dim u ("Material_" ++ n) e -> exists m, In m mats /\ m_name m = n /\ group_of m = ("Material_" ++ n)%string).
  { intros u n e Hh. apply Ex4 in Hh as (_ & p & Hp & _). destruct (MatOf _ _ _ Hp) as (m & Hm1 & Hm2). exists m. split; auto. split; auto. now apply group_of_name. }
  pose proof (one_material_of g3 dim objs tools omap mats W3 acc FL Hnd g4 P N3) as One.
  exists g'. split.
  { rewrite <- E'. unfold bind in *. destruct (add_to_group _ _ _ _ _); try discriminate. rewrite E3, E4. reflexivity. }
  constructor.
  - intros e. rewrite HE. apply HK.
  - intros e d He Hd Hin. apply HE in He. apply (HB e d He); [now rewrite GD|now rewrite GE].
  - split; [exact HO|congruence].
  - exact W'.
  - apply names_by_has; auto. intros u v n a b Ha Hb. apply H' in Ha as (Ha & _). apply H' in Hb as (Hb & _).
    apply Ex4 in Ha as (_ & p & Hp & _). apply Ex4 in Hb as (_ & q & Hq & _). exact (has_by_names _ _ _ _ _ _ _ N3 Hp Hq).
  - intros d u n e Hh. apply H' in Hh as (Hh & HKe). apply Ex4 in Hh as (-> & _). split; auto. now apply HK.
  - intros i e Hi. split.
    + intros (u & Hh). apply H' in Hh as (Hh & _). eapply Cell4; eauto.
    + intros Hc. destruct (Cell4' _ _ Hc) as (u & Hh). exists u. apply H'. split; auto. apply HK. now exists i.
  - intros u n e Hn1 Hn2. rewrite H'. rewrite HK. split.
    + intros (Hh & Hg). split; auto. apply Ex4 in Hh as (_ & p & Hp & Hpe). apply H3 in Hp as [Hp|[(_ & _ & En & _)|(_ & k & _ & _ & En)]].
      * apply of_has in Hp as (x & Hx & Ed & Eu & En & Hp). exists x. repeat (split; auto). exists p. auto.
      * exfalso. apply Hn1. subst n. now exists (m_name fill).
      * exfalso. apply Hn2. subst n. apply cell_starts.
    + intros (Hg & x & Hx & Ed & Eu & En & p & Hp & Hpe). split; auto. apply Other4.
      * intros m _ E. apply Hn1. rewrite E. now exists (m_name m).
      * exists p. split; auto. apply H3. left. rewrite <- Ed, <- Eu, <- En. now apply has_of.
  - intros e Hg. pose proof Hg as (i & t & Ht & Hpe).
    assert (Hin : In t tags) by (eapply nth_error_In; eauto).
    assert (Hfill : exists p, has g3 dim uf (group_of f) p /\ pc p e).
    { exists t. split; auto. apply H3. right. left. unfold group_of. rewrite Hf. auto. }
    pose proof Hfill as Hx. apply Inh in Hx as (x & Hx & Ed & Eu & En & Hi).
    destruct (One e) as (O1 & O2). destruct (O2 x f) as (m & v & Hmi & Hmh); auto.
    { rewrite Hmats. apply in_app_iff. right. now left. }
    exists (m_name m). split; [|split].
    + exists v. apply H'. split; auto. now apply HK.
    + intros n' (v' & Hh). apply H' in Hh as (Hh & _). destruct (Mat4 _ _ _ Hh) as (m' & Hm' & En' & Eg). rewrite <- Eg in Hh.
      destruct (O1 m' m v' v Hm' Hmi Hh Hmh) as (-> & _). auto.
    + pose proof Hmh as Hmh0. apply P in Hmh as (_ & y & Hy & Edy & Euy & Eny & Hiy & Hout).
      destruct (string_dec (m_name m) (m_name fill)) as [Em|Em].
      * right. split; auto. intros n' (z & Hz & Edz & Enz & Hiz).
        destruct (string_dec n' (m_name fill)) as [|Hnn]; auto. exfalso.
        assert (Hz3 : exists p, has g3 dim (g_tag z) (g_name z) p /\ pc p e).
        { destruct Hiz as (p & Hp & Hpe'). exists p. split; auto. apply H3. left. rewrite <- Edz. now apply has_of. }
        pose proof Hz3 as Hz3'. destruct Hz3 as (p & Hp & _). rewrite Enz in Hp. destruct (MatOf _ _ _ Hp) as (m' & Hm' & En').
        apply Inh in Hz3' as (z' & Hz' & Edz' & _ & Enz' & Hiz').
        assert (Hl : In m' l). { rewrite Hmats in Hm'. apply in_app_iff in Hm' as [H|[H|[]]]; auto. exfalso. subst m'. congruence. }
        destruct (In_nth_error _ _ Hl) as (j & Ej). assert (Hjl : (j < length l)%nat) by (apply nth_error_Some; congruence).
        apply (Hout z' Hz' Edz'); auto. exists (length l), j, f, m'. split; [rewrite Hmats; apply nth_error_mid|].
        split; [rewrite Hmats, nth_error_app1; auto|]. split; auto. split.
        -- rewrite Eny. unfold group_of. congruence.
        -- rewrite Enz', Enz. symmetry. now apply group_of_name.
      * left. split; auto. destruct Hiy as (p & Hp & Hpe'). assert (Hh : has g3 dim (g_tag y) (g_name y) p) by (rewrite <- Edy; now apply has_of).
        rewrite Eny in Hh. apply H3 in Hh as [Hh|[(_ & _ & En' & _)|(_ & k & _ & _ & En')]].
        -- apply of_has in Hh as (z & Hz & Edz & _ & Enz & Hpz). exists z. split; auto. split; auto. split; auto. exists p. auto.
        -- apply app_material_inj in En'. congruence.
        -- exfalso. eapply cell_not_group. symmetry. exact En'.
  - intros n e (u & Hh). apply H' in Hh as (Hh & _). destruct (Mat4 _ _ _ Hh) as (m & Hmi & En & Eg).
    rewrite PA. destruct (In_nth_error _ _ Hmi) as (i & Ei).
    assert (Hpaint : paint (geo g4) (dim, e) = m_colour m).
    { apply (proj1 Col (dim, e) i m Ei).
      - exists u, e. rewrite Eg. auto.
      - intros j m' Hj Ej (u' & e' & Hh' & [[= <-]|Hdn]).
        + destruct (One e) as (O1 & _). rewrite <- Eg in Hh. destruct (O1 m' m u' u) as (-> & _); auto; [eapply nth_error_In; eauto|].
          assert (j = i); [|lia].
          apply (proj1 (NoDup_nth_error (map m_name mats)) Hnd); [apply nth_error_Some; rewrite nth_error_map, Ej; discriminate|]. now rewrite !nth_error_map, Ej, Ei.
        + rewrite GD in Hdn. apply FD in Hdn. cbn in Hdn. lia. }
    rewrite Hpaint. apply Hm in Hmi as [Hfm|(-> & Hnf)].
    + right. exists m. auto.
    + left. split; auto. split; auto. intros x Hx Hxn. apply Hnf. destruct (In_nth_error _ _ Hx) as (k & Ek).
      rewrite <- En in Hxn. exact (find_names g (m_name fill) (gl_groups _ _ Hgl) k x Ek Hxn).
Qed.
End Main.

(** the materials as they are passed on *)
Definition passed (g : gm) (fill : mat) (mats : list mat) : Prop :=
  exists l f, mats = l ++ [f] /\ m_name f = m_name fill /\ NoDup (map m_name mats) /\
    forall m, In m mats <-> Groups_Spec.found g [] m \/ (m = fill /\ ~ exists m', Groups_Spec.found g [] m' /\ m_name m' = m_name fill).

Lemma dim_objs g dim objs : consists (geo g) dim objs -> ascending_pairs (ents (geo g)) ->
  (match entities (geo g) 3 with [] => (2, entities (geo g) 2) | o => (3, o) end) = (dim, objs).
Proof.
  intros Hc Hgl0.
 destruct Hc as (Hd & Ho & Ha & Hi).
      assert (Eo' : entities (geo g) dim = objs).
      { unfold entities. apply (f_equal (fun x => x)).
        assert (S1 : ascending_pairs (filter (fun d => fst d =? dim) (ents (geo g)))).
        { pose proof Hgl0 as S0. rewrite <- map_id. apply ascp_filter. now rewrite map_id. }
        assert (S2 : forall d, In d (filter (fun d => fst d =? dim) (ents (geo g))) <-> In d objs).
        { intros d. rewrite filter_In, Hi, Z.eqb_eq. tauto. }
        revert S1 S2 Ha. generalize (filter (fun d => fst d =? dim) (ents (geo g))) as a. clear. intros a S1 S2 Ha.
        revert a S1 S2. induction Ha as [|x b Hb IH Hx]; intros [|y a] S1 S2; auto.
        - exfalso. apply (proj1 (S2 y)). now left.
        - exfalso. apply (proj2 (S2 x)). now left.
        - apply ascp_cons in S1 as (S1 & Hy). rewrite Forall_forall in Hx.
          assert (y = x).
          { destruct (proj1 (S2 y) (or_introl eq_refl)) as [|Hyb]; auto. destruct (proj2 (S2 x) (or_introl eq_refl)) as [|Hxa]; auto.
            exfalso. exact (before_irr _ (before_trans _ _ _ (Hx _ Hyb) (Hy _ Hxa))). }
          subst y. apply (f_equal (cons x)). apply IH; auto. intros d. split; intros H.
          + destruct (proj1 (S2 d) (or_intror H)) as [<-|]; auto. exfalso. exact (before_irr _ (Hy _ H)).
          + destruct (proj2 (S2 d) (or_intror H)) as [<-|]; auto. exfalso. exact (before_irr _ (Hx _ H)). }
      destruct Hd as [->|(-> & Hno)].
      - rewrite Eo'. destruct objs; [congruence|auto].
      - assert (E3 : entities (geo g) 3 = []).
        { destruct (entities (geo g) 3) as [|(d, t) r] eqn:E3; auto. exfalso. apply (Hno t). apply (in_entities (geo g) 3 t). rewrite E3. now left. }
        rewrite E3, Eo'. reflexivity.
Qed.

Theorem lay_ok make op fill g dim objs ps :
  consists (geo g) dim objs -> gridless g dim -> makes make -> adds make -> fragments op ->
  ps <> [] -> Z.of_nat (length ps) <= 100000 -> Forall solid_place ps ->
  exists ms g' ge1 tags ge omap, get_materials g [] = Ret ms /\ passed g fill (order_materials ms fill) /\
    lay_grid make op g dim objs (map Some ps) fill (order_materials ms fill) = Ret g' /\ shapes make dim (geo g) ps ge1 tags /\
    op ge1 objs (map (pair dim) tags) = (ge, omap) /\ gridded g g' fill dim objs tags ge omap.
Proof.
  intros Hc Hgl Hmk Had Hfr Hne Hlen Hsol.
  destruct (make_all_ok make dim Hmk Had ps (geo g) Hsol) as (ge1 & tags & Em & Sh & L & As & Hab & _).
  destruct (get_materials_ok g [] (gl_groups _ _ Hgl)) as (ms & Eg & Hnd & Hms).
  { intros x Hx E. destruct (gl_materials _ _ Hgl x Hx) as (r & Er); [exists ""%string; rewrite E; reflexivity|]. rewrite E in Er. discriminate. }
  cbn [app] in Eg. destruct (order_ok ms fill Hnd) as (l & f & Eo & Ef & Hnd' & Hin).
  assert (Hpass : forall m', In m' (l ++ [f]) <-> Groups_Spec.found g [] m' \/ (m' = fill /\ ~ exists m2, Groups_Spec.found g [] m2 /\ m_name m2 = m_name fill)).
  { intros m'. rewrite Hin, Hms. split; (intros [H|(H1 & H2)]; [now left|right; split; auto]).
    + intros (m2 & Hm2 & En). apply H2. apply in_map_iff. exists m2. split; auto. now apply Hms.
    + intros Hi. apply H2. apply in_map_iff in Hi as (m2 & En & Hm2). exists m2. split; auto. now apply Hms. }
  destruct (op ge1 objs (map (pair dim) tags)) as (ge & omap) eqn:Eop.
  destruct (laid g dim objs fill op ge1 tags ge omap Hc Hgl As) with (mats := l ++ [f]) (l := l) (f := f) as (g' & E & G); auto.
  - intros ->. destruct ps; [congruence|discriminate].
  - lia.
  - exists ms, g', ge1, tags, ge, omap. split; auto. rewrite Eo. split; [exists l, f; auto|]. split; [|auto].
    unfold lay_grid. rewrite Em. cbn [bind fst snd]. rewrite sort_asc by auto. exact E.
Qed.

Theorem overlay_ok make op m fill g dim objs ps :
  consists (geo g) dim objs -> gridless g dim -> makes make -> adds make -> fragments op ->
  find_cells m = Ret (map Some ps) -> ps <> [] -> Z.of_nat (length ps) <= 100000 -> Forall solid_place ps ->
  exists g' ge1 tags ge omap, overlay make op m fill g = Ret g' /\ shapes make dim (geo g) ps ge1 tags /\
    op ge1 objs (map (pair dim) tags) = (ge, omap) /\ gridded g g' fill dim objs tags ge omap.
Proof.
  intros Hc Hgl Hmk Had Hfr Hps Hne Hlen Hsol.
  destruct (lay_ok make op fill g dim objs ps) as (ms & g' & ge1 & tags & ge & omap & Eg & _ & E & Sh & Eop & G); auto.
  exists g', ge1, tags, ge, omap. split; [|auto]. unfold overlay. rewrite (dim_objs g dim objs Hc (gl_ordered _ _ Hgl)), Hps. cbn [bind]. rewrite Eg. exact E.
Qed.
