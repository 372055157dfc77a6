(** The group preserving operations, addToPhysicalGroup and getMaterials. *)
From Coq Require Import String.
From Coq Require Import List Arith ZArith Lia Bool Sorted Permutation.
From Verif Require Import Base Loops Groups_Model Groups_Spec Groups_List_Proofs Groups_Ops_Proofs Groups_Hier_Proofs.
Import ListNotations.
Open Scope Z_scope.

(** * The groups again *)
Lemma add_groups_ok dim info : forall post g, length info = length post -> well_formed g ->
  NoDup (map g_tag info) -> (forall x, In x info -> 0 < g_tag x) ->
  (forall x y, In x info -> In y (groups g) -> key y <> (dim, g_tag x)) ->
  exists g', add_groups g dim info post = Ret g' /\ well_formed g' /\ geo g' = geo g /\
    forall z, In z (groups g') <-> In z (groups g) \/
      exists x es, In (x, es) (combine info post) /\ es <> [] /\ z = mkG dim (g_tag x) (g_name x) (normal es).
Proof.
  induction info as [|x info IH]; intros [|es post] g L W Hn Hp Hk; try discriminate; cbn [add_groups combine].
  - exists g. split; auto. split; auto. split; auto. intros z. split; auto. intros [|(x & es & [] & _)]; auto.
  - cbn in Hn. inversion Hn as [|? ? Hni Hnd]; subst.
    destruct (add_group_ok g dim es (g_tag x) (g_name x) W) as (g1 & -> & W1 & G1 & I1).
    { apply Hp. now left. }
    { intros y Hy. apply Hk; auto. now left. }
    cbn [bind]. destruct (IH post g1) as (g2 & -> & W2 & G2 & I2); auto.
    { intros y Hy. apply Hp. now right. }
    { intros y z Hy Hz. apply I1 in Hz as [Hz|(_ & ->)].
      - apply Hk; auto. now right.
      - cbn. intros E. injection E as E. apply Hni. rewrite E. now apply in_map. }
    exists g2. split; auto. split; auto. split; [congruence|]. intros z. rewrite I2, I1. split.
    + intros [[|(Hes & ->)]|(y & es' & Hin & Hes & ->)]; auto.
      * right. exists x, es. split; [now left|auto].
      * right. exists y, es'. split; [now right|auto].
    + intros [|(y & es' & [E|Hin] & Hes & ->)]; auto.
      * injection E as -> ->. auto.
      * right. exists y, es'. auto.
Qed.

Lemma combine_nth_error {A B} (l : list A) (m : list B) x y : length l = length m ->
  (In (x, y) (combine l m) <-> exists k, nth_error l k = Some x /\ nth_error m k = Some y).
Proof.
  revert m. induction l as [|a l IH]; intros [|b m] L; try discriminate; cbn.
  - split; [tauto|]. intros ([|k] & E & _); discriminate.
  - cbn in L. rewrite IH by lia. split.
    + intros [E|(k & E1 & E2)].
      * injection E as -> ->. exists 0%nat. auto.
      * exists (S k). auto.
    + intros ([|k] & E1 & E2); cbn in *.
      * left. congruence.
      * right. eauto.
Qed.

Section Op.
Variables (g : gm) (dim : Z) (objs tools : list dimtag) (omap : list (list dimtag)) (mats : list material).
Hypothesis W : well_formed g.
Hypothesis acc : accepted objs tools dim.
Hypothesis Hlen : length omap = (length objs + length tools)%nat.
Hypothesis Hmats : NoDup (map m_name mats).
Hypothesis Hnames : mats = [] \/ names_differ g dim.

Lemma info_facts : exists info, group_info (groups g) dim [] = Ret info /\
  sortedb String.ltb (map g_name info) = true /\
  (forall x, In x info <-> In x (groups g) /\ g_dim x = dim) /\
  NoDup (map g_tag info) /\ (mats <> [] -> NoDup (map g_name info)).
Proof.
  destruct (group_info_ok (groups g) dim []) as (info & E & Hs & P); [reflexivity|]. cbn [app] in P.
  assert (I : forall x, In x info <-> In x (groups g) /\ g_dim x = dim).
  { intros x. split.
    - intros Hx. apply (Permutation_in _ P), filter_In in Hx as (Hx & Ed). rewrite Z.eqb_eq in Ed. auto.
    - intros (Hx & Ed). apply (Permutation_in _ (Permutation_sym P)), filter_In. rewrite Z.eqb_eq. auto. }
  assert (Nk : NoDup (map key info)).
  { apply (Permutation_NoDup (Permutation_sym (Permutation_map key P))).
    apply ascp_nodup. apply (ascp_filter key). now apply wf_keys. }
  assert (Inj : forall (B : Type) (f : group -> B), (forall x y, In x info -> In y info -> f x = f y -> key x = key y) ->
     NoDup (map f info)).
  { intros B f Hf. clear - Nk Hf. induction info as [|x l IH]; cbn in *; constructor.
    - inversion Nk as [|? ? Hn Hd]; subst. intros Hi. apply in_map_iff in Hi as (y & Ey & Hy). apply Hn.
      rewrite <- (Hf y x); auto. now apply in_map.
    - inversion Nk; subst. apply IH; auto. }
  exists info. split; auto. split; auto. split; auto. split.
  - apply Inj. intros x y Hx Hy Et. apply I in Hx as (_ & Ex), Hy as (_ & Ey). unfold key. congruence.
  - intros Hne. destruct Hnames as [|Hd]; [congruence|]. apply Inj. intros x y Hx Hy Et.
    apply I in Hx as (Hx & Ex), Hy as (Hy & Ey). f_equal. apply Hd; auto.
Qed.

(** The groups just before colouring. *)
Lemma groups_ok (ge : geometry) : exists info post0 post g',
  group_info (groups g) dim [] = Ret info /\ new_groups objs tools omap info = Ret post0 /\
  hierarchy mats (map g_name info) post0 = Ret post /\
  add_groups (mkGm [] ge) dim info post = Ret g' /\
  well_formed g' /\ geo g' = ge /\ preserved g g' dim objs tools omap mats /\
  (forall z, In z (groups g') -> exists x, In x (groups g) /\ g_dim x = dim /\ g_dim z = dim /\ g_name z = g_name x /\ g_tag z = g_tag x).
Proof.
  destruct info_facts as (info & Einfo & Hs & I & Nt & Nn).
  destruct (new_groups_ok dim objs tools omap acc Hlen info) as (post0 & E0 & F0).
  { intros x Hx. apply I in Hx as (Hx & _). now apply W. }
  pose proof (Forall2_length _ _ _ F0) as L0.
  assert (A0 : Forall ascending post0).
  { clear - F0. induction F0; constructor; tauto. }
  assert (C0 : forall k x e, nth_error info k = Some x -> (content post0 k e <-> inherits dim objs tools omap x e)).
  { intros k x e Ek. destruct (nth_error post0 k) as [es|] eqn:Ep.
    - pose proof (Forall2_nth _ _ _ _ _ _ F0 Ek Ep) as (_ & H). rewrite <- H. unfold content. rewrite Ep. split; [|eauto].
      intros (es' & E & Hi). congruence.
    - apply nth_error_None in Ep. assert (k < length info)%nat by (apply nth_error_Some; congruence). lia. }
  assert (Hh : exists post, hierarchy mats (map g_name info) post0 = Ret post /\ length post = length post0 /\
    Forall ascending post /\ forall k x e, nth_error info k = Some x ->
      (content post k e <-> inherits dim objs tools omap x e /\
         forall y, In y (groups g) -> g_dim y = dim -> outranked_by mats x y -> ~ inherits dim objs tools omap y e)).
  { destruct mats as [|m0 ms] eqn:Em.
    - exists post0. split; auto. split; auto. split; auto. intros k x e Ek. rewrite (C0 k x e Ek).
      split; [|tauto]. intros H. split; auto. intros y _ _ (i & j & m & n & Ei & _). destruct i; discriminate.
    - rewrite <- Em in *. assert (Hne : mats <> []) by congruence.
      destruct (hierarchy_ok mats (map g_name info) post0 Hs (Nn Hne) Hmats) as (post & Ep & Lp & Ap & Cp); auto.
      { rewrite map_length. auto. }
      exists post. split; auto. split; auto. split; auto. intros k x e Ek.
      rewrite (Cp k (g_name x) e) by now rewrite nth_error_map, Ek. rewrite (C0 k x e Ek). split.
      + intros (H1 & H2). split; auto. intros y Hy Ed (i & j & m & n & Ei & Ej & Hij & Ex & Ey) Hinh.
        assert (Hyi : In y info) by (apply I; auto). apply In_nth_error in Hyi as (b & Eb).
        apply (H2 i j m n b); auto.
        * rewrite nth_error_map, Eb. cbn [option_map]. congruence.
        * now apply (C0 b y e Eb).
      + intros (H1 & H2). split; auto. intros i j m n b Ei Ej Hij Ex Eb Hc.
        rewrite nth_error_map in Eb. destruct (nth_error info b) as [y|] eqn:Ey; [|discriminate].
        cbn [option_map] in Eb. assert (Eny : g_name y = group_of n) by congruence.
        pose proof (proj1 (I y) (nth_error_In _ _ Ey)) as (Hy & Edy).
        apply (H2 y Hy Edy).
        * exists i, j, m, n. auto.
        * now apply (C0 b y e Ey). }
  destruct Hh as (post & Ep & Lp & Ap & Cp).
  destruct (add_groups_ok dim info post (mkGm [] ge)) as (g' & Eg & W' & G' & I'); auto.
  { congruence. }
  { split; [constructor|]. intros x []. }
  { intros x Hx. apply I in Hx as (Hx & _). now apply W. }
  assert (Lc : length info = length post) by congruence.
  exists info, post0, post, g'. split; auto. split; auto. split; auto. split; auto. split; auto. split; auto.
  assert (Ipost : forall k x es e, nth_error info k = Some x -> nth_error post k = Some es -> (In e es <-> content post k e)).
  { intros k x es e _ Ee. unfold content. rewrite Ee. split; [eauto|]. intros (es' & E & Hi). congruence. }
  split.
  - intros d tag name e. unfold has. split.
    + intros (es & Hin & He). apply I' in Hin as [[]|(x & es' & Hin & Hes & E)]. injection E as -> -> -> ->.
      apply (proj1 (in_normal _ _)) in He. apply combine_nth_error in Hin as (k & Ek & Ekp); auto.
      split; auto. exists x. pose proof (proj1 (I x) (nth_error_In _ _ Ek)) as (Hx & Ed).
      split; auto. split; auto. split; auto. split; auto. apply (Cp k x e Ek). now apply (Ipost k x es').
    + intros (-> & x & Hx & Ed & <- & <- & Hi).
      assert (Hxi : In x info) by (apply I; auto). apply In_nth_error in Hxi as (k & Ek).
      apply (Cp k x e Ek) in Hi. destruct Hi as (es & Ekp & He). exists (normal es). split; [|now apply in_normal].
      apply I'. right. exists x, es. split; [apply combine_nth_error; eauto|]. split; auto. intros ->. destruct He.
  - intros z Hz. apply I' in Hz as [[]|(x & es & Hin & _ & ->)]. apply in_combine_l in Hin. apply I in Hin as (Hx & Ed).
    exists x. cbn. auto.
Qed.

Lemma some_group g' e x : preserved g g' dim objs tools omap mats ->
  In x (groups g) -> g_dim x = dim -> inherits dim objs tools omap x e -> groups g' <> [].
Proof.
  intros P Hx Ed Hi Hnil.
  assert (Hno : forall d t n e, ~ has g' d t n e). { intros d t n e' (es & Hin & _). rewrite Hnil in Hin. destruct Hin. }
  assert (Hrank : forall i m y, nth_error mats i = Some m -> In y (groups g) -> g_dim y = dim -> g_name y = group_of m ->
            ~ inherits dim objs tools omap y e).
  { intros i. induction i as [i IH] using lt_wf_ind. intros m y Ei Hy Edy Eny Hiy.
    apply (Hno dim (g_tag y) (g_name y) e). apply P. split; auto. exists y. repeat (split; auto).
    intros z Hz Edz (i' & j & m' & n & Ei' & Ej & Hij & Ey' & Ez).
    assert (i' = i).
    { apply (nodup_nth (map m_name mats) i' i (m_name m) Hmats).
      - rewrite nth_error_map, Ei'. cbn. f_equal. apply group_of_inj. congruence.
      - now rewrite nth_error_map, Ei. }
    subst i'. apply (IH j Hij n z); auto. }
  apply (Hno dim (g_tag x) (g_name x) e). apply P. split; auto. exists x. repeat (split; auto).
  intros y Hy Edy (i & j & m & n & Ei & Ej & Hij & Ex & Ey). apply (Hrank j n y); auto.
Qed.

Lemma inherits_dec x e : In x (groups g) -> inherits dim objs tools omap x e \/ ~ inherits dim objs tools omap x e.
Proof.
  intros Hx. destruct (new_group_ok dim objs tools omap acc Hlen x) as (es & _ & _ & H); [now apply W|].
  rewrite <- H. destruct (in_dec Z.eq_dec e es); auto.
Qed.

Lemma earlier_dec i e :
  (exists y j n, (j < i)%nat /\ nth_error mats j = Some n /\ In y (groups g) /\ g_dim y = dim /\
     g_name y = group_of n /\ inherits dim objs tools omap y e) \/
  ~ (exists y j n, (j < i)%nat /\ nth_error mats j = Some n /\ In y (groups g) /\ g_dim y = dim /\
     g_name y = group_of n /\ inherits dim objs tools omap y e).
Proof.
  induction i as [|i IHi].
  - right. intros (y & j & n & Hj & _). lia.
  - destruct IHi as [(y & j & n & Hj & H)|Hno]; [left; exists y, j, n; split; [lia|auto]|].
    destruct (nth_error mats i) as [n|] eqn:En.
    + assert (D : (exists y, In y (groups g) /\ g_dim y = dim /\ g_name y = group_of n /\ inherits dim objs tools omap y e) \/
          ~ (exists y, In y (groups g) /\ g_dim y = dim /\ g_name y = group_of n /\ inherits dim objs tools omap y e)).
      { assert (Hsub : forall y, In y (groups g) -> inherits dim objs tools omap y e \/ ~ inherits dim objs tools omap y e)
          by (intros; now apply inherits_dec).
        clear - Hsub. induction (groups g) as [|a l IHl].
        - right. intros (y & [] & _).
        - destruct IHl as [(y & Hy & H)|Hno].
          + intros; apply Hsub; now right.
          + left. exists y. split; [now right|auto].
          + destruct (Z.eq_dec (g_dim a) dim), (string_dec (g_name a) (group_of n)), (Hsub a (or_introl eq_refl));
              try (right; intros (y & [<- |Hy] & H1 & H2 & H3); [tauto|]; apply Hno; exists y; auto; fail).
            left. exists a. split; [now left|auto]. }
      destruct D as [(y & Hy & D)|Hno'].
      * left. exists y, i, n. split; [lia|]. auto.
      * right. intros (y & j & n' & Hj & Ej & H). destruct (Nat.eq_dec j i) as [->|Hne].
        -- apply Hno'. exists y. assert (n' = n) by congruence. subst n'. exact H.
        -- apply Hno. exists y, j, n'. split; [lia|auto].
    + right. intros (y & j & n' & Hj & Ej & H). destruct (Nat.eq_dec j i) as [->|Hne]; [congruence|].
      apply Hno. exists y, j, n'. split; [lia|auto].
Qed.

Lemma one_material_of g' : preserved g g' dim objs tools omap mats -> names_differ g dim -> forall e,
  (forall m n t u, In m mats -> In n mats -> has g' dim t (group_of m) e -> has g' dim u (group_of n) e ->
     m = n /\ t = u) /\
  (forall x m, In m mats -> In x (groups g) -> g_dim x = dim -> g_name x = group_of m ->
     inherits dim objs tools omap x e -> exists n t, In n mats /\ has g' dim t (group_of n) e).
Proof.
  intros P Hd e. split.
  - intros m n t u Hm Hn H1 H2. apply P in H1 as (_ & x & Hx & Ex & Tx & Nx & Ix & Rx).
    apply P in H2 as (_ & y & Hy & Ey & Ty & Ny & Iy & Ry).
    apply In_nth_error in Hm as (i & Ei), Hn as (j & Ej).
    destruct (Nat.lt_trichotomy i j) as [Hij|[->|Hij]].
    + exfalso. apply (Ry x Hx Ex); auto. exists j, i, n, m. auto.
    + assert (m = n) by congruence. subst n. split; auto. assert (x = y) by (apply Hd; congruence). congruence.
    + exfalso. apply (Rx y Hy Ey); auto. exists i, j, m, n. auto.
  - intros x m Hm. apply In_nth_error in Hm as (i & Ei). revert x m Ei.
    induction i as [i IH] using lt_wf_ind. intros x m Ei Hx Ex Nx Ix.
    pose proof (earlier_dec i e) as Dec.
    destruct Dec as [(y & j & n & Hj & Ej & Hy & Ey & Ny & Iy)|Hno].
    + apply (IH j Hj y n); auto.
    + exists m, (g_tag x). split; [eapply nth_error_In; eauto|]. apply P. split; auto. exists x. repeat (split; auto).
      intros y Hy Ey (i' & j & m' & n & Ei' & Ej & Hij & Nx' & Ny) Iy. apply Hno. exists y, j, n.
      assert (i' = i).
      { apply (nodup_nth (map m_name mats) i' i (m_name m) Hmats).
        - rewrite nth_error_map, Ei'. cbn. f_equal. apply group_of_inj. congruence.
        - now rewrite nth_error_map, Ei. }
      subst i'. auto 8.
Qed.
End Op.

Theorem group_preserving_ok op g objs tools mats dim ge omap :
  well_formed g -> accepted objs tools dim -> (mats = [] \/ names_differ g dim) -> NoDup (map m_name mats) ->
  op (geo g) objs tools = (ge, omap) -> length omap = (length objs + length tools)%nat ->
  (mats = [] \/ exists x e, In x (groups g) /\ g_dim x = dim /\ inherits dim objs tools omap x e) ->
  exists g', group_preserving op g objs tools mats = Ret g' /\ well_formed g' /\
    preserved g g' dim objs tools omap mats /\
    ents (geo g') = ents ge /\ down (geo g') = down ge /\ coloured g' dim mats ge.
Proof.
  intros W acc Hn Hm Eop Hl Hsome.
  destruct (groups_ok g dim objs tools omap mats W acc Hl Hm Hn ge)
    as (info & post0 & post & g' & E1 & E2 & E3 & E4 & W' & G' & P & Hz).
  unfold group_preserving. rewrite (proj2 (input_check_iff objs tools dim) acc). cbn [bind].
  rewrite E1. cbn [bind remove_groups groups geo]. rewrite Eop, E2. cbn [bind]. rewrite E3. cbn [bind]. rewrite E4. cbn [bind].
  destruct mats as [|m0 ms] eqn:Em.
  - exists g'. split; auto. split; auto. split; auto. split; [congruence|]. split; [congruence|]. split.
    + intros d [|i]; discriminate.
    + intros d _. congruence.
  - rewrite <- Em in *. destruct Hsome as [|(x & e & Hx & Ex & Ix)]; [congruence|].
    destruct Hn as [|Hn]; [congruence|].
    pose proof (some_group g dim objs tools omap mats Hm g' e x P Hx Ex Ix) as Hne.
    destruct (colour_ok g' mats dim W' Hm Hne) as (g2 & Ec & Gg & Ge & Gd & Co).
    { intros z Hzz. apply Hz in Hzz as (y & _ & _ & Ed & _). lia. }
    { destruct (groups g') as [|z l] eqn:Eg; [congruence|]. exists z. split; [now left|].
      destruct (Hz z) as (y & _ & _ & Ed & _); auto. now left. }
    { intros z1 z2 H1 H2 _ _ En. apply (key_inj g' z1 z2 W' H1 H2).
      destruct (Hz z1 H1) as (y1 & Y1 & D1 & Dz1 & N1 & T1), (Hz z2 H2) as (y2 & Y2 & D2 & Dz2 & N2 & T2).
      assert (y1 = y2) by (apply Hn; congruence). subst y2. unfold key. congruence. }
    rewrite Ec. exists g2. split; auto. split.
    { unfold well_formed. rewrite Gg. exact W'. }
    split.
    { intros d tag name e'. unfold has. rewrite Gg. apply P. }
    rewrite G' in *. auto.
Qed.

Theorem cut_ok op g objs tools dim ge omap :
  well_formed g -> accepted objs tools dim ->
  op (geo g) objs tools = (ge, omap) -> length omap = (length objs + length tools)%nat ->
  exists g', group_preserving_cut op g objs tools = Ret g' /\ well_formed g' /\
    preserved g g' dim objs tools omap [] /\ geo g' = ge.
Proof.
  intros W acc Eop Hl.
  destruct (groups_ok g dim objs tools omap [] W acc Hl (NoDup_nil _) (or_introl eq_refl) ge)
    as (info & post0 & post & g' & E1 & E2 & E3 & E4 & W' & G' & P & Hz).
  unfold group_preserving_cut. rewrite (proj2 (input_check_iff objs tools dim) acc). cbn [bind].
  rewrite E1. cbn [bind remove_groups groups geo]. rewrite Eop, E2. cbn [bind].
  cbn [hierarchy] in E3. injection E3 as <-. rewrite E4. exists g'. auto.
Qed.

Theorem rejects op g objs tools mats : (forall dim, ~ accepted objs tools dim) ->
  group_preserving op g objs tools mats = Fail /\ group_preserving_cut op g objs tools = Fail.
Proof.
  intros H. unfold group_preserving, group_preserving_cut.
  destruct (input_check_cases objs tools) as [(dim & E)|E].
  - exfalso. apply (H dim). now apply input_check_iff.
  - rewrite E. auto.
Qed.

(** * addToPhysicalGroup *)
Theorem add_to_group_ok g dim tags tag name : well_formed g -> ascending tags ->
  (tag < 0 \/ 0 < tag /\ forall x, In x (groups g) -> g_dim x = dim -> g_tag x <> tag) ->
  exists g' t, add_to_group g dim tags tag name = Ret g' /\ well_formed g' /\ geo g' = geo g /\
    (forall d u n e, has g' d u n e <-> has g d u n e \/ (d = dim /\ u = t /\ n = name /\ In e tags)) /\
    ((exists x, In x (groups g) /\ g_dim x = dim /\ g_name x = name /\ g_tag x = t) \/
     (forall x, In x (groups g) -> g_dim x = dim -> g_name x <> name /\ g_tag x <> t) /\ (0 < tag -> t = tag)).
Proof.
  intros W At Ht. unfold add_to_group. destruct (find _ (groups g)) as [x|] eqn:F.
  - apply find_some in F as (Hx & E). apply andb_true_iff in E as (Ed & En).
    apply Z.eqb_eq in Ed. apply String.eqb_eq in En.
    destruct (proj2 W _ Hx) as (Tp & Ne & Ax). rewrite both_sorted_ok by auto.
    destruct (remove_group_ok g dim (g_tag x) W) as (W1 & I1).
    destruct (add_group_ok (remove_group g dim (g_tag x)) dim (merge tags (g_ents x)) (g_tag x) name W1 Tp)
      as (g' & -> & W' & G' & I').
    { intros y Hy. apply I1 in Hy. tauto. }
    exists g', (g_tag x). split; auto. split; auto. split; auto.
    assert (Ix : mkG dim (g_tag x) name (g_ents x) = x) by (destruct x; cbn in *; congruence).
    split.
    + intros d u n e. unfold has. split.
      * intros (es & Hin & He). apply I' in Hin as [Hin|(_ & E)].
        -- apply I1 in Hin as (Hin & _). left. eauto.
        -- injection E as -> -> -> ->. apply (proj1 (in_normal _ _)), in_merge in He as [He|He]; auto.
           left. exists (g_ents x). rewrite Ix. auto.
      * assert (Hm : In e tags \/ In e (g_ents x) ->
                     exists es, In (mkG dim (g_tag x) name es) (groups g') /\ In e es).
        { intros He. exists (normal (merge tags (g_ents x))). split.
          - apply I'. right. split; auto. intros E. apply in_merge in He. rewrite E in He. destruct He.
          - apply in_normal, in_merge. exact He. }
        intros [(es & Hin & He)|(-> & -> & -> & He)]; auto.
        destruct (pair_eq (d, u) (dim, g_tag x)) eqn:Ek.
        -- apply pair_eq_iff in Ek. injection Ek as -> ->.
           assert (Exy : mkG dim (g_tag x) n es = x).
           { apply (key_inj g); auto. unfold key. cbn. congruence. }
           rewrite <- Ix in Exy. injection Exy as -> ->. auto.
        -- exists es. split; auto. apply I'. left. apply I1. split; auto. unfold key. cbn. intros E.
           rewrite E, pair_eq_refl in Ek. discriminate.
    + left. exists x. auto.
  - assert (Hno : forall x, In x (groups g) -> g_dim x = dim -> g_name x <> name).
    { intros x Hx Ed En. pose proof (find_none _ _ F x Hx) as Hf. cbn in Hf.
      rewrite (proj2 (Z.eqb_eq _ _) Ed), (proj2 (String.eqb_eq _ _) En) in Hf. discriminate. }
    assert (Add : forall t, 0 < t -> (forall x, In x (groups g) -> g_dim x = dim -> g_tag x <> t) -> (0 < tag -> t = tag) ->
      exists g' v, add_group g dim tags t name = Ret g' /\ well_formed g' /\ geo g' = geo g /\
        (forall d u n e, has g' d u n e <-> has g d u n e \/ (d = dim /\ u = v /\ n = name /\ In e tags)) /\
        ((exists x, In x (groups g) /\ g_dim x = dim /\ g_name x = name /\ g_tag x = v) \/
         (forall x, In x (groups g) -> g_dim x = dim -> g_name x <> name /\ g_tag x <> v) /\ (0 < tag -> v = tag))).
    { intros t Tp Hf Htt.
      destruct (add_group_ok g dim tags t name W Tp) as (g' & -> & W' & G' & I').
      { intros x Hx E. unfold key in E. injection E as E1 E2. now apply (Hf x). }
      exists g', t. split; auto. split; auto. split; auto. split.
      - intros d u n e. unfold has. split.
        + intros (es & Hin & He). apply I' in Hin as [Hin|(_ & E)]; [eauto|]. injection E as -> -> -> ->.
          apply (proj1 (in_normal _ _)) in He. auto.
        + intros [(es & Hin & He)|(-> & -> & -> & He)].
          * exists es. split; auto. apply I'. auto.
          * exists (normal tags). split; [|now apply in_normal]. apply I'. right. split; auto. intros ->. destruct He.
      - right. split; auto. }
    destruct Ht as [Hneg|(Hpos & Hf)].
    + rewrite (add_group_new g dim tags tag name Hneg). destruct (new_tag_spec (groups g) dim) as (Np & Nf).
      apply (Add (new_tag (groups g) dim)); auto.
      * intros x Hx Ed E. specialize (Nf x Hx Ed). lia.
      * lia.
    + apply (Add tag); auto.
Qed.

(** * getMaterials *)
Lemma prefix_iff a : forall b, prefix a b = true <-> exists r, b = (a ++ r)%string.
Proof.
  induction a as [|c a IH]; intros b.
  - cbn. destruct b; split; auto; intros _; eexists; reflexivity.
  - destruct b as [|d b]; cbn.
    + split; [discriminate|]. intros (r & E). discriminate.
    + destruct (Ascii.ascii_dec c d) as [->|Hne].
      * rewrite IH. split; intros (r & E); exists r; [now subst|]. now injection E.
      * split; [discriminate|]. intros (r & E). injection E. congruence.
Qed.
Lemma substring_all b : substring 0 (String.length b) b = b.
Proof. induction b as [|c b IH]; cbn; auto. now rewrite IH. Qed.
Lemma substring_app a b : substring (String.length a) (String.length b) (a ++ b) = b.
Proof. induction a as [|c a IH]; cbn; auto. apply substring_all. Qed.
Lemma names_material_inj x n n' : names_material x n -> names_material x n' -> n = n'.
Proof. intros (c & E) (c' & E'). rewrite E in E'. cbn in E'. injection E'. auto. Qed.

Lemma get_material_ok g mats x e es : g_name x <> "Material"%string -> g_ents x = e :: es ->
  get_material g mats x = Ret mats /\ (forall n, names_material x n -> In n (map m_name mats)) \/
  exists n, names_material x n /\ ~ In n (map m_name mats) /\
    get_material g mats x = Ret (mats ++ [mkM n (paint (geo g) (g_dim x, e))]).
Proof.
  intros Hn He. unfold get_material. destruct (prefix "Material" (g_name x)) eqn:Ep.
  - apply prefix_iff in Ep as ([|c n] & En).
    { exfalso. apply Hn. rewrite En. reflexivity. }
    assert (Hx : names_material x n) by (exists c; exact En).
    assert (El : String.length (g_name x) = (9 + String.length n)%nat) by (rewrite En; reflexivity).
    rewrite El. destruct (Nat.ltb_spec (9 + String.length n) 9); [lia|].
    replace (9 + String.length n - 9)%nat with (String.length n) by lia.
    assert (Es : substring 9 (String.length n) (g_name x) = n).
    { rewrite En. exact (substring_app ("Material" ++ String c "") n). }
    rewrite Es. rewrite He. cbn [rd nth_error bind].
    destruct (existsb (fun m => String.eqb (m_name m) n) mats) eqn:Ex.
    + left. split; auto. intros n' Hn'. rewrite (names_material_inj x n' n Hn' Hx).
      apply existsb_exists in Ex as (m & Hm & E). apply String.eqb_eq in E. subst n. now apply in_map.
    + right. exists n. split; auto. split; auto. intros Hi. apply in_map_iff in Hi as (m & Em & Hm).
      rewrite <- not_true_iff_false in Ex. apply Ex. apply existsb_exists. exists m. split; auto. now apply String.eqb_eq.
  - left. split; auto. intros n (c & E). exfalso. rewrite <- not_true_iff_false in Ep. apply Ep.
    apply prefix_iff. eauto.
Qed.

Theorem get_materials_ok g mats : well_formed g -> (forall x, In x (groups g) -> g_name x <> "Material"%string) ->
  exists new, get_materials g mats = Ret (mats ++ new) /\ NoDup (map m_name new) /\
    forall m, In m new <-> found g mats m.
Proof.
  intros W Hn. unfold get_materials.
  set (upto := fun q m => exists k x e es, (k < q)%nat /\ nth_error (groups g) k = Some x /\ names_material x (m_name m) /\
    g_ents x = e :: es /\ m_colour m = paint (geo g) (g_dim x, e) /\
    ~ In (m_name m) (map m_name mats) /\
    forall k' y, (k' < k)%nat -> nth_error (groups g) k' = Some y -> ~ names_material y (m_name m)).
  assert (Main : forall l pre new, groups g = pre ++ l -> NoDup (map m_name new) ->
    (forall m, In m new <-> upto (length pre) m) ->
    exists new', get_materials_of g l (mats ++ new) = Ret (mats ++ new') /\ NoDup (map m_name new') /\
      forall m, In m new' <-> upto (length (groups g)) m).
  { induction l as [|x l IH]; intros pre new E Hd Hnew; cbn [get_materials_of].
    - exists new. split; auto. split; auto. rewrite E, app_nil_r. exact Hnew.
    - assert (Hx : In x (groups g)) by (rewrite E; apply in_app_iff; right; now left).
      assert (Ex : nth_error (groups g) (length pre) = Some x) by (rewrite E; apply nth_error_mid).
      destruct (proj2 W _ Hx) as (_ & Hne & _). destruct (g_ents x) as [|e es] eqn:Ee; [congruence|].
      (* the names found so far are those of the groups before *)
      assert (Known : forall k y n, (k < length pre)%nat -> nth_error (groups g) k = Some y -> names_material y n ->
                 In n (map m_name (mats ++ new))).
      { intros k. induction k as [k IHk] using lt_wf_ind. intros y n Hk Ey Hyn.
        rewrite map_app, in_app_iff. destruct (in_dec string_dec n (map m_name mats)) as [|Hni]; auto. right.
        destruct (in_dec string_dec n (map m_name new)) as [|Hni2]; auto. exfalso. apply Hni2.
        assert (Hy : In y (groups g)) by (eapply nth_error_In; eauto).
        destruct (proj2 W _ Hy) as (_ & Hney & _). destruct (g_ents y) as [|e' es'] eqn:Ee'; [congruence|].
        apply in_map_iff. exists (mkM n (paint (geo g) (g_dim y, e'))). split; auto. apply Hnew.
        exists k, y, e', es'. cbn. repeat (split; auto). intros k' z Hk' Ez Hzn.
        assert (In n (map m_name (mats ++ new))) by (apply (IHk k' Hk' z n); auto; lia).
        rewrite map_app, in_app_iff in *. tauto. }
      destruct (get_material_ok g (mats ++ new) x e es) as [(Eg & Hkn)|(n & Hxn & Hni & Eg)]; auto.
      + rewrite Eg. cbn [bind]. apply (IH (pre ++ [x]) new); auto.
        * rewrite E, <- app_assoc. reflexivity.
        * intros m. rewrite Hnew. unfold upto. rewrite app_length. cbn. split.
          -- intros (k & y & e' & es' & Hk & R). exists k, y, e', es'. split; [lia|auto].
          -- intros (k & y & e' & es' & Hk & R). destruct (Nat.eq_dec k (length pre)) as [->|Hnk].
             ++ exfalso. destruct R as (Ey & Hyn & _ & _ & Hnm & Hbefore).
                assert (y = x) by congruence. subst y. specialize (Hkn _ Hyn). rewrite map_app, in_app_iff in Hkn.
                destruct Hkn as [|Hkn]; [auto|]. apply in_map_iff in Hkn as (m' & Em' & Hm').
                apply Hnew in Hm' as (k' & z & ez & esz & Hk' & Ez & Hz & _). rewrite Em' in Hz.
                exact (Hbefore k' z Hk' Ez Hz).
             ++ exists k, y, e', es'. split; [lia|auto].
      + rewrite Eg. cbn [bind]. rewrite <- app_assoc. rewrite map_app, in_app_iff in Hni.
        apply (IH (pre ++ [x]) (new ++ [mkM n (paint (geo g) (g_dim x, e))])).
        * rewrite E, <- app_assoc. reflexivity.
        * rewrite map_app. cbn.
          apply (Permutation_NoDup (l := n :: map m_name new)).
          -- apply (Permutation_app_comm [n]).
          -- constructor; tauto.
        * intros m. rewrite in_app_iff, Hnew. unfold upto. rewrite app_length. cbn. split.
          -- intros [(k & y & e' & es' & Hk & R)|[<- |[]]].
             ++ exists k, y, e', es'. split; [lia|auto].
             ++ exists (length pre), x, e, es. cbn. split; [lia|]. split; auto. split; auto. split; auto. split; auto.
                split; [tauto|]. intros k' y Hk' Ey Hyn. specialize (Known k' y n Hk' Ey Hyn).
                rewrite map_app, in_app_iff in Known. tauto.
          -- intros (k & y & e' & es' & Hk & R). destruct (Nat.eq_dec k (length pre)) as [->|Hnk].
             ++ right. left. destruct R as (Ey & Hyn & He' & Hc & _). assert (y = x) by congruence. subst y.
                rewrite (names_material_inj _ _ _ Hxn Hyn). destruct m as [mn mc]; cbn in *. rewrite Hc.
                replace e with e' by congruence. reflexivity.
             ++ left. exists k, y, e', es'. split; [lia|auto]. }
  destruct (Main (groups g) [] []) as (new & E & Hd & H); auto.
  - constructor.
  - intros m. split; [intros []|]. intros (k & x & e & es & Hk & _). cbn in Hk. lia.
  - rewrite app_nil_r in E. exists new. split; auto. split; auto. intros m. rewrite H. unfold upto, found. split.
    + intros (k & x & e & es & Hk & R). eauto 10.
    + intros (k & x & e & es & Ek & R). exists k, x, e, es. split; [apply nth_error_Some; congruence|auto].
Qed.
