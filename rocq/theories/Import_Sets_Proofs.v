(** Names, subsets and materials of an import. *)
From Coq Require Import String.
From Coq Require Import List Arith ZArith Lia Bool Reals Sorting.Sorted.
From Verif Require Import Base Loops StringView_Model StringView_Spec StringView_Proofs Ascii_Model Ascii_Spec Ascii_Proofs TextIo_Model Elem_Model Elem_Proofs Soup_Model Soup_Spec Soup_Proofs
  Fvm_Model Fvm_Spec Mpact_Model Mpact_Spec Export_Model Export_Spec Export_Sets_Proofs Import_Model Import_Spec.
Import ListNotations.
Local Open Scope list_scope.

(** ** Names *)
Lemma cell_set_0 : lit "Coarse_Cell_00000" = cell_set 0.
Proof. reflexivity. Qed.
Lemma cell_set_next i : (Z.of_nat i < 99999)%Z -> incrementASCIINumber (cell_set i) = Ret (cell_set (S i)).
Proof.
  intros H. destruct (increments_get (lit "Coarse_Cell_") i ltac:(lia)) as (s & E & I1 & _).
  destruct (increments_get (lit "Coarse_Cell_") (S i) ltac:(lia)) as (s' & E' & I2 & _).
  rewrite ascii5 in E, E' by lia. injection E as <-. injection E' as <-.
  cbn [increments] in I2. rewrite I1 in I2. exact I2.
Qed.
Lemma cell_set_increment i : (Z.of_nat i < 100000)%Z -> exists s, incrementASCIINumber (cell_set i) = Ret s.
Proof.
  intros H. destruct (Z.lt_ge_cases (Z.of_nat i) 99999) as [Hl|Hl].
  - exists (cell_set (S i)). now apply cell_set_next.
  - exists (lit "Coarse_Cell`00000"). unfold cell_set. replace (Z.of_nat i) with 99999%Z by lia. reflexivity.
Qed.
Lemma cell_not_material i n : cell_set i <> lit "Material_" ++ n.
Proof. discriminate. Qed.

(** ** Uniqueness of a subset *)
Lemma sorted_unique (l : list Z) : forall l', StronglySorted Z.lt l -> StronglySorted Z.lt l' -> (forall v, In v l <-> In v l') -> l = l'.
Proof.
  induction l as [|x l IH]; intros [|y l'] H H' E; auto.
  - destruct (proj2 (E y) (or_introl eq_refl)).
  - destruct (proj1 (E x) (or_introl eq_refl)).
  - apply StronglySorted_inv in H as (H & F). apply StronglySorted_inv in H' as (H' & F'). rewrite Forall_forall in F, F'.
    assert (x = y).
    { destruct (proj1 (E x) (or_introl eq_refl)) as [->|Hx]; auto. destruct (proj2 (E y) (or_introl eq_refl)) as [->|Hy]; auto.
      specialize (F _ Hy). specialize (F' _ Hx). lia. }
    subst y. f_equal. apply IH; auto. intros v. specialize (E v). cbn in E. split; intros Hv.
    + destruct (proj1 E (or_intror Hv)) as [->|]; auto. specialize (F _ Hv). lia.
    + destruct (proj2 E (or_intror Hv)) as [->|]; auto. specialize (F' _ Hv). lia.
Qed.
Lemma sorted_NoDup (l : list Z) : StronglySorted Z.lt l -> NoDup l.
Proof.
  induction 1 as [|x l H IH F]; constructor; auto. intros Hx. rewrite Forall_forall in F. specialize (F _ Hx). lia.
Qed.
Lemma F2_fun {A B} (P : A -> B -> Prop) (l : list A) : (forall a b b', P a b -> P a b' -> b = b') ->
  forall m m', Forall2 P l m -> Forall2 P l m' -> m = m'.
Proof.
  intros HP. induction l as [|a l IH]; intros m m' H H'; inversion H; inversion H'; subst; auto. f_equal; eauto.
Qed.
Lemma F2_nth {A B} (P : A -> B -> Prop) l m : Forall2 P l m -> forall i a, nth_error l i = Some a -> exists b, nth_error m i = Some b /\ P a b.
Proof. induction 1 as [|a b l m Hab H IH]; intros [|i] x E; try discriminate; cbn in *; [injection E as <-; eauto|eauto]. Qed.
Lemma F2_nth_r {A B} (P : A -> B -> Prop) l m : Forall2 P l m -> forall i b, nth_error m i = Some b -> exists a, nth_error l i = Some a /\ P a b.
Proof. induction 1 as [|a b l m Hab H IH]; intros [|i] x E; try discriminate; cbn in *; [injection E as <-; eauto|eauto]. Qed.
Lemma subset_unique {P F} (a : asoup P F) n n' ids c c' : subset_of a n ids c -> subset_of a n' ids c' ->
  a_verts c = a_verts c' /\ a_elems c = a_elems c'.
Proof.
  intros (used & Su & Mu & Vu & Eu & _) (used' & Su' & Mu' & Vu' & Eu' & _).
  assert (used' = used) by (apply sorted_unique; auto; intros v; rewrite Mu, Mu'; tauto). subst used'. split.
  - eapply F2_fun; [|exact Vu|exact Vu']. cbn. congruence.
  - eapply F2_fun; [|exact Eu|exact Eu']. cbn. intros i b b' (t & cn & c1 & N & -> & F1) (t' & cn' & c2 & N' & -> & F2).
    rewrite N in N'. injection N' as <- <-. f_equal. eapply F2_fun; [|exact F1|exact F2]. cbn.
    intros v k k' (Hk & K) (Hk' & K'). apply sorted_NoDup in Su.
    assert (Z.to_nat k = Z.to_nat k'). { eapply NoDup_nth_error; eauto; [apply nth_error_Some; congruence|congruence]. }
    lia.
Qed.

(** ** Materials *)
Lemma find_material_shift ms n : forall i, find_material ms n i = option_map (Z.add i) (find_material ms n 0).
Proof.
  induction ms as [|x ms IH]; intros i; cbn [find_material]; auto. destruct (name_eqb _ n).
  - cbn. f_equal. lia.
  - rewrite (IH (i + 1)%Z), (IH (0 + 1)%Z). destruct (find_material ms n 0); cbn [option_map]; auto. f_equal. lia.
Qed.
Lemma first_called_cons x ms n z : first_called (x :: ms) n z <->
  (lit (Mpact_Model.name x) = n /\ z = 0%Z) \/ (lit (Mpact_Model.name x) <> n /\ exists z', z = (1 + z')%Z /\ first_called ms n z').
Proof.
  split.
  - intros ([|i] & y & -> & N & E & F).
    + injection N as ->. now left.
    + right. split; [exact (F O x (Nat.lt_0_succ i) eq_refl)|]. exists (Z.of_nat i). split; [lia|]. exists i, y. repeat split; auto.
      intros j w Hj. apply (F (S j) w). lia.
  - intros [(E & ->)|(E & z' & -> & i & y & -> & N & E' & F)].
    + exists O, x. repeat split; auto. intros j y Hj. lia.
    + exists (S i), y. split; [lia|]. repeat split; auto. intros [|j] w Hj Hw; [cbn in Hw; congruence|]. apply (F j w); auto. lia.
Qed.
Lemma find_material_ok ms n : match find_material ms n 0 with
  | Some z => first_called ms n z | None => forall z, ~ first_called ms n z end.
Proof.
  induction ms as [|x ms IH]; cbn [find_material].
  - intros z (i & y & _ & N & _). destruct i; discriminate.
  - destruct (name_eqb_spec (lit (Mpact_Model.name x)) n) as [E|E].
    + apply first_called_cons. auto.
    + rewrite find_material_shift. destruct (find_material ms n 0) as [z|]; cbn [option_map].
      * apply first_called_cons. right. split; auto. exists z. split; auto.
      * intros z Hz. apply first_called_cons in Hz as [(? & _)|(_ & z' & _ & Hz)]; [contradiction|]. now apply (IH z').
Qed.
Lemma first_called_fun ms n z z' : first_called ms n z -> first_called ms n z' -> z = z'.
Proof.
  intros (i & x & -> & N & E & F) (j & y & -> & N' & E' & F').
  destruct (Nat.lt_trichotomy i j) as [H|[->|H]]; auto.
  - destruct (F' i x H N E).
  - destruct (F j y H N' E').
Qed.
Lemma first_called_range ms n z : first_called ms n z -> (0 <= z < Z.of_nat (length ms))%Z.
Proof. intros (i & x & -> & N & _). assert (i < length ms)%nat by (apply nth_error_Some; congruence). lia. Qed.

(** the material of an element according to a list of sets *)
Definition told_in (l : list (elset R)) (ms : list material) (id mat : Z) : Prop :=
  exists before e after n, l = before ++ e :: after /\ material_set e n /\ In id (es_ids e) /\ first_called ms n mat /\
    forall e' n', In e' after -> material_set e' n' -> ~ In id (es_ids e').
Definition silent (l : list (elset R)) (id : Z) : Prop := forall e n, In e l -> material_set e n -> ~ In id (es_ids e).
Lemma told_cons e l ms id mat : told_in (e :: l) ms id mat <->
  told_in l ms id mat \/ (silent l id /\ exists n, material_set e n /\ In id (es_ids e) /\ first_called ms n mat).
Proof.
  split.
  - intros ([|b before] & e1 & after & n & E & M & Hi & Hf & Ha); injection E as -> ->.
    + right. split; [exact Ha|]. now exists n.
    + left. now exists before, e1, after, n.
  - intros [(before & e1 & after & n & -> & M & Hi & Hf & Ha)|(Hs & n & M & Hi & Hf)].
    + now exists (e :: before), e1, after, n.
    + now exists [], e, l, n.
Qed.
Lemma told_nil ms id mat : ~ told_in [] ms id mat.
Proof. intros ([|b0 b1] & e1 & after & n & E0 & _); discriminate. Qed.
Lemma silent_cons e l id : silent (e :: l) id <-> (forall n, material_set e n -> ~ In id (es_ids e)) /\ silent l id.
Proof.
  split.
  - intros H. split; [intros n; apply H; now left|]. intros e' n He. apply H. now right.
  - intros (H1 & H2) e' n [<-|He]; [apply H1|now apply H2].
Qed.
Lemma told_not_silent l ms id mat : told_in l ms id mat -> ~ silent l id.
Proof. intros (b & e & af & n & -> & M & Hi & _) Hs. apply (Hs e n); auto. apply in_app_iff. cbn. auto. Qed.
Lemma told_fun l ms id z z' : told_in l ms id z -> told_in l ms id z' -> z = z'.
Proof.
  induction l as [|e l IH]; [intros H; now apply told_nil in H|]. rewrite !told_cons.
  intros [H|(Hs & n & M & Hi & Hf)] [H'|(Hs' & n' & M' & Hi' & Hf')]; auto.
  - now apply told_not_silent in H.
  - now apply told_not_silent in H'.
  - unfold material_set in *. rewrite M in M'. apply app_inv_head in M'. subst n'. eapply first_called_fun; eauto.
Qed.

(** the sets of a subset *)
Lemma restricted_in ids (e e' : elset R) j id : NoDup ids -> restricted ids e e' -> nth_error ids j = Some id ->
  (In (Z.of_nat j) (es_ids e') <-> In id (es_ids e)).
Proof.
  intros Hn (_ & kept & _ & Hk & F & _) Hj. split.
  - intros Hi. apply In_nth_error in Hi as (p & Hp). destruct (F2_nth_r _ _ _ F p _ Hp) as (q & Hq & _ & x & Hx & Hx').
    rewrite Nat2Z.id, Hj in Hx'. injection Hx' as <-. eapply nth_error_In; eauto.
  - intros Hi. apply In_nth_error in Hi as (p & Hp). assert (Kp : In p kept) by (apply (Hk p id Hp); eapply nth_error_In; eauto).
    apply In_nth_error in Kp as (r & Hr). destruct (F2_nth _ _ _ F r _ Hr) as (k & Hk' & H0 & x & Hx & Hx').
    rewrite Hp in Hx. injection Hx as <-.
    assert (Z.to_nat k = j). { eapply NoDup_nth_error; eauto; [apply nth_error_Some; congruence|congruence]. }
    replace (Z.of_nat j) with k by lia. eapply nth_error_In; eauto.
Qed.

Lemma touching_told n ids ms (Hn : NoDup ids) (Hm : forall x, n <> lit "Material_" ++ x) j id (Hj : nth_error ids j = Some id) la :
  forall lc, Forall2 (restricted ids) (touching n ids la) lc ->
  (silent lc (Z.of_nat j) <-> silent la id) /\ forall mat, told_in lc ms (Z.of_nat j) mat <-> told_in la ms id mat.
Proof.
  induction la as [|e la IH]; intros lc H.
  - cbn in H. inversion H; subst. split; [split; intros _ e n' []|]. intros mat. split; intros T; now apply told_nil in T.
  - unfold touching in H. cbn [filter] in H. fold (touching n ids la) in H.
    destruct (list_eq_dec Z.eq_dec (es_name e) n) as [En|En]; cbn [andb] in H.
    + destruct (IH lc H) as (IS & IT). split.
      * rewrite silent_cons, IS. split; [intros Hs; split; auto; intros x M; unfold material_set in M; rewrite En in M; now apply Hm in M|tauto].
      * intros mat. rewrite told_cons, IT. split; [auto|intros [T|(_ & x & M & _)]; auto].
        unfold material_set in M. rewrite En in M. now apply Hm in M.
    + destruct (existsb _ (es_ids e)) eqn:Ex.
      * inversion H as [|e0 e' la' lc' Hr Hf]; subst. destruct (IH _ Hf) as (IS & IT).
        pose proof (restricted_in ids e e' j id Hn Hr Hj) as Hin. destruct Hr as (Hname & _).
        assert (HM : forall x, material_set e' x <-> material_set e x) by (intros x; unfold material_set; now rewrite Hname).
        split.
        -- rewrite !silent_cons, IS. split; intros (H1 & H2); (split; [|exact H2]); intros x M.
           ++ rewrite <- Hin. apply (H1 x). now apply HM.
           ++ rewrite Hin. apply (H1 x). now apply HM.
        -- intros mat. rewrite !told_cons, IT, IS. split; (intros [T|(Hs & x & M & Hi & Hf')]; [now left|right]); (split; [exact Hs|]); exists x.
           ++ repeat split; [now apply HM|now apply Hin|exact Hf'].
           ++ repeat split; [now apply HM|now apply Hin|exact Hf'].
      * destruct (IH lc H) as (IS & IT).
        assert (Hni : ~ In id (es_ids e)).
        { intros Hi. assert (existsb (fun i => existsb (Z.eqb i) ids) (es_ids e) = true); [|congruence].
          apply existsb_exists. exists id. split; auto. apply existsb_exists. exists id. split; [eapply nth_error_In; eauto|apply Z.eqb_refl]. }
        split.
        -- rewrite silent_cons, IS. split; [intros Hs; split; auto|tauto].
        -- intros mat. rewrite told_cons, IT. split; [auto|intros [T|(_ & x & _ & Hi & _)]; [auto|contradiction]].
Qed.

(** ** The loop over the sets *)
Lemma prefix_ok (n : list Z) : exists b, starts_with (mkSv n (length n)) (mkSv (lit "Material_") 9) = Ret b /\
  (b = true <-> exists r, n = lit "Material_" ++ r).
Proof.
  destruct (starts_with_ok (mkSv n (length n)) (mkSv (lit "Material_") 9)) as (b & E & H).
  - unfold valid. cbn. apply le_n.
  - unfold valid. cbn. apply le_n.
  - exists b. split; auto. rewrite H. unfold text. cbn [tail vsize]. change (firstn (length n) n) with (@firstn Z (@length Z n) n). now rewrite firstn_all.
Qed.
Lemma assert_true {A} b (k : outcome A) : Mpact_Model.assert b true k = k.
Proof. unfold Mpact_Model.assert. cbn. now rewrite andb_false_r. Qed.
Section Mark.
Variable checks : bool.
Lemma paint_ok v n ids : forall mats : list Z, (forall i, In i ids -> 0 <= i < Z.of_nat n)%Z -> length mats = n ->
  exists mats', foreach ids (fun id mats => Mpact_Model.assert checks ((0 <=? id) && (id <? Z.of_nat n))%Z (wrz mats id v)) mats = Ret mats' /\
    length mats' = n /\
    forall j, (j < n)%nat -> nth_error mats' j = if existsb (Z.eqb (Z.of_nat j)) ids then Some v else nth_error mats j.
Proof.
  induction ids as [|i ids IH]; intros mats Hr Hl; cbn [foreach].
  - exists mats. repeat split; auto.
  - assert (Hi : (0 <= i < Z.of_nat n)%Z) by (apply Hr; now left).
    replace ((0 <=? i) && (i <? Z.of_nat n))%Z with true by (symmetry; apply andb_true_iff; split; [apply Z.leb_le|apply Z.ltb_lt]; lia).
    rewrite assert_true.
    unfold wrz. destruct (Z.ltb_spec i 0) as [|_]; [lia|]. rewrite wr_ok by lia. cbn [bind].
    destruct (IH (upd mats (Z.to_nat i) v)) as (mats' & E & L & N); [intros; apply Hr; now right|now rewrite upd_length|].
    exists mats'. split; [exact E|]. split; [exact L|]. intros j Hj. rewrite (N j Hj). cbn [existsb].
    destruct (existsb (Z.eqb (Z.of_nat j)) ids); [now rewrite orb_true_r|]. rewrite orb_false_r.
    destruct (Z.eqb_spec (Z.of_nat j) i) as [E'|E'].
    + subst i. rewrite Nat2Z.id. apply nth_error_upd_eq. lia.
    + apply nth_error_upd_neq. lia.
Qed.

Variables (u : soup (R * R * R) R) (c : asoup (R * R * R) R) (ms : list material).
Hypotheses (Hst : stores u c) (Hco : content_ok c) (Hid : ids_ok c).
Definition known (l : list (elset R)) : Prop := forall e n, In e l -> material_set e n -> exists z, first_called ms n z.
Lemma mark_ok l : incl l (a_elsets c) -> forall mats, length mats = length (a_elems c) ->
  (known l /\ exists mats', mark checks u ms (map es_name l) mats = Ret (mats', true) /\ length mats' = length mats /\
     forall j, (j < length mats)%nat ->
       (silent l (Z.of_nat j) /\ nth_error mats' j = nth_error mats j) \/
       exists z, told_in l ms (Z.of_nat j) z /\ nth_error mats' j = Some (to_int8 z)) \/
  (~ known l /\ exists mats', mark checks u ms (map es_name l) mats = Ret (mats', false) /\ length mats' = length mats).
Proof.
  induction l as [|e l IH]; intros Hin mats Hl; cbn [map mark].
  - left. split; [intros e n []|]. exists mats. repeat split; auto. intros j _. left. split; auto. intros e n [].
  - destruct (prefix_ok (es_name e)) as (b & Eb & Hb). rewrite Eb. cbn [bind].
    assert (Hin' : incl l (a_elsets c)) by (intros x Hx; apply Hin; now right).
    assert (He : In e (a_elsets c)) by (apply Hin; now left).
    destruct b.
    + destruct (proj1 Hb eq_refl) as (r & Er). assert (Sk : skipn 9 (es_name e) = r) by (rewrite Er; reflexivity). rewrite Sk.
      pose proof (find_material_ok ms r) as HF. destruct (find_material ms r 0) as [z|].
      * rewrite (getElsetByName_ok u c e [] Hst Hco He). cbn [bind].
        destruct Hco as (_ & Hok). rewrite Forall_forall in Hok. destruct (Hok e He) as (Hne & _).
        replace (length (es_ids e) =? 0)%nat with false by (symmetry; apply Nat.eqb_neq; destruct (es_ids e); [congruence|discriminate]).
        cbn [negb]. rewrite !assert_true.
        assert (El : length (etypes u) = length (a_elems c)) by (destruct Hst as (_ & -> & _); apply map_length). rewrite El.
        destruct (paint_ok (to_int8 z) (length (a_elems c)) (es_ids e) mats) as (mats1 & E1 & L1 & N1); [intros i Hi; now apply (proj2 Hid e)|auto|].
        rewrite E1. cbn [bind]. destruct (IH Hin' mats1 L1) as [(Hk & mats' & E & L & N)|(Hk & mats' & E & L)].
        -- left. split.
           { intros e' n [<-|He'] M; [|now apply (Hk e')]. unfold material_set in M. rewrite Er in M. apply app_inv_head in M. subst n. eauto. }
           exists mats'. split; [exact E|]. split; [congruence|]. intros j Hj.
           destruct (N j ltac:(lia)) as [(Hs & Hv)|(z' & T & Hv)].
           ++ rewrite Hv, N1 by lia. destruct (existsb (Z.eqb (Z.of_nat j)) (es_ids e)) eqn:Ex.
              ** right. exists z. split; [|reflexivity]. apply told_cons. right. split; auto. exists r. repeat split; auto.
                 apply existsb_exists in Ex as (x & Hx & Ex). apply Z.eqb_eq in Ex. now subst x.
              ** left. split; [|reflexivity]. apply silent_cons. split; auto. intros n _ Hx.
                 assert (existsb (Z.eqb (Z.of_nat j)) (es_ids e) = true); [|congruence]. apply existsb_exists. exists (Z.of_nat j). split; auto. apply Z.eqb_refl.
           ++ right. exists z'. split; auto. apply told_cons. now left.
        -- right. split; [intros K; apply Hk; intros e' n He'; apply K; now right|]. exists mats'. split; [exact E|congruence].
      * right. split.
        -- intros K. destruct (K e r (or_introl eq_refl) Er) as (z & Hz). now apply (HF z).
        -- exists mats. auto.
    + assert (Nm : forall n, ~ material_set e n) by (intros n M; assert (false = true) by (apply Hb; now exists n); discriminate).
      destruct (IH Hin' mats Hl) as [(Hk & mats' & E & L & N)|(Hk & mats' & E & L)].
      * left. split; [intros e' n [<-|He'] M; [now apply Nm in M|now apply (Hk e')]|]. exists mats'. repeat split; auto.
        intros j Hj. destruct (N j Hj) as [(Hs & Hv)|(z' & T & Hv)].
        -- left. split; auto. apply silent_cons. split; auto. intros n M. now apply Nm in M.
        -- right. exists z'. split; auto. apply told_cons. now left.
      * right. split; [intros K; apply Hk; intros e' n He'; apply K; now right|]. exists mats'. auto.
Qed.
End Mark.
