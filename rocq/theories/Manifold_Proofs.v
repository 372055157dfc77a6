From Coq Require Import List Arith ZArith Lia Bool Sorting.Permutation.
From Verif Require Import Base Loops Sort_Spec Soup_Model Soup_Spec Soup_Sort_Proofs Soup_Merge_Proofs Soup_Compare_Proofs
  Fvm_Model Fvm_Spec Fvm_Proofs Fvm_Sort_Proofs Fvm_Query_Proofs Manifold_Model Manifold_Spec.
Import ListNotations.

(** * The walk along the boundary *)
Section Walk.
Variable bs : list (list Z).
Variable b0 : list Z.
Hypothesis Hb0 : In b0 bs.
Hypothesis Hs : NoDup (map e0 bs).
Hypothesis He : NoDup (map e1 bs).

Lemma map_inj {A B} (f : A -> B) l x y : NoDup (map f l) -> In x l -> In y l -> f x = f y -> x = y.
Proof.
  induction l as [|a l IH]; intros Hn Hx Hy E; [destruct Hx|]. cbn in Hn. inversion Hn as [|? ? H1 H2]; subst.
  destruct Hx as [<-|Hx], Hy as [<-|Hy]; auto; exfalso; apply H1.
  - rewrite E. now apply in_map.
  - rewrite <- E. now apply in_map.
Qed.

(** edges visited so far, the present one first *)
Fixpoint linked (vs : list (list Z)) : Prop :=
  match vs with
  | [] => False
  | y :: r => match r with [] => y = b0 | x :: _ => e1 x = e0 y /\ linked r end
  end.
Lemma linked_b0 vs : linked vs -> In b0 vs.
Proof.
  induction vs as [|y [|x r] IH]; intros H; cbn in *; [destruct H|auto|].
  right. apply IH. apply H.
Qed.
(** a visited edge other than the first was reached from an edge visited before *)
Lemma linked_pred vs y : linked vs -> In y vs -> y = b0 \/ exists x, In x (tl vs) /\ e1 x = e0 y.
Proof.
  induction vs as [|z [|x r] IH]; intros H Hy; [destruct Hy|cbn in H; destruct Hy as [<-|[]]; auto|].
  destruct H as [H1 H2]. destruct Hy as [<-|Hy].
  - right. exists x. cbn. auto.
  - destruct (IH H2 Hy) as [?|(w & Hw & Ew)]; [auto|]. right. exists w. cbn in *. auto.
Qed.

Lemma walk_ok : forall fuel cur r, linked (cur :: r) -> NoDup (cur :: r) -> incl (cur :: r) bs ->
  length bs < fuel + length (cur :: r) ->
  (walk fuel bs (e0 b0) cur (length r) = Fail /\ exists e, In e bs /\ forall b, In b bs -> e1 e <> e0 b) \/
  exists c ws, walk fuel bs (e0 b0) cur (length r) = Ret (length (c :: ws)) /\ linked (c :: ws) /\
    NoDup (c :: ws) /\ incl (c :: ws) bs /\ e1 c = e0 b0.
Proof.
  induction fuel as [|fuel IH]; intros cur r Hl Hn Hi Hf.
  { pose proof (NoDup_incl_length Hn Hi). lia. }
  cbn [walk]. destruct (find _ bs) as [b|] eqn:E.
  - apply find_some in E as [Hb Eb]. apply Z.eqb_eq in Eb.
    destruct (Z.eqb_spec (e0 b) (e0 b0)) as [Es|Es].
    + right. exists cur, r. rewrite Nat.add_1_r. repeat (split; [auto|]). now rewrite Eb.
    + assert (Hnew : ~ In b (cur :: r)).
      { intros Hin. destruct (linked_pred _ _ Hl Hin) as [->|(x & Hx & Ex)]; [congruence|].
        assert (x = cur).
        { apply (map_inj e1 bs); auto; [apply Hi; now right|apply Hi; now left|congruence]. }
        subst x. inversion Hn; subst. auto. }
      assert (Hi' : incl (b :: cur :: r) bs) by (intros z [<-|Hz]; auto).
      destruct (IH b (cur :: r)) as [(E & HE)|(c & ws & E & HW)].
      * cbn. split; [auto|exact Hl].
      * constructor; auto.
      * auto.
      * cbn [length] in *. lia.
      * left. rewrite Nat.add_1_r. cbn [length] in E. auto.
      * right. exists c, ws. rewrite Nat.add_1_r. cbn [length] in E. auto.
  - left. split; [auto|]. exists cur. split; [apply Hi; now left|].
    intros b Hb Eb. apply (find_none _ _ E) in Hb. rewrite Eb, Z.eqb_refl in Hb. discriminate.
Qed.

Lemma linked_rev c ws : linked (c :: ws) ->
  exists t, map start_of (rev (c :: ws)) = e0 b0 :: t /\ map end_of (rev (c :: ws)) = t ++ [e1 c].
Proof.
  revert c. induction ws as [|x r IH]; intros c H; cbn [linked] in H.
  - subst c. exists []. split; reflexivity.
  - destruct H as [H1 H2]. destruct (IH x H2) as (t & E1 & E2).
    exists (t ++ [e0 c]). change (rev (c :: x :: r)) with (rev (x :: r) ++ [c]).
    rewrite !map_app, E1, E2. cbn. rewrite H1. split; reflexivity.
Qed.

(** the visited edges, once closed, lead to one another *)
Lemma linked_closed c ws : linked (c :: ws) -> e1 c = e0 b0 ->
  forall x, In x (c :: ws) -> exists y, In y (c :: ws) /\ e0 y = e1 x.
Proof.
  intros Hl Hc x [<-|Hx]; [exists b0; split; [now apply linked_b0|auto]|].
  clear Hc. revert c Hl. induction ws as [|y r IH]; intros c Hl; [destruct Hx|].
  destruct Hl as [H1 H2]. destruct Hx as [<-|Hx].
  - exists c. split; [now left|auto].
  - destruct (IH Hx y H2) as (w & Hw & E). exists w. split; [now right|auto].
Qed.
End Walk.

Lemma closed_covers bs l ws b0 : Permutation bs l -> closed_loop l -> incl ws bs -> In b0 ws ->
  (forall x, In x ws -> exists y, In y ws /\ e0 y = e1 x) -> incl bs ws.
Proof.
  intros Hp (s & t & E1 & E2 & Hn) Hi Hb Hc.
  assert (Hlen : length l = S (length t)) by (rewrite <- (map_length start_of), E1; reflexivity).
  assert (Hin : forall x, In x ws -> In x l) by (intros x Hx; eapply Permutation_in; [exact Hp|auto]).
  assert (Hd : NoDup (map start_of l)) by (now rewrite E1).
  assert (Step : forall i x y, nth_error l i = Some x -> nth_error l (S i) = Some y -> In x ws -> In y ws).
  { intros i x y Hx Hy Hxw. destruct (Hc x Hxw) as (z & Hz & Ez).
    assert (Ey : nth_error (map end_of l) i = Some (start_of y)).
    { rewrite E2. rewrite nth_error_app1.
      - pose proof (map_nth_error start_of _ _ Hy) as H. rewrite E1 in H. exact H.
      - assert (S i < length l) by (apply nth_error_Some; congruence). lia. }
    rewrite (map_nth_error end_of _ _ Hx) in Ey. injection Ey as Ey.
    replace y with z; [auto|]. apply (map_inj start_of l); auto; [eapply nth_error_In; eauto|].
    unfold start_of, end_of, e0, e1 in *. congruence. }
  assert (Wrap : forall x y, nth_error l (length t) = Some x -> nth_error l 0 = Some y -> In x ws -> In y ws).
  { intros x y Hx Hy Hxw. destruct (Hc x Hxw) as (z & Hz & Ez).
    assert (Ey : nth_error (map end_of l) (length t) = Some (start_of y)).
    { rewrite E2, nth_error_app2, Nat.sub_diag by lia. cbn.
      pose proof (map_nth_error start_of _ _ Hy) as H. rewrite E1 in H. exact H. }
    rewrite (map_nth_error end_of _ _ Hx) in Ey. injection Ey as Ey.
    replace y with z; [auto|]. apply (map_inj start_of l); auto; [eapply nth_error_In; eauto|].
    unfold start_of, end_of, e0, e1 in *. congruence. }
  assert (Up : forall d i x y, nth_error l i = Some x -> In x ws -> nth_error l (i + d) = Some y -> In y ws).
  { induction d as [|d IH]; intros i x y Hx Hxw Hy.
    - rewrite Nat.add_0_r in Hy. congruence.
    - destruct (nth_error l (i + d)) as [z|] eqn:Ez.
      + apply (Step (i + d) z y); [auto|rewrite <- Nat.add_succ_r; auto|]. exact (IH i x z Hx Hxw Ez).
      + apply nth_error_None in Ez. assert (i + S d < length l) by (apply nth_error_Some; congruence). lia. }
  intros x Hx. assert (Hxl : In x l) by (eapply Permutation_in; eauto).
  apply In_nth_error in Hxl as (i & Ei).
  destruct (In_nth_error l b0 (Hin _ Hb)) as (j & Ej).
  assert (Hj : j < length l) by (apply nth_error_Some; congruence).
  destruct (nth_error l (length t)) as [z|] eqn:Ez; [|apply nth_error_None in Ez; lia].
  destruct (nth_error l 0) as [w|] eqn:Ew; [|apply nth_error_None in Ew; lia].
  assert (In z ws).
  { apply (Up (length t - j) j b0 z); auto. replace (j + (length t - j)) with (length t) by lia. auto. }
  apply (Up i 0 w x); auto. eapply Wrap; eauto.
Qed.

Lemma closed_ends l : closed_loop l -> Permutation (map start_of l) (map end_of l).
Proof. intros (s & t & -> & -> & _). apply Permutation_cons_append. Qed.

Lemma check_loop_ok fuel bs : NoDup (map e0 bs) -> NoDup (map e1 bs) -> length bs <= fuel -> bs <> [] ->
  (check_loop fuel bs = Ret tt /\ exists l, Permutation bs l /\ closed_loop l) \/
  (check_loop fuel bs = Fail /\ ~ exists l, Permutation bs l /\ closed_loop l).
Proof.
  intros Hs He Hf Hne. destruct bs as [|b0 bs0] eqn:Ebs; [contradiction|]. rewrite <- Ebs in *. clear Hne.
  assert (Hb0 : In b0 bs) by (rewrite Ebs; now left).
  unfold check_loop. rewrite Ebs at 1. cbn [rd nth_error bind].
  replace (rd bs 0) with (Ret b0) by (now rewrite Ebs). cbn [bind].
  destruct (walk_ok bs b0 He fuel b0 []) as [(E & e & Hin & Hno)|(c & ws & E & Hl & Hn & Hi & Hc)].
  - reflexivity.
  - constructor; [intros []|constructor].
  - intros x [<-|[]]; auto.
  - cbn. lia.
  - right. cbn [length] in E. rewrite E. split; [reflexivity|]. intros (l & Hp & Hcl).
    pose proof (closed_ends l Hcl) as Hpe.
    assert (Hx : In (end_of e) (map start_of l)).
    { eapply Permutation_in; [symmetry; exact Hpe|]. apply in_map. eapply Permutation_in; eauto. }
    apply in_map_iff in Hx as (b & Eb & Hb). apply (Hno b); [|exact (eq_sym Eb)].
    eapply Permutation_in; [symmetry; exact Hp|auto].
  - cbn [length] in E. rewrite E. cbn [bind].
    destruct (Nat.eqb_spec (S (length ws)) (length bs)) as [Hlen|Hlen]; cbn [negb].
    + left. split; [reflexivity|].
      assert (Hpp : Permutation bs (c :: ws)).
      { symmetry. apply NoDup_Permutation_bis; auto. cbn. lia. }
      exists (rev (c :: ws)). split; [rewrite Hpp; apply Permutation_rev|].
      destruct (linked_rev b0 c ws Hl) as (t & E1 & E2). exists (e0 b0), t. rewrite <- Hc at 1.
      split; [rewrite E1; congruence|]. split; [rewrite E2; congruence|].
      rewrite <- E1. eapply Permutation_NoDup; [|exact Hs]. apply Permutation_map.
      rewrite Hpp. apply Permutation_rev.
    + right. split; [reflexivity|]. intros (l & Hp & Hcl).
      assert (Hcov : incl bs (c :: ws)).
      { eapply closed_covers; eauto; [apply linked_b0; exact Hl|]. eapply linked_closed; eauto. }
      apply NoDup_map_inv in Hs. pose proof (NoDup_incl_length Hs Hcov) as H1.
      pose proof (NoDup_incl_length Hn Hi) as H2. cbn [length] in *. lia.
Qed.

(** * Keys *)
Lemma vec_ltb_irrefl a : vec_ltb a a = false.
Proof. induction a as [|x a IH]; cbn; auto. now rewrite Z.ltb_irrefl. Qed.
Lemma vec_ltb_trans a : forall b c, vec_ltb a b = true -> vec_ltb b c = true -> vec_ltb a c = true.
Proof.
  induction a as [|x a IH]; intros [|y b] [|z c] H1 H2; cbn in *; try discriminate.
  destruct (Z.ltb_spec x y), (Z.ltb_spec y z), (Z.ltb_spec x z); auto; try lia;
    destruct (Z.ltb_spec y x), (Z.ltb_spec z y), (Z.ltb_spec z x); try discriminate; try lia; eauto.
Qed.
Lemma vec_ltb_total a : forall b, length a = length b -> vec_ltb a b = false -> vec_ltb b a = false -> a = b.
Proof.
  induction a as [|x a IH]; intros [|y b] Hl H1 H2; cbn in *; try discriminate; auto.
  destruct (Z.ltb_spec x y); [discriminate|]. destruct (Z.ltb_spec y x); [discriminate|].
  f_equal; [lia|]. apply IH; auto.
Qed.
Lemma vec_ltb_incomp a b c : length a = length b -> length b = length c ->
  vec_ltb a b = false -> vec_ltb b c = false -> vec_ltb a c = false.
Proof.
  intros L1 L2 H1 H2. destruct (vec_ltb a c) eqn:E; auto.
  destruct (vec_ltb b a) eqn:E1.
  - rewrite <- H2. symmetry. eapply vec_ltb_trans; eauto.
  - apply vec_ltb_total in H1; auto. subst. congruence.
Qed.
Ltac tot a b E := assert (E : fst a = fst b) by (apply vec_ltb_total; [congruence|assumption|assumption]).
Lemma epair_swo n : strict_weak_order_on epair_ltb (fun x => length (fst x) = n).
Proof.
  unfold epair_ltb. split.
  - intros a Ha. rewrite vec_ltb_irrefl. apply Z.ltb_irrefl.
  - intros a b c Ha Hb Hc H1 H2.
    destruct (vec_ltb (fst a) (fst b)) eqn:E1, (vec_ltb (fst b) (fst c)) eqn:E2.
    + now rewrite (vec_ltb_trans _ _ _ E1 E2).
    + destruct (vec_ltb (fst c) (fst b)) eqn:E3; [discriminate|]. tot b c E. rewrite <- E, E1. auto.
    + destruct (vec_ltb (fst b) (fst a)) eqn:E3; [discriminate|]. tot a b E. rewrite E, E2. auto.
    + destruct (vec_ltb (fst c) (fst b)) eqn:E3; [discriminate|].
      destruct (vec_ltb (fst b) (fst a)) eqn:E4; [discriminate|].
      tot a b E. tot b c E'. rewrite E, E', vec_ltb_irrefl. lia.
  - intros a b c Ha Hb Hc H1 H2.
    destruct (vec_ltb (fst a) (fst b)) eqn:E1; [discriminate|].
    destruct (vec_ltb (fst b) (fst c)) eqn:E2; [discriminate|].
    rewrite (vec_ltb_incomp _ (fst b)) by congruence.
    destruct (vec_ltb (fst c) (fst a)) eqn:E5; auto.
    destruct (vec_ltb (fst b) (fst a)) eqn:E3.
    { assert (vec_ltb (fst c) (fst a) = true); [|congruence].
      destruct (vec_ltb (fst c) (fst b)) eqn:E4; [eapply vec_ltb_trans; eauto|]. tot b c E. congruence. }
    tot a b E. destruct (vec_ltb (fst c) (fst b)) eqn:E4; [rewrite E in E5; congruence|]. lia.
Qed.

Definition natural (x : list Z * Z) : list Z := fst (new_edge x).
Lemma swap_swap e : swap01 (swap01 e) = e. Proof. now destruct e as [|a [|b e]]. Qed.
Lemma natural_canon e : natural (canon e) = e.
Proof. unfold canon. destruct (e1 e <? e0 e)%Z; unfold natural, new_edge; cbn; [apply swap_swap|reflexivity]. Qed.
Lemma swap01_length e : length (swap01 e) = length e. Proof. now destruct e as [|a [|b e]]. Qed.
Lemma canon_length e : length (fst (canon e)) = length e.
Proof. unfold canon. destruct (_ <? _)%Z; cbn; auto using swap01_length. Qed.
Lemma same_edge_iff a b : 2 <= length a -> 2 <= length b -> same_edge a b = true <-> fst (canon a) = fst (canon b).
Proof.
  intros Ha Hb. unfold same_edge.
  destruct a as [|a0 [|a1 a]]; cbn in Ha; try lia. destruct b as [|b0 [|b1 b]]; cbn in Hb; try lia.
  unfold canon, e0, e1. cbn [nth swap01 reverse_edge].
  destruct (edge_dec (a0 :: a1 :: a) (b0 :: b1 :: b)) as [E|E].
  { injection E as -> -> ->. tauto. }
  destruct (edge_dec (a0 :: a1 :: a) (b1 :: b0 :: b)) as [E'|E'].
  - injection E' as -> -> ->. split; auto. intros _.
    destruct (Z.ltb_spec b0 b1), (Z.ltb_spec b1 b0); cbn; auto; try lia.
    f_equal; [lia|]. f_equal. lia.
  - split; [discriminate|]. intros H. exfalso.
    destruct (Z.ltb_spec a1 a0), (Z.ltb_spec b1 b0); cbn in H; injection H as -> -> ->; congruence.
Qed.

(** * Counting *)
Definition gkey (g : list (list Z * Z)) : list Z := match g with [] => [] | x :: _ => fst x end.
Definition good (g : list (list Z * Z)) : Prop := g <> [] /\ forall x, In x g -> fst x = gkey g.
(** (reversed, ordered) *)
Definition tally (g : list (list Z * Z)) : nat * nat :=
  (length (filter (fun x => negb (snd x =? 1)%Z) g), length (filter (fun x => (snd x =? 1)%Z) g)).
Definition summ (g : list (list Z * Z)) : list Z * (nat * nat) :=
  match g with [] => ([], (0, 0)) | x :: _ => (natural x, tally g) end.
Lemma tally_sum g : fst (tally g) + snd (tally g) = length g.
Proof.
  unfold tally. cbn [fst snd]. induction g as [|x g IH]; auto. cbn. destruct (snd x =? 1)%Z; cbn; lia.
Qed.
Lemma new_edge_summ x : new_edge x = summ [x].
Proof. unfold summ, natural, new_edge, tally. cbn. destruct (snd x =? 1)%Z; reflexivity. Qed.
Lemma tally_app g x : tally (g ++ [x]) = count_one (snd x) (tally g).
Proof.
  unfold tally, count_one. rewrite !filter_app, !app_length. cbn. destruct (snd x =? 1)%Z; cbn; f_equal; lia.
Qed.
Lemma summ_app g x : g <> [] -> summ (g ++ [x]) = (fst (summ g), count_one (snd x) (snd (summ g))).
Proof.
  intros H. destruct g as [|y g]; [contradiction|]. unfold summ. cbn [app fst snd].
  rewrite <- tally_app. reflexivity.
Qed.

Lemma sorted_pair l m (x y : list Z * Z) : sorted epair_ltb (l ++ m) -> In x l -> In y m -> vec_ltb (fst y) (fst x) = false.
Proof.
  intros Hs Hx Hy. apply In_nth_error in Hx as (i & Hi). apply In_nth_error in Hy as (j & Hj).
  assert (Hil : i < length l) by (apply nth_error_Some; congruence).
  assert (H : epair_ltb y x = false).
  { apply (Hs i (length l + j) x y); [lia|now rewrite nth_error_app1|].
    rewrite nth_error_app2 by lia. now replace (length l + j - length l) with j by lia. }
  unfold epair_ltb in H. destruct (vec_ltb (fst y) (fst x)); auto; discriminate.
Qed.

Lemma count_edges_ok n l : forall gs g prev,
  (forall x, In x (concat gs ++ g ++ [prev] ++ l) -> length (fst x) = n) ->
  sorted epair_ltb (concat gs ++ g ++ [prev] ++ l) ->
  Forall good gs -> good (g ++ [prev]) -> NoDup (map gkey (gs ++ [g ++ [prev]])) ->
  exists gs', count_edges prev l (map summ (gs ++ [g ++ [prev]])) = Ret (map summ gs') /\
    concat gs' = concat gs ++ g ++ [prev] ++ l /\ Forall good gs' /\ NoDup (map gkey gs').
Proof.
  induction l as [|x l IH]; intros gs g prev Hlen Hs Hg Hp Hn; cbn [count_edges].
  { exists (gs ++ [g ++ [prev]]). split; [reflexivity|]. split; [|split; [apply Forall_app; auto|auto]].
    rewrite concat_app. cbn. rewrite !app_nil_r. reflexivity. }
  assert (Hprev : gkey (g ++ [prev]) = fst prev).
  { symmetry. apply Hp. apply in_or_app. right. now left. }
  destruct (vec_eqb Z.eqb (fst prev) (fst x)) eqn:E.
  - apply (vec_eqb_iff Z.eqb Z.eqb_eq) in E.
    rewrite map_app. cbn [map]. rewrite app_length, map_length. cbn [length].
    replace (length gs + 1 - 1) with (length (map summ gs)) by (rewrite map_length; lia).
    rewrite (proj2 (rd_Ret _ _ (summ (g ++ [prev])))) by apply nth_error_mid. cbn [bind].
    rewrite wr_mid. cbn [bind].
    rewrite <- summ_app by (destruct g; discriminate).
    change [summ ((g ++ [prev]) ++ [x])] with (map summ [(g ++ [prev]) ++ [x]]). rewrite <- map_app.
    destruct (IH gs (g ++ [prev]) x) as (gs' & E' & H1 & H2 & H3).
    + intros y Hy. apply Hlen. rewrite !in_app_iff in *. cbn in *. tauto.
    + rewrite <- !app_assoc. exact Hs.
    + auto.
    + split; [destruct (g ++ [prev]); discriminate|]. intros y Hy. apply in_app_iff in Hy as [Hy|[<-|[]]].
      * rewrite (proj2 Hp y Hy). destruct g; reflexivity.
      * rewrite <- E, <- Hprev. destruct g; reflexivity.
    + rewrite map_app in *. cbn [map] in *. replace (gkey ((g ++ [prev]) ++ [x])) with (gkey (g ++ [prev])); [auto|].
      destruct g; reflexivity.
    + exists gs'. split; [exact E'|]. split; [|auto]. rewrite H1. rewrite <- !app_assoc. reflexivity.
  - rewrite new_edge_summ. change [summ [x]] with (map summ [[x]]). rewrite <- map_app.
    destruct (IH (gs ++ [g ++ [prev]]) [] x) as (gs' & E' & H1 & H2 & H3).
    + intros y Hy. apply Hlen. rewrite concat_app in Hy. cbn in Hy. rewrite !in_app_iff in *. cbn in *. tauto.
    + rewrite concat_app. cbn [concat]. rewrite app_nil_r, <- !app_assoc. exact Hs.
    + apply Forall_app. auto.
    + split; [discriminate|]. intros y [<-|[]]. reflexivity.
    + rewrite map_app. cbn [map gkey app].
      apply NoDup_app_intro; [auto|constructor; [intros []|constructor]|].
      intros k Hk [<-|[]]. cbn in Hk. rewrite map_app, in_app_iff in Hk.
      assert (Hex : exists y, In y (concat gs ++ g ++ [prev]) /\ fst y = fst x).
      { destruct Hk as [Hk|[Hk|[]]].
        - apply in_map_iff in Hk as (h & Hk & Hh). rewrite Forall_forall in Hg. destruct (Hg h Hh) as [Hne _].
          destruct h as [|y h]; [contradiction|]. exists y. split; [|exact Hk].
          apply in_app_iff. left. apply in_concat. exists (y :: h). split; [auto|now left].
        - exists prev. split; [apply in_app_iff; right; apply in_app_iff; right; now left|congruence]. }
      destruct Hex as (y & Hy & Eyx).
      assert (H1 : vec_ltb (fst prev) (fst y) = false).
      { apply in_app_iff in Hy as [Hy|Hy].
        - eapply (sorted_pair (concat gs) (g ++ [prev] ++ x :: l)); eauto.
          apply in_app_iff. right. now left.
        - apply in_app_iff in Hy as [Hy|[<-|[]]]; [|apply vec_ltb_irrefl].
          apply (sorted_pair (concat gs ++ g) ([prev] ++ x :: l)); [now rewrite <- app_assoc|apply in_app_iff; auto|now left]. }
      assert (H2 : vec_ltb (fst x) (fst prev) = false).
      { apply (sorted_pair (concat gs ++ g ++ [prev]) (x :: l)); [rewrite <- !app_assoc; exact Hs| |now left].
        rewrite !in_app_iff. cbn. auto. }
      rewrite Eyx in H1.
      assert (Heq : fst prev = fst x).
      { apply vec_ltb_total; auto. rewrite !Hlen; auto; rewrite !in_app_iff; cbn; auto. }
      rewrite Heq in E. rewrite (proj2 (vec_eqb_iff Z.eqb Z.eqb_eq _ _) eq_refl) in E. discriminate.
    + exists gs'. split; [exact E'|]. split; [|auto]. rewrite H1, concat_app. cbn. rewrite app_nil_r, <- !app_assoc. reflexivity.
Qed.

Lemma boundary_ok u : forall bs, NoDup (map e0 bs) -> NoDup (map e1 bs) ->
  let ones := map fst (filter (fun x => fst (snd x) + snd (snd x) =? 1) u) in
  (boundary u bs = Ret (bs ++ ones) /\ (forall x, In x u -> fst (snd x) + snd (snd x) <= 2) /\
    NoDup (map e0 (bs ++ ones)) /\ NoDup (map e1 (bs ++ ones))) \/
  (boundary u bs = Fail /\ ((exists x, In x u /\ 2 < fst (snd x) + snd (snd x)) \/
    ~ NoDup (map e0 (bs ++ ones)) \/ ~ NoDup (map e1 (bs ++ ones)))).
Proof.
  induction u as [|(e, (a, b)) u IH]; intros bs Hs He ones.
  - left. cbn in *. subst ones. cbn. rewrite app_nil_r. repeat (split; auto). intros x [].
  - subst ones. cbn [boundary filter fst snd]. destruct (Nat.ltb_spec 2 (a + b)) as [H2|H2].
    { right. split; [reflexivity|]. left. eexists. split; [now left|]. exact H2. }
    destruct (Nat.eqb_spec (a + b) 1) as [H1|H1].
    + cbn [map fst]. destruct (existsb _ bs) eqn:Ex.
      * right. split; [reflexivity|]. right. apply existsb_exists in Ex as (c & Hc & Ec).
        apply orb_true_iff in Ec. rewrite !Z.eqb_eq in Ec.
        destruct Ec as [Ec|Ec]; [left|right]; rewrite map_app; cbn [map]; intros Hn;
          apply NoDup_remove_2 in Hn; apply Hn; apply in_app_iff; left; rewrite Ec; now apply in_map.
      * assert (Hno : forall c, In c bs -> e0 e <> e0 c /\ e1 e <> e1 c).
        { intros c Hc. destruct (Z.eqb_spec (e0 e) (e0 c)) as [E1|E1], (Z.eqb_spec (e1 e) (e1 c)) as [E2|E2]; auto;
            exfalso; assert (Ht : existsb (fun b => (e0 e =? e0 b)%Z || (e1 e =? e1 b)%Z) bs = true);
            try congruence; apply existsb_exists; exists c; split; auto; rewrite ?E1, ?E2, ?Z.eqb_refl, ?orb_true_r; reflexivity. }
        destruct (IH (bs ++ [e])) as [(E & H3 & H4 & H5)|(E & H3)].
        -- rewrite map_app. apply NoDup_app_intro; auto; [constructor; [intros []|constructor]|].
           intros z Hz [<-|[]]. apply in_map_iff in Hz as (c & Ec & Hc). destruct (Hno c Hc). congruence.
        -- rewrite map_app. apply NoDup_app_intro; auto; [constructor; [intros []|constructor]|].
           intros z Hz [<-|[]]. apply in_map_iff in Hz as (c & Ec & Hc). destruct (Hno c Hc). congruence.
        -- left. rewrite <- app_assoc in *. cbn [app] in *. split; [auto|]. split; [|auto].
           intros x [<-|Hx]; cbn [fst snd]; [lia|auto].
        -- right. rewrite <- app_assoc in *. cbn [app] in *. split; [auto|].
           destruct H3 as [(x & Hx & H3)|H3]; [left; exists x; split; [now right|auto]|auto].
    + destruct (IH bs Hs He) as [(E & H3 & H4 & H5)|(E & H3)].
      * left. split; [auto|]. split; [|auto]. intros x [<-|Hx]; cbn [fst snd]; [lia|auto].
      * right. split; [auto|]. destruct H3 as [(x & Hx & H3)|H3]; [left; exists x; split; [now right|auto]|auto].
Qed.

(** * The whole check *)
Lemma filter_cc {A} (f : A -> bool) (ll : list (list A)) : filter f (concat ll) = concat (map (filter f) ll).
Proof. induction ll as [|l ll IH]; auto. cbn. now rewrite filter_app, IH. Qed.
Lemma filter_length_le {A} (f : A -> bool) l : length (filter f l) <= length l.
Proof. induction l as [|x l IH]; cbn; [lia|]. destruct (f x); cbn; lia. Qed.
Lemma filter_none {A} (f : A -> bool) l : (forall x, In x l -> f x = false) -> filter f l = [].
Proof. induction l as [|x l IH]; intros H; auto. cbn. rewrite H by now left. apply IH. intros; apply H; now right. Qed.
Lemma filter_all {A} (f : A -> bool) l : (forall x, In x l -> f x = true) -> filter f l = l.
Proof. induction l as [|x l IH]; intros H; auto. cbn. rewrite H by now left. f_equal. apply IH. intros; apply H; now right. Qed.
Lemma filter_length_perm {A} (f : A -> bool) l m : Permutation l m -> Permutation (filter f l) (filter f m).
Proof.
  induction 1 as [|x l m H IH|x y l|l m p H IH H' IH']; cbn; auto.
  - destruct (f x); auto.
  - destruct (f x), (f y); auto. constructor.
  - now rewrite IH.
Qed.
Lemma filter_mapc {A B} (f : B -> bool) (g : A -> B) l : filter f (map g l) = map g (filter (fun x => f (g x)) l).
Proof. induction l as [|x l IH]; auto. cbn. rewrite IH. now destruct (f (g x)). Qed.

Definition keyb (k : list Z) (x : list Z * Z) : bool := if edge_dec k (fst x) then true else false.
Lemma group_of gs g : Forall good gs -> NoDup (map gkey gs) -> In g gs -> filter (keyb (gkey g)) (concat gs) = g.
Proof.
  intros Hg Hn Hin. rewrite filter_cc. rewrite Forall_forall in Hg.
  assert (Hyes : filter (keyb (gkey g)) g = g).
  { apply filter_all. intros x Hx. unfold keyb. rewrite (proj2 (Hg g Hin) x Hx). now destruct edge_dec. }
  assert (Hno : forall h, In h gs -> gkey h <> gkey g -> filter (keyb (gkey g)) h = []).
  { intros h Hh Hne. apply filter_none. intros x Hx. unfold keyb. rewrite (proj2 (Hg h Hh) x Hx).
    destruct edge_dec; congruence. }
  clear Hg. induction gs as [|h gs IH]; [destruct Hin|]. cbn [map concat]. cbn [map] in Hn.
  inversion Hn as [|? ? H1 H2]; subst. destruct Hin as [->|Hin].
  - rewrite Hyes. rewrite (proj2 (concat_nil_Forall _)); [apply app_nil_r|].
    apply Forall_forall. intros l Hl. apply in_map_iff in Hl as (h & <- & Hh). apply Hno; [now right|].
    intros E. apply H1. rewrite <- E. now apply in_map.
  - rewrite Hno; [|now left|intros E; apply H1; rewrite E; now apply in_map].
    cbn. apply IH; auto. intros h' Hh'. apply Hno. now right.
Qed.

Section Groups.
Variable n : nat.
Hypothesis Hn2 : 2 <= n.
Variable es : list (list Z).
Hypothesis Hlen : forall e, In e es -> length e = n.
Variable gs : list (list (list Z * Z)).
Hypothesis Hp : Permutation (map canon es) (concat gs).
Hypothesis Hg : Forall good gs.
Hypothesis Hd : NoDup (map gkey gs).

Lemma uses_group g x : In g gs -> In x g -> uses es (natural x) = length g.
Proof.
  intros Hin Hx.
  assert (Hxe : exists e, In e es /\ x = canon e).
  { assert (H : In x (map canon es)).
    { eapply Permutation_in; [symmetry; exact Hp|]. apply in_concat. eauto. }
    apply in_map_iff in H as (e & <- & He). eauto. }
  destruct Hxe as (e & He & ->). rewrite natural_canon. unfold uses.
  transitivity (length (filter (keyb (gkey g)) (concat gs))); [|now rewrite (group_of gs g)].
  rewrite <- (Permutation_length (filter_length_perm _ _ _ Hp)).
  rewrite filter_mapc, map_length. f_equal. apply filter_ext_in. intros e' He'.
  unfold keyb. pose proof (proj1 (Forall_forall _ _) Hg) as Hg'. rewrite <- (proj2 (Hg' g Hin) _ Hx).
  destruct (same_edge e e') eqn:E, edge_dec as [E'|E']; auto.
  - apply same_edge_iff in E; [congruence| |]; rewrite Hlen; auto.
  - apply same_edge_iff in E'; [congruence| |]; rewrite Hlen; auto.
Qed.
Lemma es_groups : Permutation es (concat (map (map natural) gs)).
Proof.
  rewrite <- concat_map, <- Hp, map_map. erewrite map_ext; [rewrite map_id; reflexivity|].
  intros e. apply natural_canon.
Qed.
Definition ones : list (list Z) := map fst (filter (fun x => fst (snd x) + snd (snd x) =? 1) (map summ gs)).
Lemma summ_sum g : g <> [] -> fst (snd (summ g)) + snd (snd (summ g)) = length g.
Proof. destruct g as [|x g]; [contradiction|]. intros _. apply tally_sum. Qed.
Lemma ones_boundary : Permutation (boundary_of es) ones.
Proof.
  unfold boundary_of. rewrite (filter_length_perm _ _ _ es_groups), filter_cc, map_map.
  assert (E : concat (map (fun g => filter (fun e => uses es e =? 1) (map natural g)) gs) = ones).
  { unfold ones. assert (H : forall l, incl l gs ->
      concat (map (fun g => filter (fun e => uses es e =? 1) (map natural g)) l) =
      map fst (filter (fun x => fst (snd x) + snd (snd x) =? 1) (map summ l))).
    { induction l as [|g l IH]; intros Hi; auto. cbn [map concat filter].
      rewrite IH by (intros z Hz; apply Hi; now right).
      assert (Hin : In g gs) by (apply Hi; now left).
      pose proof (proj1 (Forall_forall _ _) Hg) as Hg'. destruct (Hg' g Hin) as [Hne _]. rewrite (summ_sum g Hne).
      destruct (Nat.eqb_spec (length g) 1) as [H1|H1].
      - destruct g as [|x [|y g]]; try discriminate. cbn [map filter].
        rewrite (uses_group [x] x) by (auto; now left). reflexivity.
      - rewrite filter_none; [reflexivity|]. intros e He. apply in_map_iff in He as (x & <- & Hx).
        rewrite (uses_group g x) by auto. now apply Nat.eqb_neq. }
    apply H, incl_refl. }
  rewrite E. reflexivity.
Qed.
Lemma sums_uses : (forall x, In x (map summ gs) -> fst (snd x) + snd (snd x) <= 2) <-> (forall e, In e es -> uses es e <= 2).
Proof.
  pose proof (proj1 (Forall_forall _ _) Hg) as Hg'. split.
  - intros H e He. apply (Permutation_in _ es_groups) in He. apply in_concat in He as (l & Hl & He).
    apply in_map_iff in Hl as (g & <- & Hin). apply in_map_iff in He as (x & <- & Hx).
    rewrite (uses_group g x) by auto. rewrite <- (summ_sum g) by (apply Hg'; auto). apply H. now apply in_map.
  - intros H x Hx. apply in_map_iff in Hx as (g & <- & Hin). destruct (Hg' g Hin) as [Hne _].
    rewrite summ_sum by auto. destruct g as [|y g]; [contradiction|].
    rewrite <- (uses_group (y :: g) y) by (auto; now left). apply H.
    apply (Permutation_in _ (Permutation_sym es_groups)). apply in_concat. exists (map natural (y :: g)).
    split; [now apply in_map|now left].
Qed.
End Groups.

Lemma closed_nodup l : closed_loop l -> NoDup (map start_of l) /\ NoDup (map end_of l).
Proof.
  intros Hc. pose proof (closed_ends l Hc) as Hp. destruct Hc as (s & t & E1 & E2 & Hn).
  split; [now rewrite E1|]. eapply Permutation_NoDup; [exact Hp|]. now rewrite E1.
Qed.

Section Whole.
Variable stdsort : forall A : Type, (A -> A -> bool) -> list A -> list A.
Hypothesis Hstd : sort_contract stdsort.
Context {F : Type}.

Lemma edge_conns_ok k (m : mesh F) : (forall c, In c (fv m) -> length c = nverts k) ->
  edge_conns k m = Ret (map canon (all_edges k (fv m))).
Proof.
  intros Hm. unfold edge_conns, all_edges.
  rewrite (mapo_seq _ (map (fun c => map canon (edges_of k c)) (fv m))) with (n := length (fv m)).
  - cbn [bind]. rewrite concat_map, map_map. reflexivity.
  - now rewrite map_length.
  - intros i a Ha. rewrite nth_error_map in Ha. destruct (nth_error (fv m) i) as [c|] eqn:Ec; [|discriminate].
    injection Ha as <-. assert (Hc : length c = nverts k) by (apply Hm; eapply nth_error_In; eauto).
    cbn [Nat.add]. rewrite (mapo_seq _ (map canon (edges_of k c))) with (n := nedges k); auto.
    + now rewrite map_length, edges_of_length.
    + intros j e He. rewrite nth_error_map in He. destruct (nth_error (edges_of k c) j) as [e'|] eqn:Ee; [|discriminate].
      injection He as <-. cbn [Nat.add]. unfold getEdgeConn. rewrite (proj2 (rd_Ret _ _ _) Ec). cbn [bind].
      rewrite edge_at_ok by auto. rewrite (proj2 (rd_Ret _ _ _) Ee). reflexivity.
Qed.
Lemma edge_length k (m : mesh F) e : (forall c, In c (fv m) -> length c = nverts k) ->
  In e (all_edges k (fv m)) -> length e = if quadratic k then 3 else 2.
Proof.
  intros Hm He. apply in_concat in He as (l & Hl & He). apply in_map_iff in Hl as (c & <- & Hc).
  specialize (Hm c Hc). destruct k; cbn in Hm; list_len c Hm; cbn in He; intuition (subst; reflexivity).
Qed.

Theorem check_ok fuel k (m : mesh F) : (forall c, In c (fv m) -> length c = nverts k) ->
  length (all_edges k (fv m)) <= fuel ->
  let es := all_edges k (fv m) in
  (checkManifoldWatertight stdsort fuel k m = Ret tt /\ es <> [] /\ watertight es) \/
  (checkManifoldWatertight stdsort fuel k m = Fail /\ ~ watertight es /\ exists e, In e es /\ uses es e <> 2) \/
  (checkManifoldWatertight stdsort fuel k m = Ub /\ (es = [] \/ forall e, In e es -> uses es e = 2)).
Proof.
  intros Hm Hfuel es. unfold checkManifoldWatertight. rewrite edge_conns_ok by auto. cbn [bind]. fold es.
  set (n := if quadratic k then 3 else 2).
  assert (Hlen : forall e, In e es -> length e = n) by (intros e He; now apply (edge_length k m)).
  assert (Hn2 : 2 <= n) by (unfold n; destruct (quadratic k); lia).
  assert (Hlc : forall x, In x (map canon es) -> length (fst x) = n).
  { intros x Hx. apply in_map_iff in Hx as (e & <- & He). rewrite canon_length. auto. }
  destruct (Hstd _ epair_ltb (map canon es)) as [Hperm Hsort].
  { destruct (epair_swo n) as [S1 S2 S3]. split; intros; eauto. }
  set (s := stdsort _ epair_ltb (map canon es)) in *.
  destruct s as [|x s'] eqn:Es.
  { right. right. split; [reflexivity|]. left.
    apply Permutation_sym, Permutation_nil in Hperm. now apply map_eq_nil in Hperm. }
  cbn [rd nth_error bind tl].
  destruct (count_edges_ok n s' [] [] x) as (gs & E & Hcc & Hg & Hd).
  - cbn. intros y Hy. apply Hlc. eapply Permutation_in; [symmetry; exact Hperm|exact Hy].
  - exact Hsort.
  - constructor.
  - split; [discriminate|]. intros y [<-|[]]. reflexivity.
  - cbn. constructor; [intros []|constructor].
  - cbn [app map concat] in E, Hcc. rewrite new_edge_summ, E. cbn [bind].
    assert (Hp : Permutation (map canon es) (concat gs)) by (now rewrite Hcc).
    assert (Hes : es <> []).
    { intros He. rewrite He in Hperm. apply Permutation_nil in Hperm. discriminate. }
    pose proof (ones_boundary n Hn2 es Hlen gs Hp Hg Hd) as Hob.
    pose proof (sums_uses n Hn2 es Hlen gs Hp Hg Hd) as Hsu.
    assert (Hex : ones gs <> [] -> exists e, In e es /\ uses es e <> 2).
    { intros Ho. destruct (ones gs) as [|b bs]; [contradiction|].
      assert (Hin : In b (boundary_of es)) by (eapply Permutation_in; [symmetry; exact Hob|now left]).
      apply filter_In in Hin as [Hin H1]. apply Nat.eqb_eq in H1. exists b. split; [auto|]. lia. }
    destruct (boundary_ok (map summ gs) []) as [(Eb & H1 & H2 & H3)|(Eb & Hbad)]; [constructor|constructor| |].
    + rewrite Eb. cbn [bind app]. fold (ones gs) in *. cbn [app] in H2, H3.
      destruct (ones gs) as [|b bs] eqn:Eo.
      * right. right. split; [reflexivity|]. right. intros e He.
        apply Permutation_sym, Permutation_nil in Hob.
        assert (Hu : uses es e <= 2) by (now apply Hsu).
        assert (Hu1 : uses es e <> 1).
        { intros H. assert (Hin : In e (boundary_of es)) by (apply filter_In; rewrite H; auto).
          rewrite Hob in Hin. destruct Hin. }
        assert (Hu0 : uses es e <> 0).
        { unfold uses. intros H. apply length_zero_iff_nil in H.
          assert (Hin : In e (filter (same_edge e) es)).
          { apply filter_In. split; [auto|]. unfold same_edge. now destruct edge_dec. }
          rewrite H in Hin. destruct Hin. }
        lia.
      * rewrite <- Eo in *. assert (Hone : ones gs <> []) by (rewrite Eo; discriminate).
        assert (Hlb : length (ones gs) <= fuel).
        { rewrite <- (Permutation_length Hob). unfold boundary_of.
          pose proof (filter_length_le (fun e => uses es e =? 1) es). fold es in Hfuel. lia. }
        destruct (check_loop_ok fuel (ones gs) H2 H3 Hlb Hone) as [(Ec & l & Hpl & Hcl)|(Ec & Hno)].
        -- left. split; [auto|]. split; [auto|]. split; [now apply Hsu|]. exists l. split; [now rewrite Hob|auto].
        -- right. left. split; [auto|]. split; [intros [_ (l & Hpl & Hcl)]; apply Hno; exists l; split; [now rewrite <- Hob|auto]|].
           exact (Hex Hone).
    + rewrite Eb. cbn [bind]. right. left. split; [reflexivity|].
      fold (ones gs) in Hbad. cbn [app] in Hbad. split.
      2:{ destruct (ones gs) as [|b bs] eqn:Eo; [|apply Hex; discriminate].
          destruct Hbad as [(y & Hy & Hy2)|[Hb|Hb]]; [|exfalso; apply Hb; constructor|exfalso; apply Hb; constructor].
          destruct (Forall_dec (fun e => uses es e <= 2) (fun e => le_dec _ _) es) as [Hall|Hall].
          - pose proof (proj2 Hsu (proj1 (Forall_forall _ _) Hall) y Hy). lia.
          - apply neg_Forall_Exists_neg in Hall; [|intros e; apply le_dec]. apply Exists_exists in Hall as (e & He & Hn).
            exists e. split; [auto|]. lia. }
      intros [Hw (l & Hpl & Hcl)].
      assert (Hpo : Permutation l (ones gs)) by (now rewrite <- Hpl).
      destruct (closed_nodup l Hcl) as [N1 N2].
      destruct Hbad as [(y & Hy & Hy2)|[Hb|Hb]].
      * pose proof (proj2 Hsu Hw y Hy). lia.
      * apply Hb. eapply Permutation_NoDup; [|exact N1]. now apply Permutation_map.
      * apply Hb. eapply Permutation_NoDup; [|exact N2]. now apply Permutation_map.
Qed.
End Whole.

(** * checkCCWFaces *)
Section CCWProofs.
Context {F : Type}.
Variable isCCW : list (F * F) -> bool.
Lemma checkCCW_ok k (m : mesh F) : mesh_ok k m ->
  exists m', checkCCWFaces isCCW k m = Ret m' /\ mv m' = mv m /\ length (fv m') = length (fv m) /\ mesh_ok k m' /\
    forall i c, nth_error (fv m) i = Some c -> exists p, map Some p = corners (mv m) c /\
      (isCCW p = true /\ nth_error (fv m') i = Some c \/
       isCCW p = false /\ exists c', flip_conn k c = Ret c' /\ nth_error (fv m') i = Some c').
Proof.
  intros Hm. unfold checkCCWFaces.
  destruct (for_inv (fun j m' => mv m' = mv m /\ length (fv m') = length (fv m) /\ mesh_ok k m' /\
     (forall i, j <= i -> nth_error (fv m') i = nth_error (fv m) i) /\
     forall i c, i < j -> nth_error (fv m) i = Some c -> exists p, map Some p = corners (mv m) c /\
      (isCCW p = true /\ nth_error (fv m') i = Some c \/
       isCCW p = false /\ exists c', flip_conn k c = Ret c' /\ nth_error (fv m') i = Some c'))
    (fun i m => let* p := getFace m i in if negb (isCCW p) then flipFace k m i else Ret m)
    (length (fv m)) 0 m) as (m' & E & H1 & H2 & H3 & _ & H5).
  - repeat (split; [auto|]). intros; lia.
  - intros j m1 Hj (H1 & H2 & H3 & H4 & H5). cbn [Nat.add] in Hj.
    destruct (nth_error (fv m) j) as [c|] eqn:Ec; [|apply nth_error_None in Ec; lia].
    assert (Ec1 : nth_error (fv m1) j = Some c) by (rewrite H4; auto).
    destruct (polygons_ex k m1 H3) as (ps & Ep & Hps).
    assert (Hlp : length ps = length (fv m1)).
    { apply (f_equal (@length _)) in Hps. now rewrite !map_length in Hps. }
    destruct (nth_error ps j) as [p|] eqn:Epj; [|apply nth_error_None in Epj; lia].
    assert (Hp : map Some p = corners (mv m1) c).
    { apply (f_equal (fun l => nth_error l j)) in Hps.
      rewrite !nth_error_map, Epj, Ec1 in Hps. cbn in Hps. congruence. }
    rewrite (proj1 (getFace_ok k m1 ps j p H3 Hps Epj)). cbn [bind].
    destruct (isCCW p) eqn:Ei; cbn [negb].
    + exists m1. repeat (split; [auto; try (intros; apply H4; lia)|]).
      intros i d Hi Hd. destruct (Nat.eq_dec i j) as [->|Hne]; [|apply H5; auto; lia].
      exists p. rewrite H1 in Hp. assert (d = c) by congruence. subst d. auto.
    + destruct (flipFace_ok k m1 j H3) as (m2 & c0 & c' & E2 & F1 & F2 & F3 & F4 & F5 & _ & _ & _ & _ & F6 & _); [lia|].
      exists m2. split; [auto|]. split; [congruence|]. split; [congruence|]. split; [auto|].
      split; [intros i Hi; rewrite F5 by lia; apply H4; lia|].
      intros i d Hi Hd. destruct (Nat.eq_dec i j) as [->|Hne].
      * exists p. rewrite H1 in Hp. assert (d = c) by congruence. subst d. split; [auto|]. right. split; [auto|].
        exists c'. split; [|auto]. unfold flipFace in E2. rewrite (proj2 (rd_Ret _ _ _) Ec1) in E2. cbn [bind] in E2.
        destruct (flip_conn k c) as [c2| | |]; cbn [bind] in E2; try discriminate. f_equal.
        destruct (wr (fv m1) j c2) as [f| | |] eqn:Ew; cbn [bind] in E2; try discriminate.
        injection E2 as <-. cbn in F2. apply wr_Ret in Ew as [Hw ->]. rewrite nth_error_upd_eq in F2 by auto. congruence.
      * destruct (H5 i d) as (q & Hq & Hor); [lia|auto|]. exists q. split; [auto|].
        rewrite F5 by auto. auto.
  - exists m'. repeat (split; [auto|]). intros i c Hc. apply H5; [|auto].
    apply nth_error_Some. congruence.
Qed.
End CCWProofs.

Lemma check_iff : forall stdsort, sort_contract stdsort -> forall (F : Type) fuel k (m : mesh F),
  (forall c, In c (fv m) -> length c = nverts k) ->
  let es := all_edges k (fv m) in
  length es <= fuel ->
  let r := checkManifoldWatertight stdsort fuel k m in
  (r = Ret tt <-> watertight es) /\
  (r = Ub <-> es = [] \/ forall e, In e es -> uses es e = 2) /\
  (r = Ret tt \/ r = Ub \/ r = Fail).
Proof.
  intros stdsort Hs F fuel k m Hm es Hf r.
  assert (Hno : watertight es -> ~ (es = [] \/ forall e, In e es -> uses es e = 2)).
  { intros [_ (l & Hp & (s & t & E & _))] H.
    assert (Hb : boundary_of es = []).
    { destruct (boundary_of es) as [|b bs] eqn:Eb; auto. exfalso.
      assert (Hin : In b (boundary_of es)) by (rewrite Eb; now left).
      apply filter_In in Hin as [Hin H1]. apply Nat.eqb_eq in H1.
      destruct H as [H|H]; [rewrite H in Hin; destruct Hin|]. rewrite (H b Hin) in H1. discriminate. }
    rewrite Hb in Hp. apply Permutation_nil in Hp. subst l. discriminate. }
  destruct (check_ok stdsort Hs fuel k m Hm Hf) as [(E & H1 & H2)|[(E & H1 & e & H2 & H3)|(E & H1)]]; fold r in E; rewrite E; clear E;
    change (all_edges k (fv m)) with es in H1; try change (all_edges k (fv m)) with es in H2; try change (all_edges k (fv m)) with es in H3.
  - specialize (Hno H2). split; [tauto|]. split; [split; [discriminate|tauto]|auto].
  - split; [split; [discriminate|tauto]|]. split; [split; [discriminate|]|auto].
    intros [H|H]; [rewrite H in H2; destruct H2|]. now apply H in H2.
  - split; [split; [discriminate|intros H; now apply Hno in H]|]. split; [tauto|auto].
Qed.

Lemma validate_ok : forall stdsort, sort_contract stdsort ->
  forall (F : Type) (isCCW : list (F * F) -> bool) selfcheck fuel k (m m' : mesh F), mesh_ok k m -> quadratic k = false ->
  length (all_edges k (fv m)) <= fuel ->
  validate stdsort isCCW selfcheck fuel k m = Ret m' ->
  checkCCWFaces isCCW k m = Ret m' /\ mv m' = mv m /\ mesh_ok k m' /\ watertight (all_edges k (fv m')).
Proof.
  intros stdsort Hs F isCCW selfcheck fuel k m m' Hm Hq Hf H. unfold validate in H.
  destruct (checkCCW_ok isCCW k m Hm) as (m1 & E & H1 & H2 & H3 & _). rewrite E in H. cbn [bind] in H.
  destruct (checkManifoldWatertight stdsort fuel k m1) as [[]| | |] eqn:Ec; cbn [bind] in H; try discriminate.
  rewrite Hq in H. injection H as <-. split; [auto|]. split; [auto|]. split; [auto|].
  assert (Hlen : forall c, In c (fv m1) -> length c = nverts k) by (intros c Hc; apply (H3 c Hc)).
  apply (check_iff stdsort Hs F fuel k m1 Hlen); [|exact Ec].
  assert (L : forall fs : list (list Z), (forall c, In c fs -> length c = nverts k) ->
    length (all_edges k fs) = length fs * nedges k).
  { induction fs as [|c fs IH]; intros Hc; auto. unfold all_edges in *. cbn [map concat]. rewrite app_length, IH by (intros; apply Hc; now right).
    rewrite Fvm_Proofs.edges_of_length by (apply Hc; now left). cbn. reflexivity. }
  rewrite L, H2, <- L; auto. intros c Hc. apply (Hm c Hc).
Qed.
