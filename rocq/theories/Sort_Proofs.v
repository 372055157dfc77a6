From Coq Require Import List Arith Permutation Lia Bool FinFun.
From Verif Require Import Base Sort_Model Sort_Spec.
Import ListNotations.

(** * sorted *)
Section Sorted.
  Context {A : Type}.
  Variable ltb : A -> A -> bool.

  Definition before (a b : A) : Prop := ltb b a = false.

  Lemma sorted_nil : sorted ltb [].
  Proof. intros [|i] j a b _ H; discriminate. Qed.

  Lemma sorted_app l1 l2 :
    sorted ltb (l1 ++ l2) <->
    sorted ltb l1 /\ sorted ltb l2 /\
    (forall a b, In a l1 -> In b l2 -> ltb b a = false).
  Proof.
    split.
    - intros H. repeat split.
      + intros i j a b Hij Ha Hb.
        apply (H i j a b Hij).
        * rewrite nth_error_app1; auto. apply nth_error_Some; congruence.
        * rewrite nth_error_app1; auto. apply nth_error_Some; congruence.
      + intros i j a b Hij Ha Hb.
        apply (H (length l1 + i) (length l1 + j) a b); try lia.
        * rewrite nth_error_app2 by lia. now replace (length l1 + i - length l1) with i by lia.
        * rewrite nth_error_app2 by lia. now replace (length l1 + j - length l1) with j by lia.
      + intros a b Ha Hb.
        apply In_nth_error in Ha as [i Hi]. apply In_nth_error in Hb as [j Hj].
        assert (i < length l1) by (apply nth_error_Some; congruence).
        apply (H i (length l1 + j) a b); try lia.
        * now rewrite nth_error_app1.
        * rewrite nth_error_app2 by lia. now replace (length l1 + j - length l1) with j by lia.
    - intros (H1 & H2 & H12) i j a b Hij Ha Hb.
      destruct (Nat.lt_ge_cases j (length l1)) as [Hj|Hj].
      + rewrite nth_error_app1 in Hb by lia. rewrite nth_error_app1 in Ha by lia. eauto.
      + rewrite nth_error_app2 in Hb by lia.
        destruct (Nat.lt_ge_cases i (length l1)) as [Hi|Hi].
        * rewrite nth_error_app1 in Ha by lia.
          eapply H12; eapply nth_error_In; eauto.
        * rewrite nth_error_app2 in Ha by lia.
          eapply (H2 (i - length l1) (j - length l1)); eauto; lia.
  Qed.

  Lemma sorted_one a : sorted ltb [a].
  Proof.
    intros i j x y Hij Hx Hy.
    assert (j < 1) by (change 1 with (length [a]); apply nth_error_Some; congruence).
    lia.
  Qed.
End Sorted.

(** * insertionSort *)
Section Insertion.
  Context {A : Type}.
  Variable ltb : A -> A -> bool.

  Lemma load_mid (L R : list (option A)) a n :
    n = length L -> load (L ++ Some a :: R) n = Ret a.
  Proof.
    intros ->. unfold load, rd. now rewrite nth_error_mid.
  Qed.

  Lemma take_mid (L R : list (option A)) a n :
    n = length L -> take (L ++ Some a :: R) n = Ret (a, L ++ None :: R).
  Proof.
    intros ->. unfold take. rewrite load_mid by auto. simpl.
    rewrite wr_ok by len.
    simpl. now rewrite upd_mid.
  Qed.

  Lemma wr_mid (L R : list (option A)) x y n :
    n = length L -> wr (L ++ x :: R) n y = Ret (L ++ y :: R).
  Proof.
    intros ->. rewrite wr_ok by len. now rewrite upd_mid.
  Qed.

  Lemma shift_loop_spec :
    forall ps a qs L R t fuel j k,
      j = length L + length ps + 1 ->
      k = length L + length ps ->
      length ps < fuel ->
      ltb t a = true ->
      exists ps1 ps2,
        ps ++ [a] = ps1 ++ ps2 /\
        (forall b, In b ps2 -> ltb t b = true) /\
        (forall b ps', ps1 = ps' ++ [b] -> ltb t b = false) /\
        shift_loop ltb fuel (L ++ map Some (ps ++ [a]) ++ None :: map Some qs ++ R)
          (length L) j k t
        = Ret (L ++ map Some (ps1 ++ [t] ++ ps2 ++ qs) ++ R).
  Proof.
    induction ps as [|p ps IH] using rev_ind; intros a qs L R t fuel j k Hj Hk Hf Hta.
    - destruct fuel as [|fuel]; [simpl in Hf; lia|].
      exists [], [a]. simpl in *. split; [auto|]. split; [|split].
      + intros b [<-|[]]; auto.
      + intros b [|? ps'] E; discriminate.
      + rewrite take_mid by lia. simpl.
        change (L ++ None :: None :: map Some qs ++ R)
          with (L ++ [None] ++ (None :: map Some qs ++ R)).
        rewrite app_assoc. rewrite wr_mid by len.
        simpl. replace (k =? length L) with true by (symmetry; apply Nat.eqb_eq; lia).
        rewrite <- app_assoc. simpl. rewrite wr_mid by lia. reflexivity.
    - destruct fuel as [|fuel]; [lia|].
      rewrite app_length in Hj, Hk, Hf; simpl in Hj, Hk, Hf.
      simpl.
      (* take slot k *)
      assert (E1 : take (L ++ map Some ((ps ++ [p]) ++ [a]) ++ None :: map Some qs ++ R) k
                   = Ret (a, (L ++ map Some (ps ++ [p])) ++ None :: None :: map Some qs ++ R)).
      { rewrite map_app. simpl map at 2.
        rewrite <- (app_assoc (map Some (ps ++ [p]))). simpl.
        rewrite app_assoc. apply take_mid.
        len. }
      rewrite E1; clear E1. simpl.
      change ((L ++ map Some (ps ++ [p])) ++ None :: None :: map Some qs ++ R)
        with ((L ++ map Some (ps ++ [p])) ++ [None] ++ (None :: map Some qs ++ R)).
      rewrite (app_assoc (L ++ map Some (ps ++ [p])) [None]).
      rewrite wr_mid by len.
      simpl.
      replace (k =? length L) with false by (symmetry; apply Nat.eqb_neq; lia).
      destruct k as [|k']; [lia|].
      assert (E2 : ((L ++ map Some (ps ++ [p])) ++ [None]) ++ Some a :: map Some qs ++ R
                   = (L ++ map Some ps) ++ Some p :: None :: map Some (a :: qs) ++ R).
      { rewrite map_app. simpl. now rewrite <- !app_assoc. }
      rewrite E2.
      rewrite load_mid by len.
      simpl bind.
      destruct (ltb t p) eqn:Etp.
      + destruct (IH p (a :: qs) L R t fuel (S k') k') as (ps1 & ps2 & Hs & H2 & H1 & Hr);
          try lia; auto.
        exists ps1, (ps2 ++ [a]). split; [|split; [|split]].
        * now rewrite Hs, app_assoc.
        * intros b Hb. apply in_app_or in Hb as [Hb|[<-|[]]]; auto.
        * exact H1.
        * replace ((L ++ map Some ps) ++ Some p :: None :: Some a :: map Some qs ++ R)
            with (L ++ map Some (ps ++ [p]) ++ None :: map Some (a :: qs) ++ R)
            by (rewrite map_app; simpl; now rewrite <- !app_assoc).
          rewrite Hr. simpl. now rewrite <- !app_assoc.
      + exists (ps ++ [p]), [a]. split; [auto|]. split; [|split].
        * intros b [<-|[]]; auto.
        * intros b ps' E. apply app_inj_tail in E as [_ <-]. exact Etp.
        * replace ((L ++ map Some ps) ++ Some p :: None :: Some a :: map Some qs ++ R)
            with (((L ++ map Some ps) ++ [Some p]) ++ None :: Some a :: map Some qs ++ R)
            by (now rewrite <- !app_assoc).
          rewrite wr_mid by len.
          rewrite !map_app. simpl. now rewrite <- !app_assoc.
  Qed.

  (** one insertion: the sorted prefix [s] followed by [t] *)
  Lemma insert_step_spec s t L R :
    s <> [] ->
    exists ps1 ps2,
      s = ps1 ++ ps2 /\
      (forall b, In b ps2 -> ltb t b = true) /\
      (forall b ps', ps1 = ps' ++ [b] -> ltb t b = false) /\
      insert_step ltb (L ++ map Some (s ++ [t]) ++ R) (length L) (length L + length s)
      = Ret (L ++ map Some (ps1 ++ [t] ++ ps2) ++ R).
  Proof.
    intros Hs. destruct (exists_last Hs) as (ps & a & ->).
    unfold insert_step.
    assert (E : L ++ map Some ((ps ++ [a]) ++ [t]) ++ R
                = (L ++ map Some (ps ++ [a])) ++ Some t :: R).
    { rewrite (map_app _ (ps ++ [a])). simpl. now rewrite <- !app_assoc. }
    rewrite E.
    rewrite load_mid by len. simpl bind.
    assert (E' : (L ++ map Some (ps ++ [a])) ++ Some t :: R
                = (L ++ map Some ps) ++ Some a :: Some t :: R).
    { rewrite map_app. simpl. now rewrite <- !app_assoc. }
    rewrite E'.
    rewrite load_mid by len. simpl bind.
    rewrite <- E'.
    destruct (ltb t a) eqn:Eta.
    - rewrite take_mid by len. simpl bind.
      destruct (shift_loop_spec ps a [] L R t (S (length L + length (ps ++ [a])))
                  (length L + length (ps ++ [a])) (length L + length (ps ++ [a]) - 1))
        as (ps1 & ps2 & H0 & H2 & H1 & Hr);
        try len; auto.
      exists ps1, ps2. repeat split; auto.
      simpl in Hr. rewrite app_nil_r in Hr.
      rewrite <- app_assoc. exact Hr.
    - exists (ps ++ [a]), []. rewrite app_nil_r. split; [auto|]. split; [intros b []|]. split.
      + intros b ps' Hb. apply app_inj_tail in Hb as [_ <-]. exact Eta.
      + now rewrite app_nil_r, E.
  Qed.

  Lemma filter_none (f : A -> bool) l :
    (forall b, In b l -> f b = false) -> filter f l = [].
  Proof.
    induction l as [|x l IH]; simpl; auto. intros H.
    rewrite (H x) by auto. apply IH; auto.
  Qed.

  Lemma insert_good (P : A -> Prop) ps1 ps2 t :
    strict_weak_order_on ltb P ->
    (forall x, In x (ps1 ++ ps2) -> P x) -> P t ->
    sorted ltb (ps1 ++ ps2) ->
    (forall b, In b ps2 -> ltb t b = true) ->
    (forall b ps', ps1 = ps' ++ [b] -> ltb t b = false) ->
    sorted ltb (ps1 ++ [t] ++ ps2) /\
    (forall v, P v -> filter (equivb ltb v) (ps1 ++ [t] ++ ps2)
               = filter (equivb ltb v) ((ps1 ++ ps2) ++ [t])).
  Proof.
    intros Hswo HP Ht Hsort H2 H1.
    apply sorted_app in Hsort as (S1 & S2 & S12).
    assert (H1' : forall b, In b ps1 -> ltb t b = false).
    { destruct ps1 as [|x ps1] using rev_ind; [easy|].
      clear IHps1. intros b Hb. apply in_app_or in Hb as [Hb|[<-|[]]].
      - specialize (H1 x ps1 eq_refl).
        apply sorted_app in S1 as (_ & _ & S1).
        specialize (S1 b x Hb (or_introl eq_refl)).
        apply (swo_incomp _ _ Hswo t x b); auto.
        + apply HP. rewrite !in_app_iff. simpl; auto.
        + apply HP. rewrite !in_app_iff. simpl; auto.
      - eauto. }
    split.
    - apply sorted_app; split; [auto|split].
      + apply (sorted_app ltb [t] ps2); repeat split; auto using sorted_one.
        intros a b [<-|[]] Hb. specialize (H2 b Hb).
        destruct (ltb b t) eqn:E; auto.
        assert (HPb : P b) by (apply HP, in_or_app; auto).
        pose proof (swo_trans _ _ Hswo t b t Ht HPb Ht H2 E) as E2.
        rewrite (swo_irrefl _ _ Hswo t Ht) in E2. discriminate.
      + intros a b Ha [<-|Hb]; auto.
    - intros v Hv. rewrite !filter_app. simpl.
      destruct (equivb ltb v t) eqn:Ev; [|now rewrite app_nil_r].
      rewrite (filter_none _ ps2).
      + simpl. now rewrite app_nil_r.
      + intros b Hb. specialize (H2 b Hb). unfold equivb in *.
        apply andb_prop in Ev as [E1 E2].
        apply negb_true_iff in E1, E2.
        assert (HPb : P b) by (apply HP, in_or_app; auto).
        destruct (ltb v b) eqn:Evb; simpl; auto.
        rewrite (swo_incomp _ _ Hswo t v b Ht Hv HPb E2 Evb) in H2. discriminate.
  Qed.

  Lemma outer_loop_spec (P : A -> Prop) :
    strict_weak_order_on ltb P ->
    forall rest s L R fuel last i,
      (forall x, In x (s ++ rest) -> P x) ->
      s <> [] -> sorted ltb s ->
      i = length L + length s ->
      last = i + length rest ->
      length rest <= fuel ->
      exists s',
        outer_loop ltb fuel (L ++ map Some (s ++ rest) ++ R) (length L) last i
        = Ret (L ++ map Some s' ++ R) /\
        Permutation (s ++ rest) s' /\ sorted ltb s' /\
        (forall v, P v -> filter (equivb ltb v) s' = filter (equivb ltb v) (s ++ rest)).
  Proof.
    intros Hswo. induction rest as [|t rest IH]; intros s L R fuel last i HP Hne Hs Hi Hl Hf.
    - exists s. rewrite app_nil_r. simpl in Hl.
      replace (outer_loop ltb fuel (L ++ map Some s ++ R) (length L) last i)
        with (Ret (L ++ map (@Some A) s ++ R)).
      + repeat split; auto.
      + destruct fuel; simpl; replace (i =? last) with true
          by (symmetry; apply Nat.eqb_eq; lia); auto.
    - simpl in Hf, Hl. destruct fuel as [|fuel]; [lia|].
      simpl outer_loop.
      replace (i =? last) with false by (symmetry; apply Nat.eqb_neq; lia).
      destruct (insert_step_spec s t L (map Some rest ++ R) Hne)
        as (ps1 & ps2 & -> & H2 & H1 & Hstep).
      replace (L ++ map Some ((ps1 ++ ps2) ++ t :: rest) ++ R)
        with (L ++ map Some ((ps1 ++ ps2) ++ [t]) ++ map Some rest ++ R)
        by (rewrite !map_app; simpl; now rewrite <- !app_assoc).
      rewrite Hi, Hstep. simpl bind.
      destruct (insert_good P ps1 ps2 t Hswo) as [Hs' Hst]; auto.
      { intros x Hx. apply HP, in_or_app. auto. }
      { apply HP, in_or_app; simpl; auto. }
      destruct (IH (ps1 ++ [t] ++ ps2) L R fuel last (S (length L + length (ps1 ++ ps2))))
        as (s' & Hr & Hp & Hss & Hf'); try lia; auto.
      { intros x Hx. apply HP. rewrite !in_app_iff in *. simpl in *. tauto. }
      { destruct ps1; discriminate. }
      { len. }
      exists s'. repeat split; auto.
      + rewrite map_app in Hr at 1. rewrite <- app_assoc in Hr. exact Hr.
      + rewrite <- Hp. simpl. rewrite <- !app_assoc. apply Permutation_app_head.
        change (t :: rest) with ([t] ++ rest).
        rewrite !app_assoc. apply Permutation_app_tail.
        simpl. symmetry; apply Permutation_cons_append.
      + intros v Hv. rewrite Hf' by auto. rewrite (filter_app _ _ rest), (Hst v Hv).
        rewrite <- filter_app. now rewrite <- app_assoc.
  Qed.

  Theorem insertionSort_correct L xs R :
    strict_weak_order_on ltb (fun x => In x xs) ->
    exists ys,
      insertionSort ltb (L ++ map Some xs ++ R) (length L) (length L + length xs)
      = Ret (L ++ map Some ys ++ R) /\
      Permutation xs ys /\ sorted ltb ys /\ stable ltb xs ys.
  Proof.
    intros Hswo. unfold insertionSort.
    destruct xs as [|x xs].
    - exists []. rewrite Nat.add_0_r, Nat.eqb_refl. repeat split; auto using sorted_nil.
    - simpl length. replace (length L =? length L + S (length xs)) with false
        by (symmetry; apply Nat.eqb_neq; lia).
      destruct (outer_loop_spec _ Hswo xs [x] L R
                  (length (L ++ map Some (x :: xs) ++ R)) (length L + S (length xs))
                  (S (length L))) as (s' & Hr & Hp & Hs & Hf); auto.
      + discriminate.
      + apply sorted_one.
      + simpl; lia.
      + lia.
      + len.
      + exists s'. repeat split; auto.
  Qed.
End Insertion.

(** * sort3, sort4 *)
Section S34.
  Context {A : Type}.
  Variable ltb : A -> A -> bool.

  Lemma sorted_adj3 P x y z :
    strict_weak_order_on ltb P -> P x -> P y -> P z ->
    ltb y x = false -> ltb z y = false -> sorted ltb [x; y; z].
  Proof.
    intros Hs Px Py Pz H1 H2. pose proof (swo_incomp _ _ Hs z y x Pz Py Px H2 H1) as H3.
    intros i j a b Hij Ha Hb.
    destruct i as [|[|[|i]]]; simpl in Ha; try (destruct i; discriminate);
    destruct j as [|[|[|j]]]; simpl in Hb; try (destruct j; discriminate); try lia; congruence.
  Qed.

  Lemma swo_asym P : strict_weak_order_on ltb P ->
    forall a b, P a -> P b -> ltb a b = true -> ltb b a = false.
  Proof.
    intros Hs a b Pa Pb H. destruct (ltb b a) eqn:E; auto.
    pose proof (swo_trans _ _ Hs a b a Pa Pb Pa H E) as H0.
    rewrite (swo_irrefl _ _ Hs a Pa) in H0. discriminate.
  Qed.

  Lemma sort3_correct x y z x' y' z' :
    strict_weak_order_on ltb (fun v => In v [x; y; z]) ->
    sort3 ltb (x, y, z) = (x', y', z') ->
    Permutation [x; y; z] [x'; y'; z'] /\ sorted ltb [x'; y'; z'].
  Proof.
    intros Hs. set (P := fun v => In v [x; y; z]) in Hs.
    assert (Px : P x) by (unfold P; simpl; auto).
    assert (Py : P y) by (unfold P; simpl; auto).
    assert (Pz : P z) by (unfold P; simpl; auto).
    pose proof (swo_asym P Hs) as As.
    pose proof (swo_incomp _ _ Hs) as Inc.
    unfold sort3.
    destruct (ltb y x) eqn:E1; simpl.
    - destruct (ltb z y) eqn:E2.
      + injection 1 as <- <- <-. split.
        * apply perm_trans with [z; x; y];
            [change [x; y; z] with ([x; y] ++ [z]); apply Permutation_app_comm|].
          apply perm_skip, perm_swap.
        * apply (sorted_adj3 P); auto.
      + destruct (ltb z x) eqn:E3; injection 1 as <- <- <-.
        * split; [apply perm_trans with [y; x; z]; [apply perm_swap|apply perm_skip, perm_swap]|].
          apply (sorted_adj3 P); auto.
        * split; [apply perm_swap|]. apply (sorted_adj3 P); auto.
    - destruct (ltb z y) eqn:E2; simpl.
      + destruct (ltb z x) eqn:E3; injection 1 as <- <- <-.
        * split; [change [x; y; z] with ([x; y] ++ [z]); apply Permutation_app_comm|].
          apply (sorted_adj3 P); auto.
        * split; [apply perm_skip, perm_swap|]. apply (sorted_adj3 P); auto.
      + injection 1 as <- <- <-. split; auto. apply (sorted_adj3 P); auto.
  Qed.

  Lemma sorted_adj4 P x y z w :
    strict_weak_order_on ltb P -> P x -> P y -> P z -> P w ->
    ltb y x = false -> ltb z y = false -> ltb w z = false -> sorted ltb [x; y; z; w].
  Proof.
    intros Hs Px Py Pz Pw H1 H2 H3.
    change [x; y; z; w] with ([x; y; z] ++ [w]).
    apply sorted_app. repeat split; auto using sorted_one.
    - eapply sorted_adj3; eauto.
    - pose proof (swo_incomp _ _ Hs w z y Pw Pz Py H3 H2) as H4.
      pose proof (swo_incomp _ _ Hs w y x Pw Py Px H4 H1) as H5.
      simpl. intros a b [<-|[<-|[<-|[]]]] [<-|[]]; auto.
  Qed.

  Lemma sorted3_inv x y z : sorted ltb [x; y; z] -> ltb y x = false /\ ltb z y = false.
  Proof.
    intros H. split; [apply (H 0 1)|apply (H 1 2)]; auto.
  Qed.

  Lemma sort4_correct x y z w x' y' z' w' :
    strict_weak_order_on ltb (fun v => In v [x; y; z; w]) ->
    sort4 ltb (x, y, z, w) = (x', y', z', w') ->
    Permutation [x; y; z; w] [x'; y'; z'; w'] /\ sorted ltb [x'; y'; z'; w'].
  Proof.
    intros Hs. unfold sort4.
    destruct (sort3 ltb (x, y, z)) as [[a b] c] eqn:E3.
    assert (Hs3 : strict_weak_order_on ltb (fun v => In v [x; y; z])).
    { split; [intros|intros ? ? ? ? ? ?|intros ? ? ? ? ? ?];
      [eapply swo_irrefl|eapply swo_trans|eapply swo_incomp]; eauto; simpl in *; tauto. }
    destruct (sort3_correct _ _ _ _ _ _ Hs3 E3) as [Hp Hso].
    apply sorted3_inv in Hso as [Hba Hcb].
    assert (Hp4 : Permutation [x; y; z; w] [a; b; c; w]).
    { change (Permutation ([x; y; z] ++ [w]) ([a; b; c] ++ [w])).
      now apply Permutation_app_tail. }
    set (P := fun v => In v [x; y; z; w]) in Hs.
    assert (HP : forall v, In v [a; b; c; w] -> P v).
    { intros v Hv. apply (Permutation_in v (Permutation_sym Hp4) Hv). }
    assert (Pa : P a) by (apply HP; simpl; auto).
    assert (Pb : P b) by (apply HP; simpl; auto).
    assert (Pc : P c) by (apply HP; simpl; auto).
    assert (Pw : P w) by (apply HP; simpl; auto).
    pose proof (swo_asym P Hs) as As.
    pose proof (swo_incomp _ _ Hs) as Inc.
    rewrite Hp4.
    destruct (ltb w c) eqn:Ewc.
    - destruct (ltb w b) eqn:Ewb.
      + destruct (ltb w a) eqn:Ewa; injection 1 as <- <- <- <-.
        * split; [change ([a;b;c;w]) with ([a;b;c] ++ [w]); apply Permutation_app_comm|].
          apply (sorted_adj4 P); auto.
        * split; [apply perm_skip; change ([b;c;w]) with ([b;c] ++ [w]); apply Permutation_app_comm|].
          apply (sorted_adj4 P); auto.
      + injection 1 as <- <- <- <-. split; [do 2 apply perm_skip; apply perm_swap|].
        apply (sorted_adj4 P); auto.
    - injection 1 as <- <- <- <-. split; auto. apply (sorted_adj4 P); auto.
  Qed.
End S34.

(** * permutations *)
Lemma iota_loop_spec n buf first value :
  first + n <= length buf ->
  iota_loop n buf first value
  = Ret (firstn first buf ++ seq value n ++ skipn (first + n) buf).
Proof.
  revert buf first value; induction n as [|n IH]; intros buf first value H; simpl.
  - now rewrite Nat.add_0_r, firstn_skipn.
  - rewrite wr_ok by lia. simpl bind. rewrite IH by (rewrite upd_length; lia).
    f_equal.
    assert (Hlt : first < length buf) by lia.
    assert (E : firstn (S first) (upd buf first value) = firstn first buf ++ [value]).
    { clear -Hlt. revert first Hlt; induction buf as [|h t IH]; intros [|first] H; simpl in *; try lia; auto.
      f_equal. now apply IH; lia. }
    rewrite E, <- app_assoc. simpl. do 3 f_equal.
    replace (first + S n) with (S (first + n)) by lia.
    clear -Hlt. generalize (first + n) (Nat.le_add_r first n).
    clear n. intros m Hm. revert first m Hlt Hm.
    induction buf as [|h t IH]; intros [|first] [|m] Hlt Hm; simpl in *; try lia; auto.
    apply (IH first m); lia.
Qed.

Lemma is_perm_lt n p i k : is_perm n p -> nth_error p i = Some k -> k < n.
Proof.
  intros Hp H. apply nth_error_In in H.
  apply (Permutation_in _ Hp) in H. apply in_seq in H. lia.
Qed.

Lemma is_perm_length n p : is_perm n p -> length p = n.
Proof. intros H. apply Permutation_length in H. now rewrite seq_length in H. Qed.

Lemma is_perm_inj n p i j k :
  is_perm n p -> nth_error p i = Some k -> nth_error p j = Some k -> i = j.
Proof.
  intros Hp Hi Hj.
  assert (Hnd : NoDup p).
  { apply (Permutation_NoDup (Permutation_sym Hp)). apply seq_NoDup. }
  rewrite NoDup_nth_error in Hnd. apply Hnd; [|congruence].
  apply nth_error_Some. congruence.
Qed.

Lemma is_perm_surj n p k : is_perm n p -> k < n -> exists i, nth_error p i = Some k.
Proof.
  intros Hp Hk. apply In_nth_error.
  apply (Permutation_in _ (Permutation_sym Hp)). apply in_seq. lia.
Qed.

Theorem sortPermutation_correct {A} stdsort (ltb : A -> A -> bool) data perm :
  std_sort_contract stdsort ->
  strict_weak_order_on ltb (fun x => In x data) ->
  length perm = length data ->
  exists p, sortPermutation stdsort ltb data perm = Ret p /\
            is_perm (length data) p /\
            (forall d', reads_through data p d' -> sorted ltb d') /\
            (exists d', reads_through data p d').
Proof.
  intros Hc Hswo Hlen. unfold sortPermutation.
  rewrite iota_loop_spec by lia. simpl bind.
  rewrite skipn_all2 by lia. simpl. rewrite app_nil_r.
  set (less := fun i j => _).
  assert (Hl : strict_weak_order_on less (fun i => In i (seq 0 (length data)))).
  { assert (Hnth : forall i, In i (seq 0 (length data)) ->
              exists a, nth_error data i = Some a /\ In a data).
    { intros i Hi. apply in_seq in Hi.
      destruct (nth_error data i) eqn:E.
      - eauto using nth_error_In.
      - apply nth_error_None in E. lia. }
    split; unfold less.
    - intros i Hi. destruct (Hnth i Hi) as (a & -> & Ha). eapply swo_irrefl; eauto.
    - intros i j k Hi Hj Hk. destruct (Hnth i Hi) as (a & -> & Ha), (Hnth j Hj) as (b & -> & Hb),
        (Hnth k Hk) as (c & -> & Hcc). eapply swo_trans; eauto.
    - intros i j k Hi Hj Hk. destruct (Hnth i Hi) as (a & -> & Ha), (Hnth j Hj) as (b & -> & Hb),
        (Hnth k Hk) as (c & -> & Hcc). eapply swo_incomp; eauto. }
  destruct (Hc less _ Hl) as [Hp Hs].
  exists (stdsort less (seq 0 (length data))).
  assert (Hperm : is_perm (length data) (stdsort less (seq 0 (length data))))
    by (unfold is_perm; now symmetry).
  split; [auto|]. split; [auto|]. split.
  - intros d' [Hd Hr] i j a b Hij Ha Hb.
    set (p := stdsort less (seq 0 (length data))) in *.
    assert (Hpi : i < length p) by (rewrite <- Hd; apply nth_error_Some; congruence).
    assert (Hpj : j < length p) by (rewrite <- Hd; apply nth_error_Some; congruence).
    destruct (nth_error p i) as [ki|] eqn:Ei; [|apply nth_error_None in Ei; lia].
    destruct (nth_error p j) as [kj|] eqn:Ej; [|apply nth_error_None in Ej; lia].
    specialize (Hs i j ki kj Hij Ei Ej). unfold less in Hs.
    rewrite <- (Hr _ _ Ei), <- (Hr _ _ Ej), Ha, Hb in Hs. exact Hs.
  - set (p := stdsort less (seq 0 (length data))) in *.
    assert (Hlt : forall k, In k p -> k < length data).
    { intros k Hk. apply (Permutation_in _ Hperm) in Hk. apply in_seq in Hk. lia. }
    clear - Hlt. induction p as [|k p IH].
    + exists []. split; auto. intros [|i] k H; discriminate.
    + destruct IH as (d' & Hd & Hr). { intros; apply Hlt; simpl; auto. }
      destruct (nth_error data k) as [a|] eqn:E.
      * exists (a :: d'). split; [simpl; auto|].
        intros [|i] k' H; simpl in *; [congruence|auto].
      * apply nth_error_None in E. specialize (Hlt k (or_introl eq_refl)). lia.
Qed.

(** ** applyPermutation *)
Section Apply.
  Context {A : Type}.
  Variables (p : list nat) (n : nat).
  Hypothesis Hp : is_perm n p.

  Let f (x : nat) : nat := nth x p 0.

  Lemma f_nth x : x < n -> nth_error p x = Some (f x).
  Proof. intros H. apply nth_error_nth'. now rewrite (is_perm_length _ _ Hp). Qed.

  Lemma f_lt x : x < n -> f x < n.
  Proof. intros H. eapply is_perm_lt; eauto using f_nth. Qed.

  Lemma f_inj x y : x < n -> y < n -> f x = f y -> x = y.
  Proof.
    intros Hx Hy E. eapply (is_perm_inj n p); eauto using f_nth. rewrite E. now apply f_nth.
  Qed.

  Definition it (t x : nat) : nat := Nat.iter t f x.

  Lemma it_lt t x : x < n -> it t x < n.
  Proof. intros H; induction t; simpl; auto using f_lt. Qed.

  Lemma it_S t x : it (S t) x = it t (f x).
  Proof. unfold it. induction t; simpl in *; auto. Qed.

  Lemma it_add s t x : it (s + t) x = it s (it t x).
  Proof. unfold it. induction s; simpl; auto. Qed.

  Lemma it_inj t x y : x < n -> y < n -> it t x = it t y -> x = y.
  Proof.
    intros Hx Hy; induction t; simpl; auto. intros E. apply IHt.
    apply f_inj; auto; now apply it_lt.
  Qed.

  (** position of the original element [x] after [i] iterations *)
  Definition Loc (i x y : nat) : Prop :=
    exists t, it t x = y /\ i <= y /\ forall s, s < t -> it s x < i.

  Definition unplaced (i x : nat) : Prop := x < n /\ forall k, k < i -> f k <> x.

  Lemma Loc_fun i x y z : Loc i x y -> Loc i x z -> y = z.
  Proof.
    intros (t & Ht & Hy & Hlt) (u & Hu & Hz & Hlu).
    destruct (Nat.lt_trichotomy t u) as [H|[H|H]]; [|congruence|].
    - specialize (Hlu t H). lia.
    - specialize (Hlt u H). lia.
  Qed.

  Lemma Loc_inj i x1 x2 y : i <= n ->
    unplaced i x1 -> unplaced i x2 -> Loc i x1 y -> Loc i x2 y -> x1 = x2.
  Proof.
    intros Hin [Hx1 U1] [Hx2 U2] (a & Ha & Hy & La) (b & Hb & _ & Lb).
    assert (Gen : forall a b x1 x2, x1 < n -> x2 < n -> (forall k, k < i -> f k <> x1) ->
              (forall s, s < b -> it s x2 < i) -> a <= b -> it a x1 = it b x2 -> x1 = x2).
    { clear -Hp. intros a b x1 x2 Hx1 Hx2 U1 Lb Hab E.
      replace b with (a + (b - a)) in E by lia. rewrite it_add in E.
      apply it_inj in E; auto using it_lt.
      destruct (b - a) as [|d] eqn:Ed; [exact E|].
      exfalso. simpl in E. apply (U1 (it d x2)); [|congruence].
      apply Lb. lia. }
    destruct (Nat.le_ge_cases a b).
    - apply (Gen a b); auto. congruence.
    - symmetry. apply (Gen b a); auto. congruence.
  Qed.

  Lemma pigeon (g : nat -> nat) i :
    (forall s, s <= i -> g s < i) -> exists s t, s < t <= i /\ g s = g t.
  Proof.
    intros H.
    destruct (ListDec.NoDup_dec Nat.eq_dec (map g (seq 0 (S i)))) as [Hnd|Hnd].
    - exfalso. assert (incl (map g (seq 0 (S i))) (seq 0 i)).
      { intros y Hy. apply in_map_iff in Hy as (s & <- & Hs). apply in_seq in Hs.
        apply in_seq. specialize (H s). lia. }
      pose proof (NoDup_incl_length Hnd H0) as Hl.
      rewrite map_length, !seq_length in Hl. lia.
    - assert (E : exists s t, s < t < S i /\ g s = g t).
      { clear H. revert Hnd. generalize (S i). intros m Hnd.
        destruct (List.Exists_dec (fun s => Exists (fun t => s < t /\ g s = g t) (seq 0 m)) (seq 0 m)) as [H|H].
        { intros s. apply Exists_dec. intros t.
          destruct (lt_dec s t), (Nat.eq_dec (g s) (g t)); [left|right|right|right]; tauto. }
        - apply Exists_exists in H as (s & Hs & H). apply Exists_exists in H as (t & Ht & H).
          apply in_seq in Hs, Ht. exists s, t. lia.
        - exfalso. apply Hnd. apply NoDup_nth_error.
          intros a b Ha E. rewrite map_length, seq_length in Ha.
          destruct (Nat.lt_ge_cases b m) as [Hb|Hb].
          2:{ rewrite (proj2 (nth_error_None _ b)) in E by len.
              apply nth_error_None in E. rewrite map_length, seq_length in E. lia. }
          assert (Hn : forall c, c < m -> nth_error (map g (seq 0 m)) c = Some (g c)).
          { intros c Hc. apply map_nth_error.
            rewrite (nth_error_nth' (seq 0 m) 0) by (rewrite seq_length; lia).
            now rewrite seq_nth by lia. }
          rewrite !Hn in E by lia. injection E as E.
          destruct (Nat.lt_trichotomy a b) as [Hab|[Hab|Hab]]; auto.
          + exfalso. apply H. apply Exists_exists. exists a. split; [apply in_seq; lia|].
            apply Exists_exists. exists b. split; [apply in_seq; lia|]. auto.
          + exfalso. apply H. apply Exists_exists. exists b. split; [apply in_seq; lia|].
            apply Exists_exists. exists a. split; [apply in_seq; lia|]. auto. }
      destruct E as (s & t & Hst & E). exists s, t. split; auto. lia.
  Qed.

  Lemma Loc_ex i x : i <= n -> unplaced i x ->
    exists t y, t <= i /\ it t x = y /\ i <= y < n /\ (forall s, s < t -> it s x < i).
  Proof.
    intros Hin [Hx U].
    destruct (Exists_dec (fun t => i <= it t x) (seq 0 (S i))) as [H|H].
    { intros t. apply le_dec. }
    - (* least such t *)
      apply Exists_exists in H as (t & Ht & H). apply in_seq in Ht.
      assert (Hle : t <= i) by lia. clear Ht.
      induction t as [t IH] using lt_wf_ind.
      destruct (Exists_dec (fun s => i <= it s x) (seq 0 t)) as [E|E].
      { intros s. apply le_dec. }
      + apply Exists_exists in E as (s & Hs & E). apply in_seq in Hs.
        apply (IH s); auto; lia.
      + exists t, (it t x). repeat split; auto using it_lt.
        intros s Hs. destruct (Nat.lt_ge_cases (it s x) i); auto.
        exfalso. apply E. apply Exists_exists. exists s. rewrite in_seq. split; auto; lia.
    - exfalso.
      assert (Hall : forall s, s <= i -> it s x < i).
      { intros s Hs. destruct (Nat.lt_ge_cases (it s x) i); auto.
        exfalso. apply H. apply Exists_exists. exists s. rewrite in_seq. split; auto; lia. }
      destruct (pigeon (fun s => it s x) i Hall) as (s & t & Hst & E).
      replace t with (s + (t - s)) in E by lia. rewrite it_add in E.
      apply it_inj in E; auto using it_lt.
      destruct (t - s) as [|d] eqn:Ed; [lia|]. simpl in E.
      apply (U (it d x)); [apply Hall; lia|congruence].
  Qed.

  Lemma follow_ok i x t y fuel : i <= n -> x < n ->
    it t x = y -> i <= y -> (forall s, s < t -> it s x < i) -> t <= fuel ->
    follow fuel p i x = Ret y.
  Proof.
    intros Hin. revert fuel x. induction t as [|t IH]; intros fuel x Hx E Hy Hlt Hf.
    - simpl in E; subst y. destruct fuel; simpl;
        replace (x <? i) with false by (symmetry; apply Nat.ltb_ge; lia); auto.
    - destruct fuel as [|fuel]; [lia|]. simpl.
      assert (Hxi : x < i) by apply (Hlt 0 ltac:(lia)).
      replace (x <? i) with true by (symmetry; apply Nat.ltb_lt; lia).
      unfold rd. rewrite f_nth by lia. simpl.
      apply IH; auto; try lia.
      + now apply f_lt.
      + now rewrite <- it_S.
      + intros s Hs. rewrite <- it_S. apply Hlt. lia.
  Qed.

  Lemma swap_at_ok (d : list A) i j : i < length d -> j < length d ->
    exists d', swap_at d i j = Ret d' /\ length d' = length d /\
      nth_error d' i = nth_error d j /\ nth_error d' j = nth_error d i /\
      forall k, k <> i -> k <> j -> nth_error d' k = nth_error d k.
  Proof.
    intros Hi Hj. unfold swap_at, rd.
    destruct (nth_error d i) as [a|] eqn:Ea; [|apply nth_error_None in Ea; lia].
    destruct (nth_error d j) as [b|] eqn:Eb; [|apply nth_error_None in Eb; lia].
    simpl. rewrite wr_ok by auto. simpl. rewrite wr_ok by (now rewrite upd_length).
    eexists. split; [reflexivity|]. rewrite !upd_length. split; [auto|].
    rewrite !nth_error_upd, !upd_length.
    repeat split.
    - destruct (Nat.eqb_spec j i) as [->|Hn]; simpl.
      + replace (i <? length d) with true by (symmetry; now apply Nat.ltb_lt). congruence.
      + rewrite Nat.eqb_refl. now replace (i <? length d) with true by (symmetry; now apply Nat.ltb_lt).
    - rewrite Nat.eqb_refl. now replace (j <? length d) with true by (symmetry; now apply Nat.ltb_lt).
    - intros k Hki Hkj. rewrite !nth_error_upd.
      replace (j =? k) with false by (symmetry; apply Nat.eqb_neq; auto).
      replace (i =? k) with false by (symmetry; apply Nat.eqb_neq; auto). auto.
  Qed.

  Variable d0 : list A.
  Hypothesis Hd0 : length d0 = n.

  Definition inv (i : nat) (d : list A) : Prop :=
    length d = n /\
    (forall k, k < i -> nth_error d k = nth_error d0 (f k)) /\
    (forall x y, unplaced i x -> Loc i x y -> nth_error d y = nth_error d0 x).

  Lemma inv_step i d : i < n -> inv i d ->
    exists ind d', rd p i = Ret (f i) /\ follow (length p) p i (f i) = Ret ind /\
      swap_at d i ind = Ret d' /\ inv (S i) d'.
  Proof.
    intros Hi (Hlen & Hpl & Hun).
    assert (Ufi : unplaced i (f i)).
    { split; [now apply f_lt|]. intros k Hk E. apply f_inj in E; lia. }
    destruct (Loc_ex i (f i) ltac:(lia) Ufi) as (t & ind & Ht & Eind & Hind & Hlt).
    assert (Lfi : Loc i (f i) ind) by (exists t; repeat split; auto; lia).
    destruct (swap_at_ok d i ind) as (d' & Hsw & Hl' & Hi' & Hind' & Hoth); try lia.
    exists ind, d'. split; [|split; [|split; [auto|]]].
    - apply rd_Ret. now apply f_nth.
    - apply (follow_ok i (f i) t); auto; try lia.
      + now apply f_lt.
      + rewrite (is_perm_length _ _ Hp). lia.
    - split; [lia|]. split.
      + intros k Hk. destruct (Nat.eq_dec k i) as [->|Hki].
        * rewrite Hi'. apply Hun; auto.
        * rewrite Hoth by lia. apply Hpl. lia.
      + intros x y [Hx U] HL.
        assert (Ux : unplaced i x) by (split; auto).
        destruct (Loc_ex i x ltac:(lia) Ux) as (u & y0 & Hu & Ey0 & Hy0 & Hlu).
        assert (Lx : Loc i x y0) by (exists u; repeat split; auto; lia).
        assert (Hxfi : x <> f i) by (intros ->; apply (U i); auto).
        destruct (Nat.eq_dec y0 i) as [->|Hne].
        * assert (Hindi : ind <> i).
          { intros ->. apply Hxfi. apply (Loc_inj i x (f i) i); auto; lia. }
          assert (L2 : Loc (S i) x ind).
          { exists (S u + t). split; [|split].
            - replace (S u + t) with (t + S u) by lia. rewrite it_add.
              simpl. rewrite Ey0. exact Eind.
            - lia.
            - intros s Hs. destruct (Nat.lt_trichotomy s u) as [H|[H|H]].
              + specialize (Hlu s H). lia.
              + subst s. lia.
              + replace s with ((s - S u) + S u) by lia. rewrite it_add. simpl. rewrite Ey0.
                specialize (Hlt (s - S u)). lia. }
          rewrite (Loc_fun _ _ _ _ HL L2), Hind'. now apply Hun.
        * assert (L2 : Loc (S i) x y0).
          { exists u. repeat split; auto; try lia. intros s Hs. specialize (Hlu s Hs). lia. }
          rewrite (Loc_fun _ _ _ _ HL L2).
          rewrite Hoth; [now apply Hun|auto|].
          intros ->. apply Hxfi. apply (Loc_inj i x (f i) ind); auto; lia.
  Qed.

  Lemma apply_loop_ok m i d : i + m = n - 1 -> inv i d ->
    exists d', apply_loop m d p i = Ret d' /\ inv (n - 1) d'.
  Proof.
    revert i d; induction m as [|m IH]; intros i d Him Hinv.
    - exists d. replace (n - 1) with i by lia. auto.
    - destruct (inv_step i d ltac:(lia) Hinv) as (ind & d' & H1 & H2 & H3 & H4).
      simpl. rewrite H1. simpl. rewrite H2. simpl. rewrite H3. simpl.
      apply IH; auto; lia.
  Qed.

  Lemma inv_0 : inv 0 d0.
  Proof.
    split; [auto|]. split; [lia|].
    intros x y _ (t & Ht & _ & Hlt). destruct t as [|t].
    - simpl in Ht. now subst.
    - specialize (Hlt 0). lia.
  Qed.

  Lemma applyPermutation_ok :
    exists d', applyPermutation d0 p = Ret d' /\ reads_through d0 p d'.
  Proof.
    unfold applyPermutation. rewrite Hd0.
    destruct (Nat.eqb_spec n 0) as [E|E].
    - exists d0. split; auto.
      assert (p = []) by (apply length_zero_iff_nil; rewrite (is_perm_length _ _ Hp); auto).
      split; [rewrite H; simpl; lia|]. intros i k Hk. rewrite H in Hk. destruct i; discriminate.
    - destruct (apply_loop_ok (n - 1) 0 d0 ltac:(lia) inv_0) as (d' & Hr & Hlen & Hpl & Hun).
      exists d'. split; auto. split; [now rewrite (is_perm_length _ _ Hp)|].
      intros i k Hk.
      assert (Hi : i < n).
      { rewrite <- (is_perm_length _ _ Hp). apply nth_error_Some. congruence. }
      rewrite f_nth in Hk by auto. injection Hk as <-.
      destruct (Nat.eq_dec i (n - 1)) as [->|Hne]; [|apply Hpl; lia].
      assert (U : unplaced (n - 1) (f (n - 1))).
      { split; [apply f_lt; lia|]. intros k Hk Ek. apply f_inj in Ek; lia. }
      destruct (Loc_ex (n - 1) (f (n - 1)) ltac:(lia) U) as (t & y & Ht & Ey & Hy & Hlt).
      replace (n - 1) with y at 1 by lia. apply Hun; auto.
      exists t. repeat split; auto; lia.
  Qed.
End Apply.

(** ** invertPermutation *)
Lemma invert_loop_spec p : forall inv i,
  NoDup p -> (forall k, In k p -> k < length inv) ->
  exists inv', invert_loop p inv i = Ret inv' /\ length inv' = length inv /\
    (forall j k, nth_error p j = Some k -> nth_error inv' k = Some (i + j)) /\
    (forall k, ~ In k p -> nth_error inv' k = nth_error inv k).
Proof.
  induction p as [|x p IH]; intros inv i Hnd Hlt.
  - exists inv. simpl. repeat split; auto. intros [|j] k H; discriminate.
  - inversion Hnd as [|? ? Hx Hnd']; subst. simpl.
    rewrite wr_ok by (apply Hlt; simpl; auto). simpl.
    destruct (IH (upd inv x i) (S i) Hnd') as (inv' & Hr & Hl & Hin & Hout).
    { intros k Hk. rewrite upd_length. apply Hlt. simpl; auto. }
    exists inv'. rewrite upd_length in Hl. repeat split; auto.
    + intros [|j] k Hk; simpl in Hk.
      * injection Hk as <-. rewrite Hout by auto.
        rewrite nth_error_upd_eq by (apply Hlt; simpl; auto). f_equal; lia.
      * rewrite (Hin j k Hk). f_equal; lia.
    + intros k Hk. rewrite Hout by tauto. apply nth_error_upd_neq. tauto.
Qed.

Theorem invertPermutation_correct n p buf :
  is_perm n p -> length buf = n ->
  exists q, invertPermutation p buf = Ret q /\ is_perm n q /\
    (forall i k, nth_error p i = Some k <-> nth_error q k = Some i).
Proof.
  intros Hp Hb.
  assert (Hnd : NoDup p).
  { apply (Permutation_NoDup (Permutation_sym Hp)). apply seq_NoDup. }
  destruct (invert_loop_spec p buf 0 Hnd) as (q & Hr & Hl & Hin & _).
  { intros k Hk. apply (Permutation_in _ Hp) in Hk. apply in_seq in Hk. lia. }
  exists q. split; [exact Hr|].
  assert (Hiff : forall i k, nth_error p i = Some k <-> nth_error q k = Some i).
  { intros i k. split; [apply Hin|]. intros Hq.
    assert (k < n) by (rewrite <- Hb, <- Hl; apply nth_error_Some; congruence).
    destruct (is_perm_surj n p k Hp H) as (j & Hj).
    specialize (Hin j k Hj). simpl in Hin. congruence. }
  split; [|exact Hiff].
  unfold is_perm. apply NoDup_Permutation_bis.
  - apply NoDup_nth_error. intros a b Ha E.
    destruct (nth_error q a) as [i|] eqn:Ea; [|apply nth_error_None in Ea; lia].
    symmetry in E. apply Hiff in Ea, E. congruence.
  - rewrite seq_length. lia.
  - intros i Hi. apply In_nth_error in Hi as (k & Hk). apply Hiff in Hk.
    apply in_seq. assert (i < length p) by (apply nth_error_Some; congruence).
    rewrite (is_perm_length _ _ Hp) in H. lia.
Qed.

Lemma perm_roundtrip {A} n (p q : list nat) (d d1 d2 : list A) :
  is_perm n p -> length d = n ->
  (forall i k, nth_error p i = Some k <-> nth_error q k = Some i) ->
  is_perm n q ->
  reads_through d p d1 -> reads_through d1 q d2 -> d2 = d.
Proof.
  intros Hp Hd Hiff Hq [L1 R1] [L2 R2].
  apply nth_error_ext. intros i.
  destruct (Nat.lt_ge_cases i n) as [Hi|Hi].
  - destruct (nth_error q i) as [k|] eqn:E.
    + rewrite (R2 _ _ E). apply Hiff in E. now rewrite (R1 _ _ E).
    + apply nth_error_None in E. rewrite (is_perm_length _ _ Hq) in E. lia.
  - rewrite !(proj2 (nth_error_None _ i)); auto; try lia.
    rewrite L2, (is_perm_length _ _ Hq). lia.
Qed.

Theorem apply_invert_roundtrip {A} n (p buf : list nat) (d : list A) :
  is_perm n p -> length buf = n -> length d = n ->
  exists d1 q, applyPermutation d p = Ret d1 /\ invertPermutation p buf = Ret q /\
    applyPermutation d1 q = Ret d.
Proof.
  intros Hp Hb Hd.
  destruct (applyPermutation_ok p n Hp d Hd) as (d1 & H1 & R1).
  destruct (invertPermutation_correct n p buf Hp Hb) as (q & H2 & Hq & Hiff).
  assert (Hd1 : length d1 = n) by (rewrite (proj1 R1); now apply is_perm_length).
  destruct (applyPermutation_ok q n Hq d1 Hd1) as (d2 & H3 & R3).
  exists d1, q. repeat split; auto. rewrite H3. f_equal.
  exact (perm_roundtrip n p q d d1 d2 Hp Hd Hiff Hq R1 R3).
Qed.

Theorem invert_involutive n (p buf buf' : list nat) :
  is_perm n p -> length buf = n -> length buf' = n ->
  exists q, invertPermutation p buf = Ret q /\ invertPermutation q buf' = Ret p.
Proof.
  intros Hp Hb Hb'.
  destruct (invertPermutation_correct n p buf Hp Hb) as (q & H2 & Hq & Hiff).
  destruct (invertPermutation_correct n q buf' Hq Hb') as (r & H3 & Hr & Hiff').
  exists q. split; auto. rewrite H3. f_equal.
  apply nth_error_ext. intros i.
  destruct (nth_error r i) as [k|] eqn:E.
  - apply Hiff' in E. symmetry. now apply Hiff.
  - apply nth_error_None in E. symmetry. apply nth_error_None.
    rewrite (is_perm_length _ _ Hr) in E. rewrite (is_perm_length _ _ Hp). lia.
Qed.
