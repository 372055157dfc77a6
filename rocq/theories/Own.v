(** Generic facts about objects that each own at most one heap block, used for the
    proofs about classes with a heap buffer. *)
From Coq Require Import List Arith Lia Bool.
From Verif Require Import Base.
Import ListNotations.

Lemma opt_nat_dec (b : nat) (o : option nat) : {o = Some b} + {o <> Some b}.
Proof. destruct o as [c|]; [destruct (Nat.eq_dec c b); [left|right]; congruence|right; discriminate]. Qed.

Lemma nth_lt {X} (l : list X) i a : nth_error l i = Some a -> i < length l.
Proof. intros H. apply nth_error_Some. congruence. Qed.

Lemma upd_id {X} (l : list X) i a : nth_error l i = Some a -> upd l i a = l.
Proof.
  revert i; induction l as [|b l IH]; intros [|i] H; simpl in *; try discriminate; auto.
  - congruence.
  - f_equal; auto.
Qed.
Lemma upd_upd {X} (l : list X) : forall i a b, upd (upd l i a) i b = upd l i b.
Proof. induction l; intros [|i] x y; simpl; f_equal; auto. Qed.

Definition alloc {C} (h : list (option C)) (b : nat) : Prop := exists c, nth_error h b = Some (Some c).

Lemma alloc_lt {C} (h : list (option C)) b : alloc h b -> b < length h.
Proof. intros [c H]. eapply nth_lt; eauto. Qed.

Section Own.
  Context {C V L : Type}.
  Variable own : V -> option nat.
  Variable Rep : list (option C) -> V -> L -> Prop.
  Variable null : V.
  Variable lnil : L.
  Notation heap := (list (option C)).
  Hypothesis rep_pres : forall h h' v l, Rep h v l ->
    (forall b, own v = Some b -> b < length h -> nth_error h' b = nth_error h b) -> Rep h' v l.
  Hypothesis rep_block : forall h v l b, Rep h v l -> own v = Some b -> alloc h b.
  Hypothesis own_null : own null = None.
  Hypothesis rep_null : forall h, Rep h null lnil.

  Record frame (h : heap) (v : V) (h' : heap) (v' : V) : Prop := {
    f_len : length h <= length h';
    f_other : forall b, b < length h -> own v <> Some b -> nth_error h' b = nth_error h b;
    f_new : forall b, length h <= b -> alloc h' b -> own v' = Some b;
    f_old : forall b, own v = Some b -> own v' <> Some b -> ~ alloc h' b;
    f_own : forall b, own v' = Some b -> own v = Some b \/ length h <= b }.

  Definition inplace (h : heap) (v : V) (h' : heap) : Prop :=
    length h' = length h /\
    forall b, own v <> Some b -> nth_error h' b = nth_error h b.

  Lemma inplace_refl h v : inplace h v h.
  Proof. split; auto. Qed.

  Lemma frame_inplace h v h' v' : inplace h v h' -> own v' = own v -> frame h v h' v'.
  Proof.
    intros [Le H] E. constructor.
    - lia.
    - intros b _ Hb; auto.
    - intros b Hb Ha. apply alloc_lt in Ha. lia.
    - congruence.
    - intros b Hb; left; congruence.
  Qed.

  Lemma frame_refl h v v' : own v' = own v -> frame h v h v'.
  Proof. intros. apply frame_inplace; auto. apply inplace_refl. Qed.

  Lemma frame_trans h v h1 v1 h2 v2 :
    (forall b, own v = Some b -> b < length h) ->
    frame h v h1 v1 -> frame h1 v1 h2 v2 -> frame h v h2 v2.
  Proof.
    intros Hv F G. constructor.
    - pose proof (f_len _ _ _ _ F). pose proof (f_len _ _ _ _ G). lia.
    - intros b Hb Hn. rewrite (f_other _ _ _ _ G).
      + apply (f_other _ _ _ _ F); auto.
      + pose proof (f_len _ _ _ _ F); lia.
      + intros E. destruct (f_own _ _ _ _ F b E); [contradiction|lia].
    - intros b Hb Ha. destruct (Nat.lt_ge_cases b (length h1)) as [Hlt|Hge].
      + destruct (opt_nat_dec b (own v1)) as [E|E].
        * destruct (opt_nat_dec b (own v2)) as [E2|E2]; auto.
          exfalso. eapply (f_old _ _ _ _ G); eauto.
        * exfalso. apply E. apply (f_new _ _ _ _ F); auto.
          destruct Ha as [c Hc]. exists c. rewrite <- Hc. symmetry. apply (f_other _ _ _ _ G); auto.
      + apply (f_new _ _ _ _ G); auto.
    - intros b E Hn Ha.
      destruct (opt_nat_dec b (own v1)) as [E1|E1].
      + eapply (f_old _ _ _ _ G); eauto.
      + eapply (f_old _ _ _ _ F); eauto.
        destruct Ha as [c Hc]. exists c. rewrite <- Hc. symmetry.
        apply (f_other _ _ _ _ G); auto. pose proof (f_len _ _ _ _ F). pose proof (Hv b E). lia.
    - intros b E. destruct (f_own _ _ _ _ G b E) as [E1|E1].
      + apply (f_own _ _ _ _ F); auto.
      + right. pose proof (f_len _ _ _ _ F). lia.
  Qed.

  (** A set of variables over one heap. *)
  Record wok (mem : heap) (vars : list (option V)) (aw : list (option L)) : Prop := {
    w_len : length vars = length aw;
    w_rep : forall x, match nth_error vars x, nth_error aw x with
                      | Some (Some v), Some (Some l) => Rep mem v l
                      | Some None, Some None => True
                      | None, None => True
                      | _, _ => False
                      end;
    w_own : forall b, alloc mem b -> exists x v, nth_error vars x = Some (Some v) /\ own v = Some b;
    w_dis : forall x y vx vy b, nth_error vars x = Some (Some vx) ->
              nth_error vars y = Some (Some vy) ->
              own vx = Some b -> own vy = Some b -> x = y }.

  Lemma wok_var mem vars aw x l : wok mem vars aw -> nth_error aw x = Some (Some l) ->
    exists v, nth_error vars x = Some (Some v) /\ Rep mem v l.
  Proof.
    intros W H. pose proof (w_rep _ _ _ W x) as R. rewrite H in R.
    destruct (nth_error vars x) as [[v|]|] eqn:E; try contradiction. eauto.
  Qed.

  Lemma wok_empty : wok [] [] [].
  Proof.
    constructor; cbn; auto.
    - intros [|x]; cbn; auto.
    - intros b (c & Hc). destruct b; discriminate.
    - intros [|x] y vx vy b Hx; discriminate.
  Qed.

  Lemma set_ok mem vars aw x v h' v' l' : wok mem vars aw ->
    nth_error vars x = Some (Some v) -> frame mem v h' v' -> Rep h' v' l' ->
    wok h' (upd vars x (Some v')) (upd aw x (Some l')).
  Proof.
    intros W Hx F R.
    assert (Hxl : x < length vars) by (eapply nth_lt; eauto).
    assert (Hxa : x < length aw) by (rewrite <- (w_len _ _ _ W); auto).
    assert (Hblk : forall y u b, nth_error vars y = Some (Some u) -> own u = Some b ->
              b < length mem).
    { intros y u b Hy Hb. pose proof (w_rep _ _ _ W y) as Ry. rewrite Hy in Ry.
      destruct (nth_error aw y) as [[ly|]|]; try contradiction.
      eapply alloc_lt, rep_block; eauto. }
    constructor.
    - rewrite !upd_length. apply W.
    - intros y. destruct (Nat.eq_dec x y) as [->|Hn].
      + rewrite !nth_error_upd_eq by auto. auto.
      + rewrite !nth_error_upd_neq by auto. pose proof (w_rep _ _ _ W y) as Ry.
        destruct (nth_error vars y) as [[u|]|] eqn:Ey;
          destruct (nth_error aw y) as [[ly|]|]; auto.
        eapply rep_pres; eauto. intros b Hb Hlt. apply (f_other _ _ _ _ F); auto.
        intros Hb'. apply Hn. eapply (w_dis _ _ _ W); eauto.
    - intros b Ha. destruct (opt_nat_dec b (own v')) as [E|E].
      + exists x, v'. rewrite nth_error_upd_eq by auto. auto.
      + assert (Hb : b < length mem).
        { destruct (Nat.lt_ge_cases b (length mem)); auto.
          exfalso. apply E. apply (f_new _ _ _ _ F); auto. }
        assert (Hnv : own v <> Some b).
        { intros Hv. eapply (f_old _ _ _ _ F); eauto. }
        assert (Ha0 : alloc mem b).
        { destruct Ha as [c Hcc]. exists c. rewrite <- Hcc. symmetry. apply (f_other _ _ _ _ F); auto. }
        destruct (w_own _ _ _ W b Ha0) as (y & u & Hy & Hu).
        exists y, u. split; auto. rewrite nth_error_upd_neq; auto.
        intros <-. rewrite Hx in Hy. congruence.
    - intros y z u1 u2 b Hy Hz Hb1 Hb2.
      rewrite nth_error_upd in Hy, Hz.
      assert (Hlt : x <? length vars = true) by (now apply Nat.ltb_lt).
      rewrite Hlt, andb_true_r in *.
      assert (Aux : forall t u, x <> t -> nth_error vars t = Some (Some u) -> own u = Some b ->
        own v' = Some b -> False).
      { intros t u Hxt Ht Hub Hv'. destruct (f_own _ _ _ _ F b Hv') as [Hv|Hge].
        - apply Hxt. eapply (w_dis _ _ _ W); eauto.
        - pose proof (Hblk _ _ _ Ht Hub). lia. }
      destruct (Nat.eqb_spec x y) as [Exy|Hxy], (Nat.eqb_spec x z) as [Exz|Hxz].
      + congruence.
      + exfalso. injection Hy as <-. eapply Aux; eauto.
      + exfalso. injection Hz as <-. eapply Aux; eauto.
      + eapply (w_dis _ _ _ W); eauto.
  Qed.

  Lemma add_null mem vars aw : wok mem vars aw -> wok mem (vars ++ [Some null]) (aw ++ [Some lnil]).
  Proof.
    intros W. pose proof (w_len _ _ _ W) as Le.
    assert (K : forall y u b, nth_error (vars ++ [Some null]) y = Some (Some u) ->
      own u = Some b -> nth_error vars y = Some (Some u)).
    { intros y u b Hy Hb. destruct (Nat.lt_ge_cases y (length vars)).
      - now rewrite nth_error_app1 in Hy by auto.
      - rewrite nth_error_app2 in Hy by auto.
        destruct (y - length vars) as [|[|k]]; cbn in Hy; try discriminate.
        injection Hy as <-. congruence. }
    constructor.
    - len.
    - intros x. pose proof (w_rep _ _ _ W x) as Rx.
      destruct (Nat.lt_ge_cases x (length vars)).
      + rewrite !nth_error_app1 by lia. auto.
      + rewrite !nth_error_app2 by lia. rewrite Le.
        destruct (x - length aw) as [|[|k]]; cbn; auto.
    - intros b Ha. destruct (w_own _ _ _ W b Ha) as (y & u & Hy & Hu).
      exists y, u. split; auto. rewrite nth_error_app1; auto. eapply nth_lt; eauto.
    - intros x y vx vy b Hx Hy Bx By. eapply (w_dis _ _ _ W); eauto.
  Qed.

  Lemma add_ok mem vars aw h' v' l' : wok mem vars aw ->
    frame mem null h' v' -> Rep h' v' l' -> wok h' (vars ++ [Some v']) (aw ++ [Some l']).
  Proof.
    intros W F R.
    pose proof (set_ok _ _ _ (length vars) null h' v' l' (add_null _ _ _ W)) as H.
    rewrite nth_error_mid, upd_mid in H.
    rewrite (w_len _ _ _ W), upd_mid in H. apply H; auto.
  Qed.

  Lemma transfer_ok mem vars aw x y vy ly : wok mem vars aw -> x <> y ->
    (exists vx, nth_error vars x = Some (Some vx) /\ own vx = None) ->
    nth_error vars y = Some (Some vy) -> nth_error aw y = Some (Some ly) ->
    wok mem (upd (upd vars x (Some vy)) y (Some null)) (upd (upd aw x (Some ly)) y (Some lnil)).
  Proof.
    intros W Hn (vx & Hx & Hox) Hy Hay.
    assert (Hxl := nth_lt _ _ _ Hx). assert (Hyl := nth_lt _ _ _ Hy).
    pose proof (w_len _ _ _ W) as Le.
    assert (K : forall z, nth_error (upd (upd vars x (Some vy)) y (Some null)) z =
       if y =? z then Some (Some null) else if x =? z then Some (Some vy) else nth_error vars z).
    { intros z. rewrite !nth_error_upd, upd_length.
      apply Nat.ltb_lt in Hxl, Hyl. rewrite Hxl, Hyl, !andb_true_r. reflexivity. }
    assert (Ka : forall z, nth_error (upd (upd aw x (Some ly)) y (Some lnil)) z =
       if y =? z then Some (Some lnil) else if x =? z then Some (Some ly) else nth_error aw z).
    { intros z. rewrite Le in *. rewrite !nth_error_upd, upd_length.
      apply Nat.ltb_lt in Hxl, Hyl. rewrite Hxl, Hyl, !andb_true_r. reflexivity. }
    pose proof (w_rep _ _ _ W y) as Ry. rewrite Hy, Hay in Ry.
    constructor.
    - len.
    - intros z. rewrite K, Ka. destruct (Nat.eqb_spec y z); [apply rep_null|].
      destruct (Nat.eqb_spec x z); auto. apply (w_rep _ _ _ W z).
    - intros b Ha. destruct (w_own _ _ _ W b Ha) as (z & u & Hz & Hu).
      destruct (Nat.eq_dec y z) as [<-|Hyz].
      + exists x, vy. rewrite K. destruct (Nat.eqb_spec y x); [congruence|].
        rewrite Nat.eqb_refl. rewrite Hy in Hz. injection Hz as <-. auto.
      + exists z, u. rewrite K. destruct (Nat.eqb_spec y z); [congruence|].
        destruct (Nat.eqb_spec x z) as [<-|]; auto.
        rewrite Hx in Hz. injection Hz as <-. congruence.
    - intros z1 z2 u1 u2 b. rewrite !K. intros H1 H2 B1 B2.
      destruct (Nat.eqb_spec y z1); [injection H1 as <-; congruence|].
      destruct (Nat.eqb_spec y z2); [injection H2 as <-; congruence|].
      destruct (Nat.eqb_spec x z1) as [<-|], (Nat.eqb_spec x z2) as [<-|]; auto.
      + injection H1 as <-. exfalso. apply n0. eapply (w_dis _ _ _ W); eauto.
      + injection H2 as <-. exfalso. apply n. eapply (w_dis _ _ _ W); eauto.
      + eapply (w_dis _ _ _ W); eauto.
  Qed.

  Lemma delete_ok mem vars aw x v h' : wok mem vars aw -> nth_error vars x = Some (Some v) ->
    frame mem v h' null -> wok h' (upd vars x None) (upd aw x None).
  Proof.
    intros W Hx F.
    assert (W' : wok h' (upd vars x (Some null)) (upd aw x (Some lnil)))
      by (eapply set_ok; eauto).
    assert (Hxl := nth_lt _ _ _ Hx).
    assert (Hxa : x < length aw) by (rewrite <- (w_len _ _ _ W); auto).
    constructor.
    - rewrite !upd_length. apply W.
    - intros z. destruct (Nat.eq_dec z x) as [->|Hn].
      + rewrite !nth_error_upd_eq; auto.
      + pose proof (w_rep _ _ _ W' z) as R.
        rewrite !nth_error_upd_neq in * by auto. exact R.
    - intros b Ha. destruct (w_own _ _ _ W' b Ha) as (z & u & Hz & Hu).
      destruct (Nat.eq_dec z x) as [->|Hn].
      + rewrite nth_error_upd_eq in Hz by auto. injection Hz as <-. congruence.
      + exists z, u. split; auto. rewrite nth_error_upd_neq in * by auto. auto.
    - intros z1 z2 u1 u2 b H1 H2.
      assert (z1 <> x) by (intros ->; rewrite nth_error_upd_eq in H1 by auto; discriminate).
      assert (z2 <> x) by (intros ->; rewrite nth_error_upd_eq in H2 by auto; discriminate).
      eapply (w_dis _ _ _ W'); rewrite !nth_error_upd_neq in * by auto; eauto.
  Qed.
End Own.
