From Coq Require Import List Arith ZArith Lia Bool.
From Verif Require Import Base StringView_Model StringView_Spec.
Import ListNotations.

(** Views as text ++ rest. *)
Definition V (l r : list char) : sv := mkSv (l ++ r) (length l).
Lemma text_V l r : text (V l r) = l.
Proof. unfold text, V. cbn. rewrite firstn_app, Nat.sub_diag, firstn_all. cbn. apply app_nil_r. Qed.
Lemma valid_V v : valid v -> exists l r, v = V l r /\ text v = l.
Proof.
  intros H. exists (text v), (skipn (vsize v) (tail v)). unfold V, text. split; auto.
  rewrite firstn_skipn, firstn_length_le by auto. now destruct v.
Qed.
Lemma view_V l : view l = V l [0%Z]. Proof. reflexivity. Qed.
Lemma valid_V' l r : valid (V l r). Proof. unfold valid, V. cbn. rewrite app_length. lia. Qed.

(** ** Comparison *)
Lemma memcmp_ok n : forall l r, n <= length l -> n <= length r ->
  exists z, memcmp l r n = Ret z /\
    ((z = 0%Z /\ firstn n l = firstn n r) \/
     (z = (-1)%Z /\ exists p a b x y, l = p ++ a :: x /\ r = p ++ b :: y /\ (a < b)%Z /\ length p < n) \/
     (z = 1%Z /\ exists p a b x y, l = p ++ a :: x /\ r = p ++ b :: y /\ (b < a)%Z /\ length p < n)).
Proof.
  induction n as [|n IH]; intros l r Hl Hr; cbn [memcmp].
  - exists 0%Z. split; auto. 
  - destruct l as [|a l], r as [|b r]; cbn [length] in *; try lia.
    change (rd (a :: l) 0) with (Ret a). change (rd (b :: r) 0) with (Ret b). cbn [bind tl].
    destruct (Z.ltb_spec a b) as [H|H].
    { exists (-1)%Z. split; auto. right. left. split; auto. exists [], a, b, l, r. cbn.
      repeat split; auto; lia. }
    destruct (Z.ltb_spec b a) as [H'|H'].
    { exists 1%Z. split; auto. right. right. split; auto. exists [], a, b, l, r. cbn.
      repeat split; auto; lia. }
    assert (a = b) by lia. subst b.
    destruct (IH l r) as (z & E & H0); try lia. exists z. split; auto.
    destruct H0 as [[-> H0]|[[-> (p & c & d & x & y & -> & -> & H1 & H2)]|
                    [-> (p & c & d & x & y & -> & -> & H1 & H2)]]].
    + left. cbn. now rewrite H0.
    + right. left. split; auto. exists (a :: p), c, d, x, y. cbn. repeat split; auto; lia.
    + right. right. split; auto. exists (a :: p), c, d, x, y. cbn. repeat split; auto; lia.
Qed.

Lemma lexlt_inv l r : lexlt l r ->
  (exists a q, r = l ++ a :: q) \/
  (exists p a b x y, l = p ++ a :: x /\ r = p ++ b :: y /\ (a < b)%Z).
Proof.
  intros []; [left; eauto|right]. repeat eexists; eauto.
Qed.

Lemma lexlt_cons a l b r : lexlt (a :: l) (b :: r) <-> (a < b)%Z \/ (a = b /\ lexlt l r).
Proof.
  split.
  - intros H. apply lexlt_inv in H. destruct H as [(c & q & E)|(p & c & d & x & y & E1 & E2 & H)].
    + cbn in E. injection E as -> ->. right. split; auto. constructor.
    + destruct p as [|p0 p]; cbn in *.
      * injection E1 as -> ->. injection E2 as -> ->. auto.
      * injection E1 as -> ->. injection E2 as -> ->. right. split; auto. now constructor.
  - intros [H|[-> H]].
    + apply (lexlt_diff [] a b l r H).
    + destruct H as [l c q|p c d x y H].
      * apply (lexlt_prefix (b :: l) c q).
      * apply (lexlt_diff (b :: p) c d x y H).
Qed.
Lemma lexlt_nil_r l : ~ lexlt l [].
Proof.
  intros H. apply lexlt_inv in H. destruct H as [(c & q & E)|(p & c & d & x & y & E1 & E2 & H)].
  - symmetry in E. apply app_eq_nil in E. destruct E; discriminate.
  - symmetry in E2. apply app_eq_nil in E2. destruct E2; discriminate.
Qed.
Lemma lexlt_nil_l a r : lexlt [] (a :: r). Proof. apply (lexlt_prefix [] a r). Qed.

Lemma lexlt_irrefl l : ~ lexlt l l.
Proof.
  induction l as [|a l IH]; [apply lexlt_nil_r|]. rewrite lexlt_cons. intros [H|[_ H]]; [lia|auto].
Qed.
Lemma lexlt_trans l : forall m r, lexlt l m -> lexlt m r -> lexlt l r.
Proof.
  induction l as [|a l IH]; intros [|b m] [|c r] H1 H2;
    try (now apply lexlt_nil_r in H1); try (now apply lexlt_nil_r in H2);
    try apply lexlt_nil_l.
  apply lexlt_cons in H1, H2. apply lexlt_cons.
  destruct H1 as [H1|[-> H1]], H2 as [H2|[-> H2]]; eauto; left; lia.
Qed.
Lemma lexlt_total l : forall r, lexlt l r \/ l = r \/ lexlt r l.
Proof.
  induction l as [|a l IH]; intros [|b r]; auto using lexlt_nil_l.
  rewrite !lexlt_cons. destruct (Z.lt_trichotomy a b) as [H|[->|H]]; auto.
  destruct (IH r) as [H|[->|H]]; auto.
Qed.
Lemma lexlt_asym l r : lexlt l r -> ~ lexlt r l.
Proof. intros H1 H2. exact (lexlt_irrefl _ (lexlt_trans _ _ _ H1 H2)). Qed.

Lemma lexlt_V (p : list char) (a : char) x l l' : p ++ a :: x = l ++ l' -> length p < length l ->
  exists x', l = p ++ a :: x'.
Proof.
  intros E H. apply (f_equal (firstn (length l))) in E.
  rewrite (firstn_app (length l) l), Nat.sub_diag, firstn_all, app_nil_r in E.
  rewrite firstn_app in E. rewrite firstn_all2 in E by lia.
  destruct (length l - length p) eqn:El; [lia|]. cbn in E. eauto.
Qed.

Lemma compare_V l r q s : exists z, compare (V l q) (V r s) = Ret z /\
  ((z < 0)%Z <-> lexlt l r) /\ (z = 0%Z <-> l = r) /\ ((z > 0)%Z <-> lexlt r l).
Proof.
  unfold compare, V. cbn [tail vsize].
  destruct (memcmp_ok (Nat.min (length l) (length r)) (l ++ q) (r ++ s)) as (z & E & H);
    rewrite ?app_length; try lia.
  rewrite E. cbn [bind]. clear E.
  assert (K : forall z, ((z < 0)%Z /\ lexlt l r) \/ (z = 0%Z /\ l = r) \/ ((z > 0)%Z /\ lexlt r l) ->
    ((z < 0)%Z <-> lexlt l r) /\ (z = 0%Z <-> l = r) /\ ((z > 0)%Z <-> lexlt r l)).
  { clear. intros z [[H1 H2]|[[H1 H2]|[H1 H2]]].
    - pose proof (lexlt_asym _ _ H2). assert (l <> r) by (intros ->; now apply (lexlt_irrefl r)).
      repeat split; intros; try lia; tauto.
    - subst. pose proof (lexlt_irrefl r). repeat split; intros; try lia; tauto.
    - pose proof (lexlt_asym _ _ H2). assert (l <> r) by (intros ->; now apply (lexlt_irrefl r)).
      repeat split; intros; try lia; tauto. }
  eexists. split; [reflexivity|]. apply K. clear K.
  destruct H as [[-> H]|[[-> (p & a & b & x & y & E1 & E2 & Hab & Hp)]|
                         [-> (p & a & b & x & y & E1 & E2 & Hab & Hp)]]]; cbn [Z.eqb].
  - rewrite !firstn_app in H.
    replace (Nat.min (length l) (length r) - length l) with 0 in H by lia.
    replace (Nat.min (length l) (length r) - length r) with 0 in H by lia.
    cbn [firstn] in H. rewrite !app_nil_r in H.
    destruct (Nat.eqb_spec (length l) (length r)) as [El|El].
    + right. left. split; auto. rewrite !firstn_all2 in H by lia. auto.
    + destruct (Nat.ltb_spec (length l) (length r)) as [Hlt|Hge].
      * left. split; [lia|]. rewrite firstn_all2 in H by lia.
        rewrite Nat.min_l in H by lia.
        rewrite <- (firstn_skipn (length l) r), <- H.
        destruct (skipn (length l) r) eqn:Es; [|constructor].
        apply (f_equal (@length _)) in Es. rewrite skipn_length in Es. cbn in Es. lia.
      * right. right. split; [lia|]. symmetry in H. rewrite firstn_all2 in H by lia.
        rewrite Nat.min_r in H by lia.
        rewrite <- (firstn_skipn (length r) l), <- H.
        destruct (skipn (length r) l) eqn:Es; [|constructor].
        apply (f_equal (@length _)) in Es. rewrite skipn_length in Es. cbn in Es. lia.
  - left. split; [lia|].
    symmetry in E1, E2.
    destruct (lexlt_V p a x l q E1) as (x' & ->); [lia|].
    destruct (lexlt_V p b y r s E2) as (y' & ->); [lia|]. now constructor.
  - right. right. split; [lia|].
    symmetry in E1, E2.
    destruct (lexlt_V p a x l q E1) as (x' & ->); [lia|].
    destruct (lexlt_V p b y r s E2) as (y' & ->); [lia|]. now constructor.
Qed.

Lemma compare_ok v w : valid v -> valid w -> exists z, compare v w = Ret z /\
  ((z < 0)%Z <-> lexlt (text v) (text w)) /\ (z = 0%Z <-> text v = text w) /\
  ((z > 0)%Z <-> lexlt (text w) (text v)).
Proof.
  intros Hv Hw. destruct (valid_V _ Hv) as (l & q & -> & ->).
  destruct (valid_V _ Hw) as (r & s & -> & ->). apply compare_V.
Qed.

Lemma operators_ok v w : valid v -> valid w ->
  (exists b, sv_eq v w = Ret b /\ (b = true <-> text v = text w)) /\
  (exists b, sv_ne v w = Ret b /\ (b = true <-> text v <> text w)) /\
  (exists b, sv_lt v w = Ret b /\ (b = true <-> lexlt (text v) (text w))) /\
  (exists b, sv_gt v w = Ret b /\ (b = true <-> lexlt (text w) (text v))) /\
  (exists b, sv_le v w = Ret b /\ (b = true <-> lexlt (text v) (text w) \/ text v = text w)) /\
  (exists b, sv_ge v w = Ret b /\ (b = true <-> lexlt (text w) (text v) \/ text v = text w)).
Proof.
  intros Hv Hw. destruct (compare_ok v w Hv Hw) as (z & E & Hlt & Heq & Hgt).
  assert (Hsz : vsize v <> vsize w -> text v <> text w).
  { intros H Ht. apply H. apply (f_equal (@length _)) in Ht. unfold text in Ht.
    rewrite !firstn_length_le in Ht; auto. }
  unfold sv_eq, sv_ne, sv_lt, sv_gt, sv_le, sv_ge. rewrite E. cbn [bind].
  split; [|split; [|split; [|split; [|split]]]].
  - destruct (Nat.eqb_spec (vsize v) (vsize w)); cbn [negb]; eexists; (split; [reflexivity|]).
    + rewrite Z.eqb_eq. auto.
    + split; [discriminate|]. intros; exfalso; now apply Hsz.
  - destruct (Nat.eqb_spec (vsize v) (vsize w)); cbn [negb]; eexists; (split; [reflexivity|]).
    + rewrite negb_true_iff, Z.eqb_neq. now rewrite Heq.
    + split; auto.
  - eexists; (split; [reflexivity|]). now rewrite Z.ltb_lt.
  - eexists; (split; [reflexivity|]). rewrite Z.ltb_lt, <- Hgt. lia.
  - eexists; (split; [reflexivity|]). rewrite Z.leb_le, <- Hlt, <- Heq. lia.
  - eexists; (split; [reflexivity|]). rewrite Z.leb_le, <- Hgt, <- Heq. lia.
Qed.

Lemma str_operators_ok a b :
  (exists r, str_eq a b = Ret r /\ (r = true <-> a = b)) /\
  (exists r, str_ne a b = Ret r /\ (r = true <-> a <> b)) /\
  (exists r, str_lt a b = Ret r /\ (r = true <-> lexlt a b)) /\
  (exists r, str_gt a b = Ret r /\ (r = true <-> lexlt b a)) /\
  (exists r, str_le a b = Ret r /\ (r = true <-> lexlt a b \/ a = b)) /\
  (exists r, str_ge a b = Ret r /\ (r = true <-> lexlt b a \/ a = b)).
Proof.
  destruct (compare_V a b [0%Z] [0%Z]) as (z & E & Hlt & Heq & Hgt).
  unfold str_eq, str_ne, str_lt, str_gt, str_le, str_ge. rewrite !view_V, E. cbn [bind].
  repeat split; eexists; (split; [reflexivity|]).
  - now rewrite Z.eqb_eq.
  - rewrite negb_true_iff, Z.eqb_neq. now rewrite Heq.
  - now rewrite Z.ltb_lt.
  - rewrite Z.ltb_lt, <- Hgt. lia.
  - rewrite Z.leb_le, <- Hlt, <- Heq. lia.
  - rewrite Z.leb_le, <- Hgt, <- Heq. lia.
Qed.

Lemma substr_V p l q r : substr (V (p ++ l ++ q) r) (length p) (length l) = Ret (V l (q ++ r)).
Proof.
  unfold substr, V. cbn [tail vsize]. destruct (Nat.ltb_spec (length ((p ++ l ++ q) ++ r)) (length p)) as [H|H].
  { rewrite !app_length in H. lia. }
  rewrite <- !app_assoc. rewrite skipn_app, skipn_all, Nat.sub_diag. reflexivity.
Qed.

Lemma substr_ok v pos count : valid v -> pos + count <= vsize v ->
  exists s, substr v pos count = Ret s /\ valid s /\
    text s = firstn count (skipn pos (text v)).
Proof.
  intros Hv H. destruct (valid_V _ Hv) as (l & r & -> & ->). cbn in H.
  pose proof (substr_V (firstn pos l) (firstn count (skipn pos l)) (skipn count (skipn pos l)) r) as E.
  rewrite !firstn_skipn in E. rewrite firstn_length_le in E by lia.
  rewrite firstn_length_le in E by (rewrite skipn_length; lia).
  eexists. split; [exact E|]. split; [apply valid_V'|apply text_V].
Qed.

Lemma app_len_inj {A} (p q r s : list A) : p ++ q = r ++ s -> length p = length r -> p = r /\ q = s.
Proof.
  revert r. induction p as [|a p IH]; intros [|b r] H E; cbn in *; try discriminate; auto.
  injection H as -> H. destruct (IH r H) as [-> ->]; auto.
Qed.

Lemma starts_with_ok v w : valid v -> valid w ->
  exists b, starts_with v w = Ret b /\ (b = true <-> exists r, text v = text w ++ r).
Proof.
  intros Hv Hw. destruct (valid_V _ Hv) as (l & q & -> & ->).
  destruct (valid_V _ Hw) as (r & s & -> & ->). unfold starts_with. cbn [vsize V].
  destruct (Nat.leb_spec (length r) (length l)) as [H|H].
  - unfold compare_sub.
    pose proof (substr_V [] (firstn (length r) l) (skipn (length r) l) q) as Es.
    cbn [length app] in Es. rewrite firstn_skipn, firstn_length_le in Es by lia. rewrite Es. cbn [bind].
    destruct (compare_V (firstn (length r) l) r (skipn (length r) l ++ q) s) as (z & E & _ & Heq & _).
    rewrite E. cbn [bind]. eexists. split; [reflexivity|]. rewrite Z.eqb_eq, Heq. split.
    + intros E'. exists (skipn (length r) l). rewrite <- E' at 1. now rewrite firstn_skipn.
    + intros (t & ->). rewrite firstn_app, Nat.sub_diag, firstn_all. apply app_nil_r.
  - eexists. split; [reflexivity|]. split; [discriminate|]. intros (t & ->).
    rewrite app_length in H. lia.
Qed.

Lemma ends_with_ok v w : valid v -> valid w ->
  exists b, ends_with v w = Ret b /\ (b = true <-> exists r, text v = r ++ text w).
Proof.
  intros Hv Hw. destruct (valid_V _ Hv) as (l & q & -> & ->).
  destruct (valid_V _ Hw) as (r & s & -> & ->). unfold ends_with. cbn [vsize V].
  destruct (Nat.leb_spec (length r) (length l)) as [H|H].
  - unfold compare_sub.
    set (k := length l - length r).
    pose proof (substr_V (firstn k l) (skipn k l) [] q) as Es.
    rewrite app_nil_r, firstn_skipn in Es. rewrite firstn_length_le in Es by lia.
    replace (length (skipn k l)) with (length r) in Es by (rewrite skipn_length; lia).
    rewrite Es. cbn [bind].
    destruct (compare_V (skipn k l) r ([] ++ q) s) as (z & E & _ & Heq & _).
    rewrite E. cbn [bind]. eexists. split; [reflexivity|]. rewrite Z.eqb_eq, Heq. split.
    + intros E'. exists (firstn k l). rewrite <- E' at 1. now rewrite firstn_skipn.
    + intros (t & ->). unfold k. rewrite app_length. rewrite skipn_app.
      rewrite skipn_all2 by lia.
      replace (length t + length r - length r - length t) with 0 by lia. reflexivity.
  - eexists. split; [reflexivity|]. split; [discriminate|]. intros (t & ->).
    rewrite app_length in H. lia.
Qed.

Lemma char_ends_ok a c :
  (exists b, starts_with_char a c = Ret b /\ (b = true <-> exists r, a = c :: r)) /\
  (exists b, ends_with_char a c = Ret b /\ (b = true <-> exists r, a = r ++ [c])).
Proof.
  split.
  - destruct a as [|x a]; cbn; eexists; (split; [reflexivity|]).
    + split; [discriminate|]. intros (r & E). discriminate.
    + rewrite Z.eqb_eq. split; [intros ->; eauto|intros (r & [= -> ->]); auto].
  - destruct (exists_last (l := c :: a)) as (_ & _ & _); [discriminate|].
    destruct a as [|x a]; [cbn|].
    + eexists; (split; [reflexivity|]). split; [discriminate|].
      intros (r & E). destruct r; discriminate.
    + destruct (exists_last (l := x :: a)) as (p & y & E); [discriminate|].
      rewrite E. unfold ends_with_char, at_, view. cbn [tail].
      rewrite app_length. cbn [length].
      replace (length p + 1 =? 0) with false by (symmetry; apply Nat.eqb_neq; lia).
      replace (length p + 1 - 1) with (length p) by lia.
      unfold rd. rewrite <- app_assoc. cbn [app]. rewrite nth_error_mid. cbn [bind].
      eexists. split; [reflexivity|]. rewrite Z.eqb_eq. split.
      * intros ->. eauto.
      * intros (r & H). apply app_inj_tail in H. tauto.
Qed.

(** ** Searches *)
Lemma nth_error_firstn' {A} (l : list A) n : forall i, i < n -> nth_error (firstn n l) i = nth_error l i.
Proof.
  revert n. induction l as [|a l IH]; intros [|n] [|i] H; cbn; auto; try lia. apply IH. lia.
Qed.

Lemma find_loop_ok p v : forall n i, valid v -> i + n = vsize v ->
  exists r, find_loop p v i n = Ret r /\
    least_from (fun j => exists a, nth_error (text v) j = Some a /\ p a = true) i r.
Proof.
  induction n as [|n IH]; intros i Hv Hn; cbn [find_loop].
  - exists None. split; auto. intros j Hj (a & Ha & _).
    assert (j < length (text v)) by (apply nth_error_Some; congruence).
    unfold text in *. rewrite firstn_length in *. lia.
  - assert (Hi : i < length (tail v)) by (unfold valid in Hv; lia).
    unfold at_, rd. destruct (nth_error (tail v) i) as [a|] eqn:E;
      [|apply nth_error_None in E; lia].
    assert (Ht : nth_error (text v) i = Some a).
    { unfold text. rewrite <- E. apply nth_error_firstn'. lia. }
    cbn [bind]. destruct (p a) eqn:Ep.
    + exists (Some i). split; auto. cbn. split; auto. split; eauto. intros j Hj. lia.
    + destruct (IH (S i) Hv) as (r & Er & Hr); [lia|]. exists r. split; auto.
      assert (Hni : ~ exists a, nth_error (text v) i = Some a /\ p a = true)
        by (intros (b & Hb & Hp); congruence).
      destruct r as [j|]; cbn in *.
      * destruct Hr as (H1 & H2 & H3). split; [lia|]. split; auto.
        intros j' Hj'. destruct (Nat.eq_dec j' i) as [->|]; auto. apply H3. lia.
      * intros j Hj. destruct (Nat.eq_dec j i) as [->|]; auto. apply Hr. lia.
Qed.

Lemma least_ext (P Q : nat -> Prop) i r : (forall j, P j <-> Q j) -> least_from P i r -> least_from Q i r.
Proof.
  intros H. destruct r as [j|]; cbn.
  - intros (H1 & H2 & H3). split; auto. split; [now apply H|]. intros k Hk Hq. apply (H3 k Hk). now apply H.
  - intros H1 k Hk Hq. apply (H1 k Hk). now apply H.
Qed.

Lemma find_gen p v pos (P : nat -> Prop) : valid v ->
  (forall j, (exists a, nth_error (text v) j = Some a /\ p a = true) <-> P j) ->
  exists r, find_loop p v pos (vsize v - pos) = Ret r /\ least_from P pos r.
Proof.
  intros Hv HP. destruct (Nat.le_gt_cases pos (vsize v)) as [H|H].
  - destruct (find_loop_ok p v (vsize v - pos) pos Hv) as (r & E & Hr); [lia|].
    exists r. split; auto. eapply least_ext; [|exact Hr]. exact HP.
  - replace (vsize v - pos) with 0 by lia. exists None. split; auto. cbn.
    intros j Hj Hp. apply HP in Hp. destruct Hp as (a & Ha & _).
    assert (j < length (text v)) by (apply nth_error_Some; congruence).
    unfold text in *. rewrite firstn_length in *. lia.
Qed.

Lemma find_first_of_ok v c pos : valid v ->
  exists r, find_first_of v c pos = Ret r /\
    least_from (fun i => nth_error (text v) i = Some c) pos r.
Proof.
  intros Hv. apply find_gen; auto. intros j. split.
  - intros (a & Ha & E). apply Z.eqb_eq in E. congruence.
  - intros Ha. exists c. split; auto. apply Z.eqb_refl.
Qed.
Lemma find_first_not_of_ok v c pos : valid v ->
  exists r, find_first_not_of v c pos = Ret r /\
    least_from (fun i => exists a, nth_error (text v) i = Some a /\ a <> c) pos r.
Proof.
  intros Hv. apply find_gen; auto. intros j.
  split; intros (a & Ha & E); exists a; (split; [auto|]).
  - apply negb_true_iff in E. now apply Z.eqb_neq in E.
  - apply negb_true_iff. now apply Z.eqb_neq.
Qed.

Lemma find_back_ok v c : forall p, valid v -> p <= vsize v ->
  exists r, find_back v c p = Ret r /\
    match r with
    | Some i => i < p /\ nth_error (text v) i = Some c /\
                forall j, i < j < p -> nth_error (text v) j <> Some c
    | None => forall j, j < p -> nth_error (text v) j <> Some c
    end.
Proof.
  induction p as [|p IH]; intros Hv Hp; cbn [find_back].
  - exists None. split; auto. intros j Hj; lia.
  - unfold at_, rd. destruct (nth_error (tail v) p) as [a|] eqn:E;
      [|apply nth_error_None in E; unfold valid in Hv; lia].
    assert (Ht : nth_error (text v) p = Some a).
    { unfold text. rewrite <- E. apply nth_error_firstn'. lia. }
    cbn [bind]. destruct (Z.eqb_spec a c) as [->|Hne].
    + exists (Some p). split; auto. split; [lia|]. split; auto. intros j Hj. lia.
    + destruct IH as (r & Er & Hr); auto; try lia. exists r. split; auto.
      destruct r as [i|].
      * destruct Hr as (H1 & H2 & H3). split; [lia|]. split; auto.
        intros j Hj. destruct (Nat.eq_dec j p) as [->|]; [congruence|]. apply H3. lia.
      * intros j Hj. destruct (Nat.eq_dec j p) as [->|]; [congruence|]. apply Hr. lia.
Qed.

Lemma find_last_of_ok v c pos : valid v ->
  exists r, find_last_of v c pos = Ret r /\
    greatest_upto (fun i => nth_error (text v) i = Some c) pos r.
Proof.
  intros Hv. unfold find_last_of.
  destruct (find_back_ok v c (if pos <? vsize v then S pos else vsize v) Hv) as (r & E & Hr).
  { destruct (Nat.ltb_spec pos (vsize v)); lia. }
  exists r. split; auto.
  assert (Hb : forall j, nth_error (text v) j = Some c -> j < vsize v).
  { intros j Hj. assert (j < length (text v)) by (apply nth_error_Some; congruence).
    unfold text in *. rewrite firstn_length in *. lia. }
  destruct (Nat.ltb_spec pos (vsize v)) as [H|H]; destruct r as [i|]; cbn.
  - destruct Hr as (H1 & H2 & H3). split; [lia|]. split; auto. intros j Hj. apply H3. lia.
  - intros j Hj. apply Hr. lia.
  - destruct Hr as (H1 & H2 & H3). split; [lia|]. split; auto.
    intros j Hj Hc. pose proof (Hb j Hc). apply (H3 j); auto. lia.
  - intros j Hj Hc. apply (Hr j); auto.
Qed.

Lemma remove_prefix_V p l r : remove_prefix (V (p ++ l) r) (length p) = Ret (V l r).
Proof.
  unfold remove_prefix, V. cbn [tail vsize]. rewrite !app_length.
  destruct (Nat.ltb_spec (length p + length l + length r) (length p)); [lia|].
  destruct (Nat.ltb_spec (length p + length l) (length p)); [lia|].
  rewrite <- app_assoc, skipn_app, skipn_all, Nat.sub_diag. cbn. do 2 f_equal. lia.
Qed.

Lemma occurs_at s l : forall i, occurs s l i <-> i <= length l /\ firstn (length s) (skipn i l) = s.
Proof.
  intros i. split.
  - intros (p & q & -> & <-). rewrite !app_length. split; [lia|].
    rewrite skipn_app, skipn_all, Nat.sub_diag. cbn.
    rewrite firstn_app, Nat.sub_diag, firstn_all. apply app_nil_r.
  - intros [H E]. exists (firstn i l), (skipn (length s) (skipn i l)).
    split; [|now apply firstn_length_le].
    rewrite <- E at 1. now rewrite firstn_skipn, firstn_skipn.
Qed.

Lemma search_loop_ok w s : forall l p r fuel, length l <= fuel ->
  exists o, search_loop fuel (V l r) (V w s) (length p) = Ret o /\
    least_from (occurs w (p ++ l)) (length p) o.
Proof.
  induction l as [|a l IH]; intros p r fuel Hf.
  - assert (Hend : w <> [] -> forall j, length p <= j -> ~ occurs w (p ++ []) j).
    { intros Hw j Hj (x & y & E & <-). apply (f_equal (@length _)) in E.
      rewrite !app_length in E. destruct w; [congruence|]. cbn in E. lia. }
    destruct fuel; cbn [search_loop vsize V length].
    + destruct w as [|b w]; cbn [length Nat.leb].
      * cbn. eexists. split; [reflexivity|]. cbn. split; auto. split.
        -- exists p, []. cbn. auto.
        -- intros j Hj. lia.
      * eexists. split; [reflexivity|]. cbn. apply Hend. discriminate.
    + destruct w as [|b w]; cbn [length Nat.leb].
      * cbn. eexists. split; [reflexivity|]. cbn. split; auto. split.
        -- exists p, []. cbn. auto.
        -- intros j Hj. lia.
      * eexists. split; [reflexivity|]. cbn. apply Hend. discriminate.
  - destruct fuel as [|fuel]; [cbn in Hf; lia|]. cbn [search_loop].
    change (vsize (V w s)) with (length w). change (vsize (V (a :: l) r)) with (length (a :: l)).
    destruct (Nat.leb_spec (length w) (length (a :: l))) as [Hw|Hw].
    + destruct (memcmp_ok (length w) (tail (V (a :: l) r)) (tail (V w s))) as (z & E & H).
      { cbn [tail V]. rewrite app_length. lia. }
      { cbn [tail V]. rewrite app_length. lia. }
      rewrite E. cbn [bind].
      assert (Hz : z = 0%Z <-> firstn (length w) (a :: l) = w).
      { assert (F1 : firstn (length w) (tail (V (a :: l) r)) = firstn (length w) (a :: l)).
        { cbn [tail V]. rewrite firstn_app. replace (length w - length (a :: l)) with 0 by lia.
          cbn [firstn]. apply app_nil_r. }
        assert (F2 : firstn (length w) (tail (V w s)) = w) by (apply (text_V w s)).
        destruct H as [[-> H]|[[-> (q & c & d & x & y & E1 & E2 & H1 & H2)]|
                               [-> (q & c & d & x & y & E1 & E2 & H1 & H2)]]].
        - split; auto. intros _. congruence.
        - split; [discriminate|]. intros Hc. exfalso.
          assert (firstn (length w) (q ++ c :: x) = firstn (length w) (q ++ d :: y)) by congruence.
          rewrite !firstn_app in H. apply app_len_inj in H; [|len].
          destruct (length w - length q) eqn:El; [lia|]. cbn in H. destruct H as [_ H].
          injection H as -> _. lia.
        - split; [discriminate|]. intros Hc. exfalso.
          assert (firstn (length w) (q ++ c :: x) = firstn (length w) (q ++ d :: y)) by congruence.
          rewrite !firstn_app in H. apply app_len_inj in H; [|len].
          destruct (length w - length q) eqn:El; [lia|]. cbn in H. destruct H as [_ H].
          injection H as -> _. lia. }
      assert (Hocc : occurs w (p ++ a :: l) (length p) <-> z = 0%Z).
      { rewrite occurs_at, Hz. rewrite skipn_app, skipn_all, Nat.sub_diag, app_length. cbn [skipn app].
        intuition lia. }
      destruct (Z.eqb_spec z 0) as [Hz0|Hz0].
      * eexists. split; [reflexivity|]. cbn. split; auto. split; [now apply Hocc|]. intros j Hj. lia.
      * pose proof (remove_prefix_V [a] l r) as Er. cbn [app length] in Er. rewrite Er. cbn [bind].
        destruct (IH (p ++ [a]) r fuel) as (o & Eo & Ho); [cbn in Hf; lia|].
        rewrite app_length, Nat.add_comm in Eo. cbn [length Nat.add] in Eo. rewrite Eo.
        exists o. split; auto. rewrite <- app_assoc in Ho. cbn [app] in Ho.
        rewrite app_length, Nat.add_comm in Ho. cbn [length Nat.add] in Ho.
        assert (Hnp : ~ occurs w (p ++ a :: l) (length p)) by (rewrite Hocc; auto).
        destruct o as [i|]; cbn in *.
        -- destruct Ho as (H1 & H2 & H3). split; [lia|]. split; auto.
           intros j Hj. destruct (Nat.eq_dec j (length p)) as [->|]; auto. apply H3. lia.
        -- intros j Hj. destruct (Nat.eq_dec j (length p)) as [->|]; auto. apply Ho. lia.
    + eexists. split; [reflexivity|]. cbn. intros j Hj (x & y & Ex & <-).
      apply (f_equal (@length _)) in Ex. rewrite !app_length in Ex. lia.
Qed.

Lemma find_first_of_sv_ok v w pos : valid v -> valid w ->
  exists r, find_first_of_sv v w pos = Ret r /\
    least_from (occurs (text w) (text v)) pos r.
Proof.
  intros Hv Hw. destruct (valid_V _ Hv) as (l & q & -> & ->).
  destruct (valid_V _ Hw) as (r & s & -> & ->). unfold find_first_of_sv. cbn [vsize V].
  destruct (Nat.ltb_spec (length l) pos) as [H|H].
  - eexists. split; [reflexivity|]. cbn. intros j Hj (x & y & -> & <-).
    rewrite !app_length in H. lia.
  - pose proof (substr_V (firstn pos l) (skipn pos l) [] q) as Es.
    rewrite app_nil_r, firstn_skipn in Es. rewrite firstn_length_le in Es by lia.
    rewrite skipn_length in Es. rewrite Es. cbn [bind].
    destruct (search_loop_ok r s (skipn pos l) (firstn pos l) ([] ++ q) (length l)) as (o & Eo & Ho).
    { rewrite skipn_length. lia. }
    rewrite firstn_length_le in * by lia. rewrite firstn_skipn in Ho. eauto.
Qed.

(** ** Tokens *)
Lemma find_first_not_V d k l r : (l = [] \/ exists a l', l = a :: l' /\ a <> d) ->
  find_first_not_of (V (repeat d k ++ l) r) d 0 = Ret (match l with [] => None | _ => Some k end).
Proof.
  intros Hl. destruct (find_first_not_of_ok (V (repeat d k ++ l) r) d 0 (valid_V' _ _)) as (o & E & H).
  rewrite text_V in H. rewrite E. f_equal.
  assert (Hk : forall j, j < k -> ~ exists a, nth_error (repeat d k ++ l) j = Some a /\ a <> d).
  { intros j Hj (a & Ha & Hn). rewrite nth_error_app1 in Ha by (rewrite repeat_length; auto).
    apply nth_error_In in Ha. apply repeat_spec in Ha. auto. }
  destruct Hl as [->|(a & l' & -> & Ha)].
  - destruct o as [i|]; auto. destruct H as (_ & H & _). exfalso.
    destruct (Nat.lt_ge_cases i k) as [Hi|Hi]; [now apply (Hk i)|].
    destruct H as (b & Hb & _). rewrite app_nil_r in Hb.
    assert (i < length (repeat d k)) by (apply nth_error_Some; congruence).
    rewrite repeat_length in *. lia.
  - assert (Hp : exists b, nth_error (repeat d k ++ a :: l') k = Some b /\ b <> d).
    { exists a. split; auto. rewrite <- (repeat_length d k) at 2. apply nth_error_mid. }
    destruct o as [i|]; cbn in H.
    + destruct H as (_ & H1 & H2). f_equal.
      destruct (Nat.lt_trichotomy i k) as [Hi|[Hi|Hi]]; auto.
      * exfalso. now apply (Hk i).
      * exfalso. apply (H2 k); auto. lia.
    + exfalso. apply (H k); auto. lia.
Qed.

Lemma find_first_V d p t l r : ~ In d t -> (l = [] \/ exists l', l = d :: l') ->
  find_first_of (V (p ++ t ++ l) r) d (length p) =
    Ret (match l with [] => None | _ => Some (length p + length t) end).
Proof.
  intros Ht Hl. destruct (find_first_of_ok (V (p ++ t ++ l) r) d (length p) (valid_V' _ _)) as (o & E & H).
  rewrite text_V in H. rewrite E. f_equal.
  assert (Hk : forall j, length p <= j < length p + length t -> nth_error (p ++ t ++ l) j <> Some d).
  { intros j Hj Ha. rewrite nth_error_app2 in Ha by lia. rewrite nth_error_app1 in Ha by lia.
    apply nth_error_In in Ha. auto. }
  destruct Hl as [->|(l' & ->)].
  - destruct o as [i|]; auto. destruct H as (H0 & H & _). exfalso.
    destruct (Nat.lt_ge_cases i (length p + length t)) as [Hi|Hi]; [now apply (Hk i)|].
    assert (i < length (p ++ t ++ [])) by (apply nth_error_Some; congruence).
    rewrite !app_length in *. cbn in *. lia.
  - assert (Hp : nth_error (p ++ t ++ d :: l') (length p + length t) = Some d).
    { rewrite app_assoc, <- app_length. apply nth_error_mid. }
    destruct o as [i|]; cbn in H.
    + destruct H as (H0 & H1 & H2). f_equal.
      destruct (Nat.lt_trichotomy i (length p + length t)) as [Hi|[Hi|Hi]]; auto.
      * exfalso. now apply (Hk i).
      * exfalso. apply (H2 (length p + length t)); auto. lia.
    + exfalso. apply (H (length p + length t)); auto. lia.
Qed.

Lemma getToken_some d k t l r : t <> [] -> ~ In d t -> (l = [] \/ exists l', l = d :: l') ->
  getTokenAndShrink (V (repeat d k ++ t ++ l) r) d =
    Ret (V t (l ++ r), match l with [] => null_sv | _ :: l' => V l' r end).
Proof.
  intros H0 Ht Hl. unfold getTokenAndShrink.
  rewrite find_first_not_V.
  2:{ right. destruct t as [|a t]; [congruence|]. exists a, (t ++ l). split; auto.
      intros ->. apply Ht. now left. }
  destruct (t ++ l) as [|x y] eqn:Etl; [destruct t; [congruence|discriminate]|].
  rewrite <- Etl. cbn [bind].
  pose proof (find_first_V d (repeat d k) t l r Ht Hl) as Ef. rewrite repeat_length in Ef.
  rewrite Ef. cbn [bind].
  pose proof (substr_V (repeat d k) t l r) as Es. rewrite repeat_length in Es.
  destruct Hl as [->|(l' & ->)].
  - replace (vsize (V (repeat d k ++ t ++ []) r) - k) with (length t)
      by (cbn [vsize V]; rewrite !app_length, repeat_length; cbn; lia).
    rewrite Es. reflexivity.
  - replace (k + length t - k) with (length t) by lia. rewrite Es. cbn [bind].
    pose proof (remove_prefix_V (repeat d k ++ t ++ [d]) l' r) as Er.
    rewrite <- !app_assoc in Er. cbn [app] in Er.
    rewrite !app_length, repeat_length in Er. cbn [length] in Er.
    replace (k + length t + 1) with (k + (length t + 1)) by lia. rewrite Er. reflexivity.
Qed.

Lemma getToken_none d k r : getTokenAndShrink (V (repeat d k) r) d = Ret (null_sv, V (repeat d k) r).
Proof.
  unfold getTokenAndShrink. pose proof (find_first_not_V d k [] r (or_introl eq_refl)) as E.
  rewrite app_nil_r in E. rewrite E. reflexivity.
Qed.

Lemma rls_some k l r : (exists a l', l = a :: l' /\ a <> SPACE) ->
  removeLeadingSpaces (V (repeat SPACE k ++ l) r) = Ret (V l r).
Proof.
  intros Hl. unfold removeLeadingSpaces. rewrite find_first_not_V by auto.
  destruct Hl as (a & l' & -> & Ha). cbn [bind].
  rewrite <- (repeat_length SPACE k) at 2. apply remove_prefix_V.
Qed.
Lemma rls_none k r : removeLeadingSpaces (V (repeat SPACE k) r) = Ret null_sv.
Proof.
  unfold removeLeadingSpaces. pose proof (find_first_not_V SPACE k [] r (or_introl eq_refl)) as E.
  rewrite app_nil_r in E. rewrite E. reflexivity.
Qed.

(** Every list starts with a maximal run of d. *)
Lemma split_run (d : char) (l : list char) : exists k l', l = repeat d k ++ l' /\ (l' = [] \/ exists a m, l' = a :: m /\ a <> d).
Proof.
  induction l as [|a l IH].
  - exists 0, []. auto.
  - destruct (Z.eq_dec a d) as [->|Hn].
    + destruct IH as (k & l' & -> & H). exists (S k), l'. auto.
    + exists 0, (a :: l). split; auto. right. eauto.
Qed.
Lemma split_free (d : char) (l : list char) : exists t l', l = t ++ l' /\ ~ In d t /\ (l' = [] \/ exists m, l' = d :: m).
Proof.
  induction l as [|a l IH].
  - exists [], []. auto.
  - destruct (Z.eq_dec a d) as [->|Hn].
    + exists [], (d :: l). split; auto. split; [auto|]. right. eauto.
    + destruct IH as (t & l' & -> & H1 & H2). exists (a :: t), l'. split; auto. split; auto.
      intros [H|H]; auto.
Qed.

Lemma removeLeadingSpaces_ok v : valid v ->
  exists v' k, removeLeadingSpaces v = Ret v' /\ valid v' /\
    text v = repeat SPACE k ++ text v' /\ (forall r, text v' <> SPACE :: r).
Proof.
  intros Hv. destruct (valid_V _ Hv) as (l & r & -> & ->).
  destruct (split_run SPACE l) as (k & l' & -> & [->|(a & m & -> & Ha)]).
  - rewrite app_nil_r, rls_none. exists null_sv, k. split; auto. split; [unfold valid; cbn; auto|].
    cbn. rewrite app_nil_r. split; [auto|discriminate].
  - rewrite rls_some by eauto. exists (V (a :: m) r), k. split; auto. split; [apply valid_V'|].
    rewrite text_V. split; auto. intros q [= E]. auto.
Qed.

Lemma token_ok v d : valid v ->
  exists t v', getTokenAndShrink v d = Ret (t, v') /\ valid t /\ valid v' /\
    ((text t = [] /\ v' = v /\ exists k, text v = repeat d k) \/
     (exists k rest, text v = repeat d k ++ text t ++ rest /\ text t <> [] /\ ~ In d (text t) /\
        ((rest = [] /\ text v' = []) \/ rest = d :: text v') /\ vsize v' < vsize v)).
Proof.
  intros Hv. destruct (valid_V _ Hv) as (l & r & -> & ->).
  destruct (split_run d l) as (k & l' & -> & [->|(a & m & -> & Ha)]).
  - rewrite app_nil_r, getToken_none. exists null_sv, (V (repeat d k) r).
    split; auto. split; [unfold valid; cbn; auto|]. split; [apply valid_V'|]. left. eauto.
  - destruct (split_free d (a :: m)) as (t & q & E & Ht & Hq).
    assert (t <> []).
    { intros ->. cbn in E. destruct Hq as [->|(q' & ->)]; [discriminate|]. injection E as -> _. auto. }
    rewrite E. rewrite getToken_some by auto.
    eexists _, _. split; [reflexivity|]. split; [apply valid_V'|].
    split. { destruct q; [unfold valid; cbn; auto|apply valid_V']. }
    right. exists k, q. rewrite text_V. split; auto. split; auto. split; auto.
    destruct Hq as [->|(q' & ->)].
    + split; [left; auto|]. cbn. rewrite !app_length. destruct t; [congruence|]. cbn. lia.
    + split; [right; now rewrite text_V|]. cbn. rewrite !app_length. cbn. lia.
Qed.

Lemma tokens_ok d : forall fuel v, valid v -> vsize v <= fuel ->
  exists ts, tokens fuel v d = Ret ts /\ runs d (text v) ts.
Proof.
  assert (Hz : forall t, valid t -> (vsize t = 0 <-> text t = [])).
  { intros t Ht. destruct (valid_V _ Ht) as (l & r & -> & ->). cbn.
    destruct l; cbn; split; intros; auto; discriminate. }
  induction fuel as [|fuel IH]; intros v Hv Hf; cbn [tokens].
  - destruct (token_ok v d Hv) as (t & v' & E & Ht & Hv' & H). rewrite E. cbn [bind].
    destruct H as [(H1 & _ & k & Hk)|(k & rest & _ & _ & _ & _ & Hlt)]; [|lia].
    apply Hz in H1; auto. rewrite H1. cbn. rewrite Hk. exists []. split; auto. constructor.
  - destruct (token_ok v d Hv) as (t & v' & E & Ht & Hv' & H). rewrite E. cbn [bind].
    destruct H as [(H1 & _ & k & Hk)|(k & rest & Htx & H0 & Hni & Hr & Hlt)].
    + apply Hz in H1; auto. rewrite H1. cbn. rewrite Hk. exists []. split; auto. constructor.
    + destruct (Nat.eqb_spec (vsize t) 0) as [E0|E0]; [apply Hz in E0; auto; contradiction|].
      destruct (IH v' Hv') as (ts & Ets & Hts); [lia|]. rewrite Ets. cbn [bind].
      eexists. split; [reflexivity|]. rewrite Htx. fold (text t). constructor; auto.
      * destruct Hr as [[-> _]| ->]; eauto.
      * destruct Hr as [[-> Hv0]| ->].
        -- rewrite Hv0 in Hts. exact Hts.
        -- inversion Hts as [k' Hk'|k' t' l' ts' A1 A2 A3 A4 A5]; subst.
           ++ apply (runs_none d (S k')).
           ++ apply (runs_some d (S k') t' l' ts'); auto.
Qed.

Lemma runs_fun d l ts : runs d l ts -> forall ts', runs d l ts' -> ts = ts'.
Proof.
  assert (NR : forall k (t r : list char) k', t <> [] -> ~ In d t -> repeat d k ++ t ++ r <> repeat d k').
  { intros k t r k' H0 Ht E. destruct t as [|a t]; [congruence|].
    assert (Hin : In a (repeat d k')) by (rewrite <- E; apply in_app_iff; right; now left).
    apply repeat_spec in Hin. subst a. apply Ht. now left. }
  assert (UN : forall k (t r : list char) k' (t' r' : list char), t <> [] -> ~ In d t -> t' <> [] -> ~ In d t' ->
    (r = [] \/ exists m, r = d :: m) -> (r' = [] \/ exists m, r' = d :: m) ->
    repeat d k ++ t ++ r = repeat d k' ++ t' ++ r' -> t = t' /\ r = r').
  { assert (UT : forall (t r t' r' : list char), ~ In d t -> ~ In d t' ->
      (r = [] \/ exists m, r = d :: m) -> (r' = [] \/ exists m, r' = d :: m) ->
      t ++ r = t' ++ r' -> t = t' /\ r = r').
    { induction t as [|a t IHt]; intros r [|a' t'] r' H1 H2 H3 H4 E; cbn in *.
      - auto.
      - destruct H3 as [->|(m & ->)]; [discriminate|]. injection E as -> _. exfalso. auto.
      - destruct H4 as [->|(m & ->)]; [discriminate|]. injection E as -> _. exfalso. auto.
      - injection E as -> E. destruct (IHt r t' r') as [-> ->]; auto. }
    induction k as [|k IHk]; intros t r [|k'] t' r' A B A' B' C C' E; cbn in E.
    - auto.
    - destruct t as [|a t]; [congruence|]. cbn in E. injection E as -> _. exfalso. apply B. now left.
    - destruct t' as [|a t']; [congruence|]. cbn in E. injection E as E1 _. exfalso. apply B'. now left.
    - injection E as E. eauto. }
  induction 1 as [k|k t r ts H0 Ht Hr H IH]; intros ts' H'.
  - inversion H' as [k' E|k' t' r' ts'' A1 A2 A3 A4 A5]; auto. exfalso. eapply NR; eauto.
  - inversion H' as [k' E|k' t' r' ts'' A1 A2 A3 A4 A5].
    + exfalso. eapply NR; eauto.
    + destruct (UN k t r k' t' r') as [-> ->]; auto. f_equal. auto.
Qed.

(** ** Numbers *)
Lemma dec_digits l z : dec l z -> l <> [] /\ Forall (fun c => isdigit c = true) l /\
  forall acc r, (forall c r', r = c :: r' -> isdigit c = false) -> r <> [] ->
    exists m, digits (l ++ r) acc = Ret (acc * m + z)%Z /\ (0 <= z)%Z /\
      forall acc', digits (l ++ r) acc' = Ret (acc' * m + z)%Z.
Proof.
  assert (ID : forall d, (0 <= d <= 9)%Z -> isdigit (48 + d)%Z = true).
  { intros d Hd. unfold isdigit. apply andb_true_iff. rewrite !Z.leb_le. lia. }
  assert (G : forall l z, dec l z -> l <> [] /\ Forall (fun c => isdigit c = true) l /\ (0 <= z)%Z /\
     exists m, forall acc r, digits (l ++ r) acc = digits r (acc * m + z)%Z).
  { clear - ID. induction 1 as [d Hd|l z d H (H0 & H1 & H2 & m & H3) Hd].
    - split; [discriminate|]. split; [constructor; auto|]. split; [lia|]. exists 10%Z. intros acc r.
      cbn [app digits]. rewrite ID by auto. f_equal. lia.
    - split; [now destruct l|]. split; [apply Forall_app; auto|]. split; [lia|].
      exists (10 * m)%Z. intros acc r. rewrite <- app_assoc, H3. cbn [app digits].
      rewrite ID by auto. f_equal. lia. }
  intros H. destruct (G l z H) as (H0 & H1 & H2 & m & H3). split; auto. split; auto.
  intros acc r Hr Hn. exists m.
  assert (E : forall a, digits r a = Ret a).
  { intros a. destruct r as [|c r]; [congruence|]. cbn. now rewrite (Hr c r eq_refl). }
  rewrite H3, E. split; auto. split; auto. intros a. now rewrite H3, E.
Qed.

Lemma digit_chars c : isdigit c = true -> isspace c = false /\ c <> 45%Z /\ c <> 43%Z /\ c <> SPACE /\ c <> NEWLINE.
Proof.
  unfold isdigit, isspace, SPACE, NEWLINE. rewrite andb_true_iff, !Z.leb_le. intros [H1 H2].
  split; [|repeat split; lia].
  apply orb_false_iff. split; [apply Z.eqb_neq; lia|]. apply andb_false_iff. right. apply Z.leb_gt. lia.
Qed.

Lemma num_head l z : num l z -> exists c l', l = c :: l' /\ (isdigit c = true \/ c = 45%Z) /\
  Forall (fun c => isdigit c = true \/ c = 45%Z) l.
Proof.
  intros [l' z' H|l' z' H].
  - destruct (dec_digits _ _ H) as (H0 & H1 & _). destruct l' as [|c l']; [congruence|].
    exists c, l'. split; auto. inversion H1; subst. split; auto.
    eapply Forall_impl; [|exact H1]. cbn. auto.
  - destruct (dec_digits _ _ H) as (H0 & H1 & _).
    exists 45%Z, l'. split; auto. split; auto. constructor; auto.
    eapply Forall_impl; [|exact H1]. cbn. auto.
Qed.

Lemma to_int32_id z : int32 z -> to_int32 z = z.
Proof. intros H. unfold int32, to_int32 in *. rewrite Z.mod_small; lia. Qed.
Lemma clamp64_id z : int32 z -> clamp64 z = z.
Proof. unfold int32, clamp64, INT64_MAX. lia. Qed.

Lemma strto_num l z r : num l z -> int32 z -> (forall c r', r = c :: r' -> isdigit c = false) -> r <> [] ->
  strto_int32 (l ++ r) = Ret z.
Proof.
  intros Hn Hz Hr H0. unfold strto_int32, strtol.
  destruct Hn as [l z H|l z H]; destruct (dec_digits _ _ H) as (Hl & Hd & He);
    destruct (He 0%Z r Hr H0) as (m & E & Hz0 & _).
  - destruct l as [|c l]; [congruence|]. inversion Hd; subst.
    destruct (digit_chars c) as (S1 & S2 & S3 & _ & _); auto.
    cbn [app skip_space]. rewrite S1. apply Z.eqb_neq in S2, S3. rewrite S2, S3.
    cbn [app] in E. rewrite E. cbn [bind]. rewrite Z.add_0_l, clamp64_id, to_int32_id; auto.
  - cbn [app skip_space]. change (isspace 45%Z) with false. cbv iota.
    change (45 =? 45)%Z with true. cbv iota. rewrite E. cbn [bind].
    rewrite Z.mul_0_l, Z.add_0_l, clamp64_id, to_int32_id; auto.
Qed.

(** ** Lines *)
Section Lattice.
  Variable d : char.
  Hypothesis Hd : ok_delim d.

  Lemma line_add k l zs : line_text d l zs -> line_text d (repeat d k ++ l) zs.
  Proof.
    intros [k'|k' a l' z b r zs' H1 H2 H3 H4].
    - rewrite <- repeat_app. constructor.
    - rewrite app_assoc, <- repeat_app. constructor; auto.
  Qed.

  Lemma num_no_delim l z c : num l z -> In c l -> c <> d.
  Proof.
    intros H Hc ->. destruct (num_head _ _ H) as (_ & _ & _ & _ & F).
    rewrite Forall_forall in F. destruct Hd as (D1 & D2 & _). destruct (F d Hc); congruence.
  Qed.
  Lemma num_no_space l z c : num l z -> In c l -> c <> SPACE /\ c <> NEWLINE.
  Proof.
    intros H Hc. destruct (num_head _ _ H) as (_ & _ & _ & _ & F).
    rewrite Forall_forall in F. destruct (F c Hc) as [E| ->].
    - apply digit_chars in E. tauto.
    - split; discriminate.
  Qed.

  Lemma line_tl c l zs : c = d \/ c = SPACE -> line_text d (c :: l) zs -> line_text d l zs.
  Proof.
    intros Hc H. inversion H as [k E|k a l' z b r zs' H1 H2 H3 H4 E]; subst.
    - destruct k as [|k]; [discriminate|]. cbn in E. injection E as _ <-. constructor.
    - destruct k as [|k]; cbn in E.
      + destruct a as [|a]; cbn in E.
        * exfalso. destruct (num_head _ _ H1) as (x & l'' & -> & _). cbn in E. injection E as -> _.
          destruct Hc as [->| ->].
          -- eapply num_no_delim; eauto. now left.
          -- destruct (num_no_space _ _ SPACE H1); [now left|]. auto.
        * injection E as _ <-. apply (line_num d 0 a l' z b r zs'); auto.
      + injection E as _ <-. apply (line_num d k a l' z b r zs'); auto.
  Qed.

  Lemma line_strip k l zs : line_text d (repeat SPACE k ++ l) zs -> line_text d l zs.
  Proof.
    induction k; cbn; auto. intros H. apply IHk. (eapply line_tl; [|eassumption]; auto).
  Qed.

  (** The text of a view that is either proper or the null view after the last token. *)
  Definition is_view (v : sv) (l r : list char) : Prop := v = V l r \/ (l = [] /\ v = null_sv).

  Lemma line_nil zs : line_text d [] zs -> zs = [].
  Proof.
    intros H. inversion H as [k E|k a l z b r zs' H1 H2 H3 H4 E]; auto. exfalso.
    apply app_eq_nil in E. destruct E as [_ E]. apply app_eq_nil in E. destruct E as [_ E].
    destruct (num_head _ _ H1) as (x & l'' & -> & _). discriminate.
  Qed.

  Lemma row_ok : forall zs line l r fuel, line_text d l zs ->
    is_view line l r -> (exists c r', r = c :: r' /\ isdigit c = false) -> length l < fuel ->
    (let* tv := getTokenAndShrink line d in
     let '(t, line') := tv in
     let* t' := removeLeadingSpaces t in
     row_loop fuel line' t' d) = Ret zs.
  Proof.
    induction zs as [|z0 zs0 IH]; intros line l r fuel Hl Hv Hr Hf.
    - inversion Hl as [k E|]; subst.
      assert (Eg : exists line', getTokenAndShrink line d = Ret (null_sv, line')).
      { destruct Hv as [->|[E ->]].
        - rewrite getToken_none. eauto.
        - cbn. eauto. }
      destruct Eg as (line' & Eg). rewrite Eg. cbn [bind].
      change (removeLeadingSpaces null_sv) with (Ret null_sv). cbn [bind].
      destruct fuel; reflexivity.
    - inversion Hl as [|k a ln z b rest zs' H1 H2 H3 H4 E]; subst.
      destruct Hv as [->|[E ->]].
      2:{ exfalso. apply app_eq_nil in E. destruct E as [_ E]. apply app_eq_nil in E. destruct E as [_ E].
          destruct (num_head _ _ H1) as (x & l'' & -> & _). discriminate. }
      assert (Hnum : exists c l', ln = c :: l' /\ c <> SPACE).
      { destruct (num_head _ _ H1) as (x & l'' & -> & _). exists x, l''. split; auto.
        eapply num_no_space; eauto. now left. }
      assert (Hno : ~ In d ln) by (intros Hin; eapply num_no_delim; eauto).
      assert (Hln : ln <> []) by (destruct Hnum as (c & l' & -> & _); discriminate).
      (* the token, the text left over, and what the number is followed by *)
      assert (Step : exists q L, getTokenAndShrink
          (V (repeat d k ++ repeat SPACE a ++ ln ++ repeat SPACE b ++ rest) r) d
          = Ret (V (repeat SPACE (fst q) ++ ln ++ repeat SPACE (snd q)) (L ++ r),
                 match L with [] => null_sv | _ :: L' => V L' r end) /\
          line_text d (match L with [] => [] | _ :: L' => L' end) zs0 /\
          (L = [] \/ exists L', L = d :: L') /\
          length L <= length (repeat SPACE b ++ rest)).
      { destruct (Z.eq_dec d SPACE) as [Es|Es].
        - exists (0, 0), (repeat SPACE b ++ rest). cbn [fst snd repeat app]. rewrite app_nil_r.
          assert (HL : line_text d (repeat SPACE b ++ rest) zs0).
          { rewrite <- Es. now apply line_add. }
          assert (HL0 : repeat SPACE b ++ rest = [] \/ exists L', repeat SPACE b ++ rest = d :: L').
          { rewrite <- Es. destruct b as [|b]; cbn; eauto. }
          split; [|split; [|split; [auto|lia]]].
          + replace (repeat d k ++ repeat SPACE a ++ ln ++ repeat SPACE b ++ rest)
              with (repeat d (k + a) ++ ln ++ (repeat SPACE b ++ rest))
              by (rewrite <- Es, repeat_app, <- app_assoc; reflexivity).
            now apply getToken_some.
          + destruct HL0 as [E0|(L' & E0)]; rewrite E0 in *; auto.
            (eapply line_tl; [|eassumption]; auto).
        - exists (a, b), rest. cbn [fst snd].
          split; [|split; [|split; [auto|rewrite app_length; lia]]].
          + replace (repeat d k ++ repeat SPACE a ++ ln ++ repeat SPACE b ++ rest)
              with (repeat d k ++ (repeat SPACE a ++ ln ++ repeat SPACE b) ++ rest)
              by (rewrite <- !app_assoc; reflexivity).
            apply getToken_some; auto.
            * intros E. apply app_eq_nil in E. destruct E as [_ E]. apply app_eq_nil in E. tauto.
            * rewrite !in_app_iff. intros [Hi|[Hi|Hi]]; auto; apply repeat_spec in Hi; auto.
          + destruct H3 as [->|(r' & ->)]; auto. (eapply line_tl; [|eassumption]; auto). }
      destruct Step as ([qa qb] & L & Eg & HL & HL0 & HLl). cbn [fst snd] in Eg.
      rewrite Eg. cbn [bind].
      assert (El : removeLeadingSpaces (V (repeat SPACE qa ++ ln ++ repeat SPACE qb) (L ++ r))
                   = Ret (V (ln ++ repeat SPACE qb) (L ++ r))).
      { apply rls_some. destruct Hnum as (c & l' & -> & Hc). exists c, (l' ++ repeat SPACE qb). auto. }
      rewrite El. cbn [bind].
      assert (Hsz : vsize (V (ln ++ repeat SPACE qb) (L ++ r)) =? 0 = false).
      { apply Nat.eqb_neq. cbn. rewrite app_length. destruct ln; [congruence|]. cbn. lia. }
      destruct fuel as [|fuel]; [lia|].
      cbn [row_loop]. rewrite Hsz.
      assert (Est : strto_int32 (tail (V (ln ++ repeat SPACE qb) (L ++ r))) = Ret z0).
      { cbn [tail V]. rewrite <- app_assoc. apply strto_num; auto.
        - destruct Hr as (c & r' & -> & Hc). destruct Hd as (D1 & _).
          intros c0 r0 E0. destruct qb as [|qb]; cbn in E0.
          + destruct HL0 as [->|(L' & ->)]; cbn in E0; injection E0 as <- _; auto.
          + injection E0 as <- _. reflexivity.
        - destruct Hr as (c & r' & -> & Hc). intros E0.
          apply app_eq_nil in E0. destruct E0 as [_ E0]. apply app_eq_nil in E0. destruct E0. discriminate. }
      rewrite Est. cbn [bind].
      specialize (IH (match L with [] => null_sv | _ :: L' => V L' r end)
                     (match L with [] => [] | _ :: L' => L' end) r fuel HL).
      assert (Hlt : length (match L with [] => [] | _ :: L' => L' end) < fuel).
      { rewrite !app_length in Hf. rewrite app_length in HLl.
        assert (0 < length ln) by (destruct ln; [congruence|cbn; lia]).
        destruct L; cbn in *; lia. }
      assert (Hiv : is_view (match L with [] => null_sv | _ :: L' => V L' r end)
                     (match L with [] => [] | _ :: L' => L' end) r).
      { destruct L; [right|left]; auto. }
      specialize (IH Hiv Hr Hlt).
      set (o := getTokenAndShrink _ d) in *. destruct o as [[t line']| | |]; cbn [bind] in *; try discriminate.
      destruct (removeLeadingSpaces t) as [t'| | |]; cbn [bind] in *; try discriminate.
      rewrite IH. reflexivity.
  Qed.

  Lemma line_chars l zs : line_text d l zs -> ~ In NEWLINE l.
  Proof.
    induction 1 as [k|k a l z b r zs H1 H2 H3 H4 IH]; intros Hin.
    - apply repeat_spec in Hin. destruct Hd as (_ & _ & D). auto.
    - rewrite !in_app_iff in Hin. destruct Hin as [Hi|[Hi|[Hi|[Hi|Hi]]]]; auto.
      + apply repeat_spec in Hi. destruct Hd as (_ & _ & D). auto.
      + apply repeat_spec in Hi. discriminate.
      + destruct (num_no_space _ _ NEWLINE H1 Hi). auto.
      + apply repeat_spec in Hi. discriminate.
  Qed.

  Lemma line_nonblank l zs : line_text d l zs -> zs <> [] ->
    exists k l', l = repeat SPACE k ++ l' /\ (exists a m, l' = a :: m /\ a <> SPACE) /\ line_text d l' zs.
  Proof.
    intros H Hz. destruct (split_run SPACE l) as (k & l' & -> & Hl').
    apply line_strip in H. exists k, l'. split; auto. split; auto.
    destruct Hl' as [->|]; auto. apply line_nil in H. contradiction.
  Qed.

  Lemma lines_ok : forall zss v l r fuel, lines_text d l zss ->
    is_view v l r -> (exists c r', r = c :: r' /\ isdigit c = false) -> length l < fuel ->
    (let* lv := getTokenAndShrink v NEWLINE in
     let '(t, v') := lv in
     let* t' := removeLeadingSpaces t in
     lines_loop fuel v' t' d) = Ret zss.
  Proof.
    induction zss as [|zs0 zss0 IH]; intros v l r fuel Hl Hv Hr Hf.
    - inversion Hl as [k e E|]; subst.
      assert (Eg : exists t v', getTokenAndShrink v NEWLINE = Ret (t, v') /\
                     removeLeadingSpaces t = Ret null_sv).
      { destruct Hv as [->|[E ->]].
        - destruct e as [|e].
          + cbn [repeat]. rewrite app_nil_r, getToken_none. eauto.
          + pose proof (getToken_some NEWLINE k (repeat SPACE (S e)) [] r) as G.
            rewrite app_nil_r in G. rewrite G; auto; try discriminate.
            * do 2 eexists. split; [reflexivity|]. apply rls_none.
            * intros Hi. apply repeat_spec in Hi. discriminate.
        - cbn. eauto. }
      destruct Eg as (t & v' & -> & Er). cbn [bind]. rewrite Er. cbn [bind]. destruct fuel; reflexivity.
    - inversion Hl as [|k ln zs rest zss' H1 H2 H3 H4 E]; subst.
      destruct (line_nonblank _ _ H1 H2) as (j & l' & Ej & Hl' & Hline').
      assert (Hln : ln <> []).
      { intros ->. symmetry in Ej. apply app_eq_nil in Ej. destruct Ej as [_ ->].
        destruct Hl' as (a & m & Hx & _). discriminate. }
      destruct Hv as [->|[E ->]].
      2:{ exfalso. apply app_eq_nil in E. destruct E as [_ E]. apply app_eq_nil in E. tauto. }
      rewrite getToken_some; auto; [|eapply line_chars; eauto].
      cbn [bind]. rewrite Ej, rls_some by auto. cbn [bind].
      assert (Hsz : vsize (V l' (rest ++ r)) =? 0 = false).
      { apply Nat.eqb_neq. destruct Hl' as (a & m & -> & _). cbn. lia. }
      destruct fuel as [|fuel]; [lia|]. cbn [lines_loop]. rewrite Hsz.
      assert (Hrow : row (V l' (rest ++ r)) d = Ret zs0).
      { unfold row. eapply (row_ok zs0 _ l' (rest ++ r)); eauto.
        - left; auto.
        - destruct H3 as [->|(r' & ->)]; cbn; eauto. }
      rewrite Hrow. cbn [bind].
      assert (Hrest : lines_text d (match rest with [] => [] | _ :: L' => L' end) zss0).
      { destruct H3 as [->|(r' & ->)]; auto.
        inversion H4 as [k' e E|k' l2 zs2 r2 zss2 A1 A2 A3 A4 E]; subst.
        - destruct k' as [|k']; cbn in E.
          + destruct e; discriminate.
          + injection E as <-. constructor.
        - destruct k' as [|k']; cbn in E.
          + exfalso. destruct l2 as [|c l2]; cbn in E.
            * apply line_nil in A1. contradiction.
            * injection E as -> _. eapply (line_chars _ _ A1). now left.
          + injection E as <-. constructor; auto. }
      specialize (IH (match rest with [] => null_sv | _ :: L' => V L' r end)
                     (match rest with [] => [] | _ :: L' => L' end) r fuel Hrest).
      assert (Hlt : length (match rest with [] => [] | _ :: L' => L' end) < fuel).
      { rewrite !app_length in Hf.
        assert (0 < length ln) by (destruct ln; [congruence|cbn; lia]).
        destruct rest; cbn in *; lia. }
      assert (Hiv : is_view (match rest with [] => null_sv | _ :: L' => V L' r end)
                     (match rest with [] => [] | _ :: L' => L' end) r).
      { destruct rest; [right|left]; auto. }
      specialize (IH Hiv Hr Hlt).
      set (o := getTokenAndShrink _ NEWLINE) in *.
      destruct o as [[t v']| | |]; cbn [bind] in *; try discriminate.
      destruct (removeLeadingSpaces t) as [t'| | |]; cbn [bind] in *; try discriminate.
      rewrite IH. reflexivity.
  Qed.

  Lemma lines_strip k l zss : lines_text d (repeat SPACE k ++ l) zss -> lines_text d l zss.
  Proof.
    induction k as [|k IH]; cbn; auto. intros H. apply IH. clear IH.
    inversion H as [k' e E|k' ln zs rest zss' H1 H2 H3 H4 E]; subst.
    - destruct k' as [|k']; cbn in E; [|discriminate].
      destruct e as [|e]; cbn in E; [discriminate|]. injection E as <-. apply (lines_end d 0 e).
    - destruct k' as [|k']; cbn in E; [|discriminate].
      destruct ln as [|c ln]; cbn in E.
      + apply line_nil in H1. contradiction.
      + injection E as -> <-. apply (lines_line d 0 ln zs rest zss'); auto.
        (eapply line_tl; [|eassumption]; auto).
  Qed.

  Theorem lattice_ok a l zss : lines_text d l zss ->
    stringToLattice (repeat SPACE a ++ l) d = Ret zss.
  Proof.
    intros H. unfold stringToLattice. rewrite view_V.
    destruct (split_run SPACE l) as (k & l' & -> & Hl').
    pose proof (lines_strip _ _ _ H) as H'.
    rewrite app_assoc, <- repeat_app.
    assert (E : exists v, removeLeadingSpaces (V (repeat SPACE (a + k) ++ l') [0%Z]) = Ret v /\
                  is_view v l' [0%Z]).
    { destruct Hl' as [->|Hl'].
      - rewrite app_nil_r, rls_none. exists null_sv. split; auto. right. auto.
      - rewrite rls_some by auto. eexists. split; [reflexivity|]. left. auto. }
    destruct E as (v & -> & Hv). cbn [bind].
    eapply lines_ok; eauto.
    rewrite app_length. lia.
  Qed.
End Lattice.

(** Concrete texts that are silently cut or misread. *)
Lemma lattice_malformed :
  stringToLattice [49; 32; 50; 10; 32; 10; 51; 32; 52]%Z SPACE = Ret [[1; 2]]%Z /\
  stringToLattice [49; 44; 32; 44; 51]%Z 44%Z = Ret [[1]]%Z /\
  stringToLattice [49; 32; 120; 32; 51]%Z SPACE = Ret [[1; 0; 3]]%Z.
Proof. vm_compute. auto. Qed.

Lemma str_find_last_of_ok a c pos :
  exists r, str_find_last_of a c pos = Ret r /\
    greatest_upto (fun i => nth_error a i = Some c) pos r.
Proof.
  unfold str_find_last_of. rewrite view_V.
  destruct (find_last_of_ok (V a [0%Z]) c pos (valid_V' _ _)) as (r & E & H).
  rewrite text_V in H. eauto.
Qed.
