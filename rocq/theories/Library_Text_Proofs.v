(** Lines and numbers of a library. *)
From Coq Require Import String Ascii.
From Coq Require Import List Arith ZArith Bool Reals Lia Lra.
From Verif Require Import Base Loops Arith Matrix_Model Matrix_Spec StringView_Model StringView_Spec StringView_Proofs Elem_Model Soup_Model Soup_Spec TextIo_Model TextIo_Spec TextIo_Proofs
  Abaqus_Spec Vtk_Model Vtk_Spec Vtk_Proofs Stats_Spec XSec_Model XSec_Spec Library_Model Library_Spec.
Import ListNotations.
Local Open Scope list_scope.
Local Open Scope nat_scope.

(** ** Lines *)
(** the lines [ls] come next, which brings the reader to [z] *)
Fixpoint feeds (ls : list (list char)) (s z : reader) : Prop :=
  match ls with
  | [] => s = z
  | l :: ls' => exists r s', next_line s = (V l (0%Z :: r), s') /\ failbit (strm s') = false /\ line_ok l /\ feeds ls' s' z
  end.
Lemma feeds_app a : forall b s z, feeds (a ++ b) s z <-> exists y, feeds a s y /\ feeds b y z.
Proof.
  induction a as [|l a IH]; intros b s z; cbn.
  - split; [intros H; exists s; auto|intros (y & <- & H); exact H].
  - split.
    + intros (r & s' & E & F & O & H). apply IH in H. destruct H as (y & H1 & H2). exists y. split; auto. exists r, s'. auto.
    + intros (y & (r & s' & E & F & O & H1) & H2). exists r, s'. split; auto. split; auto. split; auto. apply IH. eauto.
Qed.
Lemma next_of l st st' b : getline st = (l, st') -> line_ok l -> exists r, next_line (mkRd b st) = (V l (0%Z :: r), mkRd (l ++ 0%Z :: r) st').
Proof. intros E (_ & _ & N). unfold next_line. cbn [strm buf]. rewrite E, (cstr_id l N). eexists. reflexivity. Qed.
Lemma upto_feeds ls : forall st r b, upto st ls r -> exists z, feeds ls (mkRd b st) z /\ upto (strm z) [] r.
Proof.
  induction ls as [|l ls IH]; intros st r b U; [exists (mkRd b st); split; [reflexivity|exact U]|].
  destruct (getline_upto _ _ _ _ U) as (st' & E & U'). pose proof (upto_line _ _ _ _ U) as O. destruct (next_of l st st' b E O) as (q & E').
  destruct (IH st' r (l ++ 0%Z :: q) U') as (z & F & Uz). exists z. split; auto. cbn. exists q, (mkRd (l ++ 0%Z :: q) st'). split; auto. split; [apply U'|auto].
Qed.
Lemma pending_feeds ls : forall st b, pending st ls -> exists z, feeds ls (mkRd b st) z.
Proof.
  induction ls as [|l ls IH]; intros st b U; [exists (mkRd b st); reflexivity|].
  destruct (getline_some _ _ _ U) as (st' & E & U'). pose proof (pending_line _ _ _ U) as O. destruct (next_of l st st' b E O) as (q & E').
  destruct (IH st' (l ++ 0%Z :: q) U') as (z & F). exists z. cbn. exists q, (mkRd (l ++ 0%Z :: q) st'). split; auto. split; [exact (proj1 U')|auto].
Qed.
(** every line that is read makes the file shorter *)
Lemma scan_len n : forall l a r k, scan n l = (a, r, k) -> length a + length r <= length l /\ (k = Delim -> length r < length l) /\ (k = Eof -> r = [] /\ length a = length l).
Proof.
  induction n as [|n IH]; intros [|c l] a r k H; cbn in H.
  - injection H as <- <- <-. cbn. repeat split; auto; discriminate.
  - destruct (c =? NEWLINE)%Z; injection H as <- <- <-; cbn; repeat split; auto; try discriminate; lia.
  - injection H as <- <- <-. cbn. repeat split; auto; discriminate.
  - destruct (c =? NEWLINE)%Z; [injection H as <- <- <-; cbn; repeat split; auto; try discriminate; lia|].
    destruct (scan n l) as ((a', r'), k') eqn:E. injection H as <- <- <-. destruct (IH _ _ _ _ E) as (H1 & H2 & H3). cbn. split; [lia|].
    split; [intros X; apply H2 in X; lia|]. intros X. destruct (H3 X). split; auto.
Qed.
Lemma next_less s v s' : next_line s = (v, s') -> failbit (strm s') = false -> length (rest (strm s')) < length (rest (strm s)).
Proof.
  unfold next_line, getline. destruct (good (strm s)); [|intros H; injection H as <- <-; discriminate].
  destruct (scan _ (rest (strm s))) as ((a, r), k) eqn:E. destruct (scan_len _ _ _ _ _ E) as (H1 & H2 & H3). destruct k; intros H; injection H as <- <-; cbn; intros F; try discriminate.
  - destruct (H3 eq_refl) as (-> & Hl). destruct a; [discriminate|]. cbn in *. lia.
  - auto.
Qed.
Lemma feeds_len ls : forall s z, feeds ls s z -> length ls + length (rest (strm z)) <= length (rest (strm s)).
Proof.
  induction ls as [|l ls IH]; intros s z H; cbn in *; [subst; lia|]. destruct H as (r & s' & E & F & _ & H). apply IH in H. pose proof (next_less _ _ _ E F). lia.
Qed.

(** ** Views *)
Lemma stops_0 r : stops (0%Z :: r). Proof. exists 0%Z, r. auto. Qed.

Lemma strip_words t ts l r : words (t :: ts) l -> exists l', removeLeadingSpaces (V l r) = Ret (V l' r) /\ words (t :: ts) l' /\ (tidy l -> tidy l').
Proof.
  intros W. assert (G : exists k l', l = blanks k ++ l' /\ (exists a m, l' = a :: m /\ a <> SPACE) /\ words (t :: ts) l').
  { inversion W as [|k t' (Ht & Hs)|k t' ts' q (Ht & Hs) Wq]; subst.
    - exists k, t. split; auto. split; [|exact (ws_last 0 t (conj Ht Hs))]. destruct t as [|a m]; [contradiction|]. exists a, m. split; auto. intros ->. apply Hs. now left.
    - exists k, (t ++ SPACE :: q). split; auto. split; [|exact (ws_cons 0 t ts q (conj Ht Hs) Wq)]. destruct t as [|a m]; [contradiction|]. exists a, (m ++ SPACE :: q). split; auto.
      intros ->. apply Hs. now left. }
  destruct G as (k & l' & -> & (a & m & -> & Ha) & W'). exists (a :: m). split; [apply rls_some; eauto|]. split; [exact W'|].
  intros T q E. apply (T (blanks k ++ q)). now rewrite E, app_assoc.
Qed.
Definition solid_word (kw : string) : Prop := exists a m, lit kw = a :: m /\ a <> SPACE.
Lemma strip_kw kw l r : solid_word kw -> indented kw l -> exists l', removeLeadingSpaces (V l r) = Ret (V l' r) /\ begins kw l' /\ exists k, l = blanks k ++ l'.
Proof.
  intros (a & m & E & Ha) (k & q & ->). exists (lit kw ++ q). split; [|split; [now exists q|now exists k]]. apply rls_some. rewrite E. exists a, (m ++ q). auto.
Qed.
Lemma begins_null kw : solid_word kw -> begins_with null_sv kw = Ret false.
Proof. intros (a & m & E & _). unfold begins_with, starts_with, view. rewrite E. reflexivity. Qed.
Lemma strip_any l r : exists v, removeLeadingSpaces (V l r) = Ret v /\
  ((exists k, l = blanks k) /\ v = null_sv \/ exists k l', l = blanks k ++ l' /\ v = V l' r).
Proof.
  destruct (split_run SPACE l) as (k & l' & -> & [->|(a & m & -> & Ha)]).
  - rewrite app_nil_r, rls_none. exists null_sv. split; auto. left. split; eauto.
  - rewrite rls_some by eauto. eexists. split; [reflexivity|]. right. eauto.
Qed.
Lemma strip_not kw l r v : solid_word kw -> ~ indented kw l -> removeLeadingSpaces (V l r) = Ret v -> begins_with v kw = Ret false.
Proof.
  intros Hk N E. destruct (strip_any l r) as (v' & E' & [(_ & ->)|(k & l' & -> & ->)]); rewrite E' in E; injection E as <-; [now apply begins_null|].
  apply begins_no. intros (q & ->). apply N. now exists k, q.
Qed.
Lemma feed1 l ls s z : feeds (l :: ls) s z -> exists r s', next_line s = (V l (0%Z :: r), s') /\ failbit (strm s') = false /\ line_ok l /\ feeds ls s' z.
Proof. auto. Qed.

(** ** Numbers *)
Section Checks.
Variable checks : bool.
Notation assert_true := (assert_true checks).
Lemma real_token_ok r t ts v x : stops r -> wview r (t :: ts) v -> real_text t x -> exists v', real_token v = Ret (x, v') /\ wview r ts v'.
Proof.
  intros Hr W Hx. destruct (wview_next r t ts v Hr W) as (q & v' & E & Hq & Hv & _). exists v'. unfold real_token. rewrite E. cbn [bind fst snd]. cbn [V tail].
  rewrite (strtod_real _ _ _ Hx Hq). auto.
Qed.
Lemma int_token_ok r t ts v x : stops r -> wview r (t :: ts) v -> int_text t x -> exists v', int_token v = Ret (x, v') /\ wview r ts v'.
Proof.
  intros Hr W Hx. destruct (wview_next r t ts v Hr W) as (q & v' & E & Hq & Hv & _). exists v'. unfold int_token. rewrite E. cbn [bind fst snd]. cbn [V tail].
  rewrite (strto_int _ _ _ Hx Hq). auto.
Qed.
Lemma index_token_ok r t ts v x : stops r -> wview r (t :: ts) v -> int_text t x -> exists v', index_token checks x v = Ret v' /\ wview r ts v'.
Proof.
  intros Hr W Hx. destruct (wview_next r t ts v Hr W) as (q & v' & E & Hq & Hv & _). exists v'. unfold index_token. rewrite E. cbn [bind fst snd]. cbn [V tail].
  destruct checks; cbn [bind]; auto. rewrite (strto_int _ _ _ Hx Hq). cbn [bind]. unfold ASSERT. rewrite Z.eqb_refl. auto.
Qed.
Lemma dims_ok r tds dvs v : stops r -> wview r tds v -> Forall2 int_text tds dvs -> length dvs = 10 -> Forall (Z.le 0) dvs -> dims checks v = Ret dvs.
Proof.
  intros Hr W F L P. unfold dims.
  assert (G : forall tds dvs, Forall2 int_text tds dvs -> forall acc v i, wview r tds v -> Forall (Z.le 0) dvs ->
    exists v', for_ (length dvs) i (fun _ st => let* t := int_token (snd st) in let* _ := ASSERT checks (0 <=? fst t)%Z in Ret (fst st ++ [fst t], snd t)) (acc, v) = Ret (acc ++ dvs, v')).
  { clear tds dvs v W F L P. induction 1 as [|t z ts zs Ht _ IH]; intros acc v i W P; [exists v; now rewrite app_nil_r|]. inversion P as [|? ? P1 P2]; subst.
    destruct (int_token_ok r t ts v z Hr W Ht) as (v1 & E & W1). cbn [length for_ bind snd fst]. rewrite E. cbn [bind snd fst]. rewrite assert_true by now apply Z.leb_le. cbn [bind].
    destruct (IH (acc ++ [z]) v1 (S i) W1 P2) as (v' & E'). exists v'. rewrite E', <- app_assoc. reflexivity. }
  destruct (G tds dvs F [] v 0 W P) as (v' & E). rewrite L in E. rewrite E. reflexivity.
Qed.

(** ** Numbers on several lines *)
(** a line of words with at most one blank at the end *)
Inductive neat : list (list char) -> list char -> Prop :=
| neat_last k t : word t -> neat [t] (blanks k ++ t)
| neat_blank k t : word t -> neat [t] (blanks k ++ t ++ [SPACE])
| neat_cons k t t' ts l : word t -> neat (t' :: ts) l -> neat (t :: t' :: ts) (blanks k ++ t ++ SPACE :: l).
Lemma tidy_tail a l : tidy (a ++ l) -> tidy l.
Proof. intros T q E. apply (T (a ++ q)). now rewrite E, app_assoc. Qed.
Lemma words_neat ts l : words ts l -> ts <> [] -> tidy l -> neat ts l.
Proof.
  induction 1 as [k|k t Ht|k t ts l Ht W IH]; intros N T; [contradiction|now constructor|].
  destruct ts as [|t' ts].
  - inversion W as [k'| |]; subst. destruct k' as [|k']; [now apply neat_blank|]. exfalso. destruct (exists_last (l := blanks (S k')) ltac:(discriminate)) as (q & c & E).
    assert (c = SPACE).
    { assert (X : In c (blanks (S k'))) by (rewrite E; apply in_or_app; right; now left). apply repeat_spec in X. exact X. }
    subst c. assert (E2 : SPACE :: blanks (S k') = blanks k' ++ [SPACE; SPACE]).
    { clear. unfold blanks. induction k' as [|k' IH]; [reflexivity|]. cbn [repeat app] in *. now rewrite <- IH. }
    apply (T (blanks k ++ t ++ blanks k')). rewrite E2. now rewrite <- !app_assoc.
  - apply neat_cons; auto. apply IH; [discriminate|]. apply (tidy_tail (blanks k ++ t ++ [SPACE])). rewrite <- !app_assoc. exact T.
Qed.
(** what is left of it *)
Definition nview (r : list char) (ts : list (list char)) (v : sv) : Prop :=
  (exists l, neat ts l /\ v = V l r) \/ (ts = [] /\ (v = null_sv \/ v = V [] r)).
Definition cur (more : bool) (r : list char) (ts : list (list char)) (v : sv) : Prop := if more then nview r ts v else wview r ts v.
Lemma nview_next r t ts v : stops r -> nview r (t :: ts) v -> exists q v', getTokenAndShrink v SPACE = Ret (V t q, v') /\ stops q /\ nview r ts v' /\ word t.
Proof.
  intros Hr [(l & N & ->)|(X & _)]; [|discriminate]. inversion N as [k t' Ht|k t' Ht|k t0 t' ts' l' Ht N']; subst.
  - rewrite token_last by auto. exists r, null_sv. split; auto. split; auto. split; auto. right. auto.
  - rewrite token_cons by auto. exists (SPACE :: [] ++ r), (V [] r). split; auto. split; [apply stops_space|]. split; auto. right. auto.
  - rewrite token_cons by auto. exists (SPACE :: l' ++ r), (V l' r). split; auto. split; [apply stops_space|]. split; auto. left. eauto.
Qed.
Lemma cur_next more r t ts v : stops r -> cur more r (t :: ts) v -> exists q v', getTokenAndShrink v SPACE = Ret (V t q, v') /\ stops q /\ cur more r ts v' /\ word t.
Proof. destruct more; [apply nview_next|apply wview_next]. Qed.
Lemma cur_of more r ts l : words ts l -> ts <> [] -> (more = true -> tidy l) -> cur more r ts (V l r).
Proof. intros W N T. destruct more; [left; exists l; split; [now apply words_neat; auto|reflexivity]|now apply wv_text]. Qed.

Section Values.
Variable ok : list R -> R -> bool.
Notation step := (group_value checks ok).
(** a number of the current line *)
Lemma value_here more r t ts v x acc s : stops r -> cur more r (t :: ts) v -> real_text t x -> ok acc x = true ->
  exists v', step (acc, v, s) = Ret (acc ++ [x], v', s) /\ cur more r ts v'.
Proof.
  intros Hr W Hx Hok. destruct (cur_next more r t ts v Hr W) as (q & v' & E & Hq & Hv & (Nt & _)). exists v'. split; auto. unfold group_value. rewrite E. cbn [bind].
  replace (vsize (V t q) =? 0) with false by (destruct t; [contradiction|reflexivity]). cbn [bind]. cbn [V tail]. rewrite (strtod_real _ _ _ Hx Hq). cbn [bind].
  rewrite assert_true by auto. reflexivity.
Qed.
(** a new line *)
Lemma value_next l r r0 v s s' acc w : nview r0 [] v -> next_line s = (V l r, s') -> removeLeadingSpaces (V l r) = Ret w -> (exists t ts, wview r (t :: ts) w) -> stops r ->
  step (acc, v, s) = step (acc, w, s').
Proof.
  intros N E Ew (t & ts & W) Hr. unfold group_value.
  assert (X : getTokenAndShrink v SPACE = Ret (null_sv, v) /\ vsize v = 0).
  { destruct N as [(l0 & N & _)|(_ & [->| ->])]; [inversion N|split; reflexivity|split; [exact (token_none 0 r0)|reflexivity]]. }
  destruct X as (-> & Hv). cbn [bind]. change (vsize null_sv =? 0) with true. cbv iota. rewrite Hv. cbn [Nat.eqb negb]. rewrite E, Ew. cbn [bind].
  destruct (wview_next r t ts w Hr W) as (q & v' & -> & _ & _ & (Nt & _)). cbn [bind fst snd].
  replace (vsize (V t q) =? 0) with false by (destruct t; [contradiction|reflexivity]). reflexivity.
Qed.
Lemma for_const {T} (f : T -> outcome T) : forall n i j s, for_ n i (fun _ => f) s = for_ n j (fun _ => f) s.
Proof. induction n as [|n IH]; intros i j s; cbn; auto. destruct (f s); cbn; auto. Qed.
(** all numbers of a line *)
Lemma values_line more r : stops r -> forall ts xs, Forall2 real_text ts xs -> forall n v acc s, cur more r ts v ->
  (forall pre x post, xs = pre ++ x :: post -> ok (acc ++ pre) x = true) ->
  exists v', for_ (length xs + n) 0 (fun _ => step) (acc, v, s) = for_ n 0 (fun _ => step) (acc ++ xs, v', s) /\ cur more r [] v'.
Proof.
  intros Hr. induction 1 as [|t x ts xs Hx _ IH]; intros n v acc s W Hok; [exists v; now rewrite app_nil_r|].
  destruct (value_here more r t ts v x acc s Hr W Hx) as (v1 & E & W1); [rewrite <- (app_nil_r acc); now apply (Hok [] x xs)|].
  cbn [length plus for_]. rewrite E. cbn [bind]. rewrite (for_const _ _ 1 0). destruct (IH n v1 (acc ++ [x]) s W1) as (v' & E' & W').
  - intros pre y post ->. rewrite <- app_assoc. now apply (Hok (x :: pre) y post).
  - exists v'. rewrite E', <- app_assoc. auto.
Qed.
Lemma Forall2_app_inv {A B} (P : A -> B -> Prop) l1 l2 : forall l, Forall2 P (l1 ++ l2) l -> exists a b, l = a ++ b /\ Forall2 P l1 a /\ Forall2 P l2 b.
Proof. intros l H. apply Forall2_app_inv_l in H. destruct H as (a & b & H1 & H2 & ->). eauto. Qed.
Lemma values_lines ls tss : Forall2 (fun l ts => words ts l /\ ts <> []) ls tss -> forall r ts0 xs v acc s z, stops r -> cur (match ls with [] => false | _ => true end) r ts0 v ->
  Forall tidy (removelast ls) -> Forall2 real_text (ts0 ++ concat tss) xs -> feeds ls s z ->
  (forall pre x post, xs = pre ++ x :: post -> ok (acc ++ pre) x = true) ->
  exists v', for_ (length xs) 0 (fun _ => step) (acc, v, s) = Ret (acc ++ xs, v', z).
Proof.
  induction 1 as [|l ts ls tss (W & N) _ IH]; intros r ts0 xs v acc s z Hr C T F Fe Hok.
  - cbn in F. rewrite app_nil_r in F. destruct (values_line false r Hr ts0 xs F 0 v acc s C Hok) as (v' & E & _). rewrite Nat.add_0_r in E. cbn in Fe. subst z. exists v'. exact E.
  - apply Forall2_app_inv in F. destruct F as (xa & xb & -> & Fa & Fb). rewrite app_length.
    destruct (values_line true r Hr ts0 xa Fa (length xb) v acc s C) as (v1 & E & C1); [intros pre x post ->; apply (Hok pre x (post ++ xb)); now rewrite <- app_assoc|].
    rewrite E. destruct (feed1 _ _ _ _ Fe) as (r' & s' & En & _ & _ & Fe'). destruct ts as [|t ts]; [contradiction|].
    destruct (strip_words t ts l (0%Z :: r') W) as (l' & Es & W' & Tl).
    assert (C' : cur (match ls with [] => false | _ => true end) (0%Z :: r') (t :: ts) (V l' (0%Z :: r'))).
    { apply cur_of; [exact W'|discriminate|]. intros X. apply Tl. destruct ls; [discriminate|]. cbn [removelast] in T. now inversion T. }
    assert (T' : Forall tidy (removelast ls)) by (destruct ls; [constructor|cbn [removelast] in T; now inversion T]).
    cbn [concat] in Fb. destruct (IH (0%Z :: r') (t :: ts) xb (V l' (0%Z :: r')) (acc ++ xa) s' z (stops_0 r') C' T' Fb Fe') as (v' & E').
    { intros pre x post ->. rewrite <- app_assoc. apply (Hok (xa ++ pre) x post). now rewrite <- app_assoc. }
    exists v'. rewrite <- app_assoc in E'. rewrite <- E'. destruct xb as [|x xb]; [cbn in Fb; inversion Fb|]. cbn [length for_].
    rewrite (value_next l (0%Z :: r') r v1 s s' (acc ++ xa) (V l' (0%Z :: r')) C1 En Es); [reflexivity| |apply stops_0]. exists t, ts. now apply wv_text.
Qed.
End Values.
Lemma group_values_ok ok l ls xs r v s z : values_text (l :: ls) xs -> xs <> [] -> feeds ls s z -> stops r ->
  (v = V l r \/ removeLeadingSpaces (V l r) = Ret v) ->
  (forall pre x post, xs = pre ++ x :: post -> ok pre x = true) -> group_values checks ok (length xs) v s = Ret (xs, z).
Proof.
  intros (tss & F & T & Fx) N Fe Hr Hv Hok. inversion F as [|? ts ? tss' (W & Nt) F']; subst. destruct ts as [|t ts]; [contradiction|].
  assert (C : cur (match ls with [] => false | _ => true end) r (t :: ts) v).
  { destruct Hv as [->|Hv].
    - apply cur_of; [exact W|discriminate|]. intros X. destruct ls; [discriminate|]. cbn [removelast] in T. now inversion T.
    - destruct (strip_words t ts l r W) as (l' & Es & W' & Tl). rewrite Hv in Es. injection Es as ->.
      apply cur_of; [exact W'|discriminate|]. intros X. apply Tl. destruct ls; [discriminate|]. cbn [removelast] in T. now inversion T. }
  unfold group_values. destruct (values_lines ok ls tss' F' r (t :: ts) xs v [] s z Hr C) as (v' & E); auto.
  - destruct ls; [constructor|]. cbn [removelast] in T. now inversion T.
  - rewrite E. reflexivity.
Qed.
End Checks.
