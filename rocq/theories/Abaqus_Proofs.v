(** Proofs about the Abaqus reader. *)
From Coq Require Import String Ascii.
From Coq Require Import List Arith ZArith Bool Reals Lia Lra Sorting.Sorted Sorting.Permutation.
From Verif Require Import Base Loops StringView_Model StringView_Spec StringView_Proofs Elem_Model Soup_Model Soup_Spec Soup_Proofs Soup_Sort_Proofs TextIo_Model TextIo_Spec TextIo_Proofs Abaqus_Model Abaqus_Spec.
Import ListNotations.
Local Open Scope list_scope.
Local Open Scope nat_scope.

(** ** Keywords *)
Lemma starts_view l kw : exists b, starts_with (view l) (view (lit kw)) = Ret b /\ (b = true <-> begins kw l).
Proof.
  destruct (starts_with_ok (view l) (view (lit kw))) as (b & E & H); try apply valid_V'.
  exists b. split; auto. rewrite H, !view_V, !text_V. reflexivity.
Qed.
Lemma starts_null kw : lit kw <> [] -> starts_with null_sv (view (lit kw)) = Ret false.
Proof. unfold starts_with, view. cbn [vsize null_sv]. destruct (lit kw); [contradiction|]. reflexivity. Qed.

(** ** The loop over the lines of a section *)
Inductive runs {A} (f : list char -> A -> outcome A) : list (list char) -> A -> A -> Prop :=
| runs_nil x : runs f [] x x
| runs_cons l ls x y z : first_char l <> STAR -> f l x = Ret y -> runs f ls y z -> runs f (l :: ls) x z.
Lemma lines_loop_ok {A} (f : list char -> A -> outcome A) body x y : runs f body x y ->
  forall fuel st ls, pending st (body ++ ls) -> starred ls -> length body <= fuel ->
  exists st', lines_loop fuel f x st = Ret (y, hd [] ls, st') /\
    match ls with [] => failbit st' = true | _ :: ls' => pending st' ls' end.
Proof.
  induction 1 as [x|l body x y z Hl E _ IH]; intros fuel st ls P S0 L.
  - cbn [app] in P. destruct ls as [|l ls].
    + destruct (getline_none st P) as (st' & E & F). exists st'. split; auto. destruct fuel; cbn; rewrite E, F; reflexivity.
    + destruct (getline_some st l ls P) as (st' & E & P'). exists st'. split; auto. destruct S0 as (r & ->).
      destruct P' as (F & _). destruct fuel; cbn; rewrite E, F; reflexivity.
  - cbn [app] in P. destruct (getline_some st l (body ++ ls) P) as (st1 & E1 & P1). cbn [length] in L. destruct fuel as [|fuel]; [lia|].
    destruct (IH fuel st1 ls P1 S0) as (st' & E2 & H); [lia|]. exists st'. split; auto. cbn [lines_loop]. rewrite E1.
    rewrite (proj1 P1). destruct (Z.eqb_spec (first_char l) STAR); [contradiction|]. rewrite E. exact E2.
Qed.

Section Proofs.
Variable checks : bool.
Notation soupR := (soup (R * R * R) R).
Notation next_token := (next_token checks).

Lemma assert_true b : b = true -> ASSERT checks b = Ret tt.
Proof. intros ->. unfold ASSERT. now rewrite andb_false_r. Qed.
Lemma first_star t r : t <> [] -> (forall r, t <> STAR :: r) -> first_char (t ++ r) <> STAR.
Proof. destruct t as [|c t]; [contradiction|]. cbn. intros _ H ->. now apply (H t). Qed.
Lemma next_token_ok t l r : t <> [] -> ~ In COMMA t -> (l = [] \/ exists l', l = COMMA :: l') ->
  next_token (V (t ++ l) r) = Ret (V t (l ++ r), match l with [] => null_sv | _ :: l' => V l' r end).
Proof.
  intros H1 H2 H3. unfold Abaqus_Model.next_token. pose proof (getToken_some COMMA 0 t l r H1 H2 H3) as E. cbn [repeat app] in E. rewrite E. cbn [bind fst].
  rewrite assert_true; auto. destruct t; [contradiction|reflexivity].
Qed.
Lemma stops_nul : stops [0%Z]. Proof. exists 0%Z, []. auto. Qed.
Lemma stops_comma l : stops (COMMA :: l). Proof. exists COMMA, l. auto. Qed.
Lemma node_line_ok l p s : node_text l p -> ~ In 0%Z l -> node_line checks l s = Ret (fst (addVertex s p)) /\ first_char l <> STAR.
Proof.
  intros (i & x & y & z & -> & (I1 & I2 & I3) & Hx & Hy & Hz) N. split; [|now apply first_star].
  destruct (real_tok_chars _ _ Hx) as (X1 & X2 & _). destruct (real_tok_chars _ _ Hy) as (Y1 & Y2 & _). destruct (real_tok_chars _ _ Hz) as (Z1 & Z2 & _).
  unfold node_line, view_of. rewrite cstr_id by auto. rewrite view_V.
  rewrite (next_token_ok i ([COMMA] ++ x ++ [COMMA] ++ y ++ [COMMA] ++ z)) by (auto; right; eexists; reflexivity). cbn [bind fst snd app].
  rewrite (next_token_ok x (COMMA :: y ++ COMMA :: z)) by (auto; right; eexists; reflexivity). cbn [bind fst snd V tail].
  rewrite (strtod_tok x _ _ Hx) by apply stops_comma. cbn [bind].
  rewrite (next_token_ok y (COMMA :: z)) by (auto; right; eexists; reflexivity). cbn [bind fst snd V tail].
  rewrite (strtod_tok y _ _ Hy) by apply stops_comma. cbn [bind].
  rewrite (strtod_tok z _ _ Hz) by apply stops_nul. cbn [bind]. now destruct p as ((?, ?), ?).
Qed.

(** ** Content *)
Definition holds (s : soupR) (a : asoup point R) : Prop := stores s a /\ NoDup (names a).
Lemma append_assoc a b c : append (append a b) c = append a (append b c).
Proof. unfold append. cbn. now rewrite !app_assoc. Qed.
Lemma append_empty a : append a a_empty = a.
Proof. unfold append. destruct a. cbn. now rewrite !app_nil_r. Qed.
Lemma nodes_run body vs : Forall2 node_text body vs -> Forall (fun l => ~ In 0%Z l) body -> forall s a, stores s a ->
  exists s', runs (node_line checks) body s s' /\ stores s' (append a (mkA vs [] [])).
Proof.
  induction 1 as [|l p body vs Hl _ IH]; intros F s a Hs.
  - exists s. split; [constructor|]. change (mkA [] [] []) with (@a_empty point R). now rewrite append_empty.
  - inversion F as [|? ? F1 F2]; subst. destruct (node_line_ok l p s Hl F1) as (E & S0). destruct (addVertex_ok s a p Hs) as (Hs' & _).
    destruct (IH F2 _ _ Hs') as (s' & R' & Hs''). exists s'. split; [econstructor; eauto|].
    revert Hs''. unfold append. cbn. now rewrite <- !app_assoc, !app_nil_r.
Qed.
Lemma conn_loop_ok ts vs : Forall2 number ts vs -> forall r, stops r ->
  conn_loop checks (length vs) (match ts with [] => null_sv | t :: ts' => V (t ++ concat (map (fun t => COMMA :: t) ts')) r end) = Ret vs.
Proof.
  induction 1 as [|t v ts vs (Hv & Ht) _ IH]; intros r Hr; auto. cbn [length conn_loop].
  destruct (int_tok_chars _ _ Ht) as (T1 & T2 & _).
  rewrite (next_token_ok t (concat (map (fun t => COMMA :: t) ts))); auto; [|destruct ts; [now left|right; eexists; reflexivity]].
  cbn [bind fst snd V tail]. rewrite (strto_tok t (v + 1)); auto; [|destruct ts; [exact Hr|apply stops_comma]]. cbn [bind].
  rewrite assert_true by (apply Z.ltb_lt; lia). cbn [bind]. destruct Ht as (_ & _ & _ & _ & _ & Hz).
  rewrite i32_ok by (unfold int32 in Hz; unfold in_i32, intMin, intMax; lia). cbn [bind].
  specialize (IH r Hr). destruct ts as [|t' ts']; cbn [map concat] in *.
  - rewrite IH. cbn [bind]. f_equal. f_equal. lia.
  - cbn [app] in *. rewrite IH. cbn [bind]. f_equal. f_equal. lia.
Qed.
Lemma elem_line_ok t l e s : elem_text t l e -> (0 < verticesPerElem t)%Z -> ~ In 0%Z l ->
  elem_line checks t l s = (let* r := addElement s t (snd e) in Ret (fst r)) /\ first_char l <> STAR.
Proof.
  intros (<- & Hl & i & ts & -> & (I1 & I2 & I3) & Hts) V0 N. split; [|now apply first_star].
  unfold elem_line, view_of. rewrite cstr_id by auto. rewrite view_V.
  assert (L : length ts = length (snd e)) by (clear - Hts; induction Hts; cbn; congruence). destruct ts as [|t ts]; [cbn in L; lia|].
  rewrite (next_token_ok i (concat (map (fun t => COMMA :: t) (t :: ts)))) by (auto; right; eexists; reflexivity). cbn [bind fst snd map concat app].
  replace (Z.to_nat (verticesPerElem (fst e))) with (length (snd e)) by lia.
  rewrite (conn_loop_ok (t :: ts) (snd e) Hts [0%Z] stops_nul). reflexivity.
Qed.
Lemma elems_run t body es : Forall2 (elem_text t) body es -> (0 < verticesPerElem t)%Z -> Forall (fun l => ~ In 0%Z l) body -> forall s a, stores s a ->
  exists s', runs (elem_line checks t) body s s' /\ stores s' (append a (mkA [] es [])).
Proof.
  intros H Ht. induction H as [|l e body es Hl _ IH]; intros F s a Hs.
  - exists s. split; [constructor|]. change (mkA [] [] []) with (@a_empty point R). now rewrite append_empty.
  - inversion F as [|? ? F1 F2]; subst. destruct (elem_line_ok t l e s Hl Ht F1) as (E & S0). destruct (addElement_ok s a t (snd e) Hs) as (s1 & E1 & Hs').
    rewrite E1 in E. cbn [bind fst] in E. destruct (IH F2 _ _ Hs') as (s' & R' & Hs''). exists s'. split; [econstructor; eauto|].
    revert Hs''. unfold append. cbn. rewrite <- !app_assoc, !app_nil_r. destruct e as (t', c). destruct Hl as (El & _). cbn in El. subst t'. auto.
Qed.
Lemma ids_loop_ok ts vs : Forall2 number ts vs -> forall t v k r ids fuel, number t v -> stops (blanks k ++ r) -> length ts <= fuel ->
  ids_loop checks fuel (V (t ++ COMMA :: concat (map (fun t => t ++ [COMMA]) ts) ++ blanks k) r) (length t) ids = Ret (ids ++ v :: vs).
Proof.
  induction 1 as [|t' v' ts vs Ht' H IH]; intros t v k r ids fuel (Hv & Ht) Hr L.
  - assert (E : substr (V (t ++ COMMA :: blanks k) r) 0 (length t) = Ret (V t (COMMA :: blanks k ++ r))).
    { pose proof (substr_V [] t (COMMA :: blanks k) r) as E. exact E. }
    cbn [map concat app]. cbn [length] in L.
    assert (X : forall o, (let* token := substr (V (t ++ COMMA :: blanks k) r) 0 (length t) in let* id := strto_int32 (tail token) in
      let* _ := ASSERT checks (0 <? id)%Z in let* i := i32 (id - 1) in o i) = o v :> outcome (list Z)).
    { intros o. rewrite E. cbn [bind V tail]. rewrite (strto_tok t (v + 1)) by (auto; apply stops_comma). cbn [bind].
      rewrite assert_true by (apply Z.ltb_lt; lia). cbn [bind]. destruct Ht as (_ & _ & _ & _ & _ & Hz).
      rewrite i32_ok by (unfold int32 in Hz; unfold in_i32, intMin, intMax; lia). cbn [bind]. f_equal. lia. }
    destruct fuel; cbn [ids_loop]; (etransitivity; [exact (X _)|]); cbv beta;
      (destruct (Nat.leb_spec (vsize (V (t ++ COMMA :: blanks k) r)) (length t + 2)); [reflexivity|]);
      replace (length t + 1) with (length (t ++ [COMMA])) by (rewrite app_length; cbn; lia);
      replace (t ++ COMMA :: blanks k) with ((t ++ [COMMA]) ++ blanks k) by (rewrite <- app_assoc; reflexivity);
      rewrite remove_prefix_V; cbn [bind];
      pose proof (find_first_V COMMA [] (blanks k) [] r) as Fo; cbn [app length] in Fo; rewrite app_nil_r in Fo; rewrite Fo; auto;
      intros HI; apply repeat_spec in HI; discriminate.
  - cbn [length] in L. destruct fuel as [|fuel]; [lia|]. cbn [ids_loop map concat].
    set (q := concat (map (fun t => t ++ [COMMA]) ts) ++ blanks k).
    replace (((t' ++ [COMMA]) ++ concat (map (fun t0 => t0 ++ [COMMA]) ts)) ++ blanks k) with (t' ++ COMMA :: q) by (unfold q; rewrite <- !app_assoc; reflexivity).
    pose proof (substr_V [] t (COMMA :: t' ++ COMMA :: q) r) as E. cbn [app length] in E. unfold char in *. rewrite E. cbn [bind]. change (tail (V t (COMMA :: (t' ++ COMMA :: q) ++ r))) with (t ++ COMMA :: (t' ++ COMMA :: q) ++ r).
    rewrite (strto_tok t (v + 1)) by (auto; apply stops_comma). cbn [bind].
    rewrite assert_true by (apply Z.ltb_lt; lia). cbn [bind]. pose proof Ht as (_ & _ & _ & _ & _ & Hz).
    rewrite i32_ok by (unfold int32 in Hz; unfold in_i32, intMin, intMax; lia). cbn [bind].
    destruct Ht' as (Hv' & Ht'). destruct (int_tok_chars _ _ Ht') as (T1 & T2 & _).
    match goal with |- context [?a <=? ?b] => destruct (Nat.leb_spec a b) as [C|C] end.
    { exfalso. cbn in C. rewrite app_length in C. cbn in C. rewrite app_length in C. cbn in C. destruct t'; [contradiction|]. cbn in C. lia. }
    pose proof (remove_prefix_V (t ++ [COMMA]) (t' ++ COMMA :: q) r) as RP. rewrite <- app_assoc, app_length in RP. cbn [length app] in RP.
    unfold char in *. rewrite RP. cbn [bind].
    pose proof (find_first_V COMMA [] t' (COMMA :: q) r T2) as Fo. cbn [app length Nat.add] in Fo. unfold char in *. rewrite Fo by (right; eauto). cbn [bind].
    unfold q. rewrite (IH t' v' k r); auto; [|split; auto|lia]. rewrite <- app_assoc. cbn. f_equal. f_equal. f_equal. lia.
Qed.
Lemma ids_line_ok l vs ids : ids_text l vs -> ~ In 0%Z l -> ids_line checks l ids = Ret (ids ++ vs) /\ first_char l <> STAR.
Proof.
  intros (ts & k & -> & H) N. unfold ids_line, view_of. rewrite cstr_id by auto. rewrite view_V. destruct H as [|t v ts vs Ht H].
  - cbn [map concat app]. pose proof (find_first_V COMMA [] (blanks k) [] [0%Z]) as Fo. cbn [app length] in Fo. rewrite app_nil_r in Fo.
    rewrite Fo; auto; [|intros HI; apply repeat_spec in HI; discriminate]. cbn [bind]. split; [now rewrite app_nil_r|]. destruct k; discriminate.
  - destruct (int_tok_chars _ _ (proj2 Ht)) as (T1 & T2 & T3 & _). cbn [map concat]. rewrite <- !app_assoc. cbn [app]. split; [|now apply first_star].
    pose proof (find_first_V COMMA [] t (COMMA :: concat (map (fun t => t ++ [COMMA]) ts) ++ blanks k) [0%Z] T2) as Fo. cbn [app length Nat.add] in Fo.
    rewrite Fo by (right; eauto). cbn [bind]. rewrite assert_true by (apply Nat.ltb_lt; destruct t; [contradiction|cbn; lia]). cbn [bind].
    apply ids_loop_ok; auto; [apply stops_blanks, stops_nul|]. rewrite app_length. cbn [length]. rewrite app_length.
    assert (length ts <= length (concat (map (fun t => t ++ [COMMA]) ts))); [|lia].
    clear. induction ts as [|a b IH]; cbn; [lia|]. rewrite !app_length. cbn. lia.
Qed.
Lemma ids_run body idss : Forall2 ids_text body idss -> Forall (fun l => ~ In 0%Z l) body -> forall ids, runs (ids_line checks) body ids (ids ++ concat idss).
Proof.
  induction 1 as [|l vs body idss Hl _ IH]; intros F ids.
  - cbn. rewrite app_nil_r. constructor.
  - inversion F as [|? ? F1 F2]; subst. destruct (ids_line_ok l vs ids Hl F1) as (E & S0). econstructor; eauto. cbn [concat]. rewrite app_assoc. auto.
Qed.
Lemma is_sorted_ok l : StronglySorted Z.le l -> Powers_Model.is_sorted l = true.
Proof.
  destruct 1 as [|x l H F]; auto. cbn. revert x F. induction H as [|y l H IH F']; intros x F; auto. cbn. inversion F; subst.
  destruct (Z.ltb_spec y x); [lia|]. auto.
Qed.

(** ** The state between sections *)
(** [n] lines have not been read; with what has been read the content is [T] *)
Inductive state (T : asoup point R) : nat -> soupR * sv * list char * stream -> Prop :=
| at_line s a c st l ls : holds s a -> T = append a c -> pending st ls -> line_ok l -> abaqus checks (l :: ls) c -> state T (S (length ls)) (s, view l, l, st)
| at_end s v l st : holds s T -> v = null_sv \/ v = view [] -> fst (peek_eof st) = true -> state T 0 (s, v, l, st).
Lemma abaqus_nil c : abaqus checks [] c -> c = a_empty.
Proof. intros H. now inversion H. Qed.
Lemma abaqus_single l c : abaqus checks [l] c -> c = a_empty.
Proof.
  intros H. remember [l] as q eqn:Eq. destruct H as [|l' ls a _ H'|h body ls vs a _ B _ _ H'|h more t d body ls es a _ _ B _ H'|h n body ls idss a _ _ B X _ _ H']; auto; injection Eq as _ E.
  - subst ls. now apply abaqus_nil.
  - apply app_eq_nil in E. destruct E as (-> & ->). inversion B; subst. apply abaqus_nil in H'. now subst.
  - apply app_eq_nil in E. destruct E as (-> & ->). inversion B; subst. apply abaqus_nil in H'. now subst.
  - apply app_eq_nil in E. destruct E as (-> & ->). inversion B; subst. now contradiction X.
Qed.
Lemma peek_twice st : fst (peek_eof st) = true -> fst (peek_eof (snd (peek_eof st))) = true.
Proof.
  unfold peek_eof. destruct (good st) eqn:G.
  - destruct (rest st); cbn; auto; discriminate.
  - intros _. cbn. unfold good. cbn. now rewrite andb_false_r.
Qed.
(** after a section: what [getline] has left *)
Lemma after_section s a c T st ls : holds s a -> T = append a c -> abaqus checks ls c -> Forall line_ok ls ->
  match ls with [] => failbit st = true | _ :: ls' => pending st ls' end ->
  exists n, n <= length ls /\ state T n (let '(eof, st) := peek_eof st in (s, if eof then null_sv else view_of (hd [] ls), hd [] ls, st)) /\
    (2 <= length ls -> peek_eof st = (false, st)).
Proof.
  intros Hs HT A O M. destruct ls as [|l [|l' ls]].
  - exists 0. split; [cbn; lia|]. split; [|cbn; lia]. pose proof (peek_fail st M) as E. pose proof (peek_twice st E) as E'. destruct (peek_eof st) as (b, st'). cbn in E, E'. subst b.
    apply at_end; auto. inversion A; subst. now rewrite append_empty.
  - exists 0. split; [cbn; lia|]. split; [|cbn; lia]. pose proof (peek_none st M) as E. pose proof (peek_twice st E) as E'. destruct (peek_eof st) as (b, st'). cbn in E, E'. subst b.
    apply at_end; auto. apply abaqus_single in A. subst. now rewrite append_empty.
  - exists (length (l :: l' :: ls)). split; [cbn; lia|]. pose proof (peek_some st l' ls M) as E. rewrite E. split; auto. cbn [hd].
    inversion O; subst. unfold view_of. rewrite cstr_id by (apply H1). change (length (l :: l' :: ls)) with (S (length (l' :: ls))). econstructor; eauto.
Qed.
Lemma pending_lines st ls : pending st ls -> Forall line_ok ls.
Proof.
  intros (_ & H). destruct ls as [|l ls]; auto. destruct H as (_ & H). inversion H as [x F E|x m F M N E]; auto. apply Forall_app. auto.
Qed.
Lemma nul_free body : Forall line_ok body -> Forall (fun l => ~ In 0%Z l) body.
Proof. apply Forall_impl. intros l (_ & _ & H). exact H. Qed.
Lemma fuel_enough st (body ls : list (list char)) : pending st (body ++ ls) -> length body <= fuel_of st.
Proof. intros H. apply pending_len in H. rewrite app_length in H. unfold fuel_of. lia. Qed.
Lemma holds_nodup s a c T : holds s a -> T = append a c -> stores s (append a c) -> a_elsets c = [] -> holds s T.
Proof. intros (_ & N) -> H E. split; auto. unfold names, append. cbn. rewrite E, app_nil_r. exact N. Qed.

(** what happens to a section: it is read, or the program ends because of a name that has been used *)
Definition step_ok {X} (T : asoup point R) (P : X -> Prop) (o : outcome X) : Prop :=
  (exists x, o = Ret x /\ P x) \/ (o = Fail /\ ~ NoDup (names T)).

Lemma no_mix kw kw' l : begins kw l -> begins kw' l -> firstn 4 (lit kw) = firstn 4 (lit kw') \/ length (lit kw) < 4 \/ length (lit kw') < 4.
Proof.
  intros (r & ->) (r' & E). destruct (le_lt_dec 4 (length (lit kw))) as [L|L]; auto. destruct (le_lt_dec 4 (length (lit kw'))) as [L'|L']; auto.
  left. apply (f_equal (firstn 4)) in E. rewrite !firstn_app in E. rewrite !(proj2 (Nat.sub_0_le _ _)) in E by auto. cbn [firstn] in E. now rewrite !app_nil_r in E.
Qed.
Ltac mix H H' := exfalso; destruct (no_mix _ _ _ H H') as [X|[X|X]]; cbn in X; [discriminate X|lia|lia].
Lemma parse_nodes_ok T m s v l st : state T m (s, v, l, st) -> starts_with v (view (lit "*NODE")) = Ret true ->
  step_ok T (fun x => exists m', m' < m /\ state T m' x) (abaqusParseNodes checks s st l).
Proof.
  intros J K. inversion J as [s0 a c st0 l0 ls0 Hs HT P O A|s0 v0 l0 st0 _ Hv _]; subst.
  2:{ exfalso. destruct Hv as [-> | ->]; discriminate K. }
  destruct (starts_view l "*NODE") as (b & E & Hb). assert (b = true) by congruence. apply Hb in H. clear E Hb K b.
  inversion A as [|? ? ? N _|h body ls vs a' B Hvs S0 C A' E1 E2|h more t d body ls es a' Eh _ _ _ _ E1 E2|h n body ls idss a' Eh _ _ _ _ _ _ E1 E2]; subst.
  - exfalso. apply N. now left.
  - pose proof (pending_lines _ _ P) as O'. apply Forall_app in O'. destruct O' as (O1 & O2).
    destruct (nodes_run body vs Hvs (nul_free _ O1) s a (proj1 Hs)) as (s' & R' & Hs').
    destruct (lines_loop_ok _ _ _ _ R' (fuel_of st) st ls P S0 (fuel_enough _ _ _ P)) as (st' & E & Hst).
    left. unfold abaqusParseNodes. rewrite E. cbn [bind].
    assert (Hh : holds s' (append a (mkA vs [] []))) by (split; [exact Hs'|]; unfold names, append; cbn; rewrite app_nil_r; apply Hs).
    assert (HT : append a (mkA (vs ++ a_verts a') (a_elems a') (a_elsets a')) = append (append a (mkA vs [] [])) a').
    { unfold append. cbn. now rewrite !app_nil_r, !app_assoc. }
    destruct (after_section s' _ a' _ st' ls Hh HT A' O2 Hst) as (n & Hn & Hj & Hp).
    cbn [length]. destruct checks eqn:Ck.
    + rewrite (Hp (C eq_refl)) in *. unfold ASSERT. cbn [negb andb bind]. eexists. split; [reflexivity|]. exists n. split; [rewrite app_length; lia|]. exact Hj.
    + unfold ASSERT. cbn [negb andb bind]. eexists. split; [reflexivity|]. rewrite HT.
      destruct ls as [|l' ls].
      * exists 0. split; [lia|]. cbn. apply at_end; [|now right|now apply peek_fail]. inversion A'; subst. now rewrite append_empty.
      * exists (S (length ls)). split; [rewrite app_length; cbn; lia|]. cbn [hd]. inversion O2; subst. unfold view_of. rewrite cstr_id by (apply H2).
        rewrite <- Ck in A'. eapply at_line; eauto.
  - mix H (ex_intro (fun r => lit "*ELEMENT, type=CPS" ++ d :: more = lit "*ELEMENT, type=CPS" ++ r) _ eq_refl).
  - mix H (ex_intro (fun r => lit "*ELSET,ELSET=" ++ n = lit "*ELSET,ELSET=" ++ r) _ eq_refl).
Qed.
Lemma elem_type_ok t d more : cps t d -> ~ In 0%Z more -> elem_type (lit "*ELEMENT, type=CPS" ++ d :: more) = Ret t /\ (0 < verticesPerElem t)%Z.
Proof.
  intros Ct N. unfold elem_type. rewrite cstr_id.
  - destruct t; cbn in Ct; try contradiction; subst d; split; reflexivity.
  - rewrite in_app_iff. intros [H|[H|H]]; auto.
    + cbn in H. repeat (destruct H as [H|H]; [discriminate H|]). exact H.
    + destruct t; cbn in Ct; try contradiction; subst d; discriminate.
Qed.
Lemma parse_elems_ok T m s v l st : state T m (s, v, l, st) -> starts_with v (view (lit "*ELEMENT")) = Ret true ->
  step_ok T (fun x => exists m', m' < m /\ state T m' x) (abaqusParseElements checks s st l).
Proof.
  intros J K. inversion J as [s0 a c st0 l0 ls0 Hs HT P O A|s0 v0 l0 st0 _ Hv _]; subst.
  2:{ exfalso. destruct Hv as [-> | ->]; discriminate K. }
  destruct (starts_view l "*ELEMENT") as (b & E & Hb). assert (b = true) by congruence. apply Hb in H. clear E Hb K b.
  inversion A as [|? ? ? N _|h body ls vs a' B Hvs S0 C A' E1 E2|h more t d body ls es a' Eh Hd Hes S0 A' E1 E2|h n body ls idss a' Eh _ _ _ _ _ _ E1 E2]; subst.
  - exfalso. apply N. right. now left.
  - mix B H.
  - pose proof (pending_lines _ _ P) as O'. apply Forall_app in O'. destruct O' as (O1 & O2).
    destruct (elem_type_ok t d more Hd) as (Et & Vt). { intros X. apply O. apply in_app_iff. right. now right. }
    destruct (elems_run t body es Hes Vt (nul_free _ O1) s a (proj1 Hs)) as (s' & R' & Hs').
    destruct (lines_loop_ok _ _ _ _ R' (fuel_of st) st ls P S0 (fuel_enough _ _ _ P)) as (st' & E & Hst).
    assert (Hh : holds s' (append a (mkA [] es []))) by (split; [exact Hs'|]; unfold names, append; cbn; rewrite app_nil_r; apply Hs).
    assert (HT : append a (mkA (a_verts a') (es ++ a_elems a') (a_elsets a')) = append (append a (mkA [] es [])) a').
    { unfold append. cbn. now rewrite !app_nil_r, !app_assoc. }
    destruct (after_section s' _ a' _ st' ls Hh HT A' O2 Hst) as (n & Hn & Hj & _).
    left. unfold abaqusParseElements. replace (view_of (lit "*ELEMENT, type=CPS" ++ d :: more)) with (view (lit "*ELEMENT, type=CPS" ++ d :: more)) by (unfold view_of; rewrite cstr_id; [reflexivity|apply O]).
    destruct (starts_view (lit "*ELEMENT, type=CPS" ++ d :: more) "*ELEMENT, type=CPS") as (b & Eb & Hb). rewrite Eb. cbn [bind].
    rewrite assert_true by (apply Hb; eexists; reflexivity). cbn [bind].
    rewrite assert_true by (apply Nat.ltb_lt; unfold view; cbn [vsize]; rewrite app_length; cbn; lia). cbn [bind].
    unfold char in *. rewrite Et. cbn [bind]. rewrite E. cbn [bind]. destruct (peek_eof st') as (eof, st''). eexists. split; [reflexivity|].
    exists n. split; [rewrite app_length; lia|exact Hj].
  - mix H (ex_intro (fun r => lit "*ELSET,ELSET=" ++ n = lit "*ELSET,ELSET=" ++ r) _ eq_refl).
Qed.

Lemma nodup_app_l {A} (l m : list A) : NoDup (l ++ m) -> NoDup l.
Proof. induction l as [|x l IH]; intros H; [constructor|]. inversion H; subst. constructor; auto. intros X. apply H2. apply in_app_iff. auto. Qed.
Lemma parse_elsets_ok T m s v l st : state T m (s, v, l, st) -> starts_with v (view (lit "*ELSET")) = Ret true ->
  step_ok T (fun x => exists m', m' < m /\ state T m' x) (abaqusParseElsets checks s st l).
Proof.
  intros J K. inversion J as [s0 a c st0 l0 ls0 Hs HT P O A|s0 v0 l0 st0 _ Hv _]; subst.
  2:{ exfalso. destruct Hv as [-> | ->]; discriminate K. }
  destruct (starts_view l "*ELSET") as (b & E & Hb). assert (b = true) by congruence. apply Hb in H. clear E Hb K b.
  inversion A as [|? ? ? N _|h body ls vs a' B Hvs S0 C A' E1 E2|h more t d body ls es a' Eh Hd Hes S0 A' E1 E2|h n body ls idss a' Eh Hn Hids Hne So S0 A' E1 E2]; subst.
  - exfalso. apply N. right. now right.
  - mix B H.
  - mix H (ex_intro (fun r => lit "*ELEMENT, type=CPS" ++ d :: more = lit "*ELEMENT, type=CPS" ++ r) _ eq_refl).
  - pose proof (pending_lines _ _ P) as O'. apply Forall_app in O'. destruct O' as (O1 & O2).
    pose proof (ids_run body idss Hids (nul_free _ O1) []) as R'. cbn [app] in R'.
    destruct (lines_loop_ok _ _ _ _ R' (fuel_of st) st ls P S0 (fuel_enough _ _ _ P)) as (st' & E & Hst).
    unfold abaqusParseElsets. replace (view_of (lit "*ELSET,ELSET=" ++ n)) with (view (lit "*ELSET,ELSET=" ++ n)) by (unfold view_of; rewrite cstr_id; [reflexivity|apply O]).
    destruct (starts_view (lit "*ELSET,ELSET=" ++ n) "*ELSET,ELSET=") as (b & Eb & Hb). rewrite Eb. cbn [bind].
    rewrite assert_true by (apply Hb; eexists; reflexivity). cbn [bind].
    assert (Lv : vsize (view (lit "*ELSET,ELSET=" ++ n)) = 13 + length n) by (unfold view; cbn [vsize]; rewrite app_length; reflexivity).
    rewrite Lv. rewrite assert_true by (apply Nat.ltb_lt; destruct n; [contradiction|cbn; lia]). cbn [bind].
    destruct (Nat.ltb_spec (13 + length n) 13); [lia|]. replace (13 + length n - 13) with (length n) by lia.
    pose proof (substr_V (lit "*ELSET,ELSET=") n [] [0%Z]) as Sv. rewrite app_nil_r in Sv. change (length (lit "*ELSET,ELSET=")) with 13 in Sv. rewrite view_V, Sv. cbn [bind].
    change (firstn (vsize (V n ([] ++ [0%Z]))) (tail (V n ([] ++ [0%Z])))) with (text (V n ([] ++ [0%Z]))). rewrite text_V.
    rewrite E. cbn [bind].
    assert (Hc : ASSERT checks (Powers_Model.is_sorted (concat idss)) = Ret tt).
    { unfold ASSERT. destruct checks; [|reflexivity]. now rewrite is_sorted_ok by auto. }
    rewrite Hc. cbn [bind].
    destruct (in_dec (list_eq_dec Z.eq_dec) n (names a)) as [D|D].
    + right. rewrite (addElset_reject s a n _ _ (proj1 Hs)); [|intros (X & _); contradiction]. split; [reflexivity|].
      unfold names, append. cbn. rewrite map_app. cbn. intros X. apply NoDup_remove_2 in X. apply X. apply in_app_iff. now left.
    + assert (Ac : acceptable a (mkElset n (concat idss) [])) by (split; [exact D|split; [exact Hne|now left]]).
      destruct (addElset_accept s a n (concat idss) [] (proj1 Hs) Ac) as (s' & Es & Hs'). rewrite Es. left.
      assert (Hh : holds s' (append a (mkA [] [] [mkElset n (concat idss) []]))).
      { split; [revert Hs'; unfold append; cbn; now rewrite !app_nil_r|]. unfold names, append. cbn. rewrite map_app. cbn.
        apply (Permutation_NoDup (Permutation_cons_append (map es_name (a_elsets a)) n)). constructor; [exact D|apply Hs]. }
      assert (HT : append a (mkA (a_verts a') (a_elems a') (mkElset n (concat idss) [] :: a_elsets a')) = append (append a (mkA [] [] [mkElset n (concat idss) []])) a').
      { unfold append. cbn. now rewrite !app_nil_r, <- !app_assoc. }
      destruct (after_section s' _ a' _ st' ls Hh HT A' O2 Hst) as (k & Hk & Hj & _).
      destruct (peek_eof st') as (eof, st''). eexists. split; [reflexivity|]. exists k. split; [rewrite app_length; lia|exact Hj].
Qed.

(** ** The loops *)
Definition view_in (x : soupR * sv * list char * stream) : sv := snd (fst (fst x)).
Lemma state_starts T m x kw : state T m x -> lit kw <> [] -> exists b, starts_with (view_in x) (view (lit kw)) = Ret b.
Proof.
  intros J N. destruct J as [s a c st l ls|s v l st _ [-> | ->] _]; unfold view_in; cbn [fst snd].
  - destruct (starts_view l kw) as (b & E & _). eauto.
  - rewrite starts_null by auto. eauto.
  - destruct (starts_view [] kw) as (b & E & _). eauto.
Qed.
Lemma sections_ok T kw parse : lit kw <> [] ->
  (forall m s v l st, state T m (s, v, l, st) -> starts_with v (view (lit kw)) = Ret true ->
     step_ok T (fun x => exists m', m' < m /\ state T m' x) (parse s st l)) ->
  forall m fuel x b, state T m x -> m <= fuel ->
  step_ok T (fun y => exists m', state T m' (fst y) /\ starts_with (view_in (fst y)) (view (lit kw)) = Ret false /\
      ((y = (x, b) /\ m' = m) \/ (snd y = false /\ m' < m))) (sections fuel (lit kw) parse x b).
Proof.
  intros Hk Hp m. induction m as [m IH] using lt_wf_ind. intros fuel x b J L.
  destruct (state_starts T m x kw J Hk) as (k & E). destruct x as (((s, v), l), st). unfold view_in in E. cbn [fst snd] in E.
  destruct k.
  - assert (0 < m). { inversion J as [s' a c st' l' ls|s' v' l' st' _ Hv _]; subst; [lia|]. destruct Hv as [-> | ->].
      - rewrite starts_null in E by auto. discriminate.
      - destruct (starts_view [] kw) as (b' & E' & Hb). rewrite E in E'. injection E' as <-. destruct Hb as (Hb & _). destruct (Hb eq_refl) as (r & Er). destruct (lit kw); [contradiction|discriminate]. }
    destruct fuel as [|fuel]; [lia|]. cbn [sections]. rewrite E. cbn [bind].
    destruct (Hp m s v l st J E) as [(x & Ex & m' & Lm & Jm)|(Ex & Hn)]; rewrite Ex; cbn [bind].
    + destruct (IH m' Lm fuel x false Jm) as [(y & Ey & m'' & J'' & Sy & D)|(Ey & Hn)]; [lia| |].
      * left. exists y. split; auto. exists m''. split; [exact J''|]. split; [exact Sy|]. right. destruct D as [(-> & ->)|(D1 & D2)]; split; auto; lia.
      * right. auto.
    + right. auto.
  - left. exists ((s, v, l, st), b). split.
    + destruct fuel; cbn [sections]; rewrite E; reflexivity.
    + exists m. split; [exact J|]. split; [exact E|]. left. auto.
Qed.
Lemma no_keyword l : starts_with (view l) (view (lit "*NODE")) = Ret false -> starts_with (view l) (view (lit "*ELEMENT")) = Ret false ->
  starts_with (view l) (view (lit "*ELSET")) = Ret false -> ~ keyword l.
Proof.
  intros E1 E2 E3 H.
  destruct (starts_view l "*NODE") as (b1 & F1 & H1). destruct (starts_view l "*ELEMENT") as (b2 & F2 & H2). destruct (starts_view l "*ELSET") as (b3 & F3 & H3).
  rewrite E1 in F1. rewrite E2 in F2. rewrite E3 in F3. injection F1 as <-. injection F2 as <-. injection F3 as <-.
  destruct H as [H|[H|H]]; [apply H1 in H|apply H2 in H|apply H3 in H]; discriminate.
Qed.
(** a state in which the next line is to be read: the line in the buffer belongs to no section *)
Definition idle (x : soupR * sv * list char * stream) : Prop :=
  starts_with (view_in x) (view (lit "*NODE")) = Ret false /\ starts_with (view_in x) (view (lit "*ELEMENT")) = Ret false /\
  starts_with (view_in x) (view (lit "*ELSET")) = Ret false.
Lemma other_line l ls c : abaqus checks (l :: ls) c -> ~ keyword l -> abaqus checks ls c.
Proof.
  intros H K. inversion H as [|? ? ? N A|h body q vs a' B _ _ _ _|h more t d body q es a' Eh _ _ _ _|h n body q idss a' Eh _ _ _ _ _ _]; subst; auto; exfalso; apply K.
  - now left.
  - right; left. exists (lit ", type=CPS" ++ d :: more). rewrite app_assoc. reflexivity.
  - right; right. exists (lit ",ELSET=" ++ n). rewrite app_assoc. reflexivity.
Qed.
Lemma state_fuel T m s v l st : state T m (s, v, l, st) -> m <= fuel_of st.
Proof.
  intros J. inversion J as [s0 a c st0 l0 ls0 Hs HT P O A|]; subst; unfold fuel_of; [|lia]. apply pending_len in P. lia.
Qed.
Lemma main_loop_ok T k : forall m x b fuel, state T m x -> (b = true -> idle x) -> 2 * m + (if b then 0 else 1) <= k -> k <= fuel ->
  step_ok T (fun r => holds (fst r) T) (main_loop checks fuel x b).
Proof.
  induction k as [k IH] using lt_wf_ind. intros m x b fuel J Hi Lk Lf. destruct x as (((s, v), l), st).
  assert (Stop : holds s T -> fst (peek_eof st) = true -> step_ok T (fun r => holds (fst r) T) (main_loop checks fuel (s, v, l, st) b)).
  { intros Hs Pk. left. destruct fuel; cbn [main_loop]; destruct (peek_eof st) as (e, st'); cbn in Pk; subst e; eexists; (split; [reflexivity|exact Hs]). }
  pose proof J as J0. inversion J as [s0 a c st0 l0 ls0 Hs HT P O A|s0 v0 l0 st0 Hs Hv Pk]; subst; [|auto].
  destruct ls0 as [|l1 ls].
  { apply Stop; [|now apply peek_none]. apply abaqus_single in A. subst c. now rewrite append_empty. }
  cbn [length] in *. destruct fuel as [|fuel]; [destruct b; lia|]. cbn [main_loop]. rewrite (peek_some st l1 ls P).
  (* the line at hand *)
  assert (N : exists v2 l2 st2 m2, (if b then let '(line, st) := getline st in (view_of line, line, st) else (view l, l, st)) = (v2, l2, st2) /\
            state (append a c) m2 (s, v2, l2, st2) /\ 2 * m2 <= k /\ (b = true -> 2 * m2 + 2 <= k) /\ (b = false -> 2 * m2 + 1 <= k)).
  { destruct b.
    - destruct (getline_some st l1 ls P) as (st2 & E2 & P2). rewrite E2. exists (view l1), l1, st2, (S (length ls)).
      rewrite (view_of_line st l1 ls P). split; auto. split; [|lia].
      destruct (Hi eq_refl) as (I1 & I2 & I3). pose proof (no_keyword _ I1 I2 I3) as K. pose proof (pending_line _ _ _ P).
      apply other_line in A; auto. eapply at_line; eauto.
    - exists (view l), l, st, (S (S (length ls))). split; auto. split; [exact J0|]. lia. }
  destruct N as (v2 & l2 & st2 & m2 & -> & J2 & L2 & Lt & Lb). pose proof (state_fuel _ _ _ _ _ _ J2) as F2.
  destruct (sections_ok (append a c) "*NODE" (abaqusParseNodes checks)) with (m := m2) (fuel := fuel_of st2) (x := (s, v2, l2, st2)) (b := true) as [(y & Ey & m3 & J3 & S3 & D3)|(Ey & Hn)]; auto;
    [discriminate|intros ? ? ? ? ? Hj1 Hj2; exact (parse_nodes_ok _ _ _ _ _ _ Hj1 Hj2)| |right; rewrite Ey; auto].
  rewrite Ey. cbn [bind]. destruct y as (x3, b3). cbn [fst snd] in *.
  assert (m3 <= m2) by (destruct D3 as [(_ & ->)|(_ & ?)]; lia).
  destruct (sections_ok (append a c) "*ELEMENT" (abaqusParseElements checks)) with (m := m3) (fuel := fuel_of st2) (x := x3) (b := b3) as [(y & Ez & m4 & J4 & S4 & D4)|(Ez & Hn)]; auto;
    [discriminate|intros ? ? ? ? ? Hj1 Hj2; exact (parse_elems_ok _ _ _ _ _ _ Hj1 Hj2)|lia| |right; rewrite Ez; auto].
  rewrite Ez. cbn [bind]. destruct y as (x4, b4). cbn [fst snd] in *.
  assert (m4 <= m3) by (destruct D4 as [(_ & ->)|(_ & ?)]; lia).
  destruct (sections_ok (append a c) "*ELSET" (abaqusParseElsets checks)) with (m := m4) (fuel := fuel_of st2) (x := x4) (b := b4) as [(y & Ew & m5 & J5 & S5 & D5)|(Ew & Hn)]; auto;
    [discriminate|intros ? ? ? ? ? Hj1 Hj2; exact (parse_elsets_ok _ _ _ _ _ _ Hj1 Hj2)|lia| |right; rewrite Ew; auto].
  rewrite Ew. cbn [bind]. destruct y as (x5, b5). cbn [fst snd] in *.
  assert (D : (b5 = true /\ x5 = (s, v2, l2, st2) /\ x4 = x5 /\ x3 = x5 /\ m5 = m2) \/ (b5 = false /\ m5 < m2)).
  { destruct D5 as [(X5 & ->)|(-> & ?)]; [injection X5 as -> ->|right; split; auto; lia].
    destruct D4 as [(X4 & ->)|(-> & ?)]; [injection X4 as -> ->|right; split; auto; lia].
    destruct D3 as [(X3 & ->)|(-> & ?)]; [injection X3 as -> ->|right; split; auto; lia]. left. auto 6. }
  destruct D as [(-> & E5 & E4 & E3 & ->)|(-> & L5)].
  - assert (2 * m2 + 1 <= k) by (destruct b; [specialize (Lt eq_refl)|specialize (Lb eq_refl)]; lia).
    refine (IH (k - 1) _ m2 x5 true fuel J5 _ _ _); [lia| |lia|lia]. intros _. rewrite E3 in S3. rewrite E4 in S4. repeat split; auto.
  - refine (IH (k - 1) _ m5 x5 false fuel J5 _ _ _); [lia|discriminate|lia|lia].
Qed.

Theorem read_ok stdsort ls t a s a0 : sort_contract stdsort -> file_text ls t -> abaqus checks ls a -> stores s a0 -> content_ok a0 ->
  Forall elset_ok (a_elsets a) ->
  (NoDup (names (append a0 a)) /\
   exists s' l m, readAbaqusFile checks stdsort (Some t) s = Ret s' /\
     stores s' (mkA (a_verts a0 ++ a_verts a) (a_elems a0 ++ a_elems a) l) /\ names_sorted l /\
     Permutation (a_elsets a0 ++ a_elsets a) m /\ Forall2 same_sorted m l) \/
  (~ NoDup (names (append a0 a)) /\ readAbaqusFile checks stdsort (Some t) s = Fail).
Proof.
  intros So Ft A Hs Co Fe. unfold readAbaqusFile. set (T := append a0 a).
  assert (Hh : holds s a0) by (split; [exact Hs|apply Co]).
  assert (N : exists v l st m, getline (mkStream t false false) = (l, st) /\ v = view_of l /\ state T m (s, v, l, st) /\ m <= length t).
  { pose proof (pending_text ls t Ft) as P. destruct ls as [|l ls].
    - apply abaqus_nil in A. subst a. destruct (getline_none _ P) as (st & E & F). exists (view []), [], st, 0. split; auto. split; auto. split; [|lia].
      apply at_end; auto; [unfold T; now rewrite append_empty|now apply peek_fail].
    - destruct (getline_some _ l ls P) as (st & E & P'). exists (view l), l, st, (S (length ls)). split; auto.
      split; [symmetry; apply (view_of_line _ _ _ P)|]. split; [|apply pending_len in P; exact P]. pose proof (pending_line _ _ _ P). eapply at_line; eauto; reflexivity. }
  destruct N as (v & l & st & m & -> & -> & J & L).
  destruct (main_loop_ok T (2 * length t + 4) m (s, view_of l, l, st) false (2 * length t + 4) J) as [((s', st') & E & Hs')|(E & Hn)]; try lia; try discriminate.
  - left. cbn [fst] in Hs'. split; [apply Hs'|]. rewrite E. cbn [bind fst].
    replace (length (snames s')) with (length (a_elsets T)) by (destruct Hs' as ((_ & _ & _ & _ & -> & _) & _); now rewrite map_length).
    destruct (a_elsets T) as [|e es] eqn:Et.
    + cbn. exists s', [], []. split; auto. unfold T, append in Et. cbn in Et. split; [|split; [constructor|split; [rewrite Et; constructor|constructor]]].
      destruct Hs' as (Hs' & _). unfold T, append in Hs'. now rewrite Et in Hs'.
    + cbn [length]. destruct (Nat.ltb_spec 0 (S (length es))); [|lia].
      destruct (sortElsets_ok stdsort So s' T) as (s'' & l' & E' & Hs'' & Sl & m' & Pm & F2).
      * apply Hs'.
      * split; [apply Hs'|]. unfold T, append. cbn. apply Forall_app. split; [apply Co|exact Fe].
      * rewrite Et. discriminate.
      * exists s'', l', m'. auto.
  - right. split; auto. rewrite E. reflexivity.
Qed.
End Proofs.
Lemma abaqus_elsets_ok checks ls a : abaqus checks ls a -> Forall elset_ok (a_elsets a) /\ Forall (fun e => es_data e = []) (a_elsets a).
Proof.
  induction 1 as [|? ? ? _ _ IH|h body q vs a' _ _ _ _ _ IH|h more t d body q es a' _ _ _ _ _ IH|h n body q idss a' _ _ _ X _ _ _ IH]; cbn; auto.
  split; constructor; try apply IH; auto. split; [exact X|now left].
Qed.
