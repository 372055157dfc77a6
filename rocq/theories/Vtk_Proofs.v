(** Proofs about the VTK reader. *)
From Coq Require Import String Ascii.
From Coq Require Import List Arith ZArith Bool Reals Lia Lra Sorting.Sorted Sorting.Permutation.
From Verif Require Import Base Loops StringView_Model StringView_Spec StringView_Proofs Elem_Model Soup_Model Soup_Spec Soup_Proofs Soup_Sort_Proofs TextIo_Model TextIo_Spec TextIo_Proofs Abaqus_Spec Vtk_Model Vtk_Spec.
From Verif Require Xdmf_Proofs.
Import ListNotations.
Local Open Scope list_scope.
Local Open Scope nat_scope.

(** ** Lines *)
(** the lines [ls] come next, then the text [r] *)
Definition upto (st : stream) (ls : list (list char)) (r : list char) : Prop :=
  eofbit st = false /\ failbit st = false /\ rest st = joined ls ++ r /\ Forall line_ok ls.
Lemma getline_upto st l ls r : upto st (l :: ls) r -> exists st', getline st = (l, st') /\ upto st' ls r.
Proof.
  intros (E & F & T & O). inversion O as [|? ? (L & N & _) O']; subst. unfold getline, good. rewrite E, F, T. cbn [negb andb].
  unfold joined. cbn [map concat]. rewrite <- !app_assoc. cbn [app]. rewrite scan_line by (auto; lia). eexists. split; [reflexivity|]. repeat split; auto.
Qed.
Lemma upto_line st l ls r : upto st (l :: ls) r -> line_ok l.
Proof. intros (_ & _ & _ & O). now inversion O. Qed.
Lemma view_line l : line_ok l -> view_of l = V l [0%Z].
Proof. intros (_ & _ & N). unfold view_of. now rewrite cstr_id. Qed.
Lemma upto_len st ls r : upto st ls r -> length ls <= length (rest st).
Proof. intros (_ & _ & T & _). rewrite T, app_length. pose proof (joined_len ls). unfold joined. lia. Qed.

(** ** Words *)
Lemma begins_ok l kw r : exists b, begins_with (V l r) kw = Ret b /\ (b = true <-> begins kw l).
Proof.
  unfold begins_with. destruct (starts_with_ok (V l r) (view (lit kw))) as (b & E & H); try apply valid_V'.
  exists b. split; auto. rewrite H, text_V, view_V, text_V. reflexivity.
Qed.
Lemma begins_yes l kw r : begins kw l -> begins_with (V l r) kw = Ret true.
Proof. intros H. destruct (begins_ok l kw r) as (b & E & Hb). rewrite E. f_equal. now apply Hb. Qed.
Lemma begins_no l kw r : ~ begins kw l -> begins_with (V l r) kw = Ret false.
Proof. intros H. destruct (begins_ok l kw r) as (b & E & Hb). rewrite E. f_equal. destruct b; auto. exfalso. now apply H, Hb. Qed.
Lemma word_lit kw : forallb (fun c => negb (c =? SPACE)%Z) (lit kw) = true -> lit kw <> [] -> word (lit kw).
Proof.
  intros H N. split; auto. intros X. rewrite forallb_forall in H. specialize (H _ X). rewrite Z.eqb_refl in H. discriminate.
Qed.
Lemma token_cons k t l r : word t -> getTokenAndShrink (V (blanks k ++ t ++ SPACE :: l) r) SPACE = Ret (V t (SPACE :: l ++ r), V l r).
Proof. intros (N & S0). apply (getToken_some SPACE k t (SPACE :: l) r); auto. right. eauto. Qed.
Lemma token_last k t r : word t -> getTokenAndShrink (V (blanks k ++ t) r) SPACE = Ret (V t r, null_sv).
Proof. intros (N & S0). pose proof (getToken_some SPACE k t [] r N S0 (or_introl eq_refl)) as E. now rewrite app_nil_r in E. Qed.
Lemma token_none k r : getTokenAndShrink (V (blanks k) r) SPACE = Ret (null_sv, V (blanks k) r).
Proof. apply getToken_none. Qed.
Lemma token_null : getTokenAndShrink null_sv SPACE = Ret (null_sv, null_sv).
Proof. reflexivity. Qed.
(** the view of what is left of a line of words *)
Inductive wview (r : list char) : list (list char) -> sv -> Prop :=
| wv_text ts l : words ts l -> wview r ts (V l r)
| wv_null : wview r [] null_sv.
Lemma stops_space l : stops (SPACE :: l). Proof. exists SPACE, l. auto. Qed.
Lemma wview_next r t ts v : stops r -> wview r (t :: ts) v -> exists q v', getTokenAndShrink v SPACE = Ret (V t q, v') /\ stops q /\ wview r ts v' /\ word t.
Proof.
  intros Hr H. inversion H as [x l W|]; subst. inversion W as [|k t' Ht|k t' ts' l' Ht W']; subst.
  - rewrite token_last by auto. exists r, null_sv. split; auto. split; auto. split; [apply wv_null|auto].
  - rewrite token_cons by auto. exists (SPACE :: l' ++ r), (V l' r). split; auto. split; [apply stops_space|]. split; [now apply wv_text|auto].
Qed.
Lemma wview_end r v : wview r [] v -> exists v', getTokenAndShrink v SPACE = Ret (null_sv, v').
Proof.
  intros H. inversion H as [x l W|]; subst.
  - inversion W; subst. rewrite token_none. eauto.
  - rewrite token_null. eauto.
Qed.
Lemma words_len ts l : words ts l -> length ts <= length l.
Proof.
  induction 1 as [k|k t (N & _)|k t ts l (N & _) _ IH]; cbn; [lia| |]; rewrite ?app_length; cbn; destruct t; try contradiction; cbn; lia.
Qed.
Lemma word_num l : Forall num_char l -> ~ In SPACE l.
Proof. intros F H. rewrite Forall_forall in F. specialize (F _ H). now apply num_char_ok in F. Qed.

(** ** Numbers *)
Lemma strto_int t z r : int_text t z -> stops r -> strto_int32 (t ++ r) = Ret z.
Proof.
  intros (Hn & Hz) Hr. apply strto_num; auto.
  - intros c r' E. destruct (stops_digit r Hr) as (c' & r'' & E' & D & _). rewrite E' in E. injection E as -> _. exact D.
  - destruct Hr as (c & r' & -> & _). discriminate.
Qed.
Lemma strtod_real t x r : real_text t x -> stops r -> strtod (t ++ r) = Ret x.
Proof. intros H Hr. apply (strtod_text 0 t x r H Hr). Qed.
Lemma num_real t z : num t z -> real_text t (IZR z).
Proof.
  intros [l z' H|l z' H].
  - replace (IZR z') with (IZR z' * powerRZ 10 0)%R by (cbn; lra). rewrite <- (app_nil_r l). apply rt_none; [now apply m_int|constructor].
  - replace (IZR (- z')) with (- (IZR z' * powerRZ 10 0))%R by (rewrite opp_IZR; cbn; lra). rewrite <- (app_nil_r l). apply rt_minus; [now apply m_int|constructor].
Qed.
Lemma strtol_num l z r : num l z -> (- INT64_MAX <= z <= INT64_MAX)%Z -> stops r -> strtol (l ++ r) = Ret z.
Proof.
  intros Hn Hz Hr. destruct (stops_digit r Hr) as (c' & r'' & E' & D & _).
  assert (Hr' : forall c r', r = c :: r' -> isdigit c = false) by (intros c r' E; rewrite E' in E; injection E as -> _; exact D).
  assert (H0 : r <> []) by (rewrite E'; discriminate). clear E' D c' r'' Hr.
  assert (Cl : clamp64 z = z) by (unfold clamp64; lia). unfold strtol.
  destruct Hn as [l z H|l z H]; destruct (dec_digits _ _ H) as (Hl & Hd & He); destruct (He 0%Z r Hr' H0) as (m & E & Hz0 & _).
  - destruct l as [|c l]; [congruence|]. inversion Hd; subst. destruct (digit_chars c) as (S1 & S2 & S3 & _ & _); auto.
    cbn [app skip_space]. rewrite S1. apply Z.eqb_neq in S2, S3. rewrite S2, S3. cbn [app] in E. rewrite E. cbn [bind]. now rewrite Z.add_0_l, Cl.
  - cbn [app skip_space]. change (isspace 45%Z) with false. cbv iota. change (45 =? 45)%Z with true. cbv iota. rewrite E. cbn [bind].
    now rewrite Z.mul_0_l, Z.add_0_l, Cl.
Qed.
Lemma stops_nul : stops [0%Z]. Proof. exists 0%Z, []. auto. Qed.

Section Proofs.
Variable checks : bool.
Notation soupR := (soup (R * R * R) R).
Lemma assert_true b : b = true -> ASSERT checks b = Ret tt.
Proof. intros ->. unfold ASSERT. now rewrite andb_false_r. Qed.
Lemma next_ok r t ts v : stops r -> wview r (t :: ts) v -> exists q v', next_token checks v = Ret (V t q, v') /\ stops q /\ wview r ts v'.
Proof.
  intros Hr H. destruct (wview_next r t ts v Hr H) as (q & v' & E & Hq & Hv & (N & _)). exists q, v'. split; auto. unfold next_token. rewrite E. cbn [bind fst].
  rewrite assert_true; auto. destruct t; [contradiction|reflexivity].
Qed.
(** the last word of a line, with what follows *)
Lemma wview_rest r t v : stops r -> wview r [t] v -> exists k q, tail v = blanks k ++ t ++ q /\ stops q.
Proof.
  intros Hr H. inversion H as [x l W|]; subst. inversion W as [|k t' Ht|k t' ts' l' Ht W']; subst; cbn [V tail].
  - exists k, r. rewrite <- app_assoc. auto.
  - inversion W'; subst. exists k, (SPACE :: blanks k0 ++ r). rewrite <- !app_assoc. split; auto. apply stops_space.
Qed.
Lemma point_line_ok l p s : point_text l p -> line_ok l -> exists v, point_line checks l s = Ret (fst (addVertex s p), v).
Proof.
  intros (x & y & z & W & Hx & Hy & Hz) O. unfold point_line. rewrite (view_line l O).
  destruct (next_ok [0%Z] x [y; z] _ stops_nul (wv_text _ _ _ W)) as (q & v & -> & Hq & Hv). cbn [bind fst snd]. cbn [V tail].
  rewrite (strtod_real _ _ _ Hx Hq). cbn [bind].
  destruct (next_ok [0%Z] y [z] v stops_nul Hv) as (q' & v' & -> & Hq' & Hv'). cbn [bind fst snd]. cbn [V tail].
  rewrite (strtod_real _ _ _ Hy Hq'). cbn [bind].
  destruct (wview_rest [0%Z] z v' stops_nul Hv') as (k & q'' & -> & Hq''). rewrite (strtod_text k z _ _ Hz Hq''). cbn [bind]. destruct p as ((?, ?), ?). eauto.
Qed.
Lemma point_first l p : point_text l p -> first_char l <> 0%Z /\ ~ begins "CELLS" l.
Proof.
  intros (x & y & z & W & Hx & _). assert (exists k, exists q, l = blanks k ++ x ++ q) as (k & q & ->).
  { inversion W as [|k t' Ht|k t' ts' l' Ht W']; subst; eauto. }
  destruct (real_chars _ _ Hx) as (N & F). destruct x as [|c x]; [contradiction|]. inversion F as [|? ? Hc _]; subst. destruct k as [|k].
  - cbn. split; [apply num_char_ok in Hc; tauto|]. intros (r & E). cbn in E. injection E as -> _. destruct Hc as [Hc|[Hc|[Hc|[Hc|[Hc|Hc]]]]]; discriminate.
  - cbn. split; [discriminate|]. intros (r & E). cbn in E. discriminate.
Qed.
Lemma points_loop_ok body vs : points_text body vs -> forall fuel s a v st h ls r, stores s a -> upto st (body ++ h :: ls) r -> begins "CELLS" h -> length body < fuel ->
  exists s' st', points_loop checks fuel s v st = Ret (s', V h [0%Z], st') /\ upto st' ls r /\ stores s' (mkA (a_verts a ++ vs) (a_elems a) (a_elsets a)).
Proof.
  induction 1 as [|body vs _ IH|l body p vs Hp _ IH]; intros fuel s a v st h ls r Hs U B L; (destruct fuel as [|fuel]; [lia|]); cbn [app] in U;
    destruct (getline_upto _ _ _ _ U) as (st1 & E1 & U1); pose proof (upto_line _ _ _ _ U) as O; cbn [points_loop]; rewrite E1; rewrite (proj1 (proj2 U1)).
  - destruct B as (q & ->). change (first_char (lit "CELLS" ++ q) =? 0)%Z with false. cbv iota. rewrite (view_line _ O), begins_yes by (now exists q). cbn [bind].
    exists s, st1. rewrite app_nil_r. now split.
  - change (first_char [] =? 0)%Z with true. cbv iota. cbn [length] in L. apply IH; auto. lia.
  - destruct (point_first _ _ Hp) as (F1 & F2). destruct (Z.eqb_spec (first_char l) 0); [contradiction|]. rewrite (view_line _ O), begins_no by auto. cbn [bind].
    destruct (point_line_ok l p s Hp O) as (v' & ->). cbn [bind fst snd]. destruct (addVertex_ok s a p Hs) as (Hs' & _).
    cbn [length] in L. destruct (IH fuel _ _ v' st1 h ls r Hs' U1 B) as (s' & st' & E & U' & Hs''); [lia|]. exists s', st'. split; auto. split; auto.
    cbn in Hs''. now rewrite <- app_assoc in Hs''.
Qed.
Lemma ids_loop_ok np ts vs : Forall2 (fun t v => int_text t v /\ (0 <= v < np)%Z) ts vs -> forall r v, stops r -> wview r ts v ->
  ids_loop checks (length vs) np v = Ret vs.
Proof.
  induction 1 as [|t z ts vs (Ht & Hz) _ IH]; intros r v Hr Hv; auto. cbn [length ids_loop].
  destruct (next_ok r t ts v Hr Hv) as (q & v' & -> & Hq & Hv'). cbn [bind fst snd]. cbn [V tail]. rewrite (strto_int _ _ _ Ht Hq). cbn [bind].
  rewrite !assert_true by (try apply Z.leb_le; try apply Z.ltb_lt; lia). cbn [bind]. rewrite (IH r v' Hr Hv'). reflexivity.
Qed.
Lemma infer_ok t : t <> V_Invalid -> t <> V_QuadraticEdge -> inferVTKElemType (verticesPerElem t) = t /\ (0 < verticesPerElem t)%Z.
Proof. destruct t; try contradiction; split; reflexivity. Qed.
Lemma cell_line_ok n l e s : cell_text n l e -> line_ok l -> cell_line checks (Z.of_nat n) l s = (let* r := addElement s (fst e) (snd e) in Ret (fst r)).
Proof.
  intros (k & ts & W & Hk & Hts & N1 & N2 & Hl) O. unfold cell_line. rewrite (view_line l O). destruct (infer_ok _ N1 N2) as (It & Vt). rewrite Hl in It, Vt.
  destruct (next_ok [0%Z] k ts _ stops_nul (wv_text _ _ _ W)) as (q & v & -> & Hq & Hv). cbn [bind fst snd]. cbn [V tail]. rewrite (strto_int _ _ _ Hk Hq). cbn [bind].
  rewrite assert_true by (apply Z.ltb_lt; lia). cbn [bind]. destruct (Z.ltb_spec (Z.of_nat (length (snd e))) 0); [lia|].
  rewrite Nat2Z.id, (ids_loop_ok (Z.of_nat n) ts (snd e) Hts [0%Z] v stops_nul Hv). cbn [bind]. rewrite It.
  rewrite assert_true; [reflexivity|]. destruct (fst e); try reflexivity; contradiction.
Qed.
Lemma cells_loop_ok n cells es : Forall2 (cell_text n) cells es -> forall s a st ls r, stores s a -> upto st (cells ++ ls) r ->
  exists s' st', cells_loop checks (length es) (Z.of_nat n) s st = Ret (s', st') /\ upto st' ls r /\ stores s' (mkA (a_verts a) (a_elems a ++ es) (a_elsets a)).
Proof.
  induction 1 as [|l e cells es He _ IH]; intros s a st ls r Hs U.
  - exists s, st. cbn. rewrite app_nil_r. now split.
  - cbn [app] in U. destruct (getline_upto _ _ _ _ U) as (st1 & E1 & U1). cbn [length cells_loop]. rewrite E1.
    rewrite (cell_line_ok n l e s He (upto_line _ _ _ _ U)). destruct (addElement_ok s a (fst e) (snd e) Hs) as (s1 & E & Hs1). rewrite E. cbn [bind fst].
    destruct (IH s1 _ st1 ls r Hs1 U1) as (s' & st' & E' & U' & Hs'). exists s', st'. split; auto. split; auto. cbn in Hs'. rewrite <- app_assoc in Hs'. destruct e. exact Hs'.
Qed.
Lemma skip_line_ok l r : ~ In NEWLINE l -> skip_line (l ++ NEWLINE :: r) = (r, false).
Proof.
  induction l as [|c l IH]; intros H; cbn; auto. cbn in H. destruct (Z.eqb_spec c NEWLINE) as [->|_]; [exfalso; auto|]. auto.
Qed.
Lemma after_begins kw l r : after kw l r -> begins kw l.
Proof. intros ->. now eexists. Qed.
Lemma after_token kw l r : after kw l r -> forallb (fun c => negb (c =? SPACE)%Z) (lit kw) = true -> lit kw <> [] ->
  getTokenAndShrink (V l [0%Z]) SPACE = Ret (V (lit kw) (SPACE :: r ++ [0%Z]), V r [0%Z]).
Proof. intros -> H N. apply (token_cons 0 (lit kw) r [0%Z]). now apply word_lit. Qed.
Lemma int_word t z : int_text t z -> word t.
Proof. intros (H & _). apply num_chars' in H. split; [apply H|apply word_num, H]. Qed.
Lemma grid_ok s a st h5 k5 np ty5 more5 points vs h6 r6 nc len lenz cells es h7 types post :
  stores s a -> upto st ([h5] ++ points ++ [h6] ++ cells ++ [[]; h7]) (types ++ [NEWLINE] ++ post) ->
  after "POINTS" h5 (blanks k5 ++ np ++ SPACE :: lit ty5 ++ more5) -> In ty5 ["float"; "double"]%string ->
  int_text np (Z.of_nat (length vs)) -> points_text points vs -> vs <> [] ->
  after "CELLS" h6 r6 -> words [nc; len] r6 -> int_text nc (Z.of_nat (length es)) -> int_text len lenz -> (0 < lenz)%Z ->
  Forall2 (cell_text (length vs)) cells es -> es <> [] -> begins "CELL_TYPES" h7 -> ~ In NEWLINE types ->
  exists s', vtkParseUnstructuredGrid checks s st = Ret (s', mkStream post false false) /\ stores s' (mkA (a_verts a ++ vs) (a_elems a ++ es) (a_elsets a)).
Proof.
  intros Hs U H5 T5 Hnp Hps Nv H6 W6 Hnc Hlen Lz Hc Ne H7 Ht. cbn [app] in U.
  destruct (getline_upto _ _ _ _ U) as (st1 & E1 & U1). pose proof (upto_line _ _ _ _ U) as O5. unfold vtkParseUnstructuredGrid. rewrite E1, (view_line _ O5).
  rewrite (begins_yes h5 "POINTS") by (eapply after_begins; eauto). cbn [bind negb]. rewrite (after_token _ _ _ H5) by (reflexivity || discriminate). cbn [bind snd].
  assert (N5 : next_token checks (V (blanks k5 ++ np ++ SPACE :: lit ty5 ++ more5) [0%Z]) = Ret (V np (SPACE :: (lit ty5 ++ more5) ++ [0%Z]), V (lit ty5 ++ more5) [0%Z])).
  { unfold next_token. rewrite token_cons by (eapply int_word; eauto). cbn [bind fst]. rewrite assert_true; auto. destruct (int_word _ _ Hnp) as (X & _). destruct np; [contradiction|reflexivity]. }
  rewrite N5. cbn [bind fst snd]. change (tail (V np (SPACE :: (lit ty5 ++ more5) ++ [0%Z]))) with (np ++ SPACE :: (lit ty5 ++ more5) ++ [0%Z]).
  rewrite (strto_int _ _ _ Hnp) by apply stops_space. cbn [bind].
  rewrite assert_true by (apply Z.ltb_lt; destruct vs; [contradiction|cbn; lia]). cbn [bind].
  destruct (begins_ok (lit ty5 ++ more5) "float" [0%Z]) as (b1 & B1 & X1). destruct (begins_ok (lit ty5 ++ more5) "double" [0%Z]) as (b2 & B2 & X2). rewrite B1, B2. cbn [bind].
  assert (b1 || b2 = true) as ->.
  { destruct T5 as [<-|[<-|[]]]; apply orb_true_iff; [left; apply X1|right; apply X2]; eexists; reflexivity. }
  rewrite assert_true by auto. cbn [bind].
  destruct (points_loop_ok points vs Hps (fuel_of st1) s a (V (lit ty5 ++ more5) [0%Z]) st1 h6 (cells ++ [[]; h7]) (types ++ [NEWLINE] ++ post) Hs U1) as (s2 & st2 & E2 & U2 & Hs2).
  { eapply after_begins; eauto. }
  { apply upto_len in U1. rewrite app_length in U1. cbn in U1. unfold fuel_of. lia. }
  rewrite E2. cbn [bind]. rewrite (begins_yes h6 "CELLS") by (eapply after_begins; eauto). cbn [bind]. rewrite assert_true by auto. cbn [bind].
  rewrite (after_token _ _ _ H6) by (reflexivity || discriminate). cbn [bind snd].
  destruct (next_ok [0%Z] nc [len] _ stops_nul (wv_text _ _ _ W6)) as (q & v & -> & Hq & Hv). cbn [bind fst snd]. change (tail (V nc q)) with (nc ++ q).
  rewrite (strto_int _ _ _ Hnc Hq). cbn [bind]. rewrite assert_true by (apply Z.ltb_lt; destruct es; [contradiction|cbn; lia]). cbn [bind].
  assert (L : (if checks then let* tv := next_token checks v in let* cell_conn_len := strto_int32 (tail (fst tv)) in ASSERT checks (0 <? cell_conn_len)%Z
               else let* _ := getTokenAndShrink v SPACE in Ret tt) = Ret tt).
  { destruct (next_ok [0%Z] len [] v stops_nul Hv) as (q' & v' & E & Hq' & _). destruct (wview_next [0%Z] len [] v stops_nul Hv) as (q'' & v'' & E'' & _).
    rewrite E, E''. cbn [bind fst]. change (tail (V len q')) with (len ++ q'). rewrite (strto_int _ _ _ Hlen Hq'). cbn [bind]. rewrite assert_true by (apply Z.ltb_lt; lia). now destruct checks. }
  rewrite L. cbn [bind]. rewrite Nat2Z.id.
  destruct (cells_loop_ok (length vs) cells es Hc s2 _ st2 [[]; h7] (types ++ [NEWLINE] ++ post) Hs2 U2) as (s3 & st3 & E3 & U3 & Hs3). rewrite E3. cbn [bind].
  destruct (getline_upto _ _ _ _ U3) as (st4 & E4 & U4). rewrite E4. rewrite assert_true by reflexivity. cbn [bind].
  destruct (getline_upto _ _ _ _ U4) as (st5 & E5 & U5). rewrite E5. rewrite (view_line _ (upto_line _ _ _ _ U4)), begins_yes by auto. cbn [bind negb].
  destruct U5 as (X & Y & Z0 & _). assert (Ig : ignore_line st5 = mkStream post false false).
  { unfold ignore_line, good. rewrite X, Y, Z0. cbn [negb andb joined map concat app]. now rewrite skip_line_ok by auto. }
  rewrite Ig. rewrite assert_true by reflexivity. cbn [bind]. exists s3. split; [reflexivity|]. exact Hs3.
Qed.
(** ** Data *)
Variable max_int : Z.
Hypothesis max_int_small : (max_int <= INT64_MAX)%Z.
Definition floats (ty : string) : bool := (ty =? "float")%string || (ty =? "double")%string.
Lemma value_ok ty t x r : value_text max_int ty t x -> stops r -> word t /\ strtod (t ++ r) = Ret x /\
  (if floats ty then Ret tt else let* ivalue := strtol (t ++ r) in
     if (ivalue =? - INT64_MAX - 1)%Z then Ub else if (max_int <? Z.abs ivalue)%Z then Fail else Ret tt) = Ret tt.
Proof.
  assert (Wr : forall t x, real_text t x -> word t) by (intros u y H; apply real_chars in H; split; [apply H|apply word_num, H]).
  intros [u y H|u y H|u z H Hz] Hr.
  - split; [eapply Wr; eauto|]. split; [now apply strtod_real|reflexivity].
  - split; [eapply Wr; eauto|]. split; [now apply strtod_real|reflexivity].
  - pose proof (num_real _ _ H) as H'. split; [eapply Wr; eauto|]. split; [now apply strtod_real|]. change (floats "int") with false. cbv iota.
    rewrite (strtol_num _ _ _ H) by (auto; lia). cbn [bind]. destruct (Z.eqb_spec z (- INT64_MAX - 1)); [lia|]. destruct (Z.ltb_spec max_int (Z.abs z)); [lia|reflexivity].
Qed.
Lemma values_loop_ok ty ts xs : Forall2 (value_text max_int ty) ts xs -> forall r v fuel done m, stops r -> wview r ts v -> length ts <= fuel ->
  values_loop max_int fuel (floats ty) v (done ++ repeat 0%R (length xs + m)) (length done) = Ret (done ++ xs ++ repeat 0%R m, length done + length xs).
Proof.
  induction 1 as [|t x ts xs Ht _ IH]; intros r v fuel done m Hr Hv L.
  - destruct (wview_end r v Hv) as (v' & E). destruct fuel; cbn [values_loop]; rewrite E; cbn; now rewrite Nat.add_0_r.
  - destruct fuel as [|fuel]; [cbn in L; lia|]. destruct (wview_next r t ts v Hr Hv) as (q & v' & E & Hq & Hv' & (Nt & _)). cbn [values_loop]. rewrite E. cbn [bind].
    change (vsize (V t q)) with (length t). destruct (Nat.eqb_spec (length t) 0) as [X|_]; [destruct t; [contradiction|discriminate]|].
    change (tail (V t q)) with (t ++ q). destruct (value_ok ty t x q Ht Hq) as (_ & -> & E2). cbn [bind]. rewrite E2. cbn [bind length Nat.add repeat].
    rewrite Xdmf_Proofs.wr_mid by auto. cbn [bind]. cbn in L.
    specialize (IH r v' fuel (done ++ [x]) m Hr Hv' ltac:(lia)). rewrite app_length, <- !app_assoc in IH. cbn in IH. rewrite Nat.add_1_r in IH. rewrite IH. do 2 f_equal. lia.
Qed.
(** the lines [ls] are left, or the stream has failed *)
Definition left_in (st : stream) (ls : list (list char)) : Prop := pending st ls \/ (ls = [] /\ failbit st = true).
Lemma getline_end st : left_in st [] -> exists st', getline st = ([], st') /\ failbit st' = true.
Proof.
  intros [H|(_ & H)]; [now apply getline_none|]. unfold getline, good. rewrite H, andb_false_r. eexists. split; reflexivity.
Qed.
Lemma getline_left st l ls : left_in st (l :: ls) -> exists st', getline st = (l, st') /\ pending st' ls /\ line_ok l.
Proof. intros [H|(H & _)]; [|discriminate]. destruct (getline_some _ _ _ H) as (st' & E & P). exists st'. split; auto. split; auto. now apply pending_line in H. Qed.
Lemma data_loop_ok ty body xss : Forall2 (values_text max_int ty) body xss -> forall st ls fuel done m, pending st (body ++ ls) -> length body <= fuel ->
  ls = [] \/ (exists ls', ls = [] :: ls') ->
  exists st', data_loop max_int fuel (floats ty) (done ++ repeat 0%R (length (concat xss) + m)) (length done) st = Ret (done ++ concat xss ++ repeat 0%R m, length done + length (concat xss), st') /\
    left_in st' (tl ls).
Proof.
  induction 1 as [|l xs body xss (Nl & ts & W & Hx) _ IH]; intros st ls fuel done m P L E.
  - destruct E as [-> |(ls' & ->)]; cbn [app concat] in *.
    + destruct (getline_none _ P) as (st' & E1 & F). exists st'. split; [|right; auto]. destruct fuel; cbn [data_loop]; rewrite E1, F; cbn; now rewrite Nat.add_0_r.
    + destruct (getline_some _ _ _ P) as (st' & E1 & P'). exists st'. split; [|left; auto]. destruct fuel; cbn [data_loop]; rewrite E1, (proj1 P'); cbn; now rewrite Nat.add_0_r.
  - destruct fuel as [|fuel]; [cbn in L; lia|]. cbn [app] in P. destruct (getline_some _ _ _ P) as (st1 & E1 & P1). pose proof (pending_line _ _ _ P) as O.
    cbn [data_loop]. rewrite E1, (proj1 P1). destruct l as [|c l]; [contradiction|]. change (first_char (c :: l)) with c. destruct (Z.eqb_spec c 0) as [->|_]; [exfalso; apply O; now left|].
    rewrite (view_line _ O). cbn [concat]. rewrite app_length, <- Nat.add_assoc.
    rewrite (values_loop_ok ty ts xs Hx [0%Z] _ (length (c :: l)) done (length (concat xss) + m) stops_nul (wv_text _ _ _ W)) by now apply words_len.
    cbn [bind fst snd]. cbn [length] in L. destruct (IH st1 ls fuel (done ++ xs) m P1 ltac:(lia) E) as (st' & E2 & P2).
    rewrite app_length, <- !app_assoc in E2. exists st'. split; auto. rewrite E2, <- app_assoc. do 3 f_equal. lia.
Qed.
Lemma cell_data_head s a st h1 t1 k1 k2 h2 k name ty more h3 ls :
  stores s a -> pending st (h2 :: h3 :: ls) -> line_ok h1 ->
  after "CELL_DATA" h1 (blanks k1 ++ t1 ++ blanks k2) -> int_text t1 (Z.of_nat (length (a_elems a))) ->
  after "SCALARS" h2 (blanks k ++ name ++ SPACE :: lit ty ++ more) -> word name -> begins "LOOKUP_TABLE" h3 ->
  In ty ["float"; "double"; "int"]%string ->
  exists st2, pending st2 ls /\ vtkParseCellData checks max_int s st h1 =
    (let n := length (a_elems a) in
     let* r := data_loop max_int (fuel_of st2) (floats ty) (repeat 0%R n) 0 st2 in
     let '(data, k, st) := r in
     let* _ := ASSERT checks (Z.of_nat k =? Z.of_nat n)%Z in
     let '(s, _, err) := addElset s name (map Z.of_nat (seq 0 n)) data in
     if err then Fail else Ret (s, st)).
Proof.
  intros Hs P O1 H1 Ht1 H2 Wn H3 Ty. unfold vtkParseCellData. rewrite (view_line _ O1).
  rewrite (begins_yes h1 "CELL_DATA") by (eapply after_begins; eauto). cbn [bind negb]. rewrite (after_token _ _ _ H1) by (reflexivity || discriminate). cbn [bind snd].
  assert (N1 : strto_int32 (tail (V (blanks k1 ++ t1 ++ blanks k2) [0%Z])) = Ret (Z.of_nat (length (a_elems a)))).
  { change (tail (V (blanks k1 ++ t1 ++ blanks k2) [0%Z])) with ((blanks k1 ++ t1 ++ blanks k2) ++ [0%Z]). apply strto_tok; [|exact stops_nul].
    exists k1, t1, k2. split; auto. }
  rewrite N1. cbn [bind]. assert (Le : length (etypes s) = length (a_elems a)) by (destruct Hs as (_ & -> & _); now rewrite map_length).
  rewrite Le. rewrite assert_true by (apply Z.eqb_refl). cbn [bind].
  destruct (getline_some _ _ _ P) as (st1 & E1 & P1). pose proof (pending_line _ _ _ P) as O2. rewrite E1, (view_line _ O2).
  rewrite (begins_yes h2 "SCALARS") by (eapply after_begins; eauto). cbn [bind]. rewrite assert_true by auto. cbn [bind].
  rewrite (after_token _ _ _ H2) by (reflexivity || discriminate). cbn [bind snd].
  rewrite token_cons by auto. cbn [bind fst snd].
  change (firstn (vsize (V name (SPACE :: (lit ty ++ more) ++ [0%Z]))) (tail (V name (SPACE :: (lit ty ++ more) ++ [0%Z])))) with (text (V name (SPACE :: (lit ty ++ more) ++ [0%Z]))). rewrite text_V.
  destruct (begins_ok (lit ty ++ more) "float" [0%Z]) as (b1 & B1 & X1). destruct (begins_ok (lit ty ++ more) "double" [0%Z]) as (b2 & B2 & X2).
  destruct (begins_ok (lit ty ++ more) "int" [0%Z]) as (b3 & B3 & X3). rewrite B1, B2, B3. cbn [bind].
  assert (Fb : b1 || b2 = floats ty /\ negb (floats ty) && negb b3 = false).
  { destruct Ty as [<-|[<-|[<-|[]]]].
    - assert (b1 = true) as -> by (apply X1; eexists; reflexivity). auto.
    - assert (b2 = true) as -> by (apply X2; eexists; reflexivity). rewrite orb_true_r. auto.
    - assert (b3 = true) as -> by (apply X3; eexists; reflexivity). destruct b1; [destruct (proj1 X1 eq_refl) as (q & X); discriminate X|].
      destruct b2; [destruct (proj1 X2 eq_refl) as (q & X); discriminate X|]. auto. }
  destruct Fb as (-> & ->).
  destruct (getline_some _ _ _ P1) as (st2 & E2 & P2). pose proof (pending_line _ _ _ P1) as O3. rewrite E2, (view_line _ O3), begins_yes by auto. cbn [bind].
  rewrite assert_true by auto. cbn [bind]. destruct (Z.ltb_spec (Z.of_nat (length (a_elems a))) 0); [lia|]. rewrite Nat2Z.id. exists st2. auto.
Qed.
Lemma cell_data_ok s a st h1 t1 k1 k2 h2 k name ty more h3 body xss ls :
  stores s a -> a_elems a <> [] -> pending st (h2 :: h3 :: body ++ ls) -> line_ok h1 ->
  after "CELL_DATA" h1 (blanks k1 ++ t1 ++ blanks k2) -> int_text t1 (Z.of_nat (length (a_elems a))) ->
  after "SCALARS" h2 (blanks k ++ name ++ SPACE :: lit ty ++ more) -> word name -> begins "LOOKUP_TABLE" h3 ->
  In ty ["float"; "double"; "int"]%string -> Forall2 (values_text max_int ty) body xss -> length (concat xss) = length (a_elems a) ->
  (ls = [] \/ exists ls', ls = [] :: ls') ->
  let e := mkElset name (map Z.of_nat (seq 0 (length (a_elems a)))) (concat xss) in
  (~ In name (names a) /\ exists s' st', vtkParseCellData checks max_int s st h1 = Ret (s', st') /\ left_in st' (tl ls) /\
      stores s' (mkA (a_verts a) (a_elems a) (a_elsets a ++ [e]))) \/
  (In name (names a) /\ vtkParseCellData checks max_int s st h1 = Fail).
Proof.
  intros Hs Na P O1 H1 Ht1 H2 Wn H3 Ty Hb Hl El e.
  destruct (cell_data_head s a st h1 t1 k1 k2 h2 k name ty more h3 (body ++ ls) Hs P O1 H1 Ht1 H2 Wn H3 Ty) as (st2 & P2 & ->). cbv zeta.
  destruct (data_loop_ok ty body xss Hb st2 ls (fuel_of st2) [] 0 P2) as (st' & E3 & P3); auto.
  { apply pending_len in P2. rewrite app_length in P2. unfold fuel_of. lia. }
  cbn [app length] in E3. rewrite Nat.add_0_r, Hl, app_nil_r in E3. cbn [Nat.add] in E3. rewrite E3. cbn [bind]. rewrite assert_true by (apply Z.eqb_refl). cbn [bind].
  destruct (in_dec (list_eq_dec Z.eq_dec) name (names a)) as [D|D].
  - right. split; auto. rewrite (addElset_reject s a name _ _ Hs); [reflexivity|]. intros (X & _). contradiction.
  - left. split; auto. assert (Ac : acceptable a e).
    { split; [exact D|]. cbn. split; [|right; rewrite map_length, seq_length; exact Hl]. destruct (a_elems a); [contradiction|discriminate]. }
    destruct (addElset_accept s a _ _ _ Hs Ac) as (s' & Es & Hs'). rewrite Es. exists s', st'. auto.
Qed.
Lemma left_len st ls : left_in st ls -> length ls <= length (rest st).
Proof. intros [H|(-> & _)]; [now apply pending_len|cbn; lia]. Qed.
Lemma sections_ok n ls es : data_text max_int n ls es -> forall fuel s a st, stores s a -> length (a_elems a) = n -> n <> 0 -> NoDup (names a) -> left_in st ls -> length ls <= fuel ->
  (NoDup (names a ++ map es_name es) /\ exists s', sections checks max_int fuel s st = Ret s' /\ stores s' (mkA (a_verts a) (a_elems a) (a_elsets a ++ es))) \/
  (~ NoDup (names a ++ map es_name es) /\ sections checks max_int fuel s st = Fail).
Proof.
  intros H fuel. revert ls es H. induction fuel as [|fuel IH]; intros ls es H s a st Hs Ha Nn Nd P L.
  { destruct ls; [|cbn in L; lia]. inversion H; subst. left. cbn. rewrite !app_nil_r. split; auto. destruct (getline_end _ P) as (st' & E & F). rewrite E, F. exists s. now split. }
  inversion H as [E1 E2|l ls' es' Nb H' E1 E2|h1 t1 k1 k2 h2 k name ty more h3 body xss ls' es' H1 Ht1 H2 Wn H3 Ty Hb Hl El H' E1 E2]; subst ls es.
  - left. cbn [map]. rewrite !app_nil_r. split; auto. cbn [sections]. destruct (getline_end _ P) as (st' & E & F). rewrite E, F. exists s. now split.
  - destruct (getline_left _ _ _ P) as (st1 & E & P1 & O). cbn [sections]. rewrite E, (proj1 P1). cbn [length] in L.
    destruct (IH ls' es' H' s a st1 Hs Ha Nn Nd (or_introl P1) ltac:(lia)) as [(Y1 & s' & Y2 & Y3)|(Y1 & Y2)]; rewrite (view_line _ O), begins_no by auto; cbn [bind];
      [left|right]; (split; [exact Y1|]); [exists s'; split; auto|]; rewrite Y2; destruct (first_char l =? 0)%Z; auto.
  - destruct (getline_left _ _ _ P) as (st1 & E & P1 & O). cbn [sections]. rewrite E, (proj1 P1).
    assert (Fc : (first_char h1 =? 0)%Z = false) by (rewrite H1; reflexivity). rewrite Fc, (view_line _ O), begins_yes by (eapply after_begins; eauto). cbn [bind].
    assert (Na : a_elems a <> []) by (intros X; rewrite X in Ha; cbn in Ha; congruence).
    rewrite <- Ha in *. destruct (cell_data_ok s a st1 h1 t1 k1 k2 h2 k name ty more h3 body xss ls' Hs Na P1 O H1 Ht1 H2 Wn H3 Ty Hb Hl El) as [(D & s1 & st2 & Ec & P2 & Hs1)|(D & Ec)].
    + rewrite Ec. cbn [bind fst snd]. assert (Ht : data_text max_int (length (a_elems a)) (tl ls') es').
      { destruct El as [-> |(ls'' & ->)]; cbn [tl]; auto. inversion H' as [|? ? ? _ X|? ? ? ? ? ? ? ? ? ? ? ? ? ? X]; subst; auto. discriminate X. }
      assert (Nd1 : NoDup (names (mkA (a_verts a) (a_elems a) (a_elsets a ++ [mkElset name (map Z.of_nat (seq 0 (length (a_elems a)))) (concat xss)])))).
      { unfold names. cbn [a_elsets]. rewrite map_app. cbn. apply (Permutation_NoDup (Permutation_cons_append (names a) name)). now constructor. }
      assert (Lt : length (tl ls') <= fuel). { cbn in L. rewrite app_length in L. destruct ls'; cbn in *; lia. }
      specialize (IH _ _ Ht s1 _ st2 Hs1 eq_refl Nn Nd1 P2 Lt). unfold names in IH. cbn [a_elsets a_verts a_elems] in IH. rewrite map_app, <- !app_assoc in IH. exact IH.
    + right. rewrite Ec. split; auto. cbn [map es_name]. intros X. apply NoDup_remove_2 in X. apply X. apply in_app_iff. now left.
Qed.
Lemma data_elsets_ok n ls es : data_text max_int n ls es -> n <> 0 -> Forall elset_ok es.
Proof.
  intros H N. induction H as [| |h1 t1 k1 k2 h2 k name ty more h3 body xss ls es _ _ _ _ _ _ _ Hl _ _ IH]; auto. constructor; auto.
  split; cbn; [|right; now rewrite map_length, seq_length]. destruct n; [congruence|discriminate].
Qed.
Variable stdsort : forall A : Type, (A -> A -> bool) -> list A -> list A.
Hypothesis So : sort_contract stdsort.
Lemma grid_read pre vs es post : grid_text pre vs es -> exists s, stores s (mkA vs es []) /\ es <> [] /\
  readVTKFile checks max_int stdsort (Some (pre ++ post)) empty_soup =
    (let '(eof, st) := peek_eof (mkStream post false false) in
     let* s := if eof then Ret s else sections checks max_int (fuel_of st) s st in
     if 0 <? length (snames s) then sortElsets stdsort s else Ret s).
Proof.
  intros [l1 l2 l3 l4 r4 h5 k5 np ty5 more5 points vs' h6 r6 nc len lenz cells es' h7 types B1 B3 A4 B4 H5 T5 Hnp Hps Nv H6 W6 Hnc Hlen Lz Hc Ne H7 Ht pre' O].
  rewrite <- !app_assoc. unfold readVTKFile.
  assert (U : upto (mkStream (joined pre' ++ types ++ [NEWLINE] ++ post) false false) pre' (types ++ [NEWLINE] ++ post)) by (repeat split; auto).
  unfold pre' in U at 2. change ([NEWLINE] ++ post) with (NEWLINE :: post) in *. cbn [app] in U.
  destruct (getline_upto _ _ _ _ U) as (st1 & E1 & U1). rewrite E1, (view_line _ (upto_line _ _ _ _ U)), begins_yes by auto. cbn [bind negb].
  destruct (getline_upto _ _ _ _ U1) as (st2 & E2 & U2). rewrite E2.
  destruct (getline_upto _ _ _ _ U2) as (st3 & E3 & U3). rewrite E3, (view_line _ (upto_line _ _ _ _ U2)), begins_yes by auto. cbn [bind negb].
  destruct (getline_upto _ _ _ _ U3) as (st4 & E4 & U4). rewrite E4, (view_line _ (upto_line _ _ _ _ U3)).
  rewrite (begins_yes l4 "DATASET") by (eapply after_begins; eauto). cbn [bind]. rewrite assert_true by auto. cbn [bind].
  rewrite (after_token _ _ _ A4) by (reflexivity || discriminate). cbn [bind snd]. rewrite begins_yes by auto. cbn [bind negb].
  destruct (grid_ok empty_soup a_empty st4 h5 k5 np ty5 more5 points vs' h6 r6 nc len lenz cells es' h7 types post (stores_empty (P := R * R * R) (F := R)) U4 H5 T5 Hnp Hps Nv H6 W6 Hnc Hlen Lz Hc Ne H7 Ht) as (s & -> & Hs).
  cbn [bind]. exists s. auto.
Qed.
Lemma read_ok t a : vtk_text max_int t a ->
  (NoDup (names a) /\ exists s l m, readVTKFile checks max_int stdsort (Some t) empty_soup = Ret s /\ stores s (mkA (a_verts a) (a_elems a) l) /\
     names_sorted l /\ Permutation (a_elsets a) m /\ Forall2 same_sorted m l) \/
  (~ NoDup (names a) /\ readVTKFile checks max_int stdsort (Some t) empty_soup = Fail).
Proof.
  intros [pre vs es ls post elsets G Ft Hd]. unfold names. cbn [a_elsets a_verts a_elems].
  destruct (grid_read pre vs es post G) as (s & Hs & Ne & ->). pose proof (pending_text _ _ Ft) as P.
  assert (Nn : length es <> 0) by (destruct es; [contradiction|discriminate]).
  assert (Fin : (NoDup (map es_name elsets) /\ exists s', (let '(eof, st) := peek_eof (mkStream post false false) in if eof then Ret s else sections checks max_int (fuel_of st) s st) = Ret s' /\ stores s' (mkA vs es elsets)) \/
     (~ NoDup (map es_name elsets) /\ (let '(eof, st) := peek_eof (mkStream post false false) in if eof then Ret s else sections checks max_int (fuel_of st) s st) = Fail)).
  { destruct ls as [|l ls].
    - inversion Hd; subst. left. split; [constructor|]. pose proof (peek_none _ P) as Ep. destruct (peek_eof (mkStream post false false)) as (eof, st). cbn in Ep. subst eof. exists s. auto.
    - rewrite (peek_some _ _ _ P). apply (sections_ok _ _ _ Hd _ s (mkA vs es []) _ Hs eq_refl Nn); [constructor|now left|].
      apply pending_len in P. unfold fuel_of. lia. }
  destruct (peek_eof (mkStream post false false)) as (eof, st).
  destruct Fin as [(Nd & s' & -> & Hs')|(Nd & ->)]; [left|right]; (split; [exact Nd|]); cbn [bind]; auto.
  assert (Ls : length (snames s') = length elsets) by (destruct Hs' as (_ & _ & _ & _ & -> & _); now rewrite map_length).
  rewrite Ls. destruct elsets as [|e elsets].
  - exists s', [], []. cbn. split; [reflexivity|]. split; [exact Hs'|]. split; [constructor|]. split; constructor.
  - change (0 <? length (e :: elsets)) with true. cbv iota. destruct (sortElsets_ok stdsort So s' _ Hs') as (s2 & l & E & Hs2 & Nl & m & Pm & Fm).
    + split; [exact Nd|]. exact (data_elsets_ok _ _ _ Hd Nn).
    + discriminate.
    + exists s2, l, m. auto.
Qed.
(** an integer that is too large ends the program *)
Lemma strtol_clamp l z r : num l z -> stops r -> strtol (l ++ r) = Ret (clamp64 z).
Proof.
  intros Hn Hr. destruct (stops_digit r Hr) as (c' & r'' & E' & D & _).
  assert (Hr' : forall c r', r = c :: r' -> isdigit c = false) by (intros c r' E; rewrite E' in E; injection E as -> _; exact D).
  assert (H0 : r <> []) by (rewrite E'; discriminate). clear E' D c' r'' Hr. unfold strtol.
  destruct Hn as [l z H|l z H]; destruct (dec_digits _ _ H) as (Hl & Hd & He); destruct (He 0%Z r Hr' H0) as (m & E & Hz0 & _).
  - destruct l as [|c l]; [congruence|]. inversion Hd; subst. destruct (digit_chars c) as (S1 & S2 & S3 & _ & _); auto.
    cbn [app skip_space]. rewrite S1. apply Z.eqb_neq in S2, S3. rewrite S2, S3. cbn [app] in E. rewrite E. cbn [bind]. now rewrite Z.add_0_l.
  - cbn [app skip_space]. change (isspace 45%Z) with false. cbv iota. change (45 =? 45)%Z with true. cbv iota. rewrite E. cbn [bind].
    now rewrite Z.mul_0_l, Z.add_0_l.
Qed.
Lemma values_large ts xs : Forall2 (value_text max_int "int") ts xs -> forall t z ts' r v fuel done m, stops r -> wview r (ts ++ t :: ts') v -> length ts < fuel ->
  num t z -> (max_int < Z.abs z)%Z -> (- INT64_MAX <= z)%Z -> (max_int < INT64_MAX)%Z ->
  values_loop max_int fuel false v (done ++ repeat 0%R (length xs + m)) (length done) = Fail.
Proof.
  induction 1 as [|u x ts xs Hu _ IH]; intros t z ts' r v fuel done m Hr Hv L Hn Hz Hb Hm; (destruct fuel as [|fuel]; [cbn in L; lia|]); cbn [app] in Hv;
    destruct (wview_next r _ _ v Hr Hv) as (q & v' & E & Hq & Hv' & (Nt & _)); cbn [values_loop]; rewrite E; cbn [bind].
  - change (vsize (V t q)) with (length t). destruct (Nat.eqb_spec (length t) 0) as [X|_]; [destruct t; [contradiction|discriminate]|].
    change (tail (V t q)) with (t ++ q). rewrite (strtod_real _ _ _ (num_real _ _ Hn) Hq). cbn [bind]. rewrite (strtol_clamp _ _ _ Hn Hq). cbn [bind].
    assert (max_int < Z.abs (clamp64 z) /\ clamp64 z <> - INT64_MAX - 1)%Z as (C1 & C2) by (unfold clamp64, INT64_MAX in *; lia).
    apply Z.eqb_neq in C2. rewrite C2. apply Z.ltb_lt in C1. rewrite C1. reflexivity.
  - change (vsize (V u q)) with (length u). destruct (Nat.eqb_spec (length u) 0) as [X|_]; [destruct u; [contradiction|discriminate]|].
    change (tail (V u q)) with (u ++ q). destruct (value_ok "int" u x q Hu Hq) as (_ & -> & E2). change (floats "int") with false in E2. cbv iota in E2. cbn [bind]. rewrite E2. cbn [bind length Nat.add repeat].
    rewrite Xdmf_Proofs.wr_mid by auto. cbn [bind]. cbn in L.
    specialize (IH t z ts' r v' fuel (done ++ [x]) m Hr Hv' ltac:(lia) Hn Hz Hb Hm). rewrite app_length, <- !app_assoc in IH. cbn in IH. rewrite Nat.add_1_r in IH. exact IH.
Qed.
Lemma data_large body xss : Forall2 (values_text max_int "int") body xss -> forall l ts xs t z ts' ls st fuel done m, pending st (body ++ l :: ls) -> length body < fuel ->
  words (ts ++ t :: ts') l -> Forall2 (value_text max_int "int") ts xs -> num t z -> (max_int < Z.abs z)%Z -> (- INT64_MAX <= z)%Z -> (max_int < INT64_MAX)%Z ->
  data_loop max_int fuel false (done ++ repeat 0%R (length (concat xss) + (length xs + m))) (length done) st = Fail.
Proof.
  induction 1 as [|l0 xs0 body xss (Nl & us & W0 & Hx0) _ IH]; intros l ts xs t z ts' ls st fuel done m P L W Hx Hn Hz Hb Hm; (destruct fuel as [|fuel]; [cbn in L; lia|]); cbn [app] in P;
    destruct (getline_some _ _ _ P) as (st1 & E1 & P1); pose proof (pending_line _ _ _ P) as O; cbn [data_loop]; rewrite E1, (proj1 P1).
  - pose proof (words_len _ _ W) as Lw. rewrite app_length in Lw. cbn in Lw. destruct l as [|c l]; [cbn in Lw; lia|]. change (first_char (c :: l)) with c.
    destruct (Z.eqb_spec c 0) as [->|_]; [exfalso; apply O; now left|]. rewrite (view_line _ O). cbn [concat length Nat.add].
    pose proof (values_large ts xs Hx t z ts' [0%Z] (V (c :: l) [0%Z]) (S (length l)) done m stops_nul (wv_text _ _ _ W)) as E. cbn [length] in Lw. rewrite E; auto. lia.
  - destruct l0 as [|c l0]; [contradiction|]. change (first_char (c :: l0)) with c. destruct (Z.eqb_spec c 0) as [->|_]; [exfalso; apply O; now left|].
    rewrite (view_line _ O). cbn [concat]. rewrite app_length, <- Nat.add_assoc.
    pose proof (values_loop_ok "int" us xs0 Hx0 [0%Z] _ (length (c :: l0)) done (length (concat xss) + (length xs + m)) stops_nul (wv_text _ _ _ W0)) as E. change (floats "int") with false in E.
    rewrite E by now apply words_len. cbn [bind fst snd]. cbn [length] in L. specialize (IH l ts xs t z ts' ls st1 fuel (done ++ xs0) m P1 ltac:(lia) W Hx Hn Hz Hb Hm).
    rewrite app_length, <- !app_assoc in IH. exact IH.
Qed.
Lemma read_large pre vs es ls post : grid_text pre vs es -> file_text ls post -> large_text max_int (length es) ls -> (max_int < INT64_MAX)%Z ->
  readVTKFile checks max_int stdsort (Some (pre ++ post)) empty_soup = Fail.
Proof.
  intros G Ft Lt Hm. destruct (grid_read pre vs es post G) as (s & Hs & Ne & ->). pose proof (pending_text _ _ Ft) as P.
  destruct Lt as [h1 t1 k1 k2 h2 k name more h3 body xss l ts xs t z ts' ls H1 Ht1 H2 Wn H3 Hb W Hx Hn Hz Hl Hc].
  rewrite (peek_some _ _ _ P). destruct (getline_some _ _ _ P) as (st1 & E1 & P1). pose proof (pending_line _ _ _ P) as O. cbn [fuel_of sections].
  rewrite E1, (proj1 P1).
  assert (Fc : (first_char h1 =? 0)%Z = false) by (rewrite H1; reflexivity). rewrite Fc, (view_line _ O), begins_yes by (eapply after_begins; eauto). cbn [bind].
  destruct (cell_data_head s (mkA vs es []) st1 h1 t1 k1 k2 h2 k name "int" more h3 (body ++ l :: ls) Hs P1 O H1 Ht1 H2 Wn H3) as (st2 & P2 & ->); [cbn; auto|].
  cbv zeta. cbn [a_elems]. change (floats "int") with false.
  replace (length es) with (length (concat xss) + (length xs + (length es - length (concat xss) - length xs))) at 1 by lia.
  pose proof (data_large body xss Hb l ts xs t z ts' ls st2 (fuel_of st2) [] (length es - length (concat xss) - length xs) P2) as E. cbn [app length] in E. rewrite E; auto.
  apply pending_len in P2. rewrite app_length in P2. cbn in P2. unfold fuel_of. lia.
Qed.
Lemma header_bad s l1 l2 l3 ls t : file_text (l1 :: l2 :: l3 :: ls) t -> ~ begins "# vtk DataFile Version 3.0" l1 \/ ~ begins "ASCII" l3 ->
  readVTKFile checks max_int stdsort (Some t) s = Fail.
Proof.
  intros Ft H. pose proof (pending_text _ _ Ft) as P. unfold readVTKFile. destruct (getline_some _ _ _ P) as (st1 & E1 & P1). rewrite E1, (view_line _ (pending_line _ _ _ P)).
  destruct (begins_ok l1 "# vtk DataFile Version 3.0" [0%Z]) as (b1 & B1 & X1). rewrite B1. cbn [bind]. destruct b1; cbn [negb]; [|reflexivity].
  destruct (getline_some _ _ _ P1) as (st2 & E2 & P2). rewrite E2. destruct (getline_some _ _ _ P2) as (st3 & E3 & P3). rewrite E3, (view_line _ (pending_line _ _ _ P2)).
  destruct H as [H|H]; [exfalso; now apply H, X1|]. now rewrite begins_no by auto.
Qed.
End Proofs.
