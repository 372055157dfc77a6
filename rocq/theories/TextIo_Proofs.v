(** Proofs about text input. *)
From Coq Require Import List Arith ZArith Bool Reals Lia Lra.
From Verif Require Import Base StringView_Model StringView_Spec StringView_Proofs TextIo_Model TextIo_Spec.
Import ListNotations.
Local Open Scope nat_scope.

(** ** Lines *)
(** the lines that have not been read *)
Definition pending (st : stream) (ls : list (list char)) : Prop :=
  failbit st = false /\
  match ls with
  | [] => rest st = []
  | _ => eofbit st = false /\ file_text ls (rest st)
  end.
Lemma scan_line l r n : ~ In NEWLINE l -> length l <= n -> scan n (l ++ NEWLINE :: r) = (l, r, Delim).
Proof.
  revert n. induction l as [|c l IH]; intros n H L; cbn in *.
  - destruct n; reflexivity.
  - destruct (Z.eqb_spec c NEWLINE) as [->|X]; [exfalso; auto|]. destruct n as [|n]; [lia|]. cbn [scan]. apply Z.eqb_neq in X. rewrite X, IH by (auto; lia). reflexivity.
Qed.
Lemma scan_last l n : ~ In NEWLINE l -> length l <= n -> scan n l = (l, [], Eof).
Proof.
  revert n. induction l as [|c l IH]; intros n H L; cbn in *.
  - destruct n; reflexivity.
  - destruct (Z.eqb_spec c NEWLINE) as [->|X]; [exfalso; auto|]. destruct n as [|n]; [lia|]. cbn [scan]. apply Z.eqb_neq in X. rewrite X, IH by (auto; lia). reflexivity.
Qed.
Lemma cstr_id l : ~ In 0%Z l -> cstr l = l.
Proof.
  induction l as [|c l IH]; intros H; cbn in *; auto. destruct (Z.eqb_spec c 0) as [->|_]; [exfalso; auto|]. f_equal. auto.
Qed.
Lemma file_text_cons l ls t : file_text (l :: ls) t -> line_ok l /\
  ((exists r, t = l ++ NEWLINE :: r /\ file_text ls r) \/ (ls = [] /\ l <> [] /\ t = l)).
Proof.
  intros H. inversion H as [x F E|x m F M N E]; subst.
  - inversion F; subst. split; auto. left. cbn. exists (concat (map (fun l => l ++ [NEWLINE]) ls)). rewrite <- app_assoc. split; auto. now constructor.
  - destruct x as [|y x]; cbn in E.
    + injection E as -> <-. split; auto.
    + injection E as -> E. inversion F; subst. split; auto. left. cbn.
      exists (concat (map (fun l => l ++ [NEWLINE]) x) ++ m). rewrite <- !app_assoc. split; auto. now constructor.
Qed.
Lemma file_text_nil t : file_text [] t -> t = [].
Proof. intros H. inversion H as [|x ? ? ? ? E]; subst; auto. destruct x; discriminate. Qed.
Lemma getline_some st l ls : pending st (l :: ls) -> exists st', getline st = (l, st') /\ pending st' ls.
Proof.
  intros (F & E & T). unfold getline, good. rewrite F, E. cbn [negb andb].
  destruct (file_text_cons _ _ _ T) as ((L & N & _) & [(r & Er & Tr)|(-> & Hl & Er)]); rewrite Er.
  - rewrite scan_line by (auto; lia). eexists. split; [reflexivity|]. split; auto. destruct ls; cbn [rest eofbit]; auto. now apply file_text_nil.
  - rewrite scan_last by (auto; lia). eexists. split; [reflexivity|]. split; cbn; auto. destruct l; auto. now contradiction Hl.
Qed.
Lemma getline_none st : pending st [] -> exists st', getline st = ([], st') /\ failbit st' = true.
Proof.
  intros (F & E). unfold getline. destruct (good st); [|eexists; split; reflexivity]. rewrite E. cbn. destruct (max_line_length - 1); eexists; split; reflexivity.
Qed.
Lemma peek_some st l ls : pending st (l :: ls) -> peek_eof st = (false, st).
Proof.
  intros (F & E & T). unfold peek_eof, good. rewrite F, E. cbn [negb andb].
  destruct (file_text_cons _ _ _ T) as (_ & [(r & Er & Tr)|(-> & Hl & Er)]); rewrite Er; destruct l; auto. now contradiction Hl.
Qed.
Lemma peek_none st : pending st [] -> fst (peek_eof st) = true.
Proof. intros (F & E). unfold peek_eof. destruct (good st); auto. rewrite E. reflexivity. Qed.
Lemma peek_fail st : failbit st = true -> fst (peek_eof st) = true.
Proof. intros F. unfold peek_eof, good. rewrite F, andb_false_r. reflexivity. Qed.
Lemma pending_line st l ls : pending st (l :: ls) -> line_ok l.
Proof. intros (_ & _ & T). now apply file_text_cons in T. Qed.
Lemma view_of_line st l ls : pending st (l :: ls) -> view_of l = view l.
Proof. intros H. apply pending_line in H. destruct H as (_ & _ & H). unfold view_of. now rewrite cstr_id. Qed.
Lemma joined_len (q : list (list char)) : length q <= length (concat (map (fun l => l ++ [NEWLINE]) q)).
Proof. induction q as [|y z IH]; cbn; [lia|]. rewrite !app_length. cbn. lia. Qed.
Lemma text_len ls t : file_text ls t -> length ls <= length t.
Proof.
  intros [q F|q m F M N].
  - apply joined_len.
  - rewrite !app_length. cbn [length]. pose proof (joined_len q). destruct m; [now contradiction N|]. cbn [length]. lia.
Qed.
Lemma pending_len st ls : pending st ls -> length ls <= length (rest st).
Proof. intros (_ & H). destruct ls as [|l ls]; [cbn; lia|]. now apply text_len. Qed.
Lemma pending_text ls t : file_text ls t -> pending (mkStream t false false) ls.
Proof. intros H. split; auto. cbn. destruct ls; auto. now apply file_text_nil. Qed.

(** ** Numbers *)
Definition stops (r : list char) : Prop := exists c r', r = c :: r' /\ (c = COMMA \/ c = SPACE \/ c = 0%Z).
Lemma span_dec l z : dec l z -> forall acc n r, span (l ++ r) acc n = span r (acc * 10 ^ Z.of_nat (length l) + z)%Z (n + length l).
Proof.
  assert (ID : forall d, (0 <= d <= 9)%Z -> isdigit (48 + d)%Z = true).
  { intros d Hd. unfold isdigit. apply andb_true_iff. rewrite !Z.leb_le. lia. }
  induction 1 as [d Hd|l z d H IH Hd]; intros acc n r.
  - cbn [app span length]. rewrite ID by auto. f_equal; [|lia]. change (10 ^ Z.of_nat 1)%Z with 10%Z. lia.
  - rewrite <- app_assoc, IH. cbn [app span]. rewrite ID by auto. rewrite app_length. cbn [length]. f_equal; [|lia].
    replace (Z.of_nat (length l + 1)) with (Z.of_nat (length l) + 1)%Z by lia. rewrite Z.pow_add_r by lia. lia.
Qed.
Lemma span_end c r acc n : isdigit c = false -> span (c :: r) acc n = Ret (acc, n, c :: r).
Proof. intros H. cbn. now rewrite H. Qed.
Lemma dec_head l z : dec l z -> exists c l', l = c :: l' /\ isdigit c = true.
Proof. intros H. apply dec_digits in H. destruct H as (N & F & _). destruct l as [|c l]; [contradiction|]. inversion F; subst. eauto. Qed.
Lemma sign_digit c r : isdigit c = true \/ c = DOT -> sign_of (c :: r) = (false, c :: r).
Proof.
  intros H. unfold sign_of. assert (c <> 45%Z /\ c <> 43%Z) as (H1 & H2).
  { destruct H as [H| ->]; [apply digit_chars in H; tauto|]. split; discriminate. }
  apply Z.eqb_neq in H1, H2. now rewrite H1, H2.
Qed.
Lemma stops_digit r : stops r -> exists c r', r = c :: r' /\ isdigit c = false /\ c <> DOT /\ c <> 101%Z /\ c <> 69%Z.
Proof. intros (c & r' & -> & H). exists c, r'. split; auto. destruct H as [-> |[-> | ->]]; repeat split; discriminate. Qed.
Lemma exponent_text t e r : exp_text t e -> stops r -> exponent (t ++ r) = Ret e.
Proof.
  intros H Hr. destruct (stops_digit r Hr) as (c & r' & -> & D1 & D2 & D3 & D4). destruct H as [|x l e Hx Hs].
  - cbn. apply Z.eqb_neq in D3, D4. now rewrite D3, D4.
  - cbn [app exponent]. assert (X : ((x =? 101) || (x =? 69))%Z = true) by (destruct Hx as [-> | ->]; reflexivity). rewrite X.
    assert (G : forall l i, dec l i -> span (l ++ c :: r') 0 0 = Ret (i, length l, c :: r')).
    { intros m i Hm. rewrite (span_dec m i Hm). rewrite span_end by auto. f_equal. }
    destruct Hs as [l i Hl|l i Hl|l i Hl].
    + destruct (dec_head l i Hl) as (y & l' & -> & Hy). cbn [app]. rewrite (sign_digit y (l' ++ c :: r')) by auto. change (y :: l' ++ c :: r') with ((y :: l') ++ c :: r'). rewrite (G _ i Hl). reflexivity.
    + cbn [app sign_of Z.eqb Pos.eqb]. rewrite (G _ i Hl). reflexivity.
    + cbn [app sign_of Z.eqb Pos.eqb]. rewrite (G _ i Hl). reflexivity.
Qed.
Lemma pow10 k : powerRZ 10 (- Z.of_nat k) = (/ 10 ^ k)%R.
Proof. rewrite powerRZ_neg', <- pow_powerRZ. reflexivity. Qed.
Lemma exp_not_digit t e r : exp_text t e -> stops r -> exists c r', t ++ r = c :: r' /\ isdigit c = false /\ c <> DOT.
Proof.
  intros H Hr. destruct (stops_digit r Hr) as (c & r' & -> & D1 & D2 & D3 & D4). destruct H as [|x l e Hx Hs].
  - exists c, r'. auto.
  - exists x, (l ++ c :: r'). split; [reflexivity|]. destruct Hx as [-> | ->]; split; try reflexivity; discriminate.
Qed.
Lemma mantissa_head l m : mantissa l m -> exists c l', l = c :: l' /\ (isdigit c = true \/ c = DOT).
Proof.
  intros [l' i H|l' i H|l' i m' f H _|m' f _].
  - destruct (dec_head _ _ H) as (c & l'' & -> & D). eauto.
  - destruct (dec_head _ _ H) as (c & l'' & -> & D). cbn. eauto.
  - destruct (dec_head _ _ H) as (c & l'' & -> & D). cbn. eauto.
  - cbn. eauto.
Qed.
Lemma dec_len l z : dec l z -> 0 < length l.
Proof. intros H. destruct (dec_head l z H) as (c & l' & -> & _). cbn. lia. Qed.
(** what [strtod] does after the sign *)
Definition unsigned (l : list char) : outcome R :=
  let* r := span l 0 0 in
  let '(m, n, l) := r in
  let* r := (match l with
             | c :: l' => if (c =? DOT)%Z then span l' m 0 else Ret (m, 0, l)
             | [] => Ub
             end) in
  let '(m, k, l) := r in
  if n + k =? 0 then Ret 0%R
  else let* e := exponent l in Ret (IZR m * powerRZ 10 (e - Z.of_nat k))%R.
Lemma strtod_unsigned l : strtod l = let '(neg, l) := sign_of (skip_space l) in let* x := unsigned l in Ret (if neg then - x else x)%R.
Proof.
  unfold strtod, unsigned. destruct (sign_of (skip_space l)) as (neg, l'). destruct (span l' 0 0) as [[[m n] q]| | |]; cbn [bind]; auto.
  destruct q as [|c q]; cbn [bind]; auto. destruct (c =? DOT)%Z.
  - destruct (span q m 0) as [[[m' k] q']| | |]; cbn [bind]; auto. destruct (n + k =? 0); cbn [bind].
    + destruct neg; auto. now rewrite Ropp_0.
    + destruct (exponent q'); reflexivity.
  - cbn [bind]. destruct (n + 0 =? 0); cbn [bind].
    + destruct neg; auto. now rewrite Ropp_0.
    + destruct (exponent (c :: q)); reflexivity.
Qed.
Lemma unsigned_text l m t e r : mantissa l m -> exp_text t e -> stops r -> unsigned (l ++ t ++ r) = Ret (m * powerRZ 10 e)%R.
Proof.
  intros Hm He Hr. destruct (exp_not_digit t e r He Hr) as (c & q & E & D1 & D2). pose proof (exponent_text t e r He Hr) as X. rewrite E in *.
  apply Z.eqb_neq in D2. unfold unsigned. destruct Hm as [l i H|l i H|l i m f H Hf|m f Hf].
  - rewrite (span_dec l i H), span_end by auto. cbn [bind Nat.add]. rewrite D2. cbn [bind]. pose proof (dec_len l i H) as L.
    destruct (Nat.eqb_spec (length l + 0) 0); [lia|]. rewrite X. cbn [bind]. f_equal. rewrite Z.mul_0_l, Z.add_0_l. f_equal. f_equal. cbn. lia.
  - rewrite <- app_assoc, (span_dec l i H). cbn [app]. rewrite (span_end DOT) by reflexivity. cbn [bind Nat.add]. rewrite Z.eqb_refl, span_end by auto. cbn [bind].
    pose proof (dec_len l i H) as L. destruct (Nat.eqb_spec (length l + 0) 0); [lia|]. rewrite X. cbn [bind]. f_equal. rewrite Z.mul_0_l, Z.add_0_l. f_equal. f_equal. cbn. lia.
  - rewrite <- app_assoc, (span_dec l i H). cbn [app]. rewrite (span_end DOT) by reflexivity. cbn [bind Nat.add]. rewrite Z.eqb_refl, (span_dec m f Hf), span_end by auto. cbn [bind Nat.add].
    pose proof (dec_len l i H) as L. destruct (Nat.eqb_spec (length l + length m) 0); [lia|]. rewrite X. cbn [bind]. f_equal.
    unfold Z.sub. rewrite powerRZ_add by lra. rewrite pow10, plus_IZR, !mult_IZR, <- pow_IZR. cbn [IZR]. rewrite plus_IZR, mult_IZR. field. apply pow_nonzero. lra.
  - cbn [app]. rewrite (span_end DOT) by reflexivity. cbn [bind Nat.add]. rewrite Z.eqb_refl, (span_dec m f Hf), span_end by auto. cbn [bind Nat.add].
    pose proof (dec_len m f Hf) as L. destruct (Nat.eqb_spec (length m) 0); [lia|]. rewrite X. cbn [bind]. f_equal.
    unfold Z.sub. rewrite powerRZ_add by lra. rewrite pow10, Z.mul_0_l, Z.add_0_l. field. apply pow_nonzero. lra.
Qed.
Lemma skip_blanks a l : skip_space (blanks a ++ l) = skip_space l.
Proof. induction a as [|a IH]; auto. Qed.
Lemma strtod_text a l x r : real_text l x -> stops r -> strtod (blanks a ++ l ++ r) = Ret x.
Proof.
  intros H Hr. rewrite strtod_unsigned, skip_blanks. destruct H as [l m t e Hm He|l m t e Hm He|l m t e Hm He].
  - rewrite <- app_assoc. destruct (mantissa_head l m Hm) as (c & l' & -> & Hc). cbn [app skip_space].
    assert (isspace c = false) as -> by (destruct Hc as [Hc| ->]; [now apply digit_chars in Hc|reflexivity]).
    rewrite sign_digit by auto. change (c :: l' ++ t ++ r) with ((c :: l') ++ t ++ r). rewrite (unsigned_text _ m _ e) by auto. reflexivity.
  - cbn [app skip_space isspace Z.eqb Pos.eqb orb Z.leb Z.compare Pos.compare Pos.compare_cont andb sign_of]. rewrite <- app_assoc, (unsigned_text _ m _ e) by auto. reflexivity.
  - cbn [app skip_space isspace Z.eqb Pos.eqb orb Z.leb Z.compare Pos.compare Pos.compare_cont andb sign_of]. rewrite <- app_assoc, (unsigned_text _ m _ e) by auto. reflexivity.
Qed.
Lemma stops_blanks b r : stops r -> stops (blanks b ++ r).
Proof. destruct b as [|b]; auto. intros _. exists SPACE, (blanks b ++ r). auto. Qed.
Lemma strtod_tok t x r : real_tok t x -> stops r -> strtod (t ++ r) = Ret x.
Proof.
  intros (a & l & b & -> & H) Hr. rewrite <- !app_assoc. apply strtod_text; auto. now apply stops_blanks.
Qed.
Lemma strto_tok t z r : int_tok t z -> stops r -> strto_int32 (t ++ r) = Ret z.
Proof.
  intros (a & l & b & -> & H & Hz) Hr. rewrite <- !app_assoc. unfold strto_int32, strtol. rewrite skip_blanks.
  fold (strtol (l ++ blanks b ++ r)). fold (strto_int32 (l ++ blanks b ++ r)). apply strto_num; auto.
  - intros c r' E. pose proof (stops_blanks b r Hr) as S'. destruct (stops_digit _ S') as (c' & r'' & E' & D & _). rewrite E' in E. injection E as -> _. exact D.
  - intros E. pose proof (stops_blanks b r Hr) as (c' & r'' & E' & _). congruence.
Qed.
(** a number contains neither commas nor line ends *)
Definition num_char (c : char) : Prop := (isdigit c = true \/ c = DOT \/ c = 43 \/ c = 45 \/ c = 101 \/ c = 69)%Z.
Lemma num_char_ok c : num_char c -> c <> COMMA /\ c <> SPACE /\ c <> STAR /\ c <> 0%Z /\ c <> NEWLINE.
Proof.
  intros H. assert (D : isdigit c = true -> (48 <= c <= 57)%Z).
  { unfold isdigit. rewrite andb_true_iff, !Z.leb_le. lia. }
  unfold COMMA, SPACE, STAR, NEWLINE. destruct H as [H|H]; [specialize (D H); lia|]. unfold DOT in H. lia.
Qed.
Lemma dec_chars l z : dec l z -> Forall num_char l.
Proof. intros H. apply dec_digits in H. eapply Forall_impl; [|apply H]. intros c Hc. now left. Qed.
Lemma real_chars l x : real_text l x -> l <> [] /\ Forall num_char l.
Proof.
  assert (M : forall l m, mantissa l m -> Forall num_char l).
  { assert (D : num_char DOT) by (right; now left).
    intros ? ? [l' i H|l' i H|l' i m' f H H'|m' f H']; try apply dec_chars in H; try apply dec_chars in H'; auto.
    - apply Forall_app; auto.
    - apply Forall_app; split; auto. cbn. auto.
    - cbn. auto. }
  assert (E : forall t e, exp_text t e -> Forall num_char t).
  { intros ? ? [|c l' e Hc H]; auto. constructor; [unfold num_char; intuition|].
    destruct H as [l'' i H|l'' i H|l'' i H]; apply dec_chars in H; auto; constructor; auto; unfold num_char; intuition. }
  intros [l' m t e H H'|l' m t e H H'|l' m t e H H']; (split; [|]).
  - destruct (mantissa_head _ _ H) as (c & q & -> & _). discriminate.
  - apply Forall_app; eauto.
  - discriminate.
  - constructor; [unfold num_char; intuition|]. apply Forall_app; eauto.
  - discriminate.
  - constructor; [unfold num_char; intuition|]. apply Forall_app; eauto.
Qed.
Lemma num_chars' l z : num l z -> l <> [] /\ Forall num_char l.
Proof.
  intros H. split.
  - destruct (num_head _ _ H) as (c & q & -> & _). discriminate.
  - destruct H as [l z H|l z H]; apply dec_chars in H; auto. constructor; auto. unfold num_char; intuition.
Qed.
Lemma tok_chars a l b : l <> [] -> Forall num_char l -> let t := blanks a ++ l ++ blanks b in
  t <> [] /\ ~ In COMMA t /\ (forall r, t <> STAR :: r) /\ ~ In NEWLINE t /\ ~ In 0%Z t.
Proof.
  intros N F t. assert (B : forall c, In c t -> c = SPACE \/ num_char c).
  { intros c H. unfold t, blanks in H. rewrite !in_app_iff in H. rewrite Forall_forall in F. destruct H as [H|[H|H]]; auto; left; now apply repeat_spec in H. }
  split; [|split; [|split; [|split]]].
  - unfold t. destruct a; [destruct l; [contradiction|discriminate]|discriminate].
  - intros H. destruct (B _ H) as [X|X]; [discriminate|]. now apply num_char_ok in X.
  - intros r E. destruct (B STAR) as [X|X]; [rewrite E; now left|discriminate|]. now apply num_char_ok in X.
  - intros H. destruct (B _ H) as [X|X]; [discriminate|]. now apply num_char_ok in X.
  - intros H. destruct (B _ H) as [X|X]; [discriminate|]. now apply num_char_ok in X.
Qed.
Lemma real_tok_chars t x : real_tok t x -> t <> [] /\ ~ In COMMA t /\ (forall r, t <> STAR :: r) /\ ~ In NEWLINE t /\ ~ In 0%Z t.
Proof. intros (a & l & b & -> & H). apply real_chars in H. now apply tok_chars. Qed.
Lemma int_tok_chars t z : int_tok t z -> t <> [] /\ ~ In COMMA t /\ (forall r, t <> STAR :: r) /\ ~ In NEWLINE t /\ ~ In 0%Z t.
Proof. intros (a & l & b & -> & H & _). apply num_chars' in H. now apply tok_chars. Qed.
(** examples of numbers *)
Lemma real_tok_int k l z : dec l z -> real_tok (blanks k ++ l) (IZR z).
Proof.
  intros H. exists k, l, 0. cbn [blanks repeat]. rewrite app_nil_r. split; auto.
  replace (IZR z) with (IZR z * powerRZ 10 0)%R by (cbn; lra). rewrite <- (app_nil_r l) at 1. apply rt_none; [now apply m_int|constructor].
Qed.
Lemma int_tok_dec k l z : dec l z -> int32 z -> int_tok (blanks k ++ l) z.
Proof. intros H Hz. exists k, l, 0. cbn [blanks repeat]. rewrite app_nil_r. split; auto. split; auto. now constructor. Qed.
