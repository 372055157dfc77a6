(** Proofs about the logger. *)
From Coq Require Import String Ascii.
From Coq Require Import List Arith ZArith Bool Lia.
From Verif Require Import Base Loops StringView_Model StringView_Spec StringView_Proofs Ascii_Proofs Soup_Model Fvm_Query_Proofs Logger_Model Logger_Spec.
Import ListNotations.
Local Open Scope list_scope.
Local Open Scope Z_scope.

(** ** Decimal texts *)
Lemma udec_ok f : forall n, 0 <= n < 10 ^ Z.of_nat (S f) ->
  dec (udec (S f) n) n /\ (0 < n -> forall r, udec (S f) n <> 48 :: r) /\ (n < 10 -> length (udec (S f) n) = 1%nat).
Proof.
  induction f as [|f IH]; intros n Hn.
  - cbn [udec]. change (10 ^ Z.of_nat 1) with 10 in Hn. destruct (Z.ltb_spec n 10); [|lia].
    repeat split; [constructor; lia|]. intros Hp r E. apply (f_equal (hd 0)) in E. cbn [hd] in E. unfold char in *; lia.
  - change (udec (S (S f)) n) with (if n <? 10 then [48 + n] else udec (S f) (n / 10) ++ [48 + n mod 10]).
    destruct (Z.ltb_spec n 10).
    + repeat split; [constructor; lia|]. intros Hp r E. apply (f_equal (hd 0)) in E. cbn [hd] in E. unfold char in *; lia.
    + assert (0 <= n / 10 < 10 ^ Z.of_nat (S f)).
      { split; [apply Z.div_pos; lia|]. apply Z.div_lt_upper_bound; [lia|].
        rewrite Nat2Z.inj_succ, Z.pow_succ_r in Hn by lia. lia. }
      destruct (IH (n / 10)) as (D & L & _); [lia|].
      set (u := udec (S f) (n / 10)) in *. clearbody u.
      assert (0 < n / 10) by (apply Z.div_str_pos; lia).
      pose proof (Z.mod_pos_bound n 10 ltac:(lia)).
      split; [|split; [|lia]].
      * pose proof (dec_more u (n / 10) (n mod 10) D ltac:(lia)) as X. now rewrite <- Z.div_mod in X by lia.
      * intros _ r E. destruct u as [|c u']; [apply dec_digits in D; now destruct D|]. apply (f_equal (hd 0)) in E. cbn [hd app] in E. subst c.
        now apply (L ltac:(lia) u').
Qed.
Lemma decimal_shown z : in_64 z -> shown (AInt z) (decimal z).
Proof.
  intros [H1 H2]. cbn [shown]. unfold decimal.
  assert (E : 10 ^ Z.of_nat 20 = 100000000000000000000) by reflexivity.
  change (2 ^ 63) with 9223372036854775808 in H1. change (2 ^ 64) with 18446744073709551616 in H2.
  destruct (Z.ltb_spec z 0).
  - destruct (udec_ok 19 (- z)) as (D & L & _); [rewrite E; lia|].
    split; [replace z with (- - z) at 2 by lia; now apply num_neg|]. split; [discriminate|].
    intros r X. injection X as X. now apply (L ltac:(lia) r).
  - destruct (udec_ok 19 z) as (D & L & S1); [rewrite E; lia|].
    split; [now apply num_pos|]. split.
    + intros c r X. destruct (Z.eq_dec z 0) as [->|]; [specialize (S1 ltac:(lia)); rewrite X in S1; discriminate|].
      now apply (L ltac:(lia) (c :: r)).
    + intros r X. apply dec_digits in D. destruct D as (_ & D & _). rewrite X in D. inversion D. discriminate.
Qed.
Lemma decimal_len z : in_64 z -> (1 <= length (decimal z))%nat.
Proof. intros H. apply decimal_shown in H. destruct H as (H & _ & _). inversion H; subst; [now apply dec_len_pos in H0|cbn; lia]. Qed.
Lemma isdigit_range c : isdigit c = true -> 48 <= c <= 57.
Proof. unfold isdigit. intros H. apply andb_true_iff in H. destruct H as [H1 H2]. apply Z.leb_le in H1, H2. lia. Qed.
Lemma dec_no0 l z : dec l z -> ~ In 0 l.
Proof. intros H. apply dec_digits in H. destruct H as (_ & H & _). rewrite Forall_forall in H. intros X. apply H in X. apply isdigit_range in X. lia. Qed.
Lemma num_no0 l z : num l z -> ~ In 0 l.
Proof. intros [? ? H|? ? H]; apply dec_no0 in H; [auto|]. intros [X|X]; [discriminate|auto]. Qed.

(** ** Time stamps *)
Lemma two_ok n : 0 <= n < 100 -> dec (two n) n /\ length (two n) = 2%nat.
Proof.
  intros H. unfold two. destruct (Z.ltb_spec n 10); split; auto.
  - replace n with (10 * 0 + n) at 2 by lia. rewrite (Z.add_comm n). change [48; 48 + n] with ([48 + 0] ++ [48 + n]).
    apply dec_more; [constructor|]; lia.
  - rewrite Z.quot_div_nonneg, Z.rem_mod_nonneg by lia. rewrite !(Z.add_comm _ 48).
    assert (0 <= n / 10 < 10) by (split; [apply Z.div_pos; lia|apply Z.div_lt_upper_bound; lia]).
    pose proof (Z.mod_pos_bound n 10 ltac:(lia)). pose proof (Z.div_mod n 10 ltac:(lia)).
    replace n with (10 * (n / 10) + n mod 10) at 3 by lia.
    change [48 + n / 10; 48 + n mod 10] with ([48 + n / 10] ++ [48 + n mod 10]). apply dec_more; [constructor|]; lia.
Qed.
Lemma three_ok n : 0 <= n < 1000 -> dec (three n) n /\ length (three n) = 3%nat.
Proof.
  intros H. unfold three.
  assert (G : forall a b c, 0 <= a <= 9 -> 0 <= b <= 9 -> 0 <= c <= 9 -> n = 100 * a + 10 * b + c -> dec [48 + a; 48 + b; 48 + c] n).
  { intros a b c A B C ->. replace (100 * a + 10 * b + c) with (10 * (10 * a + b) + c) by lia.
    change [48 + a; 48 + b; 48 + c] with (([48 + a] ++ [48 + b]) ++ [48 + c]). repeat apply dec_more; try constructor; lia. }
  destruct (Z.ltb_spec n 10); [|destruct (Z.ltb_spec n 100)]; split; auto.
  - rewrite (Z.add_comm n). apply (G 0 0 n); lia.
  - rewrite Z.quot_div_nonneg, Z.rem_mod_nonneg by lia. rewrite !(Z.add_comm _ 48).
    pose proof (Z.mod_pos_bound n 10 ltac:(lia)). pose proof (Z.div_mod n 10 ltac:(lia)).
    apply (G 0 (n / 10) (n mod 10)); lia.
  - assert (0 <= n mod 100 < 100) by (apply Z.mod_pos_bound; lia).
    rewrite (Z.rem_mod_nonneg n 100), (Z.quot_div_nonneg n 100), (Z.quot_div_nonneg (n mod 100) 10), (Z.rem_mod_nonneg (n mod 100) 10) by lia.
    rewrite !(Z.add_comm _ 48).
    pose proof (Z.mod_pos_bound (n mod 100) 10 ltac:(lia)). pose proof (Z.div_mod (n mod 100) 10 ltac:(lia)).
    pose proof (Z.div_mod n 100 ltac:(lia)). apply G; lia.
Qed.

Definition stamp_text (ns : Z) : list char :=
  let t := Z.quot ns 1000000000 in
  [91] ++ two (Z.quot t 3600) ++ [58] ++ two (Z.rem (Z.quot t 60) 60) ++ [58] ++ two (Z.rem t 60) ++ [46] ++
    three (Z.rem (Z.quot ns 1000000) 1000) ++ [93; 32].
Lemma two_len n : length (two n) = 2%nat.
Proof. unfold two. now destruct (n <? 10). Qed.
Lemma three_len n : length (three n) = 3%nat.
Proof. unfold three. destruct (n <? 10); [|destruct (n <? 100)]; auto. Qed.
Lemma stamp_len ns : length (stamp_text ns) = 15%nat.
Proof. unfold stamp_text. cbv zeta. now rewrite !app_length, !two_len, three_len. Qed.
Definition hours_100 : Z := 360000 * 1000000000.
Lemma stamp_ok ns : 0 <= ns < hours_100 -> stamp (ns / 1000000) (stamp_text ns).
Proof.
  unfold hours_100. intros H.
  set (t := ns / 1000000000).
  assert (Et : Z.quot ns 1000000000 = t) by (apply Z.quot_div_nonneg; lia).
  assert (Ht : 0 <= t < 360000) by (unfold t; split; [apply Z.div_pos; lia|apply Z.div_lt_upper_bound; lia]).
  unfold stamp_text. cbv zeta. rewrite Et.
  rewrite !(Z.quot_div_nonneg t) by lia. rewrite (Z.quot_div_nonneg ns) by lia.
  assert (0 <= t / 60) by (apply Z.div_pos; lia).
  assert (0 <= ns / 1000000) by (apply Z.div_pos; lia).
  rewrite !Z.rem_mod_nonneg by lia.
  assert (Hh : 0 <= t / 3600 < 100) by (split; [apply Z.div_pos; lia|apply Z.div_lt_upper_bound; lia]).
  pose proof (Z.mod_pos_bound (t / 60) 60 ltac:(lia)) as Hm. pose proof (Z.mod_pos_bound t 60 ltac:(lia)) as Hs.
  pose proof (Z.mod_pos_bound (ns / 1000000) 1000 ltac:(lia)) as Hf.
  exists (two (t / 3600)), (two ((t / 60) mod 60)), (two (t mod 60)), (three ((ns / 1000000) mod 1000)),
    (t / 3600), ((t / 60) mod 60), (t mod 60), ((ns / 1000000) mod 1000).
  split; [reflexivity|]. do 3 (split; [apply two_len|]). split; [apply three_len|].
  do 3 (split; [apply two_ok; lia|]). split; [apply three_ok; lia|]. split; [lia|]. split; [lia|].
  assert (E1 : t = ns / 1000000 / 1000) by (unfold t; now rewrite Z.div_div by lia).
  assert (E2 : t / 3600 = t / 60 / 60) by (now rewrite Z.div_div by lia).
  pose proof (Z.div_mod (ns / 1000000) 1000 ltac:(lia)). pose proof (Z.div_mod t 60 ltac:(lia)).
  pose proof (Z.div_mod (t / 60) 60 ltac:(lia)). rewrite <- E1 in *. rewrite <- E2 in *. lia.
Qed.

(** ** The buffer *)
Definition good (st : list char * nat) (w : list char) : Prop :=
  length (fst st) = buffer_size /\ snd st = length w /\ (length w <= buffer_size)%nat /\ firstn (length w) (fst st) = w.
Lemma blit_good buf pos w s : good (buf, pos) w -> (length w + length s <= buffer_size)%nat ->
  exists buf', blit buf pos s = Ret buf' /\ good (buf', pos + length s)%nat (w ++ s).
Proof.
  intros (L & E & Lw & F) H. cbn [fst snd] in *. subst pos.
  destruct (blit_facts buf (length w) s) as (b & -> & Lb & Fb & _); [lia|].
  exists b. split; auto. unfold good. cbn [fst snd]. rewrite app_length. repeat split; try lia.
  rewrite (Fb (length s)) by lia. rewrite F, firstn_all. reflexivity.
Qed.
Lemma blit_Ub buf pos (s : list char) : length buf = buffer_size -> (buffer_size < pos + length s)%nat -> blit buf pos s = Ub.
Proof. intros L H. unfold blit. destruct (Nat.leb_spec (pos + length s) (length buf)); [lia|auto]. Qed.
Lemma wr_blit (l : list char) i x : wr l i x = blit l i [x].
Proof.
  unfold wr, blit. cbn [length]. rewrite Nat.add_1_r.
  destruct (Nat.ltb_spec i (length l)), (Nat.leb_spec (S i) (length l)); try lia; auto.
  f_equal. clear H0. revert i H. induction l as [|a l IH]; intros i H; cbn in H; [lia|].
  destruct i; cbn; [reflexivity|]. f_equal. apply IH. lia.
Qed.

Definition arg_text (a : arg) : list char :=
  match a with AStr s => s | AChar c => [c] | AInt z => decimal z | AFloat s => s
  | ABool b => if b then [116; 114; 117; 101] else [102; 97; 108; 115; 101] end.
Lemma assert_true {A} (checks b : bool) (k : outcome A) : b = true -> assert checks b k = k.
Proof. intros ->. unfold assert. now rewrite andb_false_r. Qed.
Lemma toBuffer_ok checks st w a : good st w -> (length w + length (arg_text a) < buffer_size)%nat ->
  exists st', toBuffer checks st a = Ret st' /\ good st' (w ++ arg_text a).
Proof.
  intros G H. destruct st as [buf pos]. assert (Ep : pos = length w) by apply G.
  assert (T : forall s, s = arg_text a -> (pos + length s <? buffer_size)%nat = true) by (intros s ->; apply Nat.ltb_lt; lia).
  assert (FM : forall s, s = arg_text a -> exists st', appendFormatted checks (buf, pos) s = Ret st' /\ good st' (w ++ s)).
  { intros s Es. unfold appendFormatted. specialize (T s Es). subst s. set (s := arg_text a) in *.
    destruct (buffer_size - pos)%nat as [|k] eqn:K; [lia|].
    rewrite firstn_all2 by lia.
    destruct (blit_good buf pos w (s ++ [0]) G) as (b & -> & Gb); [rewrite app_length; cbn; lia|].
    cbn [bind]. rewrite assert_true by exact T.
    destruct (Nat.ltb_spec buffer_size (pos + length s)%nat); [lia|]. eexists. split; [reflexivity|].
    destruct Gb as (G1 & G2 & G3 & G4). unfold good in *. cbn [fst snd] in *.
    rewrite app_assoc in *. rewrite app_length in G2, G3, G4. cbn [length] in *. rewrite !app_length in *.
    repeat split; try lia. apply (f_equal (firstn (length w + length s))) in G4. rewrite firstn_firstn in G4.
    replace (Nat.min (length w + length s) (length w + length s + 1)) with (length w + length s)%nat in G4 by lia.
    rewrite G4. rewrite firstn_app. rewrite firstn_all2 by (rewrite app_length; lia).
    rewrite app_length. rewrite Nat.sub_diag. cbn. now rewrite app_nil_r. }
  destruct a as [s|c|z|s|b]; cbn [toBuffer].
  - unfold appendStringViewToBuffer. rewrite assert_true by (now apply T). cbn [arg_text] in *.
    destruct (blit_good buf pos w s G) as (b & -> & Gb); [lia|]. cbn [bind]. eauto.
  - cbn [arg_text length] in *. rewrite wr_blit. destruct (blit_good buf pos w [c] G) as (b & -> & Gb); [cbn; lia|].
    cbn [bind]. rewrite assert_true by (apply Nat.ltb_lt; lia). cbn [length] in Gb. rewrite Nat.add_1_r in Gb. eauto.
  - now apply FM.
  - now apply FM.
  - cbv zeta. change (if b then [116; 114; 117; 101] else [102; 97; 108; 115; 101]) with (arg_text (ABool b)) in *.
    destruct (blit_good buf pos w (arg_text (ABool b)) G) as (bb & -> & Gb); [lia|]. cbn [bind].
    rewrite assert_true by (now apply T). eauto.
Qed.
Lemma toBuffers_ok checks args : forall st w, good st w -> (length w + length (concat (map arg_text args)) < buffer_size)%nat ->
  exists st', toBuffers checks st args = Ret st' /\ good st' (w ++ concat (map arg_text args)).
Proof.
  induction args as [|a args IH]; intros st w G H; cbn [map concat] in *.
  - exists st. rewrite app_nil_r. auto.
  - rewrite app_length in H. cbn [toBuffers].
    destruct (toBuffer_ok checks st w a G) as (st' & -> & G'); [lia|]. cbn [bind].
    rewrite app_assoc. apply IH; [auto|rewrite app_length; lia].
Qed.

Definition color_text (s : settings) (k : msg_kind) : list char := if colorized s then color k else [].
Definition stamp_of (s : settings) (ns : Z) : list char := if timestamped s then stamp_text ns else [].
Lemma addColor_ok s k buf : length buf = buffer_size -> exists st, addColor s (number k) (buf, 0%nat) = Ret st /\ good st (color_text s k).
Proof.
  intros L. assert (G0 : good (buf, 0%nat) []) by (unfold good; cbn; rewrite L; repeat split; lia).
  unfold addColor, color_text. destruct (colorized s); [|eauto].
  destruct (blit_good buf 0 [] [27; 91; 49; 59; 51] G0) as (b & -> & Gb); [cbn; unfold buffer_size; lia|]. cbn [bind].
  cbn [length app] in Gb. change (0 + 5)%nat with 5%nat in Gb.
  destruct Gb as (G1 & _ & _ & G4). cbn [fst snd length] in *.
  rewrite wr_blit. change (0 + 6)%nat with 6%nat. change (0 + 5)%nat with 5%nat.
  do 7 (destruct b as [|? b]; [discriminate|]).
  cbn [firstn] in G4. injection G4 as -> -> -> -> ->. 
  assert (HB : forall l : list char, length l = buffer_size -> Nat.leb (6 + length [109]) (length l) = true)
    by (intros l El; apply Nat.leb_le; rewrite El; cbn; unfold buffer_size; lia).
  unfold blit at 1. rewrite HB by exact G1. cbn [bind firstn skipn Nat.add length app].
  destruct k; cbn [number]; (eexists; split; [reflexivity|]; unfold good; cbn in *; rewrite G1; repeat split; unfold buffer_size; lia).
Qed.
Definition time_ok (s : settings) (ns : Z) : Prop := timestamped s = true -> 0 <= ns < 2147483648 * 1000000.
Lemma addTimestamp_ok s ns st w : time_ok s ns -> good st w -> (length w + 15 <= buffer_size)%nat ->
  exists st', addTimestamp s ns st = Ret st' /\ good st' (w ++ stamp_of s ns).
Proof.
  intros T G H. unfold addTimestamp, stamp_of, time_ok in *. destruct (timestamped s); [|rewrite app_nil_r; eauto].
  specialize (T eq_refl). destruct st as [buf pos].
  rewrite !i32_ok.
  2:{ unfold in_i32, intMin, intMax. rewrite Z.quot_div_nonneg by lia.
      assert (0 <= ns / 1000000 <= 2147483647); [|lia]. split; [apply Z.div_pos; lia|]. apply Z.lt_succ_r, Z.div_lt_upper_bound; lia. }
  2:{ unfold in_i32, intMin, intMax. rewrite Z.quot_div_nonneg by lia.
      assert (0 <= ns / 1000000000 <= 2147483647); [|lia]. split; [apply Z.div_pos; lia|]. apply Z.lt_succ_r, Z.div_lt_upper_bound; lia. }
  cbn [bind]. fold (stamp_text ns). pose proof (stamp_len ns) as Ls.
  destruct (blit_good buf pos w (stamp_text ns) G) as (b & E & Gb); [lia|].
  rewrite E. cbn [bind]. rewrite Ls in Gb. eauto.
Qed.
Lemma addLevel_ok k st w : good st w -> (length w + 8 <= buffer_size)%nat ->
  exists st', addLevel (number k) st = Ret st' /\ good st' (w ++ codes (title k) ++ codes " - ").
Proof.
  intros G H. destruct st as [buf pos]. unfold addLevel.
  set (name := match number k with 1 => _ | _ => _ end).
  assert (En : name = codes (title k)) by (destruct k; reflexivity).
  assert (Ln : (@length char name <= 5)%nat) by (destruct k; cbn; lia).
  clearbody name. change (@length Z name) with (@length char name). destruct (blit_good buf pos w name G) as (b & -> & Gb); [lia|]. cbn [bind].
  destruct (blit_good b _ _ [32; 45; 32] Gb) as (b' & -> & Gb'); [rewrite app_length; cbn [length]; lia|]. cbn [bind].
  eexists. split; [reflexivity|]. rewrite <- En. rewrite <- app_assoc in Gb'. exact Gb'.
Qed.
Definition preamble (s : settings) (ns : Z) (k : msg_kind) : list char :=
  color_text s k ++ stamp_of s ns ++ codes (title k) ++ codes " - ".
Lemma color_len s k : (length (color_text s k) <= 7)%nat.
Proof. unfold color_text. destruct (colorized s), k; cbn; lia. Qed.
Lemma stamp_of_len s ns : (length (stamp_of s ns) <= 15)%nat.
Proof. unfold stamp_of. destruct (timestamped s); [rewrite stamp_len|cbn]; lia. Qed.
Lemma preamble_len s ns k : (length (preamble s ns k) <= 30)%nat.
Proof.
  unfold preamble. rewrite !app_length. pose proof (color_len s k). pose proof (stamp_of_len s ns).
  assert (length (codes (title k)) <= 5)%nat by (destruct k; cbn; lia). cbn [codes]. change (length (codes " - ")) with 3%nat. lia.
Qed.
Lemma setPreamble_ok s ns k buf : length buf = buffer_size -> time_ok s ns ->
  exists st, setPreamble s ns (number k) buf = Ret st /\ good st (preamble s ns k).
Proof.
  intros L T. unfold setPreamble. pose proof (color_len s k). pose proof (stamp_of_len s ns).
  assert (B : buffer_size = 256%nat) by reflexivity.
  destruct (addColor_ok s k buf L) as (st & -> & G). cbn [bind].
  destruct (addTimestamp_ok s ns st _ T G) as (st2 & -> & G2); [lia|]. cbn [bind].
  destruct (addLevel_ok k st2 _ G2) as (st3 & -> & G3); [rewrite app_length; lia|].
  rewrite <- app_assoc in G3. eauto.
Qed.
Lemma setPostamble_ok checks s st w : good st w -> (length w + length (if colorized s then reset else []) < buffer_size)%nat ->
  exists buf, setPostamble checks s st = Ret buf /\ good (buf, S (length w + length (if colorized s then reset else []))) (w ++ (if colorized s then reset else []) ++ [0]).
Proof.
  intros G H. destruct st as [buf pos]. unfold setPostamble. assert (Ep : pos = length w) by apply G.
  destruct (colorized s); cbn [length] in *.
  - destruct (blit_good buf pos w [27; 91; 48; 109] G) as (b & -> & Gb); [cbn in *; lia|]. cbn [bind].
    rewrite assert_true by (apply Nat.ltb_lt; cbn in *; lia). rewrite wr_blit.
    cbn [length] in Gb. destruct (blit_good b _ _ [0] Gb) as (b' & E' & Gb'); [rewrite app_length; cbn in *; lia|].
    exists b'. split; [exact E'|]. rewrite <- app_assoc in Gb'. cbn [length] in Gb'. change reset with [27; 91; 48; 109].
    cbn [length]. replace (S (length w + 4)) with (pos + 4 + 1)%nat by lia. exact Gb'.
  - cbn [bind]. rewrite assert_true by (apply Nat.ltb_lt; cbn in *; lia). rewrite wr_blit.
    destruct (blit_good buf pos w [0] G) as (b' & E' & Gb'); [cbn in *; lia|].
    exists b'. split; [exact E'|]. cbn [length app] in *. replace (S (length w + 0)) with (pos + 1)%nat by lia. exact Gb'.
Qed.
Lemma cstr_app w r : ~ In 0 w -> cstr (w ++ 0 :: r) = Ret w.
Proof.
  induction w as [|c w IH]; intros H; cbn [app cstr]; auto.
  destruct (Z.eqb_spec c 0) as [->|]; [exfalso; apply H; now left|]. rewrite IH; auto. intros X. apply H. now right.
Qed.
Lemma good_cstr buf n w : good (buf, n) (w ++ [0]) -> ~ In 0 w -> cstr buf = Ret w.
Proof.
  intros (_ & _ & _ & F) H. cbn [fst] in F. unfold char in *. rewrite <- (firstn_skipn (length (w ++ [0])) buf), F, <- app_assoc. now apply cstr_app.
Qed.

Definition whole (s : settings) (ns : Z) (k : msg_kind) (args : list arg) : list char :=
  preamble s ns k ++ concat (map arg_text args) ++ (if colorized s then reset else []).
Lemma printMessage_raw checks s ns k args buf : length buf = buffer_size -> time_ok s ns ->
  (length (whole s ns k args) < buffer_size)%nat -> ~ In 0 (whole s ns k args) -> number k <= level s ->
  exists buf', printMessage checks s ns (number k) args buf =
    Ret (buf', Some (mkEffect (match k with Error => Stderr | _ => Stdout end) (whole s ns k args)
      (match k with Error => exit_on_error s | _ => false end))) /\ length buf' = buffer_size /\ getLastMessage buf' = Ret (whole s ns k args).
Proof.
  intros L T W N0 Lv. unfold printMessage. destruct (Z.leb_spec (number k) (level s)); [|lia].
  unfold whole in W. rewrite !app_length in W.
  destruct (setPreamble_ok s ns k buf L T) as (st & -> & G). cbn [bind].
  destruct (toBuffers_ok checks args st _ G) as (st2 & -> & G2); [lia|]. cbn [bind].
  destruct (setPostamble_ok checks s st2 _ G2) as (b & -> & G3); [rewrite app_length; lia|]. cbn [bind].
  assert (E : cstr b = Ret (whole s ns k args)).
  { apply (good_cstr b (S (length (preamble s ns k ++ concat (map arg_text args)) + length (if colorized s then reset else [])))); auto.
    unfold whole. rewrite <- !app_assoc. rewrite <- app_assoc in G3. exact G3. }
  rewrite E. cbn [bind]. exists b. split; [|split; [apply G3|exact E]].
  destruct k; reflexivity.
Qed.

Lemma stamp_no0 ms l : stamp ms l -> ~ In 0 l.
Proof.
  intros (h & m & s & f & H & M & S & F & -> & _ & _ & _ & _ & D1 & D2 & D3 & D4 & _) X.
  apply dec_no0 in D1, D2, D3, D4. repeat (apply in_app_or in X; destruct X as [X|X]; auto); cbn in X; intuition discriminate.
Qed.
Lemma arg_shown a : printable a -> shown a (arg_text a) /\ ~ In 0 (arg_text a).
Proof.
  destruct a as [s|c|z|s|b]; cbn [printable shown arg_text]; intros H; auto.
  - split; auto. intros [X|[]]. auto.
  - pose proof (decimal_shown z H) as S1. split; [exact S1|]. destruct S1 as [N1 _]. now apply num_no0 in N1.
  - split; [destruct b; reflexivity|]. destruct b; cbn; intuition discriminate.
Qed.
Lemma stamp_length ms l : stamp ms l -> length l = 15%nat.
Proof.
  intros (h & m & s & f & H & M & S & F & -> & L1 & L2 & L3 & L4 & _). rewrite !app_length, L1, L2, L3, L4. reflexivity.
Qed.

(** a message that fits *)
Lemma prints checks s ns k args buf : length buf = buffer_size ->
  (timestamped s = true -> 0 <= ns < hours_100) -> Forall printable args -> number k <= level s ->
  exists st ts, stamped s ns st /\ Forall2 shown args ts /\
   ((length (message s k st ts) < 256)%nat ->
     exists buf', printMessage checks s ns (number k) args buf =
       Ret (buf', Some (mkEffect (match k with Error => Stderr | _ => Stdout end) (message s k st ts)
             (match k with Error => exit_on_error s | _ => false end))) /\
     length buf' = buffer_size /\ getLastMessage buf' = Ret (message s k st ts)).
Proof.
  intros L T P Lv. exists (stamp_of s ns), (map arg_text args).
  assert (St : stamped s ns (stamp_of s ns)).
  { unfold stamped, stamp_of. destruct (timestamped s); auto. apply stamp_ok. auto. }
  split; [exact St|]. split.
  - clear -P. induction P; constructor; auto. now apply arg_shown.
  - intros W. assert (Em : message s k (stamp_of s ns) (map arg_text args) = whole s ns k args).
    { unfold message, whole, preamble, color_text. now rewrite <- !app_assoc. }
    rewrite Em in *. apply printMessage_raw; auto.
    + intros E. specialize (T E). unfold hours_100 in T. lia.
    + unfold whole, preamble. intros X.
      assert (C0 : ~ In 0 (color_text s k)) by (unfold color_text; destruct (colorized s), k; cbn; intuition discriminate).
      assert (S0 : ~ In 0 (stamp_of s ns)).
      { unfold stamped in St. destruct (timestamped s) eqn:E; [eapply stamp_no0; eauto|rewrite St; auto]. }
      assert (A0 : ~ In 0 (concat (map arg_text args))).
      { clear -P. intros X. apply in_concat in X. destruct X as (l & X & Y). apply in_map_iff in X. destruct X as (a & <- & X).
        rewrite Forall_forall in P. apply P in X. apply arg_shown in X. now apply X. }
      repeat (apply in_app_or in X; destruct X as [X|X]; auto); try (destruct k; cbn in X; intuition discriminate).
      destruct (colorized s); cbn in X; intuition discriminate.
Qed.

(** ** Messages that do not fit *)
Definition not_bool (a : arg) : Prop := match a with ABool _ => False | _ => True end.
Lemma toBuffer_checked st w a : good st w -> (length w < buffer_size)%nat -> not_bool a ->
  (buffer_size <= length w + length (arg_text a))%nat -> toBuffer true st a = Fail.
Proof.
  intros G Lw B H. destruct st as [buf pos]. assert (Ep : pos = length w) by apply G. assert (Lb : length buf = buffer_size) by apply G.
  assert (T : forall n, (buffer_size <= n)%nat -> (n <? buffer_size)%nat = false) by (intros n Hn; apply Nat.ltb_ge; lia).
  assert (FM : forall s, (buffer_size <= pos + length s)%nat -> appendFormatted true (buf, pos) s = Fail).
  { intros s Hs. unfold appendFormatted. destruct (buffer_size - pos)%nat as [|k] eqn:K; [lia|].
    destruct (blit_good buf pos w (firstn k s ++ [0]) G) as (b & -> & _).
    { rewrite app_length, firstn_length. cbn [length]. lia. }
    cbn [bind]. unfold assert. rewrite T by lia. reflexivity. }
  destruct a as [s|c|z|s|b]; cbn [toBuffer arg_text] in *; try easy.
  - unfold appendStringViewToBuffer, assert. rewrite T by lia. reflexivity.
  - cbn [length] in H. rewrite wr_blit. destruct (blit_good buf pos w [c] G) as (b & -> & _); [cbn; lia|]. cbn [bind].
    unfold assert. rewrite T by lia. reflexivity.
  - apply FM. lia.
  - apply FM. lia.
Qed.
Lemma toBuffers_checked args : forall st w, good st w -> (length w < buffer_size)%nat -> Forall not_bool args ->
  (buffer_size <= length w + length (concat (map arg_text args)))%nat -> toBuffers true st args = Fail.
Proof.
  induction args as [|a args IH]; intros st w G Lw B H; cbn [map concat length] in *; [lia|].
  rewrite app_length in H. inversion B as [|? ? Ba Bs]; subst. cbn [toBuffers].
  destruct (Nat.lt_ge_cases (length w + length (arg_text a)) buffer_size) as [C|C].
  - destruct (toBuffer_ok true st w a G C) as (st' & -> & G'). cbn [bind].
    apply IH with (w := w ++ arg_text a); auto; rewrite app_length; lia.
  - now rewrite (toBuffer_checked st w a).
Qed.
Lemma too_long s ns k args buf : length buf = buffer_size -> time_ok s ns -> colorized s = false -> Forall not_bool args ->
  number k <= level s -> (buffer_size <= length (preamble s ns k) + length (concat (map arg_text args)))%nat ->
  printMessage true s ns (number k) args buf = Fail.
Proof.
  intros L T C B Lv H. unfold printMessage. destruct (Z.leb_spec (number k) (level s)); [|lia].
  destruct (setPreamble_ok s ns k buf L T) as (st & -> & G). cbn [bind].
  pose proof (preamble_len s ns k). rewrite (toBuffers_checked args st _ G); auto. unfold buffer_size. lia.
Qed.
Lemma preamble_exact s ns k : length (preamble s ns k) =
  (length (if colorized s then color k else []) + (if timestamped s then 15 else 0) + String.length (title k) + 3)%nat.
Proof.
  unfold preamble, color_text, stamp_of. rewrite !app_length. change (length (codes " - ")) with 3%nat.
  assert (E : length (if timestamped s then stamp_text ns else []) = if timestamped s then 15%nat else 0%nat)
    by (destruct (timestamped s); [apply stamp_len|auto]).
  rewrite E. destruct k; cbn [title]; change (length (codes "ERROR")) with 5%nat; change (length (codes "WARN")) with 4%nat;
    change (length (codes "INFO")) with 4%nat; change (length (codes "DEBUG")) with 5%nat; cbn [String.length]; lia.
Qed.
Lemma shown_unique a t : printable a -> shown a t -> t = arg_text a.
Proof.
  destruct a as [s|c|z|s|b]; cbn [printable shown arg_text]; intros H S1; try exact S1.
  - pose proof (decimal_shown z H) as S2. cbn [shown] in S2. destruct S1 as (N1 & A1 & B1), S2 as (N2 & A2 & B2).
    assert (U : forall l x, dec l x -> forall l', dec l' x -> (forall c r, l <> 48 :: c :: r) -> (forall c r, l' <> 48 :: c :: r) -> l = l').
    { clear. intros l x D l' D' Z1 Z2. eapply dec_inj; [exact D| |exact D'].
      assert (K : forall l x, dec l x -> (forall c r, l <> 48 :: c :: r) -> (2 <= length l)%nat -> 10 ^ Z.of_nat (length l - 1) <= x).
      { clear. intros l x D. induction D as [d Hd|l z d D IH Hd]; intros Z1 L2; [cbn in L2; lia|].
        rewrite app_length in *. cbn [length] in *. pose proof (dec_len_pos _ _ D).
        destruct (Nat.eq_dec (length l) 1) as [E|E].
        - destruct l as [|c [|? ?]]; cbn in E; try lia. pose proof (dec_digits _ _ D) as (_ & Dg & _). inversion Dg; subst.
          assert (c <> 48) by (intros ->; apply (Z1 (48 + d) []); reflexivity). apply isdigit_range in H2.
          assert (Ez : z = c - 48).
          { assert (Dc : dec [48 + (c - 48)] (c - 48)) by (constructor; lia). replace (48 + (c - 48)) with c in Dc by lia. symmetry. eapply dec_val; eauto. }
          cbn [length Nat.add Nat.sub]. change (10 ^ Z.of_nat 1) with 10. lia.
        - assert (10 ^ Z.of_nat (length l - 1) <= z).
          { apply IH; [|lia]. intros c r ->. apply (Z1 c (r ++ [48 + d])). reflexivity. }
          replace (length l + 1 - 1)%nat with (S (length l - 1)) by lia. rewrite Nat2Z.inj_succ, Z.pow_succ_r by lia. lia. }
      assert (G : forall l l', dec l x -> dec l' x -> (forall c r, l <> 48 :: c :: r) -> (length l' < length l)%nat -> False).
      { intros a b Da Db Za Hl. pose proof (dec_len_pos _ _ Db). pose proof (K a x Da Za ltac:(lia)). pose proof (dec_range _ _ Db).
        assert (10 ^ Z.of_nat (length b) <= 10 ^ Z.of_nat (length a - 1)) by (apply Z.pow_le_mono_r; lia). lia. }
      destruct (Nat.lt_trichotomy (length l') (length l)) as [X|[X|X]]; auto; exfalso; eauto. }
    inversion N1 as [l1 z1 D1|l1 z1 D1]; inversion N2 as [l2 z2 D2|l2 z2 D2]; subst.
    + eapply U; eauto.
    + exfalso. pose proof (dec_range _ _ D1). pose proof (dec_range _ _ D2). assert (z2 = 0) by lia. subst z2.
      assert (Lz : l2 = [48]).
      { assert (D0 : dec [48 + 0] 0) by (constructor; lia). apply (U l2 0 D2 [48] D0).
        - intros c r ->. now apply (B2 (c :: r)).
        - discriminate. }
      subst l2. now apply (B2 []).
    + exfalso. pose proof (dec_range _ _ D1). pose proof (dec_range _ _ D2). assert (z1 = 0) by lia. subst z1.
      assert (Lz : l1 = [48]).
      { assert (D0 : dec [48 + 0] 0) by (constructor; lia). apply (U l1 0 D1 [48] D0).
        - intros c r ->. now apply (B1 (c :: r)).
        - discriminate. }
      subst l1. now apply (B1 []).
    + rewrite <- H2. f_equal. assert (z1 = z2) by lia. subst z2. apply (U l1 z1 D1 l2 D2).
      * intros c r ->. now apply (B1 (c :: r)).
      * intros c r ->. now apply (B2 (c :: r)).
  - subst t. destruct b; reflexivity.
Qed.
Lemma shown_all args ts : Forall printable args -> Forall2 shown args ts -> ts = map arg_text args.
Proof. intros P F. induction F; cbn; auto. inversion P; subst. f_equal; auto using shown_unique. Qed.
Lemma stamp_unique ms l l' : stamp ms l -> stamp ms l' -> l = l'.
Proof.
  intros (h & m & s & f & H & M & S1 & F & -> & L1 & L2 & L3 & L4 & D1 & D2 & D3 & D4 & M60 & S60 & E)
         (h' & m' & s' & f' & H' & M' & S' & F' & -> & L1' & L2' & L3' & L4' & D1' & D2' & D3' & D4' & M60' & S60' & E').
  pose proof (dec_range _ _ D1). pose proof (dec_range _ _ D2). pose proof (dec_range _ _ D3). pose proof (dec_range _ _ D4).
  pose proof (dec_range _ _ D1'). pose proof (dec_range _ _ D2'). pose proof (dec_range _ _ D3'). pose proof (dec_range _ _ D4').
  rewrite L4 in *. rewrite L4' in *. change (10 ^ Z.of_nat 3) with 1000 in *.
  assert (F = F') by lia. assert (S1 = S') by lia. assert (M = M') by lia. assert (H = H') by lia. subst F' S' M' H'.
  f_equal. f_equal; [eapply dec_inj; eauto; lia|]. f_equal. f_equal; [eapply dec_inj; eauto; lia|]. f_equal.
  f_equal; [eapply dec_inj; eauto; lia|]. f_equal. f_equal. eapply dec_inj; eauto; lia.
Qed.
Lemma stamped_unique s ns l : (timestamped s = true -> 0 <= ns < hours_100) -> stamped s ns l -> l = stamp_of s ns.
Proof.
  unfold stamped, stamp_of. destruct (timestamped s); intros T H; auto. eapply stamp_unique; [exact H|]. apply stamp_ok. auto.
Qed.

Lemma printed checks s ns k args buf st ts : length buf = buffer_size ->
  (timestamped s = true -> 0 <= ns < hours_100) -> Forall printable args -> stamped s ns st -> Forall2 shown args ts ->
  (length (message s k st ts) < 256)%nat ->
  if number k <=? level s then
    exists buf', printMessage checks s ns (number k) args buf =
       Ret (buf', Some (mkEffect (match k with Error => Stderr | _ => Stdout end) (message s k st ts)
             (match k with Error => exit_on_error s | _ => false end))) /\
     length buf' = buffer_size /\ getLastMessage buf' = Ret (message s k st ts)
  else printMessage checks s ns (number k) args buf = Ret (buf, None).
Proof.
  intros L T P St Sh W. destruct (Z.leb_spec (number k) (level s)).
  - apply stamped_unique in St; auto. apply shown_all in Sh; auto. subst st ts.
    destruct (prints checks s ns k args buf L T P H) as (st & ts & St & Sh & X).
    apply stamped_unique in St; auto. apply shown_all in Sh; auto. subst st ts. auto.
  - unfold printMessage. destruct (Z.leb_spec (number k) (level s)); [lia|auto].
Qed.
Lemma texts_exist s ns args : (timestamped s = true -> 0 <= ns < hours_100) -> Forall printable args ->
  (exists st, stamped s ns st) /\ (exists ts, Forall2 shown args ts).
Proof.
  intros T P. split.
  - exists (stamp_of s ns). unfold stamped, stamp_of. destruct (timestamped s); auto. apply stamp_ok. auto.
  - exists (map arg_text args). induction P; constructor; auto. now apply arg_shown.
Qed.
Lemma refused s ns k args buf st ts : length buf = buffer_size ->
  (timestamped s = true -> 0 <= ns < hours_100) -> Forall printable args -> colorized s = false -> Forall not_bool args ->
  stamped s ns st -> Forall2 shown args ts -> number k <= level s ->
  (256 <= length (message s k st ts))%nat -> printMessage true s ns (number k) args buf = Fail.
Proof.
  intros L T P C B St Sh Lv W. apply stamped_unique in St; auto. apply shown_all in Sh; auto. subst st ts.
  apply too_long; auto.
  - intros E. specialize (T E). unfold hours_100 in T. lia.
  - unfold message in W. rewrite C in W. rewrite app_nil_r in W. unfold preamble, color_text, buffer_size. rewrite C.
    rewrite !app_length in *. cbn [length] in *. lia.
Qed.
Lemma overrun s ns k text buf : length buf = buffer_size -> time_ok s ns -> number k <= level s ->
  (256 < length text)%nat -> printMessage false s ns (number k) [AStr text] buf = Ub.
Proof.
  intros L T Lv W. unfold printMessage. destruct (Z.leb_spec (number k) (level s)); [|lia].
  destruct (setPreamble_ok s ns k buf L T) as ([b pos] & -> & G). cbn [bind toBuffers toBuffer].
  unfold appendStringViewToBuffer, assert. cbn [andb]. rewrite blit_Ub; auto; [apply G|unfold buffer_size; lia].
Qed.
Lemma long_run checks s ns k args buf : length buf = buffer_size -> timestamped s = true -> number k <= level s ->
  2147483648 * 1000000 <= ns -> printMessage checks s ns (number k) args buf = Ub.
Proof.
  intros L T Lv W. unfold printMessage. destruct (Z.leb_spec (number k) (level s)); [|lia].
  unfold setPreamble. destruct (addColor_ok s k buf L) as ([b pos] & -> & G). cbn [bind].
  unfold addTimestamp. rewrite T.
  assert (X : i32 (Z.quot ns 1000000) = Ub).
  { apply i32_bad. unfold in_i32, intMax. rewrite Z.quot_div_nonneg by lia.
    assert (2147483648 <= ns / 1000000) by (apply Z.div_le_lower_bound; lia). lia. }
  rewrite X. destruct (i32 (Z.quot ns 1000000000)) eqn:E; cbn [bind]; auto; unfold i32 in E; destruct (_ && _) in E; discriminate.
Qed.
