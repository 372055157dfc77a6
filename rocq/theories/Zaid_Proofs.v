(** Proofs about toZAID. *)
From Coq Require Import List Arith ZArith Bool String Ascii Lia.
From Verif Require Import Base Loops StringView_Model StringView_Spec StringView_Proofs Zaid_Model Zaid_Spec.
Import ListNotations.
Local Open Scope Z_scope.
Local Open Scope list_scope.

Lemma isalpha_iff c : isalpha c = true <-> letter c.
Proof. unfold isalpha, letter. rewrite orb_true_iff, !andb_true_iff, !Z.leb_le. tauto. Qed.
Lemma isdigit_iff c : isdigit c = true <-> digit c.
Proof. unfold isdigit, digit. rewrite andb_true_iff, !Z.leb_le. tauto. Qed.
Lemma isalpha_no c : ~ letter c -> isalpha c = false.
Proof. rewrite <- isalpha_iff. now destruct (isalpha c). Qed.
Lemma isdigit_no c : ~ digit c -> isdigit c = false.
Proof. rewrite <- isdigit_iff. now destruct (isdigit c). Qed.
Lemma digit_letter c : digit c -> ~ letter c.
Proof. unfold digit, letter. lia. Qed.

Lemma str_eq_dec a b : str_eq a b = Ret (if list_eq_dec Z.eq_dec a b then true else false).
Proof.
  destruct (str_operators_ok a b) as ((r & E & H) & _). rewrite E. f_equal.
  destruct (list_eq_dec Z.eq_dec a b) as [D|D].
  - now apply H.
  - destruct r; auto. exfalso. now apply D, H.
Qed.

(** ** The table *)
Lemma elements_table : ELEMENTS = map (fun p => codes (snd p)) periodic_table.
Proof. vm_compute. reflexivity. Qed.
Lemma numbered k p : nth_error periodic_table k = Some p -> fst p = Z.of_nat k + 1.
Proof.
  intros H.
  assert (E : map fst periodic_table = map (fun k => Z.of_nat k + 1) (seq 0 118)) by (vm_compute; reflexivity).
  assert (L : (k < 118)%nat) by (apply (proj1 (nth_error_Some periodic_table k)); congruence).
  apply (map_nth_error fst) in H. rewrite E in H.
  rewrite (map_nth_error (fun k => Z.of_nat k + 1) k (seq 0 118) (d := k)) in H.
  - congruence.
  - rewrite (nth_error_nth' _ O) by now rewrite seq_length. now rewrite seq_nth.
Qed.
Lemma nodup_codes : NoDup (map (fun p => codes (snd p)) periodic_table).
Proof.
  rewrite <- elements_table.
  assert (G : forall l : list (list Z), (fix go l := match l with [] => true
     | x :: r => negb (if in_dec (list_eq_dec Z.eq_dec) x r then true else false) && go r end) l = true -> NoDup l).
  { induction l as [|x r IH]; intros H; constructor.
    - apply andb_true_iff in H. destruct H as [H _]. destruct (in_dec _ x r); auto. discriminate.
    - apply IH. now apply andb_true_iff in H. }
  apply G. vm_compute. reflexivity.
Qed.
Lemma letters z sym : element z sym -> Forall letter (codes sym) /\ codes sym <> [].
Proof.
  assert (G : forallb (fun p => forallb isalpha (codes (snd p)) && negb (match codes (snd p) with [] => true | _ => false end))
     periodic_table = true) by (vm_compute; reflexivity).
  intros H. rewrite forallb_forall in G. specialize (G _ H). cbn [snd] in G. apply andb_true_iff in G.
  destruct G as [G1 G2]. split.
  - apply Forall_forall. intros c Hc. rewrite forallb_forall in G1. now apply isalpha_iff, G1.
  - now destruct (codes sym).
Qed.
Lemma map_nodup_inj {A B} (f : A -> B) l : NoDup (map f l) -> forall x y, In x l -> In y l -> f x = f y -> x = y.
Proof.
  induction l as [|a l IH]; cbn; intros H x y Hx Hy E; [easy|].
  inversion H as [|? ? Ha Hl]; subst. destruct Hx as [->|Hx], Hy as [->|Hy]; auto.
  - exfalso. apply Ha. rewrite E. now apply in_map.
  - exfalso. apply Ha. rewrite <- E. now apply in_map.
Qed.
Lemma element_inj z sym z' sym' : element z sym -> element z' sym' -> codes sym = codes sym' -> z = z' /\ sym = sym'.
Proof.
  intros H H' E. assert ((z, sym) = (z', sym')) by (eapply (map_nodup_inj _ _ nodup_codes); eauto).
  split; congruence.
Qed.
Lemma element_number z sym : element z sym -> 1 <= z <= 118.
Proof.
  intros H. apply In_nth_error in H. destruct H as (k & H). pose proof (numbered _ _ H) as E. cbn in E.
  assert (L : (k < 118)%nat) by (apply (proj1 (nth_error_Some periodic_table k)); congruence).
  lia.
Qed.
Lemma element_unique z sym sym' : element z sym -> element z sym' -> sym = sym'.
Proof.
  intros H H'. apply In_nth_error in H, H'. destruct H as (k & H), H' as (k' & H').
  pose proof (numbered _ _ H) as E. pose proof (numbered _ _ H') as E'. cbn in E, E'.
  assert (k = k') by lia. subst. congruence.
Qed.
Lemma element_exists z : 1 <= z <= 118 -> exists sym, element z sym.
Proof.
  intros H. destruct (nth_error periodic_table (Z.to_nat (z - 1))) as [[z' sym]|] eqn:E.
  - pose proof (numbered _ _ E) as E'. cbn in E'. exists sym. apply nth_error_In in E.
    assert (z = z') by lia. unfold element. congruence.
  - apply nth_error_None in E. change (List.length periodic_table) with 118%nat in E. lia.
Qed.

Lemma find_element_ok s : forall l i,
  (forall k p, nth_error l k = Some p -> fst p = i + Z.of_nat k + 1) ->
  (exists z sym, In (z, sym) l /\ s = codes sym /\
     find_element s (map (fun p => codes (snd p)) l) i = Ret (Some z)) \/
  ((forall z sym, In (z, sym) l -> s <> codes sym) /\
     find_element s (map (fun p => codes (snd p)) l) i = Ret None).
Proof.
  induction l as [|[z0 sym0] l IH]; intros i Hi.
  - right. split; [easy|]. reflexivity.
  - cbn [map find_element snd]. rewrite str_eq_dec. cbn [bind].
    pose proof (Hi O _ eq_refl) as H0. cbn in H0.
    destruct (list_eq_dec Z.eq_dec s (codes sym0)) as [E|E].
    + left. exists z0, sym0. split; [now left|]. split; auto. do 2 f_equal. lia.
    + destruct (IH (i + 1)) as [(z & sym & H1 & H2 & H3)|[H1 H2]].
      { intros k p Hk. rewrite (Hi (S k) p Hk). lia. }
      * left. exists z, sym. split; [now right|]. auto.
      * right. split; auto. intros z sym [Hp|Hp]; [|eauto]. now inversion Hp; subst.
Qed.
Lemma lookup_ok s :
  (exists z sym, element z sym /\ s = codes sym /\ find_element s ELEMENTS 0 = Ret (Some z)) \/
  ((forall z sym, element z sym -> s <> codes sym) /\ find_element s ELEMENTS 0 = Ret None).
Proof.
  rewrite elements_table. apply (find_element_ok s periodic_table 0). intros k p H. now apply numbered.
Qed.

(** ** Scanning *)
Lemma symbol_len_app l r : Forall letter l -> not_next letter r -> forall n,
  symbol_len (l ++ r) n = (n + List.length l)%nat.
Proof.
  intros Hl Hr. induction Hl as [|c l Hc Hl IH]; intros n; cbn [app symbol_len List.length].
  - destruct r as [|c r]; cbn in *; [lia|]. rewrite isalpha_no; auto; lia.
  - apply isalpha_iff in Hc. rewrite Hc, IH. lia.
Qed.
Lemma split_letters l : exists p r, l = p ++ r /\ Forall letter p /\ not_next letter r.
Proof.
  induction l as [|c l (p & r & -> & Hp & Hr)].
  - exists [], []. repeat split; auto.
  - destruct (isalpha c) eqn:E.
    + exists (c :: p), r. repeat split; auto. constructor; auto. now apply isalpha_iff.
    + exists [], (c :: p ++ r). repeat split; auto. cbn. rewrite <- isalpha_iff. congruence.
Qed.
Lemma first_digit_skip s r d : Forall (fun c => ~ digit c) s -> forall i,
  first_digit (s ++ r) i d = first_digit r (i + List.length s) d.
Proof.
  intros H. induction H as [|c s Hc Hs IH]; intros i; cbn [app first_digit List.length].
  - now rewrite Nat.add_0_r.
  - rewrite isdigit_no by auto. rewrite IH. f_equal. lia.
Qed.

Lemma skipn_app_len {A} (a b : list A) : skipn (List.length a) (a ++ b) = b.
Proof. induction a; auto. Qed.
Lemma firstn_app_len {A} (a b : list A) : firstn (List.length a) (a ++ b) = a.
Proof. induction a as [|x a IH]; cbn; auto. now rewrite IH. Qed.

(** the symbol of a nonempty argument: its first char and the letters behind it *)
Lemma symbol_part c p r : Forall letter p -> not_next letter r ->
  let s := (c :: p) ++ r in
  symbol_len (skipn 1 s) 1 = List.length (c :: p) /\ str_sub s 0 (List.length (c :: p)) = Ret (c :: p).
Proof.
  intros Hp Hr s. split.
  - cbn [s app skipn]. rewrite symbol_len_app; auto.
  - unfold str_sub. cbn [Nat.ltb Nat.leb skipn].
    replace (List.length s <? 0)%nat with false by (symmetry; apply Nat.ltb_ge; lia).
    unfold s. now rewrite firstn_app_len.
Qed.

Lemma after_symbol z sym r : element z sym -> not_next letter r ->
  toZAID (codes sym ++ r) =
  let n := List.length (codes sym) in
  let* mass := str_sub (codes sym ++ r) (first_digit r n n) (List.length (codes sym ++ r)) in
  let* a := strto_int32 (mass ++ [0]) in
  i32 (1000 * z + a).
Proof.
  intros He Hr. destruct (letters _ _ He) as [Hl Hn].
  destruct (codes sym) as [|c p] eqn:Ec; [congruence|]. inversion Hl as [|? ? Hc Hp]; subst.
  destruct (symbol_part c p r Hp Hr) as [E1 E2]. unfold toZAID. cbv zeta. rewrite E1, E2. cbn [bind].
  destruct (lookup_ok (c :: p)) as [(z' & sym' & H1 & H2 & H3)|[H1 _]].
  - rewrite H3. cbn [bind]. assert (z' = z) as ->.
    { symmetry. eapply (element_inj z sym z' sym'); eauto. congruence. }
    rewrite skipn_app_len. clear E1 E2. pose proof (element_number _ _ He) as Hz.
    destruct (str_sub _ _ _); cbn [bind]; auto.
    destruct (strto_int32 _); cbn [bind]; auto.
    rewrite i32_ok by (unfold in_i32, intMin, intMax; lia). reflexivity.
  - exfalso. eapply H1; eauto.
Qed.

Lemma dec_digit_head ds a : dec ds a -> exists c r, ds = c :: r /\ digit c.
Proof.
  intros H. destruct (dec_digits _ _ H) as (H0 & H1 & _). destruct ds as [|c r]; [easy|].
  inversion H1; subst. exists c, r. split; auto. now apply isdigit_iff.
Qed.
Lemma dec_nonneg ds a : dec ds a -> 0 <= a.
Proof. induction 1; lia. Qed.

Lemma zaid_ok z sym sep ds a rest : element z sym ->
  Forall (fun c => ~ digit c) sep -> not_next letter sep -> dec ds a -> not_next digit rest ->
  1000 * z + a <= intMax ->
  toZAID (codes sym ++ sep ++ ds ++ rest) = Ret (1000 * z + a).
Proof.
  intros He Hs Hs' Hd Hr Ha. destruct (dec_digit_head _ _ Hd) as (c & ds' & Ed & Hc).
  pose proof (element_number _ _ He) as Hz. pose proof (dec_nonneg _ _ Hd) as H0. unfold intMax in Ha.
  rewrite (after_symbol z sym); auto.
  2:{ destruct sep; cbn in *; auto. subst ds. cbn. now apply digit_letter. }
  cbv zeta. rewrite first_digit_skip by auto.
  assert (E : first_digit (ds ++ rest) (List.length (codes sym) + List.length sep) (List.length (codes sym))
    = List.length (codes sym ++ sep)).
  { subst ds. cbn [app first_digit]. apply isdigit_iff in Hc. rewrite Hc. now rewrite app_length. }
  rewrite E. unfold str_sub.
  replace (List.length (codes sym ++ sep ++ ds ++ rest) <? List.length (codes sym ++ sep))%nat with false
    by (symmetry; apply Nat.ltb_ge; rewrite !app_length; lia).
  rewrite (app_assoc (codes sym)), skipn_app_len. cbn [bind]. rewrite firstn_all2 by (rewrite (app_length (_ ++ _)); lia).
  rewrite <- app_assoc, (strto_num ds a (rest ++ [0])).
  - cbn [bind]. rewrite i32_ok; auto. unfold in_i32, intMin, intMax. lia.
  - now constructor.
  - unfold int32. lia.
  - intros x r' Hx. destruct rest as [|y rest]; cbn in Hx; inversion Hx; subst; [reflexivity|].
    now apply isdigit_no.
  - now destruct rest.
Qed.

Lemma digits_none l : Forall (fun c => ~ digit c) l -> forall z, digits (l ++ [0]) z = Ret z.
Proof. intros [|c r Hc Hr] z; cbn; auto. now rewrite isdigit_no. Qed.
Lemma strto_none l : Forall (fun c => ~ digit c) l -> strto_int32 (l ++ [0]) = Ret 0.
Proof.
  intros H. unfold strto_int32, strtol.
  assert (G : exists l', skip_space (l ++ [0]) = l' ++ [0] /\ Forall (fun c => ~ digit c) l').
  { induction H as [|c l Hc Hl IH]; cbn [app skip_space].
    - exists []. auto.
    - destruct (isspace c); auto. exists (c :: l). auto. }
  destruct G as (l' & -> & H'). destruct H' as [|c r Hc Hr]; [reflexivity|].
  cbn [app]. destruct (c =? 45); [now rewrite digits_none|]. destruct (c =? 43); [now rewrite digits_none|].
  cbn [digits]. now rewrite isdigit_no.
Qed.

Lemma zaid_no_mass z sym rest : element z sym -> not_next letter rest ->
  Forall (fun c => ~ digit c) rest -> toZAID (codes sym ++ rest) = Ret (1000 * z).
Proof.
  intros He Hr Hd. rewrite (after_symbol z sym); auto. cbv zeta.
  rewrite <- (app_nil_r rest) at 2. rewrite first_digit_skip by auto. cbn [first_digit].
  unfold str_sub.
  replace (List.length (codes sym ++ rest) <? List.length (codes sym))%nat with false
    by (symmetry; apply Nat.ltb_ge; rewrite !app_length; lia).
  rewrite skipn_app_len. cbn [bind]. rewrite firstn_all2 by (rewrite app_length; lia).
  rewrite strto_none by auto. cbn [bind]. rewrite Z.add_0_r.
  pose proof (element_number _ _ He). apply i32_ok. unfold in_i32, intMin, intMax. lia.
Qed.

Lemma zaid_unknown s :
  (forall z sym r, element z sym -> s = codes sym ++ r -> exists c r', r = c :: r' /\ letter c) ->
  toZAID s = Fail.
Proof.
  intros H. destruct s as [|c s]; [reflexivity|].
  destruct (split_letters s) as (p & r & -> & Hp & Hr).
  destruct (symbol_part c p r Hp Hr) as [E1 E2]. change (c :: p ++ r) with ((c :: p) ++ r).
  unfold toZAID. cbv zeta. rewrite E1, E2. cbn [bind].
  destruct (lookup_ok (c :: p)) as [(z' & sym' & H1 & H2 & H3)|[_ H3]].
  - exfalso. destruct (H z' sym' r H1) as (c' & r' & -> & Hc'); [now rewrite <- H2|]. now apply Hr.
  - now rewrite H3.
Qed.

Lemma zaid_distinct z sym ds a z' sym' ds' a' : element z sym -> element z' sym' ->
  dec ds a -> dec ds' a' -> a < 1000 -> a' < 1000 ->
  toZAID (codes sym ++ ds) = toZAID (codes sym' ++ ds') -> sym = sym' /\ a = a'.
Proof.
  intros He He' Hd Hd' Ha Ha' E.
  pose proof (element_number _ _ He). pose proof (element_number _ _ He').
  pose proof (dec_nonneg _ _ Hd). pose proof (dec_nonneg _ _ Hd').
  pose proof (zaid_ok z sym [] ds a [] He ltac:(auto) I Hd I ltac:(unfold intMax; lia)) as R.
  pose proof (zaid_ok z' sym' [] ds' a' [] He' ltac:(auto) I Hd' I ltac:(unfold intMax; lia)) as R'.
  cbn [app] in R, R'. rewrite app_nil_r in R, R'. rewrite R, R' in E.
  assert (E1 : 1000 * z + a = 1000 * z' + a') by congruence.
  assert (z = z') by lia. split; [|lia]. subst z'. eapply element_unique; eauto.
Qed.
Lemma big_mass_collide : exists s s', s <> s' /\ exists z sym a ds z' sym' a' ds',
  element z sym /\ element z' sym' /\ dec ds a /\ dec ds' a' /\ z <> z' /\
  s = codes sym ++ ds /\ s' = codes sym' ++ ds' /\ toZAID s = toZAID s'.
Proof.
  exists (codes "H1001"), (codes "He1"). split; [discriminate|].
  exists 1, "H"%string, 1001, (codes "1001"), 2, "He"%string, 1, (codes "1").
  assert (E : element 1 "H" /\ element 2 "He") by (split; unfold element; cbn; auto).
  destruct E as [E1 E2]. do 2 (split; auto).
  split; [change 1001 with (10 * (10 * (10 * 1 + 0) + 0) + 1)|split].
  - change (codes "1001") with ((([48 + 1] ++ [48 + 0]) ++ [48 + 0]) ++ [48 + 1]). repeat constructor; lia.
  - change (codes "1") with [48 + 1]. constructor. lia.
  - split; [lia|]. repeat split.
Qed.
