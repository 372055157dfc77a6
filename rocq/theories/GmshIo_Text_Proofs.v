(** Proofs about the text of info files: numbers, words and lines. *)
From Coq Require Import String.
From Coq Require Import List Arith ZArith Bool Lia.
From Verif Require Import Base Loops StringView_Model StringView_Spec StringView_Proofs TextIo_Model Logger_Model ModelIo_Model ModelIo_Text_Proofs Outputs_Proofs
  Groups_Model GmshIo_Model.
Import ListNotations.
Open Scope Z_scope.

(** ** Numbers *)
Lemma value_app l : Forall (fun c => isdigit c = true) l -> forall r acc, value_of (l ++ r) acc = value_of r (value_of l acc).
Proof. induction 1 as [|c l Hc F IH]; intros r acc; [reflexivity|]. cbn [app value_of]. rewrite Hc. apply IH. Qed.
Lemma isdigit_48 d : 0 <= d <= 9 -> isdigit (48 + d) = true.
Proof. intros H. unfold isdigit. apply andb_true_iff. rewrite !Z.leb_le. lia. Qed.
Lemma dec_all l z : dec l z -> l <> [] /\ Forall (fun c => isdigit c = true) l /\ value_of l 0 = z.
Proof.
  induction 1 as [d Hd|l z d H (N & F & V) Hd].
  - split; [discriminate|]. split; [repeat constructor; now apply isdigit_48|]. cbn [value_of]. rewrite isdigit_48 by auto. lia.
  - split; [intros X; apply app_eq_nil in X; now destruct X|]. split; [apply Forall_app; split; [auto|repeat constructor; now apply isdigit_48]|].
    rewrite value_app by auto. rewrite V. cbn [value_of]. rewrite isdigit_48 by auto. lia.
Qed.
Definition small (z : Z) : Prop := 0 <= z <= 2147483647.
Definition ends (r : list Z) : Prop := match r with c :: _ => isdigit c = false | [] => True end.
Lemma number_decimal z r : small z -> ends r -> number (decimal z ++ r) = Some z.
Proof.
  intros Hz Hr. pose proof (decimal_dec z ltac:(unfold small in Hz; lia)) as D. destruct (dec_all _ _ D) as (N & F & V).
  assert (VR : value_of (decimal z ++ r) 0 = z).
  { rewrite value_app by auto. rewrite V. destruct r as [|c r]; [reflexivity|]. cbn [value_of]. cbn [ends] in Hr. now rewrite Hr. }
  destruct (decimal z) as [|c l] eqn:E; [now elim N|]. inversion_clear F as [|? ? Hc F']. cbn [app] in *. unfold number.
  unfold isdigit in Hc. apply andb_true_iff in Hc. rewrite !Z.leb_le in Hc. cbn [skip_space]. unfold isspace.
  destruct (Z.eqb_spec c 32); [lia|]. destruct (Z.leb_spec 9 c); [|lia]. destruct (Z.leb_spec c 13); [lia|]. cbn [orb andb].
  destruct (Z.eqb_spec c 45); [lia|]. destruct (Z.eqb_spec c 43); [lia|]. unfold unsigned, starts_digit.
  assert (X : isdigit c = true) by (unfold isdigit; apply andb_true_iff; rewrite !Z.leb_le; lia). rewrite X. now rewrite VR.
Qed.
Lemma stoi_decimal z r : small z -> ends r -> stoi (decimal z ++ r) = Ret z.
Proof.
  intros Hz Hr. unfold stoi. rewrite number_decimal by auto. unfold small in Hz. unfold intMin, intMax.
  destruct (Z.leb_spec (-2147483648) z); [|lia]. destruct (Z.leb_spec z 2147483647); [|lia]. reflexivity.
Qed.
Lemma stoi_decimal' z : small z -> stoi (decimal z) = Ret z.
Proof. intros H. rewrite <- (app_nil_r (decimal z)). now apply stoi_decimal. Qed.
Lemma stoul_decimal z : small z -> stoul (decimal z) = Ret z.
Proof.
  intros H. unfold stoul. rewrite <- (app_nil_r (decimal z)), number_decimal; [|exact H|exact Logic.I]. unfold small in H.
  rewrite Z.abs_eq by lia. destruct (Z.ltb_spec z 18446744073709551616); [|lia]. now rewrite Z.mod_small by lia.
Qed.

(** ** Words *)
Definition word (l : list Z) : Prop := ~ In BLANK l /\ ~ In NEWLINE l.
Lemma decimal_is_word z : word (decimal z).
Proof. pose proof (decimal_chars z) as H. rewrite Forall_forall in H. split; intros X; apply H in X; unfold BLANK, NEWLINE in X; lia. Qed.
Lemma index_app c l r : ~ In c l -> index_in (l ++ c :: r) c = Some (length l).
Proof.
  induction l as [|a l IH]; intros H; cbn [app index_in length]; [now rewrite Z.eqb_refl|].
  destruct (Z.eqb_spec a c) as [->|N]; [elim H; now left|]. rewrite IH by (intros X; apply H; now right). reflexivity.
Qed.
Lemma skipn_app_len {A} (l r : list A) : skipn (length l) (l ++ r) = r.
Proof. induction l; cbn; auto. Qed.
Lemma firstn_app_len {A} (l r : list A) : firstn (length l) (l ++ r) = l.
Proof. induction l; cbn; congruence. Qed.
Lemma find_ok pre w c post : ~ In c w -> find_from (pre ++ w ++ c :: post) c (length pre) = Some (length pre + length w)%nat.
Proof. intros H. unfold find_from. rewrite skipn_app_len, index_app by auto. reflexivity. Qed.
Lemma substr_rest pre w : substr (pre ++ w) (length pre) None = Ret w.
Proof. unfold substr. rewrite app_length. destruct (Nat.ltb_spec (length pre + length w) (length pre)); [lia|]. now rewrite skipn_app_len. Qed.
Lemma substr_some pre w post n : n = length w -> substr (pre ++ w ++ post) (length pre) (Some n) = Ret w.
Proof.
  intros ->. unfold substr. rewrite app_length. destruct (Nat.ltb_spec (length pre + length (w ++ post)) (length pre)); [lia|].
  now rewrite skipn_app_len, firstn_app_len.
Qed.
Lemma cut_ok pre w post : cut (pre ++ w ++ post) (length pre) (Some (length pre + length w)%nat) = Ret w.
Proof. unfold cut. cbn [option_map]. apply substr_some. lia. Qed.
Lemma getline_ok l r line : ~ In NEWLINE l -> getline (mkStream (l ++ NEWLINE :: r) false) line = (l, mkStream r false).
Proof.
  intros H. unfold getline. cbn [eof rest]. rewrite index_app by auto. rewrite firstn_app_len. f_equal. f_equal.
  change (NEWLINE :: r) with ([NEWLINE] ++ r). rewrite app_assoc. rewrite <- (skipn_app_len (l ++ [NEWLINE]) r) at 2. f_equal. rewrite app_length. symmetry; apply Nat.add_1_r.
Qed.
Lemma begins_ok p l : begins p (p ++ l) = true.
Proof. induction p; cbn [app begins]; [reflexivity|]. now rewrite Z.eqb_refl, IHp. Qed.

Definition blanks (ws : list (list Z)) : list Z := concat (map (fun w => w ++ [BLANK]) ws).
Lemma blanks_app a b : blanks (a ++ b) = blanks a ++ blanks b.
Proof. unfold blanks. now rewrite map_app, concat_app. Qed.
Lemma blanks_one w : blanks [w] = w ++ [BLANK].
Proof. unfold blanks. cbn. now rewrite app_nil_r. Qed.
Lemma blanks_len a w : (length (blanks a) + length w + 1)%nat = length (blanks (a ++ [w])).
Proof. rewrite blanks_app, blanks_one, !app_length. cbn. lia. Qed.
Lemma blanks_cons w ws : blanks (w :: ws) = w ++ BLANK :: blanks ws.
Proof. unfold blanks. cbn [map concat]. now rewrite <- app_assoc. Qed.
Lemma blanks_line ws : Forall word ws -> ~ In NEWLINE (blanks ws).
Proof.
  induction 1 as [|w ws (_ & H) F IH]; [intros []|]. rewrite blanks_cons. intros X. apply in_app_or in X. destruct X as [X|[X|X]]; auto. discriminate.
Qed.
(** the word after [a] in a line *)
Lemma next_word a w post : word w ->
  find_from (blanks a ++ w ++ BLANK :: post) BLANK (length (blanks a)) = Some (length (blanks a) + length w)%nat /\
  cut (blanks a ++ w ++ BLANK :: post) (length (blanks a)) (Some (length (blanks a) + length w)%nat) = Ret w.
Proof. intros (H & _). split; [now apply find_ok|apply cut_ok]. Qed.

(** ** Filling an array in order *)
Lemma firstn_upd {A} (l : list A) : forall m v, (m < length l)%nat -> firstn (S m) (upd l m v) = firstn m l ++ [v].
Proof.
  induction l as [|a l IH]; intros m v H; [cbn in H; lia|]. destruct m as [|m]; [reflexivity|]. cbn [upd length] in *.
  change (firstn (S (S m)) (a :: upd l m v)) with (a :: firstn (S m) (upd l m v)). rewrite IH by lia. reflexivity.
Qed.
Lemma firstn_S {A} (l : list A) : forall m v, nth_error l m = Some v -> firstn (S m) l = firstn m l ++ [v].
Proof.
  induction l as [|a l IH]; intros [|m] v H; try discriminate; [now injection H as ->|]. cbn [nth_error] in H.
  change (firstn (S (S m)) (a :: l)) with (a :: firstn (S m) l). rewrite (IH m v H). reflexivity.
Qed.
Definition filled {A} (tags L : list A) (m : nat) : Prop := length tags = length L /\ firstn m tags = firstn m L.
Lemma fill_step {A} (tags L : list A) m v : filled tags L m -> nth_error L m = Some v ->
  exists tags', wr tags m v = Ret tags' /\ filled tags' L (S m).
Proof.
  intros (E & F) H. assert (B : (m < length tags)%nat) by (rewrite E; apply nth_error_Some; congruence).
  exists (upd tags m v). split; [now apply wr_ok|]. split; [now rewrite upd_length|]. rewrite firstn_upd by auto. now rewrite (firstn_S _ _ _ H), F.
Qed.
Lemma fill_end {A} (tags L : list A) m : filled tags L m -> (length L <= m)%nat -> tags = L.
Proof. intros (E & F) H. rewrite !firstn_all2 in F by lia. exact F. Qed.
