(** Proofs for info files: no text leads to undefined behaviour. *)
From Coq Require Import String Ascii.
From Coq Require Import List Arith ZArith Lia Bool Sorted.
From Verif Require Import Base Loops StringView_Model TextIo_Model Logger_Model ModelIo_Model.
From Verif Require Import Groups_Model Groups_Spec Groups_List_Proofs Groups_Ops_Proofs Overlay_Model Overlay_Proofs.
From Verif Require Import GmshIo_Model GmshIo_Spec GmshIo_Text_Proofs GmshIo_Read_Proofs GmshIo_Proofs.
Import ListNotations.
Open Scope Z_scope.

(** a result with the property, or an error *)
Definition safe {A} (P : A -> Prop) (o : outcome A) : Prop := o = Fail \/ exists a, o = Ret a /\ P a.
Lemma safe_ret {A} (P : A -> Prop) a : P a -> safe P (Ret a). Proof. right. eauto. Qed.
Lemma safe_bind {A B} (P : A -> Prop) (Q : B -> Prop) m k : safe P m -> (forall a, P a -> safe Q (k a)) -> safe Q (let* x := m in k x).
Proof. intros [->|(a & -> & H)] K; [now left|]. cbn [bind]. now apply K. Qed.
Lemma safe_for {A} (P : nat -> A -> Prop) f n : forall i s, P i s -> (forall j s, (i <= j < i + n)%nat -> P j s -> safe (P (S j)) (f j s)) -> safe (P (i + n)%nat) (for_ n i f s).
Proof.
  induction n as [|n IH]; intros i s H K; cbn [for_]; [rewrite Nat.add_0_r; now apply safe_ret|].
  eapply safe_bind; [apply K; [lia|exact H]|]. intros a Ha. rewrite Nat.add_succ_r. apply (IH (S i)); [exact Ha|]. intros j s' Hj. apply K. lia.
Qed.
Lemma safe_impl {A} (P Q : A -> Prop) o : (forall a, P a -> Q a) -> safe P o -> safe Q o.
Proof. intros H [->|(a & -> & Ha)]; [now left|right; eauto]. Qed.
Definition any {A} (_ : A) : Prop := True.
Lemma safe_stoi t : safe any (stoi t).
Proof. unfold stoi. destruct (number t); [|now left]. destruct (_ && _); [now apply safe_ret|now left]. Qed.
Lemma safe_stoul t : safe (fun z => 0 <= z) (stoul t).
Proof. unfold stoul. destruct (number t); [|now left]. destruct (_ <? _); [apply safe_ret; apply Z.mod_pos_bound; lia|now left]. Qed.
Lemma safe_substr l p n : safe any (substr l p n).
Proof. unfold substr. destruct (_ <? _)%nat; [now left|now apply safe_ret]. Qed.
Lemma safe_cut l p n : safe any (cut l p n). Proof. apply safe_substr. Qed.
Lemma safe_wr {A} (l : list A) n i v : length l = n -> (i < n)%nat -> safe (fun l' => length l' = n) (wr l i v).
Proof. intros H B. right. exists (upd l i v). split; [apply wr_ok; lia|now rewrite upd_length]. Qed.
Lemma safe_assert c b : safe any (TextIo_Model.ASSERT c b).
Proof. unfold TextIo_Model.ASSERT. destruct (c && negb b); [now left|now apply safe_ret]. Qed.
Lemma safe_resize {A} max (d : A) l n : 0 <= n -> safe (fun l' => length l' = Z.to_nat n) (resize max d l n).
Proof.
  intros H. destruct (resize max d l n) as [l'| | |] eqn:E; [apply safe_ret; eapply resize_length; eauto|unfold resize in E; destruct (max <? n); discriminate|now left|unfold resize in E; destruct (max <? n); discriminate].
Qed.
Ltac sb := eapply safe_bind; [first [apply safe_stoi|apply safe_cut|apply safe_substr|apply safe_assert]|intros ? _].
Definition len {A B} (n : nat) (st : list A * B) : Prop := length (fst st) = n.

Lemma safe_tag_line j n st : len n st -> (8 * j + 8 <= n)%nat -> safe (len n) (read_tag_line j st).
Proof.
  destruct st as (tags & line & s). unfold len. cbn [fst]. intros H B. unfold read_tag_line. destruct (getline s line) as (ln & s').
  eapply safe_bind.
  - apply (safe_for (fun _ st => length (fst st) = n)); [exact H|]. intros k (tg & ts & te) Hk Hl. cbn [fst] in Hl. sb. sb.
    eapply safe_bind; [apply (safe_wr _ n); [exact Hl|lia]|]. intros tg' Ht. now apply safe_ret.
  - intros (tg & ts & te) Hl. cbn [fst] in Hl. sb. sb. eapply safe_bind; [apply (safe_wr _ n); [exact Hl|lia]|]. intros tg' Ht. now apply safe_ret.
Qed.
Lemma safe_last_tags full rem n st : len n st -> (8 * full + rem <= n)%nat -> safe (len n) (read_last_tags full rem st).
Proof.
  destruct st as (tags & line & s). unfold len. cbn [fst]. intros H B. unfold read_last_tags. destruct (Nat.eqb_spec rem 0); [now apply safe_ret|].
  destruct (getline s line) as (ln & s'). eapply safe_bind.
  - apply (safe_for (fun _ st => length (fst st) = n)); [exact H|]. intros k (tg & ts) Hk Hl. cbn [fst] in Hl. sb. sb.
    eapply safe_bind; [apply (safe_wr _ n); [exact Hl|lia]|]. intros tg' Ht. now apply safe_ret.
  - intros (tg & ts) Hl. cbn [fst] in Hl. sb. sb. eapply safe_bind; [apply (safe_wr _ n); [exact Hl|lia]|]. intros tg' Ht. now apply safe_ret.
Qed.
Lemma safe_pair_line from k n st : len n st -> (0 < k)%nat -> (from + k <= n)%nat -> safe (len n) (read_pair_line from k st).
Proof.
  destruct st as (ds & line & s). unfold len. cbn [fst]. intros H K B. unfold read_pair_line. destruct (getline s line) as (ln & s').
  eapply safe_bind.
  - apply (safe_for (fun _ st => length (fst st) = n)); [exact H|]. intros i (tg & ts) Hk Hl. cbn [fst] in Hl.
    eapply (safe_bind any). { unfold read_pair. sb. sb. sb. sb. now apply safe_ret. }
    intros p _. eapply safe_bind; [apply (safe_wr _ n); [exact Hl|lia]|]. intros tg' Ht. now apply safe_ret.
  - intros (tg & ts) Hl. cbn [fst] in Hl. eapply (safe_bind any). { unfold read_last_pair. sb. sb. sb. sb. now apply safe_ret. }
    intros p _. eapply safe_bind; [apply (safe_wr _ n); [exact Hl|lia]|]. intros tg' Ht. now apply safe_ret.
Qed.

(** what reading keeps *)
Definition keeps (g g' : gm) : Prop :=
  ents (geo g') = ents (geo g) /\ down (geo g') = down (geo g) /\ (forall x, In x (groups g) -> In x (groups g')) /\ (well_formed g -> well_formed g').
Lemma keeps_refl g : keeps g g. Proof. split; [|split; [|split]]; auto. Qed.
Lemma keeps_trans a b c : keeps a b -> keeps b c -> keeps a c.
Proof. intros (A1 & A2 & A3 & A4) (B1 & B2 & B3 & B4). split; [congruence|]. split; [congruence|]. split; auto. Qed.
Lemma safe_add g dim tags name : safe (keeps g) (add_group g dim tags (-1) name).
Proof.
  unfold add_group. change (-1 <? 0) with true. cbv iota zeta. destruct (new_tag_spec (groups g) dim) as (Np & Nt).
  destruct (existsb _ _) eqn:Ex; [now left|]. destruct (normal tags) as [|e es] eqn:En; [apply safe_ret, keeps_refl|]. apply safe_ret. split; [reflexivity|]. split; [reflexivity|]. split.
  - intros x Hx. cbn [groups]. apply in_insert_group. now right.
  - intros W. split.
    + apply (ascp_insert_group (mkG dim (new_tag (groups g) dim) name (e :: es))); [now apply wf_keys|]. intros y Hy X. unfold key in X. cbn [g_dim g_tag] in X. apply pair_equal_spec in X as (X1 & X2).
      specialize (Nt _ Hy X1). lia.
    + intros x Hx. cbn [groups] in Hx. apply in_insert_group in Hx as [->|Hx]; [|now apply W]. cbn [g_tag g_ents]. split; [exact Np|]. split; [congruence|]. rewrite <- En. apply asc_normal.
Qed.
Lemma safe_group checks g tags line s : safe (fun r => keeps g (fst r)) (read_group checks g tags line s).
Proof.
  unfold read_group. sb. sb. sb. sb. sb. sb. eapply safe_bind; [apply safe_stoul|]. intros z Hz.
  eapply safe_bind; [now apply safe_resize|]. intros tg Ht. pose proof (Nat.div_mod (Z.to_nat z) 8 ltac:(lia)) as D.
  eapply safe_bind; [apply (safe_for (fun _ => len (Z.to_nat z))); [exact Ht|]|].
  { intros j st Hj Hs. apply safe_tag_line; [exact Hs|]. lia. }
  intros st Hs. eapply safe_bind; [apply (safe_last_tags _ _ (Z.to_nat z)); [exact Hs|lia]|]. intros st' Hs'.
  eapply safe_bind; [apply safe_add|]. intros g' K. now apply safe_ret.
Qed.
Lemma safe_give_up {A} ex (P : A -> Prop) a : P a -> safe P (give_up ex a).
Proof. intros H. unfold give_up. destruct ex; [now left|now apply safe_ret]. Qed.
Lemma safe_groups checks ex n : forall g tags line s, safe (fun r => keeps g (fst r)) (read_groups_loop checks ex n g tags line s).
Proof.
  induction n as [|n IH]; intros g tags line s; cbn [read_groups_loop]; [apply safe_ret, keeps_refl|]. destruct (getline s line) as (ln & s').
  destruct (negb _); [apply safe_give_up, keeps_refl|]. eapply safe_bind; [apply safe_group|]. intros (g' & tg & ln' & s2) K. cbn [fst] in K.
  eapply safe_impl; [|apply IH]. intros r Hr. now apply (keeps_trans _ g').
Qed.
Lemma keeps_colour g l c : keeps g (set_colour_of g l c).
Proof. split; [reflexivity|]. split; [reflexivity|]. split; [auto|]. intros W. exact W. Qed.
Lemma safe_colour g line s : safe (fun r => keeps g (fst r)) (read_colour g line s).
Proof.
  unfold read_colour. do 4 (eapply (safe_bind any); [sb; sb; now apply safe_ret|intros ? _]). sb. eapply safe_bind; [apply safe_stoul|]. intros z Hz.
  eapply safe_bind; [now apply safe_resize|]. intros tg Ht. pose proof (Nat.div_mod (Z.to_nat z) 8 ltac:(lia)) as D.
  eapply safe_bind; [apply (safe_for (fun _ => len (Z.to_nat z))); [exact Ht|]|].
  { intros j st Hj Hs. apply safe_pair_line; [exact Hs|lia|lia]. }
  intros st Hs. eapply (safe_bind any).
  { destruct (Nat.eqb_spec (Z.to_nat z mod 8) 0); [now apply safe_ret|]. eapply safe_impl; [|apply (safe_pair_line _ _ (Z.to_nat z)); [exact Hs|lia|lia]]. intros ? _. exact Logic.I. }
  intros st' _. apply safe_ret. apply keeps_colour.
Qed.
Lemma safe_colours ex n : forall g line s, safe (keeps g) (read_colours_loop ex n g line s).
Proof.
  induction n as [|n IH]; intros g line s; cbn [read_colours_loop]; [apply safe_ret, keeps_refl|]. destruct (getline s line) as (ln & s').
  destruct (negb _); [apply safe_give_up, keeps_refl|]. eapply safe_bind; [apply safe_colour|]. intros (g' & ln' & s2) K. cbn [fst] in K.
  eapply safe_impl; [|apply IH]. intros r Hr. now apply (keeps_trans _ g').
Qed.
Lemma safe_open checks ex t g : safe (keeps g) (open_info checks ex t g).
Proof.
  unfold open_info. eapply (safe_bind (fun r => keeps g (fst r))).
  - unfold read_groups. destruct (getline _ _) as (ln & s). destruct (negb _); [apply safe_give_up, keeps_refl|]. sb. eapply safe_bind; [apply safe_stoul|]. intros z Hz. apply safe_groups.
  - intros (g' & s) K. cbn [fst] in K. destruct (getline s []) as (ln & s'). destruct (negb _); [now apply safe_give_up|]. sb. eapply safe_bind; [apply safe_stoul|]. intros z Hz.
    eapply safe_impl; [|apply safe_colours]. intros r Hr. now apply (keeps_trans _ g').
Qed.

(** ** Writing *)
Lemma safe_mapo {A B} (f : A -> outcome B) l : (forall a, In a l -> safe any (f a)) -> safe any (mapo f l).
Proof.
  induction l as [|a l IH]; intros H; cbn [mapo]; [now apply safe_ret|]. eapply safe_bind; [apply H; now left|]. intros b _. eapply safe_bind; [apply IH; intros; apply H; now right|].
  intros bs _. now apply safe_ret.
Qed.
Lemma safe_rd {A} (l : list A) i : (i < length l)%nat -> safe (fun a => In a l) (rd l i).
Proof. intros H. unfold rd. destruct (nth_error l i) eqn:E; [apply safe_ret; eapply nth_error_In; eauto|apply nth_error_None in E; lia]. Qed.
Lemma safe_eight {A} (show : A -> outcome (list Z)) l : (forall a, In a l -> safe any (show a)) -> safe any (write_eight show l).
Proof.
  intros H. unfold write_eight. pose proof (Nat.div_mod (length l) 8 ltac:(lia)) as D. pose proof (Nat.mod_upper_bound (length l) 8 ltac:(lia)).
  eapply safe_bind; [apply safe_mapo|intros a _; eapply safe_bind; [apply safe_mapo|intros b _; eapply (safe_bind any); [|intros c _; now apply safe_ret]]].
  - intros i Hi. apply in_seq in Hi. eapply safe_bind; [apply safe_mapo|intros; now apply safe_ret]. intros j Hj. apply in_seq in Hj.
    eapply safe_bind; [apply safe_rd; lia|]. intros x Hx. eapply safe_bind; [now apply H|]. intros t _. now apply safe_ret.
  - intros i Hi. apply in_seq in Hi. eapply safe_bind; [apply safe_rd; lia|]. intros x Hx. eapply safe_bind; [now apply H|]. intros t _. now apply safe_ret.
  - destruct (Nat.ltb_spec 0 (length l mod 8)); [|now apply safe_ret]. eapply safe_bind; [apply safe_rd; lia|]. intros x Hx. eapply safe_bind; [now apply H|]. intros t _. now apply safe_ret.
Qed.
Lemma nondec_sortedb l : nondec l -> sortedb Z.ltb l = true.
Proof.
  intros H. induction l as [|a l IH]; [reflexivity|]. destruct l as [|b l]; [reflexivity|]. cbn [sortedb]. inversion_clear H as [|? ? H1 H2]. rewrite Forall_forall in H2.
  specialize (H2 b (or_introl eq_refl)). destruct (Z.ltb_spec b a); [lia|]. cbn [negb andb]. now apply IH.
Qed.
Lemma safe_new_tag checks ge d t : 0 <= d <= 3 -> safe any (new_tag_text checks (tag_maps ge) d t).
Proof.
  intros H. unfold new_tag_text. eapply (safe_bind (fun m => sortedb Z.ltb m = true)).
  - right. exists (sort_tags (map snd (entities ge d))). split; [|apply nondec_sortedb, nondec_sort]. apply rdz_nth; [lia|].
    assert (C : d = 0 \/ d = 1 \/ d = 2 \/ d = 3) by lia. destruct C as [->|[->|[->| ->]]]; reflexivity.
  - intros m Hm. eapply (safe_bind any); [rewrite lower_bound_ok by exact Hm; now apply safe_ret|]. intros i _. sb. sb. now apply safe_ret.
Qed.
Lemma safe_write checks g : (forall d, In d (ents (geo g)) -> 0 <= fst d <= 3) -> (forall x, In x (groups g) -> 0 <= g_dim x <= 3) -> safe any (write_info checks g).
Proof.
  intros He Hg. unfold write_info. eapply safe_bind; [apply safe_mapo|intros gs _; eapply safe_bind; [apply safe_mapo|intros cs _; now apply safe_ret]].
  - intros x Hx. unfold write_group. eapply safe_bind; [apply safe_eight|intros; now apply safe_ret]. intros e _. apply safe_new_tag. now apply Hg.
  - intros (c & ds) Hx. unfold write_colour. cbn [fst snd]. eapply safe_bind; [apply safe_eight|intros; now apply safe_ret]. intros d Hd.
    destruct (colours_ok (geo g)) as ((H1 & _) & _). destruct (H1 _ _ _ Hx Hd) as (_ & I & _). eapply safe_bind; [apply safe_new_tag; now apply He|]. intros t _. now apply safe_ret.
Qed.

(** ** Names of files *)
Lemma last_index_none l c : ~ In c l -> last_index l c = None.
Proof. induction l as [|a l IH]; intros H; [reflexivity|]. cbn [last_index]. rewrite IH by (intros X; apply H; now right). destruct (Z.eqb_spec a c) as [->|]; [elim H; now left|reflexivity]. Qed.
Lemma last_index_app base c e : ~ In c e -> last_index (base ++ c :: e) c = Some (length base).
Proof.
  intros H. induction base as [|a base IH]; cbn [app last_index length]; [rewrite last_index_none by exact H; now rewrite Z.eqb_refl|]. now rewrite IH.
Qed.
Lemma info_dot base e : ~ In 46 e -> info_name (base ++ 46 :: e) = Ret (base ++ lit ".info").
Proof. intros H. unfold info_name. rewrite last_index_app by exact H. rewrite (substr_some [] base (46 :: e)); reflexivity. Qed.
Lemma info_plain f : ~ In 46 f -> info_name f = Ret (f ++ lit ".info").
Proof. intros H. unfold info_name. rewrite last_index_none by exact H. assert (E : substr f 0 None = Ret f) by exact (substr_rest [] f). now rewrite E. Qed.

(** ** The numbers *)
Lemma numbers_onto ge d k : ascending_pairs (ents ge) -> 1 <= k <= Z.of_nat (length (filter (fun x => fst x =? d) (ents ge))) -> exists t, In (d, t) (ents ge) /\ number_of ge d t = k.
Proof.
  intros O H. pose proof (entities_asc ge d O) as A. set (m := map snd (entities ge d)) in *. assert (L : length (filter (fun x => fst x =? d) (ents ge)) = length m) by (unfold m; now rewrite map_length).
  rewrite L in H. destruct (nth_error m (Z.to_nat (k - 1))) as [t|] eqn:E; [|apply nth_error_None in E; lia]. exists t. pose proof (nth_error_In _ _ E) as I. split; [now apply in_entities|].
  rewrite number_upto. fold m. rewrite upto_found by auto. pose proof I as Hf.
  apply (fnl_found Z.ltb) in Hf; [|apply Z.ltb_irrefl|intros ? ? ?; rewrite !Z.ltb_lt; lia|intros ? ?; rewrite !Z.ltb_ge; lia|now apply asc_sorted].
  assert (X : first_not_less Z.ltb m t = Z.to_nat (k - 1)) by (eapply nth_asc_inj; eauto). lia.
Qed.

(** ** Texts that are no info files *)
Lemma begins_inv p l : begins p l = true -> exists r, l = p ++ r.
Proof.
  revert l. induction p as [|a p IH]; intros l H; [now exists l|]. destruct l as [|b l]; [discriminate|].
  cbn [begins] in H. apply andb_true_iff in H as (E & H). apply Z.eqb_eq in E as <-. destruct (IH l H) as (r & ->). now exists r.
Qed.
Lemma getline_pre t : exists r, t = fst (getline (mkStream t false) []) ++ r.
Proof.
  unfold getline. cbn [eof rest]. destruct (index_in t NEWLINE) as [n|]; cbn [fst].
  - exists (skipn n t). symmetry. apply firstn_skipn.
  - exists []. now rewrite app_nil_r.
Qed.
Lemma same_colour g line s : safe (fun r => groups (fst r) = groups g) (read_colour g line s).
Proof.
  unfold read_colour. do 4 (eapply (safe_bind any); [sb; sb; now apply safe_ret|intros ? _]). sb. eapply safe_bind; [apply safe_stoul|]. intros z Hz.
  eapply safe_bind; [now apply safe_resize|]. intros tg Ht. pose proof (Nat.div_mod (Z.to_nat z) 8 ltac:(lia)) as D.
  eapply safe_bind; [apply (safe_for (fun _ => len (Z.to_nat z))); [exact Ht|]|].
  { intros j st Hj Hs. apply safe_pair_line; [exact Hs|lia|lia]. }
  intros st Hs. eapply (safe_bind any).
  { destruct (Nat.eqb_spec (Z.to_nat z mod 8) 0); [now apply safe_ret|]. eapply safe_impl; [|apply (safe_pair_line _ _ (Z.to_nat z)); [exact Hs|lia|lia]]. intros ? _. exact Logic.I. }
  intros st' _. apply safe_ret. reflexivity.
Qed.
Lemma same_colours ex n : forall g line s, safe (fun g' => groups g' = groups g) (read_colours_loop ex n g line s).
Proof.
  induction n as [|n IH]; intros g line s; cbn [read_colours_loop]; [now apply safe_ret|]. destruct (getline s line) as (ln & s').
  destruct (negb _); [now apply safe_give_up|]. eapply safe_bind; [apply same_colour|]. intros (g' & ln' & s2) K. cbn [fst] in K.
  eapply safe_impl; [|apply IH]. intros r Hr. now rewrite Hr.
Qed.
Lemma foreign_text checks ex t g : (forall r, t <> lit "PHYSICAL_GROUPS" ++ r) ->
  open_info checks ex t g = Fail \/ ex = false /\ exists g', open_info checks ex t g = Ret g' /\ groups g' = groups g.
Proof.
  intros H. unfold open_info, read_groups. pose proof (getline_pre t) as (r & Hr). destruct (getline (mkStream t false) []) as (ln & s). cbn [fst] in Hr.
  assert (B : begins (lit "PHYSICAL_GROUPS") ln = false).
  { destruct (begins _ ln) eqn:E; [|reflexivity]. apply begins_inv in E as (r' & ->). destruct (H (r' ++ r)). rewrite Hr at 1. rewrite <- app_assoc. reflexivity. }
  rewrite B. cbn [negb]. unfold give_up at 1. destruct ex; [now left|]. cbn [bind].
  assert (K : safe (fun g' => groups g' = groups g) (let '(line, s) := getline s [] in
    if negb (begins (lit "ENTITY_COLORS") line) then give_up false g
    else let* t := substr line 14 None in let* num_colors := stoul t in read_colours_loop false (Z.to_nat num_colors) g line s)).
  { destruct (getline s []) as (ln' & s'). destruct (negb _); [now apply safe_give_up|]. sb. eapply safe_bind; [apply safe_stoul|]. intros z Hz. apply same_colours. }
  destruct K as [K|(g' & K & G)]; [now left|]. right. split; [reflexivity|]. now exists g'.
Qed.
