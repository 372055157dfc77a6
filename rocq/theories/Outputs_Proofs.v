(** The lines of the text files. *)
From Coq Require Import String.
From Coq Require Import List Arith ZArith Lia Bool Reals Lra.
From Verif Require Import Base Loops Arith StringView_Model Logger_Model TextIo_Model Elem_Model Soup_Model Soup_Spec XSec_Model XSec_Spec PinCyl_Model Grid_Model Grid_Spec Fvm_Model Fvm_Spec
  Xdmf_Model Xdmf_Spec Xdmf_Proofs Mpact_Model Mpact_Spec Export_Model Export_Spec ModelIo_Model ModelIo_Spec ModelIo_Text_Proofs ModelIo_Write_Proofs ModelIo_Proofs ModelIo_View_Proofs
  Outputs_Model Outputs_Spec Outputs_Volume_Proofs Outputs_Chord_Proofs.
Import ListNotations.
Local Open Scope list_scope.

(** ** Cutting *)
Lemma cut_none c t : ~ In c t -> cut c t = [t].
Proof.
  induction t as [|x t IH]; intros H; [reflexivity|]. cbn [cut]. rewrite IH by (intros X; apply H; now right).
  destruct (Z.eqb_spec x c) as [->|_]; [elim H; now left|reflexivity].
Qed.
Lemma cut_first c t r : ~ In c t -> cut c (t ++ c :: r) = t :: cut c r.
Proof.
  induction t as [|x t IH]; intros H; cbn [app cut]; [now rewrite Z.eqb_refl|]. rewrite IH by (intros X; apply H; now right).
  destruct (Z.eqb_spec x c) as [->|_]; [elim H; now left|reflexivity].
Qed.
(** lines with their ends *)
Definition glue (ls : list (list Z)) : list Z := flat_map (fun l => l ++ NL) ls.
Lemma glue_app a b : glue (a ++ b) = glue a ++ glue b.
Proof. apply flat_map_app. Qed.
Lemma glue_cons a b : glue (a :: b) = a ++ NL ++ glue b.
Proof. unfold glue. cbn [flat_map]. now rewrite <- app_assoc. Qed.
Lemma lines_glue ls : forall r, Forall one_line ls -> lines (glue ls ++ r) = ls ++ lines r.
Proof.
  induction ls as [|l ls IH]; intros r H; [reflexivity|]. inversion H; subst. rewrite glue_cons. unfold NL. rewrite <- !app_assoc. cbn [app].
  unfold lines. rewrite cut_first by auto. f_equal. now apply IH.
Qed.
Lemma lines_all ls r : Forall one_line ls -> one_line r -> lines (glue ls ++ r) = ls ++ [r].
Proof. intros H1 H2. rewrite lines_glue by auto. unfold lines. now rewrite cut_none. Qed.
Lemma one_app a b : one_line a -> one_line b -> one_line (a ++ b).
Proof. unfold one_line. intros H1 H2 H. apply in_app_or in H. tauto. Qed.
Lemma one_check t : forallb (fun c => negb (Z.eqb c 10)) t = true -> one_line t.
Proof. intros H X. rewrite forallb_forall in H. apply H in X. discriminate. Qed.
Lemma word_line t : one_word t -> one_line t. Proof. intros [H _]. exact H. Qed.
Lemma repeat_line n : one_line (repeat 32%Z n).
Proof. intros H. apply repeat_spec in H. discriminate. Qed.

Lemma udec_chars f : forall n, (0 <= n)%Z -> Forall (fun c => 48 <= c <= 57)%Z (udec f n).
Proof.
  induction f as [|f IH]; intros n Hn; cbn [udec]; [constructor|]. destruct (Z.ltb_spec n 10).
  - repeat constructor; lia.
  - apply Forall_app. split; [apply IH; apply Z.div_pos; lia|]. pose proof (Z.mod_pos_bound n 10 ltac:(lia)). repeat constructor; lia.
Qed.
Lemma decimal_chars z : Forall (fun c => 45 <= c <= 57)%Z (decimal z).
Proof.
  unfold decimal. destruct (Z.ltb_spec z 0).
  - constructor; [lia|]. eapply Forall_impl; [|apply udec_chars; lia]. intros c Hc. cbv beta in Hc. lia.
  - eapply Forall_impl; [|apply udec_chars; lia]. intros c Hc. cbv beta in Hc. lia.
Qed.
Lemma decimal_word z : one_word (decimal z).
Proof. pose proof (decimal_chars z) as H. rewrite Forall_forall in H. split; intros X; apply H in X; lia. Qed.
Lemma decimal_line z : one_line (decimal z). Proof. apply decimal_word. Qed.
Lemma print_line x : small_number x -> exists t, print_float x = Ret t /\ one_line t.
Proof.
  intros H. destruct (print_some x H) as (t & E & _ & F). exists t. split; [exact E|]. intros X. rewrite Forall_forall in F. apply F in X. unfold num_char in X. lia.
Qed.

(** ** Loops that append *)
Lemma append_loop {A} (F : A -> list Z -> outcome (list Z)) (g : A -> list Z) l : forall s, (forall a s, In a l -> F a s = Ret (s ++ g a)) ->
  foreach l F s = Ret (s ++ flat_map g l).
Proof.
  induction l as [|a l IH]; intros s H; cbn [foreach flat_map]; [now rewrite app_nil_r|]. rewrite H by now left. cbn [bind].
  rewrite IH by (intros; apply H; now right). now rewrite <- app_assoc.
Qed.
Lemma append_loopi {A} (F : nat -> A -> list Z -> outcome (list Z)) (P : nat -> A -> list (list Z) -> Prop) : forall l i s,
  (forall j a, nth_error l j = Some a -> exists ls, P (i + j)%nat a ls /\ forall s, F (i + j)%nat a s = Ret (s ++ glue ls)) ->
  exists cards, length cards = length l /\ (forall j a, nth_error l j = Some a -> exists ls, nth_error cards j = Some ls /\ P (i + j)%nat a ls) /\
    foreachi l i F s = Ret (s ++ glue (concat cards)).
Proof.
  induction l as [|a l IH]; intros i s H.
  - exists []. split; [reflexivity|]. split; [intros [|j] a; discriminate|]. cbn. now rewrite app_nil_r.
  - destruct (H O a eq_refl) as (ls & Hp & Hf). rewrite Nat.add_0_r in Hp, Hf.
    destruct (IH (S i) (s ++ glue ls)) as (cards & L & Hc & E).
    { intros j b Hb. replace (S i + j)%nat with (i + S j)%nat by lia. now apply H. }
    exists (ls :: cards). split; [cbn; lia|]. split.
    + intros [|j] b Hb; cbn [nth_error] in *; [injection Hb as <-; rewrite Nat.add_0_r; eauto|]. replace (i + S j)%nat with (S i + j)%nat by lia. now apply Hc.
    + cbn [foreachi concat]. rewrite Hf. cbn [bind]. rewrite E, glue_app. now rewrite <- app_assoc.
Qed.

(** ** File names *)
Lemma strip_ok base ext : ~ In DOT ext -> strip (base ++ [DOT] ++ ext) = Ret base.
Proof. intros H. unfold strip. rewrite last_of by auto. cbn [bind]. apply substr_app0. Qed.
Lemma strip_plain name : ~ In DOT name -> strip name = Ret name.
Proof. intros H. unfold strip. rewrite last_of_none by auto. cbn [bind]. rewrite <- (app_nil_r name) at 1. apply substr_app0. Qed.
(** the name of the case *)
Lemma case_ok dir case ext : (dir = [] \/ exists d, dir = d ++ [SLASH]) -> ~ In SLASH case -> ~ In SLASH ext ->
  (let* slash := str_find_last_of (dir ++ case ++ ext) SLASH (length (dir ++ case ++ ext)) in
   substr_from (dir ++ case) (match slash with Some i => S i | None => O end)) = Ret case.
Proof.
  intros Hd Hc He. assert (N : ~ In SLASH (case ++ ext)) by (intros X; apply in_app_or in X; tauto). destruct Hd as [->|(d & ->)].
  - cbn [app]. rewrite last_of_none by auto. cbn [bind]. change case with ([] ++ case) at 1. now apply substr_app1.
  - rewrite <- app_assoc. rewrite last_of by auto. cbn [bind]. apply substr_app1. rewrite app_length. cbn [length]. now rewrite Nat.add_1_r.
Qed.

Section Texts.
Variable stdsort : forall A : Type, (A -> A -> bool) -> list A -> list A.
Hypothesis Hsort : sort_contract stdsort.
Variables checks exit : bool.
Variables show show15 : R -> list Z.
Variable tenth : nat -> nat.
Variable m : model.
Variable xsecs : list xsec.
Variable infos : list matinfo.

(** ** A material *)
Lemma nuclides_ok zs : forall ds pre dpre (s : list Z) n, length ds = length zs -> length dpre = length pre ->
  for_ (length zs) (length pre) (fun i t =>
        let* zi := rd (pre ++ zs) i in
        let* di := rd (dpre ++ ds) i in
        Ret (t ++ repeat SPACE n ++ decimal zi ++ txt " " ++ show di ++ NL)) s
  = Ret (s ++ glue (map (fun p => repeat 32%Z n ++ decimal (fst p) ++ txt " " ++ show (snd p)) (combine zs ds))).
Proof.
  induction zs as [|z zs IH]; intros ds pre dpre s n L1 L2; [destruct ds; [|discriminate]; cbn; now rewrite app_nil_r|].
  destruct ds as [|d ds]; [discriminate|]. cbn [length for_]. 
  rewrite (proj2 (rd_Ret (pre ++ z :: zs) (length pre) z)) by (rewrite nth_error_app2, Nat.sub_diag by lia; reflexivity). cbn [bind].
  rewrite (proj2 (rd_Ret (dpre ++ d :: ds) (length pre) d)) by (rewrite nth_error_app2, <- L2, Nat.sub_diag by lia; reflexivity). cbn [bind].
  specialize (IH ds (pre ++ [z]) (dpre ++ [d]) (s ++ repeat SPACE n ++ decimal z ++ txt " " ++ show d ++ NL) n ltac:(now injection L1) ltac:(rewrite !app_length; cbn; lia)).
  rewrite app_length in IH. cbn [length] in IH. rewrite Nat.add_1_r in IH. rewrite <- !app_assoc in IH. cbn [app] in IH.
  etransitivity; [|etransitivity; [exact IH|]]; [f_equal; now rewrite <- ?app_assoc|]. f_equal. cbn [combine map fst snd]. rewrite glue_cons. rewrite <- !app_assoc. reflexivity.
Qed.
Lemma material_ok i x y : info_ok y -> zaids y <> [] -> exists ls, card show i x y ls /\ material_text checks show i x y = Ret (glue ls).
Proof.
  intros [Hd Ht Hn] Hz. destruct (print_line _ Hd) as (d & Ed & _). destruct (print_line _ Ht) as (t & Et & _).
  unfold material_text. rewrite Ed. cbn [bind]. rewrite Et. cbn [bind].
  destruct (zaids y) as [|z zs] eqn:Ez; [congruence|]. destruct (num_densities y) as [|e es] eqn:En; [discriminate|].
  unfold Mpact_Model.assert. cbn [length] in Hn |- *. injection Hn as Hn. rewrite Hn, Nat.eqb_refl. cbn [negb]. rewrite andb_false_r. cbn [rd nth_error bind].
  unfold fmt. set (n := (length (txt "  mat " ++ decimal (Z.of_nat (S i)) ++ txt " <type> " ++ d ++ txt " g/cc " ++ t ++ txt " K \ ") - 5)%nat).
  pose proof (nuclides_ok zs es [z] [e] ((txt "  ! " ++ lit (Mpact_Model.name x) ++ NL ++ txt "  mat " ++ decimal (Z.of_nat (S i)) ++ txt " <type> " ++ d ++ txt " g/cc " ++ t ++ txt " K \ ") ++
      decimal z ++ txt " " ++ show e ++ NL) n Hn eq_refl) as E. cbn [length app] in E.
  eexists. split; [|etransitivity; [exact E|]].
  - exists d, t, (z, e), (combine zs es). cbv zeta. split; [exact Ed|]. split; [exact Et|]. split; [rewrite Ez, En; reflexivity|].
    cbn [fst snd]. reflexivity.
  - f_equal. rewrite !glue_cons. rewrite <- !app_assoc.
    assert (En2 : n = length (txt "  mat " ++ decimal (Z.of_nat (S i)) ++ txt " " ++ txt "F" ++ txt " " ++ d ++ txt " g/cc " ++ t ++ txt " K \ ")).
    { unfold n. rewrite !app_length. change (length (txt " <type> ")) with 8%nat. change (length (txt " ")) with 1%nat. change (length (txt "F")) with 1%nat. lia. }
    rewrite <- En2. change (txt " <type> ") with (txt " " ++ txt "<type>" ++ txt " "). rewrite <- !app_assoc. reflexivity.
Qed.
Lemma txt_line t : forallb (fun c => negb (Z.eqb c 10)) (txt t) = true -> one_line (txt t). Proof. apply one_check. Qed.
Lemma card_lines i x y ls : (forall r, one_line (show r)) -> one_line (lit (Mpact_Model.name x)) -> info_ok y -> card show i x y ls -> Forall one_line ls.
Proof.
  intros Hs Hx [Hd Ht _] (d & t & f & rest & Ed & Et & _ & ->). destruct (print_line _ Hd) as (d' & Ed' & Ld). destruct (print_line _ Ht) as (t' & Et' & Lt).
  rewrite Ed in Ed'. injection Ed' as <-. rewrite Et in Et'. injection Et' as <-.
  constructor; [apply one_app; [apply one_check; reflexivity|exact Hx]|]. constructor.
  - repeat apply one_app; auto; try apply decimal_line; apply one_check; reflexivity.
  - apply Forall_forall. intros l Hl. apply in_map_iff in Hl. destruct Hl as (n & <- & _). repeat apply one_app; auto; try apply decimal_line; [apply repeat_line|apply one_check; reflexivity].
Qed.

(** ** The input file *)
Definition head_lines (case : list Z) : list (list Z) := before_cards case.
Definition tail_lines (file ray : list Z) : list (list Z) := removelast (after_cards file ray).
Lemma before_ok case : one_line case -> Forall one_line (before_cards case).
Proof. intros H. repeat (apply Forall_cons; [|]); try apply Forall_nil; repeat apply one_app; auto; apply one_check; reflexivity. Qed.
Lemma tail_ok file ray : one_line file -> one_line ray -> Forall one_line (removelast (after_cards file ray)).
Proof. intros H1 H2. unfold after_cards. cbn [removelast]. repeat (apply Forall_cons; [|]); try apply Forall_nil; repeat apply one_app; auto; apply one_check; reflexivity. Qed.
Definition last_line : list Z := txt "  cmfd A mgnode F 0.0 1.0 150 F".
Lemma after_split file ray : after_cards file ray = removelast (after_cards file ray) ++ [last_line].
Proof. reflexivity. Qed.
(** the text around the cards of the materials *)
Definition input_text (case mats file ray : list Z) : list Z := glue (before_cards case) ++ mats ++ glue (removelast (after_cards file ray)) ++ last_line.
Lemma input_shape case mats file ray : 
    txt "CASEID MPACT_" ++ case ++ NL ++ NL ++ txt "STATE" ++ NL ++ txt "  edit fsr_flux fsr_power" ++ NL ++ NL
    ++ txt "MATERIAL" ++ NL ++ mats ++ txt "GEOM" ++ NL ++ txt "  um2_core" ++ NL ++ txt "    " ++ file ++ NL ++ NL
    ++ txt "XSEC" ++ NL ++ txt "  xslib ORNL mpact51g_71_v4.2m5_12062016_sph.fmt" ++ NL ++ NL
    ++ txt "OPTION" ++ NL ++ txt "  bound_cond <west_bc> <north_bc> <east_bc> <south_bc> <top_bc> <bottom_bc>" ++ NL
    ++ txt "  solver 1 2" ++ NL
    ++ txt "  ! ray spacing is set such that the expected number of intersections in the largest" ++ NL
    ++ txt "  ! 90% of faces is 4+ for any given direction. (mean chord length / 4)" ++ NL
    ++ txt "  ray " ++ ray ++ txt " CHEBYSHEV-YAMAMOTO 16 3" ++ NL ++ txt "  parallel 1 1 1 1" ++ NL ++ txt "  conv_crit 2*1.e-6" ++ NL
    ++ txt "  iter_lim 2000 1 1" ++ NL ++ txt "  vis_edits T T" ++ NL ++ txt "  cmfd A mgnode F 0.0 1.0 150 F" = input_text case mats file ray.
Proof.
  unfold input_text, before_cards, after_cards, last_line. cbn [removelast]. rewrite !glue_cons. change (glue []) with (@nil Z). rewrite !app_nil_r. rewrite <- !app_assoc. reflexivity.
Qed.
Lemma input_ok dir case l mats : getMeanChordLengths exit m = Ret l -> l <> [] -> tenths tenth ->
  (dir = [] \/ exists d, dir = d ++ [SLASH]) -> ~ In SLASH case ->
  foreachi (materials m) 0 (fun i x t => let* y := rd infos i in let* s := material_text checks show i x y in Ret (t ++ s)) [] = Ret mats ->
  exists r, ray_of l r /\
    writeInputFile stdsort checks exit show tenth m infos (dir ++ case ++ txt ".xdmf") = Ret (dir ++ case ++ txt ".input", input_text case mats (dir ++ case ++ txt ".xdmf") (show r)).
Proof.
  intros El Nl Ht Hd Hc Em. destruct (ray_ok stdsort Hsort tenth Ht exit m l El Nl) as (r & Er & Hr). exists r. split; [exact Hr|].
  unfold writeInputFile. pose proof (strip_ok (dir ++ case) (txt "xdmf") ltac:(cbn; unfold DOT; intuition discriminate)) as Es. rewrite <- app_assoc in Es.
  change ([DOT] ++ txt "xdmf") with (txt ".xdmf") in Es. rewrite Es. cbn [bind].
  pose proof (case_ok dir case (txt ".xdmf") Hd Hc ltac:(cbn; unfold SLASH; intuition discriminate)) as Ec.
  destruct (str_find_last_of (dir ++ case ++ txt ".xdmf") SLASH (length (dir ++ case ++ txt ".xdmf"))); try discriminate. cbn [bind] in Ec |- *. rewrite Ec. cbn [bind].
  rewrite Em. cbn [bind]. rewrite Er. cbn [bind]. rewrite input_shape. now rewrite <- app_assoc.
Qed.
Lemma cards_ok : length infos = length (materials m) -> Forall info_ok infos -> Forall (fun y => zaids y <> []) infos ->
  exists cards, length cards = length (materials m) /\
    (forall i x y, nth_error (materials m) i = Some x -> nth_error infos i = Some y -> exists ls, nth_error cards i = Some ls /\ card show i x y ls) /\
    foreachi (materials m) 0 (fun i x t => let* y := rd infos i in let* s := material_text checks show i x y in Ret (t ++ s)) [] = Ret (glue (concat cards)).
Proof.
  intros L Hi Hz.
  destruct (append_loopi (fun i x t => let* y := rd infos i in let* s := material_text checks show i x y in Ret (t ++ s))
    (fun i x ls => exists y, nth_error infos i = Some y /\ card show i x y ls) (materials m) 0 []) as (cards & Lc & Hc & E).
  { intros j x Hx. cbn [Nat.add]. destruct (nth_error infos j) as [y|] eqn:Ey; [|apply nth_error_None in Ey; assert (j < length (materials m))%nat by (apply nth_error_Some; congruence); lia].
    rewrite Forall_forall in Hi, Hz. pose proof (nth_error_In _ _ Ey) as Hin. destruct (material_ok j x y (Hi y Hin) (Hz y Hin)) as (ls & Hp & Hf).
    exists ls. split; [eauto|]. intros s. rewrite (proj2 (rd_Ret _ _ _) Ey). cbn [bind]. rewrite Hf. reflexivity. }
  exists cards. split; [exact Lc|]. split; [|exact E]. intros i x y Hx Hy. destruct (Hc i x Hx) as (ls & E1 & y' & E2 & Hp). cbn [Nat.add] in *. rewrite Hy in E2. injection E2 as <-. eauto.
Qed.
Lemma input_lines dir case l : getMeanChordLengths exit m = Ret l -> l <> [] -> tenths tenth ->
  (dir = [] \/ exists d, dir = d ++ [SLASH]) -> ~ In SLASH case ->
  length infos = length (materials m) -> Forall info_ok infos -> Forall (fun y => zaids y <> []) infos ->
  (forall r, one_line (show r)) -> Forall (fun x => one_line (lit (Mpact_Model.name x))) (materials m) -> one_line dir -> one_line case ->
  exists r t cards, ray_of l r /\
    writeInputFile stdsort checks exit show tenth m infos (dir ++ case ++ txt ".xdmf") = Ret (dir ++ case ++ txt ".input", t) /\
    length cards = length (materials m) /\
    (forall i x y, nth_error (materials m) i = Some x -> nth_error infos i = Some y -> exists ls, nth_error cards i = Some ls /\ card show i x y ls) /\
    lines t = before_cards case ++ concat cards ++ after_cards (dir ++ case ++ txt ".xdmf") (show r).
Proof.
  intros El Nl Ht Hd Hc Li Hi Hz Hs Hn Ld Lc. destruct (cards_ok Li Hi Hz) as (cards & L & HC & E).
  destruct (input_ok dir case l _ El Nl Ht Hd Hc E) as (r & Hr & Ew). exists r. eexists. exists cards. split; [exact Hr|]. split; [exact Ew|]. split; [exact L|]. split; [exact HC|].
  unfold input_text. rewrite !app_assoc, <- !glue_app, <- app_assoc. rewrite lines_all.
  - rewrite <- !app_assoc. rewrite <- after_split. reflexivity.
  - apply Forall_app. split; [now apply before_ok|]. apply Forall_app. split.
    + apply Forall_concat. apply Forall_forall. intros ls Hls. apply In_nth_error in Hls. destruct Hls as (i & Ei).
      assert (Hi' : (i < length cards)%nat) by (apply nth_error_Some; congruence).
      destruct (nth_error (materials m) i) as [x|] eqn:Ex; [|apply nth_error_None in Ex; lia].
      destruct (nth_error infos i) as [y|] eqn:Ey; [|apply nth_error_None in Ey; lia].
      destruct (HC i x y Ex Ey) as (ls' & Els & Hcard). rewrite Ei in Els. injection Els as <-. rewrite Forall_forall in Hi, Hn.
      eapply card_lines; eauto using nth_error_In.
    + apply tail_ok; auto. repeat apply one_app; auto. apply one_check. reflexivity.
  - apply one_check. reflexivity.
Qed.

(** ** A material without nuclides *)
Lemma foreachi_app {A S : Type} (f : nat -> A -> S -> outcome S) l l' : forall i s, foreachi (l ++ l') i f s = let* s := foreachi l i f s in foreachi l' (i + length l) f s.
Proof.
  induction l as [|a l IH]; intros i s; cbn [app foreachi length bind]; [now rewrite Nat.add_0_r|]. destruct (f i a s); cbn [bind]; auto. rewrite IH. now rewrite <- Nat.add_succ_comm.
Qed.
Definition blank (l : list Z) : Prop := nth_error l 0 = Some 32%Z.
Lemma card_blank i x y ls : card show i x y ls -> Forall blank ls.
Proof.
  intros (d & t & f & rest & _ & _ & _ & ->). constructor; [reflexivity|]. constructor; [reflexivity|]. apply Forall_forall. intros l Hl. apply in_map_iff in Hl.
  destruct Hl as (n & <- & _). reflexivity.
Qed.
Lemma glued ms x is y dir case l : materials m = ms ++ [x] -> infos = is ++ [y] -> length is = length ms -> zaids y = [] ->
  getMeanChordLengths exit m = Ret l -> l <> [] -> tenths tenth ->
  (dir = [] \/ exists d, dir = d ++ [SLASH]) -> ~ In SLASH case ->
  Forall info_ok infos -> Forall (fun y => zaids y <> []) is ->
  (forall r, one_line (show r)) -> Forall (fun x => one_line (lit (Mpact_Model.name x))) (materials m) -> one_line dir -> one_line case ->
  exists t, writeInputFile stdsort checks exit show tenth m infos (dir ++ case ++ txt ".xdmf") = Ret (dir ++ case ++ txt ".input", t) /\ ~ In (txt "GEOM") (lines t).
Proof.
  intros Em Ei Li Hz El Nl Ht Hd Hc Hi Hzs Hs Hn Ld Lc.
  assert (Hinfo : forall j a, nth_error ms j = Some a -> exists b, nth_error infos j = Some b /\ In b is).
  { intros j a Ha. assert (j < length ms)%nat by (apply nth_error_Some; congruence). destruct (nth_error is j) as [b|] eqn:Eb; [|apply nth_error_None in Eb; lia].
    exists b. split; [rewrite Ei, nth_error_app1 by lia; exact Eb|eapply nth_error_In; eauto]. }
  assert (HII : forall b, In b is -> In b infos) by (intros b Hb; rewrite Ei; apply in_or_app; now left).
  rewrite Forall_forall in Hi, Hzs, Hn.
  destruct (append_loopi (fun i x t => let* y := rd infos i in let* s := material_text checks show i x y in Ret (t ++ s))
    (fun i x ls => exists y, In y is /\ card show i x y ls) ms 0 []) as (cards & Lcs & HC & E).
  { intros j a Ha. cbn [Nat.add]. destruct (Hinfo j a Ha) as (b & Eb & Hb). destruct (material_ok j a b (Hi b (HII b Hb)) (Hzs b Hb)) as (ls & Hp & Hf).
    exists ls. split; [eauto|]. intros s. rewrite (proj2 (rd_Ret _ _ _) Eb). cbn [bind]. rewrite Hf. reflexivity. }
  assert (Hy : In y infos) by (rewrite Ei; apply in_or_app; right; now left). assert (Hx : In x (materials m)) by (rewrite Em; apply in_or_app; right; now left).
  destruct (Hi y Hy) as [Hd1 Ht1 _]. destruct (print_line _ Hd1) as (d & Ed & Lnd). destruct (print_line _ Ht1) as (t & Et & Lnt).
  set (front := txt "  mat " ++ decimal (Z.of_nat (S (length ms))) ++ txt " <type> " ++ d ++ txt " g/cc " ++ t ++ txt " K \ ").
  assert (Emats : foreachi (materials m) 0 (fun i x t => let* y := rd infos i in let* s := material_text checks show i x y in Ret (t ++ s)) []
    = Ret (glue (concat cards ++ [txt "  ! " ++ lit (Mpact_Model.name x)]) ++ front)).
  { rewrite Em, foreachi_app, E. cbn [bind foreachi Nat.add]. rewrite (proj2 (rd_Ret infos (length ms) y)).
    2:{ rewrite Ei, nth_error_app2, <- Li, Nat.sub_diag by lia. reflexivity. }
    cbn [bind]. unfold material_text. rewrite Ed. cbn [bind]. rewrite Et. cbn [bind]. rewrite Hz. cbn [bind]. rewrite glue_app, glue_cons. change (glue []) with (@nil Z). rewrite app_nil_r.
    unfold front, fmt. rewrite <- !app_assoc. reflexivity. }
  destruct (input_ok dir case l _ El Nl Ht Hd Hc Emats) as (r & Hr & Ew). eexists. split; [exact Ew|].
  set (file := dir ++ case ++ txt ".xdmf") in *.
  assert (Ea : removelast (after_cards file (show r)) = txt "GEOM" :: tl (removelast (after_cards file (show r)))) by reflexivity.
  assert (Lcards : Forall one_line (concat cards) /\ Forall blank (concat cards)).
  { split; apply Forall_concat; apply Forall_forall; intros ls Hls; apply In_nth_error in Hls; destruct Hls as (i & Eci);
    (assert (Hi' : (i < length cards)%nat) by (apply nth_error_Some; congruence));
    (destruct (nth_error ms i) as [a|] eqn:Exi; [|apply nth_error_None in Exi; lia]); destruct (HC i a Exi) as (ls' & Els & b & Hb & Hcard); rewrite Eci in Els; injection Els as <-.
    - eapply (card_lines _ a b); [exact Hs| |now apply Hi, HII|exact Hcard]. apply Hn. rewrite Em. apply in_or_app. left. eapply nth_error_In; eauto.
    - eapply card_blank; exact Hcard. }
  destruct Lcards as (LC1 & LC2).
  assert (Hlines : lines (input_text case (glue (concat cards ++ [txt "  ! " ++ lit (Mpact_Model.name x)]) ++ front) file (show r))
    = before_cards case ++ concat cards ++ [txt "  ! " ++ lit (Mpact_Model.name x)] ++ (front ++ txt "GEOM") :: tl (removelast (after_cards file (show r))) ++ [last_line]).
  { unfold input_text. rewrite Ea. rewrite glue_cons.
    replace (glue (before_cards case) ++ (glue (concat cards ++ [txt "  ! " ++ lit (Mpact_Model.name x)]) ++ front) ++ (txt "GEOM" ++ NL ++ glue (tl (removelast (after_cards file (show r))))) ++ last_line)
      with (glue (before_cards case ++ concat cards ++ [txt "  ! " ++ lit (Mpact_Model.name x)] ++ (front ++ txt "GEOM") :: tl (removelast (after_cards file (show r)))) ++ last_line).
    2:{ rewrite !glue_app, !glue_cons. change (glue []) with (@nil Z). rewrite app_nil_r, <- !app_assoc. reflexivity. }
    rewrite lines_all.
    - rewrite <- !app_assoc. reflexivity.
    - pose proof (tail_ok file (show r) ltac:(unfold file; repeat apply one_app; auto; apply one_check; reflexivity) (Hs r)) as Ltail. rewrite Ea in Ltail. inversion Ltail; subst.
      apply Forall_app. split; [now apply before_ok|]. apply Forall_app. split; [exact LC1|]. apply Forall_app. split.
      + constructor; [|constructor]. apply one_app; [apply one_check; reflexivity|]. now apply Hn.
      + constructor; [|assumption]. unfold front. repeat apply one_app; auto; try apply decimal_line; apply one_check; reflexivity.
    - apply one_check. reflexivity. }
  rewrite Hlines. intros X.
  assert (D : forall a b : list Z, nth_error a 0 <> nth_error b 0 -> a <> b) by (intros a b H ->; now apply H).
  apply in_app_or in X. destruct X as [X|X].
  { unfold before_cards in X. cbn [In] in X. repeat (destruct X as [X|X]; [refine (D _ _ _ X); vm_compute; discriminate|]). exact X. }
  apply in_app_or in X. destruct X as [X|X].
  { rewrite Forall_forall in LC2. apply LC2 in X. vm_compute in X. discriminate. }
  cbn [app In] in X. destruct X as [X|[X|X]]; [refine (D _ _ _ X); vm_compute; discriminate..|].
  unfold after_cards, last_line in X. cbn [removelast tl app In] in X. repeat (destruct X as [X|X]; [refine (D _ _ _ X); vm_compute; discriminate|]). exact X.
Qed.

(** ** Volumes *)
Lemma volume_lines base ext vols : ~ In DOT ext -> material_volumes stdsort exit m = Ret vols -> length vols = length (materials m) ->
  (forall r, one_line (show15 r)) -> Forall (fun x => one_line (lit (Mpact_Model.name x))) (materials m) ->
  exists t, writeMaterialVolumes stdsort exit show15 m (base ++ [DOT] ++ ext) = Ret (base ++ txt ".volumes", t) /\
    lines t = map (fun p => lit (Mpact_Model.name (fst p)) ++ txt " " ++ show15 (snd p)) (combine (materials m) vols) ++ [[]].
Proof.
  intros He Ev Lv Hs Hn. unfold writeMaterialVolumes. rewrite strip_ok by auto. cbn [bind]. rewrite Ev. cbn [bind].
  assert (G : forall ms vs pre s, length vs = length ms -> foreachi ms (length pre) (fun i x t =>
    let* v := rd (pre ++ vs) i in Ret (t ++ lit (Mpact_Model.name x) ++ txt " " ++ show15 v ++ NL)) s = 
    Ret (s ++ glue (map (fun p => lit (Mpact_Model.name (fst p)) ++ txt " " ++ show15 (snd p)) (combine ms vs)))).
  { induction ms as [|x ms IH]; intros vs pre s L; [destruct vs; [|discriminate]; cbn; now rewrite app_nil_r|].
    destruct vs as [|v vs]; [discriminate|]. cbn [foreachi]. rewrite (proj2 (rd_Ret (pre ++ v :: vs) (length pre) v)) by (rewrite nth_error_app2, Nat.sub_diag by lia; reflexivity).
    cbn [bind]. specialize (IH vs (pre ++ [v]) (s ++ lit (Mpact_Model.name x) ++ txt " " ++ show15 v ++ NL) ltac:(now injection L)).
    rewrite app_length in IH. cbn [length] in IH. rewrite Nat.add_1_r in IH. rewrite <- (app_assoc pre) in IH. cbn [app] in IH.
    rewrite IH. f_equal. cbn [combine map fst snd]. rewrite glue_cons. rewrite <- !app_assoc. reflexivity. }
  specialize (G (materials m) vols [] [] Lv). cbn [length app] in G. rewrite G. cbn [bind]. eexists. split; [reflexivity|].
  rewrite <- (app_nil_r (glue _)). apply lines_all; [|now intros []].
  apply Forall_forall. intros t Ht. apply in_map_iff in Ht. destruct Ht as ([x v] & <- & Hx). apply in_combine_l in Hx. rewrite Forall_forall in Hn. cbn [fst snd].
  apply one_app; [now apply Hn|]. apply one_app; [apply one_check; reflexivity|apply Hs].
Qed.

(** ** Cross sections *)
Lemma words_two a b : one_word a -> words (a ++ txt " " ++ b) = a :: words b.
Proof. intros [_ H]. unfold words. change (a ++ txt " " ++ b) with (a ++ 32%Z :: b). now apply cut_first. Qed.
Lemma words_one a : one_word a -> words a = [a].
Proof. intros [_ H]. now apply cut_none. Qed.
Lemma rd_at l ng g : length l = ng -> (g < ng)%nat -> rd l g = Ret (at_group l g).
Proof. intros <- H. apply rd_Ret. unfold at_group. now apply nth_error_nth'. Qed.
Definition row_line (y : xsec) (g : nat) : list Z :=
  show15 (at_group (xa y) g) ++ txt " " ++ show15 (at_group (xf y) g) ++ txt " " ++ show15 (at_group (xnuf y) g) ++ txt " " ++ show15 (at_group (xtr y) g) ++ txt " " ++ show15 (at_group (xs y) g).
Lemma row_ok ng y g : shape ng y -> (g < ng)%nat -> xs_row show15 y g = Ret (row_line y g ++ NL).
Proof.
  intros (_ & L1 & L2 & L3 & L4 & L5 & _) Hg. unfold xs_row, row_line. rewrite (rd_at _ ng), (rd_at (xf y) ng), (rd_at (xnuf y) ng), (rd_at (xtr y) ng), (rd_at (xs y) ng) by auto. cbn [bind]. rewrite <- !app_assoc. reflexivity.
Qed.
Lemma row_words y g : (forall r, one_word (show15 r)) -> words (row_line y g) = map show15 (map (fun f => at_group (f y) g) [xa; xf; xnuf; xtr; xs]).
Proof. intros H. unfold row_line. rewrite !words_two, words_one by auto. reflexivity. Qed.
Lemma row_one y g : (forall r, one_word (show15 r)) -> one_line (row_line y g).
Proof. intros H. unfold row_line. repeat apply one_app; try (apply word_line, H); apply one_check; reflexivity. Qed.
Lemma xs_lines base ext ng : ~ In DOT ext -> length xsecs = length (materials m) -> materials m <> [] -> Forall (shape ng) xsecs ->
  (forall r, one_word (show15 r)) -> Forall (fun x => one_line (lit (Mpact_Model.name x))) (materials m) ->
  exists t head blocks, writeCrossSections checks show15 m xsecs (base ++ [DOT] ++ ext) = Ret (base ++ txt ".xs", t) /\
    lines t = head :: concat blocks ++ [[]] /\ words head = [decimal (Z.of_nat (length (materials m))); decimal (Z.of_nat ng)] /\
    Forall2 (xs_block show15 ng) (combine (materials m) xsecs) blocks.
Proof.
  intros He L N Hx Hs Hn. unfold writeCrossSections. rewrite strip_ok by auto. cbn [bind].
  destruct xsecs as [|x0 xr] eqn:Exs; [destruct (materials m); [congruence|discriminate]|]. rewrite <- Exs in *. 
  assert (E0 : rd xsecs 0 = Ret x0) by (rewrite Exs; reflexivity). rewrite E0. cbn [bind].
  assert (Eng : numGroups x0 = ng) by (rewrite Exs in Hx; inversion Hx; subst; match goal with H : shape _ x0 |- _ => apply H end). rewrite Eng.
  destruct (append_loopi (fun i x t =>
    let* y := rd xsecs i in
    Mpact_Model.assert checks (numGroups y =? ng)%nat (
    for_ ng 0 (fun g t => let* r := xs_row show15 y g in Ret (t ++ r)) (t ++ lit (Mpact_Model.name x) ++ NL)))
    (fun i x ls => exists y, nth_error xsecs i = Some y /\ ls = lit (Mpact_Model.name x) :: map (row_line y) (seq 0 ng)) (materials m) 0 (fmt (length (materials m)) ++ txt " " ++ fmt ng ++ NL)) as (blocks & Lb & HB & E).
  { intros j x Hj. cbn [Nat.add]. assert (j < length (materials m))%nat by (apply nth_error_Some; congruence).
    destruct (nth_error xsecs j) as [y|] eqn:Ey; [|apply nth_error_None in Ey; lia].
    exists (lit (Mpact_Model.name x) :: map (row_line y) (seq 0 ng)). split; [eauto|]. intros s. rewrite (proj2 (rd_Ret _ _ _) Ey). cbn [bind].
    rewrite Forall_forall in Hx. pose proof (Hx y (nth_error_In _ _ Ey)) as Hy. unfold Mpact_Model.assert. rewrite (proj1 Hy), Nat.eqb_refl. cbn [negb]. rewrite andb_false_r.
    rewrite for_foreach. rewrite (append_loop _ (fun g => row_line y g ++ NL)).
    2:{ intros g t Hg. apply in_seq in Hg. rewrite (row_ok ng) by (auto; lia). reflexivity. }
    f_equal. rewrite glue_cons. rewrite <- !app_assoc. do 3 f_equal. unfold glue. now rewrite !flat_map_concat_map, map_map. }
  match type of E with _ = ?v => match goal with |- context [bind ?e _] => replace e with v by (symmetry; exact E) end end. cbn [bind]. eexists. exists (fmt (length (materials m)) ++ txt " " ++ fmt ng), blocks. split; [reflexivity|].
  assert (HF : Forall2 (fun p ls => ls = lit (Mpact_Model.name (fst p)) :: map (row_line (snd p)) (seq 0 ng)) (combine (materials m) xsecs) blocks).
  { apply Export_Loop_Proofs.F2_of_nth; [rewrite combine_length, L, Nat.min_id; symmetry; exact Lb|]. intros i [x y] ls Ei El.
    destruct (nth_error (materials m) i) as [x'|] eqn:Ex; [|apply nth_error_None in Ex; assert (i < length (combine (materials m) xsecs))%nat by (apply nth_error_Some; congruence); rewrite combine_length in *; lia].
    destruct (HB i x' Ex) as (ls' & El' & y' & Ey & ->). cbn [Nat.add] in Ey. rewrite (Export_Loop_Proofs.nth_combine _ _ i _ _ Ex Ey) in Ei. injection Ei as <- <-. cbn [fst snd]. pose proof (eq_trans (eq_sym El) El') as Q. injection Q; auto. }
  split; [|split].
  - replace ((fmt (length (materials m)) ++ txt " " ++ fmt ng ++ NL) ++ glue (concat blocks)) with (glue ((fmt (length (materials m)) ++ txt " " ++ fmt ng) :: concat blocks) ++ []) by (rewrite app_nil_r, glue_cons, <- !app_assoc; reflexivity).
    rewrite lines_all; [reflexivity| |now intros []]. constructor.
    + unfold fmt. repeat apply one_app; try apply decimal_line. apply one_check. reflexivity.
    + apply Forall_concat. apply Forall_forall. intros ls Hls. apply In_nth_error in Hls. destruct Hls as (i & Ei). assert (i < length blocks)%nat by (apply nth_error_Some; congruence).
      destruct (nth_error (materials m) i) as [x|] eqn:Ex; [|apply nth_error_None in Ex; lia]. destruct (HB i x Ex) as (ls' & El' & y & _ & ->). pose proof (eq_trans (eq_sym Ei) El') as Q. injection Q as ->.
      constructor; [rewrite Forall_forall in Hn; apply Hn; eapply nth_error_In; eauto|]. apply Forall_forall. intros t Ht. apply in_map_iff in Ht. destruct Ht as (g & <- & _). now apply row_one.
  - unfold fmt. rewrite words_two, words_one by apply decimal_word. reflexivity.
  - eapply ModelIo_View_Proofs.F2_impl; [|exact HF]. intros [x y] ls ->. cbn [fst snd]. exists (map (row_line y) (seq 0 ng)). split; [reflexivity|].
    apply Export_Loop_Proofs.F2_of_nth; [now rewrite map_length|]. intros i g row Eg Er. rewrite nth_error_map, Eg in Er. injection Er as <-. now apply row_words.
Qed.

(** ** All the files *)
Lemma name_neq (base : list Z) a b : a <> b -> base ++ a <> base ++ b.
Proof. intros H E. apply app_inv_head in E. contradiction. Qed.
Lemma write_all_ok fsize knudsen xsdata path h d d' t f1 f2 f3 : xdmf_path path h ->
  write stdsort fsize knudsen xsdata m xsecs path d = Ret d' ->
  writeInputFile stdsort checks exit show tenth m infos path = Ret f1 -> writeMaterialVolumes stdsort exit show15 m path = Ret f2 ->
  writeCrossSections checks show15 m xsecs path = Ret f3 ->
  write_all stdsort checks exit show show15 tenth m xsecs infos fsize knudsen xsdata path (d, t) = Ret (d', put_text f3 (put_text f2 (put_text f1 t))).
Proof.
  intros Hp Hw H1 H2 H3. unfold write_all. pose proof (path_xdmf path h Hp) as Ex. rewrite Ex. cbn [bind]. unfold write in Hw. rewrite Ex in Hw. cbn [bind] in Hw. rewrite Hw. cbn [bind].
  rewrite H1. cbn [bind]. rewrite H2. cbn [bind]. rewrite H3. reflexivity.
Qed.
End Texts.
