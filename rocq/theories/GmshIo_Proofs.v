(** Proofs for the info files of gmsh models. *)
From Coq Require Import String Ascii.
From Coq Require Import List Arith ZArith Lia Bool Sorted Permutation.
From Verif Require Import Base Loops StringView_Model TextIo_Model Logger_Model ModelIo_Model ModelIo_Text_Proofs.
From Verif Require Import Groups_Model Groups_Spec Groups_List_Proofs Groups_Ops_Proofs Overlay_Model Overlay_Proofs.
From Verif Require Import GmshIo_Model GmshIo_Spec GmshIo_Text_Proofs GmshIo_Read_Proofs.
Import ListNotations.
Open Scope Z_scope.

(** ** Numbering *)
Definition upto (t : Z) (l : list Z) : Z := Z.of_nat (length (filter (fun u => u <=? t) l)).
Lemma number_upto ge d t : number_of ge d t = upto t (map snd (entities ge d)).
Proof.
  unfold number_of, upto, entities. f_equal. induction (ents ge) as [|(a & u) l IH]; [reflexivity|]. cbn [filter fst snd].
  destruct (Z.eqb_spec a d); cbn [andb]; [|exact IH]. cbn [map filter snd]. destruct (u <=? t); cbn [length]; congruence.
Qed.
Lemma filter_none {A} (f : A -> bool) l : (forall a, In a l -> f a = false) -> filter f l = [].
Proof. induction l as [|a l IH]; intros H; [reflexivity|]. cbn [filter]. rewrite H by now left. apply IH. intros; apply H; now right. Qed.
Lemma upto_found m t : ascending m -> In t m -> upto t m = Z.of_nat (first_not_less Z.ltb m t) + 1.
Proof.
  unfold upto. induction m as [|a m IH]; intros A I; [destruct I|]. apply asc_cons in A as (A & Ha). cbn [filter first_not_less].
  destruct I as [->|I].
  - rewrite Z.leb_refl, Z.ltb_irrefl. cbn [length]. rewrite filter_none; [reflexivity|]. intros b Hb. apply Z.leb_gt. now apply Ha.
  - pose proof (Ha _ I). destruct (Z.leb_spec a t); [|lia]. destruct (Z.ltb_spec a t); [|lia]. cbn [length]. specialize (IH A I). lia.
Qed.
Lemma filter_length_le {A} (f : A -> bool) l : (length (filter f l) <= length l)%nat.
Proof. induction l as [|a l IH]; [reflexivity|]. cbn [filter]. destruct (f a); cbn [length]; lia. Qed.
Lemma upto_bounds m t : In t m -> 1 <= upto t m <= Z.of_nat (length m).
Proof.
  intros I. unfold upto. assert (X : In t (filter (fun u => u <=? t) m)) by (apply filter_In; split; [auto|apply Z.leb_refl]).
  pose proof (filter_length_le (fun u => u <=? t) m). destruct (filter (fun u => u <=? t) m) as [|b l]; [destruct X|]. cbn [length] in *. lia.
Qed.
Lemma upto_mono m t u : t < u -> In u m -> upto t m < upto u m.
Proof.
  intros L I. unfold upto. apply inj_lt. induction m as [|a m IH]; [destruct I|]. cbn [filter].
  assert (LE : (length (filter (fun v => (v <=? t)%Z) m) <= length (filter (fun v => (v <=? u)%Z) m))%nat).
  { clear -L. induction m as [|a m IH]; [reflexivity|]. cbn [filter]. destruct (Z.leb_spec a t), (Z.leb_spec a u); cbn [length]; lia. }
  destruct I as [->|I].
  - destruct (Z.leb_spec u t); [lia|]. rewrite Z.leb_refl. cbn [length]. lia.
  - specialize (IH I). destruct (Z.leb_spec a t), (Z.leb_spec a u); cbn [length]; lia.
Qed.
Lemma entities_length ge d : (length (map snd (entities ge d)) <= length (ents ge))%nat.
Proof. rewrite map_length. unfold entities. apply filter_length_le. Qed.

Section Numbers.
Variable ge : geometry.
Hypothesis ordered : ascending_pairs (ents ge).
Lemma number_bounds d t : In (d, t) (ents ge) -> 1 <= number_of ge d t <= Z.of_nat (length (ents ge)).
Proof.
  intros H. rewrite number_upto. apply in_entities in H. pose proof (upto_bounds _ _ H). pose proof (entities_length ge d). lia.
Qed.
Lemma number_mono d t u : t < u -> In (d, u) (ents ge) -> number_of ge d t < number_of ge d u.
Proof. intros L H. rewrite !number_upto. apply upto_mono; [exact L|]. now apply in_entities. Qed.
Lemma number_inj d t u : In (d, t) (ents ge) -> In (d, u) (ents ge) -> number_of ge d t = number_of ge d u -> t = u.
Proof.
  intros H1 H2 E. destruct (Z.lt_trichotomy t u) as [L|[L|L]]; [|exact L|].
  - apply (number_mono d) in L; [lia|auto].
  - apply (number_mono d) in L; [lia|auto].
Qed.
Lemma maps_rd d : 0 <= d <= 3 -> rdz (tag_maps ge) d = Ret (map snd (entities ge d)).
Proof.
  intros H. rewrite <- (sort_asc _ (entities_asc ge d ordered)). apply rdz_nth; [lia|].
  assert (C : d = 0 \/ d = 1 \/ d = 2 \/ d = 3) by lia. destruct C as [->|[->|[->| ->]]]; reflexivity.
Qed.
Lemma new_tag_text_ok checks d t : In (d, t) (ents ge) -> 0 <= d <= 3 -> new_tag_text checks (tag_maps ge) d t = Ret (decimal (number_of ge d t)).
Proof.
  intros H Hd. unfold new_tag_text. rewrite (maps_rd d Hd). cbn [bind]. set (m := map snd (entities ge d)).
  pose proof (entities_asc ge d ordered) as A. fold m in A. pose proof (asc_sorted _ A) as Hs. rewrite lower_bound_ok by exact Hs. cbn [bind].
  apply in_entities in H. fold m in H. pose proof H as Hf. apply (fnl_found Z.ltb) in Hf; [|apply Z.ltb_irrefl|intros ? ? ?; rewrite !Z.ltb_lt; lia|intros ? ?; rewrite !Z.ltb_ge; lia|exact Hs].
  assert (B : (first_not_less Z.ltb m t < length m)%nat) by (apply nth_error_Some; congruence). rewrite (proj2 (Nat.ltb_lt _ _) B), Hf, Z.eqb_refl.
  unfold TextIo_Model.ASSERT. cbn [negb]. rewrite andb_false_r. cbn [bind]. f_equal. f_equal. rewrite number_upto. fold m. symmetry. now apply upto_found.
Qed.
Lemma asc_numbers d es : ascending es -> (forall e, In e es -> In (d, e) (ents ge)) -> ascending (map (number_of ge d) es).
Proof.
  induction es as [|e es IH]; intros A H; [constructor|]. apply asc_cons in A as (A & Ha). cbn [map]. apply asc_cons. split; [apply IH; [exact A|intros; apply H; now right]|].
  intros b Hb. apply in_map_iff in Hb as (u & <- & Hu). apply number_mono; [now apply Ha|]. apply H. now right.
Qed.
End Numbers.
Lemma asc_nodup l : ascending l -> NoDup l.
Proof. induction l as [|a l IH]; intros A; [constructor|]. apply asc_cons in A as (A & Ha). constructor; [|auto]. intros X. apply Ha in X. lia. Qed.
Lemma asc_count d es ge : ascending es -> (forall e, In e es -> In (d, e) (ents ge)) -> (length es <= length (ents ge))%nat.
Proof.
  intros A H. rewrite <- (map_length (pair d)). apply NoDup_incl_length.
  - apply FinFun.Injective_map_NoDup; [intros x y E; congruence|now apply asc_nodup].
  - intros x Hx. apply in_map_iff in Hx as (e & <- & He). auto.
Qed.

(** ** Groups *)
Definition of_dim (d : Z) (l : list group) : Z := Z.of_nat (length (filter (fun y => g_dim y =? d) l)).
Fixpoint renamed (num : Z -> Z -> Z) (pre l : list group) : list group :=
  match l with
  | [] => []
  | x :: r => mkG (g_dim x) (1 + of_dim (g_dim x) pre) (g_name x) (map (num (g_dim x)) (g_ents x)) :: renamed num (pre ++ [x]) r
  end.
Lemma renamed_app num l : forall pre m, renamed num pre (l ++ m) = renamed num pre l ++ renamed num (pre ++ l) m.
Proof. induction l as [|x l IH]; intros pre m; cbn [renamed app]; [now rewrite app_nil_r|]. f_equal. now rewrite IH, <- app_assoc. Qed.
Lemma renamed_length num l : forall pre, length (renamed num pre l) = length l.
Proof. induction l; intros; cbn; auto. Qed.
Lemma renamed_nth num l : forall pre i x, nth_error l i = Some x -> nth_error (renamed num pre l) i =
  Some (mkG (g_dim x) (1 + of_dim (g_dim x) (pre ++ firstn i l)) (g_name x) (map (num (g_dim x)) (g_ents x))).
Proof.
  induction l as [|y l IH]; intros pre [|i] x H; try discriminate; cbn [renamed nth_error firstn] in *.
  - injection H as ->. now rewrite app_nil_r.
  - rewrite (IH _ _ _ H), <- app_assoc. reflexivity.
Qed.
Definition maxtag (d : Z) (l : list group) (z : Z) : Z := fold_right (fun x m => if g_dim x =? d then Z.max (g_tag x) m else m) z l.
Lemma maxtag_init d l : forall z, 0 <= z -> maxtag d l z = Z.max z (maxtag d l 0).
Proof. induction l as [|x l IH]; intros z H; cbn; [lia|]. fold (maxtag d l z) (maxtag d l 0). rewrite IH by lia. destruct (g_dim x =? d); lia. Qed.
Lemma of_dim_app d a b : of_dim d (a ++ b) = of_dim d a + of_dim d b.
Proof. unfold of_dim. rewrite filter_app, app_length. lia. Qed.
Lemma of_dim_pos d l : 0 <= of_dim d l. Proof. unfold of_dim. lia. Qed.
Lemma renamed_new num d l : new_tag (renamed num [] l) d = 1 + of_dim d l.
Proof.
  unfold new_tag. fold (maxtag d (renamed num [] l) 0). f_equal. induction l as [|x l IH] using rev_ind; [reflexivity|].
  rewrite renamed_app, of_dim_app. cbn [renamed app]. unfold maxtag. rewrite fold_right_app. cbn [fold_right g_dim g_tag].
  pose proof (of_dim_pos (g_dim x) l). pose proof (of_dim_pos d l). unfold of_dim at 3. cbn [filter].
  destruct (Z.eqb_spec (g_dim x) d) as [->|N].
  - fold (maxtag d (renamed num [] l) (Z.max (1 + of_dim d l) 0)). rewrite maxtag_init by lia. rewrite IH. cbn [length]. lia.
  - fold (maxtag d (renamed num [] l) 0). rewrite IH. cbn [length]. lia.
Qed.
Lemma renamed_tags num l y : In y (renamed num [] l) -> exists x, In x l /\ g_dim y = g_dim x /\ g_tag y <= of_dim (g_dim x) l.
Proof.
  induction l as [|x l IH] using rev_ind; [intros []|]. rewrite renamed_app. intros H. apply in_app_or in H. destruct H as [H|H].
  - destruct (IH H) as (z & Hz & E & L). exists z. split; [apply in_or_app; now left|]. split; [exact E|]. rewrite of_dim_app. pose proof (of_dim_pos (g_dim z) [x]). lia.
  - destruct H as [<-|[]]. cbn [g_dim g_tag app]. exists x. split; [apply in_or_app; right; now left|]. split; [reflexivity|]. rewrite of_dim_app. unfold of_dim at 3. cbn [filter]. rewrite Z.eqb_refl. cbn [length]. lia.
Qed.
Lemma insert_last x l : (forall y, In y l -> pair_lt (key x) (key y) = false) -> insert_group x l = l ++ [x].
Proof. induction l as [|y l IH]; intros H; cbn [insert_group app]; [reflexivity|]. rewrite H by now left. f_equal. apply IH. intros; apply H; now right. Qed.
Lemma add_next num pre x ge : ascending (map (num (g_dim x)) (g_ents x)) -> g_ents x <> [] -> (forall y, In y pre -> g_dim y <= g_dim x) ->
  add_group (mkGm (renamed num [] pre) ge) (g_dim x) (map (num (g_dim x)) (g_ents x)) (-1) (g_name x) = Ret (mkGm (renamed num [] (pre ++ [x])) ge).
Proof.
  intros A N D. unfold add_group. cbn [groups geo]. change (-1 <? 0) with true. cbv iota zeta. rewrite renamed_new.
  destruct (existsb _ _) eqn:E.
  { apply existsb_exists in E as (y & Hy & E). apply pair_eq_iff in E. unfold key in E. apply pair_equal_spec in E as (E1 & E2).
    destruct (renamed_tags _ _ _ Hy) as (z & Hz & Ed & L). rewrite E1 in Ed. rewrite <- Ed in L. lia. }
  rewrite normal_asc by exact A. destruct (g_ents x) as [|e es] eqn:Ee; [now elim N|]. cbn [map]. f_equal. f_equal. rewrite renamed_app. cbn [renamed app].
  rewrite Ee. apply insert_last. intros y Hy. destruct (renamed_tags _ _ _ Hy) as (z & Hz & Ed & L). unfold pair_lt, key. cbn [fst snd g_dim g_tag].
  specialize (D _ Hz). rewrite Ed. destruct (Z.ltb_spec (g_dim x) (g_dim z)); [lia|]. destruct (Z.eqb_spec (g_dim x) (g_dim z)) as [Ex|]; [|reflexivity].
  cbn [orb andb]. apply Z.ltb_ge. rewrite Ex. lia.
Qed.

(** ** Names *)
Lemma lit_lacks c s : lacks c s -> ~ In (Z.of_N (N_of_ascii c)) (lit s).
Proof.
  intros H X. apply H. unfold lit in X. apply in_map_iff in X as (a & E & Ha). apply N2Z.inj in E. apply (f_equal ascii_of_N) in E. rewrite !ascii_N_embedding in E. now subst.
Qed.
Lemma digit_text d : 0 <= d <= 3 -> length (decimal d) = 1%nat.
Proof. intros H. assert (C : d = 0 \/ d = 1 \/ d = 2 \/ d = 3) by lia. destruct C as [->|[->|[->| ->]]]; reflexivity. Qed.
Lemma resize_length {A} max (d : A) l n l' : 0 <= n -> resize max d l n = Ret l' -> length l' = Z.to_nat n.
Proof.
  unfold resize. destruct (max <? n); [discriminate|]. intros H E. apply (f_equal (fun o => match o with Ret a => a | _ => [] end)) in E. cbv beta iota zeta in E. subst l'.
  rewrite app_length, firstn_length, repeat_length. lia.
Qed.
Lemma resize_ok {A} max (d : A) l n : 0 <= n <= max -> exists l', resize max d l n = Ret l' /\ length l' = Z.to_nat n.
Proof.
  intros H. destruct (resize max d l n) as [l'| | |] eqn:E; [exists l'; split; [reflexivity|now apply resize_length in E]| | |];
    unfold resize in E; destruct (Z.ltb_spec max n); try lia; discriminate.
Qed.

(** the first line of a group *)
Definition head (x : group) (n : nat) : list Z :=
  lit "PHYSICAL_GROUP " ++ [QUOTE] ++ lit (g_name x) ++ [QUOTE; BLANK] ++ decimal (g_dim x) ++ [BLANK] ++ decimal (Z.of_nat n).
Definition group_lines (x : group) (L : list Z) : list Z := head x (length L) ++ [NEWLINE] ++ rows decimal L.

Section Reader.
Variables checks ex : bool.

Lemma read_group_ok g tags x L R : lacks """"%char (g_name x) -> 0 <= g_dim x <= 3 -> (checks = true -> 0 < g_dim x) -> Forall small L -> small (Z.of_nat (length L)) ->
  exists line', read_group checks g tags (head x (length L)) (mkStream (rows decimal L ++ R) false) =
    let* g := add_group g (g_dim x) L (-1) (g_name x) in Ret (g, (L, (line', mkStream R false))).
Proof.
  intros Hq Hd Hc Hs Hl. unfold read_group. pose proof (lit_lacks _ _ Hq) as Lq. change (Z.of_N (N_of_ascii """"%char)) with QUOTE in Lq.
  set (pre := lit "PHYSICAL_GROUP "). set (nm := lit (g_name x)) in *. set (dd := decimal (g_dim x)). set (nn := decimal (Z.of_nat (length L))).
  assert (F1 : find_from (head x (length L)) QUOTE 0 = Some (length pre)).
  { change 0%nat with (length (@nil Z)). unfold head. fold pre nm dd nn. apply (find_ok [] pre QUOTE). intros X. apply in_map_iff in X as (a & E & Ha).
    cbn in Ha. repeat (destruct Ha as [<-|Ha]; [discriminate|]). destruct Ha. }
  rewrite F1. cbn [plus]. set (p1 := pre ++ [QUOTE]). replace (length pre + 1)%nat with (length p1) by (unfold p1; rewrite app_length; reflexivity).
  assert (H1 : head x (length L) = p1 ++ nm ++ QUOTE :: (BLANK :: dd ++ [BLANK] ++ nn)) by (unfold head, p1; fold pre nm dd nn; rewrite <- !app_assoc; reflexivity).
  assert (F2 : find_from (head x (length L)) QUOTE (length p1) = Some (length p1 + length nm)%nat) by (rewrite H1; now apply find_ok).
  rewrite F2. assert (C2 : cut (head x (length L)) (length p1) (Some (length p1 + length nm)%nat) = Ret nm) by (rewrite H1; apply cut_ok).
  rewrite C2. cbn [bind plus]. set (p2 := p1 ++ nm ++ [QUOTE; BLANK]).
  replace (length p1 + length nm + 2)%nat with (length p2) by (unfold p2; rewrite !app_length; cbn [length]; apply Nat.add_assoc).
  assert (H2 : head x (length L) = p2 ++ dd ++ ([BLANK] ++ nn)) by (unfold head, p2, p1; fold pre nm dd nn; rewrite <- !app_assoc; reflexivity).
  assert (S2 : substr (head x (length L)) (length p2) (Some 1%nat) = Ret dd) by (rewrite H2; apply substr_some; symmetry; now apply digit_text).
  rewrite S2. cbn [bind]. unfold dd. rewrite stoi_decimal' by (unfold small; lia). cbn [bind].
  assert (A1 : TextIo_Model.ASSERT checks (0 <? g_dim x) = Ret tt).
  { unfold TextIo_Model.ASSERT. destruct checks; [|reflexivity]. specialize (Hc eq_refl). destruct (Z.ltb_spec 0 (g_dim x)); [reflexivity|lia]. }
  assert (A2 : TextIo_Model.ASSERT checks (g_dim x <? 4) = Ret tt).
  { unfold TextIo_Model.ASSERT. destruct (Z.ltb_spec (g_dim x) 4); [|lia]. now rewrite andb_false_r. }
  rewrite A1, A2. cbn [bind]. fold dd. set (p3 := p2 ++ dd ++ [BLANK]).
  replace (length p2 + 2)%nat with (length p3) by (unfold p3; rewrite !app_length; unfold dd; rewrite (digit_text _ Hd); reflexivity).
  assert (H3 : head x (length L) = p3 ++ nn) by (rewrite H2; unfold p3; rewrite <- !app_assoc; reflexivity).
  assert (S3 : substr (head x (length L)) (length p3) None = Ret nn) by (rewrite H3; apply substr_rest).
  rewrite S3. cbn [bind]. unfold nn. rewrite stoul_decimal by exact Hl. cbn [bind].
  destruct (resize_ok 2305843009213693951 0 tags (Z.of_nat (length L))) as (tg & Er & Lr); [unfold small in Hl; lia|]. rewrite Er. cbn [bind]. rewrite Nat2Z.id in *.
  destruct (read_tags_ok L tg (head x (length L)) R Hs Lr) as (line' & E). exists line'.
  destruct (for_ (length L / 8) 0 read_tag_line (tg, (head x (length L), mkStream (rows decimal L ++ R) false))) as [st| | |]; try discriminate. cbn [bind] in E |- *.
  rewrite E. cbn [bind fst]. unfold nm. now rewrite string_of_lit.
Qed.
Lemma head_line x n : lacks "010"%char (g_name x) -> ~ In NEWLINE (head x n).
Proof.
  intros H X. apply lit_lacks in H. change (Z.of_N (N_of_ascii "010"%char)) with NEWLINE in H. unfold head in X.
  assert (D : forall z, ~ In NEWLINE (decimal z)) by (intros z Y; now apply decimal_is_word in Y).
  repeat (apply in_app_or in X; destruct X as [X|X]); try (now apply D in X); try (now apply H in X); cbn in X;
    repeat (destruct X as [X|X]; [discriminate X|]); try destruct X.
Qed.

Variable num : Z -> Z -> Z.
Definition good_group (x : group) : Prop :=
  lacks """"%char (g_name x) /\ lacks "010"%char (g_name x) /\ 0 <= g_dim x <= 3 /\ (checks = true -> 0 < g_dim x) /\ g_ents x <> [] /\
  ascending (map (num (g_dim x)) (g_ents x)) /\ Forall small (map (num (g_dim x)) (g_ents x)) /\ small (Z.of_nat (length (g_ents x))).
Lemma read_groups_loop_ok ge l : forall pre tags line R, Forall good_group l -> 
  StronglySorted Z.le (map g_dim (pre ++ l)) ->
  read_groups_loop checks ex (length l) (mkGm (renamed num [] pre) ge) tags line
      (mkStream (concat (map (fun x => group_lines x (map (num (g_dim x)) (g_ents x))) l) ++ R) false) =
    Ret (mkGm (renamed num [] (pre ++ l)) ge, mkStream R false).
Proof.
  induction l as [|x l IH]; intros pre tags line R G Sd; cbn [length map concat read_groups_loop].
  - now rewrite app_nil_r.
  - apply Forall_cons_iff in G as ((Hq & Hn & Hd & Hc & Ne & A & Sm & Sl) & G'). set (L := map (num (g_dim x)) (g_ents x)) in *.
    unfold group_lines at 1. rewrite <- !app_assoc. set (R1 := concat _ ++ R). cbn [app].
    pose proof (getline_ok (head x (length L)) (rows decimal L ++ R1) line (head_line x _ Hn)) as GL.
    match goal with |- context [getline ?s line] => change (getline s line = (head x (length L), mkStream (rows decimal L ++ R1) false)) in GL end. rewrite GL. clear GL.
    assert (B : begins (lit "PHYSICAL_GROUP") (head x (length L)) = true).
    { unfold head. change (lit "PHYSICAL_GROUP ") with (lit "PHYSICAL_GROUP" ++ [BLANK]). rewrite <- app_assoc. apply begins_ok. }
    rewrite B. cbn [negb]. destruct (read_group_ok (mkGm (renamed num [] pre) ge) tags x L R1) as (line' & E); auto.
    { unfold L. rewrite map_length. exact Sl. }
    rewrite E. unfold L at 1. rewrite add_next; [|exact A|exact Ne|].
    + cbn [bind]. unfold R1. pose proof (IH (pre ++ [x]) L line' R G') as E2. rewrite <- app_assoc in E2. exact (E2 Sd).
    + intros y Hy. clear -Sd Hy. rewrite map_app in Sd. induction pre as [|z pre IH]; [destruct Hy|]. cbn [map app] in Sd. inversion_clear Sd as [|? ? S1 F]. destruct Hy as [->|Hy]; [|auto].
      rewrite Forall_forall in F. apply F. apply in_or_app. right. now left.
Qed.
End Reader.

(** ** Colours *)
Lemma rgba c : 0 <= c < 4294967296 -> colour_of_rgba (red c) (green c) (blue c) (alpha c) = c /\
  small (red c) /\ small (green c) /\ small (blue c) /\ small (alpha c).
Proof. intros H. unfold colour_of_rgba, red, green, blue, alpha, small. Z.div_mod_to_equations. lia. Qed.
Definition colour_head (c : colour) (n : nat) : list Z :=
  lit "ENTITY_COLOR " ++ decimal (red c) ++ [BLANK] ++ decimal (green c) ++ [BLANK] ++ decimal (blue c) ++ [BLANK] ++ decimal (alpha c) ++ [BLANK] ++ decimal (Z.of_nat n).
Definition colour_lines (c : colour) (L : list dimtag) : list Z := colour_head c (length L) ++ [NEWLINE] ++ rows pair_text L.
Lemma next_ok (ws : list (list Z)) k z (tail : list Z) : nth_error ws k = Some (decimal z) -> small z ->
  (let* t := cut (blanks ws ++ tail) (length (blanks (firstn k ws))) (find_from (blanks ws ++ tail) BLANK (length (blanks (firstn k ws)))) in
   let* v := stoi t in Ret (v, plus (find_from (blanks ws ++ tail) BLANK (length (blanks (firstn k ws)))) 1)) = Ret (z, length (blanks (firstn (S k) ws))).
Proof.
  intros H S0. destruct (word_at ws k _ tail H (decimal_is_word z)) as (te & F & C & P). cbv zeta. rewrite F, C. cbn [bind]. rewrite stoi_decimal' by exact S0. cbn [bind]. now rewrite P.
Qed.
Lemma chain {A B C} (m : outcome A) k (h : B -> outcome C) b : bind m k = Ret b -> bind m (fun s => bind (k s) h) = h b.
Proof. destruct m; try discriminate. cbn [bind]. now intros ->. Qed.
Lemma read_colour_ok g c L R : 0 <= c < 4294967296 -> Forall small_pair L -> small (Z.of_nat (length L)) ->
  exists line', read_colour g (colour_head c (length L)) (mkStream (rows pair_text L ++ R) false) = Ret (set_colour_of g L c, (line', mkStream R false)).
Proof.
  intros Hc Hs Hl. destruct (rgba c Hc) as (Ec & S1 & S2 & S3 & S4). unfold read_colour.
  set (ws := @cons (list Z) (lit "ENTITY_COLOR") [decimal (red c); decimal (green c); decimal (blue c); decimal (alpha c)]).
  set (nn := decimal (Z.of_nat (length L))).
  assert (HE : colour_head c (length L) = blanks ws ++ nn).
  { unfold ws. rewrite !blanks_cons. unfold colour_head. change (lit "ENTITY_COLOR ") with (lit "ENTITY_COLOR" ++ [BLANK]). fold nn. repeat (rewrite <- !app_assoc; cbn [app]). reflexivity. }
  rewrite HE. change 13%nat with (length (blanks (firstn 1 ws))).
  rewrite (next_ok ws 1 (red c) nn eq_refl S1). cbn [bind snd]. rewrite (next_ok ws 2 (green c) nn eq_refl S2). cbn [bind snd].
  rewrite (next_ok ws 3 (blue c) nn eq_refl S3). cbn [bind snd]. rewrite (next_ok ws 4 (alpha c) nn eq_refl S4). cbn [bind fst snd].
  change (firstn 5 ws) with ws. rewrite substr_rest. cbn [bind]. unfold nn. rewrite stoul_decimal by exact Hl. cbn [bind]. fold nn. rewrite Ec.
  destruct (resize_ok 1152921504606846975 (0, 0) [] (Z.of_nat (length L))) as (tg & Er & Lr); [unfold small in Hl; lia|]. rewrite Er. cbn [bind]. rewrite Nat2Z.id in *.
  destruct (read_pairs_ok L tg (blanks ws ++ nn) R Hs Lr) as (line' & E). exists line'.
  etransitivity; [apply (chain _ _ _ _ E)|reflexivity].
Qed.
Lemma colour_head_line c n : ~ In NEWLINE (colour_head c n).
Proof.
  intros X. unfold colour_head in X. assert (D : forall z, ~ In NEWLINE (decimal z)) by (intros z Y; now apply decimal_is_word in Y).
  repeat (apply in_app_or in X; destruct X as [X|X]); try (now apply D in X); cbn in X; repeat (destruct X as [X|X]; [discriminate X|]); try destruct X.
Qed.
Definition good_colour (x : colour * list dimtag) : Prop := 0 <= fst x < 4294967296 /\ Forall small_pair (snd x) /\ small (Z.of_nat (length (snd x))).
Lemma read_colours_loop_ok ex l : forall g line, Forall good_colour l ->
  read_colours_loop ex (length l) g line (mkStream (concat (map (fun x => colour_lines (fst x) (snd x)) l)) false) =
    Ret (fold_left (fun g x => set_colour_of g (snd x) (fst x)) l g).
Proof.
  induction l as [|(c & L) l IH]; intros g line G; cbn [length map concat read_colours_loop fold_left]; [reflexivity|].
  apply Forall_cons_iff in G as ((Hc & Sm & Sl) & G'). cbn [fst snd] in *. unfold colour_lines at 1. rewrite <- !app_assoc. set (R1 := concat _). cbn [app].
  pose proof (getline_ok (colour_head c (length L)) (rows pair_text L ++ R1) line (colour_head_line c _)) as GL.
  match goal with |- context [getline ?s line] => change (getline s line = (colour_head c (length L), mkStream (rows pair_text L ++ R1) false)) in GL end. rewrite GL. clear GL.
  assert (B : begins (lit "ENTITY_COLOR") (colour_head c (length L)) = true).
  { unfold colour_head. change (lit "ENTITY_COLOR ") with (lit "ENTITY_COLOR" ++ [BLANK]). rewrite <- app_assoc. apply begins_ok. }
  rewrite B. cbn [negb]. destruct (read_colour_ok g c L R1 Hc Sm Sl) as (line' & E). rewrite E. cbn [bind]. apply IH. exact G'.
Qed.

(** what is painted *)
Definition plain (c : colour) : bool := (red c =? 0) && (green c =? 0) && (blue c =? 255) && (alpha c =? 0).
Lemma plain_unpainted c : 0 <= c < 4294967296 -> plain c = true -> c = unpainted.
Proof.
  intros H E. destruct (rgba c H) as (<- & _). unfold plain in E. rewrite !andb_true_iff, !Z.eqb_eq in E. destruct E as (((-> & ->) & ->) & ->). reflexivity.
Qed.
Definition sorted_in (ge : geometry) (seen : list dimtag) (acc : list (colour * list dimtag)) : Prop :=
  (forall c ds d, In (c, ds) acc -> In d ds -> paint ge d = c /\ In d seen /\ 2 <= fst d) /\
  (forall d, In d seen -> 2 <= fst d -> plain (paint ge d) = false -> exists c ds, In (c, ds) acc /\ In d ds) /\
  (length (concat (map snd acc)) <= length seen)%nat /\ (forall c ds, In (c, ds) acc -> ds <> []).
Lemma add_colour_in c d l x ds : In (x, ds) (add_colour c d l) -> In (x, ds) l \/ (x = c /\ (ds = [d] \/ exists ds', In (x, ds') l /\ ds = ds' ++ [d])).
Proof.
  induction l as [|(c' & es) l IH]; cbn [add_colour].
  - intros [E|[]]. injection E as <- <-. right. auto.
  - destruct (Z.eqb_spec c' c) as [->|N].
    + intros [E|H]; [|left; now right]. injection E as <- <-. right. split; [reflexivity|]. right. exists es. split; [now left|reflexivity].
    + intros [E|H]; [left; now left|]. destruct (IH H) as [H1|(H1 & [H2|(ds' & H2 & H3)])]; [left; now right|right; auto|right; split; [auto|right; exists ds'; split; [now right|auto]]].
Qed.
Lemma add_colour_keeps c d l x ds e : In (x, ds) l -> In e ds -> exists ds', In (x, ds') (add_colour c d l) /\ In e ds'.
Proof.
  induction l as [|(c' & es) l IH]; intros H He; [destruct H|]. cbn [add_colour]. destruct (Z.eqb_spec c' c) as [->|N].
  - destruct H as [E|H]; [injection E as <- <-; exists (es ++ [d]); split; [now left|apply in_or_app; now left]|exists ds; split; [now right|exact He]].
  - destruct H as [E|H]; [injection E as <- <-; exists es; split; [now left|exact He]|]. destruct (IH H He) as (ds' & H1 & H2). exists ds'. split; [now right|auto].
Qed.
Lemma add_colour_has c d l : exists ds, In (c, ds) (add_colour c d l) /\ In d ds.
Proof.
  induction l as [|(c' & es) l (ds & H1 & H2)]; cbn [add_colour]; [exists [d]; split; now left|]. destruct (Z.eqb_spec c' c) as [->|N].
  - exists (es ++ [d]). split; [now left|apply in_or_app; right; now left].
  - exists ds. split; [now right|auto].
Qed.
Lemma add_colour_len c d l : length (concat (map snd (add_colour c d l))) = S (length (concat (map snd l))).
Proof.
  induction l as [|(c' & es) l IH]; [reflexivity|]. cbn [add_colour]. destruct (Z.eqb_spec c' c) as [->|N]; cbn [map concat snd]; rewrite !app_length.
  - cbn [length]. lia.
  - rewrite IH. lia.
Qed.
Definition colour_step (ge : geometry) (acc : list (colour * list dimtag)) (d : dimtag) : list (colour * list dimtag) :=
  if fst d <? 2 then acc else if plain (paint ge d) then acc else add_colour (paint ge d) d acc.
Lemma colour_step_ok ge seen acc d : sorted_in ge seen acc -> sorted_in ge (seen ++ [d]) (colour_step ge acc d).
Proof.
  intros (H1 & H2 & H3 & H4). unfold colour_step. destruct (Z.ltb_spec (fst d) 2) as [L|L].
  { split; [intros c ds e A B; destruct (H1 _ _ _ A B) as (? & ? & ?); split; [auto|split; [apply in_or_app; now left|auto]]|].
    split; [intros e He E P; apply in_app_or in He as [He|[<-|[]]]; [now apply H2|lia]|]. split; [rewrite app_length; lia|exact H4]. }
  destruct (plain (paint ge d)) eqn:Pd.
  { split; [intros c ds e A B; destruct (H1 _ _ _ A B) as (? & ? & ?); split; [auto|split; [apply in_or_app; now left|auto]]|].
    split; [intros e He E P; apply in_app_or in He as [He|[<-|[]]]; [now apply H2|congruence]|]. split; [rewrite app_length; lia|exact H4]. }
  split; [|split; [|split]].
  - intros c ds e A B. apply add_colour_in in A as [A|(-> & [->|(ds' & A & ->)])].
    + destruct (H1 _ _ _ A B) as (? & ? & ?). split; [auto|split; [apply in_or_app; now left|auto]].
    + destruct B as [<-|[]]. split; [reflexivity|]. split; [apply in_or_app; right; now left|exact L].
    + apply in_app_or in B as [B|[<-|[]]].
      * destruct (H1 _ _ _ A B) as (? & ? & ?). split; [auto|split; [apply in_or_app; now left|auto]].
      * split; [reflexivity|]. split; [apply in_or_app; right; now left|exact L].
  - intros e He E P. apply in_app_or in He as [He|[<-|[]]].
    + destruct (H2 _ He E P) as (c & ds & A & B). destruct (add_colour_keeps (paint ge d) d _ _ _ _ A B) as (ds' & A' & B'). eauto.
    + destruct (add_colour_has (paint ge d) d acc) as (ds & A & B). eauto.
  - rewrite add_colour_len, app_length. cbn [length]. lia.
  - intros c ds A. apply add_colour_in in A as [A|(-> & [->|(ds' & A & ->)])]; [eauto|discriminate|]. intros X. apply app_eq_nil in X as (_ & X). discriminate.
Qed.
Lemma colour_fold ge l : forall seen acc, sorted_in ge seen acc -> sorted_in ge (seen ++ l) (fold_left (colour_step ge) l acc).
Proof.
  induction l as [|d l IH]; intros seen acc H; cbn [fold_left]; [now rewrite app_nil_r|]. change (seen ++ d :: l) with (seen ++ [d] ++ l). rewrite app_assoc. apply IH. now apply colour_step_ok.
Qed.
Lemma insert_pair_perm d l : Permutation (insert_pair d l) (d :: l).
Proof. induction l as [|a l IH]; cbn [insert_pair]; [reflexivity|]. destruct (pair_lt a d); [|reflexivity]. rewrite IH. apply perm_swap. Qed.
Lemma sort_pairs_perm l : Permutation (sort_pairs l) l.
Proof. induction l as [|a l IH]; cbn [sort_pairs fold_right]; [reflexivity|]. change (fold_right insert_pair [] l) with (sort_pairs l). rewrite insert_pair_perm. now constructor. Qed.
Lemma colours_ok ge : sorted_in ge (ents ge) (colours ge) /\ (length (colours ge) <= length (ents ge))%nat /\
  forall c ds, In (c, ds) (colours ge) -> (length ds <= length (ents ge))%nat.
Proof.
  assert (C : sorted_in ge (ents ge) (fold_left (colour_step ge) (ents ge) [])).
  { apply (colour_fold ge (ents ge) [] []). split; [intros c ds d []|]. split; [intros d []|]. split; [cbn; lia|intros c ds []]. }
  assert (G : sorted_in ge (ents ge) (colours ge)).
  { unfold colours. change (fold_left _ (ents ge) []) with (fold_left (colour_step ge) (ents ge) []). destruct C as (H1 & H2 & H3 & H4).
    set (cols := fold_left _ _ _) in *. split; [|split; [|split]].
    - intros c ds d A B. apply in_map_iff in A as ((c' & ds') & E & A). cbn [fst snd] in E. injection E as <- <-. apply (H1 c' ds' d A).
      eapply Permutation_in; [apply sort_pairs_perm|exact B].
    - intros d D1 D2 D3. destruct (H2 _ D1 D2 D3) as (c & ds & A & B). exists c, (sort_pairs ds). split; [apply in_map_iff; exists (c, ds); split; [reflexivity|exact A]|].
      eapply Permutation_in; [symmetry; apply sort_pairs_perm|exact B].
    - rewrite map_map. cbn [snd]. etransitivity; [|exact H3]. clear. induction cols as [|x cols IH]; [reflexivity|]. cbn [map concat]. rewrite !app_length.
      rewrite (Permutation_length (sort_pairs_perm (snd x))). lia.
    - intros c ds A X. subst ds. apply in_map_iff in A as ((c' & ds') & E & A). cbn [fst snd] in E. injection E as <- E. apply (H4 c' ds' A).
      apply Permutation_nil. rewrite <- E. apply sort_pairs_perm. }
  split; [exact G|]. destruct G as (_ & _ & H3 & H4). split.
  - etransitivity; [|exact H3]. clear H3. induction (colours ge) as [|(c & ds) l IH]; [cbn; lia|]. cbn [map concat length snd]. rewrite app_length.
    assert (ds <> []) by (apply (H4 c); now left). destruct ds; [congruence|]. cbn [length]. specialize (IH ltac:(intros; eapply H4; right; eauto)). lia.
  - intros c ds A. etransitivity; [|exact H3]. clear H3 H4. induction (colours ge) as [|(c' & es) l IH]; [destruct A|]. cbn [map concat snd]. rewrite app_length.
    destruct A as [E|A]; [injection E as <- <-; lia|]. specialize (IH A). lia.
Qed.

(** painting *)
Definition ren (ge : geometry) (d : dimtag) : dimtag := (fst d, number_of ge (fst d) (snd d)).
Definition recolour (ge : geometry) (l : list (colour * list dimtag)) (g : gm) : gm :=
  fold_left (fun g x => set_colour_of g (snd x) (fst x)) (map (fun x => (fst x, map (ren ge) (snd x))) l) g.
Lemma recolour_rest ge l : forall g, groups (recolour ge l g) = groups g /\ ents (geo (recolour ge l g)) = ents (geo g) /\ down (geo (recolour ge l g)) = down (geo g).
Proof. induction l as [|x l IH]; intros g; [auto|]. unfold recolour. cbn [map fold_left]. apply (IH (set_colour_of g (map (ren ge) (snd x)) (fst x))). Qed.
Lemma recolour_paint ge l : ascending_pairs (ents ge) -> forall g d c0, In d (ents ge) ->
  (forall c ds e, In (c, ds) l -> In e ds -> paint ge e = c /\ In e (ents ge)) -> paint (geo g) (ren ge d) = c0 ->
  (c0 = paint ge d \/ (exists c ds, In (c, ds) l /\ In d ds)) -> paint (geo (recolour ge l g)) (ren ge d) = paint ge d.
Proof.
  intros O. induction l as [|(c & ds) l IH]; intros g d c0 Hd H P Q.
  - destruct Q as [Q|(c & ds & [] & _)]. cbn. congruence.
  - unfold recolour. cbn [map fold_left fst snd]. fold (recolour ge l (set_colour_of g (map (ren ge) ds) c)).
    destruct (existsb (pair_eq (ren ge d)) (map (ren ge) ds)) eqn:E.
    + assert (Pc : paint (geo (set_colour_of g (map (ren ge) ds) c)) (ren ge d) = paint ge d).
      { cbn [set_colour_of geo paint]. rewrite E. apply existsb_exists in E as (y & Hy & E). apply in_map_iff in Hy as (e & <- & He). apply pair_eq_iff in E.
        destruct (H c ds e (or_introl eq_refl) He) as (Pe & Ie). destruct d as (dd & dt), e as (ed & et). unfold ren in E. cbn [fst snd] in E.
        apply pair_equal_spec in E as (-> & E). apply number_inj in E; [|exact Hd|exact Ie]. subst. auto. }
      apply (IH _ d (paint ge d) Hd); [intros; eapply H; [right; eauto|auto]|exact Pc|now left].
    + assert (Pc : paint (geo (set_colour_of g (map (ren ge) ds) c)) (ren ge d) = c0) by (cbn [set_colour_of geo paint]; rewrite E; exact P).
      apply (IH _ d c0 Hd); [intros; eapply H; [right; eauto|auto]|exact Pc|]. destruct Q as [Q|(c' & ds' & [X|X] & Y)]; [now left| |right; eauto].
      injection X as <- <-. assert (T : existsb (pair_eq (ren ge d)) (map (ren ge) ds) = true); [|congruence]. apply existsb_exists. exists (ren ge d).
      split; [now apply in_map|now apply pair_eq_iff].
Qed.
Lemma recolour_other ge l : forall g d, (forall c ds e, In (c, ds) l -> In e ds -> fst e <> fst d) -> paint (geo (recolour ge l g)) d = paint (geo g) d.
Proof.
  induction l as [|(c & ds) l IH]; intros g d H; [reflexivity|]. unfold recolour. cbn [map fold_left fst snd]. fold (recolour ge l (set_colour_of g (map (ren ge) ds) c)).
  rewrite IH by (intros; eapply H; [right; eauto|auto]). cbn [set_colour_of geo paint]. destruct (existsb _ _) eqn:E; [|reflexivity].
  apply existsb_exists in E as (y & Hy & E). apply in_map_iff in Hy as (e & <- & He). apply pair_eq_iff in E. exfalso. apply (H c ds e (or_introl eq_refl) He). now rewrite E.
Qed.

(** ** Writing *)
Lemma rows_map {A B} (h : A -> B) (f : B -> list Z) l : rows (fun x => f (h x)) l = rows f (map h l).
Proof.
  unfold rows. rewrite map_length. f_equal.
  - f_equal. apply map_ext. intros i. f_equal. unfold row. now rewrite slice_map, map_map.
  - destruct (length l mod 8)%nat; [reflexivity|]. f_equal; [unfold row; now rewrite slice_map, map_map|]. f_equal. rewrite nth_error_map. now destruct (nth_error l _).
Qed.
Section Whole.
Variables checks ex : bool.
Variable g : gm.
Hypothesis w : writable checks g.
Notation ge := (geo g).
Notation num := (number_of ge).
Lemma ents_dim x e : In x (groups g) -> In e (g_ents x) -> In (g_dim x, e) (ents ge) /\ 0 <= g_dim x <= 3.
Proof. intros H He. pose proof (w_exist _ _ w _ _ H He) as X. split; [exact X|]. exact (w_dims _ _ w _ X). Qed.
Lemma group_dim x : In x (groups g) -> 0 <= g_dim x <= 3.
Proof. intros H. destruct (proj2 (w_groups _ _ w) x H) as (_ & N & _). destruct (g_ents x) as [|e es] eqn:E; [congruence|]. apply (ents_dim x e H). rewrite E. now left. Qed.
Lemma write_group_ok x : In x (groups g) -> write_group checks (tag_maps ge) x = Ret (group_lines x (map (num (g_dim x)) (g_ents x))).
Proof.
  intros H. unfold write_group. rewrite (write_eight_ok _ (fun e => decimal (num (g_dim x) e))).
  2:{ intros e He. destruct (ents_dim x e H He). apply new_tag_text_ok; auto. exact (w_ordered _ _ w). }
  cbn [bind]. rewrite (rows_map (num (g_dim x)) decimal). unfold group_lines, head. rewrite map_length. f_equal. repeat (rewrite <- !app_assoc; cbn [app]). reflexivity.
Qed.
Lemma write_colour_ok c ds : In (c, ds) (colours ge) -> write_colour checks (tag_maps ge) (c, ds) = Ret (colour_lines c (map (ren ge) ds)).
Proof.
  intros H. unfold write_colour. cbn [fst snd]. rewrite (write_eight_ok _ (fun d => pair_text (ren ge d))).
  2:{ intros d Hd. destruct (colours_ok ge) as ((H1 & _) & _). destruct (H1 _ _ _ H Hd) as (_ & I & _). destruct d as (dd & t). cbn [fst snd].
      rewrite new_tag_text_ok; [reflexivity|exact (w_ordered _ _ w)|exact I|exact (w_dims _ _ w _ I)]. }
  cbn [bind]. rewrite (rows_map (ren ge) pair_text). unfold colour_lines, colour_head. rewrite map_length. f_equal. repeat (rewrite <- !app_assoc; cbn [app]). reflexivity.
Qed.
Definition the_text : list Z :=
  lit "PHYSICAL_GROUPS " ++ decimal (Z.of_nat (length (groups g))) ++ [NEWLINE] ++
  concat (map (fun x => group_lines x (map (num (g_dim x)) (g_ents x))) (groups g)) ++
  lit "ENTITY_COLORS " ++ decimal (Z.of_nat (length (colours ge))) ++ [NEWLINE] ++
  concat (map (fun x => colour_lines (fst x) (snd x)) (map (fun x => (fst x, map (ren ge) (snd x))) (colours ge))).
Lemma write_ok : write_info checks g = Ret the_text.
Proof.
  unfold write_info. rewrite (mapo_ok _ (fun x => group_lines x (map (num (g_dim x)) (g_ents x)))) by apply write_group_ok. cbn [bind].
  rewrite (mapo_ok _ (fun x => colour_lines (fst x) (map (ren ge) (snd x)))) by (intros (c & ds) H; now apply write_colour_ok). cbn [bind].
  unfold the_text. rewrite map_map. reflexivity.
Qed.
Lemma small_number d t : In (d, t) (ents ge) -> small (num d t).
Proof. intros H. pose proof (number_bounds ge d t H). pose proof (w_size _ _ w). unfold small. lia. Qed.
Lemma groups_good : Forall (good_group checks num) (groups g).
Proof.
  apply Forall_forall. intros x H. destruct (w_names _ _ w x H) as (N1 & N2). destruct (proj2 (w_groups _ _ w) x H) as (_ & Ne & A).
  split; [exact N1|]. split; [exact N2|]. split; [now apply group_dim|]. split; [intros C; exact (w_points _ _ w C x H)|]. split; [exact Ne|].
  split; [|split].
  - apply asc_numbers; [exact A|]. intros e He. now apply (ents_dim x e H).
  - apply Forall_map, Forall_forall. intros e He. apply small_number. now apply (ents_dim x e H).
  - pose proof (asc_count (g_dim x) (g_ents x) ge A ltac:(intros e He; now apply (ents_dim x e H))). pose proof (w_size _ _ w). unfold small. lia.
Qed.
Lemma dims_sorted : StronglySorted Z.le (map g_dim (groups g)).
Proof.
  pose proof (proj1 (w_groups _ _ w)) as A. induction (groups g) as [|x l IH]; [constructor|]. cbn [map] in *. apply ascp_cons in A as (A & B). constructor; [now apply IH|].
  apply Forall_forall. intros d Hd. apply in_map_iff in Hd as (y & <- & Hy). specialize (B (g_dim y, g_tag y)). destruct B as [B|(B & _)]; [apply in_map_iff; exists y; split; auto|cbn [fst] in B; lia|cbn [fst] in B; lia].
Qed.
Lemma colours_good : Forall good_colour (map (fun x => (fst x, map (ren ge) (snd x))) (colours ge)).
Proof.
  apply Forall_map, Forall_forall. intros (c & ds) H. destruct (colours_ok ge) as ((H1 & _ & _ & H4) & _ & H6). unfold good_colour. cbn [fst snd].
  split; [|split].
  - pose proof (H4 _ _ H) as Ne. destruct ds as [|d ds]; [congruence|]. destruct (H1 _ _ d H (or_introl eq_refl)) as (<- & _). apply (w_colours _ _ w).
  - apply Forall_map, Forall_forall. intros (d & t) Hd. destruct (H1 _ _ _ H Hd) as (_ & I & _). split; cbn [ren fst snd]; [pose proof (w_dims _ _ w _ I) as X; cbn [fst] in X; unfold small; lia|now apply small_number].
  - rewrite map_length. pose proof (H6 _ _ H). pose proof (w_size _ _ w). unfold small. lia.
Qed.
Lemma open_ok g0 : groups g0 = [] -> open_info checks ex the_text g0 = Ret (recolour ge (colours ge) (mkGm (renamed num [] (groups g)) (geo g0))).
Proof.
  intros G0. unfold open_info, read_groups, the_text. set (n := decimal (Z.of_nat (length (groups g)))). set (m := decimal (Z.of_nat (length (colours ge)))).
  set (T1 := concat (map (fun x => group_lines x _) _)). set (T2 := concat (map (fun x => colour_lines _ _) _)).
  assert (D : forall p z, ~ In NEWLINE (lit p) -> ~ In NEWLINE (lit p ++ decimal z)).
  { intros p z H X. apply in_app_or in X as [X|X]; [auto|]. now apply decimal_is_word in X. }
  assert (P1 : ~ In NEWLINE (lit "PHYSICAL_GROUPS ")) by (intros X; cbn in X; repeat (destruct X as [X|X]; [discriminate X|]); destruct X).
  assert (P2 : ~ In NEWLINE (lit "ENTITY_COLORS ")) by (intros X; cbn in X; repeat (destruct X as [X|X]; [discriminate X|]); destruct X).
  assert (TE : lit "PHYSICAL_GROUPS " ++ n ++ [NEWLINE] ++ T1 ++ lit "ENTITY_COLORS " ++ m ++ [NEWLINE] ++ T2 =
     (lit "PHYSICAL_GROUPS " ++ n) ++ NEWLINE :: (T1 ++ (lit "ENTITY_COLORS " ++ m) ++ NEWLINE :: T2)) by (repeat (rewrite <- !app_assoc; cbn [app]); reflexivity).
  match goal with |- context [mkStream ?t false] => change t with (lit "PHYSICAL_GROUPS " ++ n ++ [NEWLINE] ++ T1 ++ lit "ENTITY_COLORS " ++ m ++ [NEWLINE] ++ T2) end.
  rewrite TE. rewrite getline_ok by (now apply D).
  assert (B1 : begins (lit "PHYSICAL_GROUPS") (lit "PHYSICAL_GROUPS " ++ n) = true) by (change (lit "PHYSICAL_GROUPS ") with (lit "PHYSICAL_GROUPS" ++ [BLANK]); rewrite <- app_assoc; apply begins_ok).
  rewrite B1. cbn [negb]. assert (S1 : substr (lit "PHYSICAL_GROUPS " ++ n) 16 None = Ret n) by apply (substr_rest (lit "PHYSICAL_GROUPS ")).
  rewrite S1. cbn [bind]. unfold n at 1. rewrite stoul_decimal by (pose proof (w_many _ _ w); unfold small; lia). cbn [bind]. rewrite Nat2Z.id.
  assert (GE : g0 = mkGm (renamed num [] []) (geo g0)) by (destruct g0; cbn in *; now subst).
  pose proof (read_groups_loop_ok checks ex num (geo g0) (groups g) [] [] (lit "PHYSICAL_GROUPS " ++ n) ((lit "ENTITY_COLORS " ++ m) ++ NEWLINE :: T2) groups_good dims_sorted) as RG.
  rewrite <- GE in RG. etransitivity; [apply (f_equal (fun o => bind o _) RG)|]. cbn [bind app]. rewrite getline_ok by (now apply D).
  assert (B2 : begins (lit "ENTITY_COLORS") (lit "ENTITY_COLORS " ++ m) = true) by (change (lit "ENTITY_COLORS ") with (lit "ENTITY_COLORS" ++ [BLANK]); rewrite <- app_assoc; apply begins_ok).
  rewrite B2. cbn [negb]. assert (S2 : substr (lit "ENTITY_COLORS " ++ m) 14 None = Ret m) by apply (substr_rest (lit "ENTITY_COLORS ")).
  rewrite S2. cbn [bind]. unfold m at 1. rewrite stoul_decimal.
  2:{ destruct (colours_ok ge) as (_ & H & _). pose proof (w_size _ _ w). unfold small. lia. }
  cbn [bind]. rewrite Nat2Z.id. pose proof (read_colours_loop_ok ex _ (mkGm (renamed num [] (groups g)) (geo g0)) (lit "ENTITY_COLORS " ++ m) colours_good) as RC.
  rewrite map_length in RC. exact RC.
Qed.
Lemma round_trip g0 : reopened g g0 -> exists t g', write_info checks g = Ret t /\ open_info checks ex t g0 = Ret g' /\ restored g g0 g'.
Proof.
  intros (_ & G0 & P0). eexists _, _. split; [exact write_ok|]. split; [now apply open_ok|].
  set (g1 := mkGm _ _). destruct (recolour_rest ge (colours ge) g1) as (R1 & R2 & R3). destruct (colours_ok ge) as ((H1 & H2 & _) & _ & _). split.
  - exact R2.
  - exact R3.
  - rewrite R1. apply renamed_length.
  - intros i x Hx. rewrite R1. unfold g1. cbn [groups]. rewrite (renamed_nth num (groups g) [] i x Hx). reflexivity.
  - intros d t I D. change (d, num d t) with (ren ge (d, t)). apply (recolour_paint ge (colours ge) (w_ordered _ _ w) g1 (d, t) unpainted I).
    + intros c ds e A B. destruct (H1 _ _ _ A B) as (X & Y & _). auto.
    + apply P0.
    + destruct (plain (paint ge (d, t))) eqn:Pl; [left; symmetry; now apply plain_unpainted; [apply (w_colours _ _ w)|]|right; now apply H2].
  - intros d D. rewrite recolour_other; [apply P0|]. intros c ds e A B. destruct (H1 _ _ _ A B) as (_ & _ & L). lia.
Qed.
End Whole.
