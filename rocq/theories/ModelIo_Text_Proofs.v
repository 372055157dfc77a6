(** Numbers, names and heights as texts. *)
From Coq Require Import String Ascii.
From Coq Require Import List Arith ZArith Bool Reals Lia Lra.
From Verif Require Import Base Loops Arith Box_Model Box_Proofs StringView_Model StringView_Spec StringView_Proofs Logger_Model Logger_Spec Logger_Proofs
  Ascii_Model TextIo_Model TextIo_Spec TextIo_Proofs Elem_Model Soup_Model XSec_Model PinCyl_Model Grid_Model Grid_Spec Grid_Proofs Fvm_Model Xdmf_Model Xdmf_Spec Xdmf_Proofs
  Mpact_Model Mpact_Spec Export_Model Export_Spec Export_Sets_Proofs Import_Model ModelIo_Model ModelIo_Spec.
Import ListNotations.
Local Open Scope list_scope.

(** ** %f *)
Lemma six_dec r : (0 <= r < 1000000)%Z -> dec (six_digits r) r /\ length (six_digits r) = 6%nat.
Proof.
  intros H. split; [|reflexivity].
  assert (E : six_digits r = ((((([48 + (r / 100000) mod 10] ++ [48 + (r / 10000) mod 10]) ++ [48 + (r / 1000) mod 10]) ++ [48 + (r / 100) mod 10]) ++ [48 + (r / 10) mod 10]) ++ [48 + (r / 1) mod 10])%Z) by reflexivity.
  rewrite E. clear E.
  assert (B : forall x, (0 <= x mod 10 <= 9)%Z) by (intros x; pose proof (Z.mod_pos_bound x 10); lia).
  replace r with (10 * (10 * (10 * (10 * (10 * ((r / 100000) mod 10) + (r / 10000) mod 10) + (r / 1000) mod 10) + (r / 100) mod 10) + (r / 10) mod 10) + (r / 1) mod 10)%Z at 7.
  - repeat (apply dec_more; [|apply B]). apply dec_one, B.
  - rewrite (Z.mod_small (r / 100000)) by (split; [apply Z.div_pos; lia|apply Z.div_lt_upper_bound; lia]).
    assert (D : forall k, (0 < k)%Z -> (r / k = 10 * (r / (k * 10)) + (r / k) mod 10)%Z).
    { intros k Hk. rewrite <- Z.div_div by lia. apply Z.div_mod. lia. }
    pose proof (D 1%Z ltac:(lia)) as D1. pose proof (D 10%Z ltac:(lia)) as D2. pose proof (D 100%Z ltac:(lia)) as D3.
    pose proof (D 1000%Z ltac:(lia)) as D4. pose proof (D 10000%Z ltac:(lia)) as D5. 
    change (1 * 10)%Z with 10%Z in D1. change (10 * 10)%Z with 100%Z in D2. change (100 * 10)%Z with 1000%Z in D3. change (1000 * 10)%Z with 10000%Z in D4.
    change (10000 * 10)%Z with 100000%Z in D5. rewrite Z.div_1_r in *. lia.
Qed.
Lemma millionths_Z n : millionths (IZR n / 1000000) = n.
Proof.
  unfold millionths. replace (IZR n / 1000000 * 1000000)%R with (IZR n) by field. unfold frac_part.
  assert (E : Int_part (IZR n) = n) by (apply Int_part_unique; lra). rewrite E, Rminus_diag_eq by reflexivity.
  assert (X : Rltb 0 (1 / 2) = true) by (apply Rltb_true; lra). now rewrite X.
Qed.
Lemma millionths_bound x k : (0 <= x)%R -> (x * 1000000 <= IZR k)%R -> (0 <= millionths x <= k + 1)%Z.
Proof.
  intros H0 H1. pose proof (Int_part_spec (x * 1000000)) as (A & B).
  assert (L : (0 <= Int_part (x * 1000000))%Z) by (apply le_IZR_R1 || (assert (-1 < Int_part (x * 1000000))%Z; [apply lt_IZR; cbn; nra|lia])).
  assert (U : (Int_part (x * 1000000) <= k)%Z) by (assert (Int_part (x * 1000000) < k + 1)%Z; [apply lt_IZR; rewrite plus_IZR; lra|lia]).
  unfold millionths. repeat match goal with |- context [if ?b then _ else _] => destruct b end; lia.
Qed.
Definition num_char (c : Z) : Prop := (c = 45 \/ c = 46 \/ 48 <= c <= 57)%Z.
Lemma dec_chars l z : dec l z -> Forall num_char l.
Proof. induction 1; [constructor; [unfold num_char; lia|constructor]|]. apply Forall_app. split; auto. constructor; [unfold num_char; lia|constructor]. Qed.
Lemma decimal_dec q : (0 <= q <= 1000000000000000)%Z -> dec (decimal q) q.
Proof.
  intros H. unfold decimal. destruct (Z.ltb_spec q 0); [lia|]. apply (udec_ok 19 q). change (10 ^ Z.of_nat 20)%Z with 100000000000000000000%Z. lia.
Qed.
Lemma print_shape x : (Rabs x <= 100000000000000)%R -> exists q, (0 <= millionths (Rabs x))%Z /\ q = (millionths (Rabs x) / 1000000)%Z /\ (0 <= q < 1000000000000000)%Z /\
  print_float x = Ret ((if Rltb x 0 then [45%Z] else []) ++ decimal q ++ [DOT] ++ six_digits (millionths (Rabs x) mod 1000000)).
Proof.
  intros H. pose proof (Rabs_pos x) as P. assert (U : (Rabs x * 1000000 <= IZR 100000000000000000000)%R) by lra.
  destruct (millionths_bound _ _ P U) as (B1 & B2). exists (millionths (Rabs x) / 1000000)%Z. split; [exact B1|]. split; [reflexivity|].
  assert (Q : (0 <= millionths (Rabs x) / 1000000 < 1000000000000000)%Z) by (split; [apply Z.div_pos; lia|apply Z.div_lt_upper_bound; lia]).
  split; [exact Q|]. unfold print_float. destruct (Z.leb_spec 1000000000000000 (millionths (Rabs x) / 1000000)); [lia|]. reflexivity.
Qed.
Lemma print_some x : (Rabs x <= 100000000000000)%R -> exists t, print_float x = Ret t /\ t <> [] /\ Forall num_char t.
Proof.
  intros H. destruct (print_shape x H) as (q & B & _ & Q & E). eexists. split; [exact E|].
  pose proof (decimal_dec q ltac:(lia)) as D. pose proof (Z.mod_pos_bound (millionths (Rabs x)) 1000000 ltac:(lia)) as M.
  destruct (six_dec _ M) as (D6 & _). split.
  - intros X. apply app_eq_nil in X. destruct X as (_ & X). apply app_eq_nil in X. destruct X as (X & _). rewrite X in D. apply dec_digits in D. now destruct D.
  - repeat (apply Forall_app; split).
    + destruct (Rltb x 0); constructor; [now left|constructor].
    + exact (dec_chars _ _ D).
    + constructor; [unfold num_char, DOT; lia|constructor].
    + exact (dec_chars _ _ D6).
Qed.
Lemma six_bound x : six_decimals x -> (Rabs x <= 100000000000000)%R.
Proof.
  intros (n & -> & Hn). unfold Rdiv. rewrite Rabs_mult, (Rabs_right (/ 1000000)) by lra. rewrite <- abs_IZR. apply IZR_le in Hn. lra.
Qed.
Lemma print_exact x : six_decimals x -> exists t, print_float x = Ret t /\ t <> [] /\ Forall num_char t /\ real_text t x.
Proof.
  intros Hx. pose proof (six_bound x Hx) as Hb. destruct (print_some x Hb) as (t & E & N & C). exists t. split; [exact E|]. split; [exact N|]. split; [exact C|].
  destruct (print_shape x Hb) as (q & B & Eq & Q & E'). rewrite E in E'. injection E' as ->. clear E N C.
  destruct Hx as (n & -> & Hn).
  assert (A : (Rabs (IZR n / 1000000) = IZR (Z.abs n) / 1000000)%R) by (unfold Rdiv; rewrite Rabs_mult, (Rabs_right (/ 1000000)) by lra; now rewrite abs_IZR).
  rewrite A, millionths_Z in *. set (a := Z.abs n) in *. subst q.
  pose proof (decimal_dec (a / 1000000) ltac:(lia)) as D. pose proof (Z.mod_pos_bound a 1000000 ltac:(lia)) as M. destruct (six_dec _ M) as (D6 & L6).
  assert (V : (IZR a / 1000000 = IZR (a / 1000000) + IZR (a mod 1000000) / 10 ^ length (six_digits (a mod 1000000)))%R).
  { rewrite L6. rewrite (Z.div_mod a 1000000) at 1 by lia. rewrite plus_IZR, mult_IZR. cbn [pow]. field. }
  assert (Mt : mantissa (decimal (a / 1000000) ++ [DOT] ++ six_digits (a mod 1000000)) (IZR a / 1000000)) by (rewrite V; exact (m_frac _ _ _ _ D D6)).
  destruct (Rltb (IZR n / 1000000) 0) eqn:S.
  - apply Rltb_true in S. assert (n < 0)%Z by (apply lt_IZR; lra).
    pose proof (rt_minus _ _ [] 0%Z Mt ex_none) as T. rewrite app_nil_r in T. cbn [powerRZ] in T.
    replace (IZR n / 1000000)%R with (- (IZR a / 1000000 * 1))%R; [exact T|]. unfold a. rewrite Z.abs_neq by lia. rewrite opp_IZR. field.
  - apply Rltb_false in S. assert (0 <= n)%Z by (apply le_IZR; lra).
    pose proof (rt_none _ _ [] 0%Z Mt ex_none) as T. rewrite app_nil_r in T. cbn [powerRZ] in T.
    replace (IZR n / 1000000)%R with (IZR a / 1000000 * 1)%R; [exact T|]. unfold a. rewrite Z.abs_eq by lia. field.
Qed.

(** ** "low, middle, high" *)
Definition z_text (low mid high : list Z) : list Z := low ++ txt ", " ++ mid ++ txt ", " ++ high.
Lemma no_comma t : Forall num_char t -> ~ In COMMA t.
Proof. intros H X. rewrite Forall_forall in H. apply H in X. unfold num_char, COMMA in X. lia. Qed.
Lemma read_z_ok checks x v low mid high a b : the_child x "Information" = Ret (info "Z" v) -> v = z_text low mid high ->
  low <> [] -> Forall num_char low -> Forall num_char mid -> real_text low a -> real_text high b -> (a < b)%R ->
  read_z checks x = Ret (a, b).
Proof.
  intros C -> N F1 F2 R1 R2 L. unfold read_z. rewrite C. cbn [bind]. change (is (attribute (info "Z" (z_text low mid high)) "Name") "Z") with true. cbn [need bind].
  change (value (info "Z" (z_text low mid high))) with (z_text low mid high). rewrite view_V.
  pose proof (getToken_some COMMA 0 low (txt ", " ++ mid ++ txt ", " ++ high) [0%Z] N (no_comma _ F1)) as G1.
  cbn [repeat app] in G1. unfold z_text. unfold char in *. rewrite G1 by (right; eexists; reflexivity). clear G1. cbn [bind].
  change (txt ", ") with [44; 32]%Z. cbn [app].
  assert (T1 : strtod (tail (V low ((44 :: 32 :: mid ++ 44 :: 32 :: high) ++ [0]))%Z) = Ret a).
  { unfold V. cbn [tail]. apply (strtod_text 0 low a); auto. eexists _, _. split; [reflexivity|]. now left. }
  cbn [app] in T1. unfold char in *. rewrite T1. cbn [bind].
  pose proof (getToken_some COMMA 0 (32%Z :: mid) (44 :: 32 :: high)%Z [0%Z]) as G2. cbn [repeat app] in G2. unfold char in *.
  rewrite G2; [|discriminate| |right; eexists; reflexivity].
  2:{ intros [X|X]; [discriminate X|]. now apply (no_comma mid F2). }
  cbn [bind snd]. unfold V. cbn [tail].
  change ((32%Z :: high) ++ [0%Z]) with (blanks 1 ++ high ++ [0%Z]). rewrite (strtod_text 1 high b); auto.
  2:{ eexists _, _. split; [reflexivity|]. auto. }
  cbn [bind]. unfold Mpact_Model.assert. apply Rltb_true in L. rewrite L. now rewrite andb_false_r.
Qed.

(** ** "nx x ny" *)
Lemma decimal_i32 n : (0 <= n <= intMax)%Z -> num (decimal n) n /\ decimal n <> [] /\ Forall num_char (decimal n).
Proof.
  intros H. assert (D : dec (decimal n) n) by (apply decimal_dec; unfold intMax in H; lia). split; [now constructor|]. split; [|exact (dec_chars _ _ D)].
  intros E. rewrite E in D. apply dec_digits in D. now destruct D.
Qed.
Lemma two_numbers_ok nx ny : (0 <= nx <= intMax)%Z -> (0 <= ny <= intMax)%Z -> two_numbers (decimal nx ++ txt " x " ++ decimal ny) = Ret (nx, ny).
Proof.
  intros Hx Hy. destruct (decimal_i32 nx Hx) as (Nx & Ex & Fx). destruct (decimal_i32 ny Hy) as (Ny & Ey & Fy).
  unfold two_numbers. rewrite view_V.
  pose proof (getToken_some SPACE 0 (decimal nx) (txt " x " ++ decimal ny) [0%Z] Ex) as G. cbn [repeat app] in G. unfold char in *.
  rewrite G; [| |right; eexists; reflexivity].
  2:{ intros X. rewrite Forall_forall in Fx. apply Fx in X. unfold num_char, SPACE in X. lia. }
  cbn [bind]. change (txt " x ") with [32; 120; 32]%Z. cbn [app].
  pose proof (remove_prefix_V [120; 32]%Z (decimal ny) [0%Z]) as P. cbn [app length] in P. unfold char in *. rewrite P. cbn [bind].
  unfold V. cbn [tail]. rewrite (strto_num _ nx); auto.
  - cbn [bind]. rewrite (strto_num _ ny); auto.
    + unfold int32, intMax in *; lia.
    + intros c r' E. injection E as <- _. reflexivity.
    + discriminate.
  - unfold int32, intMax in *; lia.
  - intros c r' E. injection E as <- _. reflexivity.
  - discriminate.
Qed.
Lemma getNXbyNY_ok x nx ny : the_child x "Information" = Ret (nx_by_ny nx ny) -> (0 <= nx <= intMax)%Z -> (0 <= ny <= intMax)%Z -> getNXbyNY x = Ret (nx, ny).
Proof.
  intros C Hx Hy. unfold getNXbyNY. rewrite C. cbn [bind]. change (is (attribute (nx_by_ny nx ny) "Name") "NX_by_NY") with true. cbn [need bind].
  now apply two_numbers_ok.
Qed.

(** ** Ids in names *)
Lemma substr_mid (a b c : list Z) : Xdmf_Model.substr (a ++ b ++ c) (length a) (length b) = Ret b.
Proof.
  unfold Xdmf_Model.substr. rewrite app_length. destruct (Nat.leb_spec (length a) (length a + length (b ++ c))); [|lia].
  rewrite skipn_app, skipn_all, Nat.sub_diag. cbn [skipn app]. rewrite firstn_app, firstn_all, Nat.sub_diag. cbn [firstn]. now rewrite app_nil_r.
Qed.
Lemma id_of_ok prefix id n : (0 <= id < 100000)%Z -> id_of (named prefix (id, n)) (length (lit prefix)) = Ret id.
Proof.
  intros H. unfold id_of. transitivity (let* s := Ret (digits5 id) in strto s).
  - f_equal. exact (substr_mid (lit prefix) (digits5 id) (lit "_" ++ digits5 (Z.of_nat n))).
  - cbn [bind]. destruct (Ascii_Proofs.get_digits id H) as (s1 & E1 & _ & D1). rewrite ascii5 in E1 by lia. injection E1 as <-.
    unfold strto. apply strto_num; [now constructor|unfold int32; lia| |discriminate]. intros c r E. injection E as <- _. reflexivity.
Qed.

(** ** Names of materials *)
Lemma string_of_lit s : string_of (lit s) = s.
Proof.
  unfold string_of, lit. rewrite map_map.
  assert (E : forall l, map (fun c => ascii_of_N (Z.to_N (Z.of_N (N_of_ascii c)))) l = l).
  { induction l as [|c l IH]; auto. cbn [map]. now rewrite N2Z.id, ascii_N_embedding, IH. }
  rewrite E. apply string_of_list_ascii_of_string.
Qed.
Lemma find_comma t l r : ~ In COMMA t -> l = [] \/ (exists l', l = COMMA :: l') ->
  find_first_of (V (t ++ l) r) COMMA 0 = Ret (match l with [] => None | _ => Some (length t) end).
Proof. intros H1 H2. exact (find_first_V COMMA [] t l r H1 H2). Qed.
Lemma read_names_ok : forall (l : list material) fuel k r, l <> [] -> Forall (fun x => plain_name (Mpact_Model.name x)) l -> (length l <= S fuel)%nat ->
  read_names fuel (V (repeat SPACE k ++ join_names l) r) = Ret (map (fun x => lit (Mpact_Model.name x)) l).
Proof.
  induction l as [|x l IH]; intros fuel k r N F L; [contradiction|]. inversion F as [|? ? (P1 & c & nm & P2 & P3) F']; subst.
  set (n := lit (Mpact_Model.name x)) in *.
  assert (NC : ~ In COMMA (repeat SPACE k ++ n)).
  { rewrite in_app_iff. intros [X|X]; [apply repeat_spec in X; discriminate X|]. apply P1 in X. unfold COMMA in X. lia. }
  assert (TXT : forall r', firstn (StringView_Model.vsize (V n r')) (tail (V n r')) = n).
  { intros r'. unfold V. cbn [tail StringView_Model.vsize]. rewrite firstn_app, firstn_all, Nat.sub_diag. cbn. apply app_nil_r. }
  destruct l as [|y l].
  - cbn [join_names map]. pose proof (find_comma (repeat SPACE k ++ n) [] r NC (or_introl eq_refl)) as E. rewrite app_nil_r in E.
    destruct fuel; cbn [read_names]; fold n; rewrite E; cbn [bind]; rewrite (rls_some k n r) by (exists c, nm; auto); cbn [bind]; now rewrite TXT.
  - destruct fuel as [|fuel]; [cbn in L; lia|].
    assert (J : join_names (x :: y :: l) = n ++ COMMA :: SPACE :: join_names (y :: l)) by reflexivity. rewrite J.
    rewrite app_assoc. cbn [read_names]. unfold char in *. rewrite (find_comma _ _ r NC) by (right; eexists; reflexivity). cbn [bind].
    pose proof (getToken_some COMMA 0 (repeat SPACE k ++ n) (COMMA :: SPACE :: join_names (y :: l)) r) as G. cbn [repeat app] in G. unfold char in *.
    rewrite G; [|rewrite P2; destruct k; discriminate|exact NC|right; eexists; reflexivity]. cbn [bind].
    rewrite (rls_some k n) by (exists c, nm; auto). cbn [bind].
    change (SPACE :: join_names (y :: l)) with (repeat SPACE 1 ++ join_names (y :: l)). rewrite IH; [|discriminate|exact F'|cbn in *; lia]. cbn [bind].
    now rewrite TXT.
Qed.
Lemma join_len l : Forall (fun x => plain_name (Mpact_Model.name x)) l -> (length l <= length (join_names l))%nat.
Proof.
  induction 1 as [|x l (_ & c & nm & P & _) F IH]; [cbn; lia|]. destruct l as [|y l].
  - cbn [join_names]. rewrite P. cbn. lia.
  - change (join_names (x :: y :: l)) with (lit (Mpact_Model.name x) ++ txt ", " ++ join_names (y :: l)). rewrite !app_length, P. cbn [length] in *. lia.
Qed.
Definition only_materials (ms : list material) : model := mkModel ([[]; []], []) [] [] [] [] ms [] [] [] [].
Definition bare (x : material) : material := mkMaterial (Mpact_Model.name x) false.
Lemma add_names : forall l ms, foreach (map (fun x => lit (Mpact_Model.name x)) l)
    (fun n m => let* r := addMaterial true m (mkMaterial (string_of n) false) false in Ret (fst r)) (only_materials ms) = Ret (only_materials (ms ++ map bare l)).
Proof.
  induction l as [|x l IH]; intros ms; cbn [map foreach]; [now rewrite app_nil_r|]. unfold addMaterial. cbn [andb bind fst].
  rewrite string_of_lit. change (push_material (mkMaterial (Mpact_Model.name x) false) (only_materials ms)) with (only_materials (ms ++ [bare x])).
  rewrite IH. now rewrite <- app_assoc.
Qed.
Lemma read_materials_ok l : l <> [] -> Forall (fun x => plain_name (Mpact_Model.name x)) l ->
  read_materials (length (join_names l)) (join_names l) empty_model = Ret (only_materials (map bare l)).
Proof.
  intros N F. unfold read_materials. rewrite view_V. pose proof (join_len l F) as L.
  pose proof (read_names_ok l (length (join_names l)) 0 [0%Z] N F ltac:(lia)) as E. cbn [repeat app] in E. unfold char in *. rewrite E.
  cbn [bind]. apply (add_names l []).
Qed.
