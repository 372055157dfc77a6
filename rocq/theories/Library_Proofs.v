(** A whole library. *)
From Coq Require Import String Ascii.
From Coq Require Import List Arith ZArith Bool Reals Lia Lra.
From Verif Require Import Base Loops Arith Matrix_Model Matrix_Spec Matrix_Proofs StringView_Model StringView_Spec StringView_Proofs Elem_Model Soup_Model Soup_Spec TextIo_Model TextIo_Spec TextIo_Proofs
  Abaqus_Spec Vtk_Model Vtk_Spec Vtk_Proofs Stats_Spec XSec_Model XSec_Spec XSec_Proofs XSec_Use_Proofs Library_Model Library_Spec Library_Text_Proofs Library_Data_Proofs Library_Nuclide_Proofs.
Import ListNotations.
Local Open Scope list_scope.
Local Open Scope nat_scope.

Lemma upd_next {A} (l : list A) : forall k a d n, nth_error l k = Some a -> k < n -> upd (firstn k l ++ repeat d (n - k)) k a = firstn (S k) l ++ repeat d (n - S k).
Proof.
  intros k a d n E H. assert (L : length (firstn k l) = k) by (rewrite firstn_length; apply Nat.min_l; apply Nat.lt_le_incl, nth_error_Some; congruence).
  replace (n - k) with (S (n - S k)) by lia. cbn [repeat]. pose proof (upd_mid (firstn k l) d a (repeat d (n - S k))) as X. rewrite L in X. rewrite X. rewrite (firstn_more _ _ _ E), <- app_assoc. reflexivity.
Qed.
Lemma skipn_cons {A} (l : list A) : forall i x r, skipn i l = x :: r -> nth_error l i = Some x /\ skipn (S i) l = r.
Proof. induction l as [|a l IH]; intros [|i] x r H; try discriminate; cbn in H; [injection H as -> ->; auto|]. apply IH in H. exact H. Qed.

Section Checks.
Variable checks : bool.
(** ** All nuclides *)
Section Nuclides.
Variables (ng count : nat) (nucs : list nuclide).
Hypothesis Hng : (Z.of_nat ng * Z.of_nat ng <= intMax)%Z.
Hypothesis Hng0 : ng <> 0.
Hypothesis Hs : Forall (sound ng) nucs.
Let done i := firstn i nucs ++ repeat no_nuclide (count - i).
Lemma read_over i h body r s l' all n : nuclide_text ng i n (h :: body) -> (l' = h \/ removeLeadingSpaces (V h r) = Ret (V l' r)) -> stops r -> nth_error all i = None ->
  read_nuclide checks ng i (V l' r) s all = Ub.
Proof.
  intros T Hl Hr Hn. inversion T as [h' w ti tz tm a b c d tn more tp tl tts xsd rows rest I1 W Hti Htz Htm Htn I2 Wt Ft I3 Fr Rest]; subst. clear T.
  assert (W' : wview r (w :: ti :: tz :: tm :: a :: b :: c :: d :: tn :: more) (V l' r)).
  { apply wv_text. destruct Hl as [->|Hl]; [exact W|]. destruct (strip_words _ _ _ r W) as (l'' & E & W'' & _). rewrite E in Hl. injection Hl as Hl. apply app_inv_tail in Hl. now subst. }
  unfold read_nuclide. destruct (wview_next r w _ _ Hr W') as (q & v1 & -> & _ & W1 & _). cbn [bind snd].
  destruct (index_token_ok checks r ti _ _ _ Hr W1 Hti) as (v2 & -> & W2). cbn [bind]. unfold rd. rewrite Hn. reflexivity.
Qed.
Lemma not_end l r : begins "%NUC" l -> begins_with (V l r) "%END" = Ret false.
Proof. intros (q & ->). apply begins_no. intros (q' & X). discriminate X. Qed.
Lemma text_cons i n ls : nuclide_text ng i n ls -> exists h body, ls = h :: body /\ indented "%NUC" h.
Proof. intros T. inversion T; subst. eauto. Qed.
(** [tail_ok] is what happens after the last nuclide *)
Lemma nuclides_ok z (last : list (list char)) (res : outcome (list nuclide)) : 
  (forall i s rest v, length nucs <= count -> i = length nucs -> feeds (rest ++ last) s z -> Forall (fun l => ~ indented "%NUC" l /\ ~ indented "%END" l) rest ->
    (let* r := skip_rest (fuel_of (strm s)) v s in nuclides_loop checks (S (count - i)) ng i (fst r) (snd r) (done i)) = res) ->
  forall nls rem i h body r s l' fuel, skipn i nucs = rem -> i <= count -> fuel = S (count - i) ->
  Forall2 (fun q ls => nuclide_text ng (fst q) (snd q) ls) (combine (seq i (length rem)) rem) ((h :: body) :: nls) ->
  (l' = h \/ removeLeadingSpaces (V h r) = Ret (V l' r)) -> begins "%NUC" l' -> stops r -> feeds (body ++ concat nls ++ last) s z ->
  nuclides_loop checks fuel ng i (V l' r) s (done i) = if length nucs <=? count then res else Ub.
Proof.
  intros Hlast. induction nls as [|ls nls IH]; intros rem i h body r s l' fuel Er Hi Hf F2 Hl Hb Hr Fe; subst fuel; cbn [nuclides_loop]; rewrite (not_end _ _ Hb); cbn [bind].
  - destruct rem as [|n rem]; [inversion F2|]. cbn [length seq combine] in F2. inversion F2 as [|? ? ? ? T F2']; subst. cbn [fst snd] in T. destruct rem; [|inversion F2'].
    destruct (skipn_cons _ _ _ _ Er) as (En & Es). pose proof (nth_error_lt _ _ _ En) as Li.
    assert (Ln : length nucs = S i) by (pose proof (f_equal (@length _) Es) as X; rewrite skipn_length in X; cbn in X; lia).
    destruct (Nat.leb_spec (length nucs) count) as [Lc|Lc].
    + cbn [concat app] in Fe. apply feeds_app in Fe as (y & Fb & Fm). rewrite Forall_forall in Hs. pose proof (Hs n (nth_error_In _ _ En)) as Sn.
      assert (Nd : nth_error (done i) i = Some no_nuclide).
      { unfold done. rewrite nth_error_app2 by (rewrite firstn_length; lia). rewrite firstn_length, Nat.min_l by lia. rewrite Nat.sub_diag. destruct (count - i) eqn:E; [lia|reflexivity]. }
      destruct (read_nuclide_ok checks ng i n h body r s y (done i) no_nuclide l' Hng Hng0 Sn T Hl Hr Fb Nd eq_refl) as (v' & s' & rest & E & Fr & Rr). rewrite E. cbn [bind].
      unfold done at 1. rewrite (upd_next _ _ _ _ _ En) by lia. replace (count - i) with (S (count - S i)) by lia.
      apply Hlast with (rest := rest); auto. apply feeds_app. eauto.
    + assert (Eic : i = count) by lia. erewrite read_over; [reflexivity|exact T|exact Hl|exact Hr|].
      apply nth_error_None. unfold done. rewrite app_length, firstn_length, repeat_length. lia.
  - destruct rem as [|n rem]; [inversion F2|]. cbn [length seq combine] in F2. inversion F2 as [|? ? ? ? T F2']; subst. cbn [fst snd] in T.
    destruct (skipn_cons _ _ _ _ Er) as (En & Es). pose proof (nth_error_lt _ _ _ En) as Li.
    destruct (Nat.eq_dec i count) as [->|Ni].
    + rewrite (proj2 (Nat.leb_gt _ _)) by lia. erewrite read_over; [reflexivity|exact T|exact Hl|exact Hr|].
      apply nth_error_None. unfold done. rewrite app_length, firstn_length, repeat_length. lia.
    + assert (T2 : exists n2 q, nuclide_text ng (S i) n2 ls /\ rem = n2 :: q).
      { destruct rem as [|n2 q]; [inversion F2'|]. cbn [length seq combine] in F2'. inversion F2' as [|? ? ? ? T2 _]; subst. cbn [fst snd] in T2. eauto. }
      destruct T2 as (n2 & q2 & T2 & Eq2). destruct (text_cons _ _ _ T2) as (h2 & b2 & -> & I2).
      cbn [concat] in Fe. rewrite <- app_assoc in Fe. apply feeds_app in Fe as (y & Fb & Fm). rewrite Forall_forall in Hs. pose proof (Hs n (nth_error_In _ _ En)) as Sn.
      assert (Nd : nth_error (done i) i = Some no_nuclide).
      { unfold done. rewrite nth_error_app2 by (rewrite firstn_length; lia). rewrite firstn_length, Nat.min_l by lia. rewrite Nat.sub_diag. destruct (count - i) eqn:E; [lia|reflexivity]. }
      destruct (read_nuclide_ok checks ng i n h body r s y (done i) no_nuclide l' Hng Hng0 Sn T Hl Hr Fb Nd eq_refl) as (v' & s' & rest & E & Fr & Rr). rewrite E. cbn [bind].
      assert (Fe' : feeds (rest ++ h2 :: (b2 ++ concat nls ++ last)) s' z) by (apply feeds_app; exists y; split; auto).
      pose proof (feeds_len _ _ _ Fe') as Lr. rewrite app_length in Lr. cbn [length] in Lr.
      destruct (skip_rest_ok "%NUC" h2 _ z (or_introl eq_refl) I2 rest (fuel_of (strm s')) v' s' ltac:(unfold fuel_of; lia) Rr Fe') as (l2 & r2 & s2 & E2 & Hl2 & B2 & Hr2 & Fe2).
      rewrite E2. cbn [bind fst snd]. unfold done at 1. rewrite (upd_next _ _ _ _ _ En) by lia.
      replace (count - i) with (S (count - S i)) by lia. apply (IH rem (S i) h2 b2 r2 s2 l2); auto; lia.
Qed.
End Nuclides.

(** ** The file *)
Lemma version_ok k r : forall q, version (blanks k ++ 52%Z :: r ++ q) = true.
Proof. intros q. induction k as [|k IH]; [reflexivity|]. exact IH. Qed.
Lemma nonneg_ok l : Forall (Rle 0) l -> forall pre x post, l = pre ++ x :: post -> nonneg x = true.
Proof.
  intros F pre x post ->. apply Forall_app in F as (_ & F). inversion F; subst. unfold nonneg. destruct (Rleb_spec 0 x); [reflexivity|contradiction].
Qed.
Lemma bounds_fit l : Forall (Rle 0) l -> decreasing l -> forall pre x post, l = pre ++ x :: post -> bound_ok pre x = true.
Proof.
  intros F D pre x post E. unfold bound_ok. rewrite (nonneg_ok l F pre x post E). cbn [andb]. destruct (rev pre) as [|y q] eqn:R; [reflexivity|].
  assert (pre = rev q ++ [y]) as -> by (rewrite <- (rev_involutive pre), R; reflexivity). apply Rltb_true. apply (D (length (rev q)) y x); rewrite E, <- app_assoc; cbn [app].
  - apply nth_mid.
  - rewrite nth_error_app2 by lia. replace (S (length (rev q)) - length (rev q)) with 1 by lia. reflexivity.
Qed.
Lemma values_cons ls xs : values_text ls xs -> xs <> [] -> exists l ls', ls = l :: ls'.
Proof. intros (tss & F & _ & F') N. destruct F; [cbn in F'; inversion F'; subst; contradiction|eauto]. Qed.
Lemma whole_ok L count ls last z junk text res : sound_library L -> library_lines L count ls -> feeds (ls ++ last) (mkRd junk (mkStream text false false)) z ->
  (forall i s rest v, length (nucs L) <= count -> i = length (nucs L) -> feeds (rest ++ last) s z -> Forall (fun l => ~ indented "%NUC" l /\ ~ indented "%END" l) rest ->
    (let* r := skip_rest (fuel_of (strm s)) v s in nuclides_loop checks (S (count - i)) (length (bounds L)) i (fst r) (snd r) (firstn i (nucs L) ++ repeat no_nuclide (count - i))) = res) ->
  readMPACTLibrary checks junk text = let* all := (if length (nucs L) <=? count then res else Ub) in Ret (mkXsLib (bounds L) (chi L) all).
Proof.
  intros [(Hng & Hb0) (Hbp & Hbd) (Hcl & Hcp) Hn] HL Fe Hlast. inversion HL as [ver v4 dim ds tds dvs grp gl chil cl dir dl nls first nl B1 Hv4 B3 Wd Fd Ld Pd N0 N4 B5 Hgl B7 Hcl' B9 Fdl Ldl Ec Bf F2]; subst ls. clear HL.
  destruct (values_cons _ _ Hgl Hb0) as (g1 & gl' & ->). assert (Hc0 : chi L <> []) by (intros X; rewrite X in Hcl; destruct (bounds L); [contradiction|discriminate]).
  destruct (values_cons _ _ Hcl' Hc0) as (c1 & cl' & ->). cbn [app] in Fe.
  unfold readMPACTLibrary. destruct (feed1 _ _ _ _ Fe) as (r1 & s1 & -> & _ & _ & F1). rewrite (begins_yes _ _ _ B1). cbn [bind negb].
  destruct (feed1 _ _ _ _ F1) as (r2 & s2 & -> & _ & _ & F1'). destruct Hv4 as (k4 & q4 & ->).
  cbn [V vsize tail]. rewrite firstn_app, firstn_all, Nat.sub_diag, firstn_O, app_nil_r. replace (blanks k4 ++ 52%Z :: q4) with (blanks k4 ++ 52%Z :: q4 ++ []) by (now rewrite app_nil_r). rewrite version_ok. cbn [negb].
  destruct (feed1 _ _ _ _ F1') as (r3 & s3 & -> & _ & _ & F3). rewrite (begins_yes _ _ _ B3). cbn [bind negb].
  destruct (feed1 _ _ _ _ F3) as (r4 & s4 & -> & _ & _ & F4). 
  destruct tds as [|td tds]; [inversion Fd; subst; discriminate|]. destruct (strip_words _ _ _ (0%Z :: r4) Wd) as (ld & -> & Wd' & _). cbn [bind].
  rewrite (dims_ok checks _ _ _ _ (stops_0 r4) (wv_text _ _ _ Wd') Fd Ld Pd). cbn [bind].
  rewrite (proj2 (rd_Ret dvs 0 (Z.of_nat (length (bounds L))))) by (rewrite <- N0; apply nth_error_nth'; lia). cbn [bind].
  rewrite (proj2 (rd_Ret dvs 4 (Z.of_nat count))) by (rewrite <- N4; apply nth_error_nth'; lia). cbn [bind].
  destruct (feed1 _ _ _ _ F4) as (r5 & s5 & -> & _ & _ & F5). rewrite (begins_yes _ _ _ B5). cbn [bind negb].
  destruct (feed1 _ _ _ _ F5) as (r6 & s6 & -> & _ & _ & F6). destruct (strip_any g1 (0%Z :: r6)) as (vg & Eg & _). rewrite Eg. cbn [bind].
  destruct (Z.ltb_spec (Z.of_nat (length (bounds L))) 0); [lia|]. rewrite Nat2Z.id. rewrite <- !app_assoc in F6. apply feeds_app in F6 as (y6 & F6 & F7).
  rewrite (group_values_ok checks bound_ok g1 gl' (bounds L) (0%Z :: r6) vg s6 y6 Hgl Hb0 F6 (stops_0 r6) (or_intror Eg) (bounds_fit _ Hbp Hbd)). cbn [bind].
  cbn [app] in F7. destruct (feed1 _ _ _ _ F7) as (r7 & s7 & -> & _ & _ & F8). rewrite (begins_yes _ _ _ B7). cbn [bind negb].
  destruct (feed1 _ _ _ _ F8) as (r8 & s8 & -> & _ & _ & F9). rewrite <- ?app_assoc in F9. apply feeds_app in F9 as (y9 & F9 & F10). rewrite <- Hcl.
  rewrite (group_values_ok checks (fun _ => nonneg) c1 cl' (chi L) (0%Z :: r8) (V c1 (0%Z :: r8)) s8 y9 Hcl' Hc0 F9 (stops_0 r8) (or_introl eq_refl)) by (intros; eapply nonneg_ok; eauto). cbn [bind].
  cbn [app] in F10. destruct (feed1 _ _ _ _ F10) as (r11 & s11 & -> & _ & _ & F11). rewrite (begins_yes _ _ _ B9). cbn [bind negb].
  rewrite <- ?app_assoc in F11. rewrite Ec in F11. cbn [app] in F11. pose proof (feeds_len _ _ _ F11) as Ll. rewrite app_length in Ll. cbn [length] in Ll.
  destruct (skip_dir_ok first _ z Bf dl (fuel_of (strm s11)) 0 (V dir (0%Z :: r11)) s11 ltac:(unfold fuel_of; lia) ltac:(lia) Fdl F11) as (r12 & s12 & -> & Hr12 & F12). cbn [bind fst snd].
  destruct (Z.ltb_spec (Z.of_nat count) 0); [lia|]. rewrite Nat2Z.id. rewrite Hcl.
  destruct nls as [|ls0 nls]; [discriminate|]. inversion F2 as [|(i0, n0) ? ? ? T0 F2' Ei]; subst.
  destruct (text_cons (length (bounds L)) _ _ _ T0) as (h & body & -> & _). cbn [concat app] in Ec. injection Ec as -> Ec.
  rewrite <- Ec in F12. rewrite <- app_assoc in F12.
  assert (Hng0 : length (bounds L) <> 0) by (destruct (bounds L); [contradiction|discriminate]).
  pose proof (nuclides_ok (length (bounds L)) count (nucs L) Hng Hng0 Hn z last res) as G.
  specialize (G Hlast nls (nucs L) 0 first body r12 s12 first (S count) eq_refl ltac:(lia) ltac:(lia) F2 (or_introl eq_refl) Bf Hr12 F12).
  cbv beta in G. rewrite ?Nat.sub_0_r in G. cbn [firstn app] in G. rewrite G. reflexivity.
Qed.

Lemma repeat_more {A} (l : list A) d n : firstn (length l) l ++ repeat d n = l ++ repeat d n.
Proof. now rewrite firstn_all. Qed.
Lemma end_feeds L count text junk : library_text L count text -> exists ls e z, library_lines L count ls /\ indented "%END" e /\ feeds (ls ++ [e]) (mkRd junk (mkStream text false false)) z.
Proof.
  intros [ls e post Hl He Ho Ht]. exists ls, e. assert (e <> []) as Ne by (destruct He as (k & r & ->); destruct k; discriminate).
  apply Forall_app in Ho as (O1 & O2). inversion O2; subst. destruct Ht as [->| ->].
  - destruct (pending_feeds (ls ++ [e]) (mkStream (joined ls ++ e) false false) junk) as (z & F); [|eauto]. split; [reflexivity|].
    destruct (ls ++ [e]) eqn:E; [destruct ls; discriminate|]. rewrite <- E. split; [reflexivity|]. cbn [rest]. now apply ft_last.
  - destruct (upto_feeds (ls ++ [e]) (mkStream (joined ls ++ e ++ NEWLINE :: post) false false) post junk) as (z & F & _); [|eauto].
    split; [reflexivity|]. split; [reflexivity|]. split; [|apply Forall_app; auto]. cbn [rest]. unfold joined. rewrite map_app, concat_app. cbn [map concat]. rewrite app_nil_r, <- !app_assoc. reflexivity.
Qed.
Lemma library_any L count text junk : sound_library L -> library_text L count text ->
  readMPACTLibrary checks junk text = let* all := (if length (nucs L) <=? count then Ret (nucs L ++ repeat no_nuclide (count - length (nucs L))) else Ub) in Ret (mkXsLib (bounds L) (chi L) all).
Proof.
  intros Hs T. destruct (end_feeds L count text junk T) as (ls & e & z & Hl & He & Fe). eapply whole_ok; eauto. intros i s rest v Lc -> Fr Rr.
  pose proof (feeds_len _ _ _ Fr) as Ln. rewrite app_length in Ln. cbn [length] in Ln.
  destruct (skip_rest_ok "%END" e [] z (or_intror eq_refl) He rest (fuel_of (strm s)) v s ltac:(unfold fuel_of; lia) Rr Fr) as (l' & r & s' & -> & _ & B & _ & _). cbn [bind fst snd].
  cbn [nuclides_loop]. rewrite (begins_yes _ _ _ B). cbn [bind]. now rewrite firstn_all.
Qed.

(** ** A file without end *)
Lemma next_buf s l r s' : next_line s = (V l r, s') -> buf s' = l ++ r.
Proof. unfold next_line. destruct (getline (strm s)) as (a, st). intros H. injection H as H1 _ H2. subst s'. exact H1. Qed.
Lemma at_end z st : getline (strm z) = ([], st) -> next_line z = (mkSv (0%Z :: skipn 1 (buf z)) 0, mkRd (0%Z :: skipn 1 (buf z)) st).
Proof. intros E. unfold next_line. rewrite E. reflexivity. Qed.
Lemma skip_rest_end z st x : getline (strm z) = ([], st) -> failbit st = true -> ~ indented "%NUC" x -> ~ indented "%END" x ->
  forall rest fuel v s, length rest + 1 < fuel -> Forall (fun l => ~ indented "%NUC" l /\ ~ indented "%END" l) rest -> feeds (rest ++ [x]) s z ->
  exists w z', skip_rest fuel v s = Ret (w, z') /\ valid w /\ begins_with w "%END" = Ret false.
Proof.
  intros Ez Fz N1 N2. induction rest as [|l rest IH]; intros fuel v s Hf Fr Fe.
  - cbn [app] in Fe. destruct (feed1 _ _ _ _ Fe) as (r & s' & En & Fb & _ & Fe'). cbn in Fe'. subst s'. destruct fuel as [|fuel]; [lia|]. cbn [skip_rest]. rewrite En, Fb.
    destruct (strip_any x (0%Z :: r)) as (w & E & Hw). rewrite E. cbn [bind]. rewrite (strip_not _ _ _ _ solid_nuc N1 E). cbn [bind]. rewrite (strip_not _ _ _ _ solid_end N2 E). cbn [bind orb].
    cbn [length] in Hf. destruct fuel as [|fuel]; [lia|]. cbn [skip_rest]. rewrite (at_end _ _ Ez). cbn [strm buf]. rewrite Fz.
    eexists _, _. split; [reflexivity|]. pose proof (next_buf _ _ _ _ En) as Eb. rewrite Eb.
    destruct Hw as [(_ & ->)|(k & l' & -> & ->)].
    + unfold moved. cbn [null_sv tail vsize]. split; [unfold valid; cbn; lia|]. unfold begins_with, starts_with, view. reflexivity.
    + unfold moved. cbn [V tail vsize]. assert (K : length ((blanks k ++ l') ++ 0%Z :: r) - length (l' ++ 0%Z :: r) = k) by (rewrite !app_length; unfold blanks; rewrite repeat_length; lia).
      rewrite K, <- app_assoc. clear K Eb E.
      destruct k as [|k].
      * unfold blanks; cbn [repeat app skipn]. split; [unfold valid; cbn [vsize tail length]; destruct l' as [|a m]; cbn [app skipn length]; rewrite ?app_length; cbn [length]; lia|].
        destruct l' as [|a m]; [unfold begins_with, starts_with, view; reflexivity|]. cbn [app skipn length].
        change (mkSv (0%Z :: m ++ 0%Z :: r) (S (length m))) with (V (0%Z :: m) (0%Z :: r)). apply begins_no. intros (q & X). discriminate X.
      * unfold blanks; cbn [repeat app skipn]. replace (skipn k (repeat SPACE k ++ l' ++ 0%Z :: r)) with (l' ++ 0%Z :: r).
        2:{ rewrite skipn_app, repeat_length, Nat.sub_diag, skipn_all2 by (rewrite repeat_length; lia). reflexivity. }
        change (mkSv (l' ++ 0%Z :: r) (length l')) with (V l' (0%Z :: r)). split; [apply valid_V'|]. apply begins_no. intros (q & ->). apply N2. now exists (S k), q.
  - inversion Fr as [|? ? (M1 & M2) Fr']; subst. cbn [app] in Fe. destruct (feed1 _ _ _ _ Fe) as (r & s' & En & Fb & _ & Fe'). destruct fuel as [|fuel]; [lia|]. cbn [skip_rest]. rewrite En, Fb.
    destruct (strip_any l (0%Z :: r)) as (w & E & _). rewrite E. cbn [bind]. rewrite (strip_not _ _ _ _ solid_nuc M1 E). cbn [bind]. rewrite (strip_not _ _ _ _ solid_end M2 E). cbn [bind orb].
    apply IH; auto. cbn in Hf. lia.
Qed.
Lemma pending_feeds_end ls : forall st b, pending st ls -> exists z st', feeds ls (mkRd b st) z /\ getline (strm z) = ([], st') /\ failbit st' = true.
Proof.
  induction ls as [|l ls IH]; intros st b U; [destruct (getline_none _ U) as (st' & E & F); exists (mkRd b st), st'; repeat split; auto|].
  destruct (getline_some _ _ _ U) as (st' & E & U'). pose proof (pending_line _ _ _ U) as O. destruct (next_of l st st' b E O) as (q & E').
  destruct (IH st' (l ++ 0%Z :: q) U') as (z & st2 & F & G). exists z, st2. split; [|exact G]. cbn. exists q, (mkRd (l ++ 0%Z :: q) st'). split; auto. split; [exact (proj1 U')|auto].
Qed.
End Checks.
Lemma endless_ub L text junk : sound_library L -> endless_text L (length (nucs L)) text -> readMPACTLibrary false junk text = Ub.
Proof.
  intros Hs (ls & x & Hl & N1 & N2 & Ho & ->).
  destruct (pending_feeds_end (ls ++ [x]) (mkStream (joined (ls ++ [x])) false false) junk) as (z & st & Fe & Ez & Fz).
  { split; [reflexivity|]. destruct (ls ++ [x]) eqn:E; [destruct ls; discriminate|]. rewrite <- E in *. split; [reflexivity|]. cbn [rest]. apply ft_lines. exact Ho. }
  rewrite (whole_ok false L (length (nucs L)) ls [x] z junk _ Ub Hs Hl Fe); [now rewrite Nat.leb_refl|].
  intros i s rest v _ -> Fr Rr. pose proof (feeds_len _ _ _ Fr) as Ln. rewrite app_length in Ln. cbn [length] in Ln. apply feeds_app in Fr as Fr'. destruct Fr' as (y & Fy & Fx).
  assert (Lz : length rest + 1 <= length (TextIo_Model.rest (strm s))) by lia.
  assert (L2 : length rest + 1 < fuel_of (strm s)) by (unfold fuel_of; lia).
  destruct (skip_rest_end z st x Ez Fz N1 N2 rest _ v s L2 Rr Fr) as (w & z' & -> & Vw & Bw). cbn [bind fst snd].
  rewrite Nat.sub_diag, firstn_all. cbn [repeat]. rewrite app_nil_r. cbn [nuclides_loop]. rewrite Bw. cbn [bind]. unfold read_nuclide.
  destruct (token_ok w SPACE Vw) as (t & w' & -> & _ & Vw' & _). cbn [bind snd]. unfold index_token. destruct (token_ok w' SPACE Vw') as (t' & w2 & -> & _ & _ & _). cbn [bind snd].
  unfold rd. rewrite (proj2 (nth_error_None _ _)) by lia. reflexivity.
Qed.

(** ** Whatever the file contains *)
Lemma bind_Ret {A B} (m : outcome A) (k : A -> outcome B) y : (let* x := m in k x) = Ret y -> exists x, m = Ret x /\ k x = Ret y.
Proof. destruct m; cbn; intros H; try discriminate. eauto. Qed.
Lemma wr_Ret_length {A} (l : list A) i x l' : wr l i x = Ret l' -> length l' = length l /\ i < length l.
Proof. unfold wr. destruct (Nat.ltb_spec i (length l)); [|discriminate]. intros E. injection E as <-. split; [apply upd_length|auto]. Qed.
Lemma for_Ret {S : Type} (P : nat -> S -> Prop) g : forall n i s s', P i s -> (forall j s s', i <= j < i + n -> P j s -> g j s = Ret s' -> P (Datatypes.S j) s') -> for_ n i g s = Ret s' -> P (i + n) s'.
Proof.
  induction n as [|n IH]; intros i s s' H0 H E; cbn [for_] in E; [injection E as <-; now rewrite Nat.add_0_r|]. apply bind_Ret in E. destruct E as (s1 & E1 & E2).
  replace (i + Datatypes.S n) with (Datatypes.S i + n) by lia. apply (IH _ s1); auto; [apply (H i s); auto; lia|]. intros j u u' Hj. apply H. lia.
Qed.
Section Any.
Variable checks : bool.
Ltac bd H := let x := fresh "x" in let E := fresh "E" in apply bind_Ret in H as (x & E & H).
Lemma set_shape (m m' : @matrix R) i j x : set m i j x = Ret m' -> rows m' = rows m /\ cols m' = cols m /\ (wf m -> wf m').
Proof.
  unfold set. intros H. bd H. bd H. injection H as <-. cbn. split; [reflexivity|]. split; [reflexivity|]. intros (W1 & W2).
  apply wr_Ret_length in E0 as (E0 & _). split; cbn [data rows cols]; auto. congruence.
Qed.
Lemma scattering_shape ig lo n v m m' v' : scattering ig lo n v m = Ret (m', v') -> rows m' = rows m /\ cols m' = cols m /\ (wf m -> wf m').
Proof.
  unfold scattering. intros H. eapply (for_Ret (fun _ st => rows (fst st) = rows m /\ cols (fst st) = cols m /\ (wf m -> wf (fst st)))) in H; [exact H|cbn; auto|].
  intros j (m1, v1) (m2, v2) _ (H1 & H2 & H3) E. cbn [fst snd] in *. bd E. bd E. bd E. injection E as <- <-. destruct (x0 <? 0)%Z; [discriminate|].
  apply set_shape in E2 as (A & B & C). rewrite A, B, H1, H2. auto.
Qed.
Lemma data_line_shape ng ig it v fis x v' fis' x' : shape ng x -> data_line checks ig it v fis x = Ret (v', fis', x') -> shape ng x'.
Proof.
  intros (S1 & S2 & S3 & S4 & S5 & S6 & S7 & S8 & S9) H. unfold data_line in H. bd H. bd H. bd H. bd H. bd H. bd H.
  match goal with E : wr (xa x) ig _ = Ret _ |- _ => apply wr_Ret_length in E as (La & _) end.
  destruct (vsize (fst _) =? 0); [injection H as _ _ <-; repeat split; cbn; auto; try congruence; apply S9|].
  bd H. bd H. bd H. bd H. bd H. bd H. bd H. bd H. bd H. bd H. bd H. bd H. bd H. bd H. bd H.
  match goal with E : wr (xf x) ig _ = Ret _ |- _ => apply wr_Ret_length in E as (Lf & _) end.
  match goal with E : wr (xnuf x) ig _ = Ret _ |- _ => apply wr_Ret_length in E as (Ln & _) end.
  match goal with E : wr (xtr x) ig _ = Ret _ |- _ => apply wr_Ret_length in E as (Lt & _) end.
  match goal with E : wr (xs x) ig _ = Ret _ |- _ => apply wr_Ret_length in E as (Ls & _) end.
  match goal with E : scattering _ _ _ _ _ = Ret ?q |- _ => destruct q as (mm, vv); apply scattering_shape in E as (M1 & M2 & M3) end.
  injection H as _ _ <-. cbn [fst snd]. repeat split; cbn; auto; try congruence; apply (M3 S9).
Qed.
Lemma data_lines_shape ng nt fis xs v s fis' xs' v' s' : Forall (shape ng) xs -> data_lines checks ng nt (fis, xs, v, s) = Ret (fis', xs', v', s') -> Forall (shape ng) xs' /\ length xs' = length xs.
Proof.
  intros F H. unfold data_lines in H. eapply (for_Ret (fun _ st => let '(_, xs1, _, _) := st in Forall (shape ng) xs1 /\ length xs1 = length xs)) in H; [exact H|auto|].
  intros ig (((f1, x1), v1), s1) (((f2, x2), v2), s2) _ P E. eapply (for_Ret (fun _ st => let '(_, xs1, _, _) := st in Forall (shape ng) xs1 /\ length xs1 = length xs)) in E; [exact E|exact P|].
  clear. intros it (((f1, x1), v1), s1) (((f2, x2), v2), s2) _ (P & Pl) E. destruct (next_line s1) as (w, s3). bd E. bd E. destruct x0 as ((v3, f3), x3). bd E. injection E as <- <- <- <-.
  apply rd_Ret in E0. apply nth_error_In in E0. rewrite Forall_forall in P. pose proof (data_line_shape ng _ _ _ _ _ _ _ _ (P _ E0) E1) as Sx.
  pose proof (wr_Ret_length _ _ _ _ E2) as (Lx & _). split; [|congruence]. unfold wr in E2. destruct (it <? length x1); [|discriminate]. injection E2 as <-. apply Forall_forall. intros y Hy.
  apply In_nth_error in Hy as (k & Hk). destruct (Nat.eq_dec k it) as [->|N].
  - pose proof (nth_error_lt _ _ _ Hk) as Lk. rewrite upd_length in Lk. rewrite nth_error_upd_eq in Hk by auto. injection Hk as <-. exact Sx.
  - rewrite nth_error_upd_neq in Hk by auto. apply P. eapply nth_error_In; eauto.
Qed.
Lemma XSec_shape ng x : XSec ng = Ret x -> shape ng x.
Proof.
  intros H. destruct (Z_le_gt_dec (Z.of_nat ng * Z.of_nat ng) intMax) as [L|L].
  - destruct (XSec_ok ng L) as (y & E & Sy & _). rewrite E in H. now injection H as <-.
  - exfalso. unfold XSec, make in H. rewrite i32_bad in H by (unfold in_i32; lia). discriminate.
Qed.
Lemma read_nuclide_passed ng ctr v s all all' v' s' : read_nuclide checks ng ctr v s all = Ret (all', v', s') -> Forall (passed checks ng) all -> Forall (passed checks ng) all' /\ length all' = length all.
Proof.
  intros H F. unfold read_nuclide in H. do 10 bd H. destruct (fst x7 <? 0)%Z eqn:Enz; [discriminate|]. apply Z.ltb_ge in Enz. apply bind_Ret in H as (l0 & Em & H).
  destruct (next_line s) as (w1, s1). bd H. bd H. bd H. destruct (next_line s1) as (w2, s2). bd H. apply bind_Ret in H as (tv & Et & H). destruct (next_line s2) as (w3, s3). bd H. bd H. bd H. apply bind_Ret in H as (q & Ed & H).
  destruct q as (((fis, xs'), v4), s4). apply bind_Ret in H as ([] & Ev & H). apply bind_Ret in H as (all2 & Ew & H). injection H as <- <- <-.
  assert (Fx : Forall (shape ng) l0 /\ length l0 = Z.to_nat (fst x7)).
  { revert Em. clear. generalize (Z.to_nat (fst x7)) as n, 0 as o. intros n. revert l0.
    induction n as [|n IH]; intros l0 o E; cbn in E; [injection E as <-; split; [constructor|reflexivity]|]. bd E. bd E. injection E as <-. apply IH in E1 as (F & L). split; [|cbn; congruence].
    constructor; [now apply XSec_shape|exact F]. }
  destruct Fx as (Fx & Lx). destruct (data_lines_shape _ _ _ _ _ _ _ _ _ _ Fx Ed) as (Fx' & Lx').
  assert (Lt : length (fst tv) = Z.to_nat (fst x7)).
  { unfold temperatures in Et. destruct tv as (ts, tl). eapply (for_Ret (fun k st => length (fst st) = k)) in Et; [exact Et|reflexivity|].
    clear. intros j (a, b) (c, d) _ P E. cbn [fst snd] in *. bd E. destruct x as (t, v). bd E. bd E. injection E as <- <-. rewrite app_length. cbn. lia. }
  pose proof (wr_Ret_length _ _ _ _ Ew) as (La & _). split; [|exact La].
  set (n := mkNuc (fst x2) (fst x4) fis (fst tv) xs') in *.
  assert (Pn : passed checks ng n).
  { right. assert (Gen : forall n : nuclide, nuc_validate n = Ret tt -> Forall (shape ng) (tables n) -> (0 < zaid n)%Z /\ (0 < mass n)%R /\ (temps n <> [] -> table ng n) /\ Forall (fun x => isMacro x = false) (tables n)).
    { clear. intros n V Sh. destruct (temps n) as [|t ts] eqn:E.
      - unfold nuc_validate in V. destruct (Z.leb_spec (zaid n) 0); [discriminate|]. destruct (Rleb_spec (mass n) 0); [discriminate|]. bd V. rewrite E in V. destruct (negb (Bool.eqb x (fissile n))); [discriminate|].
        destruct (tables n) as [|y l] eqn:Et; [|discriminate]. split; [exact H|]. split; [lra|]. split; [congruence|constructor].
      - assert (N : temps n <> []) by (rewrite E; discriminate). destruct (nuc_validate_table ng n V N) as (A & B & C & D); [|repeat split; auto; apply A].
        eapply Forall_impl; [|exact Sh]. intros x (S1 & _ & _ & _ & _ & _ & _ & _ & S9). auto. }
    destruct (Gen n Ev Fx') as (A & B & C & D). split; [exact A|]. split; [exact B|]. split; [exact D|]. cbn [temps tables n] in *.
    destruct (fst tv) as [|t0 ts0] eqn:Ets; [|left; apply C; discriminate]. cbn in Lt. right.
    assert (Hc : checks = false). { destruct checks; auto. unfold ASSERT in E8. destruct (Z.ltb_spec 0 (fst x7)); [lia|discriminate]. }
    split; [exact Hc|]. split; [reflexivity|]. destruct xs'; [reflexivity|cbn in Lx'; lia]. }
  unfold wr in Ew. destruct (ctr <? length all); [|discriminate]. injection Ew as <-. apply Forall_forall. intros y Hy. apply In_nth_error in Hy as (k & Hk). destruct (Nat.eq_dec k ctr) as [->|N].
  - pose proof (nth_error_lt _ _ _ Hk) as Lk. rewrite upd_length in Lk. rewrite nth_error_upd_eq in Hk by auto. injection Hk as <-. exact Pn.
  - rewrite nth_error_upd_neq in Hk by auto. rewrite Forall_forall in F. apply F. eapply nth_error_In; eauto.
Qed.
Lemma nuclides_passed ng : forall fuel ctr v s all all', nuclides_loop checks fuel ng ctr v s all = Ret all' -> Forall (passed checks ng) all -> Forall (passed checks ng) all' /\ length all' = length all.
Proof.
  induction fuel as [|fuel IH]; intros ctr v s all all' H F; cbn [nuclides_loop] in H; bd H; destruct x; try discriminate; try (injection H as <-; auto; fail).
  bd H. destruct x as ((all1, v1), s1). bd H. destruct (read_nuclide_passed _ _ _ _ _ _ _ _ E0 F) as (F1 & L1). destruct (IH _ _ _ _ _ H F1) as (F2 & L2). split; [exact F2|congruence].
Qed.
Lemma group_values_any ok ng v s xs s' : group_values checks ok ng v s = Ret (xs, s') -> length xs = ng /\ (checks = true -> forall pre x post, xs = pre ++ x :: post -> ok pre x = true).
Proof.
  unfold group_values. intros H. bd H. destruct x as ((xs1, v1), s1). injection H as <- <-.
  eapply (for_Ret (fun k st => let '(ys, _, _) := st in length ys = k /\ (checks = true -> forall pre x post, ys = pre ++ x :: post -> ok pre x = true))) in E; [exact E| |].
  - split; [reflexivity|]. intros _ [|? ?] ? ? X; discriminate X.
  - clear. intros j ((a, b), c) ((d, e), f) _ (P1 & P2) E. unfold group_value in E. bd E. destruct x as (t, v). bd E. destruct x as ((t1, v1), s1). bd E. bd E. injection E as <- <- <-.
    split; [rewrite app_length; cbn; lia|]. intros Hc pre y post X. destruct post as [|p post] using rev_ind.
    + apply app_inj_tail in X as (-> & ->). unfold ASSERT in E3. rewrite Hc in E3. destruct (ok pre y); [reflexivity|discriminate].
    + clear IHpost. rewrite app_comm_cons, app_assoc in X. apply app_inj_tail in X as (-> & _). eapply P2; eauto.
Qed.
Lemma any_library junk text L : readMPACTLibrary checks junk text = Ret L -> length (chi L) = length (bounds L) /\ Forall (passed checks (length (bounds L))) (nucs L) /\
  (checks = true -> Forall (Rle 0) (bounds L) /\ decreasing (bounds L) /\ Forall (Rle 0) (chi L)).
Proof.
  unfold readMPACTLibrary. intros H. destruct (next_line _) as (w1, s1). bd H. destruct (negb x); [discriminate|]. destruct (next_line s1) as (w2, s2). destruct (negb (version _)); [discriminate|].
  destruct (next_line s2) as (w3, s3). bd H. destruct (negb x0); [discriminate|]. destruct (next_line s3) as (w4, s4). bd H. bd H. bd H. bd H. destruct (next_line s4) as (w5, s5). bd H.
  destruct (negb x5); [discriminate|]. destruct (next_line s5) as (w6, s6). bd H. destruct (x3 <? 0)%Z; [discriminate|]. bd H. destruct x7 as (gb, s7). destruct (next_line s7) as (w7, s8). bd H.
  destruct (negb x7); [discriminate|]. destruct (next_line s8) as (w8, s9). bd H. destruct x8 as (sp, s10). destruct (next_line s10) as (w9, s11). bd H. destruct (negb x8); [discriminate|].
  bd H. destruct (x4 <? 0)%Z; [discriminate|]. bd H. injection H as <-. cbn [bounds chi nucs].
  repeat match goal with E : group_values _ _ _ _ _ = Ret _ |- _ => apply group_values_any in E end.
  repeat match goal with E : length _ = Z.to_nat x3 /\ _ |- _ => let a := fresh "L" in let b := fresh "O" in destruct E as (a & b) end.
  match goal with E : nuclides_loop _ _ _ _ _ _ _ = Ret _ |- _ => apply nuclides_passed in E as (Fp & _) end.
  2:{ apply Forall_forall. intros y Hy. apply repeat_spec in Hy. now left. }
  split; [congruence|]. rewrite L0. split; [exact Fp|]. rename O into O1. rename O0 into O. rename O1 into O0. intros Hc. specialize (O Hc). specialize (O0 Hc).
  assert (NN : forall l, (forall pre x post, l = pre ++ x :: post -> nonneg x = true) -> Forall (Rle 0) l).
  { clear. intros l Hl. apply Forall_forall. intros x Hx. apply in_split in Hx as (pre & post & ->). specialize (Hl _ _ _ eq_refl). unfold nonneg in Hl. destruct (Rleb_spec 0 x); [auto|discriminate]. }
  split; [|split].
  - apply NN. intros pre y post X. specialize (O pre y post X). unfold bound_ok in O. apply andb_true_iff in O as (O & _). exact O.
  - intros i y y' Hy Hy'. apply nth_error_split in Hy as (pre & post & E1' & Ei). subst i. subst gb. destruct post as [|y2 post].
    + rewrite nth_error_app2 in Hy' by lia. replace (S (length pre) - length pre) with 1 in Hy' by lia. discriminate.
    + rewrite nth_error_app2 in Hy' by lia. replace (S (length pre) - length pre) with 1 in Hy' by lia. injection Hy' as ->. specialize (O (pre ++ [y]) y' post). rewrite <- app_assoc in O. specialize (O eq_refl).
      unfold bound_ok in O. rewrite rev_app_distr in O. cbn [rev app] in O. apply andb_true_iff in O as (_ & O). now apply Rltb_true in O.
  - apply NN. intros pre y post X. apply (O0 pre y post X).
Qed.
End Any.
