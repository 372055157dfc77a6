(** A nuclide of a library. *)
From Coq Require Import String Ascii.
From Coq Require Import List Arith ZArith Bool Reals Lia Lra.
From Verif Require Import Base Loops Arith Matrix_Model Matrix_Spec Matrix_Proofs StringView_Model StringView_Spec StringView_Proofs Elem_Model Soup_Model Soup_Spec TextIo_Model TextIo_Spec TextIo_Proofs
  Abaqus_Spec Vtk_Model Vtk_Spec Vtk_Proofs Stats_Spec XSec_Model XSec_Spec XSec_Proofs XSec_Use_Proofs Library_Model Library_Spec Library_Text_Proofs Library_Data_Proofs.
Import ListNotations.
Local Open Scope list_scope.
Local Open Scope nat_scope.

Lemma upd_mid {A} (a : list A) x y b : upd (a ++ x :: b) (length a) y = a ++ y :: b.
Proof. induction a as [|c a IH]; cbn; [reflexivity|now rewrite IH]. Qed.
Lemma nth_mid {A} (a : list A) x b : nth_error (a ++ x :: b) (length a) = Some x.
Proof. rewrite nth_error_app2 by lia. now rewrite Nat.sub_diag. Qed.

Lemma firstn_more {A} (l : list A) : forall k x, nth_error l k = Some x -> firstn (S k) l = firstn k l ++ [x].
Proof. induction l as [|a l IH]; intros [|k] x E; try discriminate; cbn in *; [now injection E as ->|now rewrite <- (IH k x E)]. Qed.

(** ** The data *)
Section Checks.
Variable checks : bool.
Definition inner (ig : nat) := fun (itemp : nat) (st : bool * list xsec * sv * reader) =>
      let '(fis, xs, _, s) := st in
      let '(w, s) := next_line s in
      let* x := rd xs itemp in
      let* r := data_line checks ig itemp w fis x in
      let '(v, fis, x) := r in
      let* xs := wr xs itemp x in
      Ret (fis, xs, v, s).
Lemma inner_ok ng ig more z : ig < ng -> forall rem xrem ls pre xpre fis v s, length xpre = length pre ->
  Forall2 (filled ng (S ig)) xpre pre -> Forall2 (filled ng ig) xrem rem ->
  Forall2 (fun tx l => row_text ng (snd tx) ig (fst tx) l) (combine (seq (length pre) (length rem)) rem) ls -> feeds (ls ++ more) s z ->
  exists fis' xs' v' y, for_ (length rem) (length pre) (inner ig) (fis, xpre ++ xrem, v, s) = Ret (fis', xs', v', y) /\ feeds more y z /\ Forall2 (filled ng (S ig)) xs' (pre ++ rem) /\
    (fis' = true <-> fis = true \/ exists x, In x rem /\ (0 < value x Fission ig)%R).
Proof.
  intros Hi. induction rem as [|x rem IH]; intros xrem ls pre xpre fis v s Lp Fp Fr Fl Fe.
  - inversion Fr; subst. cbn in Fl. inversion Fl; subst. exists fis, xpre, v, s. cbn [length for_]. rewrite !app_nil_r. split; [reflexivity|]. split; [exact Fe|]. split; [exact Fp|].
    split; [now left|]. intros [?|(y & [] & _)]; auto.
  - inversion Fr as [|x0 ? xr ? Hx Fr']; subst. cbn [length seq combine] in Fl. inversion Fl as [|? l ? ls' Hl Fl']; subst. cbn [fst snd] in Hl.
    cbn [app] in Fe. destruct (feed1 _ _ _ _ Fe) as (r & s' & En & _ & _ & Fe').
    destruct (data_line_ok checks ng x0 x ig (length pre) l (0%Z :: r) fis Hx Hi Hl (stops_0 r)) as (v1 & x1 & Ed & Hx1).
    cbn [length for_]. unfold inner at 1. rewrite En. rewrite <- Lp in *. rewrite (proj2 (rd_Ret _ _ x0) (nth_mid _ _ _)). cbn [bind]. rewrite Ed. cbn [bind].
    rewrite wr_ok by (rewrite app_length; cbn; lia). rewrite upd_mid. cbn [bind].
    replace (xpre ++ x1 :: xr) with ((xpre ++ [x1]) ++ xr) by (now rewrite <- app_assoc).
    destruct (IH xr ls' (pre ++ [x]) (xpre ++ [x1]) (Rltb 0 (value x Fission ig) || fis) v1 s') as (fis' & xs' & v' & y & E & Fy & Fx & Hf).
    + rewrite !app_length. cbn. lia.
    + apply Forall2_app; auto.
    + exact Fr'.
    + rewrite app_length. cbn [length]. rewrite <- Lp. replace (length xpre + 1) with (S (length xpre)) by lia. exact Fl'.
    + exact Fe'.
    + rewrite app_length in E. cbn [length] in E. rewrite <- Lp in E. replace (length xpre + 1) with (S (length xpre)) in E by lia.
      exists fis', xs', v', y. split; [exact E|]. split; [exact Fy|]. split; [now rewrite <- app_assoc in Fx|]. rewrite Hf, orb_true_iff, Rltb_true. split.
      * intros [[G|G]|(q & G1 & G2)]; [right; exists x; split; [now left|auto]|now left|right; exists q; split; [now right|auto]].
      * intros [G|(q & [<-|G1] & G2)]; [left; now right|left; now left|right; exists q; auto].
Qed.
Lemma data_lines_ok ng T more z : forall cnt k rows xs fis v s, k + cnt = ng -> Forall2 (filled ng k) xs T ->
  Forall2 (fun g ls => Forall2 (fun tx l => row_text ng (snd tx) g (fst tx) l) (combine (seq 0 (length T)) T) ls) (seq k cnt) rows ->
  feeds (concat rows ++ more) s z ->
  exists fis' xs' v' y, for_ cnt k (fun ig st => for_ (length T) 0 (inner ig) st) (fis, xs, v, s) = Ret (fis', xs', v', y) /\ feeds more y z /\ Forall2 (filled ng ng) xs' T /\
    (fis' = true <-> fis = true \/ exists x g, In x T /\ k <= g < ng /\ (0 < value x Fission g)%R).
Proof.
  induction cnt as [|cnt IH]; intros k rows xs fis v s Hk Fx Fr Fe.
  - inversion Fr; subst. rewrite Nat.add_0_r in *. exists fis, xs, v, s. cbn [for_]. split; [reflexivity|]. split; [exact Fe|]. split; [exact Fx|].
    split; [now left|]. intros [?|(x & g & _ & ? & _)]; auto; lia.
  - cbn [seq] in Fr. inversion Fr as [|? ls ? rows' Hl Fr']; subst. cbn [concat] in Fe. rewrite <- app_assoc in Fe.
    destruct (inner_ok (k + S cnt) k (concat rows' ++ more) z ltac:(lia) T xs ls [] [] fis v s eq_refl (Forall2_nil _) Fx Hl Fe) as (fis1 & xs1 & v1 & s1 & E1 & Fe1 & Fx1 & Hf1).
    cbn [length app] in *. cbn [for_]. rewrite E1. cbn [bind].
    destruct (IH (S k) rows' xs1 fis1 v1 s1 ltac:(lia) Fx1 Fr' Fe1) as (fis' & xs' & v' & y & E & Fy & Fx' & Hf).
    exists fis', xs', v', y. split; [exact E|]. split; [exact Fy|]. split; [exact Fx'|]. rewrite Hf, Hf1. split.
    + intros [[G|(x & G1 & G2)]|(x & g & G1 & G2 & G3)]; [now left|right; exists x, k; repeat split; auto; lia|right; exists x, g; repeat split; auto; lia].
    + intros [G|(x & g & G1 & G2 & G3)]; [left; now left|]. destruct (Nat.eq_dec g k) as [->|]; [left; right; eauto|right; exists x, g; repeat split; auto; lia].
Qed.
Lemma filled_all ng x0 x : filled ng ng x0 x -> shape ng x -> isMacro x = false -> (isFissile x = true <-> exists g, g < ng /\ (0 < value x Fission g)%R) -> x0 = x.
Proof.
  intros (S0 & M0 & F0 & V0) Sx Mx Fx. apply (xsec_ext ng); auto; [congruence| |].
  - apply eq_true_iff_eq. rewrite F0, Fx. reflexivity.
  - intros r g Hk Hg. rewrite V0 by auto. replace (line_of r g <? ng) with true; [reflexivity|]. symmetry. apply Nat.ltb_lt. destruct r; cbn in *; auto.
Qed.

(** ** Checks of a nuclide *)
Lemma sorted_of l : ascending l -> is_sorted l = true.
Proof.
  induction l as [|a l IH]; intros H; [reflexivity|]. destruct l as [|b l]; [reflexivity|]. cbn [is_sorted].
  pose proof (H 0 1 a b ltac:(lia) eq_refl eq_refl) as L. unfold Rltb. destruct (Rlt_dec b a); [lra|]. apply IH. intros i j x y Hij Ex Ey. apply (H (S i) (S j) x y); auto. lia.
Qed.
Lemma sound_validate ng n : ng <> 0 -> sound ng n -> nuc_validate n = Ret tt.
Proof.
  intros Hng [Hz Hm (Nt & Lt & Pt & As & Sh) Mi Fi Nu An]. unfold nuc_validate. destruct (Z.leb_spec (zaid n) 0); [lia|]. destruct (Rleb_spec (mass n) 0); [lra|].
  destruct (for_inv (fun i any => any = true <-> Exists (fun x => isFissile x = true) (firstn i (tables n))) (fun i any =>
    let* x := rd (tables n) i in
    let* _ := validate x in
    if isMacro x then Fail else Ret (if isFissile x then true else any)) (length (tables n)) 0 false) as (any & -> & Ha).
  - cbn. split; [discriminate|intros E; inversion E].
  - intros j any Hj Ha. destruct (nth_error (tables n) j) as [x|] eqn:E; [|apply nth_error_None in E; lia]. rewrite (proj2 (rd_Ret _ _ x) E). cbn [bind].
    pose proof (nth_error_In _ _ E) as Hin. rewrite Forall_forall in Sh, Mi, Fi, Nu. pose proof (Mi x Hin) as Mx. cbv beta in Mx.
    pose proof (shape_validate ng x _ (Sh x Hin) Hng eq_refl) as SV. rewrite Mx in *.
    replace (existsb (fun v => Rltb 0 v && negb (isFissile x)) (xf x ++ xnuf x)) with false in SV.
    + rewrite SV. cbn [bind]. eexists. split; [reflexivity|]. rewrite (firstn_more _ _ _ E), Exists_app. rewrite <- Ha. destruct (isFissile x) eqn:Ef.
      * split; [|reflexivity]. intros _. right. constructor. exact Ef.
      * split; [now left|]. intros [G|G]; auto. inversion G as [? ? G'|? ? G']; subst; [congruence|inversion G'].
    + symmetry. apply not_true_iff_false. intros X. apply existsb_exists in X as (v & Hv & X). apply andb_true_iff in X as (X1 & X2). apply Rltb_true in X1. apply negb_true_iff in X2.
      pose proof (Sh x Hin) as (S1 & S2 & S3 & S4 & _). apply in_app_or in Hv as [Hv|Hv]; apply (In_nth _ _ 0%R) in Hv as (g & Hg & <-).
      * assert (isFissile x = true) by (apply (Fi x Hin); exists g; split; [lia|exact X1]). congruence.
      * pose proof (Nu x Hin X2 g ltac:(lia)) as L. cbn [value] in L. lra.
  - cbn [bind]. cbn [Nat.add] in Ha. rewrite firstn_all in Ha. replace (Bool.eqb any (fissile n)) with true.
    2:{ symmetry. apply eqb_true_iff. apply eq_true_iff_eq. rewrite Ha, An. reflexivity. }
    cbn [negb]. rewrite <- Lt, Nat.eqb_refl. cbn [negb]. rewrite error_loop_ok by lia.
    replace (existsb _ _) with false; [cbn [bind]; rewrite sorted_of by auto; reflexivity|].
    symmetry. apply not_true_iff_false. intros X. apply existsb_exists in X as (v & Hv & X). rewrite firstn_all2 in Hv by lia. rewrite Forall_forall in Pt. specialize (Pt v Hv).
    destruct (Rleb_spec v 0); [lra|discriminate].
Qed.

(** ** Temperatures *)
Lemma temperatures_ok r : stops r -> forall tts ts v, Forall2 real_text tts ts -> wview r tts v -> Forall (Rlt 0) ts ->
  exists v', temperatures checks (length ts) v = Ret (ts, v').
Proof.
  intros Hr tts ts v F W P. unfold temperatures.
  assert (G : forall tts ts, Forall2 real_text tts ts -> forall acc v i, wview r tts v -> Forall (Rlt 0) ts ->
    exists v', for_ (length ts) i (fun _ st => let* tv := getTokenAndShrink (snd st) SPACE in let '(token, v) := tv in let token := if vsize token =? 0 then v else token in
      let* t := strtod (tail token) in let* _ := ASSERT checks (Rltb 0%R t) in Ret (fst st ++ [t], v)) (acc, v) = Ret (acc ++ ts, v')).
  { clear - Hr. intros tts ts F. induction F as [|t x tts ts Hx F IH]; intros acc v i W P; [exists v; cbn [length for_]; now rewrite app_nil_r|].
    inversion P; subst. destruct (wview_next r t tts v Hr W) as (q & v' & E & Hq & Hv & (Nt & _)). cbn [length for_ fst snd]. rewrite E. cbn [bind].
    replace (vsize (V t q) =? 0) with false by (destruct t; [contradiction|reflexivity]). cbv iota. cbn [V tail]. rewrite (strtod_real _ _ _ Hx Hq). cbn [bind].
    rewrite assert_true by (now apply Rltb_true). cbn [bind]. destruct (IH (acc ++ [x]) v' (S i) Hv) as (v'' & E'); auto. exists v''. rewrite <- app_assoc in E'. exact E'. }
  exact (G tts ts F [] v 0 W P).
Qed.

(** ** A nuclide *)
Lemma wview_skip r : stops r -> forall ts more v i, wview r (ts ++ more) v ->
  exists v', for_ (length ts) i (fun _ v => let* tv := getTokenAndShrink v SPACE in Ret (snd tv)) v = Ret v' /\ wview r more v'.
Proof.
  intros Hr. induction ts as [|t ts IH]; intros more v i W; [exists v; split; [reflexivity|exact W]|].
  destruct (wview_next r t (ts ++ more) v Hr W) as (q & v' & E & _ & Hv & _). cbn [length for_]. rewrite E. cbn [bind snd]. apply IH, Hv.
Qed.
Lemma solid_nuc : solid_word "%NUC". Proof. exists 37%Z, [78; 85; 67]%Z. split; [reflexivity|discriminate]. Qed.
Lemma solid_end : solid_word "%END". Proof. exists 37%Z, [69; 78; 68]%Z. split; [reflexivity|discriminate]. Qed.
Lemma solid_tp : solid_word "TP1+". Proof. exists 84%Z, [80; 49; 43]%Z. split; [reflexivity|discriminate]. Qed.
Lemma solid_xsd : solid_word "XSD+". Proof. exists 88%Z, [83; 68; 43]%Z. split; [reflexivity|discriminate]. Qed.
(** the start of the first line is handed over without its leading blanks *)
Lemma read_nuclide_ok ng i n h body r s z all n0 l' : (Z.of_nat ng * Z.of_nat ng <= intMax)%Z -> ng <> 0 -> sound ng n -> nuclide_text ng i n (h :: body) ->
  (l' = h \/ removeLeadingSpaces (V h r) = Ret (V l' r)) -> stops r -> feeds body s z -> nth_error all i = Some n0 -> fissile n0 = false ->
  exists v' s' rest, read_nuclide checks ng i (V l' r) s all = Ret (upd all i n, v', s') /\ feeds rest s' z /\ Forall (fun l => ~ indented "%NUC" l /\ ~ indented "%END" l) rest.
Proof.
  intros Hng Hng0 Hs T Hl Hr Fe Hn0 Fn0. inversion T as [h' w ti tz tm a b c d tn more tp tl tts xsd rows rest I1 W Hti Htz Htm Htn I2 Wt Ft I3 Fr Rest]; subst. clear T.
  assert (W' : wview r (w :: ti :: tz :: tm :: a :: b :: c :: d :: tn :: more) (V l' r)).
  { apply wv_text. destruct Hl as [->|Hl]; [exact W|]. destruct (strip_words _ _ _ r W) as (l'' & E & W'' & _). rewrite E in Hl. injection Hl as Hl. apply app_inv_tail in Hl. now subst. }
  pose proof Hs as [Hz Hm (Nt & Lt & Pt & As & Sh) Mi Fi Nu An]. unfold read_nuclide.
  destruct (wview_next r w _ _ Hr W') as (q & v1 & -> & _ & W1 & _). cbn [bind snd].
  destruct (index_token_ok checks r ti _ _ _ Hr W1 Hti) as (v2 & -> & W2). cbn [bind]. rewrite (proj2 (rd_Ret _ _ n0) Hn0). cbn [bind].
  destruct (int_token_ok r tz _ _ _ Hr W2 Htz) as (v3 & -> & W3). cbn [bind fst snd]. rewrite assert_true by (now apply Z.ltb_lt). cbn [bind].
  destruct (real_token_ok r tm _ _ _ Hr W3 Htm) as (v4 & -> & W4). cbn [bind fst snd]. rewrite assert_true by (now apply Rltb_true). cbn [bind].
  destruct (wview_skip r Hr [a; b; c; d] (tn :: more) v4 0 W4) as (v5 & E5 & W5). cbn [length] in E5. rewrite E5. cbn [bind].
  destruct (int_token_ok r tn _ _ _ Hr W5 Htn) as (v6 & -> & W6). cbn [bind fst snd].
  assert (L0 : 0 < length (temps n)) by (destruct (temps n); [contradiction|cbn; lia]).
  rewrite assert_true by (apply Z.ltb_lt; lia). cbn [bind]. destruct (Z.ltb_spec (Z.of_nat (length (temps n))) 0); [lia|]. rewrite Nat2Z.id.
  destruct (XSec_ok ng Hng) as (x0 & Ex & Sx & Mx & Fx & Vx).
  rewrite (mapo_ok (fun _ => XSec ng) (fun _ => x0)) by (intros; exact Ex). cbn [bind].
  destruct (feed1 _ _ _ _ Fe) as (r1 & s1 & -> & _ & _ & Fe1). destruct (strip_kw "TP1+" tp (0%Z :: r1) solid_tp I2) as (l1 & -> & B1 & _). cbn [bind].
  rewrite (begins_yes _ _ _ B1). cbn [bind]. rewrite assert_true by auto. cbn [bind].
  destruct (feed1 _ _ _ _ Fe1) as (r2 & s2 & -> & _ & _ & Fe2).
  destruct tts as [|tt0 tts]; [inversion Ft; congruence|].
  destruct (strip_words _ _ _ (0%Z :: r2) Wt) as (l2 & -> & Wl2 & _). cbn [bind].
  destruct (temperatures_ok _ (stops_0 r2) _ _ _ Ft (wv_text _ _ _ Wl2) Pt) as (v7 & ->). cbn [bind fst].
  destruct (feed1 _ _ _ _ Fe2) as (r3 & s3 & -> & _ & _ & Fe3). destruct (strip_kw "XSD+" xsd (0%Z :: r3) solid_xsd I3) as (l3 & -> & B3 & _). cbn [bind].
  rewrite (begins_yes _ _ _ B3). cbn [bind]. rewrite assert_true by auto. cbn [bind].
  destruct (data_lines_ok ng (tables n) rest z ng 0 rows (map (fun _ => x0) (seq 0 (length (temps n)))) (fissile n0) (V l3 (0%Z :: r3)) s3 eq_refl) as (fis & xs' & v' & y & E & Fy & Fx' & Hf); auto.
  { rewrite <- Lt. clear - Sx Mx Fx Vx. generalize 0 at 2 as o. induction (tables n) as [|x T IH]; intros o; cbn [length seq map]; [constructor|]. constructor; [|apply IH].
    split; [exact Sx|]. split; [exact Mx|]. split; [rewrite Fx; split; [discriminate|intros (g & G & _); lia]|]. intros rr g Hk Hg. rewrite Vx by auto.
    destruct (Nat.ltb_spec (line_of rr g) 0); [lia|reflexivity]. }
  unfold data_lines. rewrite <- Lt. unfold inner in E. rewrite <- Lt in E. rewrite E. cbn [bind].
  assert (xs' = tables n) as ->.
  { clear - Fx' Sh Mi Fi. induction Fx' as [|x1 x xs1 T H1 _ IH]; [reflexivity|]. inversion Sh; inversion Mi; inversion Fi; subst. f_equal; [eapply filled_all; eauto|now apply IH]. }
  assert (fis = fissile n) as ->.
  { apply eq_true_iff_eq. rewrite Hf, Fn0, An, Exists_exists. split.
    - intros [?|(x & g & G1 & G2 & G3)]; [discriminate|]. exists x. split; auto. rewrite Forall_forall in Fi. apply (Fi x G1). exists g. split; [lia|exact G3].
    - intros (x & G1 & G2). right. rewrite Forall_forall in Fi. apply (Fi x G1) in G2 as (g & G3 & G4). exists x, g. repeat split; auto; lia. }
  destruct n as [nz nm nf nts nxs]. cbn [XSec_Model.zaid XSec_Model.mass XSec_Model.fissile temps tables] in *.
  rewrite (sound_validate ng _ Hng0 Hs). cbn [bind]. rewrite wr_ok by (apply nth_error_Some; congruence). cbn [bind].
  exists v', y, rest. auto.
Qed.

(** ** The lines between *)
Lemma skip_rest_ok kw e more z : (kw = "%NUC"%string \/ kw = "%END"%string) -> indented kw e -> forall rest fuel v s, length rest < fuel ->
  Forall (fun l => ~ indented "%NUC" l /\ ~ indented "%END" l) rest -> feeds (rest ++ e :: more) s z ->
  exists l' r s', skip_rest fuel v s = Ret (V l' r, s') /\ removeLeadingSpaces (V e r) = Ret (V l' r) /\ begins kw l' /\ stops r /\ feeds more s' z.
Proof.
  intros Hkw He. induction rest as [|l rest IH]; intros fuel v s Hf Fr Fe.
  - cbn [app] in Fe. destruct (feed1 _ _ _ _ Fe) as (r & s' & En & Fb & _ & Fe'). destruct fuel as [|fuel]; [lia|]. cbn [skip_rest]. rewrite En, Fb.
    assert (solid_word kw) as Sk by (destruct Hkw as [->| ->]; [exact solid_nuc|exact solid_end]). destruct (strip_kw kw e (0%Z :: r) Sk He) as (l' & E & B & _). rewrite E. cbn [bind].
    exists l', (0%Z :: r), s'. split; [|repeat split; auto; apply stops_0]. destruct Hkw as [->| ->].
    + rewrite (begins_yes _ _ _ B). cbn [bind]. rewrite begins_no; [reflexivity|]. destruct B as (q & ->). intros (q' & X). discriminate X.
    + rewrite (begins_no l' "%NUC"); [|destruct B as (q & ->); intros (q' & X); discriminate X]. cbn [bind]. rewrite (begins_yes _ _ _ B). reflexivity.
  - inversion Fr as [|? ? (N1 & N2) Fr']; subst. cbn [app] in Fe. destruct (feed1 _ _ _ _ Fe) as (r & s' & En & Fb & _ & Fe'). destruct fuel as [|fuel]; [lia|]. cbn [skip_rest]. rewrite En, Fb.
    destruct (strip_any l (0%Z :: r)) as (w & E & _). rewrite E. cbn [bind]. rewrite (strip_not _ _ _ _ solid_nuc N1 E). cbn [bind]. rewrite (strip_not _ _ _ _ solid_end N2 E). cbn [bind orb].
    apply IH; auto. cbn in Hf. lia.
Qed.
Lemma skip_dir_ok h more z : begins "%NUC" h -> forall dl fuel ctr v s, length dl < fuel -> (ctr + Z.of_nat (length dl) <= 10000)%Z ->
  Forall (fun l => ~ begins "%NUC" l) dl -> feeds (dl ++ h :: more) s z ->
  exists r s', skip_dir fuel ctr v s = Ret (V h r, s') /\ stops r /\ feeds more s' z.
Proof.
  intros Hh. induction dl as [|l dl IH]; intros fuel ctr v s Hf Hc Fr Fe.
  - cbn [app] in Fe. destruct (feed1 _ _ _ _ Fe) as (r & s' & En & Fb & _ & Fe'). destruct fuel as [|fuel]; [lia|]. cbn [skip_dir]. rewrite En, Fb, (begins_yes _ _ _ Hh). cbn [bind].
    exists (0%Z :: r), s'. repeat split; auto. apply stops_0.
  - inversion Fr as [|? ? N1 Fr']; subst. cbn [app] in Fe. destruct (feed1 _ _ _ _ Fe) as (r & s' & En & Fb & _ & Fe'). destruct fuel as [|fuel]; [lia|]. cbn [skip_dir]. rewrite En, Fb, (begins_no _ _ _ N1). cbn [bind].
    cbn [length] in Hc. destruct (Z.ltb_spec 10000 (ctr + 1)); [lia|]. apply IH; auto; [cbn in Hf|]; lia.
Qed.
End Checks.
