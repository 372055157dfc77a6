From Coq Require Import List Arith ZArith Bool Reals Lia Lra.
From Verif Require Import Base Loops Arith Matrix_Model Matrix_Spec StringView_Model Stats_Spec XSec_Model XSec_Spec XSec_Proofs XSec_Use_Proofs XSec_Mat_Proofs
  Density_Model Density_Spec Density_Proofs Density_UO2_Proofs Library_Model Library_Spec Library_Text_Proofs Library_Proofs LibMat_Model LibMat_Spec.
Import ListNotations.
Local Open Scope R_scope.

(** * Nuclides *)
Lemma find_listed l rest z : (exists n, In n l /\ zaid n = z) ->
  exists n before after, l = before ++ n :: after /\ zaid n = z /\ Forall (fun k => zaid k <> z) before /\ find_nuclide (l ++ rest) z = Ret n.
Proof.
  induction l as [|k l IH]; intros (n & Hn & E); [destruct Hn|]. cbn [find_nuclide app].
  destruct (Z.eqb_spec (zaid k) z) as [Ek|Ek].
  - exists k, [], l. repeat split; auto.
  - destruct IH as (n' & b & a & -> & Ez & F & Q). { destruct Hn as [->|Hn]; [contradiction|]. exists n. auto. }
    exists n', (k :: b), a. split; [reflexivity|]. split; [exact Ez|]. split; [now constructor|exact Q].
Qed.
Lemma interp_micro ng n T : table ng n -> exists x, interpXS n T = Ret x /\ shape ng x /\
  (exists x0, In x0 (tables n) /\ isFissile x = isFissile x0) /\
  forall r g, known ng r -> (g < ng)%nat -> micro n T r g (value x r g).
Proof.
  intros Ht. pose proof Ht as (H1 & H2 & H3 & H4 & H5). rewrite Forall_forall in H5.
  destruct (cases_of ng n T Ht) as [(t0 & x0 & E & X & L)|[(tn & xn & E & X & L & L')|(i & t0 & t1 & x0 & x1 & B & L)]].
  - exists x0. pose proof (nth_error_In _ _ X) as Hx. split; [exact (below ng n T t0 x0 Ht E X L)|]. split; [now apply H5|]. split; [eauto|].
    intros r g _ _. exact (cold n T r g t0 x0 E X L).
  - exists xn. pose proof (nth_error_In _ _ X) as Hx. split; [exact (above ng n T tn xn Ht E X L (or_introl L'))|]. split; [now apply H5|]. split; [eauto|].
    intros r g _ _. exact (hot n T r g tn xn E X L).
  - destruct (interp_gen ng n T i t0 t1 x0 x1 Ht B) as (x & E & Sx & _ & F & V).
    { intros tm Em HT. specialize (L tm Em). lra. }
    exists x. split; [exact E|]. split; [exact Sx|]. split.
    + exists x0. split; [|exact F]. destruct B as (_ & _ & _ & X0 & _). exact (nth_error_In _ _ X0).
    + intros r g Hr Hg. rewrite (V r g Hr Hg). exact (warm n T r g i t0 t1 x0 x1 B).
Qed.

(** * Cross sections of one material *)
Lemma gather ng L rest T : Forall (sound ng) (nucs L) -> forall zs ds, length ds = length zs ->
  (forall z, In z zs -> exists n, In n (nucs L) /\ zaid n = z) ->
  exists ns, map fst ns = ds /\
    Forall2 (fun z n => exists nuc, find_nuclide (nucs L ++ rest) z = Ret nuc /\ interpXS nuc T = Ret (snd n)) zs ns /\
    Forall (fun n => shape ng (snd n)) ns /\
    (existsb (fun n => isFissile (snd n)) ns = true -> exists z n, In z zs /\ listed L z n /\ fissile n = true) /\
    forall r g, known ng r -> (g < ng)%nat -> exists sigmas,
      Forall2 (fun c sigma => exists n, listed L (fst c) n /\ micro n T r g sigma) (combine zs ds) sigmas /\
      macro_value ns r g = total (map (fun p => snd (fst p) * snd p) (combine (combine zs ds) sigmas)).
Proof.
  intros HL. rewrite Forall_forall in HL. induction zs as [|z zs IH]; intros [|d ds] Hl Hz; try discriminate.
  - exists []. repeat split; auto; try constructor; [discriminate|]. exists []. split; [constructor|reflexivity].
  - destruct (IH ds) as (ns & F1 & F2 & F3 & F4 & F5); [now injection Hl|intros; apply Hz; now right|].
    destruct (find_listed (nucs L) rest z (Hz z (or_introl eq_refl))) as (n & b & a & E & Ez & Fb & Fn).
    assert (Hin : In n (nucs L)) by (rewrite E; apply in_or_app; right; now left).
    pose proof (HL n Hin) as Sn. destruct (interp_micro ng n T (s_table _ _ Sn)) as (x & Ex & Sx & (x0 & I0 & Fx) & V).
    assert (Hlist : listed L z n) by (exists b, a; auto).
    exists ((d, x) :: ns). cbn [map fst]. split; [now rewrite F1|]. split.
    { constructor; [|exact F2]. exists n. split; auto. }
    split; [constructor; auto|]. split.
    { cbn [existsb snd]. intros Hf. apply orb_true_iff in Hf. destruct Hf as [Hf|Hf].
      - exists z, n. split; [now left|]. split; [exact Hlist|]. apply (s_any _ _ Sn). apply Exists_exists. exists x0. split; [exact I0|congruence].
      - destruct (F4 Hf) as (z' & n' & A & B & C). exists z', n'. split; [now right|]. auto. }
    intros r g Hr Hg. destruct (F5 r g Hr Hg) as (sg & G1 & G2). exists (value x r g :: sg). split.
    + cbn [combine]. constructor; [|exact G1]. exists n. cbn [fst]. auto.
    + cbn [combine map fst snd]. unfold macro_value in *. cbn [map fst snd]. rewrite !total_cons. now rewrite G2.
Qed.

Lemma populate_mixture L rest m : let ng := length (bounds L) in ng <> O -> Forall (sound ng) (nucs L) -> valid_material m ->
  (forall z, In z (zaids m) -> exists n, In n (nucs L) /\ zaid n = z) ->
  exists m', populateXSec m (mkLib ng (nucs L ++ rest)) = Ret m' /\ name_len m' = name_len m /\ temperature m' = temperature m /\ density m' = density m /\
    zaids m' = zaids m /\ num_density m' = num_density m /\ shape ng (mxsec m') /\ isMacro (mxsec m') = true /\
    (isFissile (mxsec m') = true -> exists z n, In z (zaids m) /\ listed L z n /\ fissile n = true) /\
    forall r g, known ng r -> (g < ng)%nat -> mixture L (temperature m) (content m) r g (value (mxsec m') r g).
Proof.
  intros ng Hng HL Hm Hz. pose proof Hm as (_ & _ & _ & _ & Hl & _).
  destruct (gather ng L rest (temperature m) HL (zaids m) (num_density m) Hl Hz) as (ns & F1 & F2 & F3 & F4 & F5).
  destruct (populate_ok (mkLib ng (nucs L ++ rest)) m ns Hm) as (m' & E & A1 & A2 & A3 & A4 & A5 & A6 & A7 & A8 & A9); cbn [groups]; auto.
  { split; [exact F1|exact F2]. }
  exists m'. split; [exact E|]. repeat (split; [assumption|]). split; [intros X; apply F4; congruence|].
  intros r g Hr Hg. rewrite (A9 r g Hr Hg). destruct (F5 r g Hr Hg) as (sg & G1 & G2). exists sg. split; [exact G1|exact G2].
Qed.

(** * Compositions *)
Lemma weigh_add : forall l m, weigh m l = add_all m (map (fun p => ByWeight (fst p) (snd p)) l).
Proof. induction l as [|[z w] l IH]; intros m; cbn; [reflexivity|]. destruct (addNuclideWt m z w); cbn; auto. Qed.
Lemma with_masses : forall l : list (Z * R), Forall (fun zw => (exists M, has_mass (fst zw) M) /\ 0 < snd zw) l ->
  exists t, l = map fst t /\ Forall (fun q => has_mass (fst (fst q)) (snd q) /\ 0 < snd (fst q)) t.
Proof.
  induction l as [|p l IH]; intros F; [exists []; split; [reflexivity|constructor]|]. inversion F as [|? ? ((M & HM) & Hp) Fl]. subst.
  destruct (IH Fl) as (t & -> & Ft). exists ((p, M) :: t). split; [reflexivity|]. constructor; auto.
Qed.
Lemma NoDup_combine {A B} (l : list A) (m : list B) : length m = length l -> map fst (combine l m) = l /\ map snd (combine l m) = m.
Proof.
  revert m. induction l as [|a l IH]; intros [|b m] H; try discriminate; [split; reflexivity|]. injection H as H. destruct (IH m H) as [A1 A2].
  cbn. now rewrite A1, A2.
Qed.
Lemma Forall_weak (l : list R) : Forall (Rlt 0) l -> Forall (Rle 0) l.
Proof. apply Forall_impl. intros. lra. Qed.
Lemma ready m : well_formed m -> name_len m <> O -> 0 < temperature m -> 0 < density m -> content m <> [] -> valid_material m.
Proof.
  intros (W1 & W2 & W3 & W4) Hn Ht Hd Hc. unfold valid_material. repeat (split; [assumption|]). split; [|split; [assumption|split; [now apply Forall_weak|assumption]]].
  intros E. apply Hc. unfold content. now rewrite E.
Qed.
Lemma build_ok L o : sensible L o -> exists m, build o = Ret m /\ valid_material m /\ name_len m = o_name o /\ temperature m = o_temperature o /\
  density m = o_density o /\ parts (o_density o) (o_recipe o) (content m) /\ forall z, In z (zaids m) -> ingredient (o_recipe o) z.
Proof.
  intros (Hn & Ht & Hd & Hr & _). unfold build. set (m0 := mkMat _ _ _ _ _ _).
  assert (W0 : well_formed m0) by (repeat split; constructor).
  destruct (o_recipe o) as [l|e g].
  - destruct Hr as (Hne & Nd & F). destruct (with_masses l F) as (t & E & Ft). subst l. rewrite map_map in Nd.
    destruct (weights_all t m0 W0 Hd Ft Nd) as (m & Em & Wm & (S1 & S2 & S3 & _) & C). rewrite weigh_add, map_map, Em.
    cbn [content m0 zaids combine app density] in C. change (content m0) with (@nil (Z * R)) in C. cbn [app] in C.
    exists m. split; [reflexivity|]. split.
    { apply ready; auto; rewrite ?S1, ?S2, ?S3; auto. rewrite C. intros X. apply map_eq_nil in X. subst t. now apply Hne. }
    repeat (split; [assumption|]). split.
    + constructor. rewrite C. clear - Ft. induction Ft as [|q t (Hm & Hp) Ft IH]; cbn [map]; constructor; [|exact IH].
      cbn [fst snd]. split; [reflexivity|]. exists (snd q). split; [exact Hm|]. field. pose proof (proj2 (mass_pos _ _ Hm)). lra.
    + intros z Hz. destruct Wm as (Wl & _). destruct (NoDup_combine (zaids m) (num_density m) Wl) as [Q _]. fold (content m) in Q.
      rewrite <- Q, C, !map_map in Hz. cbn [ingredient]. rewrite map_map. exact Hz.
  - destruct (setUO2_ok m0 e g W0 Hd Hr) as (m & l & Em & Wm & (S1 & S2 & S3 & _) & C & Mf & P1 & P2 & P3 & P4 & P5).
    { intros z _ []. }
    change (content m0) with (@nil (Z * R)) in C. cbn [app] in C. change (density m0) with (o_density o) in *.
    assert (Q : map fst (content m) = zaids m) by (destruct Wm as (Wl & _); exact (proj1 (NoDup_combine (zaids m) (num_density m) Wl))).
    assert (Hi : forall z, In z (map fst l) <-> ingredient (Fuel e g) z).
    { intros z. rewrite Mf, filter_In. cbn [ingredient]. destruct (Rltb_spec 0 g) as [Hg|Hg].
      - split; intros [A B]; split; auto.
      - rewrite negb_true_iff, Z.eqb_neq. split; intros [A B]; split; auto. destruct B; [contradiction|assumption]. }
    exists m. split; [exact Em|]. split.
    { apply ready; auto; rewrite ?S1, ?S2, ?S3; auto. rewrite C. intros X. rewrite X in Hi.
      apply (proj2 (Hi 8016%Z)). cbn [ingredient]. split; [cbn; tauto|]. right. discriminate. }
    repeat (split; [assumption|]). rewrite <- C in *. clear C. split.
    + constructor; auto. rewrite Q. exact (proj1 (proj2 Wm)).
    + intros z Hz. apply Hi. now rewrite Q.
Qed.

Lemma make_ok L rest o : length (bounds L) <> O -> Forall (sound (length (bounds L))) (nucs L) -> sensible L o ->
  exists m, make_material (mkLib (length (bounds L)) (nucs L ++ rest)) o = Ret m /\ delivered L o m.
Proof.
  intros Hng HL Ho. destruct (build_ok L o Ho) as (m & E & V & N1 & N2 & N3 & P & Hi). unfold make_material. rewrite E. cbn [bind].
  pose proof Ho as (_ & _ & _ & _ & Hz).
  destruct (populate_mixture L rest m Hng HL V) as (m' & E' & B1 & B2 & B3 & B4 & B5 & B6 & B7 & B8 & B9); [auto|].
  exists m'. split; [exact E'|]. unfold delivered. unfold content in *. rewrite B1, B2, B3, B4, B5. repeat (split; [auto; fail|]).
  split; [exact (proj1 (proj2 (proj2 (proj2 (proj2 V)))))|]. split; [exact P|]. repeat (split; [assumption|]). rewrite <- N2. exact B9.
Qed.
Lemma mapo_Forall2 {A B} (f : A -> outcome B) (P : A -> B -> Prop) : forall l, Forall (fun a => exists b, f a = Ret b /\ P a b) l ->
  exists r, mapo f l = Ret r /\ Forall2 P l r.
Proof.
  induction 1 as [|a l (b & E & Hb) F (r & Er & Hr)]; [exists []; split; [reflexivity|constructor]|].
  exists (b :: r). cbn. rewrite E. cbn. rewrite Er. split; [reflexivity|now constructor].
Qed.
Lemma mapo_Ret2 {A B} (f : A -> outcome B) : forall l r, mapo f l = Ret r -> Forall2 (fun a b => f a = Ret b) l r.
Proof.
  induction l as [|a l IH]; intros r E; cbn in E; [injection E as <-; constructor|].
  destruct (f a) as [b| | |] eqn:Ea; try discriminate. cbn in E. destruct (mapo f l) as [r'| | |] eqn:El; try discriminate. cbn in E. injection E as <-.
  constructor; auto.
Qed.

Lemma materials_ok checks junk L count text os : sound_library L -> library_text L count text -> (length (nucs L) <= count)%nat ->
  Forall (sensible L) os -> exists ms, make_materials checks junk text os = Ret ms /\ Forall2 (delivered L) os ms.
Proof.
  intros HL HT Hc Ho. unfold make_materials. rewrite (library_any checks L count text junk HL HT). rewrite (proj2 (Nat.leb_le _ _) Hc). cbn [bind].
  unfold library_of. cbn [bounds nucs]. apply mapo_Forall2. eapply Forall_impl; [|exact Ho]. intros o H. apply make_ok; auto.
  - destruct (l_groups _ HL) as [_ X]. destruct (bounds L); [congruence|discriminate].
  - exact (l_nuclides _ HL).
Qed.

(** * What a result means *)
Lemma populate_same lib m m' : populateXSec m lib = Ret m' -> zaids m' = zaids m /\ num_density m' = num_density m /\ temperature m' = temperature m.
Proof.
  unfold populateXSec. cbv zeta. destruct (XSec (groups lib)) as [x| | |]; try discriminate. cbn [bind].
  destruct (validateProperties m) as [[]| | |]; try discriminate. cbn [bind].
  destruct (for_ _ _ _ _) as [x'| | |]; try discriminate. cbn [bind]. destruct (validate x') as [w| | |]; try discriminate. cbn [bind].
  intros E. injection E as <-. auto.
Qed.
Lemma weigh_zaids : forall l m m', weigh m l = Ret m' -> zaids m' = zaids m ++ map fst l.
Proof.
  induction l as [|[z w] l IH]; intros m m' E; cbn in E; [injection E as <-; now rewrite app_nil_r|].
  destruct (addNuclideWt m z w) as [m1| | |] eqn:E1; try discriminate. cbn in E. rewrite (IH _ _ E).
  unfold addNuclideWt in E1. destruct (find_mass _ z); try discriminate. unfold addNuclide in E1.
  destruct (z <=? 0)%Z; try discriminate. destruct (Rleb _ 0); try discriminate. destruct (existsb _ _); try discriminate. injection E1 as <-.
  cbn. now rewrite <- app_assoc.
Qed.
Lemma Forall2_weaken {A B} (P Q : A -> B -> Prop) l m : (forall a b, P a b -> Q a b) -> Forall2 P l m -> Forall2 Q l m.
Proof. intros H. induction 1; constructor; auto. Qed.
Lemma materials_any checks junk L count text os ms : sound_library L -> library_text L count text ->
  make_materials checks junk text os = Ret ms ->
  Forall2 (fun o m => (forall z, In z (zaids m) -> exists n, In n (nucs L) /\ zaid n = z) /\ (forall l, o_recipe o = Weights l -> zaids m = map fst l)) os ms.
Proof.
  intros HL HT E. unfold make_materials in E. rewrite (library_any checks L count text junk HL HT) in E.
  destruct (length (nucs L) <=? count)%nat; [|discriminate]. cbn [bind] in E. unfold library_of in E. cbn [bounds nucs] in E.
  apply mapo_Ret2 in E. eapply Forall2_weaken; [|exact E]. intros o m Em. unfold make_material in Em.
  destruct (build o) as [m0| | |] eqn:Eb; try discriminate. cbn [bind] in Em.
  destruct (populate_Ret _ _ _ Em) as (V & Hin). destruct (populate_same _ _ _ Em) as (Z1 & _). rewrite Z1. split.
  - intros z Hz. destruct (Hin z Hz) as (n & Hn & Ez). cbn [nuclides] in Hn. apply in_app_or in Hn. destruct Hn as [Hn|Hn]; [eauto|].
    apply repeat_spec in Hn. subst n. destruct V as (_ & _ & _ & _ & _ & _ & Vz). rewrite Forall_forall in Vz. specialize (Vz z Hz). cbn in Ez. lia.
  - intros l El. unfold build in Eb. rewrite El in Eb. exact (weigh_zaids _ _ _ Eb).
Qed.

(** * The specification determines the numbers *)
Lemma listed_fun L z n n' : listed L z n -> listed L z n' -> n = n'.
Proof.
  intros (b & a & E & Ez & F) (b' & a' & E' & Ez' & F'). rewrite E in E'. clear E. revert b' E' F'.
  induction F as [|k b Hk F IH]; intros [|k' b'] E' F'; cbn in E'; injection E' as E1 E2; auto.
  - subst k'. inversion F'. contradiction.
  - subst k. contradiction.
  - inversion F'; subst. eauto.
Qed.
Lemma strict_le l i j x y : strictly_ascending l -> nth_error l i = Some x -> nth_error l j = Some y -> x <= y -> (i <= j)%nat.
Proof. intros H Hi Hj Hxy. destruct (le_lt_dec i j) as [|N]; [assumption|]. pose proof (H j i y x N Hj Hi). lra. Qed.
Lemma strict_lt l i j x y : strictly_ascending l -> nth_error l i = Some x -> nth_error l j = Some y -> x < y -> (i < j)%nat.
Proof.
  intros H Hi Hj Hxy. destruct (le_lt_dec j i) as [N|]; [|assumption]. destruct (Nat.eq_dec i j) as [->|D]; [rewrite Hi in Hj; injection Hj as ->; lra|].
  pose proof (H j i y x ltac:(lia) Hj Hi). lra.
Qed.
Lemma micro_fun n T r g v v' : strictly_ascending (temps n) -> micro n T r g v -> micro n T r g v' -> v = v'.
Proof.
  intros Hs.
  assert (CH : forall t0 x0 tn xn, nth_error (temps n) 0 = Some t0 -> nth_error (tables n) 0 = Some x0 -> T <= t0 ->
    nth_error (temps n) (length (temps n) - 1) = Some tn -> nth_error (tables n) (length (temps n) - 1) = Some xn -> tn <= T -> x0 = xn).
  { intros t0 x0 tn xn A B C D E F. assert (length (temps n) - 1 <= 0)%nat by (eapply strict_le; eauto; lra).
    replace (length (temps n) - 1)%nat with O in * by lia. congruence. }
  assert (CW : forall t0 x0 i s0 s1 y0 y1, nth_error (temps n) 0 = Some t0 -> nth_error (tables n) 0 = Some x0 -> T <= t0 ->
    bracket n T i s0 s1 y0 y1 -> root_line s0 s1 (value y0 r g) (value y1 r g) T = value x0 r g).
  { intros t0 x0 i s0 s1 y0 y1 A B C (D & E & F & G & H). assert (i <= 0)%nat by (eapply strict_le; eauto; lra). replace i with O in * by lia.
    rewrite A in D. injection D as <-. rewrite B in G. injection G as <-. replace T with t0 by lra. apply root_line_at. }
  assert (HW : forall tn i s0 s1 y0 y1, nth_error (temps n) (length (temps n) - 1) = Some tn -> tn <= T -> bracket n T i s0 s1 y0 y1 -> False).
  { intros tn i s0 s1 y0 y1 A C (D & E & F & _). pose proof (nth_error_lt _ _ _ E). assert (length (temps n) - 1 < S i)%nat by (eapply strict_lt; eauto; lra). lia. }
  intros [t0 x0 A B C|tn xn A B C|i t0 t1 x0 x1 Bk] [t0' x0' A' B' C'|tn' xn' A' B' C'|i' t0' t1' x0' x1' Bk'].
  - congruence.
  - f_equal. eauto.
  - symmetry. eauto.
  - f_equal. symmetry. eauto.
  - congruence.
  - exfalso. eauto.
  - eauto.
  - exfalso. eauto.
  - destruct Bk as (D & E & F & G & H), Bk' as (D' & E' & F' & G' & H').
    assert (i < S i')%nat by (eapply strict_lt; eauto; lra). assert (i' < S i)%nat by (eapply strict_lt; eauto; lra).
    replace i' with i in * by lia. rewrite D in D'. rewrite E in E'. rewrite G in G'. rewrite H in H'. congruence.
Qed.
Lemma mixture_fun L T cs r g v v' : (forall n, In n (nucs L) -> strictly_ascending (temps n)) -> mixture L T cs r g v -> mixture L T cs r g v' -> v = v'.
Proof.
  intros Hs (s & F & ->) (s' & F' & ->). assert (s = s') as ->; [|reflexivity]. revert s' F'. induction F as [|c x cs s (n & Hn & Hm) F IH]; intros s' F'; inversion F' as [|? x' ? s'' (n' & Hn' & Hm') F'']; subst; [reflexivity|].
  f_equal; [|now apply IH]. rewrite (listed_fun _ _ _ _ Hn' Hn) in Hm'. eapply micro_fun; eauto. apply Hs. destruct Hn as (b & a & E & _). rewrite E. apply in_or_app. right. now left.
Qed.
