(** Proofs about number densities. *)
From Coq Require Import List Arith ZArith Bool Reals Lra Lia Permutation.
From Verif Require Import Base Loops Arith Stats_Spec Stats_Proofs StringView_Model Zaid_Model XSec_Model
  XSec_Spec XSec_Proofs Density_Model Density_Spec.
Import ListNotations.
Local Open Scope R_scope.

Lemma avo_pos : 0 < n_avo_barn. Proof. unfold n_avo_barn. lra. Qed.

(** ** The table *)
Fixpoint increasing (l : list Z) : bool :=
  match l with a :: ((b :: _) as l') => (a <? b)%Z && increasing l' | _ => true end.
Lemma increasing_In l : forall a, increasing (a :: l) = true -> forall b, In b l -> (a < b)%Z.
Proof.
  induction l as [|c l IH]; intros a H b Hb; [easy|]. cbn [increasing] in H. apply andb_true_iff in H. destruct H as [H1 H2].
  apply Z.ltb_lt in H1. destruct Hb as [->|Hb]; auto. specialize (IH c H2 b Hb). lia.
Qed.
Lemma increasing_NoDup l : increasing l = true -> NoDup l.
Proof.
  induction l as [|a l IH]; intros H; constructor.
  - intros Hi. pose proof (increasing_In l a H a Hi). lia.
  - apply IH. destruct l; auto. cbn [increasing] in H. now apply andb_true_iff in H.
Qed.
Lemma table_fst : map fst ZAID_ATOMIC_MASS = map fst ZAID_ATOMIC_MASS_table.
Proof. unfold ZAID_ATOMIC_MASS. rewrite map_map. reflexivity. Qed.
Lemma table_NoDup : NoDup (map fst ZAID_ATOMIC_MASS).
Proof. rewrite table_fst. apply increasing_NoDup. vm_compute. reflexivity. Qed.
Lemma table_check (f : Z * Z -> bool) : forallb f ZAID_ATOMIC_MASS_table = true ->
  forall z w, has_mass z w -> exists k, w = IZR k / 100000 /\ f (z, k) = true.
Proof.
  intros H z w Hw. unfold has_mass, ZAID_ATOMIC_MASS in Hw. apply in_map_iff in Hw. destruct Hw as ([z' k] & E & Hi).
  inversion E; subst. exists k. split; auto. rewrite forallb_forall in H. apply (H (z, k) Hi).
Qed.
Lemma mass_pos z w : has_mass z w -> (0 < z)%Z /\ 0 < w.
Proof.
  intros H. destruct (table_check (fun p => (0 <? fst p)%Z && (0 <? snd p)%Z) eq_refl z w H) as (k & -> & E).
  cbn in E. apply andb_true_iff in E. destruct E as [E1 E2]. apply Z.ltb_lt in E1, E2. split; auto.
  apply IZR_lt in E2. lra.
Qed.
Lemma mass_number z w : has_mass z w -> let a := (z mod 1000)%Z in (1 <= a < 300)%Z ->
  ~ In z [1006; 1040; 6001; 8001; 40001]%Z -> Rabs (w - IZR a) <= 11 / 100.
Proof.
  intros H a Ha Hn.
  destruct (table_check (fun p => let a := (fst p mod 1000)%Z in
     (a <? 1)%Z || (300 <=? a)%Z || existsb (Z.eqb (fst p)) [1006; 1040; 6001; 8001; 40001]%Z ||
     (Z.abs (snd p - 100000 * a) <=? 11000)%Z) ltac:(vm_compute; reflexivity) z w H) as (k & -> & E).
  cbn [fst snd] in E. cbv zeta in E. fold a in E. repeat rewrite orb_true_iff in E.
  destruct E as [[[E|E]|E]|E].
  - apply Z.ltb_lt in E. lia.
  - apply Z.leb_le in E. lia.
  - exfalso. apply Hn. apply existsb_exists in E. destruct E as (y & Hy & E). apply Z.eqb_eq in E. now subst.
  - apply Z.leb_le, IZR_le in E. rewrite abs_IZR, minus_IZR, mult_IZR in E.
    replace (IZR k / 100000 - IZR a) with (/ 100000 * (IZR k - 100000 * IZR a)) by lra.
    rewrite Rabs_mult, (Rabs_pos_eq (/ 100000)) by lra. lra.
Qed.
Lemma find_mass_iff l z w : NoDup (map fst l) -> (find_mass l z = Some w <-> In (z, w) l).
Proof.
  induction l as [|[z' w'] l IH]; intros Hn; cbn; [split; easy|]. inversion Hn; subst.
  destruct (Z.eqb_spec z' z) as [->|N].
  - split; [intros E; inversion E; auto|]. intros [E|Hi]; [congruence|]. exfalso. apply H1. apply in_map_iff. exists (z, w). auto.
  - rewrite IH by auto. split; auto. intros [E|]; auto. congruence.
Qed.
Lemma find_mass_ok z w : find_mass ZAID_ATOMIC_MASS z = Some w <-> has_mass z w.
Proof. apply find_mass_iff, table_NoDup. Qed.
Lemma find_mass_none z : find_mass ZAID_ATOMIC_MASS z = None <-> forall w, ~ has_mass z w.
Proof.
  split.
  - intros E w H. apply find_mass_ok in H. congruence.
  - intros H. destruct (find_mass ZAID_ATOMIC_MASS z) as [w|] eqn:E; auto. apply find_mass_ok in E. now apply H in E.
Qed.
Lemma has_mass_fun z w w' : has_mass z w -> has_mass z w' -> w = w'.
Proof. intros H H'. apply find_mass_ok in H, H'. congruence. Qed.

(** ** addNuclide *)
Lemma addNuclide_iff m z n m' : addNuclide m z n = Ret m' <->
  (0 < z)%Z /\ 0 < n /\ ~ In z (zaids m) /\ m' = emplace m z n.
Proof.
  unfold addNuclide. destruct (Z.leb_spec z 0); [split; [discriminate|lia]|].
  destruct (Rleb_spec n 0); [split; [discriminate|lra]|].
  destruct (existsb (fun y => y =? z)%Z (zaids m)) eqn:E.
  - split; [discriminate|]. intros (_ & _ & H1 & _). exfalso. apply H1. apply existsb_exists in E.
    destruct E as (y & Hy & E). apply Z.eqb_eq in E. now subst.
  - split.
    + intros H0. inversion H0; subst. repeat split; auto; try lra. intros Hi.
      assert (existsb (fun y => y =? z)%Z (zaids m) = true); [|congruence]. apply existsb_exists. exists z. split; auto. apply Z.eqb_refl.
    + intros (_ & _ & _ & ->). reflexivity.
Qed.
Lemma addNuclide_ok m z n : (0 < z)%Z -> 0 < n -> ~ In z (zaids m) -> addNuclide m z n = Ret (emplace m z n).
Proof. intros. apply addNuclide_iff. auto. Qed.
Lemma addNuclide_fail m z n : (z <= 0)%Z \/ n <= 0 \/ In z (zaids m) <-> addNuclide m z n = Fail.
Proof.
  split.
  - intros H. destruct (addNuclide m z n) as [m'| | |] eqn:E; auto.
    + apply addNuclide_iff in E. destruct E as (A & B & C & _). destruct H as [H|[H|H]]; [lia|lra|easy].
    + unfold addNuclide in E. repeat match type of E with context [if ?b then _ else _] => destruct b end; discriminate.
    + unfold addNuclide in E. repeat match type of E with context [if ?b then _ else _] => destruct b end; discriminate.
  - intros E. destruct (Z_le_gt_dec z 0); auto. destruct (Rle_dec n 0); auto.
    destruct (in_dec Z.eq_dec z (zaids m)); auto. rewrite addNuclide_ok in E by (auto; lia || lra). discriminate.
Qed.

Lemma combine_app {A B} (l1 l2 : list A) (m1 m2 : list B) : length l1 = length m1 ->
  combine (l1 ++ l2) (m1 ++ m2) = combine l1 m1 ++ combine l2 m2.
Proof. revert m1; induction l1 as [|a l1 IH]; intros [|b m1] H; cbn in *; try discriminate; auto. f_equal. auto. Qed.
Lemma content_emplace m z n : length (num_density m) = length (zaids m) -> content (emplace m z n) = content m ++ [(z, n)].
Proof. intros H. unfold content, emplace; cbn. now rewrite combine_app by auto. Qed.
Lemma wf_emplace m z n : well_formed m -> (0 < z)%Z -> 0 < n -> ~ In z (zaids m) -> well_formed (emplace m z n).
Proof.
  intros (A & B & C & D) Hz Hn Hi. unfold well_formed, emplace; cbn. rewrite !app_length, A. split; auto. split.
  - apply (Permutation_NoDup (l := z :: zaids m)); [apply Permutation_cons_append|]. now constructor.
  - split; apply Forall_app; auto.
Qed.
Lemma add_step m z n m' : well_formed m -> addNuclide m z n = Ret m' ->
  well_formed m' /\ same_but_content m m' /\ content m' = content m ++ [(z, n)] /\ zaids m' = zaids m ++ [z] /\ 0 < n.
Proof.
  intros W E. apply addNuclide_iff in E. destruct E as (A & B & C & ->). split; [now apply wf_emplace|].
  split; [now repeat split|]. split; [|now split]. apply content_emplace, W.
Qed.
Lemma same_trans a b c : same_but_content a b -> same_but_content b c -> same_but_content a c.
Proof. unfold same_but_content. intuition congruence. Qed.
Lemma same_refl a : same_but_content a a. Proof. repeat split. Qed.

Lemma weight_app mass l l' : weight mass (l ++ l') = weight mass l + weight mass l'.
Proof. unfold weight. now rewrite map_app, total_app. Qed.
Lemma weight_one mass z n : weight mass [(z, n)] = n * mass z.
Proof. unfold weight, total; cbn. ring. Qed.
Lemma weight_cons mass z n l : weight mass ((z, n) :: l) = n * mass z + weight mass l.
Proof. reflexivity. Qed.

(** ** addNuclideWt *)
Lemma addWt_step m z w m' : well_formed m -> addNuclideWt m z w = Ret m' ->
  exists mz, has_mass z mz /\ well_formed m' /\ same_but_content m m' /\
  content m' = content m ++ [(z, w * density m * n_avo_barn / mz)] /\ 0 < w * density m * n_avo_barn / mz.
Proof.
  intros W E. unfold addNuclideWt in E. destruct (find_mass ZAID_ATOMIC_MASS z) as [mz|] eqn:Em; [|discriminate].
  apply find_mass_ok in Em. exists mz. destruct (add_step _ _ _ _ W E) as (A & B & C & _ & D). auto.
Qed.
Lemma addWt_ok m z w mz : well_formed m -> has_mass z mz -> ~ In z (zaids m) -> 0 < density m -> 0 < w ->
  exists m', addNuclideWt m z w = Ret m' /\ well_formed m' /\ same_but_content m m' /\ zaids m' = zaids m ++ [z] /\
  exists n, content m' = content m ++ [(z, n)] /\ n * mz = w * density m * avogadro.
Proof.
  intros W Hm Hi Hd Hw. destruct (mass_pos z mz Hm) as [Pz Pm]. pose proof avo_pos.
  assert (Pn : 0 < w * density m * n_avo_barn / mz).
  { apply Rdiv_lt_0_compat; auto. apply Rmult_lt_0_compat; auto. now apply Rmult_lt_0_compat. }
  unfold addNuclideWt. rewrite (proj2 (find_mass_ok z mz) Hm). rewrite addNuclide_ok by auto.
  eexists. split; [reflexivity|]. split; [now apply wf_emplace|]. split; [now repeat split|]. split; auto.
  eexists. split; [apply content_emplace, W|]. unfold avogadro, n_avo_barn. field. lra.
Qed.
Lemma addWt_fail m z w : 0 < density m -> (forall mz, ~ has_mass z mz) \/ w <= 0 \/ In z (zaids m) <-> addNuclideWt m z w = Fail.
Proof.
  intros Hd. pose proof avo_pos. unfold addNuclideWt. destruct (find_mass ZAID_ATOMIC_MASS z) as [mz|] eqn:E.
  - apply find_mass_ok in E. destruct (mass_pos z mz E) as [Pz Pm]. rewrite <- addNuclide_fail.
    assert (Q : 0 < density m * n_avo_barn / mz) by (apply Rdiv_lt_0_compat; auto; now apply Rmult_lt_0_compat).
    replace (w * density m * n_avo_barn / mz) with (w * (density m * n_avo_barn / mz)) by (field; lra).
    split.
    + intros [N|[N|N]]; auto; [now apply N in E|]. right. left. nra.
    + intros [N|[N|N]]; auto; [lia|]. right. left. nra.
  - split; auto. intros _. left. now apply find_mass_none.
Qed.

(** ** addNuclidesAtomPercent *)
Fixpoint mass_sum (ss : list (list char)) (ps : list R) (acc : R) : outcome R :=
  match ss with
  | [] => Ret acc
  | s :: ss' =>
    let* zaid := toZAID s in
    match find_mass ZAID_ATOMIC_MASS zaid with
    | Some w => match ps with p :: ps' => mass_sum ss' ps' (acc + p * w) | [] => Ub end
    | None => Fail
    end
  end.
Fixpoint add_sum (mm : R) (ss : list (list char)) (ps : list R) (m : material) : outcome material :=
  match ss with
  | [] => Ret m
  | s :: ss' =>
    let* zaid := toZAID s in
    match ps with
    | p :: ps' => let* m := addNuclide m zaid (p * density m * n_avo_barn / mm) in add_sum mm ss' ps' m
    | [] => Ub
    end
  end.
Lemma rd_past {A} (l : list A) i : (length l <= i)%nat -> rd l i = Ub.
Proof. intros H. unfold rd. now rewrite (proj2 (nth_error_None l i) H). Qed.
Lemma rd_at {A} (pre : list A) x suf : rd (pre ++ x :: suf) (length pre) = Ret x.
Proof. apply rd_Ret. now rewrite nth_error_app2, Nat.sub_diag by lia. Qed.
Lemma mass_loop symbols percents : for_ (length symbols) 0 (fun i mm =>
    let* s := rd symbols i in
    let* zaid := toZAID s in
    match find_mass ZAID_ATOMIC_MASS zaid with
    | Some w => let* p := rd percents i in Ret (mm + p * w)
    | None => Fail
    end) 0 = mass_sum symbols percents 0.
Proof.
  assert (G : forall ss ps pre pre' acc, symbols = pre ++ ss -> percents = pre' ++ ps -> length pre' = length pre ->
    for_ (length ss) (length pre) (fun i mm =>
    let* s := rd symbols i in
    let* zaid := toZAID s in
    match find_mass ZAID_ATOMIC_MASS zaid with
    | Some w => let* p := rd percents i in Ret (mm + p * w)
    | None => Fail
    end) acc = mass_sum ss ps acc).
  { induction ss as [|s ss IH]; intros ps pre pre' acc E E' L; auto. cbn [length for_ mass_sum].
    rewrite E at 1. rewrite rd_at. cbn [bind]. destruct (toZAID s) as [z| | |]; cbn [bind]; auto.
    destruct (find_mass ZAID_ATOMIC_MASS z) as [w|]; cbn [bind]; auto.
    destruct ps as [|p ps].
    - rewrite rd_past by (rewrite E', app_nil_r; lia). reflexivity.
    - rewrite E' at 1. rewrite <- L, rd_at. cbn [bind]. rewrite L.
      specialize (IH ps (pre ++ [s]) (pre' ++ [p]) (acc + p * w)). rewrite !app_length in IH. cbn in IH. rewrite !Nat.add_1_r in IH.
      apply IH; [now rewrite <- app_assoc|now rewrite <- app_assoc|now rewrite L]. }
  apply (G symbols percents [] []); auto.
Qed.
Lemma add_loop symbols percents mm m0 : for_ (length symbols) 0 (fun i m =>
    let* s := rd symbols i in
    let* zaid := toZAID s in
    let* percent := rd percents i in
    addNuclide m zaid (percent * density m * n_avo_barn / mm)) m0 = add_sum mm symbols percents m0.
Proof.
  assert (G : forall ss ps pre pre' m, symbols = pre ++ ss -> percents = pre' ++ ps -> length pre' = length pre ->
    for_ (length ss) (length pre) (fun i m =>
    let* s := rd symbols i in
    let* zaid := toZAID s in
    let* percent := rd percents i in
    addNuclide m zaid (percent * density m * n_avo_barn / mm)) m = add_sum mm ss ps m).
  { induction ss as [|s ss IH]; intros ps pre pre' m E E' L; auto. cbn [length for_ add_sum].
    rewrite E at 1. rewrite rd_at. cbn [bind]. destruct (toZAID s) as [z| | |]; cbn [bind]; auto.
    destruct ps as [|p ps].
    - rewrite rd_past by (rewrite E', app_nil_r; lia). reflexivity.
    - rewrite E' at 1. rewrite <- L, rd_at. cbn [bind]. rewrite L.
      destruct (addNuclide m z _) as [m'| | |]; cbn [bind]; auto.
      specialize (IH ps (pre ++ [s]) (pre' ++ [p]) m'). rewrite !app_length in IH. cbn in IH. rewrite !Nat.add_1_r in IH.
      apply IH; [now rewrite <- app_assoc|now rewrite <- app_assoc|now rewrite L]. }
  apply (G symbols percents [] []); auto.
Qed.
Lemma atoms_eq m ss ps : addNuclidesAtomPercent m ss ps = let* mm := mass_sum ss ps 0 in add_sum mm ss ps m.
Proof.
  unfold addNuclidesAtomPercent. rewrite mass_loop. destruct (mass_sum ss ps 0); cbn [bind]; auto. apply add_loop.
Qed.

Definition mean_mass (l : list (Z * R * R)) : R := total (map (fun t => snd (fst t) * snd t) l).

Lemma mass_sum_iff : forall ss ps acc mm, mass_sum ss ps acc = Ret mm <-> exists l, triples ss ps l /\ mm = acc + mean_mass l.
Proof.
  induction ss as [|s ss IH]; intros ps acc mm; cbn [mass_sum].
  - split.
    + intros E. inversion E; subst. exists []. unfold mean_mass; cbn. rewrite total_nil. split; [|lra]. split; [constructor|]. now exists ps.
    + intros (l & [H _] & ->). inversion H; subst. unfold mean_mass; cbn. rewrite total_nil. f_equal. lra.
  - destruct (toZAID s) as [z| | |] eqn:Ez; cbn [bind].
    2,3,4: split; [discriminate|]; intros (l & [H _] & _); inversion H as [|? ? ? ? [E _]]; congruence.
    destruct (find_mass ZAID_ATOMIC_MASS z) as [w|] eqn:Ew.
    2:{ split; [discriminate|]. intros (l & [H _] & _); inversion H as [|? t ? ? [E M]]; subst.
        assert (fst (fst t) = z) by congruence. subst z. apply find_mass_none with (w := snd t) in Ew. easy. }
    apply find_mass_ok in Ew. destruct ps as [|p ps].
    { split; [discriminate|]. intros (l & [H (r & E)] & _). inversion H; subst. discriminate. }
    rewrite IH. split.
    + intros (l & [H (r & E)] & ->). exists ((z, p, w) :: l). unfold mean_mass; cbn [map fst snd]. rewrite total_cons. split; [|fold (mean_mass l); lra].
      split; [now constructor|]. exists r. cbn. now rewrite E.
    + intros (l & [H (r & E)] & ->). inversion H as [|? [[z' p'] w'] ? l' [E1 E2] H' EE]; subst. cbn [fst snd map app] in *.
      inversion E; subst. assert (z' = z) by congruence. subst z'. assert (w' = w) by (eapply has_mass_fun; eauto). subst w'.
      exists l'. split; [split; eauto|]. unfold mean_mass; cbn [map fst snd]. rewrite total_cons. lra.
Qed.
Lemma triples_fun ss ps l l' : triples ss ps l -> triples ss ps l' -> l = l'.
Proof.
  revert ps l l'; induction ss as [|s ss IH]; intros ps l l' [H (r & E)] [H' (r' & E')]; inversion H; inversion H'; subst; auto.
  destruct y as [[z p] w], y0 as [[z' p'] w']. cbn [fst snd map app] in *.
  destruct H2 as [A1 A2], H7 as [B1 B2]. assert (z' = z) by congruence. subst. assert (w' = w) by (eapply has_mass_fun; eauto). subst.
  inversion E'; subst. f_equal. apply (IH (map (fun t => snd (fst t)) l'0 ++ r)); split; eauto.
Qed.

Definition added (c : R) (l : list (Z * R * R)) : list (Z * R) := map (fun t => (fst (fst t), snd (fst t) * c)) l.

Lemma add_sum_step mm : forall ss ps m m' l, triples ss ps l -> well_formed m -> add_sum mm ss ps m = Ret m' ->
  well_formed m' /\ same_but_content m m' /\ content m' = content m ++ added (density m * n_avo_barn / mm) l /\
  Forall (fun t => 0 < snd (fst t) * (density m * n_avo_barn / mm)) l.
Proof.
  induction ss as [|s ss IH]; intros ps m m' l [H (r & E)] W A; inversion H as [|? [[z p] w] ? l' [E1 E2] H']; subst; cbn [add_sum] in A.
  - inversion A; subst. split; auto. split; [apply same_refl|]. split; auto. now rewrite app_nil_r.
  - cbn [fst snd map app] in *. rewrite E1 in A. cbn [bind] in A.
    destruct (addNuclide m z (p * density m * n_avo_barn / mm)) as [m1| | |] eqn:E3; try discriminate. cbn [bind] in A.
    destruct (add_step _ _ _ _ W E3) as (W1 & S1 & C1 & _ & P1).
    destruct (IH _ m1 m' l' (conj H' (ex_intro _ r eq_refl)) W1 A) as (W2 & S2 & C2 & P2).
    assert (D : density m1 = density m) by apply S1. rewrite D in *.
    assert (EQ : p * density m * n_avo_barn / mm = p * (density m * n_avo_barn / mm)) by (unfold Rdiv; ring). rewrite EQ in *.
    split; auto. split; [eapply same_trans; eauto|]. split.
    + rewrite C2, C1, <- app_assoc. reflexivity.
    + constructor; auto.
Qed.
Lemma add_sum_ok mm : forall ss ps m l, triples ss ps l -> well_formed m ->
  Forall (fun t => 0 < snd (fst t) * (density m * n_avo_barn / mm)) l ->
  NoDup (zaids m ++ map (fun t => fst (fst t)) l) -> exists m', add_sum mm ss ps m = Ret m'.
Proof.
  induction ss as [|s ss IH]; intros ps m l [H (r & E)] W A N; inversion H as [|? [[z p] w] ? l' [E1 E2] H']; subst; cbn [add_sum]; eauto.
  cbn [fst snd map app] in *. rewrite E1. cbn [bind]. inversion A as [|? ? P P']; subst. cbn [fst snd] in P.
  destruct (mass_pos z w E2) as [Pz Pw].
  assert (Hz : ~ In z (zaids m)). { intros Hi. apply NoDup_remove_2 in N. apply N, in_or_app. now left. }
  assert (EQ : p * density m * n_avo_barn / mm = p * (density m * n_avo_barn / mm)) by (unfold Rdiv; ring). rewrite EQ.
  rewrite addNuclide_ok by auto. cbn [bind].
  apply (IH _ _ l').
  - split; eauto.
  - now apply wf_emplace.
  - exact P'.
  - cbn [emplace zaids]. now rewrite <- app_assoc.
Qed.

Lemma weight_added mass c l : Forall (fun t => mass (fst (fst t)) = snd t) l -> weight mass (added c l) = mean_mass l * c.
Proof.
  intros H. unfold weight, added, mean_mass. rewrite map_map. cbn [fst snd]. rewrite Rmult_comm, <- total_map_scal.
  apply total_map_ext. intros t Ht. rewrite Forall_forall in H. rewrite (H t Ht). ring.
Qed.
Lemma triples_mass ss ps l : triples ss ps l -> Forall (fun t => has_mass (fst (fst t)) (snd t)) l.
Proof. intros [H _]. induction H as [|s t ss l [_ M] H IH]; constructor; auto. Qed.
Lemma mean_mass_pos l c : l <> [] -> Forall (fun t => has_mass (fst (fst t)) (snd t)) l ->
  Forall (fun t => 0 < snd (fst t) * c) l -> 0 < mean_mass l * c.
Proof.
  unfold mean_mass. induction l as [|t l IH]; intros Hn H P; [congruence|]. inversion H; inversion P; subst.
  destruct (mass_pos _ _ H2) as [_ Pm]. cbn [map]. rewrite total_cons.
  assert (0 < snd (fst t) * snd t * c) by (replace (snd (fst t) * snd t * c) with (snd (fst t) * c * snd t) by ring; now apply Rmult_lt_0_compat).
  destruct l as [|t' l].
  - cbn [map]. rewrite total_nil. lra.
  - specialize (IH ltac:(discriminate) H3 H7). lra.
Qed.

(** any successful call *)
Lemma atoms_step mass m ss ps m' : (forall z w, has_mass z w -> mass z = w) -> well_formed m -> density m <> 0 ->
  addNuclidesAtomPercent m ss ps = Ret m' -> well_formed m' /\ same_but_content m m' /\
  weight mass (content m') = weight mass (content m) + (match ss with [] => 0 | _ => 1 end) * (density m * n_avo_barn).
Proof.
  intros HM W Hd E. rewrite atoms_eq in E. destruct (mass_sum ss ps 0) as [mm| | |] eqn:Em; try discriminate. cbn [bind] in E.
  apply mass_sum_iff in Em. destruct Em as (l & T & ->). rewrite Rplus_0_l in E.
  destruct (add_sum_step _ _ _ _ _ l T W E) as (W' & S' & C' & P'). split; auto. split; auto.
  rewrite C', weight_app. f_equal. pose proof (triples_mass _ _ _ T) as Tm.
  rewrite weight_added.
  2:{ eapply Forall_impl; [|exact Tm]. intros t Ht. now apply HM. }
  destruct ss as [|s ss].
  - destruct T as [T _]. inversion T; subst. unfold mean_mass; cbn. rewrite total_nil. ring.
  - assert (l <> []) by (destruct T as [T _]; inversion T; discriminate).
    pose proof (mean_mass_pos l _ H Tm P') as Q.
    assert (mean_mass l <> 0) by (intros Z; rewrite Z in Q; lra). field. auto.
Qed.
(** a call with good arguments *)
Lemma atoms_ok m ss ps l : well_formed m -> 0 < density m -> triples ss ps l -> ss <> [] ->
  Forall (fun t => 0 < snd (fst t)) l -> NoDup (zaids m ++ map (fun t => fst (fst t)) l) ->
  exists m', addNuclidesAtomPercent m ss ps = Ret m' /\ well_formed m' /\ same_but_content m m' /\
    exists c, 0 < c /\ content m' = content m ++ map (fun t => (fst (fst t), snd (fst t) * c)) l /\
      total (map (fun t => snd (fst t) * c * snd t) l) = density m * avogadro.
Proof.
  intros W Hd T Hs Hp Hn. rewrite atoms_eq. rewrite (proj2 (mass_sum_iff ss ps 0 (0 + mean_mass l))) by eauto. cbn [bind].
  rewrite Rplus_0_l. pose proof (triples_mass _ _ _ T) as Tm.
  assert (l <> []). { destruct T as [T _]. destruct ss; [congruence|]. inversion T; discriminate. }
  assert (Q : 0 < mean_mass l * 1). { apply mean_mass_pos; auto. eapply Forall_impl; [|exact Hp]. cbn. intros; lra. }
  rewrite Rmult_1_r in Q. pose proof avo_pos.
  set (c := density m * n_avo_barn / mean_mass l).
  assert (Pc : 0 < c) by (apply Rdiv_lt_0_compat; auto; now apply Rmult_lt_0_compat).
  assert (PP : Forall (fun t => 0 < snd (fst t) * c) l).
  { eapply Forall_impl; [|exact Hp]. cbn. intros t Ht. now apply Rmult_lt_0_compat. }
  destruct (add_sum_ok (mean_mass l) ss ps m l T W PP Hn) as (m' & E). rewrite E.
  exists m'. split; auto. destruct (add_sum_step _ _ _ _ _ l T W E) as (W' & S' & C' & _). split; auto. split; auto.
  exists c. split; auto. split; [exact C'|].
  rewrite (total_map_ext _ (fun t => c * (snd (fst t) * snd t))) by (intros; ring). rewrite total_map_scal.
  fold (mean_mass l). unfold c, avogadro, n_avo_barn. field. lra.
Qed.
Lemma atoms_zero m ss ps l : well_formed m -> triples ss ps l -> (exists t, In t l /\ snd (fst t) = 0) ->
  forall m', addNuclidesAtomPercent m ss ps <> Ret m'.
Proof.
  intros W T (t & Ht & Z) m' E. rewrite atoms_eq in E. destruct (mass_sum ss ps 0) as [mm| | |] eqn:Em; try discriminate. cbn [bind] in E.
  destruct (add_sum_step _ _ _ _ _ l T W E) as (_ & _ & _ & P). rewrite Forall_forall in P. specialize (P t Ht). rewrite Z in P. lra.
Qed.

(** ** Histories *)
Lemma avogadro_eq : avogadro = n_avo_barn. Proof. reflexivity. Qed.
Lemma history mass l : (forall z w, has_mass z w -> mass z = w) -> forall m m', well_formed m -> 0 < density m ->
  add_all m l = Ret m' -> well_formed m' /\ same_but_content m m' /\
  (exists new, content m' = content m ++ new) /\
  weight mass (content m') = weight mass (content m) + total (map (fraction mass m) l) * density m * avogadro.
Proof.
  intros HM. rewrite avogadro_eq. pose proof avo_pos as Pa.
  induction l as [|a l IH]; intros m m' W Hd E; cbn [add_all] in E.
  - inversion E; subst. split; auto. split; [apply same_refl|]. split; [exists []; now rewrite app_nil_r|].
    cbn [map]. rewrite total_nil. ring.
  - destruct (add m a) as [m1| | |] eqn:Ea; try discriminate. cbn [bind] in E.
    assert (G : well_formed m1 /\ same_but_content m m1 /\ (exists new, content m1 = content m ++ new) /\
      weight mass (content m1) = weight mass (content m) + fraction mass m a * density m * n_avo_barn).
    { destruct a as [z n|z w|ss ps]; cbn [add fraction] in *.
      - destruct (add_step _ _ _ _ W Ea) as (A & B & C & _). split; auto. split; auto. split; eauto.
        rewrite C, weight_app, weight_one, avogadro_eq. field. lra.
      - destruct (addWt_step _ _ _ _ W Ea) as (mz & Hm & A & B & C & _). split; auto. split; auto. split; eauto.
        rewrite C, weight_app, weight_one, (HM z mz Hm). destruct (mass_pos z mz Hm). field. lra.
      - pose proof Ea as Ea'. rewrite atoms_eq in Ea'. destruct (mass_sum ss ps 0) as [mm| | |] eqn:Em; try discriminate. cbn [bind] in Ea'.
        apply mass_sum_iff in Em. destruct Em as (t & T & ->).
        destruct (add_sum_step _ _ _ _ _ t T W Ea') as (_ & _ & C' & _).
        destruct (atoms_step mass _ _ _ _ HM W ltac:(lra) Ea) as (A & B & C). split; auto. split; auto. split; eauto.
        rewrite C. destruct ss; ring. }
    destruct G as (W1 & S1 & (n1 & C1) & X1). assert (D1 : density m1 = density m) by apply S1.
    destruct (IH m1 m' W1 ltac:(lra) E) as (W2 & S2 & (n2 & C2) & X2). split; auto. split; [eapply same_trans; eauto|].
    split; [exists (n1 ++ n2); now rewrite C2, C1, app_assoc|].
    cbn [map]. rewrite total_cons, X2, X1, D1.
    rewrite (map_ext (fraction mass m1) (fraction mass m)); [ring|]. intros [z n|z w|ss ps]; cbn; auto. now rewrite D1.
Qed.
(** additions that commute: any order of weight additions gives the same densities *)
Lemma weights_all : forall l m, well_formed m -> 0 < density m ->
  Forall (fun t => has_mass (fst (fst t)) (snd t) /\ 0 < snd (fst t)) l -> NoDup (zaids m ++ map (fun t => fst (fst t)) l) ->
  exists m', add_all m (map (fun t => ByWeight (fst (fst t)) (snd (fst t))) l) = Ret m' /\ well_formed m' /\ same_but_content m m' /\
    content m' = content m ++ map (fun t => (fst (fst t), snd (fst t) * density m * avogadro / snd t)) l.
Proof.
  induction l as [|[[z w] mz] l IH]; intros m W Hd F N; cbn [map add_all fst snd].
  - exists m. split; auto. split; auto. split; [apply same_refl|now rewrite app_nil_r].
  - inversion F as [|? ? [A1 A2] F']; subst. cbn [fst snd map] in *.
    assert (Hz : ~ In z (zaids m)). { intros Hi. apply NoDup_remove_2 in N. apply N, in_or_app. now left. }
    destruct (addWt_ok m z w mz W A1 Hz Hd A2) as (m1 & E1 & W1 & S1 & Z1 & n & C1 & X1).
    cbn [add]. rewrite E1. cbn [bind]. assert (D1 : density m1 = density m) by apply S1.
    destruct (IH m1 W1 ltac:(lra) F') as (m' & E' & W' & S' & C').
    + rewrite Z1, <- app_assoc. exact N.
    + exists m'. split; auto. split; auto. split; [eapply same_trans; eauto|]. rewrite C', C1, D1, <- app_assoc. cbn [app].
      do 3 f_equal. destruct (mass_pos z mz A1). rewrite <- X1. field. lra.
Qed.
Lemma addNuclide_full m z n : well_formed m -> (0 < z)%Z -> 0 < n -> ~ In z (zaids m) ->
  exists m', addNuclide m z n = Ret m' /\ well_formed m' /\ same_but_content m m' /\ content m' = content m ++ [(z, n)].
Proof.
  intros W A B C. pose proof (addNuclide_ok m z n A B C) as E. eexists. split; [exact E|].
  destruct (add_step _ _ _ _ W E) as (W' & S' & C' & _). auto.
Qed.
Lemma weights_order l l' m m' : well_formed m -> 0 < density m ->
  Forall (fun t => has_mass (fst (fst t)) (snd t) /\ 0 < snd (fst t)) l -> NoDup (zaids m ++ map (fun t => fst (fst t)) l) ->
  Permutation l l' ->
  add_all m (map (fun t => ByWeight (fst (fst t)) (snd (fst t))) l) = Ret m' ->
  exists m'', add_all m (map (fun t => ByWeight (fst (fst t)) (snd (fst t))) l') = Ret m'' /\
    Permutation (content m') (content m'').
Proof.
  intros W D F N P E. destruct (weights_all l m W D F N) as (m1 & E1 & _ & _ & C1).
  destruct (weights_all l' m W D) as (m2 & E2 & _ & _ & C2).
  - eapply Permutation_Forall; eauto.
  - eapply Permutation_NoDup; [|exact N]. now apply Permutation_app_head, Permutation_map.
  - assert (m' = m1) by congruence. subst. exists m2. split; auto. rewrite C1, C2. now apply Permutation_app_head, Permutation_map.
Qed.
