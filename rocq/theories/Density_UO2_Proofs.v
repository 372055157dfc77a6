(** Proofs about setUO2. *)
From Coq Require Import List Arith ZArith Bool Reals Lra Lia Permutation.
From Verif Require Import StringView_Spec Zaid_Spec Zaid_Proofs Base Loops Arith Stats_Spec Stats_Proofs StringView_Model Zaid_Model XSec_Model
  XSec_Spec XSec_Proofs Density_Model Density_Spec Density_Proofs.
Import ListNotations.
Local Open Scope R_scope.

(** ** Adding one nuclide after another *)
Fixpoint chain (m : material) (l : list (Z * R)) : outcome material :=
  match l with [] => Ret m | (z, n) :: l' => let* m := addNuclide m z n in chain m l' end.
Lemma chain_ok : forall l m, well_formed m -> Forall (fun p => (0 < fst p)%Z /\ 0 < snd p) l ->
  NoDup (zaids m ++ map fst l) -> exists m', chain m l = Ret m' /\ well_formed m' /\ same_but_content m m' /\
  content m' = content m ++ l.
Proof.
  induction l as [|[z n] l IH]; intros m W F N; cbn [chain].
  - exists m. rewrite app_nil_r. split; auto. split; auto. split; auto. apply same_refl.
  - inversion F as [|? ? [A B] F']; subst. cbn [map fst snd] in *.
    assert (Hz : ~ In z (zaids m)). { intros Hi. apply NoDup_remove_2 in N. apply N, in_or_app. now left. }
    rewrite addNuclide_ok by auto. cbn [bind].
    destruct (IH (emplace m z n)) as (m' & E & W' & S' & C'); auto.
    + now apply wf_emplace.
    + cbn. now rewrite <- app_assoc.
    + exists m'. split; auto. split; auto. split; [eapply same_trans; [|exact S']; now repeat split|].
      rewrite C', content_emplace by apply W. now rewrite <- app_assoc.
Qed.
Lemma chain_app l l' m : chain m (l ++ l') = let* m1 := chain m l in chain m1 l'.
Proof.
  revert m; induction l as [|[z n] l IH]; intros m; cbn [chain app bind]; auto.
  destruct (addNuclide m z n) as [m1| | |]; cbn [bind]; auto.
Qed.
Lemma chain_fail : forall l m, (exists p, In p l /\ ((fst p <= 0)%Z \/ snd p <= 0)) -> chain m l = Fail.
Proof.
  induction l as [|[z n] l IH]; intros m (p & Hp & H); [easy|]. cbn [chain].
  destruct (addNuclide m z n) as [m1| | |] eqn:E; cbn [bind]; auto.
  - apply IH. destruct Hp as [<-|Hp]; [|eauto]. apply addNuclide_iff in E. cbn in H. lia || (destruct E as (A & B & _); destruct H; [lia|lra]).
  - unfold addNuclide in E. repeat match type of E with context [if ?b then _ else _] => destruct b end; discriminate.
  - unfold addNuclide in E. repeat match type of E with context [if ?b then _ else _] => destruct b end; discriminate.
Qed.
Lemma chain_dup : forall l m, (exists p, In p l /\ In (fst p) (zaids m)) -> chain m l = Fail.
Proof.
  induction l as [|[z n] l IH]; intros m (p & Hp & H); [easy|]. cbn [chain].
  destruct (addNuclide m z n) as [m1| | |] eqn:E; cbn [bind]; auto.
  - apply addNuclide_iff in E. destruct E as (_ & _ & N & ->). destruct Hp as [<-|Hp]; [easy|].
    apply IH. exists p. split; auto. cbn. apply in_or_app. now left.
  - unfold addNuclide in E. repeat match type of E with context [if ?b then _ else _] => destruct b end; discriminate.
  - unfold addNuclide in E. repeat match type of E with context [if ?b then _ else _] => destruct b end; discriminate.
Qed.

(** ** The numbers *)
Definition w4 w := 89 / 10000 * w.
Definition w6 w := 46 / 10000 * w.
Definition w8 w := 1 - (w4 w + w + w6 w).
Definition denom w := w4 w / m_u234 + w / m_u235 + w6 w / m_u236 + w8 w / m_u238.
Definition n_u w g rho := (1 - g) * rho * n_avo_barn / (1 / denom w + 2 * m_o16).
Definition m_gd : R := ab_gd152 * m_gd152 + ab_gd154 * m_gd154 + ab_gd155 * m_gd155 + ab_gd156 * m_gd156 +
    ab_gd157 * m_gd157 + ab_gd158 * m_gd158 + ab_gd160 * m_gd160.
Definition n_gad g rho := g * rho * n_avo_barn / (2 * m_gd + 3 * m_o16).
Definition u_list w nu : list (Z * R) :=
  [(92234%Z, w4 w / m_u234 / denom w * nu); (92235%Z, w / m_u235 / denom w * nu);
   (92236%Z, w6 w / m_u236 / denom w * nu); (92238%Z, w8 w / m_u238 / denom w * nu)].
Definition gd_list n : list (Z * R) :=
  [(64152%Z, ab_gd152 * n); (64154%Z, ab_gd154 * n); (64155%Z, ab_gd155 * n); (64156%Z, ab_gd156 * n);
   (64157%Z, ab_gd157 * n); (64158%Z, ab_gd158 * n); (64160%Z, ab_gd160 * n)].
Definition uo2_list w g rho : list (Z * R) :=
  u_list w (n_u w g rho) ++ (if Rltb 0 (2 * n_gad g rho) then gd_list (2 * n_gad g rho) else []) ++
  [(8016%Z, 2 * n_u w g rho + 3 * n_gad g rho)].

Lemma chain_cons m z n l : chain m ((z, n) :: l) = let* m := addNuclide m z n in chain m l.
Proof. reflexivity. Qed.
Lemma chain_last m z n : chain m [(z, n)] = addNuclide m z n.
Proof. cbn [chain]. destruct (addNuclide m z n); reflexivity. Qed.
Lemma density_add m z n m' : addNuclide m z n = Ret m' -> density m' = density m.
Proof. intros E. apply addNuclide_iff in E. destruct E as (_ & _ & _ & ->). reflexivity. Qed.
Lemma setUO2_chain m w g : setUO2 m w g = chain m (uo2_list w g (density m)).
Proof.
  unfold setUO2. cbv zeta. unfold uo2_list, u_list. cbn [app].
  rewrite !chain_cons. fold (w4 w) (w6 w). fold (w8 w).
  replace (w / m_u235 + w4 w / m_u234 + w6 w / m_u236 + w8 w / m_u238) with (denom w) by (unfold denom; ring).
  fold (denom w). fold (n_u w g (density m)).
  destruct (addNuclide m 92234 _) as [m1| | |] eqn:E1; cbn [bind]; auto. rewrite chain_cons.
  destruct (addNuclide m1 92235 _) as [m2| | |] eqn:E2; cbn [bind]; auto. rewrite chain_cons.
  destruct (addNuclide m2 92236 _) as [m3| | |] eqn:E3; cbn [bind]; auto. rewrite chain_cons.
  destruct (addNuclide m3 92238 _) as [m4| | |] eqn:E4; cbn [bind]; auto.
  apply density_add in E1, E2, E3, E4. rewrite E4, E3, E2, E1. clear E1 E2 E3 E4.
  fold m_gd. fold (n_gad g (density m)). rewrite chain_app.
  destruct (Rltb 0 (2 * n_gad g (density m))).
  - unfold gd_list. rewrite !chain_cons.
    repeat (match goal with |- context [bind (addNuclide ?a ?b ?c) _] => destruct (addNuclide a b c) as [?| | |] end; cbn [bind]; auto; rewrite ?chain_cons).
    cbn [chain bind]. match goal with |- ?x = _ => destruct x; reflexivity end.
  - cbn [chain bind]. destruct (addNuclide m4 8016 _); reflexivity.
Qed.

Lemma denom_pos w : 0 < w -> 10135 * w < 10000 -> 0 < denom w.
Proof.
  intros H1 H2. unfold denom, w8, w4, w6, m_u234, m_u235, m_u236, m_u238.
  assert (0 < 1 - (89 / 10000 * w + w + 46 / 10000 * w)) by lra.
  set (d := 1 - (89 / 10000 * w + w + 46 / 10000 * w)) in *. lra.
Qed.
Lemma mo_pos : 0 < m_o16. Proof. unfold m_o16. lra. Qed.
Lemma mgd_pos : 0 < m_gd.
Proof.
  unfold m_gd, ab_gd152, ab_gd154, ab_gd155, ab_gd156, ab_gd157, ab_gd158, ab_gd160,
    m_gd152, m_gd154, m_gd155, m_gd156, m_gd157, m_gd158, m_gd160. lra.
Qed.
Lemma n_u_pos w g rho : good w g -> 0 < rho -> 0 < n_u w g rho.
Proof.
  intros (A & B & C) Hr. pose proof (denom_pos w A B). pose proof mo_pos. pose proof avo_pos. unfold n_u.
  assert (0 < 1 / denom w) by (apply Rdiv_lt_0_compat; lra). apply Rdiv_lt_0_compat; [|lra].
  apply Rmult_lt_0_compat; auto. apply Rmult_lt_0_compat; lra.
Qed.
Lemma n_gad_pos g rho : 0 <= g -> 0 < rho -> 0 <= n_gad g rho /\ (0 < g -> 0 < n_gad g rho).
Proof.
  intros Hg Hr. pose proof mo_pos. pose proof mgd_pos. pose proof avo_pos. unfold n_gad.
  assert (P : 0 < / (2 * m_gd + 3 * m_o16)) by (apply Rinv_0_lt_compat; lra).
  assert (Q : 0 < rho * n_avo_barn) by now apply Rmult_lt_0_compat.
  assert (0 < rho * n_avo_barn * / (2 * m_gd + 3 * m_o16)) by now apply Rmult_lt_0_compat.
  replace (g * rho * n_avo_barn / (2 * m_gd + 3 * m_o16)) with (g * (rho * n_avo_barn * / (2 * m_gd + 3 * m_o16))) by (unfold Rdiv; ring).
  split; [apply Rmult_le_pos; lra|]. intros. apply Rmult_lt_0_compat; auto.
Qed.
Lemma n_gad_zero rho : n_gad 0 rho = 0. Proof. unfold n_gad, Rdiv. ring. Qed.

Lemma u_list_pos w nu : 0 < w -> 10135 * w < 10000 -> 0 < nu -> Forall (fun p => (0 < fst p)%Z /\ 0 < snd p) (u_list w nu).
Proof.
  intros A B C. pose proof (denom_pos w A B).
  assert (G : forall x y, 0 < x -> 0 < y -> 0 < x / y / denom w * nu).
  { intros x y Hx Hy. apply Rmult_lt_0_compat; auto. apply Rdiv_lt_0_compat; auto. now apply Rdiv_lt_0_compat. }
  unfold u_list. repeat constructor; cbn [fst snd]; try lia; apply G; unfold w8, w4, w6, m_u234, m_u235, m_u236, m_u238; lra.
Qed.
Lemma gd_list_pos n : 0 < n -> Forall (fun p => (0 < fst p)%Z /\ 0 < snd p) (gd_list n).
Proof.
  intros H. unfold gd_list, ab_gd152, ab_gd154, ab_gd155, ab_gd156, ab_gd157, ab_gd158, ab_gd160.
  repeat constructor; cbn [fst snd]; lia || lra.
Qed.

(** the uranium, the gadolinium and the oxygen of the list *)
Lemma split_list w g rho u gd o : (u = u_list w (n_u w g rho)) ->
  gd = (if Rltb 0 (2 * n_gad g rho) then gd_list (2 * n_gad g rho) else []) -> o = 2 * n_u w g rho + 3 * n_gad g rho ->
  uo2_list w g rho = u ++ gd ++ [(8016%Z, o)] /\
  of_element 92 (uo2_list w g rho) = u /\ of_element 64 (uo2_list w g rho) = gd /\ of_element 8 (uo2_list w g rho) = [(8016%Z, o)].
Proof. intros -> -> ->. split; auto. unfold uo2_list. destruct (Rltb 0 (2 * n_gad g rho)); repeat split; reflexivity. Qed.

Lemma weight_gd n : weight uo2_mass (gd_list n) = n * m_gd.
Proof.
  unfold weight, gd_list, total, m_gd, m_gd152, m_gd154, m_gd155, m_gd156, m_gd157, m_gd158, m_gd160. cbn [map fst snd fold_right uo2_mass]. ring.
Qed.
Lemma atoms_gd n : atoms (gd_list n) = n.
Proof.
  unfold atoms, gd_list, total, ab_gd152, ab_gd154, ab_gd155, ab_gd156, ab_gd157, ab_gd158, ab_gd160. cbn [map fst snd fold_right]. lra.
Qed.
Lemma weight_u w nu : 0 < denom w -> weight uo2_mass (u_list w nu) = nu / denom w.
Proof.
  intros H. unfold weight, u_list, total. cbn [map fst snd fold_right uo2_mass].
  fold m_u234 m_u235 m_u236 m_u238.
  replace (nu / denom w) with ((w4 w + w + w6 w + w8 w) * nu / denom w) by (unfold w8; field; lra).
  assert (m_u234 <> 0) by (unfold m_u234; lra). assert (m_u235 <> 0) by (unfold m_u235; lra).
  assert (m_u236 <> 0) by (unfold m_u236; lra). assert (m_u238 <> 0) by (unfold m_u238; lra).
  field. lra.
Qed.
Lemma atoms_u w nu : 0 < denom w -> atoms (u_list w nu) = nu.
Proof.
  intros H. unfold atoms, u_list, total. cbn [map fst snd fold_right].
  replace nu with (denom w / denom w * nu) at 5 by (field; lra). unfold denom at 5. unfold Rdiv. ring.
Qed.

Lemma uo2_props w g rho : good w g -> 0 < rho -> let l := uo2_list w g rho in
  Forall (fun p => (0 < fst p)%Z /\ 0 < snd p) l /\
  map fst l = filter (fun z => (if Rltb 0 g then true else negb (z / 1000 =? 64)%Z)) uo2_nuclides /\
  weight uo2_mass l = rho * avogadro /\
  atoms (of_element 8 l) = 2 * atoms (of_element 92 l) + 3 / 2 * atoms (of_element 64 l) /\
  (forall z k, In (z, k) [(92234%Z, 89 / 10000); (92235%Z, 1); (92236%Z, 46 / 10000)] ->
     nd z l * uo2_mass z = k * w * weight uo2_mass (of_element 92 l)) /\
  (forall z k, In (z, k) gd_abundance -> nd z l = IZR k / 10000 * atoms (of_element 64 l)) /\
  weight uo2_mass (of_element 64 l) + 3 / 2 * atoms (of_element 64 l) * uo2_mass 8016 = g * rho * avogadro.
Proof.
  intros Hg Hr l. pose proof Hg as (A & B & C & D). pose proof (denom_pos w A B) as Pd.
  pose proof (n_u_pos w g rho Hg Hr) as Pu. destruct (n_gad_pos g rho C Hr) as [Pg0 Pg].
  pose proof mo_pos as Po. pose proof mgd_pos as Pm.
  assert (Em : uo2_mass 8016 = m_o16) by reflexivity.
  assert (Xu : n_u w g rho / denom w + 2 * n_u w g rho * m_o16 = (1 - g) * rho * avogadro).
  { unfold n_u. rewrite avogadro_eq. assert (0 < 1 / denom w) by (apply Rdiv_lt_0_compat; lra).
    replace (1 / denom w + 2 * m_o16) with ((1 + 2 * m_o16 * denom w) / denom w) by (field; lra). 
    assert (0 < m_o16 * denom w) by now apply Rmult_lt_0_compat. field. split; lra. }
  assert (Xg : 2 * n_gad g rho * m_gd + 3 * n_gad g rho * m_o16 = g * rho * avogadro).
  { unfold n_gad. rewrite avogadro_eq. field. lra. }
  set (gd := if Rltb 0 (2 * n_gad g rho) then gd_list (2 * n_gad g rho) else []).
  destruct (split_list w g rho _ gd _ eq_refl eq_refl eq_refl) as (El & E92 & E64 & E8). fold l in El, E92, E64, E8.
  assert (Wg : weight uo2_mass gd = 2 * n_gad g rho * m_gd /\ atoms gd = 2 * n_gad g rho).
  { unfold gd. destruct (Rltb_spec 0 (2 * n_gad g rho)); [split; [apply weight_gd|apply atoms_gd]|].
    assert (Z : n_gad g rho = 0) by lra. rewrite Z. unfold weight, atoms, total; cbn. lra. }
  destruct Wg as [Wg Ag].
  assert (Wu : weight uo2_mass (u_list w (n_u w g rho)) = n_u w g rho / denom w) by now apply weight_u.
  assert (Au : atoms (u_list w (n_u w g rho)) = n_u w g rho) by now apply atoms_u.
  assert (Gg : Rltb 0 (2 * n_gad g rho) = Rltb 0 g).
  { destruct (Rltb_spec 0 g), (Rltb_spec 0 (2 * n_gad g rho)); auto; exfalso.
    - specialize (Pg r). lra.
    - assert (g = 0) by lra. subst g. rewrite n_gad_zero in r. lra. }
  rewrite E92, E64, E8, Wu, Au, Ag, Wg, Em. split; [|split; [|split; [|split; [|split; [|split]]]]].
  - rewrite El. apply Forall_app. split; [now apply u_list_pos|]. apply Forall_app. split.
    + unfold gd. destruct (Rltb_spec 0 (2 * n_gad g rho)); [now apply gd_list_pos|constructor].
    + constructor; [|constructor]. cbn. split; [lia|lra].
  - rewrite El. unfold gd. rewrite Gg. destruct (Rltb 0 g); reflexivity.
  - rewrite El, !weight_app, Wu, Wg, weight_one, Em. lra.
  - unfold atoms, total; cbn. lra.
  - intros z k Hk. rewrite El.
    assert (m_u234 <> 0) by (unfold m_u234; lra). assert (m_u235 <> 0) by (unfold m_u235; lra).
    assert (m_u236 <> 0) by (unfold m_u236; lra).
    assert (N : forall z, (z / 1000 =? 92)%Z = true -> nd z (u_list w (n_u w g rho) ++ gd ++ [(8016%Z, 2 * n_u w g rho + 3 * n_gad g rho)]) =
       nd z (u_list w (n_u w g rho))).
    { intros y Hy. unfold nd. rewrite map_app, total_app. rewrite <- (Rplus_0_r (total (map _ (u_list _ _)))) at 2. f_equal.
      assert (Q : forall p, In p (gd ++ [(8016%Z, 2 * n_u w g rho + 3 * n_gad g rho)]) -> (fst p =? y)%Z = false).
      { intros p Hp. apply in_app_or in Hp. destruct Hp as [Hp|[<-|[]]].
        - unfold gd in Hp. destruct (Rltb 0 (2 * n_gad g rho)); [|easy].
          repeat (destruct Hp as [<-|Hp]; [cbn [fst]; apply Z.eqb_neq; intros <-; discriminate|]). easy.
        - cbn [fst]. apply Z.eqb_neq. intros <-. discriminate. }
      rewrite (total_map_ext _ (fun _ => 0)), total_map_zero; auto. intros p Hp. now rewrite (Q p Hp). }
    destruct Hk as [E|[E|[E|[]]]]; inversion E; subst z k; rewrite N by reflexivity; unfold nd, u_list, total; cbn [map fst snd fold_right Z.eqb Pos.eqb uo2_mass];
    fold m_u234 m_u235 m_u236.
    + fold (w4 w). field. lra.
    + field. lra.
    + fold (w6 w). field. lra.
  - intros z k Hk. rewrite El.
    assert (N : nd z (u_list w (n_u w g rho) ++ gd ++ [(8016%Z, 2 * n_u w g rho + 3 * n_gad g rho)]) = nd z gd).
    { assert (Hz : (z / 1000 =? 64)%Z = true) by (repeat (destruct Hk as [E|Hk]; [inversion E; subst; reflexivity|]); easy).
      unfold nd. rewrite !map_app, !total_app.
      assert (Q : forall p, In p (u_list w (n_u w g rho) ++ [(8016%Z, 2 * n_u w g rho + 3 * n_gad g rho)]) -> (fst p =? z)%Z = false).
      { intros p Hp. cbn in Hp. repeat (destruct Hp as [<-|Hp]; [cbn [fst]; apply Z.eqb_neq; intros <-; discriminate|]). easy. }
      rewrite (total_map_ext _ (fun _ => 0) (u_list _ _)), total_map_zero by (intros p Hp; rewrite Q; auto; apply in_or_app; now left).
      rewrite (total_map_ext _ (fun _ => 0) [_]), total_map_zero by (intros p Hp; rewrite Q; auto; apply in_or_app; now right). ring. }
    rewrite N. unfold gd. destruct (Rltb_spec 0 (2 * n_gad g rho)).
    + repeat (destruct Hk as [E|Hk]; [inversion E; subst z k; unfold nd, gd_list, total; cbn [map fst snd fold_right Z.eqb Pos.eqb];
        unfold ab_gd152, ab_gd154, ab_gd155, ab_gd156, ab_gd157, ab_gd158, ab_gd160; lra|]). easy.
    + assert (Z : n_gad g rho = 0) by lra. rewrite Z. unfold nd; cbn. rewrite total_nil. lra.
  - lra.
Qed.

Lemma uo2_distinct : NoDup uo2_nuclides.
Proof.
  unfold uo2_nuclides. repeat (constructor; [cbn; intros H; repeat (destruct H as [H|H]; [discriminate|]); easy|]). constructor.
Qed.
Lemma setUO2_ok m w g : well_formed m -> 0 < density m -> good w g -> (forall z, In z uo2_nuclides -> ~ In z (zaids m)) ->
  exists m' l, setUO2 m w g = Ret m' /\ well_formed m' /\ same_but_content m m' /\ content m' = content m ++ l /\
  map fst l = filter (fun z => (if Rltb 0 g then true else negb (z / 1000 =? 64)%Z)) uo2_nuclides /\
  weight uo2_mass l = density m * avogadro /\
  atoms (of_element 8 l) = 2 * atoms (of_element 92 l) + 3 / 2 * atoms (of_element 64 l) /\
  (forall z k, In (z, k) [(92234%Z, 89 / 10000); (92235%Z, 1); (92236%Z, 46 / 10000)] ->
     nd z l * uo2_mass z = k * w * weight uo2_mass (of_element 92 l)) /\
  (forall z k, In (z, k) gd_abundance -> nd z l = IZR k / 10000 * atoms (of_element 64 l)) /\
  weight uo2_mass (of_element 64 l) + 3 / 2 * atoms (of_element 64 l) * uo2_mass 8016 = g * density m * avogadro.
Proof.
  intros W Hd Hg Hz. destruct (uo2_props w g (density m) Hg Hd) as (P & Ef & X).
  assert (Sub : forall z, In z (map fst (uo2_list w g (density m))) -> In z uo2_nuclides).
  { rewrite Ef. intros z H. now apply filter_In in H. }
  assert (ND : NoDup (zaids m ++ map fst (uo2_list w g (density m)))).
  { destruct W as (_ & Nz & _). assert (N2 : NoDup (map fst (uo2_list w g (density m)))) by (rewrite Ef; apply NoDup_filter, uo2_distinct).
    clear - Nz N2 Hz Sub. induction (zaids m) as [|a l IH]; cbn; auto. inversion Nz; subst. constructor.
    - intros H. apply in_app_or in H. destruct H as [H|H]; auto. apply (Hz a); auto. now left.
    - apply IH; auto. intros z H H'. apply (Hz z H). now right. }
  destruct (chain_ok (uo2_list w g (density m)) m W P ND) as (m' & E & W' & S' & C').
  exists m', (uo2_list w g (density m)). rewrite setUO2_chain. do 4 (split; auto).
Qed.
(** what it refuses *)
Lemma setUO2_fail m w g : 0 < density m -> 0 <= w <= 1 -> 0 <= g <= 1 ->
  w = 0 \/ 10000 <= 10135 * w \/ g = 1 \/ (exists z, In z uo2_nuclides /\ (z / 1000 <> 64)%Z /\ In z (zaids m)) -> setUO2 m w g = Fail.
Proof.
  intros Hd Hw Hg H. rewrite setUO2_chain.
  assert (IN : forall p, In p (u_list w (n_u w g (density m))) -> In p (uo2_list w g (density m))).
  { intros p Hp. unfold uo2_list. apply in_or_app. now left. }
  destruct H as [->|[H|[->|(z & H1 & H2 & H3)]]].
  - apply chain_fail. exists (92235%Z, 0 / m_u235 / denom 0 * n_u 0 g (density m)). split; [apply IN; right; now left|].
    right. cbn. unfold Rdiv. lra.
  - apply chain_fail.
    assert (Q : 0 < denom w).
    { unfold denom, w8, w4, w6, m_u234, m_u235, m_u236, m_u238. lra. }
    assert (N : 0 <= n_u w g (density m)).
    { unfold n_u. pose proof mo_pos. pose proof avo_pos. assert (0 < 1 / denom w) by (apply Rdiv_lt_0_compat; lra).
      apply Rmult_le_pos; [|apply Rlt_le, Rinv_0_lt_compat; lra]. apply Rmult_le_pos; [|lra]. apply Rmult_le_pos; lra. }
    exists (92238%Z, w8 w / m_u238 / denom w * n_u w g (density m)). split; [apply IN; do 3 right; now left|]. right. cbn [snd].
    assert (w8 w <= 0) by (unfold w8, w4, w6; lra).
    assert (w8 w / m_u238 / denom w <= 0); [|nra].
    assert (0 < / m_u238) by (apply Rinv_0_lt_compat; unfold m_u238; lra). assert (0 < / denom w) by now apply Rinv_0_lt_compat.
    unfold Rdiv. assert (w8 w * / m_u238 <= 0) by nra. nra.
  - apply chain_fail. exists (92234%Z, w4 w / m_u234 / denom w * n_u w 1 (density m)). split; [apply IN; now left|].
    right. cbn [snd]. unfold n_u. replace ((1 - 1) * density m) with 0 by ring. unfold Rdiv. lra.
  - apply chain_dup.
    assert (G : In z (map fst (uo2_list w g (density m)))).
    { unfold uo2_list, u_list, uo2_nuclides in *. rewrite !map_app. cbn [map fst]. cbn in H1.
      repeat (destruct H1 as [<-|H1]; [try (now cbn; auto); try (exfalso; apply H2; reflexivity); apply in_or_app; right; apply in_or_app; right; now left|]). easy. }
    apply in_map_iff in G. destruct G as (p & <- & Hp). eauto.
Qed.

(** ** The overloads that take a symbol *)
Lemma symbol_ok m z sym ds a x : element z sym -> dec ds a -> (1000 * z + a <= intMax)%Z ->
  addNuclideSymbol m (codes sym ++ ds) x = addNuclide m (1000 * z + a) x /\
  addNuclideWtSymbol m (codes sym ++ ds) x = addNuclideWt m (1000 * z + a) x.
Proof.
  intros He Hd Ha. assert (E : toZAID (codes sym ++ ds) = Ret (1000 * z + a)%Z).
  { pose proof (zaid_ok z sym [] ds a [] He (Forall_nil _) I Hd I Ha) as E. cbn [app] in E. now rewrite app_nil_r in E. }
  unfold addNuclideSymbol, addNuclideWtSymbol. rewrite E. auto.
Qed.
