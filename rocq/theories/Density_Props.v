(** C50: material densities conserve mass. *)
From Coq Require Import List Arith ZArith Bool Reals Lra Lia Permutation String.
From Verif Require Import Base Loops Arith Stats_Spec StringView_Model StringView_Spec Zaid_Model Zaid_Spec XSec_Model
  Density_Model Density_Spec Density_Proofs Density_UO2_Proofs.
Import ListNotations.
Local Open Scope R_scope.

Definition water : material := mkMat 5 600 (7 / 10) [] [] (mkX true false 0 [] [] [] [] [] (Matrix_Model.mkM 0 0 [])).

(** The mass table: at most one mass per nuclide, all positive, close to the mass number of the
    nuclides that are isotopes (the others are natural elements, ids 500 and up are MPACT's
    resonant variants, and five ids are bound atoms). *)
Theorem C50_table : (forall z w w', has_mass z w -> has_mass z w' -> w = w') /\
  (forall z w, has_mass z w -> (0 < z)%Z /\ 0 < w) /\
  (forall z w, has_mass z w -> let a := (z mod 1000)%Z in (1 <= a < 300)%Z ->
     ~ In z [1006; 1040; 6001; 8001; 40001]%Z -> Rabs (w - IZR a) <= 11 / 100).
Proof. exact (conj has_mass_fun (conj mass_pos mass_number)). Qed.
Print Assumptions C50_table.
Example C50_table_meets : has_mass 92235 (23504400 / 100000).
Proof. unfold has_mass, ZAID_ATOMIC_MASS. apply in_map_iff. exists (92235, 23504400)%Z. split; auto. cbn. intuition. Qed.

(** addNuclide appends, or refuses: a bad id, a density that is not positive, a nuclide twice *)
Theorem C50_addNuclide : forall m z n, well_formed m -> (0 < z)%Z -> 0 < n -> ~ In z (zaids m) ->
  exists m', addNuclide m z n = Ret m' /\ well_formed m' /\ same_but_content m m' /\ content m' = content m ++ [(z, n)].
Proof. exact addNuclide_full. Qed.
Print Assumptions C50_addNuclide.
Theorem C50_addNuclide_refuses : forall m z n,
  (z <= 0)%Z \/ n <= 0 \/ In z (zaids m) <-> addNuclide m z n = Fail.
Proof. exact addNuclide_fail. Qed.
Print Assumptions C50_addNuclide_refuses.

(** by weight: N * M = w * density * N_A *)
Theorem C50_weight : forall m z w mz, well_formed m -> has_mass z mz -> ~ In z (zaids m) -> 0 < density m -> 0 < w ->
  exists m', addNuclideWt m z w = Ret m' /\ well_formed m' /\ same_but_content m m' /\ zaids m' = zaids m ++ [z] /\
  exists n, content m' = content m ++ [(z, n)] /\ n * mz = w * density m * avogadro.
Proof. exact addWt_ok. Qed.
Print Assumptions C50_weight.
Theorem C50_weight_refuses : forall m z w, 0 < density m ->
  (forall mz, ~ has_mass z mz) \/ w <= 0 \/ In z (zaids m) <-> addNuclideWt m z w = Fail.
Proof. exact addWt_fail. Qed.
Print Assumptions C50_weight_refuses.

(** any list of weight additions, and in any order the same densities *)
Theorem C50_weights : forall l m, well_formed m -> 0 < density m ->
  Forall (fun t => has_mass (fst (fst t)) (snd t) /\ 0 < snd (fst t)) l -> NoDup (zaids m ++ map (fun t => fst (fst t)) l) ->
  exists m', add_all m (map (fun t => ByWeight (fst (fst t)) (snd (fst t))) l) = Ret m' /\ well_formed m' /\ same_but_content m m' /\
    content m' = content m ++ map (fun t => (fst (fst t), snd (fst t) * density m * avogadro / snd t)) l.
Proof. exact weights_all. Qed.
Print Assumptions C50_weights.
Theorem C50_weights_order : forall l l' m m', well_formed m -> 0 < density m ->
  Forall (fun t => has_mass (fst (fst t)) (snd t) /\ 0 < snd (fst t)) l -> NoDup (zaids m ++ map (fun t => fst (fst t)) l) ->
  Permutation l l' ->
  add_all m (map (fun t => ByWeight (fst (fst t)) (snd (fst t))) l) = Ret m' ->
  exists m'', add_all m (map (fun t => ByWeight (fst (fst t)) (snd (fst t))) l') = Ret m'' /\
    Permutation (content m') (content m'').
Proof. exact weights_order. Qed.
Print Assumptions C50_weights_order.

(** by atom percent: densities proportional to the percents, of total mass density * N_A whatever
    the percents add up to *)
Theorem C50_atoms : forall m ss ps l, well_formed m -> 0 < density m -> triples ss ps l -> ss <> [] ->
  Forall (fun t => 0 < snd (fst t)) l -> NoDup (zaids m ++ map (fun t => fst (fst t)) l) ->
  exists m', addNuclidesAtomPercent m ss ps = Ret m' /\ well_formed m' /\ same_but_content m m' /\
    exists c, 0 < c /\ content m' = content m ++ map (fun t => (fst (fst t), snd (fst t) * c)) l /\
      total (map (fun t => snd (fst t) * c * snd t) l) = density m * avogadro.
Proof. exact atoms_ok. Qed.
Print Assumptions C50_atoms.
(** a percent of zero is refused *)
Theorem C50_atoms_zero : forall m ss ps l, well_formed m -> triples ss ps l -> (exists t, In t l /\ snd (fst t) = 0) ->
  forall m', addNuclidesAtomPercent m ss ps <> Ret m'.
Proof. exact atoms_zero. Qed.
Print Assumptions C50_atoms_zero.

(** Any history of additions that the material accepts: nuclides stay distinct, densities positive,
    what was there stays, and the mass grows by the sum of the fractions. *)
Theorem C50_history : forall mass l, (forall z w, has_mass z w -> mass z = w) -> forall m m', well_formed m -> 0 < density m ->
  add_all m l = Ret m' -> well_formed m' /\ same_but_content m m' /\
  (exists new, content m' = content m ++ new) /\
  weight mass (content m') = weight mass (content m) + total (map (fraction mass m) l) * density m * avogadro.
Proof. exact history. Qed.
Print Assumptions C50_history.

(** setUO2: mass, stoichiometry UO2 + Gd2O3, enrichment (with VERA's U234 and U236), natural
    gadolinium in the requested amount *)
Theorem C50_setUO2 : forall m w g, well_formed m -> 0 < density m -> good w g -> (forall z, In z uo2_nuclides -> ~ In z (zaids m)) ->
  exists m' l, setUO2 m w g = Ret m' /\ well_formed m' /\ same_but_content m m' /\ content m' = content m ++ l /\
  map fst l = filter (fun z => (if Rltb 0 g then true else negb (z / 1000 =? 64)%Z)) uo2_nuclides /\
  weight uo2_mass l = density m * avogadro /\
  atoms (of_element 8 l) = 2 * atoms (of_element 92 l) + 3 / 2 * atoms (of_element 64 l) /\
  (forall z k, In (z, k) [(92234%Z, 89 / 10000); (92235%Z, 1); (92236%Z, 46 / 10000)] ->
     nd z l * uo2_mass z = k * w * weight uo2_mass (of_element 92 l)) /\
  (forall z k, In (z, k) gd_abundance -> nd z l = IZR k / 10000 * atoms (of_element 64 l)) /\
  weight uo2_mass (of_element 64 l) + 3 / 2 * atoms (of_element 64 l) * uo2_mass 8016 = g * density m * avogadro.
Proof. exact setUO2_ok. Qed.
Print Assumptions C50_setUO2.
(** arguments its own assertions allow, but which end the program: no enrichment at all, an
    enrichment that leaves no U238, nothing but Gd2O3; and a material that has some of it already *)
Theorem C50_setUO2_refuses : forall m w g, 0 < density m -> 0 <= w <= 1 -> 0 <= g <= 1 ->
  w = 0 \/ 10000 <= 10135 * w \/ g = 1 \/ (exists z, In z uo2_nuclides /\ (z / 1000 <> 64)%Z /\ In z (zaids m)) -> setUO2 m w g = Fail.
Proof. exact setUO2_fail. Qed.
Print Assumptions C50_setUO2_refuses.

(** the overloads that take a symbol such as "U235" do the same *)
Theorem C50_symbol : forall m z sym ds a x, element z sym -> dec ds a -> (1000 * z + a <= intMax)%Z ->
  addNuclideSymbol m (codes sym ++ ds) x = addNuclide m (1000 * z + a) x /\
  addNuclideWtSymbol m (codes sym ++ ds) x = addNuclideWt m (1000 * z + a) x.
Proof. exact symbol_ok. Qed.
Print Assumptions C50_symbol.
Example C50_symbol_meets : addNuclideSymbol water (codes "O16") 1 = Ret (emplace water 8016 1).
Proof.
  change (codes "O16") with (codes "O" ++ codes "16"). unfold addNuclideSymbol.
  change (toZAID (codes "O" ++ codes "16")) with (@Ret Z 8016%Z). cbn [bind]. apply addNuclide_ok; cbn; lia || lra || auto.
Qed.

(** * The hypotheses can be met *)
Example ex_water : well_formed water /\ 0 < density water /\ (forall z, In z uo2_nuclides -> ~ In z (zaids water)).
Proof. unfold water, well_formed; cbn. repeat split; try constructor; try lra. intros z _ []. Qed.
Example ex_triples : triples [codes "H1"; codes "O16"] [2 / 3; 1 / 3]
  [((1001%Z, 2 / 3), 100783 / 100000); ((8016%Z, 1 / 3), 1599490 / 100000)].
Proof.
  split; [|now exists []]. constructor; [split; [reflexivity|]|constructor; [split; [reflexivity|]|constructor]];
    unfold has_mass, ZAID_ATOMIC_MASS; apply in_map_iff.
  - exists (1001, 100783)%Z. split; auto. cbn. intuition.
  - exists (8016, 1599490)%Z. split; auto. cbn. intuition.
Qed.
Example ex_good : good (5 / 100) (8 / 100) /\ good (4 / 100) 0. Proof. unfold good. lra. Qed.
