(** Macroscopic cross sections of materials that are described by weight, from a library file. *)
From Coq Require Import List Arith ZArith Reals.
From Verif Require Import Base Loops Arith Matrix_Model Stats_Spec XSec_Model XSec_Spec Density_Spec Library_Model Library_Spec LibMat_Model.
Import ListNotations.
Local Open Scope R_scope.

(** [n] is the first nuclide of the library with id [z] *)
Definition listed (L : xslib) (z : Z) (n : nuclide) : Prop :=
  exists before after, nucs L = before ++ n :: after /\ zaid n = z /\ Forall (fun k => zaid k <> z) before.

(** cross section of a nuclide at temperature T: the table's first entry up to its first temperature, its last entry from its last temperature on,
    and on the line in the square root of the temperature between neighbours *)
Inductive micro (n : nuclide) (T : R) (r : reaction) (g : nat) : R -> Prop :=
| cold t0 x0 : nth_error (temps n) 0 = Some t0 -> nth_error (tables n) 0 = Some x0 -> T <= t0 -> micro n T r g (value x0 r g)
| hot tn xn : nth_error (temps n) (length (temps n) - 1) = Some tn -> nth_error (tables n) (length (temps n) - 1) = Some xn -> tn <= T ->
    micro n T r g (value xn r g)
| warm i t0 t1 x0 x1 : bracket n T i t0 t1 x0 x1 -> micro n T r g (root_line t0 t1 (value x0 r g) (value x1 r g) T).

(** the sum of number density times cross section over the nuclides of [cs] *)
Definition mixture (L : xslib) (T : R) (cs : list (Z * R)) (r : reaction) (g : nat) (v : R) : Prop :=
  exists sigmas, Forall2 (fun c sigma => exists n, listed L (fst c) n /\ micro n T r g sigma) cs sigmas /\
    v = total (map (fun p => snd (fst p) * snd p) (combine cs sigmas)).

(** the nuclides of a composition; fuel without gadolinia has no gadolinium *)
Definition ingredient (q : recipe) (z : Z) : Prop :=
  match q with
  | Weights l => In z (map fst l)
  | Fuel _ g => In z uo2_nuclides /\ (0 < g \/ (z / 1000)%Z <> 64%Z)
  end.
(** number densities that make up an order: the weights, or the mass, stoichiometry UO2 + Gd2O3, enrichment and gadolinium of the fuel *)
Inductive parts (rho : R) : recipe -> list (Z * R) -> Prop :=
| by_weight l cs : Forall2 (fun zw c => fst c = fst zw /\ exists M, has_mass (fst zw) M /\ snd c * M = snd zw * rho * avogadro) l cs ->
    parts rho (Weights l) cs
| by_enrichment e g cs :
    NoDup (map fst cs) -> (forall z, In z (map fst cs) <-> ingredient (Fuel e g) z) ->
    weight uo2_mass cs = rho * avogadro ->
    atoms (of_element 8 cs) = 2 * atoms (of_element 92 cs) + 3 / 2 * atoms (of_element 64 cs) ->
    (forall z k, In (z, k) [(92234%Z, 89 / 10000); (92235%Z, 1); (92236%Z, 46 / 10000)] ->
       nd z cs * uo2_mass z = k * e * weight uo2_mass (of_element 92 cs)) ->
    (forall z k, In (z, k) gd_abundance -> nd z cs = IZR k / 10000 * atoms (of_element 64 cs)) ->
    weight uo2_mass (of_element 64 cs) + 3 / 2 * atoms (of_element 64 cs) * uo2_mass 8016 = g * rho * avogadro ->
    parts rho (Fuel e g) cs.

(** an order that makes sense: a name, positive numbers, distinct nuclides with known masses or an enrichment in range, all nuclides in the library *)
Definition sensible (L : xslib) (o : order) : Prop :=
  o_name o <> O /\ 0 < o_temperature o /\ 0 < o_density o /\
  match o_recipe o with
  | Weights l => l <> [] /\ NoDup (map fst l) /\ Forall (fun zw => (exists M, has_mass (fst zw) M) /\ 0 < snd zw) l
  | Fuel e g => good e g
  end /\
  (forall z, ingredient (o_recipe o) z -> exists n, In n (nucs L) /\ zaid n = z).

(** the material asked for: its composition, and cross sections of every reaction in every group *)
Definition delivered (L : xslib) (o : order) (m : material) : Prop :=
  let ng := length (bounds L) in
  name_len m = o_name o /\ temperature m = o_temperature o /\ density m = o_density o /\
  length (num_density m) = length (zaids m) /\ parts (o_density o) (o_recipe o) (content m) /\
  shape ng (mxsec m) /\ isMacro (mxsec m) = true /\
  (isFissile (mxsec m) = true -> exists z n, In z (zaids m) /\ listed L z n /\ fissile n = true) /\
  forall r g, known ng r -> (g < ng)%nat -> mixture L (o_temperature o) (content m) r g (value (mxsec m) r g).
