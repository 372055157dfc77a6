(** Number densities and the mass they stand for. *)
From Coq Require Import List Arith ZArith Reals String.
From Verif Require Import Base Loops Stats_Spec StringView_Model Zaid_Model XSec_Model Density_Model.
Import ListNotations.
Local Open Scope R_scope.

(** atoms per mole, in units of 10^24 *)
Definition avogadro : R := 602214076 / 1000000000.

(** a material's content: nuclide and number density, in order of addition *)
Definition content (m : material) : list (Z * R) := combine (zaids m) (num_density m).

(** distinct nuclides, positive densities *)
Definition well_formed (m : material) : Prop :=
  List.length (num_density m) = List.length (zaids m) /\ NoDup (zaids m) /\
  Forall (fun z => (0 < z)%Z) (zaids m) /\ Forall (Rlt 0) (num_density m).

(** everything but the content is the same *)
Definition same_but_content (m m' : material) : Prop :=
  name_len m' = name_len m /\ temperature m' = temperature m /\ density m' = density m /\ mxsec m' = mxsec m.

(** [w] is the atomic mass of nuclide z in the table *)
Definition has_mass (z : Z) (w : R) : Prop := In (z, w) ZAID_ATOMIC_MASS.

(** mass times Avogadro's number of a list of nuclides: sum of N * M, M given by a function *)
Definition weight (mass : Z -> R) (l : list (Z * R)) : R := total (map (fun p => snd p * mass (fst p)) l).
(** number of atoms *)
Definition atoms (l : list (Z * R)) : R := total (map snd l).
(** the nuclides of one element *)
Definition of_element (z : Z) (l : list (Z * R)) : list (Z * R) :=
  filter (fun p => (fst p / 1000 =? z)%Z) l.
(** the number density of one nuclide *)
Definition nd (z : Z) (l : list (Z * R)) : R :=
  total (map (fun p => if (fst p =? z)%Z then snd p else 0) l).

(** the atomic masses setUO2 uses *)
Definition uo2_mass (z : Z) : R :=
  match z with
  | 8016%Z => 159949146 / 10000000
  | 64152%Z => 151919786 / 1000000 | 64154%Z => 153920861 / 1000000 | 64155%Z => 154922618 / 1000000
  | 64156%Z => 155922118 / 1000000 | 64157%Z => 156923956 / 1000000 | 64158%Z => 157924019 / 1000000
  | 64160%Z => 159927049 / 1000000
  | 92234%Z => 234040946 / 1000000 | 92235%Z => 235043923 / 1000000
  | 92236%Z => 236045562 / 1000000 | 92238%Z => 238050783 / 1000000
  | _ => 0
  end.
Definition uo2_nuclides : list Z := [92234; 92235; 92236; 92238; 64152; 64154; 64155; 64156; 64157; 64158; 64160; 8016]%Z.
(** natural abundance of the gadolinium isotopes, in units of 1/10000 *)
Definition gd_abundance : list (Z * Z) :=
  [(64152, 20); (64154, 218); (64155, 1480); (64156, 2047); (64157, 1565); (64158, 2484); (64160, 2186)]%Z.

(** weight fraction w of U235 in the uranium that leaves some for U238, weight fraction g of Gd2O3 *)
Definition good (w g : R) : Prop := 0 < w /\ 10135 * w < 10000 /\ 0 <= g < 1.

(** [l] lists nuclide, atom percent and mass of the symbols *)
Definition triples (ss : list (list char)) (ps : list R) (l : list (Z * R * R)) : Prop :=
  Forall2 (fun s t => toZAID s = Ret (fst (fst t)) /\ has_mass (fst (fst t)) (snd t)) ss l /\
  exists rest, ps = map (fun t => snd (fst t)) l ++ rest.

(** One step of building up a material. *)
Inductive addition :=
  | ByDensity (z : Z) (n : R)
  | ByWeight (z : Z) (w : R)
  | ByAtoms (symbols : list (list char)) (percents : list R).
Definition add (m : material) (a : addition) : outcome material :=
  match a with
  | ByDensity z n => addNuclide m z n
  | ByWeight z w => addNuclideWt m z w
  | ByAtoms ss ps => addNuclidesAtomPercent m ss ps
  end.
Fixpoint add_all (m : material) (l : list addition) : outcome material :=
  match l with [] => Ret m | a :: l' => let* m := add m a in add_all m l' end.
(** the mass an addition is meant to bring, divided by density * avogadro *)
Definition fraction (mass : Z -> R) (m : material) (a : addition) : R :=
  match a with
  | ByDensity z n => n * mass z / (density m * avogadro)
  | ByWeight _ w => w
  | ByAtoms [] _ => 0
  | ByAtoms _ _ => 1
  end.
