(** Multigroup cross section data, as physics sees them. *)
From Coq Require Import List Arith ZArith Reals.
From Verif Require Import Base Loops Arith Matrix_Model Matrix_Spec Stats_Model Stats_Spec XSec_Model.
Import ListNotations.
Local Open Scope R_scope.

(** what a neutron can undergo: [ScatterTo g'] is scattering into group g' *)
Inductive reaction :=
  Absorption | Fission | NuFission | Transport | Scattering | ScatterTo (g' : nat).

(** the cross section of reaction r for a neutron of group g *)
Definition value (x : xsec) (r : reaction) (g : nat) : R :=
  match r with
  | Absorption => nth g (xa x) 0
  | Fission => nth g (xf x) 0
  | NuFission => nth g (xnuf x) 0
  | Transport => nth g (xtr x) 0
  | Scattering => nth g (xs x) 0
  | ScatterTo g' => ent Rarith (xss x) g' g
  end.
Definition known (ng : nat) (r : reaction) : Prop :=
  match r with ScatterTo g' => (g' < ng)%nat | _ => True end.

(** data for ng groups *)
Definition shape (ng : nat) (x : xsec) : Prop :=
  numGroups x = ng /\ length (xa x) = ng /\ length (xf x) = ng /\ length (xnuf x) = ng /\
  length (xtr x) = ng /\ length (xs x) = ng /\ rows (xss x) = ng /\ cols (xss x) = ng /\ wf (xss x).

(** total scattering out of g is the sum of scattering from g into every group *)
Definition consistent (ng : nat) (x : xsec) : Prop :=
  forall g, (g < ng)%nat ->
    value x Scattering g = total (map (fun g' => value x (ScatterTo g') g) (seq 0 ng)).

(** every cross section is nonnegative, and only fissile data has fission *)
Definition physical (ng : nat) (x : xsec) : Prop :=
  (forall r g, known ng r -> (g < ng)%nat -> 0 <= value x r g) /\
  (isFissile x = false -> forall g, (g < ng)%nat -> value x Fission g <= 0 /\ value x NuFission g <= 0).

(** A nuclide's table: one set of data for each of at least one temperature, positive and in
    ascending order, all for ng groups. *)
Definition table (ng : nat) (n : nuclide) : Prop :=
  temps n <> [] /\ length (tables n) = length (temps n) /\ Forall (Rlt 0) (temps n) /\
  ascending (temps n) /\ Forall (shape ng) (tables n).

Definition strictly_ascending (l : list R) : Prop :=
  forall i j x y, (i < j)%nat -> nth_error l i = Some x -> nth_error l j = Some y -> x < y.

(** [i] and [i + 1] are the neighbours of T among the temperatures *)
Definition bracket (n : nuclide) (T : R) (i : nat) (t0 t1 : R) (x0 x1 : xsec) : Prop :=
  nth_error (temps n) i = Some t0 /\ nth_error (temps n) (S i) = Some t1 /\ t0 <= T < t1 /\
  nth_error (tables n) i = Some x0 /\ nth_error (tables n) (S i) = Some x1.

(** the straight line, in the square root of the temperature, through (t0, y0) and (t1, y1) *)
Definition root_line (t0 t1 y0 y1 T : R) : R :=
  y0 + (sqrt T - sqrt t0) / (sqrt t1 - sqrt t0) * (y1 - y0).

(** what validateProperties asks for *)
Definition valid_material (m : material) : Prop :=
  name_len m <> O /\ 0 < temperature m /\ 0 < density m /\ zaids m <> [] /\
  length (num_density m) = length (zaids m) /\ Forall (Rle 0) (num_density m) /\
  Forall (fun z => (0 < z)%Z) (zaids m).

(** [ns] are the data of the material's nuclides at its temperature: number density and
    microscopic cross section, in order *)
Definition constituents (lib : library) (m : material) (ns : list (R * xsec)) : Prop :=
  map fst ns = num_density m /\
  Forall2 (fun z n => exists nuc, getNuclide lib z = Ret nuc /\ interpXS nuc (temperature m) = Ret (snd n))
    (zaids m) ns.

(** sum over the nuclides of number density times microscopic cross section *)
Definition macro_value (ns : list (R * xsec)) (r : reaction) (g : nat) : R :=
  total (map (fun n => fst n * value (snd n) r g) ns).

(** A cell is a list of faces: area and material id.  The cross section of the material of face f: *)
Definition face_value (materials : list xsec) (f : R * Z) (r : reaction) (g : nat) : R :=
  match nth_error materials (Z.to_nat (snd f)) with Some x => value x r g | None => 0 end.
(** ids name materials, areas are not negative and not all zero, materials are for ng > 0 groups *)
Definition cell_ok (ng : nat) (faces : list (R * Z)) (materials : list xsec) : Prop :=
  (forall f, In f faces -> (0 <= snd f < Z.of_nat (length materials))%Z /\ 0 <= fst f) /\
  0 < total (map fst faces) /\ Forall (shape ng) materials /\ ng <> O.

(** average over the groups *)
Definition mean_of (ng : nat) (f : nat -> R) : R := total (map f (seq 0 ng)) / INR ng.
