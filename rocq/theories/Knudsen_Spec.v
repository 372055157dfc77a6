(** What the mesh size field of a gmsh model promises. *)
From Coq Require Import String.
From Coq Require Import Reals.
From Coq Require Import List Arith ZArith Bool.
From Verif Require Import Base XSec_Model XSec_Spec Groups_Model Groups_Spec Knudsen_Model.
Import ListNotations.
Open Scope R_scope.

(** ** What gmsh makes of the fields *)
Definition MAX_LC : R := IZR (10 ^ 22).
Section Fields.
(** Places where gmsh asks for a size; whether one lies in an entity or on its boundary; its distance from
    the nearest of some entities. *)
Variable place : Type.
Variable on : place -> dimtag -> bool.
Variable distance : place -> list dimtag -> R.
(** The field with this number has this value at the place. *)
Inductive size_at (fs : list (Z * field)) (p : place) : Z -> R -> Prop :=
| at_in id v l : In (id, Constant v l) fs -> existsb (on p) l = true -> size_at fs p id v
| at_out id v l : In (id, Constant v l) fs -> existsb (on p) l = false -> size_at fs p id MAX_LC
| at_distance id l : In (id, Distance l) fs -> size_at fs p id (distance p l)
| at_plus id f a b d : In (id, Linear f a false b) fs -> size_at fs p f d -> size_at fs p id (d * a + b)
| at_minus id f a b d : In (id, Linear f a true b) fs -> size_at fs p f d -> size_at fs p id (d * a - b)
| at_max id l vs : In (id, Max l) fs -> sizes_at fs p l vs -> size_at fs p id (fold_left Rmax vs (- MAX_LC))
| at_min id l vs : In (id, Min l) fs -> sizes_at fs p l vs -> size_at fs p id (fold_left Rmin vs MAX_LC)
with sizes_at (fs : list (Z * field)) (p : place) : list Z -> list R -> Prop :=
| at_nil : sizes_at fs p [] []
| at_cons id l v vs : size_at fs p id v -> sizes_at fs p l vs -> sizes_at fs p (id :: l) (v :: vs).

(** ** The sizes asked for *)
(** Knudsen number of an equilateral triangle with sides l: mean free path over mean chord length, which is
    pi times area over perimeter *)
Definition mean_chord (l : R) : R := PI * (sqrt 3 / 4 * l ^ 2) / (3 * l).
Definition knudsen (sigma l : R) : R := 1 / (sigma * mean_chord l).
(** averages over the groups of a material *)
Definition average (l : list R) : R := fold_right Rplus 0 l / INR (length l).
Definition total_xs (m : input) : R := average (xa (i_xsec m)) + average (xs (i_xsec m)).
Definition fissile (m : input) : Prop := isFissile (i_xsec m) = true.
Definition absorber (m : input) : Prop := average (xs (i_xsec m)) / total_xs m < 2 / 10 /\ 9 / 10 < total_xs m.

Variable g : gm.
Variable dim : Z.
Variable mats : list input.
Variables kn fuel_threshold fuel_scale abs_threshold abs_scale : R.
(** the entities of the group of a material *)
Definition made_of (m : input) (d : dimtag) : Prop :=
  exists x, In x (groups g) /\ g_dim x = dim /\ g_name x = ("Material_" ++ i_name m)%string /\ fst d = dim /\ In (snd d) (g_ents x).
Definition touches (p : place) (m : input) : Prop := exists d, made_of m d /\ on p d = true.
(** all fuel; the boundary of a material *)
Definition all_fuel (l : list dimtag) : Prop := forall d, In d l <-> exists m, In m mats /\ fissile m /\ made_of m d.
Definition edge_of (m : input) (l : list dimtag) : Prop :=
  forall d, In d l <-> exists e, made_of m e /\ In d (down (geo g) e) /\ fst d = (dim - 1)%Z.
(** [lc] up to the threshold, which is a number of mean free paths; then growing linearly *)
Definition grown (lc sigma threshold scale d : R) : R := lc * Rmax 1 (1 + scale * (sigma * d - threshold)).
(** [w] is the size asked for in material [m], up to the six decimals of std::to_string. *)
Definition asked (p : place) (m : input) (w : R) : Prop :=
  exists lc, 0 < lc /\ knudsen (total_xs m) lc = kn /\ lc <= w /\
    (0 <= fuel_threshold /\ ~ fissile m /\ ~ absorber m ->
       exists l, all_fuel l /\ Rabs (w - grown lc (total_xs m) fuel_threshold fuel_scale (distance p l)) <= (1 + distance p l) / 2000000) /\
    (0 <= abs_threshold /\ absorber m ->
       exists l, edge_of m l /\ Rabs (w - grown lc (total_xs m) abs_threshold abs_scale (distance p l)) <= (1 + distance p l) / 2000000) /\
    (~ (0 <= fuel_threshold /\ ~ fissile m /\ ~ absorber m) -> ~ (0 <= abs_threshold /\ absorber m) -> w = lc).
(** The least size of the materials at the place, but at most 10^22. *)
Definition least_asked (p : place) (v : R) : Prop :=
  v <= MAX_LC /\
  (forall m, In m mats -> touches p m -> exists w, asked p m w /\ v <= w) /\
  (v = MAX_LC \/ exists m, In m mats /\ touches p m /\ asked p m v).
(** The only thing that changes are new fields, with new numbers, and the field in use. *)
Record sized (st st' : mesher) : Prop := {
  s_keeps : exists l, fields st' = l ++ fields st;
  s_numbers : NoDup (map fst (fields st')) ;
  s_options : extend_from_boundary st' = false /\ from_points st' = false /\ from_curvature st' = false;
  s_size : exists id, background st' = Some id /\ ~ In id (map fst (fields st)) /\
    forall p, exists v, size_at (fields st') p id v /\ (forall v', size_at (fields st') p id v' -> v' = v) /\ least_asked p v }.

(** ** What is asked of the input *)
Record meshable : Prop := {
  k_groups : well_formed g;
  k_names : names_differ g dim;
  k_dim : (0 <= dim <= 3)%Z;
  k_count : length (filter (fun x => (g_dim x =? dim)%Z && String.prefix "Material" (g_name x)) (groups g)) = length mats;
  k_few : (length mats <= Z.to_nat 10000)%nat;
  k_distinct : 0 <= fuel_threshold -> NoDup (map i_name mats);
  k_exist : forall m, In m mats -> exists x, In x (groups g) /\ g_dim x = dim /\ g_name x = ("Material_" ++ i_name m)%string;
  k_kn : 0 < kn;
  k_xsecs : forall m, In m mats -> isMacro (i_xsec m) = true /\ 0 < total_xs m /\
    exists ng w, shape ng (i_xsec m) /\ ng <> O /\ XSec_Model.validate (i_xsec m) = Ret w;
  k_fuel : 0 <= fuel_threshold -> 1 <= fuel_scale /\ (exists m, In m mats /\ fissile m) /\
    (forall m m' d, In m mats -> In m' mats -> fissile m -> fissile m' -> made_of m d -> made_of m' d -> m = m');
  k_abs : 0 <= abs_threshold -> 1 <= abs_scale /\ (exists m, In m mats /\ absorber m) /\ (1 <= dim)%Z /\
    (forall m d, In m mats -> absorber m -> made_of m d ->
       let l := filter (fun x => fst x =? dim - 1)%Z (down (geo g) d) in l <> [] /\ NoDup l) }.
End Fields.
