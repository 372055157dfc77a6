(** C51 - C53: cross sections at a temperature, of a material and of a cell. *)
From Coq Require Import List Arith ZArith Bool Reals Lra Lia Permutation.
From Verif Require Import Base Loops Arith Matrix_Model Matrix_Spec Stats_Model Stats_Spec XSec_Model XSec_Spec
  XSec_Proofs XSec_Use_Proofs XSec_Mat_Proofs.
Import ListNotations.
Local Open Scope R_scope.

(** * C51: interpXS *)

(** what Nuclide::validate accepts is a table in the sense of the theorems below *)
Theorem C51_validated : forall ng n, nuc_validate n = Ret tt -> temps n <> [] ->
  Forall (fun x => numGroups x = ng /\ wf (xss x)) (tables n) ->
  table ng n /\ (0 < zaid n)%Z /\ 0 < mass n /\ Forall (fun x => isMacro x = false) (tables n).
Proof. exact nuc_validate_table. Qed.
Print Assumptions C51_validated.

(** at a tabulated temperature: the library's own data *)
Theorem C51_tabulated : forall ng n i t x, table ng n -> strictly_ascending (temps n) ->
  nth_error (temps n) i = Some t -> nth_error (tables n) i = Some x -> interpXS n t = Ret x.
Proof. exact interp_tabulated. Qed.
Print Assumptions C51_tabulated.

(** at or below the lowest temperature: the first entry *)
Theorem C51_below : forall ng n T t0 x0, table ng n ->
  nth_error (temps n) 0 = Some t0 -> nth_error (tables n) 0 = Some x0 -> T <= t0 -> interpXS n T = Ret x0.
Proof. exact below. Qed.
Print Assumptions C51_below.

(** above the highest temperature: the last entry *)
Theorem C51_above : forall ng n T tn xn, table ng n ->
  nth_error (temps n) (length (temps n) - 1) = Some tn -> nth_error (tables n) (length (temps n) - 1) = Some xn ->
  tn < T -> interpXS n T = Ret xn.
Proof. exact above_strict. Qed.
Print Assumptions C51_above.

(** between neighbours: linear in the square root of the temperature, for every reaction and group *)
Theorem C51_between : forall ng n T i t0 t1 x0 x1, table ng n -> strictly_ascending (temps n) ->
  bracket n T i t0 t1 x0 x1 ->
  exists x, interpXS n T = Ret x /\ shape ng x /\ isMacro x = isMacro x0 /\ isFissile x = isFissile x0 /\
    forall r g, known ng r -> (g < ng)%nat -> value x r g = root_line t0 t1 (value x0 r g) (value x1 r g) T.
Proof. exact interp_between. Qed.
Print Assumptions C51_between.

(** and monotone there, without leaving the range of the two neighbours *)
Theorem C51_monotone_between : forall ng n T T' i t0 t1 x0 x1 r g, table ng n -> strictly_ascending (temps n) ->
  bracket n T i t0 t1 x0 x1 -> bracket n T' i t0 t1 x0 x1 -> T <= T' -> known ng r -> (g < ng)%nat ->
  exists x x', interpXS n T = Ret x /\ interpXS n T' = Ret x' /\
    (value x0 r g <= value x1 r g -> value x0 r g <= value x r g <= value x' r g /\ value x' r g <= value x1 r g) /\
    (value x1 r g <= value x0 r g -> value x1 r g <= value x' r g <= value x r g /\ value x r g <= value x0 r g).
Proof. exact interp_local. Qed.
Print Assumptions C51_monotone_between.

(** data that grow with the table's temperature grow with every temperature *)
Theorem C51_monotone : forall ng n T T' r g, table ng n -> known ng r -> (g < ng)%nat ->
  (forall i j x y, (i <= j)%nat -> nth_error (tables n) i = Some x -> nth_error (tables n) j = Some y ->
     value x r g <= value y r g) ->
  T <= T' -> exists x x', interpXS n T = Ret x /\ interpXS n T' = Ret x' /\ value x r g <= value x' r g.
Proof. exact interp_mono. Qed.
Print Assumptions C51_monotone.

(** at any temperature, even for a table with repeated temperatures: a result within the table's range *)
Theorem C51_range : forall ng n T r g lo hi, table ng n -> known ng r -> (g < ng)%nat ->
  (forall x, In x (tables n) -> lo <= value x r g <= hi) ->
  exists x, interpXS n T = Ret x /\ lo <= value x r g <= hi.
Proof. exact interp_range. Qed.
Print Assumptions C51_range.

(** scattering totals stay the column sums *)
Theorem C51_consistent : forall ng n T, table ng n -> (forall x, In x (tables n) -> consistent ng x) ->
  exists x, interpXS n T = Ret x /\ consistent ng x.
Proof. exact interp_consistent. Qed.
Print Assumptions C51_consistent.

(** the flag is preserved if all entries agree on it, and the result validates without a warning *)
Theorem C51_fissile : forall ng n T b, ng <> O -> table ng n ->
  (forall x, In x (tables n) -> physical ng x /\ isFissile x = b) ->
  exists x, interpXS n T = Ret x /\ shape ng x /\ physical ng x /\ isFissile x = b /\ validate x = Ret O.
Proof. exact interp_physical_ok. Qed.
Print Assumptions C51_fissile.

(** It is not preserved in general: a nuclide that validate accepts as fissile may give data that
    have fission, are marked as not fissile and do not validate. *)
Theorem C51_fissile_refuted : exists n T x, nuc_validate n = Ret tt /\ fissile n = true /\ table 1 n /\
  strictly_ascending (temps n) /\ interpXS n T = Ret x /\ 0 < value x Fission 0 /\ isFissile x = false /\ validate x = Fail.
Proof. exact interp_fissile_refuted. Qed.
Print Assumptions C51_fissile_refuted.

(** * C52: populateXSec *)

(** the sum over the nuclides, nothing else of the material changed *)
Theorem C52_sum : forall lib m ns, let ng := groups lib in
  valid_material m -> constituents lib m ns -> Forall (fun n => shape ng (snd n)) ns -> ng <> O ->
  exists m', populateXSec m lib = Ret m' /\
    num_density m' = num_density m /\ zaids m' = zaids m /\ temperature m' = temperature m /\
    density m' = density m /\ name_len m' = name_len m /\
    shape ng (mxsec m') /\ isMacro (mxsec m') = true /\
    isFissile (mxsec m') = existsb (fun n => isFissile (snd n)) ns /\
    (forall r g, known ng r -> (g < ng)%nat -> value (mxsec m') r g = macro_value ns r g).
Proof. exact populate_ok. Qed.
Print Assumptions C52_sum.

(** the order in which nuclides were added does not matter *)
Theorem C52_order : forall lib m1 m2 ns1 ns2, let ng := groups lib in ng <> O ->
  valid_material m1 -> constituents lib m1 ns1 -> Forall (fun n => shape ng (snd n)) ns1 ->
  valid_material m2 -> constituents lib m2 ns2 -> Permutation ns1 ns2 ->
  exists m1' m2', populateXSec m1 lib = Ret m1' /\ populateXSec m2 lib = Ret m2' /\ mxsec m1' = mxsec m2'.
Proof. exact populate_perm. Qed.
Print Assumptions C52_order.

(** linear in the densities *)
Theorem C52_linear : forall lib a b m1 m2 m3 ns1 ns2 ns3, let ng := groups lib in ng <> O ->
  zaids m2 = zaids m1 -> zaids m3 = zaids m1 -> temperature m2 = temperature m1 -> temperature m3 = temperature m1 ->
  valid_material m1 -> valid_material m2 -> valid_material m3 ->
  constituents lib m1 ns1 -> constituents lib m2 ns2 -> constituents lib m3 ns3 -> Forall (fun n => shape ng (snd n)) ns1 ->
  num_density m3 = map (fun p => a * fst p + b * snd p) (combine (num_density m1) (num_density m2)) ->
  exists r1 r2 r3, populateXSec m1 lib = Ret r1 /\ populateXSec m2 lib = Ret r2 /\ populateXSec m3 lib = Ret r3 /\
    forall r g, known ng r -> (g < ng)%nat ->
      value (mxsec r3) r g = a * value (mxsec r1) r g + b * value (mxsec r2) r g.
Proof. exact populate_linear. Qed.
Print Assumptions C52_linear.

(** scattering totals stay the column sums *)
Theorem C52_consistent : forall lib m ns, let ng := groups lib in ng <> O ->
  valid_material m -> constituents lib m ns -> Forall (fun n => shape ng (snd n)) ns ->
  Forall (fun n => consistent ng (snd n)) ns ->
  exists m', populateXSec m lib = Ret m' /\ consistent ng (mxsec m').
Proof. exact populate_consistent. Qed.
Print Assumptions C52_consistent.

(** physical data give physical data, which validate without a warning *)
Theorem C52_validates : forall lib m ns, let ng := groups lib in ng <> O ->
  valid_material m -> constituents lib m ns -> Forall (fun n => shape ng (snd n)) ns ->
  Forall (fun n => physical ng (snd n)) ns ->
  exists m', populateXSec m lib = Ret m' /\ physical ng (mxsec m') /\ validate (mxsec m') = Ret O.
Proof. exact populate_physical. Qed.
Print Assumptions C52_validates.

(** an invalid material is refused, and an answer means that every nuclide was in the library *)
Theorem C52_rejects : forall lib m, (Z.of_nat (groups lib) * Z.of_nat (groups lib) <= intMax)%Z ->
  ~ valid_material m -> populateXSec m lib = Fail.
Proof. exact populate_rejects. Qed.
Print Assumptions C52_rejects.
Theorem C52_in_library : forall lib m m', populateXSec m lib = Ret m' -> valid_material m /\
  forall z, In z (zaids m) -> exists n, In n (nuclides lib) /\ zaid n = z.
Proof. exact populate_Ret. Qed.
Print Assumptions C52_in_library.

(** * C53: homogenised and collapsed data *)

(** the area-weighted mean; fissile exactly if something fissions *)
Theorem C53_mean : forall ng faces materials, cell_ok ng faces materials ->
  exists x, homogenize (map fst faces) (map snd faces) materials = Ret x /\ shape ng x /\ isMacro x = true /\
    (isFissile x = true <-> exists g, (g < ng)%nat /\ 0 < value x Fission g) /\
    (forall r g, known ng r -> (g < ng)%nat ->
       value x r g * total (map fst faces) = total (map (fun f => fst f * face_value materials f r g) faces)).
Proof. exact homogenize_full. Qed.
Print Assumptions C53_mean.

(** within the range of the materials that cover some area *)
Theorem C53_range : forall ng faces materials r g lo hi, cell_ok ng faces materials -> known ng r -> (g < ng)%nat ->
  (forall f y, In f faces -> 0 < fst f -> nth_error materials (Z.to_nat (snd f)) = Some y -> lo <= value y r g <= hi) ->
  exists x, homogenize (map fst faces) (map snd faces) materials = Ret x /\ lo <= value x r g <= hi.
Proof. exact homogenize_range. Qed.
Print Assumptions C53_range.

(** a cell of one material has that material's data *)
Theorem C53_uniform : forall ng faces materials k y, cell_ok ng faces materials -> (forall f, In f faces -> snd f = k) ->
  nth_error materials (Z.to_nat k) = Some y ->
  exists x, homogenize (map fst faces) (map snd faces) materials = Ret x /\
    forall r g, known ng r -> (g < ng)%nat -> value x r g = value y r g.
Proof. exact homogenize_uniform. Qed.
Print Assumptions C53_uniform.

(** scattering totals stay the column sums *)
Theorem C53_consistent : forall ng faces materials, cell_ok ng faces materials ->
  (forall f y, In f faces -> nth_error materials (Z.to_nat (snd f)) = Some y -> consistent ng y) ->
  exists x, homogenize (map fst faces) (map snd faces) materials = Ret x /\ consistent ng x.
Proof. exact homogenize_cons. Qed.
Print Assumptions C53_consistent.

(** the order of the faces does not matter *)
Theorem C53_order : forall ng faces faces' materials, cell_ok ng faces materials -> Permutation faces faces' ->
  homogenize (map fst faces) (map snd faces) materials = homogenize (map fst faces') (map snd faces') materials.
Proof. exact homogenize_perm. Qed.
Print Assumptions C53_order.

(** one group: the means over the groups, scattering the mean of the column sums, flags kept *)
Theorem C53_collapse : forall ng x w, shape ng x -> ng <> O -> validate x = Ret w ->
  exists y, collapseTo1GroupAvg x = Ret y /\ shape 1 y /\ isMacro y = isMacro x /\ isFissile y = isFissile x /\
  (forall r, match r with ScatterTo _ => False | _ => True end -> value y r 0 = mean_of ng (value x r)) /\
  value y (ScatterTo 0) 0 = mean_of ng (fun g => total (map (fun g' => value x (ScatterTo g') g) (seq 0 ng))) /\
  (consistent ng x -> consistent 1 y).
Proof. exact collapse_full. Qed.
Print Assumptions C53_collapse.
Theorem C53_collapse_range : forall ng x w y r lo hi, shape ng x -> ng <> O -> validate x = Ret w ->
  collapseTo1GroupAvg x = Ret y -> match r with ScatterTo _ => False | _ => True end ->
  (forall g, (g < ng)%nat -> lo <= value x r g <= hi) -> lo <= value y r 0 <= hi.
Proof. exact collapse_range. Qed.
Print Assumptions C53_collapse_range.

(** * The hypotheses can be met *)
Example ex_table : table 1 odd_nuclide /\ strictly_ascending (temps odd_nuclide) /\
  bracket odd_nuclide 2 0 1 4 cold hot /\ bracket odd_nuclide 3 0 1 4 cold hot.
Proof. split; [apply odd_table|]. split; [apply odd_ascending|]. unfold bracket; cbn; repeat split; auto; lra. Qed.
Example ex_validated : nuc_validate odd_nuclide = Ret tt. Proof. exact odd_valid. Qed.

Definition ex_lib : library := mkLib 1 [odd_nuclide; mkNuc 8016 16 false [5] [cold]].
Definition ex_mat (d1 d2 : R) : material := mkMat 4 4 10 [d1; d2] [92235; 8016]%Z cold.
Example ex_valid : valid_material (ex_mat 2 3).
Proof. unfold valid_material, ex_mat; cbn; repeat split; try lra; try discriminate; repeat constructor; lra. Qed.
Example ex_constituents : constituents ex_lib (ex_mat 2 3) [(2, hot); (3, cold)] /\
  Forall (fun n => shape 1 (snd n)) [(2, hot); (3, cold)].
Proof.
  split.
  - split; auto. cbn [ex_mat zaids]. repeat constructor.
    + exists odd_nuclide. split; auto. apply (interp_tabulated 1 odd_nuclide 1 4 hot odd_table odd_ascending); auto.
    + exists (mkNuc 8016 16 false [5] [cold]). split; auto.
  - repeat constructor; cbn; auto; unfold intMax; lia.
Qed.
Example ex_physical : physical 1 hot /\ consistent 1 hot.
Proof.
  split; [split; [|discriminate]|].
  - intros [| | | | |g'] g Hr Hg; assert (g = O) by lia; subst g; cbn; try lra. cbn in Hr. assert (g' = O) by lia. subst. cbn. lra.
  - intros g Hg. assert (g = O) by lia. subst g. unfold total; cbn. lra.
Qed.
Example ex_macro : exists m', populateXSec (ex_mat 2 3) ex_lib = Ret m' /\ value (mxsec m') Absorption 0 = 5 /\
  value (mxsec m') NuFission 0 = 4 /\ isFissile (mxsec m') = true.
Proof.
  destruct ex_constituents as [C S].
  destruct (C52_sum ex_lib (ex_mat 2 3) _ ex_valid C S) as (m' & E & _ & _ & _ & _ & _ & _ & _ & F & V); [discriminate|].
  exists m'. split; auto. rewrite F, !V by (cbn; auto; lia). unfold macro_value, total; cbn. repeat split; lra.
Qed.
Example ex_cell : cell_ok 1 [(1, 1%Z); (3, 0%Z); (0, 1%Z)] [cold; hot].
Proof.
  split; [intros f [<-|[<-|[<-|[]]]]; cbn; split; lra || lia|]. split; [unfold total; cbn; lra|]. split; [|lia].
  repeat constructor; cbn; auto; unfold intMax; lia.
Qed.
Example ex_cell_value : exists x, homogenize [1; 3; 0] [1; 0; 1]%Z [cold; hot] = Ret x /\ value x NuFission 0 = 1 / 2.
Proof.
  destruct (C53_mean 1 _ _ ex_cell) as (x & E & _ & _ & _ & V). exists x. split; [exact E|].
  specialize (V NuFission O I ltac:(lia)). unfold face_value, total in V; cbn in V. change (Pos.to_nat 1) with 1%nat in V. cbn in V. cbn. lra.
Qed.
Example ex_collapse : validate cold = Ret O /\ shape 1 cold.
Proof.
  split; [|apply shape_cold]. apply (physical_validate 1); [apply shape_cold|lia|]. split.
  - intros [| | | | |g'] g Hr Hg; assert (g = O) by lia; subst g; cbn; try lra. cbn in Hr. assert (g' = O) by lia. subst. cbn. lra.
  - intros _ g Hg. assert (g = O) by lia; subst g; cbn. lra.
Qed.
