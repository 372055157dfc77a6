(** C86: mesh sizes from a Knudsen number. *)
From Coq Require Import String.
From Coq Require Import Reals Lra.
From Coq Require Import List Arith ZArith Lia Bool Sorted.
From Verif Require Import Base Loops Arith Matrix_Model Matrix_Spec Stats_Spec XSec_Model XSec_Spec XSec_Proofs XSec_Mat_Proofs.
From Verif Require Import Groups_Model Groups_Spec Knudsen_Model Knudsen_Spec Knudsen_Proofs Knudsen_Size_Proofs Knudsen_Ret_Proofs.
Import ListNotations.
Open Scope R_scope.

(** ** At every place the size in use is the least of those asked for by the materials there: an equilateral
    triangle of this size has the Knudsen number, and the size grows with the distance from fuel or, in
    absorbers, from the boundary, after the threshold. *)
Theorem C86_size place on distance new_id shown checks g dim mats kn fuel_threshold fuel_scale abs_threshold abs_scale st :
  (forall (p : place) l, 0 <= distance p l) -> (forall l, ~ In (new_id l) l) -> (forall x, Rabs (shown x - x) <= / 2000000) ->
  meshable g dim mats kn fuel_threshold fuel_scale abs_threshold abs_scale -> NoDup (map fst (fields st)) ->
  exists st', set_mesh_field checks new_id shown dim kn fuel_threshold fuel_scale abs_threshold abs_scale g mats st = Ret (0%Z, st') /\
    sized place on distance g dim mats kn fuel_threshold fuel_scale abs_threshold abs_scale st st'.
Proof. intros D N H K. exact (whole place on distance D new_id N shown H checks g dim mats kn fuel_threshold fuel_scale abs_threshold abs_scale K st). Qed.
Print Assumptions C86_size.

(** Materials with different names leave no group of a material without size. *)
Theorem C86_covered (place : Type) on g dim mats kn fuel_threshold fuel_scale abs_threshold abs_scale (p : place) x t :
  meshable g dim mats kn fuel_threshold fuel_scale abs_threshold abs_scale -> NoDup (map i_name mats) ->
  In x (groups g) -> g_dim x = dim -> String.prefix "Material" (g_name x) = true -> In t (g_ents x) -> on p (dim, t) = true ->
  exists m, In m mats /\ touches place on g dim p m.
Proof. intros K. exact (covered place on g dim mats kn fuel_threshold fuel_scale abs_threshold abs_scale K p x t). Qed.
Print Assumptions C86_covered.

(** Without these there is no result. *)
Theorem C86_accepts checks new_id shown g dim mats kn fuel_threshold fuel_scale abs_threshold abs_scale st r :
  set_mesh_field checks new_id shown dim kn fuel_threshold fuel_scale abs_threshold abs_scale g mats st = Ret r ->
  length (filter (fun x => (g_dim x =? dim)%Z && String.prefix "Material" (g_name x)) (groups g)) = length mats /\
  (forall m, In m mats -> exists x, In x (groups g) /\ g_dim x = dim /\ g_name x = ("Material_" ++ i_name m)%string) /\
  0 < kn /\ (forall m, In m mats -> isMacro (i_xsec m) = true /\ exists w, XSec_Model.validate (i_xsec m) = Ret w) /\
  (0 <= fuel_threshold -> exists m, In m mats /\ fissile m) /\
  (mats <> [] -> (0 <= dim <= 3)%Z).
Proof. exact (accepts checks new_id shown g dim mats kn fuel_threshold fuel_scale abs_threshold abs_scale st r). Qed.
Print Assumptions C86_accepts.

(** ** Two materials of one name: another material's group is left without size, and nothing is reported. *)
Definition xs1 (f : bool) (a s : R) : xsec := mkX true f 1 [a] [if f then a / 2 else 0] [if f then a else 0] [a + s] [s] (Matrix_Model.mkM 1 1 [s]).
Lemma xs1_shape f a s : shape 1 (xs1 f a s). Proof. unfold shape, xs1, wf. cbn. repeat split; auto; unfold intMax; lia. Qed.
Lemma xs1_valid f a s : 0 <= a -> 0 <= s -> XSec_Model.validate (xs1 f a s) = Ret O.
Proof.
  intros Ha Hs. apply (physical_validate 1); [apply xs1_shape|lia|]. split.
  - intros [| | | | |g'] g Hr Hg; assert (g = O) by lia; subst g; cbn; try lra; try (destruct f; lra). cbn in Hr. assert (g' = O) by lia. subst. cbn. lra.
  - intros Hf g Hg. cbn in Hf. subst f. assert (g = O) by lia; subst g; cbn. lra.
Qed.
Lemma xs1_total f a s n : total_xs (mkIn n (xs1 f a s)) = a + s.
Proof. unfold total_xs, Knudsen_Spec.average. cbn. field. Qed.
Lemma xs1_ok f a s n : 0 <= a -> 0 <= s -> 0 < a + s -> isMacro (i_xsec (mkIn n (xs1 f a s))) = true /\ 0 < total_xs (mkIn n (xs1 f a s)) /\
  exists ng w, shape ng (i_xsec (mkIn n (xs1 f a s))) /\ ng <> O /\ XSec_Model.validate (i_xsec (mkIn n (xs1 f a s))) = Ret w.
Proof. intros. split; [reflexivity|]. rewrite xs1_total. split; [auto|]. exists 1%nat, O. split; [apply xs1_shape|]. split; [discriminate|]. now apply xs1_valid. Qed.

(** surfaces 1 to 4, each with two curves *)
Definition ex_down (d : dimtag) : list dimtag := if (fst d =? 2)%Z then [(1, 2 * snd d); (1, 2 * snd d + 1); (0, 1)]%Z else [].
Definition ex_geo : geometry := mkGeo [(2, 1); (2, 2); (2, 3); (2, 4)]%Z ex_down (fun _ => 0%Z).
Definition twice : list input := [mkIn "A" (xs1 false 1 1); mkIn "A" (xs1 false 1 1)].
Definition two : gm := mkGm [mkG 2 1 "Material_A" [1; 2]; mkG 2 2 "Material_B" [3]]%Z ex_geo.
Lemma two_ok : meshable two 2 twice 1 (-1) 0 (-1) 0.
Proof.
  split; cbn -[In xs1]; try lra; try lia; auto.
  - split; [repeat constructor; cbn; lia|]. intros x [<-|[<-|[]]]; cbn; (split; [lia|split; [discriminate|unfold ascending; repeat constructor; lia]]).
  - intros x y [<-|[<-|[]]] [<-|[<-|[]]]; cbn; intros; auto; discriminate.
  - intros m [<-|[<-|[]]]; eexists; (split; [now left|split; reflexivity]).
  - intros m [<-|[<-|[]]]; apply xs1_ok; lra.
Qed.
Theorem C86_duplicates_refuted : exists g mats x t, meshable g 2 mats 1 (-1) 0 (-1) 0 /\ In x (groups g) /\ g_dim x = 2%Z /\
  String.prefix "Material" (g_name x) = true /\ In t (g_ents x) /\
  forall (place : Type) on (p : place), (forall u, on p (2, u)%Z = true -> u = t) -> ~ exists m, In m mats /\ touches place on g 2 p m.
Proof.
  exists two, twice, (mkG 2 2 "Material_B" [3])%Z, 3%Z. split; [exact two_ok|]. split; [right; now left|]. split; [reflexivity|]. split; [reflexivity|]. split; [now left|].
  intros place on p Hp (m & Hm & (d1 & d2) & (x & Hx & Dx & Nx & Fd & Hd) & Od). cbn in Fd, Hd. subst d1. apply Hp in Od. subst d2.
  destruct Hm as [<-|[<-|[]]]; destruct Hx as [<-|[<-|[]]]; cbn in Hd; try (destruct Hd as [Hd|[Hd|[]]]; lia); discriminate Nx.
Qed.
Print Assumptions C86_duplicates_refuted.

(** ** More than 10000 materials: the one whose group is number 10001 is reported as missing. *)
Theorem C86_many_refuted : exists g mats,
  well_formed g /\ names_differ g 2 /\ NoDup (map i_name mats) /\ length mats = Z.to_nat 10001 /\
  length (filter (fun x => (g_dim x =? 2)%Z && String.prefix "Material" (g_name x)) (groups g)) = length mats /\
  (forall m, In m mats -> (exists x, In x (groups g) /\ g_dim x = 2%Z /\ g_name x = ("Material_" ++ i_name m)%string) /\
     isMacro (i_xsec m) = true /\ 0 < total_xs m /\ XSec_Model.validate (i_xsec m) = Ret O) /\
  forall checks new_id shown st, set_mesh_field checks new_id shown 2 1 (-1) 0 (-1) 0 g mats st = Fail.
Proof.
  exists (many_groups ex_geo (Z.to_nat 10001)), (many_mats (xs1 false 1 1) (Z.to_nat 10001)).
  split; [apply many_wf|]. split; [apply many_differ|]. split; [apply many_nodup|]. split; [apply many_length|]. split; [rewrite many_count; symmetry; apply many_length|]. split.
  - intros m Hm. split; [now apply (many_exist _ _ (xs1 false 1 1))|]. apply in_map_iff in Hm as (i & <- & _). split; [reflexivity|]. rewrite xs1_total. split; [lra|]. apply xs1_valid; lra.
  - intros. apply many_fail. lia.
Qed.
Print Assumptions C86_many_refuted.

(** ** Example: fuel, water and an absorber, growth in both *)
Definition ex_mats : list input := [mkIn "Fuel" (xs1 true (3 / 10) (5 / 10)); mkIn "Water" (xs1 false (1 / 50) 1); mkIn "Rod" (xs1 false 3 (3 / 10))].
Definition ex : gm := mkGm [mkG 2 1 "Material_Water" [2; 3]; mkG 2 2 "Material_Fuel" [1]; mkG 2 3 "Pin" [1; 2]; mkG 2 4 "Material_Rod" [4]]%Z ex_geo.
Example C86_ex_meshable : meshable ex 2 ex_mats 2 1 2 (1 / 2) (3 / 2).
Proof.
  assert (AF : forall m, In m ex_mats -> absorber m -> i_name m = "Rod"%string).
  { intros m [<-|[<-|[<-|[]]]] (A & B); rewrite xs1_total in *; cbn -[xs1] in *; try reflexivity; unfold Knudsen_Spec.average in A; cbn in A; exfalso; lra. }
  split; cbn -[In xs1]; try lra; try lia; auto.
  - split; [repeat constructor; cbn; lia|]. intros x [<-|[<-|[<-|[<-|[]]]]]; cbn; (split; [lia|split; [discriminate|unfold ascending; repeat constructor; lia]]).
  - intros x y [<-|[<-|[<-|[<-|[]]]]] [<-|[<-|[<-|[<-|[]]]]]; cbn; intros; auto; discriminate.
  - intros _. repeat constructor; cbn; intuition discriminate.
  - intros m [<-|[<-|[<-|[]]]]; cbn -[In xs1].
    + exists (mkG 2 2 "Material_Fuel" [1])%Z. split; [right; now left|split; reflexivity].
    + exists (mkG 2 1 "Material_Water" [2; 3])%Z. split; [now left|split; reflexivity].
    + exists (mkG 2 4 "Material_Rod" [4])%Z. split; [right; right; right; now left|split; reflexivity].
  - intros m [<-|[<-|[<-|[]]]]; apply xs1_ok; lra.
  - intros _. split; [lra|]. split; [eexists; split; [now left|reflexivity]|].
    intros m m' d [<-|[<-|[<-|[]]]] [<-|[<-|[<-|[]]]] F F' _ _; try reflexivity; discriminate.
  - intros _. split; [lra|]. split.
    { exists (mkIn "Rod" (xs1 false 3 (3 / 10))). split; [right; right; now left|]. unfold absorber. rewrite xs1_total. unfold Knudsen_Spec.average. cbn. lra. }
    split; [lia|]. intros m (d1 & d2) _ _ (x & _ & _ & _ & Fd & _). cbn in Fd. subst d1. cbn. split; [discriminate|].
    repeat constructor; cbn; [intros [E|[]]; injection E; lia|tauto].
Qed.
(** rounding to six decimals, and the next free number, are as asked *)
Definition six (x : R) : R := IZR (up (x * 1000000 - / 2)) / 1000000.
Definition next_id (l : list Z) : Z := (1 + fold_right Z.max 0 l)%Z.
Example C86_ex_six x : Rabs (six x - x) <= / 2000000.
Proof. unfold six. destruct (archimed (x * 1000000 - / 2)) as (A & B). apply Rabs_le. split; lra. Qed.
Example C86_ex_next l : ~ In (next_id l) l.
Proof.
  assert (H : forall x, In x l -> (x <= fold_right Z.max 0 l)%Z) by (induction l as [|a l IH]; intros x Hx; [destruct Hx|]; destruct Hx as [<-|Hx]; cbn; [|specialize (IH x Hx)]; lia).
  intros A. specialize (H _ A). unfold next_id in H. lia.
Qed.
Example C86_ex_sized (place : Type) on (distance : place -> list dimtag -> R) : (forall p l, 0 <= distance p l) ->
  exists st', set_mesh_field true next_id six 2 2 1 2 (1 / 2) (3 / 2) ex ex_mats (mkMesher [(4%Z, Distance [(2, 1)%Z])] None true true true) = Ret (0%Z, st') /\
    sized place on distance ex 2 ex_mats 2 1 2 (1 / 2) (3 / 2) (mkMesher [(4%Z, Distance [(2, 1)%Z])] None true true true) st'.
Proof. intros D. apply C86_size; [exact D|exact C86_ex_next|exact C86_ex_six|exact C86_ex_meshable|repeat constructor; auto]. Qed.
