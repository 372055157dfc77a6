(** C80: the group preserving operations on a gmsh model.  C81: groups by name and materials. *)
From Coq Require Import String.
From Coq Require Import List Arith ZArith Lia Sorted.
From Verif Require Import Base Loops Groups_Model Groups_Spec Groups_Hier_Proofs Groups_Proofs.
Import ListNotations.
Open Scope Z_scope.

(** * A model: the surfaces 1 (steel) and 2 (water) overlap, 7 (steel) is elsewhere.  The cell
    consists of all three.  An operation makes 3, 4 and 5 of 1 and 2, where 4 is the overlap.  The
    curve 40 bounds 3 and 4. *)
Definition steel : material := mkM "Steel" 100.
Definition water : material := mkM "Water" 200.
Definition ex_geo : geometry := mkGeo [(2, 1); (2, 2); (2, 7)] (fun _ => []) (fun _ => 0).
Definition ex_geo' : geometry := mkGeo [(2, 3); (2, 4); (2, 5); (2, 7)]
  (fun d => match d with (2, 3) | (2, 4) => [(1, 40)] | _ => [] end) (fun _ => 0).
Definition ex_op : operation := fun _ _ _ => (ex_geo', [[(2, 3); (2, 4)]; [(2, 4); (2, 5)]]).
Definition ex : gm := mkGm
  [mkG 1 1 "Edge" [9]; mkG 2 1 "Material_Water" [2]; mkG 2 2 "Cell" [1; 2; 7]; mkG 2 5 "Material_Steel" [1; 7]] ex_geo.

Ltac asc := repeat (constructor; auto; try (unfold before; cbn; lia)).
Lemma ex_wf : well_formed ex.
Proof.
  split; [cbn; asc|]. intros x Hx. cbn in Hx.
  repeat (destruct Hx as [<- |Hx]; [cbn; split; [lia|]; split; [discriminate|asc]|]). destruct Hx.
Qed.
Lemma ex_accepted : accepted [(2, 1)] [(2, 2)] 2.
Proof.
  split; [discriminate|]. split; [discriminate|]. split; [asc|]. split; [asc|]. split; [|auto].
  intros d [<- |[<- |[]]]; reflexivity.
Qed.
Lemma ex_names : names_differ ex 2.
Proof.
  intros x y Hx Hy Ex Ey. cbn in Hx, Hy.
  repeat (destruct Hx as [<- |Hx]; [cbn in Ex; try discriminate;
    repeat (destruct Hy as [<- |Hy]; [cbn in Ey |- *; try discriminate; auto|]); destruct Hy|]).
  destruct Hx.
Qed.
Lemma ex_some : exists x e, In x (groups ex) /\ g_dim x = 2 /\ inherits 2 [(2, 1)] [(2, 2)] (snd (ex_op ex_geo [] [])) x e.
Proof.
  exists (mkG 2 1 "Material_Water" [2]), 5. split; [cbn; auto|]. split; auto. exists 2. split; [cbn; auto|].
  right. left. split; [cbn; intros [E|[]]; discriminate|].
  exists 0%nat, [(2, 4); (2, 5)], (2, 5). cbn. auto 6.
Qed.

(** * C80 *)

(** groupPreservingFragment and groupPreservingIntersect: whatever the geometry kernel makes of the
    operation, each group of the dimension keeps its tag and name and consists of the pieces of its
    entities, where the hierarchy gives a piece of several materials to the first of them; the
    colours follow the materials. *)
Theorem C80_preserved op g objs tools mats dim ge omap :
  well_formed g -> accepted objs tools dim -> (mats = [] \/ names_differ g dim) ->
  NoDup (map m_name mats) ->
  op (geo g) objs tools = (ge, omap) -> length omap = (length objs + length tools)%nat ->
  (mats = [] \/ exists x e, In x (groups g) /\ g_dim x = dim /\ inherits dim objs tools omap x e) ->
  exists g', group_preserving op g objs tools mats = Ret g' /\ well_formed g' /\
    preserved g g' dim objs tools omap mats /\
    ents (geo g') = ents ge /\ down (geo g') = down ge /\ coloured g' dim mats ge.
Proof. exact (group_preserving_ok op g objs tools mats dim ge omap). Qed.
Print Assumptions C80_preserved.

(** An entity has one material of the hierarchy at most, and it has one if what it is a piece of
    had one. *)
Theorem C80_one_material op g g' objs tools mats dim ge omap e :
  well_formed g -> accepted objs tools dim -> names_differ g dim -> NoDup (map m_name mats) ->
  op (geo g) objs tools = (ge, omap) -> length omap = (length objs + length tools)%nat ->
  (exists x e, In x (groups g) /\ g_dim x = dim /\ inherits dim objs tools omap x e) ->
  group_preserving op g objs tools mats = Ret g' ->
  (forall m n t u, In m mats -> In n mats ->
     has g' dim t (group_of m) e -> has g' dim u (group_of n) e -> m = n /\ t = u) /\
  (forall x m, In m mats -> In x (groups g) -> g_dim x = dim -> g_name x = group_of m ->
     inherits dim objs tools omap x e -> exists n t, In n mats /\ has g' dim t (group_of n) e).
Proof.
  intros W acc Hn Hm Eop Hl Hs E.
  destruct (group_preserving_ok op g objs tools mats dim ge omap W acc (or_intror Hn) Hm Eop Hl (or_intror Hs))
    as (g2 & E2 & _ & P & _).
  assert (g2 = g') by congruence. subst g2.
  exact (one_material_of g dim objs tools omap mats W acc Hl Hm g' P Hn e).
Qed.
Print Assumptions C80_one_material.

Example C80_preserved_ex : group_preserving ex_op ex [(2, 1)] [(2, 2)] [water; steel] =
  Ret (mkGm [mkG 2 1 "Material_Water" [4; 5]; mkG 2 2 "Cell" [3; 4; 5; 7]; mkG 2 5 "Material_Steel" [3; 7]]
    (geo (match group_preserving ex_op ex [(2, 1)] [(2, 2)] [water; steel] with Ret g => g | _ => ex end))) /\
  (forall g', group_preserving ex_op ex [(2, 1)] [(2, 2)] [water; steel] = Ret g' ->
     paint (geo g') (2, 3) = 100 /\ paint (geo g') (2, 4) = 200 /\ paint (geo g') (1, 40) = 200) /\
  exists g', group_preserving ex_op ex [(2, 1)] [(2, 2)] [water; steel] = Ret g' /\ well_formed g' /\
    preserved ex g' 2 [(2, 1)] [(2, 2)] [[(2, 3); (2, 4)]; [(2, 4); (2, 5)]] [water; steel] /\
    coloured g' 2 [water; steel] ex_geo'.
Proof.
  split; [reflexivity|]. split; [intros g' E; cbn in E; injection E as <-; auto|].
  destruct (C80_preserved ex_op ex [(2, 1)] [(2, 2)] [water; steel] 2 ex_geo' [[(2, 3); (2, 4)]; [(2, 4); (2, 5)]]
    ex_wf ex_accepted (or_intror ex_names)) as (g' & H1 & H2 & H3 & _ & _ & H4); auto.
  - cbn. repeat constructor; cbn; intuition discriminate.
  - right. exact ex_some.
  - eauto 8.
Qed.

(** groupPreservingCut: the same without a hierarchy; nothing is coloured. *)
Theorem C80_cut op g objs tools dim ge omap :
  well_formed g -> accepted objs tools dim ->
  op (geo g) objs tools = (ge, omap) -> length omap = (length objs + length tools)%nat ->
  exists g', group_preserving_cut op g objs tools = Ret g' /\ well_formed g' /\
    preserved g g' dim objs tools omap [] /\ geo g' = ge.
Proof. exact (cut_ok op g objs tools dim ge omap). Qed.
Print Assumptions C80_cut.

(** A cut that leaves nothing of the tool. *)
Example C80_cut_ex :
  exists g', group_preserving_cut (fun _ _ _ => (ex_geo', [[(2, 3)]; []])) ex [(2, 1)] [(2, 2)] = Ret g' /\
    groups g' = [mkG 2 2 "Cell" [3; 7]; mkG 2 5 "Material_Steel" [3; 7]] /\ geo g' = ex_geo'.
Proof. eexists. split; [reflexivity|]. auto. Qed.

(** Anything but surfaces with surfaces or volumes with volumes, both lists ascending without
    repetitions and not empty, is reported, and nothing is done. *)
Theorem C80_rejects op g objs tools mats : (forall dim, ~ accepted objs tools dim) ->
  group_preserving op g objs tools mats = Fail /\ group_preserving_cut op g objs tools = Fail.
Proof. exact (rejects op g objs tools mats). Qed.
Print Assumptions C80_rejects.
Example C80_rejects_ex : forall dim, ~ accepted [(2, 3); (2, 1)] [(2, 2)] dim.
Proof.
  intros dim (_ & _ & H & _). apply StronglySorted_inv in H as (_ & H). inversion H as [|? ? H1 _]; subst.
  unfold before in H1. cbn in H1. lia.
Qed.

(** The claim without its conditions is false in three ways.  If no group of the dimension is left,
    a hierarchy makes the colouring read the last of no groups. *)
Theorem C80_no_groups_refuted : exists op g objs tools mats dim ge omap,
  well_formed g /\ accepted objs tools dim /\ names_differ g dim /\ NoDup (map m_name mats) /\
  op (geo g) objs tools = (ge, omap) /\ length omap = (length objs + length tools)%nat /\
  group_preserving op g objs tools mats = Ub.
Proof.
  exists ex_op, (mkGm [] ex_geo), [(2, 1)], [(2, 2)], [steel], 2, ex_geo', [[(2, 3); (2, 4)]; [(2, 4); (2, 5)]].
  split; [split; [constructor|intros x []]|]. split; [exact ex_accepted|]. split; [intros x y []|].
  split; [repeat constructor; cbn; tauto|]. auto.
Qed.
Print Assumptions C80_no_groups_refuted.

(** If two groups have the name of one material, a piece can end up with two materials. *)
Theorem C80_same_name_refuted : exists op g objs tools mats dim ge omap g' e t u,
  well_formed g /\ accepted objs tools dim /\ NoDup (map m_name mats) /\
  op (geo g) objs tools = (ge, omap) /\ length omap = (length objs + length tools)%nat /\
  group_preserving op g objs tools mats = Ret g' /\
  In steel mats /\ In water mats /\
  has g' dim t (group_of steel) e /\ has g' dim u (group_of water) e.
Proof.
  exists ex_op, (mkGm [mkG 2 1 "Material_Water" [2]; mkG 2 2 "Material_Steel" [1]; mkG 2 3 "Material_Water" [2]] ex_geo),
    [(2, 1)], [(2, 2)], [steel; water], 2, ex_geo', [[(2, 3); (2, 4)]; [(2, 4); (2, 5)]].
  eexists. exists 4, 2, 1. split.
  { split; [cbn; asc|]. intros x Hx. cbn in Hx.
    repeat (destruct Hx as [<- |Hx]; [cbn; split; [lia|]; split; [discriminate|asc]|]). destruct Hx. }
  split; [exact ex_accepted|]. split; [cbn; repeat constructor; cbn; intuition discriminate|].
  split; [reflexivity|]. split; [reflexivity|]. split; [reflexivity|]. split; [cbn; auto|]. split; [cbn; auto|].
  split.
  - exists [3; 4]. cbn. auto.
  - exists [4; 5]. cbn. auto.
Qed.
Print Assumptions C80_same_name_refuted.

(** A material that the hierarchy lists twice loses all of its entities. *)
Theorem C80_twice_refuted : exists op g objs tools mats dim ge omap g' x e,
  well_formed g /\ accepted objs tools dim /\ names_differ g dim /\
  op (geo g) objs tools = (ge, omap) /\ length omap = (length objs + length tools)%nat /\
  group_preserving op g objs tools mats = Ret g' /\
  In x (groups g) /\ g_dim x = dim /\ In steel mats /\ g_name x = group_of steel /\
  inherits dim objs tools omap x e /\
  (forall y, In y (groups g) -> g_name y <> g_name x -> g_name y <> "Cell"%string -> ~ In 7 (g_ents y)) /\ e = 7 /\
  forall t e, ~ has g' dim t (group_of steel) e.
Proof.
  exists ex_op, ex, [(2, 1)], [(2, 2)], [steel; water; steel], 2, ex_geo', [[(2, 3); (2, 4)]; [(2, 4); (2, 5)]].
  eexists. exists (mkG 2 5 "Material_Steel" [1; 7]), 7.
  split; [exact ex_wf|]. split; [exact ex_accepted|]. split; [exact ex_names|].
  split; [reflexivity|]. split; [reflexivity|]. split; [reflexivity|].
  split; [cbn; auto|]. split; [reflexivity|]. split; [cbn; auto|]. split; [reflexivity|]. split.
  { exists 7. split; [cbn; auto|]. right. right. split; [|split; auto]; cbn; intros [E|[]]; discriminate. }
  split.
  { intros y Hy. cbn in Hy. repeat (destruct Hy as [<- |Hy]; [cbn; intros H1 H2; try congruence; lia|]). destruct Hy. }
  split; [reflexivity|].
  intros t e (es & Hin & _). cbn in Hin. repeat (destruct Hin as [E|Hin]; [discriminate|]). destruct Hin.
Qed.
Print Assumptions C80_twice_refuted.

(** * C81 *)

(** addToPhysicalGroup: a group of the name gets the entities and keeps its tag; if there is none,
    one is made with the tag that was asked for or a new one.  No other group changes. *)
Theorem C81_add g dim tags tag name : well_formed g -> ascending tags ->
  (tag < 0 \/ 0 < tag /\ forall x, In x (groups g) -> g_dim x = dim -> g_tag x <> tag) ->
  exists g' t, add_to_group g dim tags tag name = Ret g' /\ well_formed g' /\ geo g' = geo g /\
    (forall d u n e, has g' d u n e <-> has g d u n e \/ (d = dim /\ u = t /\ n = name /\ In e tags)) /\
    ((exists x, In x (groups g) /\ g_dim x = dim /\ g_name x = name /\ g_tag x = t) \/
     (forall x, In x (groups g) -> g_dim x = dim -> g_name x <> name /\ g_tag x <> t) /\ (0 < tag -> t = tag)).
Proof. exact (add_to_group_ok g dim tags tag name). Qed.
Print Assumptions C81_add.
Example C81_add_ex :
  (exists g', add_to_group ex 2 [1; 4] (-1) "Material_Water" = Ret g' /\
     groups g' = [mkG 1 1 "Edge" [9]; mkG 2 1 "Material_Water" [1; 2; 4]; mkG 2 2 "Cell" [1; 2; 7]; mkG 2 5 "Material_Steel" [1; 7]]) /\
  (exists g', add_to_group ex 2 [4] (-1) "Edge" = Ret g' /\
     groups g' = [mkG 1 1 "Edge" [9]; mkG 2 1 "Material_Water" [2]; mkG 2 2 "Cell" [1; 2; 7]; mkG 2 5 "Material_Steel" [1; 7]; mkG 2 6 "Edge" [4]]) /\
  well_formed ex /\ ascending [1; 4].
Proof.
  split; [eexists; split; reflexivity|]. split; [eexists; split; reflexivity|]. split; [exact ex_wf|]. asc.
Qed.

(** getMaterials: the list gets each material that a group is named after once, with the colour of
    the first entity of the first such group. *)
Theorem C81_materials g mats : well_formed g ->
  (forall x, In x (groups g) -> g_name x <> "Material"%string) ->
  exists new, get_materials g mats = Ret (mats ++ new) /\ NoDup (map m_name new) /\
    forall m, In m new <-> found g mats m.
Proof. exact (get_materials_ok g mats). Qed.
Print Assumptions C81_materials.
Example C81_materials_ex : get_materials ex [] = Ret [mkM "Water" 0; mkM "Steel" 0] /\
  forall x, In x (groups ex) -> g_name x <> "Material"%string.
Proof.
  split; [reflexivity|]. intros x Hx. cbn in Hx. repeat (destruct Hx as [<- |Hx]; [discriminate|]). destruct Hx.
Qed.

(** A group that is called just Material makes it throw. *)
Theorem C81_name_refuted : exists g mats, well_formed g /\ get_materials g mats = Fail.
Proof.
  exists (mkGm [mkG 2 1 "Material" [1]] ex_geo), []. split; [|reflexivity].
  split; [cbn; asc|]. intros x [<- |[]]. cbn. split; [lia|]. split; [discriminate|asc].
Qed.
Print Assumptions C81_name_refuted.
