(** C84: what overlayCoarseGrid makes of a gmsh model. *)
From Coq Require Import String.
From Coq Require Import Reals Lra.
From Coq Require Import List Arith ZArith Lia Sorted.
From Verif Require Import Base Loops Grid_Model Grid_Spec Mpact_Model Mpact_Spec.
From Verif Require Import Groups_Model Groups_Spec Groups_Ops_Proofs Coarse_Model Coarse_Spec Coarse_Proofs Overlay_Model Overlay_Spec Overlay_Proofs.
Import ListNotations.
Open Scope Z_scope.

(** Whatever shapes and fragments the geometry kernel makes: what is left of the model are the pieces of
    the coarse cells.  Each cell has a group of its name with its pieces, the other groups keep their
    pieces in the grid, and each piece has one material, one that it had before, or the fill material
    if it had no other, with the colour of that material.  What follows for a model of volumes is in Slice_Props. *)
Theorem C84_gridded : forall make op m fill g dim objs ps,
  consists (geo g) dim objs -> gridless g dim -> makes make -> adds make -> fragments op ->
  find_cells m = Ret (map Some ps) -> ps <> [] -> Z.of_nat (length ps) <= 100000 -> Forall solid_place ps ->
  exists g' ge1 tags ge omap, overlay make op m fill g = Ret g' /\ shapes make dim (geo g) ps ge1 tags /\
    op ge1 objs (map (pair dim) tags) = (ge, omap) /\ gridded g g' fill dim objs tags ge omap.
Proof. exact overlay_ok. Qed.
Print Assumptions C84_gridded.

(** The order of the materials: the fill material comes last, the others are kept, each once. *)
Theorem C84_order : forall mats fill, NoDup (map m_name mats) ->
  exists l f, order_materials mats fill = l ++ [f] /\ m_name f = m_name fill /\ NoDup (map m_name (l ++ [f])) /\
    (forall m, In m (l ++ [f]) <-> In m mats \/ (m = fill /\ ~ In (m_name fill) (map m_name mats))).
Proof. exact order_ok. Qed.
Print Assumptions C84_order.

(** The order of the others is not kept: the last takes the place of the fill material. *)
Theorem C84_order_refuted : exists mats fill a b l, NoDup (map m_name mats) /\
  mats = fill :: l ++ [a; b] /\ order_materials mats fill = b :: l ++ [a; fill].
Proof.
  exists [mkM "Water" 1; mkM "Fuel" 2; mkM "Clad" 3], (mkM "Water" 1), (mkM "Fuel" 2), (mkM "Clad" 3), [].
  split; [|split; reflexivity]. repeat constructor; cbn; intuition; discriminate.
Qed.
Print Assumptions C84_order_refuted.

(** A kernel that refuses shapes without extent refuses the grid if a cell does not occur in the core. *)
Theorem C84_absent : forall make op m fill g ps mats, find_cells m = Ret ps -> In None ps -> get_materials g [] = Ret mats ->
  (forall ge dim, make ge dim (mkPlace 0 0 0 0 0 0) = Fail) ->
  (forall ge dim p, make ge dim p = Fail \/ exists r, make ge dim p = Ret r) ->
  overlay make op m fill g = Fail.
Proof.
  intros make op m fill g ps mats Ef Hin Eg Hz Hany. unfold overlay.
  destruct (match entities (geo g) 3 with [] => (2, entities (geo g) 2) | o => (3, o) end) as (dim & objs).
  rewrite Ef. cbn [bind]. rewrite Eg. cbn [bind]. unfold lay_grid.
  assert (E : make_all make (geo g) dim ps = Fail); [|now rewrite E].
  clear -Hin Hz Hany. generalize (geo g) as ge. induction ps as [|p ps IH]; [destruct Hin|]. intros ge. cbn [make_all].
  destruct p as [p|].
  - destruct Hin as [|Hin]; [discriminate|]. destruct (Hany ge dim p) as [->|(r & ->)]; [reflexivity|]. cbn [bind]. rewrite IH; auto.
  - unfold no_place. now rewrite Hz.
Qed.
Print Assumptions C84_absent.

(** * A model of two overlapping surfaces, of fuel and of water, and a core of two cells. *)
Definition ex_make : maker := fun ge dim _ =>
  let t := 1 + fold_right (fun d m => Z.max (snd d) m) 0 (ents ge) in
  Ret (mkGeo (ents ge ++ [(dim, t)]) (down ge) (paint ge), t).
(** every shape covers the same piece, tools have one more *)
Definition ex_op : operation := fun ge objs tools =>
  let d := match objs with x :: _ => fst x | [] => 2 end in
  (mkGeo ((d, 1) :: map (fun k => (d, 2 + Z.of_nat k)) (seq 0 (length tools)))
     (fun x => [(fst x - 1, snd x)]) (fun _ => 0),
   map (fun _ => [(d, 1)]) objs ++ map (fun k => [(d, 2 + Z.of_nat k); (d, 1)]) (seq 0 (length tools))).
Lemma ex_makes : makes ex_make.
Proof.
  intros ge dim p _. do 2 eexists. split; [reflexivity|]. intros u Hu.
  induction (ents ge) as [|a l IH]; [destruct Hu|]. cbn [fold_right]. destruct Hu as [->|Hu]; [cbn [snd]; lia|]. specialize (IH Hu). lia.
Qed.
Lemma ex_adds : adds ex_make.
Proof.
  intros ge dim p ge' t E. injection E as <- <-. cbn. split; [apply in_app_iff; right; now left|].
  intros d Hd. apply in_app_iff. now left.
Qed.
Lemma ex_fragments : fragments ex_op.
Proof.
  intros ge objs tools ge' omap dim E (Ho & _ & _ & _ & Hd & _). unfold ex_op in E. cbv zeta in E. apply pair_equal_spec in E as (<- & <-).
  assert (Ed : match objs with x :: _ => fst x | [] => 2 end = dim).
  { destruct objs as [|x objs]; [congruence|]. apply Hd. now left. }
  rewrite Ed. split; [rewrite app_length, !map_length, seq_length; reflexivity|]. split; [|split].
  - cbn [ents]. assert (H : forall n s, ascending_pairs (map (fun k => (dim, 2 + Z.of_nat k)) (seq s n))).
    { induction n as [|n IH]; intros s; [constructor|]. cbn [seq map]. apply ascp_cons. split; auto.
      intros b Hb. apply in_map_iff in Hb as (k & <- & Hk). apply in_seq in Hk. right. cbn [fst snd]. lia. }
    apply ascp_cons. split; auto. intros b Hb. apply in_map_iff in Hb as (k & <- & Hk). right. cbn [fst snd]. lia.
  - intros cs Hcs. cbn [ents]. apply in_app_iff in Hcs as [H|H]; apply in_map_iff in H as (k & <- & Hk); (split; [discriminate|]).
    + intros c [<-|[]]. split; auto. now left.
    + intros c [<-|[<-|[]]]; (split; [|reflexivity]); [right; apply in_map_iff; eauto|now left].
  - intros d d' [<-|[]]. cbn [fst]. lia.
Qed.
Definition ex_core : model := mkModel
  ([[0; 3]; [0; 1]]%R, [0])
  [([[0; 4]]%R, [0])]
  [(lattice_grid 3 1 1 1, [0])]
  [([[0; 1; 3]; [0; 1]]%R, [1; 0])]
  [mkCell (2, 1)%R MT_Invalid (-1) []; mkCell (1, 1)%R MT_Invalid (-1) []]
  [] [] [] [] [].
Ltac asc_list := intros [|[|[|i]]] [|[|[|j]]] a b Hij Ha Hb; cbn in Ha, Hb; try lia; try discriminate;
  try (destruct i; discriminate); try (destruct j; discriminate); injection Ha as <-; injection Hb as <-; lra.
Lemma ex_valid : ids_valid ex_core.
Proof.
  constructor; cbn.
  - repeat constructor; cbn; lia.
  - intros a [<-|[]]. repeat constructor; cbn; lia.
  - intros a [<-|[]]. repeat constructor; cbn; lia.
  - intros a [<-|[]]. repeat constructor; cbn; lia.
  - intros c Hc. repeat destruct Hc as [<-|Hc]; try (split; [cbn; lra|]; split; [cbn; lra|left; reflexivity]). destruct Hc.
Qed.
Lemma ex_consistent : consistent true ex_core.
Proof.
  constructor; cbn [ex_core core assemblies lattices rtms].
  - intros r0 r E [<-|[]]. cbn in E. injection E as <-. exists 3%R, 1%R, 3%R, 1%R.
    assert (X : extent (fst ([[0; 1; 3]; [0; 1]]%R, [1%Z; 0%Z])) 3 1).
    { exists [0; 1; 3]%R, [0; 1]%R, 0%R, 3%R, 0%R, 1%R. repeat split; cbn; lra. }
    split; [exact X|]. split; [exact X|]. unfold near, eps. lra.
  - intros l [<-|[]]. exists ([[0; 1; 3]; [0; 1]]%R, [1; 0]), 3%R, 1%R, 1, 1. split; [reflexivity|].
    split. { exists [0; 1; 3]%R, [0; 1]%R, 0%R, 3%R, 0%R, 1%R. repeat split; cbn; lra. }
    split; [reflexivity|]. cbn. lia.
  - intros a [<-|[]]. exists [0; 4]%R, 0%R, 4%R. split; [reflexivity|]. split; [discriminate|]. split; [reflexivity|].
    split; [asc_list|]. split; [split; reflexivity|]. split.
    + intros a0 z0 E E2 b t (E3 & E4). cbn in E. injection E as <-. injection E2 as <-. cbn in E3, E4. injection E3 as <-. injection E4 as <-.
      rewrite !Rminus_eq_0, Rabs_R0. unfold eps. lra.
    + intros i j l l' Hi Hj (_ & H1) (_ & H2). cbn in Hi, Hj.
      assert (i = 0%Z) by intuition. assert (j = 0%Z) by intuition. subst. cbn in H1, H2. congruence.
  - intros _ r [<-|[]]. exists [0; 1; 3]%R, [0; 1]%R. repeat split; cbn; try lia; asc_list.
  - intros _ _. exists [0; 3]%R, [0; 1]%R. repeat split; cbn; try lia; asc_list.
Qed.
Lemma ex_places : exists p0 p1, find_cells ex_core = Ret (map Some [p0; p1]) /\ Forall solid_place [p0; p1].
Proof.
  rewrite (find_ok ex_core ex_valid ex_consistent).
  - cbn -[Rplus Rmult Rdiv Rminus INR]. do 2 eexists. split; [reflexivity|].
    repeat constructor; cbn -[Rplus Rmult Rdiv Rminus INR]; lra.
  - split; [cbn; lia|]. split; intros x [<-|[]]; cbn; lia.
  - intros l [<-|[]]. discriminate.
  - discriminate.
Qed.
Definition water : Groups_Model.material := mkM "Water" 9.
Definition ex : gm := mkGm [mkG 2 1 "Material_Fuel" [4]; mkG 2 3 "Material_Water" [5]; mkG 2 4 "Pin" [4]]
  (mkGeo [(1, 1); (2, 4); (2, 5)] (fun _ => []) (fun d => if snd d =? 4 then 7 else 8)).
Ltac in_all H := repeat (destruct H as [<-|H]); try destruct H.
Lemma ex_gridless : gridless ex 2.
Proof.
  constructor.
  - cbn. repeat (constructor; auto; try (unfold before; cbn; lia)).
  - split; [cbn; repeat (constructor; auto; try (unfold before; cbn; lia))|].
    intros x Hx. cbn in Hx. in_all Hx; cbn; (split; [lia|]; split; [discriminate|]; repeat constructor).
  - intros x e Hx He. cbn in Hx. in_all Hx; cbn in He; in_all He; cbn; auto.
  - intros x y Hx Hy _ _ E. cbn in Hx, Hy. in_all Hx; in_all Hy; auto; cbn in E; discriminate.
  - intros x Hx Hst. cbn in Hx. in_all Hx; [exists "Fuel"%string; reflexivity|exists "Water"%string; reflexivity|].
    destruct Hst as (r & Hr). discriminate.
  - intros x Hx _ (r & Hr). cbn in Hx. in_all Hx; discriminate.
Qed.
Lemma ex_consists : consists (geo ex) 2 [(2, 4); (2, 5)].
Proof.
  split; [right; split; auto; intros t H; cbn in H; intuition; discriminate|]. split; [discriminate|]. split.
  - repeat (constructor; auto; try (unfold before; cbn; lia)).
  - intros d. cbn. split; [intros [<-|[<-|[]]]; auto|]. intros ([<-|[<-|[<-|[]]]] & E); auto. discriminate.
Qed.
Example C84_ex : exists g' ge1 tags ge omap ps, overlay ex_make ex_op ex_core water ex = Ret g' /\
  shapes ex_make 2 (geo ex) ps ge1 tags /\ gridded ex g' water 2 [(2, 4); (2, 5)] tags ge omap.
Proof.
  destruct ex_places as (p0 & p1 & E & Hs).
  destruct (C84_gridded ex_make ex_op ex_core water ex 2 [(2, 4); (2, 5)] [p0; p1] ex_consists ex_gridless ex_makes ex_adds
              ex_fragments E) as (g' & ge1 & tags & ge & omap & E' & Sh & _ & G); auto; [discriminate|cbn; lia|].
  exists g', ge1, tags, ge, omap, [p0; p1]. auto.
Qed.
(** The common piece is fuel, the others are water with the colour it has in the model. *)
Example C84_ex_groups : exists g', overlay ex_make ex_op ex_core water ex = Ret g' /\
  groups g' = [mkG 2 1 "Material_Fuel" [1]; mkG 2 3 "Material_Water" [2; 3]; mkG 2 4 "Pin" [1];
               mkG 2 5 "Coarse_Cell_00000" [1; 2]; mkG 2 6 "Coarse_Cell_00001" [1; 3]] /\
  map (paint (geo g')) [(2, 1); (2, 2); (2, 3)] = [7; 8; 8] /\ ents (geo g') = [(2, 1); (2, 2); (2, 3)].
Proof.
  destruct ex_places as (p0 & p1 & E & _). unfold overlay. rewrite E. eexists. split; [vm_compute; reflexivity|]. vm_compute. auto.
Qed.
