(** C84: what overlayCoarseGrid makes of a gmsh model of surfaces, and of one of volumes. *)
From Coq Require Import String.
From Coq Require Import Reals Lra.
From Coq Require Import List Arith ZArith Lia Bool Sorted.
From Verif Require Import Base Loops Mpact_Model Mpact_Spec.
From Verif Require Import Groups_Model Groups_Spec Groups_Ops_Proofs Coarse_Model Coarse_Spec Overlay_Model Overlay_Spec Overlay_Props Slice_Model Slice_Spec Slice_Proofs.
Import ListNotations.
Open Scope Z_scope.

(** A model of surfaces. *)
Theorem C84_surfaces : forall make fragment intersect m fill g objs ps,
  consists (geo g) 2 objs -> gridless g 2 -> makes make -> adds make -> fragments fragment ->
  find_cells m = Ret (map Some ps) -> ps <> [] -> Z.of_nat (length ps) <= 100000 -> Forall solid_place ps ->
  exists g' ge1 tags ge omap, overlay_grid make fragment intersect m fill g = Ret g' /\ shapes make 2 (geo g) ps ge1 tags /\
    fragment ge1 objs (map (pair 2) tags) = (ge, omap) /\ gridded g g' fill 2 objs tags ge omap.
Proof. exact flat_grid_ok. Qed.
Print Assumptions C84_surfaces.

(** A model of volumes: boxes are laid over it as over a model of surfaces, which gives [g1]; then the surfaces
    of [g1] are intersected with the rectangles of the cells.  If some surface that bounds a volume of a group
    lies in a rectangle, the result is what the surfaces have in common with the rectangles, with the groups of
    the volumes that they bound. *)
Theorem C84_volumes : forall make fragment intersect m fill g objs ps,
  consists (geo g) 3 objs -> gridless g 3 -> makes make -> adds make -> fragments fragment -> closes fragment -> intersects intersect ->
  find_cells m = Ret (map Some ps) -> ps <> [] -> Z.of_nat (length ps) <= 100000 -> Forall solid_place ps ->
  exists g1 ge1 tags ge omap,
    (shapes make 3 (geo g) ps ge1 tags /\ fragment ge1 objs (map (pair 3) tags) = (ge, omap) /\ gridded g g1 fill 3 objs tags ge omap) /\
    exists surf ge2 tags2 ge3 ge4 omap2,
      (surfaces (geo g1) surf /\ shapes make 2 (geo g1) ps ge2 tags2 /\ hollow ge2 ge3 /\ intersect ge3 surf (map (pair 2) tags2) = (ge4, omap2)) /\
      ((exists n e, bounds_group g1 surf tags2 omap2 n e) ->
       exists g', overlay_grid make fragment intersect m fill g = Ret g' /\ sliced g g1 g' fill surf tags2 ge4 omap2).
Proof. exact solid_grid_ok. Qed.
Print Assumptions C84_volumes.

(** * Volumes of fuel and water.  Every volume and surface is bounded by one thing with its number. *)
Definition frag : operation := fun ge objs tools =>
  let d := match objs with x :: _ => fst x | [] => 2 end in
  (mkGeo (map (fun k => (d - 1, 1 + Z.of_nat k)) (seq 0 (S (length tools))) ++ map (fun k => (d, 1 + Z.of_nat k)) (seq 0 (S (length tools))))
     (fun x => if fst x =? d then [(d - 1, snd x)] else []) (fun _ => 0),
   map (fun _ => [(d, 1)]) objs ++ map (fun k => [(d, 2 + Z.of_nat k); (d, 1)]) (seq 0 (length tools))).
Lemma asc_map d f n : (forall a b, (a < b)%nat -> f a < f b) -> forall s, ascending_pairs (map (fun k => (d, f k)) (seq s n)).
Proof.
  intros Hf. induction n as [|n IH]; intros s; [constructor|]. cbn [seq map]. apply ascp_cons. split; auto.
  intros b Hb. apply in_map_iff in Hb as (k & <- & Hk). apply in_seq in Hk. right. cbn [fst snd]. split; auto. apply Hf. lia.
Qed.
Lemma asc_both a b : ascending_pairs a -> ascending_pairs b -> (forall x y, In x a -> In y b -> before x y) -> ascending_pairs (a ++ b).
Proof.
  intros Ha Hb H. induction a as [|x a IH]; auto. cbn. apply ascp_cons in Ha as (Ha & Hx). apply ascp_cons. split; [apply IH; auto; intros; apply H; auto; now right|].
  intros y Hy. apply in_app_iff in Hy as [Hy|Hy]; auto. apply H; auto. now left.
Qed.
Lemma frag_ok : fragments frag.
Proof.
  intros ge objs tools ge' omap dim E (Ho & _ & _ & _ & Hd & _). unfold frag in E. cbv zeta in E. apply pair_equal_spec in E as (<- & <-).
  assert (Ed : match objs with x :: _ => fst x | [] => 2 end = dim).
  { destruct objs as [|x objs]; [congruence|]. apply Hd. now left. }
  rewrite Ed. split; [rewrite app_length, !map_length, seq_length; reflexivity|]. split; [|split].
  - cbn [ents]. apply asc_both.
    + apply asc_map. lia.
    + apply asc_map. lia.
    + intros x y Hx Hy. apply in_map_iff in Hx as (i & <- & _). apply in_map_iff in Hy as (j & <- & _). left. cbn [fst]. lia.
  - intros cs Hcs. cbn [ents]. apply in_app_iff in Hcs as [H|H]; apply in_map_iff in H as (k & <- & Hk); (split; [discriminate|]).
    + intros c [<-|[]]. split; auto. apply in_app_iff. right. apply in_map_iff. exists O. split; auto. apply in_seq. lia.
    + apply in_seq in Hk. intros c [<-|[<-|[]]]; (split; [|reflexivity]); apply in_app_iff; right; apply in_map_iff.
      * exists (S k). split; [f_equal; lia|]. apply in_seq. lia.
      * exists O. split; auto. apply in_seq. lia.
  - intros d d' H. cbn [down] in H. destruct (Z.eqb_spec (fst d) dim); [|destruct H]. destruct H as [<-|[]]. cbn [fst]. lia.
Qed.
Lemma frag_closes : closes frag.
Proof.
  intros ge objs tools ge' omap E d d' Hd Hd'. unfold frag in E. cbv zeta in E. apply pair_equal_spec in E as (<- & _).
  set (dim := match objs with x :: _ => fst x | [] => 2 end) in *. cbn [ents down] in *.
  destruct (Z.eqb_spec (fst d) dim) as [Ed|]; [|destruct Hd']. destruct Hd' as [<-|[]]. apply in_app_iff. left. apply in_map_iff.
  apply in_app_iff in Hd as [H|H]; apply in_map_iff in H as (k & <- & Hk); cbn [fst snd] in *; [lia|]. exists k. auto.
Qed.
(** the i-th surface has one piece in common with the i-th rectangle, and all the surfaces left over with the last *)
Definition common : operation := fun ge objs tools =>
  let d := match objs with x :: _ => fst x | [] => 2 end in
  (mkGeo (map (fun k => (d, 50 + Z.of_nat k)) (seq 0 (length tools))) (fun _ => []) (fun _ => 0),
   map (fun k => [(d, 50 + Z.of_nat (Nat.min k (length tools - 1)))]) (seq 0 (length objs)) ++
   map (fun k => [(d, 50 + Z.of_nat k)]) (seq 0 (length tools))).
Lemma common_ok : intersects common.
Proof.
  intros ge objs tools ge' omap dim E (Ho & Ht & _ & _ & Hd & _). unfold common in E. cbv zeta in E. apply pair_equal_spec in E as (<- & <-).
  assert (Ed : match objs with x :: _ => fst x | [] => 2 end = dim).
  { destruct objs as [|x objs]; [congruence|]. apply Hd. now left. }
  rewrite Ed. split; [rewrite app_length, !map_length, !seq_length; reflexivity|]. split; [|split].
  - cbn [ents]. apply asc_map. lia.
  - intros cs c Hcs Hc. cbn [ents]. apply in_app_iff in Hcs as [H|H]; apply in_map_iff in H as (k & <- & Hk).
    + destruct Hc as [<-|[]]. split; auto. apply in_map_iff. eexists. split; [reflexivity|]. apply in_seq. destruct tools; [congruence|cbn [length]; lia].
    + destruct Hc as [<-|[]]. split; auto. apply in_map_iff. exists k. auto.
  - intros d d' [].
Qed.
Definition ex3 : gm := mkGm [mkG 3 1 "Material_Fuel" [4]; mkG 3 3 "Material_Water" [5]; mkG 3 4 "Pin" [4]]
  (mkGeo [(2, 1); (3, 4); (3, 5)] (fun _ => []) (fun d => if snd d =? 4 then 7 else 8)).
Lemma ex3_gridless : gridless ex3 3.
Proof.
  constructor.
  - cbn. repeat (constructor; auto; try (unfold before; cbn; lia)).
  - split; [cbn; repeat (constructor; auto; try (unfold before; cbn; lia))|].
    intros x Hx. cbn in Hx. in_all Hx; cbn; (split; [lia|]; split; [discriminate|]; repeat constructor).
  - intros x e Hx He. cbn in Hx. in_all Hx; cbn in He; in_all He; cbn; auto.
  - intros x y Hx Hy _ _ E. cbn in Hx, Hy. in_all Hx; in_all Hy; auto; cbn in E; discriminate.
  - intros x Hx Hst. cbn in Hx. in_all Hx; [exists "Fuel"%string; reflexivity|exists "Water"%string; reflexivity|].
    destruct Hst as (r & Hr). discriminate.
  - intros x Hx _ (r & Hr). cbn in Hx. in_all Hx; discriminate.
Qed.
Lemma ex3_consists : consists (geo ex3) 3 [(3, 4); (3, 5)].
Proof.
  split; [now left|]. split; [discriminate|]. split.
  - repeat (constructor; auto; try (unfold before; cbn; lia)).
  - intros d. cbn. split; [intros [<-|[<-|[]]]; auto|]. intros ([<-|[<-|[<-|[]]]] & E); auto. discriminate.
Qed.
Example C84_volumes_ex : exists g', overlay_grid ex_make frag common ex_core water ex3 = Ret g' /\
  groups g' = [mkG 2 1 "Material_Fuel" [50]; mkG 2 2 "Material_Water" [51]; mkG 2 3 "Pin" [50];
               mkG 2 4 "Coarse_Cell_00000" [50; 51]; mkG 2 5 "Coarse_Cell_00001" [50; 51]] /\
  ents (geo g') = [(2, 50); (2, 51)] /\ map (paint (geo g')) [(2, 50); (2, 51)] = [7; 8].
Proof. destruct ex_places as (p0 & p1 & E & _). unfold overlay_grid. rewrite E. eexists. split; [vm_compute; reflexivity|]. vm_compute. auto. Qed.
Lemma in_range (l : list dimtag) k x : nth_error l k = Some x -> (k < length l)%nat.
Proof. intros E. apply nth_error_Some. rewrite E. discriminate. Qed.
Example C84_volumes_ex_met : exists g1 g' surf tags ge omap, overlay_grid ex_make frag common ex_core water ex3 = Ret g' /\
  (exists n e, bounds_group g1 surf tags omap n e) /\ sliced ex3 g1 g' water surf tags ge omap.
Proof.
  destruct ex_places as (p0 & p1 & E & Hs).
  destruct (C84_volumes ex_make frag common ex_core water ex3 [(3, 4); (3, 5)] [p0; p1] ex3_consists ex3_gridless ex_makes ex_adds
              frag_ok frag_closes common_ok E) as (g1 & ge1 & tags & ge & omap & (Sh & Eo & G) & surf & ge2 & tags2 & ge3 & ge4 & omap2 & (Su & Sh2 & Ho & Ei) & H); auto; [discriminate|cbn; lia|].
  assert (B : exists n e, bounds_group g1 surf tags2 omap2 n e).
  { inversion Sh as [|? ? ? ? ? ? ? M1 S1]; subst. inversion S1 as [|? ? ? ? ? ? ? M2 S2]; subst. inversion S2; subst. clear Sh S1 S2.
    cbn in M1. apply (f_equal (fun o => match o with Ret r => r | _ => (ge1, 0) end)) in M1. apply pair_equal_spec in M1 as (<- & <-).
    cbn in M2. apply (f_equal (fun o => match o with Ret r => r | _ => (ge1, 0) end)) in M2. apply pair_equal_spec in M2 as (<- & <-).
    vm_compute in Eo. apply pair_equal_spec in Eo as (<- & <-).
    assert (Cell : exists u, has g1 3 u (cell_name 0) 1).
    { apply (gr_cells _ _ _ _ _ _ _ _ G 0 1); [cbn; lia|]. exists 6. split; [reflexivity|]. right. left.
      split; [cbn; intuition discriminate|]. exists O, [(3, 2); (3, 1)], (3, 1). cbn. repeat split; auto. }
    destruct Cell as (u & Hu). destruct (gr_ordered _ _ _ _ _ _ _ _ G) as (_ & Dn).
    assert (S21 : In (2, 1) surf).
    { apply Su. split; auto. apply (gr_bounds _ _ _ _ _ _ _ _ G 1); [|cbn; auto|cbn; auto].
      apply (gr_left _ _ _ _ _ _ _ _ G). apply (gr_dim _ _ _ _ _ _ _ _ G) in Hu. tauto. }
    destruct (In_nth_error _ _ S21) as (k & Ek).
    exists (cell_name 0), (50 + Z.of_nat (Nat.min k 1)), u, 1, 1. split; auto. split; [rewrite Dn; cbn; auto|]. left.
    exists k, [(2, 50 + Z.of_nat (Nat.min k 1))], (2, 50 + Z.of_nat (Nat.min k 1)). split; auto. split; [|cbn; auto].
    inversion Sh2 as [|? ? ? ? ? ? ? M1 S1]; subst. inversion S1 as [|? ? ? ? ? ? ? M2 S2]; subst. inversion S2; subst.
    unfold common in Ei. cbv zeta in Ei. apply pair_equal_spec in Ei as (_ & <-).
    assert (Hk : (k < length surf)%nat) by exact (in_range surf k (2, 1) Ek).
    assert (Ed : match surf with x :: _ => fst x | [] => 2 end = 2).
    { destruct surf as [|s0 surf]; auto. apply (proj2 Su s0). now left. }
    rewrite Ed, nth_error_app1 by (rewrite map_length, seq_length; auto).
    rewrite nth_error_map, (nth_error_nth' _ 0%nat) by (rewrite seq_length; auto). rewrite seq_nth by auto. reflexivity. }
  destruct (H B) as (g' & E' & Sl). exists g1, g', surf, tags2, ge4, omap2. auto.
Qed.

(** If no surface lies in a rectangle, the end of a list of no groups is read. *)
Definition apart : operation := fun ge objs tools => (mkGeo [] (fun _ => []) (fun _ => 0), map (fun _ => []) (objs ++ tools)).
Lemma apart_ok : intersects apart.
Proof.
  intros ge objs tools ge' omap dim E _. apply pair_equal_spec in E as (<- & <-). split; [rewrite map_length, app_length; reflexivity|].
  split; [constructor|]. split; [|intros d d' []]. intros cs c H Hc. apply in_map_iff in H as (x & <- & _). destruct Hc.
Qed.
Theorem C84_apart_refuted : exists (make : maker) (fragment intersect : operation) (m : model) (fill : material) (g : gm) (objs : list dimtag) (ps : list place),
  consists (geo g) 3 objs /\ gridless g 3 /\ makes make /\ adds make /\ fragments fragment /\ closes fragment /\ intersects intersect /\
  find_cells m = Ret (map Some ps) /\ ps <> [] /\ Z.of_nat (length ps) <= 100000 /\ Forall solid_place ps /\
  overlay_grid make fragment intersect m fill g = Ub.
Proof.
  destruct ex_places as (p0 & p1 & E & Hs). exists ex_make, frag, apart, ex_core, water, ex3, [(3, 4); (3, 5)], [p0; p1].
  refine (conj ex3_consists (conj ex3_gridless (conj ex_makes (conj ex_adds (conj frag_ok (conj frag_closes (conj apart_ok (conj E _)))))))).
  split; [discriminate|]. split; [cbn; lia|]. split; [exact Hs|]. unfold overlay_grid. rewrite E. vm_compute. reflexivity.
Qed.
Print Assumptions C84_apart_refuted.
