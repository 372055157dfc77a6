From Coq Require Import String.
From Coq Require Import List Arith ZArith Bool Reals Lra Lia Permutation.
From Verif Require Import Base Loops Arith Fill Box_Proofs Sort_Spec Soup_Spec Soup_Final_Proofs Fvm_Model Fvm_Spec Fvm_Proofs Fvm_Query_Proofs Grid_Model Grid_Spec Grid_Proofs Mpact_Model Mpact_Spec Mpact_Proofs Mpact_Steps_Proofs Mpact_Accept_Proofs Mpact_Layout_Proofs CApi_Model CApi_Spec CApi_Proofs.
Import ListNotations.
Local Open Scope list_scope.
Local Open Scope R_scope.

(** the lists are determined by what occurs *)
Theorem lists_unique occ1 occ2 ids1 hs1 ids2 hs2 : clustered (fun i h => occ1 i h \/ occ2 i h) -> agree occ1 occ2 ->
  lists occ1 ids1 hs1 -> ordered ids1 hs1 -> lists occ2 ids2 hs2 -> ordered ids2 hs2 ->
  ids1 = ids2 /\ Forall2 close hs1 hs2.
Proof.
  intros HC [G1 G2] (L1 & A1 & B1 & D1) O1 (L2 & A2 & B2 & D2) O2.
  assert (E : forall (ids : list Z) (hs : list R), length ids = length hs -> map fst (combine ids hs) = ids /\ map snd (combine ids hs) = hs).
  { induction ids as [|x ids IH]; intros [|h hs] H; try discriminate; auto. cbn. destruct (IH hs) as [-> ->]; auto. }
  destruct (E _ _ L1) as [E1 E1']. destruct (E _ _ L2) as [E2 E2'].
  remember (combine ids1 hs1) as l1 eqn:H1. remember (combine ids2 hs2) as l2 eqn:H2. clear H1 H2 E. subst ids1 hs1 ids2 hs2.
  assert (K1 : forall id h, In (id, h) l1 -> occ1 id h). { intros id h H. apply In_nth_error in H as (i & Hi). eapply A1. apply item_iff. eauto. }
  assert (K2 : forall id h, In (id, h) l2 -> occ2 id h). { intros id h H. apply In_nth_error in H as (i & Hi). eapply A2. apply item_iff. eauto. }
  assert (Q : forall l, ordered (map fst l) (map snd l) -> seq_ordered l).
  { intros l O i j [p hp] [q hq] Hij Hi Hj. destruct (O i j p q hp hq Hij) as [X Y]; [now apply item_iff|now apply item_iff|].
    apply cmp_true. cbn [fst snd]. destruct (close_dec hp hq); [left|right]; auto. }
  assert (F : Forall2 same l1 l2).
  { apply (unique_lists_aux (fun p => occ1 (fst p) (snd p) \/ occ2 (fst p) (snd p))).
    - intros p q r Hp Hq Hr. apply (HC (fst p) (fst q) (fst r)); auto.
    - apply Forall_forall. intros [p h] H. left. apply K1. auto.
    - apply Forall_forall. intros [p h] H. right. apply K2. auto.
    - now apply Q.
    - now apply Q.
    - intros [p h] H. destruct (G1 p h (K1 _ _ H)) as (h' & Ho & Hc). destruct (B2 p h' Ho) as (j & h'' & Hj & Hc').
      apply item_iff in Hj. exists (p, h''). split; [eapply nth_error_In; eauto|]. split; [reflexivity|]. cbn [snd].
      apply (HC p p p h h' h''); auto; [right; eapply K2, nth_error_In; eauto|now apply close_sym].
    - intros [p h] H. destruct (G2 p h (K2 _ _ H)) as (h' & Ho & Hc). destruct (B1 p h' Ho) as (j & h'' & Hj & Hc').
      apply item_iff in Hj. exists (p, h''). split; [eapply nth_error_In; eauto|]. split; [reflexivity|]. cbn [snd].
      apply (HC p p p h'' h' h); auto; [left; eapply K1, nth_error_In; eauto|now apply close_sym]. }
  clear -F. induction F as [|p q l1 l2 Hs F IH]; [split; [reflexivity|constructor]|]. destruct IH as [IH1 IH2], Hs as [S1 S2]. cbn [map]. rewrite IH1, S1. auto.
Qed.

Section Heights.
Context (stdsort : forall A : Type, (A -> A -> bool) -> list A -> list A) (Hstd : sort_contract stdsort).
Context (checks : bool) (m : model) (HV : ids_valid m) (HC : consistent checks m).
Theorem lattice_heights_ok : clustered (lattice_occurs m) ->
  exists n ids hs, um2MPACTLatticeHeights stdsort m = Ret (n, ids, hs) /\ n = Z.of_nat (length ids) /\ lists (lattice_occurs m) ids hs /\ ordered ids hs.
Proof.
  intros H. unfold um2MPACTLatticeHeights. rewrite (lattice_pairs_ok checks m HV HC).
  destruct (output_defined stdsort _ (lats m) (In_lats checks m HV HC) H) as (n & ids & hs & E). exists n, ids, hs. split; auto.
  eapply (output_lists stdsort Hstd _ _ (In_lats checks m HV HC)); eauto.
Qed.
Theorem rtm_heights_ok : clustered (rtm_occurs m) ->
  exists n ids hs, um2MPACTRTMHeights stdsort m = Ret (n, ids, hs) /\ n = Z.of_nat (length ids) /\ lists (rtm_occurs m) ids hs /\ ordered ids hs.
Proof.
  intros H. unfold um2MPACTRTMHeights. rewrite (rtm_pairs_ok checks m HV HC).
  destruct (output_defined stdsort _ (rtms_at m) (In_rtms_at checks m HV HC) H) as (n & ids & hs & E). exists n, ids, hs. split; auto.
  eapply (output_lists stdsort Hstd _ _ (In_rtms_at checks m HV HC)); eauto.
Qed.
Theorem cell_heights_ok : clustered (cell_occurs m) ->
  exists n ids hs, um2MPACTCoarseCellHeights stdsort m = Ret (n, ids, hs) /\ n = Z.of_nat (length ids) /\ lists (cell_occurs m) ids hs /\ ordered ids hs.
Proof.
  intros H. unfold um2MPACTCoarseCellHeights. rewrite (cell_pairs_ok checks m HV HC).
  destruct (output_defined stdsort _ (cells_at m) (In_cells_at checks m HV HC) H) as (n & ids & hs & E). exists n, ids, hs. split; auto.
  eapply (output_lists stdsort Hstd _ _ (In_cells_at checks m HV HC)); eauto.
Qed.
(** without [clustered]: what is returned, if anything is *)
Theorem heights_returned n ids hs :
  (um2MPACTLatticeHeights stdsort m = Ret (n, ids, hs) -> n = Z.of_nat (length ids) /\ lists (lattice_occurs m) ids hs /\ ordered ids hs) /\
  (um2MPACTRTMHeights stdsort m = Ret (n, ids, hs) -> n = Z.of_nat (length ids) /\ lists (rtm_occurs m) ids hs /\ ordered ids hs) /\
  (um2MPACTCoarseCellHeights stdsort m = Ret (n, ids, hs) -> n = Z.of_nat (length ids) /\ lists (cell_occurs m) ids hs /\ ordered ids hs).
Proof.
  unfold um2MPACTLatticeHeights, um2MPACTRTMHeights, um2MPACTCoarseCellHeights.
  rewrite (lattice_pairs_ok checks m HV HC), (rtm_pairs_ok checks m HV HC), (cell_pairs_ok checks m HV HC). split; [|split]; intros E.
  - eapply (output_lists stdsort Hstd _ _ (In_lats checks m HV HC)); eauto.
  - eapply (output_lists stdsort Hstd _ _ (In_rtms_at checks m HV HC)); eauto.
  - eapply (output_lists stdsort Hstd _ _ (In_cells_at checks m HV HC)); eauto.
Qed.

(** the heights of an assembly *)
Theorem assembly_heights_ok id a z buf : at_ (assemblies m) id a -> fst a = [z] -> (length (snd a) <= length buf)%nat ->
  exists hs, um2MPACTAssemblyHeights m id buf = Ret (hs ++ skipn (length (snd a)) buf) /\ length hs = length (snd a) /\
    (forall i h, nth_error hs i = Some h -> exists lo hi, nth_error z i = Some lo /\ nth_error z (S i) = Some hi /\ h = hi - lo) /\
    (forall bot top, first_last z bot top -> fold_right Rplus 0 hs = top - bot).
Proof.
  intros Ha Hz Hb. pose proof Ha as [Ha0 Ha1]. pose proof (nth_error_In _ _ Ha1) as HIn.
  exists (map snd (layers a)). unfold um2MPACTAssemblyHeights. rewrite (proj1 (at_rdz _ _ _) Ha). cbn [bind].
  assert (LL : length (layers a) = length (snd a)) by (unfold layers; now rewrite map_length, seq_length).
  split; [|split; [|split]].
  - rewrite <- (firstn_skipn (length (snd a)) buf) at 1.
    rewrite (fill_range _ (fun i => snd (layer a i)) (length (snd a)) 0 [] (firstn (length (snd a)) buf) (skipn (length (snd a)) buf)).
    + unfold layers. now rewrite map_map.
    + intros j s Hj Hs. destruct (layer_ok checks m HV HC a j HIn) as (z' & lo & hi & _ & _ & _ & _ & H4 & H5 & _); [lia|].
      rewrite H5, H4. cbn [bind]. now rewrite Nat.sub_0_r.
    + rewrite firstn_length. lia.
  - now rewrite map_length.
  - intros i h Hi. rewrite nth_error_map in Hi. destruct (nth_error (layers a) i) as [p|] eqn:E; [|discriminate]. cbn in Hi. injection Hi as <-.
    assert (Hli : (i < length (snd a))%nat) by (rewrite <- LL; apply nth_error_Some; congruence).
    unfold layers in E. rewrite nth_error_map_seq in E by auto. injection E as <-.
    destruct (layer_ok checks m HV HC a i HIn Hli) as (z' & lo & hi & Hz' & H1 & H2 & _ & H4 & _).
    assert (z' = z) by congruence. subst z'. eauto.
  - intros bot top [Hbot Htop].
    assert (Lz : length z = S (length (snd a))).
    { destruct (assembly_shape _ _ HC a HIn) as (z' & ? & ? & Hz' & _ & Lz' & _). congruence. }
    assert (T : forall n, (n <= length (snd a))%nat -> fold_right Rplus 0 (map snd (map (layer a) (seq 0 n))) = nth n z 0 - nth 0 z 0).
    { induction n as [|n IH]; intros Hn; [cbn; lra|]. rewrite seq_S, !map_app, fold_right_app. cbn [map fold_right].
      assert (F : forall l c, fold_right Rplus c l = fold_right Rplus 0 l + c) by (induction l as [|x l IHl]; intros c; cbn; [lra|rewrite IHl; lra]).
      rewrite F, IH by lia. unfold layer. rewrite Hz. cbn [nth snd Nat.add]. lra. }
    unfold layers. rewrite T by lia. rewrite Lz in Htop. replace (S (length (snd a)) - 1)%nat with (length (snd a)) in Htop by lia.
    now rewrite (nth_error_nth _ _ _ Hbot), (nth_error_nth _ _ _ Htop).
Qed.
End Heights.

(** ** Queries of a cell *)
Lemma Rltb_swo l : strict_weak_order_on Rltb (fun x => In x l).
Proof.
  assert (F : forall a b, Rltb a b = false <-> b <= a).
  { intros a b. split; intros H; [apply Rnot_lt_le; intros L; apply Rltb_true in L; congruence|]. destruct (Rltb a b) eqn:B; auto. apply Rltb_true in B. lra. }
  constructor; intros *; rewrite ?Rltb_true, ?F; intros; lra.
Qed.
Section Cells.
Context (stdsort : forall A : Type, (A -> A -> bool) -> list A -> list A) (Hstd : sort_contract stdsort) (exit_on_error : bool).
Context (m : model) (id : Z) (c : cell) (Hc : at_ (cells m) id c).

Lemma with_mesh_ok {A} (e : outcome A) f k x : kind_of (mtype c) = Some k -> mesh_at m (mtype c) (mesh_id c) x -> with_mesh m id e f = f k x.
Proof.
  intros Hk Hx. unfold with_mesh. rewrite (proj1 (at_rdz _ _ _) Hc). cbn [bind].
  destruct (mtype c); cbn in Hk, Hx; try discriminate; injection Hk as <-; rewrite (proj1 (at_rdz _ _ _) Hx); reflexivity.
Qed.
Lemma with_mesh_none {A} (e : outcome A) f : kind_of (mtype c) = None -> with_mesh m id e f = e.
Proof.
  intros Hk. unfold with_mesh. rewrite (proj1 (at_rdz _ _ _) Hc). cbn [bind]. destruct (mtype c); cbn in Hk; try discriminate; reflexivity.
Qed.
Lemma with_mesh_ub {A} (e : outcome A) f k : kind_of (mtype c) = Some k -> mesh_id c = (-1)%Z -> with_mesh m id e f = Ub.
Proof.
  intros Hk Hm. unfold with_mesh. rewrite (proj1 (at_rdz _ _ _) Hc). cbn [bind]. rewrite Hm. destruct (mtype c); cbn in Hk; try discriminate; reflexivity.
Qed.

Theorem materials_ok buf : (length (material_ids c) <= length buf)%nat ->
  um2MPACTCoarseCellMaterialIDs m id buf = Ret (material_ids c ++ skipn (length (material_ids c)) buf).
Proof.
  intros Hb. unfold um2MPACTCoarseCellMaterialIDs. rewrite (proj1 (at_rdz _ _ _) Hc). cbn [bind].
  rewrite <- (firstn_skipn (length (material_ids c)) buf) at 1.
  rewrite (fill_range _ (fun i => nth i (material_ids c) 0%Z) (length (material_ids c)) 0 [] (firstn (length (material_ids c)) buf) (skipn (length (material_ids c)) buf)).
  - cbn [app]. do 2 f_equal. clear. induction (material_ids c) as [|x l IH]; [reflexivity|]. cbn [length seq map nth]. f_equal. now rewrite <- seq_shift, map_map.
  - intros j s Hj Hs. rewrite (proj2 (rd_Ret _ j (nth j (material_ids c) 0%Z))) by (apply nth_error_nth'; lia). cbn [bind]. now rewrite Nat.sub_0_r.
  - rewrite firstn_length. lia.
Qed.

Theorem intersect_cell_ok k x ps edge_hits buf : kind_of (mtype c) = Some k -> mesh_at m (mtype c) (mesh_id c) x -> mesh_ok k x -> polygons x ps ->
  hits_ok edge_hits -> let rs := concat (map (face_reports edge_hits k) ps) in (length rs + 1 <= length buf)%nat ->
  exists s rest, um2MPACTIntersectCoarseCell stdsort exit_on_error m id edge_hits buf = Ret (Z.of_nat (length rs), s ++ rest) /\
    Permutation rs s /\ ascending s /\ length (s ++ rest) = length buf /\ skipn 1 rest = skipn (length rs + 1) buf.
Proof.
  intros Hk Hx Hm Hp He rs Hb. unfold um2MPACTIntersectCoarseCell. rewrite (with_mesh_ok _ _ k x Hk Hx).
  destruct (intersect_ok edge_hits He k x ps buf Hm Hp Hb) as (buf' & E & L & F & K). fold rs in E, F, K. rewrite E. cbn [bind].
  rewrite F. unfold sort. rewrite (proj2 (swo_iff Rltb rs) (Rltb_swo rs)). cbn [bind].
  destruct (Hstd _ _ _ (Rltb_swo rs)) as [HP HS]. eexists _, _. split; [reflexivity|]. split; [exact HP|]. split; [|split].
  - intros i j a b Hij Ha Hb'. specialize (HS i j a b Hij Ha Hb'). apply Rnot_lt_le. intros H. apply Rltb_true in H. congruence.
  - rewrite app_length, <- (Permutation_length HP), skipn_length, L. lia.
  - rewrite <- K. clear. generalize (length rs) as n. intros n. revert n. induction buf' as [|y l IH]; intros [|n]; cbn [skipn Nat.add]; auto. apply IH.
Qed.

Theorem face_data_ok k x : kind_of (mtype c) = Some k -> mesh_at m (mtype c) (mesh_id c) x -> mesh_ok k x ->
  exists vs fs, um2MPACTCoarseCellFaceData exit_on_error m id = Ret (Some (Z.of_nat (length (mv x)), Z.of_nat (length (fv x)), vs, fs)) /\
    length vs = (2 * length (mv x))%nat /\ length fs = (nverts k * length (fv x))%nat /\
    (forall i p, nth_error (mv x) i = Some p -> nth_error vs (2 * i) = Some (fst p) /\ nth_error vs (2 * i + 1) = Some (snd p)) /\
    (forall f j face, nth_error (fv x) f = Some face -> (j < nverts k)%nat -> nth_error fs (nverts k * f + j) = nth_error face j).
Proof.
  intros Hk Hx Hm. unfold um2MPACTCoarseCellFaceData. rewrite (with_mesh_ok _ _ k x Hk Hx). eexists _, _. split; [reflexivity|].
  assert (Lf : forall l, In l (fv x) -> length l = nverts k) by (intros l Hl; apply (Hm l Hl)).
  assert (Lv : forall l, In l (map (fun p : R * R => [fst p; snd p]) (mv x)) -> length l = 2%nat) by (intros l Hl; apply in_map_iff in Hl as (p & <- & _); reflexivity).
  rewrite flat_map_concat_map. split; [|split; [|split]].
  - rewrite (concat_length_eq _ 2 Lv), map_length. lia.
  - rewrite (concat_length_eq _ _ Lf). lia.
  - intros i p Hi. assert (E : nth_error (map (fun p : R * R => [fst p; snd p]) (mv x)) i = Some [fst p; snd p]) by (rewrite nth_error_map, Hi; reflexivity).
    split; [replace (2 * i)%nat with (i * 2 + 0)%nat by lia|replace (2 * i + 1)%nat with (i * 2 + 1)%nat by lia];
      rewrite (nth_error_concat _ 2 Lv i _ _ E) by lia; reflexivity.
  - intros f j face Hf Hj. replace (nverts k * f + j)%nat with (f * nverts k + j)%nat by lia. now apply (nth_error_concat _ _ Lf).
Qed.
End Cells.
