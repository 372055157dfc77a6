(** Proofs about the XDMF writer and reader: topology. *)
From Coq Require Import String Ascii.
From Coq Require Import List Arith ZArith Bool Reals Lia Lra.
From Verif Require Import Base Arith Loops Fill StringView_Model StringView_Spec Elem_Model Elem_Spec Elem_Proofs Logger_Model
  Soup_Model Soup_Spec Soup_Proofs Xdmf_Model Xdmf_Spec Xdmf_Proofs.
Import ListNotations.
Local Open Scope list_scope.
Local Open Scope nat_scope.

Section Topology.
Variables (checks : bool).
Notation asoup := (@asoup point R).
Definition add_elems (a : asoup) es : asoup := mkA (a_verts a) (a_elems a ++ es) (a_elsets a).
Definition e0 : vtk * list Z := (V_Invalid, []).
Definition block (e : vtk * list Z) : list Z := xdmf_code (vtkToXDMFElemType (fst e)) :: snd e.
Definition xtopo_of (file g : list Z) n ty dm : xml :=
  Node (txt "Topology") [(txt "TopologyType", ty); (txt "NumberOfElements", fmt n)] [HDF "Int" dm 4 (file ++ [COLON] ++ g ++ txt "/Topology")] [].
Lemma topo_path g : g ++ txt "/Topology" = g ++ [SLASH] ++ txt "Topology". Proof. reflexivity. Qed.

Lemma read_topology f file g n ty dm dl l (s : soup point R) xg : (Z.of_nat n <= intMax)%Z ->
  the_child xg "Topology" = Ret (xtopo_of file g n ty dm) -> at_path f g (txt "Topology") = Some (mkDs dl (HInts 4 l)) ->
  length dl = (if is ty "Mixed" then 1 else 2) ->
  readXDMFTopology checks xg f file s = addElementsToSoup (Z.of_nat n) ty dm s l.
Proof.
  intros L Hx Hd D. unfold readXDMFTopology. rewrite Hx. cbn [bind].
  change (attribute (xtopo_of file g n ty dm) "TopologyType") with ty.
  change (attribute (xtopo_of file g n ty dm) "NumberOfElements") with (fmt n). rewrite strto_fmt by auto. cbn [bind].
  change (the_child (xtopo_of file g n ty dm) "DataItem") with
    (Ret (HDF "Int" dm 4 (file ++ [COLON] ++ g ++ txt "/Topology"))). cbn [bind].
  rewrite attr_type, attr_dims, attr_prec, attr_format, value_HDF. rewrite !is_txt.
  change (is (decimal 4) "1" || is (decimal 4) "2" || is (decimal 4) "4" || is (decimal 4) "8") with true. cbn [need bind].
  rewrite topo_path, (open_k f file g (txt "Topology") _ _ Hd). change (ints (mkDs dl (HInts 4 l))) with (Ret l). cbn [bind].
  rewrite asserts_ok.
  2:{ cbn [dims size_of content]. rewrite D, Nat.eqb_refl. reflexivity. }
  reflexivity.
Qed.

Lemma add_elems_loop {X} (s : soup point R) a es (f : nat -> soup point R * X -> outcome (soup point R * X)) (x : nat -> X) : stores s a ->
  (forall i s, i < length es -> f i (s, x i) = let* r := addElement s (fst (nth i es e0)) (snd (nth i es e0)) in Ret (fst r, x (S i))) ->
  exists s', for_ (length es) 0 f (s, x 0) = Ret (s', x (length es)) /\ stores s' (add_elems a es).
Proof.
  intros Hs Hf. destruct (for_inv (fun i st => stores (fst st) (add_elems a (firstn i es)) /\ snd st = x i) f (length es) 0 (s, x 0)) as ((s', y) & E & H & Hy).
  - unfold add_elems. cbn [firstn fst snd]. rewrite app_nil_r. destruct a; split; auto.
  - intros j (t, y) Hj (Ht & Hy). cbn [fst snd] in Ht, Hy. subst y. rewrite Hf by lia.
    destruct (addElement_ok t _ (fst (nth j es e0)) (snd (nth j es e0)) Ht) as (t' & -> & Ht'). cbn [bind fst].
    eexists. split; [reflexivity|]. cbn [fst snd]. split; [|reflexivity].
    rewrite (firstn_S _ e0) by lia. unfold add_elems in *. cbn [a_verts a_elems a_elsets] in Ht'. rewrite app_assoc. now destruct (nth j es e0).
  - cbn [Nat.add fst snd] in *. rewrite firstn_all in H. subst y. eauto.
Qed.
Lemma drop_x {A X} (f : nat -> A -> outcome A) (x : X) : forall n i s,
  for_ n i (fun i st => let* t := f i (fst st) in Ret (t, x)) (s, x) = let* t := for_ n i f s in Ret (t, x).
Proof. induction n as [|n IH]; intros i s; cbn [for_ bind fst]; auto. destruct (f i s); cbn [bind fst]; auto. Qed.

(** ** one type *)
Lemma homogeneous_types t es : getElemTypes (map fst es) = [t] <-> homogeneous t es.
Proof.
  destruct (getElemTypes_ok (map fst es)) as (N & I'). split.
  - intros E. rewrite E in I'. split.
    + intros ->. destruct (proj1 (I' t) (or_introl eq_refl)).
    + intros e He. assert (X : In (fst e) [t]) by (apply I', in_map, He). cbn in X. intuition.
  - intros (H1 & H2). destruct es as [|e es]; [contradiction|].
    assert (X : forall u, In u (getElemTypes (map fst (e :: es))) <-> u = t).
    { intros u. rewrite I'. split.
      - intros Hu. apply in_map_iff in Hu. destruct Hu as (e' & <- & He). now apply H2.
      - intros ->. cbn. left. apply H2. now left. }
    destruct (getElemTypes (map fst (e :: es))) as [|u [|v l]].
    + exfalso. apply (X t). reflexivity.
    + f_equal. apply X. now left.
    + exfalso. assert (u = t) by (apply X; now left). assert (v = t) by (apply X; right; now left). subst.
      inversion N as [|? ? Hn ?]; subst. apply Hn. now left.
Qed.
Lemma topology_face t : face t -> exists ty nv, topology_of t = Ret (ty, nv) /\ is ty "Mixed" = false /\ elem_type_of ty = Ret t /\ Z.of_nat nv = verticesPerElem t /\ nv <= 8.
Proof. intros [-> | [-> | [-> | ->]]]; do 2 eexists; (split; [reflexivity|]); repeat split; cbn; lia. Qed.
Lemma range_whole {A} (l : list A) n : n = length l -> range l 0 n = Ret l.
Proof. intros ->. unfold range. cbn [Nat.leb andb]. rewrite Nat.leb_refl, Nat.sub_0_r. cbn [skipn]. now rewrite firstn_all. Qed.
Lemma concat_const {A B} (g : A -> list B) k l : (forall a, In a l -> length (g a) = k) -> length (concat (map g l)) = length l * k.
Proof. intros H. induction l as [|a l IH]; cbn; auto. rewrite app_length, H, IH; [lia| |now left]. intros; apply H; now right. Qed.
Lemma mapo_rd {A} (v : list A) (l : list A) p : (forall j, j < length l -> nth_error v (p + j) = nth_error l j) ->
  mapo (fun j => rd v (p + j)) (seq 0 (length l)) = Ret l.
Proof.
  intros H. destruct l as [|d l']; [reflexivity|]. set (l := d :: l') in *. rewrite (mapo_ok _ (fun j => nth j l d)).
  - f_equal. apply nth_ext with d d; rewrite ?map_length, ?seq_length; auto. intros n Hn.
    rewrite (nth_map_lt _ 0) by (rewrite seq_length; auto). now rewrite seq_nth.
  - intros j Hj. apply in_seq in Hj. unfold rd. rewrite H by lia. now rewrite (nth_error_nth' l d) by lia.
Qed.

Lemma topology_one f file g (s : soup point R) a t : stores s a -> Forall elem_ok (a_elems a) -> homogeneous t (a_elems a) -> face t ->
  (Z.of_nat (length (a_elems a)) + Z.of_nat (length (concat (map snd (a_elems a)))) <= intMax)%Z ->
  at_path f g (txt "Topology") = None ->
  exists ty dm ds, writeXDMFTopology f file g s = Ret (xtopo_of file g (length (a_elems a)) ty dm, f ++ [(g ++ [SLASH] ++ txt "Topology", ds)]) /\
    forall f' s0 a0 xg, stores s0 a0 -> the_child xg "Topology" = Ret (xtopo_of file g (length (a_elems a)) ty dm) -> at_path f' g (txt "Topology") = Some ds ->
      exists s', readXDMFTopology checks xg f' file s0 = Ret s' /\ stores s' (add_elems a0 (a_elems a)).
Proof.
  intros Hs Ok Hh Hf L Hn. destruct (topology_face t Hf) as (ty & nv & E1 & E2 & E3 & E4 & E8).
  pose proof Hs as (_ & Ht & _ & Hc & _).
  assert (Hl : forall e, In e (a_elems a) -> length (snd e) = nv).
  { intros e He. rewrite Forall_forall in Ok. destruct (Ok e He) as (_ & X). rewrite (proj2 Hh e He) in X. lia. }
  pose proof (concat_const snd nv (a_elems a) Hl) as CL.
  exists ty, (fmt (length (a_elems a)) ++ [SPACE] ++ fmt nv), (mkDs [length (a_elems a); nv] (HInts 4 (concat (map snd (a_elems a))))). split.
  - unfold writeXDMFTopology. rewrite Ht. rewrite (proj2 (homogeneous_types t (a_elems a)) Hh), E1. cbn [bind]. rewrite Hc, map_length.
    rewrite range_whole by (rewrite CL; reflexivity). cbn [bind]. rewrite create_ok by (auto; reflexivity). reflexivity.
  - intros f' s0 a0 xg H0 Hx Hd. assert (L' : (Z.of_nat (length (a_elems a)) <= intMax)%Z) by lia.
    rewrite (read_topology _ _ _ _ _ _ _ _ s0 _ L' Hx Hd) by now rewrite E2.
    unfold addElementsToSoup. rewrite E2. rewrite two_dims_ok; [|lia|unfold intMax; lia]. cbn [bind]. rewrite Z.eqb_refl. cbn [need bind].
    rewrite i32_ok by (unfold in_i32, intMin, intMax in *; nia). cbn [bind]. rewrite <- Nat2Z.inj_mul, vsize_of. cbn [bind].
    rewrite <- CL, readInto_exact. cbn [bind]. rewrite E3. cbn [bind]. rewrite vsize_of. cbn [bind]. rewrite Nat2Z.id.
    set (v := concat (map snd (a_elems a))) in *.
    pose (F := fun i (s : soup point R) => let* conn := mapo (fun j => rd v (i * nv + j)) (seq 0 nv) in let* r := addElement s t conn in Ret (fst r)).
    destruct (add_elems_loop s0 a0 (a_elems a) (fun i st => let* t' := F i (fst st) in Ret (t', tt)) (fun _ => tt) H0) as (s' & E & H).
    + intros i s1 Hi. cbn [fst]. unfold F.
      set (e := nth i (a_elems a) e0). assert (Ne : nth_error (a_elems a) i = Some e) by now apply nth_error_nth'.
      assert (Ie : In e (a_elems a)) by (eapply nth_error_In; eauto).
      replace (seq 0 nv) with (seq 0 (length (snd e))) by (now rewrite (Hl e Ie)). rewrite mapo_rd.
      * cbn [bind]. rewrite (proj2 Hh e Ie). destruct (addElement s1 t (snd e)); reflexivity.
      * intros j Hj. apply nth_error_concat; [|now rewrite nth_error_map, Ne|now rewrite <- (Hl e Ie)].
        intros l Il. apply in_map_iff in Il. destruct Il as (e' & <- & I'). now apply Hl.
    + rewrite (drop_x F) in E. exists s'. split; [|exact H]. fold F. destruct (for_ _ _ _ s0); cbn [bind] in E; try discriminate. congruence.
Qed.

(** ** several types *)
Lemma code_int8 t : to_int8 (xdmf_code (vtkToXDMFElemType t)) = xdmf_code (vtkToXDMFElemType t).
Proof. destruct t; reflexivity. Qed.
Lemma nth_block es i : i < length es -> forall j, j <= length (snd (nth i es e0)) ->
  nth_error (flat_map block es) (length (flat_map block (firstn i es)) + j) = nth_error (block (nth i es e0)) j.
Proof.
  revert i. induction es as [|e es IH]; intros [|i] Hi j Hj; cbn [length] in Hi; try lia; cbn [firstn flat_map nth length] in *.
  - cbn [Nat.add]. rewrite nth_error_app1; auto. unfold block. cbn [length]. lia.
  - rewrite app_length, <- Nat.add_assoc. rewrite nth_error_app2 by lia.
    replace (length (block e) + (length (flat_map block (firstn i es)) + j) - length (block e)) with (length (flat_map block (firstn i es)) + j) by lia.
    apply IH; lia.
Qed.
Lemma length_block_S es i : i < length es ->
  length (flat_map block (firstn (S i) es)) = length (flat_map block (firstn i es)) + S (length (snd (nth i es e0))).
Proof. intros H. rewrite (firstn_S _ e0) by auto. rewrite flat_map_app, app_length. cbn. rewrite app_nil_r. reflexivity. Qed.
Lemma length_blocks es : length (flat_map block es) = length es + length (concat (map snd es)).
Proof. induction es as [|e es IH]; cbn; auto. rewrite !app_length, IH. cbn. lia. Qed.
Lemma length_blocks_le es i : length (flat_map block (firstn i es)) <= length (flat_map block es).
Proof. rewrite <- (firstn_skipn i es) at 2. rewrite flat_map_app, app_length. lia. Qed.
Lemma mixed_write (s : soup point R) a i topo ctr : stores s a -> Forall elem_ok (a_elems a) -> i < length (a_elems a) ->
  ctr = length (flat_map block (firstn i (a_elems a))) -> length topo = length (flat_map block (a_elems a)) ->
  firstn ctr topo = flat_map block (firstn i (a_elems a)) ->
  exists topo', mixed_step s i (topo, ctr) = Ret (topo', length (flat_map block (firstn (S i) (a_elems a)))) /\
    length topo' = length topo /\ firstn (length (flat_map block (firstn (S i) (a_elems a)))) topo' = flat_map block (firstn (S i) (a_elems a)).
Proof.
  intros Hs Ok Hi Hc HL Hp. pose proof Hs as (_ & Ht & Ho & Hcn & _).
  set (e := nth i (a_elems a) e0). assert (Ne : nth_error (a_elems a) i = Some e) by now apply nth_error_nth'.
  assert (Ie : In e (a_elems a)) by (eapply nth_error_In; eauto). rewrite Forall_forall in Ok. destruct (Ok e Ie) as (Sup & Lv).
  pose proof (length_block_S (a_elems a) i Hi) as LS. fold e in LS. pose proof (length_blocks_le (a_elems a) (S i)) as LE.
  set (pre := flat_map block (firstn i (a_elems a))) in *.
  unfold mixed_step. rewrite Ht. unfold rd at 1. rewrite nth_error_map, Ne. cbn [option_map bind].
  destruct (xdmf_code (vtkToXDMFElemType (fst e)) =? xdmf_code X_Invalid)%Z eqn:Q.
  { exfalso. apply Sup. apply Z.eqb_eq in Q. destruct (fst e); cbn in Q; auto; discriminate. }
  assert (Split : topo = pre ++ skipn ctr topo) by (rewrite <- Hp; symmetry; apply firstn_skipn).
  assert (Lr : length (skipn ctr topo) >= S (length (snd e))) by (rewrite skipn_length; lia).
  destruct (skipn ctr topo) as [|x rest] eqn:R; [cbn in Lr; lia|]. cbn [length] in Lr. rewrite Split. rewrite wr_mid by auto. cbn [bind].
  rewrite Ho, Hcn, map_snd_length.
  assert (Ns : nth_error (map snd (a_elems a)) i = Some (snd e)) by (rewrite nth_error_map, Ne; reflexivity).
  destruct (seg_ok (map snd (a_elems a)) i (snd e) Ns) as (-> & -> & _). cbn [bind]. rewrite (off_S _ _ (snd e)) by exact Ns.
  replace (off (map snd (a_elems a)) i + length (snd e) - off (map snd (a_elems a)) i) with (length (snd e)) by lia.
  set (o := off (map snd (a_elems a)) i).
  assert (Rd : forall j, j < length (snd e) -> nth_error (concat (map snd (a_elems a))) (o + j) = nth_error (snd e) j).
  { intros j Hj. destruct (nth_error_split _ _ Ns) as (l1 & l2 & E & El). unfold o, off. rewrite E, firstn_app, <- El, Nat.sub_diag, firstn_all.
    cbn [firstn]. rewrite app_nil_r, concat_app. cbn [concat]. rewrite nth_error_app2 by lia.
    replace (length (concat l1) + j - length (concat l1)) with j by lia. now apply nth_error_app1. }
  rewrite <- (firstn_skipn (length (snd e)) rest).
  change (pre ++ xdmf_code (vtkToXDMFElemType (fst e)) :: firstn (length (snd e)) rest ++ skipn (length (snd e)) rest) with
    (pre ++ [xdmf_code (vtkToXDMFElemType (fst e))] ++ firstn (length (snd e)) rest ++ skipn (length (snd e)) rest).
  rewrite app_assoc. rewrite (fill_range _ (fun j => nth j (snd e) 0%Z)).
  - cbn [bind]. eexists. split; [f_equal; f_equal; lia|].
    assert (M : map (fun j => nth j (snd e) 0%Z) (seq 0 (length (snd e))) = snd e).
    { apply nth_ext with 0%Z 0%Z; rewrite ?map_length, ?seq_length; auto. intros n Hn.
      rewrite (nth_map_lt _ 0) by (rewrite seq_length; auto). now rewrite seq_nth. }
    rewrite M. split.
    + rewrite (firstn_skipn (length (snd e)) rest), !app_length, skipn_length. cbn [length]. lia.
    + rewrite (firstn_S _ e0) by auto. rewrite flat_map_app. fold pre e. cbn [flat_map]. rewrite app_nil_r.
      replace ((pre ++ [xdmf_code (vtkToXDMFElemType (fst e))]) ++ snd e ++ skipn (length (snd e)) rest) with ((pre ++ block e) ++ skipn (length (snd e)) rest)
        by (unfold block; rewrite <- !app_assoc; reflexivity).
      rewrite firstn_app, Nat.sub_diag, firstn_all. cbn [firstn]. now rewrite app_nil_r.
  - intros j st Hj Hst. unfold rd. rewrite Rd by lia. rewrite (nth_error_nth' _ 0%Z) by lia. cbn [bind]. f_equal. rewrite app_length. cbn. lia.
  - rewrite firstn_length. lia.
Qed.
Lemma topology_mixed f file g (s : soup point R) a : stores s a -> Forall elem_ok (a_elems a) -> (forall t, ~ homogeneous t (a_elems a)) ->
  (Z.of_nat (length (a_elems a)) + Z.of_nat (length (concat (map snd (a_elems a)))) <= intMax)%Z ->
  at_path f g (txt "Topology") = None ->
  exists ty dm ds, writeXDMFTopology f file g s = Ret (xtopo_of file g (length (a_elems a)) ty dm, f ++ [(g ++ [SLASH] ++ txt "Topology", ds)]) /\
    forall f' s0 a0 xg, stores s0 a0 -> the_child xg "Topology" = Ret (xtopo_of file g (length (a_elems a)) ty dm) -> at_path f' g (txt "Topology") = Some ds ->
      exists s', readXDMFTopology checks xg f' file s0 = Ret s' /\ stores s' (add_elems a0 (a_elems a)).
Proof.
  intros Hs Ok Hh L Hn. pose proof Hs as (_ & Ht & _ & Hc & _).
  set (v := flat_map block (a_elems a)). pose proof (length_blocks (a_elems a)) as LB. fold v in LB.
  exists (txt "Mixed"), (fmt (length v)), (mkDs [length v] (HInts 4 v)). split.
  - assert (W : writeXDMFTopology f file g s =
      (let* size := i32 (Z.of_nat (length (etypes s)) + Z.of_nat (length (econn s))) in
       let* st := for_ (length (etypes s)) 0 (mixed_step s) (repeat 0%Z (Z.to_nat size), 0) in
       let* f := createDataSet f g (txt "Topology") (mkDs [length (fst st)] (HInts 4 (fst st))) in
       Ret (xtopo_of file g (length (etypes s)) (txt "Mixed") (fmt (Z.to_nat size)), f))).
    { unfold writeXDMFTopology. destruct (getElemTypes (etypes s)) as [|t [|u l]] eqn:E; try reflexivity.
      exfalso. apply (Hh t). apply homogeneous_types. now rewrite <- Ht. }
    rewrite W, Ht, Hc, map_length. rewrite i32_ok by (unfold in_i32, intMin, intMax in *; lia). cbn [bind].
    replace (Z.to_nat (Z.of_nat (length (a_elems a)) + Z.of_nat (length (concat (map snd (a_elems a)))))) with (length v) by lia.
    destruct (for_inv (fun i (st : list Z * nat) => length (fst st) = length v /\ snd st = length (flat_map block (firstn i (a_elems a))) /\
      firstn (snd st) (fst st) = flat_map block (firstn i (a_elems a))) (mixed_step s) (length (a_elems a)) 0 (repeat 0%Z (length v), 0)) as ((topo, ctr) & -> & X1 & X2 & X3).
    + cbn [fst snd firstn flat_map]. rewrite repeat_length. auto.
    + intros j (topo, ctr) Hj (X1 & X2 & X3). cbn [fst snd] in *.
      destruct (mixed_write s a j topo ctr Hs Ok) as (topo' & -> & Y1 & Y2); auto; try lia. exists (topo', length (flat_map block (firstn (S j) (a_elems a)))). split; [reflexivity|]. cbn [fst snd].
      split; [lia|]. split; auto.
    + cbn [fst snd Nat.add] in *. rewrite firstn_all in *. fold v in X2, X3. subst ctr. rewrite <- X1, firstn_all in X3. rewrite X3. cbn [bind].
      rewrite create_ok by (auto; reflexivity). cbn [bind fst]. reflexivity.
  - intros f' s0 a0 xg H0 Hx Hd. assert (L' : (Z.of_nat (length (a_elems a)) <= intMax)%Z) by lia.
    rewrite (read_topology _ _ _ _ _ _ _ _ s0 _ L' Hx Hd) by reflexivity.
    unfold addElementsToSoup. rewrite is_txt. rewrite strto_fmt by lia. cbn [bind]. rewrite vsize_of. cbn [bind]. rewrite readInto_exact. cbn [bind]. rewrite Nat2Z.id.
    destruct (add_elems_loop s0 a0 (a_elems a) (read_mixed_step v) (fun i => length (flat_map block (firstn i (a_elems a)))) H0) as (s' & E & H).
    + intros i s1 Hi. unfold read_mixed_step.
      pose proof (nth_block (a_elems a) i Hi) as NB. fold v in NB.
      set (e := nth i (a_elems a) e0) in *. assert (Ne : nth_error (a_elems a) i = Some e) by now apply nth_error_nth'.
      assert (Ie : In e (a_elems a)) by (eapply nth_error_In; eauto). rewrite Forall_forall in Ok. destruct (Ok e Ie) as (Sup & Lv).
      set (p := length (flat_map block (firstn i (a_elems a)))) in *.
      unfold rd at 1. pose proof (NB 0 ltac:(lia)) as NB0. rewrite Nat.add_0_r in NB0. rewrite NB0. cbn [block nth_error bind].
      rewrite code_int8, xdmf_of_vtk by exact Sup. rewrite <- Lv, vsize_of. cbn [bind].
      assert (M2 : mapo (fun j => rd v (p + j + 1)) (seq 0 (length (snd e))) = Ret (snd e)).
      { transitivity (mapo (fun j => rd v (p + 1 + j)) (seq 0 (length (snd e)))); [|apply mapo_rd].
        - clear. generalize (seq 0 (length (snd e))). induction l as [|j l IH]; cbn [mapo]; auto. rewrite IH. now replace (p + j + 1) with (p + 1 + j) by lia.
        - intros j Hj. rewrite <- Nat.add_assoc. rewrite NB by lia. reflexivity. }
      rewrite M2. cbn [bind]. destruct (addElement s1 (fst e) (snd e)); cbn [bind]; auto. f_equal. f_equal.
      rewrite length_block_S by auto. fold e p. lia.
    + exists s'. split; [|exact H]. cbn [firstn flat_map length] in E. rewrite E. reflexivity.
Qed.
End Topology.
