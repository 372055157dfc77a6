(** Proofs about the XDMF writer and reader: element sets and files. *)
From Coq Require Import String Ascii.
From Coq Require Import List Arith ZArith Bool Reals Lia Lra.
From Verif Require Import Base Arith Loops Fill StringView_Model StringView_Spec Elem_Model Elem_Spec Elem_Proofs Logger_Model
  Soup_Model Soup_Spec Soup_Proofs Box_Proofs Xdmf_Model Xdmf_Spec Xdmf_Proofs Xdmf_Topo_Proofs.
Import ListNotations.
Local Open Scope list_scope.
Local Open Scope nat_scope.

Section Elsets.
Variables (checks : bool) (fsize : Z) (eps : R).
Hypothesis Hsize : fsize = 4%Z \/ fsize = 8%Z.
Notation asoup := (@asoup point R).
Notation elset := (@elset R).
Definition add_elsets (a : asoup) es : asoup := mkA (a_verts a) (a_elems a) (a_elsets a ++ es).
Definition att_of (file g : list Z) (e : elset) : list xml :=
  match es_data e with [] => [] | _ =>
    [Node (txt "Attribute") [(txt "Name", es_name e ++ txt "_data"); (txt "Center", txt "Cell")]
       [HDF "Float" (fmt (length (es_data e))) fsize ((file ++ [COLON] ++ g ++ [SLASH] ++ es_name e) ++ txt "_data")] []] end.
Definition set_node (file g : list Z) (e : elset) : xml :=
  Node (txt "Set") [(txt "Name", es_name e); (txt "SetType", txt "Cell")]
    (HDF "Int" (fmt (length (es_ids e))) 4 (file ++ [COLON] ++ g ++ [SLASH] ++ es_name e) :: att_of file g e) [].
Definition ids_ds (e : elset) := mkDs [length (es_ids e)] (HInts 4 (es_ids e)).
Definition data_ds (e : elset) := mkDs [length (es_data e)] (HFloats fsize (es_data e)).
Definition holds (f : h5) (g : list Z) (e : elset) : Prop := at_path f g (es_name e) = Some (ids_ds e) /\
  (es_data e <> [] -> at_path f g (data_name (es_name e)) = Some (data_ds e)).
(** all that was there is still there *)
Definition kept_in (f f' : h5) (g : list Z) : Prop := forall n d, at_path f g n = Some d -> at_path f' g n = Some d.
Definition used (e : elset) (n : list Z) : Prop := n = es_name e \/ (es_data e <> [] /\ n = data_name (es_name e)).
Lemma holds_kept f f' g e : kept_in f f' g -> holds f g e -> holds f' g e.
Proof. intros K (H1 & H2). split; [now apply K|]. intros D. apply K. auto. Qed.
Lemma kept_snoc f g n d : kept_in f (f ++ [(g ++ [SLASH] ++ n, d)]) g.
Proof. intros m e H. rewrite at_path_snoc, H. reflexivity. Qed.
Lemma kept_trans f f' f'' g : kept_in f f' g -> kept_in f' f'' g -> kept_in f f'' g.
Proof. intros H1 H2 n d H. auto. Qed.

Lemma data_name_inj m n : data_name m = data_name n -> m = n.
Proof. unfold data_name. apply app_inv_tail. Qed.
Lemma data_name_last n : exists r, data_name n = r ++ [97%Z].
Proof. exists (n ++ txt "_dat"). unfold data_name. rewrite <- app_assoc. reflexivity. Qed.
Lemma data_name_geometry n : data_name n <> txt "Geometry".
Proof. destruct (data_name_last n) as (r & ->). intros E. apply (f_equal (@rev Z)) in E. rewrite rev_app_distr in E. discriminate E. Qed.
Lemma data_name_topology n : data_name n <> txt "Topology".
Proof. destruct (data_name_last n) as (r & ->). intros E. apply (f_equal (@rev Z)) in E. rewrite rev_app_distr in E. discriminate E. Qed.
Lemma data_name_own n : data_name n <> n.
Proof. intros E. apply (f_equal (@length Z)) in E. unfold data_name in E. rewrite app_length in E. cbn in E. lia. Qed.
Lemma data_name_link n : ~ In SLASH n -> link_name (data_name n) = true.
Proof.
  intros H. apply link_ok.
  - unfold data_name. destruct n; discriminate.
  - intros E. apply (f_equal (@length Z)) in E. unfold data_name in E. rewrite app_length in E. cbn in E. lia.
  - unfold data_name. rewrite in_app_iff. intros [X|X]; [auto|]. cbn in X. unfold SLASH in X. intuition discriminate.
Qed.

Lemma elset_write file g (s : soup point R) a i e nodes f : stores s a -> nth_error (a_elsets a) i = Some e -> name_ok (es_name e) ->
  (forall n, used e n -> at_path f g n = None) ->
  exists f', elset_step fsize file g s i (nodes, f) = Ret (nodes ++ [set_node file g e], f') /\
    holds f' g e /\ kept_in f f' g /\ forall n, at_path f g n = None -> ~ used e n -> at_path f' g n = None.
Proof.
  intros Hs Ne (N1 & N2 & N3 & _) Fr. pose proof Hs as (_ & _ & _ & _ & Hn & Ho & Hi & Hd).
  assert (Fr1 : at_path f g (es_name e) = None) by (apply Fr; now left).
  unfold elset_step. rewrite Hn, Ho, Hi, Hd. unfold rd at 1. rewrite nth_error_map, Ne. cbn [option_map bind].
  rewrite <- (map_map es_ids (@length Z)).
  assert (Ns : nth_error (map es_ids (a_elsets a)) i = Some (es_ids e)) by (rewrite nth_error_map, Ne; reflexivity).
  destruct (seg_ok (map es_ids (a_elsets a)) i (es_ids e) Ns) as (-> & -> & E). cbn [bind]. rewrite E. cbn [bind].
  rewrite (off_S _ _ (es_ids e)) by exact Ns.
  replace (off (map es_ids (a_elsets a)) i + length (es_ids e) - off (map es_ids (a_elsets a)) i) with (length (es_ids e)) by lia.
  rewrite create_ok; [|apply link_ok; auto|exact Fr1]. cbn [bind]. unfold rd. rewrite nth_error_map, Ne. cbn [option_map bind].
  set (f1 := f ++ [(g ++ [SLASH] ++ es_name e, {| dims := [length (es_ids e)]; content := HInts 4 (es_ids e) |})]).
  assert (K1 : kept_in f f1 g) by apply kept_snoc.
  assert (A1 : at_path f1 g (es_name e) = Some (ids_ds e)) by (unfold f1; rewrite at_path_snoc, Fr1, name_eqb_refl; reflexivity).
  destruct (es_data e) as [|x dd] eqn:D.
  - cbn [bind fst snd]. exists f1. split; [|split; [|split]].
    + unfold set_node, att_of. rewrite D. reflexivity.
    + split; [exact A1|]. intros H. now rewrite D in H.
    + exact K1.
    + intros n Hn1 Hu. unfold f1. rewrite at_path_snoc, Hn1. rewrite name_eqb_neq; auto. intros <-. apply Hu. now left.
  - rewrite <- D in *. assert (Fr2 : at_path f1 g (data_name (es_name e)) = None).
    { unfold f1. rewrite at_path_snoc. rewrite Fr by (right; split; [now rewrite D|reflexivity]). rewrite name_eqb_neq; auto.
      intros X. symmetry in X. now apply data_name_own in X. }
    change (es_name e ++ txt "_data") with (data_name (es_name e)). rewrite create_ok; [|now apply data_name_link|exact Fr2]. cbn [bind fst snd].
    eexists. split; [|split; [|split]].
    + f_equal. f_equal. unfold set_node, att_of. rewrite D. reflexivity.
    + split.
      * rewrite at_path_snoc, A1. reflexivity.
      * intros _. rewrite at_path_snoc, Fr2, name_eqb_refl. reflexivity.
    + eapply kept_trans; [exact K1|]. apply kept_snoc.
    + intros n Hn1 Hu. rewrite at_path_snoc. unfold f1. rewrite at_path_snoc, Hn1. rewrite name_eqb_neq by (intros <-; apply Hu; now left).
      rewrite name_eqb_neq; auto. intros <-. apply Hu. right. split; [now rewrite D|reflexivity].
Qed.
Lemma nth_In_firstn {A} (l : list A) : forall i x, In x (firstn i l) -> exists j, j < i /\ nth_error l j = Some x.
Proof.
  induction l as [|a l IH]; intros [|i] x H; cbn in H; try contradiction. destruct H as [->|H].
  - exists 0. split; [lia|reflexivity].
  - destruct (IH i x H) as (j & Hj & E). exists (S j). split; [lia|exact E].
Qed.
Lemma write_elsets file g (s : soup point R) a f : stores s a -> content_ok a -> Forall (fun e => name_ok (es_name e)) (a_elsets a) ->
  (forall e e', In e (a_elsets a) -> In e' (a_elsets a) -> es_data e <> [] -> es_name e' <> data_name (es_name e)) ->
  (forall n, n <> txt "Geometry" -> n <> txt "Topology" -> at_path f g n = None) ->
  exists f', writeXDMFElsets fsize f file g s = Ret (map (set_node file g) (a_elsets a), f') /\ Forall (holds f' g) (a_elsets a) /\ kept_in f f' g.
Proof.
  intros Hs (ND & _) Nm Dn Fr. destruct (counts_ok s a Hs) as (_ & _ & Cn).
  unfold writeXDMFElsets. rewrite Cn. set (l := a_elsets a) in *.
  destruct (for_inv (fun i (st : list xml * h5) => fst st = map (set_node file g) (firstn i l) /\ Forall (holds (snd st) g) (firstn i l) /\ kept_in f (snd st) g /\
    forall n, at_path f g n = None -> (forall e, In e (firstn i l) -> ~ used e n) -> at_path (snd st) g n = None)
    (elset_step fsize file g s) (length l) 0 ([], f)) as ((nodes, f') & E & H1 & H2 & H3 & _).
  - cbn. repeat split; auto. intros n d H. exact H.
  - intros j (nodes, f1) Hj (H1 & H2 & H3 & H4). cbn [fst snd] in *.
    destruct (nth_error l j) as [e|] eqn:Ne; [|apply nth_error_None in Ne; lia].
    assert (Ie : In e l) by (eapply nth_error_In; eauto). rewrite Forall_forall in Nm. pose proof (Nm e Ie) as Ok. pose proof Ok as (N1 & N2 & N3 & N4 & N5).
    assert (Un : forall e' , In e' (firstn j l) -> es_name e' <> es_name e).
    { intros e' I' E. apply nth_In_firstn in I'. destruct I' as (k & Hk & Ek).
      assert (k = j); [|lia]. apply (proj1 (NoDup_nth_error (map es_name l)) ND); rewrite ?map_length; [lia|]. rewrite !nth_error_map, Ek, Ne. cbn. now rewrite E. }
    assert (Fr' : forall n, used e n -> at_path f1 g n = None).
    { intros n [-> | (D & ->)]; apply H4.
      - now apply Fr.
      - intros e' I' [X | (D & X)]; [now apply (Un e' I')|].
        assert (I2 : In e' l) by (rewrite <- (firstn_skipn j l), in_app_iff; auto). now apply (Dn e' e I2 Ie D).
      - apply Fr; [apply data_name_geometry|apply data_name_topology].
      - intros e' I' [X | (D' & X)].
        + assert (I2 : In e' l) by (rewrite <- (firstn_skipn j l), in_app_iff; auto). now apply (Dn e e' Ie I2 D).
        + apply data_name_inj in X. now apply (Un e' I'). }
    destruct (elset_write file g s a j e nodes f1 Hs Ne Ok Fr') as (f2 & E & Y1 & Y2 & Y3).
    exists (nodes ++ [set_node file g e], f2). split; [exact E|]. cbn [fst snd].
    assert (FS : firstn (S j) l = firstn j l ++ [e]).
    { rewrite (firstn_S _ e) by lia. f_equal. f_equal. rewrite (nth_error_nth' l e) in Ne by lia. congruence. }
    rewrite FS, map_app, <- H1. split; [reflexivity|]. split; [|split].
    + apply Forall_app. split; [|constructor; auto]. eapply Forall_impl; [|exact H2]. intros e'. now apply holds_kept.
    + eapply kept_trans; eauto.
    + intros n Hn Hu. apply Y3; [apply H4; auto|]; intros; apply Hu; rewrite in_app_iff; cbn; auto.
  - cbn [Nat.add fst snd] in *. rewrite firstn_all in *. subst nodes. exists f'. auto.
Qed.

Lemma data_path file g n : (file ++ [COLON] ++ g ++ [SLASH] ++ n) ++ txt "_data" = file ++ [COLON] ++ g ++ [SLASH] ++ data_name n.
Proof. unfold data_name. rewrite <- !app_assoc. reflexivity. Qed.
Lemma read_att f file g e : holds f g e -> elset_ok e -> (Z.of_nat (length (es_ids e)) <= intMax)%Z ->
  read_attribute checks (set_node file g e) f file (length (es_ids e)) =
    Ret (match es_data e with [] => None | _ => Some (es_data e, fsize) end).
Proof.
  intros (_ & H2) (_ & Hl) L. unfold read_attribute. destruct (es_data e) as [|x dd] eqn:D.
  { unfold set_node, att_of. rewrite D. reflexivity. }
  rewrite <- D in *. destruct Hl as [Hl|Hl]; [now rewrite D in Hl|].
  set (xa := Node (txt "Attribute") [(txt "Name", es_name e ++ txt "_data"); (txt "Center", txt "Cell")]
       [HDF "Float" (fmt (length (es_data e))) fsize ((file ++ [COLON] ++ g ++ [SLASH] ++ es_name e) ++ txt "_data")] []).
  assert (C : child (set_node file g e) "Attribute" = Some xa) by (unfold xa, set_node, att_of; rewrite D; reflexivity).
  rewrite C. change (is (attribute xa "Center") "Cell") with true. cbn [need bind].
  change (the_child xa "DataItem") with (Ret (HDF "Float" (fmt (length (es_data e))) fsize ((file ++ [COLON] ++ g ++ [SLASH] ++ es_name e) ++ txt "_data"))).
  cbn [bind]. rewrite attr_type, attr_dims, attr_prec, attr_format, value_HDF, !is_txt, (fsize_text _ Hsize). cbn [need bind].
  rewrite data_path, (open_k f file g (data_name (es_name e)) (data_ds e)) by (apply H2; now rewrite D).
  change (floats (data_ds e)) with (Ret (es_data e)). cbn [bind]. rewrite asserts_ok; [reflexivity|].
  rewrite (fsize_strto _ Hsize). cbn [bind]. rewrite strto_fmt by lia. cbn [bind]. f_equal. unfold data_ds. cbn [size_of content dims length].
  rewrite Hl, !Z.eqb_refl. reflexivity.
Qed.
Lemma elset_read f file g e (s : soup point R) a : stores s a -> holds f g e -> name_ok (es_name e) -> elset_ok e -> (Z.of_nat (length (es_ids e)) <= intMax)%Z ->
  ~ In (es_name e) (map es_name (a_elsets a)) ->
  exists s', read_elset checks fsize f file (set_node file g e) s = Ret s' /\ stores s' (add_elsets a [e]).
Proof.
  intros Hs Hh (N1 & _) Ok L Nw. unfold read_elset. change (is (tag (set_node file g e)) "Set") with true. cbn [bind].
  change (is (attribute (set_node file g e) "SetType") "Cell") with true. cbn [need bind].
  change (attribute (set_node file g e) "Name") with (es_name e). rewrite name_eqb_neq by auto. cbn [negb need bind].
  change (the_child (set_node file g e) "DataItem") with (Ret (HDF "Int" (fmt (length (es_ids e))) 4 (file ++ [COLON] ++ g ++ [SLASH] ++ es_name e))).
  cbn [bind]. rewrite attr_type, attr_dims, attr_prec, attr_format, value_HDF, !is_txt.
  change (is (decimal 4) "1" || is (decimal 4) "2" || is (decimal 4) "4" || is (decimal 4) "8") with true. cbn [need bind].
  rewrite (open_k f file g (es_name e) (ids_ds e)) by apply Hh. change (ints (ids_ds e)) with (Ret (es_ids e)). cbn [bind].
  change (hd 0 (dims (ids_ds e))) with (length (es_ids e)). rewrite asserts_ok.
  2:{ change (strto (decimal 4)) with (Ret 4%Z). cbn [bind]. rewrite strto_fmt by lia. cbn [bind]. f_equal. unfold ids_ds. cbn [size_of content dims length].
      rewrite !Z.eqb_refl. reflexivity. }
  cbn [bind]. rewrite read_att by auto. cbn [bind]. change (size_of (ids_ds e)) with 4%Z. cbn [Z.eqb Pos.eqb orb].
  assert (T : match (match es_data e with [] => None | _ => Some (es_data e, fsize) end) with None => fsize | Some (_, n) => n end = fsize) by now destruct (es_data e).
  rewrite T, (fsize_ok _ Hsize). cbn [need bind]. unfold addElsetToSoup. rewrite readInto_exact. cbn [bind].
  assert (D : match option_map fst (match es_data e with [] => None | _ => Some (es_data e, fsize) end) with None => Ret [] | Some b => readInto (length (es_ids e)) 0%R b end = Ret (es_data e)).
  { destruct Ok as (_ & Ok). destruct (es_data e) as [|x dd] eqn:D; [reflexivity|]. destruct Ok as [Ok|Ok]; [discriminate|]. cbn [option_map fst]. rewrite <- Ok. apply readInto_exact. }
  rewrite D. cbn [bind]. destruct (addElset_accept s a (es_name e) (es_ids e) (es_data e) Hs) as (s' & -> & H).
  - split; auto.
  - exists s'. split; [reflexivity|]. unfold add_elsets. now destruct e.
Qed.
Lemma read_sets f file g : forall es (s : soup point R) a, stores s a -> Forall (holds f g) es -> Forall (fun e => name_ok (es_name e)) es ->
  Forall elset_ok es -> Forall (fun e => (Z.of_nat (length (es_ids e)) <= intMax)%Z) es -> NoDup (map es_name (a_elsets a ++ es)) ->
  exists s', read_elsets checks fsize f file (map (set_node file g) es) s = Ret s' /\ stores s' (add_elsets a es).
Proof.
  induction es as [|e es IH]; intros s a Hs Hh Hn Ho Hl ND.
  - exists s. split; [reflexivity|]. unfold add_elsets. rewrite app_nil_r. now destruct a.
  - inversion Hh; subst. inversion Hn; subst. inversion Ho; subst. inversion Hl; subst. cbn [map read_elsets].
    destruct (elset_read f file g e s a) as (s1 & -> & H'); auto.
    { rewrite map_app in ND. cbn [map] in ND. apply NoDup_remove_2 in ND. rewrite in_app_iff in ND. tauto. }
    cbn [bind]. destruct (IH s1 (add_elsets a [e]) H') as (s' & E & H''); auto.
    { unfold add_elsets. cbn [a_elsets]. now rewrite <- app_assoc. }
    exists s'. split; [exact E|]. unfold add_elsets in *. cbn [a_verts a_elems a_elsets] in H''. now rewrite <- app_assoc in H''.
Qed.

(** ** Files *)
Lemma h5names_full p h : xdmf_path p h -> exists base, (exists dir, h = dir ++ base ++ txt ".h5") /\ (~ In SLASH base /\ base <> [] /\ base <> txt ".") /\ h5names p = Ret (base ++ txt ".h5", h).
Proof.
  intros (dir & base & -> & -> & Nb & N1 & N2 & Hd). exists base. split; [now exists dir|]. split; [auto|]. unfold h5names.
  assert (Ns : ~ In SLASH (base ++ txt ".xdmf")).
  { rewrite in_app_iff. intros [X|X]; [auto|]. cbn in X. unfold SLASH in X. intuition discriminate. }
  destruct Hd as [-> | (d & Hd & ->)].
  - cbn [app]. rewrite last_of_none by auto. cbn [bind Nat.eqb]. rewrite app_length. change (length (txt ".xdmf")) with 5.
    destruct (Nat.ltb_spec (length base + 5) (5 + 0)); [lia|]. rewrite Nat.add_sub, Nat.sub_0_r. rewrite substr_app0. cbn [bind].
    unfold substr. cbn [Nat.leb skipn firstn bind]. reflexivity.
  - rewrite <- app_assoc. rewrite last_of by auto. cbn [bind]. assert (E0 : (length d =? 0) = false) by (destruct d; [contradiction|reflexivity]).
    cbv zeta. unfold char in *. rewrite !E0.
    rewrite !app_length. cbn [length]. change (length (txt ".xdmf")) with 5.
    destruct (Nat.ltb_spec (length d + (1 + (length base + 5))) (5 + (length d + 1))); [lia|].
    rewrite app_assoc. unfold substr at 1. rewrite !app_length. change (length (txt ".xdmf")) with 5. cbn [length].
    destruct (Nat.leb_spec (length d + 1) (length d + 1 + (length base + 5))); [|lia]. cbn [bind].
    rewrite skipn_app. replace (length (d ++ [SLASH])) with (length d + 1) by now rewrite app_length. rewrite Nat.sub_diag. rewrite skipn_all2 by (rewrite app_length; cbn; lia).
    cbn [app skipn]. replace (length d + (1 + (length base + 5)) - 5 - (length d + 1)) with (length base) by lia.
    rewrite firstn_app, firstn_all, Nat.sub_diag. cbn [firstn]. rewrite app_nil_r.
    replace (length d + 1) with (length (d ++ [SLASH])) by now rewrite app_length. rewrite substr_app0. cbn [bind]. rewrite <- !app_assoc. reflexivity.
Qed.
Lemma h5names_base p h : xdmf_path p h -> exists base, (~ In SLASH base /\ base <> [] /\ base <> txt ".") /\ h5names p = Ret (base ++ txt ".h5", h).
Proof. intros H. destruct (h5names_full p h H) as (base & _ & X). now exists base. Qed.
Lemma h5names_ok p h : xdmf_path p h -> exists base, h5names p = Ret (base ++ txt ".h5", h).
Proof. intros H. destruct (h5names_base p h H) as (base & _ & E). now exists base. Qed.
Lemma is_3d_kept vs : (0 <= eps)%R -> kept eps vs (placed eps p0 vs).
Proof.
  intros He. destruct (is_3d eps vs p0) eqn:D.
  - rewrite placed_3d by auto. unfold is_3d in D. apply orb_prop in D. destruct D as [D|D].
    + apply existsb_exists in D. destruct D as (v & Hv & D). apply Rltb_true in D.
      replace (map _ vs) with vs; [now apply kept_3d with v|]. rewrite <- (map_id vs) at 1. apply map_ext. intros ((x, y), z). cbn. now rewrite !Rplus_0_r.
    + apply Rltb_true in D. unfold pz, p0 in D. cbn in D. rewrite Rabs_R0 in D. lra.
  - rewrite placed_2d by auto. unfold is_3d in D. apply orb_false_elim in D. destruct D as (D & _).
    replace (map _ vs) with (map (fun v : point => (fst v, 0%R)) vs).
    + apply kept_2d. intros v Hv. destruct (Rle_lt_dec (Rabs (snd v)) eps) as [X|X]; auto. exfalso.
      assert (E : existsb (fun v => Rltb eps (Rabs (pz v))) vs = true); [|congruence]. apply existsb_exists. exists v. split; auto. now apply Rltb_true.
    + apply map_ext. intros ((x, y), z). unfold px, py. cbn. now rewrite !Rplus_0_r.
Qed.
Lemma kept_unique vs l m : kept eps vs l -> kept eps vs m -> l = m.
Proof. intros [v Hv Lv|H] [v' Hv' Lv'|H']; auto; exfalso; [specialize (H' v Hv)|specialize (H v' Hv')]; lra. Qed.

Lemma round_trip p h (s : soup point R) a d : (0 <= eps)%R -> xdmf_path p h -> stores s a -> content_ok a -> writable a ->
  exists d', writeXDMFFile fsize eps p s d = Ret d' /\
    only_written p h d d' /\
    forall s0 a0, stores s0 a0 -> NoDup (map es_name (a_elsets a0 ++ a_elsets a)) ->
      exists s' vs, readXDMFFile checks fsize p d' s0 = Ret s' /\ kept eps (a_verts a) vs /\
        stores s' (mkA (a_verts a0 ++ vs) (a_elems a0 ++ a_elems a) (a_elsets a0 ++ a_elsets a)).
Proof.
  intros He Hp Hs Hc [W1 W2 W3 W4 W5 W6 W7]. destruct (h5names_ok p h Hp) as (base & Nm).
  unfold writeXDMFFile. rewrite Nm. cbn [bind]. rewrite app_length. change (length (txt ".h5")) with 3. rewrite Nat.add_sub, substr_app0. cbn [bind].
  set (file := base ++ txt ".h5"). unfold writeXDMFUniformGrid. cbn [app]. set (g := SLASH :: base).
  pose proof Hs as (Hv & _).
  rewrite write_geometry; [|now rewrite Hv|reflexivity]. cbn [bind app]. rewrite Hv.
  set (f1 := [(g ++ SLASH :: txt "Geometry", geom_ds fsize eps (a_verts a) (0, 0, 0)%R)]).
  assert (Tp : exists ty dm ds, writeXDMFTopology f1 file g s = Ret (xtopo_of file g (length (a_elems a)) ty dm, f1 ++ [(g ++ [SLASH] ++ txt "Topology", ds)]) /\
    forall f' s0 a0 xg, stores s0 a0 -> the_child xg "Topology" = Ret (xtopo_of file g (length (a_elems a)) ty dm) -> at_path f' g (txt "Topology") = Some ds ->
      exists s', readXDMFTopology checks xg f' file s0 = Ret s' /\ stores s' (add_elems a0 (a_elems a))).
  { assert (Fr : at_path f1 g (txt "Topology") = None).
    { change f1 with (([] : h5) ++ [(g ++ [SLASH] ++ txt "Geometry", geom_ds fsize eps (a_verts a) (0, 0, 0)%R)]). rewrite at_path_snoc. reflexivity. }
    destruct (getElemTypes (map fst (a_elems a))) as [|t [|u l]] eqn:E.
    - apply topology_mixed; auto. intros t Ht. apply homogeneous_types in Ht. congruence.
    - apply homogeneous_types in E. apply topology_one with t; auto.
    - apply topology_mixed; auto. intros t' Ht. apply homogeneous_types in Ht. congruence. }
  destruct Tp as (ty & dm & ds & -> & Rt). cbn [bind].
  set (f2 := f1 ++ [(g ++ [SLASH] ++ txt "Topology", ds)]).
  assert (A1 : at_path f2 g (txt "Geometry") = Some (geom_ds fsize eps (a_verts a) p0)).
  { unfold f2. rewrite at_path_snoc. unfold f1, at_path. cbn [find_path]. now rewrite name_eqb_refl. }
  assert (A2 : at_path f2 g (txt "Topology") = Some ds).
  { unfold f2. rewrite at_path_snoc. rewrite name_eqb_refl.
    change f1 with (([] : h5) ++ [(g ++ [SLASH] ++ txt "Geometry", geom_ds fsize eps (a_verts a) (0, 0, 0)%R)]). rewrite at_path_snoc. reflexivity. }
  destruct (write_elsets file g s a f2 Hs Hc W3 W4) as (f3 & -> & Hh & K).
  { intros n N1 N2. unfold f2. rewrite at_path_snoc. rewrite (name_eqb_neq (txt "Topology")) by congruence.
    change f1 with (([] : h5) ++ [(g ++ [SLASH] ++ txt "Geometry", geom_ds fsize eps (a_verts a) (0, 0, 0)%R)]). rewrite at_path_snoc.
    rewrite name_eqb_neq by congruence. reflexivity. }
  cbn [bind]. eexists. split; [reflexivity|]. split; [split; cbn [xmlfiles h5files]|].
  - intros q Hq. unfold put. rewrite name_eqb_neq; auto.
  - intros q Hq. unfold put. rewrite name_eqb_neq; auto.
  - intros s0 a0 H0 ND. unfold readXDMFFile. rewrite Nm. cbn [bind h5files xmlfiles]. unfold put. rewrite !name_eqb_refl.
    set (xg := Node (txt "Grid") [(txt "Name", base); (txt "GridType", txt "Uniform")] _ []).
    change (the_child _ "Xdmf") with (Ret (Node (txt "Xdmf") [(txt "Version", txt "3.0")] [Node (txt "Domain") [] [xg] []] [])). cbn [bind].
    change (the_child _ "Domain") with (Ret (Node (txt "Domain") [] [xg] [])). cbn [bind].
    change (the_child _ "Grid") with (Ret xg). cbn [bind]. change (need (is (attribute xg "GridType") "Uniform")) with (Ret tt). cbn [bind].
    unfold readXDMFUniformGrid. fold file.
    destruct (read_geometry checks fsize eps Hsize f3 file g (a_verts a) p0 s0 a0 xg H0 W5 eq_refl (K _ _ A1)) as (s1 & -> & H1). cbn [bind].
    destruct (Rt f3 s1 _ xg H1 eq_refl (K _ _ A2)) as (s2 & -> & H2). cbn [bind].
    unfold readXDMFElsets. change (kids xg) with (xgeom_of fsize eps file g (a_verts a) (0, 0, 0)%R :: xtopo_of file g (length (a_elems a)) ty dm :: map (set_node file g) (a_elsets a)).
    cbn [read_elsets]. unfold read_elset at 1. change (is (tag (xgeom_of fsize eps file g (a_verts a) (0, 0, 0)%R)) "Set") with false. cbn [bind].
    unfold read_elset at 1. change (is (tag (xtopo_of file g (length (a_elems a)) ty dm)) "Set") with false. cbn [bind].
    destruct Hc as (_ & Hc). destruct (read_sets f3 file g (a_elsets a) s2 _ H2 Hh W3 Hc W7 ND) as (s3 & E & H3).
    exists s3, (placed eps p0 (a_verts a)). split; [exact E|]. split; [now apply is_3d_kept|]. exact H3.
Qed.
End Elsets.
