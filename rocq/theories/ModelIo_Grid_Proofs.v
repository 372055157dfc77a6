(** One uniform grid, written into a group of a larger file and read back. *)
From Coq Require Import String Ascii.
From Coq Require Import List Arith ZArith Bool Reals Lia Lra.
From Verif Require Import Base Arith Loops Fill StringView_Model StringView_Spec Elem_Model Elem_Spec Elem_Proofs Logger_Model
  Soup_Model Soup_Spec Soup_Proofs Box_Proofs Xdmf_Model Xdmf_Spec Xdmf_Proofs Xdmf_Topo_Proofs Xdmf_File_Proofs.
Import ListNotations.
Local Open Scope list_scope.
Local Open Scope nat_scope.

(** a data set directly in the group [g] *)
Definition directly (g : list Z) (e : list Z * dataset) : Prop := exists n, ~ In SLASH n /\ fst e = g ++ [SLASH] ++ n.
(** [f'] is [f] with data sets of the group [g] added *)
Definition grown (g : list Z) (f f' : h5) : Prop := exists new, f' = f ++ new /\ Forall (directly g) new.
Lemma grown_refl g f : grown g f f.
Proof. exists []. now rewrite app_nil_r. Qed.
Lemma grown_trans g f f' f'' : grown g f f' -> grown g f' f'' -> grown g f f''.
Proof. intros (a & -> & A) (b & -> & B). exists (a ++ b). rewrite app_assoc. split; auto. apply Forall_app; auto. Qed.
Lemma link_no_slash n : link_name n = true -> ~ In SLASH n.
Proof.
  unfold link_name. intros H X. apply andb_prop in H. destruct H as (_ & H). apply negb_true_iff in H.
  assert (E : existsb (Z.eqb SLASH) n = true) by (apply existsb_exists; exists SLASH; split; auto). congruence.
Qed.
Lemma create_grown f g n d f' : createDataSet f g n d = Ret f' -> grown g f f'.
Proof.
  unfold createDataSet. destruct (link_name n) eqn:L; [|discriminate]. destruct (find_path f (g ++ [SLASH] ++ n)); [discriminate|]. intros E. injection E as <-.
  exists [(g ++ [SLASH] ++ n, d)]. split; auto. constructor; [|constructor]. exists n. split; [now apply link_no_slash|reflexivity].
Qed.
Lemma for_post {S : Type} (P : S -> Prop) f : (forall j s s', f j s = Ret s' -> P s -> P s') -> forall n i s s', for_ n i f s = Ret s' -> P s -> P s'.
Proof.
  intros H. induction n as [|n IH]; intros i s s' E P0; cbn in E; [injection E as <-; auto|].
  destruct (f i s) as [s1| | |] eqn:F; try discriminate. cbn in E. exact (IH _ _ _ E (H _ _ _ F P0)).
Qed.
Lemma elset_grown fsize file g (s : soup point R) i st st' : elset_step fsize file g s i st = Ret st' -> grown g (snd st) (snd st').
Proof.
  destruct st as (nodes, f). unfold elset_step. cbn [snd]. intros E.
  destruct (rd (snames s) i) as [n| | |]; try discriminate. cbn [bind] in E.
  destruct (rd (soffs s) i) as [a| | |]; try discriminate. cbn [bind] in E.
  destruct (rd (soffs s) (S i)) as [b| | |]; try discriminate. cbn [bind] in E.
  destruct (range (sids s) a b) as [ids| | |]; try discriminate. cbn [bind] in E.
  destruct (createDataSet f g n _) as [f1| | |] eqn:C1; try discriminate. cbn [bind] in E. apply create_grown in C1.
  destruct (rd (sdata s) i) as [d| | |]; try discriminate. cbn [bind] in E.
  destruct d as [|r d].
  - cbn [bind fst snd] in E. injection E as <-. exact C1.
  - destruct (createDataSet f1 g (n ++ txt "_data") _) as [f2| | |] eqn:C2; try discriminate. cbn [bind fst snd] in E. injection E as <-. apply create_grown in C2.
    eapply grown_trans; eauto.
Qed.
Lemma elsets_grown fsize file g (s : soup point R) f st : writeXDMFElsets fsize f file g s = Ret st -> grown g f (snd st).
Proof.
  unfold writeXDMFElsets. intros E.
  refine (for_post (fun st : list xml * h5 => grown g f (snd st)) _ _ _ _ _ _ E (grown_refl g f)).
  intros j st0 st1 E1 G. eapply grown_trans; [exact G|]. now apply elset_grown in E1.
Qed.

Section Grid.
Variables (checks : bool) (fsize : Z) (eps : R).
Hypothesis Hsize : fsize = 4%Z \/ fsize = 8%Z.
Lemma grid_ok name f file path (s : soup point R) a o : stores s a -> content_ok a -> writable a ->
  (forall n, at_path f (path ++ [SLASH] ++ name) n = None) ->
  exists x f', writeXDMFUniformGrid fsize eps name f file path s o = Ret (x, f') /\ grown (path ++ [SLASH] ++ name) f f' /\
    tag x = txt "Grid" /\ attribute x "Name" = name /\
    forall more, exists u, readXDMFUniformGrid checks fsize x (f' ++ more) file empty_soup = Ret u /\
      stores u (mkA (placed eps o (a_verts a)) (a_elems a) (a_elsets a)).
Proof.
  intros Hs Hc [W1 W2 W3 W4 W5 W6 W7] Fr. unfold writeXDMFUniformGrid. set (g := path ++ [SLASH] ++ name) in *.
  pose proof Hs as (Hv & _).
  rewrite write_geometry; [|now rewrite Hv|apply Fr]. cbn [bind]. rewrite Hv.
  set (f1 := f ++ [(g ++ [SLASH] ++ txt "Geometry", geom_ds fsize eps (a_verts a) o)]).
  assert (Tp : exists ty dm ds, writeXDMFTopology f1 file g s = Ret (xtopo_of file g (length (a_elems a)) ty dm, f1 ++ [(g ++ [SLASH] ++ txt "Topology", ds)]) /\
    forall f' s0 a0 xg, stores s0 a0 -> the_child xg "Topology" = Ret (xtopo_of file g (length (a_elems a)) ty dm) -> at_path f' g (txt "Topology") = Some ds ->
      exists s', readXDMFTopology checks xg f' file s0 = Ret s' /\ stores s' (add_elems a0 (a_elems a))).
  { assert (Fr1 : at_path f1 g (txt "Topology") = None) by (unfold f1; rewrite at_path_snoc, Fr; reflexivity).
    destruct (getElemTypes (map fst (a_elems a))) as [|t [|u l]] eqn:E.
    - apply topology_mixed; auto. intros t Ht. apply homogeneous_types in Ht. congruence.
    - apply homogeneous_types in E. apply topology_one with t; auto.
    - apply topology_mixed; auto. intros t' Ht. apply homogeneous_types in Ht. congruence. }
  destruct Tp as (ty & dm & ds & -> & Rt). cbn [bind].
  set (f2 := f1 ++ [(g ++ [SLASH] ++ txt "Topology", ds)]).
  assert (A1 : at_path f2 g (txt "Geometry") = Some (geom_ds fsize eps (a_verts a) o)).
  { unfold f2. rewrite at_path_snoc. unfold f1. rewrite at_path_snoc, Fr. now rewrite name_eqb_refl. }
  assert (A2 : at_path f2 g (txt "Topology") = Some ds).
  { unfold f2. rewrite at_path_snoc. rewrite name_eqb_refl. unfold f1. rewrite at_path_snoc, Fr. reflexivity. }
  destruct (write_elsets fsize Hsize file g s a f2 Hs Hc W3 W4) as (f3 & E3 & Hh & K).
  { intros n N1 N2. unfold f2. rewrite at_path_snoc. rewrite (name_eqb_neq (txt "Topology")) by congruence. unfold f1. rewrite at_path_snoc, Fr.
    rewrite name_eqb_neq by congruence. reflexivity. }
  assert (G2 : grown g f f2).
  { unfold f2, f1. eexists. rewrite <- app_assoc. split; [reflexivity|]. constructor; [|constructor; [|constructor]]; eexists; (split; [|reflexivity]);
      cbn; unfold SLASH; intuition discriminate. }
  pose proof (elsets_grown _ _ _ _ _ _ E3) as G3. cbn [snd] in G3. rewrite E3. cbn [bind].
  eexists _, f3. split; [reflexivity|]. split; [eapply grown_trans; eauto|]. split; [reflexivity|]. split; [reflexivity|].
  intros more. assert (K' : kept_in f2 (f3 ++ more) g) by (intros n d H; apply K in H; unfold at_path in *; now rewrite find_path_app, H).
  assert (Hh' : Forall (holds fsize (f3 ++ more) g) (a_elsets a)).
  { eapply Forall_impl; [|exact Hh]. intros e. apply holds_kept. intros n d H. unfold at_path in *. now rewrite find_path_app, H. }
  set (xg := Node (txt "Grid") [(txt "Name", name); (txt "GridType", txt "Uniform")] _ []).
  unfold readXDMFUniformGrid. assert (H0 : stores (empty_soup : soup point R) (mkA [] [] [])) by (unfold stores; cbn; auto 10).
  destruct (read_geometry checks fsize eps Hsize (f3 ++ more) file g (a_verts a) o empty_soup _ xg H0 W5 eq_refl (K' _ _ A1)) as (s1 & -> & H1). cbn [bind].
  destruct (Rt (f3 ++ more) s1 _ xg H1 eq_refl (K' _ _ A2)) as (s2 & -> & H2). cbn [bind].
  unfold readXDMFElsets. change (kids xg) with (xgeom_of fsize eps file g (a_verts a) o :: xtopo_of file g (length (a_elems a)) ty dm :: map (set_node fsize file g) (a_elsets a)).
  cbn [read_elsets]. unfold read_elset at 1. change (is (tag (xgeom_of fsize eps file g (a_verts a) o)) "Set") with false. cbn [bind].
  unfold read_elset at 1. change (is (tag (xtopo_of file g (length (a_elems a)) ty dm)) "Set") with false. cbn [bind].
  destruct Hc as (ND & Hc). destruct (read_sets checks fsize Hsize (f3 ++ more) file g (a_elsets a) s2 _ H2 Hh' W3 Hc W7 ND) as (s3 & E & H3).
  exists s3. split; [exact E|]. exact H3.
Qed.
End Grid.
