(** The file with the CMFD data of a reactor model. *)
From Coq Require Import String.
From Coq Require Import Reals.
From Coquelicot Require Import Complex.
From Coq Require Import List Arith ZArith Lia Lra Bool.
From Verif Require Import Base Loops Arith StringView_Model Ascii_Model TextIo_Model Elem_Model Matrix_Model Matrix_Spec Soup_Model Soup_Spec Soup_Proofs Stats_Spec XSec_Model XSec_Spec XSec_Proofs
  Xdmf_Model Xdmf_Spec Xdmf_File_Proofs Cmfd_Model Cmfd_Spec PinCyl_Model Grid_Model Grid_Spec Fvm_Model Fvm_Spec
  Mpact_Model Mpact_Spec Export_Model Export_Spec Export_Sets_Proofs Export_Cell_Proofs Export_Loop_Proofs Export_Proofs Export_Final_Proofs ModelIo_Model ModelIo_Cell_Proofs ModelIo_Proofs
  Outputs_Model Outputs_Spec CmfdInfo_Model CmfdInfo_Spec CmfdInfo_Quads_Proofs CmfdInfo_Data_Proofs.
Import ListNotations.
Local Open Scope list_scope.
Local Open Scope R_scope.

(** ** Names *)
Definition numbered (n : list Z) : Prop := exists p c, n = lit p ++ digits5 c /\
  In p ["Coarse_Cell_"; "Homogenized_Total_XS_Group_"; "Homogenized_Scattering_Ratio_Group_"; "1D_odCMFD_Spectral_Radius_Group_"]%string.
Lemma numbered_last n : numbered n -> exists l c, n = l ++ [c] /\ (48 <= c <= 57)%Z.
Proof.
  intros (p & c & -> & _). pose proof (group_chars c) as H. unfold digits5 in *. cbn [map] in *. rewrite Forall_forall in H.
  eexists (lit p ++ [_; _; _; _]), _. split; [rewrite <- app_assoc; reflexivity|]. apply H. cbn. tauto.
Qed.
Lemma last_not n l c : numbered n -> n = l ++ [c] -> (48 <= c <= 57)%Z.
Proof. intros H E. destruct (numbered_last n H) as (l' & c' & E' & Hc). rewrite E in E'. apply app_inj_tail in E'. destruct E' as (_ & ->). exact Hc. Qed.
Lemma numbered_ok n : numbered n -> name_ok n.
Proof.
  intros H. destruct (numbered_last n H) as (l & c & E & Hc). split; [|split; [|split; [|split]]].
  - rewrite E. destruct l; discriminate.
  - intros X. pose proof (last_not n [] 46 H X). lia.
  - destruct H as (p & k & -> & Hp). rewrite in_app_iff. intros [X|X].
    + cbn [In] in Hp. destruct Hp as [<-|[<-|[<-|[<-|[]]]]]; vm_compute in X; intuition discriminate.
    + pose proof (proj1 (Forall_forall _ _) (group_chars k) _ X) as B. cbv beta in B. unfold SLASH in B. lia.
  - intros X. pose proof (last_not n (txt "Geometr") 121 H X). lia.
  - intros X. pose proof (last_not n (txt "Topolog") 121 H X). lia.
Qed.
Lemma numbered_data n n' : numbered n' -> n' <> data_name n.
Proof. intros H X. assert (E : n' = (n ++ txt "_dat") ++ [97%Z]) by (rewrite X, <- app_assoc; reflexivity). pose proof (last_not _ _ _ H E). lia. Qed.

Section Whole.
Variables checks exit : bool.
Variable solve : cmat -> cmat -> outcome (cmat * cmat).
Variable eigvals : cmat -> outcome (list C).
Variable fsize : Z.
Variable tol : R.
Variable m : model.
Variable xsecs : list xsec.
Variable ng : nat.
Variable junk : list C.
Notation run := (writeCMFDInfo checks exit solve eigvals fsize tol m xsecs junk).
Notation ids0 := (map here (placed_cells m)).
Notation fids := (map (fun c => positions c ids0) (every_id m)).

(** ** Parts of the core *)
Section Parts.
Hypothesis Hm : measurable m.
Hypothesis Hng : ng <> O.
Hypothesis Hlen : length xsecs = length (materials m).
Hypothesis Hmac : Forall (fun x => isMacro x = true /\ shape ng x) xsecs.
Lemma is_exportable : exportable m xsecs.
Proof.
  destruct Hm as (H1 & H2 & H3 & H4). repeat (split; [assumption|]). eapply Forall_impl; [|exact Hmac]. intros x (X1 & X2). split; [exact X1|].
  pose proof (shape_validate ng x _ X2 Hng eq_refl) as V. rewrite X1 in V. destruct V as (w & V). exists ng, w. auto.
Qed.
Lemma ids_of : ids0 = all_cells m.
Proof. apply (place_ids m xsecs is_exportable). Qed.
Lemma rtm_in r : In r (all_rtms m) -> exists_in (rtms m) r.
Proof.
  destruct Hm as (Hv & _). unfold all_rtms, all_lattices. intros H. apply in_flat_map in H. destruct H as (l & Hl & H). apply in_flat_map in Hl. destruct Hl as (a & Ha & Hl).
  pose proof (proj1 (Forall_forall _ _) (core_ids _ Hv) a Ha) as Ea. destruct (Export_Proofs.get_ok (assemblies m) a ([], []) Ea) as (_ & Ia).
  pose proof (proj1 (Forall_forall _ _) (assembly_ids _ Hv _ Ia) l Hl) as El. destruct (Export_Proofs.get_ok (lattices m) l ([], []) El) as (_ & Il).
  exact (proj1 (Forall_forall _ _) (lattice_ids _ Hv _ Il) r H).
Qed.
Lemma cell_in c : In c ids0 -> exists_in (cells m) c.
Proof.
  rewrite ids_of. unfold all_cells. intros H. apply in_flat_map in H. destruct H as (r & Hr & H). destruct (Export_Proofs.get_ok (rtms m) r ([], []) (rtm_in r Hr)) as (_ & Ir).
  destruct Hm as (Hv & _). exact (proj1 (Forall_forall _ _) (rtm_ids _ Hv _ Ir) c H).
Qed.
Lemma full_child l f : full l f = true -> exists k, In k l /\ f k = true.
Proof. unfold full. destruct l as [|k l]; [discriminate|]. cbn. intros H. apply andb_prop in H. exists k. split; [now left|apply H]. Qed.
Lemma some_cell : branching m = true -> placed_cells m <> [].
Proof.
  intros B X. assert (E : all_cells m = []) by (rewrite <- ids_of, X; reflexivity).
  unfold branching in B. apply full_child in B. destruct B as (a & Ha & B). apply full_child in B. destruct B as (l & Hl & B). apply full_child in B. destruct B as (r & Hr & B).
  apply full_child in B. destruct B as (c & Hc & _).
  assert (In c (all_cells m)) as Hin.
  { unfold all_cells, all_rtms, all_lattices. apply in_flat_map. exists r. split; [|exact Hc]. apply in_flat_map. exists l. split; [|exact Hr]. apply in_flat_map. exists a. auto. }
  rewrite E in Hin. destruct Hin.
Qed.
Lemma checked : foreach xsecs (fun x (u : unit) =>
    if negb (isMacro x) then Fail else
    let* _ := XSec_Model.validate x in
    Mpact_Model.assert checks (numGroups x =? ng)%nat (Ret u)) tt = Ret tt.
Proof.
  clear Hlen. induction Hmac as [|x l (X1 & X2) _ IH]; [reflexivity|]. cbn [foreach]. rewrite X1. cbn [negb].
  pose proof (shape_validate ng x _ X2 Hng eq_refl) as V. rewrite X1 in V. destruct V as (w & ->). cbn [bind].
  assert (numGroups x = ng) as -> by apply X2. rewrite Nat.eqb_refl. assert (A : forall k : outcome unit, Mpact_Model.assert checks true k = k) by (intros; unfold Mpact_Model.assert; now rewrite andb_false_r). rewrite A. apply IH. now inversion Hmac.
Qed.
Lemma first_groups : xsecs <> [] -> exists x0, rd xsecs 0 = Ret x0 /\ numGroups x0 = ng.
Proof. intros H. destruct xsecs as [|x l]; [now elim H|]. exists x. split; [reflexivity|]. inversion Hmac as [|? ? (_ & X) _]. apply X. Qed.
Lemma quads_start : has_items m (empty_soup, repeat [] (length (cells m))) [].
Proof.
  split; cbn [fst snd]; [repeat split|]. unfold every_id. rewrite map_map. generalize 0%nat. induction (length (cells m)) as [|n IH]; intros k; [reflexivity|]. cbn [repeat seq map]. now rewrite <- IH.
Qed.
Lemma quads_done : snd (core m) <> [] -> exists nx ny, num_cells (fst (core m)) = Ret (nx, ny) /\
  if branching m then exists s, loop2 nx ny (quad_assembly exit m) (empty_soup, repeat [] (length (cells m))) = Ret ((s, fids), true) /\
    stores s (mkA (rectangles m) (quads_of (length (placed_cells m))) []) /\ length (cell_sizes m) = length (placed_cells m)
  else if exit then loop2 nx ny (quad_assembly exit m) (empty_soup, repeat [] (length (cells m))) = Fail
  else exists st, loop2 nx ny (quad_assembly exit m) (empty_soup, repeat [] (length (cells m))) = Ret (st, false).
Proof.
  intros Hne. destruct Hm as (H1 & H2 & H3 & H4). destruct (core_adds exit m H1 H2 H3 Hne) as (nx & ny & En & A). exists nx, ny. split; [exact En|].
  specialize (A _ _ quads_start). destruct (branching m); [|exact A]. destruct A as ((s, f) & E & (St & Ef)). cbn [fst snd app] in *.
  destruct (items_placed m H2) as (Ls & Ei).
  { pose proof (place_ids m xsecs is_exportable) as (_ & _ & P & _). rewrite P. apply Forall_forall. exact rtm_in. }
  exists s. rewrite Ei in St, Ef. rewrite map_length, combine_length, Ls, Nat.min_id in St. split; [|split].
  - rewrite E. do 3 f_equal. rewrite Ef. apply map_ext. intros c. f_equal. rewrite map_map. unfold item_id, spot. cbn [fst].
    rewrite <- (map_map fst here). now rewrite map_fst_combine.
  - rewrite flat_of_map in St. exact St.
  - exact Ls.
Qed.
Lemma not_complete d p : xsecs <> [] -> branching m = false -> (exists cxs, mapo (cell_xsec exit m xsecs) (seq 0 (length (cells m))) = Ret cxs) ->
  run p d = if exit then Fail else Ret d.
Proof.
  intros Hx B (cxs & Ec). destruct (first_groups Hx) as (x0 & E0 & Eg). unfold writeCMFDInfo. rewrite E0. cbn [bind]. rewrite Eg, checked. cbn [bind].
  destruct (Nat.eqb_spec (length (snd (core m))) 0) as [L|L]; [reflexivity|].
  rewrite Ec. cbn [bind]. destruct quads_done as (nx & ny & En & Q); [intros X; rewrite X in L; now apply L|]. rewrite En. cbn [bind fst snd]. rewrite B in Q.
  destruct exit; [now rewrite Q|]. destruct Q as ((s, f) & ->). reflexivity.
Qed.
End Parts.
Variable area : kind -> list (R * R) -> R.
Hypothesis Harea : measures area.
Hypothesis Hd : describable m xsecs area ng.

Lemma stopped d p : xsecs <> [] -> branching m = false -> run p d = if exit then Fail else Ret d.
Proof.
  intros Hx B. destruct (xsecs_of exit m xsecs area Harea ng Hd) as (cxs & Ec & _). destruct Hd as [H1 H2 H3 H4 H5 _ _]. apply not_complete; eauto.
Qed.

Hypothesis Hb : branching m = true.
Lemma has_xsecs : xsecs <> [].
Proof.
  intros E. destruct Hd as [H1 H2 H3 H4 H5 H6 H7]. pose proof (some_cell H1 H3 H4 H5 Hb) as Hne. destruct (placed_cells m) as [|p l] eqn:Ep; [now elim Hne|].
  assert (exists_in (cells m) (here p)) as Hex by (apply (cell_in H1 H3 H4 H5); rewrite Ep; now left). unfold exists_in in Hex.
  assert (Hin : In (here p) (every_id m)). { unfold every_id. replace (here p) with (Z.of_nat (Z.to_nat (here p))) by lia. apply in_map. apply in_seq. lia. }
  destruct (H6 _ Hin) as (_ & Ht). pose proof (proj1 (Forall_forall _ _) H2 _ Hin) as Hme. unfold has_mesh in Hme. unfold parts in Ht.
  destruct (Export_Proofs.get_ok (cells m) (here p) no_cell) as (_ & Ic); [unfold exists_in; lia|]. fold (the_cell m (here p)) in Ic.
  destruct H1 as (Hids & _). destruct (Mpact_Spec.cell_ids _ Hids _ Ic) as (_ & _ & [E1|(x & _ & _ & Fm)]).
  - destruct (cell_mesh m (the_cell m (here p))) as [[k x]|] eqn:Ecm; [|now elim Hme]. unfold cell_mesh in Ecm. rewrite E1 in Ecm. destruct (meshes_like m (mtype (the_cell m (here p)))) as [[? ?]|]; discriminate.
  - destruct (cell_mesh m (the_cell m (here p))) as [[k y]|]; [|now elim Hme]. destruct (material_ids (the_cell m (here p))) as [|i mats].
    + rewrite combine_nil in Ht. unfold Stats_Spec.total in Ht. cbn in Ht. lra.
    + inversion Fm as [|? ? Hi _]; subst. unfold exists_in in Hi. rewrite <- H4 in Hi. cbn in Hi. lia.
Qed.
Hypothesis Hfew : few m ng.

(** ** The whole function *)
Section Run.
Hypothesis Hsolve : solver solve.
Hypothesis Heig : eigen checks eigvals.
Hypothesis Hjunk : length junk = 16%nat.
Hypothesis Hused : exit = false \/ (forall c, In c (every_id m) -> in_core m c = true).

Lemma sized_16 l : length l = 16%nat -> sized 4 (matrix_of l).
Proof. intros H. unfold matrix_of. repeat split; cbn; auto. unfold intMax. lia. Qed.
Lemma soup_of p d : exists radius s a, (forall c g, In c (every_id m) -> (g < ng)%nat -> radius_data m xsecs area solve eigvals c g (radius c g)) /\
  described m xsecs area ng radius a /\ stores s a /\ run p d = soup_write exit fsize tol s p d.
Proof.
  pose proof Hd as [H1 H2 H3 H4 H5 H6 H7]. destruct (first_groups H4 H5 has_xsecs) as (x0 & E0 & Eg).
  pose proof (some_cell H1 H3 H4 H5 Hb) as Hne. pose proof (cell_in H1 H3 H4 H5) as Hci. pose proof (ids_of H1 H3 H4 H5) as Hids.
  assert (Hcells : Forall (exists_in (cells m)) ids0) by (apply Forall_forall; exact Hci).
  destruct (xsecs_of exit m xsecs area Harea ng Hd) as (cxs & Ec & _ & Hcxs).
  assert (Hcore : snd (core m) <> []). { intros X. unfold branching in Hb. rewrite X in Hb. discriminate. }
  destruct (quads_done H1 H3 H4 H5 Hcore) as (nx & ny & En & Q). rewrite Hb in Q. destruct Q as (s0 & E1 & S0 & Ls).
  destruct (cell_sets exit m ng Hfew Hids s0 _ Hused S0 eq_refl) as (s1 & E2 & S1). cbn [a_verts a_elems] in S1.
  set (sets1 := map (cell_set m) (filter (in_core m) (every_id m))) in *.
  set (J := matrix_of (repeat (RtoC 1) 16)). set (w0 := (matrix_of junk, Cmfd_Model.mkW (matrix_of junk) (matrix_of (repeat (RtoC 0) 16)) (matrix_of (repeat (RtoC 0) 16)) (matrix_of junk))).
  assert (HJ : sized 4 J) by now apply sized_16. assert (Hw0 : ready w0) by (repeat (split; [now apply sized_16|]); now apply sized_16).
  set (radius := fun c g => match radius_value checks solve eigvals m J cxs (Z.to_nat c) g w0 with Ret (v, _) => v | _ => 0 end).
  assert (Hrad : forall icc g w, (icc < length (cells m))%nat -> (g < ng)%nat -> ready w ->
    exists w', radius_value checks solve eigvals m J cxs icc g w = Ret (radius (Z.of_nat icc) g, w') /\ ready w').
  { intros icc g w Hi Hg Hw. destruct (radius_ok checks m xsecs area ng Hd cxs Hcxs solve eigvals Hsolve Heig J w0 w icc g HJ Hw0 Hw Hi Hg) as (v & w1' & w2' & R1 & R2 & _ & R4 & _).
    exists w2'. split; [|exact R4]. rewrite R2. unfold radius. now rewrite Nat2Z.id, R1. }
  assert (Hradd : forall icc g, (icc < length (cells m))%nat -> (g < ng)%nat ->
    radius_data m xsecs area solve eigvals (Z.of_nat icc) g (radius (Z.of_nat icc) g) /\ (checks = true -> unset < radius (Z.of_nat icc) g)).
  { intros icc g Hi Hg. destruct (radius_ok checks m xsecs area ng Hd cxs Hcxs solve eigvals Hsolve Heig J w0 w0 icc g HJ Hw0 Hw0 Hi Hg) as (v & w1' & w2' & R1 & _ & _ & _ & R5).
    unfold radius. rewrite Nat2Z.id, R1. exact R5. }
  assert (Hpos : forall icc g, (icc < length (cells m))%nat -> (g < ng)%nat -> unset < total_of m xsecs area (Z.of_nat icc) g /\ unset < ratio_of m xsecs area (Z.of_nat icc) g).
  { intros icc g Hi Hg. destruct (slab_ok m xsecs area ng Hd icc g Hi Hg) as (_ & _ & T1 & T2). unfold unset. lra. }
  assert (N1 : forall pre, lit pre <> lit "Coarse_Cell_" -> forall g, ~ In (lit pre ++ digits5 (Z.of_nat g)) (map es_name sets1)).
  { intros pre Hpre g X. unfold sets1 in X. rewrite map_map in X. apply in_map_iff in X. destruct X as (c & X & _). cbn [cell_set es_name] in X. apply name_inj in X. now apply Hpre. }
  assert (N2 : forall pre pre' val, lit pre <> lit pre' -> forall g, ~ In (lit pre ++ digits5 (Z.of_nat g)) (map es_name (map (data_set m pre' val) (seq 0 ng)))).
  { intros pre pre' val Hpre g X. rewrite map_map in X. apply in_map_iff in X. destruct X as (c & X & _). cbn [data_set es_name] in X. apply name_inj in X. now apply Hpre. }
  match type of S1 with stores _ ?x => set (a1 := x) in S1 end.
  destruct (group_sets checks exit m ng Hfew Hcells (fun _ : unit => True) "Homogenized_Total_XS_Group_"%string (total_value cxs) (total_of m xsecs area) s1 a1 tt) as (s2 & u2 & E3 & _ & S2);
    [| |exact Hne|exact S1|exact Logic.I| |].
  { intros icc g w Hi Hg _. exists w. split; [|exact Logic.I]. now apply (total_ok m xsecs area ng cxs Hcxs). }
  { intros icc g Hi Hg _. now apply Hpos. }
  { intros g _. cbn [a1 a_elsets]. apply N1. discriminate. }
  cbn [a1 a_verts a_elems a_elsets] in S2. match type of S2 with stores _ ?x => set (a2 := x) in S2 end.
  destruct (group_sets checks exit m ng Hfew Hcells (fun _ : unit => True) "Homogenized_Scattering_Ratio_Group_"%string (ratio_value cxs) (ratio_of m xsecs area) s2 a2 u2) as (s3 & u3 & E4 & _ & S3);
    [| |exact Hne|exact S2|exact Logic.I| |].
  { intros icc g w Hi Hg _. exists w. split; [|exact Logic.I]. now apply (ratio_ok m xsecs area ng cxs Hcxs). }
  { intros icc g Hi Hg _. now apply Hpos. }
  { intros g _. cbn [a2 a_elsets]. rewrite map_app, in_app_iff. intros [X|X]; [apply N1 in X; [auto|discriminate]|apply N2 in X; [auto|discriminate]]. }
  cbn [a2 a_verts a_elems a_elsets] in S3. match type of S3 with stores _ ?x => set (a3 := x) in S3 end.
  destruct (group_sets checks exit m ng Hfew Hcells ready "1D_odCMFD_Spectral_Radius_Group_"%string (radius_value checks solve eigvals m J cxs) radius s3 a3 w0) as (s4 & w4 & E5 & _ & S4);
    [exact Hrad| |exact Hne|exact S3|exact Hw0| |].
  { intros icc g Hi Hg Ck. now apply Hradd. }
  { intros g _. cbn [a3 a_elsets]. rewrite !map_app, !in_app_iff. intros [[X|X]|X]; [apply N1 in X; [auto|discriminate]|apply N2 in X; [auto|discriminate]|apply N2 in X; [auto|discriminate]]. }
  cbn [a3 a_verts a_elems a_elsets] in S4.
  eexists radius, s4, _. split; [|split; [|split; [exact S4|]]].
  - intros c g Hc Hg. unfold every_id in Hc. apply in_map_iff in Hc. destruct Hc as (icc & <- & Hi). apply in_seq in Hi. apply Hradd; [lia|exact Hg].
  - split; [exact Ls|]. cbn [a_verts a_elems a_elsets]. split; [reflexivity|]. split; [reflexivity|]. now rewrite <- !app_assoc.
  - unfold writeCMFDInfo. rewrite E0. cbn [bind]. rewrite Eg, (checked H3 H5). cbn [bind].
    destruct (Nat.eqb_spec (length (snd (core m))) 0) as [L|L]; [destruct (snd (core m)); [now elim Hcore|discriminate]|].
    rewrite Ec. cbn [bind]. rewrite En. cbn [bind fst snd]. rewrite E1. cbn [bind negb].
    change (for_ (length (cells m)) 0 (fun icc s => let* num := getASCIINumber (Z.of_nat icc) in let* fs := rd fids icc in with_set exit s (lit "Coarse_Cell_" ++ num) fs []) s0)
      with (for_ (length (cells m)) 0 (cell_loop exit m) s0). rewrite E2. cbn [bind].
    assert (Et : length (etypes s1) = length (placed_cells m)).
    { destruct S1 as (_ & T & _). rewrite T. cbn [a1 a_elems]. unfold quads_of. now rewrite !map_length, seq_length. }
    rewrite Et. rewrite E3. cbn [bind]. rewrite E4. cbn [bind fst]. fold J w0. rewrite E5. reflexivity.
Qed.

Lemma described_numbered radius a e : described m xsecs area ng radius a -> In e (a_elsets a) -> numbered (es_name e).
Proof.
  intros (_ & _ & _ & ->). rewrite !in_app_iff. intros [H|[H|[H|H]]]; apply in_map_iff in H; destruct H as (x & <- & _); cbn [cell_set data_set es_name];
    eexists; eexists; (split; [reflexivity|]); cbn; auto.
Qed.
Lemma NoDup_map_on {A B} (f : A -> B) l : NoDup l -> (forall x y, In x l -> In y l -> f x = f y -> x = y) -> NoDup (map f l).
Proof.
  induction 1 as [|a l Hn _ IH]; intros H; constructor.
  - intros X. apply in_map_iff in X. destruct X as (y & E & Hy). apply Hn. replace a with y; [exact Hy|]. apply H; [now right|now left|exact E].
  - apply IH. intros x y Hx Hy. apply H; now right.
Qed.
Lemma NoDup_join {A} (l r : list A) : NoDup l -> NoDup r -> (forall x, In x l -> ~ In x r) -> NoDup (l ++ r).
Proof.
  induction 1 as [|a l Hn _ IH]; intros Hr H; [exact Hr|]. cbn. constructor.
  - rewrite in_app_iff. intros [X|X]; [auto|]. apply (H a); [now left|exact X].
  - apply IH; [exact Hr|]. intros x Hx. apply H. now right.
Qed.
Lemma described_content radius a : described m xsecs area ng radius a -> content_ok a.
Proof.
  intros (_ & _ & _ & E). pose proof Hd as [H1 H2 H3 H4 H5 _ _]. pose proof (some_cell H1 H3 H4 H5 Hb) as Hne. destruct Hfew as (F1 & F2 & _).
  assert (Dn : forall pre val, NoDup (map es_name (map (data_set m pre val) (seq 0 ng)))).
  { intros pre val. rewrite map_map. apply NoDup_map_on; [apply seq_NoDup|]. intros x y Hx Hy X. apply in_seq in Hx, Hy. cbn [data_set es_name] in X. apply name_inj in X.
    destruct X as (_ & X). apply digits5_inj in X; lia. }
  assert (Dd : forall pre pre' val val' n, lit pre <> lit pre' -> In n (map es_name (map (data_set m pre val) (seq 0 ng))) -> ~ In n (map es_name (map (data_set m pre' val') (seq 0 ng)))).
  { intros pre pre' val val' n Hp X Y. rewrite map_map in X, Y. apply in_map_iff in X, Y. destruct X as (g & <- & _). destruct Y as (g' & Y & _). cbn [data_set es_name] in Y.
    apply name_inj in Y. apply Hp. symmetry. apply Y. }
  split; rewrite E.
  - rewrite !map_app. apply NoDup_join; [|apply NoDup_join; [apply Dn|apply NoDup_join; [apply Dn|apply Dn|]|]|].
    + rewrite map_map. apply NoDup_map_on; [apply NoDup_filter; unfold every_id; apply NoDup_map_on; [apply seq_NoDup|intros; lia]|].
      intros x y Hx Hy X. apply filter_In in Hx, Hy. destruct Hx as (Hx & _). destruct Hy as (Hy & _). unfold every_id in *. apply in_map_iff in Hx, Hy.
      destruct Hx as (a1 & <- & Hx). destruct Hy as (b1 & <- & Hy). apply in_seq in Hx, Hy. cbn [cell_set es_name] in X. apply name_inj in X. destruct X as (_ & X). apply digits5_inj in X; lia.
    + intros n. apply Dd. discriminate.
    + intros n Hn. rewrite in_app_iff. intros [X|X]; revert X; apply (Dd _ _ _ _ n) with (2 := Hn); discriminate.
    + intros n Hn X. rewrite map_map in Hn. apply in_map_iff in Hn. destruct Hn as (c & <- & _). cbn [cell_set es_name] in X.
      rewrite !in_app_iff in X. destruct X as [X|[X|X]]; rewrite map_map in X; apply in_map_iff in X; destruct X as (g & X & _); cbn [data_set es_name] in X; apply name_inj in X;
        destruct X as (X & _); discriminate.
  - apply Forall_forall. intros e He. rewrite !in_app_iff in He. 
    assert (Do : forall pre val, In e (map (data_set m pre val) (seq 0 ng)) -> elset_ok e).
    { intros pre val X. apply in_map_iff in X. destruct X as (g & <- & _). split; cbn [data_set es_ids es_data].
      - destruct (placed_cells m); [now elim Hne|discriminate].
      - right. now rewrite !map_length, seq_length. }
    destruct He as [X|[X|[X|X]]]; [|eapply Do; exact X..]. apply in_map_iff in X. destruct X as (c & <- & Hc). apply filter_In in Hc. destruct Hc as (_ & Hc).
    split; cbn [cell_set es_ids es_data]; [|now left]. intros X. apply positions_none in X. rewrite (ids_of H1 H3 H4 H5) in X. unfold in_core in Hc. congruence.
Qed.
Lemma filter_le {A} (f : A -> bool) l : (length (filter f l) <= length l)%nat.
Proof. induction l as [|a l IH]; [auto|]. cbn. destruct (f a); cbn; lia. Qed.
Lemma positions_length c l : (length (positions c l) <= length l)%nat.
Proof.
  unfold positions. rewrite map_length. etransitivity; [apply filter_le|]. rewrite combine_length, seq_length. lia.
Qed.
Lemma described_writable radius a : described m xsecs area ng radius a -> writable a.
Proof.
  intros D. pose proof D as (Ls & Ev & Ee & Es). pose proof Hd as [H1 H2 H3 H4 H5 _ _]. pose proof (some_cell H1 H3 H4 H5 Hb) as Hne.
  set (n := length (placed_cells m)) in *.
  assert (Hn : (12 * Z.of_nat n <= intMax)%Z). { destruct Hfew as (_ & _ & F). rewrite <- (ids_of H1 H3 H4 H5), map_length in F. exact F. }
  assert (Lv : length (a_verts a) = (4 * n)%nat).
  { rewrite Ev. unfold rectangles. assert (length (combine (placed_cells m) (cell_sizes m)) = n) as Lc by (rewrite combine_length, Ls; lia). rewrite <- Lc. clear.
    induction (combine (placed_cells m) (cell_sizes m)) as [|[p e] l IH]; [reflexivity|]. cbn [flat_map fst snd]. rewrite app_length, IH. destruct (offset p) as ((?, ?), ?). cbn. lia. }
  assert (Lc : length (concat (map snd (a_elems a))) = (4 * n)%nat).
  { rewrite Ee. unfold quads_of. rewrite map_map. cbn [snd]. clear. rewrite <- (seq_length n 0) at 2. induction (seq 0 n) as [|k l IH]; [reflexivity|].
    cbn [map] in IH |- *. cbn [concat length]. rewrite app_length, IH. cbn [length]. lia. }
  assert (Le : length (a_elems a) = n) by (rewrite Ee; unfold quads_of; now rewrite map_length, seq_length).
  split.
  - rewrite Ee. apply Forall_forall. intros e He. unfold quads_of in He. apply in_map_iff in He. destruct He as (i & <- & _). split; [discriminate|reflexivity].
  - intros t (Hne' & Ht). destruct (a_elems a) as [|e l] eqn:El; [now elim Hne'|]. right. left. rewrite <- (Ht e (or_introl eq_refl)).
    assert (In e (quads_of n)) as He by (rewrite <- Ee; now left). unfold quads_of in He. apply in_map_iff in He. destruct He as (i & <- & _). reflexivity.
  - apply Forall_forall. intros e He. apply numbered_ok. eapply described_numbered; eauto.
  - intros e e' He He' _. apply numbered_data. eapply described_numbered; eauto.
  - rewrite Lv. lia.
  - rewrite Lc, Le. lia.
  - rewrite Es. apply Forall_forall. intros e He. assert (length (es_ids e) <= n)%nat as L; [|lia].
    rewrite !in_app_iff in He. destruct He as [X|[X|[X|X]]]; apply in_map_iff in X; destruct X as (x & <- & _); cbn [cell_set data_set es_ids]; [|now rewrite map_length, seq_length..].
    etransitivity; [apply positions_length|]. now rewrite map_length.
Qed.
Lemma info_written checks' p h d : fsize = 4%Z \/ fsize = 8%Z -> 0 <= tol -> xdmf_path p h ->
  exists radius a d' s' vs, (forall c g, In c (every_id m) -> (g < ng)%nat -> radius_data m xsecs area solve eigvals c g (radius c g)) /\
    described m xsecs area ng radius a /\ run p d = Ret d' /\ only_written p h d d' /\
    readXDMFFile checks' fsize p d' empty_soup = Ret s' /\ kept tol (a_verts a) vs /\ stores s' (mkA vs (a_elems a) (a_elsets a)).
Proof.
  intros Hf Ht Hp. destruct (soup_of p d) as (radius & s & a & Hr & Da & Sa & E). pose proof (described_content _ _ Da) as Ca.
  destruct (Xdmf_File_Proofs.round_trip checks' fsize tol Hf p h s a d Ht Hp Sa Ca (described_writable _ _ Da)) as (d' & W1 & W2 & W3).
  destruct (W3 empty_soup a_empty) as (s' & vs & W4 & W5 & W6); [repeat split|exact (proj1 Ca)|].
  exists radius, a, d', s', vs. repeat (split; [assumption|]). split; [|auto].
  rewrite E. unfold soup_write. rewrite (path_xdmf p h Hp). cbn [bind]. exact W1.
Qed.
End Run.

(** ** Cells outside the core *)
Lemma for_fail {A} (P : nat -> A -> Prop) f k : forall n i s, P i s -> (i <= k < i + n)%nat ->
  (forall j s, (i <= j < i + n)%nat -> P j s -> f j s = Fail \/ exists s', f j s = Ret s' /\ P (S j) s') -> (forall s, P k s -> f k s = Fail) -> for_ n i f s = Fail.
Proof.
  induction n as [|n IH]; intros i s H0 Hk Hs Hf; [lia|]. cbn [for_]. destruct (Nat.eq_dec i k) as [->|D]; [now rewrite Hf|].
  destruct (Hs i s) as [E|(s' & E & H')]; [lia|exact H0|now rewrite E|]. rewrite E. cbn [bind]. apply (IH (S i) s' H'); [lia| |exact Hf]. intros j s1 Hj. apply Hs. lia.
Qed.
Lemma unused_cell p d c : exit = true -> In c (every_id m) -> in_core m c = false -> run p d = Fail.
Proof.
  intros Ex Hc Hu. pose proof Hd as [H1 H2 H3 H4 H5 H6 H7]. destruct (first_groups H4 H5 has_xsecs) as (x0 & E0 & Eg).
  pose proof (ids_of H1 H3 H4 H5) as Hids.
  destruct (xsecs_of exit m xsecs area Harea ng Hd) as (cxs & Ec & _ & Hcxs).
  assert (Hcore : snd (core m) <> []). { intros X. unfold branching in Hb. rewrite X in Hb. discriminate. }
  destruct (quads_done H1 H3 H4 H5 Hcore) as (nx & ny & En & Q). rewrite Hb in Q. destruct Q as (s0 & E1 & S0 & Ls).
  unfold writeCMFDInfo. rewrite E0. cbn [bind]. rewrite Eg, (checked H3 H5). cbn [bind].
  destruct (Nat.eqb_spec (length (snd (core m))) 0) as [L|L]; [destruct (snd (core m)); [now elim Hcore|discriminate]|].
  rewrite Ec. cbn [bind]. rewrite En. cbn [bind fst snd]. rewrite E1. cbn [bind negb].
  unfold every_id in Hc. apply in_map_iff in Hc. destruct Hc as (k & <- & Hk). apply in_seq in Hk.
  rewrite (for_fail (fun n s' => stores s' (mkA (rectangles m) (quads_of (length (placed_cells m))) (map (cell_set m) (filter (in_core m) (map Z.of_nat (seq 0 n))))))
    _ k (length (cells m)) 0 s0); [reflexivity|exact S0|lia| |].
  - intros icc s1 Hi St. rewrite ascii5 by lia. cbn [bind]. rewrite (fids_rd m) by lia. cbn [bind].
    rewrite seq_S, map_app, filter_app, map_app. cbn [map filter Nat.add]. destruct (in_core m (Z.of_nat icc)) eqn:Eco.
    + right. destruct (with_set_ok exit s1 _ (lit "Coarse_Cell_" ++ digits5 (Z.of_nat icc)) (positions (Z.of_nat icc) ids0) [] St) as (s2 & E2 & St2); [|eauto].
      split; [|split]; cbn [es_name es_ids es_data a_elsets]; [| |now left].
      * rewrite map_map. intros X. apply in_map_iff in X. destruct X as (c & X & Hc). apply filter_In in Hc. destruct Hc as (Hc & _). apply in_map_iff in Hc. destruct Hc as (n & <- & Hn).
        apply in_seq in Hn. cbn [cell_set es_name] in X. apply name_inj in X. destruct X as (_ & X). destruct Hfew as (Fc & _). apply digits5_inj in X; lia.
      * intros X. apply positions_none in X. rewrite Hids in X. unfold in_core in Eco. congruence.
    + left. unfold with_set. rewrite (addElset_reject s1 _ _ _ _ St), Ex; [reflexivity|]. intros (_ & X & _). cbn [es_ids] in X. apply X. apply positions_none. rewrite Hids. exact Eco.
  - intros s1 St. rewrite ascii5 by lia. cbn [bind]. rewrite (fids_rd m) by lia. cbn [bind].
    unfold with_set. rewrite (addElset_reject s1 _ _ _ _ St), Ex; [reflexivity|]. intros (_ & X & _). cbn [es_ids] in X. apply X. apply positions_none. rewrite Hids. exact Hu.
Qed.
End Whole.

(** ** Cells without meshes *)
Lemma no_meshes checks exit solve eigvals fsize tol m xsecs ng junk p d : measurable m -> ng <> O -> length xsecs = length (materials m) ->
  Forall (fun x => isMacro x = true /\ shape ng x) xsecs -> xsecs <> [] -> few m ng -> branching m = true -> Forall (fun c => meshes_like m (mtype c) = None) (cells m) ->
  writeCMFDInfo checks exit solve eigvals fsize tol m xsecs junk p d = if exit then Fail else Ub.
Proof.
  intros H1 H3 H4 H5 Hx Hfew Hb Hno. destruct (first_groups m xsecs ng H4 H5 Hx) as (x0 & E0 & Eg).
  pose proof (ids_of m xsecs ng H1 H3 H4 H5) as Hids. pose proof (some_cell m xsecs ng H1 H3 H4 H5 Hb) as Hne.
  assert (Hcore : snd (core m) <> []). { intros X. unfold branching in Hb. rewrite X in Hb. discriminate. }
  assert (Hcm : exists n, length (cells m) = S n).
  { destruct (placed_cells m) as [|q l] eqn:Ep; [now elim Hne|]. assert (exists_in (cells m) (here q)) as X by (apply (cell_in m xsecs ng H1 H3 H4 H5); rewrite Ep; now left).
    unfold exists_in in X. exists (length (cells m) - 1)%nat. lia. }
  destruct Hcm as (n & Hn).
  set (e := mkX false false 0 [] [] [] [] [] (mkM 0 0 [])).
  assert (Ex : forall icc, (icc < length (cells m))%nat -> cell_xsec exit m xsecs icc = go_on exit e).
  { intros icc Hi. unfold cell_xsec. destruct (nth_error (cells m) icc) as [cc|] eqn:Ecc; [|apply nth_error_None in Ecc; lia].
    rewrite (proj2 (rd_Ret _ _ _) Ecc). cbn [bind]. pose proof (proj1 (Forall_forall _ _) Hno cc (nth_error_In _ _ Ecc)) as Hc. cbv beta in Hc.
    destruct (mtype cc); cbn in Hc; try discriminate; reflexivity. }
  unfold writeCMFDInfo. rewrite E0. cbn [bind]. rewrite Eg, (checked checks xsecs ng H3 H5). cbn [bind].
  destruct (Nat.eqb_spec (length (snd (core m))) 0) as [L|L]; [destruct (snd (core m)); [now elim Hcore|discriminate]|].
  destruct exit.
  - rewrite Hn. cbn [seq mapo]. rewrite Ex by lia. reflexivity.
  - assert (Ec : mapo (cell_xsec false m xsecs) (seq 0 (length (cells m))) = Ret (map (fun _ => e) (seq 0 (length (cells m))))).
    { apply mapo_map. intros i Hi. apply in_seq in Hi. rewrite Ex by lia. reflexivity. }
    rewrite Ec. cbn [bind]. destruct (quads_done false m xsecs ng H1 H3 H4 H5 Hcore) as (nx & ny & En & Q). rewrite Hb in Q. destruct Q as (s0 & E1 & S0 & Ls).
    rewrite En. cbn [bind fst snd]. rewrite E1. cbn [bind negb].
    destruct (cell_sets false m ng Hfew Hids s0 _ (or_introl eq_refl) S0 eq_refl) as (s1 & E2 & S1).
    match goal with |- context [for_ (length (cells m)) 0 ?f s0] => change (for_ (length (cells m)) 0 f s0) with (for_ (length (cells m)) 0 (cell_loop false m) s0) end.
    rewrite E2. cbn [bind]. destruct ng as [|g]; [now elim H3|]. cbn [for_]. unfold group_set at 1. rewrite ascii5 by lia. cbn [bind fst snd].
    rewrite Hn. cbn [seq map for_]. reflexivity.
Qed.
