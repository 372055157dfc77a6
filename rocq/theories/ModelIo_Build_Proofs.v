(** From what has been found in the document to the model. *)
From Coq Require Import String.
From Coq Require Import List Arith ZArith Lia Bool Reals Lra.
From Verif Require Grid_Proofs.
From Verif Require Import Base Loops Arith Box_Model StringView_Model Logger_Model TextIo_Model TextIo_Spec Elem_Model
  Soup_Model Soup_Spec Soup_Proofs XSec_Model PinCyl_Model Grid_Model Grid_Spec Fvm_Model Fvm_Spec Xdmf_Model Xdmf_Spec Xdmf_Proofs Mpact_Model Mpact_Spec Mpact_Proofs Mpact_Steps_Proofs Mpact_Accept_Proofs
  Export_Model Export_Spec Export_Sets_Proofs Export_Cell_Proofs Export_Loop_Proofs Export_Proofs Import_Model Import_Spec Import_Sets_Proofs ModelIo_Model ModelIo_Spec
  ModelIo_Text_Proofs ModelIo_Grid_Proofs ModelIo_Cell_Proofs ModelIo_Write_Proofs ModelIo_Read_Proofs.
Import ListNotations.
Local Open Scope list_scope.

Lemma firstn_snoc {A} (l : list A) i a : nth_error l i = Some a -> firstn i l ++ [a] = firstn (S i) l.
Proof. revert i. induction l as [|x l IH]; intros [|i] E; try discriminate; cbn [nth_error firstn app] in *; [now injection E as ->|]. f_equal. now apply IH. Qed.
Lemma all_there (l : list Z) n : NoDup l -> (forall id, In id l -> (0 <= id < Z.of_nat n)%Z) -> (forall id, (0 <= id < Z.of_nat n)%Z -> In id l) -> length l = n.
Proof.
  intros Nd Hi Hc. set (q := map Z.of_nat (seq 0 n)). assert (Lq : length q = n) by (unfold q; now rewrite map_length, seq_length).
  assert (I1 : incl l q). { intros z Hz. apply Hi in Hz. apply in_map_iff. exists (Z.to_nat z). split; [lia|]. apply in_seq. lia. }
  assert (I2 : incl q l). { intros z Hz. apply in_map_iff in Hz. destruct Hz as (k & <- & Hk). apply in_seq in Hk. apply Hc. lia. }
  assert (Nq : NoDup q) by (apply ModelIo_Cell_Proofs.nodup_map; [intros a b _ _ E; lia|apply seq_NoDup]).
  apply Nat.le_antisymm; [rewrite <- Lq at 1; now apply NoDup_incl_length|rewrite <- Lq at 1; now apply NoDup_incl_length].
Qed.

Section Build.
Variable selfcheck : mesh R -> outcome (mesh R).
Variables (checks : bool) (m : model).
Hypothesis Hst : storable selfcheck m.
Variable s : rstate.
Hypothesis Hc : cells_ok m s.
Hypothesis Ht : rtms_ok m s.
Hypothesis Hl : lats_ok m (stacks m) s.
Hypothesis Ha : asys_ok m s.
Hypothesis Hcore : incl (snd (core m)) (r_asy s).

Lemma in_at {A} (l : list A) (P : Z -> A -> Prop) ids : (forall j id, nth_error ids j = Some id -> exists x, at_ l id x /\ P id x) ->
  forall id, In id ids -> exists x, at_ l id x /\ P id x.
Proof. intros H id Hi. apply In_nth_error in Hi. destruct Hi as (j & Hj). eauto. Qed.
Lemma all_asys id : exists_in (assemblies m) id -> In id (r_asy s).
Proof. intros H. apply Hcore. now apply (s_used_assemblies _ _ Hst). Qed.
Lemma stack_lats id : In id (all_lattices m) -> In id (r_lat s).
Proof.
  intros H. apply (l_done _ _ _ Hl). unfold all_lattices in H. apply in_flat_map in H. destruct H as (a & H1 & H2). exists a. unfold stacks. apply in_flat_map. exists a. split; auto.
  apply in_map_iff. eauto.
Qed.
Lemma all_lats id : exists_in (lattices m) id -> In id (r_lat s).
Proof. intros H. destruct (s_own _ _ Hst id H) as (before & after & E & _). apply (l_done _ _ _ Hl). exists id. rewrite E. apply in_or_app. right. now left. Qed.
Lemma below_rtms id : In id (all_rtms m) -> In id (r_rtm s).
Proof.
  intros H. unfold all_rtms in H. apply in_flat_map in H. destruct H as (l & H1 & H2). apply stack_lats in H1. apply In_nth_error in H1. destruct H1 as (j & Hj).
  destruct (l_at _ _ _ Hl j l Hj) as (x & rows & A & _ & _ & D). rewrite (get_at _ _ _ _ A) in H2. auto.
Qed.
Lemma below_cells id : In id (all_cells m) -> In id (r_cell s).
Proof.
  intros H. unfold all_cells in H. apply in_flat_map in H. destruct H as (l & H1 & H2). apply below_rtms in H1. apply In_nth_error in H1. destruct H1 as (j & Hj).
  destruct (t_at _ _ Ht j l Hj) as (x & rows & A & _ & _ & D). rewrite (get_at _ _ _ _ A) in H2. auto.
Qed.
Lemma len_of {A} (objs : list A) ids : NoDup ids -> (forall id, In id ids -> exists_in objs id) -> (forall id, exists_in objs id -> In id ids) -> length ids = length objs.
Proof. intros H1 H2 H3. apply all_there; auto. Qed.
Lemma len_cells : length (r_mesh s) = length (cells m).
Proof.
  rewrite (c_mesh _ _ Hc). apply len_of; [apply (c_nodup _ _ Hc)| |intros id H; now apply below_cells, (s_used_cells _ _ Hst)].
  intros id Hi. apply In_nth_error in Hi. destruct Hi as (j & Hj). destruct (c_at _ _ Hc j id Hj) as (c & k & x & i & A & _). exact (at_exists _ _ _ A).
Qed.
Lemma len_rtms : length (r_rtm s) = length (rtms m).
Proof.
  apply len_of; [apply (t_nodup _ _ Ht)| |intros id H; now apply below_rtms, (s_used_rtms _ _ Hst)].
  intros id Hi. apply In_nth_error in Hi. destruct Hi as (j & Hj). destruct (t_at _ _ Ht j id Hj) as (c & k & A & _). exact (at_exists _ _ _ A).
Qed.
Lemma len_lats : length (r_lat s) = length (lattices m).
Proof.
  apply len_of; [apply (l_nodup _ _ _ Hl)| |exact all_lats].
  intros id Hi. apply In_nth_error in Hi. destruct Hi as (j & Hj). destruct (l_at _ _ _ Hl j id Hj) as (c & k & A & _). exact (at_exists _ _ _ A).
Qed.
Lemma len_asys : length (r_asy s) = length (assemblies m).
Proof.
  apply len_of; [apply (a_nodup _ _ Ha)| |exact all_asys].
  intros id Hi. apply In_nth_error in Hi. destruct Hi as (j & Hj). destruct (a_at _ _ Ha j id Hj) as (c & k & A & _). exact (at_exists _ _ _ A).
Qed.
Lemma index_ok ids i : In (Z.of_nat i) ids -> exists j, index_of checks ids i = Ret j /\ nth_error ids j = Some (Z.of_nat i).
Proof.
  intros H. destruct (find_id_ok ids _ H) as (L & E). exists (find_id ids (Z.of_nat i)). split; auto. unfold index_of, Mpact_Model.assert.
  destruct (Nat.ltb_spec (find_id ids (Z.of_nat i)) (length ids)); [|lia]. cbn [negb]. now rewrite andb_false_r.
Qed.
Lemma at_nat {A} (l : list A) i x : at_ l (Z.of_nat i) x -> nth_error l i = Some x.
Proof. intros (_ & E). now rewrite Nat2Z.id in E. Qed.
Lemma nat_exists {A} (l : list A) i : (i < length l)%nat -> exists_in l (Z.of_nat i).
Proof. intros H. unfold exists_in. lia. Qed.

Variables (t q t6 q8 : list (mesh R)).
Hypothesis Em : r_model s = set_meshes t q t6 q8 (only_materials (map bare (materials m))).
Definition M cs rs ls as_ := mkModel ([[]; []], []) as_ ls rs cs (map bare (materials m)) t q t6 q8.
Lemma inv_base : inv checks (M [] [] [] []).
Proof.
  assert (E : forall ms l, inv checks (only_materials ms) -> inv checks (only_materials (ms ++ l))).
  { intros ms l. revert ms. induction l as [|x l IH]; intros ms H; [now rewrite app_nil_r|]. replace (ms ++ x :: l) with ((ms ++ [x]) ++ l) by now rewrite <- app_assoc. apply IH.
    change (only_materials (ms ++ [x])) with (push_material x (only_materials ms)). now apply inv_push_material. }
  change (M [] [] [] []) with (set_meshes t q t6 q8 (only_materials (map bare (materials m)))). apply inv_set_meshes.
  - apply (E []). exact (inv_empty checks).
  - now exists t.
  - now exists q.
  - now exists t6.
  - now exists q8.
Qed.

(** ** Cells *)
Definition like (c c' : cell) : Prop := xy_extents c' = xy_extents c /\ mtype c' = mtype c /\ material_ids c' = material_ids c /\
  exists k x x', cell_mesh m c = Some (k, x) /\ cell_mesh (M [] [] [] []) c' = Some (k, x') /\ mv x' = mv x /\ fv x' = fv x.
Lemma F2_snoc {A B} (P : A -> B -> Prop) l r a b : Forall2 P l r -> P a b -> Forall2 P (l ++ [a]) (r ++ [b]).
Proof. induction 1; intros; cbn; constructor; auto. Qed.
Lemma build_cells : exists cs, for_ (length (r_mesh s)) 0 (fun i m =>
    let* j := index_of checks (r_cell s) i in
    let* t := rd (r_mesh s) j in
    let* e := rd (r_ext s) j in
    let* mats := rd (r_mats s) j in
    let* r := addCoarseCell true m e (fst t) (snd t) mats in Ret (fst r)) (r_model s) = Ret (M cs [] [] []) /\
  Forall2 like (cells m) cs /\ inv checks (M cs [] [] []).
Proof.
  rewrite Em. change (set_meshes t q t6 q8 (only_materials (map bare (materials m)))) with (M [] [] [] []). rewrite len_cells.
  destruct (for_inv (fun i mm => exists cs, mm = M cs [] [] [] /\ Forall2 like (firstn i (cells m)) cs /\ inv checks mm)
    (fun i m0 => let* j := index_of checks (r_cell s) i in
    let* t := rd (r_mesh s) j in
    let* e := rd (r_ext s) j in
    let* mats := rd (r_mats s) j in
    let* r := addCoarseCell true m0 e (fst t) (snd t) mats in Ret (fst r)) (length (cells m)) 0 (M [] [] [] [])) as (mm & E & cs & -> & F & HI).
  - exists []. split; [reflexivity|]. split; [constructor|exact inv_base].
  - intros i mm Hi (cs & -> & F & HI). cbn [Nat.add] in Hi.
    assert (Hin : In (Z.of_nat i) (r_cell s)) by (apply below_cells, (s_used_cells _ _ Hst), nat_exists; lia).
    destruct (index_ok _ _ Hin) as (j & Ej & Hj). rewrite Ej. cbn [bind].
    destruct (c_at _ _ Hc j _ Hj) as (c & k & x & i' & A & Cm & N1 & Mk & N2 & N3).
    rewrite (proj2 (rd_Ret _ _ _) N1), (proj2 (rd_Ret _ _ _) N2), (proj2 (rd_Ret _ _ _) N3). cbn [bind fst snd].
    pose proof (at_in _ _ _ A) as Ic. pose proof (cell_ids _ (s_ids _ _ Hst) c Ic) as (G1 & G2 & G3).
    pose proof (s_cells _ _ Hst) as Sc. rewrite Forall_forall in Sc. destruct (Sc c Ic) as (k0 & x0 & Cm' & Mo & Fv & _ & _ & Lm & _).
    rewrite Cm in Cm'. injection Cm' as <- <-.
    assert (Me : mesh_at (M cs [] [] []) (type_of k) i' (at_place (0, 0)%R x)).
    { rewrite Em in Mk. destruct k; exact Mk. }
    destruct (addCoarseCell_ok true (M cs [] [] []) (xy_extents c) (type_of k) i' (material_ids c)) as (Ok & _).
    assert (Good : good_cell (M cs [] [] []) (xy_extents c) (type_of k) i' (material_ids c)).
    { split; [exact G1|]. split; [exact G2|]. right. exists (at_place (0, 0)%R x). split; [exact Me|]. split; [exact Lm|].
      destruct G3 as [X|(y & _ & _ & Y)].
      - exfalso. unfold cell_mesh in Cm. rewrite X in Cm. cbn in Cm. destruct (meshes_like m (mtype c)) as [(?, ?)|]; discriminate.
      - eapply Forall_impl; [|exact Y]. intros d Hd. unfold exists_in in *. cbn [materials M]. now rewrite map_length. }
    rewrite (Ok Good). cbn [bind fst]. eexists. split; [reflexivity|]. exists (cs ++ [mkCell (xy_extents c) (type_of k) i' (material_ids c)]). split; [reflexivity|].
    split; [|exact (inv_push_cell checks (M cs [] [] []) _ _ _ _ HI Good)].
    rewrite <- (firstn_snoc _ _ _ (at_nat _ _ _ A)). apply F2_snoc; [exact F|].
    split; [reflexivity|]. split; [symmetry; exact (mesh_type_of _ _ _ _ Cm)|]. split; [reflexivity|].
    exists k, x, (at_place (0, 0)%R x). split; [exact Cm|]. split; [|split; [apply mv_at0|reflexivity]].
    destruct k; destruct Me as (Me1 & Me2); cbn [tris quads tri6s quad8s M] in Me2; unfold cell_mesh, meshes_like; cbn [mtype mesh_id type_of tris quads tri6s quad8s M];
      (destruct (Z.ltb_spec i' 0); [lia|]); rewrite Me2; reflexivity.
  - exists cs. rewrite E. cbn [Nat.add] in F. rewrite firstn_all in F. auto.
Qed.

(** ** RTMs *)
Variable cs : list cell.
Hypothesis Hcs : Forall2 like (cells m) cs.
Lemma same_extents : map xy_extents cs = map xy_extents (cells m).
Proof. revert Hcs. clear. generalize (cells m). intros l H. induction H as [|c c' l l' (E & _) _ IH]; [reflexivity|]. cbn. now rewrite E, IH. Qed.
Lemma laid_rows dxdy p rows : laid_out dxdy p -> rect_rows p rows -> exists W H, lattice dxdy rows W H /\ p = ([sums 0 W; sums 0 H], concat (rev rows)).
Proof.
  intros (ids & W & H & HL & ->) (lx & ly & E & Hr). cbn [fst snd] in *. injection E as <- <-. exists W, H.
  assert (rows = ids) as ->.
  { eapply rows_unique; [exact Hr|]. rewrite !Grid_Proofs.sums_length. cbn [Nat.sub]. rewrite !Nat.sub_0_r. split; [|reflexivity]. eapply lattice_rect; eauto. }
  auto.
Qed.
Lemma build_rtms : inv checks (M cs [] [] []) -> for_ (length (r_rtm s)) 0 (fun i m =>
    let* j := index_of checks (r_rtm s) i in
    let* ids := rd (r_rtm_cells s) j in
    let* r := addRTM checks true m ids in Ret (fst r)) (M cs [] [] []) = Ret (M cs (rtms m) [] []) /\ inv checks (M cs (rtms m) [] []).
Proof.
  intros I0. rewrite len_rtms.
  destruct (for_inv (fun i mm => mm = M cs (firstn i (rtms m)) [] [] /\ inv checks mm)
    (fun i m0 => let* j := index_of checks (r_rtm s) i in
    let* ids := rd (r_rtm_cells s) j in
    let* r := addRTM checks true m0 ids in Ret (fst r)) (length (rtms m)) 0 (M cs [] [] [])) as (mm & E & -> & HI).
  - auto.
  - intros i mm Hi (-> & HI). cbn [Nat.add] in Hi.
    assert (Hin : In (Z.of_nat i) (r_rtm s)) by (apply below_rtms, (s_used_rtms _ _ Hst), nat_exists; lia).
    destruct (index_ok _ _ Hin) as (j & Ej & Hj). rewrite Ej. cbn [bind].
    destruct (t_at _ _ Ht j _ Hj) as (r & rows & A & N1 & Hr & _). rewrite (proj2 (rd_Ret _ _ _) N1). cbn [bind].
    pose proof (at_in _ _ _ A) as Ir. destruct (laid_rows _ _ _ (s_rtms _ _ Hst r Ir) Hr) as (W & H & HL & Er).
    set (mm := M cs (firstn i (rtms m)) [] []) in *.
    destruct (addRTM_ok checks true mm rows W H (proj2 HI)) as (Ok & _); [unfold mm; cbn [cells M]; now rewrite same_extents|].
    assert (En : addRTM checks true mm rows = Ret (push_rtm r mm, Z.of_nat (length (rtms mm)))).
    { rewrite Er. apply Ok. intros r0 w0 h0 N0 X0. assert (N0' : nth_error (rtms m) 0 = Some r0).
      { unfold mm in N0. cbn [rtms M] in N0. destruct i; [discriminate|]. destruct (rtms m); [discriminate|exact N0]. }
      destruct (rtm_extents _ _ (s_consistent _ _ Hst) r0 r N0' Ir) as (w1 & h1 & w & h & X1 & X2 & X3).
      destruct (extent_fun _ _ _ _ _ X0 X1) as (-> & ->). rewrite Er in X2. cbn [fst] in X2. destruct (extent_fun _ _ _ _ _ X2 (sums_extent W H)) as (-> & ->). exact X3. }
    rewrite En. cbn [bind fst]. eexists. split; [reflexivity|]. split.
    + unfold mm. rewrite <- (firstn_snoc _ _ _ (at_nat _ _ _ A)). reflexivity.
    + exact (proj1 (keeps_rtm checks true _ _ _ _ HI En)).
  - rewrite E. cbn [Nat.add] in *. rewrite firstn_all in *. auto.
Qed.

(** ** Lattices *)
Lemma in_concat_rev {A} (l : list (list A)) x : In x (concat l) <-> In x (concat (rev l)).
Proof. rewrite !in_concat. split; intros (r & H1 & H2); exists r; split; auto; [now apply in_rev in H1|now apply in_rev]. Qed.
Lemma build_lats : inv checks (M cs (rtms m) [] []) -> for_ (length (r_lat s)) 0 (fun i m =>
    let* j := index_of checks (r_lat s) i in
    let* ids := rd (r_lat_rtms s) j in
    let* r := addLattice checks true m ids in Ret (fst r)) (M cs (rtms m) [] []) = Ret (M cs (rtms m) (lattices m) []) /\ inv checks (M cs (rtms m) (lattices m) []).
Proof.
  intros I0. rewrite len_lats.
  destruct (for_inv (fun i mm => mm = M cs (rtms m) (firstn i (lattices m)) [] /\ inv checks mm)
    (fun i m0 => let* j := index_of checks (r_lat s) i in
    let* ids := rd (r_lat_rtms s) j in
    let* r := addLattice checks true m0 ids in Ret (fst r)) (length (lattices m)) 0 (M cs (rtms m) [] [])) as (mm & E & -> & HI).
  - auto.
  - intros i mm Hi (-> & HI). cbn [Nat.add] in Hi.
    assert (Hin : In (Z.of_nat i) (r_lat s)) by (apply all_lats, nat_exists; lia).
    destruct (index_ok _ _ Hin) as (j & Ej & Hj). rewrite Ej. cbn [bind].
    destruct (l_at _ _ _ Hl j _ Hj) as (l & rows & A & N1 & (ax & ay & Eax & Hr & Hc') & _). rewrite (proj2 (rd_Ret _ _ _) N1). cbn [bind].
    pose proof (at_in _ _ _ A) as Il. destruct (s_lattices _ _ Hst l Il) as (Hne & Hmx).
    destruct (lattice_shape _ _ (s_consistent _ _ Hst) l Il) as (r0 & w0 & h0 & nx & ny & N0 & X0 & Eg & Hnx & Hny & Ll).
    rewrite Eax in Eg. injection Eg as -> ->. cbn [nc] in *.
    assert (Pnx : (0 < nx)%Z). { destruct (Z.eq_dec nx 0) as [->|]; [|lia]. destruct (snd l); [congruence|]. cbn [length] in Ll. lia. }
    set (mm := M cs (rtms m) (firstn i (lattices m)) []) in *.
    assert (En : addLattice checks true mm rows = Ret (push_lattice l mm, Z.of_nat (length (lattices mm)))).
    { rewrite (addLattice_ok checks true mm rows (Z.to_nat ny) (Z.to_nat nx) r0 w0 h0 HI); auto; try lia.
      - rewrite !Z2Nat.id by lia. rewrite Hc'. destruct l as (g, k). cbn [fst snd] in *. unfold lattice_grid. now rewrite <- Eax.
      - apply Forall_forall. intros z Hz. apply in_concat_rev in Hz. rewrite Hc' in Hz. pose proof (lattice_ids _ (s_ids _ _ Hst) l Il) as F. rewrite Forall_forall in F. now apply F. }
    rewrite En. cbn [bind fst]. eexists. split; [reflexivity|]. split.
    + unfold mm. rewrite <- (firstn_snoc _ _ _ (at_nat _ _ _ A)). reflexivity.
    + exact (proj1 (keeps_lattice checks true _ _ _ _ HI En)).
  - rewrite E. cbn [Nat.add] in *. rewrite firstn_all in *. auto.
Qed.

(** ** Assemblies *)
Lemma build_asys : inv checks (M cs (rtms m) (lattices m) []) -> for_ (length (r_asy s)) 0 (fun i m =>
    let* j := index_of checks (r_asy s) i in
    let* ids := rd (r_asy_lats s) j in
    let* zs := rd (r_asy_zs s) j in
    let* r := addAssembly checks true m ids zs in Ret (fst r)) (M cs (rtms m) (lattices m) []) = Ret (M cs (rtms m) (lattices m) (assemblies m)) /\
  inv checks (M cs (rtms m) (lattices m) (assemblies m)).
Proof.
  intros I0. rewrite len_asys.
  destruct (for_inv (fun i mm => mm = M cs (rtms m) (lattices m) (firstn i (assemblies m)) /\ inv checks mm)
    (fun i m0 => let* j := index_of checks (r_asy s) i in
    let* ids := rd (r_asy_lats s) j in
    let* zs := rd (r_asy_zs s) j in
    let* r := addAssembly checks true m0 ids zs in Ret (fst r)) (length (assemblies m)) 0 (M cs (rtms m) (lattices m) [])) as (mm & E & -> & HI).
  - auto.
  - intros i mm Hi (-> & HI). cbn [Nat.add] in Hi.
    assert (Hin : In (Z.of_nat i) (r_asy s)) by (apply all_asys, nat_exists; lia).
    destruct (index_ok _ _ Hin) as (j & Ej & Hj). rewrite Ej. cbn [bind].
    destruct (a_at _ _ Ha j _ Hj) as (a & z & A & Ez & N1 & N2 & _). rewrite (proj2 (rd_Ret _ _ _) N1), (proj2 (rd_Ret _ _ _) N2). cbn [bind].
    pose proof (at_in _ _ _ A) as Ia. destruct (s_assemblies _ _ Hst a z Ia Ez) as (_ & _ & Hmx & bot & top & Fl & Hb).
    destruct (assembly_shape _ _ (s_consistent _ _ Hst) a Ia) as (z' & bot' & top' & Ez' & Hne & Lz & Nd & Fl' & H0 & Hnc). rewrite Ez in Ez'. injection Ez' as <-.
    destruct (first_last_fun _ _ _ _ _ Fl' Fl) as (-> & ->).
    set (mm := M cs (rtms m) (lattices m) (firstn i (assemblies m))) in *.
    destruct (addAssembly_ok checks true mm (snd a) z HI Hne Hmx) as (Ok & _).
    assert (En : addAssembly checks true mm (snd a) z = Ret (push_assembly a mm, Z.of_nat (length (assemblies mm)))).
    { rewrite Ok; [destruct a as (g, k); cbn [fst snd] in *; now rewrite Ez|]. split; [exact (assembly_ids _ (s_ids _ _ Hst) a Ia)|]. split; [exact Lz|]. split; [exact Nd|].
      exists bot, top. split; [exact Fl|]. split; [exact Hb|]. split; [|exact Hnc].
      intros a0 z0 bot0 top0 Na Ea Fa. apply (H0 a0 z0); auto. unfold mm in Na. cbn [assemblies M] in Na. destruct i; [discriminate|]. destruct (assemblies m); [discriminate|exact Na]. }
    rewrite En. cbn [bind fst]. eexists. split; [reflexivity|]. split.
    + unfold mm. rewrite <- (firstn_snoc _ _ _ (at_nat _ _ _ A)). reflexivity.
    + exact (proj1 (keeps_assembly checks true _ _ _ _ _ HI En)).
  - rewrite E. cbn [Nat.add] in *. rewrite firstn_all in *. auto.
Qed.
End Build.

Lemma build_ok selfcheck checks m s rows : storable selfcheck m -> cells_ok m s -> rtms_ok m s -> lats_ok m (stacks m) s -> asys_ok m s -> incl (snd (core m)) (r_asy s) ->
  rect_rows (core m) rows -> exists m', build checks rows s = Ret m' /\ same_model m m'.
Proof.
  intros Hst Hc Ht Hl Ha Hi Hr. destruct (c_model _ _ Hc) as (t & q & t6 & q8 & Em).
  destruct (build_cells selfcheck checks m Hst s Hc Ht Hl t q t6 q8 Em) as (cs & E1 & F1 & I1).
  unfold build. rewrite E1. cbn [bind].
  destruct (build_rtms selfcheck checks m Hst s Ht Hl t q t6 q8 cs F1 I1) as (E2 & I2). rewrite E2. cbn [bind].
  destruct (build_lats selfcheck checks m Hst s Hl t q t6 q8 cs I2) as (E3 & I3). rewrite E3. cbn [bind].
  destruct (build_asys selfcheck checks m Hst s Ha Hi t q t6 q8 cs I3) as (E4 & I4). rewrite E4. cbn [bind].
  destruct (s_core _ _ Hst) as (exts & Hx & Hlo). destruct (laid_rows _ _ _ Hlo Hr) as (W & H & HL & Ec).
  rewrite (addCore_ok checks true _ rows exts W H I4 eq_refl); auto. cbn [bind fst]. eexists. split; [reflexivity|].
  split; [now rewrite Ec|]. split; [reflexivity|]. split; [reflexivity|]. split; [reflexivity|]. split.
  - cbn [set_core M materials]. rewrite map_map. reflexivity.
  - exact F1.
Qed.
