(** C88: the text files of the extraction programs. *)
From Coq Require Import String.
From Coq Require Import Reals.
From Coquelicot Require Import Coquelicot.
From Coq Require Import List Arith ZArith Lia Lra Bool.
From Verif Require Import Base Loops Arith TextIo_Model Elem_Model Matrix_Model Matrix_Spec Soup_Model Soup_Spec Stats_Spec XSec_Model XSec_Spec Cmfd_Model Cmfd_Spec Cmfd_Ex_Proofs
  Seg_Spec Poly_Spec QSeg_Spec QPoly_Spec PinCyl_Model Grid_Model Grid_Spec Fvm_Model Fvm_Spec Xdmf_Model Xdmf_Spec Mpact_Model Mpact_Spec Export_Model Export_Spec Export_Sets_Proofs Outputs_Model Outputs_Spec
  Outputs_Chord_Proofs Outputs_Example_Proofs CmfdInfo_Model CmfdInfo_Spec CmfdInfo_Data_Proofs CmfdInfo_Proofs CmfdInfo_Example_Proofs Source_Model Extract_Model Extract_Spec Extract_Proofs Extract_Written_Proofs.
Import ListNotations.
Local Open Scope list_scope.
Local Open Scope R_scope.
Notation XS := "Homogenized_Total_XS_Group_"%string.
Notation RATIO := "Homogenized_Scattering_Ratio_Group_"%string.
Notation RADIUS := "1D_odCMFD_Spectral_Radius_Group_"%string.

(** mcls.txt has a line for each face of the core, cell by cell, with its mean chord length. *)
Theorem C88_chords : forall m, measurable m -> Forall (fun c => cell_mesh m c <> None) (cells m) -> countable 1 m -> forall show, (forall x, one_line (show x)) ->
  exists l t, extract_mcls show m = Ret t /\ lists show l t /\ Forall2 crossed (core_faces m) l.
Proof. intros m Hm Ha Hc show Hs. exact (mcls_text m Hm Ha show Hs Hc). Qed.
Print Assumptions C88_chords.
(** The program and Model::getMeanChordLengths agree. *)
Theorem C88_same : forall m exit, measurable m -> Forall (fun c => cell_mesh m c <> None) (cells m) -> countable 1 m -> global_mcls m = getMeanChordLengths exit m.
Proof.
  intros m exit Hm Ha Hc. rewrite (mcls_ok m Hm Ha Hc). symmetry. apply lengths_all; [exact Hm|exact (all_have m Hm Ha)|].
  rewrite <- (faces_count m Hm Ha). destruct Hc as (_ & Hc). lia.
Qed.
Print Assumptions C88_same.
(** edge_lens.txt has a line for each edge of each face of the core, face by face, with its length. *)
Theorem C88_edges : forall m, measurable m -> Forall (fun c => cell_mesh m c <> None) (cells m) -> countable 4 m -> forall show, (forall x, one_line (show x)) ->
  exists l t, extract_edge_lens show m = Ret t /\ lists show l t /\ Forall2 measured (core_edges m) l.
Proof. intros m Hm Ha Hc show Hs. exact (edge_lens_text m Hm Ha show Hs Hc). Qed.
Print Assumptions C88_edges.
(** A cell without a mesh ends both programs, also one that is not in the core. *)
Theorem C88_meshless_refuted : forall m, measurable m -> forall show n, numFineCellsTotal m = Ret n -> (0 <= 4 * n <= intMax)%Z -> (exists cc, In cc (cells m) /\ cell_mesh m cc = None) ->
  extract_mcls show m = Fail /\ extract_edge_lens show m = Fail.
Proof. exact meshless. Qed.
Print Assumptions C88_meshless_refuted.

(** The files with the CMFD data list the values of the element sets of the groups, group by group. *)
Theorem C88_groups : forall s a, stores s a -> content_ok a -> forall fuel show xs rs qs, (forall x, one_line (show x)) ->
  (length xs < fuel)%nat -> (Z.of_nat (length xs) < 100000)%Z -> length rs = length xs -> length qs = length xs ->
  group_sets a XS xs -> group_sets a RATIO rs -> group_sets a RADIUS qs -> no_group a XS (length xs) -> no_group a RATIO (length xs) -> no_group a RADIUS (length xs) ->
  exists t1 t2 t3, extract_cmfd fuel show s = Ret (t1, t2, t3) /\ lists show (concat xs) t1 /\ lists show (concat rs) t2 /\ lists show (concat qs) t3.
Proof. exact cmfd_text. Qed.
Print Assumptions C88_groups.
(** Extracted from the file that writeCMFDInfo writes for a reactor model, they are the data of the cells of the core (see C78). *)
Theorem C88_written : forall checks exit solve eigvals fsize tol m xsecs ng junk area, measures area -> describable m xsecs area ng -> branching m = true -> few m ng ->
  solver solve -> eigen checks eigvals -> length junk = 16%nat -> (exit = false \/ forall c, In c (every_id m) -> in_core m c = true) ->
  forall checks' p h d show fuel, fsize = 4%Z \/ fsize = 8%Z -> 0 <= tol -> xdmf_path p h -> (forall x, one_line (show x)) -> (ng < fuel)%nat -> (Z.of_nat ng < 100000)%Z ->
  exists radius d' s' t1 t2 t3, (forall c g, In c (every_id m) -> (g < ng)%nat -> radius_data m xsecs area solve eigvals c g (radius c g)) /\
    writeCMFDInfo checks exit solve eigvals fsize tol m xsecs junk p d = Ret d' /\ readXDMFFile checks' fsize p d' empty_soup = Ret s' /\
    extract_cmfd fuel show s' = Ret (t1, t2, t3) /\
    lists show (flat_map (fun g => map (fun c => total_of m xsecs area c g) (all_cells m)) (seq 0 ng)) t1 /\
    lists show (flat_map (fun g => map (fun c => ratio_of m xsecs area c g) (all_cells m)) (seq 0 ng)) t2 /\
    lists show (flat_map (fun g => map (fun c => radius c g) (all_cells m)) (seq 0 ng)) t3.
Proof. exact extracted. Qed.
Print Assumptions C88_written.
(** If there are only total cross sections, they are also written as scattering ratios and as spectral radii. *)
Theorem C88_stale_refuted : forall s a, stores s a -> content_ok a -> forall fuel show xs, (forall x, one_line (show x)) -> (length xs < fuel)%nat -> (Z.of_nat (length xs) < 100000)%Z ->
  group_sets a XS xs -> (forall g, no_group a RATIO g) -> (forall g, no_group a RADIUS g) -> no_group a XS (length xs) ->
  exists t, extract_cmfd fuel show s = Ret (t, t, t) /\ lists show (concat xs) t.
Proof. exact stale_text. Qed.
Print Assumptions C88_stale_refuted.
(** With 100000 groups the program does not end before the number of the group overflows. *)
Theorem C88_endless_refuted : forall s a, stores s a -> content_ok a -> forall show fuel, (forall g, (g < Z.to_nat 100000)%nat -> exists v, group_set a XS g v) ->
  extract_cmfd fuel show s = Ub \/ extract_cmfd fuel show s = OutOfFuel.
Proof. exact endless. Qed.
Print Assumptions C88_endless_refuted.

(** * The hypotheses are met *)
(** 16 faces, 64 edges *)
Example C88_example : measurable halves /\ Forall (fun c => cell_mesh halves c <> None) (cells halves) /\ countable 1 halves /\ countable 4 halves /\ length (core_faces halves) = 16%nat /\
  length (core_edges halves) = 64%nat /\ firstn 2 (core_edges halves) = [[(0, 0); (1 / 2, 0)]; [(1 / 2, 0); (1 / 2, 1)]].
Proof.
  split; [exact halves_measurable|]. split; [repeat constructor; discriminate|].
  assert (Hn : forall n, (0 <= n <= 4)%Z -> countable n halves).
  { intros n Hn. split; [constructor; [vm_compute; discriminate|constructor]|]. change (length (core_faces halves)) with 16%nat. unfold intMax. lia. }
  split; [apply Hn; lia|]. split; [apply Hn; lia|]. repeat split.
Qed.
(** the first mean chord length is pi / 2 / 3 *)
Example C88_example_chord : forall l, Forall2 crossed (core_faces halves) l -> exists r, l = PI * (1 / 2) / 3 :: r.
Proof.
  intros l H. remember (core_faces halves) as fs. destruct H as [|f c fs l H _]; [discriminate|]. exists l. f_equal.
  assert (E : f = (Quad, [(0, 0); (1 / 2, 0); (1 / 2, 1); (0, 1)])) by exact (f_equal (hd (Tri, [])) Heqfs). clear Heqfs. rewrite E in H. cbn [crossed quadratic] in H. rewrite H. clear.
  assert (D1 : dist2 (0, 0) (1 / 2, 0) = 1 / 2) by (unfold dist2; cbn [fst snd]; replace ((0 - 1 / 2) * (0 - 1 / 2) + (0 - 0) * (0 - 0)) with (1 / 2 * (1 / 2)) by lra; apply sqrt_square; lra).
  assert (D2 : dist2 (1 / 2, 0) (1 / 2, 1) = 1) by (unfold dist2; cbn [fst snd]; replace ((1 / 2 - 1 / 2) * (1 / 2 - 1 / 2) + (0 - 1) * (0 - 1)) with (1 * 1) by lra; apply sqrt_square; lra).
  assert (D3 : dist2 (1 / 2, 1) (0, 1) = 1 / 2) by (unfold dist2; cbn [fst snd]; replace ((1 / 2 - 0) * (1 / 2 - 0) + (1 - 1) * (1 - 1)) with (1 / 2 * (1 / 2)) by lra; apply sqrt_square; lra).
  assert (D4 : dist2 (0, 1) (0, 0) = 1) by (unfold dist2; cbn [fst snd]; replace ((0 - 0) * (0 - 0) + (1 - 0) * (1 - 0)) with (1 * 1) by lra; apply sqrt_square; lra).
  unfold edges. cbn [tl firstn app combine map fst snd]. rewrite D1, D2, D3, D4. unfold rsum, tarea, orient. cbn [fold_right fst snd].
  replace (1 / 2 + (1 + (1 / 2 + (1 + 0)))) with 3 by lra. f_equal. f_equal. lra.
Qed.
(** a straight edge in the mesh of a curved face *)
Example C88_example_smooth : smooth (0, 0) (2, 0) (1, 0).
Proof. left. split; [intros X; injection X as X; lra|]. exists (1 / 2). split; [lra|]. unfold along2. cbn [fst snd]. f_equal; lra. Qed.
(** the same core, and a cell without a mesh that is in none of its RTMs *)
Definition spare : model :=
  mkModel (core halves) (assemblies halves) (lattices halves) (rtms halves) (cells halves ++ [mkCell (1, 1) MT_Invalid (-1) []]) (materials halves) [] [split_square] [] [].
Example C88_example_meshless : measurable spare /\ numFineCellsTotal spare = Ret 16%Z /\ (exists cc, In cc (cells spare) /\ cell_mesh spare cc = None) /\ ~ In 1%Z (all_cells spare).
Proof.
  split; [|split; [reflexivity|split; [exists (mkCell (1, 1) MT_Invalid (-1) []); split; [right; now left|reflexivity]|]]].
  2:{ change (~ In 1%Z (repeat 0%Z 8)). intros X. apply repeat_spec in X. discriminate. }
  split; [|split; [|split]].
  - constructor; cbn.
    + repeat constructor; unfold exists_in; cbn; lia.
    + intros a [<-|[]]. cbn. repeat constructor; unfold exists_in; cbn; lia.
    + intros l [<-|[<-|[]]]; cbn; repeat constructor; unfold exists_in; cbn; lia.
    + intros r [<-|[]]. cbn. repeat constructor; unfold exists_in; cbn; lia.
    + intros c [<-|[<-|[]]]; cbn; (split; [cbn; lra|]); (split; [cbn; lra|]); [right|now left].
      exists split_square. split; [split; [lia|reflexivity]|]. split; [reflexivity|]. repeat constructor; unfold exists_in; cbn; lia.
  - constructor; cbn.
    + right. exists [0; 2; 4], [0; 1]. cbn. repeat split; lia.
    + intros a [<-|[]]. exists [0; 1 / 8; 1 / 4]. split; reflexivity.
    + intros l Hl. exists 2, 1, 1%Z, 1%Z. destruct Hl as [<-|[<-|[]]]; (split; [reflexivity|]); cbn; lia.
    + intros r [<-|[]]. exists [0; 1; 2], [0; 1]. cbn. repeat split; lia.
  - split; [vm_compute; discriminate|]. split; [|split]; intros a Ha; repeat (destruct Ha as [<-|Ha]; [vm_compute; discriminate|]); destruct Ha.
  - constructor; [|constructor; [intros X; now elim X|constructor]]. intros _. exists Quad, split_square. split; [reflexivity|]. split; [|split; [discriminate|reflexivity]].
    intros c [<-|[<-|[]]]; (split; [reflexivity|cbn; intros v H; lia]).
Qed.

Definition soup_with (sets : list (elset R)) : soup (R * R * R) R :=
  mkSoup [] [] [] [] (map es_name sets) (offsets_of (map (fun e => length (es_ids e)) sets)) (concat (map es_ids sets)) (map es_data sets).
Lemma soup_with_ok sets : stores (soup_with sets) (mkA [] [] sets).
Proof. repeat split. Qed.
(** two groups of two cells *)
Definition sets2 : list (elset R) := [mkElset (group_name XS 0) [0; 1]%Z [3; 4]; mkElset (group_name XS 1) [0; 1]%Z [5; 6]; mkElset (group_name RATIO 0) [0; 1]%Z [1 / 2; 1 / 3];
  mkElset (group_name RATIO 1) [0; 1]%Z [1 / 4; 1 / 5]; mkElset (group_name RADIUS 0) [0; 1]%Z [1 / 6; 1 / 7]; mkElset (group_name RADIUS 1) [0; 1]%Z [1 / 8; 1 / 9]].
Lemma two_sets prefix v w : In (mkElset (group_name prefix 0) [0; 1]%Z v) sets2 -> In (mkElset (group_name prefix 1) [0; 1]%Z w) sets2 -> v <> [] -> w <> [] -> group_sets (mkA [] [] sets2) prefix [v; w].
Proof. intros H1 H2 N1 N2 [|[|g]] x E; cbn in E; [injection E as <-; split; eauto|injection E as <-; split; eauto|destruct g; discriminate]. Qed.
Example C88_example_groups : forall show, (forall x, one_line (show x)) -> exists t1 t2 t3, extract_cmfd 3 show (soup_with sets2) = Ret (t1, t2, t3) /\
  lists show [3; 4; 5; 6] t1 /\ lists show [1 / 2; 1 / 3; 1 / 4; 1 / 5] t2 /\ lists show [1 / 6; 1 / 7; 1 / 8; 1 / 9] t3.
Proof.
  intros show Hs. apply (C88_groups _ _ (soup_with_ok sets2)) with (xs := [[3; 4]; [5; 6]]) (rs := [[1 / 2; 1 / 3]; [1 / 4; 1 / 5]]) (qs := [[1 / 6; 1 / 7]; [1 / 8; 1 / 9]]); auto; try (cbn; lia).
  - split; [|repeat constructor; cbn; auto; discriminate]. cbn [a_elsets sets2 map es_name]. repeat constructor; cbn [In]; intuition discriminate.
  - apply two_sets; try discriminate; cbn; tauto.
  - apply two_sets; try discriminate; cbn; tauto.
  - apply two_sets; try discriminate; cbn; tauto.
  - unfold no_group. cbn [a_elsets sets2 map es_name In length]. intuition discriminate.
  - unfold no_group. cbn [a_elsets sets2 map es_name In length]. intuition discriminate.
  - unfold no_group. cbn [a_elsets sets2 map es_name In length]. intuition discriminate.
Qed.
(** [n] groups with total cross sections *)
Definition only_xs (n : nat) : list (elset R) := map (fun g => mkElset (group_name XS g) [0%Z] [1]) (seq 0 n).
Lemma only_xs_ok n : (Z.of_nat n <= 100000)%Z -> content_ok (mkA (P := R * R * R) [] [] (only_xs n)) /\ (forall g, (g < n)%nat -> group_set (mkA [] [] (only_xs n)) XS g [1]) /\
  (forall g, no_group (mkA [] [] (only_xs n)) RATIO g) /\ (forall g, no_group (mkA [] [] (only_xs n)) RADIUS g) /\ ((Z.of_nat n < 100000)%Z -> no_group (mkA [] [] (only_xs n)) XS n).
Proof.
  intros Hn. unfold no_group, group_set, content_ok. cbn [a_elsets]. unfold only_xs. rewrite !map_map. cbn [es_name]. split; [split|split; [|split; [|split]]].
  - apply NoDup_map_on; [apply seq_NoDup|]. intros x y Hx Hy E. apply in_seq in Hx, Hy. apply name_inj in E. destruct E as (_ & E). apply digits5_inj in E; lia.
  - apply Forall_forall. intros e He. apply in_map_iff in He. destruct He as (g & <- & _). split; [discriminate|now right].
  - intros g Hg. split; [discriminate|]. exists [0%Z]. apply in_map_iff. exists g. split; [reflexivity|]. apply in_seq. lia.
  - intros g X. apply in_map_iff in X. destruct X as (g' & X & _). apply name_inj in X. destruct X as (X & _). discriminate X.
  - intros g X. apply in_map_iff in X. destruct X as (g' & X & _). apply name_inj in X. destruct X as (X & _). discriminate X.
  - intros Hl X. apply in_map_iff in X. destruct X as (g' & X & Hg). apply in_seq in Hg. apply name_inj in X. destruct X as (_ & X). apply digits5_inj in X; lia.
Qed.
Example C88_example_stale : forall show, (forall x, one_line (show x)) -> exists t, extract_cmfd 3 show (soup_with (only_xs 2)) = Ret (t, t, t) /\ lists show [1; 1] t.
Proof.
  intros show Hs. destruct (only_xs_ok 2 ltac:(lia)) as (H1 & H2 & H3 & H4 & H5).
  apply (C88_stale_refuted _ _ (soup_with_ok _) H1) with (xs := [[1]; [1]]); auto; try (cbn; lia).
  - intros [|[|g]] v E; cbn in E; [injection E as <-; apply H2; lia|injection E as <-; apply H2; lia|destruct g; discriminate].
  - apply H5. lia.
Qed.
Example C88_example_endless : let sets := only_xs (Z.to_nat 100000) in stores (soup_with sets) (mkA [] [] sets) /\ content_ok (mkA (P := R * R * R) [] [] sets) /\
  (forall g, (g < Z.to_nat 100000)%nat -> exists v, group_set (mkA [] [] sets) XS g v).
Proof.
  intros sets. destruct (only_xs_ok (Z.to_nat 100000) ltac:(lia)) as (H1 & H2 & _). split; [apply soup_with_ok|]. split; [exact H1|]. intros g Hg. exists [1]. now apply H2.
Qed.
(** the file of a core of two kinds of cells *)
Example C88_example_written : forall checks, exists solve, measures the_area /\ describable (pair_model true true) [plain; strong] the_area 1 /\ branching (pair_model true true) = true /\
  few (pair_model true true) 1 /\ solver solve /\ eigen checks (fun _ => Ret [RtoC 0]) /\ (forall c, In c (every_id (pair_model true true)) -> in_core (pair_model true true) c = true).
Proof.
  intros checks. destruct solver_exists as (solve & Hs). exists solve. split; [exact area_exists|]. split; [exact (pair_describable _ true true area_exists)|]. split; [reflexivity|].
  split; [apply pair_few|]. split; [exact Hs|]. split; [apply all_zero_eigen|]. intros c [<-|[<-|[]]]; reflexivity.
Qed.
