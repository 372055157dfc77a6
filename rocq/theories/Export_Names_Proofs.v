(** The sets of the objects, and a model whose names run out of digits. *)
From Coq Require Import String.
From Coq Require Import List Arith ZArith Lia Bool Reals Lra Permutation Sorting.Sorted.
From Verif Require Import Base Loops Arith Seg_Spec Poly_Model Poly_Spec Poly_Proofs QSeg_Model QSeg_Spec QPoly_Model QPoly_Spec QPoly_Proofs StringView_Model TextIo_Model Elem_Model Sort_Spec Matrix_Model Matrix_Spec
  Soup_Model Soup_Spec Soup_Proofs Stats_Spec XSec_Model XSec_Spec XSec_Proofs XSec_Mat_Proofs XSec_Use_Proofs PinCyl_Model Grid_Model Fvm_Model Fvm_Spec Mpact_Model Mpact_Spec
  Export_Model Export_Spec Export_Sets_Proofs Export_Cell_Proofs Export_Loop_Proofs Export_Level_Proofs Export_Proofs Export_Final_Proofs.
Import ListNotations.
Local Open Scope list_scope.

Lemma expand_path kids l p : In p (expand kids l) -> exists lb q, In q l /\ path p = lb :: path q.
Proof.
  intros H. apply In_nth_error in H. destruct H as (k & H). destruct (number_nth _ _ _ _ H) as (id & pp & o & E & ->).
  apply nth_error_In in E. apply in_flat_map in E. destruct E as (q & Hq & E). apply in_map_iff in E. destruct E as (kd & E & _).
  injection E as _ <- _. eexists _, q. split; [exact Hq|reflexivity].
Qed.
Lemma cell_path m p : In p (placed_cells m) -> length (path p) = 4%nat.
Proof.
  intros H. destruct (expand_path _ _ _ H) as (l1 & q1 & H1 & ->). destruct (expand_path _ _ _ H1) as (l2 & q2 & H2 & ->).
  destruct (expand_path _ _ _ H2) as (l3 & q3 & H3 & ->). destruct (expand_path _ _ _ H3) as (l4 & q4 & H4 & ->).
  destruct H4 as [<-|[]]. reflexivity.
Qed.
Lemma owners_nth m xsecs l : forall i p, nth_error (owners m xsecs l) i = Some p ->
  In p l /\ exists f, nth_error (flat_map (cell_faces m xsecs) l) i = Some f /\ In f (cell_faces m xsecs p).
Proof.
  induction l as [|q l IH]; intros i p H; cbn in H; [destruct i; discriminate|]. cbn [flat_map].
  destruct (Nat.lt_ge_cases i (length (cell_faces m xsecs q))) as [L|L].
  - rewrite nth_error_app1 in H by (now rewrite map_length). destruct (nth_error (cell_faces m xsecs q) i) as [f|] eqn:E; [|apply nth_error_None in E; lia].
    rewrite (map_nth_error _ _ _ E) in H. injection H as <-. split; [now left|]. exists f. rewrite nth_error_app1 by auto. split; auto.
    eapply nth_error_In; eauto.
  - rewrite nth_error_app2 in H by (now rewrite map_length). rewrite map_length in H. destruct (IH _ _ H) as (Hp & f & E & Hf).
    split; [now right|]. exists f. now rewrite nth_error_app2.
Qed.
Lemma cell_faces_sets m xsecs p f : In f (cell_faces m xsecs p) -> f_sets f = path_names (path p) /\ map fst (f_values f) = value_names.
Proof.
  unfold cell_faces. destruct (cell_mesh _ _) as [[k x]|]; [|contradiction]. intros H. apply in_map_iff in H. destruct H as (fm & <- & _). split; reflexivity.
Qed.
Lemma level_name L prefix l pth : length pth = 4%nat -> nth_error levels L = Some prefix -> small l -> Forall small pth ->
  (In (named prefix l) (path_names pth) <-> nth_error pth L = Some l).
Proof.
  intros Len HL Hl Hp. do 4 (destruct pth as [|? pth]; [discriminate|]). destruct pth; [|discriminate].
  assert (Pr : In prefix prefixes) by (apply nth_error_In in HL; exact HL).
  assert (J : forall a, small a -> named prefix l = named prefix a -> a = l).
  { intros a [A1 A2] E. destruct Hl as [B1 B2]. symmetry. now apply (named_inj prefix). }
  inversion_clear Hp as [|? ? S1 Hp1]. inversion_clear Hp1 as [|? ? S2 Hp2]. inversion_clear Hp2 as [|? ? S3 Hp3]. inversion_clear Hp3 as [|? ? S4 Hp4].
  unfold path_names. cbn [combine map fst snd In].
  assert (D : forall r a, In r prefixes -> r <> prefix -> named r a = named prefix l -> False)
    by (intros r a Hr N E; apply N; eapply named_prefix; eauto).
  unfold levels in HL.
  destruct L as [|[|[|[|L]]]]; cbn in HL; try (destruct L; discriminate); injection HL as <-; cbn [nth_error]; split; intros H;
    try (injection H as ->; now auto 6);
    repeat destruct H as [H|H]; try contradiction; try (f_equal; apply J; now auto); exfalso; (eapply D; [| |exact H]; [cbn; now auto 6|discriminate]).
Qed.
Lemma object_sets m xsecs a : shows a (flat_map (cell_faces m xsecs) (placed_cells m)) ->
  Forall (fun p => Forall small (path p)) (placed_cells m) ->
  forall L prefix l, nth_error levels L = Some prefix -> small l ->
  ((exists p, In p (placed_cells m) /\ cell_faces m xsecs p <> [] /\ nth_error (path p) L = Some l) ->
    exists e, In e (a_elsets a) /\ es_name e = named prefix l) /\
  (forall e, In e (a_elsets a) -> es_name e = named prefix l ->
     forall i p, nth_error (owners m xsecs (placed_cells m)) i = Some p -> (In (Z.of_nat i) (es_ids e) <-> nth_error (path p) L = Some l)).
Proof.
  intros (_ & Hs) Hsm L prefix l HL Hl. rewrite Forall_forall in Hsm. set (fs := flat_map _ _) in *.
  assert (X : forall p f, In p (placed_cells m) -> In f (cell_faces m xsecs p) -> (in_set (named prefix l) f = true <-> nth_error (path p) L = Some l)).
  { intros p f Hp Hf. destruct (cell_faces_sets _ _ _ _ Hf) as (E1 & E2). rewrite in_set_iff, E1, E2.
    rewrite (level_name L prefix l (path p) (cell_path m p Hp) HL Hl (Hsm p Hp)). split; [intros [H|H]; auto|now left].
    exfalso. revert H. apply named_value. apply nth_error_In in HL. exact HL. }
  split.
  - intros (p & Hp & Hne & HpL). exists (set_of (named prefix l) fs). split; [|reflexivity]. apply Hs. eexists. split; [reflexivity|].
    rewrite set_ids_eq. apply set_ids_nonempty. destruct (cell_faces m xsecs p) as [|f r] eqn:Ef; [congruence|].
    exists f. assert (Hf : In f (cell_faces m xsecs p)) by (rewrite Ef; now left).
    split; [apply in_flat_map; exists p; auto|]. now apply (X p).
  - intros e He En i p Hi. apply Hs in He. destruct He as (n & -> & _). cbn [set_of es_name] in En. subst n.
    rewrite set_ids_eq, set_ids_range. destruct (owners_nth _ _ _ _ _ Hi) as (Hp & f & Ef & Hf). rewrite <- (X p f Hp Hf). split.
    + intros (j & g & Ej & Eg & Hg). apply Nat2Z.inj in Ej. cbn in Ej. subst j. fold fs in Ef. congruence.
    + intros H. exists i, f. auto.
Qed.

(** ** Models built with the library's functions *)
Lemma reachable_shaped m : consistent true m -> shaped m.
Proof.
  intros C. split.
  - destruct (snd (core m)) as [|i l] eqn:E; [now left|right].
    destruct (core_children _ _ C eq_refl) as (lx & ly & E1 & L1 & L2 & _ & _ & L3); [congruence|]. exists lx, ly. repeat split; auto; lia.
  - intros a Ha. destruct (assembly_shape _ _ C a Ha) as (z & _ & _ & E & _ & L & _). eauto.
  - intros l Hl. destruct (lattice_shape _ _ C l Hl) as (r0 & w & h & nx & ny & _ & _ & E & H1 & H2 & H3). exists w, h, nx, ny. repeat split; auto; lia.
  - intros r Hr. destruct (rtm_children _ _ C eq_refl r Hr) as (lx & ly & E1 & L1 & L2 & _ & _ & L3). exists lx, ly. repeat split; auto; lia.
Qed.

(** ** Rows of equal cells *)
Lemma row_xsecs_ok n : xsecs_ok (row_model n) row_xsecs.
Proof.
  split; [reflexivity|]. constructor; [|constructor]. split; [reflexivity|]. exists 1%nat.
  assert (Sh : shape 1 (mkX true false 1 [1] [0] [0] [1] [1] (mkM 1 1 [1]))%R) by (unfold shape, wf, intMax; cbn; repeat split; auto; lia).
  eexists. split; [discriminate|]. split; [exact Sh|]. apply (physical_validate 1); [exact Sh|lia|]. split.
  - intros r g Hr Hg. assert (g = 0%nat) by lia. subst g. destruct r as [| | | | |g']; cbn; try lra. cbn in Hr. assert (g' = 0%nat) by lia. subst. cbn. lra.
  - intros _ g Hg. assert (g = 0%nat) by lia. subst g. cbn. lra.
Qed.
Lemma row_exportable n : (1 <= n)%nat -> (Z.of_nat n <= intMax)%Z -> exportable (row_model n) row_xsecs /\ complete (row_model n) = true.
Proof.
  intros Hn Hm. split.
  - split; [|split; [|split; [|split]]].
    + split; cbn.
      * repeat constructor; cbn; lia.
      * intros a [<-|[]]. repeat constructor; cbn; lia.
      * intros a [<-|[]]. repeat constructor; cbn; lia.
      * intros r [<-|[]]. cbn [snd]. apply Forall_forall. intros i Hi. apply repeat_spec in Hi. subst. unfold exists_in. cbn. lia.
      * intros c [<-|[]]. cbn. split; [cbn; lra|]. split; [cbn; lra|]. right. eexists. split; [split; [lia|reflexivity]|]. split; [reflexivity|]. repeat constructor; cbn; lia.
    + split; cbn.
      * right. exists [0; INR n]%R, [0; 1]%R. repeat split; cbn; lia.
      * intros a [<-|[]]. exists [- (1 / 2); 1 / 2]%R. split; reflexivity.
      * intros l [<-|[]]. exists (INR n), 1%R, 1%Z, 1%Z. split; [reflexivity|]. split; [lia|]. split; [lia|]. reflexivity.
      * intros r [<-|[]]. exists (map INR (seq 0 (S n))), [0; 1]%R. cbn [fst snd]. rewrite map_length, seq_length, repeat_length. cbn [length]. repeat split; lia.
    + assert (1 <= intMax)%Z by (unfold intMax; lia).
      split; [cbn; lia|]. split; [intros a [<-|[]]; cbn; lia|]. split; [intros a [<-|[]]; cbn; lia|].
      intros r [<-|[]]. cbn [snd]. rewrite repeat_length. exact Hm.
    + constructor; [|constructor]. intros _. eexists _, _. split; [reflexivity|]. split; [|split; [discriminate|reflexivity]].
      intros c [<-|[]]. split; [reflexivity|]. cbn. intros v Hv. lia.
    + apply row_xsecs_ok.
  - unfold complete, full. cbn [row_model core snd length Nat.eqb negb andb forallb].
    unfold asy_full, full, get. cbn [row_model assemblies lattices rtms Z.to_nat nth snd length Nat.eqb negb andb forallb].
    unfold lat_full, full, get. cbn [row_model assemblies lattices rtms Z.to_nat nth snd length Nat.eqb negb andb forallb].
    unfold rtm_full, full, get. cbn [row_model assemblies lattices rtms Z.to_nat nth snd length Nat.eqb negb andb forallb].
    rewrite repeat_length. destruct (Nat.eqb_spec n 0) as [|_]; [lia|]. cbn [negb andb]. rewrite !andb_true_r.
    apply forallb_forall. intros i Hi. apply repeat_spec in Hi. subst. reflexivity.
Qed.
Lemma row_place n k : (k < n)%nat -> (Z.of_nat n <= intMax)%Z -> exists p, nth_error (placed_cells (row_model n)) k = Some p /\ nth_error (path p) 0 = Some (0%Z, k).
Proof.
  intros Hk Hm. destruct (row_exportable n ltac:(lia) Hm) as (Hexp & _).
  assert (E : map fst (below (rtm_kids (row_model n)) (placed_rtms (row_model n))) = repeat 0%Z n).
  { rewrite <- (number_ids _ []). change (map here (placed_cells (row_model n)) = repeat 0%Z n).
    rewrite (proj2 (proj2 (proj2 (place_ids _ _ Hexp)))). unfold all_cells, all_rtms, all_lattices, get. cbn. now rewrite !app_nil_r. }
  assert (L : length (placed_cells (row_model n)) = n).
  { unfold placed_cells, expand. rewrite number_length. rewrite <- (map_length fst), E. apply repeat_length. }
  destruct (nth_error (placed_cells (row_model n)) k) as [p|] eqn:Ep; [|apply nth_error_None in Ep; lia].
  exists p. split; [reflexivity|]. destruct (number_nth _ _ _ _ Ep) as (id & pp & o & En & ->). cbn [path nth_error].
  apply (map_nth_error fst) in En. rewrite E in En. pose proof (nth_error_In _ _ En) as In0. apply repeat_spec in In0. cbn [fst] in In0. subst id.
  rewrite <- firstn_map, E. cbn [app]. do 2 f_equal. clear -Hk. revert k Hk.
  induction n as [|n IH]; intros [|k] Hk; try lia; [reflexivity|]. cbn [repeat firstn count_occ]. destruct (Z.eq_dec 0 0); [|congruence]. f_equal. apply IH. lia.
Qed.
Lemma shared_name : exists m xsecs p q lp lq, exportable m xsecs /\ complete m = true /\ In p (placed_cells m) /\ In q (placed_cells m) /\
  nth_error (path p) 0 = Some lp /\ nth_error (path q) 0 = Some lq /\ lp <> lq /\ named "Coarse_Cell_" lp = named "Coarse_Cell_" lq /\
  cell_faces m xsecs p <> [] /\ cell_faces m xsecs q <> [].
Proof.
  set (n := Z.to_nat 100001). assert (Hn : Z.of_nat n = 100001%Z) by (unfold n; lia).
  assert (Hm : (Z.of_nat n <= intMax)%Z) by (rewrite Hn; unfold intMax; lia).
  destruct (row_exportable n ltac:(lia) Hm) as (Hexp & Hc).
  set (k := Z.to_nat 100000). assert (Hk : Z.of_nat k = 100000%Z) by (unfold k; lia). clearbody n k.
  destruct (row_place n 0 ltac:(lia) Hm) as (p & Ep & Lp). destruct (row_place n k ltac:(lia) Hm) as (q & Eq & Lq).
  exists (row_model n), row_xsecs, p, q, (0%Z, 0%nat), (0%Z, k).
  assert (F : forall r l, nth_error (path r) 0 = Some (0%Z, l) -> cell_faces (row_model n) row_xsecs r <> []).
  { intros r l Hr. unfold cell_faces. assert (Eh : here r = 0%Z) by (unfold here; destruct (path r); [discriminate|]; cbn in Hr; injection Hr as ->; reflexivity).
    rewrite Eh. cbn. discriminate. }
  split; [exact Hexp|]. split; [exact Hc|]. split; [eapply nth_error_In; eauto|]. split; [eapply nth_error_In; eauto|].
  split; [exact Lp|]. split; [exact Lq|]. split; [intros X; injection X as X; lia|]. split; [|split; eauto].
  unfold named. cbn [fst snd]. rewrite Hk. do 3 f_equal.
Qed.
Lemma expand_numbered kids l k p : nth_error (expand kids l) k = Some p ->
  exists q rest, In q l /\ path p = (here p, count_occ Z.eq_dec (map here (firstn k (expand kids l))) (here p)) :: rest /\ rest = path q.
Proof.
  intros H. destruct (number_nth _ _ _ _ H) as (id & pp & o & E & ->). rewrite <- (firstn_map here). unfold expand. rewrite number_ids, firstn_map.
  apply nth_error_In in E. apply in_flat_map in E. destruct E as (q & Hq & E). apply in_map_iff in E. destruct E as (kd & E & _).
  injection E as _ <- _. exists q, (path q). split; [exact Hq|]. split; reflexivity.
Qed.
Lemma pair_ok c : good_cell (pair_model c) (xy_extents c) (mtype c) (mesh_id c) (material_ids c) ->
  ids_valid (pair_model c) /\ shaped (pair_model c) /\ fits (pair_model c).
Proof.
  intros Hc. assert (1 <= intMax)%Z by (unfold intMax; lia). split; [|split].
  - split; cbn.
    + repeat constructor; cbn; lia.
    + intros a [<-|[<-|[]]]; repeat constructor; cbn; lia.
    + intros a [<-|[<-|[]]]; repeat constructor; cbn; lia.
    + intros a [<-|[<-|[]]]; repeat constructor; cbn; lia.
    + intros d [<-|[<-|[]]]; [|exact Hc]. split; [cbn; lra|]. split; [cbn; lra|]. right. eexists. split; [split; [cbn; lia|reflexivity]|]. split; [reflexivity|]. constructor; [unfold exists_in; cbn; lia|constructor].
  - split; cbn.
    + right. exists [0; 1; 2]%R, [0; 1]%R. repeat split; cbn; lia.
    + intros a [<-|[<-|[]]]; exists [- (1 / 2); 1 / 2]%R; split; reflexivity.
    + intros a [<-|[<-|[]]]; exists 1%R, 1%R, 1%Z, 1%Z; (split; [reflexivity|]; split; [lia|]; split; [lia|]; reflexivity).
    + intros a [<-|[<-|[]]]; exists [0; 1]%R, [0; 1]%R; repeat split; cbn; lia.
  - split; [cbn; unfold intMax; lia|]. split; [intros a [<-|[<-|[]]]; cbn; lia|]. split; intros a [<-|[<-|[]]]; cbn; lia.
Qed.
Lemma gap_ok : exportable gap_model row_xsecs /\ complete gap_model = false /\ length (leading gap_model (placed_assemblies gap_model)) = 1%nat.
Proof.
  split; [|split; reflexivity].
  destruct (pair_ok (mkCell (1, 1)%R MT_Invalid (-1) [])) as (V & Sh & Fi).
  { split; [cbn; lra|]. split; [cbn; lra|]. now left. }
  split; [exact V|]. split; [exact Sh|]. split; [exact Fi|]. split; [|exact (row_xsecs_ok 1)].
  constructor; [|constructor; [|constructor]].
  - intros _. eexists _, _. split; [reflexivity|]. split; [|split; [discriminate|reflexivity]].
    intros c [<-|[]]. split; [reflexivity|]. cbn. intros v Hv. lia.
  - intros X. exfalso. now apply X.
Qed.
(** a triangular mesh type, but no mesh *)
Lemma meshless stdsort checks exit : sort_contract stdsort -> exists m, ids_valid m /\ shaped m /\ fits m /\ export stdsort checks exit m [] = Ub.
Proof.
  intros Hsort. set (m := row_model 1).
  exists (mkModel (core m) (assemblies m) (lattices m) (rtms m) [mkCell (1, 1)%R MT_Tri (-1) []] [] [] [] [] []).
  split; [|split; [|split]].
  - split; cbn.
    + repeat constructor; cbn; lia.
    + intros a [<-|[]]; repeat constructor; cbn; lia.
    + intros a [<-|[]]; repeat constructor; cbn; lia.
    + intros a [<-|[]]; repeat constructor; cbn; lia.
    + intros d [<-|[]]. split; [cbn; lra|]. split; [cbn; lra|]. now left.
  - destruct (row_exportable 1 ltac:(lia) ltac:(unfold intMax; lia)) as ((_ & [S1 S2 S3 S4] & _) & _). split; assumption.
  - destruct (row_exportable 1 ltac:(lia) ltac:(unfold intMax; lia)) as ((_ & _ & F & _) & _). exact F.
  - reflexivity.
Qed.
(** ** Mean chord lengths *)
Lemma chord_linear k p : quadratic k = false -> length p = nverts k -> forall q,
  chord k p = Ret (PI * rsum (map (fun e => tarea q (fst e) (snd e)) (edges p)) / rsum (map (fun e => dist2 (fst e) (snd e)) (edges p)))%R.
Proof.
  intros Hk L q. assert (N : p <> []) by (intros ->; destruct k; discriminate). unfold chord. rewrite Hk, lin_area_ok.
  destruct (area_ok p N) as (A & EA & HA). rewrite EA. cbn [bind]. rewrite perimeter_ok by auto. cbn [bind]. now rewrite <- (HA q).
Qed.
Lemma eps_pos : (0 < eps * eps)%R.
Proof. unfold eps. lra. Qed.
Lemma chord_curved k vs ms : quadratic k = true -> length (vs ++ ms) = nverts k -> length vs = length ms ->
  (forall a b c, In (a, b, c) (qedges vs ms) -> mid_half a b c \/ (orient a b c <> 0 /\ isStraight Rarith (eps * eps) a b c = false)%R) ->
  exists Is Ls, integrals green (qedges vs ms) Is /\ integrals arclength (qedges vs ms) Ls /\
    chord k (vs ++ ms) = Ret (PI * rsum Is / rsum Ls)%R.
Proof.
  intros Hk L E H. assert (N : vs <> []) by (intros ->; destruct ms; [destruct k; discriminate|discriminate]).
  destruct (q_area_ok vs ms N E) as (A & Is & EA & HI & -> & _).
  destruct (q_perimeter_arc (eps * eps) vs ms eps_pos N E H) as (P & Ls & EP & HL & ->).
  exists Is, Ls. split; [exact HI|]. split; [exact HL|]. unfold chord. rewrite Hk. unfold q_meanChordLength. rewrite EA. cbn [bind]. rewrite EP. reflexivity.
Qed.
Lemma ex_curved_ok : let vs := [(0, 0); (1, 0); (0, 1)]%R in let ms := [(1 / 2, 0); (1 / 2, 1 / 2); (0, 1 / 2)]%R in
  forall a b c, In (a, b, c) (qedges vs ms) -> mid_half a b c \/ (orient a b c <> 0 /\ isStraight Rarith (eps * eps) a b c = false)%R.
Proof.
  intros vs ms a b c H. left. cbn in H. destruct H as [H|[H|[H|[]]]]; injection H as <- <- <-; (split; [intros X; injection X; lra|]);
    exists (1 / 2)%R; (split; [lra|]); unfold along2; cbn; f_equal; lra.
Qed.
