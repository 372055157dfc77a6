(** Writing a model and reading it. *)
From Coq Require Import String.
From Coq Require Import List Arith ZArith Lia Bool Reals Lra.
From Verif Require Grid_Proofs.
From Verif Require Import Base Loops Arith Box_Model StringView_Model StringView_Proofs Logger_Model TextIo_Model TextIo_Spec Elem_Model
  Soup_Model Soup_Spec Soup_Proofs XSec_Model PinCyl_Model Grid_Model Grid_Spec Fvm_Model Fvm_Spec Xdmf_Model Xdmf_Spec Xdmf_Proofs Xdmf_File_Proofs Mpact_Model Mpact_Spec Mpact_Proofs Mpact_Steps_Proofs Mpact_Accept_Proofs
  Export_Model Export_Spec Export_Sets_Proofs Export_Cell_Proofs Export_Loop_Proofs Export_Proofs Import_Model Import_Spec Import_Sets_Proofs ModelIo_Model ModelIo_Spec
  ModelIo_Text_Proofs ModelIo_Grid_Proofs ModelIo_Cell_Proofs ModelIo_Write_Proofs ModelIo_Read_Proofs ModelIo_Build_Proofs.
Import ListNotations.
Local Open Scope list_scope.

Section All.
Variable stdsort : forall A : Type, (A -> A -> bool) -> list A -> list A.
Hypothesis Hsort : sort_contract stdsort.
Variable selfcheck : mesh R -> outcome (mesh R).
Variable junk : R * R.
Variables (checks : bool) (fsize : Z).
Variable m : model.
Hypothesis Hst : storable selfcheck m.
Variables (f : h5) (file : list Z).

Lemma core_nonempty : snd (core m) <> [].
Proof.
  destruct (s_core _ _ Hst) as (exts & _ & ids & W & H & HL & El'). pose proof HL as (Hl & HW & HH & _).
  rewrite El'. cbn [snd]. destruct ids as [|r0 ids]; [destruct H; [congruence|discriminate]|]. intros X. apply (f_equal (@length _)) in X. cbn [rev] in X. rewrite concat_app, app_length in X. cbn [concat] in X.
  rewrite app_nil_r in X. destruct (lattice_rect _ _ _ _ HL) as (_ & Hr). rewrite Forall_forall in Hr. specialize (Hr r0 (or_introl eq_refl)). destruct W; [congruence|]. cbn [length] in *. lia.
Qed.
(** a core has cells with materials *)
Lemma has_materials : materials m <> [].
Proof.
  pose proof core_nonempty as Ne. destruct (snd (core m)) as [|a l] eqn:E; [congruence|]. clear Ne.
  pose proof (core_ids _ (s_ids _ _ Hst)) as F. rewrite E in F. inversion F as [|? ? Ha _]; subst. destruct (exists_at _ _ Ha) as (asy & Hasy). pose proof (at_in _ _ _ Hasy) as Iasy.
  destruct (assembly_shape _ _ (s_consistent _ _ Hst) asy Iasy) as (z & bot & top & _ & Na & _). destruct (snd asy) as [|b l'] eqn:Ea; [congruence|]. clear Na.
  pose proof (assembly_ids _ (s_ids _ _ Hst) asy Iasy) as F'. rewrite Ea in F'. inversion F' as [|? ? Hb _]; subst. destruct (exists_at _ _ Hb) as (lat & Hlat). pose proof (at_in _ _ _ Hlat) as Ilat.
  destruct (s_lattices _ _ Hst lat Ilat) as (Nl & _). destruct (snd lat) as [|c l''] eqn:El; [congruence|]. clear Nl.
  pose proof (lattice_ids _ (s_ids _ _ Hst) lat Ilat) as F2. rewrite El in F2. inversion F2 as [|? ? Hc _]; subst. destruct (exists_at _ _ Hc) as (rtm & Hrtm). pose proof (at_in _ _ _ Hrtm) as Irtm.
  destruct (rtm_children _ _ (s_consistent _ _ Hst) eq_refl rtm Irtm) as (lx & ly & _ & L1 & L2 & _ & _ & Lr). destruct (snd rtm) as [|d l3] eqn:Er; [cbn in Lr; nia|].
  pose proof (rtm_ids _ (s_ids _ _ Hst) rtm Irtm) as F3. rewrite Er in F3. inversion F3 as [|? ? Hd _]; subst. destruct (exists_at _ _ Hd) as (cl & Hcl). pose proof (at_in _ _ _ Hcl) as Icl.
  pose proof (s_cells _ _ Hst) as Sc. rewrite Forall_forall in Sc. destruct (Sc cl Icl) as (k & x & Cm & _ & Fv & _ & _ & Lm & _).
  destruct (cell_ids _ (s_ids _ _ Hst) cl Icl) as (_ & _ & [X|(y & _ & _ & Y)]).
  - exfalso. unfold cell_mesh in Cm. rewrite X in Cm. cbn in Cm. destruct (meshes_like m (mtype cl)) as [(?, ?)|]; discriminate.
  - destruct (material_ids cl) as [|i l4]; [destruct (fv x); [congruence|discriminate]|]. inversion Y as [|? ? Hi _]; subst. unfold exists_in in Hi. intros Z0. rewrite Z0 in Hi. cbn in Hi. lia.
Qed.

Lemma read_doc_ok base nx ny nodes : num_cells (fst (core m)) = Ret (nx, ny) -> Forall2 (asy_node checks fsize m file f) (snd (core m)) nodes ->
  exists m', read_doc stdsort selfcheck junk checks fsize f file (document base m nx ny nodes) empty_model = Ret m' /\ same_model m m'.
Proof.
  intros En Hn. unfold read_doc. set (dom := Node (txt "Domain") [] [info "Materials" (join_names (materials m)); tree base (nx_by_ny nx ny :: nodes)] []).
  set (root := Node (txt "Xdmf") [(txt "Version", txt "3.0")] [dom] []).
  change (the_child (document base m nx ny nodes) "Xdmf") with (Ret root). cbn [bind]. change (the_child root "Domain") with (Ret dom). cbn [bind].
  change (the_child dom "Information") with (Ret (info "Materials" (join_names (materials m)))). cbn [bind].
  change (is (attribute (info "Materials" (join_names (materials m))) "Name") "Materials") with true. cbn [need bind].
  change (value (info "Materials" (join_names (materials m)))) with (join_names (materials m)).
  rewrite (read_materials_ok (materials m) has_materials (s_materials _ _ Hst)). cbn [bind].
  set (x := tree base (nx_by_ny nx ny :: nodes)). change (the_child dom "Grid") with (Ret x). cbn [bind].
  change (is (attribute x "GridType") "Tree") with true. cbn [need bind].
  pose proof core_nonempty as Ne.
  destruct (core_children _ _ (s_consistent _ _ Hst) eq_refl Ne) as (lx & ly & Er & L1 & L2 & _ & _ & Lr).
  assert (Hmx : (Z.of_nat ((length lx - 1) * (length ly - 1)) <= intMax)%Z).
  { destruct (s_core _ _ Hst) as (exts & _ & ids & W & H & HL & El'). pose proof HL as (_ & _ & _ & _ & _ & Hmax & _).
    rewrite El' in Er. cbn [fst] in Er. injection Er as <- <-. rewrite !Grid_Proofs.sums_length. cbn [Nat.sub]. rewrite !Nat.sub_0_r, Nat2Z.inj_mul. exact Hmax. }
  rewrite Er, num_cells_2 in En by lia. injection En as <- <-.
  destruct (prod_bounds (length lx - 1) (length ly - 1) ltac:(lia) ltac:(lia) Hmx) as (Bx & By).
  rewrite (getNXbyNY_ok x (Z.of_nat (length lx - 1)) (Z.of_nat (length ly - 1)) eq_refl Bx By). cbn [bind fst snd].
  unfold Mpact_Model.assert. destruct (Z.ltb_spec 0 (Z.of_nat (length lx - 1))); [|lia]. destruct (Z.ltb_spec 0 (Z.of_nat (length ly - 1))); [|lia]. cbn [andb negb]. rewrite andb_false_r.
  destruct (no_ids_ok (length lx - 1) (length ly - 1) (snd (core m))) as (rows0 & E0 & Hr0). rewrite E0. cbn [bind].
  assert (Eg : grids x = nodes).
  { apply (grids_of base [nx_by_ny (Z.of_nat (length lx - 1)) (Z.of_nat (length ly - 1))] nodes); [repeat constructor; discriminate|].
    eapply F2_all_r; [|exact Hn]. intros c y (? & ? & ? & ? & _ & _ & -> & _). reflexivity. }
  rewrite Eg. set (s0 := mkR [] [] [] [] [] [] [] [] [] [] [] (only_materials (map bare (materials m)))).
  destruct (read_all (fun pre (st : (list (list Z) * nat) * rstate) => rows_at (length lx - 1) (length ly - 1) (snd (core m)) (length pre) (fst (fst st)) /\ snd (fst st) = length pre /\
      cells_ok m (snd st) /\ rtms_ok m (snd st) /\ lats_ok m (flat_map (stack m) pre) (snd st) /\ asys_ok m (snd st) /\ incl pre (r_asy (snd st))) _
      (read_assembly stdsort selfcheck junk checks fsize f file (Z.of_nat (length lx - 1)) (Z.of_nat (length ly - 1))) _ _ Hn) with (s := ((rows0, O), s0))
    as (((rows, n2), s) & E2 & P1 & P2 & P3 & P4 & P5 & P6 & P7).
  - intros pre b post y ((rw, nn), st) Eb Hb (Q1 & Q2 & Q3 & Q4 & Q5 & Q6 & Q7). cbn [fst snd] in *. subst nn.
    destruct (asy_read stdsort Hsort selfcheck junk checks fsize m Hst f file (length lx - 1) (length ly - 1) pre post b y rw st ltac:(lia) Lr Eb Q1 Hb Q3 Q4 Q5 Q6) as (rw' & st' & Ec & R1 & R2 & R3 & R4 & R5 & R6 & R7).
    eexists. split; [exact Ec|]. rewrite app_length, Nat.add_1_r. cbn [fst snd]. split; [exact R1|]. split; [reflexivity|]. split; [exact R2|]. split; [exact R3|]. split; [exact R4|]. split; [exact R5|].
    intros z Hz. apply in_app_or in Hz. destruct Hz as [Hz|[<-|[]]]; auto.
  - cbn [fst snd length flat_map s0 r_asy]. split; [exact Hr0|]. split; [reflexivity|]. split; [|split; [|split; [|split; [|intros z []]]]].
    + split; try reflexivity; try constructor.
      * intros [|j] id; discriminate.
      * intros k. destruct k; reflexivity.
      * exists [], [], [], []. reflexivity.
    + split; [constructor|reflexivity|]. intros [|j] id; discriminate.
    + split; [constructor|reflexivity| |]. { intros [|j] id; discriminate. } intros id. split; [intros []|intros (a & [])].
    + split; [constructor|reflexivity|reflexivity|]. intros [|j] id; discriminate.
  - rewrite E2. cbn [bind fst snd]. cbn [fst snd] in *. eapply build_ok; eauto. exists lx, ly. split; [exact Er|]. now apply rows_full.
Qed.
End All.

Lemma put_same {A} (d : list Z -> option A) p x : put d p x p = Some x.
Proof. unfold put. now rewrite name_eqb_refl. Qed.
Lemma put_other {A} (d : list Z -> option A) p x r : r <> p -> put d p x r = d r.
Proof. intros H. unfold put. rewrite name_eqb_neq; auto. Qed.
Lemma path_xdmf path h : xdmf_path path h -> is_xdmf path = Ret true.
Proof.
  intros Hp. unfold is_xdmf. destruct (ends_with_ok (view path) (view (lit ".xdmf"))) as (b & E & Hb); try (rewrite view_V; apply valid_V'). rewrite E. f_equal. apply Hb. rewrite !view_V, !text_V.
  destruct Hp as (dir & base0 & -> & _). exists (dir ++ base0). now rewrite <- app_assoc.
Qed.
Theorem model_round_trip stdsort selfcheck junk checks fsize knudsen xsdata m xsecs path h d : sort_contract stdsort -> fsize = 4%Z \/ fsize = 8%Z ->
  storable selfcheck m -> xsecs_storable m knudsen xsdata xsecs -> xdmf_path path h ->
  exists d' m', write stdsort fsize knudsen xsdata m xsecs path d = Ret d' /\ only_written path h d d' /\
    read stdsort selfcheck junk checks fsize path d' empty_model = Ret m' /\ same_model m m'.
Proof.
  intros Hsort Hsize Hst Hx Hp. destruct (h5names_base fsize Hsize path h Hp) as (base & (Nb & Nb1 & Nb2) & Enm).
  pose proof (path_xdmf path h Hp) as Ex.
  unfold write. rewrite Ex. cbn [bind]. unfold writeXDMF. rewrite Enm. cbn [bind].
  rewrite app_length. change (length (txt ".h5")) with 3%nat. rewrite Nat.add_sub, substr_app0. cbn [bind].
  destruct (write_core_ok stdsort checks fsize knudsen xsdata selfcheck m xsecs (base ++ txt ".h5") base Hsort Hsize Hst Hx Nb Nb1 Nb2) as (nx & ny & nodes & f & Ew & En & Hn).
  rewrite Ew. cbn [bind fst snd].
  destruct (read_doc_ok stdsort Hsort selfcheck junk checks fsize m Hst f (base ++ txt ".h5") base nx ny nodes En Hn) as (m' & Er & Sm).
  eexists _, m'. split; [reflexivity|]. split; [|split; [|exact Sm]].
  - split; cbn [xmlfiles h5files]; intros r Hr; now apply put_other.
  - unfold read. rewrite Ex. cbn [bind]. unfold readXDMF. rewrite Enm. cbn [bind h5files xmlfiles]. rewrite !put_same. exact Er.
Qed.
