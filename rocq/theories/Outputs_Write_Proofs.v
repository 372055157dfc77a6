(** Writing all the files of a model. *)
From Coq Require Import String.
From Verif Require Grid_Proofs.
From Coq Require Import List Arith ZArith Lia Bool Reals Lra.
From Verif Require Import Base Loops Arith StringView_Model Logger_Model TextIo_Model Elem_Model Soup_Model Soup_Spec XSec_Model XSec_Spec PinCyl_Model Grid_Model Grid_Spec Fvm_Model Fvm_Spec
  Xdmf_Model Xdmf_Spec Xdmf_Proofs Mpact_Model Mpact_Spec Export_Model Export_Spec Export_Proofs ModelIo_Model ModelIo_Spec ModelIo_Text_Proofs ModelIo_Write_Proofs ModelIo_Proofs ModelIo_View_Spec ModelIo_View_Proofs
  Outputs_Model Outputs_Spec Outputs_Volume_Proofs Outputs_Chord_Proofs Outputs_Proofs.
Import ListNotations.
Local Open Scope list_scope.

Lemma laid_length d ids W H : lattice d ids W H -> length (concat (rev ids)) = (length W * length H)%nat.
Proof.
  intros (L & _ & _ & _ & _ & _ & HR). assert (F : Forall (fun row => length row = length W) (rev ids)).
  { apply Forall_rev. apply Forall_forall. intros row Hr. apply In_nth_error in Hr. destruct Hr as (i & Ei). assert (i < length ids)%nat by (apply nth_error_Some; congruence).
    apply (HR (length H - 1 - i)%nat row); [|lia]. rewrite <- Ei. f_equal. lia. }
  rewrite <- L, <- (rev_length ids). revert F. generalize (rev ids). induction l as [|a l IH]; intros F; [cbn; lia|]. inversion F as [|? ? E F']; subst.
  cbn [concat length]. rewrite app_length, IH by auto. rewrite E. lia.
Qed.
Lemma laid_shape d p : laid_out d p -> rect_shaped p /\ snd p <> [] /\ (Z.of_nat (length (snd p)) <= intMax)%Z.
Proof.
  intros (ids & W & H & HL & ->). pose proof (laid_length _ _ _ _ HL) as L. destruct HL as (_ & NW & NH & _ & _ & Hmax & _). cbn [snd].
  assert (LW : (0 < length W)%nat) by (destruct W; [congruence|cbn; lia]). assert (LH : (0 < length H)%nat) by (destruct H; [congruence|cbn; lia]).
  split; [|split].
  - exists (sums 0 W), (sums 0 H). cbn [fst snd]. rewrite !Grid_Proofs.sums_length, L. repeat split; lia.
  - intros E. rewrite E in L. cbn in L. nia.
  - rewrite L. lia.
Qed.

Section Written.
Variable selfcheck : mesh R -> outcome (mesh R).
Variable m : model.
Hypothesis Hw : can_be_written selfcheck m.
Lemma written_measurable : measurable m.
Proof.
  destruct (s_core _ _ Hw) as (exts & _ & Hc). destruct (laid_shape _ _ Hc) as (C1 & C2 & C3). pose proof (s_consistent _ _ Hw) as Hs.
  split; [exact (s_ids _ _ Hw)|]. split; [|split].
  - constructor.
    + now right.
    + intros a Ha. destruct (assembly_shape _ _ Hs a Ha) as (z & _ & _ & E & _ & L & _). eauto.
    + intros l Hl. destruct (lattice_shape _ _ Hs l Hl) as (_ & w & h & nx & ny & _ & _ & E & H1 & H2 & L). exists w, h, nx, ny. repeat split; auto. lia.
    + intros r Hr. apply (laid_shape _ _ (s_rtms _ _ Hw r Hr)).
  - split; [exact C3|]. split; [|split].
    + intros a Ha. destruct (assembly_shape _ _ Hs a Ha) as (z & _ & _ & E & _). now destruct (s_assemblies _ _ Hw a z Ha E) as (_ & _ & H & _).
    + intros l Hl. apply (s_lattices _ _ Hw l Hl).
    + intros r Hr. apply (laid_shape _ _ (s_rtms _ _ Hw r Hr)).
  - eapply Forall_impl; [|exact (s_cells _ _ Hw)]. intros c (k & x & E & Hx & N & _ & _ & L & _) _. exists k, x. auto.
Qed.
Lemma written_meshes : Forall (has_mesh m) (all_cells m).
Proof.
  apply Forall_forall. intros c Hc. pose proof (all_exist m written_measurable c Hc) as He. destruct (get_ok (cells m) c no_cell He) as (_ & Hi).
  destruct (proj1 (Forall_forall _ _) (s_cells _ _ Hw) _ Hi) as (k & x & E & _). unfold has_mesh, the_cell. rewrite E. discriminate.
Qed.
Lemma written_chords : core_chords m <> [].
Proof.
  destruct written_measurable as (Hv & _). pose proof (s_consistent _ _ Hw) as Hs.
  destruct (s_core _ _ Hw) as (exts & _ & Hcore). destruct (laid_shape _ _ Hcore) as (_ & NC & _). destruct (snd (core m)) as [|a ca] eqn:Ec; [congruence|].
  pose proof (core_ids m Hv) as Fc. rewrite Ec in Fc. inversion Fc as [|? ? Ha _]; subst. destruct (get_ok (assemblies m) a ([], []) Ha) as (_ & Hai).
  destruct (assembly_shape _ _ Hs _ Hai) as (z & _ & _ & _ & NA & _). destruct (snd (get (assemblies m) a ([], []))) as [|l cl] eqn:Ea; [congruence|].
  pose proof (assembly_ids m Hv _ Hai) as Fa. rewrite Ea in Fa. inversion Fa as [|? ? Hl _]; subst. destruct (get_ok (lattices m) l ([], []) Hl) as (_ & Hli).
  destruct (s_lattices _ _ Hw _ Hli) as (NL & _). destruct (snd (get (lattices m) l ([], []))) as [|r cr] eqn:El; [congruence|].
  pose proof (lattice_ids m Hv _ Hli) as Fl. rewrite El in Fl. inversion Fl as [|? ? Hr _]; subst. destruct (get_ok (rtms m) r ([], []) Hr) as (_ & Hri).
  destruct (laid_shape _ _ (s_rtms _ _ Hw _ Hri)) as (_ & NR & _). destruct (snd (get (rtms m) r ([], []))) as [|c cc] eqn:Er; [congruence|].
  pose proof (rtm_ids m Hv _ Hri) as Fr. rewrite Er in Fr. inversion Fr as [|? ? Hc _]; subst. destruct (get_ok (cells m) c no_cell Hc) as (_ & Hci).
  destruct (proj1 (Forall_forall _ _) (s_cells _ _ Hw) _ Hci) as (k & x & E & _ & Nf & _).
  unfold core_chords, all_cells, all_rtms, all_lattices. rewrite Ec. cbn [flat_map]. rewrite Ea. cbn [app flat_map]. rewrite El. cbn [app flat_map]. rewrite Er. cbn [app flat_map].
  unfold cell_chords at 1. unfold the_cell. rewrite E. destruct (fv x); [congruence|discriminate].
Qed.
Lemma written_lengths exit : (Z.of_nat (length (core_chords m)) <= intMax)%Z -> getMeanChordLengths exit m = Ret (core_chords m).
Proof. intros H. apply lengths_all; [exact written_measurable|exact written_meshes|]. rewrite <- lengths_count; [exact H|exact written_measurable|exact written_meshes]. Qed.
End Written.

Theorem all_written stdsort selfcheck checks exit fsize knudsen xsdata show show15 tenth m xsecs infos area ng dir case d t :
  let path := dir ++ case ++ txt ".xdmf" in
  sort_contract stdsort -> fsize = 4%Z \/ fsize = 8%Z -> can_be_written selfcheck m -> xsecs_storable m knudsen xsdata xsecs ->
  measures area -> tenths tenth -> (Z.of_nat (length (core_chords m)) <= intMax)%Z -> (forall i, (i < length (materials m))%nat -> used m (Z.of_nat i)) ->
  Forall (fun x => one_line (lit (Mpact_Model.name x))) (materials m) -> (forall r, one_line (show r)) -> (forall r, one_word (show15 r)) ->
  length infos = length (materials m) -> Forall info_ok infos -> Forall (fun y => zaids y <> []) infos ->
  length xsecs = length (materials m) -> materials m <> [] -> Forall (shape ng) xsecs ->
  (dir = [] \/ exists e, e <> [] /\ dir = e ++ [SLASH]) -> ~ In SLASH case -> case <> [] -> case <> txt "." -> one_line dir -> one_line case ->
  exists d' t' input volumes xs,
    write_all stdsort checks exit show show15 tenth m xsecs infos fsize knudsen xsdata path (d, t) = Ret (d', t') /\
    write stdsort fsize knudsen xsdata m xsecs path d = Ret d' /\ only_written path (dir ++ case ++ txt ".h5") d d' /\
    writeInputFile stdsort checks exit show tenth m infos path = Ret (dir ++ case ++ txt ".input", input) /\
    writeMaterialVolumes stdsort exit show15 m path = Ret (dir ++ case ++ txt ".volumes", volumes) /\
    writeCrossSections checks show15 m xsecs path = Ret (dir ++ case ++ txt ".xs", xs) /\
    t' (dir ++ case ++ txt ".input") = Some input /\ t' (dir ++ case ++ txt ".volumes") = Some volumes /\ t' (dir ++ case ++ txt ".xs") = Some xs /\
    forall q, q <> dir ++ case ++ txt ".input" -> q <> dir ++ case ++ txt ".volumes" -> q <> dir ++ case ++ txt ".xs" -> t' q = t q.
Proof.
  intros path Hsort Hsize Hw Hx Harea Htenth Hmax Hused Hn Hs Hs15 Li Hi Hz Lx Nm Hsh Hd Hc Nc Nd Ld Lc.
  assert (Hp : xdmf_path path (dir ++ case ++ txt ".h5")) by (exists dir, case; repeat split; auto).
  destruct (file_shows stdsort selfcheck true fsize knudsen xsdata m xsecs path _ d Hsort Hsize Hw Hx Hp) as (d' & doc & cg & f & file & Ew & Ho & _).
  pose proof (written_lengths selfcheck m Hw exit Hmax) as El. pose proof (written_chords selfcheck m Hw) as Nl.
  assert (Hd' : dir = [] \/ exists e, dir = e ++ [SLASH]) by (destruct Hd as [?|(e & _ & ?)]; eauto).
  destruct (input_lines stdsort Hsort checks exit show show15 tenth m infos dir case _ El Nl Htenth Hd' Hc Li Hi Hz Hs Hn Ld Lc) as (r & input & cards & _ & E1 & _).
  assert (Epath : path = (dir ++ case) ++ [DOT] ++ txt "xdmf") by (unfold path; rewrite <- app_assoc; reflexivity).
  assert (Nx : ~ In DOT (txt "xdmf")) by (cbn; unfold DOT; intuition discriminate).
  pose proof (material_volumes_ok stdsort Hsort exit m (written_measurable selfcheck m Hw) area Harea (or_intror (written_meshes selfcheck m Hw)) Hused) as Ev.
  destruct (volume_lines stdsort exit show15 m (dir ++ case) (txt "xdmf") _ Nx Ev ltac:(now rewrite map_length, seq_length) (fun r => word_line _ (Hs15 r)) Hn) as (volumes & E2 & _).
  destruct (xs_lines checks show15 m xsecs (dir ++ case) (txt "xdmf") ng Nx Lx Nm Hsh Hs15 Hn) as (xs & head & blocks & E3 & _).
  assert (E2' : writeMaterialVolumes stdsort exit show15 m path = Ret (dir ++ case ++ txt ".volumes", volumes)) by (rewrite Epath; etransitivity; [exact E2|now rewrite <- app_assoc]).
  assert (E3' : writeCrossSections checks show15 m xsecs path = Ret (dir ++ case ++ txt ".xs", xs)) by (rewrite Epath; etransitivity; [exact E3|now rewrite <- app_assoc]).
  clear E2 E3. rename E2' into E2. rename E3' into E3. fold path in E1.
  pose proof (write_all_ok stdsort checks exit show show15 tenth m xsecs infos fsize knudsen xsdata path _ d d' t _ _ _ Hp Ew E1 E2 E3) as E.
  exists d'. eexists. exists input, volumes, xs. split; [exact E|]. split; [exact Ew|]. split; [exact Ho|]. split; [exact E1|]. split; [exact E2|]. split; [exact E3|].
  assert (D : forall a b : list Z, a <> b -> dir ++ case ++ a <> dir ++ case ++ b) by (intros a b Hab X; apply app_inv_head in X; apply app_inv_head in X; contradiction).
  unfold put_text. cbn [fst snd]. split; [|split; [|split]].
  - etransitivity; [apply put_other; apply D; discriminate|]. etransitivity; [apply put_other; apply D; discriminate|]. apply put_same.
  - etransitivity; [apply put_other; apply D; discriminate|]. apply put_same.
  - apply put_same.
  - intros q N1 N2 N3. etransitivity; [apply put_other; exact N3|]. etransitivity; [apply put_other; exact N2|]. now apply put_other.
Qed.

(** ** The statements for the models *)
Lemma volume_file stdsort exit show15 m area base ext : sort_contract stdsort -> measurable m -> measures area ->
  exit = false \/ Forall (has_mesh m) (all_cells m) -> (forall i, (i < length (materials m))%nat -> used m (Z.of_nat i)) ->
  ~ In DOT ext -> (forall r, one_line (show15 r)) -> Forall (fun x => one_line (lit (Mpact_Model.name x))) (materials m) ->
  exists t, writeMaterialVolumes stdsort exit show15 m (base ++ [DOT] ++ ext) = Ret (base ++ txt ".volumes", t) /\
    lines t = map (fun p => lit (Mpact_Model.name (fst p)) ++ txt " " ++ show15 (volume m area (Z.eqb (Z.of_nat (snd p)))))
                  (combine (materials m) (seq 0 (length (materials m)))) ++ [[]].
Proof.
  intros Hsort Hm Ha Ht Hu He Hs Hn. pose proof (material_volumes_ok stdsort Hsort exit m Hm area Ha Ht Hu) as Ev.
  destruct (volume_lines stdsort exit show15 m base ext _ He Ev ltac:(now rewrite map_length, seq_length) Hs Hn) as (t & E & El). exists t. split; [exact E|].
  etransitivity; [exact El|]. f_equal. generalize (seq 0 (length (materials m))). generalize (materials m). clear. induction l as [|x l IH]; intros [|i s]; cbn [combine map]; try reflexivity. cbn [fst snd]. f_equal. apply IH.
Qed.
Lemma unused_file stdsort exit show15 m area base ext i : sort_contract stdsort -> measurable m -> measures area ->
  exit = false \/ Forall (has_mesh m) (all_cells m) -> ~ In DOT ext -> (i < length (materials m))%nat -> ~ used m (Z.of_nat i) ->
  writeMaterialVolumes stdsort exit show15 m (base ++ [DOT] ++ ext) = Ub.
Proof.
  intros Hsort Hm Ha Ht He Hi Hu. unfold writeMaterialVolumes. rewrite strip_ok by auto. cbn [bind].
  now rewrite (material_volumes_unused stdsort Hsort exit m Hm area Ha i Ht Hi Hu).
Qed.
Lemma all_lengths exit m : measurable m -> Forall (has_mesh m) (all_cells m) -> (Z.of_nat (length (core_chords m)) <= intMax)%Z ->
  getMeanChordLengths exit m = Ret (core_chords m).
Proof. intros Hm Hh Hn. apply lengths_all; auto. now rewrite <- lengths_count. Qed.
Lemma core_rays stdsort exit tenth m : sort_contract stdsort -> tenths tenth -> measurable m -> Forall (has_mesh m) (all_cells m) ->
  (Z.of_nat (length (core_chords m)) <= intMax)%Z -> core_chords m <> [] ->
  exists r, ray_spacing stdsort exit tenth m = Ret r /\ ray_of (core_chords m) r.
Proof. intros Hsort Ht Hm Hh Hn Nn. apply ray_ok; auto. now apply all_lengths. Qed.
Lemma no_rays stdsort exit tenth m : sort_contract stdsort -> measurable m -> Forall (has_mesh m) (all_cells m) ->
  core_chords m = [] -> ray_spacing stdsort exit tenth m = Ub.
Proof. intros Hsort Hm Hh E. apply ray_empty; auto. rewrite <- E. apply all_lengths; auto. rewrite E. vm_compute. discriminate. Qed.
Lemma input_file stdsort checks exit show tenth m infos dir case : sort_contract stdsort -> tenths tenth -> measurable m ->
  Forall (has_mesh m) (all_cells m) -> (Z.of_nat (length (core_chords m)) <= intMax)%Z -> core_chords m <> [] ->
  (dir = [] \/ exists d, dir = d ++ [SLASH]) -> ~ In SLASH case ->
  length infos = length (materials m) -> Forall info_ok infos -> Forall (fun y => zaids y <> []) infos ->
  (forall r, one_line (show r)) -> Forall (fun x => one_line (lit (Mpact_Model.name x))) (materials m) -> one_line dir -> one_line case ->
  exists r t cards, ray_of (core_chords m) r /\
    writeInputFile stdsort checks exit show tenth m infos (dir ++ case ++ txt ".xdmf") = Ret (dir ++ case ++ txt ".input", t) /\
    length cards = length (materials m) /\
    (forall i x y, nth_error (materials m) i = Some x -> nth_error infos i = Some y -> exists ls, nth_error cards i = Some ls /\ card show i x y ls) /\
    lines t = before_cards case ++ concat cards ++ after_cards (dir ++ case ++ txt ".xdmf") (show r).
Proof. intros Hsort Ht Hm Hh Hn Nn Hd Hc Li Hi Hz Hs Hx Ld Lc. apply (input_lines stdsort Hsort checks exit show show tenth m infos dir case); auto. now apply all_lengths. Qed.
Lemma glued_file stdsort checks exit show tenth m ms x is y dir case : sort_contract stdsort -> tenths tenth -> measurable m ->
  Forall (has_mesh m) (all_cells m) -> (Z.of_nat (length (core_chords m)) <= intMax)%Z -> core_chords m <> [] ->
  (dir = [] \/ exists d, dir = d ++ [SLASH]) -> ~ In SLASH case ->
  materials m = ms ++ [x] -> length is = length ms -> zaids y = [] -> Forall info_ok (is ++ [y]) -> Forall (fun y => zaids y <> []) is ->
  (forall r, one_line (show r)) -> Forall (fun x => one_line (lit (Mpact_Model.name x))) (materials m) -> one_line dir -> one_line case ->
  exists t, writeInputFile stdsort checks exit show tenth m (is ++ [y]) (dir ++ case ++ txt ".xdmf") = Ret (dir ++ case ++ txt ".input", t) /\
    ~ In (txt "GEOM") (lines t).
Proof.
  intros Hsort Ht Hm Hh Hn Nn Hd Hc Em Li Hz Hi Hzs Hs Hx Ld Lc. eapply (glued stdsort Hsort checks exit show show tenth m (is ++ [y]) ms x is y dir case (core_chords m)); eauto. now apply all_lengths.
Qed.
