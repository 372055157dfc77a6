(** C75 (volumes of the materials), C76 (mean chord lengths and the distance of the rays) and C77 (text files beside the XDMF file). *)
From Coq Require Import String.
From Coq Require Import List Arith ZArith Lia Bool Reals Lra.
From Verif Require Import Base Loops Arith StringView_Model Logger_Model TextIo_Model Elem_Model Seg_Spec Poly_Spec QSeg_Model QSeg_Spec QPoly_Spec Soup_Model Soup_Spec XSec_Model XSec_Spec XSec_Use_Proofs XSec_Props PinCyl_Model Grid_Model Grid_Spec
  Fvm_Model Fvm_Spec Xdmf_Model Xdmf_Spec Xdmf_Proofs Mpact_Model Mpact_Spec Export_Model Export_Spec ModelIo_Model ModelIo_Spec ModelIo_Example_Proofs Outputs_Model Outputs_Spec
  Outputs_Volume_Proofs Outputs_Solid_Proofs Outputs_Chord_Proofs Outputs_Proofs Outputs_Write_Proofs Outputs_Example_Proofs.
Import ListNotations.
Local Open Scope list_scope.
Local Open Scope R_scope.

(** * C75 *)
(** If every material is used, the file has a line for each material with its name and its volume: the areas of its faces times the
    heights of their lattices.  Cells without a mesh end the program, or are skipped if errors do not. *)
Theorem C75_file : forall stdsort exit show15 m area base ext, sort_contract stdsort -> measurable m -> measures area ->
  exit = false \/ Forall (has_mesh m) (all_cells m) -> (forall i, (i < length (materials m))%nat -> used m (Z.of_nat i)) ->
  ~ In DOT ext -> (forall r, one_line (show15 r)) -> Forall (fun x => one_line (lit (Mpact_Model.name x))) (materials m) ->
  exists t, writeMaterialVolumes stdsort exit show15 m (base ++ [DOT] ++ ext) = Ret (base ++ txt ".volumes", t) /\
    lines t = map (fun p => lit (Mpact_Model.name (fst p)) ++ txt " " ++ show15 (volume m area (Z.eqb (Z.of_nat (snd p)))))
                  (combine (materials m) (seq 0 (length (materials m)))) ++ [[]].
Proof. exact volume_file. Qed.
Print Assumptions C75_file.
(** The volumes of all the materials are the volume of all the faces. *)
Theorem C75_total : forall m area, measurable m ->
  rsum (map (fun i => volume m area (Z.eqb (Z.of_nat i))) (seq 0 (length (materials m)))) = volume m area (fun _ => true).
Proof. exact total_volume. Qed.
Print Assumptions C75_total.
(** If the core has no gaps, this is the volume of the core. *)
Theorem C75_conserved : forall m area w h bot top W H, measurable m -> solid m area w h bot top W H ->
  rsum (map (fun i => volume m area (Z.eqb (Z.of_nat i))) (seq 0 (length (materials m)))) = rsum W * rsum H * (top - bot).
Proof. exact conserved_volume. Qed.
Print Assumptions C75_conserved.
(** A material that is not in the core is undefined behaviour: the sum of no volumes reads the first. *)
Theorem C75_unused_refuted : forall stdsort exit show15 m area base ext i, sort_contract stdsort -> measurable m -> measures area ->
  exit = false \/ Forall (has_mesh m) (all_cells m) -> ~ In DOT ext -> (i < length (materials m))%nat -> ~ used m (Z.of_nat i) ->
  writeMaterialVolumes stdsort exit show15 m (base ++ [DOT] ++ ext) = Ub.
Proof. exact unused_file. Qed.
Print Assumptions C75_unused_refuted.

(** * C76 *)
(** The mean chord lengths of all the faces, in the order of the core. *)
Theorem C76_lengths : forall exit m, measurable m -> Forall (has_mesh m) (all_cells m) -> (Z.of_nat (length (core_chords m)) <= intMax)%Z ->
  getMeanChordLengths exit m = Ret (core_chords m).
Proof. exact all_lengths. Qed.
Print Assumptions C76_lengths.
(** If errors do not end the program, cells without a mesh but with materials lead to lengths of zero at the end. *)
Theorem C76_skipped : forall m, measurable m -> (Z.of_nat (list_sum (map (fun c => length (material_ids (the_cell m c))) (all_cells m))) <= intMax)%Z ->
  exists k, getMeanChordLengths false m = Ret (core_chords m ++ repeat 0 k).
Proof. intros m Hm Hn. eexists. exact (lengths_ok false m Hm (or_introl eq_refl) Hn). Qed.
Print Assumptions C76_skipped.
(** The mean chord length is pi times the area over the perimeter. *)
Theorem C76_linear : forall k p, quadratic k = false -> length p = nverts k ->
  value_of (chord k p) = PI * rsum (map (fun e => tarea (0, 0) (fst e) (snd e)) (edges p)) / rsum (map (fun e => dist2 (fst e) (snd e)) (edges p)).
Proof. exact chord_linear. Qed.
Print Assumptions C76_linear.
Theorem C76_curved : forall k vs ms Is, quadratic k = true -> length vs = length ms -> length (vs ++ ms) = nverts k ->
  (forall a b c, In (a, b, c) (qedges vs ms) -> mid_half a b c \/ (orient a b c <> 0 /\ isStraight Rarith (eps * eps) a b c = false)) ->
  integrals green (qedges vs ms) Is -> exists Ls, integrals arclength (qedges vs ms) Ls /\ value_of (chord k (vs ++ ms)) = PI * rsum Is / rsum Ls.
Proof. exact chord_curved. Qed.
Print Assumptions C76_curved.
(** Four times the distance of the rays is one of the lengths: at most a tenth are smaller, at least a tenth are not larger. *)
Theorem C76_rays : forall stdsort exit tenth m, sort_contract stdsort -> tenths tenth -> measurable m -> Forall (has_mesh m) (all_cells m) ->
  (Z.of_nat (length (core_chords m)) <= intMax)%Z -> core_chords m <> [] ->
  exists r, ray_spacing stdsort exit tenth m = Ret r /\ ray_of (core_chords m) r.
Proof. exact core_rays. Qed.
Print Assumptions C76_rays.
(** A core without faces is undefined behaviour. *)
Theorem C76_empty_refuted : forall stdsort exit tenth m, sort_contract stdsort -> measurable m -> Forall (has_mesh m) (all_cells m) ->
  core_chords m = [] -> ray_spacing stdsort exit tenth m = Ub.
Proof. exact no_rays. Qed.
Print Assumptions C76_empty_refuted.

(** * C77 *)
(** The input file: the name of the case, a card for each material with its nuclides, the name of the XDMF file and the distance of the rays. *)
Theorem C77_input : forall stdsort checks exit show tenth m infos dir case, sort_contract stdsort -> tenths tenth -> measurable m ->
  Forall (has_mesh m) (all_cells m) -> (Z.of_nat (length (core_chords m)) <= intMax)%Z -> core_chords m <> [] ->
  (dir = [] \/ exists d, dir = d ++ [SLASH]) -> ~ In SLASH case ->
  length infos = length (materials m) -> Forall info_ok infos -> Forall (fun y => zaids y <> []) infos ->
  (forall r, one_line (show r)) -> Forall (fun x => one_line (lit (Mpact_Model.name x))) (materials m) -> one_line dir -> one_line case ->
  exists r t cards, ray_of (core_chords m) r /\
    writeInputFile stdsort checks exit show tenth m infos (dir ++ case ++ txt ".xdmf") = Ret (dir ++ case ++ txt ".input", t) /\
    length cards = length (materials m) /\
    (forall i x y, nth_error (materials m) i = Some x -> nth_error infos i = Some y -> exists ls, nth_error cards i = Some ls /\ card show i x y ls) /\
    lines t = before_cards case ++ concat cards ++ after_cards (dir ++ case ++ txt ".xdmf") (show r).
Proof. exact input_file. Qed.
Print Assumptions C77_input.
(** If the last material has no nuclides, its line does not end and the file has no line that says GEOM. *)
Theorem C77_nuclides_refuted : forall stdsort checks exit show tenth m ms x is y dir case, sort_contract stdsort -> tenths tenth -> measurable m ->
  Forall (has_mesh m) (all_cells m) -> (Z.of_nat (length (core_chords m)) <= intMax)%Z -> core_chords m <> [] ->
  (dir = [] \/ exists d, dir = d ++ [SLASH]) -> ~ In SLASH case ->
  materials m = ms ++ [x] -> length is = length ms -> zaids y = [] -> Forall info_ok (is ++ [y]) -> Forall (fun y => zaids y <> []) is ->
  (forall r, one_line (show r)) -> Forall (fun x => one_line (lit (Mpact_Model.name x))) (materials m) -> one_line dir -> one_line case ->
  exists t, writeInputFile stdsort checks exit show tenth m (is ++ [y]) (dir ++ case ++ txt ".xdmf") = Ret (dir ++ case ++ txt ".input", t) /\
    ~ In (txt "GEOM") (lines t).
Proof. exact glued_file. Qed.
Print Assumptions C77_nuclides_refuted.
(** The cross sections: the numbers of materials and groups, and for each material its name and a row of five numbers for each group. *)
Theorem C77_xs : forall checks show15 m xsecs base ext ng, ~ In DOT ext -> length xsecs = length (materials m) -> materials m <> [] -> Forall (shape ng) xsecs ->
  (forall r, one_word (show15 r)) -> Forall (fun x => one_line (lit (Mpact_Model.name x))) (materials m) ->
  exists t head blocks, writeCrossSections checks show15 m xsecs (base ++ [DOT] ++ ext) = Ret (base ++ txt ".xs", t) /\
    lines t = head :: concat blocks ++ [[]] /\ words head = [decimal (Z.of_nat (length (materials m))); decimal (Z.of_nat ng)] /\
    Forall2 (xs_block show15 ng) (combine (materials m) xsecs) blocks.
Proof. exact xs_lines. Qed.
Print Assumptions C77_xs.
(** Writing a model writes the XDMF file, its HDF5 file and the three text files, and changes nothing else. *)
Theorem C77_write : forall stdsort selfcheck checks exit fsize knudsen xsdata show show15 tenth m xsecs infos area ng dir case d t,
  let path := dir ++ case ++ txt ".xdmf" in
  sort_contract stdsort -> fsize = 4%Z \/ fsize = 8%Z -> can_be_written selfcheck m -> xsecs_storable m knudsen xsdata xsecs ->
  measures area -> tenths tenth -> (Z.of_nat (length (core_chords m)) <= intMax)%Z -> (forall i, (i < length (materials m))%nat -> used m (Z.of_nat i)) ->
  Forall (fun x => one_line (lit (Mpact_Model.name x))) (materials m) -> (forall r, one_line (show r)) -> (forall r, one_word (show15 r)) ->
  length infos = length (materials m) -> Forall info_ok infos -> Forall (fun y => zaids y <> []) infos ->
  length xsecs = length (materials m) -> materials m <> [] -> Forall (shape ng) xsecs ->
  (dir = [] \/ exists e, e <> [] /\ dir = e ++ [SLASH]) -> ~ In SLASH case -> case <> [] -> case <> txt "." -> one_line dir -> one_line case ->
  exists d' t' input volumes xs,
    write_all stdsort checks exit show show15 tenth m xsecs infos fsize knudsen xsdata path (d, t) = Ret (d', t') /\
    write stdsort fsize knudsen xsdata m xsecs path d = Ret d' /\ only_written path (dir ++ case ++ txt ".h5") d d' /\
    writeInputFile stdsort checks exit show tenth m infos path = Ret (dir ++ case ++ txt ".input", input) /\
    writeMaterialVolumes stdsort exit show15 m path = Ret (dir ++ case ++ txt ".volumes", volumes) /\
    writeCrossSections checks show15 m xsecs path = Ret (dir ++ case ++ txt ".xs", xs) /\
    t' (dir ++ case ++ txt ".input") = Some input /\ t' (dir ++ case ++ txt ".volumes") = Some volumes /\ t' (dir ++ case ++ txt ".xs") = Some xs /\
    forall q, q <> dir ++ case ++ txt ".input" -> q <> dir ++ case ++ txt ".volumes" -> q <> dir ++ case ++ txt ".xs" -> t' q = t q.
Proof. exact all_written. Qed.
Print Assumptions C77_write.

(** * The hypotheses are met *)
(** two materials in four cells of two faces on two levels *)
Example C75_example : measurable halves /\ measures the_area /\ Forall (has_mesh halves) (all_cells halves) /\
  (forall i, (i < length (materials halves))%nat -> used halves (Z.of_nat i)) /\ solid halves the_area 2 1 0 (1 / 4) [2; 2] [1] /\
  Forall (fun x => one_line (lit (Mpact_Model.name x))) (materials halves).
Proof.
  split; [exact halves_measurable|]. split; [exact area_exists|]. split; [exact halves_meshes|]. split; [exact halves_used|]. split; [apply halves_solid; exact area_exists|].
  repeat constructor; apply one_check; reflexivity.
Qed.
(** water is not in this core *)
Example C75_example_unused : forall selfcheck : mesh R -> outcome (mesh R), measurable (small true) /\ Forall (has_mesh (small true)) (all_cells (small true)) /\ ~ used (small true) (Z.of_nat 0).
Proof. intros selfcheck. split; [exact (written_measurable selfcheck _ (small_ok selfcheck true))|]. split; [exact (written_meshes selfcheck _ (small_ok selfcheck true))|]. exact (small_unused true). Qed.
Example C76_example : tenths (fun n => n / 10)%nat /\ tenths (fun n => if n mod 10 =? 0 then n / 10 - 1 else n / 10)%nat /\
  (Z.of_nat (length (core_chords halves)) <= intMax)%Z /\ length (core_chords halves) = 16%nat.
Proof. split; [exact tenths_exact|]. split; [exact tenths_double|]. split; [vm_compute; discriminate|reflexivity]. Qed.
Example C76_example_empty : measurable empty_model /\ core_chords empty_model = [].
Proof.
  split; [|reflexivity]. split; [|split; [|split]].
  - constructor; cbn; try tauto. constructor.
  - constructor; cbn; try tauto.
  - split; [vm_compute; discriminate|]. split; [|split]; intros ? [].
  - constructor.
Qed.
(** a model with one material, and a path *)
Example C77_example : forall selfcheck, let m := small_of [mkMaterial "UO2 fuel" true] 0 true in
  can_be_written selfcheck m /\ xsecs_storable m false false [cold] /\ measures the_area /\ (Z.of_nat (length (core_chords m)) <= intMax)%Z /\
  (forall i, (i < length (materials m))%nat -> used m (Z.of_nat i)) /\ Forall (fun x => one_line (lit (Mpact_Model.name x))) (materials m) /\
  info_ok (mkInfo (104 / 10) 565 [92235; 8016]%Z [1 / 1000; 46 / 1000]) /\ shape 1 cold /\
  ~ In SLASH (txt "core") /\ txt "core" <> txt "." /\ one_line (txt "out/") /\ one_line (txt "core").
Proof.
  intros selfcheck m. split; [apply small_of_ok; [unfold exists_in; cbn; lia|lia]|]. split; [split; discriminate|]. split; [exact area_exists|]. split; [vm_compute; discriminate|].
  split; [exact small_used|]. split; [repeat constructor; apply one_check; reflexivity|].
  split; [constructor; [unfold small_number; cbn [density]; rewrite Rabs_right; lra|unfold small_number; cbn [temperature]; rewrite Rabs_right; lra|reflexivity]|].
  split; [exact (proj2 ex_collapse)|]. split; [cbn; intuition discriminate|]. split; [discriminate|]. split; apply one_check; reflexivity.
Qed.
(** and the file of the halves: the volumes are 1 / 2 each *)
Example C75_halves : forall area, measures area -> volume halves area (Z.eqb 0) = 1 / 2 /\ volume halves area (Z.eqb 1) = 1 / 2.
Proof. exact halves_volumes. Qed.
