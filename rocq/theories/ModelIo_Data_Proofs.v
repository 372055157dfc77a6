(** The data of the coarse cells in an XDMF file. *)
From Coq Require Import String.
From Coq Require Import List Arith ZArith Lia Bool Reals Lra Permutation.
From Verif Require Import Base Loops Arith StringView_Model TextIo_Model Ascii_Model Elem_Model Soup_Model Soup_Spec Stats_Spec XSec_Model XSec_Spec XSec_Proofs XSec_Mat_Proofs
  PinCyl_Model Grid_Model Fvm_Model Fvm_Spec Fvm_Proofs Xdmf_Model Mpact_Model Mpact_Spec Export_Model Export_Spec Export_Sets_Proofs Export_Cell_Proofs Export_Proofs Export_Final_Proofs
  Import_Model ModelIo_Model ModelIo_Spec ModelIo_View_Spec ModelIo_Cell_Proofs.
Import ListNotations.
Local Open Scope list_scope.

Definition means (x : xsec) : R * R * R * R := (average (xa x), average (xf x), average (xs x), total_xs x).
Lemma averages_means m xsecs : xsecs_ok m xsecs -> mapo averages xsecs = Ret (map means xsecs).
Proof.
  intros (_ & H). rewrite Forall_forall in H. apply mapo_map. intros x Hx. destruct (H x Hx) as (Hm & ng & w & Hn & Sx & Vx).
  unfold averages. rewrite Hm, Vx. cbn [negb bind]. destruct (collapse_full ng x w Sx Hn Vx) as (y & E & Sy & _ & _ & V & _). rewrite E. cbn [bind].
  destruct Sy as (_ & La & Lf & _ & _ & Ls & _). destruct Sx as (_ & Lxa & Lxf & _ & _ & Lxs & _).
  pose proof (V Absorption Logic.I) as VA. pose proof (V Scattering Logic.I) as VS. pose proof (V Fission Logic.I) as VF. cbn [XSec_Spec.value] in VA, VS, VF.
  destruct (xa y) as [|a la]; [discriminate|]. destruct (xs y) as [|s ls]; [discriminate|]. destruct (xf y) as [|f lf]; [discriminate|]. cbn [rd nth_error bind nth] in *.
  unfold means, total_xs. rewrite (average_mean (xa x) ng Lxa), (average_mean (xs x) ng Lxs), (average_mean (xf x) ng Lxf). subst a s f. reflexivity.
Qed.
Lemma of_material_at xsecs q id d : (0 <= id < Z.of_nat (length xsecs))%Z -> of_material xsecs q id = q (nth (Z.to_nat id) xsecs d).
Proof.
  intros H. unfold of_material. destruct (nth_error xsecs (Z.to_nat id)) as [y|] eqn:E; [|apply nth_error_None in E; lia]. now rewrite (nth_error_nth _ _ _ E).
Qed.
Lemma extra_value m knudsen xsdata xsecs k x mats : mesh_ok k x -> length mats = length (fv x) -> Forall (exists_in (materials m)) mats -> mats <> [] ->
  xsecs_storable m knudsen xsdata xsecs ->
  extra_sets knudsen xsdata xsecs (if knudsen || xsdata then map means xsecs else []) k x mats = Ret (tl (written_sets knudsen xsdata xsecs k x mats)).
Proof.
  intros Hx Hm Hid Hne (Hxs & Hg). unfold extra_sets, written_sets. cbn [tl app].
  set (mcl := fun c => value_of (chord k (map (vertex x) c))).
  assert (E1 : mapo (fun i => let* f := rd (fv x) i in let* p := mapo (rdz (mv x)) f in chord k p) (seq 0 (length mats)) = Ret (map mcl (fv x))).
  { rewrite Hm. apply mapo_rd0. intros c Hc. rewrite (conn_verts k x mats Hx Hm c Hc). cbn [bind]. apply chord_ret. rewrite map_length. apply (Hx c Hc). }
  rewrite Forall_forall in Hid. rewrite E1.
  destruct (knudsen || xsdata) eqn:Ek.
  2:{ apply orb_false_elim in Ek. destruct Ek as (-> & ->). reflexivity. }
  destruct (Hxs eq_refl) as (Lx & _).
  assert (R : forall id, In id mats -> (0 <= id < Z.of_nat (length xsecs))%Z) by (intros id Hi; rewrite Lx; exact (Hid id Hi)).
  destruct xsecs as [|x0 xl] eqn:Exs; [destruct mats as [|i ?]; [congruence|]; specialize (R i (or_introl eq_refl)); cbn in R; lia|]. rewrite <- Exs in *.
  assert (E2 : mapo (rdz (map means xsecs)) mats = Ret (map (fun id => means (nth (Z.to_nat id) xsecs x0)) mats)).
  { apply mapo_map. intros id Hi. specialize (R id Hi). apply rdz_nth; [lia|]. apply map_nth_error. apply nth_error_nth'. lia. }
  rewrite E2.
  assert (P : forall q, map (of_material xsecs q) mats = map (fun id => q (nth (Z.to_nat id) xsecs x0)) mats).
  { intros q. apply map_ext_in. intros id Hi. now apply of_material_at, R. }
  assert (E3 : (if xsdata then let* y0 := rdz xsecs 0 in mapo (fun g => let* n := getASCIINumber (Z.of_nat g) in
        let* d := mapo (fun id => let* y := rdz xsecs id in total_of y g) mats in Ret (txt "Group_" ++ n ++ txt "_Total_XS", d)) (seq 0 (numGroups y0)) else Ret []) =
     Ret (if xsdata then map (fun g => (lit "Group_" ++ digits5 (Z.of_nat g) ++ lit "_Total_XS", map (of_material xsecs (group_total g)) mats)) (seq 0 (group_count xsecs)) else [])).
  { destruct xsdata; [|reflexivity]. destruct (Hg eq_refl) as (ng & Hng & Fs). rewrite Forall_forall in Fs.
    assert (E0 : rdz xsecs 0 = Ret x0) by (rewrite Exs; reflexivity). rewrite E0. cbn [bind].
    assert (S0 : shape ng x0) by (apply Fs; rewrite Exs; now left).
    replace (group_count xsecs) with (numGroups x0) by (rewrite Exs; reflexivity).
    apply mapo_map. intros g Hgg. apply in_seq in Hgg. pose proof (proj1 S0) as Sn. rewrite ascii5 by lia. cbn [bind].
    rewrite (mapo_map _ (of_material xsecs (group_total g))); [reflexivity|]. intros id Hi. specialize (R id Hi).
    destruct (nth_error xsecs (Z.to_nat id)) as [y|] eqn:E; [|apply nth_error_None in E; lia].
    rewrite (rdz_nth xsecs id y ltac:(lia) E). cbn [bind]. unfold of_material. rewrite E. unfold total_of, group_total.
    destruct (Fs y (nth_error_In _ _ E)) as (_ & La & _ & _ & _ & Ls & _).
    rewrite (proj2 (rd_Ret (xa y) g (nth g (xa y) 0%R))) by (apply nth_error_nth'; lia). cbn [bind].
    rewrite (proj2 (rd_Ret (xs y) g (nth g (xs y) 0%R))) by (apply nth_error_nth'; lia). reflexivity. }
  rewrite E3. rewrite !P. destruct knudsen; cbn [bind].
  - pose proof (mapo_rd2 (fun t c => (1 / (snd t * c))%R) (map (fun id => means (nth (Z.to_nat id) xsecs x0)) mats) (map mcl (fv x)) [] [] eq_refl) as Kn. cbn [app length] in Kn.
    rewrite Kn by (now rewrite !map_length). cbn [bind]. rewrite !map_map. cbn [means fst snd]. repeat f_equal.
    rewrite <- (map_map (fun id => nth (Z.to_nat id) xsecs x0) means), <- (map_map (fun id => nth (Z.to_nat id) xsecs x0) total_xs). clear. generalize (map mcl (fv x)).
    induction (map (fun id => nth (Z.to_nat id) xsecs x0) mats) as [|y l IH]; intros [|c cs]; cbn; auto. now rewrite IH.
  - rewrite !map_map. reflexivity.
Qed.
