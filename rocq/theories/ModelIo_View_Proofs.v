(** The grids of the coarse cells in an XDMF file. *)
From Coq Require Import String.
From Coq Require Import List Arith ZArith Lia Bool Reals Lra Permutation.
From Verif Require Grid_Proofs.
From Verif Require Import Base Loops Arith Box_Model Box_Proofs StringView_Model TextIo_Model Elem_Model Soup_Model Soup_Spec XSec_Model PinCyl_Model Grid_Model Fvm_Model Fvm_Spec
  Xdmf_Model Xdmf_Spec Xdmf_Proofs Xdmf_File_Proofs Mpact_Model Mpact_Spec Export_Model Export_Spec Import_Model ModelIo_Model ModelIo_Spec ModelIo_View_Spec
  ModelIo_Text_Proofs ModelIo_Cell_Proofs ModelIo_Write_Proofs ModelIo_Proofs.
Import ListNotations.
Local Open Scope list_scope.

Lemma placed_drawn o l : Xdmf_Proofs.placed eps o (map flat3 l) = map (drawn o) l.
Proof.
  unfold Xdmf_Proofs.placed, is_3d. destruct o as ((ox, oy), oz). cbn [px py pz fst snd].
  replace (existsb (fun v : point => Rltb eps (Rabs (pz v))) (map flat3 l)) with false.
  2:{ symmetry. destruct (existsb _ (map flat3 l)) eqn:E; [|reflexivity]. apply existsb_exists in E. destruct E as (v & Hv & E). apply in_map_iff in Hv. destruct Hv as (q & <- & _).
      unfold pz, flat3 in E. cbn [fst snd] in E. rewrite Rabs_R0 in E. apply Rltb_true in E. pose proof Grid_Proofs.eps_pos. lra. }
  cbn [orb]. unfold pz at 1. cbn [snd]. destruct (Rltb eps (Rabs oz)) eqn:E; rewrite map_map; apply map_ext; intros (x, y); unfold drawn, flat3, px, py, pz; cbn [fst snd]; destruct (Rle_dec (Rabs oz) eps) as [L|L].
  - apply Rltb_true in E. lra.
  - f_equal. ring.
  - reflexivity.
  - apply Rltb_false in E. lra.
Qed.
Lemma F2_impl {A B} (P Q : A -> B -> Prop) l r : (forall a b, P a b -> Q a b) -> Forall2 P l r -> Forall2 Q l r.
Proof. intros H. induction 1; constructor; auto. Qed.
Theorem file_shows stdsort selfcheck checks fsize knudsen xsdata m xsecs path h d : sort_contract stdsort -> fsize = 4%Z \/ fsize = 8%Z ->
  can_be_written selfcheck m -> xsecs_storable m knudsen xsdata xsecs -> xdmf_path path h ->
  exists d' doc core f file, write stdsort fsize knudsen xsdata m xsecs path d = Ret d' /\ only_written path h d d' /\
    xmlfiles d' path = Some doc /\ h5files d' h = Some f /\ (exists dir, h = dir ++ file) /\ core_grid doc core /\ attribute core "Name" ++ txt ".h5" = file /\
    Forall2 (shows_cell m knudsen xsdata xsecs (fun x => readXDMFUniformGrid checks fsize x f file empty_soup)) (placed_cells m) (cell_grids core).
Proof.
  intros Hsort Hsize Hst Hx Hp. destruct (h5names_full fsize Hsize path h Hp) as (base & Hdir & (Nb & Nb1 & Nb2) & Enm).
  pose proof (path_xdmf path h Hp) as Ex.
  unfold write. rewrite Ex. cbn [bind]. unfold writeXDMF. rewrite Enm. cbn [bind].
  rewrite app_length. change (length (txt ".h5")) with 3%nat. rewrite Nat.add_sub, substr_app0. cbn [bind].
  destruct (write_core_all stdsort checks fsize knudsen xsdata selfcheck m xsecs (base ++ txt ".h5") base Hsort Hsize Hst Hx Nb Nb1 Nb2) as (nx & ny & nodes & f & Ew & En & _ & Hn).
  rewrite Ew. cbn [bind fst snd].
  eexists _, _, (tree base (nx_by_ny nx ny :: nodes)), f, (base ++ txt ".h5"). split; [reflexivity|].
  split; [split; cbn [xmlfiles h5files]; intros r Hr; now apply put_other|].
  split; [cbn [xmlfiles]; apply put_same|]. split; [cbn [h5files]; apply put_same|]. split; [|split; [|split; [reflexivity|]]].
  - exact Hdir.
  - eexists _, _. repeat (split; [reflexivity|]). unfold sub_grids. reflexivity.
  - eapply F2_impl; [|exact Hn]. intros p e (Hf & c & k & x & a & Hc & Hm & Ca & (Na & Pa) & Rd). split; [exact Hf|].
    destruct (Rd []) as (u & Eu & Su). rewrite app_nil_r in Eu. destruct Ca as (_ & _ & Va & Ea & _).
    eexists c, k, x, u, _. repeat (split; [eassumption|]). cbn [a_verts a_elems a_elsets]. rewrite Va, Ea. split; [apply placed_drawn|]. auto.
Qed.
