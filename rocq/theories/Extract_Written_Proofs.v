(** The CMFD data that are extracted from the file that was written for a reactor model. *)
From Coq Require Import String.
From Coq Require Import Reals.
From Coquelicot Require Import Complex.
From Coq Require Import List Arith ZArith Lia Lra Bool.
From Verif Require Import Base Loops Arith TextIo_Model Elem_Model Matrix_Model Matrix_Spec Soup_Model Soup_Spec Soup_Proofs Stats_Spec XSec_Model XSec_Spec Cmfd_Model Cmfd_Spec
  PinCyl_Model Grid_Model Fvm_Model Fvm_Spec Xdmf_Model Xdmf_Spec Mpact_Model Mpact_Spec Export_Model Export_Spec Export_Sets_Proofs Export_Final_Proofs Outputs_Model Outputs_Spec
  CmfdInfo_Model CmfdInfo_Spec CmfdInfo_Data_Proofs CmfdInfo_Proofs Source_Model Extract_Model Extract_Spec Extract_Proofs.
Import ListNotations.
Local Open Scope list_scope.
Local Open Scope R_scope.

Lemma concat_groups m (f : Z -> nat -> R) n : map here (placed_cells m) = all_cells m ->
  concat (map (fun g => map (fun p => f (here p) g) (placed_cells m)) (seq 0 n)) = flat_map (fun g => map (fun c => f c g) (all_cells m)) (seq 0 n).
Proof.
  intros H. rewrite flat_map_concat_map. f_equal. apply map_ext. intros g. rewrite <- H, map_map. reflexivity.
Qed.
Section Written.
Variables checks exit : bool.
Variable solve : cmat -> cmat -> outcome (cmat * cmat).
Variable eigvals : cmat -> outcome (list C).
Variable fsize : Z.
Variable tol : R.
Variable m : model.
Variable xsecs : list xsec.
Variable ng : nat.
Variable junk : list C.
Variable area : kind -> list (R * R) -> R.
Hypothesis Ha : measures area.
Hypothesis Hd : describable m xsecs area ng.
Hypothesis Hb : branching m = true.
Hypothesis Hfew : few m ng.
Hypothesis Hsolve : solver solve.
Hypothesis Heig : eigen checks eigvals.
Hypothesis Hjunk : length junk = 16%nat.
Hypothesis Hexit : exit = false \/ forall c, In c (every_id m) -> in_core m c = true.
Theorem extracted checks' p h d show fuel : fsize = 4%Z \/ fsize = 8%Z -> 0 <= tol -> xdmf_path p h -> (forall x, one_line (show x)) -> (ng < fuel)%nat -> (Z.of_nat ng < 100000)%Z ->
  exists radius d' s' t1 t2 t3, (forall c g, In c (every_id m) -> (g < ng)%nat -> radius_data m xsecs area solve eigvals c g (radius c g)) /\
    writeCMFDInfo checks exit solve eigvals fsize tol m xsecs junk p d = Ret d' /\ readXDMFFile checks' fsize p d' empty_soup = Ret s' /\
    extract_cmfd fuel show s' = Ret (t1, t2, t3) /\
    lists show (flat_map (fun g => map (fun c => total_of m xsecs area c g) (all_cells m)) (seq 0 ng)) t1 /\
    lists show (flat_map (fun g => map (fun c => ratio_of m xsecs area c g) (all_cells m)) (seq 0 ng)) t2 /\
    lists show (flat_map (fun g => map (fun c => radius c g) (all_cells m)) (seq 0 ng)) t3.
Proof.
  intros Hf Ht Hp Hs Hfu Hn. destruct (info_written checks exit solve eigvals fsize tol m xsecs ng junk area Ha Hd Hb Hfew Hsolve Heig Hjunk Hexit checks' p h d Hf Ht Hp)
    as (radius & a & d' & s' & vs & Hr & Da & W & _ & Rd & _ & St).
  pose proof (described_content m xsecs ng junk area Hd Hb Hfew Hjunk radius a Da) as Ca. destruct Da as (_ & _ & _ & Es).
  pose proof Hd as [H1 H2 H3 H4 H5 _ _]. pose proof (some_cell m xsecs ng H1 H3 H4 H5 Hb) as Hne. pose proof (ids_of m xsecs ng H1 H3 H4 H5) as Eid.
  set (b := mkA vs (a_elems a) (a_elsets a)) in *.
  assert (Cb : content_ok b) by exact Ca.
  assert (Len : forall f : Z -> nat -> R, length (map (fun g => map (fun q => f (here q) g) (placed_cells m)) (seq 0 ng)) = ng) by (intros; now rewrite map_length, seq_length).
  assert (G : forall prefix f, incl (map (data_set m prefix f) (seq 0 ng)) (a_elsets a) -> group_sets b prefix (map (fun g => map (fun q => f (here q) g) (placed_cells m)) (seq 0 ng))).
  { intros prefix f Hi g v E. pose proof E as E'. rewrite nth_error_map in E. destruct (nth_error (seq 0 ng) g) as [g'|] eqn:Eg; [|discriminate]. cbn [option_map] in E. injection E as <-.
    assert (g' = g). { assert (g < ng)%nat by (rewrite <- (seq_length ng 0); apply nth_error_Some; congruence). rewrite (nth_error_nth' _ 0%nat) in Eg by (now rewrite seq_length). rewrite seq_nth in Eg by lia. injection Eg as <-. reflexivity. } subst g'.
    split; [destruct (placed_cells m); [now elim Hne|discriminate]|]. eexists. apply Hi. apply in_map_iff. exists g. split; [reflexivity|]. eapply nth_error_In; eauto. }
  assert (N : forall prefix, In prefix ["Homogenized_Total_XS_Group_"; "Homogenized_Scattering_Ratio_Group_"; "1D_odCMFD_Spectral_Radius_Group_"]%string -> no_group b prefix ng).
  { intros prefix Hpre X. cbn [b a_elsets] in X. rewrite Es, !map_app, !in_app_iff, !map_map in X.
    assert (D : forall pre f, In (group_name prefix ng) (map (fun x => es_name (data_set m pre f x)) (seq 0 ng)) -> False).
    { intros pre f Y. apply in_map_iff in Y. destruct Y as (g & Y & Hg). apply in_seq in Hg. cbn [data_set es_name] in Y. unfold group_name in Y. apply name_inj in Y.
      destruct Y as (_ & Y). apply digits5_inj in Y; lia. }
    destruct X as [X|[X|[X|X]]]; [|eapply D; exact X..].
    apply in_map_iff in X. destruct X as (c & X & _). cbn [cell_set es_name] in X. unfold group_name in X. apply name_inj in X. destruct X as (X & _).
    cbn [In] in Hpre. destruct Hpre as [<-|[<-|[<-|[]]]]; discriminate. }
  destruct (cmfd_text s' b St Cb fuel show (map (fun g => map (fun q => total_of m xsecs area (here q) g) (placed_cells m)) (seq 0 ng))
    (map (fun g => map (fun q => ratio_of m xsecs area (here q) g) (placed_cells m)) (seq 0 ng)) (map (fun g => map (fun q => radius (here q) g) (placed_cells m)) (seq 0 ng)))
    as (t1 & t2 & t3 & E & T1 & T2 & T3); rewrite ?(Len (total_of m xsecs area)), ?(Len (ratio_of m xsecs area)), ?(Len radius); auto.
  - apply G. rewrite Es. apply incl_appr, incl_appl, incl_refl.
  - apply G. rewrite Es. apply incl_appr, incl_appr, incl_appl, incl_refl.
  - apply G. rewrite Es. apply incl_appr, incl_appr, incl_appr, incl_refl.
  - apply N. now left.
  - apply N. right. now left.
  - apply N. right. right. now left.
  - rewrite (concat_groups m _ ng Eid) in T1. rewrite (concat_groups m _ ng Eid) in T2. rewrite (concat_groups m _ ng Eid) in T3.
    exists radius, d', s', t1, t2, t3. repeat (split; [assumption|]). assumption.
Qed.
End Written.
