(** Proofs for the mesh size field of a gmsh model: the whole function. *)
From Coq Require Import String.
From Coq Require Import Reals Lra.
From Coq Require Import List Arith ZArith Lia Bool Sorted Permutation.
From Verif Require Import Base Loops Arith TextIo_Model Stats_Spec XSec_Model XSec_Spec XSec_Proofs XSec_Mat_Proofs.
From Verif Require Import Groups_Model Groups_Spec Overlay_Model Overlay_Proofs Knudsen_Model Knudsen_Spec Knudsen_Proofs.
Import ListNotations.
Open Scope R_scope.

Lemma mapo_rel {A B} (f : A -> outcome B) (Q : A -> B -> Prop) l : (forall a, In a l -> exists b, f a = Ret b /\ Q a b) ->
  exists bs, mapo f l = Ret bs /\ Forall2 Q l bs.
Proof.
  induction l as [|a l IH]; intros H; cbn [mapo]; [exists []; split; constructor|].
  destruct (H a (or_introl eq_refl)) as (b & E & q). destruct IH as (bs & Es & qs); [intros; apply H; now right|].
  rewrite E. cbn [bind]. rewrite Es. cbn [bind]. exists (b :: bs). split; [reflexivity|now constructor].
Qed.
Lemma Forall2_in_l {A B} (Q : A -> B -> Prop) l m a : Forall2 Q l m -> In a l -> exists b, In b m /\ Q a b.
Proof. induction 1 as [|x y l m H F IH]; intros Hi; [destruct Hi|]. destruct Hi as [<-|Hi]; [exists y; split; [now left|auto]|]. destruct (IH Hi) as (b & Hb & q). exists b. split; [now right|auto]. Qed.
Lemma Forall2_in_r {A B} (Q : A -> B -> Prop) l m b : Forall2 Q l m -> In b m -> exists a, In a l /\ Q a b.
Proof. induction 1 as [|x y l m H F IH]; intros Hi; [destruct Hi|]. destruct Hi as [<-|Hi]; [exists x; split; [now left|auto]|]. destruct (IH Hi) as (a & Ha & q). exists a. split; [now right|auto]. Qed.
Lemma NoDup_app_intro {A} (l m : list A) : NoDup l -> NoDup m -> (forall x, In x l -> ~ In x m) -> NoDup (l ++ m).
Proof.
  induction l as [|a l IH]; intros N M D; [exact M|]. inversion N as [|? ? N1 N2]; subst. cbn. constructor.
  - rewrite in_app_iff. intros [|H]; [auto|]. apply (D a); [now left|auto].
  - apply IH; auto. intros x Hx. apply D. now right.
Qed.
Lemma fold_min vs : forall a, fold_left Rmin vs a <= a /\ (forall v, In v vs -> fold_left Rmin vs a <= v) /\ (fold_left Rmin vs a = a \/ In (fold_left Rmin vs a) vs).
Proof.
  induction vs as [|v vs IH]; intros a; cbn [fold_left]; [split; [lra|split; [intros v []|auto]]|].
  destruct (IH (Rmin a v)) as (H1 & H2 & H3). split; [|split].
  - eapply Rle_trans; [exact H1|apply Rmin_l].
  - intros w [<-|Hw]; [eapply Rle_trans; [exact H1|apply Rmin_r]|auto].
  - destruct H3 as [H3|H3]; [|right; now right]. rewrite H3. unfold Rmin. destruct (Rle_dec a v); [auto|right; now left].
Qed.
Lemma total_seq (l : list R) : total (map (fun g => nth g l 0) (seq 0 (length l))) = fold_right Rplus 0 l.
Proof. rewrite <- (nth_total l (length l)) by reflexivity. reflexivity. Qed.

Section Whole.
Variable place : Type.
Variable on : place -> dimtag -> bool.
Variable distance : place -> list dimtag -> R.
Hypothesis distance_nonneg : forall p l, 0 <= distance p l.
Variable new_id : list Z -> Z.
Hypothesis new_id_new : forall l, ~ In (new_id l) l.
Variable shown : R -> R.
Hypothesis shown_near : forall x, Rabs (shown x - x) <= / 2000000.
Variable checks : bool.
Variable g : gm.
Variable dim : Z.
Variable mats : list input.
Variables kn fuel_threshold fuel_scale abs_threshold abs_scale : R.
Hypothesis ok : meshable g dim mats kn fuel_threshold fuel_scale abs_threshold abs_scale.
Notation made := (made_of g dim).
Notation gs := (material_groups dim g).

Record rel (m : input) (d : data) : Prop := {
  q_lc : d_lc d = 12 / (PI * sqrt 3 * kn * total_xs m);
  q_sigma : d_sigma d = total_xs m;
  q_fissile : d_fissile d = true <-> fissile m;
  q_absorber : d_absorber d = true <-> absorber m;
  q_tags : forall t, In t (d_tags d) <-> made m (dim, t);
  q_some : d_tags d <> [];
  q_nodup : NoDup (d_tags d) }.

Lemma asc_nodup l : ascending l -> NoDup l.
Proof.
  induction l as [|a l IH]; intros H; [constructor|]. apply StronglySorted_inv in H as (H1 & H2). constructor; [|auto].
  intros Hi. rewrite Forall_forall in H2. specialize (H2 _ Hi). lia.
Qed.
Lemma group_found m : In m mats -> exists i x, position gs m = Z.of_nat i /\ (i < length mats)%nat /\ nth_error gs i = Some x /\
  In x (groups g) /\ g_dim x = dim /\ g_name x = ("Material_" ++ i_name m)%string.
Proof.
  intros Hm. destruct (k_exist _ _ _ _ _ _ _ _ ok m Hm) as (x & Hx & Dx & Nx). unfold position.
  assert (Ix : In x gs).
  { apply filter_In. split; [auto|]. rewrite Dx, Z.eqb_refl, Nx. reflexivity. }
  destruct (index_of (map g_name gs) ("Material_" ++ i_name m)) as [i|] eqn:E.
  - apply index_of_some in E. rewrite nth_error_map in E. destruct (nth_error gs i) as [y|] eqn:Ey; [|discriminate]. injection E as Ny.
    exists i, y. split; [reflexivity|]. split.
    { rewrite <- (k_count _ _ _ _ _ _ _ _ ok). apply nth_error_Some. fold gs. congruence. }
    split; [auto|]. apply nth_error_In in Ey. apply filter_In in Ey as (Iy & By). apply andb_true_iff in By as (By & _). apply Z.eqb_eq in By. auto.
  - apply index_of_none in E. destruct E. rewrite <- Nx. now apply in_map.
Qed.
Lemma data_rel m : In m mats -> exists d, data_of checks kn gs m = Ret d /\ rel m d.
Proof.
  intros Hm. destruct (k_xsecs _ _ _ _ _ _ _ _ ok m Hm) as (Mm & Pm & ng & w & Sh & Hn & V).
  destruct (collapse_full ng (i_xsec m) w Sh Hn V) as (y & Ey & (_ & La & _ & _ & _ & Ls & _) & _ & _ & Vy & _).
  destruct Sh as (S0 & S1 & _ & _ & _ & S5 & _).
  assert (A : nth 0 (xa y) 0 = average (xa (i_xsec m))).
  { pose proof (Vy Absorption Logic.I) as H. cbn in H. rewrite H. unfold mean_of, average. rewrite <- (total_seq (xa (i_xsec m))), S1. reflexivity. }
  assert (B : nth 0 (xs y) 0 = average (xs (i_xsec m))).
  { pose proof (Vy Scattering Logic.I) as H. cbn in H. rewrite H. unfold mean_of, average. rewrite <- (total_seq (xs (i_xsec m))), S5. reflexivity. }
  unfold data_of. rewrite Ey. cbn [bind]. destruct (xa y) as [|a [|]]; try discriminate La. destruct (xs y) as [|s [|]]; try discriminate Ls.
  cbn [nth] in A, B. subst a s. unfold rd. cbn [nth_error bind].
  replace (Rltb 0 (average (xa (i_xsec m)) + average (xs (i_xsec m)))) with true.
  2:{ symmetry. unfold Rltb. destruct (Rlt_dec _ _); [reflexivity|]. unfold total_xs in Pm. lra. }
  unfold ASSERT. rewrite andb_false_r. cbn [bind].
  destruct (group_found m Hm) as (i & x & Ep & Hi & Ex & Ix & Dx & Nx). rewrite Ep, Nat2Z.id. rewrite Ex. cbn [bind].
  eexists. split; [reflexivity|]. destruct (proj2 (k_groups _ _ _ _ _ _ _ _ ok) x Ix) as (_ & Ne & As). split; cbn [d_lc d_sigma d_fissile d_absorber d_tags].
  - reflexivity.
  - reflexivity.
  - reflexivity.
  - unfold absorber, total_xs, Rltb. destruct (Rlt_dec _ (2 / 10)); destruct (Rlt_dec (9 / 10) _); cbn [andb]; split; try tauto; try discriminate.
  - intros t. split.
    + intros Ht. exists x. cbn. auto.
    + intros (x' & Ix' & Dx' & Nx' & _ & Ht). cbn in Ht. rewrite (k_names _ _ _ _ _ _ _ _ ok x x'); auto. congruence.
  - exact Ne.
  - now apply asc_nodup.
Qed.
Lemma lc_pos m d : In m mats -> rel m d -> 0 < d_lc d.
Proof.
  intros Hm Q. rewrite (q_lc _ _ Q). destruct (k_xsecs _ _ _ _ _ _ _ _ ok m Hm) as (_ & Pm & _). pose proof (k_kn _ _ _ _ _ _ _ _ ok) as K.
  pose proof PI_RGT_0. pose proof (sqrt_lt_R0 3 ltac:(lra)). apply Rdiv_lt_0_compat; [lra|]. do 3 (apply Rmult_lt_0_compat; [|lra]). lra.
Qed.
Lemma lc_knudsen m d : In m mats -> rel m d -> knudsen (total_xs m) (d_lc d) = kn.
Proof.
  intros Hm Q. pose proof (lc_pos m d Hm Q) as P. rewrite (q_lc _ _ Q). rewrite (q_lc _ _ Q) in P. destruct (k_xsecs _ _ _ _ _ _ _ _ ok m Hm) as (_ & Pm & _). pose proof (k_kn _ _ _ _ _ _ _ _ ok) as K.
  pose proof PI_RGT_0. pose proof (sqrt_lt_R0 3 ltac:(lra)). unfold knudsen, mean_chord. field. repeat split; lra.
Qed.
Lemma validate_ok l : (forall m, In m l -> In m mats) -> validate_all l = Ret tt.
Proof.
  induction l as [|m l IH]; intros H; [reflexivity|]. cbn [validate_all]. destruct (k_xsecs _ _ _ _ _ _ _ _ ok m) as (Mm & _ & ng & w & Sh & Hn & V); [apply H; now left|].
  unfold has_xsec, validate_xsec. rewrite Mm, V. destruct Sh as (_ & S1 & _). rewrite S1. destruct ng; [congruence|]. cbn [andb negb Nat.eqb bind]. apply IH. intros; apply H. now right.
Qed.
Lemma fuel_nodup l ds : NoDup l -> Forall2 rel l ds -> 0 <= fuel_threshold -> (forall m, In m l -> In m mats) -> NoDup (fuel_tags ds).
Proof.
  intros N F T. revert N. induction F as [|m d l ds Q F IH]; intros N H; [constructor|]. inversion N as [|? ? N1 N2]; subst.
  unfold fuel_tags. cbn [map concat]. apply NoDup_app_intro.
  - destruct (d_fissile d); [apply (q_nodup _ _ Q)|constructor].
  - apply IH; auto. intros; apply H. now right.
  - intros t Ht Hc. destruct (d_fissile d) eqn:Fd; [|destruct Ht]. apply in_concat in Hc as (tl & Htl & Hc). apply in_map_iff in Htl as (d' & <- & Hd').
    destruct (d_fissile d') eqn:Fd'; [|destruct Hc]. destruct (Forall2_in_r _ _ _ _ F Hd') as (m' & Hm' & Q').
    destruct (k_fuel _ _ _ _ _ _ _ _ ok T) as (_ & _ & D). assert (m = m') as ->; [|contradiction]. apply (D m m' (dim, t)).
    + apply H. now left.
    + apply H. now right.
    + now apply (q_fissile _ _ Q).
    + now apply (q_fissile _ _ Q').
    + now apply (q_tags _ _ Q).
    + now apply (q_tags _ _ Q').
Qed.
Lemma sizes_of Q st rows p : rows_ok place on distance Q st rows -> exists vs, sizes_at place on distance (fields st) p (map snd rows) vs /\ Forall2 (fun r v => Q (fst r) p v) rows vs.
Proof.
  induction 1 as [|r rows H F (vs & IH1 & IH2)]; [exists []; split; constructor|]. destruct (H p) as (v & V & q). exists (v :: vs). split; [cbn; now constructor|now constructor].
Qed.
Lemma inside_touches m d p : rel m d -> inside place on dim d p = true <-> touches place on g dim p m.
Proof.
  intros Q. unfold inside, touches. rewrite existsb_exists. split.
  - intros (x & Hx & Ox). apply in_map_iff in Hx as (t & <- & Ht). exists (dim, t). split; [|auto]. now apply (q_tags _ _ Q).
  - intros ((d1 & d2) & Hm & Ox). assert (d1 = dim) as -> by (destruct Hm as (_ & _ & _ & _ & E & _); exact E). exists (dim, d2). split; [|auto]. apply in_map. now apply (q_tags _ _ Q).
Qed.
Lemma all_fuel_tags ds : Forall2 rel mats ds -> all_fuel g dim mats (map (pair dim) (sort_tags (fuel_tags ds))).
Proof.
  intros F x. rewrite in_map_iff. split.
  - intros (t & <- & Ht). apply in_sort, in_concat in Ht as (tl & Htl & Ht). apply in_map_iff in Htl as (d & <- & Hd). destruct (d_fissile d) eqn:Fd; [|destruct Ht].
    destruct (Forall2_in_r _ _ _ _ F Hd) as (m & Hm & Q). exists m. split; [auto|]. split; [now apply (q_fissile _ _ Q)|now apply (q_tags _ _ Q)].
  - intros (m & Hm & Fm & Mm). destruct (Forall2_in_l _ _ _ _ F Hm) as (d & Hd & Q). destruct x as (x1 & x2).
    assert (x1 = dim) as -> by (destruct Mm as (_ & _ & _ & _ & E & _); exact E). exists x2. split; [reflexivity|]. apply in_sort, in_concat. exists (d_tags d). split.
    + apply in_map_iff. exists d. rewrite (proj2 (q_fissile _ _ Q) Fm). auto.
    + now apply (q_tags _ _ Q).
Qed.
Lemma asked_full m d p v fl : In m mats -> rel m d -> all_fuel g dim mats fl -> touches place on g dim p m ->
  full_size place on distance dim fuel_threshold fuel_scale abs_threshold abs_scale (geo g) fl d p v ->
  asked place distance g dim mats kn fuel_threshold fuel_scale abs_threshold abs_scale p m v.
Proof.
  intros Hm Q AF Ht (H & _). specialize (H (proj2 (inside_touches m d p Q) Ht)). exists (d_lc d).
  split; [now apply (lc_pos m)|]. split; [now apply lc_knudsen|]. rewrite <- (q_sigma _ _ Q).
  pose proof (q_fissile _ _ Q) as QF. pose proof (q_absorber _ _ Q) as QA.
  destruct (Rleb_spec 0 abs_threshold) as [Ta|Ta]; destruct (d_absorber d) eqn:Ad; cbn [andb negb] in H.
  - destruct H as (l & El & L & N). split; [exact L|]. assert (absorber m) as Am by tauto. split; [intros (_ & _ & A); contradiction|]. split.
    + intros _. exists l. split; [|exact N]. intros x. etransitivity; [apply El|]. split.
      * intros (t & Ht' & Hx & Fx). exists (dim, t). split; [now apply (q_tags _ _ Q)|auto].
      * intros ((e1 & e2) & Me & Hx & Fx). assert (e1 = dim) as -> by (destruct Me as (_ & _ & _ & _ & E & _); exact E). exists e2. split; [now apply (q_tags _ _ Q)|auto].
    + intros _ A. destruct A. auto.
  - assert (~ absorber m) as Am by (intros A; apply QA in A; discriminate). rewrite andb_true_r in H. destruct (Rleb_spec 0 fuel_threshold) as [Tf|Tf]; destruct (d_fissile d) eqn:Fd; cbn [andb negb] in H.
    + assert (fissile m) as Fm by tauto. split; [lra|]. split; [intros (_ & A & _); contradiction|]. split; [intros (_ & A); contradiction|auto].
    + assert (~ fissile m) as Fm by (intros A; apply QF in A; discriminate). destruct H as (L & N). split; [exact L|]. split; [intros _; exists fl; auto|]. split; [intros (_ & A); contradiction|].
      intros A. destruct A. auto.
    + split; [lra|]. split; [intros (A & _); contradiction|]. split; [intros (_ & A); contradiction|auto].
    + split; [lra|]. split; [intros (A & _); contradiction|]. split; [intros (_ & A); contradiction|auto].
  - rewrite !andb_false_r in H. assert (absorber m) as Am by tauto. split; [lra|]. split; [intros (_ & _ & A); contradiction|]. split; [intros (A & _); contradiction|auto].
  - assert (~ absorber m) as Am by (intros A; apply QA in A; discriminate). rewrite andb_true_r in H. destruct (Rleb_spec 0 fuel_threshold) as [Tf|Tf]; destruct (d_fissile d) eqn:Fd; cbn [andb negb] in H.
    + assert (fissile m) as Fm by tauto. split; [lra|]. split; [intros (_ & A & _); contradiction|]. split; [intros (_ & A); contradiction|auto].
    + assert (~ fissile m) as Fm by (intros A; apply QF in A; discriminate). destruct H as (L & N). split; [exact L|]. split; [intros _; exists fl; auto|]. split; [intros (_ & A); contradiction|].
      intros A. destruct A. auto.
    + split; [lra|]. split; [intros (A & _); contradiction|]. split; [intros (_ & A); contradiction|auto].
    + split; [lra|]. split; [intros (A & _); contradiction|]. split; [intros (_ & A); contradiction|auto].
Qed.

Lemma whole st : NoDup (map fst (fields st)) ->
  exists st', set_mesh_field checks new_id shown dim kn fuel_threshold fuel_scale abs_threshold abs_scale g mats st = Ret (0%Z, st') /\
    sized place on distance g dim mats kn fuel_threshold fuel_scale abs_threshold abs_scale st st'.
Proof.
  intros N0. unfold set_mesh_field. change (length gs) with (length (filter (fun x => (g_dim x =? dim)%Z && String.prefix "Material" (g_name x)) (groups g))).
  rewrite (k_count _ _ _ _ _ _ _ _ ok), Nat.eqb_refl. cbn [negb].
  assert (E0 : existsb (fun m => (position gs m =? 10000)%Z) mats = false).
  { apply not_true_is_false. intros A. apply existsb_exists in A as (m & Hm & A). apply Z.eqb_eq in A. destruct (group_found m Hm) as (i & _ & Ep & Hi & _). pose proof (k_few _ _ _ _ _ _ _ _ ok). lia. }
  rewrite E0. pose proof (k_kn _ _ _ _ _ _ _ _ ok) as K. destruct (Rleb_spec kn 0); [lra|]. rewrite (validate_ok mats) by auto. cbn [bind].
  destruct (mapo_rel (data_of checks kn gs) rel mats) as (ds & Ed & F); [intros m Hm; now apply data_rel|]. rewrite Ed. cbn [bind].
  pose proof (k_dim _ _ _ _ _ _ _ _ ok) as Dd.
  assert (Lc : forall d, In d ds -> 0 < d_lc d) by (intros d Hd; destruct (Forall2_in_r _ _ _ _ F Hd) as (m & Hm & Q); now apply (lc_pos m)).
  assert (Tg : forall d, In d ds -> d_tags d <> []) by (intros d Hd; destruct (Forall2_in_r _ _ _ _ F Hd) as (m & Hm & Q); now apply (q_some _ _ Q)).
  destruct (base_ok place on distance new_id new_id_new checks dim ds Dd Tg st) as (rows & st1 & E1 & X1 & M1 & K1). rewrite E1. cbn [bind fst snd].
  destruct (fuel_ok place on distance distance_nonneg new_id new_id_new shown shown_near checks dim fuel_threshold fuel_scale rows st1) as (rows2 & st2 & E2 & X2 & M2 & K2); [auto|now rewrite M1|now rewrite M1| |exact K1|].
  { intros T. destruct (k_fuel _ _ _ _ _ _ _ _ ok T) as (Sc & (m & Hm & Fm) & D). split; [auto|]. rewrite M1. split.
    - destruct (Forall2_in_l _ _ _ _ F Hm) as (d & Hd & Q). exists d. split; [auto|]. now apply (q_fissile _ _ Q).
    - apply (fuel_nodup mats); auto. apply (NoDup_map_inv i_name), (k_distinct _ _ _ _ _ _ _ _ ok T). }
  rewrite E2. cbn [bind fst snd]. rewrite M1 in M2, K2. set (fl := map (pair dim) (sort_tags (fuel_tags ds))) in *.
  destruct (abs_ok place on distance distance_nonneg new_id new_id_new shown shown_near checks dim fuel_threshold fuel_scale abs_threshold abs_scale (geo g) fl rows2 st2) as (rows3 & st3 & E3 & X3 & M3 & K3); [auto|now rewrite M2| |exact K2|].
  { intros T. destruct (k_abs _ _ _ _ _ _ _ _ ok T) as (Sc & (m & Hm & Am) & D1 & D). split; [auto|]. rewrite M2. split; [|split; [auto|]].
    - destruct (Forall2_in_l _ _ _ _ F Hm) as (d & Hd & Q). exists d. split; [auto|]. now apply (q_absorber _ _ Q).
    - intros d t Hd Ad Ht. destruct (Forall2_in_r _ _ _ _ F Hd) as (m' & Hm' & Q). apply (D m' (dim, t)); auto; [now apply (q_absorber _ _ Q)|now apply (q_tags _ _ Q)]. }
  rewrite E3. cbn [bind fst snd]. rewrite M2 in M3. destruct (add_field new_id st3 (Min (map snd rows3))) as (id & st4) eqn:E4. apply add_ok in E4 as (X4 & I4 & N4); auto.
  pose proof (ext_trans _ _ _ (ext_trans _ _ _ (ext_trans _ _ _ X1 X2) X3) X4) as X.
  eexists. split; [reflexivity|]. split; cbn [fields background extend_from_boundary from_points from_curvature].
  - apply (e_fields _ _ X).
  - apply (e_dup _ _ X N0).
  - auto.
  - exists id. split; [reflexivity|]. split.
    { intros A. apply N4. destruct (ext_trans _ _ _ (ext_trans _ _ _ X1 X2) X3) as [(l & El) _]. rewrite El, map_app. apply in_or_app. now right. }
    intros p. destruct (sizes_of _ _ _ p (rows_ext _ _ _ _ _ _ _ X4 K3)) as (vs & Vs & Fv).
    assert (V : size_at place on distance (fields st4) p id (fold_left Rmin vs MAX_LC)) by (eapply at_min; [exact I4|exact Vs]).
    exists (fold_left Rmin vs MAX_LC). split; [exact V|]. split.
    { intros v' V'. apply (size_det place on distance (fields st4) p id); auto. apply (e_dup _ _ X N0). }
    destruct (fold_min vs MAX_LC) as (L1 & L2 & L3). split; [exact L1|]. split.
    + intros m Hm Tm. destruct (Forall2_in_l _ _ _ _ F Hm) as (d & Hd & Q). rewrite <- M3 in Hd. apply in_map_iff in Hd as (r & <- & Hr).
      destruct (Forall2_in_l _ _ _ _ Fv Hr) as (v & Hv & Fs). exists v. split; [|auto]. apply (asked_full m (fst r) p v fl); auto. now apply all_fuel_tags.
    + destruct L3 as [L3|L3]; [now left|]. destruct (Forall2_in_r _ _ _ _ Fv L3) as (r & Hr & Fs).
      assert (Hd : In (fst r) ds) by (rewrite <- M3; now apply in_map). destruct (Forall2_in_r _ _ _ _ F Hd) as (m & Hm & Q).
      destruct (inside place on dim (fst r) p) eqn:Ei.
      * right. exists m. split; [auto|]. apply (inside_touches m _ p Q) in Ei. split; [auto|]. apply (asked_full m (fst r) p _ fl); auto. now apply all_fuel_tags.
      * left. apply Rle_antisym; [exact L1|]. now apply Fs.
Qed.

(** every group of a material belongs to one of the materials *)
Lemma covered p x t : NoDup (map i_name mats) -> In x (groups g) -> g_dim x = dim -> String.prefix "Material" (g_name x) = true -> In t (g_ents x) -> on p (dim, t) = true ->
  exists m, In m mats /\ touches place on g dim p m.
Proof.
  intros NM Hx Dx Px Ht Op. assert (Ix : In x gs) by (apply filter_In; split; [auto|]; now rewrite Dx, Z.eqb_refl, Px).
  set (names := map (fun m => ("Material_" ++ i_name m)%string) mats).
  assert (ND : NoDup names).
  { unfold names. rewrite <- (map_map i_name (fun n => ("Material_" ++ n)%string)). apply FinFun.Injective_map_NoDup; [|exact NM]. intros a b E. now apply app_material_inj. }
  assert (Inc : incl names (map g_name gs)).
  { intros n Hn. apply in_map_iff in Hn as (m & <- & Hm). destruct (group_found m Hm) as (i & y & _ & _ & Ey & _ & _ & Ny). rewrite <- Ny. apply in_map. now apply (nth_error_In _ i). }
  assert (Inc2 : incl (map g_name gs) names).
  { apply NoDup_length_incl; auto. unfold names. rewrite !map_length. change (length gs) with (length (filter (fun x => (g_dim x =? dim)%Z && String.prefix "Material" (g_name x)) (groups g))).
    rewrite (k_count _ _ _ _ _ _ _ _ ok). auto. }
  assert (Hn : In (g_name x) names) by (apply Inc2; now apply in_map). apply in_map_iff in Hn as (m & En & Hm).
  exists m. split; [auto|]. exists (dim, t). split; [|auto]. exists x. cbn. auto.
Qed.
End Whole.
