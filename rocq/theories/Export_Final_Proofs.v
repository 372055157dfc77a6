(** The whole export, and what the names of its sets say. *)
From Coq Require Import String.
From Coq Require Import List Arith ZArith Lia Bool Reals Lra Permutation Sorting.Sorted.
From Verif Require Import Base Loops Arith StringView_Model TextIo_Model Elem_Model Sort_Spec
  Soup_Model Soup_Spec Soup_Proofs Stats_Spec XSec_Model XSec_Spec XSec_Proofs XSec_Mat_Proofs PinCyl_Model Grid_Model Fvm_Model Fvm_Spec Mpact_Model Mpact_Spec
  Export_Model Export_Spec Export_Sets_Proofs Export_Cell_Proofs Export_Loop_Proofs Export_Level_Proofs Export_Proofs.
Import ListNotations.
Local Open Scope list_scope.

Lemma map_nth_seq {A} (l : list A) d : map (fun i => nth i l d) (seq 0 (length l)) = l.
Proof.
  induction l as [|a l IH]; [reflexivity|]. cbn [length seq map nth]. f_equal. rewrite <- seq_shift, map_map. exact IH.
Qed.
Lemma average_mean l ng : length l = ng -> average l = mean_of ng (fun g => nth g l 0%R).
Proof. intros <-. unfold average, mean_of. now rewrite map_nth_seq. Qed.
Lemma one_group_ok checks m xsecs : xsecs_ok m xsecs -> one_group checks xsecs = Ret (map total_xs xsecs).
Proof.
  intros (_ & H). rewrite Forall_forall in H. unfold one_group. apply mapo_map. intros x Hx. destruct (H x Hx) as (Hm & ng & w & Hn & Sx & Vx).
  rewrite Hm. cbn [negb]. rewrite andb_false_r. destruct (collapse_full ng x w Sx Hn Vx) as (y & E & Sy & _ & _ & V & _).
  rewrite E. cbn [bind].
  destruct Sy as (_ & La & _ & _ & _ & Ls & _). destruct Sx as (_ & Lxa & _ & _ & _ & Lxs & _).
  pose proof (V Absorption Logic.I) as VA. pose proof (V Scattering Logic.I) as VS. cbn [value] in VA, VS.
  destruct (xa y) as [|a la]; [discriminate|]. destruct (xs y) as [|s ls]; [discriminate|]. cbn [rd nth_error bind nth] in *.
  unfold total_xs. rewrite (average_mean (xa x) ng Lxa), (average_mean (xs x) ng Lxs). subst a s. reflexivity.
Qed.
Lemma start_ok m : matches m (mkC (repeat (-1)%Z (length (assemblies m))) (repeat (-1)%Z (length (lattices m))) (repeat (-1)%Z (length (rtms m)))
  (repeat (-1)%Z (length (cells m)))) (mkT [] [] [] []).
Proof.
  assert (X : forall A (l : list A), count l (repeat (-1)%Z (length l)) []).
  { intros A l. split; [apply repeat_length|]. intros id Hid. cbn. unfold exists_in in Hid.
    destruct (nth_error (repeat (-1)%Z (length l)) (Z.to_nat id)) as [z|] eqn:E.
    - apply nth_error_In in E. apply repeat_spec in E. now subst.
    - apply nth_error_None in E. rewrite repeat_length in E. lia. }
  split; apply X.
Qed.
Lemma holds_ascending a fs : holds a fs -> Soup_Spec.ascending (a_elsets a).
Proof.
  intros [_ _ (_ & H)]. apply Forall_forall. intros e He. apply H in He. destruct He as (n & -> & _). rewrite set_ids_eq. apply set_ids_SS.
Qed.

Section Top.
Variable stdsort : forall A : Type, (A -> A -> bool) -> list A -> list A.
Hypothesis Hsort : sort_contract stdsort.
Variables checks exit : bool.
Variable m : model.
Variable xsecs : list xsec.
Hypothesis Hexp : exportable m xsecs.
Notation faces l := (flat_map (cell_faces m xsecs) l).
Notation points l := (flat_map (cell_verts m) l).
Let t0 := mkT [] [] [] [].

Lemma leading_all l : forallb (asy_full m) (map here l) = true -> leading m l = l.
Proof. induction l as [|p l IH]; intros H; [reflexivity|]. cbn in *. apply andb_prop in H. destruct H as (-> & H). f_equal. auto. Qed.
Lemma leading_app l1 p l2 : forallb (asy_full m) (map here l1) = true -> asy_full m (here p) = false -> leading m (l1 ++ p :: l2) = l1.
Proof.
  induction l1 as [|q l IH]; intros H Hp; cbn in *; [now rewrite Hp|]. apply andb_prop in H. destruct H as (-> & H). f_equal. auto.
Qed.
Lemma puts_here l : forall t, map here (puts t_asy [] (0, 0, 0)%R t l) = map fst l.
Proof. intros t. unfold puts. rewrite number_ids, map_map. reflexivity. Qed.

Lemma core_run : snd (core m) <> [] ->
  exists nx ny, num_cells (fst (core m)) = Ret (nx, ny) /\
  Forall2 (fun ij kid => does exit m xsecs (adv_asy m) (cells_asy m) t_asy (asy_full m) [] (0, 0, 0)%R
    (do_assembly stdsort exit m (map total_xs xsecs) (Z.of_nat (fst ij)) (Z.of_nat (snd ij))) kid) (cells2 (Z.to_nat nx) (Z.to_nat ny)) (core_kids m) /\
  map fst (core_kids m) = snd (core m) /\ puts t_asy [] (0, 0, 0)%R t0 (core_kids m) = placed_assemblies m.
Proof.
  intros Hne. destruct Hexp as (Hids & Hsh & Hf & Hm & Hx).
  destruct (core_shaped _ Hsh) as [E|Hs]; [congruence|].
  destruct (rect_kids (core m) Hs (proj1 Hf) Hne) as (lx & ly & Er & En & D & Em).
  assert (Ek : core_kids m = combine (snd (core m)) (corners2 lx ly)) by (unfold core_kids; now rewrite Er).
  rewrite <- Ek in *. exists (Z.of_nat (length lx - 1)), (Z.of_nat (length ly - 1)). rewrite !Nat2Z.id. split; [exact En|]. split; [|split; [exact Em|]].
  - pose proof (core_ids _ Hids) as Hch. rewrite Forall_forall in Hch.
    assert (Hin : forall k, In k (core_kids m) -> exists_in (assemblies m) (fst k)) by (intros k Hk; apply Hch; rewrite <- Em; now apply in_map).
    revert Hin. clear -D Hsort Hids Hsh Hf Hm Hx. induction D as [|i k idx q Hik _ IH]; intros Hin; constructor.
    + apply asy_does; auto. apply Hin. now left.
    + apply IH. intros y Hy. apply Hin. now right.
  - unfold puts, placed_assemblies, expand, below. cbn [t0 t_asy map flat_map here path offset]. now rewrite app_nil_r.
Qed.
Lemma cells_from l : cells_asy m t0 l = expand (rtm_kids m) (expand (lat_kids m) (expand (asy_kids m) l)).
Proof. reflexivity. Qed.

Lemma export_complete : complete m = true -> exists s, export stdsort checks exit m xsecs = Ret s /\ exported m xsecs s (placed_cells m).
Proof.
  intros Hc. unfold complete, full in Hc. apply andb_prop in Hc. destruct Hc as (Hc0 & Hc).
  unfold export. destruct (Nat.eqb_spec (length (snd (core m))) 0) as [L|L]; [discriminate|].
  assert (Hne : snd (core m) <> []) by (intros X; rewrite X in L; now apply L).
  rewrite (one_group_ok checks m xsecs) by apply Hexp. cbn [bind].
  destruct (core_run Hne) as (nx & ny & En & D & Em & Ep). rewrite En. cbn [bind fst snd]. rewrite loop2_runs.
  rewrite <- Em in Hc.
  destruct (run_full exit m xsecs _ _ _ (good_asys m) (asy_full m) _ _ _ _ _ D Hc _ _ _ _ [] (start_ok m) stores_empty holds_empty sorted_empty)
    as (Ne & [c s] & E & a & _ & Sa & Ha & Va & Na). rewrite E. cbn [bind fst snd app] in *.
  fold t0 in Ne, Ha, Va. rewrite Ep in Ne, Ha, Va. rewrite cells_from in Ne, Ha, Va. fold (placed_lattices m) (placed_rtms m) (placed_cells m) in Ne, Ha, Va.
  assert (Hk : core_kids m <> []) by (intros X; rewrite X in Em; cbn in Em; congruence). specialize (Ne Hk).
  assert (Hl : a_elsets a <> []) by (destruct (faces (placed_cells m)) as [|f fs]; [congruence|]; eapply holds_sets; exact Ha).
  assert (Hsn : snames s <> []).
  { destruct Sa as (_ & _ & _ & _ & -> & _). destruct (a_elsets a); [congruence|discriminate]. }
  destruct (Nat.eqb_spec (length (snames s)) 0) as [L0|_]; [destruct (snames s); [congruence|discriminate]|]. cbn [negb andb].
  destruct (sort_ascending stdsort Hsort s a Sa (h_content _ _ Ha) (holds_ascending _ _ Ha) Hl) as (s' & l & Es & Ss & Nl & P).
  exists s'. split; [exact Es|]. exists (mkA (a_verts a) (a_elems a) l). split; [exact Ss|]. destruct Ha as [(C1 & C2) _ (H1 & H2)].
  split; [split; cbn [a_elsets]|split; [exact Va|split; [split|exact Nl]]].
  - eapply Permutation_NoDup; [apply Permutation_map; exact P|exact C1].
  - eapply Permutation_Forall; eauto.
  - exact H1.
  - cbn [a_elsets]. intros e. rewrite <- H2. split; intros He; [eapply Permutation_in; [apply Permutation_sym; exact P|exact He]|exact (Permutation_in _ P He)].
Qed.

Lemma export_incomplete : complete m = false ->
  if exit then export stdsort checks exit m xsecs = Fail
  else exists s, export stdsort checks exit m xsecs = Ret s /\
    exported m xsecs s (expand (rtm_kids m) (expand (lat_kids m) (expand (asy_kids m) (leading m (placed_assemblies m))))).
Proof.
  intros Hc. unfold export. destruct (Nat.eqb_spec (length (snd (core m))) 0) as [L|L].
  - destruct exit; [reflexivity|]. exists empty_soup. split; [reflexivity|].
    assert (E : placed_assemblies m = []).
    { unfold placed_assemblies, core_kids, expand, below. destruct (snd (core m)); [|discriminate].
      destruct (fst (core m)) as [|lx [|ly [|? ?]]]; reflexivity. }
    rewrite E. exists a_empty. split; [apply stores_empty|]. split; [split; constructor|]. split; [reflexivity|].
    split; [|constructor]. exact (h_shows _ _ holds_empty).
  - assert (Hne : snd (core m) <> []) by (intros X; rewrite X in L; now apply L).
    rewrite (one_group_ok checks m xsecs) by apply Hexp. cbn [bind].
    destruct (core_run Hne) as (nx & ny & En & D & Em & Ep). rewrite En. cbn [bind fst snd]. rewrite loop2_runs.
    assert (Hcf : forallb (asy_full m) (map fst (core_kids m)) = false).
    { rewrite Em. unfold complete, full in Hc. destruct (snd (core m)); [congruence|]. exact Hc. }
    destruct (run_stop exit m xsecs _ _ _ (good_asys m) (asy_full m) _ _ _ _ _ D Hcf _ _ _ _ [] (start_ok m) stores_empty holds_empty sorted_empty)
      as (k1 & k & k2 & [c s] & Ek & F1 & F2 & (a & _ & Sa & Ha & Va & Na) & c' & E). rewrite E. cbn [fst snd app] in *.
    unfold stop. destruct exit; [reflexivity|]. cbn [bind andb]. exists s. split; [reflexivity|].
    fold t0 in Ha, Va.
    assert (EL : leading m (placed_assemblies m) = puts t_asy [] (0, 0, 0)%R t0 k1).
    { rewrite <- Ep, Ek, (puts_app _ _ _ (good_asys m)), puts_cons with (1 := good_asys m). apply leading_app; [now rewrite puts_here|exact F2]. }
    rewrite EL, <- cells_from. exists a. destruct Ha as [Hco _ Hsh]. repeat (split; [assumption|]). assumption.
Qed.

(** ** Which objects there are *)
Lemma below_ids kids l : map here (expand kids l) = flat_map (fun id => map fst (kids id)) (map here l).
Proof.
  unfold expand. rewrite number_ids. unfold below. induction l as [|p l IH]; [reflexivity|]. cbn [flat_map map]. rewrite map_app, map_map, IH. reflexivity.
Qed.
Lemma combine_ids {A B} (l : list A) (r : list B) : length r = length l -> map fst (combine l r) = l.
Proof. apply map_fst_combine. Qed.
Lemma rect_ids p lx ly : fst p = [lx; ly] -> length (snd p) = ((length lx - 1) * (length ly - 1))%nat -> map fst (combine (snd p) (corners2 lx ly)) = (snd p : list Z).
Proof.
  intros E L. apply combine_ids. unfold corners2. rewrite (rows_len (fun x y => (x, y, 0%R))), !removelast_len. lia.
Qed.
Lemma flat_ext {A B} (f g : A -> list B) l : (forall a, In a l -> f a = g a) -> flat_map f l = flat_map g l.
Proof. induction l as [|a l IH]; intros H; [reflexivity|]. cbn. rewrite (H a) by now left. rewrite IH; auto. intros. apply H. now right. Qed.
Lemma place_ids : map here (placed_assemblies m) = snd (core m) /\ map here (placed_lattices m) = all_lattices m /\
  map here (placed_rtms m) = all_rtms m /\ map here (placed_cells m) = all_cells m.
Proof.
  destruct Hexp as (Hids & Hsh & _).
  assert (E1 : map here (placed_assemblies m) = snd (core m)).
  { unfold placed_assemblies. rewrite below_ids. cbn [map flat_map]. rewrite app_nil_r. unfold core_kids.
    destruct (core_shaped _ Hsh) as [E|(lx & ly & E & _ & _ & L)].
    - rewrite E. destruct (fst (core m)) as [|lx [|ly [|? ?]]]; reflexivity.
    - rewrite E. now apply rect_ids. }
  assert (V1 : Forall (exists_in (assemblies m)) (snd (core m))) by apply Hids.
  assert (E2 : map here (placed_lattices m) = all_lattices m).
  { unfold placed_lattices. rewrite below_ids, E1. apply flat_ext. intros a Ha. rewrite Forall_forall in V1. specialize (V1 a Ha).
    destruct (get_ok _ a ([], []) V1) as (_ & Ig). destruct (assemblies_shaped _ Hsh _ Ig) as (z & Ez & Lz). unfold asy_kids. rewrite Ez.
    apply combine_ids. unfold midplanes. rewrite map_length, combine_length. destruct z as [|z0 z]; [discriminate|]. cbn [tl length] in *. lia. }
  assert (V2 : Forall (exists_in (lattices m)) (all_lattices m)).
  { apply Forall_forall. intros i Hi. apply in_flat_map in Hi. destruct Hi as (a & Ha & Hi). rewrite Forall_forall in V1. specialize (V1 a Ha).
    destruct (get_ok _ a ([], []) V1) as (_ & Ig). pose proof (assembly_ids _ Hids _ Ig) as X. rewrite Forall_forall in X. auto. }
  assert (E3 : map here (placed_rtms m) = all_rtms m).
  { unfold placed_rtms. rewrite below_ids, E2. apply flat_ext. intros a Ha. rewrite Forall_forall in V2. specialize (V2 a Ha).
    destruct (get_ok _ a ([], []) V2) as (_ & Ig). destruct (lattices_shaped _ Hsh _ Ig) as (w & h & nx & ny & El & Hx & Hy & Ll). unfold lat_kids. rewrite El.
    cbn [lattice_grid sp nc]. apply combine_ids. unfold regular_corners. rewrite (rows_len (fun i j => (w * INR i, h * INR j, 0)%R)), !seq_length. nia. }
  assert (V3 : Forall (exists_in (rtms m)) (all_rtms m)).
  { apply Forall_forall. intros i Hi. apply in_flat_map in Hi. destruct Hi as (a & Ha & Hi). rewrite Forall_forall in V2. specialize (V2 a Ha).
    destruct (get_ok _ a ([], []) V2) as (_ & Ig). pose proof (lattice_ids _ Hids _ Ig) as X. rewrite Forall_forall in X. auto. }
  repeat (split; [assumption|]).
  unfold placed_cells. rewrite below_ids, E3. apply flat_ext. intros a Ha. rewrite Forall_forall in V3. specialize (V3 a Ha).
  destruct (get_ok _ a ([], []) V3) as (_ & Ig). destruct (rtms_shaped _ Hsh _ Ig) as (lx & ly & E & _ & _ & L). unfold rtm_kids. rewrite E. now apply rect_ids.
Qed.
End Top.

(** ** Labels and names *)
Definition top_label (p : place) : option (Z * nat) := nth_error (path p) 0.
Lemma number_nth l : forall seen k p, nth_error (number seen l) k = Some p ->
  exists id pp o, nth_error l k = Some (id, (pp, o)) /\ p = mkPlace ((id, count_occ Z.eq_dec (seen ++ map fst (firstn k l)) id) :: pp) o.
Proof.
  induction l as [|[id [pp o]] l IH]; intros seen [|k] p H; cbn in H; try discriminate.
  - injection H as <-. exists id, pp, o. cbn. now rewrite app_nil_r.
  - destruct (IH _ _ _ H) as (id' & pp' & o' & E & ->). exists id', pp', o'. split; [exact E|]. cbn [firstn map fst]. rewrite <- app_assoc. reflexivity.
Qed.
Lemma number_length l : forall seen, length (number seen l) = length l.
Proof. induction l as [|[id [pp o]] l IH]; intros seen; cbn; auto. Qed.
Lemma number_distinct l seen : NoDup (map top_label (number seen l)).
Proof.
  apply NoDup_nth_error. intros i j Hi E. rewrite map_length in Hi.
  destruct (nth_error (number seen l) i) as [p|] eqn:Ep; [|apply nth_error_None in Ep; lia].
  rewrite (map_nth_error _ _ _ Ep) in E. symmetry in E.
  destruct (nth_error (number seen l) j) as [q|] eqn:Eq.
  2:{ apply nth_error_None in Eq. rewrite (proj2 (nth_error_None _ _)) in E by (rewrite map_length; lia). discriminate. }
  rewrite (map_nth_error _ _ _ Eq) in E. injection E as E.
  destruct (number_nth _ _ _ _ Ep) as (id & pp & o & Ni & ->). destruct (number_nth _ _ _ _ Eq) as (id' & pp' & o' & Nj & ->).
  unfold top_label in E. cbn in E. injection E as -> E.
  assert (X : forall i j pp o, (i < j)%nat -> nth_error l i = Some (id, (pp, o)) ->
     (count_occ Z.eq_dec (seen ++ map fst (firstn i l)) id < count_occ Z.eq_dec (seen ++ map fst (firstn j l)) id)%nat).
  { clear. intros i j pp o Hij Hi. rewrite !count_occ_app. apply Nat.add_lt_mono_l.
    revert i j Hij Hi. induction l as [|[id' x] l IH]; intros i j Hij Hi; [destruct i; discriminate|].
    destruct j as [|j]; [lia|]. destruct i as [|i].
    - injection Hi as -> ->. cbn. destruct (Z.eq_dec id id); [lia|congruence].
    - cbn [firstn map fst count_occ]. specialize (IH i j ltac:(lia) Hi). destruct (Z.eq_dec id' id); lia. }
  destruct (Nat.lt_trichotomy i j) as [H|[H|H]]; auto.
  - specialize (X i j pp o H Ni). lia.
  - specialize (X j i pp' o' H Nj). lia.
Qed.
