(** The materials together fill the core. *)
From Coq Require Import String.
From Coq Require Import List Arith ZArith Lia Bool Reals Lra.
From Verif Require Import Base Loops Arith Elem_Model Poly_Spec Poly_Proofs PinCyl_Model PinCyl_Trig_Proofs PinCyl_Lin_Proofs PinCyl_Rings_Proofs Grid_Model Grid_Spec Fvm_Model Fvm_Spec Mpact_Model Mpact_Spec
  Export_Model Export_Spec Export_Loop_Proofs Export_Proofs Outputs_Model Outputs_Spec Outputs_Volume_Proofs.
Import ListNotations.
Local Open Scope list_scope.
Local Open Scope R_scope.

Lemma indicator n q v : (0 <= q < Z.of_nat n)%Z -> rsum (map (fun i => if Z.eqb (Z.of_nat i) q then v else 0) (seq 0 n)) = v.
Proof.
  induction n as [|n IH]; intros H; [lia|]. rewrite seq_S, map_app, rsum_app. cbn [Nat.add map]. rewrite rsum_cons, rsum_nil.
  destruct (Z.eqb_spec (Z.of_nat n) q) as [E|E].
  - assert (rsum (map (fun i => if Z.eqb (Z.of_nat i) q then v else 0) (seq 0 n)) = 0) as ->; [|lra].
    rewrite (map_ext_in _ (fun _ => 0)). { rewrite rsum_const. lra. } intros i Hi. apply in_seq in Hi. destruct (Z.eqb_spec (Z.of_nat i) q); [lia|reflexivity].
  - rewrite IH by lia. lra.
Qed.
Lemma picked_total n l : Forall (fun q => (0 <= fst q < Z.of_nat n)%Z) l ->
  rsum (map (fun i => rsum (picked (Z.eqb (Z.of_nat i)) l)) (seq 0 n)) = rsum (picked (fun _ => true) l).
Proof.
  induction l as [|[q v] l IH]; intros H.
  - unfold picked. cbn [filter map]. rewrite (map_ext _ (fun _ => 0)) by reflexivity. rewrite rsum_const, rsum_nil. lra.
  - inversion H; subst. cbn [fst] in *. unfold picked at 2. cbn [filter fst map snd]. rewrite rsum_cons. fold (picked (fun _ => true) l). rewrite <- IH by auto.
    transitivity (rsum (map (fun i => if Z.eqb (Z.of_nat i) q then v else 0) (seq 0 n)) + rsum (map (fun i => rsum (picked (Z.eqb (Z.of_nat i)) l)) (seq 0 n))); [|now rewrite indicator]. rewrite <- rsum_map_plus. apply rsum_map_ext. intros i. unfold picked. cbn [filter fst].
    destruct (Z.eqb (Z.of_nat i) q); cbn [map snd]; rewrite ?rsum_cons; lra.
Qed.
Lemma total_volume m area : measurable m ->
  rsum (map (fun i => volume m area (Z.eqb (Z.of_nat i))) (seq 0 (length (materials m)))) = volume m area (fun _ => true).
Proof.
  intros Hm. rewrite <- core_sum. rewrite <- (picked_total (length (materials m))) by (apply core_push_exist; auto). apply rsum_map_ext. intros i. symmetry. apply core_sum.
Qed.

Section Solid.
Lemma F2_rsum {A} (f : A -> R) (g : R -> R) l r : Forall2 (fun a b => f a = g b) l r -> rsum (map f l) = rsum (map g r).
Proof. induction 1 as [|? ? ? ? E F IH]; [reflexivity|]. cbn [map]. now rewrite !rsum_cons, E, IH. Qed.
Lemma lattice_area d ids W H (f : Z -> R) : lattice d ids W H ->
  (forall id e, (0 <= id)%Z -> nth_error d (Z.to_nat id) = Some e -> f id = fst e * snd e) -> rsum (map f (concat (rev ids))) = rsum W * rsum H.
Proof.
  intros (L & _ & _ & _ & _ & _ & HR) Hf. rewrite concat_map, rsum_concat, map_map.
  rewrite (F2_rsum (fun row => rsum (map f row)) (fun h => rsum W * h) (rev ids) H). { rewrite rsum_map_scal. now rewrite map_id. }
  apply F2_of_nth; [now rewrite rev_length|]. intros i row h Er Eh.
  assert (Hi : (i < length H)%nat) by (apply nth_error_Some; congruence).
  assert (Er' : nth_error ids (length H - 1 - i) = Some row).
  { rewrite <- Er. replace (length H - 1 - i)%nat with (length ids - S i)%nat by lia.
    clear -L Hi. assert (Hi' : (i < length ids)%nat) by lia. clear Hi L. revert i Hi'. intros i Hi.
    rewrite (nth_error_nth' _ [] (n := (length ids - S i)%nat)) by lia. rewrite (nth_error_nth' _ [] (n := i)) by (rewrite rev_length; lia). f_equal. symmetry. now apply rev_nth. }
  destruct (HR i row Er' Hi) as (Lr & Hrow).
  rewrite (F2_rsum f (fun w => h * w) row W). { rewrite rsum_map_scal, map_id. lra. }
  apply F2_of_nth; [exact Lr|]. intros j id w Ej Ew. destruct (Hrow j id Ej) as (e & H0 & Ed & EW & EH). rewrite (Hf id e H0 Ed). rewrite Eh in EH. rewrite Ew in EW.
  injection EW as <-. injection EH as <-. lra.
Qed.
Lemma gaps_sum z bot top : first_last z bot top -> rsum (gaps z) = top - bot.
Proof.
  intros (E1 & E2). destruct z as [|a z]; [discriminate|]. injection E1 as ->. cbn [length] in E2. rewrite Nat.sub_succ, Nat.sub_0_r in E2.
  unfold gaps. cbn [tl]. revert bot E2. induction z as [|b z IH]; intros bot E2.
  - injection E2 as ->. cbn [combine map]. rewrite rsum_nil. lra.
  - change (combine (bot :: b :: z) (b :: z)) with ((bot, b) :: combine (b :: z) z). cbn [map fst snd]. rewrite rsum_cons. cbn [length nth_error] in E2. rewrite IH by exact E2. lra.
Qed.

Variable m : model.
Hypothesis Hm : measurable m.
Variable area : kind -> list (R * R) -> R.
Variables (w h bot top : R) (W H : list R).
Hypothesis Hs : solid m area w h bot top W H.
Notation any := (fun _ : Z => true).
Lemma solid_rtm r : exists_in (rtms m) r -> rtm_content m area any r = w * h.
Proof.
  intros Hr. destruct (get_ok (rtms m) r ([], []) Hr) as (_ & Hi). destruct (solid_rtms _ _ _ _ _ _ _ _ Hs _ Hi) as (ids & Wr & Hr' & HL & E & <- & <-).
  unfold rtm_content. rewrite E. cbn [snd]. eapply lattice_area; [exact HL|]. intros id e H0 Ee. rewrite nth_error_map in Ee.
  destruct (nth_error (cells m) (Z.to_nat id)) as [c|] eqn:Ec; [|discriminate]. injection Ee as <-.
  rewrite <- (solid_cells _ _ _ _ _ _ _ _ Hs _ _ Ec). f_equal. lia.
Qed.
Lemma solid_lat l nx ny : exists_in (lattices m) l -> fst (get (lattices m) l ([], [])) = lattice_grid w h nx ny -> (0 <= nx)%Z -> (0 <= ny)%Z ->
  Z.of_nat (length (snd (get (lattices m) l ([], [])))) = (nx * ny)%Z -> lat_content m area any l = (w * IZR nx) * (h * IZR ny).
Proof.
  intros Hl E H1 H2 L. destruct (get_ok (lattices m) l ([], []) Hl) as (_ & Hi). unfold lat_content. destruct Hm as (Hv & _).
  rewrite (map_ext_in _ (fun _ => w * h)).
  2:{ intros r Hr. apply solid_rtm. exact (proj1 (Forall_forall _ _) (lattice_ids m Hv _ Hi) r Hr). }
  assert (G : forall k : list Z, rsum (map (fun _ => w * h) k) = INR (length k) * (w * h)).
  { induction k as [|a k IH]; cbn [map]; [rewrite rsum_nil; cbn; lra|]. rewrite rsum_cons, IH. cbn [length]. rewrite S_INR. lra. }
  rewrite G, INR_IZR_INZ, L, mult_IZR. ring.
Qed.
Lemma solid_asy a e : exists_in (assemblies m) a -> asy_extent m (get (assemblies m) a ([], [])) e -> asy_volume m area any a = fst e * snd e * (top - bot).
Proof.
  intros Ha (i & l & w' & h' & nx & ny & Ei & El & Eg & ->). destruct (get_ok (assemblies m) a ([], []) Ha) as (_ & Hi). set (y := get (assemblies m) a ([], [])) in *.
  destruct (solid_assemblies _ _ _ _ _ _ _ _ Hs _ Hi) as (z & Ez & Lz & Hz & Hsame). unfold asy_volume. fold y. rewrite Ez. cbn [fst snd].
  destruct Hm as (Hv & _).
  assert (Hin0 : In i (snd y)) by (eapply nth_error_In; eauto).
  assert (G : forall j, In j (snd y) -> lat_content m area any j = (w' * IZR nx) * (h' * IZR ny)).
  { intros j Hj. pose proof (proj1 (Forall_forall _ _) (assembly_ids m Hv _ Hi) j Hj) as Hje. pose proof (proj1 (Forall_forall _ _) (assembly_ids m Hv _ Hi) i Hin0) as Hie.
    destruct (get_ok (lattices m) j ([], []) Hje) as (_ & Hji). destruct (solid_lattices _ _ _ _ _ _ _ _ Hs _ Hji) as (nx' & ny' & Eg' & P1 & P2 & L').
    assert (Hjat : at_ (lattices m) j (get (lattices m) j ([], []))).
    { unfold at_, exists_in, get in *. split; [lia|]. apply nth_error_nth'. lia. }
    pose proof (Hsame i j l _ Hin0 Hj El Hjat) as Es. rewrite Eg, Eg' in Es. cbn in Es. injection Es as <- <-.
    rewrite (solid_lat j nx ny Hje Eg' P1 P2 L').
    destruct El as (E0 & El). destruct (solid_lattices _ _ _ _ _ _ _ _ Hs l (nth_error_In _ _ El)) as (nx2 & ny2 & Eg2 & _). rewrite Eg in Eg2. unfold lattice_grid in Eg2. injection Eg2; intros. congruence. }
  rewrite (map_ext_in _ (fun p => (w' * IZR nx) * (h' * IZR ny) * snd p)).
  2:{ intros [j dz] Hj. cbn [fst snd]. rewrite G; [reflexivity|]. eapply in_combine_l; eauto. }
  rewrite rsum_map_scal. f_equal. rewrite <- (gaps_sum z bot top Hz).
  f_equal. pose proof (gaps_length z _ Lz) as Lg. revert Lg. generalize (gaps z). generalize (snd y). induction l0 as [|b k IH]; intros [|g gs] Lg; try discriminate; cbn; [reflexivity|]. f_equal. apply IH. now injection Lg.
Qed.
Lemma solid_volume : volume m area any = rsum W * rsum H * (top - bot).
Proof.
  destruct (solid_core _ _ _ _ _ _ _ _ Hs) as (exts & ids & HE & HL & Ec). destruct Hm as (Hv & _). unfold volume.
  pose proof (core_ids m Hv) as Hc. rewrite Ec in Hc |- *. cbn [snd] in *.
  rewrite <- (lattice_area exts ids W H (fun a => fst (nth (Z.to_nat a) exts (0, 0)) * snd (nth (Z.to_nat a) exts (0, 0))) HL).
  2:{ intros id e _ Ee. now rewrite (nth_error_nth _ _ _ Ee). }
  rewrite <- rsum_scal_r. apply rsum_map_in. intros a Ha. pose proof (proj1 (Forall_forall _ _) Hc a Ha) as Hae. apply solid_asy; auto.
  assert (G : forall l r n d e, Forall2 (asy_extent m) l r -> (n < length l)%nat -> asy_extent m (nth n l d) (nth n r e)).
  { intros l r n d e F. revert n. induction F; intros n Hn; [cbn in Hn; lia|]. destruct n; cbn; auto. apply IHF. cbn in Hn. lia. }
  unfold get. apply G; auto. unfold exists_in in Hae. lia.
Qed.
End Solid.
Lemma conserved_volume m area w h bot top W H : measurable m -> solid m area w h bot top W H ->
  rsum (map (fun i => volume m area (Z.eqb (Z.of_nat i))) (seq 0 (length (materials m)))) = rsum W * rsum H * (top - bot).
Proof. intros Hm Hs. rewrite total_volume by exact Hm. eapply solid_volume; eauto. Qed.
