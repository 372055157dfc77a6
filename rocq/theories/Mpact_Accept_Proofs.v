(** Which calls are accepted, and where the ids end up. *)
From Coq Require Import String.
From Coq Require Import List Arith ZArith Bool Reals Lra Lia.
From Verif Require Import Base Loops Fill Arith Box_Proofs Poly_Spec Grid_Model Grid_Spec Grid_Proofs Fvm_Model PinRect_Model PinCyl_Model Mpact_Model Mpact_Spec Mpact_Proofs Mpact_Steps_Proofs.
Import ListNotations.
Local Open Scope list_scope.
Local Open Scope R_scope.

Section Accept.
Variables checks exit_on_error : bool.
Notation inv := (inv checks).

(** ** Grids of lattices *)
Lemma rows_boxes_eq dxdy nc : forall rows y, Forall (fun row => length row = nc) rows ->
  rows_boxes_n dxdy nc rows y = rows_boxes dxdy rows y.
Proof.
  induction rows as [|row rows IH]; intros y H; auto. inversion H as [|? ? H1 H2]; subst. cbn [rows_boxes_n rows_boxes].
  rewrite (proj2 (Nat.ltb_ge _ _)) by lia. rewrite firstn_all.
  destruct (row_boxes _ _ _ _); cbn [bind]; auto. destruct (rdz row 0); cbn [bind]; auto. destruct (rdz dxdy _); cbn [bind]; auto.
  now rewrite IH.
Qed.
Lemma lattice_rect dxdy ids W H : lattice dxdy ids W H -> rectangular ids (length H) (length W).
Proof.
  intros (Hl & HW & HH & HeW & HeH & Hc & Hr). split; auto. apply Forall_forall. intros row Hin.
  apply In_nth_error in Hin as (k & Hk). assert (k < length H)%nat by (rewrite <- Hl; apply nth_error_Some; congruence).
  destruct (Hr (length H - 1 - k)%nat row) as [H1 _]; auto; [|lia]. replace (length H - 1 - (length H - 1 - k))%nat with k by lia. auto.
Qed.
Lemma grid_of_lattice dxdy ids W H : lattice dxdy ids W H -> grid_of checks dxdy ids = Ret [sums 0 W; sums 0 H].
Proof.
  intros HL. pose proof (of_lattice_ok _ _ _ _ HL) as E. pose proof (lattice_rect _ _ _ _ HL) as [Rl Rf].
  destruct HL as (Hl & HW & HH & HeW & HeH & Hc & Hr). unfold rect_of_lattice in E. unfold grid_of.
  apply bind_Ret in E as (row0 & E0 & E). rewrite E0. cbn [bind]. apply rd_Ret in E0.
  destruct (forallb _ (tl ids)) eqn:Bf; [|discriminate]. unfold assert. rewrite andb_false_r.
  assert (L0 : length row0 = length W) by (rewrite Forall_forall in Rf; apply Rf; eapply nth_error_In; eauto).
  rewrite i32_ok by (unfold in_i32, intMin; rewrite Rl, L0; lia). cbn [bind].
  apply bind_Ret in E as (boxes & Eb & E). rewrite rows_boxes_eq.
  2:{ apply Forall_rev. rewrite L0. auto. }
  rewrite Eb. cbn [bind]. unfold rect_of_boxes in E. change (seq 0 2) with [0%nat; 1%nat] in E.
  apply bind_Ret in E as (g & Eg & E). rewrite Eg. cbn [bind]. destruct checks; auto.
  apply bind_Ret in E as (n & En & E). destruct (n =? _)%Z; congruence.
Qed.
Lemma sums_first_last s ws : first_last (sums s ws) s (s + rsum ws).
Proof.
  unfold first_last. split; [destruct ws; reflexivity|]. rewrite sums_length. revert s.
  induction ws as [|w ws IH]; intros s; [cbn; f_equal; lra|].
  replace (S (length (w :: ws)) - 1)%nat with (S (S (length ws) - 1)) by (cbn; lia). cbn [sums nth_error]. rewrite IH. f_equal. unfold rsum. cbn [fold_right]. lra.
Qed.
Lemma sums_extent W H : extent [sums 0 W; sums 0 H] (rsum W) (rsum H).
Proof.
  exists (sums 0 W), (sums 0 H), 0, (0 + rsum W), 0, (0 + rsum H). split; auto. split; [apply sums_first_last|].
  split; [apply sums_first_last|]. split; lra.
Qed.

(** ** Renumbering *)
Lemma find_id_ok u id : In id u -> (find_id u id < length u)%nat /\ nth_error u (find_id u id) = Some id.
Proof.
  induction u as [|v u IH]; [intros []|]. intros H. cbn [find_id length]. destruct (Z.eqb_spec v id) as [->|Hn].
  - split; [lia|reflexivity].
  - destruct H as [->|H]; [congruence|]. destruct (IH H) as [H1 H2]. split; [lia|auto].
Qed.
Lemma collect_ok cs : forall ids u xy, Forall (exists_in cs) ids ->
  Forall2 (fun id e => exists c, at_ cs id c /\ e = xy_extents c) u xy ->
  exists u' xy', collect exit_on_error cs ids u xy = Ret (Some (u', xy')) /\
    Forall2 (fun id e => exists c, at_ cs id c /\ e = xy_extents c) u' xy' /\
    (forall id, In id u \/ In id ids -> In id u').
Proof.
  induction ids as [|id ids IH]; intros u xy HF H2; cbn [collect].
  - exists u, xy. split; auto. split; auto. intros id [|[]]; auto.
  - inversion HF as [|? ? He HF']; subst. rewrite (proj2 (out_of_range _ _) He). destruct (existsb (Z.eqb id) u) eqn:Be.
    + destruct (IH u xy HF' H2) as (u' & xy' & E & K1 & K2). exists u', xy'. split; auto. split; auto.
      intros i [Hi|[<-|Hi]]; auto. apply existsb_exists in Be as (j & Hj & Ej). apply Z.eqb_eq in Ej. subst. auto.
    + destruct (exists_at _ _ He) as (c & Hc). rewrite (proj1 (at_rdz _ _ _) Hc). cbn [bind].
      destruct (IH (u ++ [id]) (xy ++ [xy_extents c]) HF') as (u' & xy' & E & K1 & K2).
      { apply Forall2_app; auto. constructor; [|constructor]. eauto. }
      exists u', xy'. split; auto. split; auto. intros i Hi. apply K2. rewrite in_app_iff. cbn in *. tauto.
Qed.
Lemma renumber_ok u ids : (forall id, In id (concat ids) -> In id u) ->
  renumber checks u ids = Ret (map (map (fun id => Z.of_nat (find_id u id))) ids).
Proof.
  intros H. unfold renumber. apply mapo_ok. intros row Hr. apply mapo_ok. intros id Hid.
  assert (Hin : In id u) by (apply H; apply in_concat; eauto). destruct (find_id_ok u id Hin) as [L _].
  unfold assert. rewrite (proj2 (Nat.ltb_lt _ _) L). now rewrite andb_false_r.
Qed.
Lemma lattice_ids_exist cs ids W H : lattice (map xy_extents cs) ids W H -> Forall (exists_in cs) (concat ids).
Proof.
  intros (Hl & _ & _ & _ & _ & _ & Hr). apply Forall_forall. intros id Hid. apply in_concat in Hid as (row & Hrow & Hid).
  apply In_nth_error in Hrow as (k & Hk). assert (k < length H)%nat by (rewrite <- Hl; apply nth_error_Some; congruence).
  destruct (Hr (length H - 1 - k)%nat row) as [_ H1]; [|lia|].
  { replace (length H - 1 - (length H - 1 - k))%nat with k by lia. auto. }
  apply In_nth_error in Hid as (j & Hj). destruct (H1 j id Hj) as (d & Hd0 & Hd & _). split; auto.
  assert (Z.to_nat id < length (map xy_extents cs))%nat by (apply nth_error_Some; congruence). rewrite map_length in *. lia.
Qed.
Lemma lattice_renumber cs u xy ids W H : lattice (map xy_extents cs) ids W H ->
  Forall2 (fun id e => exists c, at_ cs id c /\ e = xy_extents c) u xy -> (forall id, In id (concat ids) -> In id u) ->
  lattice xy (map (map (fun id => Z.of_nat (find_id u id))) ids) W H.
Proof.
  intros (Hl & HW & HH & HeW & HeH & Hc & Hr) H2 Hu. split; [now rewrite map_length|]. do 5 (split; auto).
  intros i row' E Hi. rewrite nth_error_map in E. destruct (nth_error ids (length H - 1 - i)) as [row|] eqn:Er; [|discriminate].
  injection E as <-. destruct (Hr i row Er Hi) as [L1 L2]. rewrite map_length. split; auto.
  intros j id' Ej. rewrite nth_error_map in Ej. destruct (nth_error row j) as [id|] eqn:Eid; [|discriminate]. injection Ej as <-.
  destruct (L2 j id Eid) as (d & H0 & Hd & HWj & HHi). exists d. split; [lia|]. split; [|auto]. rewrite Nat2Z.id.
  assert (Hin : In id u) by (apply Hu; apply in_concat; exists row; split; eapply nth_error_In; eauto).
  destruct (find_id_ok u id Hin) as [L E].
  destruct (nth_error xy (find_id u id)) as [e|] eqn:Ee.
  - destruct (Forall2_nth _ _ _ _ _ _ H2 E Ee) as (c & Hcell & ->). destruct Hcell as [_ Hcell].
    rewrite nth_error_map, Hcell in Hd. cbn in Hd. congruence.
  - apply nth_error_None in Ee. rewrite <- (Forall2_length _ _ _ H2) in Ee. lia.
Qed.
Lemma total_ok2 a b : (Z.of_nat a * Z.of_nat b <= intMax)%Z -> (0 < a)%nat -> (0 < b)%nat ->
  totalNumCells [Z.of_nat a; Z.of_nat b] = Ret (Z.of_nat a * Z.of_nat b)%Z.
Proof.
  intros H Ha Hb. unfold totalNumCells. cbn [fold_left bind]. rewrite i32_ok by (unfold in_i32, intMin; nia). cbn [bind].
  rewrite i32_ok by (unfold in_i32, intMin; nia). f_equal. nia.
Qed.
Lemma partition_ok dxdy ids W H : lattice dxdy ids W H ->
  partition checks [sums 0 W; sums 0 H] (concat (rev ids)) = Ret ([sums 0 W; sums 0 H], concat (rev ids)).
Proof.
  intros HL. pose proof (lattice_rect _ _ _ _ HL) as HR. destruct HL as (Hl & HW & HH & HeW & HeH & Hc & Hr).
  unfold partition. destruct checks; auto. unfold rect_partition. cbn [numCells map]. rewrite !sums_length.
  replace (Z.of_nat (S (length W)) - 1)%Z with (Z.of_nat (length W)) by lia.
  replace (Z.of_nat (S (length H)) - 1)%Z with (Z.of_nat (length H)) by lia.
  rewrite total_ok2; [|auto|destruct W; [congruence|cbn; lia]|destruct H; [congruence|cbn; lia]]. cbn [bind].
  rewrite (flat_length _ _ _ HR). rewrite (proj2 (Z.eqb_eq _ _)); auto. lia.
Qed.
Lemma flatten_lattice dxdy ids W H : lattice dxdy ids W H -> flattenLattice exit_on_error ids = Ret (concat (rev ids)).
Proof.
  intros HL. pose proof (lattice_rect _ _ _ _ HL) as HR. destruct HL as (Hl & HW & HH & HeW & HeH & Hc & Hr).
  eapply flatten_ok; [exact HR| |lia]. destruct H; [congruence|cbn; lia].
Qed.

(** ** addRTM *)
Theorem addRTM_missing m ids : ~ Forall (exists_in (cells m)) (concat ids) -> refused exit_on_error m (addRTM checks exit_on_error m ids).
Proof.
  intros H. unfold addRTM, refused.
  assert (G : forall ids u xy, ~ Forall (exists_in (cells m)) ids -> collect exit_on_error (cells m) ids u xy = if exit_on_error then Fail else Ret None).
  { clear. induction ids as [|id ids IH]; intros u xy H; [exfalso; apply H; constructor|]. cbn [collect].
    destruct (_ || _)%bool eqn:B; [unfold error; destruct exit_on_error; reflexivity|]. apply out_of_range in B.
    assert (H' : ~ Forall (exists_in (cells m)) ids) by (intros HF; apply H; now constructor).
    destruct (existsb (Z.eqb id) u); [now apply IH|]. destruct (exists_at _ _ B) as (c & Hc). rewrite (proj1 (at_rdz _ _ _) Hc).
    cbn [bind]. now apply IH. }
  rewrite G by auto. destruct exit_on_error; reflexivity.
Qed.
Theorem addRTM_ok m ids W H : consistent checks m -> lattice (map xy_extents (cells m)) ids W H ->
  ((forall r0 w0 h0, nth_error (rtms m) 0 = Some r0 -> extent (fst r0) w0 h0 -> near w0 h0 (rsum W) (rsum H)) ->
   addRTM checks exit_on_error m ids = Ret (push_rtm ([sums 0 W; sums 0 H], concat (rev ids)) m, Z.of_nat (length (rtms m)))) /\
  ((exists r0 w0 h0, nth_error (rtms m) 0 = Some r0 /\ extent (fst r0) w0 h0 /\ ~ near w0 h0 (rsum W) (rsum H)) ->
   refused exit_on_error m (addRTM checks exit_on_error m ids)).
Proof.
  intros HC HL.
  destruct (collect_ok (cells m) (concat ids) [] []) as (u & xy & Ec & H2 & Hu).
  { eapply lattice_ids_exist; eauto. }
  { constructor. }
  assert (Hu' : forall id, In id (concat ids) -> In id u) by auto.
  pose proof (lattice_renumber _ _ _ _ _ _ HL H2 Hu') as HL2.
  assert (E : addRTM checks exit_on_error m ids =
    let* ok := match rtms m with [] => Ret true
               | r0 :: _ => let* e0 := extents2 (fst r0) in Ret (isApprox e0 (rsum W, rsum H)) end in
    if negb ok then error exit_on_error (m, (-1)%Z)
    else Ret (push_rtm ([sums 0 W; sums 0 H], concat (rev ids)) m, size (rtms m))).
  { unfold addRTM. rewrite Ec. cbn [bind]. rewrite (renumber_ok u ids) by auto. cbn [bind].
    rewrite (grid_of_lattice _ _ _ _ HL2). cbn [bind]. rewrite (extents2_ok _ _ _ (sums_extent W H)). cbn [bind].
    destruct (match rtms m with [] => _ | _ => _ end) as [[|]| | |] eqn:Eo; cbn [bind]; auto.
    cbn [negb]. rewrite (flatten_lattice _ _ _ _ HL). cbn [bind]. rewrite (partition_ok _ _ _ _ HL). reflexivity. }
  rewrite E. destruct (rtms m) as [|r1 rs] eqn:Er.
  - split; [reflexivity|]. intros (r0 & ? & ? & H0 & _). discriminate.
  - destruct (rtm_extents _ _ HC r1 r1) as (w0 & h0 & w1 & h1 & X0 & _); [now rewrite Er|rewrite Er; now left|].
    rewrite (extents2_ok _ _ _ X0). cbn [bind]. destruct (isApprox (w0, h0) (rsum W, rsum H)) eqn:Ba.
    + split; [reflexivity|]. intros (r0 & a & b & [= <-] & X & Hn). exfalso. apply Hn.
      destruct (extent_fun _ _ _ _ _ X X0) as [-> ->]. now apply isApprox_near.
    + split; [|reflexivity]. intros Hn. exfalso. specialize (Hn r1 w0 h0 eq_refl X0). apply isApprox_near in Hn. congruence.
Qed.

(** ** addLattice *)
Theorem addLattice_missing m ids : ~ Forall (exists_in (rtms m)) (concat ids) -> refused exit_on_error m (addLattice checks exit_on_error m ids).
Proof.
  intros H. unfold addLattice, refused, error. destruct (existsb _ ids) eqn:B; [reflexivity|]. apply ids_checked in B. contradiction.
Qed.
Lemma ids_nonempty (m : model) ids : Forall (exists_in (rtms m)) (concat ids) -> concat ids <> [] -> exists r0, nth_error (rtms m) 0 = Some r0.
Proof.
  intros HF Hne. destruct (concat ids) as [|id l]; [congruence|]. inversion HF as [|? ? [H1 H2] _]; subst.
  destruct (rtms m); [cbn in H2; lia|now eexists].
Qed.
Theorem addLattice_ragged m ids : inv m -> Forall (exists_in (rtms m)) (concat ids) -> ids <> [] -> (forall nr nc, ~ rectangular ids nr nc) ->
  refused exit_on_error m (addLattice checks exit_on_error m ids).
Proof.
  intros HI HF Hne Hr. unfold addLattice, refused. rewrite (proj2 (ids_checked _ _) HF).
  destruct ids as [|row0 ids]; [congruence|].
  assert (Hc : concat (row0 :: ids) <> []).
  { intros Hz. apply (Hr (length (row0 :: ids)) 0%nat). split; auto. apply Forall_forall. intros row Hrow.
    destruct row as [|id row]; auto. exfalso. assert (In id (concat (row0 :: ids))) by (apply in_concat; eexists; split; [eauto|now left]).
    rewrite Hz in *. contradiction. }
  destruct (ids_nonempty _ _ HF Hc) as (r0 & Er0). rewrite (proj2 (rd_Ret _ _ _) Er0). cbn [bind].
  destruct (rtm_extents _ _ (proj2 HI) r0 r0) as (w0 & h0 & w1 & h1 & X0 & _); [auto|eapply nth_error_In; eauto|].
  rewrite (extents2_ok _ _ _ X0). cbn [bind]. change (rd (row0 :: ids) 0) with (Ret row0). cbn [bind].
  destruct (existsb _ (tl (row0 :: ids))) eqn:B; [reflexivity|]. apply (ragged (row0 :: ids) row0 eq_refl) in B. exfalso. eapply Hr; eauto.
Qed.
Theorem addLattice_ok m ids nr nc r0 w0 h0 : inv m -> Forall (exists_in (rtms m)) (concat ids) -> rectangular ids nr nc ->
  (0 < nr)%nat -> (0 < nc)%nat -> (Z.of_nat nr * Z.of_nat nc <= intMax)%Z ->
  nth_error (rtms m) 0 = Some r0 -> extent (fst r0) w0 h0 ->
  addLattice checks exit_on_error m ids =
  Ret (push_lattice (lattice_grid w0 h0 (Z.of_nat nc) (Z.of_nat nr), concat (rev ids)) m, Z.of_nat (length (lattices m))).
Proof.
  intros HI HF HR Hnr Hnc Hi H0 X. unfold addLattice. rewrite (proj2 (ids_checked _ _) HF). rewrite (proj2 (rd_Ret _ _ _) H0). cbn [bind].
  rewrite (extents2_ok _ _ _ X). cbn [bind fst snd]. destruct (nth_error ids 0) as [row0|] eqn:E0.
  2:{ destruct ids; [destruct HR as [HR _]; cbn in HR; lia|discriminate]. }
  rewrite (proj2 (rd_Ret _ _ _) E0). cbn [bind]. pose proof HR as [Hl Hf].
  assert (L0 : length row0 = nc) by (rewrite Forall_forall in Hf; apply Hf; eapply nth_error_In; eauto).
  assert (Hrag : existsb (fun row => negb (length row =? length row0)%nat) (tl ids) = false) by (apply ragged; auto; now rewrite L0, Hl).
  rewrite Hrag, L0, Hl. rewrite (flatten_ok _ _ _ _ HR Hnr Hi). cbn [bind].
  change [mkAxis 0 w0 (Z.of_nat nc); mkAxis 0 h0 (Z.of_nat nr)] with (lattice_grid w0 h0 (Z.of_nat nc) (Z.of_nat nr)).
  unfold assert. destruct checks eqn:C; cbn [andb]; auto.
  destruct (rtm_children _ _ (proj2 HI) eq_refl r0) as (lx & ly & Eg & Lx & Ly & Ix & Iy & _); [eapply nth_error_In; eauto|].
  destruct X as (lx' & ly' & a & b & c & d & Eg' & [F1 F2] & [F3 F4] & -> & ->). rewrite Eg in Eg'. injection Eg' as <- <-.
  assert (a < b) by (eapply Ix; [|exact F1|exact F2]; lia). assert (c < d) by (eapply Iy; [|exact F3|exact F4]; lia).
  rewrite (proj2 (Rltb_true 0 (b - a))) by lra. rewrite (proj2 (Rltb_true 0 (d - c))) by lra.
  rewrite (proj2 (Z.ltb_lt 0 (Z.of_nat nc))) by lia. rewrite (proj2 (Z.ltb_lt 0 (Z.of_nat nr))) by lia. cbn [andb negb].
  unfold regular_partition, lattice_grid. cbn [map Grid_Model.nc]. rewrite total_ok2 by (auto; lia). cbn [bind].
  rewrite (flat_length _ _ _ HR). rewrite (proj2 (Z.eqb_eq _ _)); auto. lia.
Qed.

(** ** addAssembly *)
Lemma off_cases x : off x = true <-> eps < Rabs x.
Proof. apply Rltb_true. Qed.
Lemma Forall_dec_id {A} (l : list A) (id : Z) : exists_in l id \/ ~ exists_in l id.
Proof. unfold exists_in. destruct (Z_le_dec 0 id), (Z_lt_dec id (Z.of_nat (length l))); tauto. Qed.
Theorem addAssembly_ok m ids z : inv m -> ids <> [] -> (Z.of_nat (length ids) <= intMax)%Z ->
  (good_assembly m ids z -> addAssembly checks exit_on_error m ids z = Ret (push_assembly ([z], ids) m, Z.of_nat (length (assemblies m)))) /\
  (~ good_assembly m ids z -> refused exit_on_error m (addAssembly checks exit_on_error m ids z)).
Proof.
  intros HI Hne Hmax. unfold addAssembly, refused, error. destruct (existsb _ ids) eqn:B.
  { split; [|reflexivity]. intros (HF & _). exfalso.
    assert (B' : existsb (fun id => (id <? 0) || (size (lattices m) <=? id))%Z ids = false).
    { apply existsb_false_iff. eapply Forall_impl; [|exact HF]. intros a Ha. now apply out_of_range. }
    congruence. }
  assert (BF : Forall (exists_in (lattices m)) ids).
  { apply existsb_false_iff in B. eapply Forall_impl; [|exact B]. intros a Ha. now apply out_of_range. }
  destruct (Nat.eqb_spec (length ids + 1) (length z)) as [Lz|Lz]; cbn [negb].
  2:{ split; [|reflexivity]. intros (_ & H & _). lia. }
  destruct (is_sorted z) eqn:Sz; cbn [negb].
  2:{ split; [|reflexivity]. intros (_ & _ & H & _). apply is_sorted_ok in H. congruence. }
  apply is_sorted_ok in Sz.
  destruct (first_last_ex z) as (bot & top & FL). { destruct z; [cbn in Lz; lia|discriminate]. }
  pose proof FL as [F1 F2]. rewrite (proj2 (rd_Ret _ _ _) F1), (proj2 (rd_Ret _ _ _) F2). cbn [bind].
  destruct (_ && _)%bool eqn:B0.
  { split; [|reflexivity]. intros (_ & _ & _ & b' & t' & FL' & Hb & _). destruct (first_last_fun _ _ _ _ _ FL FL') as [<- <-].
    apply andb_true_iff in B0 as [B0 B1]. apply off_cases in B1. apply orb_true_iff in B0. rewrite !off_cases in B0. lra. }
  assert (Hb : Rabs bot <= eps \/ Rabs (bot + 1 / 2) <= eps /\ Rabs (top - 1 / 2) <= eps).
  { apply andb_false_iff in B0 as [B0|B0]; [apply orb_false_iff in B0 as [X Y]; right; split; now apply off_ok|left; now apply off_ok]. }
  assert (Hsame : exists b, match assemblies m with
      | [] => Ret true
      | a0 :: _ => let* l := rd (fst a0) 0 in let* bot0 := rd l 0 in let* top0 := rd l (length l - 1) in
          Ret (negb (off (top - top0) || off (bot - bot0)))
      end = Ret b /\ (b = true <-> (forall a0 z0 bot0 top0, nth_error (assemblies m) 0 = Some a0 -> fst a0 = [z0] -> first_last z0 bot0 top0 ->
       Rabs (bot - bot0) <= eps /\ Rabs (top - top0) <= eps))).
  { destruct (assemblies m) as [|a0 as_] eqn:Ea; [exists true; split; auto; split; auto; intros; discriminate|].
    destruct (assembly_shape _ _ (proj2 HI) a0) as (z0 & b0 & t0 & Ez & _ & _ & _ & [G1 G2] & _); [rewrite Ea; now left|].
    rewrite Ez. change (rd [z0] 0) with (Ret z0). cbn [bind]. rewrite (proj2 (rd_Ret _ _ _) G1), (proj2 (rd_Ret _ _ _) G2). cbn [bind].
    eexists. split; [reflexivity|]. rewrite negb_true_iff, orb_false_iff, !off_ok. split.
    - intros [K1 K2] a z1 b1 t1 [= <-] Hz [L1 L2]. rewrite Ez in Hz. injection Hz as <-. rewrite G1 in L1. rewrite G2 in L2.
      injection L1 as <-. injection L2 as <-. auto.
    - intros H. destruct (H a0 z0 b0 t0 eq_refl Ez (conj G1 G2)). auto. }
  destruct Hsame as (b & -> & Hb2). cbn [bind]. destruct b; cbn [negb].
  2:{ split; [|reflexivity]. intros (_ & _ & _ & b' & t' & FL' & _ & H & _). destruct (first_last_fun _ _ _ _ _ FL FL') as [<- <-].
      exfalso. pose proof (proj2 Hb2 H). discriminate. }
  pose proof (proj1 Hb2 eq_refl) as Hs. clear Hb2.
  destruct ids as [|id0 ids]; [congruence|]. change (rd (id0 :: ids) 0) with (Ret id0). cbn [bind].
  assert (Hcount : forall id, In id (id0 :: ids) -> exists l n, at_ (lattices m) id l /\ counts l = Ret n /\ map nc (fst l) = [fst n; snd n]).
  { intros id Hin. rewrite Forall_forall in BF. destruct (exists_at _ _ (BF id Hin)) as (l & Hl).
    destruct (lattice_shape _ _ (proj2 HI) l) as (r0 & w0 & h0 & nx & ny & _ & _ & Hg & _); [eapply at_In; eauto|].
    exists l, (nx, ny). split; auto. split; [eapply counts_ok; eauto|]. rewrite Hg. reflexivity. }
  destruct (Hcount id0) as (l0 & n0 & Hl0 & Hn0 & Hm0); [now left|].
  rewrite (proj1 (at_rdz _ _ _) Hl0). cbn [bind]. rewrite Hn0. cbn [bind].
  destruct (mapo (fun id => let* l := rdz (lattices m) id in counts l) (id0 :: ids)) as [ns| | |] eqn:Ens.
  2-4: (exfalso; revert Ens; generalize (id0 :: ids) Hcount; clear;
    induction l as [|a l IH]; intros Hc; cbn; [discriminate|];
    destruct (Hc a) as (x & n & Hx & Hn & _); [now left|]; rewrite (proj1 (at_rdz _ _ _) Hx); cbn; rewrite Hn; cbn;
    intros E; apply IH; [intros i Hi; apply Hc; now right|]; destruct (mapo _ l); cbn in *; congruence).
  cbn [bind]. apply mapo_inv in Ens as [Hlen Hns].
  destruct (existsb _ ns) eqn:Bn.
  - split; [|reflexivity]. intros (_ & _ & _ & b' & t' & _ & _ & _ & H). exfalso.
    apply existsb_exists in Bn as (n & Hin & Hn). apply In_nth_error in Hin as (k & Hk).
    destruct (nth_error (id0 :: ids) k) as [id|] eqn:Ek.
    2:{ apply nth_error_None in Ek. assert (k < length ns)%nat by (apply nth_error_Some; congruence). lia. }
    destruct (Hns k id Ek) as (n' & En & Hn'). rewrite Hk in Hn'. injection Hn' as <-.
    destruct (Hcount id) as (l & n' & Hl & Hcn & Hm); [eapply nth_error_In; eauto|].
    rewrite (proj1 (at_rdz _ _ _) Hl) in En. cbn [bind] in En. rewrite Hcn in En. injection En as ->.
    assert (Em : map nc (fst l) = map nc (fst l0)) by (eapply H; [eapply nth_error_In; eauto|now left|eauto|eauto]).
    rewrite Hm, Hm0 in Em. injection Em as E1 E2. rewrite E1, E2, !Z.eqb_refl in Hn. discriminate.
  - assert (Ep : partition checks [z] (id0 :: ids) = Ret ([z], id0 :: ids)).
    { unfold partition. destruct checks; auto. unfold rect_partition. cbn [numCells map]. unfold totalNumCells. cbn [fold_left bind].
      rewrite i32_ok by (unfold in_i32, intMin; cbn [length] in *; lia). cbn [bind]. rewrite (proj2 (Z.eqb_eq _ _)); auto. cbn [length] in *. lia. }
    rewrite Ep. cbn [bind]. split; [reflexivity|]. intros Hng. exfalso. apply Hng. split; auto. split; [lia|]. split; auto.
    exists bot, top. split; auto. split; auto. split; auto.
    apply existsb_false_iff in Bn. rewrite Forall_forall in Bn.
    assert (G : forall i l, In i (id0 :: ids) -> at_ (lattices m) i l -> map nc (fst l) = [fst n0; snd n0]).
    { intros i l Hi Hl. destruct (Hcount i Hi) as (l' & n & Hl' & Hcn & Hm). assert (l' = l) by (destruct Hl, Hl'; congruence). subst l'.
      apply In_nth_error in Hi as (k & Hk). destruct (Hns _ _ Hk) as (n' & En & Hn').
      rewrite (proj1 (at_rdz _ _ _) Hl) in En. cbn [bind] in En. rewrite Hcn in En. injection En as <-.
      apply nth_error_In in Hn'. specialize (Bn n Hn'). apply negb_false_iff, andb_true_iff in Bn as [X Y].
      apply Z.eqb_eq in X. apply Z.eqb_eq in Y. rewrite Hm. congruence. }
    intros i j l l' Hi Hj Hl Hl'. rewrite (G i l), (G j l'); auto.
Qed.

(** ** addCore *)
Theorem addCore_again m ids : snd (core m) <> [] -> refused exit_on_error m (addCore checks exit_on_error m ids).
Proof.
  intros H. unfold addCore, refused. destruct (Nat.eqb_spec (length (snd (core m))) 0) as [L|L]; [|reflexivity].
  apply length_zero_iff_nil in L. contradiction.
Qed.
Theorem addCore_missing m ids : ~ Forall (exists_in (assemblies m)) (concat ids) -> refused exit_on_error m (addCore checks exit_on_error m ids).
Proof.
  intros H. unfold addCore, refused. destruct (negb _); [reflexivity|]. destruct (existsb _ ids) eqn:B; [reflexivity|].
  apply ids_checked in B. contradiction.
Qed.
Lemma assembly_extents_ok m a e : consistent checks m -> In a (assemblies m) -> asy_extent m a e -> assembly_extents checks m a = Ret e.
Proof.
  intros HC Ha (i & l & w & h & nx & ny & H0 & Hl & Hg & ->). unfold assembly_extents.
  assert (E : (if checks then rect_getChild Z a [0%Z] else rd (snd a) 0) = Ret i).
  { destruct checks eqn:C; [|now apply rd_Ret].
    destruct (assembly_shape _ _ HC a Ha) as (z & bot & top & Hz & _ & Lz & _). unfold rect_getChild, rect_getFlatIndex. rewrite Hz.
    cbn [combine forallb fst snd]. rewrite (proj2 (Z.ltb_lt 0 (Z.of_nat (length z)))) by lia. cbn [andb numCells map flatIndex bind].
    unfold rdz. cbn. now apply rd_Ret. }
  rewrite E. cbn [bind]. rewrite (proj1 (at_rdz _ _ _) Hl). cbn [bind]. rewrite Hg. reflexivity.
Qed.
Theorem addCore_ok m ids exts W H : inv m -> snd (core m) = [] -> Forall2 (asy_extent m) (assemblies m) exts ->
  lattice exts ids W H ->
  addCore checks exit_on_error m ids = Ret (set_core ([sums 0 W; sums 0 H], concat (rev ids)) m, 0%Z).
Proof.
  intros HI H0 HE HL. unfold addCore. rewrite H0. cbn [length Nat.eqb negb].
  assert (HF : Forall (exists_in (assemblies m)) (concat ids)).
  { apply Forall_forall. intros id Hid. destruct HL as (Hl & _ & _ & _ & _ & _ & Hr). apply in_concat in Hid as (row & Hrow & Hid).
    apply In_nth_error in Hrow as (k & Hk). assert (k < length H)%nat by (rewrite <- Hl; apply nth_error_Some; congruence).
    destruct (Hr (length H - 1 - k)%nat row) as [_ Hrow2]; [|lia|].
    { replace (length H - 1 - (length H - 1 - k))%nat with k by lia. auto. }
    apply In_nth_error in Hid as (j & Hj). destruct (Hrow2 j id Hj) as (d & Hd0 & Hd & _). split; auto.
    assert (Z.to_nat id < length exts)%nat by (apply nth_error_Some; congruence). rewrite (Forall2_length _ _ _ HE). lia. }
  rewrite (proj2 (ids_checked _ _) HF).
  assert (Exy : mapo (assembly_extents checks m) (assemblies m) = Ret exts).
  { assert (G : forall l es, Forall2 (asy_extent m) l es -> (forall a, In a l -> In a (assemblies m)) ->
      mapo (assembly_extents checks m) l = Ret es).
    { induction 1 as [|a e l es Ha _ IH]; intros Hin; auto. cbn [mapo].
      rewrite (assembly_extents_ok m a e) by (try apply HI; auto; apply Hin; now left). cbn [bind].
      rewrite IH by (intros; apply Hin; now right). reflexivity. }
    apply G; auto. }
  rewrite Exy. cbn [bind]. rewrite (grid_of_lattice _ _ _ _ HL). cbn [bind]. rewrite (flatten_lattice _ _ _ _ HL). cbn [bind].
  rewrite (partition_ok _ _ _ _ HL). reflexivity.
Qed.
End Accept.
