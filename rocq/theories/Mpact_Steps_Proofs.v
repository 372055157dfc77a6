(** Every call: what it adds, and that the ids stay valid. *)
From Coq Require Import String.
From Coq Require Import List Arith ZArith Bool Reals Lra Lia.
From Verif Require Import Base Loops Fill Arith Box_Proofs Grid_Model Grid_Spec Grid_Proofs Fvm_Model PinRect_Model PinCyl_Model Mpact_Model Mpact_Spec Mpact_Proofs.
Import ListNotations.
Local Open Scope list_scope.
Local Open Scope R_scope.

(** * Grids *)
Lemma assert_Ret {A} c b (k : outcome A) x : assert c b k = Ret x -> k = Ret x /\ (c = true -> b = true).
Proof. unfold assert. destruct c, b; cbn; intros H; auto; try discriminate. Qed.
Lemma i32_Ret z r : i32 z = Ret r -> r = z /\ (intMin <= z <= intMax)%Z.
Proof.
  unfold i32. destruct (_ && _)%bool eqn:B; [|discriminate]. intros [= <-]. apply andb_true_iff in B as [H1 H2].
  apply Z.leb_le in H1. apply Z.leb_le in H2. auto.
Qed.
Lemma total2 lx ly n : totalNumCells (numCells [lx; ly]) = Ret n ->
  n = ((Z.of_nat (length lx) - 1) * (Z.of_nat (length ly) - 1))%Z.
Proof.
  unfold totalNumCells. cbn [numCells map fold_left bind]. intros H. apply bind_Ret in H as (a & Ea & H).
  apply i32_Ret in Ea as [-> _]. apply i32_Ret in H as [-> _]. lia.
Qed.
Lemma row_boxes_length dxdy : forall row x y bs, row_boxes dxdy row x y = Ret bs -> length bs = length row.
Proof.
  induction row as [|id row IH]; intros x y bs; cbn.
  - intros [= <-]. auto.
  - intros H. apply bind_Ret in H as (d & _ & H). apply bind_Ret in H as (r & Er & [= <-]). cbn. f_equal. eauto.
Qed.
Lemma rows_boxes_n_length dxdy nc : forall rows y bs, rows_boxes_n dxdy nc rows y = Ret bs -> length bs = (length rows * nc)%nat.
Proof.
  induction rows as [|row rows IH]; intros y bs; cbn [rows_boxes_n length].
  - intros [= <-]. auto.
  - destruct (Nat.ltb_spec (length row) nc) as [|L]; [discriminate|].
    intros H. apply bind_Ret in H as (b & Eb & H). apply bind_Ret in H as (id & _ & H). apply bind_Ret in H as (d & _ & H).
    apply bind_Ret in H as (r & Er & [= <-]). rewrite app_length, (row_boxes_length _ _ _ _ _ Eb), (IH _ _ Er), firstn_length. lia.
Qed.
Lemma rows_boxes_n_ids dxdy nc : forall rows y bs, rows_boxes_n dxdy nc rows y = Ret bs -> forall row, In row rows -> row <> [].
Proof.
  induction rows as [|row rows IH]; intros y bs; cbn [rows_boxes_n]; [intros _ ? []|].
  destruct (length row <? nc)%nat; [discriminate|].
  intros H. apply bind_Ret in H as (b & Eb & H). apply bind_Ret in H as (id & Ei & H). apply bind_Ret in H as (d & _ & H).
  apply bind_Ret in H as (r & Er & _). intros row' [<-|Hin]; [|eauto]. intros ->. discriminate.
Qed.
Lemma grid_of_inv checks dxdy ids g : grid_of checks dxdy ids = Ret g ->
  exists row0 boxes lx ly, nth_error ids 0 = Some row0 /\ row0 <> [] /\
    rows_boxes_n dxdy (length row0) (rev ids) 0 = Ret boxes /\ length boxes = (length ids * length row0)%nat /\
    g = [lx; ly] /\ divs_of boxes 0 = Ret lx /\ divs_of boxes 1 = Ret ly /\
    increasing lx /\ increasing ly /\ lx <> [] /\ ly <> [] /\
    (checks = true -> rectangular ids (length ids) (length row0) /\
      (2 <= length lx)%nat /\ (2 <= length ly)%nat /\ length boxes = ((length lx - 1) * (length ly - 1))%nat).
Proof.
  unfold grid_of. intros H. apply bind_Ret in H as (row0 & E0 & H). apply rd_Ret in E0.
  apply assert_Ret in H as [H HA]. apply bind_Ret in H as (n & _ & H). apply bind_Ret in H as (boxes & Eb & H).
  apply bind_Ret in H as (g' & Eg & H).
  assert (Hg : g' = g).
  { destruct checks; [|congruence]. apply bind_Ret in H as (k & _ & H). destruct (k =? _)%Z; congruence. }
  subst g'. cbn [mapo] in Eg. apply bind_Ret in Eg as (lx & Ex & Eg). apply bind_Ret in Eg as (r & Er & [= <-]).
  apply bind_Ret in Er as (ly & Ey & [= <-]).
  assert (R0 : row0 <> []).
  { eapply rows_boxes_n_ids; [exact Eb|]. rewrite <- in_rev. eapply nth_error_In; eauto. }
  assert (Lb := rows_boxes_n_length _ _ _ _ _ Eb). rewrite rev_length in Lb.
  assert (Lp : (0 < length boxes)%nat).
  { rewrite Lb. destruct ids; [discriminate|]. destruct row0; [congruence|]. cbn. lia. }
  assert (D : forall d l, divs_of boxes d = Ret l -> increasing l /\ l <> []).
  { intros d l Hd. unfold divs_of in Hd. apply bind_Ret in Hd as (is & Ei & [= <-]).
    destruct (divs_spec is) as (I1 & _ & _ & I4). split; auto. apply mapo_inv in Ei as [Hl _].
    destruct is as [|i is]; [cbn in Hl; lia|]. destruct (I4 (fst i)) as (y & Hy & _); [now left|].
    intros E. rewrite E in Hy. destruct Hy. }
  destruct (D 0%nat lx Ex) as [Ix Nx]. destruct (D 1%nat ly Ey) as [Iy Ny].
  exists row0, boxes, lx, ly. do 11 (split; auto). intros ->.
  apply bind_Ret in H as (k & Ek & H). destruct (Z.eqb_spec k (Z.of_nat (length boxes))) as [Ekb|]; [|discriminate].
  apply total2 in Ek. destruct lx as [|x1 lx]; [congruence|]. destruct ly as [|y1 ly]; [congruence|]. cbn [length] in *.
  split.
  - split; auto. specialize (HA eq_refl). destruct ids as [|r ids]; [discriminate|]. injection E0 as ->. cbn [tl] in HA.
    constructor; auto. rewrite forallb_forall in HA. apply Forall_forall. intros row Hr. specialize (HA row Hr).
    apply andb_true_iff in HA as [HA _]. now apply Nat.eqb_eq in HA.
  - assert (P : Z.of_nat (length boxes) = (Z.of_nat (length lx) * Z.of_nat (length ly))%Z) by lia.
    destruct lx; [cbn in P; lia|]. destruct ly; [cbn [length] in P; lia|]. cbn [length] in *.
    split; [lia|]. split; [lia|]. apply Nat2Z.inj. rewrite P, Nat2Z.inj_mul. f_equal; lia.
Qed.
Lemma first_last_ex l : l <> [] -> exists a b, first_last l a b.
Proof.
  intros H. unfold first_last. destruct (nth_error l 0) as [a|] eqn:Ea.
  2:{ destruct l; [congruence|discriminate]. }
  destruct (nth_error l (length l - 1)) as [b|] eqn:Eb; [eauto|].
  apply nth_error_None in Eb. destruct l; [congruence|cbn in Eb; lia].
Qed.
Lemma first_last_fun l a b a' b' : first_last l a b -> first_last l a' b' -> a = a' /\ b = b'.
Proof. intros [H1 H2] [H3 H4]. split; congruence. Qed.
Lemma extent_fun g w h w' h' : extent g w h -> extent g w' h' -> w = w' /\ h = h'.
Proof.
  intros (lx & ly & a & b & c & d & -> & F1 & F2 & -> & ->) (lx' & ly' & a' & b' & c' & d' & [= <- <-] & F1' & F2' & -> & ->).
  destruct (first_last_fun _ _ _ _ _ F1 F1') as [-> ->]. destruct (first_last_fun _ _ _ _ _ F2 F2') as [-> ->]. auto.
Qed.
Lemma extent_ex lx ly : lx <> [] -> ly <> [] -> exists w h, extent [lx; ly] w h.
Proof.
  intros H1 H2. destruct (first_last_ex _ H1) as (a & b & F1). destruct (first_last_ex _ H2) as (c & d & F2).
  exists (b - a), (d - c), lx, ly, a, b, c, d. auto.
Qed.
Lemma span_ok l a b : first_last l a b -> span l = Ret (b - a).
Proof. intros [H1 H2]. unfold span. now rewrite (proj2 (rd_Ret _ _ _) H1), (proj2 (rd_Ret _ _ _) H2). Qed.
Lemma extents2_ok g w h : extent g w h -> extents2 g = Ret (w, h).
Proof.
  intros (lx & ly & a & b & c & d & -> & F1 & F2 & -> & ->). unfold extents2. cbn [rd nth_error bind].
  change (rd [lx; ly] 0) with (Ret lx). change (rd [lx; ly] 1) with (Ret ly). cbn [bind].
  now rewrite (span_ok _ _ _ F1), (span_ok _ _ _ F2).
Qed.
Lemma near_refl w h : near w h w h.
Proof. unfold near. pose proof eps_pos. nra. Qed.
Lemma isApprox_near w h w' h' : isApprox (w, h) (w', h') = true <-> near w h w' h'.
Proof. unfold isApprox, near. cbn [fst snd]. apply Rltb_true. Qed.

(** * New objects *)
Section Steps.
Variable stdsort : forall A : Type, (A -> A -> bool) -> list A -> list A.
Variable selfcheck : mesh R -> outcome (mesh R).
Variable at_origin : mesh R -> bool.
Variables checks exit_on_error : bool.
Notation step := (step stdsort selfcheck at_origin checks exit_on_error).
Notation run := (run stdsort selfcheck at_origin checks exit_on_error).

Definition rtm_new (m : model) (p : list (list R) * list Z) : Prop :=
  Forall (exists_in (cells m)) (snd p) /\
  (exists w h, extent (fst p) w h /\
     forall r0, nth_error (rtms m) 0 = Some r0 -> exists w0 h0, extent (fst r0) w0 h0 /\ near w0 h0 w h) /\
  (checks = true -> exists lx ly, fst p = [lx; ly] /\ (2 <= length lx)%nat /\ (2 <= length ly)%nat /\ increasing lx /\ increasing ly /\
     length (snd p) = ((length lx - 1) * (length ly - 1))%nat).
Definition lattice_new (m : model) (l : list axis * list Z) : Prop :=
  Forall (exists_in (rtms m)) (snd l) /\
  exists r0 w0 h0 nx ny, nth_error (rtms m) 0 = Some r0 /\ extent (fst r0) w0 h0 /\ fst l = lattice_grid w0 h0 nx ny /\
    (0 <= nx)%Z /\ (0 < ny)%Z /\ Z.of_nat (length (snd l)) = (nx * ny)%Z.
Definition assembly_new (m : model) (a : list (list R) * list Z) : Prop :=
  Forall (exists_in (lattices m)) (snd a) /\
  exists z bot top, fst a = [z] /\ snd a <> [] /\ length z = S (length (snd a)) /\ nondecreasing z /\ first_last z bot top /\
    (forall a0 z0, nth_error (assemblies m) 0 = Some a0 -> fst a0 = [z0] ->
       forall bot0 top0, first_last z0 bot0 top0 -> Rabs (bot - bot0) <= eps /\ Rabs (top - top0) <= eps) /\
    (forall i j l l', In i (snd a) -> In j (snd a) -> at_ (lattices m) i l -> at_ (lattices m) j l' ->
       map nc (fst l) = map nc (fst l')).
Definition core_new (m : model) (c : list (list R) * list Z) : Prop :=
  Forall (exists_in (assemblies m)) (snd c) /\
  (checks = true -> exists lx ly, fst c = [lx; ly] /\ (2 <= length lx)%nat /\ (2 <= length ly)%nat /\ increasing lx /\ increasing ly /\
     length (snd c) = ((length lx - 1) * (length ly - 1))%nat).

Lemma partition_inv g ch p : partition checks g ch = Ret p -> p = (g, ch) /\
  (checks = true -> totalNumCells (numCells g) = Ret (Z.of_nat (length ch))).
Proof.
  unfold partition. destruct checks; [|intros [= <-]; split; auto; discriminate].
  unfold rect_partition. intros H. apply bind_Ret in H as (n & En & H).
  destruct (Z.eqb_spec n (Z.of_nat (length ch))) as [->|]; [|discriminate]. injection H as <-. auto.
Qed.

(** ** Cells *)
Lemma cell_checks_inv m t id mats : exists b, cell_checks m t id mats = Ret b /\
  (b = true <-> id = (-1)%Z \/ exists x, mesh_at m t id x /\ length mats = length (fv x) /\ Forall (exists_in (materials m)) mats).
Proof.
  unfold cell_checks. destruct (Z.eqb_spec id (-1)) as [->|Hid]; [exists true; split; auto; tauto|].
  assert (G : forall ms, (mesh_at m t id = at_ ms id) -> exists b,
    (if (id <? 0)%Z || (size ms <=? id)%Z then Ret false
     else let* x := rdz ms id in
       if negb (length (fv x) =? length mats)%nat then Ret false
       else Ret (forallb (fun i => negb ((i <? 0) || (size (materials m) <=? i)))%Z mats)) = Ret b /\
    (b = true <-> id = (-1)%Z \/ exists x, mesh_at m t id x /\ length mats = length (fv x) /\ Forall (exists_in (materials m)) mats)).
  { intros ms Em. rewrite Em. destruct (_ || _)%bool eqn:B.
    - exists false. split; auto. split; [discriminate|]. intros [|(x & Hx & _)]; [contradiction|].
      apply at_exists, out_of_range in Hx. congruence.
    - apply out_of_range in B. apply exists_at in B as (x & Hx). pose proof (proj1 (at_rdz _ _ _) Hx) as Er. rewrite Er. cbn [bind].
      destruct (Nat.eqb_spec (length (fv x)) (length mats)) as [El|El]; cbn [negb].
      + eexists. split; [reflexivity|]. rewrite forallb_forall. split.
        * intros H. right. exists x. do 2 (split; auto). apply Forall_forall. intros i Hi. apply out_of_range.
          apply negb_true_iff. auto.
        * intros [|(y & Hy & _ & HF)]; [contradiction|]. intros i Hi. apply negb_true_iff. apply out_of_range.
          rewrite Forall_forall in HF. auto.
      + exists false. split; auto. split; [discriminate|]. intros [|(y & Hy & Hl & _)]; [contradiction|].
        exfalso. apply El. assert (x = y) by (destruct Hx, Hy; congruence). subst. auto. }
  destruct t; cbn [meshes_of]; try (apply G; reflexivity);
    (exists false; split; auto; split; [discriminate|]; intros [|(x & [] & _)]; contradiction).
Qed.
Theorem addCoarseCell_ok m ext t id mats :
  (good_cell m ext t id mats -> addCoarseCell exit_on_error m ext t id mats = Ret (push_cell (mkCell ext t id mats) m, Z.of_nat (length (cells m)))) /\
  (~ good_cell m ext t id mats -> refused exit_on_error m (addCoarseCell exit_on_error m ext t id mats)).
Proof.
  unfold addCoarseCell, good_cell, refused.
  destruct (Rltb 0 (fst ext)) eqn:B1; cbn [negb orb].
  2:{ split; [|reflexivity]. intros [H _]. apply Rltb_false in B1. lra. }
  destruct (Rltb 0 (snd ext)) eqn:B2; cbn [negb].
  2:{ split; [|reflexivity]. intros (_ & H & _). apply Rltb_false in B2. lra. }
  apply Rltb_true in B1. apply Rltb_true in B2.
  destruct (cell_checks_inv m t id mats) as (b & -> & Hb). cbn [bind]. destruct b.
  - split; [reflexivity|]. intros H. exfalso. apply H. do 2 (split; auto). tauto.
  - split; [|reflexivity]. intros (_ & _ & H). apply Hb in H. discriminate.
Qed.
Lemma addCoarseCell_inv m ext t id mats m' r : addCoarseCell exit_on_error m ext t id mats = Ret (m', r) ->
  (exit_on_error = false /\ r = (-1)%Z /\ m' = m) \/
  (r = Z.of_nat (length (cells m)) /\ m' = push_cell (mkCell ext t id mats) m /\ good_cell m ext t id mats).
Proof.
  intros H. unfold addCoarseCell in H. destruct (negb (Rltb 0 (fst ext))) eqn:B1; cbn [orb] in H.
  { apply error_Ret in H as [-> [= -> ->]]. auto. }
  destruct (negb (Rltb 0 (snd ext))) eqn:B2.
  { apply error_Ret in H as [-> [= -> ->]]. auto. }
  apply negb_false_iff, Rltb_true in B1. apply negb_false_iff, Rltb_true in B2.
  destruct (cell_checks_inv m t id mats) as (b & Eb & Hb). rewrite Eb in H. cbn [bind] in H. destruct b.
  - injection H as <- <-. right. split; auto. split; auto. split; auto. split; auto. tauto.
  - apply error_Ret in H as [-> [= -> ->]]. auto.
Qed.

(** ** RTMs *)
Lemma collect_inv cs : forall ids u xy r, collect exit_on_error cs ids u xy = Ret r ->
  (r = None /\ exit_on_error = false /\ ~ Forall (exists_in cs) ids) \/ (exists u' xy', r = Some (u', xy') /\ Forall (exists_in cs) ids).
Proof.
  induction ids as [|id ids IH]; intros u xy r; cbn [collect].
  - intros [= <-]. right. eauto.
  - destruct (_ || _)%bool eqn:B.
    + intros H. apply error_Ret in H as [-> ->]. left. do 2 (split; auto). inversion 1 as [|? ? H1 H2]; subst.
      apply out_of_range in H1. congruence.
    + apply out_of_range in B. destruct (existsb (Z.eqb id) u).
      * intros H. apply IH in H as [(-> & He & Hn)|(u' & xy' & -> & HF)].
        -- left. do 2 (split; auto). inversion 1; auto.
        -- right. eauto.
      * intros H. apply bind_Ret in H as (c & _ & H). apply IH in H as [(-> & He & Hn)|(u' & xy' & -> & HF)].
        -- left. do 2 (split; auto). inversion 1; auto.
        -- right. eauto.
Qed.
Lemma addRTM_inv m ids m' r : consistent checks m -> addRTM checks exit_on_error m ids = Ret (m', r) ->
  (exit_on_error = false /\ r = (-1)%Z /\ m' = m) \/
  (exists p, r = Z.of_nat (length (rtms m)) /\ m' = push_rtm p m /\ Forall (exists_in (cells m)) (concat ids) /\
     (snd p = concat (rev ids) \/ exit_on_error = false /\ snd p = []) /\ rtm_new m p).
Proof.
  intros HC H. unfold addRTM in H. apply bind_Ret in H as (q & Eq & H). apply collect_inv in Eq as [(-> & He & Hn)|(u & xy & -> & HF)].
  { injection H as <- <-. auto. }
  apply bind_Ret in H as (ren & Eren & H). apply bind_Ret in H as (g & Eg & H). apply bind_Ret in H as (ok & Eok & H).
  destruct (grid_of_inv _ _ _ _ Eg) as (row0 & boxes & lx & ly & E0 & N0 & Eb & Lb & -> & _ & _ & Ix & Iy & Nx & Ny & HK).
  destruct (extent_ex lx ly Nx Ny) as (w & h & Hext).
  destruct ok; cbn [negb] in H.
  2:{ apply error_Ret in H as [-> [= -> ->]]. auto. }
  right. apply bind_Ret in H as (flat & Ef & H). apply bind_Ret in H as (p & Ep & [= <- <-]).
  apply partition_inv in Ep as [-> Hp]. exists ([lx; ly], flat). do 2 (split; auto). split; auto. split.
  { apply flatten_inv in Ef as [(nr & nc & _ & _ & _ & ->)|[? ->]]; auto. }
  split; [|split].
  - cbn [snd]. rewrite Forall_forall in *. intros id Hid. apply HF. eapply flatten_ids; eauto.
  - exists w, h. split; auto. intros r0 Er0. destruct (rtms m) as [|r1 rs] eqn:Er; [discriminate|].
    injection Er0 as ->. destruct (rtm_extents _ _ HC r0 r0) as (w0 & h0 & w1 & h1 & X0 & _); [rewrite Er; auto|rewrite Er; now left|].
    exists w0, h0. split; auto. rewrite (extents2_ok _ _ _ X0), (extents2_ok _ _ _ Hext) in Eok. cbn [bind] in Eok.
    apply isApprox_near. congruence.
  - intros C. destruct (HK C) as (_ & L1 & L2 & L3). specialize (Hp C). apply total2 in Hp.
    exists lx, ly. do 5 (split; auto). cbn [snd]. apply Nat2Z.inj. rewrite Hp, Nat2Z.inj_mul. f_equal; lia.
Qed.

(** ** Lattices *)
Lemma addLattice_inv m ids m' r : consistent checks m -> addLattice checks exit_on_error m ids = Ret (m', r) ->
  (exit_on_error = false /\ r = (-1)%Z /\ m' = m) \/
  (exists l nr nc, r = Z.of_nat (length (lattices m)) /\ m' = push_lattice l m /\ Forall (exists_in (rtms m)) (concat ids) /\
     rectangular ids nr nc /\ snd l = concat (rev ids) /\ map Grid_Model.nc (fst l) = [Z.of_nat nc; Z.of_nat nr] /\ lattice_new m l).
Proof.
  intros HC H. unfold addLattice in H. destruct (existsb _ ids) eqn:B.
  { apply error_Ret in H as [-> [= -> ->]]. auto. }
  apply ids_checked in B. apply bind_Ret in H as (r0 & Er0 & H). apply rd_Ret in Er0.
  apply bind_Ret in H as (sp & Esp & H). apply bind_Ret in H as (row0 & E0 & H). apply rd_Ret in E0.
  destruct (existsb _ (tl ids)) eqn:Brag.
  { apply error_Ret in H as [-> [= -> ->]]. auto. }
  apply (ragged _ _ E0) in Brag. apply assert_Ret in H as [H HA]. apply bind_Ret in H as (flat & Ef & H).
  apply bind_Ret in H as (l & El & [= <- <-]). right.
  destruct (rtm_extents _ _ HC r0 r0) as (w0 & h0 & w1 & h1 & X0 & _); [auto|eapply nth_error_In; eauto|].
  rewrite (extents2_ok _ _ _ X0) in Esp. injection Esp as <-. cbn [fst snd] in *.
  assert (Hl : l = (lattice_grid w0 h0 (Z.of_nat (length row0)) (Z.of_nat (length ids)), flat)).
  { destruct checks; [|injection El as <-; reflexivity]. unfold regular_partition in El. apply bind_Ret in El as (k & _ & El).
    destruct (k =? _)%Z; [|discriminate]. injection El as <-. reflexivity. }
  assert (Hi : (0 < length ids)%nat) by (destruct ids; [discriminate|cbn; lia]).
  pose proof Ef as Ef'. assert (Hflat : flat = concat (rev ids)).
  { apply flatten_inv in Ef as [(nr & nc & _ & _ & _ & ->)|[He ->]]; auto.
    unfold flattenLattice in Ef'. rewrite (proj2 (rd_Ret _ _ _) E0) in Ef'. cbn [bind] in Ef'.
    rewrite (proj2 (ragged _ _ E0)) in Ef' by auto. apply bind_Ret in Ef' as (k & Ek & Ef'). apply i32_Ret in Ek as [_ Hk].
    enough (Eq : flattenLattice exit_on_error ids = Ret (concat (rev ids))).
    { unfold flattenLattice in Eq. rewrite (proj2 (rd_Ret _ _ _) E0) in Eq. cbn [bind] in Eq.
      rewrite (proj2 (ragged _ _ E0)) in Eq by auto. rewrite i32_ok in Eq by (unfold in_i32; auto). cbn [bind] in Eq. congruence. }
    eapply flatten_ok; eauto. lia. }
  exists l, (length ids), (length row0). subst l. do 2 (split; auto). split; auto. split; auto. split; auto. split; auto. split.
  - cbn [snd]. rewrite Forall_forall in *. intros id Hid. apply B. eapply flatten_ids; eauto.
  - exists r0, w0, h0, (Z.of_nat (length row0)), (Z.of_nat (length ids)). do 3 (split; auto). split; [lia|]. split; [lia|].
    cbn [snd]. rewrite Hflat, (flat_length _ _ _ Brag). lia.
Qed.

(** ** Assemblies *)
Lemma is_sorted_ok z : is_sorted z = true <-> nondecreasing z.
Proof.
  induction z as [|a z IH]; cbn [is_sorted].
  - split; auto. intros _ i j x y _ H. destruct i; discriminate.
  - destruct z as [|b z].
    + split; auto. intros _ [|[|i]] [|[|j]] x y L H1 H2; cbn in *; try lia; discriminate.
    + rewrite andb_true_iff, negb_true_iff, IH. clear IH. rewrite Rltb_false. split.
      * intros [Hab H] [|i] [|j] x y L H1 H2; try lia.
        -- cbn in H1, H2. injection H1 as <-. destruct j as [|j]; [cbn in H2; injection H2 as <-; lra|].
           apply Rle_trans with b; [lra|]. apply (H 0%nat (S j)); auto. lia.
        -- apply (H i j); auto. lia.
      * intros H. split; [apply (H 0 1)%nat; auto|]. intros i j x y L H1 H2. apply (H (S i) (S j)); auto. lia.
Qed.
Lemma off_ok x : off x = false <-> Rabs x <= eps.
Proof. apply Rltb_false. Qed.
Lemma counts_ok l w h nx ny : fst l = lattice_grid w h nx ny -> counts l = Ret (nx, ny).
Proof. destruct l as [g ch]. cbn. intros ->. reflexivity. Qed.
Lemma addAssembly_inv m ids z m' r : ids_valid m -> consistent checks m -> addAssembly checks exit_on_error m ids z = Ret (m', r) ->
  (exit_on_error = false /\ r = (-1)%Z /\ m' = m) \/
  (r = Z.of_nat (length (assemblies m)) /\ m' = push_assembly ([z], ids) m /\ assembly_new m ([z], ids) /\
   (exists bot top, first_last z bot top /\ (Rabs bot <= eps \/ Rabs (bot + 1 / 2) <= eps /\ Rabs (top - 1 / 2) <= eps))).
Proof.
  intros HV HC H. unfold addAssembly in H. destruct (existsb _ ids) eqn:B.
  { apply error_Ret in H as [-> [= -> ->]]. auto. }
  assert (BF : Forall (exists_in (lattices m)) ids).
  { apply existsb_false_iff in B. eapply Forall_impl; [|exact B]. intros a Ha. now apply out_of_range. }
  destruct (Nat.eqb_spec (length ids + 1) (length z)) as [Lz|]; cbn [negb] in H.
  2:{ apply error_Ret in H as [-> [= -> ->]]. auto. }
  destruct (is_sorted z) eqn:Sz; cbn [negb] in H.
  2:{ apply error_Ret in H as [-> [= -> ->]]. auto. }
  apply is_sorted_ok in Sz. apply bind_Ret in H as (zf & Ef & H). apply bind_Ret in H as (zb & Ezb & H).
  apply rd_Ret in Ef. apply rd_Ret in Ezb.
  destruct (_ && _)%bool eqn:B0 in H.
  { apply error_Ret in H as [-> [= -> ->]]. auto. }
  apply bind_Ret in H as (same & Es & H). destruct same; cbn [negb] in H.
  2:{ apply error_Ret in H as [-> [= -> ->]]. auto. }
  apply bind_Ret in H as (id0 & Ei & H). apply bind_Ret in H as (l0 & El0 & H). apply bind_Ret in H as (n0 & En0 & H).
  apply bind_Ret in H as (ns & Ens & H). destruct (existsb _ ns) eqn:Bn.
  { apply error_Ret in H as [-> [= -> ->]]. auto. }
  apply bind_Ret in H as (a & Ea & [= <- <-]). apply partition_inv in Ea as [-> _]. right. do 2 (split; auto). split.
  - split; auto. exists z, zf, zb. split; auto. cbn [snd fst]. split.
    { intros ->. discriminate. }
    split; [lia|]. split; auto. split; [split; auto|]. split.
    + intros a0 z0 Ea0 Ez0 bot0 top0 [F1 F2]. destruct (assemblies m) as [|a1 as_]; [discriminate|]. injection Ea0 as ->.
      rewrite Ez0 in Es. change (rd [z0] 0) with (Ret z0) in Es. cbn [bind] in Es.
      rewrite (proj2 (rd_Ret _ _ _) F1), (proj2 (rd_Ret _ _ _) F2) in Es. cbn [bind] in Es.
      assert (Bo : (off (zb - top0) || off (zf - bot0))%bool = false).
      { destruct (off (zb - top0) || off (zf - bot0))%bool; [discriminate|reflexivity]. }
      apply orb_false_iff in Bo as [B1 B2]. split; now apply off_ok.
    + apply mapo_inv in Ens as [_ Hns]. apply existsb_false_iff in Bn. rewrite Forall_forall in Bn.
      assert (G : forall i l, In i ids -> at_ (lattices m) i l -> map nc (fst l) = [fst n0; snd n0]).
      { intros i l Hi Hl. apply In_nth_error in Hi as (k & Hk). destruct (Hns _ _ Hk) as (n & En & Hn).
        rewrite (proj1 (at_rdz _ _ _) Hl) in En. cbn [bind] in En.
        destruct (lattice_shape _ _ HC l) as (r0 & w0 & h0 & nx & ny & _ & _ & Hg & _); [eapply at_In; eauto|].
        rewrite (counts_ok _ _ _ _ _ Hg) in En. injection En as <-. specialize (Bn (nx, ny)). cbn [fst snd] in Bn.
        rewrite Hg. cbn. apply nth_error_In in Hn. specialize (Bn Hn). apply negb_false_iff, andb_true_iff in Bn as [B1 B2].
        apply Z.eqb_eq in B1. apply Z.eqb_eq in B2. congruence. }
      intros i j l l' Hi Hj Hl Hl'. rewrite (G i l), (G j l'); auto.
  - exists zf, zb. split; [split; auto|]. apply andb_false_iff in B0 as [B0|B0].
    + apply orb_false_iff in B0 as [B1 B2]. right. split; now apply off_ok.
    + left. now apply off_ok.
Qed.

(** ** Core *)
Lemma addCore_inv m ids m' r : addCore checks exit_on_error m ids = Ret (m', r) ->
  (exit_on_error = false /\ r = (-1)%Z /\ m' = m) \/
  (exists c, r = 0%Z /\ snd (core m) = [] /\ m' = set_core c m /\ Forall (exists_in (assemblies m)) (concat ids) /\
     (snd c = concat (rev ids) \/ exit_on_error = false /\ snd c = []) /\ core_new m c).
Proof.
  intros H. unfold addCore in H. destruct (Nat.eqb_spec (length (snd (core m))) 0) as [L0|]; cbn [negb] in H.
  2:{ apply error_Ret in H as [-> [= -> ->]]. auto. }
  destruct (existsb _ ids) eqn:B.
  { apply error_Ret in H as [-> [= -> ->]]. auto. }
  apply ids_checked in B. apply bind_Ret in H as (xy & _ & H). apply bind_Ret in H as (g & Eg & H).
  apply bind_Ret in H as (flat & Ef & H). apply bind_Ret in H as (c & Ec & [= <- <-]). apply partition_inv in Ec as [-> Hp].
  destruct (grid_of_inv _ _ _ _ Eg) as (row0 & boxes & lx & ly & E0 & N0 & Eb & Lb & -> & _ & _ & Ix & Iy & Nx & Ny & HK).
  right. exists ([lx; ly], flat). split; auto. split; [now apply length_zero_iff_nil|]. do 2 (split; auto). split.
  { apply flatten_inv in Ef as [(nr & nc & _ & _ & _ & ->)|[? ->]]; auto. }
  split.
  - cbn [snd]. rewrite Forall_forall in *. intros id Hid. apply B. eapply flatten_ids; eauto.
  - intros C. destruct (HK C) as (_ & L1 & L2 & L3). specialize (Hp C). apply total2 in Hp.
    exists lx, ly. do 5 (split; auto). cbn [snd]. apply Nat2Z.inj. rewrite Hp, Nat2Z.inj_mul. f_equal; lia.
Qed.

(** ** Meshes *)
Lemma addRectangularPinMesh_inv qs w h nx ny qs' r : addRectangularPinMesh stdsort eps exit_on_error qs w h nx ny = Ret (qs', r) ->
  prefix qs qs'.
Proof.
  unfold addRectangularPinMesh. destruct (negb _).
  { intros H. apply error_Ret in H as [_ [= -> ->]]. apply prefix_app. }
  destruct (_ || _)%bool.
  { intros H. apply error_Ret in H as [_ [= -> ->]]. apply prefix_app. }
  intros H. apply bind_Ret in H as (? & _ & H). apply bind_Ret in H as (? & _ & H). apply bind_Ret in H as (? & _ & H).
  apply bind_Ret in H as (msh & _ & [= <- <-]). apply prefix_app.
Qed.
Lemma addCylindricalPinMesh_inv qs q8s p radii rings na order qs' q8s' r :
  addCylindricalPinMesh stdsort selfcheck eps exit_on_error qs q8s p radii rings na order = Ret (qs', q8s', r) ->
  (exit_on_error = false /\ r = (-1)%Z /\ qs' = qs /\ q8s' = q8s) \/
  (exists x, order = 1%Z /\ qs' = qs ++ [x] /\ q8s' = q8s /\ r = Z.of_nat (length qs)) \/
  (exists x, order = 2%Z /\ qs' = qs /\ q8s' = q8s ++ [x] /\ r = Z.of_nat (length q8s)).
Proof.
  unfold addCylindricalPinMesh. destruct (negb (_ || _)) eqn:Bo.
  { intros H. apply error_Ret in H as [-> [= -> -> ->]]. auto. }
  apply negb_false_iff, orb_true_iff in Bo.
  do 4 (match goal with |- (if ?b then _ else _) = _ -> _ => destruct b end;
    [intros H; apply error_Ret in H as [-> [= -> -> ->]]; auto|]).
  intros H. apply bind_Ret in H as ([ra rr] & _ & H). destruct (Z.eqb_spec order 1) as [O1|O1].
  - apply bind_Ret in H as (eq & _ & H). destruct (existsb _ eq).
    { apply error_Ret in H as [-> [= -> -> ->]]. auto. }
    apply bind_Ret in H as (? & _ & H). apply bind_Ret in H as (? & _ & H). apply bind_Ret in H as (? & _ & H).
    apply bind_Ret in H as (? & _ & H). apply bind_Ret in H as (msh & _ & [= <- <- <-]). eauto 10.
  - apply bind_Ret in H as (eq & _ & H). destruct (existsb _ eq).
    { apply error_Ret in H as [-> [= -> -> ->]]. auto. }
    apply bind_Ret in H as (? & _ & H). apply bind_Ret in H as (? & _ & H). apply bind_Ret in H as (? & _ & H).
    apply bind_Ret in H as (? & _ & H). apply bind_Ret in H as (msh & _ & [= <- <- <-]).
    right. right. exists msh. split; [|auto]. destruct Bo as [Bo|Bo]; [discriminate|]. now apply Z.eqb_eq in Bo.
Qed.

(** * Extensions *)
Lemma extends_refl m : extends m m.
Proof. constructor; auto using prefix_refl. Qed.
Lemma extends_trans a b c : extends a b -> extends b c -> extends a c.
Proof.
  intros [A1 A2 A3 A4 A5 A6 A7 A8 A9 A10] [B1 B2 B3 B4 B5 B6 B7 B8 B9 B10]. constructor; try (eapply prefix_trans; eassumption).
  destruct A1 as [A1|A1]; auto. destruct B1 as [B1|B1]; [left; congruence|]. right. congruence.
Qed.
Ltac ext := constructor; cbn; auto using prefix_refl, prefix_app.
Lemma extends_push_cell c m : extends m (push_cell c m). Proof. ext. Qed.
Lemma extends_push_rtm c m : extends m (push_rtm c m). Proof. ext. Qed.
Lemma extends_push_lattice c m : extends m (push_lattice c m). Proof. ext. Qed.
Lemma extends_push_assembly c m : extends m (push_assembly c m). Proof. ext. Qed.
Lemma extends_push_material c m : extends m (push_material c m). Proof. ext. Qed.
Lemma extends_set_core c m : snd (core m) = [] -> extends m (set_core c m). Proof. ext. Qed.
Lemma extends_set_meshes t q t6 q8 m : prefix (tris m) t -> prefix (quads m) q -> prefix (tri6s m) t6 -> prefix (quad8s m) q8 ->
  extends m (set_meshes t q t6 q8 m). Proof. ext. Qed.

Lemma good_cell_ext m m' e t id mats : extends m m' -> good_cell m e t id mats -> good_cell m' e t id mats.
Proof.
  intros E (H1 & H2 & H3). split; auto. split; auto. destruct H3 as [H3|(x & Hx & Hl & HF)]; auto. right. exists x. split; [|split]; auto.
  - destruct E. destruct t; cbn in *; auto; eapply prefix_at; eauto.
  - eapply Forall_impl; [|exact HF]. intros i. apply prefix_exists. apply E.
Qed.
Definition inv m := ids_valid m /\ consistent checks m.

Lemma inv_ext m m' : inv m -> extends m m' ->
  (core m' = core m \/ core_new m' (core m')) ->
  (forall a, In a (assemblies m') -> In a (assemblies m) \/ assembly_new m' a) ->
  (forall l, In l (lattices m') -> In l (lattices m) \/ lattice_new m' l) ->
  (forall r, In r (rtms m') -> In r (rtms m) \/ rtm_new m' r) ->
  (forall c, In c (cells m') -> In c (cells m) \/ good_cell m' (xy_extents c) (mtype c) (mesh_id c) (material_ids c)) ->
  inv m'.
Proof.
  intros [HV HC] E K1 K2 K3 K4 K5.
  assert (FE : forall A (l l' : list A) ids, prefix l l' -> Forall (exists_in l) ids -> Forall (exists_in l') ids).
  { intros A l l' ids Hp. apply Forall_impl. intros i. now apply prefix_exists. }
  split; constructor.
  - destruct K1 as [K1|[K1 _]]; auto. rewrite K1. eapply FE; [apply E|apply HV].
  - intros a Ha. destruct (K2 a Ha) as [Hin|[Hn _]]; auto. eapply FE; [apply E|]. now apply HV.
  - intros a Ha. destruct (K3 a Ha) as [Hin|[Hn _]]; auto. eapply FE; [apply E|]. now apply HV.
  - intros a Ha. destruct (K4 a Ha) as [Hin|[Hn _]]; auto. eapply FE; [apply E|]. now apply HV.
  - intros c Hc. destruct (K5 c Hc) as [Hin|Hn]; auto. eapply good_cell_ext; eauto. now apply HV.
  - intros r0 r H0 Hr. destruct (K4 r Hr) as [Hin|(_ & (w & h & X & Hw) & _)].
    + apply (rtm_extents _ _ HC); auto. eapply prefix_head; [apply E| |eauto]. intros Z. rewrite Z in Hin. destruct Hin.
    + destruct (Hw r0 H0) as (w0 & h0 & X0 & Hn). exists w0, h0, w, h. auto.
  - intros l Hl. destruct (K3 l Hl) as [Hin|(_ & Hn)]; auto.
    destruct (lattice_shape _ _ HC l Hin) as (r0 & w0 & h0 & nx & ny & H0 & Hr). exists r0, w0, h0, nx, ny. split; auto.
    eapply prefix_head'; [apply E|auto].
  - intros a Ha. destruct (K2 a Ha) as [Hin|(_ & Hn)]; auto.
    destruct (assembly_shape _ _ HC a Hin) as (z & bot & top & H1 & H2 & H3 & H4 & H5 & H6 & H7).
    exists z, bot, top. do 5 (split; auto). split.
    + intros a0 z0 H0. apply H6. eapply prefix_head; [apply E| |eauto]. intros Z. rewrite Z in Hin. destruct Hin.
    + intros i j l l' Hi Hj Hl Hl'. pose proof (assembly_ids _ HV a Hin) as HF. rewrite Forall_forall in HF.
      apply (H7 i j l l'); auto; (eapply prefix_at_inv; [apply E|apply HF; auto|auto]).
  - intros C r Hr. destruct (K4 r Hr) as [Hin|(_ & _ & Hn)]; auto. now apply (rtm_children _ _ HC).
  - intros C Hne. destruct K1 as [K1|[_ K1]]; auto. rewrite K1 in *. now apply (core_children _ _ HC).
Qed.
Lemma rtm_new_ext m p : rtm_new m p -> rtm_new (push_rtm p m) p.
Proof.
  intros (H1 & (w & h & X & Hw) & H3). split; [|split]; auto. exists w, h. split; auto. cbn. intros r0 H0.
  destruct (rtms m) as [|r1 rs]; cbn in H0; injection H0 as <-; [|now apply Hw]. exists w, h. split; auto. apply near_refl.
Qed.
Lemma assembly_new_ext m a : assembly_new m a -> assembly_new (push_assembly a m) a.
Proof.
  intros (H1 & z & bot & top & K1 & K2 & K3 & K4 & K5 & K6 & K7). split; auto. exists z, bot, top. do 5 (split; auto). split; auto.
  cbn. intros a0 z0 H0 Hz bot0 top0 F. destruct (assemblies m) as [|a1 as_]; cbn in H0; injection H0 as <-.
  - rewrite K1 in Hz. injection Hz as <-. destruct (first_last_fun _ _ _ _ _ K5 F) as [<- <-].
    rewrite !Rminus_diag_eq, Rabs_R0 by auto. pose proof eps_pos. lra.
  - eapply K6; eauto. reflexivity.
Qed.
Ltac keep := cbn; intros; first [now left|match goal with H : In _ (_ ++ [_]) |- _ => apply in_app_iff in H as [H|[<-|[]]]; [now left|right] end].
Lemma inv_push_cell m e t id mats : inv m -> good_cell m e t id mats -> inv (push_cell (mkCell e t id mats) m).
Proof.
  intros HI G. apply (inv_ext m); auto using extends_push_cell; try (keep; fail).
  cbn. intros c Hc. apply in_app_iff in Hc as [Hc|[<-|[]]]; auto.
Qed.
Lemma inv_push_rtm m p : inv m -> rtm_new m p -> inv (push_rtm p m).
Proof.
  intros HI G. apply (inv_ext m); auto using extends_push_rtm; try (keep; fail).
  cbn. intros c Hc. apply in_app_iff in Hc as [Hc|[<-|[]]]; auto. right. now apply rtm_new_ext.
Qed.
Lemma inv_push_lattice m p : inv m -> lattice_new m p -> inv (push_lattice p m).
Proof.
  intros HI G. apply (inv_ext m); auto using extends_push_lattice; try (keep; fail).
  cbn. intros c Hc. apply in_app_iff in Hc as [Hc|[<-|[]]]; auto.
Qed.
Lemma inv_push_assembly m p : inv m -> assembly_new m p -> inv (push_assembly p m).
Proof.
  intros HI G. apply (inv_ext m); auto using extends_push_assembly; try (keep; fail).
  cbn. intros c Hc. apply in_app_iff in Hc as [Hc|[<-|[]]]; auto. right. now apply assembly_new_ext.
Qed.
Lemma inv_set_core m c : inv m -> snd (core m) = [] -> core_new m c -> inv (set_core c m).
Proof. intros HI H0 G. apply (inv_ext m); auto using extends_set_core; keep. Qed.
Lemma inv_push_material m x : inv m -> inv (push_material x m).
Proof. intros HI. apply (inv_ext m); auto using extends_push_material; keep. Qed.
Lemma inv_set_meshes t q t6 q8 m : inv m -> prefix (tris m) t -> prefix (quads m) q -> prefix (tri6s m) t6 -> prefix (quad8s m) q8 ->
  inv (set_meshes t q t6 q8 m).
Proof. intros HI H1 H2 H3 H4. apply (inv_ext m); auto using extends_set_meshes; keep. Qed.
Lemma inv_empty : inv empty_model.
Proof. split; constructor; cbn; try contradiction; try constructor; intros; solve [discriminate|contradiction|congruence]. Qed.
Lemma set_meshes_same m : set_meshes (tris m) (quads m) (tri6s m) (quad8s m) m = m.
Proof. destruct m. reflexivity. Qed.

(** * All calls *)
Definition keeps (m m' : model) := inv m' /\ extends m m'.
Lemma keeps_refl m : inv m -> keeps m m. Proof. split; auto using extends_refl. Qed.
Lemma keeps_trans a b c : keeps a b -> keeps b c -> keeps a c.
Proof. intros [_ E1] [I2 E2]. split; auto. eapply extends_trans; eauto. Qed.
Lemma keeps_cell m e t id mats m' r : inv m -> addCoarseCell exit_on_error m e t id mats = Ret (m', r) -> keeps m m'.
Proof.
  intros HI H. apply addCoarseCell_inv in H as [(_ & _ & ->)|(_ & -> & G)]; [now apply keeps_refl|].
  split; [now apply inv_push_cell|apply extends_push_cell].
Qed.
Lemma keeps_rtm m ids m' r : inv m -> addRTM checks exit_on_error m ids = Ret (m', r) -> keeps m m'.
Proof.
  intros HI H. apply addRTM_inv in H as [(_ & _ & ->)|(p & _ & -> & _ & _ & G)]; [now apply keeps_refl| |apply HI].
  split; [now apply inv_push_rtm|apply extends_push_rtm].
Qed.
Lemma keeps_lattice m ids m' r : inv m -> addLattice checks exit_on_error m ids = Ret (m', r) -> keeps m m'.
Proof.
  intros HI H. apply addLattice_inv in H as [(_ & _ & ->)|(p & ? & ? & _ & -> & _ & _ & _ & _ & G)]; [now apply keeps_refl| |apply HI].
  split; [now apply inv_push_lattice|apply extends_push_lattice].
Qed.
Lemma keeps_assembly m ids z m' r : inv m -> addAssembly checks exit_on_error m ids z = Ret (m', r) -> keeps m m'.
Proof.
  intros HI H. apply addAssembly_inv in H as [(_ & _ & ->)|(_ & -> & G & _)]; [now apply keeps_refl| |apply HI|apply HI].
  split; [now apply inv_push_assembly|apply extends_push_assembly].
Qed.
Lemma keeps_core m ids m' r : inv m -> addCore checks exit_on_error m ids = Ret (m', r) -> keeps m m'.
Proof.
  intros HI H. apply addCore_inv in H as [(_ & _ & ->)|(p & _ & H0 & -> & _ & _ & G)]; [now apply keeps_refl|].
  split; [now apply inv_set_core|now apply extends_set_core].
Qed.
Lemma keeps_cyl m p r n na o m' k : inv m -> addCylPin stdsort selfcheck exit_on_error m p r n na o = Ret (m', k) -> keeps m m'.
Proof.
  intros HI H. unfold addCylPin in H. apply bind_Ret in H as ([[q q8] id] & E & [= <- <-]).
  assert (P : prefix (quads m) q /\ prefix (quad8s m) q8).
  { apply addCylindricalPinMesh_inv in E as [(_ & _ & -> & ->)|[(x & _ & -> & -> & _)|(x & _ & -> & -> & _)]];
      auto using prefix_refl, prefix_app. }
  destruct P. split; [apply inv_set_meshes|apply extends_set_meshes]; auto using prefix_refl.
Qed.
Lemma for_keeps (f : nat -> model -> outcome model) : (forall i m m', inv m -> f i m = Ret m' -> keeps m m') ->
  forall n i m m', inv m -> for_ n i f m = Ret m' -> keeps m m'.
Proof.
  intros Hf. induction n as [|n IH]; intros i m m' HI H; cbn in H.
  - injection H as <-. now apply keeps_refl.
  - apply bind_Ret in H as (m1 & E1 & H). pose proof (Hf _ _ _ HI E1) as K. eapply keeps_trans; [exact K|]. eapply IH; [apply K|exact H].
Qed.
Theorem step_keeps m o m' r : inv m -> o <> Clear -> step m o = Ret (m', r) -> keeps m m'.
Proof.
  intros HI Ho H. destruct o; cbn in H; try congruence;
    eauto using keeps_cell, keeps_rtm, keeps_lattice, keeps_assembly, keeps_core, keeps_cyl.
  - unfold addMaterial in H. apply bind_Ret in H as (? & _ & [= <- <-]). split; [now apply inv_push_material|apply extends_push_material].
  - unfold addTriMesh in H. apply assert_Ret in H as [[= <- <-] _]. split; [apply inv_set_meshes|apply extends_set_meshes]; auto using prefix_refl, prefix_app.
  - unfold addQuadMesh in H. apply assert_Ret in H as [[= <- <-] _]. split; [apply inv_set_meshes|apply extends_set_meshes]; auto using prefix_refl, prefix_app.
  - unfold addTri6Mesh in H. apply assert_Ret in H as [[= <- <-] _]. split; [apply inv_set_meshes|apply extends_set_meshes]; auto using prefix_refl, prefix_app.
  - unfold addQuad8Mesh in H. apply assert_Ret in H as [[= <- <-] _]. split; [apply inv_set_meshes|apply extends_set_meshes]; auto using prefix_refl, prefix_app.
  - unfold addRectPin in H. apply bind_Ret in H as ([q id] & E & [= <- <-]). apply addRectangularPinMesh_inv in E.
    split; [apply inv_set_meshes|apply extends_set_meshes]; auto using prefix_refl.
  - unfold addCylindricalPinCell in H. apply bind_Ret in H as ([m1 id] & E & H). cbn [fst snd] in H.
    pose proof (keeps_cyl _ _ _ _ _ _ _ _ HI E) as K.
    destruct (negb _); [apply error_Ret in H as [_ [= -> ->]]; auto|].
    destruct (find_names _ _) as [idx|]; [|apply error_Ret in H as [_ [= -> ->]]; auto].
    destruct (na <? 0)%Z; [discriminate|]. apply bind_Ret in H as (? & _ & H).
    eapply keeps_trans; [exact K|]. eapply keeps_cell; [apply K|exact H].
  - unfold addCoarseGrid in H. destruct (_ || _)%bool; [apply error_Ret in H as [_ [= -> ->]]; now apply keeps_refl|].
    destruct (_ || _)%bool; [apply error_Ret in H as [_ [= -> ->]]; now apply keeps_refl|].
    apply assert_Ret in H as [H _]. apply bind_Ret in H as (? & _ & H).
    apply bind_Ret in H as (m1 & E1 & H). apply bind_Ret in H as (m2 & E2 & H). apply bind_Ret in H as ([m3 r3] & E3 & H).
    apply bind_Ret in H as ([m4 r4] & E4 & H). apply bind_Ret in H as ([m5 r5] & E5 & [= <- <-]). cbn [fst] in *.
    assert (K1 : keeps m m1).
    { eapply for_keeps; [|exact HI|exact E1]. cbn. intros i a b Ia Hb. apply bind_Ret in Hb as ([c k] & Ec & [= <-]).
      cbn [fst]. eapply keeps_cell; eauto. }
    assert (K2 : keeps m1 m2).
    { eapply for_keeps; [|apply K1|exact E2]. cbn. intros i a b Ia Hb. apply bind_Ret in Hb as ([c k] & Ec & [= <-]).
      cbn [fst]. eapply keeps_rtm; eauto. }
    assert (K3 : keeps m2 m3) by (eapply keeps_lattice; [apply K2|exact E3]).
    assert (K4 : keeps m3 m4) by (eapply keeps_assembly; [apply K3|exact E4]).
    assert (K5 : keeps m4 m5) by (eapply keeps_core; [apply K4|exact E5]).
    eauto using keeps_trans.
Qed.
Theorem run_inv ops : forall m m', inv m -> run m ops = Ret m' -> inv m'.
Proof.
  induction ops as [|o ops IH]; intros m m' HI H; cbn in H.
  - congruence.
  - apply bind_Ret in H as ([m1 r] & E & H). cbn [fst] in H. apply (IH m1); auto.
    destruct o eqn:Eo; try (eapply step_keeps; [exact HI| |exact E]; discriminate).
    cbn in E. injection E as <- <-. apply inv_empty.
Qed.
Theorem history ops m : run empty_model ops = Ret m -> ids_valid m /\ consistent checks m.
Proof. intros H. eapply run_inv; [apply inv_empty|exact H]. Qed.

(** ** A refused call changes nothing *)
Definition simple (o : op) : Prop :=
  match o with AddRectangularPinMesh _ _ _ _ | AddCylindricalPinCell _ _ _ _ _ _ => False | _ => True end.
Theorem rejected m o m' : inv m -> simple o -> step m o = Ret (m', (-1)%Z) -> m' = m.
Proof.
  intros HI Ho H. destruct o; cbn in Ho, H; try contradiction.
  - unfold addMaterial in H. apply bind_Ret in H as (? & _ & [= <- E]). unfold size in E. rewrite app_length in E. cbn in E. lia.
  - unfold addTriMesh in H. apply assert_Ret in H as [[= <- E] _]. unfold size in E. lia.
  - unfold addQuadMesh in H. apply assert_Ret in H as [[= <- E] _]. unfold size in E. lia.
  - unfold addTri6Mesh in H. apply assert_Ret in H as [[= <- E] _]. unfold size in E. lia.
  - unfold addQuad8Mesh in H. apply assert_Ret in H as [[= <- E] _]. unfold size in E. lia.
  - unfold addCylPin in H. apply bind_Ret in H as ([[q q8] id] & E & [= <- ->]).
    apply addCylindricalPinMesh_inv in E as [(_ & _ & -> & ->)|[(x & _ & _ & _ & E)|(x & _ & _ & _ & E)]]; try lia. apply set_meshes_same.
  - apply addCoarseCell_inv in H as [(_ & _ & ->)|(E & _)]; auto. lia.
  - apply addRTM_inv in H as [(_ & _ & ->)|(p & E & _)]; auto; [lia|apply HI].
  - apply addLattice_inv in H as [(_ & _ & ->)|(p & ? & ? & E & _)]; auto; [lia|apply HI].
  - apply addAssembly_inv in H as [(_ & _ & ->)|(E & _)]; auto; [lia|apply HI|apply HI].
  - apply addCore_inv in H as [(_ & _ & ->)|(p & E & _)]; auto. lia.
  - unfold addCoarseGrid in H. destruct (_ || _)%bool; [apply error_Ret in H as [_ [= _ E]]; lia|].
    destruct (_ || _)%bool; [apply error_Ret in H as [_ [= _ E]]; lia|].
    apply assert_Ret in H as [H _]. repeat (apply bind_Ret in H as (? & _ & H)). injection H as _ E. lia.
  - discriminate.
Qed.
End Steps.
