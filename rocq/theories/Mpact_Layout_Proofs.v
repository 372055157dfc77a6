(** Where children are found, the coarse grid, the totals and pin cells. *)
From Coq Require Import String.
From Coq Require Import List Arith ZArith Bool Reals Lra Lia.
From Verif Require Import Base Loops Fill Arith Box_Proofs Poly_Spec Fvm_Model Soup_Spec PinRect_Model PinCyl_Model PinCyl_Spec PinCyl_Props Grid_Model Grid_Spec Grid_Proofs Mpact_Model Mpact_Spec Mpact_Proofs Mpact_Steps_Proofs Mpact_Accept_Proofs.
Import ListNotations.
Local Open Scope list_scope.
Local Open Scope R_scope.

(** * Layout *)
Lemma flatIndex2 a b i j : (0 <= i < a)%nat -> (0 <= j < b)%nat -> (Z.of_nat a * Z.of_nat b <= intMax)%Z ->
  flatIndex [Z.of_nat a; Z.of_nat b] [Z.of_nat i; Z.of_nat j] = Ret (Z.of_nat (j * a + i)).
Proof.
  intros Hi Hj Hm. cbn [flatIndex]. rewrite i32_ok by (unfold in_i32, intMin; nia). cbn [bind].
  rewrite i32_ok by (unfold in_i32, intMin; nia). f_equal. lia.
Qed.
Lemma rdz_nat {A} (l : list A) (k : nat) x : rdz l (Z.of_nat k) = Ret x <-> nth_error l k = Some x.
Proof.
  rewrite <- at_rdz. unfold at_. rewrite Nat2Z.id. split; [tauto|]. intros H. split; [lia|auto].
Qed.
Theorem rect_layout W H ids nr nc r c id : rectangular ids nr nc -> length W = nc -> length H = nr ->
  (Z.of_nat nc * Z.of_nat nr <= intMax)%Z -> (r < nr)%nat -> (c < nc)%nat ->
  rect_getChild Z ([sums 0 W; sums 0 H], concat (rev ids)) [Z.of_nat c; Z.of_nat (nr - 1 - r)] = Ret id <-> entry ids r c id.
Proof.
  intros HR HW HH Hm Hr Hc. unfold rect_getChild, rect_getFlatIndex. cbn [fst snd combine forallb].
  rewrite !sums_length, HW, HH. rewrite (proj2 (Z.ltb_lt (Z.of_nat c) _)) by lia.
  rewrite (proj2 (Z.ltb_lt (Z.of_nat (nr - 1 - r)) _)) by lia. cbn [andb numCells map]. rewrite !sums_length, HW, HH.
  replace (Z.of_nat (S nc) - 1)%Z with (Z.of_nat nc) by lia. replace (Z.of_nat (S nr) - 1)%Z with (Z.of_nat nr) by lia.
  rewrite flatIndex2 by lia. cbn [bind]. rewrite rdz_nat. symmetry. apply flatten_entry; auto.
Qed.
Theorem regular_layout w h ids nr nc r c id : rectangular ids nr nc ->
  (Z.of_nat nc * Z.of_nat nr <= intMax)%Z -> (r < nr)%nat -> (c < nc)%nat ->
  regular_getChild Z (lattice_grid w h (Z.of_nat nc) (Z.of_nat nr), concat (rev ids)) [Z.of_nat c; Z.of_nat (nr - 1 - r)] = Ret id <-> entry ids r c id.
Proof.
  intros HR Hm Hr Hc. unfold regular_getChild, getFlatIndex, lattice_grid. cbn [fst snd combine forallb Grid_Model.nc].
  rewrite (proj2 (Z.ltb_lt (Z.of_nat c) _)) by lia.
  rewrite (proj2 (Z.ltb_lt (Z.of_nat (nr - 1 - r)) _)) by lia. cbn [andb map Grid_Model.nc].
  rewrite flatIndex2 by lia. cbn [bind]. rewrite rdz_nat. symmetry. apply flatten_entry; auto.
Qed.
(** flattenLattice and mapFlatIndexToLattice2D *)
Theorem flat_map_inverse checks exit_on_error ids nr nc flat r c id : rectangular ids nr nc -> (0 < nr)%nat -> (Z.of_nat nr * Z.of_nat nc <= intMax)%Z ->
  flattenLattice exit_on_error ids = Ret flat ->
  (entry ids r c id <-> exists k, nth_error flat k = Some id /\
     mapFlatIndexToLattice2D checks (Z.of_nat k) (Z.of_nat nc) (Z.of_nat nr) = Ret (Z.of_nat c, Z.of_nat r)).
Proof.
  intros HR Hn Hm E. rewrite (flatten_ok _ _ _ _ HR Hn Hm) in E. injection E as <-. split.
  - intros He. assert (Hr : (r < nr)%nat /\ (c < nc)%nat).
    { destruct He as (row & E1 & E2). destruct HR as [Hl Hf].
      assert (r < length ids)%nat by (apply nth_error_Some; congruence). split; [lia|].
      rewrite Forall_forall in Hf. rewrite <- (Hf row) by (eapply nth_error_In; eauto). apply nth_error_Some. congruence. }
    exists ((nr - 1 - r) * nc + c)%nat. split; [apply flatten_entry; tauto|].
    rewrite map_flat_ok by nia. f_equal.
    assert (Ed : (Z.of_nat ((nr - 1 - r) * nc + c) / Z.of_nat nc = Z.of_nat (nr - 1 - r))%Z).
    { symmetry. apply (Z.div_unique_pos _ _ _ (Z.of_nat c)); lia. }
    assert (Em : (Z.of_nat ((nr - 1 - r) * nc + c) mod Z.of_nat nc = Z.of_nat c)%Z).
    { symmetry. apply (Z.mod_unique_pos _ _ (Z.of_nat (nr - 1 - r))); lia. }
    rewrite Ed, Em. f_equal. lia.
  - intros (k & Hk & Hmap). assert (Hk' : (k < nr * nc)%nat) by (rewrite <- (flat_length _ _ _ HR); apply nth_error_Some; congruence).
    rewrite map_flat_ok in Hmap by nia. apply (f_equal (fun o => match o with Ret p => p | _ => (0, 0)%Z end)) in Hmap. cbn in Hmap.
    apply pair_equal_spec in Hmap as [E1 E2].
    pose proof (Z.div_mod (Z.of_nat k) (Z.of_nat nc) ltac:(nia)) as D. pose proof (Z.mod_pos_bound (Z.of_nat k) (Z.of_nat nc) ltac:(nia)).
    assert (0 <= Z.of_nat k / Z.of_nat nc < Z.of_nat nr)%Z by (split; [apply Z.div_pos; nia|apply Z.div_lt_upper_bound; nia]).
    apply (flatten_entry _ nr nc); [auto|lia|lia|]. replace ((nr - 1 - r) * nc + c)%nat with k; auto.
    assert (Z.of_nat k / Z.of_nat nc = Z.of_nat (nr - 1 - r))%Z by lia. nia.
Qed.

(** * Totals *)
Definition clip (z : Z) : outcome Z := if (z <=? intMax)%Z then Ret z else Ub.
Definition zsum {A} (g : A -> Z) (l : list A) : Z := fold_right (fun x s => (g x + s)%Z) 0%Z l.
Lemma zsum_nonneg {A} (g : A -> Z) l : (forall x, In x l -> 0 <= g x)%Z -> (0 <= zsum g l)%Z.
Proof. induction l as [|x l IH]; cbn; intros H; [lia|]. pose proof (H x (or_introl eq_refl)). assert (0 <= zsum g l)%Z by auto. fold (zsum g l). lia. Qed.
Lemma total_clip {A} (f : A -> outcome Z) (g : A -> Z) l : (forall x, In x l -> f x = clip (g x) /\ 0 <= g x)%Z ->
  total f l = clip (zsum g l).
Proof.
  intros H. unfold total. change (Ret 0%Z) with (clip 0).
  assert (G : forall l s, (forall x, In x l -> f x = clip (g x) /\ 0 <= g x)%Z -> (0 <= s)%Z ->
    fold_left (fun acc x => let* s := acc in let* n := f x in i32 (s + n)) l (clip s) = clip (s + zsum g l)).
  { clear. induction l as [|x l IH]; intros s H Hs; cbn [fold_left zsum fold_right]; [f_equal; lia|].
    destruct (H x (or_introl eq_refl)) as [Ef Hg]. fold (zsum g l). rewrite Ef.
    assert (E : (let* s0 := clip s in let* n := clip (g x) in i32 (s0 + n)) = clip (s + g x)).
    { unfold clip. destruct (Z.leb_spec s intMax) as [L|L]; cbn [bind].
      - destruct (Z.leb_spec (g x) intMax) as [L2|L2]; cbn [bind].
        + destruct (Z.leb_spec (s + g x) intMax) as [L3|L3]; [rewrite i32_ok; [auto|unfold in_i32, intMin; lia]|].
          rewrite i32_bad; auto. unfold in_i32, intMin. lia.
        + rewrite (proj2 (Z.leb_gt _ _)) by lia. reflexivity.
      - rewrite (proj2 (Z.leb_gt _ _)) by lia. reflexivity. }
    rewrite E. rewrite IH; [f_equal; lia|intros; apply H; now right|lia]. }
  rewrite G; [reflexivity|auto|lia].
Qed.
Lemma size_clip {A} (l : list A) : (Z.of_nat (length l) <= intMax)%Z -> Ret (size l) = clip (size l).
Proof. intros H. unfold clip, size. now rewrite (proj2 (Z.leb_le _ _)). Qed.
Lemma flat_map_len {A} (f : A -> list Z) l : Z.of_nat (length (flat_map f l)) = zsum (fun x => size (f x)) l.
Proof. induction l as [|x l IH]; cbn; auto. rewrite app_length. fold (zsum (fun x => size (f x)) l). unfold size in *. lia. Qed.
Lemma rdz_get {A} (l : list A) id d : exists_in l id -> rdz l id = Ret (get l id d).
Proof.
  intros [H1 H2]. apply at_rdz. split; auto. unfold get. apply nth_error_nth'. lia.
Qed.
Lemma get_In {A} (l : list A) id d : exists_in l id -> In (get l id d) l.
Proof. intros [H1 H2]. unfold get. apply nth_In. lia. Qed.
Lemma zsum_flat {A} (f : A -> list Z) (g : Z -> Z) l : zsum g (flat_map f l) = zsum (fun x => zsum g (f x)) l.
Proof.
  induction l as [|x l IH]; cbn [flat_map zsum fold_right]; auto. fold (zsum (fun x => zsum g (f x)) l). rewrite <- IH. clear IH.
  induction (f x) as [|y k IHk]; cbn [app zsum fold_right]; [fold (zsum g (flat_map f l)); lia|]. fold (zsum g k). fold (zsum g (k ++ flat_map f l)) in *. lia.
Qed.

Section Totals.
Variable m : model.
Hypothesis HV : ids_valid m.
(** a Vector has no more than intMax elements *)
Definition vectors_fit : Prop :=
  (forall a, In a (assemblies m) -> Z.of_nat (length (snd a)) <= intMax)%Z /\
  (forall a, In a (lattices m) -> Z.of_nat (length (snd a)) <= intMax)%Z /\
  (forall a, In a (rtms m) -> Z.of_nat (length (snd a)) <= intMax)%Z /\
  (forall a, In a (cells m) -> Z.of_nat (length (material_ids a)) <= intMax)%Z.
Hypothesis HF : vectors_fit.
Lemma fit_a a : In a (assemblies m) -> (Z.of_nat (length (snd a)) <= intMax)%Z. Proof. apply (proj1 HF). Qed.
Lemma fit_l a : In a (lattices m) -> (Z.of_nat (length (snd a)) <= intMax)%Z. Proof. apply (proj1 (proj2 HF)). Qed.
Lemma fit_r a : In a (rtms m) -> (Z.of_nat (length (snd a)) <= intMax)%Z. Proof. apply (proj1 (proj2 (proj2 HF))). Qed.
Lemma fit_c a : In a (cells m) -> (Z.of_nat (length (material_ids a)) <= intMax)%Z. Proof. apply (proj2 (proj2 (proj2 HF))). Qed.

Lemma size_nonneg {A} (l : list A) : (0 <= size l)%Z. Proof. unfold size. lia. Qed.
Lemma asy_child a : In a (snd (core m)) -> exists_in (assemblies m) a.
Proof. intros H. pose proof (core_ids _ HV) as F. rewrite Forall_forall in F. auto. Qed.
Lemma lat_child a l : In a (assemblies m) -> In l (snd a) -> exists_in (lattices m) l.
Proof. intros H H'. pose proof (assembly_ids _ HV a H) as F. rewrite Forall_forall in F. auto. Qed.
Lemma rtm_child a l : In a (lattices m) -> In l (snd a) -> exists_in (rtms m) l.
Proof. intros H H'. pose proof (lattice_ids _ HV a H) as F. rewrite Forall_forall in F. auto. Qed.
Lemma cell_child a l : In a (rtms m) -> In l (snd a) -> exists_in (cells m) l.
Proof. intros H H'. pose proof (rtm_ids _ HV a H) as F. rewrite Forall_forall in F. auto. Qed.

Theorem lattices_total : counts_to (numLatticesTotal m) (length (all_lattices m)).
Proof.
  unfold counts_to, numLatticesTotal, all_lattices. rewrite flat_map_len. apply total_clip. intros a Ha.
  pose proof (asy_child a Ha) as Ea. rewrite (rdz_get _ _ ([], [])) by auto. cbn [bind]. split; [|apply size_nonneg].
  apply size_clip. apply fit_a. now apply get_In.
Qed.
Theorem rtms_total : counts_to (numRTMsTotal m) (length (all_rtms m)).
Proof.
  unfold counts_to, numRTMsTotal, all_rtms. rewrite flat_map_len. unfold all_lattices. rewrite zsum_flat. apply total_clip. intros a Ha.
  pose proof (asy_child a Ha) as Ea. unfold rtms_in_assembly. rewrite (rdz_get _ _ ([], [])) by auto. cbn [bind].
  split; [|apply zsum_nonneg; intros; apply size_nonneg]. apply total_clip. intros l Hl.
  assert (El : exists_in (lattices m) l) by (eapply lat_child; [|exact Hl]; now apply get_In).
  rewrite (rdz_get _ _ ([], [])) by auto. cbn [bind]. split; [|apply size_nonneg]. apply size_clip. apply fit_l. now apply get_In.
Qed.
Theorem cells_total : counts_to (numCoarseCellsTotal m) (length (all_cells m)).
Proof.
  unfold counts_to, numCoarseCellsTotal, all_cells. rewrite flat_map_len. unfold all_rtms. rewrite zsum_flat. unfold all_lattices. rewrite zsum_flat.
  apply total_clip. intros a Ha.
  pose proof (asy_child a Ha) as Ea. unfold cells_in_assembly. rewrite (rdz_get _ _ ([], [])) by auto. cbn [bind].
  split; [|repeat (apply zsum_nonneg; intros); apply size_nonneg]. apply total_clip. intros l Hl.
  assert (El : exists_in (lattices m) l) by (eapply lat_child; [|exact Hl]; now apply get_In).
  rewrite (rdz_get _ _ ([], [])) by auto. cbn [bind].
  split; [|repeat (apply zsum_nonneg; intros); apply size_nonneg]. apply total_clip. intros r Hr.
  assert (Er : exists_in (rtms m) r) by (eapply rtm_child; [|exact Hr]; now apply get_In).
  rewrite (rdz_get _ _ ([], [])) by auto. cbn [bind]. split; [|apply size_nonneg]. apply size_clip. apply fit_r. now apply get_In.
Qed.
Theorem fine_total : counts_to (numFineCellsTotal m) (length (all_fine m)).
Proof.
  unfold counts_to, numFineCellsTotal, all_fine. rewrite flat_map_len. unfold all_cells. rewrite zsum_flat. unfold all_rtms. rewrite zsum_flat.
  unfold all_lattices. rewrite zsum_flat.
  apply total_clip. intros a Ha.
  pose proof (asy_child a Ha) as Ea. unfold fine_in_assembly. rewrite (rdz_get _ _ ([], [])) by auto. cbn [bind].
  split; [|repeat (apply zsum_nonneg; intros); apply size_nonneg]. apply total_clip. intros l Hl.
  assert (El : exists_in (lattices m) l) by (eapply lat_child; [|exact Hl]; now apply get_In).
  rewrite (rdz_get _ _ ([], [])) by auto. cbn [bind].
  split; [|repeat (apply zsum_nonneg; intros); apply size_nonneg]. apply total_clip. intros r Hr.
  assert (Er : exists_in (rtms m) r) by (eapply rtm_child; [|exact Hr]; now apply get_In).
  rewrite (rdz_get _ _ ([], [])) by auto. cbn [bind].
  split; [|repeat (apply zsum_nonneg; intros); apply size_nonneg]. apply total_clip. intros c Hc.
  assert (Ec : exists_in (cells m) c) by (eapply cell_child; [|exact Hc]; now apply get_In).
  rewrite (rdz_get _ _ (mkCell (0, 0) MT_Invalid (-1) [])) by auto. cbn [bind]. split; [|apply size_nonneg]. apply size_clip. apply fit_c. now apply get_In.
Qed.
End Totals.

(** * The coarse grid *)
Section Coarse.
Variables checks exit_on_error : bool.
Notation inv := (inv checks).

Lemma single_lattice dxdy (i : Z) w h : at_ dxdy i (w, h) -> eps <= w -> eps <= h -> lattice dxdy [[i]] [w] [h].
Proof.
  intros [Hi H] Hw Hh. split; [reflexivity|]. split; [discriminate|]. split; [discriminate|]. split; [apply Forall_cons; auto|].
  split; [apply Forall_cons; auto|]. split; [cbn; unfold intMax; lia|]. intros [|k] row Hr Hk; [|cbn in Hk; lia]. cbn in Hr. injection Hr as <-.
  split; [reflexivity|]. intros [|j] id Hj; [|destruct j; discriminate]. injection Hj as <-. exists (w, h). auto.
Qed.
Lemma coarse_ids_flat nx ny : concat (rev (coarse_ids nx ny)) = map Z.of_nat (seq 0 (nx * ny)).
Proof.
  unfold coarse_ids. rewrite <- map_rev. apply nth_error_ext. intros k.
  destruct (lt_dec k (nx * ny)) as [Hk|Hk].
  - assert (Hnx : (0 < nx)%nat) by (destruct nx; lia).
    pose proof (Nat.div_mod k nx ltac:(lia)) as D. pose proof (Nat.mod_upper_bound k nx ltac:(lia)) as Hm.
    set (q := (k / nx)%nat) in *. set (r := (k mod nx)%nat) in *.
    assert (Hq : (q < ny)%nat) by nia.
    rewrite nth_error_map_seq by auto. replace k with (q * nx + r)%nat at 1 by nia.
    assert (E : nth_error (rev (seq 0 ny)) q = Some (ny - 1 - q)%nat).
    { apply rev_nth_error; rewrite seq_length; [auto|]. rewrite nth_error_seq by lia. f_equal. }
    rewrite (nth_error_concat _ nx) with (l := map (fun ix => Z.of_nat ((ny - 1 - (ny - 1 - q)) * nx + ix)) (seq 0 nx)).
    + rewrite nth_error_map_seq by auto. do 2 f_equal. replace (ny - 1 - (ny - 1 - q))%nat with q by lia. nia.
    + intros l Hin. apply in_map_iff in Hin as (? & <- & _). now rewrite map_length, seq_length.
    + rewrite nth_error_map, E. reflexivity.
    + auto.
  - transitivity (@None Z); [|symmetry]; apply nth_error_None.
    + rewrite (concat_length_eq _ nx); [rewrite map_length, rev_length, seq_length; nia|].
      intros l Hin. apply in_map_iff in Hin as (? & <- & _). now rewrite map_length, seq_length.
    + rewrite map_length, seq_length. lia.
Qed.
Lemma coarse_rect nx ny : rectangular (coarse_ids nx ny) ny nx.
Proof.
  unfold coarse_ids. split; [now rewrite map_length, seq_length|]. apply Forall_forall. intros l Hin.
  apply in_map_iff in Hin as (? & <- & _). now rewrite map_length, seq_length.
Qed.

Definition stage (m : model) (rs : list (list (list R) * list Z)) (cs : list cell) : model :=
  mkModel (core m) [] [] rs cs (materials m) (tris m) (quads m) (tri6s m) (quad8s m).
Theorem coarse_ok m w h nx ny : inv m -> snd (core m) = [] -> assemblies m = [] -> lattices m = [] -> rtms m = [] -> cells m = [] ->
  (0 < nx)%nat -> (0 < ny)%nat -> (Z.of_nat nx * Z.of_nat ny <= intMax)%Z -> eps <= w / INR nx -> eps <= h / INR ny ->
  addCoarseGrid checks exit_on_error m w h (Z.of_nat nx) (Z.of_nat ny) = Ret (coarse_model m w h nx ny, 0%Z).
Proof.
  intros HI C0 A0 L0 R0 E0 Hx Hy Hm Ew Eh. pose proof eps_pos as Hep.
  assert (Px : 0 < INR nx) by (apply lt_0_INR; lia). assert (Py : 0 < INR ny) by (apply lt_0_INR; lia).
  set (dx := w / INR nx) in *. set (dy := h / INR ny) in *.
  assert (Wx : w = dx * INR nx) by (unfold dx; field; lra). assert (Hh : h = dy * INR ny) by (unfold dy; field; lra).
  assert (Nx1 : 1 <= INR nx) by (change 1 with (INR 1); apply le_INR; lia). assert (Ny1 : 1 <= INR ny) by (change 1 with (INR 1); apply le_INR; lia).
  assert (Hw0 : 0 < w) by nra. assert (Hh0 : 0 < h) by nra.
  unfold addCoarseGrid. rewrite (proj2 (Rltb_true 0 w)), (proj2 (Rltb_true 0 h)) by auto. cbn [negb orb].
  rewrite (proj2 (Z.leb_gt _ _)) by lia. rewrite (proj2 (Z.leb_gt _ _)) by lia. cbn [orb].
  rewrite E0, R0, L0, A0. cbn [is_empty andb]. unfold assert. cbn [negb]. rewrite andb_false_r.
  rewrite i32_ok by (unfold in_i32, intMin; nia). cbn [bind].
  replace (Z.to_nat (Z.of_nat nx * Z.of_nat ny)) with (nx * ny)%nat by lia. rewrite !Nat2Z.id.
  rewrite <- !INR_IZR_INZ. fold dx. fold dy.
  set (c := mkCell (dx, dy) MT_Invalid (-1) []).
  destruct (for_inv (fun j x => x = stage m [] (repeat c j) /\ inv x)
    (fun _ m => let* r := addCoarseCell exit_on_error m (dx, dy) MT_Invalid (-1) [] in Ret (fst r)) (nx * ny) 0 m) as (m1 & F1 & M1 & I1).
  { split; [|auto]. clear - A0 L0 R0 E0. destruct m. cbn in *. subst. reflexivity. }
  { intros j s Hj [-> Is]. set (s := stage m [] (repeat c j)) in *.
    assert (Gd : good_cell s (dx, dy) MT_Invalid (-1) []) by (split; [cbn; lra|]; split; [cbn; lra|]; now left).
    destruct (addCoarseCell_ok exit_on_error s (dx, dy) MT_Invalid (-1) []) as [Ok _]. specialize (Ok Gd).
    rewrite Ok. cbn [bind fst]. eexists. split; [reflexivity|]. split; [|now apply inv_push_cell].
    fold c. unfold s, stage, push_cell. cbn [core assemblies lattices rtms cells materials tris quads tri6s quad8s].
    f_equal. change [c] with (repeat c 1). rewrite <- repeat_app. f_equal. lia. }
  rewrite F1. cbn [bind]. cbn [Nat.add] in M1. subst m1. set (n := (nx * ny)%nat) in *. assert (Hn : (0 < n)%nat) by (unfold n; nia).
  set (rtm := fun i : Z => ([[0; dx]; [0; dy]], [i])).
  assert (Hcell : forall i j rs, (i < j)%nat -> at_ (map xy_extents (cells (stage m rs (repeat c j)))) (Z.of_nat i) (dx, dy)).
  { intros i j rs Hi. split; [lia|]. rewrite Nat2Z.id. cbn [cells stage]. rewrite nth_error_map, nth_error_repeat by auto. reflexivity. }
  assert (Hext : extent [[0; dx]; [0; dy]] dx dy).
  { exists [0; dx], [0; dy], 0, dx, 0, dy. repeat split; lra. }
  destruct (for_inv (fun j x => x = stage m (map rtm (map Z.of_nat (seq 0 j))) (repeat c n) /\ inv x)
    (fun i m => let* r := addRTM checks exit_on_error m [[Z.of_nat i]] in Ret (fst r)) n 0 (stage m [] (repeat c n))) as (m2 & F2 & M2 & I2).
  { split; auto. }
  { intros j s Hj [-> Is]. set (s := stage m (map rtm (map Z.of_nat (seq 0 j))) (repeat c n)) in *.
    pose proof (single_lattice (map xy_extents (cells s)) (Z.of_nat j) dx dy (Hcell j n _ ltac:(lia)) Ew Eh) as HL.
    destruct (addRTM_ok checks exit_on_error s [[Z.of_nat j]] [dx] [dy] (proj2 Is) HL) as [Ok _].
    assert (Hs : rsum [dx] = dx /\ rsum [dy] = dy) by (unfold rsum; cbn [fold_right]; split; lra). destruct Hs as [S1 S2].
    assert (Ok' := Ok). clear Ok. rewrite S1, S2 in Ok'.
    assert (E : addRTM checks exit_on_error s [[Z.of_nat j]] = Ret (push_rtm (rtm (Z.of_nat j)) s, Z.of_nat (length (rtms s)))).
    { rewrite Ok'.
      - replace (sums 0 [dx]) with [0; dx] by (cbn; f_equal; f_equal; lra). replace (sums 0 [dy]) with [0; dy] by (cbn; f_equal; f_equal; lra). reflexivity.
      - intros r0 w0 h0 H0 X. unfold s in H0. cbn [rtms stage] in H0. destruct j as [|j]; [discriminate|].
        assert (r0 = rtm 0%Z) by (cbn in H0; congruence). subst r0. destruct (extent_fun _ _ _ _ _ X Hext) as [-> ->]. apply near_refl. }
    rewrite E. cbn [bind fst]. eexists. split; [reflexivity|]. split; [|exact (proj1 (keeps_rtm _ _ _ _ _ _ Is E))].
    unfold s, stage, push_rtm. cbn [core assemblies lattices rtms cells materials tris quads tri6s quad8s].
    f_equal. rewrite seq_S, !map_app. reflexivity. }
  rewrite F2. cbn [bind]. cbn [Nat.add] in M2. set (rs := map rtm (map Z.of_nat (seq 0 n))) in *.
  assert (Er0 : nth_error (rtms m2) 0 = Some (rtm 0%Z)).
  { rewrite M2. cbn [rtms stage]. unfold rs. destruct n; [lia|]. reflexivity. }
  assert (El : addLattice checks exit_on_error m2 (coarse_ids nx ny) =
    Ret (push_lattice (lattice_grid dx dy (Z.of_nat nx) (Z.of_nat ny), map Z.of_nat (seq 0 n)) m2, 0%Z)).
  { rewrite (addLattice_ok checks exit_on_error m2 _ ny nx (rtm 0%Z) dx dy I2); auto.
    - rewrite coarse_ids_flat. fold n. rewrite M2. reflexivity.
    - apply Forall_forall. intros id Hid. apply in_concat in Hid as (row & Hrow & Hid).
      assert (Hid' : In id (concat (rev (coarse_ids nx ny)))) by (apply in_concat; exists row; split; auto; now rewrite <- in_rev).
      rewrite coarse_ids_flat in Hid'. apply in_map_iff in Hid' as (k & <- & Hk). apply in_seq in Hk. rewrite M2. unfold exists_in. cbn [rtms stage].
      unfold rs, n. rewrite !map_length, seq_length. lia.
    - apply coarse_rect.
    - lia. }
  rewrite El. cbn [bind fst]. pose proof (proj1 (keeps_lattice _ _ _ _ _ _ I2 El)) as I3.
  set (lat := (lattice_grid dx dy (Z.of_nat nx) (Z.of_nat ny), map Z.of_nat (seq 0 n))) in *.
  set (m3 := push_lattice lat m2) in *.
  assert (Ea : addAssembly checks exit_on_error m3 [0%Z] [-1 / 2; 1 / 2] = Ret (push_assembly ([[-1 / 2; 1 / 2]], [0%Z]) m3, 0%Z)).
  { destruct (addAssembly_ok checks exit_on_error m3 [0%Z] [-1 / 2; 1 / 2] I3) as [Ok _]; [discriminate|cbn; unfold intMax; lia|].
    rewrite Ok; [unfold m3, push_lattice; rewrite M2; reflexivity|]. clear Ok. split; [|split; [reflexivity|split]].
    - apply Forall_cons; [|constructor]. unfold exists_in, m3. rewrite M2. cbn. lia.
    - intros i j a b Hij Ha Hb. destruct i as [|[|i]], j as [|[|j]]; cbn in Ha, Hb; try lia; try discriminate; try (destruct i; discriminate); try (destruct j; discriminate).
      injection Ha as <-. injection Hb as <-. lra.
    - exists (-1 / 2), (1 / 2). split; [split; reflexivity|]. split; [right; split; rewrite Rabs_pos_eq; lra|]. split.
      + intros a0 z0 b0 t0 H0. unfold m3 in H0. rewrite M2 in H0. discriminate.
      + intros i j l l' [<-|[]] [<-|[]] [_ Hl] [_ Hl']. congruence. }
  rewrite Ea. cbn [bind fst]. pose proof (proj1 (keeps_assembly _ _ _ _ _ _ _ I3 Ea)) as I4.
  set (m4 := push_assembly _ m3) in *.
  assert (Ec : addCore checks exit_on_error m4 [[0%Z]] = Ret (set_core ([sums 0 [w]; sums 0 [h]], [0%Z]) m4, 0%Z)).
  { apply (addCore_ok checks exit_on_error m4 [[0%Z]] [(w, h)]); auto.
    - unfold m4, m3. rewrite M2. cbn. exact C0.
    - unfold m4, m3. rewrite M2. cbn [assemblies push_assembly push_lattice stage app]. apply Forall2_cons; [|constructor].
      exists 0%Z, lat, dx, dy, (Z.of_nat nx), (Z.of_nat ny). split; [reflexivity|]. split; [split; [lia|reflexivity]|]. split; [reflexivity|].
      rewrite <- !INR_IZR_INZ. congruence.
    - apply single_lattice; [split; [lia|reflexivity]|nra|nra]. }
  rewrite Ec. cbn [bind fst]. do 2 f_equal. unfold m4, m3. rewrite M2.
  unfold set_core, push_assembly, push_lattice, stage, coarse_model. cbn [core assemblies lattices rtms cells materials tris quads tri6s quad8s app].
  fold dx dy n. fold c. unfold lat. f_equal.
  - replace (sums 0 [w]) with [0; w] by (cbn; f_equal; f_equal; lra). replace (sums 0 [h]) with [0; h] by (cbn; f_equal; f_equal; lra). reflexivity.
  - rewrite map_map. clear. generalize 0%nat. induction n as [|n IH]; intros s; cbn; auto. f_equal. apply IH.
Qed.
End Coarse.
