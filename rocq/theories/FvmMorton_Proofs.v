(** When the Morton codes of a triangle mesh are defined. *)
From Coq Require Import List Arith ZArith Lia Reals Lra Sorting.Permutation.
From Verif Require Import Base Loops Morton_Model Morton_Spec Morton_Proofs Sort_Spec Fvm_Model Fvm_Spec
  Fvm_Proofs Fvm_Sort_Proofs FvmMorton_Model FvmMorton_Spec.
Import ListNotations.
Local Open Scope R_scope.

Definition is_bbox (l : list (R * R)) (b : (R * R) * (R * R)) : Prop :=
  (forall p, In p l -> fst (fst b) <= fst p <= fst (snd b) /\ snd (fst b) <= snd p <= snd (snd b)) /\
  (exists p, In p l /\ fst p = fst (fst b)) /\ (exists p, In p l /\ snd p = snd (fst b)) /\
  (exists p, In p l /\ fst p = fst (snd b)) /\ (exists p, In p l /\ snd p = snd (snd b)).

Lemma bbox_ok l : l <> [] -> exists b, bbox l = Ret b /\ is_bbox l b.
Proof.
  destruct l as [|p l]; [congruence|]. intros _. cbn [bbox]. eexists. split; [reflexivity|].
  set (f := fun (b : (R * R) * (R * R)) (q : R * R) => _).
  assert (G : forall l pre b, is_bbox pre b -> is_bbox (pre ++ l) (fold_left f l b)).
  2:{ apply (G l [p]). repeat split; try (exists p; cbn; tauto); destruct H as [<-|[]]; cbn; lra. }
  clear. induction l as [|q l IH]; intros pre b Hb; cbn [fold_left].
  - now rewrite app_nil_r.
  - change (pre ++ q :: l) with (pre ++ [q] ++ l). rewrite app_assoc. apply IH.
    destruct Hb as (H1 & (a & Ha & Ea) & (c & Hc & Ec) & (d & Hd & Ed) & (e & He & Ee)).
    unfold f, is_bbox. cbn [fst snd]. split; [|repeat split].
    + intros r Hr. apply in_app_or in Hr as [Hr|[<-|[]]].
      * specialize (H1 r Hr). pose proof (Rmin_l (fst (fst b)) (fst q)). pose proof (Rmin_l (snd (fst b)) (snd q)).
        pose proof (Rmax_l (fst (snd b)) (fst q)). pose proof (Rmax_l (snd (snd b)) (snd q)). lra.
      * pose proof (Rmin_r (fst (fst b)) (fst q)). pose proof (Rmin_r (snd (fst b)) (snd q)).
        pose proof (Rmax_r (fst (snd b)) (fst q)). pose proof (Rmax_r (snd (snd b)) (snd q)). lra.
    + unfold Rmin. destruct (Rle_dec _ _); [exists a|exists q]; split; auto; apply in_or_app; cbn; auto.
    + unfold Rmin. destruct (Rle_dec _ _); [exists c|exists q]; split; auto; apply in_or_app; cbn; auto.
    + unfold Rmax. destruct (Rle_dec _ _); [exists q|exists d]; split; auto; apply in_or_app; cbn; auto.
    + unfold Rmax. destruct (Rle_dec _ _); [exists q|exists e]; split; auto; apply in_or_app; cbn; auto.
Qed.
Lemma is_bbox_unique l b b' : is_bbox l b -> is_bbox l b' -> b = b'.
Proof.
  intros (H1 & (a & Ha & Ea) & (c & Hc & Ec) & (d & Hd & Ed) & (e & He & Ee))
         (H1' & (a' & Ha' & Ea') & (c' & Hc' & Ec') & (d' & Hd' & Ed') & (e' & He' & Ee')).
  pose proof (H1 _ Ha'). pose proof (H1 _ Hc'). pose proof (H1 _ Hd'). pose proof (H1 _ He').
  pose proof (H1' _ Ha). pose proof (H1' _ Hc). pose proof (H1' _ Hd). pose proof (H1' _ He).
  destruct b as ((x & y) & (z & w)), b' as ((x' & y') & (z' & w')). cbn in *.
  assert (x = x') by lra. assert (y = y') by lra. assert (z = z') by lra. assert (w = w') by lra. congruence.
Qed.
Lemma is_bbox_perm l l' b : Permutation l l' -> is_bbox l b -> is_bbox l' b.
Proof.
  intros HP (H1 & (a & Ha & Ea) & (c & Hc & Ec) & (d & Hd & Ed) & (e & He & Ee)).
  split; [intros p Hp; apply H1; eapply Permutation_in; [symmetry; exact HP|exact Hp]|].
  split; [exists a|split; [exists c|split; [exists d|exists e]]]; split; auto; eapply Permutation_in; eauto.
Qed.

Lemma div_unit x w : 0 < w -> 0 <= x <= w -> 0 <= x * (1 / w) <= 1.
Proof.
  intros Hw Hx. replace (x * (1 / w)) with (x / w) by (field; lra). split.
  - apply Rmult_le_pos; [lra|]. left. now apply Rinv_0_lt_compat.
  - apply (Rmult_le_reg_r w); auto. unfold Rdiv. rewrite Rmult_assoc, Rinv_l by lra. lra.
Qed.
Lemma scaled_ok l b p : bbox l = Ret b -> fst b = (0, 0) -> 0 < fst (snd b) -> 0 < snd (snd b) ->
  0 <= fst p <= fst (snd b) -> 0 <= snd p <= snd (snd b) -> exists z, scaled_code l p = Ret z.
Proof.
  intros E E0 Hx Hy Hpx Hpy. unfold scaled_code. rewrite E. cbn [bind]. rewrite E0. cbn [fst snd]. rewrite !Rminus_0_r.
  destruct (encode2_32_float_mono (fun r => r) (fst p * (1 / fst (snd b))) (snd p * (1 / snd (snd b)))
    (fst p * (1 / fst (snd b))) (snd p * (1 / snd (snd b)))) as (c & _ & -> & _);
    try (pose proof (div_unit _ _ Hx Hpx); pose proof (div_unit _ _ Hy Hpy); lra).
  - repeat split; auto.
  - cbn. eauto.
Qed.
(** out of the unit square *)
Lemma scaled_bad l b p : bbox l = Ret b ->
  (fst p * (1 / (fst (snd b) - fst (fst b))) < 0 \/ 1 < fst p * (1 / (fst (snd b) - fst (fst b))) \/
   snd p * (1 / (snd (snd b) - snd (fst b))) < 0 \/ 1 < snd p * (1 / (snd (snd b) - snd (fst b)))) ->
  scaled_code l p = Ub.
Proof.
  intros E H. unfold scaled_code. rewrite E. cbn [bind]. 
  set (x := fst p * _) in *. set (y := snd p * _) in *. unfold encode2_32_float, assume, in_unit.
  destruct (Rle_dec 0 x), (Rle_dec x 1), (Rle_dec 0 y), (Rle_dec y 1); try reflexivity; lra.
Qed.

Lemma spans_bbox l w h : spans l w h -> bbox l = Ret ((0, 0), (w, h)).
Proof.
  intros (H & (a & Ha & Ea) & (b & Hb & Eb) & (c & Hc & Ec) & (d & Hd & Ed)).
  destruct (bbox_ok l) as (bb & E & Hbb); [intros ->; destruct Ha|]. rewrite E. f_equal.
  eapply is_bbox_unique; [exact Hbb|]. split; [exact H|]. cbn [fst snd].
  repeat split; [exists a|exists b|exists c|exists d]; auto.
Qed.
Lemma spans_perm l l' w h : Permutation l l' -> spans l w h -> spans l' w h.
Proof.
  intros HP (H1 & (a & Ha & Ea) & (c & Hc & Ec) & (d & Hd & Ed) & (e & He & Ee)).
  split; [intros p Hp; apply H1; eapply Permutation_in; [symmetry; exact HP|exact Hp]|].
  split; [exists a|split; [exists c|split; [exists d|exists e]]]; split; auto; eapply Permutation_in; eauto.
Qed.
Lemma code_ok l w h p : spans l w h -> 0 < w -> 0 < h -> 0 <= fst p <= w -> 0 <= snd p <= h ->
  exists z, scaled_code l p = Ret z /\ cell_code w h p z.
Proof.
  intros Hs Hw Hh Hx Hy. unfold scaled_code. rewrite (spans_bbox _ _ _ Hs). cbn [bind fst snd]. rewrite !Rminus_0_r.
  destruct (float_cells (fun r => r)) as (C & _).
  destruct (C (fst p * (1 / w)) (snd p * (1 / h))) as (m & i & j & -> & Hm & Hi & Hj).
  { repeat split; auto. }
  { now apply div_unit. } { now apply div_unit. }
  cbn [bind]. exists (Z.of_N m). split; [reflexivity|]. exists m, i, j. split; [reflexivity|]. split; [exact Hm|].
  replace (fst p / w) with (fst p * (1 / w)) by (field; lra). replace (snd p / h) with (snd p * (1 / h)) by (field; lra).
  split; assumption.
Qed.
Lemma in_order_of {A} (code : A -> outcome Z) (spec : A -> Z -> Prop) l :
  (forall a, In a l -> exists z, code a = Ret z /\ spec a z) -> sorted (code_lt code) l -> in_order spec l.
Proof.
  intros H Hs i j a b Hij Ha Hb. destruct (H a (nth_error_In _ _ Ha)) as (y & Ey & Sy).
  destruct (H b (nth_error_In _ _ Hb)) as (z & Ez & Sz). exists y, z. split; [exact Sy|]. split; [exact Sz|].
  specialize (Hs i j a b Hij Ha Hb). unfold code_lt in Hs. rewrite Ey, Ez in Hs. apply Z.ltb_ge in Hs. exact Hs.
Qed.
Lemma polygon_corners (m : mesh R) ps poly : mesh_ok Tri m -> polygons m ps -> In poly ps ->
  exists a b c, poly = [a; b; c] /\ In a (mv m) /\ In b (mv m) /\ In c (mv m).
Proof.
  intros Hm Hps Hpoly. apply In_nth_error in Hpoly as (i & Hi).
  assert (E3 : nth_error (map (map Some) ps) i = nth_error (map (corners (mv m)) (fv m)) i) by now rewrite Hps.
  rewrite !nth_error_map, Hi in E3. cbn in E3.
  destruct (nth_error (fv m) i) as [c|] eqn:Ec; [|discriminate]. cbn in E3. injection E3 as E3.
  destruct (Hm c (nth_error_In _ _ Ec)) as (Hl & Hv).
  assert (Hin : forall q, In q poly -> In q (mv m)).
  { intros q Hq. apply (in_map Some) in Hq. rewrite E3 in Hq. unfold corners in Hq.
    apply in_map_iff in Hq as (v & Ev & _). eapply nth_error_In; eauto. }
  assert (Hlp : length poly = 3%nat).
  { apply (f_equal (@length _)) in E3. unfold corners in E3. rewrite !map_length in E3. rewrite E3. exact Hl. }
  destruct poly as [|p0 [|p1 [|p2 [|]]]]; try discriminate Hlp.
  exists p0, p1, p2. repeat split; apply Hin; cbn; tauto.
Qed.
Lemma tri_code_ok (m : mesh R) w h ps poly : mesh_ok Tri m -> spans (mv m) w h -> 0 < w -> 0 < h ->
  polygons m ps -> In poly ps -> exists z, tri_fcode m poly = Ret z /\ triangle_code w h poly z.
Proof.
  intros Hm Hs Hw Hh Hps Hp. destruct (polygon_corners m ps poly Hm Hps Hp) as (a & b & c & -> & Ia & Ib & Ic).
  unfold tri_fcode, tri_centroid, rd. cbn [nth_error bind].
  pose proof Hs as (Hb & _). pose proof (Hb a Ia). pose proof (Hb b Ib). pose proof (Hb c Ic).
  destruct (code_ok (mv m) w h ((fst a + fst b + fst c) / 3, (snd a + snd b + snd c) / 3) Hs Hw Hh) as (z & E & Sz); cbn [fst snd] in *; try lra.
  exists z. split; [exact E|]. exists a, b, c. split; [reflexivity|exact Sz].
Qed.
Lemma scaled_code_box l l' p w h : spans l w h -> spans l' w h -> scaled_code l p = scaled_code l' p.
Proof. intros H H'. unfold scaled_code. now rewrite (spans_bbox _ _ _ H), (spans_bbox _ _ _ H'). Qed.

Lemma tri_mortonSort_ok stdsort (m : mesh R) w h : std_sort_contract stdsort -> mesh_ok Tri m ->
  spans (mv m) w h -> 0 < w -> 0 < h ->
  exists m', mortonSort stdsort linear_vcode tri_fcode m = Ret m' /\ mesh_ok Tri m' /\ same_geometry m m' /\
    in_order (cell_code w h) (mv m') /\ (forall ps, polygons m' ps -> in_order (triangle_code w h) ps) /\
    is_morton m' = true.
Proof.
  intros Hs Hm Hb Hw Hh.
  assert (V : forall p, In p (mv m) -> exists z, linear_vcode m p = Ret z /\ cell_code w h p z).
  { intros p Hp. apply (code_ok _ w h); auto; apply Hb; auto. }
  assert (V' : forall p, In p (mv m) -> exists z, linear_vcode m p = Ret z).
  { intros p Hp. destruct (V p Hp) as (z & E & _). eauto. }
  destruct (sortVertices_ok stdsort Hs linear_vcode Tri m Hm V') as (m2 & E2 & Hm2 & HP & _).
  pose proof (spans_perm _ _ _ _ HP Hb) as Hb2.
  destruct (mortonSort_ok stdsort Hs linear_vcode tri_fcode Tri m Hm) as (m' & E & H1 & H2 & H3 & (m1 & E1 & H4) & H5 & _); auto.
  - intros m1 ps poly E1 Hps Hpoly. rewrite E1 in E2. injection E2 as ->.
    destruct (tri_code_ok m2 w h ps poly) as (z & Ez & _); eauto.
  - rewrite E1 in E2. injection E2 as ->. exists m'. split; [exact E|]. split; [exact H1|]. split; [exact H2|].
    pose proof H2 as (HP' & _). pose proof (spans_perm _ _ _ _ HP' Hb) as Hb'. split; [|split; [|exact H5]].
    + apply (in_order_of (linear_vcode m)); [|exact H3]. intros p Hp. apply V. eapply Permutation_in; [symmetry; exact HP'|exact Hp].
    + intros ps Hps. apply (in_order_of (tri_fcode m2)); [|exact (H4 ps Hps)]. intros t Ht.
      destruct (tri_code_ok m' w h ps t H1 Hb' Hw Hh Hps Ht) as (z & Ez & Sz). exists z. split; [|exact Sz].
      rewrite <- Ez. unfold tri_fcode. destruct (tri_centroid t); [|reflexivity..]. cbn [bind]. eapply scaled_code_box; eauto.
Qed.
Lemma scaled_unique mx x i j : scaled mx (fun r => r) x i -> scaled mx (fun r => r) x j -> i = j.
Proof.
  unfold scaled. intros (A & B) (C & D). apply N2Z.inj.
  assert (IZR (Z.of_N i) < IZR (Z.of_N j + 1)) by (rewrite plus_IZR; lra).
  assert (IZR (Z.of_N j) < IZR (Z.of_N i + 1)) by (rewrite plus_IZR; lra).
  apply lt_IZR in H. apply lt_IZR in H0. lia.
Qed.
Lemma cell_code_unique w h p y z : cell_code w h p y -> cell_code w h p z -> y = z.
Proof.
  intros (m & i & j & -> & Hm & Hi & Hj) (m' & i' & j' & -> & Hm' & Hi' & Hj').
  pose proof (scaled_unique _ _ _ _ Hi Hi') as <-. pose proof (scaled_unique _ _ _ _ Hj Hj') as <-. f_equal.
  apply N.bits_inj. intros k. destruct (N.Even_or_Odd k) as [(q & ->)|(q & ->)].
  - now rewrite (proj1 (Hm q)), (proj1 (Hm' q)).
  - now rewrite (proj2 (Hm q)), (proj2 (Hm' q)).
Qed.

Lemma vertices_bad stdsort (m : mesh R) b p : bbox (mv m) = Ret b -> In p (mv m) -> (2 <= length (mv m))%nat ->
  (fst p * (1 / (fst (snd b) - fst (fst b))) < 0 \/ 1 < fst p * (1 / (fst (snd b) - fst (fst b))) \/
   snd p * (1 / (snd (snd b) - snd (fst b))) < 0 \/ 1 < snd p * (1 / (snd (snd b) - snd (fst b)))) ->
  mortonSort stdsort linear_vcode tri_fcode m = Ub.
Proof.
  intros Eb Hp Hl H. unfold mortonSort, mortonSortVertices, mortonSortPermutation.
  destruct (Nat.leb_spec (length (mv m)) 1); [lia|].
  assert (Hbad : linear_vcode m p = Ub) by (apply (scaled_bad _ b); auto).
  assert (G : forall l, In p l -> mapo (linear_vcode m) l = Ub).
  { induction l as [|q l IH]; intros Hi; [destruct Hi|]. cbn [mapo].
    assert (Hq : linear_vcode m q = Ub \/ exists z, linear_vcode m q = Ret z).
    { unfold linear_vcode, scaled_code. rewrite Eb. cbn [bind].
      set (x := fst q * _). set (y := snd q * _).
      assert (Hd : (0 <= x /\ x <= 1 /\ 0 <= y /\ y <= 1) \/ encode2_32_float (fun r => r) x y = Ub).
      { unfold encode2_32_float, assume, in_unit.
        destruct (Rle_dec 0 x), (Rle_dec x 1), (Rle_dec 0 y), (Rle_dec y 1); auto. }
      destruct Hd as [(? & ? & ? & ?)| -> ]; [|now left]. right.
      destruct (encode2_32_float_mono (fun r => r) x y x y) as (c & _ & -> & _); auto; try lra.
      { repeat split; auto. }
      cbn. eauto. }
    destruct Hi as [<-|Hi]; [now rewrite Hbad|].
    destruct Hq as [->|(z & ->)]; cbn; auto. now rewrite IH. }
  rewrite G by auto. reflexivity.
Qed.
