From Coq Require Import List Arith ZArith Reals Lra Lia Bool Sorted Permutation.
From Verif Require Import Base Loops Grid_Model Grid_Spec.
Import ListNotations.
Open Scope R_scope.

(** ** Flat indices *)
Section Flat.
  Open Scope Z_scope.

  Fixpoint horner (ns idx : list Z) : Z :=
    match ns, idx with
    | n :: ns', i :: idx' => i + n * horner ns' idx'
    | _, _ => 0
    end.

  Lemma cells_pos ns : Forall (fun n => 0 < n) ns -> 0 < cells ns.
  Proof. induction 1 as [|n l Hn _ IH]; [reflexivity|]. cbn. fold (cells l). nia. Qed.

  Lemma horner_bound ns idx : valid_idx ns idx -> 0 <= horner ns idx < cells ns.
  Proof.
    induction 1 as [|n i ns idx H _ IH]; cbn; [lia|]. fold (cells ns). nia.
  Qed.
  Lemma horner_inj ns : forall idx idx', valid_idx ns idx -> valid_idx ns idx' ->
    horner ns idx = horner ns idx' -> idx = idx'.
  Proof.
    induction ns as [|n ns IH]; intros idx idx' H H' E; inversion H; inversion H'; subst; auto.
    cbn in E. assert (y = y0 /\ horner ns l' = horner ns l'0) as [-> E'].
    { assert (Hm : (y + n * horner ns l') mod n = (y0 + n * horner ns l'0) mod n) by now rewrite E.
      rewrite !(Z.mul_comm n), !Z.mod_add, !Z.mod_small in Hm by lia. subst. split; auto. nia. }
    f_equal. apply IH; auto.
  Qed.
  Lemma horner_surj ns : Forall (fun n => 0 < n) ns -> forall k, 0 <= k < cells ns ->
    exists idx, valid_idx ns idx /\ horner ns idx = k.
  Proof.
    induction 1 as [|n ns Hn Hns IH]; intros k Hk; cbn in Hk.
    - exists []. split; [constructor|cbn; lia].
    - fold (cells ns) in Hk.
      assert (Hkd : 0 <= k / n < cells ns) by (split; [apply Z.div_pos; lia|apply Z.div_lt_upper_bound; lia]).
      destruct (IH (k / n)) as (idx & Hv & E); auto.
      exists (k mod n :: idx). split.
      + constructor; auto. apply Z.mod_pos_bound. lia.
      + cbn. rewrite E. pose proof (Z.div_mod k n). lia.
  Qed.

  Lemma scan_ok : forall ns s, Forall (fun n => 0 < n) ns -> 0 < s -> s * cells ns <= intMax ->
    exists e, scan_prod s ns = Ret e /\ length e = length ns /\
      forall idx acc, valid_idx ns idx -> 0 <= acc < s -> dot_loop acc idx e = Ret (acc + s * horner ns idx).
  Proof.
    induction ns as [|n ns IH]; intros s Hp Hs Hc.
    - exists []. split; auto. split; auto. intros idx acc H Ha. inversion H; subst. cbn. f_equal. lia.
    - inversion Hp as [|? ? Hn Hp']; subst. cbn in Hc. fold (cells ns) in Hc.
      pose proof (cells_pos ns Hp') as Hcp.
      assert (Step : forall idx acc, valid_idx (n :: ns) idx -> 0 <= acc < s ->
        exists i idx', idx = i :: idx' /\ valid_idx ns idx' /\ i32 (i * s) = Ret (i * s) /\
          i32 (acc + i * s) = Ret (acc + i * s) /\ 0 <= acc + i * s < s * n).
      { intros idx acc H Ha. inversion H as [|? i ? idx' Hi Hv]; subst. exists i, idx'.
        split; auto. split; auto.
        assert (acc + i * s < s * n) by nia. assert (s * n <= intMax) by nia.
        split; [apply i32_ok; unfold in_i32, intMin; nia|].
        split; [apply i32_ok; unfold in_i32, intMin; nia|]. nia. }
      destruct ns as [|m ns].
      + exists [s]. split; auto. split; auto. intros idx acc H Ha.
        destruct (Step idx acc H Ha) as (i & idx' & -> & Hv & E1 & E2 & _). inversion Hv; subst.
        cbn [dot_loop]. rewrite E1. cbn [bind]. rewrite E2. cbn. f_equal. lia.
      + destruct (IH (s * n) Hp') as (e & E & El & He); [nia|lia|].
        exists (s :: e). cbn [scan_prod] in *.
        rewrite i32_ok by (unfold in_i32, intMin; nia). cbn [bind]. rewrite E. cbn [bind].
        split; auto. split; [cbn in *; lia|].
        intros idx acc H Ha.
        destruct (Step idx acc H Ha) as (i & idx' & -> & Hv & E1 & E2 & Hb).
        cbn [dot_loop]. rewrite E1. cbn [bind]. rewrite E2. cbn [bind].
        rewrite He by auto. f_equal. cbn [horner]. lia.
  Qed.

  Lemma flat_gen ns idx : Forall (fun n => 0 < n) ns -> cells ns <= intMax -> ns <> [] ->
    valid_idx ns idx -> (let* e := scan_prod 1 ns in dot idx e) = Ret (horner ns idx).
  Proof.
    intros Hp Hc H0 Hv. destruct (scan_ok ns 1 Hp) as (e & E & El & He); [lia|lia|].
    rewrite E. cbn [bind]. specialize (He idx 0 Hv). rewrite Z.mul_1_l, Z.add_0_l in He.
    rewrite <- He by lia. destruct Hv as [|n i ns idx Hi Hv]; [congruence|].
    destruct e as [|y e]; [discriminate|]. cbn [dot dot_loop].
    unfold i32 at 1 2. destruct (_ && _)%bool eqn:Eb; auto. cbn [bind].
    rewrite Z.add_0_l. unfold i32. rewrite Eb. reflexivity.
  Qed.

  Lemma flat_horner ns idx : Forall (fun n => 0 < n) ns -> cells ns <= intMax -> ns <> [] ->
    valid_idx ns idx -> flatIndex ns idx = Ret (horner ns idx).
  Proof.
    intros Hp Hc H0 Hv. pose proof (flat_gen ns idx Hp Hc H0 Hv) as G.
    pose proof (horner_bound ns idx Hv) as Hb.
    destruct Hv as [|n0 i0 ns idx A0 [|n1 i1 ns' idx' A1 [|n2 i2 ns'' idx'' A2 [|n3 i3 ns3 idx3 A3 Hv]]]];
      [congruence| | | |exact G].
    - cbn. f_equal. lia.
    - cbn [flatIndex horner] in *. cbn in Hc, Hb.
      rewrite i32_ok by (unfold in_i32, intMin; nia). cbn [bind].
      rewrite i32_ok by (unfold in_i32, intMin; nia). f_equal. lia.
    - cbn [flatIndex horner] in *. cbn in Hc, Hb.
      rewrite Z.mul_1_r in *. rewrite Z.mul_0_r, Z.add_0_r in *.
      assert (0 <= i2 * n1 <= n1 * n2 - n1) by nia.
      assert (n1 * n2 <= intMax) by nia.
      assert (n0 * (n1 * n2) >= n0 * (i1 + i2 * n1)) by nia.
      rewrite i32_ok by (unfold in_i32, intMin; lia). cbn [bind].
      rewrite i32_ok by (unfold in_i32, intMin; lia). cbn [bind].
      assert (0 <= n0 * (i1 + i2 * n1)) by nia.
      rewrite i32_ok by (unfold in_i32, intMin; lia). cbn [bind].
      replace (i0 + n0 * (i1 + n1 * i2)) with (i0 + n0 * (i1 + i2 * n1)) in * by ring.
      rewrite i32_ok by (unfold in_i32, intMin; lia). reflexivity.
  Qed.

  Lemma numbering_gen (flat : list Z -> outcome Z) ns : pos_counts ns -> ns <> [] ->
    (forall idx, valid_idx ns idx -> flat idx = flatIndex ns idx) -> numbering flat ns.
  Proof.
    intros [Hp Hc] H0 Hf.
    assert (E : forall idx, valid_idx ns idx -> flat idx = Ret (horner ns idx)).
    { intros idx H. rewrite Hf, flat_horner; auto. }
    split; [|split].
    - intros idx H. exists (horner ns idx). split; auto. now apply horner_bound.
    - intros idx idx' k H H' Ek Ek'. rewrite E in Ek, Ek' by auto. apply (horner_inj ns); auto. congruence.
    - intros k Hk. destruct (horner_surj ns Hp k Hk) as (idx & H & Ei). exists idx. split; auto.
      rewrite E by auto. congruence.
  Qed.

  Lemma total_ok ns : pos_counts ns -> totalNumCells ns = Ret (cells ns).
  Proof.
    intros [Hp Hc]. unfold totalNumCells.
    assert (G : forall s, 0 < s -> s * cells ns <= intMax ->
      fold_left (fun r n => let* t := r in i32 (t * n)) ns (Ret s) = Ret (s * cells ns)).
    { clear Hc. induction Hp as [|n ns Hn Hp IH]; intros s Hs Hc; cbn [fold_left].
      - cbn. f_equal. lia.
      - cbn in Hc. fold (cells ns) in Hc. pose proof (cells_pos ns Hp).
        cbn [bind]. rewrite i32_ok by (unfold in_i32, intMin; nia).
        rewrite IH by nia. cbn. f_equal. fold (cells ns). lia. }
    rewrite G by lia. f_equal. lia.
  Qed.
End Flat.

(** ** Tilings, for any list of strictly increasing division functions *)
Notation ax := ((Z -> R) * Z)%type (only parsing).
Definition gax (a : ax) : Prop :=
  (0 < snd a)%Z /\ forall i j, (0 <= i < j)%Z -> (j <= snd a)%Z -> fst a i < fst a j.
Definition gbox (g : list ax) (idx : list Z) : box :=
  map (fun p => (fst (fst p) (snd p), fst (fst p) (snd p + 1)%Z)) (combine g idx).
Definition gbb (g : list ax) : box := map (fun a => (fst a 0%Z, fst a (snd a))) g.

Lemma gax_le a : gax a -> forall i j, (0 <= i <= j)%Z -> (j <= snd a)%Z -> fst a i <= fst a j.
Proof.
  intros [_ H] i j Hi Hj. destruct (Z.eq_dec i j) as [->|]; [lra|]. left. apply H; lia.
Qed.

(** Some division is the last one not above x. *)
Lemma gax_find a x : gax a -> fst a 0%Z <= x <= fst a (snd a) ->
  exists i, (0 <= i < snd a)%Z /\ fst a i <= x <= fst a (i + 1)%Z.
Proof.
  intros [Hp Hm] Hx. destruct a as [f n]. cbn in *.
  assert (G : forall k, (k < Z.to_nat n)%nat -> x <= f (Z.of_nat k + 1)%Z ->
    exists i, (0 <= i < n)%Z /\ f i <= x <= f (i + 1)%Z).
  { induction k as [|k IH]; intros Hk Hxk.
    - exists 0%Z. split; [lia|]. cbn in Hxk |- *. lra.
    - destruct (Rle_lt_dec (f (Z.of_nat (S k))) x) as [H|H].
      + exists (Z.of_nat (S k)). split; [lia|]. lra.
      + apply IH; [lia|]. replace (Z.of_nat k + 1)%Z with (Z.of_nat (S k)) by lia. lra. }
  apply (G (Z.to_nat n - 1)%nat); [lia|].
  replace (Z.of_nat (Z.to_nat n - 1) + 1)%Z with n by lia. lra.
Qed.

Lemma gbox_length g idx : valid_idx (map snd g) idx -> length (gbox g idx) = length g.
Proof.
  intros H. apply Forall2_length in H. rewrite map_length in H.
  unfold gbox. rewrite map_length, combine_length, <- H. apply Nat.min_id.
Qed.
Lemma gbox_pos g : Forall gax g -> forall idx, valid_idx (map snd g) idx ->
  Forall (fun i => fst i < snd i) (gbox g idx).
Proof.
  induction 1 as [|a g [_ Ha] _ IH]; intros idx H; inversion H; subst; constructor.
  - cbn. apply Ha; lia.
  - apply IH; auto.
Qed.

Lemma gcover g : Forall gax g -> forall p, in_box p (gbb g) <->
  exists idx, valid_idx (map snd g) idx /\ in_box p (gbox g idx).
Proof.
  induction 1 as [|a g Ha _ IH]; intros p; cbn.
  - split.
    + intros H. inversion H; subst. exists []. split; constructor.
    + intros (idx & H & Hp). inversion H; subst. exact Hp.
  - split.
    + intros H. inversion H as [|x i p' b' Hx Hp]; subst. cbn in Hx.
      destruct (gax_find a x Ha Hx) as (k & Hk & Hkx).
      apply IH in Hp. destruct Hp as (idx & Hv & Hp).
      exists (k :: idx). split; constructor; auto.
    + intros (idx & H & Hp). inversion H as [|n i ns idx' Hi Hv]; subst. cbn in Hp.
      inversion Hp as [|x j p' b' Hx Hp']; subst. constructor.
      * cbn in *. pose proof (gax_le a Ha 0 i). pose proof (gax_le a Ha (i + 1) (snd a)).
        destruct Ha. lra || (assert (fst a 0%Z <= fst a i) by (apply H0; lia);
          assert (fst a (i+1)%Z <= fst a (snd a)) by (apply H1; lia); lra).
      * apply IH. eauto.
Qed.

Lemma gdisjoint g : Forall gax g -> forall p idx idx', valid_idx (map snd g) idx ->
  valid_idx (map snd g) idx' -> inside p (gbox g idx) -> inside p (gbox g idx') -> idx = idx'.
Proof.
  induction 1 as [|a g Ha _ IH]; intros p idx idx' H H' Hp Hp';
    inversion H as [|n i ns r Hi Hv]; inversion H' as [|n' i' ns' r' Hi' Hv']; subst; auto.
  cbn in *. apply Forall2_cons_r in Hp, Hp'.
  destruct Hp as (x & q & -> & Hx & Hq), Hp' as (x' & q' & E & Hx' & Hq').
  injection E as <- <-. cbn in *. f_equal.
  - destruct (Z.lt_trichotomy i i') as [L|[E|L]]; auto; exfalso.
    + assert (fst a (i + 1)%Z <= fst a i') by (apply gax_le; auto; lia). lra.
    + assert (fst a (i' + 1)%Z <= fst a i) by (apply gax_le; auto; lia). lra.
  - eapply IH; eauto.
Qed.

Lemma gface g : Forall gax g -> forall d i idx, valid_idx (map snd g) idx ->
  valid_idx (map snd g) (upd idx d (i + 1)%Z) -> nth_error idx d = Some i ->
  exists lo hi, nth_error (gbox g idx) d = Some (lo, hi) /\
    forall p, in_box p (gbox g idx) /\ in_box p (gbox g (upd idx d (i + 1)%Z)) <->
              in_box p (upd (gbox g idx) d (hi, hi)).
Proof.
  induction 1 as [|a g Ha _ IH]; intros d i idx H H' E.
  - inversion H; subst. destruct d; discriminate.
  - inversion H as [|n i0 ns r Hi Hv]; subst. destruct d as [|d]; cbn in E.
    + injection E as ->. exists (fst a i), (fst a (i + 1)%Z). split; [reflexivity|].
      intros p. cbn. inversion H' as [|? ? ? ? Hi1 Hv1]; subst.
      assert (fst a i < fst a (i + 1)%Z) by (apply Ha; lia).
      assert (fst a (i + 1)%Z < fst a (i + 1 + 1)%Z) by (apply Ha; lia).
      unfold in_box. rewrite !Forall2_cons_r. split.
      * intros [(x & q & -> & Hx & Hq) (x' & q' & E & Hx' & _)]. injection E as <- <-. cbn in *.
        exists x, q. split; auto. split; auto. cbn. lra.
      * intros (x & q & -> & Hx & Hq). cbn in Hx.
        split; exists x, q; (split; [auto|]); (split; [cbn; lra|exact Hq]).
    + cbn in H'. inversion H' as [|? ? ? ? Hi1 Hv1]; subst.
      destruct (IH d i r Hv Hv1 E) as (lo & hi & En & Hp). exists lo, hi. split; [exact En|].
      intros p. cbn. unfold in_box in *. rewrite !Forall2_cons_r. split.
      * intros [(x & q & -> & Hx & Hq) (x' & q' & E' & Hx' & Hq')]. injection E' as <- <-.
        exists x, q. split; auto. split; auto. apply Hp. auto.
      * intros (x & q & -> & Hx & Hq). apply Hp in Hq. destruct Hq.
        split; exists x, q; auto.
Qed.

Lemma gtiling g (bx : list Z -> outcome box) : Forall gax g ->
  (forall idx, valid_idx (map snd g) idx -> bx idx = Ret (gbox g idx)) ->
  tiling bx (map snd g) (gbb g).
Proof.
  intros Hg Hb. split; [|split; [|split]].
  - intros idx H. exists (gbox g idx). split; auto. split.
    + rewrite map_length. now apply gbox_length.
    + now apply gbox_pos.
  - intros p. rewrite (gcover g Hg). split.
    + intros (idx & H & Hp). exists idx, (gbox g idx). auto.
    + intros (idx & b & H & E & Hp). rewrite Hb in E by auto. injection E as <-. eauto.
  - intros p idx idx' b b' H H' E E' Hp Hp'. rewrite Hb in E, E' by auto.
    injection E as <-. injection E' as <-. eapply gdisjoint; eauto.
  - intros d i idx idx' b b' H H' En -> E E'. rewrite Hb in E, E' by auto.
    injection E as <-. injection E' as <-. now apply gface.
Qed.

(** ** RegularGrid *)
Definition toax (a : axis) : ax := (fun i => mn a + sp a * IZR i, nc a).

Lemma toax_good g : good_grid g -> Forall gax (map toax g).
Proof.
  intros [Hs [Hp _]]. rewrite Forall_map. rewrite Forall_map in Hp.
  rewrite Forall_forall in *. intros a Ha. split; cbn.
  - auto.
  - intros i j Hij _. specialize (Hs a Ha). assert (IZR i < IZR j) by (apply IZR_lt; lia). nra.
Qed.
Lemma toax_nc g : map snd (map toax g) = map nc g.
Proof. rewrite map_map. reflexivity. Qed.
Lemma toax_bb g : gbb (map toax g) = boundingBox g.
Proof.
  unfold gbb, boundingBox. rewrite map_map. apply map_ext. intros a. cbn. unfold maxima.
  f_equal. lra.
Qed.

Lemma assert_ok g idx : valid_idx (map nc g) idx ->
  forallb (fun p => snd p <? nc (fst p))%Z (combine g idx) = true.
Proof.
  revert idx. induction g as [|a g IH]; intros idx H; inversion H; subst; auto.
  cbn. rewrite IH by auto. rewrite andb_true_r. apply Z.ltb_lt. lia.
Qed.
Lemma assert_ok' g idx : valid_idx (map nc g) idx ->
  (if forallb (fun p => snd p <? nc (fst p))%Z (combine g idx) then true else false) = true.
Proof. intros H. now rewrite assert_ok. Qed.

Lemma getBox_ok g idx : valid_idx (map nc g) idx -> getBox g idx = Ret (gbox (map toax g) idx).
Proof.
  intros H. unfold getBox. rewrite assert_ok by auto.
  revert idx H. induction g as [|a g IH]; intros idx H; inversion H; subst; auto.
  cbn [map2o bind]. rewrite IH by auto. cbn. do 3 f_equal. rewrite plus_IZR. lra.
Qed.

Lemma regular_numbering g : good_grid g -> g <> [] -> numbering (getFlatIndex g) (map nc g).
Proof.
  intros [_ Hp] H0. apply numbering_gen; auto.
  - destruct g; [congruence|discriminate].
  - intros idx H. unfold getFlatIndex. now rewrite assert_ok.
Qed.
Lemma regular_total g : good_grid g -> totalNumCells (map nc g) = Ret (cells (map nc g)).
Proof. intros [_ Hp]. now apply total_ok. Qed.
Lemma regular_tiling g : good_grid g -> tiling (getBox g) (map nc g) (boundingBox g).
Proof.
  intros Hg. rewrite <- toax_bb, <- toax_nc. apply gtiling.
  - now apply toax_good.
  - intros idx H. rewrite toax_nc in H. now apply getBox_ok.
Qed.
Lemma regular_centroid g idx : good_grid g -> valid_idx (map nc g) idx ->
  exists c b, getCellCentroid g idx = Ret c /\ getBox g idx = Ret b /\ inside c b /\
    Forall2 (fun x i => x - fst i = snd i - x) c b.
Proof.
  intros [Hs _] H. pose proof (getBox_ok g idx H) as Eb.
  unfold getCellCentroid. rewrite assert_ok by auto.
  assert (G : exists c, map2o (fun a i => Ret (mn a + sp a * (IZR i + 1 / 2))) g idx = Ret c /\
     inside c (gbox (map toax g) idx) /\
     Forall2 (fun x i => x - fst i = snd i - x) c (gbox (map toax g) idx)).
  { clear Eb. revert idx H. induction Hs as [|a g Ha Hs IH]; intros idx H; inversion H; subst.
    - exists []. split; auto. split; constructor.
    - destruct (IH l') as (c & E & Hc & Hm); auto. cbn [map2o bind]. rewrite E. cbn [bind].
      eexists. split; [reflexivity|]. split; constructor; auto; cbn; rewrite plus_IZR; lra. }
  destruct G as (c & E & Hc & Hm). exists c, (gbox (map toax g) idx). auto.
Qed.

Lemma regular_of_box_ok b : Forall (fun i => fst i < snd i) b ->
  Forall (fun a => 0 < sp a) (regular_of_box b) /\ boundingBox (regular_of_box b) = b /\
  map nc (regular_of_box b) = repeat 1%Z (length b).
Proof.
  unfold regular_of_box, boundingBox, maxima.
  induction 1 as [|[l h] b Hi _ (H1 & H2 & H3)]; cbn in *.
  - repeat split; auto.
  - split; [constructor; auto; cbn; lra|]. rewrite H2, H3. split; auto.
    f_equal. f_equal. lra.
Qed.

(** ** Location *)
Lemma Int_part_spec x : IZR (Int_part x) <= x < IZR (Int_part x) + 1.
Proof. pose proof (base_Int_part x). lra. Qed.
Lemma Int_part_unique x k : IZR k <= x < IZR k + 1 -> Int_part x = k.
Proof.
  intros H. pose proof (Int_part_spec x).
  assert (Int_part x < k + 1)%Z by (apply lt_IZR; rewrite plus_IZR; lra).
  assert (k < Int_part x + 1)%Z by (apply lt_IZR; rewrite plus_IZR; lra). lia.
Qed.
Lemma floor_int_ok a x : castable a x -> floor_int ((x - mn a) / sp a) = Ret (Int_part ((x - mn a) / sp a)).
Proof.
  intros H. apply i32_ok. unfold castable in H. pose proof (Int_part_spec ((x - mn a) / sp a)).
  split.
  - assert (intMin < Int_part ((x - mn a) / sp a) + 1)%Z by (apply lt_IZR; rewrite plus_IZR; lra). lia.
  - assert (Int_part ((x - mn a) / sp a) < intMax + 1)%Z by (apply lt_IZR; rewrite plus_IZR; lra). lia.
Qed.

(** k is the floor of the quotient iff x is in the k-th half-open cell. *)
Lemma floor_cell a x k : 0 < sp a ->
  (Int_part ((x - mn a) / sp a) = k <-> mn a + sp a * IZR k <= x < mn a + sp a * (IZR k + 1)).
Proof.
  intros Hs. set (q := (x - mn a) / sp a).
  assert (Ex : x = mn a + sp a * q) by (unfold q; field; lra).
  split.
  - intros <-. pose proof (Int_part_spec q). rewrite Ex. nra.
  - intros H. apply Int_part_unique. rewrite Ex in H. split.
    + apply (Rmult_le_reg_l (sp a)); lra.
    + apply (Rmult_lt_reg_l (sp a)); lra.
Qed.
Lemma floor_lt a x k : 0 < sp a -> (Int_part ((x - mn a) / sp a) < k)%Z <-> x < mn a + sp a * IZR k.
Proof.
  intros Hs. set (q := (x - mn a) / sp a).
  assert (Ex : x = mn a + sp a * q) by (unfold q; field; lra).
  pose proof (Int_part_spec q). split; intros H1.
  - assert (IZR (Int_part q) + 1 <= IZR k) by (rewrite <- plus_IZR; apply IZR_le; lia).
    rewrite Ex. nra.
  - apply lt_IZR. assert (q < IZR k) by (apply (Rmult_lt_reg_l (sp a)); lra). lra.
Qed.
Lemma floor_ge a x k : 0 < sp a -> (k <= Int_part ((x - mn a) / sp a))%Z <-> mn a + sp a * IZR k <= x.
Proof.
  intros Hs. pose proof (floor_lt a x k Hs) as H. destruct (Rle_lt_dec (mn a + sp a * IZR k) x).
  - split; auto. intros _. apply Z.nlt_ge. intros L. apply H in L. lra.
  - split; [|lra]. intros L. apply H in r. lia.
Qed.

Lemma nc_range g a : pos_counts (map nc g) -> In a g -> (0 < nc a <= intMax)%Z.
Proof.
  intros [Hp Hc] Ha. rewrite Forall_map, Forall_forall in Hp. split; [auto|].
  apply in_split in Ha. destruct Ha as (g1 & g2 & ->).
  rewrite map_app in Hc. cbn in Hc.
  assert (G : forall l m, cells (l ++ m) = (cells l * cells m)%Z).
  { induction l as [|z l IHl]; intros m; [symmetry; apply Z.mul_1_l|].
    change (z * cells (l ++ m) = z * cells l * cells m)%Z. rewrite IHl. lia. }
  rewrite G in Hc. cbn in Hc. fold (cells (map nc g2)) in Hc.
  assert (0 < cells (map nc g1))%Z.
  { apply cells_pos. rewrite Forall_map, Forall_forall. intros b Hb. apply Hp. apply in_app_iff. auto. }
  assert (0 < cells (map nc g2))%Z.
  { apply cells_pos. rewrite Forall_map, Forall_forall. intros b Hb. apply Hp. apply in_app_iff. right. now right. }
  assert (0 < nc a)%Z by (apply Hp; apply in_app_iff; right; now left). assert (nc a <= nc a * cells (map nc g2))%Z by nia. nia.
Qed.

Lemma map2o_nth {A B C} (f : A -> B -> outcome C) l : forall m, length m = length l ->
  (forall i a b, nth_error l i = Some a -> nth_error m i = Some b -> exists c, f a b = Ret c) ->
  exists r, map2o f l m = Ret r /\ length r = length l /\
    forall i a b, nth_error l i = Some a -> nth_error m i = Some b ->
      exists c, f a b = Ret c /\ nth_error r i = Some c.
Proof.
  induction l as [|a l IH]; intros [|b m] Hl H; try discriminate.
  - exists []. split; auto. split; auto. intros [|i] a b; discriminate.
  - destruct (H 0%nat a b) as (c & Ec); auto.
    destruct (IH m) as (r & Er & Hr & Hn); [cbn in Hl; lia| |].
    + intros i a' b' Ha Hb. apply (H (S i)); auto.
    + cbn. rewrite Ec. cbn. rewrite Er. cbn. exists (c :: r). split; auto. split; [cbn; lia|].
      intros [|i] a' b' Ha Hb; cbn in *; eauto. injection Ha as <-. injection Hb as <-. eauto.
Qed.

Lemma containing_axis a x : 0 < sp a -> (0 < nc a <= intMax)%Z -> castable a x ->
  exists k, (let* k := floor_int ((x - mn a) / sp a) in
    let* m := i32 (nc a - 1)%Z in
    if ((m <? k) || (k <? 0))%Z%bool then Ret (-1)%Z else clamp k 0 m) = Ret k /\
    (mn a <= x < maxima a -> (0 <= k < nc a)%Z /\ mn a + sp a * IZR k <= x < mn a + sp a * IZR (k + 1)) /\
    (~ (mn a <= x < maxima a) -> k = (-1)%Z).
Proof.
  intros Hs Hn Hc. rewrite floor_int_ok by auto. cbn [bind].
  rewrite i32_ok by (unfold in_i32, intMin; lia). cbn [bind].
  set (k := Int_part _).
  pose proof (floor_lt a x (nc a) Hs) as L. pose proof (floor_ge a x 0 Hs) as G.
  pose proof (proj1 (floor_cell a x k Hs) eq_refl) as K. fold k in L, G. unfold maxima.
  replace (mn a + sp a * IZR 0) with (mn a) in G by lra.
  destruct (Z.ltb_spec (nc a - 1) k); cbn [orb].
  { eexists. split; [reflexivity|]. split; auto. intros [_ H1]. apply L in H1. lia. }
  destruct (Z.ltb_spec k 0).
  { eexists. split; [reflexivity|]. split; auto. intros [H1 _]. apply G in H1. lia. }
  exists k. split.
  - unfold clamp. destruct (Z.ltb_spec (nc a - 1) 0); [lia|].
    destruct (Z.ltb_spec k 0); [lia|]. destruct (Z.ltb_spec (nc a - 1) k); [lia|]. reflexivity.
  - split.
    + intros _. split; [lia|]. rewrite plus_IZR. exact K.
    + intros H1. exfalso. apply H1. split; [apply G; lia|apply L; lia].
Qed.

Lemma containing_ok g p : good_grid g -> Forall2 castable g p ->
  exists idx, getCellIndexContaining g p = Ret idx /\ length idx = length g /\
    forall d a x, nth_error g d = Some a -> nth_error p d = Some x ->
      exists k, nth_error idx d = Some k /\
        (mn a <= x < maxima a -> (0 <= k < nc a)%Z /\ mn a + sp a * IZR k <= x < mn a + sp a * IZR (k + 1)) /\
        (~ (mn a <= x < maxima a) -> k = (-1)%Z).
Proof.
  intros [Hs Hp] Hc. pose proof (Forall2_length _ _ _ Hc) as Hl. rewrite Forall_forall in Hs.
  assert (Hc' : forall d a x, nth_error g d = Some a -> nth_error p d = Some x -> castable a x).
  { clear - Hc. induction Hc; intros [|d] a b Ha Hb; cbn in *; try discriminate; eauto.
    injection Ha as <-. injection Hb as <-. auto. }
  assert (Hin : forall d a, nth_error g d = Some a -> In a g) by (intros; eapply nth_error_In; eauto).
  unfold getCellIndexContaining.
  edestruct (map2o_nth (fun a x =>
    let* k := floor_int ((x - mn a) / sp a) in
    let* m := i32 (nc a - 1)%Z in
    if ((m <? k) || (k <? 0))%Z%bool then Ret (-1)%Z else clamp k 0 m) g p) as (r & E & Hr & Hn); auto.
  - intros d a x Ha Hx. destruct (containing_axis a x) as (k & E & _); eauto.
    eapply nc_range; eauto.
  - exists r. split; [exact E|]. split; auto. intros d a x Ha Hx.
    destruct (Hn d a x Ha Hx) as (k & Ek & En). exists k. split; auto.
    destruct (containing_axis a x) as (k' & E' & H'); eauto. { eapply nc_range; eauto. }
    rewrite Ek in E'. injection E' as <-. auto.
Qed.

Lemma in_half_nth p b : length p = length b ->
  (forall d x i, nth_error p d = Some x -> nth_error b d = Some i -> fst i <= x < snd i) -> in_half p b.
Proof.
  revert b. induction p as [|x p IH]; intros [|i b] Hl H; try discriminate; constructor.
  - apply (H 0%nat); auto.
  - apply IH; [cbn in Hl; lia|]. intros d y j Hy Hj. apply (H (S d)); auto.
Qed.
Lemma in_half_inv p b d x i : in_half p b -> nth_error p d = Some x -> nth_error b d = Some i -> fst i <= x < snd i.
Proof.
  intros H. revert d. induction H; intros [|d] Hx Hi; cbn in *; try discriminate; eauto.
  injection Hx as <-. injection Hi as <-. auto.
Qed.

Lemma containing_box g p : good_grid g -> Forall2 castable g p ->
  exists idx, getCellIndexContaining g p = Ret idx /\
    (in_half p (boundingBox g) -> exists b, valid_idx (map nc g) idx /\ getBox g idx = Ret b /\ in_half p b) /\
    (~ in_half p (boundingBox g) -> In (-1)%Z idx).
Proof.
  intros Hg Hc. pose proof (Forall2_length _ _ _ Hc) as Hl.
  destruct (containing_ok g p Hg Hc) as (idx & E & Hli & Hk).
  exists idx. split; auto.
  assert (Hb : forall d a, nth_error g d = Some a -> nth_error (boundingBox g) d = Some (mn a, maxima a)).
  { intros d a Ha. unfold boundingBox. now apply (map_nth_error (fun a => (mn a, maxima a))). }
  split.
  - intros Hh.
    assert (Hv : valid_idx (map nc g) idx).
    { assert (forall d a k, nth_error g d = Some a -> nth_error idx d = Some k -> (0 <= k < nc a)%Z).
      { intros d a k Ha Ek. destruct (nth_error p d) as [x|] eqn:Ex.
        - destruct (Hk d a x Ha Ex) as (k' & Ek' & H1 & _). rewrite Ek in Ek'. injection Ek' as <-.
          apply H1. apply (in_half_inv p (boundingBox g) d x _ Hh Ex (Hb d a Ha)).
        - apply nth_error_None in Ex. assert (nth_error g d <> None) by congruence.
          apply nth_error_Some in H. lia. }
      clear - H Hli. revert idx Hli H. induction g as [|a g IH]; intros [|k idx] Hl H; try discriminate; constructor.
      - apply (H 0%nat a k); auto.
      - apply IH; [cbn in Hl; lia|]. intros d a' k' Ha Hk. apply (H (S d)); auto. }
    exists (gbox (map toax g) idx). split; auto. split; [now apply getBox_ok|].
    apply in_half_nth.
    + rewrite gbox_length by (rewrite toax_nc; auto). rewrite map_length. lia.
    + intros d x i Hx Hi. unfold gbox in Hi.
      assert (Hd : (d < length g)%nat) by (rewrite Hl; apply nth_error_Some; congruence).
      destruct (nth_error g d) as [a|] eqn:Ea; [|apply nth_error_None in Ea; lia].
      destruct (Hk d a x Ea Hx) as (k & Ek & H1 & _).
      assert (Ec : nth_error (combine (map toax g) idx) d = Some (toax a, k)).
      { clear - Ea Ek. revert d idx Ea Ek. induction g as [|b g IH]; intros [|d] [|j idx] Ea Ek; cbn in *;
          try discriminate; auto. congruence. }
      erewrite map_nth_error in Hi by exact Ec. injection Hi as <-. cbn.
      apply H1. apply (in_half_inv p (boundingBox g) d x _ Hh Hx (Hb d a Ea)).
  - intros Hn. destruct (in_dec Z.eq_dec (-1)%Z idx) as [|Hni]; auto. exfalso. apply Hn.
    apply in_half_nth; [unfold boundingBox; rewrite map_length; lia|].
    intros d x i Hx Hi. unfold boundingBox in Hi.
    assert (Hd : (d < length g)%nat) by (rewrite Hl; apply nth_error_Some; congruence).
    destruct (nth_error g d) as [a|] eqn:Ea; [|apply nth_error_None in Ea; lia].
    erewrite (map_nth_error (fun a => (mn a, maxima a))) in Hi by exact Ea. injection Hi as <-. cbn [fst snd].
    destruct (Hk d a x Ea Hx) as (k & Ek & _ & H2).
    destruct (Rle_lt_dec (mn a) x), (Rlt_le_dec x (maxima a)); auto;
      exfalso; apply Hni; apply nth_error_In with d; rewrite Ek; f_equal; apply H2; lra.
Qed.

Lemma intersecting_axis a i : 0 < sp a -> (0 < nc a <= intMax)%Z -> castable a (fst i) -> castable a (snd i) ->
  fst i <= snd i ->
  exists k0 k1, (let* k0 := floor_int ((fst i - mn a) / sp a) in
    let* k1 := floor_int ((snd i - mn a) / sp a) in
    let* m := i32 (nc a - 1)%Z in
    if ((m <? k0) || (k1 <? 0))%Z%bool then Ret (-1, -1)%Z
    else
      let* c0 := clamp k0 0 m in
      let* c1 := clamp k1 0 m in
      Ret (c0, c1)) = Ret (k0, k1) /\
    (forall k, (0 <= k < nc a)%Z ->
       ((k0 <= k <= k1)%Z <-> exists x, fst i <= x <= snd i /\ mn a + sp a * IZR k <= x < mn a + sp a * IZR (k + 1))) /\
    ((k0 = (-1)%Z /\ k1 = (-1)%Z) \/ (0 <= k0 <= k1 /\ k1 < nc a)%Z).
Proof.
  intros Hs Hn Hc0 Hc1 Hi. rewrite floor_int_ok by auto. cbn [bind].
  rewrite floor_int_ok by auto. cbn [bind].
  rewrite i32_ok by (unfold in_i32, intMin; lia). cbn [bind].
  set (k0 := Int_part ((fst i - mn a) / sp a)). set (k1 := Int_part ((snd i - mn a) / sp a)).
  assert (M : forall k, (k0 <= k <= k1)%Z <->
     exists x, fst i <= x <= snd i /\ mn a + sp a * IZR k <= x < mn a + sp a * IZR (k + 1)).
  { intros k. pose proof (floor_lt a (fst i) (k + 1) Hs) as L. pose proof (floor_ge a (snd i) k Hs) as G.
    fold k0 in L. fold k1 in G. rewrite plus_IZR in *. split.
    - intros [H1 H2]. apply G in H2. assert (H3 : (k0 < k + 1)%Z) by lia. apply L in H3.
      exists (Rmax (fst i) (mn a + sp a * IZR k)).
      unfold Rmax. destruct (Rle_dec (fst i) (mn a + sp a * IZR k)); nra.
    - intros (x & Hx & Hk). assert (k <= k1)%Z by (apply G; lra). assert (k0 < k + 1)%Z by (apply L; lra). lia. }
  assert (Hk : (k0 <= k1)%Z).
  { apply (floor_ge a (snd i) k0 Hs). pose proof (proj1 (floor_cell a (fst i) k0 Hs) eq_refl). lra. }
  destruct (Z.ltb_spec (nc a - 1) k0); cbn [orb].
  { do 2 eexists. split; [reflexivity|]. split; [|auto]. intros k Hk'. split; [lia|]. intros H1. apply M in H1. lia. }
  destruct (Z.ltb_spec k1 0).
  { do 2 eexists. split; [reflexivity|]. split; [|auto]. intros k Hk'. split; [lia|]. intros H1. apply M in H1. lia. }
  assert (C : forall v, clamp v 0 (nc a - 1) = Ret (Z.max 0 (Z.min v (nc a - 1)))).
  { intros v. unfold clamp. destruct (Z.ltb_spec (nc a - 1) 0); [lia|].
    destruct (Z.ltb_spec v 0); [f_equal; lia|]. destruct (Z.ltb_spec (nc a - 1) v); f_equal; lia. }
  rewrite !C. cbn [bind]. do 2 eexists. split; [reflexivity|]. split.
  - intros k Hk'. rewrite <- M. lia.
  - right. lia.
Qed.

Lemma intersecting_ok g b : good_grid g -> Forall2 (fun a i => castable a (fst i) /\ castable a (snd i)) g b ->
  Forall (fun i => fst i <= snd i) b ->
  exists r, getCellIndicesIntersecting g b = Ret r /\ length r = length g /\
    forall d a i, nth_error g d = Some a -> nth_error b d = Some i ->
      exists k0 k1, nth_error r d = Some (k0, k1) /\
        (forall k, (0 <= k < nc a)%Z ->
          ((k0 <= k <= k1)%Z <-> exists x, fst i <= x <= snd i /\ mn a + sp a * IZR k <= x < mn a + sp a * IZR (k + 1))) /\
        ((k0 = (-1)%Z /\ k1 = (-1)%Z) \/ (0 <= k0 <= k1 /\ k1 < nc a)%Z).
Proof.
  intros [Hs Hp] Hc Ho. pose proof (Forall2_length _ _ _ Hc) as Hl. rewrite Forall_forall in Hs, Ho.
  assert (Hc' : forall d a i, nth_error g d = Some a -> nth_error b d = Some i ->
     castable a (fst i) /\ castable a (snd i)).
  { clear - Hc. induction Hc; intros [|d] a i Ha Hb; cbn in *; try discriminate; eauto.
    injection Ha as <-. injection Hb as <-. auto. }
  assert (Hax : forall d a i, nth_error g d = Some a -> nth_error b d = Some i -> _)
    by (intros d a i Ha Hi; destruct (Hc' d a i Ha Hi);
        apply (intersecting_axis a i); auto;
        [apply Hs; eapply nth_error_In; eauto|eapply nc_range; eauto; eapply nth_error_In; eauto|
         apply Ho; eapply nth_error_In; eauto]).
  unfold getCellIndicesIntersecting.
  edestruct (map2o_nth (fun a i =>
    let* k0 := floor_int ((fst i - mn a) / sp a) in
    let* k1 := floor_int ((snd i - mn a) / sp a) in
    let* m := i32 (nc a - 1)%Z in
    if ((m <? k0) || (k1 <? 0))%Z%bool then Ret (-1, -1)%Z
    else
      let* c0 := clamp k0 0 m in
      let* c1 := clamp k1 0 m in
      Ret (c0, c1)) g b) as (r & E & Hr & Hn); auto.
  - intros d a i Ha Hi. destruct (Hax d a i Ha Hi) as (k0 & k1 & E & _). eauto.
  - exists r. split; [exact E|]. split; auto. intros d a i Ha Hi.
    destruct (Hax d a i Ha Hi) as (k0 & k1 & E' & H'). exists k0, k1. split; auto.
    destruct (Hn d a i Ha Hi) as (c & Ec & En). rewrite Ec in E'. injection E' as ->. exact En.
Qed.

(** A point further away than 2^31 cells. *)
Lemma far_point : exists g p, good_grid g /\ length p = length g /\ getCellIndexContaining g p = Ub.
Proof.
  exists [mkAxis 0 1 1], [2147483648]. split; [|split; auto].
  - split; [constructor; auto; cbn; lra|]. split; [constructor; auto; cbn; lia|cbn; unfold intMax; lia].
  - cbn [getCellIndexContaining map2o mn sp]. unfold floor_int.
    replace (Int_part _) with 2147483648%Z; [reflexivity|].
    symmetry. apply Int_part_unique. cbn [mn sp]. lra.
Qed.

(** ** RectilinearGrid *)
Definition rtoax (l : list R) : ax := (fun i => nth (Z.to_nat i) l 0, (Z.of_nat (length l) - 1)%Z).

Lemma rtoax_good l : (2 <= length l)%nat -> increasing l -> gax (rtoax l).
Proof.
  intros Hl Hi. split; cbn; [lia|]. intros i j Hij Hj.
  apply (Hi (Z.to_nat i) (Z.to_nat j)); [lia| |]; apply nth_error_nth'; lia.
Qed.
Lemma rtoax_nc g : map snd (map rtoax g) = numCells g.
Proof. unfold numCells. rewrite map_map. reflexivity. Qed.

Lemma rect_getBox_ok g idx : valid_idx (numCells g) idx -> rect_getBox g idx = Ret (gbox (map rtoax g) idx).
Proof.
  intros H. unfold rect_getBox.
  replace (forallb _ _) with true.
  - revert idx H. induction g as [|l g IH]; intros idx H; inversion H; subst; auto.
    cbn [map2o]. rewrite (rdz_nth l y (nth (Z.to_nat y) l 0)); [|lia|apply nth_error_nth'; lia].
    cbn [bind]. rewrite (rdz_nth l (y + 1)%Z (nth (Z.to_nat (y + 1)) l 0)); [|lia|apply nth_error_nth'; lia].
    cbn [bind]. rewrite IH by auto. reflexivity.
  - symmetry. revert idx H. induction g as [|l g IH]; intros idx H; inversion H; subst; auto.
    cbn. rewrite IH by auto. rewrite andb_true_r. apply Z.ltb_lt. lia.
Qed.

Lemma rect_bb_ok g : Forall (fun l => (2 <= length l)%nat /\ increasing l) g ->
  rect_boundingBox g = Ret (gbb (map rtoax g)).
Proof.
  intros H. unfold rect_boundingBox.
  rewrite (mapo_ok _ (fun l => (nth 0 l 0, nth (length l - 1) l 0))).
  - unfold gbb. rewrite map_map. f_equal. apply map_ext_in. intros l Hl.
    rewrite Forall_forall in H. destruct (H l Hl) as [Hl2 _].
    cbn. replace (Z.to_nat (Z.of_nat (length l) - 1)) with (length l - 1)%nat by lia. reflexivity.
  - intros l Hl. rewrite Forall_forall in H. destruct (H l Hl) as [Hl2 _]. unfold rd.
    rewrite (nth_error_nth' l 0) by lia. cbn [bind].
    rewrite (nth_error_nth' l 0) by lia. reflexivity.
Qed.

Lemma good_rgrid_counts g : good_rgrid g -> pos_counts (numCells g).
Proof.
  intros [H1 H2]. split; auto. unfold numCells. rewrite Forall_map.
  eapply Forall_impl; [|exact H1]. cbn. intros l [H _]. lia.
Qed.
Lemma rect_numbering g : good_rgrid g -> g <> [] -> numbering (rect_getFlatIndex g) (numCells g).
Proof.
  intros Hg H0. apply numbering_gen.
  - now apply good_rgrid_counts.
  - destruct g; [congruence|discriminate].
  - intros idx H. unfold rect_getFlatIndex. replace (forallb _ _) with true; auto.
    symmetry. clear Hg H0. revert idx H. induction g as [|l g IH]; intros idx H; inversion H; subst; auto.
    cbn. rewrite IH by auto. rewrite andb_true_r. apply Z.ltb_lt. lia.
Qed.
Lemma rect_tiling g : good_rgrid g ->
  exists bb, rect_boundingBox g = Ret bb /\ tiling (rect_getBox g) (numCells g) bb.
Proof.
  intros [Hg _]. eexists. split; [now apply rect_bb_ok|]. rewrite <- rtoax_nc. apply gtiling.
  - rewrite Forall_map. eapply Forall_impl; [|exact Hg]. intros l [H1 H2]. now apply rtoax_good.
  - intros idx H. rewrite rtoax_nc in H. now apply rect_getBox_ok.
Qed.

(** An index one past the end is accepted and hits the next row's first cell. *)
Lemma rect_flat_collision : exists g i j, good_rgrid g /\ ~ valid_idx (numCells g) i /\
  valid_idx (numCells g) j /\ rect_getFlatIndex g i = rect_getFlatIndex g j /\
  exists k, rect_getFlatIndex g j = Ret k.
Proof.
  exists [[0; 1; 2]; [0; 1; 2]], [2; 0]%Z, [0; 1]%Z.
  assert (Hinc : increasing [0; 1; 2]).
  { intros [|[|[|i]]] [|[|[|j]]] a b Hij; cbn; try lia;
      try (intros [= <-] [= <-]; lra); try (destruct i; discriminate); try (destruct j; discriminate);
      intros _; destruct j; discriminate. }
  split. { split; [repeat constructor; auto|cbn; unfold intMax; lia]. }
  split. { intros H. inversion H; subst. cbn in *. lia. }
  split. { repeat constructor; cbn; lia. }
  split; [reflexivity|]. eexists. reflexivity.
Qed.

(** *** Sorting *)
Lemma insert_perm x l : Permutation (x :: l) (insert x l).
Proof.
  induction l as [|y l IH]; cbn; auto. destruct (Rle_dec x y); auto.
  rewrite perm_swap. now constructor.
Qed.
Lemma sort_perm l : Permutation l (sort l).
Proof.
  induction l as [|x l IH]; cbn; auto. rewrite <- insert_perm. now constructor.
Qed.
Lemma insert_sorted x l : StronglySorted Rle l -> StronglySorted Rle (insert x l).
Proof.
  induction 1 as [|y l Hl IH Hy]; cbn.
  - repeat constructor.
  - destruct (Rle_dec x y) as [H|H].
    + constructor; [constructor; auto|]. constructor; auto.
      eapply Forall_impl; [|exact Hy]. cbn. intros; lra.
    + constructor; auto. apply Forall_forall. intros z Hz.
      apply (Permutation_in _ (Permutation_sym (insert_perm x l))) in Hz. destruct Hz as [<-|Hz]; [lra|].
      rewrite Forall_forall in Hy. auto.
Qed.
Lemma sort_sorted l : StronglySorted Rle (sort l).
Proof. induction l; cbn; [constructor|now apply insert_sorted]. Qed.

Lemma increasing_cons a l : increasing (a :: l) <-> (forall b, In b l -> a < b) /\ increasing l.
Proof.
  split.
  - intros H. split.
    + intros b Hb. apply In_nth_error in Hb. destruct Hb as (j & Hj). apply (H 0%nat (S j) a b); auto; lia.
    + intros i j x y Hij Hx Hy. apply (H (S i) (S j) x y); auto; lia.
  - intros [H1 H2] i j x y Hij Hx Hy. destruct j as [|j]; [lia|]. cbn in Hy. destruct i as [|i]; cbn in Hx.
    + injection Hx as <-. apply H1. eapply nth_error_In; eauto.
    + apply (H2 i j); auto; lia.
Qed.
Lemma sorted_increasing l : StronglySorted Rle l -> NoDup l -> increasing l.
Proof.
  induction 1 as [|a l Hl IH Ha]; intros Hn.
  - intros [|i] j a b _; discriminate.
  - inversion Hn; subst. apply increasing_cons. split; auto. intros b Hb.
    rewrite Forall_forall in Ha. destruct (Ha b Hb) as [|E]; auto. subst. contradiction.
Qed.
Lemma increasing_unique l : forall m, increasing l -> increasing m -> (forall x, In x l <-> In x m) -> l = m.
Proof.
  induction l as [|a l IH]; intros [|b m] Hl Hm H; auto.
  - exfalso. apply (proj2 (H b)). now left.
  - exfalso. apply (proj1 (H a)). now left.
  - apply increasing_cons in Hl, Hm. destruct Hl as [La Hl], Hm as [Mb Hm].
    assert (a = b) as ->.
    { destruct (proj1 (H a)) as [E|Ha]; [now left|auto|].
      destruct (proj2 (H b)) as [E|Hb]; [now left|auto|].
      apply Mb in Ha. apply La in Hb. lra. }
    f_equal. apply IH; auto. intros x. split; intros Hx.
    + destruct (proj1 (H x)) as [E|]; [now right| |auto]. subst. apply La in Hx. lra.
    + destruct (proj2 (H x)) as [E|]; [now right| |auto]. subst. apply Mb in Hx. lra.
Qed.

(** *** Unique edges *)
Definition separated (l : list R) : Prop := forall a b, In a l -> In b l -> a <> b -> eps <= Rabs (a - b).

Lemma eps_pos : 0 < eps. Proof. unfold eps. lra. Qed.

Lemma add_div_cases l x :
  (add_div l x = l /\ exists y, In y l /\ Rabs (y - x) < eps) \/
  (add_div l x = l ++ [x] /\ forall y, In y l -> eps <= Rabs (y - x)).
Proof.
  unfold add_div. destruct (existsb _ l) eqn:E.
  - left. split; auto. apply existsb_exists in E. destruct E as (y & Hy & H).
    exists y. split; auto. destruct (Rlt_dec (Rabs (y - x)) eps); [auto|discriminate].
  - right. split; auto. intros y Hy.
    assert (Hf : (if Rlt_dec (Rabs (y - x)) eps then true else false) = false).
    { destruct (Rlt_dec (Rabs (y - x)) eps) eqn:Ed; auto. exfalso.
      assert (existsb (fun d => if Rlt_dec (Rabs (d - x)) eps then true else false) l = true).
      { apply existsb_exists. exists y. split; auto. now rewrite Ed. }
      congruence. }
    destruct (Rlt_dec (Rabs (y - x)) eps); [discriminate|lra].
Qed.

Lemma adds_ok xs : forall l, NoDup l -> separated l ->
  let r := fold_left add_div xs l in
  NoDup r /\ separated r /\ (forall x, In x r -> In x l \/ In x xs) /\ (forall x, In x l -> In x r) /\
  (forall x, In x xs -> exists y, In y r /\ Rabs (y - x) < eps).
Proof.
  pose proof eps_pos as He.
  induction xs as [|x xs IH]; intros l Hn Hs; cbn [fold_left].
  - cbn. repeat split; auto. contradiction.
  - destruct (add_div_cases l x) as [[E (y & Hy & Hxy)]|[E Hx]].
    + rewrite E. destruct (IH l Hn Hs) as (I1 & I2 & I3 & I4 & I5). cbn. repeat split; auto.
      * intros z Hz. destruct (I3 z Hz); auto.
      * intros z [<-|Hz]; eauto.
    + rewrite E. destruct (IH (l ++ [x])) as (I1 & I2 & I3 & I4 & I5).
      * rewrite <- rev_involutive, rev_app_distr. apply NoDup_rev. cbn. constructor.
        -- rewrite <- in_rev. intros Hin. specialize (Hx x Hin). rewrite Rminus_diag_eq, Rabs_R0 in Hx by auto. lra.
        -- now apply NoDup_rev.
      * intros a b Ha Hb Hab. rewrite in_app_iff in Ha, Hb.
        destruct Ha as [Ha|[<-|[]]], Hb as [Hb|[<-|[]]]; auto.
        -- rewrite Rabs_minus_sym. auto.
        -- congruence.
      * cbn. repeat split; auto.
        -- intros z Hz. destruct (I3 z Hz) as [H|H]; auto. apply in_app_iff in H. destruct H as [|[|[]]]; auto.
        -- intros z Hz. apply I4. apply in_app_iff. auto.
        -- intros z [<-|Hz]; auto. exists x. split; [apply I4; apply in_app_iff; right; now left|].
           rewrite Rminus_diag_eq, Rabs_R0 by auto. auto.
Qed.

Definition edges (is : list interval) : list R := flat_map (fun i => [fst i; snd i]) is.

Lemma edges_fold is : forall l,
  fold_left (fun l i => add_div (add_div l (fst i)) (snd i)) is l = fold_left add_div (edges is) l.
Proof. induction is; intros l; cbn; auto. Qed.

Lemma divs_spec is : let l := sort (fold_left (fun l i => add_div (add_div l (fst i)) (snd i)) is []) in
  increasing l /\ separated l /\ (forall x, In x l -> In x (edges is)) /\
  (forall x, In x (edges is) -> exists y, In y l /\ Rabs (y - x) < eps).
Proof.
  cbn. rewrite edges_fold. set (r := fold_left add_div (edges is) []).
  destruct (adds_ok (edges is) []) as (I1 & I2 & I3 & I4 & I5).
  - constructor.
  - intros a b [].
  - fold r in I1, I2, I3, I4, I5. pose proof (sort_perm r) as P.
    assert (HI : forall x, In x (sort r) <-> In x r).
    { intros x. split; intros H; [eapply Permutation_in; [symmetry; exact P|auto]|eapply Permutation_in; eauto]. }
    split; [|split; [|split]].
    + apply sorted_increasing; [apply sort_sorted|]. eapply Permutation_NoDup; eauto.
    + intros a b Ha Hb. apply I2; now apply HI.
    + intros x Hx. apply HI in Hx. destruct (I3 x Hx); auto. contradiction.
    + intros x Hx. destruct (I5 x Hx) as (y & Hy & H). exists y. split; auto. now apply HI.
Qed.

Lemma divs_exact is l : increasing l -> separated l -> (forall x, In x (edges is) <-> In x l) ->
  sort (fold_left (fun l i => add_div (add_div l (fst i)) (snd i)) is []) = l.
Proof.
  intros H1 H2 H3. destruct (divs_spec is) as (I1 & I2 & I3 & I4). apply increasing_unique; auto.
  intros x. split; intros Hx.
  - apply H3. auto.
  - apply H3 in Hx. destruct (I4 x Hx) as (y & Hy & Hd).
    destruct (Req_dec y x) as [->|Hn]; auto.
    assert (eps <= Rabs (y - x)); [|lra]. apply H2; auto; apply H3; auto.
Qed.

Lemma mapo_inv {A B} (f : A -> outcome B) l r : mapo f l = Ret r ->
  length r = length l /\ forall i a, nth_error l i = Some a -> exists b, f a = Ret b /\ nth_error r i = Some b.
Proof.
  revert r. induction l as [|a l IH]; intros r; cbn.
  - intros [= <-]. split; auto. intros [|i]; discriminate.
  - intros H. apply bind_Ret in H. destruct H as (b & Eb & H). apply bind_Ret in H.
    destruct H as (r' & Er & [= <-]). destruct (IH r' Er) as [Hl Hn]. split; [cbn; lia|].
    intros [|i] x Hx; cbn in *; [injection Hx as <-; eauto|eauto].
Qed.

Lemma of_boxes_ok D boxes g : rect_of_boxes D boxes = Ret g ->
  length g = D /\ totalNumCells (numCells g) = Ret (Z.of_nat (length boxes)) /\
  forall d l, nth_error g d = Some l ->
    increasing l /\ separated l /\
    (forall x, In x l -> exists b i, In b boxes /\ nth_error b d = Some i /\ (x = fst i \/ x = snd i)) /\
    (forall b i x, In b boxes -> nth_error b d = Some i -> x = fst i \/ x = snd i ->
       exists y, In y l /\ Rabs (y - x) < eps).
Proof.
  unfold rect_of_boxes. intros H. apply bind_Ret in H. destruct H as (g' & Eg & H).
  apply bind_Ret in H. destruct H as (n & En & H).
  destruct (Z.eqb_spec n (Z.of_nat (length boxes))) as [->|]; [|discriminate]. injection H as ->.
  apply mapo_inv in Eg. destruct Eg as [Hl Hn]. rewrite seq_length in Hl.
  split; auto. split; auto. intros d l Hd.
  assert (d < D)%nat by (rewrite <- Hl; apply nth_error_Some; congruence).
  destruct (Hn d d) as (l' & El & Hl').
  { rewrite (nth_error_nth' _ 0%nat) by (rewrite seq_length; auto). now rewrite seq_nth. }
  rewrite Hd in Hl'. injection Hl' as <-. unfold divs_of in El.
  apply bind_Ret in El. destruct El as (is & Eis & [= <-]).
  apply mapo_inv in Eis. destruct Eis as [Hli Hni].
  destruct (divs_spec is) as (I1 & I2 & I3 & I4). split; auto. split; auto. split.
  - intros x Hx. apply I3 in Hx. unfold edges in Hx. apply in_flat_map in Hx.
    destruct Hx as (i & Hi & Hx). apply In_nth_error in Hi. destruct Hi as (k & Hk).
    assert (k < length boxes)%nat by (rewrite <- Hli; apply nth_error_Some; congruence).
    destruct (nth_error boxes k) as [b|] eqn:Eb; [|apply nth_error_None in Eb; lia].
    destruct (Hni k b Eb) as (i' & Ei & Hi'). rewrite Hk in Hi'. injection Hi' as <-.
    apply rd_Ret in Ei. exists b, i. split; [eapply nth_error_In; eauto|]. split; auto.
    cbn in Hx. destruct Hx as [|[|[]]]; auto.
  - intros b i x Hb Hi Hx. apply I4. apply In_nth_error in Hb. destruct Hb as (k & Hk).
    destruct (Hni k b Hk) as (i' & Ei & Hi'). apply rd_Ret in Ei. rewrite Hi in Ei. injection Ei as <-.
    unfold edges. apply in_flat_map. exists i. split; [eapply nth_error_In; eauto|].
    cbn. destruct Hx; auto.
Qed.

(** *** From a lattice *)
Lemma sums_ge s ws x : Forall (fun w => eps <= w) ws -> In x (sums s ws) -> s = x \/ s + eps <= x.
Proof.
  pose proof eps_pos. revert s. induction ws as [|w ws IH]; intros s H0 Hx; cbn in Hx.
  - destruct Hx as [|[]]; auto.
  - destruct Hx as [|Hx]; auto. inversion H0; subst. apply IH in Hx; auto. right. lra.
Qed.
Lemma sums_good s ws : Forall (fun w => eps <= w) ws -> increasing (sums s ws) /\ separated (sums s ws).
Proof.
  pose proof eps_pos. revert s. induction ws as [|w ws IH]; intros s H0; cbn.
  - split.
    + apply increasing_cons. split; [intros b []|]. intros [|i] j a b _; discriminate.
    + intros a b [<-|[]] [<-|[]]. congruence.
  - inversion H0 as [|? ? Hw Hws]; subst. destruct (IH (s + w) Hws) as [I1 I2].
    assert (G : forall x, In x (sums (s + w) ws) -> s + eps <= x).
    { intros x Hx. apply sums_ge in Hx; auto. lra. }
    split.
    + apply increasing_cons. split; auto. intros b Hb. apply G in Hb. lra.
    + intros a b [<-|Ha] [<-|Hb] Hab; auto.
      * congruence.
      * apply G in Hb. rewrite Rabs_minus_sym, Rabs_right; lra.
      * apply G in Ha. rewrite Rabs_right; lra.
Qed.
Lemma sums_length s ws : length (sums s ws) = S (length ws).
Proof. revert s; induction ws; intros; cbn; auto. Qed.

Fixpoint ints (s : R) (ws : list R) : list interval :=
  match ws with [] => [] | w :: ws' => (s, s + w) :: ints (s + w) ws' end.
Lemma ints_edges s ws x : ws <> [] -> (In x (edges (ints s ws)) <-> In x (sums s ws)).
Proof.
  revert s. induction ws as [|w ws IH]; intros s H0; [congruence|]. cbn.
  destruct ws as [|w' ws].
  - cbn. tauto.
  - change (s = x \/ s + w = x \/ In x (edges (ints (s + w) (w' :: ws))) <-> s = x \/ In x (sums (s + w) (w' :: ws))).
    rewrite IH by discriminate. cbn. tauto.
Qed.
Lemma ints_length s ws : length (ints s ws) = length ws.
Proof. revert s; induction ws; intros; cbn; auto. Qed.
Lemma edges_app a b : edges (a ++ b) = edges a ++ edges b.
Proof. apply flat_map_app. Qed.

Lemma mapo_app {A B} (f : A -> outcome B) l m rl rm : mapo f l = Ret rl -> mapo f m = Ret rm ->
  mapo f (l ++ m) = Ret (rl ++ rm).
Proof.
  revert rl. induction l as [|a l IH]; intros rl; cbn.
  - intros [= <-]. auto.
  - intros H Hm. apply bind_Ret in H. destruct H as (b & Eb & H). apply bind_Ret in H.
    destruct H as (r' & Er & [= <-]). rewrite Eb. cbn. rewrite (IH r') by auto. reflexivity.
Qed.

Definition entry (dxdy : list (R * R)) (h : R) (id : Z) (w : R) : Prop :=
  (0 <= id)%Z /\ nth_error dxdy (Z.to_nat id) = Some (w, h).

Lemma row_boxes_ok dxdy h y : forall row ws, Forall2 (entry dxdy h) row ws -> forall x,
  exists bs, row_boxes dxdy row x y = Ret bs /\ length bs = length ws /\
    mapo (fun b => rd b 0) bs = Ret (ints x ws) /\
    mapo (fun b => rd b 1) bs = Ret (repeat (y, y + h) (length ws)).
Proof.
  induction 1 as [|id w row ws [H0 H] _ IH]; intros x.
  - exists []. auto.
  - cbn [row_boxes]. rewrite (rdz_nth _ _ _ H0 H). cbn [bind fst snd].
    destruct (IH (x + w)) as (bs & E & El & E0 & E1). rewrite E. cbn [bind].
    eexists. split; [reflexivity|]. split; [cbn; lia|]. cbn. rewrite E0, E1. cbn. auto.
Qed.

Lemma rows_boxes_ok dxdy W : W <> [] -> forall rows hs,
  Forall2 (fun row h => Forall2 (entry dxdy h) row W) rows hs -> forall y,
  exists bs, rows_boxes dxdy rows y = Ret bs /\ length bs = (length hs * length W)%nat /\
    (exists xs, mapo (fun b => rd b 0) bs = Ret xs /\
       (forall x, In x (edges xs) <-> hs <> [] /\ In x (sums 0 W))) /\
    (exists ys, mapo (fun b => rd b 1) bs = Ret ys /\
       (forall x, In x (edges ys) <-> In x (edges (ints y hs)))).
Proof.
  intros HW. induction 1 as [|row h rows hs Hr _ IH]; intros y.
  - exists []. split; auto. split; auto. split; exists []; (split; [reflexivity|]); cbn; tauto.
  - cbn [rows_boxes]. destruct (row_boxes_ok dxdy h y row W Hr 0) as (b1 & E & El & E0 & E1).
    rewrite E. cbn [bind]. destruct Hr as [|id w row W [Hid Hd] Hr]; [congruence|].
    change (rdz (id :: row) 0%Z) with (Ret id). cbn [bind]. rewrite (rdz_nth _ _ _ Hid Hd). cbn [bind snd].
    destruct (IH (y + h)) as (b2 & Eb & Elb & (xs & Ex & Hx) & (ys & Ey & Hy)). rewrite Eb. cbn [bind].
    eexists. split; [reflexivity|]. split; [rewrite app_length; cbn [length] in *; lia|]. split.
    + eexists. split; [eapply mapo_app; eauto|]. intros x. rewrite edges_app, in_app_iff, Hx, ints_edges by auto.
      split; [|tauto]. intros [H1|[_ H1]]; (split; [discriminate|auto]).
    + eexists. split; [eapply mapo_app; eauto|]. intros x. rewrite edges_app, in_app_iff, Hy.
      cbn [ints]. unfold edges at 3. cbn [flat_map]. rewrite in_app_iff. fold (edges (ints (y + h) hs)).
      assert (R : In x (edges (repeat (y, y + h) (length (w :: W)))) <-> In x [y; y + h]).
      { generalize W as W0. induction W0 as [|? W0 IHW]; cbn in *; [tauto|].
        change (flat_map _ (repeat (y, y + h) (length W0))) with (edges (repeat (y, y + h) (length W0))) in *.
        tauto. }
      rewrite R. cbn. tauto.
Qed.

Lemma lattice_rows dxdy ids W H : lattice dxdy ids W H ->
  Forall2 (fun row h => Forall2 (entry dxdy h) row W) (rev ids) H.
Proof.
  intros (Hl & HW & HH & _ & _ & _ & Hr).
  apply Forall2_nth_intro; [rewrite rev_length; auto|].
  intros i row h Hi Hh.
  assert (i < length H)%nat by (apply nth_error_Some; congruence).
  assert (Er : nth_error ids (length H - 1 - i) = Some row).
  { rewrite <- Hi. rewrite <- Hl in *. symmetry.
    rewrite (nth_error_nth' (rev ids) row) by (rewrite rev_length; auto).
    rewrite rev_nth by auto. rewrite (nth_error_nth' ids row) by lia. f_equal. f_equal. lia. }
  destruct (Hr i row Er H0) as [Hlen Hj].
  apply Forall2_nth_intro; auto. intros j id w Hid Hw.
  destruct (Hj j id Hid) as (d & H1 & H2 & H3 & H4). split; auto.
  rewrite H2. destruct d as [dx dy]. cbn in *. congruence.
Qed.

Theorem of_lattice_ok dxdy ids W H : lattice dxdy ids W H ->
  rect_of_lattice dxdy ids = Ret [sums 0 W; sums 0 H].
Proof.
  intros HL. pose proof (lattice_rows _ _ _ _ HL) as HR.
  destruct HL as (Hl & HW & HH & HeW & HeH & Hc & Hr).
  unfold rect_of_lattice.
  destruct ids as [|row0 ids'] eqn:Eids; [destruct H; [congruence|discriminate]|].
  rewrite <- Eids in *. replace (rd ids 0) with (@Ret (list Z) row0) by (now rewrite Eids). cbn [bind].
  assert (Hrow : forall row, In row ids -> length row = length W /\ forallb (fun id => 0 <=? id)%Z row = true).
  { intros row Hin. apply In_nth_error in Hin. destruct Hin as (k & Hk).
    assert (k < length H)%nat by (rewrite <- Hl; apply nth_error_Some; congruence).
    destruct (Hr (length H - 1 - k)%nat row) as [H1 H2].
    - replace (length H - 1 - (length H - 1 - k))%nat with k by lia. auto.
    - lia.
    - split; auto. apply forallb_forall. intros id Hid. apply In_nth_error in Hid. destruct Hid as (j & Hj).
      destruct (H2 j id Hj) as (d & Hd & _). apply Z.leb_le. auto. }
  replace (forallb _ (tl ids)) with true.
  2:{ symmetry. apply forallb_forall. intros row Hin.
      assert (In row ids) by (rewrite Eids in *; now right).
      destruct (Hrow row) as [H1 H2]; auto. rewrite H2, andb_true_r. apply Nat.eqb_eq.
      destruct (Hrow row0) as [H3 _]; [rewrite Eids; now left|]. congruence. }
  destruct (rows_boxes_ok dxdy W HW (rev ids) H HR 0) as (bs & E & El & (xs & Ex & Hx) & (ys & Ey & Hy)).
  rewrite E. cbn [bind].
  destruct (sums_good 0 W HeW) as [SW1 SW2]. destruct (sums_good 0 H HeH) as [SH1 SH2].
  unfold rect_of_boxes. cbn [seq mapo]. unfold divs_of. rewrite Ex. cbn [bind]. rewrite Ey. cbn [bind].
  rewrite (divs_exact xs (sums 0 W)); auto.
  2:{ intros x. rewrite Hx. tauto. }
  rewrite (divs_exact ys (sums 0 H)); auto.
  2:{ intros x. rewrite Hy. now apply ints_edges. }
  rewrite total_ok.
  - cbn [bind]. unfold cells. cbn [numCells map fold_right]. rewrite !sums_length.
    match goal with |- (if ?b then _ else _) = _ => replace b with true; auto end.
    symmetry. apply Z.eqb_eq. rewrite El. lia.
  - assert (0 < length W)%nat by (destruct W; [congruence|cbn; lia]).
    assert (0 < length H)%nat by (destruct H; [congruence|cbn; lia]).
    split.
    + cbn [numCells map]. rewrite !sums_length. repeat constructor; lia.
    + unfold cells. cbn [numCells map fold_right]. rewrite !sums_length.
      replace (Z.of_nat (S (length W)) - 1)%Z with (Z.of_nat (length W)) by lia.
      replace (Z.of_nat (S (length H)) - 1)%Z with (Z.of_nat (length H)) by lia. lia.
Qed.

Lemma sums_nth ws : forall s i a b w, nth_error (sums s ws) i = Some a -> nth_error (sums s ws) (S i) = Some b ->
  nth_error ws i = Some w -> b = a + w.
Proof.
  induction ws as [|w' ws IH]; intros s i a b w Ha Hb Hw.
  - destruct i; discriminate.
  - destruct i as [|i]; cbn in *.
    + injection Ha as <-. injection Hw as ->. destruct ws; cbn in Hb; congruence.
    + eapply IH; eauto.
Qed.

(** The cell (j, i) has the extents of the entry in column j, i rows above the bottom. *)
Lemma lattice_cell dxdy ids W H g i j row id d : lattice dxdy ids W H -> rect_of_lattice dxdy ids = Ret g ->
  (i < length H)%nat -> nth_error ids (length H - 1 - i) = Some row -> nth_error row j = Some id ->
  nth_error dxdy (Z.to_nat id) = Some d ->
  exists lx hx ly hy, rect_getBox g [Z.of_nat j; Z.of_nat i] = Ret [(lx, hx); (ly, hy)] /\
    hx - lx = fst d /\ hy - ly = snd d.
Proof.
  intros HL Eg Hi Hrow Hid Hd. rewrite (of_lattice_ok _ _ _ _ HL) in Eg. injection Eg as <-.
  destruct HL as (Hl & HW & HH & HeW & HeH & Hc & Hr).
  destruct (Hr i row Hrow Hi) as [Hlen Hj]. destruct (Hj j id Hid) as (d' & H1 & H2 & H3 & H4).
  rewrite Hd in H2. injection H2 as <-.
  assert (Hjl : (j < length W)%nat) by (rewrite <- Hlen; apply nth_error_Some; congruence).
  rewrite rect_getBox_ok.
  2:{ constructor; [|constructor; [|constructor]]; rewrite sums_length; lia. }
  cbn [gbox map rtoax combine fst snd]. do 4 eexists. split; [reflexivity|].
  replace (Z.to_nat (Z.of_nat j + 1)) with (S j) by lia. replace (Z.to_nat (Z.of_nat i + 1)) with (S i) by lia.
  rewrite !Nat2Z.id. split.
  - rewrite (sums_nth W 0 j (nth j (sums 0 W) 0) (nth (S j) (sums 0 W) 0) (fst d)); auto;
      [lra| |]; apply nth_error_nth'; rewrite sums_length; lia.
  - rewrite (sums_nth H 0 i (nth i (sums 0 H) 0) (nth (S i) (sums 0 H) 0) (snd d)); auto;
      [lra| |]; apply nth_error_nth'; rewrite sums_length; lia.
Qed.

(** ** Partitions *)
Section Partition.
  Variable P : Type.
  Variable cast : Z -> P.
  Variable dflt : P.

  Lemma fill_ok (f : nat -> nat -> outcome P) (v : nat -> nat -> P) nx ny l :
    (forall i j, (i < ny)%nat -> (j < nx)%nat -> f i j = Ret (v i j)) -> length l = (nx * ny)%nat ->
    exists r, for_ ny 0 (fun i ch => for_ nx 0 (fun j ch => let* x := f i j in wr ch (i * nx + j)%nat x) ch) l = Ret r /\
      length r = (nx * ny)%nat /\
      forall i j, (i < ny)%nat -> (j < nx)%nat -> nth_error r (i * nx + j) = Some (v i j).
  Proof.
    intros Hf Hl.
    destruct (for_inv (fun i (r : list P) => length r = (nx * ny)%nat /\
        forall i' j, (i' < i)%nat -> (j < nx)%nat -> nth_error r (i' * nx + j) = Some (v i' j))
      (fun i ch => for_ nx 0 (fun j ch => let* x := f i j in wr ch (i * nx + j)%nat x) ch) ny 0 l) as (r & E & Hr).
    - split; auto. intros; lia.
    - intros i s Hi [Hs1 Hs2].
      destruct (for_inv (fun j (r : list P) => length r = (nx * ny)%nat /\
          (forall i' j', (i' < i)%nat -> (j' < nx)%nat -> nth_error r (i' * nx + j') = Some (v i' j')) /\
          (forall j', (j' < j)%nat -> nth_error r (i * nx + j') = Some (v i j')))
        (fun j ch => let* x := f i j in wr ch (i * nx + j)%nat x) nx 0 s) as (r & E & Hr1 & Hr2 & Hr3).
      + split; auto. split; auto. intros; lia.
      + intros j r Hj (Hr1 & Hr2 & Hr3). rewrite Hf by lia. cbn [bind].
        assert (i * nx + j < length r)%nat by (rewrite Hr1; nia).
        rewrite wr_ok by auto. eexists. split; [reflexivity|].
        split; [rewrite upd_length; auto|]. split.
        * intros i' j' Hi' Hj'. rewrite nth_error_upd_neq; auto. nia.
        * intros j' Hj'. destruct (Nat.eq_dec j' j) as [->|Hn].
          -- now rewrite nth_error_upd_eq.
          -- rewrite nth_error_upd_neq by lia. apply Hr3. lia.
      + exists r. split; auto. split; auto. intros i' j' Hi' Hj'.
        destruct (Nat.eq_dec i' i) as [->|Hn]; [apply Hr3; lia|apply Hr2; lia].
    - exists r. split; [exact E|]. exact Hr.
  Qed.

  Lemma rect_partition_ok dxdy ids W H : lattice dxdy ids W H ->
    exists g ch, rect_partition_of_lattice P cast dflt dxdy ids = Ret (g, ch) /\
      rect_of_lattice dxdy ids = Ret g /\ length ch = (length W * length H)%nat /\
      forall i j row id, (j < length H)%nat -> nth_error ids (length H - 1 - j) = Some row ->
        nth_error row i = Some id ->
        rect_getChild P (g, ch) [Z.of_nat i; Z.of_nat j] = Ret (cast id).
  Proof.
    intros HL. pose proof (of_lattice_ok _ _ _ _ HL) as Eg.
    destruct HL as (Hl & HW & HH & HeW & HeH & Hc & Hr).
    unfold rect_partition_of_lattice. rewrite Eg. cbn [bind rd nth_error].
    change (rd [sums 0 W; sums 0 H] 0) with (Ret (sums 0 W)).
    change (rd [sums 0 W; sums 0 H] 1) with (Ret (sums 0 H)). cbn [bind].
    rewrite !sums_length. replace (S (length W) - 1)%nat with (length W) by lia.
    replace (S (length H) - 1)%nat with (length H) by lia.
    set (v := fun i j => cast (nth j (nth (length H - 1 - i) ids []) 0%Z)).
    destruct (fill_ok (fun i j => let* row := rd ids (length H - 1 - i) in let* id := rd row j in Ret (cast id))
      v (length W) (length H) (repeat dflt (length W * length H))) as (ch & E & Hch & Hn).
    - intros i j Hi Hj. unfold rd at 1. rewrite (nth_error_nth' ids []) by lia. cbn [bind].
      destruct (Hr i (nth (length H - 1 - i) ids [])) as [Hlen _]; auto.
      { apply nth_error_nth'. lia. }
      unfold rd. rewrite (nth_error_nth' _ 0%Z) by lia. reflexivity.
    - apply repeat_length.
    - assert (Ef : for_ (length H) 0 (fun i ch =>
          for_ (length W) 0 (fun j ch =>
            let* row := rd ids (length H - 1 - i) in
            let* id := rd row j in
            wr ch (i * length W + j)%nat (cast id)) ch) (repeat dflt (length W * length H)) = Ret ch).
      { rewrite <- E. apply for_ext. intros i l. apply for_ext. intros j l'.
        destruct (rd ids _) as [row| | |]; cbn; auto. destruct (rd row j); cbn; auto. }
      rewrite Ef. cbn [bind].
      exists [sums 0 W; sums 0 H], ch. split; auto. split; auto. split; auto.
      intros i j row id Hj Hrow Hid.
      assert (Hi : (i < length W)%nat).
      { destruct (Hr j row Hrow Hj) as [Hlen _]. rewrite <- Hlen. apply nth_error_Some. congruence. }
      unfold rect_getChild. cbn [fst snd]. unfold rect_getFlatIndex. cbn [combine forallb fst snd].
      rewrite !sums_length.
      assert (B1 : (Z.of_nat i <? Z.of_nat (S (length W)))%Z = true) by (apply Z.ltb_lt; lia).
      assert (B2 : (Z.of_nat j <? Z.of_nat (S (length H)))%Z = true) by (apply Z.ltb_lt; lia).
      rewrite B1, B2. cbn [andb flatIndex numCells map]. rewrite sums_length.
      assert (Z.of_nat j * Z.of_nat (length W) + Z.of_nat i < Z.of_nat (length W) * Z.of_nat (length H))%Z by nia.
      rewrite i32_ok by (unfold in_i32, intMin; nia). cbn [bind].
      rewrite i32_ok by (unfold in_i32, intMin; nia). cbn [bind].
      apply rdz_nth; [nia|].
      replace (Z.to_nat _) with (j * length W + i)%nat by nia. rewrite (Hn j i) by auto.
      unfold v. rewrite (nth_error_nth ids _ [] Hrow), (nth_error_nth row _ 0%Z Hid). reflexivity.
  Qed.

  (** getChild of a regular partition reaches every child exactly once. *)
  Lemma regular_partition_ok g ch : good_grid g -> g <> [] -> Z.of_nat (length ch) = cells (map nc g) ->
    regular_partition P g ch = Ret (g, ch) /\
    (forall k c, nth_error ch k = Some c ->
       exists idx, valid_idx (map nc g) idx /\ getFlatIndex g idx = Ret (Z.of_nat k) /\
         regular_getChild P (g, ch) idx = Ret c) /\
    (forall idx, valid_idx (map nc g) idx -> exists k c, getFlatIndex g idx = Ret (Z.of_nat k) /\
         nth_error ch k = Some c /\ regular_getChild P (g, ch) idx = Ret c).
  Proof.
    intros Hg H0 Hl. destruct (regular_numbering g Hg H0) as (N1 & N2 & N3). split; [|split].
    - unfold regular_partition. rewrite regular_total by auto. cbn [bind]. rewrite <- Hl, Z.eqb_refl. reflexivity.
    - intros k c Hk. destruct (N3 (Z.of_nat k)) as (idx & Hv & E).
      { assert (k < length ch)%nat by (apply nth_error_Some; congruence). lia. }
      exists idx. split; auto. split; auto. unfold regular_getChild. cbn [fst snd]. rewrite E. cbn [bind].
      apply rdz_nth; [lia|]. now rewrite Nat2Z.id.
    - intros idx Hv. destruct (N1 idx Hv) as (k & E & Hk).
      destruct (nth_error ch (Z.to_nat k)) as [c|] eqn:Ec; [|apply nth_error_None in Ec; lia].
      exists (Z.to_nat k), c. rewrite Z2Nat.id by lia. split; auto. split; auto.
      unfold regular_getChild. cbn [fst snd]. rewrite E. cbn [bind]. apply rdz_nth; [lia|auto].
  Qed.
End Partition.
