(** Extents of the cells of an accepted RTM; calls with nothing to read; what the checks miss. *)
From Coq Require Import String.
From Coq Require Import List Arith ZArith Bool Reals Lra Lia.
From Verif Require Import Base Loops Fill Arith Box_Proofs Poly_Spec Grid_Model Grid_Spec Grid_Proofs Fvm_Model PinRect_Model Mpact_Model Mpact_Spec Mpact_Proofs Mpact_Steps_Proofs Mpact_Accept_Proofs.
Import ListNotations.
Local Open Scope list_scope.
Local Open Scope R_scope.

(** * Points that are far apart and each near a division *)
Lemma fit_list lx es : increasing lx ->
  (forall i a b, nth_error es i = Some a -> nth_error es (S i) = Some b -> a + 2 * eps <= b) ->
  (forall e, In e es -> exists y, In y lx /\ Rabs (y - e) < eps) ->
  (length es <= length lx)%nat /\
  (length es = length lx -> forall j e y, nth_error es j = Some e -> nth_error lx j = Some y -> Rabs (y - e) < eps).
Proof.
  intros HI HG HN. pose proof eps_pos as He.
  assert (lt : forall j e e' k k' y y', nth_error es j = Some e -> nth_error es (S j) = Some e' ->
    nth_error lx k = Some y -> nth_error lx k' = Some y' -> Rabs (y - e) < eps -> Rabs (y' - e') < eps -> (k < k')%nat).
  { intros j e e' k k' y y' E E' K K' N N'. specialize (HG _ _ _ E E'). apply Rabs_def2 in N. apply Rabs_def2 in N'.
    destruct (Nat.lt_trichotomy k k') as [|[->|L]]; auto; exfalso.
    - assert (y = y') by congruence. lra.
    - specialize (HI _ _ _ _ L K' K). lra. }
  assert (ex : forall j e, nth_error es j = Some e -> exists k y, nth_error lx k = Some y /\ Rabs (y - e) < eps).
  { intros j e E. destruct (HN e) as (y & Hy & N); [eapply nth_error_In; eauto|]. apply In_nth_error in Hy as (k & Hk). eauto. }
  assert (lo : forall j e k y, nth_error es j = Some e -> nth_error lx k = Some y -> Rabs (y - e) < eps -> (j <= k)%nat).
  { induction j as [|j IH]; intros e k y E K N; [lia|]. destruct (nth_error es j) as [e0|] eqn:E0.
    2:{ apply nth_error_None in E0. assert (S j < length es)%nat by (apply nth_error_Some; congruence). lia. }
    destruct (ex j e0 E0) as (k0 & y0 & K0 & N0). specialize (IH _ _ _ eq_refl K0 N0).
    assert (k0 < k)%nat by (eapply lt; [exact E0|exact E|eauto|eauto|auto|auto]). lia. }
  assert (hi : forall d j e k y, (j + d = length es - 1)%nat -> nth_error es j = Some e -> nth_error lx k = Some y -> Rabs (y - e) < eps -> (k + d < length lx)%nat).
  { induction d as [|d IH]; intros j e k y Hd E K N.
    - rewrite Nat.add_0_r. apply nth_error_Some. congruence.
    - destruct (nth_error es (S j)) as [e1|] eqn:E1.
      2:{ apply nth_error_None in E1. lia. }
      destruct (ex _ _ E1) as (k1 & y1 & K1 & N1). assert (k1 + d < length lx)%nat by (eapply IH; [|exact E1|eauto|auto]; lia).
      assert (k < k1)%nat by (eapply lt; [exact E|exact E1|eauto|eauto|auto|auto]). lia. }
  split.
  - destruct es as [|e es']; [cbn; lia|]. destruct (ex 0%nat e eq_refl) as (k & y & K & N).
    assert (k + (length (e :: es') - 1) < length lx)%nat by (eapply (hi _ 0%nat); [|reflexivity|eauto|auto]; lia). cbn [length] in *. lia.
  - intros Hl j e y E Y. destruct (ex j e E) as (k & y' & K & N). assert (j <= k)%nat by (eapply lo; eauto).
    assert (j < length es)%nat by (apply nth_error_Some; congruence).
    assert (k + (length es - 1 - j) < length lx)%nat by (eapply (hi _ j); [|eauto|eauto|auto]; lia).
    assert (k = j) by lia. subst k. congruence.
Qed.
Lemma sums_step s ws : forall i a b, nth_error (sums s ws) i = Some a -> nth_error (sums s ws) (S i) = Some b ->
  exists w, nth_error ws i = Some w /\ b = a + w.
Proof.
  revert s. induction ws as [|w ws IH]; intros s i a b Ha Hb; cbn [sums] in *.
  - destruct i; discriminate.
  - destruct i as [|i].
    + cbn in Ha. injection Ha as <-. exists w. split; auto. destruct ws; cbn in Hb; congruence.
    + cbn [nth_error] in *. apply (IH (s + w)); auto.
Qed.

(** * Boxes of any lattice *)
Lemma row_boxes_inv dxdy y : forall row x bs, row_boxes dxdy row x y = Ret bs ->
  exists ds, Forall2 (fun id d => rdz dxdy id = Ret d) row ds /\
    mapo (fun b => rd b 0) bs = Ret (ints x (map fst ds)) /\ mapo (fun b => rd b 1) bs = Ret (map (fun d => (y, y + snd d)) ds).
Proof.
  induction row as [|id row IH]; intros x bs H; cbn [row_boxes] in H.
  - injection H as <-. exists []. repeat split; constructor.
  - apply bind_Ret in H as (d & Ed & H). apply bind_Ret in H as (r & Er & [= <-]). destruct (IH _ _ Er) as (ds & F & E0 & E1).
    exists (d :: ds). split; [constructor; auto|]. cbn. rewrite E0, E1. cbn. auto.
Qed.
Lemma rows_boxes_inv dxdy nc : (0 < nc)%nat -> forall rows y bs, Forall (fun row => length row = nc) rows ->
  rows_boxes_n dxdy nc rows y = Ret bs ->
  exists dss xs ys, Forall2 (Forall2 (fun id d => rdz dxdy id = Ret d)) rows dss /\
    mapo (fun b => rd b 0) bs = Ret xs /\ mapo (fun b => rd b 1) bs = Ret ys /\
    (forall ds x, In ds dss -> In x (sums 0 (map fst ds)) -> In x (edges xs)) /\
    (rows <> [] -> forall x, In x (sums y (map (fun ds => snd (hd (0, 0) ds)) dss)) -> In x (edges ys)).
Proof.
  intros Hnc. induction rows as [|row rows IH]; intros y bs HF H; cbn [rows_boxes_n] in H.
  - injection H as <-. exists [], [], []. split; [constructor|]. split; auto. split; auto. split; [intros ? ? []|congruence].
  - inversion HF as [|? ? HL HF']; subst. rewrite (proj2 (Nat.ltb_ge _ _)) in H by lia. rewrite firstn_all in H.
    apply bind_Ret in H as (b & Eb & H). apply bind_Ret in H as (id & Ei & H). apply bind_Ret in H as (d & Ed & H).
    apply bind_Ret in H as (r & Er & [= <-]). destruct (row_boxes_inv _ _ _ _ _ Eb) as (ds & F & E0 & E1).
    destruct (IH _ _ HF' Er) as (dss & xs & ys & Fs & Ex & Ey & Hx & Hy).
    destruct row as [|id' row]; [cbn in Hnc; lia|]. cbn in Ei. injection Ei as <-. inversion F as [|? d' ? ds' Ed' F']; subst.
    assert (d' = d) by congruence. subst d'.
    eexists (_ :: dss), _, _. split; [constructor; eauto|]. split; [eapply mapo_app; eauto|]. split; [eapply mapo_app; eauto|]. split.
    + intros ds0 x [<-|Hin] Hxs; rewrite edges_app, in_app_iff; [left|right; eauto]. apply ints_edges; auto. discriminate.
    + intros _ x Hin. rewrite edges_app, in_app_iff. cbn [map sums hd] in Hin. destruct Hin as [<-|Hin].
      * left. cbn. auto.
      * destruct rows as [|row2 rows].
        -- inversion Fs; subst. cbn in Hin. destruct Hin as [<-|[]]. left. cbn. auto.
        -- right. apply Hy; [discriminate|auto].
Qed.

Section Column.
Variable exit_on_error : bool.
Theorem rtm_fits m ids m' r nr nc : consistent true m -> rectangular ids nr nc -> (0 < nc)%nat ->
  addRTM true exit_on_error m ids = Ret (m', r) -> r <> (-1)%Z ->
  (forall id c, In id (concat ids) -> at_ (cells m) id c -> 2 * eps <= fst (xy_extents c) /\ 2 * eps <= snd (xy_extents c)) ->
  exists lx ly, at_ (rtms m') r ([lx; ly], concat (rev ids)) /\ length lx = S nc /\ length ly = S nr /\
    (forall i j id c, entry ids i j id -> at_ (cells m) id c ->
       exists a b, nth_error lx j = Some a /\ nth_error lx (S j) = Some b /\ Rabs (b - a - fst (xy_extents c)) < 2 * eps) /\
    (forall i id c, entry ids i 0 id -> at_ (cells m) id c ->
       exists a b, nth_error ly (nr - 1 - i) = Some a /\ nth_error ly (S (nr - 1 - i)) = Some b /\ Rabs (b - a - snd (xy_extents c)) < 2 * eps).
Proof.
  intros HC HR Hnc H Hr Hbig. pose proof H as H'. pose proof eps_pos as Hep.
  apply addRTM_inv in H' as [(_ & ? & _)|(p & -> & -> & HF & Hp & _)]; [congruence| |exact HC].
  unfold addRTM in H. destruct (collect_ok exit_on_error (cells m) (concat ids) [] [] HF) as (u & xy & Ec & F2 & Hu); [constructor|].
  rewrite Ec in H. cbn [bind] in H. assert (Hu' : forall id, In id (concat ids) -> In id u) by auto.
  rewrite (renumber_ok true u ids Hu') in H. cbn [bind] in H. apply bind_Ret in H as (g & Eg & H). apply bind_Ret in H as (ok & _ & H).
  destruct (negb ok). { apply error_Ret in H as [_ H]. apply pair_equal_spec in H as [_ H]. lia. }
  apply bind_Ret in H as (flat & Ef & H). apply bind_Ret in H as (p' & Ep & H).
  apply partition_inv in Ep as [-> Hn]. injection H as Hpush.
  assert (Hpg : p = (g, flat)). { apply (f_equal (fun x => last x p)) in Hpush. rewrite !last_last in Hpush. auto. }
  subst p. clear Hpush. pose proof HR as [Hl Hf].
  destruct (grid_of_inv _ _ _ _ Eg) as (row0 & boxes & lx & ly & Er0 & Hr0 & Eb & Lb & -> & Dx & Dy & Ix & Iy & Nx & Ny & Hck).
  rewrite map_length in Lb. rewrite nth_error_map in Er0. destruct (nth_error ids 0) as [r0|] eqn:E0; [|discriminate]. injection Er0 as <-.
  assert (L0 : length r0 = nc) by (rewrite Forall_forall in Hf; apply Hf; eapply nth_error_In; eauto).
  rewrite map_length, L0 in Eb, Lb.
  assert (Hnr : (0 < nr)%nat) by (rewrite <- Hl; apply nth_error_Some; congruence).
  set (ren := map (map (fun id => Z.of_nat (find_id u id))) ids) in *.
  assert (Hren : Forall (fun row => length row = nc) (rev ren)).
  { apply Forall_rev. unfold ren. rewrite Forall_map. eapply Forall_impl; [|exact Hf]. intros a Ha. cbn in Ha. now rewrite map_length. }
  destruct (rows_boxes_inv xy nc Hnc _ _ _ Hren Eb) as (dss & xs & ys & Fs & Ex & Ey & HX & HY).
  assert (Ldss : length dss = nr). { rewrite <- (Forall2_length _ _ _ Fs). unfold ren. now rewrite rev_length, map_length. }
  unfold divs_of in Dx, Dy. rewrite Ex in Dx. rewrite Ey in Dy. cbn [bind] in Dx, Dy. injection Dx as Dx. injection Dy as Dy.
  destruct (divs_spec xs) as (_ & _ & _ & NX). destruct (divs_spec ys) as (_ & _ & _ & NY). cbn zeta in NX, NY. rewrite Dx in NX. rewrite Dy in NY.
  (* the extents of the cell of an entry *)
  assert (Hext : forall i j id c, entry ids i j id -> at_ (cells m) id c -> exists ds, nth_error dss (nr - 1 - i) = Some ds /\ In ds dss /\
    nth_error ds j = Some (xy_extents c)).
  { intros i j id c (row & Hi & Hj) Hc. assert (Hlt : (i < nr)%nat) by (rewrite <- Hl; apply nth_error_Some; congruence).
    assert (Hrow : nth_error (rev ren) (nr - 1 - i) = Some (map (fun id => Z.of_nat (find_id u id)) row)).
    { assert (Lr : length ren = nr) by (unfold ren; now rewrite map_length). apply rev_nth_error; rewrite Lr; [lia|].
      replace (nr - 1 - (nr - 1 - i))%nat with i by lia. unfold ren. rewrite nth_error_map, Hi. reflexivity. }
    destruct (nth_error dss (nr - 1 - i)) as [ds|] eqn:Ed.
    2:{ apply nth_error_None in Ed. lia. }
    exists ds. split; auto. split; [eapply nth_error_In; eauto|].
    pose proof (Forall2_nth _ _ _ _ _ _ Fs Hrow Ed) as Fr.
    assert (Lds : length ds = length row) by (rewrite <- (Forall2_length _ _ _ Fr); now rewrite map_length).
    assert (Hjl : (j < length row)%nat) by (apply nth_error_Some; congruence).
    destruct (nth_error ds j) as [d|] eqn:Edj. 2:{ apply nth_error_None in Edj. lia. }
    assert (Hid' : nth_error (map (fun id => Z.of_nat (find_id u id)) row) j = Some (Z.of_nat (find_id u id))) by (rewrite nth_error_map, Hj; reflexivity).
    pose proof (Forall2_nth _ _ _ _ _ _ Fr Hid' Edj) as Hd.
    apply at_rdz in Hd as [_ Hd]. rewrite Nat2Z.id in Hd.
    assert (Hin : In id u) by (apply Hu'; apply in_concat; exists row; split; eapply nth_error_In; eauto).
    destruct (find_id_ok u id Hin) as [_ Eu]. destruct (Forall2_nth _ _ _ _ _ _ F2 Eu Hd) as (c' & Hc' & ->).
    destruct Hc as [_ Hc], Hc' as [_ Hc']. do 2 f_equal. congruence. }
  assert (Hdss : forall k ds, nth_error dss k = Some ds -> length ds = nc /\
    forall j d, nth_error ds j = Some d -> 2 * eps <= fst d /\ 2 * eps <= snd d).
  { intros k ds Hk. assert (Hkl : (k < nr)%nat) by (rewrite <- Ldss; apply nth_error_Some; congruence).
    destruct (nth_error ids (nr - 1 - k)) as [row|] eqn:Erow. 2:{ apply nth_error_None in Erow. lia. }
    assert (Lrow : length row = nc) by (rewrite Forall_forall in Hf; apply Hf; eapply nth_error_In; eauto).
    assert (Hent : forall j, (j < nc)%nat -> exists id c, nth_error row j = Some id /\ at_ (cells m) id c /\ In id (concat ids) /\ nth_error ds j = Some (xy_extents c)).
    { intros j Hj. destruct (nth_error row j) as [id|] eqn:Ej. 2:{ apply nth_error_None in Ej. lia. }
      assert (Hin : In id (concat ids)) by (apply in_concat; exists row; split; eapply nth_error_In; eauto).
      rewrite Forall_forall in HF. destruct (exists_at _ _ (HF id Hin)) as (c & Hc). exists id, c. do 3 (split; auto).
      destruct (Hext (nr - 1 - k)%nat j id c) as (ds' & Ed' & _ & Hd); [exists row; auto|auto|].
      replace (nr - 1 - (nr - 1 - k))%nat with k in Ed' by lia. congruence. }
    assert (Hlen : length ds = nc).
    { assert (Hrow' : nth_error (rev ren) k = Some (map (fun id => Z.of_nat (find_id u id)) row)).
      { assert (Lr : length ren = nr) by (unfold ren; now rewrite map_length). apply rev_nth_error; rewrite Lr; [lia|].
        unfold ren. rewrite nth_error_map, Erow. reflexivity. }
      pose proof (Forall2_nth _ _ _ _ _ _ Fs Hrow' Hk) as Fr. rewrite <- (Forall2_length _ _ _ Fr). now rewrite map_length. }
    split; auto. intros j d Hj. assert (j < length ds)%nat by (apply nth_error_Some; congruence).
    destruct (Hent j) as (id & c & _ & Hc & Hin & Hd); [lia|]. rewrite Hj in Hd. injection Hd as ->. eapply Hbig; eauto. }
  assert (GX : forall k ds, nth_error dss k = Some ds -> (length (sums 0 (map fst ds)) <= length lx)%nat /\
     (length (sums 0 (map fst ds)) = length lx -> forall j e y, nth_error (sums 0 (map fst ds)) j = Some e -> nth_error lx j = Some y -> Rabs (y - e) < eps)).
  { intros k ds Hk. apply fit_list; auto.
    - intros i a b Ha Hb. destruct (sums_step _ _ _ _ _ Ha Hb) as (w & Hw & ->). rewrite nth_error_map in Hw.
      destruct (nth_error ds i) as [d|] eqn:Ed; [|discriminate]. injection Hw as <-. destruct (Hdss k ds Hk) as [_ Hd]. destruct (Hd _ _ Ed). lra.
    - intros e He. apply NX. eapply HX; eauto. eapply nth_error_In; eauto. }
  assert (Hhd : forall k ds, nth_error dss k = Some ds -> nth_error ds 0 = Some (hd (0, 0) ds)).
  { intros k ds Hk. destruct (Hdss k ds Hk) as [L _]. destruct ds; [cbn in L; lia|reflexivity]. }
  set (hs := map (fun ds => snd (hd (0, 0) ds)) dss) in *.
  assert (GY : (length (sums 0 hs) <= length ly)%nat /\
     (length (sums 0 hs) = length ly ->
      forall j e y, nth_error (sums 0 hs) j = Some e -> nth_error ly j = Some y -> Rabs (y - e) < eps)).
  { apply fit_list; auto.
    - intros i a b Ha Hb. destruct (sums_step _ _ _ _ _ Ha Hb) as (w & Hw & ->). unfold hs in Hw. rewrite nth_error_map in Hw.
      destruct (nth_error dss i) as [d|] eqn:Ed; [|discriminate]. injection Hw as <-. destruct (Hdss i d Ed) as [_ Hd].
      destruct (Hd 0%nat _ (Hhd _ _ Ed)). lra.
    - intros e He. apply NY. apply HY; auto. intros Hz. apply (f_equal (@length _)) in Hz. unfold ren in Hz. rewrite rev_length, map_length in Hz. cbn in Hz. lia. }
  assert (LX : forall k ds, nth_error dss k = Some ds -> length (sums 0 (map fst ds)) = S nc).
  { intros k ds Hk. destruct (Hdss k ds Hk) as [L _]. now rewrite sums_length, map_length, L. }
  assert (LY : length (sums 0 hs) = S nr) by (rewrite sums_length; unfold hs; now rewrite map_length, Ldss).
  destruct (Hck eq_refl) as (_ & Hlx2 & Hly2 & Hcnt). rewrite Lb, Hl in Hcnt.
  assert (Hlens : length lx = S nc /\ length ly = S nr).
  { destruct (nth_error dss 0) as [ds0|] eqn:Ed0. 2:{ apply nth_error_None in Ed0. lia. }
    destruct (GX _ _ Ed0) as [G1 _]. rewrite (LX _ _ Ed0) in G1. destruct GY as [G2 _]. rewrite LY in G2.
    assert (nc <= length lx - 1)%nat by lia. assert (nr <= length ly - 1)%nat by lia.
    assert (Ha : exists a, length lx = S a /\ (nc <= a)%nat) by (exists (length lx - 1)%nat; lia).
    assert (Hb : exists b, length ly = S b /\ (nr <= b)%nat) by (exists (length ly - 1)%nat; lia).
    destruct Ha as (a & Ha & Ha'). destruct Hb as (b & Hb & Hb'). rewrite Ha, Hb in Hcnt. cbn in Hcnt. rewrite !Nat.sub_0_r in Hcnt.
    clear - Ha Hb Ha' Hb' Hcnt Hnc Hnr. nia. }
  destruct Hlens as [Hlx Hly].
  destruct Hp as [Hp|[_ Hp]]. 2:{ cbn in Hp. subst flat. specialize (Hn eq_refl). apply total2 in Hn. cbn in Hn. rewrite Hlx, Hly in Hn. nia. }
  cbn in Hp. subst flat. exists lx, ly. split.
  { split; [lia|]. rewrite Nat2Z.id. cbn [rtms push_rtm]. rewrite nth_error_app2 by lia. now rewrite Nat.sub_diag. }
  split; auto. split; auto.
  assert (near2 : forall a b e w, Rabs (a - e) < eps -> Rabs (b - (e + w)) < eps -> Rabs (b - a - w) < 2 * eps).
  { intros a b e w H1 H2. apply Rabs_def2 in H1. apply Rabs_def2 in H2. apply Rabs_def1; lra. }
  split.
  - intros i j id c He Hc. destruct (Hext _ _ _ _ He Hc) as (ds & Eds & _ & Hd).
    destruct (Hdss _ _ Eds) as [Lds _]. assert (Hj : (j < nc)%nat) by (rewrite <- Lds; apply nth_error_Some; congruence).
    destruct (GX _ _ Eds) as [_ G]. rewrite (LX _ _ Eds) in G. specialize (G (eq_sym Hlx)).
    destruct (nth_error lx j) as [a|] eqn:Ea. 2:{ apply nth_error_None in Ea. lia. }
    destruct (nth_error lx (S j)) as [b|] eqn:Eb'. 2:{ apply nth_error_None in Eb'. lia. }
    destruct (nth_error (sums 0 (map fst ds)) j) as [e|] eqn:Ee. 2:{ apply nth_error_None in Ee. rewrite (LX _ _ Eds) in Ee. lia. }
    destruct (nth_error (sums 0 (map fst ds)) (S j)) as [e'|] eqn:Ee'. 2:{ apply nth_error_None in Ee'. rewrite (LX _ _ Eds) in Ee'. lia. }
    destruct (sums_step _ _ _ _ _ Ee Ee') as (w & Hw & ->). rewrite nth_error_map, Hd in Hw. injection Hw as <-.
    exists a, b. split; auto. split; auto. eapply near2; eauto.
  - intros i id c He Hc. destruct (Hext _ _ _ _ He Hc) as (ds & Eds & _ & Hd). pose proof (Hhd _ _ Eds) as Hh. rewrite Hd in Hh. injection Hh as Hh.
    assert (Hk : (nr - 1 - i < nr)%nat) by lia. set (k := (nr - 1 - i)%nat) in *.
    destruct GY as [_ G]. rewrite LY in G. specialize (G (eq_sym Hly)).
    destruct (nth_error ly k) as [a|] eqn:Ea. 2:{ apply nth_error_None in Ea. lia. }
    destruct (nth_error ly (S k)) as [b|] eqn:Eb'. 2:{ apply nth_error_None in Eb'. lia. }
    destruct (nth_error (sums 0 hs) k) as [e|] eqn:Ee. 2:{ apply nth_error_None in Ee. lia. }
    destruct (nth_error (sums 0 hs) (S k)) as [e'|] eqn:Ee'. 2:{ apply nth_error_None in Ee'. lia. }
    destruct (sums_step _ _ _ _ _ Ee Ee') as (w & Hw & ->). unfold hs in Hw. rewrite nth_error_map, Eds in Hw. injection Hw as <-. rewrite <- Hh in *.
    exists a, b. split; auto. split; auto. eapply near2; eauto.
Qed.
End Column.
