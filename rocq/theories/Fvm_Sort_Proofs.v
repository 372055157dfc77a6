(** Proofs about Morton sorting, conversions and queries of the face-vertex mesh model. *)
From Coq Require Import List Arith ZArith Lia Bool Sorting.Permutation.
From Verif Require Import Base Loops Elem_Model Elem_Proofs Sort_Model Sort_Spec Sort_Proofs Soup_Model Soup_Spec
  Soup_Proofs Soup_Sort_Proofs Soup_Merge_Proofs Fvm_Model Fvm_Spec Fvm_Proofs.
Import ListNotations.

Lemma map_Some_inj {A} (l m : list A) : Permutation (map Some l) (map Some m) -> Permutation l m.
Proof.
  intros H. apply Permutation_map_inv in H as (l3 & E & HP).
  assert (l = l3). { revert l3 E HP. induction l as [|a l IH]; intros [|b l3] E HP; try discriminate; auto.
    cbn in E. injection E as -> E. f_equal. clear HP. revert l3 E. induction l as [|x l IH2]; intros [|y l3] E; try discriminate; auto.
    cbn in E. injection E as -> E. f_equal. apply IH2; auto. intros l4 E4 _. 
    revert l4 E4. clear. induction l as [|x l IH2]; intros [|y l3] E; try discriminate; auto.
    cbn in E. injection E as -> E. f_equal. auto. }
  subst. now symmetry.
Qed.
Lemma reads_Some {A} n (d d' : list A) p : is_perm n p -> length d = n -> reads_through d p d' ->
  map Some d' = map (nth_error d) p.
Proof.
  intros Hp Hd (Hl & Hr). apply nth_error_ext. intros i.
  destruct (nth_error p i) as [k|] eqn:E.
  - rewrite (map_nth_error _ _ _ E). rewrite <- (Hr _ _ E).
    destruct (nth_error d' i) as [a|] eqn:E2.
    + now rewrite (map_nth_error _ _ _ E2).
    + apply nth_error_None in E2. assert (i < length p) by (apply nth_error_Some; congruence). lia.
  - rewrite !(proj2 (nth_error_None _ _)); auto; rewrite map_length; apply nth_error_None in E; lia.
Qed.
Lemma map_nth_seq {A} (d : list A) : map (nth_error d) (seq 0 (length d)) = map Some d.
Proof.
  apply nth_error_ext. intros i. destruct (nth_error d i) as [a|] eqn:E.
  - rewrite (map_nth_error _ _ _ E).
    rewrite (map_nth_error (nth_error d) i (seq 0 (length d)) (d := i)); [now rewrite E|].
    assert (Hi : i < length d) by (apply nth_error_Some; congruence).
    rewrite (nth_error_nth' _ 0) by now rewrite seq_length. now rewrite seq_nth.
  - apply nth_error_None in E. rewrite !(proj2 (nth_error_None _ _)); auto; rewrite map_length, ?seq_length; lia.
Qed.
Lemma reads_perm {A} n (d d' : list A) p : is_perm n p -> length d = n -> reads_through d p d' -> Permutation d d'.
Proof.
  intros Hp Hd Hr. apply map_Some_inj. rewrite (reads_Some n d d' p), <- map_nth_seq, Hd by auto.
  apply Permutation_map. symmetry. exact Hp.
Qed.
Lemma reads_map {A B} (f : A -> B) d p d' : reads_through d p d' -> reads_through (map f d) p (map f d').
Proof.
  intros (Hl & Hr). split; [now rewrite map_length|].
  intros i k E. rewrite !nth_error_map. now rewrite (Hr _ _ E).
Qed.

Lemma sorted_map {A B} (f : A -> B) ltb l : sorted ltb (map f l) -> sorted (fun a b => ltb (f a) (f b)) l.
Proof. intros H i j a b Hij Ha Hb. apply (H i j); auto; now apply map_nth_error. Qed.
Lemma sorted_ext_in {A} (f g : A -> A -> bool) l : (forall a b, In a l -> In b l -> f a b = g a b) -> sorted f l -> sorted g l.
Proof. intros E H i j a b Hij Ha Hb. rewrite <- E; eauto using nth_error_In. Qed.
Lemma sorted_short {A} (f : A -> A -> bool) l : length l <= 1 -> sorted f l.
Proof.
  intros H i j a b Hij Ha Hb. assert (j < length l) by (apply nth_error_Some; congruence). lia.
Qed.

Section Sorting.
Context {F : Type}.
Variable stdsort : (nat -> nat -> bool) -> list nat -> list nat.
Hypothesis Hstd : std_sort_contract stdsort.

Lemma msp_ok {A} (code : A -> outcome Z) l : (forall a, In a l -> exists z, code a = Ret z) ->
  exists p, mortonSortPermutation stdsort code l = Ret p /\ is_perm (length l) p /\
    forall l', reads_through l p l' -> sorted (code_lt code) l'.
Proof.
  intros Hc. unfold mortonSortPermutation. destruct (Nat.leb_spec (length l) 1) as [Hn|Hn].
  - cbn [bind]. destruct (sortPermutation_correct stdsort Z.ltb (repeat 0%Z (length l)) (repeat 0 (length l)))
      as (p & E & Hp & _ & _); auto using Z_swo; [now rewrite !repeat_length|].
    rewrite repeat_length in Hp. exists p. split; auto. split; auto.
    intros l' (Hl & _). apply sorted_short. rewrite Hl. now rewrite (is_perm_length _ _ Hp).
  - set (g := fun a => match code a with Ret z => z | _ => 0%Z end).
    assert (Eg : forall a, In a l -> code a = Ret (g a)).
    { intros a Ha. unfold g. destruct (Hc a Ha) as (z & ->). reflexivity. }
    rewrite (mapo_ok code g) by auto. cbn [bind].
    destruct (sortPermutation_correct stdsort Z.ltb (map g l) (repeat 0 (length l)))
      as (p & E & Hp & Hs & _); auto using Z_swo; [now rewrite repeat_length, map_length|].
    rewrite map_length in Hp. exists p. split; auto. split; auto.
    intros l' Hr. pose proof (Hs _ (reads_map g _ _ _ Hr)) as H. apply sorted_map in H.
    eapply sorted_ext_in; [|exact H]. intros a b Ha Hb.
    assert (HP : Permutation l l') by (eapply reads_perm; eauto).
    unfold code_lt. rewrite !Eg; auto; eapply Permutation_in; try (symmetry; exact HP); auto.
Qed.

Variable vcode : mesh F -> F * F -> outcome Z.
Variable fcode : mesh F -> list (F * F) -> outcome Z.

Lemma mapo_In {A B} (f : A -> outcome B) l r : mapo f l = Ret r -> Forall2 (fun a b => f a = Ret b) l r.
Proof.
  revert r. induction l as [|a l IH]; intros r H; cbn in H.
  - injection H as <-. constructor.
  - apply bind_Ret in H as (b & E & H). apply bind_Ret in H as (r' & E2 & H). injection H as <-. constructor; auto.
Qed.

Lemma sortVertices_ok k (m : mesh F) : mesh_ok k m ->
  (forall p, In p (mv m) -> exists z, vcode m p = Ret z) ->
  exists m', mortonSortVertices stdsort vcode m = Ret m' /\ mesh_ok k m' /\
    Permutation (mv m) (mv m') /\
    map (corners (mv m')) (fv m') = map (corners (mv m)) (fv m) /\
    sorted (code_lt (vcode m)) (mv m') /\ has_vf m' = false /\ is_morton m' = is_morton m /\
    length (mv m') = length (mv m).
Proof.
  intros Hm Hc. unfold mortonSortVertices.
  destruct (msp_ok (vcode m) (mv m) Hc) as (p & -> & Hp & Hs). cbn [bind].
  destruct (invertPermutation_correct (length (mv m)) p (repeat 0 (length (mv m))) Hp) as (q & -> & Hq & Hpq);
    [apply repeat_length|]. cbn [bind].
  destruct (applyPermutation_ok p (length (mv m)) Hp (mv m) eq_refl) as (v & -> & Hr). cbn [bind].
  set (g := fun i : Z => Z.of_nat (nth (Z.to_nat i) q 0)).
  assert (Hg : forall i, (0 <= i < Z.of_nat (length (mv m)))%Z ->
    (let* j := rdz q i in Ret (Z.of_nat j)) = Ret (g i) /\ nth_error q (Z.to_nat i) = Some (Z.to_nat (g i))).
  { intros i Hi. destruct (rdz_ok q i) as (j & E & En); [rewrite (is_perm_length _ _ Hq); auto|].
    rewrite E. cbn [bind]. unfold g. rewrite (nth_error_nth _ _ _ En). split; auto. now rewrite Nat2Z.id. }
  rewrite (mapo_ok _ (map g)).
  2:{ intros c Hcin. apply mapo_ok. intros i Hi. apply Hg. now apply (Hm c Hcin). }
  cbn [bind]. eexists. split; [reflexivity|]. cbn [mv fv has_vf is_morton].
  assert (Hlv : length v = length (mv m)).
  { destruct Hr as (-> & _). now rewrite (is_perm_length _ _ Hp). }
  split.
  - intros c Hcin. cbn [fv mv] in *. apply in_map_iff in Hcin as (c0 & <- & Hc0). destruct (Hm c0 Hc0) as (H1 & H2).
    split; [now rewrite map_length|]. intros w Hw. apply in_map_iff in Hw as (i & <- & Hi).
    specialize (H2 i Hi). destruct (Hg i H2) as (_ & H3).
    rewrite Hlv. pose proof (is_perm_lt _ _ _ _ Hq H3). unfold g in *. lia.
  - split; [now apply (reads_perm (length (mv m)) _ _ p)|]. split.
    + rewrite map_map. apply map_ext_in. intros c Hcin. unfold corners. rewrite map_map.
      apply map_ext_in. intros i Hi. destruct (Hg i (proj2 (Hm c Hcin) i Hi)) as (_ & H3).
      apply Hpq in H3. destruct Hr as (_ & Hr). rewrite (Hr _ _ H3). reflexivity.
    + split; [now apply Hs|]. auto.
Qed.

Lemma rdz_corner (v : list (F * F)) (c : list Z) : (forall i, In i c -> (0 <= i < Z.of_nat (length v))%Z) ->
  exists poly, mapo (rdz v) c = Ret poly /\ map Some poly = corners v c.
Proof.
  induction c as [|i c IH]; intros H; cbn.
  - now exists [].
  - destruct (rdz_ok v i) as (a & -> & En); [apply H; now left|]. cbn.
    destruct IH as (poly & -> & E); [intros; apply H; now right|]. cbn.
    exists (a :: poly). split; auto. cbn. now rewrite En, E.
Qed.
Lemma polygons_ex k (m : mesh F) : mesh_ok k m ->
  exists ps, mapo (mapo (rdz (mv m))) (fv m) = Ret ps /\ polygons m ps.
Proof.
  intros H. unfold polygons. unfold mesh_ok in H. induction (fv m) as [|c fs IH]; cbn.
  - now exists [].
  - destruct (rdz_corner (mv m) c) as (poly & -> & E1); [apply (H c); now left|]. cbn.
    destruct IH as (ps & -> & E2); [intros; apply H; now right|]. cbn.
    exists (poly :: ps). split; auto. cbn. now rewrite E1, E2.
Qed.

Lemma sortFaces_ok k (m : mesh F) : mesh_ok k m ->
  (forall ps poly, polygons m ps -> In poly ps -> exists z, fcode m poly = Ret z) ->
  exists m', mortonSortFaces stdsort fcode m = Ret m' /\ mesh_ok k m' /\
    mv m' = mv m /\ Permutation (fv m) (fv m') /\
    (forall ps, polygons m' ps -> sorted (code_lt (fcode m)) ps) /\
    has_vf m' = false /\ is_morton m' = is_morton m.
Proof.
  intros Hm Hc. unfold mortonSortFaces.
  destruct (polygons_ex k m Hm) as (ps & -> & Hps). cbn [bind].
  destruct (msp_ok (fcode m) ps) as (p & -> & Hp & Hs); [eauto|]. cbn [bind].
  assert (Hl : length ps = length (fv m)).
  { apply (f_equal (@length _)) in Hps. now rewrite !map_length in Hps. }
  rewrite Hl in Hp.
  destruct (applyPermutation_ok p (length (fv m)) Hp (fv m) eq_refl) as (f & -> & Hr). cbn [bind].
  eexists. split; [reflexivity|]. cbn [mv fv has_vf is_morton].
  assert (HP : Permutation (fv m) f) by now apply (reads_perm (length (fv m)) _ _ p).
  split.
  - intros c Hcin. cbn [fv mv] in *. apply Hm. eapply Permutation_in; [symmetry; exact HP|auto].
  - split; auto. split; auto. split; auto. intros ps' Hps'. apply Hs. unfold polygons in *. cbn [fv mv] in *.
    destruct Hr as (Hlr & Hr).
    assert (Hl' : length ps' = length f).
    { apply (f_equal (@length _)) in Hps'. now rewrite !map_length in Hps'. }
    split; [congruence|]. intros i j E. specialize (Hr i j E).
    assert (E1 : nth_error (map (map Some) ps') i = nth_error (map (map Some) ps) j).
    { rewrite Hps, Hps', !nth_error_map. now rewrite Hr. }
    rewrite !nth_error_map in E1.
    assert (Hinj : forall a b : list (F * F), map Some a = map Some b -> a = b).
    { induction a as [|x a IHa]; intros [|y b] Eab; try discriminate; auto. cbn in Eab. injection Eab as -> Eab.
      f_equal; auto. }
    destruct (nth_error ps' i), (nth_error ps j); cbn in E1; try discriminate; auto.
    injection E1 as E1. f_equal. auto.
Qed.

Lemma mortonSort_ok k (m : mesh F) : mesh_ok k m ->
  (forall p, In p (mv m) -> exists z, vcode m p = Ret z) ->
  (forall m1 ps poly, mortonSortVertices stdsort vcode m = Ret m1 -> polygons m1 ps -> In poly ps ->
     exists z, fcode m1 poly = Ret z) ->
  exists m', mortonSort stdsort vcode fcode m = Ret m' /\ mesh_ok k m' /\ same_geometry m m' /\
    sorted (code_lt (vcode m)) (mv m') /\
    (exists m1, mortonSortVertices stdsort vcode m = Ret m1 /\
       forall ps, polygons m' ps -> sorted (code_lt (fcode m1)) ps) /\
    is_morton m' = true /\ has_vf m' = has_vf m /\
    (has_vf m = true -> is_incidence (length (mv m')) (fv m') (vf_offs m') (vf m')).
Proof.
  intros Hm Hv Hf. unfold mortonSort.
  destruct (sortVertices_ok k m Hm Hv) as (m1 & E1 & Hm1 & HP1 & HC1 & HS1 & Hvf1 & _ & Hl1).
  specialize (Hf m1). rewrite E1 in *. cbn [bind].
  destruct (sortFaces_ok k m1 Hm1) as (m2 & -> & Hm2 & Hv2 & HP2 & HS2 & Hvf2 & _); [eauto|]. cbn [bind].
  assert (HG : Permutation (map (corners (mv m)) (fv m)) (map (corners (mv m2)) (fv m2))).
  { rewrite <- HC1, Hv2. now apply Permutation_map. }
  destruct (has_vf m) eqn:Eh.
  - destruct (populateVF_ok (mkMesh true (has_vf m2) (mv m2) (fv m2) (vf_offs m2) (vf m2))) as (offs & f & -> & HI).
    { intros c v Hc Hin. cbn [fv mv] in *. now apply (Hm2 c Hc). }
    eexists. split; [reflexivity|]. cbn [mv fv vf_offs vf is_morton has_vf] in *.
    split; [exact Hm2|]. split; [split; cbn [mv fv]; auto; now rewrite Hv2|].
    split; [now rewrite Hv2|]. split; [|auto].
    exists m1. split; auto.
  - eexists. split; [reflexivity|]. cbn [mv fv vf_offs vf is_morton has_vf] in *.
    split; [exact Hm2|]. split; [split; cbn [mv fv]; auto; now rewrite Hv2|].
    split; [now rewrite Hv2|]. split; [exists m1; split; auto|]. split; auto. split; auto. discriminate.
Qed.
End Sorting.
