(** C91: the file of powers and centroids. *)
From Coq Require Import String.
From Coq Require Import Reals Lra.
From Coq Require Import List Arith ZArith Lia Bool Sorted.
From Verif Require Import Base Loops Arith Elem_Model Soup_Model Soup_Spec Fvm_Model Stats_Spec Powers_Model Powers_Spec Powers_Proofs
  Outputs_Spec Source_Model Source_Spec PowerFile_Model PowerFile_Spec PowerFile_Proofs.
Import ListNotations.
Local Open Scope list_scope.
Local Open Scope R_scope.

(** power_centroid.txt is a table of the regions of faces with power (see C59); after it is closed the program reports an
    error exactly if the powers do not add up to 1 within 1e-3. *)
Theorem C91_table : forall stdsort show s a k faces ids power, sorts stdsort -> (forall x, one_line (show x)) ->
  faces_of s a k -> faces_are a faces -> power_set a ids power -> accepted faces power ids -> resolved faces power ->
  exists regions vs t P ends, extract_powers stdsort show s = Ret (t, ends) /\ table show vs t /\
    Forall2 (region_value faces power (elem_type k)) regions vs /\ Powers_Spec.partition power regions /\
    (forall i j, together regions i j <-> linked faces power i j) /\
    full_power k faces power P /\ (Rabs (P - 1) <= 1 / 1000 -> ends = Ret 0%Z) /\ (1 / 1000 < Rabs (P - 1) -> ends = Fail).
Proof. exact powers_file. Qed.
Print Assumptions C91_table.
(** No file is written if the output has no powers, or they do not cover the faces, are not in order or are never positive. *)
Theorem C91_refused : forall stdsort show s a k faces, faces_of s a k -> faces_are a faces ->
  (forall ids power, power_set a ids power -> ~ accepted faces power ids) -> extract_powers stdsort show s = Fail.
Proof. exact powers_refused. Qed.
Print Assumptions C91_refused.
(** Nor for an output without faces, with several kinds of faces or with another kind. *)
Theorem C91_kinds : forall stdsort show (s : fsr) a, stores s a ->
  a_elems a = [] \/ (forall k, exists t c, In (t, c) (a_elems a) /\ t <> elem_type k) -> extract_powers stdsort show s = Fail.
Proof. exact powers_kinds. Qed.
Print Assumptions C91_kinds.
(** The ids of the powers are not used: a power of another face is taken for that of the face in its place. *)
Theorem C91_ids_refuted : forall stdsort show s s' a a' k faces ids ids' power, faces_of s a k -> faces_of s' a' k -> faces_are a faces -> faces_are a' faces ->
  power_set a ids power -> power_set a' ids' power -> accepted faces power ids -> accepted faces power ids' ->
  extract_powers stdsort show s = extract_powers stdsort show s'.
Proof. exact powers_ids. Qed.
Print Assumptions C91_ids_refuted.

(** * Examples: the halves of a square *)
Definition soup_of (a : asoup (R * R * R) R) : soup (R * R * R) R :=
  mkSoup (a_verts a) (map fst (a_elems a)) (offsets_of (map (fun e => length (snd e)) (a_elems a))) (concat (map snd (a_elems a)))
    (map es_name (a_elsets a)) (offsets_of (map (fun e => length (es_ids e)) (a_elsets a))) (concat (map es_ids (a_elsets a))) (map es_data (a_elsets a)).
Definition halves (ids : list Z) (p q : R) : asoup (R * R * R) R :=
  mkA [(0, 0, 0); (1, 0, 0); (1, 1, 0); (0, 1, 0)] [(V_Triangle, [0; 1; 2]%Z); (V_Triangle, [0; 2; 3]%Z)] [mkElset (chars "power") ids [p; q]].
Definition half_faces : list (list (R * R)) := [[(0, 0); (1, 0); (1, 1)]; [(0, 0); (1, 1); (0, 1)]].
Lemma halves_ok i j p q : 0 < p -> (i <= j)%Z -> faces_of (soup_of (halves [i; j] p q)) (halves [i; j] p q) Tri /\ faces_are (halves [i; j] p q) half_faces /\ power_set (halves [i; j] p q) [i; j] [p; q] /\
  accepted half_faces [p; q] [i; j] /\ resolved half_faces [p; q].
Proof.
  intros Hp Hij. split; [|split; [|split; [|split]]].
  - constructor.
    + repeat split.
    + split; [repeat constructor; intros []|]. repeat constructor; cbn; auto; discriminate.
    + split; discriminate.
    + intros t c [E|[E|[]]]; injection E as <- <-; auto.
    + intros x y Hx Hy. assert (Z0 : forall r, In r (a_verts (halves [i; j] p q)) -> snd r = 0) by (intros r [<-|[<-|[<-|[<-|[]]]]]; reflexivity).
      rewrite (Z0 x Hx), (Z0 y Hy). reflexivity.
  - repeat constructor; try lia; eexists; reflexivity.
  - now left.
  - split; [reflexivity|]. split; [reflexivity|]. split; [exists 0%nat, p; auto|]. repeat constructor; lia.
  - intros x y f g _ _ Ef Eg _. left. exists (0, 0). destruct x as [|[|x]]; destruct y as [|[|y]]; cbn in Ef, Eg; try (destruct x; discriminate); try (destruct y; discriminate); injection Ef as <-; injection Eg as <-; cbn; auto.
Qed.
Lemma halves_power p q : 0 < p -> 0 < q -> full_power Tri half_faces [p; q] ((p + q) / 2).
Proof.
  intros Hp Hq. exists [1 / 2; 1 / 2]. split.
  - constructor; [cbn; f_equal; lra|]. constructor; [cbn; f_equal; lra|]. constructor.
  - cbn. rewrite !Rmax_right by lra. lra.
Qed.
Lemma full_unique k faces power P Q : full_power k faces power P -> full_power k faces power Q -> P = Q.
Proof.
  intros (l & Hl & ->) (m & Hm & ->). assert (l = m) by (revert m Hm; induction Hl as [|f w fs ws E _ IH]; intros m Hm; inversion Hm; subst; [reflexivity|]; f_equal; [congruence|auto]). now subst.
Qed.
(** powers that add up to 1 *)
Example C91_example : forall stdsort show, sorts stdsort -> (forall x, one_line (show x)) -> exists v t, extract_powers stdsort show (soup_of (halves [0; 1]%Z (1 / 2) (3 / 2))) = Ret (t, Ret 0%Z) /\
  table show [v] t /\ fst v = 1.
Proof.
  intros stdsort show Hst Hs. destruct (halves_ok 0 1 (1 / 2) (3 / 2) ltac:(lra) ltac:(lia)) as (H1 & H2 & H3 & H4 & H5).
  destruct (C91_table stdsort show _ _ Tri _ _ _ Hst Hs H1 H2 H3 H4 H5) as (regions & vs & t & P & ends & E & HT & HV & HP & HL & HF & HE & _).
  pose proof (full_unique _ _ _ _ _ HF (halves_power (1 / 2) (3 / 2) ltac:(lra) ltac:(lra))) as EP.
  assert (P0 : powered [1 / 2; 3 / 2] 0) by (eexists; split; [reflexivity|lra]).
  assert (P1 : powered [1 / 2; 3 / 2] 1) by (eexists; split; [reflexivity|lra]).
  assert (L : linked half_faces [1 / 2; 3 / 2] 0 1).
  { apply linked_step with 0%nat; [now constructor|exact P1|]. exists [(0, 0); (1, 0); (1, 1)], [(0, 0); (1, 1); (0, 1)]. split; [reflexivity|]. split; [reflexivity|].
    exists (0, 0), (0, 0). split; [now left|]. split; [now left|]. unfold near. cbn [fst snd]. replace (_ + _) with 0 by ring. rewrite sqrt_0. lra. }
  apply HL in L. destruct L as (r & Hr & I0 & I1). destruct HP as (ND & HI & HE0 & HS).
  assert (Er : regions = [[0; 1]%nat]).
  { apply in_split in Hr. destruct Hr as (l1 & l2 & ->).
    assert (Hx : forall x, In x r -> x = 0%nat \/ x = 1%nat).
    { intros x Hx. assert (Px : powered [1 / 2; 3 / 2] x) by (apply HI; rewrite concat_app; apply in_or_app; right; cbn; apply in_or_app; now left).
      destruct Px as (y & Ey & _). destruct x as [|[|x]]; auto. destruct x; discriminate. }
    assert (Hl : forall r', In r' (l1 ++ l2) -> False).
    { intros r' Hr'. destruct r' as [|x r'].
      - apply HE0. apply in_app_or in Hr'. apply in_or_app. destruct Hr'; [now left|right; now right].
      - assert (Px : powered [1 / 2; 3 / 2] x).
        { apply HI. apply in_concat. exists (x :: r'). split; [|now left]. apply in_app_or in Hr'. apply in_or_app. destruct Hr'; [now left|right; now right]. }
        assert (Ix : In x r). { destruct Px as (y & Ey & _). destruct x as [|[|x]]; auto. destruct x; discriminate. }
        rewrite concat_app in ND. cbn in ND. apply in_app_or in Hr'. destruct Hr' as [Hr'|Hr'].
        + apply (proj2 (proj2 (nodup_parts _ _ ND))) with x; [apply in_concat; exists (x :: r'); split; [exact Hr'|now left]|apply in_or_app; now left].
        + apply nodup_parts in ND. destruct ND as (_ & ND & _). apply (proj2 (proj2 (nodup_parts _ _ ND))) with x; [exact Ix|apply in_concat; exists (x :: r'); split; [exact Hr'|now left]]. }
    destruct l1 as [|r1 l1]; [|exfalso; apply (Hl r1); now left]. destruct l2 as [|r2 l2]; [|exfalso; apply (Hl r2); now left].
    cbn in HS |- *. f_equal. inversion HS as [|? ? S _]. subst. clear - S Hx I0 I1.
    assert (SS : StronglySorted lt r) by (apply Sorted_StronglySorted; [intros x y z; lia|exact S]).
    destruct r as [|x r]; [destruct I0|]. inversion SS as [|? ? S1 F1]. subst.
    destruct (Hx x (or_introl eq_refl)) as [->| ->].
    - destruct r as [|y r]; [destruct I1 as [I1|[]]; discriminate|]. inversion F1 as [|? ? Hy F2]. subst. inversion S1 as [|? ? S2 F3]. subst.
      destruct (Hx y (or_intror (or_introl eq_refl))) as [->| ->]; [lia|]. destruct r as [|z r]; [reflexivity|]. inversion F3 as [|? ? Hz _]. subst.
      destruct (Hx z (or_intror (or_intror (or_introl eq_refl)))); lia.
    - destruct I0 as [I0|I0]; [discriminate|]. rewrite Forall_forall in F1. specialize (F1 _ I0). lia. }
  rewrite Er in HV. inversion HV as [|? v ? ? HR HV']. subst. inversion HV'. subst. exists v, t. rewrite E. rewrite (HE ltac:(replace ((1 / 2 + 3 / 2) / 2 - 1) with 0 by lra; rewrite Rabs_R0; lra)).
  split; [reflexivity|]. split; [exact HT|]. destruct HR as (ts & HD & HR & _). rewrite HR.
  inversion HD as [|? t0 ? ts1 D0 HD1]. subst. inversion HD1 as [|? t1 ? ? D1 HD2]. subst. inversion HD2. subst.
  destruct D0 as (f0 & F0 & A0 & _ & Q0). destruct D1 as (f1 & F1 & A1 & _ & Q1). cbn in F0, F1. injection F0 as <-. injection F1 as <-.
  cbn in A0, A1, Q0, Q1. injection A0 as A0. injection A1 as A1. injection Q0 as Q0. injection Q1 as Q1.
  unfold total. cbn. rewrite <- Q0, <- Q1, <- A0, <- A1. lra.
Qed.
(** powers that add up to 2: the file is written, and then the program reports an error *)
Example C91_example_sum : forall stdsort show, sorts stdsort -> (forall x, one_line (show x)) -> exists t, extract_powers stdsort show (soup_of (halves [0; 1]%Z 1 3)) = Ret (t, Fail).
Proof.
  intros stdsort show Hst Hs. destruct (halves_ok 0 1 1 3 ltac:(lra) ltac:(lia)) as (H1 & H2 & H3 & H4 & H5).
  destruct (C91_table stdsort show _ _ Tri _ _ _ Hst Hs H1 H2 H3 H4 H5) as (regions & vs & t & P & ends & E & _ & _ & _ & _ & HF & _ & HE).
  pose proof (full_unique _ _ _ _ _ HF (halves_power 1 3 ltac:(lra) ltac:(lra))) as EP. subst P. exists t. rewrite E, HE; [reflexivity|].
  replace ((1 + 3) / 2 - 1) with 1 by lra. rewrite Rabs_R1. lra.
Qed.
(** ids of faces that do not exist *)
Example C91_example_ids : forall stdsort show, extract_powers stdsort show (soup_of (halves [7; 8]%Z 1 3)) = extract_powers stdsort show (soup_of (halves [0; 1]%Z 1 3)).
Proof.
  intros. destruct (halves_ok 0 1 1 3 ltac:(lra) ltac:(lia)) as (H1 & H2 & H3 & H4 & _). destruct (halves_ok 7 8 1 3 ltac:(lra) ltac:(lia)) as (G1 & G2 & G3 & G4 & _).
  exact (C91_ids_refuted _ _ _ _ _ _ _ _ _ _ _ G1 H1 G2 H2 G3 H3 G4 H4).
Qed.
Example C91_example_refused : forall stdsort show, extract_powers stdsort show (soup_of (mkA (a_verts (halves [] 0 0)) (a_elems (halves [] 0 0)) [])) = Fail.
Proof.
  intros. destruct (halves_ok 0 1 1 3 ltac:(lra) ltac:(lia)) as ([Hs Hc Hn Hk Hf] & H2 & _).
  refine (C91_refused _ _ _ (mkA (a_verts (halves [] 0 0)) (a_elems (halves [] 0 0)) []) Tri half_faces _ H2 _); [|intros ids power []].
  constructor; [repeat split|split; constructor|exact Hn|exact Hk|exact Hf].
Qed.
