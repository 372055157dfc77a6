(** C87: sources and spectra from an FSR output. *)
From Coq Require Import String.
From Coq Require Import Reals Lra.
From Coq Require Import List Arith ZArith Lia Bool.
From Verif Require Import Base Loops Matrix_Model Elem_Model Soup_Model Soup_Spec StringView_Model Powers_Model Fvm_Model XSec_Model Source_Model Source_Spec Source_Proofs.
Import ListNotations.
Local Open Scope R_scope.

(** C87: each face gets the sums over the groups of its flux times the scattering and the nu-fission cross section
    of its material. *)
Theorem C87_source : forall s a k ids flux materials, faces_of s a k -> output a ids flux -> grouped materials ids (length flux) ->
  exists src, getSource s materials = Ret src /\ length src = length (a_elems a) /\
    forall i q, nth_error src i = Some q -> rate xs materials ids flux i (fst q) /\ rate xnuf materials ids flux i (snd q).
Proof. exact source_ok. Qed.
Print Assumptions C87_source.

(** The program adds the sources to the output as element sets and changes nothing else of it. *)
Theorem C87_extract : forall k_eff s a k materials src, faces_of s a k -> getSource s materials = Ret src -> length src = length (a_elems a) ->
  (forall n, In n ["scattering_source"; "fission_source"; "total_source"]%string -> ~ In (chars n) (map es_name (a_elsets a))) ->
  exists s', extract_source k_eff s materials = Ret s' /\
    stores s' (mkA (a_verts a) (a_elems a) (a_elsets a ++ new_sets k_eff (length (a_elems a)) src)).
Proof. exact extract_ok. Qed.
Print Assumptions C87_extract.

(** It ends with an error if the output has one of these element sets already. *)
Theorem C87_in_use : forall k_eff s a materials src, stores s a -> getSource s materials = Ret src ->
  (exists n, In n ["scattering_source"; "fission_source"; "total_source"]%string /\ In (chars n) (map es_name (a_elsets a))) ->
  extract_source k_eff s materials = Fail.
Proof. exact extract_used. Qed.
Print Assumptions C87_in_use.

(** The spectrum has one value for each group of the output: the sum over the faces of flux times area. *)
Theorem C87_spectrum : forall s a k flux areas fuel, faces_of s a k -> length areas = length (a_elems a) ->
  (forall i w, nth_error areas i = Some w -> area_is a k i w) ->
  (forall g v, nth_error flux g = Some v -> gives a (flux_name (S g)) v) -> ~ In (flux_name (S (length flux))) (map es_name (a_elsets a)) ->
  (length flux <= 998)%nat -> (length flux < fuel)%nat ->
  getSpectrum fuel s = Ret (map (fun v => sum (fun i => nth i v 0 * nth i areas 0) (length (a_elems a))) flux).
Proof. exact spectrum_ok. Qed.
Print Assumptions C87_spectrum.

(** Outputs without faces, with several kinds of faces or with another kind are refused. *)
Theorem C87_rejects : forall (s : fsr) a, stores s a -> a_elems a = [] \/ (forall k, exists t c, In (t, c) (a_elems a) /\ t <> elem_type k) ->
  (forall materials, getSource s materials = Fail) /\ forall fuel, getSpectrum fuel s = Fail.
Proof. exact rejects. Qed.
Print Assumptions C87_rejects.

(** * Two triangles of two materials *)
Definition soup_of (a : asoup (R * R * R) R) : soup (R * R * R) R :=
  mkSoup (a_verts a) (map fst (a_elems a)) (offsets_of (map (fun e => length (snd e)) (a_elems a))) (concat (map snd (a_elems a)))
    (map es_name (a_elsets a)) (offsets_of (map (fun e => length (es_ids e)) (a_elsets a))) (concat (map es_ids (a_elsets a))) (map es_data (a_elsets a)).
Definition two (sets : list (elset R)) : asoup (R * R * R) R :=
  mkA [(0, 0, 0); (1, 0, 0); (1, 1, 0); (0, 1, 0)] [(V_Triangle, [0; 1; 2]%Z); (V_Triangle, [0; 2; 3]%Z)] sets.
Lemma two_faces sets : content_ok (two sets) -> faces_of (soup_of (two sets)) (two sets) Tri.
Proof.
  intros H. constructor; auto.
  - repeat split.
  - split; discriminate.
  - intros t c [E|[E|[]]]; injection E as <- <-; auto.
  - intros p q Hp Hq. assert (Z0 : forall p, In p (a_verts (two sets)) -> snd p = 0) by (intros r [<-|[<-|[<-|[<-|[]]]]]; reflexivity).
    rewrite (Z0 p Hp), (Z0 q Hq). reflexivity.
Qed.
Definition xsec_of (s nuf : list R) : xsec := mkX true true (length s) [] [] nuf [] s (mkM 0 0 []).
Definition mats2 : list xsec := [xsec_of [1; 2] [0; 0]; xsec_of [3; 4] [5; 6]].
Definition sets2 : list (elset R) :=
  [mkElset (chars "material") [0; 1]%Z [2; 1]; mkElset (flux_name 1) [0; 1]%Z [7; 8]; mkElset (flux_name 2) [0; 1]%Z [9; 10]].
Ltac distinct := repeat constructor; cbn; intuition discriminate.
Lemma sets2_ok : content_ok (two sets2).
Proof. split; [distinct|]. repeat constructor; cbn; auto; discriminate. Qed.
Lemma sets2_flux g v : nth_error [[7; 8]; [9; 10]] g = Some v -> gives (two sets2) (flux_name (S g)) v.
Proof. destruct g as [|[|[|g]]]; cbn; intros E; try discriminate; injection E as <-; split; cbn; auto. Qed.
Example C87_ex : exists q0 q1, getSource (soup_of (two sets2)) mats2 = Ret [q0; q1] /\
  q0 = (7 * 3 + 9 * 4, 7 * 5 + 9 * 6) /\ q1 = (8 * 1 + 10 * 2, 0).
Proof.
  destruct (C87_source _ _ Tri [1; 0]%nat [[7; 8]; [9; 10]] mats2 (two_faces _ sets2_ok)) as (src & E & L & H).
  - constructor; [|exact sets2_flux|cbn; lia]. exists [2; 1]. split; [split; cbn; auto|]. repeat constructor; cbn; lra.
  - split; [exists (xsec_of [1; 2] [0; 0]); split; reflexivity|]. split; [cbn; lia|]. intros id [<-|[<-|[]]]; eexists; (split; [reflexivity|]); split; reflexivity.
  - destruct src as [|q0 [|q1 [|q src]]]; try discriminate. exists q0, q1. split; auto.
    destruct (H 0%nat q0 eq_refl) as ((i0 & x0 & I0 & X0 & S0) & (i1 & x1 & I1 & X1 & S1)). destruct (H 1%nat q1 eq_refl) as ((i2 & x2 & I2 & X2 & S2) & (i3 & x3 & I3 & X3 & S3)).
    cbn in I0, I1, I2, I3. injection I0 as <-. injection I1 as <-. injection I2 as <-. injection I3 as <-.
    cbn in X0, X1, X2, X3. injection X0 as <-. injection X1 as <-. injection X2 as <-. injection X3 as <-.
    cbn in S0, S1, S2, S3. destruct q0, q1. cbn [fst snd] in *. subst. split; f_equal; lra.
Qed.
Lemma low_area : face_area V_Triangle [(0, 0); (1, 0); (1, 1)] = Ret (1 / 2).
Proof. cbn. f_equal. lra. Qed.
Lemma high_area : face_area V_Triangle [(0, 0); (1, 1); (0, 1)] = Ret (1 / 2).
Proof. cbn. f_equal. lra. Qed.
Example C87_spectrum_ex : exists p q, getSpectrum 3 (soup_of (two sets2)) = Ret [p; q] /\ p = 15 / 2 /\ q = 19 / 2.
Proof.
  rewrite (C87_spectrum _ _ Tri [[7; 8]; [9; 10]] [1 / 2; 1 / 2] 3 (two_faces _ sets2_ok) eq_refl); auto.
  - cbn. do 2 eexists. split; [reflexivity|]. split; lra.
  - intros [|[|i]] w E; cbn in E; [| |destruct i; discriminate]; injection E as <-.
    + exists V_Triangle, [0; 1; 2]%Z, [(0, 0); (1, 0); (1, 1)]. split; auto. split; [|exact low_area]. repeat constructor; try lia; eexists; reflexivity.
    + exists V_Triangle, [0; 2; 3]%Z, [(0, 0); (1, 1); (0, 1)]. split; auto. split; [|exact high_area]. repeat constructor; try lia; eexists; reflexivity.
  - exact sets2_flux.
  - cbn. intuition discriminate.
  - cbn. lia.
Qed.
Example C87_extract_ex : exists s', extract_source 2 (soup_of (two sets2)) mats2 = Ret s' /\ length (snames s') = 6%nat.
Proof.
  destruct C87_ex as (q0 & q1 & E & _).
  destruct (C87_extract 2 _ _ Tri mats2 _ (two_faces _ sets2_ok) E eq_refl) as (s' & E' & S').
  - intros n [<-|[<-|[<-|[]]]]; cbn; intuition discriminate.
  - exists s'. split; auto. destruct S' as (_ & _ & _ & _ & Hn & _). rewrite Hn. reflexivity.
Qed.

(** the program run on its own result *)
Example C87_in_use_ex : forall s' src, extract_source 2 (soup_of (two sets2)) mats2 = Ret s' -> getSource s' mats2 = Ret src -> extract_source 2 s' mats2 = Fail.
Proof.
  intros s' src E' G. destruct C87_ex as (q0 & q1 & E & _).
  destruct (C87_extract 2 _ _ Tri mats2 _ (two_faces _ sets2_ok) E eq_refl) as (s1 & E1 & S1); [intros n [<-|[<-|[<-|[]]]]; cbn; intuition discriminate|].
  rewrite E1 in E'. injection E' as <-. apply (C87_in_use 2 s1 _ mats2 src S1 G). exists "total_source"%string. split; [cbn; auto|]. cbn [a_elsets]. rewrite map_app. apply in_or_app. right. cbn. auto.
Qed.

Example C87_rejects_ex : getSource (soup_of (mkA [(0, 0, 0)] [(V_Triangle, [0; 1; 2]%Z); (V_Quad, [0; 1; 2; 3]%Z)] [])) mats2 = Fail.
Proof.
  apply (C87_rejects _ (mkA [(0, 0, 0)] [(V_Triangle, [0; 1; 2]%Z); (V_Quad, [0; 1; 2; 3]%Z)] [])); [repeat split|].
  right. intros [| | |]; [exists V_Quad|exists V_Triangle|exists V_Quad|exists V_Quad]; eexists; (split; [|discriminate]); cbn; eauto.
Qed.

(** If the flux of a group is missing, that of the group before is taken for it, and no error is reported. *)
Definition sets1 : list (elset R) := [mkElset (chars "material") [0; 1]%Z [1; 1]; mkElset (flux_name 1) [0; 1]%Z [7; 8]].
Lemma sets1_ok : content_ok (two sets1).
Proof. split; [distinct|]. repeat constructor; cbn; auto; discriminate. Qed.
Theorem C87_missing_refuted : exists s a ids flux materials src, faces_of s a Tri /\ output a ids [flux] /\ grouped materials ids 2 /\
  ~ In (flux_name 2) (map es_name (a_elsets a)) /\ getSource s materials = Ret src /\
  forall i q, nth_error src i = Some q -> rate xs materials ids [flux; flux] i (fst q).
Proof.
  exists (soup_of (two sets1)), (two sets1), [0; 0]%nat, [7; 8], [xsec_of [1; 2] [0; 0]].
  pose proof (two_faces _ sets1_ok) as F.
  assert (G1 : gives (two sets1) (flux_name 1) [7; 8]) by (split; cbn; auto).
  assert (Gm : gives (two sets1) (chars "material") [1; 1]) by (split; cbn; auto).
  assert (Gr : grouped [xsec_of [1; 2] [0; 0]] [0; 0]%nat 2).
  { split; [exists (xsec_of [1; 2] [0; 0]); split; reflexivity|]. split; [cbn; lia|]. intros id [<-|[<-|[]]]; eexists; (split; [reflexivity|]); split; reflexivity. }
  assert (Fm : Forall2 (fun id x => INR (S id) <= x < INR (S id) + 1) [0; 0]%nat [1; 1]) by (repeat constructor; cbn; lra).
  assert (N2 : ~ In (flux_name 2) (map es_name (a_elsets (two sets1)))) by (cbn; intuition discriminate).
  eexists. split; [exact F|]. split; [constructor; [eauto| |cbn; lia]|].
  { intros [|[|g]] v E; cbn in E; try discriminate. injection E as <-. exact G1. }
  split; [exact Gr|]. split; [exact N2|]. split.
  - unfold getSource. rewrite (kind_ok _ _ Tri F). cbn [bind]. unfold sources_of. rewrite (mesh_ok _ _ Tri F). cbn [bind fv]. rewrite map_length, (lit_chars "material").
    rewrite (fetch_ok _ _ Tri _ _ _ F Gm). cbn [bind fst snd].
    change (length (a_elems (two sets1))) with (length [0; 0]%nat). rewrite (mat_ids_ok _ _ Fm) by (intros id [<-|[<-|[]]]; cbn; lia). cbn [bind]. rewrite lit_flux. cbn [rd nth_error bind numGroups xsec_of length].
    Opaque fetch flux_name Ascii_Model.incrementASCIINumber. cbn. unfold add_energy. rewrite (fetch_ok _ _ Tri _ _ _ F G1). cbn. rewrite (name_next 1) by lia. cbn.
    rewrite (fetch_none _ _ Tri _ _ F N2). cbn. rewrite (name_next 2) by lia. cbn. reflexivity.
  - intros [|[|i]] q E; cbn in E; [| |destruct i; discriminate]; injection E as <-; exists 0%nat, (xsec_of [1; 2] [0; 0]); (split; [reflexivity|]); (split; [reflexivity|]); cbn; lra.
Qed.
Print Assumptions C87_missing_refuted.

(** The values are taken in the order in which they are listed: an element set that lists the faces in another order
    gives each face the flux of another one. *)
Definition sets_turned : list (elset R) := [mkElset (chars "material") [0; 1]%Z [1; 1]; mkElset (flux_name 1) [1; 0]%Z [7; 8]].
Lemma turned_ok : content_ok (two sets_turned).
Proof. split; [distinct|]. repeat constructor; cbn; auto; discriminate. Qed.
Theorem C87_order_refuted : exists s a materials q0 q1, faces_of s a Tri /\ In (mkElset (flux_name 1) [1; 0]%Z [7; 8]) (a_elsets a) /\
  materials = [xsec_of [1] [0]] /\ getSource s materials = Ret [q0; q1] /\ fst q0 = 7 /\ fst q1 = 8.
Proof.
  pose proof (two_faces _ turned_ok) as F.
  assert (Gm : gives (two sets_turned) (chars "material") [1; 1]) by (split; cbn; auto).
  assert (Fm : Forall2 (fun id x => INR (S id) <= x < INR (S id) + 1) [0; 0]%nat [1; 1]) by (repeat constructor; cbn; lra).
  assert (Hin : In (mkElset (flux_name 1) [1; 0]%Z [7; 8]) (a_elsets (two sets_turned))) by (right; left; reflexivity).
  exists (soup_of (two sets_turned)), (two sets_turned), [xsec_of [1] [0]]. do 2 eexists. split; [exact F|]. split; [exact Hin|]. split; [reflexivity|]. split.
  - unfold getSource. rewrite (kind_ok _ _ Tri F). cbn [bind]. unfold sources_of. rewrite (mesh_ok _ _ Tri F). cbn [bind fv]. rewrite map_length, (lit_chars "material").
    rewrite (fetch_ok _ _ Tri _ _ _ F Gm). cbn [bind fst snd].
    change (length (a_elems (two sets_turned))) with (length [0; 0]%nat). rewrite (mat_ids_ok _ _ Fm) by (intros id [<-|[<-|[]]]; cbn; lia). cbn [bind]. rewrite lit_flux.
    cbn. unfold add_energy. rewrite (fetch_any _ _ Tri _ _ _ _ F Hin) by discriminate. cbn. rewrite (name_next 1) by lia. cbn. reflexivity.
  - cbn. split; lra.
Qed.
Print Assumptions C87_order_refuted.
