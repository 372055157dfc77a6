(** The table of powers. *)
From Coq Require Import String.
From Coq Require Import Reals Lra.
From Coq Require Import List Arith ZArith Lia Bool.
From Verif Require Import Base Loops Arith Elem_Model Soup_Model Soup_Spec Soup_Proofs TextIo_Model Fvm_Model Stats_Spec Box_Proofs Powers_Model Powers_Spec Powers_Proofs
  Mpact_Model Outputs_Model Outputs_Spec Outputs_Proofs Source_Model Source_Spec Source_Proofs PowerFile_Model PowerFile_Spec.
Import ListNotations.
Local Open Scope list_scope.
Local Open Scope R_scope.

Lemma area_exists k faces : mesh_of (elem_type k) faces -> exists areas, Forall2 (fun f w => face_area (elem_type k) f = Ret w) faces areas.
Proof.
  intros (n & Hn & H). induction faces as [|f faces IH]; [exists []; constructor|].
  destruct IH as (areas & IH); [intros g Hg; apply H; now right|].
  destruct (face_area_ok (elem_type k) f n Hn (H f (or_introl eq_refl))) as (X & _).
  destruct X as (w & X). exists (w :: areas). now constructor.
Qed.
Lemma read_faces (vs : list (R * R * R)) elems faces : Forall2 (fun e f => Forall2 (fun v p => (0 <= v)%Z /\ exists z, nth_error vs (Z.to_nat v) = Some (p, z)) (snd e) f) elems faces ->
  mapo (mapo (rdz (map fst vs))) (map (@snd vtk (list Z)) elems) = Ret faces.
Proof.
  induction 1 as [|(t, c) f elems faces F2 _ IH]; auto. cbn [map mapo snd] in *.
  assert (Em : mapo (rdz (map fst vs)) c = Ret f).
  { clear - F2. induction F2 as [|v p c f (H0 & z & Hz) F2 IH]; auto. cbn [mapo]. rewrite (rdz_nth _ v p); auto; [|rewrite nth_error_map, Hz; reflexivity]. cbn [bind]. rewrite IH. reflexivity. }
  rewrite Em. cbn [bind]. rewrite IH. reflexivity.
Qed.
Lemma faces_mesh s a k faces : faces_of s a k -> faces_are a faces -> mesh_of (elem_type k) faces.
Proof.
  intros [_ _ _ Hk _] Hf. exists (nverts k). split; [destruct k; reflexivity|]. intros f Hin.
  unfold faces_are in Hf. induction Hf as [|(t, c) g elems faces F2 _ IH]; [destruct Hin|]. destruct Hin as [<-|Hin].
  - cbn [snd] in F2. rewrite <- (Forall2_length _ _ _ F2). exact (proj2 (Hk t c (or_introl eq_refl))).
  - apply IH; auto. intros t' c' H. apply Hk. now right.
Qed.
Lemma soup_kind k : elem_type k = V_Triangle \/ elem_type k = V_Quad \/ elem_type k = V_QuadraticTriangle \/ elem_type k = V_QuadraticQuad.
Proof. destruct k; cbn; auto. Qed.
(** the soup's powers are those of its faces *)
Lemma soup_powers_ok stdsort s a k faces ids power : faces_of s a k -> faces_are a faces -> power_set a ids power -> power <> [] ->
  soup_powers stdsort s = getPowers stdsort [elem_type k] faces ids power.
Proof.
  intros F Hf Hp Hne. unfold soup_powers. rewrite (kind_ok s a k F). cbn [bind].
  rewrite lit_chars, (fetch_any s a k _ ids power _ F Hp Hne). cbn [bind fst snd].
  rewrite (mesh_ok s a k F). cbn [bind mv fv]. rewrite (read_faces _ _ _ Hf). cbn [bind].
  rewrite getPowers_N by exact (faces_mesh s a k faces F Hf). unfold getPowersN.
  assert (L : length (etypes s) = length faces).
  { destruct (fo_stores _ _ _ F) as (_ & -> & _). rewrite map_length. exact (Forall2_length _ _ _ Hf). }
  rewrite L. destruct (checkPowerData (length faces) ids power); reflexivity.
Qed.
Lemma print_powers_ok show l : forall p t, print_powers show l (p, t) =
  Ret (fold_left (fun x v => x + fst v) l p, t ++ glue (map (fun v => show (fst v) ++ lit ", " ++ show (fst (snd v)) ++ lit ", " ++ show (snd (snd v))) l)).
Proof.
  unfold print_powers. induction l as [|v l IH]; intros p t; cbn [foreach map fold_left].
  - unfold glue. cbn. now rewrite app_nil_r.
  - cbn [bind fst snd]. rewrite IH, glue_cons. unfold power_line. rewrite <- !app_assoc. reflexivity.
Qed.
Lemma sum_from (l : list (R * (R * R))) : forall p, fold_left (fun x v => x + fst v) l p = p + Stats_Spec.total (map fst l).
Proof. unfold Stats_Spec.total. induction l as [|v l IH]; intros p; cbn [fold_left map fold_right]; [lra|]. rewrite IH. lra. Qed.
Lemma table_ok show vs : (forall x, one_line (show x)) ->
  table show vs (lit "Power, x, y" ++ NL ++ glue (map (fun v => show (fst v) ++ lit ", " ++ show (fst (snd v)) ++ lit ", " ++ show (snd (snd v))) vs)).
Proof.
  intros H. unfold table. change (lit "Power, x, y" ++ NL ++ ?g) with (lit "Power, x, y" ++ NL ++ g).
  rewrite app_assoc. pose proof (glue_cons (lit "Power, x, y")) as G. rewrite <- app_assoc, <- G.
  match goal with |- lines ?g = _ => rewrite <- (app_nil_r g) end.
  rewrite lines_all; [reflexivity| |intros []].
  constructor; [apply one_check; reflexivity|]. apply Forall_forall. intros l Hl. apply in_map_iff in Hl as (v & <- & _).
  repeat apply one_app; auto; apply one_check; reflexivity.
Qed.
Lemma written stdsort show s vs : (forall x, one_line (show x)) -> soup_powers stdsort s = Ret vs -> exists t,
  extract_powers stdsort show s = Ret (t, if Rltb (1 / 1000) (Rabs (Stats_Spec.total (map fst vs) - 1)) then Fail else Ret 0%Z) /\ table show vs t.
Proof.
  intros H E. unfold extract_powers. rewrite E. cbn [bind]. rewrite print_powers_ok. cbn [bind fst snd]. rewrite sum_from, Rplus_0_l.
  eexists. split; [reflexivity|]. rewrite <- app_assoc. now apply table_ok.
Qed.
Lemma max_sum power areas : Stats_Spec.total (map (fun pa => if Rltb 0 (fst pa) then fst pa * snd pa else 0) (combine power areas)) =
  fold_right Rplus 0 (map (fun x => Rmax 0 (fst x) * snd x) (combine power areas)).
Proof.
  unfold Stats_Spec.total. f_equal. apply map_ext. intros (p, w). cbn [fst snd]. destruct (Rltb 0 p) eqn:E.
  - apply Rltb_true in E. rewrite Rmax_right; lra.
  - apply Rltb_false in E. rewrite Rmax_left; lra.
Qed.
Theorem powers_file stdsort show s a k faces ids power : sorts stdsort -> (forall x, one_line (show x)) ->
  faces_of s a k -> faces_are a faces -> power_set a ids power -> accepted faces power ids -> resolved faces power ->
  exists regions vs t P ends, extract_powers stdsort show s = Ret (t, ends) /\ table show vs t /\
    Forall2 (region_value faces power (elem_type k)) regions vs /\ Powers_Spec.partition power regions /\
    (forall i j, together regions i j <-> linked faces power i j) /\
    full_power k faces power P /\ (Rabs (P - 1) <= 1 / 1000 -> ends = Ret 0%Z) /\ (1 / 1000 < Rabs (P - 1) -> ends = Fail).
Proof.
  intros Hst Hs F Hf Hp Ha Hr.
  pose proof (faces_mesh s a k faces F Hf) as Hm.
  assert (Hne : power <> []).
  { intros ->. destruct Ha as (_ & _ & (i & p & X & _) & _). destruct i; discriminate. }
  destruct (regions_iff stdsort (elem_type k) faces power ids Hst Hm Ha Hr) as (regions & vs & E & H1 & H2 & H3).
  destruct (area_exists k faces Hm) as (areas & Har).
  destruct (total_ok stdsort (elem_type k) faces power ids Hst Hm Ha areas Har) as (vs' & E' & HT).
  assert (vs' = vs) by congruence. subst vs'.
  pose proof (soup_powers_ok stdsort s a k faces ids power F Hf Hp Hne) as Es. rewrite E in Es.
  destruct (written stdsort show s vs Hs Es) as (t & Et & Htab).
  exists regions, vs, t, (Stats_Spec.total (map fst vs)). eexists. split; [exact Et|]. split; [exact Htab|]. split; [exact H1|]. split; [exact H2|]. split; [exact H3|].
  split; [exists areas; split; [exact Har|]; rewrite HT; apply max_sum|]. split; intros X.
  - destruct (Rltb _ _) eqn:L; [|reflexivity]. apply Rltb_true in L. lra.
  - rewrite (proj2 (Rltb_true _ _)) by exact X. reflexivity.
Qed.
(** ** What is refused *)
Theorem powers_refused stdsort show s a k faces : faces_of s a k -> faces_are a faces ->
  (forall ids power, power_set a ids power -> ~ accepted faces power ids) -> extract_powers stdsort show s = Fail.
Proof.
  intros F Hf Hn. unfold extract_powers.
  assert (E : soup_powers stdsort s = Fail).
  { destruct (in_dec (list_eq_dec Z.eq_dec) (chars "power") (map es_name (a_elsets a))) as [Hi|Hi].
    - apply in_map_iff in Hi as (e & He & Hin). destruct e as [n ids power]. cbn [es_name] in He. subst n.
      specialize (Hn ids power Hin). destruct power as [|p power].
      + unfold soup_powers. rewrite (kind_ok s a k F). cbn [bind]. unfold fetch. rewrite lit_chars.
        pose proof (getElsetByName_ok s a _ (snd (@nil Z, @nil R)) (fo_stores _ _ _ F) (fo_content _ _ _ F) Hin) as E. cbn [es_name es_ids es_data] in E. rewrite E. cbn [bind fst snd].
        unfold checkPowerData. destruct ids; reflexivity.
      + rewrite (soup_powers_ok stdsort s a k faces ids (p :: power) F Hf Hin) by discriminate.
        apply rejected; auto. exact (faces_mesh s a k faces F Hf).
    - unfold soup_powers. rewrite (kind_ok s a k F). cbn [bind]. rewrite lit_chars, (fetch_none s a k _ _ F Hi). reflexivity. }
  rewrite E. reflexivity.
Qed.
Theorem powers_kinds stdsort show (s : fsr) a : stores s a -> a_elems a = [] \/ (forall k, exists t c, In (t, c) (a_elems a) /\ t <> elem_type k) ->
  extract_powers stdsort show s = Fail.
Proof.
  intros Hs H. destruct (rejects s a Hs H) as (X & _). specialize (X []). unfold getSource in X.
  unfold extract_powers, soup_powers. destruct (face_kind s) as [k| | |] eqn:E; cbn [bind] in X; try discriminate; [|reflexivity].
  exfalso. destruct Hs as (_ & Ht & _).
  assert (N : forall k, getElemTypes (etypes s) <> [elem_type k]).
  { intros k' E'. destruct (Elem_Proofs.getElemTypes_ok (etypes s)) as (_ & HI). rewrite E', Ht in HI. destruct H as [H|H].
    - rewrite H in HI. destruct (proj1 (HI (elem_type k'))). now left.
    - destruct (H k') as (t & c & Hin & Hne). apply Hne. assert (H0 : In t [elem_type k']) by (apply HI; apply in_map_iff; exists (t, c); auto). destruct H0 as [H0|[]]; auto. }
  unfold face_kind in E. pose proof (N Tri) as N1. pose proof (N Quad) as N2. pose proof (N Tri6) as N3. pose proof (N Quad8) as N4. cbn in N1, N2, N3, N4.
  destruct (getElemTypes (etypes s)) as [|t [|u l]]; try discriminate; [|destruct t; discriminate]. destruct t; try discriminate; congruence.
Qed.
Theorem powers_ids stdsort show s s' a a' k faces ids ids' power : faces_of s a k -> faces_of s' a' k -> faces_are a faces -> faces_are a' faces ->
  power_set a ids power -> power_set a' ids' power -> accepted faces power ids -> accepted faces power ids' ->
  extract_powers stdsort show s = extract_powers stdsort show s'.
Proof.
  intros F F' Hf Hf' Hp Hp' Ha Ha'. unfold extract_powers.
  assert (Hne : power <> []).
  { intros ->. destruct Ha as (_ & _ & (i & p & X & _) & _). destruct i; discriminate. }
  rewrite (soup_powers_ok stdsort s a k faces ids power F Hf Hp Hne), (soup_powers_ok stdsort s' a' k faces ids' power F' Hf' Hp' Hne).
  pose proof (faces_mesh s a k faces F Hf) as Hm. rewrite !getPowers_N by exact Hm. unfold getPowersN.
  rewrite (proj2 (check_iff faces power ids) Ha), (proj2 (check_iff faces power ids') Ha'). reflexivity.
Qed.
