(** Proofs about the sources and the spectrum. *)
From Coq Require Import String Ascii.
From Coq Require Import Reals Lra R_Ifp.
From Coq Require Import List Arith ZArith Lia Bool.
From Verif Require Import Base Loops Arith Elem_Model Elem_Proofs Soup_Model Soup_Spec Soup_Proofs StringView_Model TextIo_Model Color_Model Ascii_Model Powers_Model Fvm_Model Fvm_Proofs Fvm_Query_Proofs XSec_Model
  Source_Model Source_Spec.
Import ListNotations.
Local Open Scope R_scope.

Lemma lit_chars t : lit t = chars t.
Proof. induction t as [|c t IH]; cbn; auto. unfold lit in IH. now rewrite IH. Qed.
Lemma lit_flux : lit "flux_001" = flux_name 1.
Proof. reflexivity. Qed.
Definition same (l m : list Z) : bool := if list_eq_dec Z.eq_dec l m then true else false.
Lemma names_all : forallb (fun g => match incrementASCIINumber (flux_name g) with Ret n => same n (flux_name (S g)) | _ => false end) (seq 0 999) = true.
Proof. vm_compute. reflexivity. Qed.
Lemma name_next g : (g < 999)%nat -> incrementASCIINumber (flux_name g) = Ret (flux_name (S g)).
Proof.
  intros H. pose proof names_all as A. rewrite forallb_forall in A. specialize (A g). cbv beta in A.
  destruct (incrementASCIINumber (flux_name g)) as [n| | |]; try (discriminate A; apply in_seq; lia).
  unfold same in A. destruct (list_eq_dec Z.eq_dec n (flux_name (S g))) as [->|]; auto. discriminate A. apply in_seq. lia.
Qed.
Lemma name_last : exists n, incrementASCIINumber (flux_name 999) = Ret n.
Proof. eexists. vm_compute. reflexivity. Qed.

Lemma kind_ok s a k : faces_of s a k -> face_kind s = Ret k.
Proof.
  intros [(_ & Ht & _) _ (Hs & _) Hk _]. unfold face_kind. rewrite Ht.
  assert (E : getElemTypes (map fst (a_elems a)) = [elem_type k]).
  { destruct (getElemTypes_ok (map fst (a_elems a))) as (N & H).
    assert (A : forall t, In t (getElemTypes (map fst (a_elems a))) -> t = elem_type k).
    { intros t H0. apply H in H0. apply in_map_iff in H0 as ((t', c) & E & H1). cbn in E. subst t'. apply (Hk t c H1). }
    assert (B : In (elem_type k) (getElemTypes (map fst (a_elems a)))).
    { apply H. destruct (a_elems a) as [|(t, c) l] eqn:El; [congruence|]. left. cbn. apply (Hk t c). now left. }
    destruct (getElemTypes (map fst (a_elems a))) as [|t l]; [destruct B|]. rewrite (A t) in * by now left.
    destruct l as [|u l]; auto. inversion_clear N as [|? ? N1 _]. exfalso. apply N1. rewrite <- (A u); [now left|]. right. now left. }
  rewrite E. destruct k; reflexivity.
Qed.
Lemma mesh_ok s a k : faces_of s a k -> face_mesh k s = Ret (mkMesh false false (map fst (a_verts a)) (map snd (a_elems a)) [] []).
Proof.
  intros [Hst _ (Hs & Hv) Hk Hf]. unfold face_mesh.
  destruct (a_verts a) as [|v0 l] eqn:Ev; [congruence|]. rewrite <- Ev.
  rewrite (from_soup_ok _ _ _ k s a v0); auto.
  - rewrite Ev. reflexivity.
  - intros p Hp. rewrite Ev in Hp. rewrite (Hf p v0 Hp) by now left. unfold Rltb. rewrite Rminus_eq_0, Rabs_R0.
    destruct (Rlt_dec (1 / 10000000) 0); auto. lra.
Qed.
Lemma fetch_ok s a k n v st : faces_of s a k -> gives a n v -> fetch s n st = Ret (map Z.of_nat (seq 0 (length (a_elems a))), v).
Proof.
  intros [Hst Hc (Hs & _) _ _] (Hin & Hl). unfold fetch.
  pose proof (getElsetByName_ok s a _ (snd st) Hst Hc Hin) as E. cbn [es_name es_ids es_data] in E. rewrite E. cbn [bind].
  destruct v; auto. destruct (a_elems a); [congruence|discriminate].
Qed.
Lemma fetch_any s a k n ids v st : faces_of s a k -> In (mkElset n ids v) (a_elsets a) -> v <> [] -> fetch s n st = Ret (ids, v).
Proof.
  intros [Hst Hc _ _ _] Hin Hv. unfold fetch.
  pose proof (getElsetByName_ok s a _ (snd st) Hst Hc Hin) as E. cbn [es_name es_ids es_data] in E. rewrite E. cbn [bind]. destruct v; auto. congruence.
Qed.
Lemma fetch_none s a k n st : faces_of s a k -> ~ In n (map es_name (a_elsets a)) -> fetch s n st = Ret st.
Proof. intros [Hst _ _ _ _] H. unfold fetch. rewrite (getElsetByName_none s a n (snd st) Hst H). reflexivity. Qed.

Lemma trunc_ok x (n : nat) : INR n <= x < INR n + 1 -> trunc x = Z.of_nat n.
Proof.
  intros H. unfold trunc. pose proof (pos_INR n). destruct (Rle_dec 0 x); [|lra].
  unfold Int_part. rewrite <- (tech_up x (Z.of_nat n + 1)); [lia| |]; rewrite plus_IZR, <- INR_IZR_INZ; lra.
Qed.
Lemma mat_ids_ok d ids : Forall2 (fun id x => INR (S id) <= x < INR (S id) + 1) ids d -> (forall id, In id ids -> (Z.of_nat id < 2147483647)%Z) ->
  mapo (material_id d) (seq 0 (length ids)) = Ret (map Z.of_nat ids).
Proof.
  intros F Hb. rewrite (mapo_ok _ (fun i => Z.of_nat (nth i ids 0%nat))).
  - f_equal. rewrite <- (map_map (fun i => nth i ids 0%nat) Z.of_nat). f_equal.
    apply nth_ext with (d := 0%nat) (d' := 0%nat); [now rewrite map_length, seq_length|].
    intros n Hn. rewrite map_length, seq_length in Hn. rewrite (nth_indep _ 0%nat (nth 0%nat ids 0%nat)) by (rewrite map_length, seq_length; auto).
    rewrite (map_nth (fun i => nth i ids 0%nat)), seq_nth by auto. reflexivity.
  - intros i Hi. apply in_seq in Hi as (_ & Hi). cbn in Hi. unfold material_id.
    pose proof (Forall2_length _ _ _ F) as Hl.
    destruct (nth_error d i) as [x|] eqn:Ex; [|apply nth_error_None in Ex; lia].
    assert (Ei : nth_error ids i = Some (nth i ids 0%nat)) by (apply nth_error_nth'; auto).
    pose proof (Forall2_nth _ _ _ i _ _ F Ei Ex) as Hx. cbv beta in Hx.
    unfold rd. rewrite Ex. cbn [bind]. rewrite (trunc_ok x _ Hx).
    specialize (Hb _ (nth_error_In _ _ Ei)).
    rewrite i32_ok by (unfold in_i32, intMin, intMax; lia). cbn [bind]. rewrite i32_ok by (unfold in_i32, intMin, intMax; lia). f_equal. lia.
Qed.

Section Groups.
Variables (materials : list xsec) (ids : list nat) (flux : list (list R)) (x0 : xsec).
Definition mat (i : nat) : xsec := nth (nth i ids 0%nat) materials x0.
Definition upto (sigma : xsec -> list R) (i g : nat) : R := sum (fun g => nth i (nth g flux []) 0 * nth g (sigma (mat i)) 0) g.
Definition both (g i : nat) : R * R := (upto xs i g, upto xnuf i g).

Lemma faces_ok g v src : grouped materials ids (length flux) -> nth_error flux g = Some v -> length v = length ids ->
  length src = length ids -> (forall i, (i < length ids)%nat -> nth_error src i = Some (both g i)) ->
  exists src', for_ (length ids) 0 (add_face materials (map Z.of_nat ids) v g) src = Ret src' /\ length src' = length ids /\
    forall i, (i < length ids)%nat -> nth_error src' i = Some (both (S g) i).
Proof.
  intros (_ & _ & Hm) Hg Hv Hs Hi.
  destruct (for_inv (fun j src' => length src' = length ids /\ forall i, (i < length ids)%nat ->
     nth_error src' i = Some (if (i <? j)%nat then both (S g) i else both g i)) (add_face materials (map Z.of_nat ids) v g) (length ids) 0 src) as (src' & E & L & H).
  - split; auto.
  - intros j s1 (_ & Hj) (L & H). cbn in Hj. unfold add_face, rd.
    rewrite nth_error_map, (nth_error_nth' ids 0%nat) by auto. cbn [option_map bind].
    destruct (Hm (nth j ids 0%nat)) as (x & Ex & Lx & Lf); [apply nth_In; auto|].
    rewrite (rdz_nth _ _ x) by (try lia; rewrite Nat2Z.id; auto). cbn [bind].
    assert (Hgl : (g < length flux)%nat) by (apply nth_error_Some; congruence).
    rewrite (nth_error_nth' (xs x) 0), (nth_error_nth' (xnuf x) 0), (nth_error_nth' v 0) by lia. cbn [bind].
    rewrite (H j Hj), Nat.ltb_irrefl. cbn [bind]. rewrite wr_ok by lia. eexists. split; [reflexivity|].
    split; [now rewrite upd_length|]. intros i Hil. rewrite nth_error_upd.
    destruct (Nat.eqb_spec i j) as [->|Hne].
    + destruct (Nat.ltb_spec j (length s1)); [|lia]. rewrite (proj2 (Nat.ltb_lt j (S j))) by lia. f_equal. unfold both, upto. cbn [fst snd sum].
      assert (Em : mat j = x) by (unfold mat; apply nth_error_nth; auto). rewrite Em.
      assert (Efl : nth g flux [] = v) by (apply nth_error_nth; auto). rewrite Efl, ?Nat.eqb_refl. reflexivity.
    + rewrite ?(proj2 (Nat.eqb_neq j i)), ?(proj2 (Nat.eqb_neq i j)) by auto. cbn [andb]. rewrite (H i Hil). destruct (Nat.ltb_spec i j), (Nat.ltb_spec i (S j)); auto; lia.
  - exists src'. split; auto. split; auto. intros i Hil. rewrite (H i Hil). cbn [plus]. now rewrite (proj2 (Nat.ltb_lt _ _) Hil).
Qed.
Lemma groups_ok s a k out src : faces_of s a k -> (forall g v, nth_error flux g = Some v -> gives a (flux_name (S g)) v) -> (length flux <= 999)%nat ->
  grouped materials ids (length flux) -> length ids = length (a_elems a) -> src = repeat (0, 0) (length ids) ->
  exists st, for_ (length flux) 0 (add_energy s materials (map Z.of_nat ids) (length ids)) (out, src, flux_name 1) = Ret st /\
    length (snd (fst st)) = length ids /\ forall i, (i < length ids)%nat -> nth_error (snd (fst st)) i = Some (both (length flux) i).
Proof.
  intros F Hf Hc Hg Hl Hsrc.
  destruct (for_inv (fun g (st : (list Z * list R) * list (R * R) * list Z) => ((g < 999)%nat -> snd st = flux_name (S g)) /\ length (snd (fst st)) = length ids /\
      forall i, (i < length ids)%nat -> nth_error (snd (fst st)) i = Some (both g i))
    (add_energy s materials (map Z.of_nat ids) (length ids)) (length flux) 0 (out, src, flux_name 1)) as (st & E & (_ & L & H)).
  - cbn [fst snd]. split; auto. subst src. rewrite repeat_length. split; auto. intros i Hi. rewrite (nth_error_repeat _ Hi). reflexivity.
  - intros g ((o, s1), n) (_ & Hgl) (Hn & L & H). cbn [fst snd plus] in *. unfold add_energy. rewrite Hn by lia.
    destruct (nth_error flux g) as [v|] eqn:Ev; [|apply nth_error_None in Ev; lia].
    rewrite (fetch_ok s a k _ v o F (Hf g v Ev)). cbn [bind snd].
    destruct (Hf g v Ev) as (_ & Lv).
    destruct (faces_ok g v s1 Hg Ev) as (s2 & E2 & L2 & H2); try lia; auto. rewrite E2. cbn [bind].
    destruct (Nat.eq_dec (S g) 999) as [E9|].
    + destruct name_last as (n9 & E'). rewrite <- E9 in E'. rewrite E'. cbn [bind]. eexists. split; [reflexivity|]. cbn [fst snd]. split; [lia|]. auto.
    + rewrite name_next by lia. cbn [bind]. eexists. split; [reflexivity|]. cbn [fst snd]. auto.
  - exists st. auto.
Qed.
End Groups.

Theorem source_ok s a k ids flux materials : faces_of s a k -> output a ids flux -> grouped materials ids (length flux) ->
  exists src, getSource s materials = Ret src /\ length src = length (a_elems a) /\
    forall i q, nth_error src i = Some q -> rate xs materials ids flux i (fst q) /\ rate xnuf materials ids flux i (snd q).
Proof.
  intros F [(d & Gd & Fd) Hf Hc] Hg. unfold getSource. rewrite (kind_ok s a k F). cbn [bind]. unfold sources_of.
  rewrite (mesh_ok s a k F). cbn [bind fv]. rewrite map_length, (lit_chars "material"), (fetch_ok s a k _ d _ F Gd). cbn [bind fst snd].
  assert (Hl : length ids = length (a_elems a)) by (rewrite (Forall2_length _ _ _ Fd); apply Gd).
  pose proof Hg as ((x0 & E0 & N0) & Hb & Hm). rewrite <- Hl, (mat_ids_ok d ids Fd).
  2:{ intros id Hid. destruct (Hm id Hid) as (x & Ex & _). assert (id < length materials)%nat by (apply nth_error_Some; congruence). lia. }
  cbn [bind]. unfold rd. rewrite E0. cbn [bind]. rewrite N0, lit_flux.
  destruct (groups_ok materials ids flux x0 s a k (map Z.of_nat (seq 0 (length ids)), repeat 0 (length ids)) _ F Hf Hc Hg Hl eq_refl) as (st & E & L & H).
  unfold char in *. rewrite E. cbn [bind]. exists (snd (fst st)). split; auto. split; auto. intros i q Hq.
  assert (Hi : (i < length ids)%nat) by (rewrite <- L; apply nth_error_Some; congruence).
  rewrite (H i Hi) in Hq. injection Hq as <-. cbn [fst snd].
  destruct (Hm (nth i ids 0%nat)) as (x & Ex & _); [apply nth_In; auto|].
  assert (Em : mat materials ids x0 i = x) by (unfold mat; apply nth_error_nth; auto).
  split; exists (nth i ids 0%nat), x; (split; [apply nth_error_nth'; auto|]); (split; [auto|]); unfold both, upto; cbn [fst snd]; rewrite Em; reflexivity.
Qed.

Theorem extract_ok k_eff s a k materials src : faces_of s a k -> getSource s materials = Ret src -> length src = length (a_elems a) ->
  (forall n, In n ["scattering_source"; "fission_source"; "total_source"]%string -> ~ In (chars n) (map es_name (a_elsets a))) ->
  exists s', extract_source k_eff s materials = Ret s' /\
    stores s' (mkA (a_verts a) (a_elems a) (a_elsets a ++ new_sets k_eff (length (a_elems a)) src)).
Proof.
  intros [Hst _ (Hne & _) _ _] Hg Hl Hn. unfold extract_source. rewrite Hg. cbn [bind]. rewrite Hl, !lit_chars.
  assert (Hi : map Z.of_nat (seq 0 (length (a_elems a))) <> []) by (destruct (a_elems a); [congruence|discriminate]).
  assert (Hd : forall f, length (map f src : list R) = length (map Z.of_nat (seq 0 (length (a_elems a))))) by (intros f; rewrite !map_length, seq_length; auto).
  rewrite (map_ext (fun q : R * R => 1 / k_eff * snd q) (fun q => snd q / k_eff)) by (intros; unfold Rdiv; ring).
  rewrite (map_ext (fun q : R * R => fst q + 1 / k_eff * snd q) (fun q => fst q + snd q / k_eff)) by (intros; unfold Rdiv; ring).
  set (idl := map Z.of_nat (seq 0 (length (a_elems a)))) in *.
  edestruct (addElset_accept s a (chars "scattering_source") idl (map fst src) Hst) as (s1 & E1 & S1).
  { split; [apply Hn; cbn; auto|]. split; auto. right. apply Hd. }
  unfold add_set at 1. rewrite E1. cbn [bind].
  edestruct (addElset_accept s1 _ (chars "fission_source") idl (map (fun q => snd q / k_eff) src) S1) as (s2 & E2 & S2).
  { split; [|split; auto; right; apply Hd]. cbn [a_elsets es_name]. rewrite map_app, in_app_iff. intros [H|[H|[]]]; [|discriminate H]. revert H. apply Hn. cbn. auto. }
  unfold add_set at 1. rewrite E2. cbn [bind].
  edestruct (addElset_accept s2 _ (chars "total_source") idl (map (fun q => fst q + snd q / k_eff) src) S2) as (s3 & E3 & S3).
  { split; [|split; auto; right; apply Hd]. cbn [a_elsets es_name]. rewrite !map_app, !in_app_iff. intros [[H|[H|[]]]|[H|[]]]; [|discriminate H|discriminate H].
    revert H. apply Hn. cbn. auto. }
  unfold add_set at 1. rewrite E3. cbn [bind]. exists s3. split; auto. cbn [a_verts a_elems a_elsets] in S3. rewrite <- !app_assoc in S3. exact S3.
Qed.

(** a name that is in use ends the program *)
Lemma add_used s a n ids d : stores s a -> In n (map es_name (a_elsets a)) -> add_set s n ids d = Fail.
Proof. intros Hs Hi. unfold add_set. rewrite (addElset_reject s a n ids d Hs); [reflexivity|]. intros (H & _). now apply H. Qed.
Lemma add_either s a n ids d : stores s a -> add_set s n ids d = Fail \/
  exists s', add_set s n ids d = Ret s' /\ stores s' (mkA (a_verts a) (a_elems a) (a_elsets a ++ [mkElset n ids d])).
Proof.
  intros Hs. unfold add_set. destruct (acceptable_dec a n ids d) as [H|H].
  - right. destruct (addElset_accept s a n ids d Hs H) as (s' & E & S'). rewrite E. eauto.
  - left. rewrite (addElset_reject s a n ids d Hs H). reflexivity.
Qed.
Theorem extract_used k_eff s a materials src : stores s a -> getSource s materials = Ret src ->
  (exists n, In n ["scattering_source"; "fission_source"; "total_source"]%string /\ In (chars n) (map es_name (a_elsets a))) ->
  extract_source k_eff s materials = Fail.
Proof.
  intros Hs Hg (n & Hn & Hu). unfold extract_source. rewrite Hg. cbn [bind]. rewrite !lit_chars.
  match goal with |- context [add_set s ?m ?i ?d] => destruct (add_either s a m i d Hs) as [E1|(s1 & E1 & S1)]; [now rewrite E1|]; rewrite E1; cbn [bind];
    destruct Hn as [<-|Hn]; [rewrite (add_used s a _ i d Hs Hu) in E1; discriminate E1|] end.
  match goal with |- context [add_set s1 ?m ?i ?d] => destruct (add_either s1 _ m i d S1) as [E2|(s2 & E2 & S2)]; [now rewrite E2|]; rewrite E2; cbn [bind];
    destruct Hn as [<-|Hn]; [rewrite (add_used s1 _ _ i d S1) in E2; [discriminate E2|]; cbn [a_elsets]; rewrite map_app; apply in_or_app; now left|] end.
  destruct Hn as [<-|[]]. apply (add_used s2 _ _ _ _ S2). cbn [a_elsets]. rewrite !map_app. apply in_or_app. left. apply in_or_app. now left.
Qed.

(** * The spectrum *)
Definition weighted (areas v : list R) (n : nat) : R := sum (fun i => nth i v 0 * nth i areas 0) n.
Lemma flux_ok areas v n : length areas = n -> length v = n ->
  exists st, for_ n 0 (add_flux areas v) (0, 0) = Ret st /\ fst st + snd st = weighted areas v n.
Proof.
  intros Ha Hv. destruct (for_inv (fun j (st : R * R) => fst st + snd st = weighted areas v j) (add_flux areas v) n 0 (0, 0)) as (st & E & H).
  - cbn. lra.
  - intros j (g, l) (_ & Hj) H. cbn [fst snd plus] in *. unfold add_flux, rd. rewrite (nth_error_nth' v 0), (nth_error_nth' areas 0) by lia. cbn [bind].
    unfold weighted. cbn [sum]. fold (weighted areas v j).
    destruct (j mod 128 =? 127)%nat; eexists; (split; [reflexivity|]); cbn [fst snd]; lra.
  - exists st. auto.
Qed.
Lemma loop_ok s a k areas : faces_of s a k -> length areas = length (a_elems a) -> forall rest g fuel ids acc,
  (forall j v, nth_error rest j = Some v -> gives a (flux_name (S (g + j))) v) -> ~ In (flux_name (S (g + length rest))) (map es_name (a_elsets a)) ->
  (g + length rest <= 998)%nat -> (length rest < fuel)%nat ->
  spectrum_loop fuel s areas ids acc (flux_name (S g)) = Ret (acc ++ map (fun v => weighted areas v (length (a_elems a))) rest).
Proof.
  intros F Ha. induction rest as [|v rest IH]; intros g [|fuel] ids acc Hf Hn Hc Hfu; try (cbn in Hfu; lia); cbn [spectrum_loop].
  - cbn [length] in Hn. rewrite Nat.add_0_r in Hn. rewrite (fetch_none s a k _ _ F Hn). cbn. now rewrite app_nil_r.
  - pose proof (Hf 0%nat v eq_refl) as G0. rewrite Nat.add_0_r in G0. rewrite (fetch_ok s a k _ v _ F G0). cbn [bind fst snd].
    destruct G0 as (_ & Lv). destruct v as [|r v'] eqn:Ev; [exfalso; apply (proj1 (fo_some _ _ _ F)); destruct (a_elems a); auto; discriminate|]. rewrite <- Ev in *.
    rewrite map_length, seq_length. destruct (flux_ok areas v _ Ha Lv) as (st & E & H). rewrite E. cbn [bind].
    cbn [length] in Hc, Hfu. rewrite name_next by lia. cbn [bind]. rewrite (IH (S g)); [|intros j w Hj; replace (S g + j)%nat with (g + S j)%nat by lia; apply Hf; auto|replace (S g + length rest)%nat with (g + length (v :: rest))%nat by (cbn; lia); rewrite Ev; auto|lia|lia].
    cbn [map]. rewrite <- app_assoc. cbn [app]. now rewrite H.
Qed.
Lemma areas_ok s a k areas : faces_of s a k -> length areas = length (a_elems a) -> (forall i w, nth_error areas i = Some w -> area_is a k i w) ->
  mapo (fun c => let* f := mapo (rdz (map fst (a_verts a))) c in face_area (elem_type k) f) (map snd (a_elems a)) = Ret areas.
Proof.
  intros F Hl Ha. unfold area_is in Ha. generalize dependent (a_elems a). intros elems Hl Ha. revert areas Hl Ha.
  induction elems as [|(t, c) elems IH]; intros [|w areas] Hl Ha; try discriminate; auto. cbn [map mapo snd].
  destruct (Ha 0%nat w eq_refl) as (t' & c' & f & E & F2 & Hw). injection E as <- <-.
  assert (Em : mapo (rdz (map fst (a_verts a))) c = Ret f).
  { clear - F2. induction F2 as [|v p c f (H0 & z & Hz) F2 IH]; auto. cbn [mapo]. rewrite (rdz_nth _ v p); auto; [|rewrite nth_error_map, Hz; reflexivity]. cbn [bind]. rewrite IH. reflexivity. }
  rewrite Em. cbn [bind]. rewrite Hw. cbn [bind]. rewrite (IH areas); auto. intros i w' Hi. apply (Ha (S i) w' Hi).
Qed.
Theorem spectrum_ok s a k flux areas fuel : faces_of s a k -> length areas = length (a_elems a) -> (forall i w, nth_error areas i = Some w -> area_is a k i w) ->
  (forall g v, nth_error flux g = Some v -> gives a (flux_name (S g)) v) -> ~ In (flux_name (S (length flux))) (map es_name (a_elsets a)) ->
  (length flux <= 998)%nat -> (length flux < fuel)%nat ->
  getSpectrum fuel s = Ret (map (fun v => sum (fun i => nth i v 0 * nth i areas 0) (length (a_elems a))) flux).
Proof.
  intros F Hl Ha Hf Hn Hc Hfu. unfold getSpectrum. rewrite (kind_ok s a k F). cbn [bind]. unfold spectrum_of. rewrite (mesh_ok s a k F). cbn [bind fv mv].
  rewrite (areas_ok s a k areas F Hl Ha). cbn [bind]. rewrite lit_flux. exact (loop_ok s a k areas F Hl flux 0 fuel [] [] Hf Hn Hc Hfu).
Qed.
Theorem rejects (s : fsr) a : stores s a -> a_elems a = [] \/ (forall k, exists t c, In (t, c) (a_elems a) /\ t <> elem_type k) ->
  (forall materials, getSource s materials = Fail) /\ forall fuel, getSpectrum fuel s = Fail.
Proof.
  intros (_ & Ht & _) H.
  assert (E : face_kind s = Fail).
  { assert (N : forall k, getElemTypes (etypes s) <> [elem_type k]).
    { intros k E. destruct (getElemTypes_ok (etypes s)) as (_ & HI). rewrite E, Ht in HI. destruct H as [H|H].
      - rewrite H in HI. destruct (proj1 (HI (elem_type k))). now left.
      - destruct (H k) as (t & c & Hin & Hne). apply Hne. assert (H0 : In t [elem_type k]) by (apply HI; apply in_map_iff; exists (t, c); auto). destruct H0 as [H0|[]]; auto. }
    unfold face_kind. pose proof (N Tri) as N1. pose proof (N Quad) as N2. pose proof (N Tri6) as N3. pose proof (N Quad8) as N4. cbn in N1, N2, N3, N4.
    destruct (getElemTypes (etypes s)) as [|t [|u l]]; auto; [|destruct t; reflexivity]. destruct t; congruence. }
  unfold getSource, getSpectrum. rewrite E. auto.
Qed.
