(** Files of soups. *)
From Coq Require Import String.
From Coq Require Import Reals Lra.
From Coq Require Import List Arith ZArith Lia Bool Sorting.Permutation.
From Verif Require Import Base Loops StringView_Model StringView_Proofs Elem_Model Soup_Model Soup_Spec TextIo_Model TextIo_Spec Abaqus_Model Abaqus_Spec Abaqus_Proofs Abaqus_Props
  Vtk_Model Vtk_Spec Vtk_Props Xdmf_Model Xdmf_Spec Xdmf_Proofs Xdmf_File_Proofs Xdmf_Props XSec_Model Fvm_Model Powers_Model Powers_Spec Outputs_Spec Source_Model Source_Spec Source_Proofs
  PowerFile_Model PowerFile_Spec PowerFile_Proofs Files_Model Files_Spec.
Import ListNotations.
Local Open Scope list_scope.

Lemma forall2_weaken {A B} (Q T : A -> B -> Prop) : (forall x y, Q x y -> T x y) -> forall l m, Forall2 Q l m -> Forall2 T l m.
Proof. intros H l m. induction 1; constructor; auto. Qed.
Lemma nodup_both {A} (l m : list A) : NoDup l -> NoDup m -> (forall x, In x l -> In x m -> False) -> NoDup (l ++ m).
Proof.
  intros H1 H2 H. induction H1 as [|x l Hx _ IH]; [exact H2|]. cbn. constructor.
  - rewrite in_app_iff. intros [X|X]; [contradiction|]. apply (H x); [now left|exact X].
  - apply IH. intros y Hy. apply H. now right.
Qed.
Lemma has_ending_ok n e : exists b, has_ending n e = Ret b /\ (b = true <-> named e n).
Proof.
  unfold has_ending, named. destruct (ends_with_ok (view n) (view (lit e))) as (b & E & Hb); try (rewrite view_V; apply valid_V').
  exists b. split; [exact E|]. rewrite !view_V, !text_V, lit_chars in Hb. exact Hb.
Qed.
Lemma has_ending_yes n e : named e n -> has_ending n e = Ret true.
Proof. intros H. destruct (has_ending_ok n e) as (b & -> & Hb). f_equal. now apply Hb. Qed.
Lemma has_ending_no n e : ~ named e n -> has_ending n e = Ret false.
Proof. intros H. destruct (has_ending_ok n e) as ([|] & -> & Hb); auto. elim H. now apply Hb. Qed.
Lemma last_char e n c d : named e n -> chars e = c ++ [d] -> exists r, n = r ++ [d].
Proof. intros (st & ->) ->. exists (st ++ c). now rewrite app_assoc. Qed.
Lemma not_both e1 e2 n c1 c2 d1 d2 : chars e1 = c1 ++ [d1] -> chars e2 = c2 ++ [d2] -> d1 <> d2 -> named e1 n -> ~ named e2 n.
Proof.
  intros E1 E2 D H1 H2. destruct (last_char _ _ _ _ H1 E1) as (r1 & R1). destruct (last_char _ _ _ _ H2 E2) as (r2 & R2).
  rewrite R1 in R2. apply app_inj_tail in R2. now destruct R2.
Qed.
Lemma not_inp_vtk n : named ".vtk" n -> ~ named ".inp" n.
Proof. apply (not_both _ _ n [46; 118; 116]%Z [46; 105; 110]%Z 107%Z 112%Z); [reflexivity|reflexivity|discriminate]. Qed.
Lemma not_inp_xdmf n : named ".xdmf" n -> ~ named ".inp" n.
Proof. apply (not_both _ _ n [46; 120; 100; 109]%Z [46; 105; 110]%Z 102%Z 112%Z); [reflexivity|reflexivity|discriminate]. Qed.
Lemma not_vtk_xdmf n : named ".xdmf" n -> ~ named ".vtk" n.
Proof. apply (not_both _ _ n [46; 120; 100; 109]%Z [46; 118; 116]%Z 102%Z 107%Z); [reflexivity|reflexivity|discriminate]. Qed.
Lemma path_named p h : xdmf_path p h -> named ".xdmf" p.
Proof. intros (dir & base & -> & _). exists (dir ++ base). now rewrite <- app_assoc. Qed.

Section Build.
Variables (checks has_xdmf exit : bool) (fsize : Z) (eps : R) (max_int : Z).
Variable stdsort : forall A : Type, (A -> A -> bool) -> list A -> list A.
Notation rdf := (soup_read checks has_xdmf exit fsize max_int stdsort).
Lemma read_inp n w s : named ".inp" n -> rdf n w s = readAbaqusFile checks stdsort (texts w n) s.
Proof. intros H. unfold soup_read. now rewrite (has_ending_yes _ _ H). Qed.
Lemma read_vtk n w s : named ".vtk" n -> rdf n w s = readVTKFile checks max_int stdsort (texts w n) s.
Proof. intros H. unfold soup_read. rewrite (has_ending_no _ _ (not_inp_vtk n H)), (has_ending_yes _ _ H). reflexivity. Qed.
Lemma read_other n w s : ~ named ".inp" n -> ~ named ".vtk" n -> ~ named ".xdmf" n \/ has_xdmf = false -> rdf n w s = if exit then Fail else Ret s.
Proof.
  intros H1 H2 H3. unfold soup_read. rewrite (has_ending_no _ _ H1), (has_ending_no _ _ H2). cbn [bind].
  destruct has_xdmf; [|reflexivity]. destruct H3 as [H3|H3]; [|discriminate]. rewrite (has_ending_no _ _ H3). reflexivity.
Qed.
Lemma write_other n w s : ~ named ".xdmf" n -> soup_write exit fsize eps n s w = if exit then Fail else Ret w.
Proof. intros H. unfold soup_write. rewrite (has_ending_no _ _ H). reflexivity. Qed.
End Build.
Lemma read_xdmf checks exit fsize max_int stdsort n w s : named ".xdmf" n ->
  soup_read checks true exit fsize max_int stdsort n w s = readXDMFFile checks fsize n (xdmf w) s.
Proof. intros H. unfold soup_read. rewrite (has_ending_no _ _ (not_inp_xdmf n H)), (has_ending_no _ _ (not_vtk_xdmf n H)), (has_ending_yes _ _ H). reflexivity. Qed.

(** ** A soup written and read *)
Lemma saved checks exit fsize eps max_int stdsort p h s a w : fsize = 4%Z \/ fsize = 8%Z -> (0 <= eps)%R -> xdmf_path p h -> stores s a -> content_ok a -> writable a ->
  exists w' s' vs, soup_write exit fsize eps p s w = Ret w' /\ texts w' = texts w /\ only_written p h (xdmf w) (xdmf w') /\
    soup_open checks true exit fsize max_int stdsort p w' = Ret s' /\ kept eps (a_verts a) vs /\ stores s' (mkA vs (a_elems a) (a_elsets a)).
Proof.
  intros F E P Hs Hc Hw. destruct (C39_roundtrip checks fsize eps p h s a (xdmf w) F E P Hs Hc Hw) as (d' & s' & vs & H1 & H2 & H3 & H4 & H5).
  exists (mkFiles (texts w) d'), s', vs. pose proof (path_named _ _ P) as N.
  split; [unfold soup_write; rewrite (has_ending_yes _ _ N); cbn [bind]; rewrite H1; reflexivity|]. split; [reflexivity|]. split; [exact H2|].
  split; [unfold soup_open; rewrite (read_xdmf _ _ _ _ _ _ _ _ N); exact H3|]. auto.
Qed.
Lemma kept_again eps vs l m : kept eps vs l -> kept eps l m -> m = l.
Proof.
  intros H1 H2. destruct H1 as [v Hv Hz|Hz].
  - destruct H2 as [|H2]; auto. specialize (H2 v Hv). lra.
  - destruct H2 as [|_]; auto. rewrite map_map. reflexivity.
Qed.
Lemma kept_faces s a k eps vs s' : faces_of s a k -> kept eps (a_verts a) vs -> stores s' (mkA vs (a_elems a) (a_elsets a)) -> faces_of s' (mkA vs (a_elems a) (a_elsets a)) k.
Proof.
  intros [Hst Hc (Hn & Hv) Hk Hf] K S'. constructor; auto.
  - split; [exact Hn|]. cbn [a_verts]. destruct K; auto. intros X. apply map_eq_nil in X. contradiction.
  - cbn [a_verts]. destruct K; auto. intros p q Hp Hq. apply in_map_iff in Hp as (x & <- & _). apply in_map_iff in Hq as (y & <- & _). reflexivity.
Qed.
Lemma kept_points a eps vs faces : faces_are a faces -> kept eps (a_verts a) vs -> faces_are (mkA vs (a_elems a) (a_elsets a)) faces.
Proof.
  intros H K. unfold faces_are in *. cbn [a_verts a_elems]. destruct K; auto.
  eapply forall2_weaken; [|exact H]. intros e f. apply forall2_weaken. intros v p (Hv & z & Hz). split; [exact Hv|]. exists 0%R. rewrite nth_error_map, Hz. reflexivity.
Qed.
(** ** Sources *)
Lemma ends_data n e : n ++ chars "_data" = chars e -> In e source_names -> False.
Proof.
  intros E [<-|[<-|[<-|[]]]]; apply (f_equal (@rev Z)) in E; rewrite rev_app_distr in E; cbn in E; discriminate E.
Qed.
Lemma new_in k n src e : In e (new_sets k n src) -> exists m f, In m source_names /\ e = mkElset (chars m) (map Z.of_nat (seq 0 n)) (map f src).
Proof. intros [<-|[<-|[<-|[]]]]; do 2 eexists; (split; [|reflexivity]); cbn; auto. Qed.
Lemma sources_writable a k src : content_ok a -> writable a -> unused a -> a_elems a <> [] -> length src = length (a_elems a) ->
  let b := mkA (a_verts a) (a_elems a) (a_elsets a ++ new_sets k (length (a_elems a)) src) in content_ok b /\ writable b.
Proof.
  intros [C1 C2] [W1 W2 W3 W4 W5 W6 W7] U Hne Hl b.
  assert (Hseq : map Z.of_nat (seq 0 (length (a_elems a))) <> []) by (destruct (a_elems a); [congruence|discriminate]).
  split.
  - split.
    + unfold b. cbn [a_elsets]. rewrite map_app. apply nodup_both; [exact C1| |].
      * repeat constructor; cbn; intuition discriminate.
      * intros x Hx Hy. apply in_map_iff in Hy as (e & <- & He). apply new_in in He as (m & f & Hm & ->). now apply (proj1 (U m Hm)).
    + unfold b. cbn [a_elsets]. apply Forall_app. split; [exact C2|]. apply Forall_forall. intros e He. apply new_in in He as (m & f & Hm & ->).
      split; cbn [es_ids es_data]; [exact Hseq|]. right. rewrite !map_length, seq_length. exact Hl.
  - constructor; unfold b; cbn [a_verts a_elems a_elsets]; auto.
    + apply Forall_app. split; [exact W3|]. apply Forall_forall. intros e He. apply new_in in He as (m & f & Hm & ->). cbn [es_name].
      destruct Hm as [<-|[<-|[<-|[]]]]; repeat split; try discriminate; cbn; unfold SLASH; intuition discriminate.
    + intros e e' He He' Hd X. apply in_app_or in He, He'. change (data_name (es_name e)) with (es_name e ++ chars "_data") in X. destruct He' as [He'|He'].
      * destruct He as [He|He]; [exact (W4 e e' He He' Hd X)|]. apply new_in in He as (m & f & Hm & ->). cbn [es_name] in X.
        apply (proj2 (U m Hm)). rewrite <- X. now apply in_map.
      * apply new_in in He' as (m & f & Hm & ->). cbn [es_name] in X. exact (ends_data _ _ (eq_sym X) Hm).
    + apply Forall_app. split; [exact W7|]. apply Forall_forall. intros e He. apply new_in in He as (m & f & Hm & ->). cbn [es_ids]. rewrite map_length, seq_length. lia.
Qed.
Lemma source_path : xdmf_path (lit "source.xdmf") (lit "source.h5").
Proof. exists [], (txt "source"). split; [reflexivity|]. split; [reflexivity|]. split; [cbn; unfold SLASH; intuition discriminate|]. split; [discriminate|]. split; [discriminate|now left]. Qed.
Theorem source_file checks exit fsize eps max_int stdsort p h s a k ids flux materials k_eff w : fsize = 4%Z \/ fsize = 8%Z -> (0 <= eps)%R -> xdmf_path p h ->
  faces_of s a k -> writable a -> output a ids flux -> grouped materials ids (length flux) -> unused a ->
  exists w0 w1 s' vs src, soup_write exit fsize eps p s w = Ret w0 /\
    source_program checks true exit fsize eps max_int stdsort k_eff materials p w0 = Ret w1 /\
    texts w1 = texts w /\ only_written (chars "source.xdmf") (chars "source.h5") (xdmf w0) (xdmf w1) /\
    soup_open checks true exit fsize max_int stdsort (chars "source.xdmf") w1 = Ret s' /\
    kept eps (a_verts a) vs /\ stores s' (mkA vs (a_elems a) (a_elsets a ++ new_sets k_eff (length (a_elems a)) src)) /\
    length src = length (a_elems a) /\
    forall i q, nth_error src i = Some q -> rate xs materials ids flux i (fst q) /\ rate xnuf materials ids flux i (snd q).
Proof.
  intros F E P Hf Hw Ho Hg Hu.
  destruct (saved checks exit fsize eps max_int stdsort p h s a w F E P (fo_stores _ _ _ Hf) (fo_content _ _ _ Hf) Hw) as (w0 & s0 & vs & H1 & H2 & _ & H4 & H5 & H6).
  pose proof (kept_faces s a k eps vs s0 Hf H5 H6) as Hf0. set (a0 := mkA vs (a_elems a) (a_elsets a)) in *.
  assert (Ho0 : output a0 ids flux) by (destruct Ho as [M G C]; constructor; auto).
  destruct (source_ok s0 a0 k ids flux materials Hf0 Ho0 Hg) as (src & Es & Ls & Hr).
  destruct (extract_ok k_eff s0 a0 k materials src Hf0 Es Ls) as (s1 & E1 & S1); [intros n Hn; apply (Hu n Hn)|].
  assert (Hw0 : writable a0).
  { destruct Hw as [W1 W2 W3 W4 W5 W6 W7]. constructor; auto. cbn. destruct H5; auto. now rewrite map_length. }
  destruct (sources_writable a0 k_eff src (fo_content _ _ _ Hf0) Hw0 Hu (proj1 (fo_some _ _ _ Hf0)) Ls) as (Hc1 & Hw1).
  destruct (saved checks exit fsize eps max_int stdsort _ _ s1 _ w0 F E source_path S1 Hc1 Hw1) as (w1 & s' & vs' & K1 & K2 & K3 & K4 & K5 & K6).
  cbn [a_verts a_elems a_elsets] in K5, K6. pose proof (kept_again _ _ _ _ H5 K5) as ->.
  exists w0, w1, s', vs, src. split; [exact H1|]. split; [unfold source_program; rewrite H4; cbn [bind]; rewrite E1; exact K1|].
  split; [now rewrite K2|]. split; [exact K3|]. split; [exact K4|]. split; [exact H5|]. split; [exact K6|]. split; [exact Ls|exact Hr].
Qed.
(** ** Powers *)
Theorem power_file checks exit fsize eps max_int stdsort sort_ids show p h s a k faces ids power w : fsize = 4%Z \/ fsize = 8%Z -> (0 <= eps)%R -> xdmf_path p h ->
  sorts sort_ids -> (forall x, one_line (show x)) -> faces_of s a k -> writable a -> faces_are a faces -> power_set a ids power -> accepted faces power ids -> resolved faces power ->
  exists w0 w1 ends regions vs t P, soup_write exit fsize eps p s w = Ret w0 /\
    powers_program checks true exit fsize max_int stdsort sort_ids show p w0 = Ret (w1, ends) /\
    texts w1 (chars "power_centroid.txt") = Some t /\ (forall n, n <> chars "power_centroid.txt" -> texts w1 n = texts w n) /\ xdmf w1 = xdmf w0 /\
    table show vs t /\ Forall2 (region_value faces power (elem_type k)) regions vs /\ Powers_Spec.partition power regions /\
    (forall i j, together regions i j <-> linked faces power i j) /\
    full_power k faces power P /\ (Rabs (P - 1) <= 1 / 1000 -> ends = Ret 0%Z)%R /\ (1 / 1000 < Rabs (P - 1) -> ends = Fail)%R.
Proof.
  intros F E P Hso Hsh Hf Hw Hfa Hp Ha Hr.
  destruct (saved checks exit fsize eps max_int stdsort p h s a w F E P (fo_stores _ _ _ Hf) (fo_content _ _ _ Hf) Hw) as (w0 & s0 & vs & H1 & H2 & _ & H4 & H5 & H6).
  pose proof (kept_faces s a k eps vs s0 Hf H5 H6) as Hf0. pose proof (kept_points a eps vs faces Hfa H5) as Hfa0.
  destruct (powers_file sort_ids show s0 _ k faces ids power Hso Hsh Hf0 Hfa0 Hp Ha Hr) as (regions & vals & t & P0 & ends & Et & HT).
  exists w0, (mkFiles (put (texts w0) (lit "power_centroid.txt") t) (xdmf w0)), ends, regions, vals, t, P0.
  split; [exact H1|]. split; [unfold powers_program; rewrite H4; cbn [bind]; rewrite Et; reflexivity|].
  cbn [texts xdmf]. rewrite lit_chars. split; [unfold put; now rewrite name_eqb_refl|]. split; [|split; [reflexivity|exact HT]].
  intros n Hn. unfold put. rewrite name_eqb_neq by congruence. now rewrite H2.
Qed.
(** ** Errors *)
Definition no_disk : disk := mkDisk (fun _ => None) (fun _ => None).
Lemma read_missing checks exit fsize max_int stdsort n w s : texts w n = None -> xmlfiles (xdmf w) n = None ->
  named ".inp" n \/ named ".vtk" n \/ (exists h, xdmf_path n h) -> soup_read checks true exit fsize max_int stdsort n w s = Fail.
Proof.
  intros T X [N|[N|(h & P)]].
  - rewrite read_inp, T by exact N. reflexivity.
  - rewrite read_vtk, T by exact N. reflexivity.
  - rewrite read_xdmf by exact (path_named _ _ P). unfold readXDMFFile. destruct (h5names_ok 8%Z (or_intror eq_refl) n h P) as (f & E). rewrite E. cbn [bind].
    destruct (h5files (xdmf w) h); [|reflexivity]. now rewrite X.
Qed.
Theorem source_used checks exit fsize eps max_int stdsort p h s a k ids flux materials k_eff w : fsize = 4%Z \/ fsize = 8%Z -> (0 <= eps)%R -> xdmf_path p h ->
  faces_of s a k -> writable a -> output a ids flux -> grouped materials ids (length flux) ->
  (exists n, In n source_names /\ In (chars n) (map es_name (a_elsets a))) ->
  exists w0, soup_write exit fsize eps p s w = Ret w0 /\ source_program checks true exit fsize eps max_int stdsort k_eff materials p w0 = Fail.
Proof.
  intros F E P Hf Hw Ho Hg Hu.
  destruct (saved checks exit fsize eps max_int stdsort p h s a w F E P (fo_stores _ _ _ Hf) (fo_content _ _ _ Hf) Hw) as (w0 & s0 & vs & H1 & H2 & _ & H4 & H5 & H6).
  pose proof (kept_faces s a k eps vs s0 Hf H5 H6) as Hf0. set (a0 := mkA vs (a_elems a) (a_elsets a)) in *.
  assert (Ho0 : output a0 ids flux) by (destruct Ho as [M G C]; constructor; auto).
  destruct (source_ok s0 a0 k ids flux materials Hf0 Ho0 Hg) as (src & Es & _ & _).
  exists w0. split; [exact H1|]. unfold source_program. rewrite H4. cbn [bind]. rewrite (extract_used k_eff s0 a0 materials src H6 Es Hu). reflexivity.
Qed.
