(** C92: files of soups, and the programs from one file to another. *)
From Coq Require Import String.
From Coq Require Import Reals Lra.
From Coq Require Import List Arith ZArith Lia Bool Sorting.Permutation.
From Verif Require Import Base Loops StringView_Model Elem_Model Soup_Model Soup_Spec TextIo_Model TextIo_Spec Abaqus_Model Abaqus_Spec Abaqus_Props
  Vtk_Model Vtk_Spec Vtk_Props Xdmf_Model Xdmf_Spec XSec_Model Fvm_Model Powers_Model Powers_Spec Outputs_Spec Source_Model Source_Spec Source_Props
  PowerFile_Model PowerFile_Spec PowerFile_Props Files_Model Files_Spec Files_Proofs.
Import ListNotations.
Local Open Scope list_scope.

(** A file with the ending .inp is read as an Abaqus file (see C40). *)
Theorem C92_inp : forall checks has_xdmf exit fsize max_int stdsort n w ls t a, sort_contract stdsort -> named ".inp" n -> texts w n = Some t ->
  file_text ls t -> abaqus checks ls a -> NoDup (names a) ->
  exists s l m, soup_open checks has_xdmf exit fsize max_int stdsort n w = Ret s /\ stores s (mkA (a_verts a) (a_elems a) l) /\
    names_sorted l /\ Permutation (a_elsets a) m /\ Forall2 same_sorted m l.
Proof. intros checks has_xdmf exit fsize max_int stdsort n w ls t a So N T Ft A Nd. unfold soup_open. rewrite read_inp, T by exact N. exact (C40_read checks stdsort ls t a So Ft A Nd). Qed.
Print Assumptions C92_inp.
(** One with the ending .vtk is read as a VTK file (see C68). *)
Theorem C92_vtk : forall checks has_xdmf exit fsize max_int stdsort n w t a, sort_contract stdsort -> (max_int <= INT64_MAX)%Z -> named ".vtk" n -> texts w n = Some t ->
  vtk_text max_int t a -> NoDup (names a) ->
  exists s l m, soup_open checks has_xdmf exit fsize max_int stdsort n w = Ret s /\ stores s (mkA (a_verts a) (a_elems a) l) /\
    names_sorted l /\ Permutation (a_elsets a) m /\ Forall2 same_sorted m l.
Proof. intros checks has_xdmf exit fsize max_int stdsort n w t a So M N T V Nd. unfold soup_open. rewrite read_vtk, T by exact N. exact (C68_read checks stdsort max_int t a So M V Nd). Qed.
Print Assumptions C92_vtk.
(** One with the ending .xdmf is written and read as an XDMF file (see C39), and no other file changes. *)
Theorem C92_xdmf : forall checks exit fsize eps max_int stdsort p h s a w, fsize = 4%Z \/ fsize = 8%Z -> (0 <= eps)%R -> xdmf_path p h -> stores s a -> content_ok a -> writable a ->
  exists w' s' vs, soup_write exit fsize eps p s w = Ret w' /\ texts w' = texts w /\ only_written p h (xdmf w) (xdmf w') /\
    soup_open checks true exit fsize max_int stdsort p w' = Ret s' /\ kept eps (a_verts a) vs /\ stores s' (mkA vs (a_elems a) (a_elsets a)).
Proof. exact saved. Qed.
Print Assumptions C92_xdmf.
(** Any other ending is an error: the program ends, or the soup and the files stay as they are. *)
Theorem C92_other : forall checks has_xdmf exit fsize eps max_int stdsort n w s,
  (~ named ".inp" n -> ~ named ".vtk" n -> ~ named ".xdmf" n \/ has_xdmf = false ->
    soup_read checks has_xdmf exit fsize max_int stdsort n w s = if exit then Fail else Ret s) /\
  (~ named ".xdmf" n -> soup_write exit fsize eps n s w = if exit then Fail else Ret w).
Proof. intros. split; [apply read_other|apply write_other]. Qed.
Print Assumptions C92_other.
(** A file that does not exist is an error. *)
Theorem C92_missing : forall checks exit fsize max_int stdsort n w s, texts w n = None -> xmlfiles (xdmf w) n = None ->
  named ".inp" n \/ named ".vtk" n \/ (exists h, xdmf_path n h) -> soup_read checks true exit fsize max_int stdsort n w s = Fail.
Proof. exact read_missing. Qed.
Print Assumptions C92_missing.

(** From an FSR output in a file to the file of the sources: what is read from source.xdmf is the output with the three element sets of
    C87, and the output is left as it is. *)
Theorem C92_source : forall checks exit fsize eps max_int stdsort p h s a k ids flux materials k_eff w, fsize = 4%Z \/ fsize = 8%Z -> (0 <= eps)%R -> xdmf_path p h ->
  faces_of s a k -> writable a -> output a ids flux -> grouped materials ids (length flux) -> unused a ->
  exists w0 w1 s' vs src, soup_write exit fsize eps p s w = Ret w0 /\
    source_program checks true exit fsize eps max_int stdsort k_eff materials p w0 = Ret w1 /\
    texts w1 = texts w /\ only_written (chars "source.xdmf") (chars "source.h5") (xdmf w0) (xdmf w1) /\
    soup_open checks true exit fsize max_int stdsort (chars "source.xdmf") w1 = Ret s' /\
    kept eps (a_verts a) vs /\ stores s' (mkA vs (a_elems a) (a_elsets a ++ new_sets k_eff (length (a_elems a)) src)) /\
    length src = length (a_elems a) /\
    forall i q, nth_error src i = Some q -> rate xs materials ids flux i (fst q) /\ rate xnuf materials ids flux i (snd q).
Proof. exact source_file. Qed.
Print Assumptions C92_source.
(** From an FSR output in a file to the table of powers (see C91). *)
Theorem C92_powers : forall checks exit fsize eps max_int stdsort sort_ids show p h s a k faces ids power w, fsize = 4%Z \/ fsize = 8%Z -> (0 <= eps)%R -> xdmf_path p h ->
  Powers_Spec.sorts sort_ids -> (forall x, one_line (show x)) -> faces_of s a k -> writable a -> faces_are a faces -> power_set a ids power -> accepted faces power ids -> resolved faces power ->
  exists w0 w1 ends regions vs t P, soup_write exit fsize eps p s w = Ret w0 /\
    powers_program checks true exit fsize max_int stdsort sort_ids show p w0 = Ret (w1, ends) /\
    texts w1 (chars "power_centroid.txt") = Some t /\ (forall n, n <> chars "power_centroid.txt" -> texts w1 n = texts w n) /\ xdmf w1 = xdmf w0 /\
    table show vs t /\ Forall2 (region_value faces power (elem_type k)) regions vs /\ Powers_Spec.partition power regions /\
    (forall i j, together regions i j <-> linked faces power i j) /\
    full_power k faces power P /\ (Rabs (P - 1) <= 1 / 1000 -> ends = Ret 0%Z)%R /\ (1 / 1000 < Rabs (P - 1) -> ends = Fail)%R.
Proof. exact power_file. Qed.
Print Assumptions C92_powers.
(** The program ends with an error if the output has one of these element sets, as its own result has. *)
Theorem C92_in_use : forall checks exit fsize eps max_int stdsort p h s a k ids flux materials k_eff w, fsize = 4%Z \/ fsize = 8%Z -> (0 <= eps)%R -> xdmf_path p h ->
  faces_of s a k -> writable a -> output a ids flux -> grouped materials ids (length flux) ->
  (exists n, In n source_names /\ In (chars n) (map es_name (a_elsets a))) ->
  exists w0, soup_write exit fsize eps p s w = Ret w0 /\ source_program checks true exit fsize eps max_int stdsort k_eff materials p w0 = Fail.
Proof. exact source_used. Qed.
Print Assumptions C92_in_use.

(** * The hypotheses are met *)
Lemma small_writable sets : Forall (fun e => name_ok (es_name e) /\ (length (es_ids e) <= 2)%nat) sets ->
  (forall e e', In e sets -> In e' sets -> es_data e <> [] -> es_name e' <> data_name (es_name e)) -> writable (two sets).
Proof.
  intros H D. constructor; cbn [two a_elems a_verts a_elsets]; auto.
  - repeat constructor; discriminate.
  - intros t (_ & X). left. symmetry. exact (X _ (or_introl eq_refl)).
  - eapply Forall_impl; [|exact H]. cbn. tauto.
  - cbn. unfold intMax. lia.
  - cbn. unfold intMax. lia.
  - eapply Forall_impl; [|exact H]. cbn. intros e (_ & L). unfold intMax. lia.
Qed.
Ltac nm := split; [repeat split; try discriminate; cbn; unfold SLASH; intuition discriminate|cbn; lia].
Example C92_example_source : faces_of (Source_Props.soup_of (two sets2)) (two sets2) Tri /\ writable (two sets2) /\ output (two sets2) [1; 0]%nat [[7; 8]; [9; 10]]%R /\
  grouped mats2 [1; 0]%nat 2 /\ unused (two sets2) /\ xdmf_path (txt "fsr.xdmf") (txt "fsr.h5").
Proof.
  split; [exact (two_faces _ sets2_ok)|]. split; [|split; [|split; [|split]]].
  - apply small_writable; [repeat (apply Forall_cons; [nm|]); apply Forall_nil|].
    intros e e' He He' _ X. destruct He as [<-|[<-|[<-|[]]]], He' as [<-|[<-|[<-|[]]]]; discriminate X.
  - constructor; [|exact sets2_flux|cbn; lia]. exists [2; 1]%R. split; [split; cbn; auto|]. repeat constructor; cbn; lra.
  - split; [exists (xsec_of [1; 2] [0; 0])%R; split; reflexivity|]. split; [cbn; lia|]. intros id [<-|[<-|[]]]; eexists; (split; [reflexivity|]); split; reflexivity.
  - intros n [<-|[<-|[<-|[]]]]; split; cbn; intuition discriminate.
  - exists [], (txt "fsr"). split; [reflexivity|]. split; [reflexivity|]. split; [cbn; unfold SLASH; intuition discriminate|]. split; [discriminate|]. split; [discriminate|now left].
Qed.
Example C92_example_powers : forall p q, (0 < p)%R -> writable (halves [0; 1]%Z p q).
Proof.
  intros p q _. apply (small_writable [mkElset (chars "power") [0; 1]%Z [p; q]]); [apply Forall_cons; [nm|apply Forall_nil]|].
  intros e e' [<-|[]] [<-|[]] _ X. discriminate X.
Qed.
Example C92_example_names : named ".inp" (chars "mesh.inp") /\ named ".vtk" (chars "a/mesh.vtk") /\ ~ named ".xdmf" (chars "mesh.XDMF").
Proof.
  split; [now exists (chars "mesh")|]. split; [now exists (chars "a/mesh")|]. intros (st & X). apply (f_equal (@rev Z)) in X. rewrite rev_app_distr in X. discriminate X.
Qed.
(** the files of the examples of C40 and C68 *)
Definition inp_text : list Z := concat (map (fun l => l ++ [NEWLINE]) (removelast Abaqus_Props.ex_lines)) ++ lit "1, 2, ".
Example C92_example_inp : forall has_xdmf exit stdsort, sort_contract stdsort -> exists s, soup_open true has_xdmf exit 8 INT64_MAX stdsort (chars "mesh.inp")
  (mkFiles (fun _ => Some inp_text) no_disk) = Ret s /\ verts s = a_verts Abaqus_Props.ex_content.
Proof.
  intros has_xdmf exit stdsort So. destruct (C92_inp true has_xdmf exit 8 INT64_MAX stdsort (chars "mesh.inp") (mkFiles (fun _ => Some inp_text) no_disk)
    Abaqus_Props.ex_lines inp_text Abaqus_Props.ex_content So) as (s & l & m & E & S' & _).
  - now exists (chars "mesh").
  - reflexivity.
  - exact Abaqus_Props.C40_text.
  - exact Abaqus_Props.C40_lines.
  - repeat constructor; cbn; intuition discriminate.
  - exists s. split; [exact E|]. exact (proj1 S').
Qed.
(** the sources of the halves of a square are there already *)
Definition with_sources : list (elset R) := sets2 ++ new_sets 1 2 [(1, 1); (2, 2)]%R.
Example C92_example_twice : faces_of (Source_Props.soup_of (two with_sources)) (two with_sources) Tri /\ writable (two with_sources) /\ output (two with_sources) [1; 0]%nat [[7; 8]; [9; 10]]%R /\
  forall n, In n source_names -> In (chars n) (map es_name (a_elsets (two with_sources))).
Proof.
  split; [|split; [|split]].
  - apply two_faces. split; [distinct|]. repeat constructor; cbn; auto; discriminate.
  - apply small_writable; [repeat (apply Forall_cons; [nm|]); apply Forall_nil|].
    intros e e' He He' _ X. destruct He as [<-|[<-|[<-|[<-|[<-|[<-|[]]]]]]], He' as [<-|[<-|[<-|[<-|[<-|[<-|[]]]]]]]; discriminate X.
  - constructor; [|intros [|[|[|g]]] v X; cbn in X; try discriminate; injection X as <-; split; cbn; auto|cbn; lia]. exists [2; 1]%R. split; [split; cbn; auto|]. repeat constructor; cbn; lra.
  - intros n [<-|[<-|[<-|[]]]]; cbn; auto 10.
Qed.
