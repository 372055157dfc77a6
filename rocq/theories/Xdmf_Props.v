(** C39: a polytope soup written to an XDMF file and read back has the same content. *)
From Coq Require Import String Ascii.
From Coq Require Import List Arith ZArith Bool Reals Lia Lra.
From Verif Require Import Base Arith Loops StringView_Model Elem_Model Soup_Model Soup_Spec Xdmf_Model Xdmf_Spec Xdmf_Proofs Xdmf_File_Proofs.
Import ListNotations.
Local Open Scope list_scope.
Local Open Scope nat_scope.

(** Writing a soup and reading the file into an empty soup gives the same vertices (without the z coordinates if all of them
    are negligible), elements and element sets, in the same order, whether or not assertions are enabled. No other file is changed. *)
Theorem C39_roundtrip checks fsize eps p h s a d : fsize = 4%Z \/ fsize = 8%Z -> (0 <= eps)%R -> xdmf_path p h ->
  stores s a -> content_ok a -> writable a ->
  exists d' s' vs, writeXDMFFile fsize eps p s d = Ret d' /\ only_written p h d d' /\
    readXDMFFile checks fsize p d' empty_soup = Ret s' /\ kept eps (a_verts a) vs /\ stores s' (mkA vs (a_elems a) (a_elsets a)).
Proof.
  intros F E P S0 C W. destruct (round_trip checks fsize eps F p h s a d E P S0 C W) as (d' & H1 & H2 & H3).
  destruct (H3 empty_soup a_empty) as (s' & vs & H4 & H5 & H6); [repeat split| |].
  - cbn. apply C.
  - exists d', s', vs. auto.
Qed.
Print Assumptions C39_roundtrip.
(** Reading into a soup that is not empty appends the content. *)
Theorem C39_append checks fsize eps p h s a d s0 a0 : fsize = 4%Z \/ fsize = 8%Z -> (0 <= eps)%R -> xdmf_path p h ->
  stores s a -> content_ok a -> writable a -> stores s0 a0 -> NoDup (map es_name (a_elsets a0 ++ a_elsets a)) ->
  exists d' s' vs, writeXDMFFile fsize eps p s d = Ret d' /\ readXDMFFile checks fsize p d' s0 = Ret s' /\ kept eps (a_verts a) vs /\
    stores s' (mkA (a_verts a0 ++ vs) (a_elems a0 ++ a_elems a) (a_elsets a0 ++ a_elsets a)).
Proof.
  intros F E P S0 C W S1 N. destruct (round_trip checks fsize eps F p h s a d E P S0 C W) as (d' & H1 & _ & H3).
  destruct (H3 s0 a0 S1 N) as (s' & vs & H4 & H5 & H6). exists d', s', vs. auto.
Qed.
Print Assumptions C39_append.
(** [kept] determines the vertices that are read. *)
Theorem C39_kept_unique eps vs l m : kept eps vs l -> kept eps vs m -> l = m.
Proof. exact (kept_unique eps vs l m). Qed.
Print Assumptions C39_kept_unique.

(** ** A soup that meets the hypotheses *)
Definition ex_a : asoup (R * R * R) R := mkA [(0, 0, 0); (1, 0, 0); (1, 1, 0); (0, 1, 0); (2, 0, 1)]%R
  [(V_Quad, [0; 1; 2; 3]); (V_Triangle, [1; 4; 2])]%Z
  [mkElset (txt "Material_Fuel") [0; 1]%Z [1; 2]%R; mkElset (txt "All") [0; 1]%Z []].
Definition ex_s : soup (R * R * R) R := mkSoup (a_verts ex_a) [V_Quad; V_Triangle] [0; 4; 7] [0; 1; 2; 3; 1; 4; 2]%Z
  [txt "Material_Fuel"; txt "All"] [0; 2; 4] [0; 1; 0; 1]%Z [[1; 2]%R; []].
Example C39_ex_hyps : stores ex_s ex_a /\ content_ok ex_a /\ writable ex_a /\ xdmf_path (txt "out/mesh.xdmf") (txt "out/mesh.h5").
Proof.
  split; [repeat split|]. split.
  { split; [|apply Forall_cons; [split; [discriminate|now right]|apply Forall_cons; [split; [discriminate|now left]|constructor]]].
    constructor; [|constructor; [|constructor]]; cbn; intuition discriminate. }
  split.
  - constructor.
    + repeat constructor; try discriminate; reflexivity.
    + intros t (_ & H). pose proof (H _ (or_introl eq_refl)). pose proof (H _ (or_intror (or_introl eq_refl))). cbn in *. congruence.
    + repeat constructor; try discriminate; cbn; unfold SLASH; intuition discriminate.
    + cbn. intros e e' [<-|[<-|[]]] [<-|[<-|[]]] H; try discriminate; now contradiction H.
    + cbn. unfold intMax. lia.
    + cbn. unfold intMax. lia.
    + repeat constructor; cbn; unfold intMax; lia.
  - exists (txt "out/"), (txt "mesh"). split; [reflexivity|]. split; [reflexivity|]. split; [cbn; unfold SLASH; intuition discriminate|].
    split; [discriminate|]. split; [discriminate|]. right. exists (txt "out"). split; [discriminate|reflexivity].
Qed.
Example C39_ex : forall checks d, exists d' s', writeXDMFFile 8 (1 / 10000000) (txt "out/mesh.xdmf") ex_s d = Ret d' /\
  readXDMFFile checks 8 (txt "out/mesh.xdmf") d' empty_soup = Ret s' /\ stores s' ex_a.
Proof.
  intros checks d. destruct C39_ex_hyps as (H1 & H2 & H3 & H4).
  destruct (C39_roundtrip checks 8 (1 / 10000000) _ _ _ _ d (or_intror eq_refl) ltac:(lra) H4 H1 H2 H3) as (d' & s' & vs & E1 & _ & E2 & K & S').
  exists d', s'. split; auto. split; auto. assert (vs = a_verts ex_a).
  { apply (C39_kept_unique (1 / 10000000) (a_verts ex_a)); auto. apply kept_3d with (2, 0, 1)%R; [cbn; auto 10|]. cbn. rewrite Rabs_R1. lra. }
  subst vs. exact S'.
Qed.

(** ** What is not true in general *)
Definition no_files : disk := mkDisk (fun _ => None) (fun _ => None).
Definition three : list (R * R * R) := [(0, 0, 0); (1, 0, 0); (2, 0, 0)]%R.
(** A soup of quadratic edges only is written but cannot be read. *)
Theorem C39_edges_refuted : forall checks eps, exists s a d', stores s a /\ content_ok a /\ ids_ok a /\ Forall elem_ok (a_elems a) /\
  writeXDMFFile 8 eps (txt "a.xdmf") s no_files = Ret d' /\ readXDMFFile checks 8 (txt "a.xdmf") d' empty_soup = Fail.
Proof.
  intros checks eps. exists (mkSoup three [V_QuadraticEdge] [0; 3] [0; 1; 2]%Z [] [] [] []), (mkA three [(V_QuadraticEdge, [0; 1; 2]%Z)] []).
  destruct (Rltb eps (Rabs 0)) eqn:E.
  - eexists. split; [repeat split|]. split; [split; constructor|]. split.
    { split; [|intros e i []]. intros t c v [X|[]] Hv. injection X as <- <-. cbn in *. intuition lia. }
    split; [repeat constructor; discriminate|]. split.
    + unfold writeXDMFFile, h5names, writeXDMFUniformGrid, writeXDMFGeometry. cbn [verts three existsb pz snd]. rewrite E. vm_compute. reflexivity.
    + destruct checks; vm_compute; reflexivity.
  - eexists. split; [repeat split|]. split; [split; constructor|]. split.
    { split; [|intros e i []]. intros t c v [X|[]] Hv. injection X as <- <-. cbn in *. intuition lia. }
    split; [repeat constructor; discriminate|]. split.
    + unfold writeXDMFFile, h5names, writeXDMFUniformGrid, writeXDMFGeometry. cbn [verts three existsb pz snd]. rewrite E. vm_compute. reflexivity.
    + destruct checks; vm_compute; reflexivity.
Qed.
Print Assumptions C39_edges_refuted.
(** Names of element sets that addElset accepts and the writer does not: "Geometry", the name of the data of another set,
    a name with a slash. *)
Theorem C39_names_refuted : forall names, In names [[txt "Geometry"]; [txt "Topology"]; [txt "A"; txt "A_data"]; [txt "Material/Fuel"]] ->
  forall eps, exists s a, stores s a /\ content_ok a /\ ids_ok a /\ Forall elem_ok (a_elems a) /\ map es_name (a_elsets a) = names /\
  writeXDMFFile 8 eps (txt "a.xdmf") s no_files = Fail.
Proof.
  intros names H eps.
  exists (mkSoup three [V_Triangle] [0; 3] [0; 1; 2]%Z names (offsets_of (map (fun _ => 1) names)) (map (fun _ => 0%Z) names) (map (fun _ => [1%R]) names)),
    (mkA three [(V_Triangle, [0; 1; 2]%Z)] (map (fun n => mkElset n [0%Z] [1%R]) names)).
  split; [|split; [|split; [|split; [|split]]]].
  - cbn in H. destruct H as [<-|[<-|[<-|[<-|[]]]]]; repeat split.
  - cbn in H. destruct H as [<-|[<-|[<-|[<-|[]]]]]; (split; [|repeat (apply Forall_cons; [split; [discriminate|now right]|]); apply Forall_nil]);
      repeat (apply NoDup_cons; [cbn; intuition discriminate|]); apply NoDup_nil.
  - split.
    + intros t c v [X|[]] Hv. injection X as <- <-. cbn in *. intuition lia.
    + intros e i He Hi. cbn in He. apply in_map_iff in He. destruct He as (n & <- & _). cbn in Hi. destruct Hi as [<-|[]]. cbn. lia.
  - repeat constructor; discriminate.
  - cbn [a_elsets]. rewrite map_map. cbn [es_name]. apply map_id.
  - unfold writeXDMFFile, h5names, writeXDMFUniformGrid, writeXDMFGeometry. cbn [verts three existsb pz snd].
    destruct (Rltb eps (Rabs 0)); cbn in H; destruct H as [<-|[<-|[<-|[<-|[]]]]]; vm_compute; reflexivity.
Qed.
Print Assumptions C39_names_refuted.
(** Heights up to the tolerance are lost. *)
Theorem C39_z_refuted : forall checks eps, (0 < eps)%R -> exists s a d' s', stores s a /\ content_ok a /\ writable a /\
  writeXDMFFile 8 eps (txt "a.xdmf") s no_files = Ret d' /\ readXDMFFile checks 8 (txt "a.xdmf") d' empty_soup = Ret s' /\
  verts s = [(0, 0, eps)%R] /\ verts s' = [(0, 0, 0)%R].
Proof.
  intros checks eps He. set (s := mkSoup [(0, 0, eps)%R] [] [] [] [] [] [] [] : soup (R * R * R) R). set (a := mkA [(0, 0, eps)%R] [] [] : @asoup (R * R * R) R).
  assert (S1 : stores s a) by repeat split. assert (C : content_ok a) by (split; constructor).
  assert (W : writable a).
  { constructor.
    - constructor.
    - intros t (X & _). now contradiction X.
    - constructor.
    - intros e e' [].
    - cbn. unfold intMax. lia.
    - cbn. unfold intMax. lia.
    - constructor. }
  destruct (C39_roundtrip checks 8 eps (txt "a.xdmf") (txt "a.h5") s a no_files (or_intror eq_refl) ltac:(lra)) as (d' & s' & vs & E1 & _ & E2 & K & S'); auto.
  { exists [], (txt "a"). split; [reflexivity|]. split; [reflexivity|]. split; [cbn; unfold SLASH; intuition discriminate|]. split; [discriminate|]. split; [discriminate|auto]. }
  exists s, a, d', s'. split; auto. split; auto. split; auto. split; auto. split; auto. split; [reflexivity|].
  destruct S' as (-> & _). cbn [a_verts]. apply (kept_unique eps (a_verts a)); auto.
  change [(0, 0, 0)%R] with (map (fun v : R * R * R => (fst v, 0%R)) (a_verts a)). apply kept_2d. intros v [<-|[]]. cbn. rewrite Rabs_right; lra.
Qed.
Print Assumptions C39_z_refuted.
(** Reading into a soup that is not empty does not renumber the vertices of the elements that are read. *)
Theorem C39_append_refuted : forall checks, exists s a d' s' , stores s a /\ content_ok a /\ ids_ok a /\ writable a /\
  writeXDMFFile 8 1 (txt "a.xdmf") s no_files = Ret d' /\ readXDMFFile checks 8 (txt "a.xdmf") d' s = Ret s' /\
  length (verts s') = 6 /\ getElement s' 0 = Ret (V_Triangle, [0; 1; 2]%Z) /\ getElement s' 1 = Ret (V_Triangle, [0; 1; 2]%Z).
Proof.
  intros checks. set (s := mkSoup three [V_Triangle] [0; 3] [0; 1; 2]%Z [] [] [] [] : soup (R * R * R) R). set (a := mkA three [(V_Triangle, [0; 1; 2]%Z)] [] : @asoup (R * R * R) R).
  assert (S1 : stores s a) by repeat split. assert (C : content_ok a) by (split; constructor).
  assert (I' : ids_ok a).
  { split; [|intros e i []]. intros t c v [X|[]] Hv. injection X as <- <-. cbn in *. intuition lia. }
  assert (W : writable a).
  { constructor.
    - constructor; [split; [discriminate|reflexivity]|constructor].
    - intros t (_ & X). rewrite <- (X _ (or_introl eq_refl)). now left.
    - constructor.
    - intros e e' [].
    - cbn. unfold intMax. lia.
    - cbn. unfold intMax. lia.
    - constructor. }
  destruct (C39_append checks 8 1 (txt "a.xdmf") (txt "a.h5") s a no_files s a (or_intror eq_refl) ltac:(lra)) as (d' & s' & vs & E1 & E2 & K & S'); auto.
  { exists [], (txt "a"). split; [reflexivity|]. split; [reflexivity|]. split; [cbn; unfold SLASH; intuition discriminate|]. split; [discriminate|]. split; [discriminate|auto]. }
  { constructor. }
  exists s, a, d', s'. split; auto. split; auto. split; auto. split; auto. split; auto. split; auto.
  assert (L : length vs = 3) by (destruct K; reflexivity). split; [|split].
  - rewrite (proj1 S'). cbn [a_verts]. rewrite app_length, L. reflexivity.
  - apply (Soup_Proofs.getElement_ok _ _ 0 _ _ S'). reflexivity.
  - apply (Soup_Proofs.getElement_ok _ _ 1 _ _ S'). reflexivity.
Qed.
Print Assumptions C39_append_refuted.
(** An element with more vertices than its type has, which addElement accepts, loses some. *)
Theorem C39_length_refuted : forall checks eps, exists s a d' s', stores s a /\ content_ok a /\ ids_ok a /\
  writeXDMFFile 8 eps (txt "a.xdmf") s no_files = Ret d' /\ readXDMFFile checks 8 (txt "a.xdmf") d' empty_soup = Ret s' /\
  getElement s 0 = Ret (V_Triangle, [0; 1; 2; 0]%Z) /\ getElement s' 0 = Ret (V_Triangle, [0; 1; 2]%Z).
Proof.
  intros checks eps. exists (mkSoup three [V_Triangle] [0; 4] [0; 1; 2; 0]%Z [] [] [] []), (mkA three [(V_Triangle, [0; 1; 2; 0]%Z)] []).
  destruct (Rltb eps (Rabs 0)) eqn:E.
  - eexists. eexists. split; [repeat split|]. split; [split; constructor|]. split.
    { split; [|intros e i []]. intros t c v [X|[]] Hv. injection X as <- <-. cbn in *. intuition lia. }
    split; [|split; [|split]].
    + unfold writeXDMFFile, h5names, writeXDMFUniformGrid, writeXDMFGeometry. cbn [verts three existsb pz snd]. rewrite E. vm_compute. reflexivity.
    + destruct checks; vm_compute; reflexivity.
    + reflexivity.
    + reflexivity.
  - eexists. eexists. split; [repeat split|]. split; [split; constructor|]. split.
    { split; [|intros e i []]. intros t c v [X|[]] Hv. injection X as <- <-. cbn in *. intuition lia. }
    split; [|split; [|split]].
    + unfold writeXDMFFile, h5names, writeXDMFUniformGrid, writeXDMFGeometry. cbn [verts three existsb pz snd]. rewrite E. vm_compute. reflexivity.
    + destruct checks; vm_compute; reflexivity.
    + reflexivity.
    + reflexivity.
Qed.
Print Assumptions C39_length_refuted.
