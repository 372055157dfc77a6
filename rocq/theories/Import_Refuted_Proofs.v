(** Concrete imports: one cell with one triangle, too many materials, and a failed import that goes on. *)
From Coq Require Import String.
From Coq Require Import List Arith ZArith Lia Bool Reals Lra Sorting.Sorted.
From Verif Require Import Base Own Loops Arith Box_Model Box_Proofs StringView_Model TextIo_Model Ascii_Model Elem_Model Soup_Model Soup_Spec Soup_Proofs Soup_Subset_Proofs Soup_Final_Proofs Sort_Spec Seg_Model
  Poly_Model PinCyl_Model Grid_Model Fvm_Model Fvm_Spec Manifold_Model Mpact_Model Mpact_Spec Export_Model Export_Spec Import_Model Import_Spec
  Fvm_Query_Proofs Import_Sets_Proofs Import_Mesh_Proofs Import_Proofs Import_Loop_Proofs.
Import ListNotations.
Local Open Scope list_scope.
Local Open Scope R_scope.

(** one triangle in the set of cell 0 and in that of material B *)
Definition tri_content {P F} (p q r : P) : asoup P F :=
  mkA [p; q; r] [(V_Triangle, [0; 1; 2]%Z)] [mkElset (lit "Coarse_Cell_00000") [0%Z] []; mkElset (lit "Material_B") [0%Z] []].
Definition tri_soup {P F} (p q r : P) : soup P F :=
  mkSoup [p; q; r] [V_Triangle] [0; 3]%nat [0; 1; 2]%Z [lit "Coarse_Cell_00000"; lit "Material_B"] [0; 1; 2]%nat [0; 0]%Z [[]; []].
Definition tri_sub {P F} (p q r : P) : soup P F :=
  mkSoup [p; q; r] [V_Triangle] [0; 3]%nat [0; 1; 2]%Z [lit "Material_B"] [0; 1]%nat [0%Z] [[]].
Lemma tri_stores {P F} (p q r : P) : stores (tri_soup p q r : soup P F) (tri_content p q r).
Proof. repeat split. Qed.
Lemma tri_content_ok {P F} (p q r : P) : content_ok (tri_content p q r : asoup P F) /\ ids_ok (tri_content p q r : asoup P F) /\
  Soup_Spec.ascending (a_elsets (tri_content p q r : asoup P F)).
Proof.
  split; [|split; [split|]].
  - split.
    + cbn [tri_content a_elsets map es_name]. constructor; [|constructor; [intros []|constructor]]. intros [H|[]]. vm_compute in H. discriminate.
    + repeat constructor; cbn; auto; discriminate.
  - cbn. intros t c v [H|[]] Hv. injection H as <- <-. cbn in Hv. lia.
  - cbn. intros e i [<-|[<-|[]]] Hv; cbn in Hv; lia.
  - repeat constructor.
Qed.
Lemma tri_subset {P F} (p q r : P) : getSubset isort_poly (tri_soup p q r : soup P F) (lit "Coarse_Cell_00000") empty_soup = Ret (tri_sub p q r, false).
Proof. vm_compute. reflexivity. Qed.

Definition o3 : R * R * R := (1, 1, 0). Definition x3 : R * R * R := (2, 1, 0). Definition y3 : R * R * R := (2, 2, 0).
Definition tri_R : soup (R * R * R) R := tri_soup o3 x3 y3.
Definition tri_a : asoup (R * R * R) R := tri_content o3 x3 y3.
Lemma tri_planar : planar tri_a.
Proof.
  split.
  - intros k conn [H|[]]. injection H as H1 <-. now destruct k.
  - intros p q Hp Hq. assert (snd p = 0 /\ snd q = 0) as (-> & ->).
    { cbn in Hp, Hq. split; [destruct Hp as [<-|[<-|[<-|[]]]]|destruct Hq as [<-|[<-|[<-|[]]]]]; reflexivity. }
    rewrite Rminus_0_r, Rabs_R0. unfold eps. lra.
Qed.
Definition tri_mesh (x y : R) : mesh R := mkMesh false false [(x, y); (x + 1, y); (x + 1, y + 1)] [[0; 1; 2]%Z] [] [].
Lemma tri_valid selfcheck : validated isort_poly selfcheck Tri (outline tri_a) = Ret (outline tri_a).
Proof.
  unfold validated, validate.
  assert (E : checkCCWFaces (isCCW_of Tri) Tri (outline tri_a) = Ret (outline tri_a)).
  { unfold checkCCWFaces. change (length (fv (outline tri_a))) with 1%nat. cbn [for_]. replace (getFace (outline tri_a) _) with (Ret [(1, 1); (2, 1); (2, 2)]) by reflexivity. cbn [bind isCCW_of].
    replace (tri_isCCW Rarith (1, 1) (2, 1) (2, 2)) with true; [reflexivity|]. symmetry. unfold tri_isCCW, areCCW, oleb. cbn.
    apply orb_true_iff. left. apply Rltb_true. lra. }
  rewrite E. cbn [bind]. replace (checkManifoldWatertight _ _ _ _) with (Ret tt); [reflexivity|]. vm_compute. reflexivity.
Qed.
Definition tri_model (ms : list material) : model :=
  mkModel ([[]; []], []) [] [] [] [mkCell (1, 1) MT_Invalid (-1) []] ms [] [] [] [].
Definition tri_result (ms : list material) (z : Z) : model :=
  mkModel ([[]; []], []) [] [] [] [mkCell (1, 1) MT_Tri 0 [z]] ms [mkMesh false false [(1 - 1, 1 - 1); (2 - 1, 1 - 1); (2 - 1, 2 - 1)] [[0; 1; 2]%Z] [] []] [] [] [].
Lemma tri_box : box_of Tri (outline tri_a) = Ret (mkBox [1; 1] [2; 2]).
Proof.
  assert (B : box_around Tri (outline tri_a) 1 1 2 2).
  { cbn. split; [intros p [<-|[<-|[<-|[]]]]; cbn; lra|]. split; [exists (1, 1); cbn; auto|]. split; [exists (2, 1); cbn; auto|].
    split; [exists (1, 1); cbn; auto|]. exists (2, 2); cbn; auto. }
  destruct (box_of_ok Tri (outline tri_a)) as (p & q & r & w & E & Hb).
  - intros conn [<-|[]]. split; [reflexivity|]. cbn. intros v. lia.
  - discriminate.
  - discriminate.
  - now destruct (box_unique _ _ _ _ _ _ _ _ _ _ B Hb) as (-> & -> & -> & ->).
Qed.
Lemma tri_mark checks ms z : find_material ms (lit "B") 0 = Some z ->
  mark checks (tri_sub o3 x3 y3 : soup (R * R * R) R) ms [lit "Material_B"] [(-1)%Z] = Ret ([to_int8 z], true).
Proof.
  intros Hf. cbn [mark]. replace (starts_with _ _) with (Ret true) by reflexivity. cbn [bind].
  replace (find_material ms (skipn 9 _) 0) with (Some z) by (rewrite <- Hf; reflexivity).
  replace (getElsetByName _ _ _) with (Ret (Some ([0%Z], @nil R))) by (unfold tri_sub; vm_compute; reflexivity). cbn [bind length Nat.eqb negb].
  rewrite assert_true. cbn. now rewrite assert_true.
Qed.
Lemma tri_from selfcheck junk : from_soup far junk (validated isort_poly selfcheck Tri) Tri (tri_sub o3 x3 y3 : soup (R * R * R) R) = Ret (outline tri_a).
Proof.
  assert (St : stores (tri_sub o3 x3 y3 : soup (R * R * R) R) (mkA [o3; x3; y3] [(V_Triangle, [0; 1; 2]%Z)] [mkElset (lit "Material_B") [0%Z] []])) by (repeat split).
  rewrite (from_soup_ok far junk _ Tri _ _ o3 St).
  - exact (tri_valid selfcheck).
  - discriminate.
  - intros t conn [H|[]]. now injection H as <- <-.
  - reflexivity.
  - intros p Hp. unfold far. apply Rltb_false. assert (snd p = 0) as -> by (cbn in Hp; destruct Hp as [<-|[<-|[<-|[]]]]; reflexivity).
    cbn. rewrite Rminus_0_r, Rabs_R0. unfold eps. lra.
Qed.
Lemma tri_import selfcheck junk checks exit ms z : ms <> [] -> find_material ms (lit "B") 0 = Some z -> to_int8 z <> (-1)%Z ->
  importCoarseCellMeshes isort_poly selfcheck junk checks exit (tri_model ms) tri_R = Ret (tri_result ms (to_int8 z)).
Proof.
  intros Hms Hf Hz. unfold importCoarseCellMeshes. replace (negb (length (materials (tri_model ms)) =? 0)%nat) with true by (destruct ms; [congruence|reflexivity]).
  rewrite assert_true. cbn [tri_model cells length loop]. unfold import_cell at 1. unfold tri_R. rewrite tri_subset. cbn [bind andb].
  destruct (cell_set_increment 0 ltac:(lia)) as (nm & En). rewrite <- cell_set_0 in En. rewrite En. cbn [bind].
  cbn [tri_sub etypes snames]. replace (mt_of _) with MT_Tri by reflexivity. rewrite assert_true. unfold rd at 1. cbn [nth_error bind tri_model cells materials xy_extents mesh_id length repeat].
  rewrite (tri_mark checks ms z Hf). cbn [bind negb existsb]. replace (-1 =? to_int8 z)%Z with false by (symmetry; apply Z.eqb_neq; congruence). cbn [orb kind_of].
  rewrite put_cell_ok by (cbn; lia). cbn [bind].
  rewrite tri_from. cbn [bind]. rewrite tri_box. cbn [bind bmin bmax]. unfold rd. cbn [nth_error bind].
  rewrite put_cell_ok by (cbn; lia). cbn [bind].
  replace (Mpact_Model.isApprox _ _) with true by (symmetry; apply near_ok; unfold near, eps; cbn [fst snd]; lra). rewrite assert_true. cbn [bind snd fst].
  reflexivity.
Qed.

(** with more than 128 materials the id of one is negative *)
Definition many : list material := repeat (mkMaterial "A" true) 128 ++ [mkMaterial "B" true].
Lemma many_refuted : exists m s a m', stores s a /\ content_ok a /\ ids_ok a /\ Soup_Spec.ascending (a_elsets a) /\ planar a /\ ids_valid m /\ materials m <> [] /\
  importCoarseCellMeshes isort_poly (fun x => Ret x) (0, 0) true true m s = Ret m' /\ ~ ids_valid m'.
Proof.
  exists (tri_model many), tri_R, tri_a, (tri_result many (-128)%Z).
  destruct (@tri_content_ok (R * R * R) R o3 x3 y3) as (H1 & H2 & H3). split; [apply tri_stores|]. split; [exact H1|]. split; [exact H2|]. split; [exact H3|]. split; [exact tri_planar|].
  split; [|split; [discriminate|split]].
  - constructor; cbn; try (now intros ? []); [constructor|]. intros c [<-|[]]. split; [cbn; lra|]. split; [cbn; lra|]. now left.
  - replace (-128)%Z with (to_int8 128) by reflexivity. apply tri_import; [discriminate|reflexivity|discriminate].
  - intros [_ _ _ _ V]. destruct (V _ (or_introl eq_refl)) as (_ & _ & [K|(x & _ & _ & F)]); [discriminate|].
    cbn in F. apply Forall_inv in F. unfold exists_in in F. lia.
Qed.
(** if errors do not end the program a cell without a set loses its mesh but keeps the id *)
Definition had_mesh : model :=
  mkModel ([[]; []], []) [] [] [] [mkCell (1, 1) MT_Tri 0 [0%Z]] [mkMaterial "B" true] [tri_mesh 0 0] [] [] [].
Lemma failed_refuted : exists m s a m', stores s a /\ content_ok a /\ ids_ok a /\ Soup_Spec.ascending (a_elsets a) /\ planar a /\
  (Z.of_nat (length (cells m)) < 100000)%Z /\ (Z.of_nat (length (materials m)) <= 128)%Z /\ materials m <> [] /\ ids_valid m /\
  importCoarseCellMeshes isort_poly (fun x => Ret x) (0, 0) false false m s = Ret m' /\ ~ ids_valid m'.
Proof.
  exists had_mesh, empty_soup, a_empty, (mkModel ([[]; []], []) [] [] [] [mkCell (1, 1) MT_Invalid 0 []] [mkMaterial "B" true] [tri_mesh 0 0] [] [] []).
  split; [repeat split|]. split; [repeat constructor|]. split; [split; cbn; tauto|]. split; [constructor|]. split; [split; cbn; tauto|].
  split; [cbn; lia|]. split; [cbn; lia|]. split; [discriminate|]. split; [|split].
  - constructor; cbn; try (now intros ? []); [constructor|]. intros c [<-|[]]. split; [cbn; lra|]. split; [cbn; lra|]. right. exists (tri_mesh 0 0).
    split; [split; [cbn; lia|reflexivity]|]. split; [reflexivity|]. repeat constructor; unfold exists_in; cbn; lia.
  - unfold importCoarseCellMeshes. cbn [Mpact_Model.assert andb had_mesh cells length loop]. unfold import_cell at 1.
    rewrite (Soup_Subset_Proofs.getSubset_unknown isort_poly empty_soup empty_soup a_empty) by (repeat split || tauto). cbn [bind andb].
    destruct (cell_set_increment 0 ltac:(lia)) as (nm & En). rewrite <- cell_set_0 in En. rewrite En. reflexivity.
  - intros [_ _ _ _ V]. destruct (V _ (or_introl eq_refl)) as (_ & _ & [K|(x & K & _)]); [discriminate|destruct K].
Qed.
