From Coq Require Import List Arith ZArith Lia Bool.
From Verif Require Import Base Elem_Model Elem_Spec.
Import ListNotations.
Local Open Scope Z_scope.

Lemma vtk_eqb_eq a b : vtk_eqb a b = true <-> a = b.
Proof. split; [|intros ->; destruct b; reflexivity]. destruct a, b; cbn; congruence. Qed.
Lemma vtk_dec (a b : vtk) : {a = b} + {a <> b}.
Proof. decide equality. Qed.

Lemma xdmf_of_vtk t : supported t -> xdmfToVTKElemType (xdmf_code (vtkToXDMFElemType t)) = t.
Proof. intros _. destruct t; reflexivity. Qed.
Lemma vtk_of_xdmf x : xdmfToVTKElemType x <> V_Invalid ->
  xdmf_code (vtkToXDMFElemType (xdmfToVTKElemType x)) = x.
Proof.
  unfold xdmfToVTKElemType.
  repeat match goal with |- context [?a =? ?b] => destruct (Z.eqb_spec a b) as [->|]; [reflexivity|] end.
  congruence.
Qed.
Lemma xdmf_supported x : xdmfToVTKElemType x <> V_Invalid <->
  exists t, supported t /\ xdmf_code (vtkToXDMFElemType t) = x.
Proof.
  split.
  - intros H. exists (xdmfToVTKElemType x). split; auto. now apply vtk_of_xdmf.
  - intros (t & H & <-). now rewrite xdmf_of_vtk.
Qed.
Lemma codes_inj a b : vtk_code a = vtk_code b -> a = b.
Proof. intros H. apply vtk_eqb_eq. unfold vtk_eqb. rewrite H. apply Z.eqb_refl. Qed.
Lemma xcodes_inj a b : xdmf_code a = xdmf_code b -> a = b.
Proof. destruct a, b; cbn; congruence. Qed.

Lemma vertices_ok t : supported t ->
  (quadratic t -> verticesPerElem t = corners t + edges t) /\
  (~ quadratic t -> verticesPerElem t = corners t).
Proof.
  unfold supported, quadratic. intros H. split; intros Hq; destruct t; cbn; auto; try congruence;
    try (now destruct Hq as [|[|]]); elim Hq; auto.
Qed.

Lemma infer_ok t : supported t -> t <> V_QuadraticEdge -> inferVTKElemType (verticesPerElem t) = t.
Proof. destruct t; cbn; intros; congruence. Qed.
Lemma infer_inv n t : inferVTKElemType n = t -> supported t -> verticesPerElem t = n.
Proof.
  intros <-. unfold inferVTKElemType.
  repeat match goal with |- context [?a =? ?b] => destruct (Z.eqb_spec a b) as [->|]; [reflexivity|] end.
  intros H. now elim H.
Qed.
Lemma infer_edge_refuted : exists t, supported t /\ inferVTKElemType (verticesPerElem t) <> t.
Proof. exists V_QuadraticEdge. cbn. split; unfold supported; congruence. Qed.

Lemma loop_ok ts : forall acc, NoDup acc ->
  NoDup (elemTypes_loop ts acc) /\ forall t, In t (elemTypes_loop ts acc) <-> In t acc \/ In t ts.
Proof.
  induction ts as [|x ts IH]; intros acc Ha; cbn [elemTypes_loop].
  - split; auto. intros t. cbn. tauto.
  - destruct (existsb (vtk_eqb x) acc) eqn:E.
    + apply existsb_exists in E. destruct E as (y & Hy & E). apply vtk_eqb_eq in E. subst y.
      destruct (IH acc Ha) as (H1 & H2). split; auto. intros t. rewrite H2. cbn.
      split; [tauto|]. intros [|[<-|]]; auto.
    + assert (Hx : ~ In x acc).
      { intros Hx. assert (existsb (vtk_eqb x) acc = true).
        { apply existsb_exists. exists x. split; auto. now apply vtk_eqb_eq. }
        congruence. }
      destruct (IH (acc ++ [x])) as (H1 & H2).
      { apply (NoDup_Add (Add_app x acc [])). rewrite app_nil_r. auto. }
      split; auto. intros t. rewrite H2, in_app_iff. cbn. tauto.
Qed.
Lemma getElemTypes_ok ts :
  NoDup (getElemTypes ts) /\ forall t, In t (getElemTypes ts) <-> In t ts.
Proof.
  destruct (loop_ok ts [] (NoDup_nil _)) as (H1 & H2). split; auto.
  intros t. rewrite (H2 t). cbn. tauto.
Qed.

(** a duplicate-free list that has exactly the elements of [P] *)
Lemma only_1 l a : NoDup l -> only l [a] -> l = [a].
Proof.
  intros Hn H. destruct l as [|x [|y l]].
  - exfalso. apply (H a). now left.
  - assert (In x [a]) as [<-|[]] by (apply H; now left). auto.
  - assert (In x [a]) as [<-|[]] by (apply H; now left).
    assert (In y [a]) as [<-|[]] by (apply H; right; now left).
    inversion Hn as [|? ? Hx]; subst. exfalso. apply Hx. now left.
Qed.
Lemma only_2 l a b : NoDup l -> a <> b -> only l [a; b] -> l = [a; b] \/ l = [b; a].
Proof.
  intros Hn Hab H.
  assert (Ha : In a l) by (apply H; now left).
  assert (Hb : In b l) by (apply H; right; now left).
  assert (Hl : (length l <= 2)%nat) by (apply (NoDup_incl_length (l' := [a; b]) Hn); intros t; apply H).
  destruct l as [|x [|y [|z l]]]; cbn in Hl; try lia.
  - destruct Ha.
  - destruct Ha as [->|[]]. destruct Hb as [->|[]]. congruence.
  - assert (Hx : In x [a; b]) by (apply H; now left).
    assert (Hy : In y [a; b]) by (apply H; right; now left).
    inversion Hn as [|? ? Hxy]; subst.
    destruct Hx as [<-|[<-|[]]], Hy as [<-|[<-|[]]]; auto; exfalso; apply Hxy; now left.
Qed.

Lemma only_self ts l : (forall t, In t l <-> In t ts) -> only ts l.
Proof. intros H t. symmetry. apply H. Qed.

(** getMeshType reports a valid type exactly for the six sets of element types *)
Lemma getMeshType_list l m : NoDup l ->
  (getMeshType l = m /\ m <> M_Invalid <-> mesh_of_set l m).
Proof.
  intros Hn. split.
  - intros (E & Hm). destruct l as [|a [|b [|c l]]]; cbn in E; try congruence.
    + destruct a; subst m; try congruence; intros t; cbn; tauto.
    + destruct a, b; cbn in E; subst m; try congruence; intros t; cbn; tauto.
  - destruct m; cbn [mesh_of_set]; intros H; try easy.
    1,2,4,5: apply only_1 in H; auto; subst l; split; [reflexivity|congruence].
    all: apply only_2 in H; auto; try congruence; destruct H as [->| ->]; split; (reflexivity || congruence).
Qed.

Lemma meshType_ok ts m : getMeshType (getElemTypes ts) = m /\ m <> M_Invalid <-> mesh_of_set ts m.
Proof.
  destruct (getElemTypes_ok ts) as (H1 & H2).
  rewrite (getMeshType_list _ m H1).
  assert (Ho : forall P, only (getElemTypes ts) P <-> only ts P).
  { intros P. unfold only. split; intros H t; [rewrite <- H, H2|rewrite H2, H]; tauto. }
  destruct m; cbn [mesh_of_set]; rewrite ?Ho; tauto.
Qed.
Lemma meshType_perm l l' : NoDup l -> NoDup l' -> (forall t, In t l <-> In t l') ->
  getMeshType l = getMeshType l'.
Proof.
  intros H1 H2 H.
  assert (Ho : forall m, mesh_of_set l m <-> mesh_of_set l' m).
  { assert (Ho : forall P, only l P <-> only l' P) by
      (intros P; unfold only; split; intros HP t; rewrite <- HP, H; tauto).
    destruct m; cbn [mesh_of_set]; rewrite ?Ho; tauto. }
  destruct (getMeshType l) eqn:E.
  1:{ destruct (getMeshType l') eqn:E'; auto;
      destruct (proj2 (getMeshType_list l (getMeshType l') H1)) as (Hc & _);
      try (apply Ho; apply (getMeshType_list l' _ H2); split; [reflexivity|congruence]); congruence. }
  all: destruct (proj2 (getMeshType_list l' (getMeshType l) H2)) as (Hc & _);
    [apply Ho; apply (getMeshType_list l _ H1); split; [reflexivity|congruence] | congruence].
Qed.
