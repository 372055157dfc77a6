(** The vertex-face connectivity is never stale. *)
From Coq Require Import List Arith ZArith Lia Bool.
From Verif Require Import Base Loops Sort_Model Soup_Model Fvm_Model Fvm_Spec Fvm_Proofs.
Import ListNotations.

Section History.
Context {F : Type}.
Definition vf_inv (m : mesh F) : Prop :=
  has_vf m = true -> is_incidence (length (mv m)) (fv m) (vf_offs m) (vf m).

Lemma ids_dec (n : nat) (fs : list (list Z)) :
  (forall c v, In c fs -> In v c -> (0 <= v < Z.of_nat n)%Z) \/
  exists c v, In c fs /\ In v c /\ ~ (0 <= v < Z.of_nat n)%Z.
Proof.
  induction fs as [|c fs [IH|(c' & v & H1 & H2 & H3)]]; [left; intros c v []| |right; exists c', v; cbn; auto].
  assert (D : (forall v, In v c -> (0 <= v < Z.of_nat n)%Z) \/ exists v, In v c /\ ~ (0 <= v < Z.of_nat n)%Z).
  { clear. induction c as [|v c [IH|(w & H1 & H2)]]; [left; intros v []| |right; exists w; cbn; auto].
    destruct (Z_lt_dec v 0) as [?|?]; [right; exists v; cbn; split; [auto|lia]|].
    destruct (Z_lt_dec v (Z.of_nat n)) as [?|?]; [|right; exists v; cbn; split; [auto|lia]].
    left. intros w [<-|Hw]; [lia|auto]. }
  destruct D as [D|(v & H1 & H2)].
  - left. intros c' v [<-|Hc]; eauto.
  - right. exists c, v. cbn. auto.
Qed.

Lemma populateVF_inv (m m' : mesh F) : populateVF m = Ret m' -> vf_inv m'.
Proof.
  intros H. destruct (ids_dec (length (mv m)) (fv m)) as [D|(c & v & H1 & H2 & H3)].
  - destruct (populateVF_ok m D) as (offs & f & E & Hi). rewrite E in H. injection H as <-.
    intros _. exact Hi.
  - rewrite (populateVF_bad m c v) in H by assumption. discriminate.
Qed.

Lemma run_op_inv stdsort vcode fcode k m o m' :
  vf_inv m -> run_op stdsort vcode fcode k m o = Ret m' -> vf_inv m'.
Proof.
  intros Hm H. destruct o; cbn [run_op] in H.
  - injection H as <-. discriminate.
  - injection H as <-. discriminate.
  - unfold flipFace in H. repeat match type of H with
      | context [bind ?x _] => destruct x; cbn [bind] in H; try discriminate end.
    injection H as <-. discriminate.
  - eapply populateVF_inv; eauto.
  - unfold mortonSortVertices in H. repeat match type of H with
      | context [bind ?x _] => destruct x; cbn [bind] in H; try discriminate end.
    injection H as <-. discriminate.
  - unfold mortonSortFaces in H. repeat match type of H with
      | context [bind ?x _] => destruct x; cbn [bind] in H; try discriminate end.
    injection H as <-. discriminate.
  - unfold mortonSort in H.
    destruct (mortonSortVertices stdsort vcode m) as [m1| | |]; cbn [bind] in H; try discriminate.
    destruct (mortonSortFaces stdsort fcode m1) as [m2| | |] eqn:E2; cbn [bind] in H; try discriminate.
    destruct (has_vf m); [eapply populateVF_inv; eauto|].
    injection H as <-. unfold vf_inv. cbn.
    unfold mortonSortFaces in E2. repeat match type of E2 with
      | context [bind ?x _] => destruct x; cbn [bind] in E2; try discriminate end.
    injection E2 as <-. discriminate.
Qed.

Lemma run_ops_inv stdsort vcode fcode k os : forall m m', vf_inv m ->
  run_ops stdsort vcode fcode k m os = Ret m' -> vf_inv m'.
Proof.
  induction os as [|o os IH]; intros m m' Hm H; cbn [run_ops] in H; [now injection H as <-|].
  destruct (run_op stdsort vcode fcode k m o) as [m1| | |] eqn:E; cbn [bind] in H; try discriminate.
  eapply IH; [|exact H]. eapply run_op_inv; eauto.
Qed.
End History.
