From Coq Require Import String.
From Coq Require Import List Arith ZArith Bool Reals Lra Lia Permutation.
From Verif Require Import Base Loops Arith Fill Box_Proofs Sort_Spec Soup_Spec Soup_Final_Proofs Fvm_Model PinRect_Model PinCyl_Model Grid_Model Grid_Spec Grid_Proofs Mpact_Model Mpact_Spec Mpact_Proofs Mpact_Steps_Proofs Mpact_Accept_Proofs Mpact_Layout_Proofs CApi_Model CApi_Spec CApi_Proofs CApi_More_Proofs.
Import ListNotations.
Local Open Scope list_scope.
Local Open Scope R_scope.

(** three layers, each less than the tolerance higher than the one below; the ids descend *)
Definition h0 : R := 33326 / 100000 + 1 / 300000.
Definition zs : list R := [-1 / 2; -1 / 2 + h0; -1 / 2 + h0 + (h0 + 7 / 100000); 1 / 2].
Definition stack_ops (z : list R) : list op := [AddCoarseGrid 1 1 1 1; AddLattice [[0%Z]]; AddLattice [[0%Z]]; AddAssembly [2; 1; 0]%Z z].
Definition cyclic_ops : list op := stack_ops zs.
Definition lat11 : list axis * list Z := (lattice_grid 1 1 1 1, [0%Z]).
Definition stack (z : list R) : model :=
  mkModel ([[0; 1]; [0; 1]], [0%Z]) [([[-1 / 2; 1 / 2]], [0%Z]); ([z], [2; 1; 0]%Z)] [lat11; lat11; lat11]
    [([[0; 1]; [0; 1]], [0%Z])] [mkCell (1, 1) MT_Invalid (-1) []] [] [] [] [] [].
Definition cyclic : model := stack zs.

Lemma coarse11 : coarse_model empty_model 1 1 1 1 =
  mkModel ([[0; 1]; [0; 1]], [0%Z]) [([[-1 / 2; 1 / 2]], [0%Z])] [lat11] [([[0; 1]; [0; 1]], [0%Z])] [mkCell (1, 1) MT_Invalid (-1) []] [] [] [] [] [].
Proof.
  unfold coarse_model, lat11. change (Z.of_nat 1) with 1%Z. cbn [INR Nat.mul Nat.add seq map empty_model materials tris quads tri6s quad8s].
  replace (1 / 1) with 1 by field. reflexivity.
Qed.
Section Run.
Context (stdsort : forall A : Type, (A -> A -> bool) -> list A -> list A) (selfcheck : mesh R -> outcome (mesh R)) (at_origin : mesh R -> bool).
Context (checks exit_on_error : bool).
Lemma add_lattice m ls : m = mkModel ([[0; 1]; [0; 1]], [0%Z]) [([[-1 / 2; 1 / 2]], [0%Z])] ls [([[0; 1]; [0; 1]], [0%Z])] [mkCell (1, 1) MT_Invalid (-1) []] [] [] [] [] [] ->
  inv checks m -> addLattice checks exit_on_error m [[0%Z]] = Ret (push_lattice lat11 m, Z.of_nat (length ls)).
Proof.
  intros E HI. pose proof (addLattice_ok checks exit_on_error m [[0%Z]] 1 1 ([[0; 1]; [0; 1]], [0%Z]) 1 1 HI) as H. subst m. apply H.
  - repeat constructor; cbn; lia.
  - split; [reflexivity|]. repeat constructor.
  - lia.
  - lia.
  - vm_compute. congruence.
  - reflexivity.
  - exists [0; 1], [0; 1], 0, 1, 0, 1. repeat split; lra.
Qed.
Lemma stack_run z : length z = 4%nat -> nondecreasing z -> first_last z (-1 / 2) (1 / 2) ->
  run stdsort selfcheck at_origin checks exit_on_error empty_model (stack_ops z) = Ret (stack z).
Proof.
  intros Lz Nz Fz.
  assert (H1 : step stdsort selfcheck at_origin checks exit_on_error empty_model (AddCoarseGrid 1 1 1 1) = Ret (coarse_model empty_model 1 1 1 1, 0%Z)).
  { cbn [step]. apply (coarse_ok checks exit_on_error empty_model 1 1 1 1); auto; try lia; try (cbn; unfold eps; lra); [apply inv_empty|vm_compute; congruence]. }
  rewrite coarse11 in H1. set (m1 := mkModel _ _ _ _ _ _ _ _ _ _) in H1.
  assert (I1 : inv checks m1). { apply (history stdsort selfcheck at_origin checks exit_on_error [AddCoarseGrid 1 1 1 1]). cbn [run]. rewrite H1. reflexivity. }
  pose proof (add_lattice m1 _ eq_refl I1) as H2. set (m2 := push_lattice lat11 m1) in H2.
  assert (I2 : inv checks m2).
  { apply (history stdsort selfcheck at_origin checks exit_on_error [AddCoarseGrid 1 1 1 1; AddLattice [[0%Z]]]). cbn [run]. rewrite H1. cbn [bind fst step]. rewrite H2. reflexivity. }
  pose proof (add_lattice m2 _ eq_refl I2) as H3. set (m3 := push_lattice lat11 m2) in H3.
  assert (I3 : inv checks m3).
  { apply (history stdsort selfcheck at_origin checks exit_on_error [AddCoarseGrid 1 1 1 1; AddLattice [[0%Z]]; AddLattice [[0%Z]]]). cbn [run]. rewrite H1. cbn [bind fst step].
    rewrite H2. cbn [bind fst step]. rewrite H3. reflexivity. }
  assert (H4 : addAssembly checks exit_on_error m3 [2; 1; 0]%Z z = Ret (push_assembly ([z], [2; 1; 0]%Z) m3, 1%Z)).
  { destruct (addAssembly_ok checks exit_on_error m3 [2; 1; 0]%Z z I3) as [H _]; [discriminate|vm_compute; congruence|]. apply H.
    split; [repeat constructor; cbn; lia|]. split; [exact Lz|]. split; [exact Nz|].
    exists (-1 / 2), (1 / 2). split; [exact Fz|]. split; [right; split; (rewrite Rabs_pos_eq; [unfold eps; lra|lra])|]. split.
    - cbn. intros a0 z0 b0 t0 [= <-] [= <-] [[= <-] [= <-]]. split; (rewrite Rabs_pos_eq; [unfold eps; lra|lra]).
    - intros i j l l' _ _ [_ Hl] [_ Hl']. cbn in Hl, Hl'. assert (L : forall n x, nth_error [lat11; lat11; lat11] n = Some x -> x = lat11).
      { intros [|[|[|n]]] x Hx; cbn in Hx; try (now injection Hx); destruct n; discriminate. }
      now rewrite (L _ _ Hl), (L _ _ Hl'). }
  unfold stack_ops. cbn [run]. rewrite H1. cbn [bind fst step]. rewrite H2. cbn [bind fst step]. rewrite H3. cbn [bind fst step]. rewrite H4. reflexivity.
Qed.
Lemma cyclic_run : run stdsort selfcheck at_origin checks exit_on_error empty_model cyclic_ops = Ret cyclic.
Proof.
  apply stack_run; [reflexivity| |split; reflexivity]. intros i j a b Hij Ha Hb. unfold zs, h0 in *.
  destruct i as [|[|[|[|i]]]]; cbn in Ha; try (destruct i; discriminate); injection Ha as <-;
  destruct j as [|[|[|[|j]]]]; cbn in Hb; try lia; try (destruct j; discriminate); injection Hb as <-; lra.
Qed.
End Run.

Lemma cyclic_occurs id h : lattice_occurs cyclic id h ->
  (id = 2%Z /\ h = h0) \/ (id = 1%Z /\ h = h0 + 7 / 100000) \/ (id = 0%Z /\ (h = h0 + 14 / 100000 \/ h = 1)).
Proof.
  intros (a & z & i & lo & hi & Ha & Hz & Hi & H1 & H2 & ->). cbn in Ha. destruct Ha as [<-|[<-|[]]]; cbn in Hz; injection Hz as <-; cbn [snd] in Hi.
  - destruct i as [|[|i]]; cbn in Hi, H1, H2; try discriminate; try (destruct i; discriminate). injection Hi as <-. injection H1 as <-. injection H2 as <-.
    right. right. split; auto. right. lra.
  - unfold zs, h0 in *. destruct i as [|[|[|i]]]; cbn in Hi, H1, H2; try (destruct i; discriminate); injection Hi as <-; injection H1 as <-; injection H2 as <-.
    + left. split; auto. lra.
    + right. left. split; auto. lra.
    + right. right. split; auto. left. lra.
Qed.
Lemma cyclic_2 : lattice_occurs cyclic 2 h0.
Proof. exists ([zs], [2; 1; 0]%Z), zs, 0%nat, (-1 / 2), (-1 / 2 + h0). repeat split; cbn; auto. lra. Qed.
Lemma cyclic_1 : lattice_occurs cyclic 1 (h0 + 7 / 100000).
Proof. exists ([zs], [2; 1; 0]%Z), zs, 1%nat, (-1 / 2 + h0), (-1 / 2 + h0 + (h0 + 7 / 100000)). repeat split; cbn; auto. lra. Qed.
Lemma cyclic_0 : lattice_occurs cyclic 0 (h0 + 14 / 100000).
Proof. exists ([zs], [2; 1; 0]%Z), zs, 2%nat, (-1 / 2 + h0 + (h0 + 7 / 100000)), (1 / 2). repeat split; cbn; auto. unfold h0. lra. Qed.

(** no order of the three is consistent *)
Theorem cyclic_no_order ids hs : lists (lattice_occurs cyclic) ids hs -> ~ ordered ids hs.
Proof.
  intros (_ & A & B & _) O.
  destruct (B _ _ cyclic_2) as (i2 & x2 & I2 & C2). destruct (B _ _ cyclic_1) as (i1 & x1 & I1 & C1). destruct (B _ _ cyclic_0) as (i0 & x0 & I0 & C0).
  assert (E2 : x2 = h0). { destruct (cyclic_occurs _ _ (A _ _ _ I2)) as [[_ ->]|[[? _]|[? _]]]; auto; discriminate. }
  assert (E1 : x1 = h0 + 7 / 100000). { destruct (cyclic_occurs _ _ (A _ _ _ I1)) as [[? _]|[[_ ->]|[? _]]]; auto; discriminate. }
  assert (E0 : x0 = h0 + 14 / 100000).
  { destruct (cyclic_occurs _ _ (A _ _ _ I0)) as [[? _]|[[? _]|[_ [->| ->]]]]; auto; try discriminate. apply near_bound in C0. unfold h0 in C0. lra. }
  subst x2 x1 x0.
  assert (K : forall a b, - (1 / 10000) < a - b < 1 / 10000 -> close a b) by (intros a b H; unfold close; apply Rabs_def1; lra).
  assert (N1 : (i1 < i2)%nat).
  { destruct (lt_eq_lt_dec i1 i2) as [[L|E]|L]; auto; exfalso.
    - subst. destruct I1, I2. congruence.
    - destruct (O _ _ _ _ _ _ L I2 I1) as [H _]. enough (2 < 1)%Z by lia. apply H, K. lra. }
  assert (N0 : (i0 < i1)%nat).
  { destruct (lt_eq_lt_dec i0 i1) as [[L|E]|L]; auto; exfalso.
    - subst. destruct I0, I1. congruence.
    - destruct (O _ _ _ _ _ _ L I1 I0) as [H _]. enough (1 < 0)%Z by lia. apply H, K. lra. }
  destruct (O i0 i2 _ _ _ _ ltac:(lia) I0 I2) as [_ H]. enough (h0 + 14 / 100000 < h0) by lra. apply H. intros C. apply near_bound in C. lra.
Qed.
Theorem cyclic_ub stdsort : um2MPACTLatticeHeights stdsort cyclic = Ub.
Proof.
  assert (HI : inv true cyclic) by (apply (history isort_poly (fun m => Ret m) (fun _ => true) true true cyclic_ops), cyclic_run).
  destruct HI as [HV HC]. unfold um2MPACTLatticeHeights. rewrite (lattice_pairs_ok true cyclic HV HC). unfold output, sort. cbn [bind].
  destruct (swo cmp (collect_pairs (lats cyclic))) eqn:B; [|reflexivity]. exfalso.
  assert (E : exists n ids hs, um2MPACTLatticeHeights isort_poly cyclic = Ret (n, ids, hs)).
  { unfold um2MPACTLatticeHeights. rewrite (lattice_pairs_ok true cyclic HV HC). unfold output, sort. cbn [bind]. rewrite B. do 3 eexists. reflexivity. }
  destruct E as (n & ids & hs & E). destruct (proj1 (heights_returned isort_poly isort_poly_contract true cyclic HV HC n ids hs) E) as (_ & L & O).
  exact (cyclic_no_order ids hs L O).
Qed.
