(** C83: where overlayCoarseGrid puts the coarse cells of an MPACT model. *)
From Coq Require Import List Arith ZArith Reals Lra Lia.
From Verif Require Import Base Loops Grid_Model Grid_Spec Mpact_Model Mpact_Spec Coarse_Model Coarse_Spec Coarse_Proofs.
Import ListNotations.
Local Open Scope R_scope.

(** Each coarse cell gets the place of its first occurrence in the core, with the assemblies taken row
    by row from the bottom, their layers upwards, and the RTMs and cells row by row: the corners of
    the assembly, of the RTM in it and of the cell in that add up; the height is that of the middle of
    the layer.  A cell that does not occur gets none. *)
Theorem C83_places : forall m, ids_valid m -> consistent true m -> countable m ->
  (forall l, In l (lattices m) -> snd l <> []) -> snd (core m) <> [] ->
  find_cells m = Ret (map (fun c => first_of (Z.of_nat c) (in_core m)) (seq 0 (length (cells m)))).
Proof. exact find_ok. Qed.
Print Assumptions C83_places.

(** That is: a place is one where the cell occurs, and a cell that occurs has one. *)
Theorem C83_occurs : forall m, ids_valid m -> consistent true m -> countable m ->
  (forall l, In l (lattices m) -> snd l <> []) -> snd (core m) <> [] ->
  exists ps, find_cells m = Ret ps /\ length ps = length (cells m) /\
    (forall c p, nth_error ps c = Some (Some p) -> In (Z.of_nat c, p) (in_core m)) /\
    (forall c p, In (Z.of_nat c, p) (in_core m) -> exists p', nth_error ps c = Some (Some p')).
Proof. exact find_occurs. Qed.
Print Assumptions C83_occurs.

(** A core without assemblies is reported. *)
Theorem C83_no_core : forall m, snd (core m) = [] -> find_cells m = Fail.
Proof. exact no_core. Qed.
Print Assumptions C83_no_core.

(** * A core of two assemblies with two layers of the same lattice: two RTMs on top of each other, of one
    narrow and one wide cell.  A third cell is not used. *)
Definition ex_model : model := mkModel
  ([[0; 3; 6]; [0; 2]], [0; 0]%Z)
  [([[0; 4; 6]], [0; 0]%Z)]
  [(lattice_grid 3 1 1 2, [0; 0]%Z)]
  [([[0; 1; 3]; [0; 1]], [1; 0]%Z)]
  [mkCell (2, 1) MT_Invalid (-1) []; mkCell (1, 1) MT_Invalid (-1) []; mkCell (1, 1) MT_Invalid (-1) []]
  [] [] [] [] [].
Ltac asc_list := intros [|[|[|i]]] [|[|[|j]]] a b Hij Ha Hb; cbn in Ha, Hb; try lia; try discriminate;
  try (destruct i; discriminate); try (destruct j; discriminate); injection Ha as <-; injection Hb as <-; lra.
Lemma ex_valid : ids_valid ex_model.
Proof.
  constructor; cbn.
  - repeat constructor; cbn; lia.
  - intros a [<-|[]]. repeat constructor; cbn; lia.
  - intros a [<-|[]]. repeat constructor; cbn; lia.
  - intros a [<-|[]]. repeat constructor; cbn; lia.
  - intros c Hc. repeat destruct Hc as [<-|Hc]; try (split; [cbn; lra|]; split; [cbn; lra|left; reflexivity]). destruct Hc.
Qed.
Lemma ex_consistent : consistent true ex_model.
Proof.
  constructor; cbn [ex_model core assemblies lattices rtms].
  - intros r0 r E [<-|[]]. cbn in E. injection E as <-. exists 3, 1, 3, 1.
    assert (X : extent (fst ([[0; 1; 3]; [0; 1]], [1%Z; 0%Z])) 3 1).
    { exists [0; 1; 3], [0; 1], 0, 3, 0, 1. repeat split; cbn; lra. }
    split; [exact X|]. split; [exact X|]. unfold near, eps. lra.
  - intros l [<-|[]]. exists ([[0; 1; 3]; [0; 1]], [1; 0]%Z), 3, 1, 1%Z, 2%Z. split; [reflexivity|].
    split. { exists [0; 1; 3], [0; 1], 0, 3, 0, 1. repeat split; cbn; lra. }
    split; [reflexivity|]. cbn. lia.
  - intros a [<-|[]]. exists [0; 4; 6], 0, 6. split; [reflexivity|]. split; [discriminate|]. split; [reflexivity|].
    split; [asc_list|]. split; [split; reflexivity|]. split.
    + intros a0 z0 E E2 b t (E3 & E4). cbn in E. injection E as <-. injection E2 as <-. cbn in E3, E4. injection E3 as <-. injection E4 as <-.
      rewrite !Rminus_eq_0, Rabs_R0. unfold eps. lra.
    + intros i j l l' Hi Hj (_ & H1) (_ & H2). cbn in Hi, Hj.
      assert (i = 0%Z) by intuition. assert (j = 0%Z) by intuition. subst. cbn in H1, H2. congruence.
  - intros _ r [<-|[]]. exists [0; 1; 3], [0; 1]. repeat split; cbn; try lia; asc_list.
  - intros _ _. exists [0; 3; 6], [0; 2]. repeat split; cbn; try lia; asc_list.
Qed.
Lemma ex_countable : countable ex_model.
Proof. split; [cbn; lia|]. split; intros x [<-|[]]; cbn; lia. Qed.
Example C83_places_ex : exists p0 p1, find_cells ex_model = Ret [Some p0; Some p1; None] /\
  (l_x p0, l_y p0, l_z p0) = (1, 0, 2) /\ (e_x p0, e_y p0, e_z p0) = (2, 1, 2) /\
  (l_x p1, l_y p1, l_z p1) = (0, 0, 2) /\ (e_x p1, e_y p1, e_z p1) = (1, 1, 2).
Proof.
  rewrite (C83_places ex_model ex_valid ex_consistent ex_countable).
  - cbn -[Rplus Rmult Rdiv Rminus INR]. do 2 eexists. split; [reflexivity|]. cbn -[Rplus Rmult Rdiv Rminus INR].
    change (INR 0) with 0. repeat split; repeat f_equal; lra.
  - intros l [<-|[]]. discriminate.
  - discriminate.
Qed.
