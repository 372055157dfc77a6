(** A small model that can be written to an XDMF file. *)
From Coq Require Import String.
From Verif Require Grid_Proofs.
From Coq Require Import List Arith ZArith Bool Reals Lra Lia Sorting.Permutation.
From Verif Require Import Base Loops Arith Box_Proofs Poly_Spec TextIo_Model Elem_Model Seg_Spec Seg_Proofs Soup_Spec XSec_Model XSec_Spec PinCyl_Model Grid_Model Grid_Spec Fvm_Model Fvm_Spec Manifold_Spec Xdmf_Model Xdmf_Spec
  Mpact_Model Mpact_Spec Mpact_Proofs Mpact_Steps_Proofs Export_Spec Import_Model Import_Spec ModelIo_Model ModelIo_Spec ModelIo_More_Proofs ModelIo_Proofs.
Import ListNotations.
Local Open Scope list_scope.
Local Open Scope R_scope.

(** a unit square *)
Definition square : mesh R := mkMesh false false [(0, 0); (1, 0); (1, 1); (0, 1)] [[0; 1; 2; 3]%Z] [] [].
(** two assemblies side by side; each is one lattice, or two equal ones on top of each other; each lattice is one RTM of two squares *)
Definition small_of (mats : list material) (id : Z) (two : bool) : model :=
  mkModel ([[0; 2; 4]; [0; 1]], [0; 0]%Z)
    [if two then ([[0; 1 / 8; 1 / 4]], [0; 1]%Z) else ([[0; 1 / 4]], [0]%Z)]
    (([mkAxis 0 2 1; mkAxis 0 1 1], [0]%Z) :: if two then [([mkAxis 0 2 1; mkAxis 0 1 1], [0]%Z)] else [])
    [([[0; 1; 2]; [0; 1]], [0; 0]%Z)]
    [mkCell (1, 1) MT_Quad 0 [id]] mats [] [square] [] [].
Definition small : bool -> model := small_of [mkMaterial "Water" true; mkMaterial "UO2 fuel" true] 1.
Lemma small_place selfcheck o : validation selfcheck Quad (at_place o square) (at_place o square).
Proof.
  apply place_free; [reflexivity|]. exists [[0; 1; 2; 3]%Z]. split; [reflexivity|]. split; [|split; [|reflexivity]].
  - intros [|[|i]] c H; try discriminate. injection H as <-. exists [(0 + 0, 0 + 0); (1 + 0, 0 + 0); (1 + 0, 1 + 0); (0 + 0, 1 + 0)]. split; [reflexivity|]. left. split; [|reflexivity].
    cbn [anticlockwise]. unfold orient. cbn [fst snd]. pose proof Grid_Proofs.eps_pos. lra.
  - split.
    + cbn. intros e H. repeat (destruct H as [<-|H]; [vm_compute; lia|]). destruct H.
    + exists [[0; 1]; [1; 2]; [2; 3]; [3; 0]]%Z. split; [apply Permutation_refl|]. exists 0%Z, [1; 2; 3]%Z. split; [reflexivity|]. split; [reflexivity|].
      repeat constructor; cbn; lia.
Qed.
Lemma incr2 a b : a < b -> increasing [a; b].
Proof. intros H [|[|i]] [|[|j]] x y L; cbn; intros E1 E2; try lia; try (destruct j; discriminate); injection E1 as <-; injection E2 as <-; lra. Qed.
Lemma incr3 a b c : a < b -> b < c -> increasing [a; b; c].
Proof. intros H K [|[|[|i]]] [|[|[|j]]] x y L; cbn; intros E1 E2; try lia; try (destruct j; discriminate); injection E1 as <-; injection E2 as <-; lra. Qed.
Lemma occurs_le l id : (count_occ Z.eq_dec l id <= length l)%nat.
Proof. induction l as [|x l IH]; [auto|]. cbn [count_occ length]. destruct Z.eq_dec; lia. Qed.
Lemma small_of_ok selfcheck mats id two : exists_in mats id -> (id < 128)%Z -> can_be_written selfcheck (small_of mats id two).
Proof.
  intros Hid H128.
  pose proof Grid_Proofs.eps_pos as Ep. assert (Ex : extent [[0; 1; 2]; [0; 1]] 2 1) by (exists [0; 1; 2], [0; 1], 0, 2, 0, 1; repeat split; lra).
  assert (El : eps <= 1) by (unfold eps; lra).
  constructor.
  - constructor; cbn.
    + repeat constructor; unfold exists_in; cbn; lia.
    + intros a [<-|[]]. destruct two; cbn; repeat constructor; unfold exists_in; cbn; lia.
    + intros l [<-|Hl]; [|destruct two; [destruct Hl as [<-|[]]|destruct Hl]]; cbn; repeat constructor; unfold exists_in; cbn; lia.
    + intros r [<-|[]]. cbn. repeat constructor; unfold exists_in; cbn; lia.
    + intros c [<-|[]]. cbn. split; [cbn; lra|]. split; [cbn; lra|]. right. exists square. split; [split; [lia|reflexivity]|]. split; [reflexivity|]. constructor; [exact Hid|constructor].
  - constructor; cbn.
    + intros r0 r E [<-|[]]. injection E as <-. exists 2, 1, 2, 1. split; [exact Ex|]. split; [exact Ex|]. apply near_refl.
    + assert (G : exists r0 w0 h0 nx ny, Some ([[0; 1; 2]; [0; 1]], [0; 0]%Z) = Some r0 /\ extent (fst r0) w0 h0 /\ [mkAxis 0 2 1; mkAxis 0 1 1] = lattice_grid w0 h0 nx ny /\
        (0 <= nx)%Z /\ (0 < ny)%Z /\ Z.of_nat 1 = (nx * ny)%Z) by (exists ([[0; 1; 2]; [0; 1]], [0; 0]%Z), 2, 1, 1%Z, 1%Z; repeat split; auto; lia).
      intros l [<-|Hl]; [exact G|destruct two; [destruct Hl as [<-|[]]; exact G|destruct Hl]].
    + assert (S : forall i j l l', at_ (lattices (small_of mats id two)) i l -> at_ (lattices (small_of mats id two)) j l' -> map nc (fst l) = map nc (fst l')).
      { assert (X : forall i l, at_ (lattices (small_of mats id two)) i l -> map nc (fst l) = [1; 1]%Z).
        { intros i l (_ & H). apply nth_error_In in H. destruct two; cbn in H; repeat (destruct H as [<-|H]; [reflexivity|]); destruct H. }
        intros i j l l' H1 H2. rewrite (X i l H1), (X j l' H2). reflexivity. }
      intros a [<-|[]]. destruct two; cbn.
      * exists [0; 1 / 8; 1 / 4], 0, (1 / 4). split; [reflexivity|]. split; [discriminate|]. split; [reflexivity|]. split; [|split; [split; reflexivity|split]].
        -- intros i j x y L E1 E2. apply Rlt_le. revert i j x y L E1 E2. apply incr3; lra.
        -- intros a0 z0 H0 Hz b t (F1 & F2). injection H0 as <-. injection Hz as <-. injection F1 as <-. injection F2 as <-. rewrite !Rminus_diag_eq, Rabs_R0 by auto. lra.
        -- intros i j l l' _ _. apply S.
      * exists [0; 1 / 4], 0, (1 / 4). split; [reflexivity|]. split; [discriminate|]. split; [reflexivity|]. split; [|split; [split; reflexivity|split]].
        -- intros i j x y L E1 E2. apply Rlt_le. revert i j x y L E1 E2. apply incr2; lra.
        -- intros a0 z0 H0 Hz b t (F1 & F2). injection H0 as <-. injection Hz as <-. injection F1 as <-. injection F2 as <-. rewrite !Rminus_diag_eq, Rabs_R0 by auto. lra.
        -- intros i j l l' _ _. apply S.
    + intros _ r [<-|[]]. exists [0; 1; 2], [0; 1]. cbn. repeat split; try lia; [apply incr3; lra|apply incr2; lra].
    + intros _ _. exists [0; 2; 4], [0; 1]. cbn. repeat split; try lia; [apply incr3; lra|apply incr2; lra].
  - exists [(2 * 1, 1 * 1)]. split.
    + constructor; [|constructor]. exists 0%Z, ([mkAxis 0 2 1; mkAxis 0 1 1], [0]%Z), 2, 1, 1%Z, 1%Z. split; [destruct two; reflexivity|]. split; [split; [lia|reflexivity]|]. auto.
    + exists [[0; 0]%Z], [2; 2], [1]. split.
      * split; [reflexivity|]. split; [discriminate|]. split; [discriminate|]. split; [repeat (apply Forall_cons; [lra|]); apply Forall_nil|]. split; [repeat (apply Forall_cons; [lra|]); apply Forall_nil|]. split; [cbn; unfold intMax; lia|].
        intros [|i] row Hr Hi; [|cbn in Hi; lia]. cbn in Hr. injection Hr as <-. split; [reflexivity|].
        intros [|[|j]] o Hj; try (destruct j; discriminate); injection Hj as <-; (exists (2 * 1, 1 * 1); split; [lia|]; split; [reflexivity|]; cbn; split; f_equal; lra).
      * cbn. repeat (f_equal; try lra).
  - intros a z [<-|[]] Hz. destruct two; cbn in Hz; injection Hz as <-; cbn.
    + split; [apply incr3; lra|]. split; [|split; [unfold intMax; lia|]].
      * repeat apply Forall_cons; [exists 0%Z|exists 125000%Z|exists 250000%Z|apply Forall_nil]; (split; [lra|lia]).
      * exists 0, (1 / 4). split; [split; reflexivity|]. left. rewrite Rabs_R0. lra.
    + split; [apply incr2; lra|]. split; [|split; [unfold intMax; lia|]].
      * repeat apply Forall_cons; [exists 0%Z|exists 250000%Z|apply Forall_nil]; (split; [lra|lia]).
      * exists 0, (1 / 4). split; [split; reflexivity|]. left. rewrite Rabs_R0. lra.
  - intros l Hl. assert (X : snd l = [0%Z]) by (destruct two; cbn in Hl; repeat (destruct Hl as [<-|Hl]; [reflexivity|]); destruct Hl). rewrite X. split; [discriminate|cbn; unfold intMax; lia].
  - intros r [<-|[]]. exists [[0; 0]%Z], [1; 1], [1]. split.
      * split; [reflexivity|]. split; [discriminate|]. split; [discriminate|]. split; [repeat (apply Forall_cons; [lra|]); apply Forall_nil|]. split; [repeat (apply Forall_cons; [lra|]); apply Forall_nil|]. split; [cbn; unfold intMax; lia|].
        intros [|i] row Hr Hi; [|cbn in Hi; lia]. cbn in Hr. injection Hr as <-. split; [reflexivity|].
        intros [|[|j]] o Hj; try (destruct j; discriminate); injection Hj as <-; (exists (1, 1); split; [lia|]; split; [reflexivity|]; cbn; split; f_equal; lra).
      * cbn. repeat (f_equal; try lra).
  - constructor; [|constructor]. exists Quad, square. split; [reflexivity|]. split; [intros c [<-|[]]; split; [reflexivity|cbn; intros v H; lia]|]. split; [discriminate|]. split; [|split; [intros o; apply small_place|]].
    + cbn. split; [intros p Hp; repeat (destruct Hp as [<-|Hp]; [cbn; lra|]); destruct Hp|]. repeat split; eexists (_, _); (split; [|reflexivity]); cbn; auto.
    + split; [reflexivity|]. split; [unfold exists_in in Hid; repeat constructor; lia|]. cbn. unfold intMax. lia.
  - split; [cbn; lia|]. intros o. pose proof (occurs_le (snd (core (small_of mats id two))) o) as L. assert (X : length (snd (core (small_of mats id two))) = if two then 2%nat else 2%nat) by (destruct two; reflexivity). rewrite X in L. destruct two; lia.
  - split; [destruct two; cbn; lia|]. intros o. pose proof (occurs_le (all_lattices (small_of mats id two)) o) as L. assert (X : length (all_lattices (small_of mats id two)) = if two then 4%nat else 2%nat) by (destruct two; reflexivity). rewrite X in L. destruct two; lia.
  - split; [cbn; lia|]. intros o. pose proof (occurs_le (all_rtms (small_of mats id two)) o) as L. assert (X : length (all_rtms (small_of mats id two)) = if two then 4%nat else 2%nat) by (destruct two; reflexivity). rewrite X in L. destruct two; lia.
  - split; [cbn; lia|]. intros o. pose proof (occurs_le (all_cells (small_of mats id two)) o) as L. assert (X : length (all_cells (small_of mats id two)) = if two then 8%nat else 4%nat) by (destruct two; reflexivity). rewrite X in L. destruct two; lia.
Qed.
Lemma small_ok selfcheck two : can_be_written selfcheck (small two).
Proof. apply small_of_ok; [unfold exists_in; cbn; lia|lia]. Qed.
Lemma small_storable selfcheck : storable selfcheck (small false).
Proof.
  constructor.
  - apply small_ok.
  - apply Forall_cons; [|apply Forall_cons; [|apply Forall_nil]]; (split; [intros c H; cbn in H; lia|]); eexists _, _; (split; [reflexivity|discriminate]).
  - intros id H. unfold exists_in in H. cbn in *. lia.
  - intros id H. unfold exists_in in H. cbn in *. lia.
  - intros id H. unfold exists_in in H. cbn in *. lia.
  - intros id H. unfold exists_in in H. cbn in H. assert (id = 0%Z) by lia. subst id. exists [], [(0, 0)%Z]. split; [reflexivity|]. intros a [].
Qed.
