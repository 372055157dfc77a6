(** Calls with nothing to read, and what the checks of addRTM miss. *)
From Coq Require Import String.
From Coq Require Import List Arith ZArith Bool Reals Lra Lia.
From Verif Require Import Base Loops Fill Arith Box_Proofs Poly_Spec Grid_Model Grid_Spec Grid_Proofs Fvm_Model PinRect_Model Mpact_Model Mpact_Spec Mpact_Proofs Mpact_Steps_Proofs Mpact_Accept_Proofs.
Import ListNotations.
Local Open Scope list_scope.
Local Open Scope R_scope.

Theorem no_rows_rtm checks exit_on_error m : addRTM checks exit_on_error m [] = Ub.
Proof. reflexivity. Qed.
Theorem no_rows_lattice checks exit_on_error m : consistent checks m -> addLattice checks exit_on_error m [] = Ub.
Proof.
  intros HC. unfold addLattice. cbn [existsb]. destruct (nth_error (rtms m) 0) as [r0|] eqn:E; [|unfold rd; now rewrite E].
  rewrite (proj2 (rd_Ret _ _ _) E). cbn [bind]. destruct (rtm_extents _ _ HC r0 r0 E) as (w & h & w' & h' & X & _); [eapply nth_error_In; eauto|].
  rewrite (extents2_ok _ _ _ X). reflexivity.
Qed.
Theorem no_rows_core checks exit_on_error m : inv checks m -> snd (core m) = [] -> addCore checks exit_on_error m [] = Ub.
Proof.
  intros [HV HC] H0. unfold addCore. rewrite H0. cbn [length Nat.eqb negb existsb].
  assert (E : exists xy, mapo (assembly_extents checks m) (assemblies m) = Ret xy).
  { assert (G : forall l, (forall a, In a l -> In a (assemblies m)) -> exists xy, mapo (assembly_extents checks m) l = Ret xy).
    { induction l as [|a l IH]; intros Hl; [eexists; reflexivity|].
      assert (Ha : In a (assemblies m)) by (apply Hl; now left).
      destruct (assembly_shape _ _ HC a Ha) as (z & bot & top & _ & Hne & _).
      destruct (snd a) as [|i rest] eqn:Es; [congruence|].
      assert (Hi : exists_in (lattices m) i). { pose proof (assembly_ids _ HV a Ha) as F. rewrite Es in F. now inversion F. }
      destruct (exists_at _ _ Hi) as (l0 & Hl0).
      destruct (lattice_shape _ _ HC l0 (at_In _ _ _ Hl0)) as (r0 & w & h & nx & ny & _ & _ & Hg & _).
      destruct IH as (xy & Exy); [intros; apply Hl; now right|].
      eexists. cbn [mapo]. rewrite (assembly_extents_ok checks m a (w * IZR nx, h * IZR ny)); auto.
      - cbn [bind]. rewrite Exy. reflexivity.
      - exists i, l0, w, h, nx, ny. rewrite Es. auto. }
    apply G. auto. }
  destruct E as (xy & E). rewrite E. reflexivity.
Qed.
Theorem no_lattices_assembly checks exit_on_error m x : assemblies m = [] -> Rabs x <= eps -> addAssembly checks exit_on_error m [] [x] = Ub.
Proof.
  intros H0 Hx. unfold addAssembly. cbn [existsb length Nat.add Nat.eqb negb is_sorted]. change (rd [x] 0) with (Ret x). cbn [bind].
  change (rd [x] (1 - 1)) with (Ret x). cbn [bind]. rewrite (proj2 (off_ok x) Hx), andb_false_r, H0. reflexivity.
Qed.

(** two cells of different height *)
Definition two_cells : model :=
  push_cell (mkCell (1, 2) MT_Invalid (-1) []) (push_cell (mkCell (1, 1) MT_Invalid (-1) []) empty_model).
Lemma two_cells_run stdsort selfcheck at_origin checks exit_on_error :
  run stdsort selfcheck at_origin checks exit_on_error empty_model [AddCoarseCell (1, 1) MT_Invalid (-1) []; AddCoarseCell (1, 2) MT_Invalid (-1) []] = Ret two_cells.
Proof.
  cbn [run step]. unfold addCoarseCell. cbn [fst snd]. rewrite !(proj2 (Rltb_true 0 1)), (proj2 (Rltb_true 0 2)) by lra. reflexivity.
Qed.
Lemma inc3 : increasing [0; 1; 2].
Proof.
  intros i j a b Hij Ha Hb. destruct i as [|[|[|i]]]; destruct j as [|[|[|j]]]; cbn in Ha, Hb; try lia; try discriminate; try (destruct i; discriminate);
  try (destruct j; discriminate); injection Ha as <-; injection Hb as <-; lra.
Qed.
Lemma inc2 : increasing [0; 1].
Proof.
  intros i j a b Hij Ha Hb. destruct i as [|[|i]]; destruct j as [|[|j]]; cbn in Ha, Hb; try lia; try discriminate; try (destruct i; discriminate);
  try (destruct j; discriminate); injection Ha as <-; injection Hb as <-; lra.
Qed.
Lemma sep3 : separated [0; 1; 2].
Proof.
  assert (He : eps <= 1) by (unfold eps; lra).
  intros a b Ha Hb Hn. cbn in Ha, Hb. destruct Ha as [<-|[<-|[<-|[]]]], Hb as [<-|[<-|[<-|[]]]]; try congruence;
  try (rewrite Rabs_pos_eq by lra; lra); try (rewrite Rabs_left by lra; lra).
Qed.
Lemma sep2 : separated [0; 1].
Proof. intros a b Ha Hb. apply sep3; cbn in *; tauto. Qed.
Ltac edg := intros x; cbn; split; intros E;
  repeat match type of E with _ \/ _ => destruct E as [E|E] end; try contradiction;
  rewrite <- E; first [left; lra|right; left; lra|right; right; left; lra|right; right; right; left; lra|right; right; right; right; left; lra
   |right; right; right; right; right; left; lra|right; right; right; right; right; right; left; lra|right; right; right; right; right; right; right; left; lra].

(** rows of different height pass the check of the number of cells *)
Theorem row_heights exit_on_error : addRTM true exit_on_error two_cells [[0; 0]; [0; 1]]%Z =
  Ret (push_rtm ([[0; 1; 2]; [0; 1; 2]], [0; 1; 0; 0]%Z) two_cells, 0%Z).
Proof.
  unfold addRTM. cbn [concat app]. 
  change (collect exit_on_error (cells two_cells) [0; 0; 0; 1]%Z [] []) with (Ret (Some ([0; 1]%Z, [(1, 1); (1, 2)]))). cbn [bind].
  change (renumber true [0; 1]%Z [[0; 0]; [0; 1]]%Z) with (Ret [[0; 0]; [0; 1]]%Z). cbn [bind].
  assert (E : grid_of true [(1, 1); (1, 2)] [[0; 0]; [0; 1]]%Z = Ret [[0; 1; 2]; [0; 1; 2]]).
  { unfold grid_of. change (rd [[0; 0]; [0; 1]]%Z 0) with (Ret [0; 0]%Z). cbn [bind]. unfold assert. cbn [tl forallb length Nat.eqb andb negb].
    change (0 <=? 0)%Z with true. change (0 <=? 1)%Z with true. cbn [andb negb].
    rewrite i32_ok by (vm_compute; split; congruence). cbn [bind rev app].
    cbn [rows_boxes_n length firstn Nat.ltb Nat.leb row_boxes].
    change (rdz [(1, 1); (1, 2)] 0%Z) with (Ret (1, 1)). change (rdz [(1, 1); (1, 2)] 1%Z) with (Ret (1, 2)).
    change (rdz [0; 1]%Z 0) with (Ret 0%Z). change (rdz [0; 0]%Z 0) with (Ret 0%Z).
    change (rdz [(1, 1); (1, 2)] 0%Z) with (Ret (1, 1)). cbn [bind fst snd app].
    change (rdz [(1, 1); (1, 2)] 0%Z) with (Ret (1, 1)). cbn [bind fst snd app].
    cbn [mapo divs_of bind]. unfold divs_of. cbn [mapo]. unfold rd. cbn [nth_error bind].
    rewrite (divs_exact _ [0; 1; 2] inc3 sep3) by edg. cbn [bind]. rewrite (divs_exact _ [0; 1; 2] inc3 sep3) by edg. cbn [bind].
    cbn [numCells map length totalNumCells fold_left bind]. unfold totalNumCells. cbn [fold_left bind]. rewrite !i32_ok by (vm_compute; split; congruence). cbn [bind].
    rewrite !i32_ok by (vm_compute; split; congruence). reflexivity. }
  rewrite E. cbn [bind two_cells rtms push_cell empty_model negb].
  change (flattenLattice exit_on_error [[0; 0]; [0; 1]]%Z) with (Ret [0; 1; 0; 0]%Z). cbn [bind].
  unfold partition, rect_partition, totalNumCells. cbn [numCells map length fold_left bind].
  rewrite !i32_ok by (vm_compute; split; congruence). cbn [bind]. rewrite !i32_ok by (vm_compute; split; congruence). reflexivity.
Qed.

(** without assertions the number of cells is not even compared *)
Theorem release_mismatch exit_on_error : addRTM false exit_on_error two_cells [[0; 1]]%Z =
  Ret (push_rtm ([[0; 1; 2]; [0; 1; 2]], [0; 1]%Z) two_cells, 0%Z).
Proof.
  unfold addRTM. cbn [concat app].
  change (collect exit_on_error (cells two_cells) [0; 1]%Z [] []) with (Ret (Some ([0; 1]%Z, [(1, 1); (1, 2)]))). cbn [bind].
  change (renumber false [0; 1]%Z [[0; 1]]%Z) with (Ret [[0; 1]]%Z). cbn [bind].
  assert (E : grid_of false [(1, 1); (1, 2)] [[0; 1]]%Z = Ret [[0; 1; 2]; [0; 1; 2]]).
  { unfold grid_of. change (rd [[0; 1]]%Z 0) with (Ret [0; 1]%Z). cbn [bind]. unfold assert. cbn [andb].
    rewrite i32_ok by (vm_compute; split; congruence). cbn [bind rev app].
    cbn [rows_boxes_n length firstn Nat.ltb Nat.leb row_boxes].
    change (rdz [(1, 1); (1, 2)] 0%Z) with (Ret (1, 1)). change (rdz [(1, 1); (1, 2)] 1%Z) with (Ret (1, 2)).
    change (rdz [0; 1]%Z 0) with (Ret 0%Z). cbn [bind fst snd app].
    change (rdz [(1, 1); (1, 2)] 0%Z) with (Ret (1, 1)). cbn [bind fst snd app].
    cbn [mapo bind]. unfold divs_of. cbn [mapo]. unfold rd. cbn [nth_error bind].
    rewrite (divs_exact _ [0; 1; 2] inc3 sep3) by edg. cbn [bind]. rewrite (divs_exact _ [0; 1; 2] inc3 sep3) by edg. reflexivity. }
  rewrite E. reflexivity.
Qed.
(** and a lattice with rows of different length becomes an RTM without children *)
Theorem release_ragged : addRTM false false two_cells [[0]; [0; 0]]%Z =
  Ret (push_rtm ([[0; 1]; [0; 1; 2]], []) two_cells, 0%Z).
Proof.
  unfold addRTM. cbn [concat app].
  change (collect false (cells two_cells) [0; 0; 0]%Z [] []) with (Ret (Some ([0]%Z, [(1, 1)]))). cbn [bind].
  change (renumber false [0]%Z [[0]; [0; 0]]%Z) with (Ret [[0]; [0; 0]]%Z). cbn [bind].
  assert (E : grid_of false [(1, 1)] [[0]; [0; 0]]%Z = Ret [[0; 1]; [0; 1; 2]]).
  { unfold grid_of. change (rd [[0]; [0; 0]]%Z 0) with (Ret [0]%Z). cbn [bind]. unfold assert. cbn [andb].
    rewrite i32_ok by (vm_compute; split; congruence). cbn [bind rev app].
    cbn [rows_boxes_n length firstn Nat.ltb Nat.leb row_boxes].
    change (rdz [(1, 1)] 0%Z) with (Ret (1, 1)). change (rdz [0; 0]%Z 0) with (Ret 0%Z). change (rdz [0]%Z 0) with (Ret 0%Z). cbn [bind fst snd app].
    change (rdz [(1, 1)] 0%Z) with (Ret (1, 1)). cbn [bind fst snd app].
    change (rdz [(1, 1)] 0%Z) with (Ret (1, 1)). cbn [bind fst snd app].
    cbn [mapo bind]. unfold divs_of. cbn [mapo]. unfold rd. cbn [nth_error bind].
    rewrite (divs_exact _ [0; 1] inc2 sep2) by edg. cbn [bind]. rewrite (divs_exact _ [0; 1; 2] inc3 sep3) by edg. reflexivity. }
  rewrite E. reflexivity.
Qed.
