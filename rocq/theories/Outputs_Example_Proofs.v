(** A core of cells with two materials. *)
From Coq Require Import String.
From Coquelicot Require Import Coquelicot.
From Coq Require Import List Arith ZArith Lia Bool Reals Lra.
From Verif Require Import Base Loops Arith StringView_Model TextIo_Model Elem_Model Seg_Spec Poly_Model Poly_Spec Poly_Proofs QSeg_Spec QPoly_Model QPoly_Spec QPoly_Proofs Soup_Model Soup_Spec XSec_Model XSec_Spec PinCyl_Model Grid_Model Grid_Spec
  Fvm_Model Fvm_Spec Xdmf_Model Mpact_Model Mpact_Spec Export_Model Export_Spec ModelIo_Model ModelIo_Spec ModelIo_Example_Proofs ModelIo_Write_Proofs Outputs_Model Outputs_Spec
  Outputs_Volume_Proofs Outputs_Chord_Proofs Outputs_Proofs.
Import ListNotations.
Local Open Scope list_scope.
Local Open Scope R_scope.

(** every face has an area *)
Definition the_area (k : kind) (p : list (R * R)) : R := value_of (area_of k p).
Lemma area_exists : measures the_area.
Proof.
  intros k p L. unfold the_area, has_area, area_of. destruct (quadratic k) eqn:Hk.
  - set (n := (nverts k / 2)%nat). assert (Ln : length (firstn n p) = n /\ length (skipn n p) = n).
    { rewrite firstn_length, skipn_length, L. unfold n. destruct k; try discriminate Hk; cbn; lia. }
    destruct Ln as (L1 & L2). assert (N : firstn n p <> []). { intros E. rewrite E in L1. unfold n in L1. destruct k; try discriminate Hk; discriminate L1. }
    destruct (q_area_ok (firstn n p) (skipn n p) N ltac:(lia)) as (A & Is & EA & HI & -> & _). exists (firstn n p), (skipn n p), Is.
    split; [symmetry; apply firstn_skipn|]. split; [lia|]. split; [exact HI|]. rewrite firstn_skipn in EA. now rewrite EA.
  - assert (N : p <> []) by (intros ->; destruct k; discriminate). rewrite lin_area_ok. destruct (area_ok p N) as (B & EB & HB). rewrite EB. cbn [value_of]. apply HB.
Qed.

(** a unit square in two halves *)
Definition split_square : mesh R := mkMesh false false [(0, 0); (1 / 2, 0); (1, 0); (1, 1); (1 / 2, 1); (0, 1)] [[0; 1; 4; 5]; [1; 2; 3; 4]]%Z [] [].
(** two assemblies of two lattices; each lattice is one RTM of two squares *)
Definition halves : model :=
  mkModel ([[0; 2; 4]; [0; 1]], [0; 0]%Z) [([[0; 1 / 8; 1 / 4]], [0; 1]%Z)]
    [([mkAxis 0 2 1; mkAxis 0 1 1], [0]%Z); ([mkAxis 0 2 1; mkAxis 0 1 1], [0]%Z)]
    [([[0; 1; 2]; [0; 1]], [0; 0]%Z)]
    [mkCell (1, 1) MT_Quad 0 [1; 0]%Z] [mkMaterial "Water" true; mkMaterial "UO2 fuel" true] [] [split_square] [] [].
Lemma halves_measurable : measurable halves.
Proof.
  split; [|split; [|split]].
  - constructor; cbn.
    + repeat constructor; unfold exists_in; cbn; lia.
    + intros a [<-|[]]. cbn. repeat constructor; unfold exists_in; cbn; lia.
    + intros l [<-|[<-|[]]]; cbn; repeat constructor; unfold exists_in; cbn; lia.
    + intros r [<-|[]]. cbn. repeat constructor; unfold exists_in; cbn; lia.
    + intros c [<-|[]]. cbn. split; [cbn; lra|]. split; [cbn; lra|]. right. exists split_square. split; [split; [lia|reflexivity]|]. split; [reflexivity|]. repeat constructor; unfold exists_in; cbn; lia.
  - constructor; cbn.
    + right. exists [0; 2; 4], [0; 1]. cbn. repeat split; lia.
    + intros a [<-|[]]. exists [0; 1 / 8; 1 / 4]. split; reflexivity.
    + intros l Hl. exists 2, 1, 1%Z, 1%Z. destruct Hl as [<-|[<-|[]]]; (split; [reflexivity|]); cbn; lia.
    + intros r [<-|[]]. exists [0; 1; 2], [0; 1]. cbn. repeat split; lia.
  - split; [vm_compute; discriminate|]. split; [|split]; intros a Ha; repeat (destruct Ha as [<-|Ha]; [vm_compute; discriminate|]); destruct Ha.
  - constructor; [|constructor]. intros _. exists Quad, split_square. split; [reflexivity|]. split; [|split; [discriminate|reflexivity]].
    intros c [<-|[<-|[]]]; (split; [reflexivity|cbn; intros v H; lia]).
Qed.
Lemma quad_area area a b c d : measures area -> area Quad [a; b; c; d] = tarea (0, 0) a b + (tarea (0, 0) b c + (tarea (0, 0) c d + (tarea (0, 0) d a + 0))).
Proof. intros H. exact (H Quad [a; b; c; d] eq_refl). Qed.
Lemma halves_solid area : measures area -> solid halves area 2 1 0 (1 / 4) [2; 2] [1].
Proof.
  intros Ha. constructor.
  - intros [|[|id]] c Hc; try discriminate. injection Hc as <-.
    change (rsum [area Quad [(0, 0); (1 / 2, 0); (1 / 2, 1); (0, 1)]; area Quad [(1 / 2, 0); (1, 0); (1, 1); (1 / 2, 1)]] = 1 * 1).
    rewrite !rsum_cons, rsum_nil, !quad_area by exact Ha. unfold tarea, orient. cbn [fst snd]. lra.
  - intros r [<-|[]]. exists [[0; 0]%Z], [1; 1], [1]. split; [|split; [|split; rewrite !rsum_cons, rsum_nil; lra]].
    + split; [reflexivity|]. assert (eps <= 1) by (unfold eps; lra). split; [discriminate|]. split; [discriminate|]. split; [repeat (apply Forall_cons; [lra|]); apply Forall_nil|]. split; [repeat (apply Forall_cons; [lra|]); apply Forall_nil|]. split; [cbn; unfold intMax; lia|].
      intros [|i] row Hr Hi; [|cbn in Hi; lia]. cbn in Hr. injection Hr as <-. split; [reflexivity|].
      intros [|[|j]] o Hj; try (destruct j; discriminate); injection Hj as <-; (exists (1, 1); split; [lia|]; split; [reflexivity|]; cbn; split; f_equal; lra).
    + cbn. repeat (f_equal; try lra).
  - intros l Hl. exists 1%Z, 1%Z. destruct Hl as [<-|[<-|[]]]; (split; [reflexivity|]); cbn; lia.
  - intros a [<-|[]]. exists [0; 1 / 8; 1 / 4]. split; [reflexivity|]. split; [reflexivity|]. split; [split; reflexivity|].
    assert (X : forall i l, at_ (lattices halves) i l -> map nc (fst l) = [1; 1]%Z).
    { intros i l (_ & H). apply nth_error_In in H. cbn in H. repeat (destruct H as [<-|H]; [reflexivity|]); destruct H. }
    intros i j l l' _ _ H1 H2. rewrite (X i l H1), (X j l' H2). reflexivity.
  - exists [(2 * 1, 1 * 1)], [[0; 0]%Z]. split; [|split].
    + constructor; [|constructor]. exists 0%Z, ([mkAxis 0 2 1; mkAxis 0 1 1], [0]%Z), 2, 1, 1%Z, 1%Z. split; [reflexivity|]. split; [split; [lia|reflexivity]|]. auto.
    + split; [reflexivity|]. assert (eps <= 1) by (unfold eps; lra). split; [discriminate|]. split; [discriminate|]. split; [repeat (apply Forall_cons; [lra|]); apply Forall_nil|]. split; [repeat (apply Forall_cons; [lra|]); apply Forall_nil|]. split; [cbn; unfold intMax; lia|].
      intros [|i] row Hr Hi; [|cbn in Hi; lia]. cbn in Hr. injection Hr as <-. split; [reflexivity|].
      intros [|[|j]] o Hj; try (destruct j; discriminate); injection Hj as <-; (exists (2 * 1, 1 * 1); split; [lia|]; split; [reflexivity|]; cbn; split; f_equal; lra).
    + cbn. repeat (f_equal; try lra).
Qed.
Lemma halves_used i : (i < length (materials halves))%nat -> used halves (Z.of_nat i).
Proof. intros H. exists 0%Z. split; [cbn; tauto|]. split; [discriminate|]. cbn in *. lia. Qed.
Lemma halves_meshes : Forall (has_mesh halves) (all_cells halves).
Proof. repeat constructor; discriminate. Qed.
Lemma small_used i : (i < 1)%nat -> used (small_of [mkMaterial "UO2 fuel" true] 0 true) (Z.of_nat i).
Proof. intros H. exists 0%Z. split; [cbn; tauto|]. split; [discriminate|]. cbn. lia. Qed.
Lemma small_unused two : ~ used (small two) 0.
Proof.
  intros (c & Hc & _ & Hi). assert (c = 0%Z) as ->. { destruct two; cbn in Hc; repeat (destruct Hc as [<-|Hc]; [reflexivity|]); destruct Hc. }
  cbn in Hi. lia.
Qed.
(** how the code rounds a tenth, and how it would with exact numbers *)
Lemma tenths_exact : tenths (fun n => n / 10)%nat.
Proof. intros n. pose proof (Nat.div_mod n 10 ltac:(lia)). pose proof (Nat.mod_upper_bound n 10 ltac:(lia)). lia. Qed.
Lemma tenths_double : tenths (fun n => if n mod 10 =? 0 then n / 10 - 1 else n / 10)%nat.
Proof.
  intros n. pose proof (Nat.div_mod n 10 ltac:(lia)). pose proof (Nat.mod_upper_bound n 10 ltac:(lia)). destruct (Nat.eqb_spec (n mod 10) 0); lia.
Qed.

Lemma halves_volumes area : measures area -> volume halves area (Z.eqb 0) = 1 / 2 /\ volume halves area (Z.eqb 1) = 1 / 2.
Proof.
  intros Ha. set (a := area Quad [(0, 0); (1 / 2, 0); (1 / 2, 1); (0, 1)]). set (b := area Quad [(1 / 2, 0); (1, 0); (1, 1); (1 / 2, 1)]).
  assert (Ea : a = 1 / 2) by (unfold a; rewrite quad_area by exact Ha; unfold tarea, orient; cbn [fst snd]; lra).
  assert (Eb : b = 1 / 2) by (unfold b; rewrite quad_area by exact Ha; unfold tarea, orient; cbn [fst snd]; lra).
  split.
  - change (rsum [rsum [rsum [rsum [rsum [b]; rsum [b]]] * (1 / 8 - 0); rsum [rsum [rsum [b]; rsum [b]]] * (1 / 4 - 1 / 8)];
      rsum [rsum [rsum [rsum [b]; rsum [b]]] * (1 / 8 - 0); rsum [rsum [rsum [b]; rsum [b]]] * (1 / 4 - 1 / 8)]] = 1 / 2).
    rewrite !rsum_cons, !rsum_nil, Eb. lra.
  - change (rsum [rsum [rsum [rsum [rsum [a]; rsum [a]]] * (1 / 8 - 0); rsum [rsum [rsum [a]; rsum [a]]] * (1 / 4 - 1 / 8)];
      rsum [rsum [rsum [rsum [a]; rsum [a]]] * (1 / 8 - 0); rsum [rsum [rsum [a]; rsum [a]]] * (1 / 4 - 1 / 8)]] = 1 / 2).
    rewrite !rsum_cons, !rsum_nil, Ea. lra.
Qed.
