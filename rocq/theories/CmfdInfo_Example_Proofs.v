(** A core of cells with two materials. *)
From Coq Require Import String.
From Coq Require Import Reals.
From Coquelicot Require Import Complex.
From Coq Require Import List Arith ZArith Lia Lra Bool.
From Verif Require Import Base Loops Arith TextIo_Model Elem_Model Seg_Spec Poly_Spec Matrix_Model Matrix_Spec Soup_Model Soup_Spec Stats_Spec Stats_Proofs XSec_Model XSec_Spec
  Cmfd_Model Cmfd_Spec PinCyl_Model Grid_Model Grid_Spec Fvm_Model Fvm_Spec Mpact_Model Mpact_Spec Export_Model Export_Spec Outputs_Model Outputs_Spec Outputs_Example_Proofs
  CmfdInfo_Model CmfdInfo_Spec.
Import ListNotations.
Local Open Scope list_scope.
Local Open Scope R_scope.

(** two kinds of cells; the second one may be missing in the RTM, and the core may be missing *)
Definition pair_of (cc : cell) (built used : bool) : model :=
  mkModel (if built then ([[0; 2; 4]; [0; 1]], [0; 0]%Z) else ([], [])) [([[0; 1 / 8; 1 / 4]], [0; 1]%Z)]
    [([mkAxis 0 2 1; mkAxis 0 1 1], [0]%Z); ([mkAxis 0 2 1; mkAxis 0 1 1], [0]%Z)]
    [([[0; 1; 2]; [0; 1]], [0; if used then 1 else 0]%Z)]
    [cc; cc] [mkMaterial "Water" true; mkMaterial "UO2 fuel" true] [] [split_square] [] [].
Definition pair_model : bool -> bool -> model := pair_of (mkCell (1, 1) MT_Quad 0 [1; 0]%Z).
Definition plain : xsec := mkX true false 1 [1] [0] [0] [1] [1] (mkM 1 1 [1]).
Definition strong : xsec := mkX true false 1 [3] [0] [0] [1] [2] (mkM 1 1 [2]).

Lemma pair_measurable cc built used : cc = mkCell (1, 1) MT_Quad 0 [1; 0]%Z \/ cc = mkCell (1, 1) MT_Invalid (-1) [] -> measurable (pair_of cc built used).
Proof.
  intros Hcc. split; [|split; [|split]].
  - constructor; cbn.
    + destruct built; repeat constructor; unfold exists_in; cbn; lia.
    + intros a [<-|[]]. cbn. repeat constructor; unfold exists_in; cbn; lia.
    + intros l [<-|[<-|[]]]; cbn; repeat constructor; unfold exists_in; cbn; lia.
    + intros r [<-|[]]. cbn. destruct used; repeat constructor; unfold exists_in; cbn; lia.
    + assert (G : good_cell (pair_of cc built used) (xy_extents cc) (mtype cc) (mesh_id cc) (material_ids cc)); [|intros c [<-|[<-|[]]]; exact G].
      destruct Hcc as [->| ->]; (split; [cbn; lra|]); (split; [cbn; lra|]); [right|now left].
      exists split_square. split; [split; [cbn; lia|reflexivity]|]. split; [reflexivity|]. repeat constructor; unfold exists_in; cbn; lia.
  - constructor; cbn.
    + destruct built; [right|now left]. exists [0; 2; 4], [0; 1]. cbn. repeat split; lia.
    + intros a [<-|[]]. exists [0; 1 / 8; 1 / 4]. split; reflexivity.
    + intros l Hl. exists 2, 1, 1%Z, 1%Z. destruct Hl as [<-|[<-|[]]]; (split; [reflexivity|]); cbn; lia.
    + intros r [<-|[]]. exists [0; 1; 2], [0; 1]. cbn. repeat split; lia.
  - split; [destruct built; vm_compute; discriminate|]. split; [|split]; intros a Ha; repeat (destruct Ha as [<-|Ha]; [vm_compute; discriminate|]); destruct Ha.
  - assert (G : meshed (pair_of cc built used) cc); [|constructor; [exact G|constructor; [exact G|constructor]]].
    destruct Hcc as [->| ->]; [intros _|intros X; now elim X]. exists Quad, split_square. split; [reflexivity|]. split; [|split; [discriminate|reflexivity]].
    intros c [<-|[<-|[]]]; (split; [reflexivity|cbn; intros v H; lia]).
Qed.
Lemma shape_1 a s : shape 1 (mkX true false 1 [a] [0] [0] [1] [s] (mkM 1 1 [s])).
Proof. repeat split; cbn; unfold intMax; lia. Qed.
Lemma pair_macro : Forall (fun x => isMacro x = true /\ shape 1 x) [plain; strong].
Proof. repeat apply Forall_cons; try apply Forall_nil; (split; [reflexivity|apply shape_1]). Qed.
Lemma pair_ids c built used : In c (every_id (pair_model built used)) -> the_cell (pair_model built used) c = mkCell (1, 1) MT_Quad 0 [1; 0]%Z.
Proof. cbn. intros [<-|[<-|[]]]; reflexivity. Qed.
Lemma pair_parts area c built used : measures area -> In c (every_id (pair_model built used)) -> parts (pair_model built used) area c = [(1 / 2, 1%Z); (1 / 2, 0%Z)].
Proof.
  intros Ha Hc. unfold parts. rewrite (pair_ids c built used Hc).
  change (combine [area Quad [(0, 0); (1 / 2, 0); (1 / 2, 1); (0, 1)]; area Quad [(1 / 2, 0); (1, 0); (1, 1); (1 / 2, 1)]] [1; 0]%Z = [(1 / 2, 1%Z); (1 / 2, 0%Z)]).
  rewrite !quad_area by exact Ha. unfold tarea, orient. cbn [fst snd combine]. repeat (f_equal; try lra).
Qed.
Lemma pair_mixed area c built used : measures area -> In c (every_id (pair_model built used)) ->
  mixed (pair_model built used) [plain; strong] area Absorption c 0 = 2 /\ mixed (pair_model built used) [plain; strong] area Scattering c 0 = 3 / 2.
Proof.
  intros Ha Hc. unfold mixed. rewrite (pair_parts area c built used Ha Hc). unfold Stats_Spec.total.
  split; [change ((1 / 2 * 3 + (1 / 2 * 1 + 0)) / (1 / 2 + (1 / 2 + 0)) = 2)|change ((1 / 2 * 2 + (1 / 2 * 1 + 0)) / (1 / 2 + (1 / 2 + 0)) = 3 / 2)]; field; lra.
Qed.
Lemma pair_describable area built used : measures area -> describable (pair_model built used) [plain; strong] area 1.
Proof.
  intros Ha. constructor.
  - apply pair_measurable. now left.
  - apply Forall_forall. intros c Hc. unfold has_mesh. rewrite (pair_ids c built used Hc). discriminate.
  - discriminate.
  - reflexivity.
  - exact pair_macro.
  - intros c Hc. rewrite (pair_parts area c built used Ha Hc). cbn [map fst]. split; [repeat (apply Forall_cons; [lra|]); apply Forall_nil|]. unfold Stats_Spec.total. cbn. lra.
  - intros c g Hc Hg. assert (g = 0%nat) as -> by lia. unfold total_of. destruct (pair_mixed area c built used Ha Hc) as (-> & ->). lra.
Qed.
Lemma pair_few cc built used : few (pair_of cc built used) 1.
Proof. unfold few. split; [vm_compute; discriminate|]. split; [lia|]. destruct built, used; vm_compute; discriminate. Qed.
Lemma all_zero_eigen checks : eigen checks (fun a => Ret [RtoC 0]).
Proof. intros a f _. exists [RtoC 0]. split; [reflexivity|]. intros _ e [<-|[]]. cbn. lra. Qed.
