(** C82: adding cylindrical pins and lattices of pins to a gmsh model. *)
From Coq Require Import String Reals.
From Coq Require Import List Arith ZArith Lia Lra Sorted.
From Verif Require Import Base Loops Grid_Model Grid_Spec Grid_Proofs.
From Verif Require Import Groups_Model Groups_Spec Pins_Model Pins_Spec Pins_Proofs.
Import ListNotations.
Open Scope Z_scope.

(** addCylindricalPin2D: one disk and, around it, one annulus per further radius, centred where
    asked; the k-th is in the group of the k-th material and has its colour; nothing else changes. *)
Theorem C82_pin : forall o x y rs ms, counted o -> well_formed (o_gm o) ->
  rs <> [] -> length ms = length rs -> (0 < nth 0 rs 0)%R -> nondecreasing rs ->
  exists o' out, pin_2d o x y rs ms = Ret (o', out) /\
    surfaces_added o o' out (length rs) (ring x y rs) (nth_error ms).
Proof. exact pin_ok. Qed.
Print Assumptions C82_pin.

(** Anything else is an error. *)
Theorem C82_pin_rejects : forall o x y rs ms,
  rs = [] \/ length ms <> length rs \/ (nth 0 rs 0 <= 0)%R \/ ~ nondecreasing rs ->
  pin_2d o x y rs ms = Fail.
Proof. exact pin_rejects. Qed.
Print Assumptions C82_pin_rejects.

(** addCylindricalPinLattice2D, for a lattice with column widths W and, bottom up, row heights H:
    every pin of the lattice gets its disk and annuli in the middle of its cell, moved by the
    offset; each is in the group of its material and has its colour; nothing else changes. *)
Theorem C82_lattice : forall o ids xy radii mats off W H, counted o -> well_formed (o_gm o) ->
  lattice xy ids W H -> length radii = length xy -> length mats = length xy ->
  (forall pin rs ms, nth_error radii pin = Some rs -> nth_error mats pin = Some ms -> (length rs <= length ms)%nat) ->
  exists o' out, lattice_2d o ids xy radii mats off = Ret (o', out) /\
    let parts := lattice_parts ids radii in
    let p q := nth q parts (mkPart 0 0 0 0) in
    surfaces_added o o' out (length parts)
      (fun q => ring (middle W (p_col (p q)) + fst off) (middle H (p_row (p q)) + snd off)
                     (nth (p_pin (p q)) radii []) (p_ring (p q)))
      (fun q => nth_error (nth (p_pin (p q)) mats []) (p_ring (p q))).
Proof. exact lattice_ok. Qed.
Print Assumptions C82_lattice.

(** The parts of a lattice are exactly the rings of the pins at its positions, each once. *)
Theorem C82_parts : forall ids radii,
  NoDup (lattice_parts ids radii) /\
  forall p, In p (lattice_parts ids radii) <->
    exists row rs, (p_row p < length ids)%nat /\ nth_error ids (length ids - 1 - p_row p) = Some row /\
      nth_error row (p_col p) = Some (Z.of_nat (p_pin p)) /\
      nth_error radii (p_pin p) = Some rs /\ (p_ring p < length rs)%nat.
Proof. exact parts_iff. Qed.
Print Assumptions C82_parts.

(** Counts that differ, rows of different lengths and unknown pins are errors. *)
Theorem C82_lattice_rejects : forall o row0 ids xy radii mats off,
  radii = [] \/ length mats <> length radii \/ length xy <> length radii \/
  (exists row, In row (row0 :: ids) /\ length row <> length row0) \/
  (exists row id, In row (row0 :: ids) /\ In id row /\ ~ 0 <= id < Z.of_nat (length radii)) ->
  lattice_2d o (row0 :: ids) xy radii mats off = Fail.
Proof. exact lattice_rejects. Qed.
Print Assumptions C82_lattice_rejects.

(** * Examples *)
Definition empty_occ : occ := mkO 0 0 0 [] [] [] (mkGm [] (mkGeo [] (fun _ => []) (fun _ => 0))).
Definition fuel := mkM "UO2" 1.
Definition clad := mkM "Zr" 2.
(** A model with a disk in the group of the fuel. *)
Definition used_occ : occ := mkO 4 3 7 [(4, mkC 9 9 1)] [(3, 4)] [(7, [3])]
  (mkGm [mkG 2 5 "Material_UO2" [7]] (mkGeo [(2, 7)] (fun d => if pair_eq d (2, 7) then [(1, 4)] else []) (fun _ => 1))).
Lemma used_counted : counted used_occ.
Proof.
  split; [|split]; cbn; intros k c [H|[]]; injection H as <- _; lia.
Qed.
Lemma used_wf : well_formed (o_gm used_occ).
Proof.
  split.
  - cbn. repeat constructor.
  - intros x [<-|[]]. cbn. split; [lia|]. split; [discriminate|]. repeat constructor.
Qed.
Lemma empty_counted : counted empty_occ.
Proof. split; [|split]; cbn; tauto. Qed.
Lemma empty_wf : well_formed (o_gm empty_occ).
Proof. split; cbn; [constructor|tauto]. Qed.
Lemma nd2 a b : (a <= b)%R -> nondecreasing [a; b].
Proof.
  intros L [|[|[|i]]] x y Hx Hy; try discriminate. cbn in Hx, Hy. injection Hx as <-. now injection Hy as <-.
Qed.

Example C82_pin_example : counted used_occ /\ well_formed (o_gm used_occ) /\ [1; 2]%R <> [] /\
  length [fuel; clad] = length [1; 2]%R /\ (0 < nth 0 [1; 2] 0)%R /\ nondecreasing [1; 2]%R.
Proof.
  split; [exact used_counted|]. split; [exact used_wf|]. split; [discriminate|]. split; [reflexivity|].
  split; [cbn; lra|]. apply nd2. lra.
Qed.

Example C82_lattice_example : counted used_occ /\ well_formed (o_gm used_occ) /\
  lattice [(1, 3); (2, 3); (1, 4); (2, 4)]%R [[0; 1; 0]; [2; 3; 2]] [1; 2; 1]%R [4; 3]%R /\
  length [[1/4; 1/3]; [1/2]; []; [1/5]]%R = length [(1, 3); (2, 3); (1, 4); (2, 4)]%R /\
  length [[fuel; clad]; [clad]; []; [fuel; fuel]] = length [(1, 3); (2, 3); (1, 4); (2, 4)]%R /\
  (forall pin rs ms, nth_error [[1/4; 1/3]; [1/2]; []; [1/5]]%R pin = Some rs ->
     nth_error [[fuel; clad]; [clad]; []; [fuel; fuel]] pin = Some ms -> (length rs <= length ms)%nat) /\
  lattice_parts [[0; 1; 0]; [2; 3; 2]] [[1/4; 1/3]; [1/2]; []; [1/5]]%R =
    [mkPart 0 1 0 0; mkPart 0 1 0 1; mkPart 0 1 2 0; mkPart 0 1 2 1; mkPart 1 1 1 0; mkPart 3 0 1 0].
Proof.
  split; [exact used_counted|]. split; [exact used_wf|]. split.
  { assert (He : (eps < 1)%R) by (unfold eps; lra).
    split; [reflexivity|]. split; [discriminate|]. split; [discriminate|].
    split; [repeat constructor; lra|]. split; [repeat constructor; lra|]. split; [cbn; unfold intMax; lia|].
    intros [|[|i]] row Hr Hi; cbn in Hi; try lia; cbn in Hr; injection Hr as <-; (split; [reflexivity|]);
      intros [|[|[|j]]] id Hj; cbn in Hj; try (destruct j; discriminate); injection Hj as <-; eexists;
      (split; [lia|]); (split; [reflexivity|]); split; reflexivity. }
  split; [reflexivity|]. split; [reflexivity|]. split; [|reflexivity].
  intros [|[|[|[|pin]]]] rs ms H1 H2; cbn in H1, H2; try (destruct pin; discriminate);
    injection H1 as <-; injection H2 as <-; cbn; lia.
Qed.

(** * What is not promised *)

(** The message says that the radii must be strictly increasing, but equal radii are accepted: the
    annulus between them has no area. *)
Theorem C82_equal_radii_refuted : exists o rs ms o' out s c,
  ~ (forall i a b, nth_error rs i = Some a -> nth_error rs (S i) = Some b -> (a < b)%R) /\
  pin_2d o 0 0 rs ms = Ret (o', out) /\ In s out /\ bounded_by o' s [c; c].
Proof.
  destruct (pin_ok empty_occ 0 0 [1; 1]%R [fuel; clad] empty_counted empty_wf) as (o' & out & E & A);
    [discriminate|reflexivity|cbn; lra|apply nd2; lra|].
  destruct A as (_ & A1 & _ & A2 & _). exists empty_occ, [1; 1]%R, [fuel; clad], o', out, 2, (mkC 0 0 1).
  split; [|split; [exact E|split]].
  - intros H. specialize (H O 1%R 1%R eq_refl eq_refl). lra.
  - rewrite A1. cbn. auto.
  - exact (A2 1%nat ltac:(cbn; lia)).
Qed.
Print Assumptions C82_equal_radii_refuted.

Lemma small : lattice [(1, 1)]%R [[0]] [1]%R [1]%R.
Proof.
  assert (He : (eps < 1)%R) by (unfold eps; lra).
  split; [reflexivity|]. split; [discriminate|]. split; [discriminate|].
  split; [repeat constructor; lra|]. split; [repeat constructor; lra|]. split; [cbn; unfold intMax; lia|].
  intros [|i] row Hr Hi; cbn in Hi; try lia. cbn in Hr. injection Hr as <-. split; [reflexivity|].
  intros [|j] id Hj; cbn in Hj; try (destruct j; discriminate). injection Hj as <-. eexists.
  split; [lia|]. split; [reflexivity|]. split; reflexivity.
Qed.

(** The lattice does not look at the radii: what a single pin refuses is accepted. *)
Theorem C82_radii_refuted : exists o ids xy radii rs mats ms o' out,
  In rs radii /\ In ms mats /\ pin_2d o 0 0 rs ms = Fail /\ lattice_2d o ids xy radii mats (0, 0)%R = Ret (o', out).
Proof.
  destruct (lattice_ok empty_occ [[0]] [(1, 1)]%R [[2; 1]]%R [[fuel; clad]] (0, 0)%R [1]%R [1]%R
    empty_counted empty_wf small eq_refl eq_refl) as (o' & out & E & _).
  - intros [|pin] rs ms H1 H2; cbn in H1, H2; try (destruct pin; discriminate). injection H1 as <-. injection H2 as <-. auto.
  - exists empty_occ, [[0]], [(1, 1)]%R, [[2; 1]]%R, [2; 1]%R, [[fuel; clad]], [fuel; clad], o', out.
    split; [now left|]. split; [now left|]. split; [|exact E]. apply pin_rejects. do 3 right.
    intros H. specialize (H O 2%R 1%R eq_refl eq_refl). lra.
Qed.
Print Assumptions C82_radii_refuted.

(** Nor does it count the materials of a pin: it reads past the end of a shorter list. *)
Theorem C82_materials_refuted : exists o ids xy radii mats W H,
  counted o /\ well_formed (o_gm o) /\ lattice xy ids W H /\ length radii = length xy /\ length mats = length xy /\
  lattice_2d o ids xy radii mats (0, 0)%R = Ub.
Proof.
  exists empty_occ, [[0]], [(1, 1)]%R, [[1]]%R, [[]], [1]%R, [1]%R.
  split; [exact empty_counted|]. split; [exact empty_wf|]. split; [exact small|]. split; [reflexivity|]. split; [reflexivity|].
  unfold lattice_2d. cbn [length Nat.eqb negb rd nth_error bind forallb andb].
  rewrite (of_lattice_ok _ _ _ _ small). reflexivity.
Qed.
Print Assumptions C82_materials_refuted.

(** A lattice without rows is read before it is checked. *)
Theorem C82_no_rows_refuted : exists o xy radii mats,
  length radii = length xy /\ length mats = length xy /\ lattice_2d o [] xy radii mats (0, 0)%R = Ub.
Proof. exists empty_occ, [(1, 1)]%R, [[1]]%R, [[fuel]]. split; [|split]; reflexivity. Qed.
Print Assumptions C82_no_rows_refuted.
