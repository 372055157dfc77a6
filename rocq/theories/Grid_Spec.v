(** What grids and partitions promise. *)
From Coq Require Import List Arith ZArith Reals.
From Verif Require Import Base Loops Grid_Model.
Import ListNotations.
Open Scope R_scope.

(** Cell indices of a grid with [ns] cells per axis. *)
Definition valid_idx (ns idx : list Z) : Prop := Forall2 (fun n i => 0 <= i < n)%Z ns idx.
Definition cells (ns : list Z) : Z := fold_right Z.mul 1%Z ns.
Definition pos_counts (ns : list Z) : Prop := Forall (fun n => 0 < n)%Z ns /\ (cells ns <= intMax)%Z.

(** [flat] numbers the cells 0 .. n-1 without gaps or repetitions. *)
Definition numbering (flat : list Z -> outcome Z) (ns : list Z) : Prop :=
  (forall idx, valid_idx ns idx -> exists k, flat idx = Ret k /\ (0 <= k < cells ns)%Z) /\
  (forall idx idx' k, valid_idx ns idx -> valid_idx ns idx' -> flat idx = Ret k -> flat idx' = Ret k ->
     idx = idx') /\
  (forall k, (0 <= k < cells ns)%Z -> exists idx, valid_idx ns idx /\ flat idx = Ret k).

(** Points in a closed box, in its interior, in the half-open box. *)
Definition in_box (p : list R) (b : box) : Prop := Forall2 (fun x i => fst i <= x <= snd i) p b.
Definition inside (p : list R) (b : box) : Prop := Forall2 (fun x i => fst i < x < snd i) p b.
Definition in_half (p : list R) (b : box) : Prop := Forall2 (fun x i => fst i <= x < snd i) p b.

(** The boxes [bx idx] of the cells tile the box [bb]:
    - a point is in [bb] exactly if it is in some cell;
    - no point is in the interior of two cells;
    - cells that are neighbours along axis d meet exactly in the face between them. *)
Definition tiling (bx : list Z -> outcome box) (ns : list Z) (bb : box) : Prop :=
  (forall idx, valid_idx ns idx -> exists b, bx idx = Ret b /\ length b = length ns /\
     Forall (fun i => fst i < snd i) b) /\
  (forall p, in_box p bb <-> exists idx b, valid_idx ns idx /\ bx idx = Ret b /\ in_box p b) /\
  (forall p idx idx' b b', valid_idx ns idx -> valid_idx ns idx' -> bx idx = Ret b -> bx idx' = Ret b' ->
     inside p b -> inside p b' -> idx = idx') /\
  (forall d i idx idx' b b', valid_idx ns idx -> valid_idx ns idx' ->
     nth_error idx d = Some i -> idx' = upd idx d (i + 1)%Z -> bx idx = Ret b -> bx idx' = Ret b' ->
     exists lo hi, nth_error b d = Some (lo, hi) /\
       forall p, in_box p b /\ in_box p b' <-> in_box p (upd b d (hi, hi))).

(** A usable regular grid. *)
Definition good_grid (g : grid) : Prop :=
  Forall (fun a => 0 < sp a) g /\ pos_counts (map nc g).

(** The quotients the location functions cast to Int are in its range. *)
Definition castable (a : axis) (x : R) : Prop :=
  IZR intMin <= (x - mn a) / sp a < IZR intMax + 1.

(** A usable rectilinear grid: at least two, strictly increasing divisions per axis. *)
Definition increasing (l : list R) : Prop :=
  forall i j a b, (i < j)%nat -> nth_error l i = Some a -> nth_error l j = Some b -> a < b.
Definition good_rgrid (g : rgrid) : Prop :=
  Forall (fun l => (2 <= length l)%nat /\ increasing l) g /\ (cells (numCells g) <= intMax)%Z.

(** 0, w0, w0+w1, ... *)
Fixpoint sums (s : R) (ws : list R) : list R :=
  match ws with
  | [] => [s]
  | w :: ws' => s :: sums (s + w) ws'
  end.

(** [ids], first row on top, is a lattice in which every entry of column j has width
    W[j] and every entry of the i-th row from the bottom has height H[i]. *)
Definition lattice (dxdy : list (R * R)) (ids : list (list Z)) (W H : list R) : Prop :=
  length ids = length H /\ W <> [] /\ H <> [] /\
  Forall (fun w => eps <= w) W /\ Forall (fun h => eps <= h) H /\
  (Z.of_nat (length W) * Z.of_nat (length H) <= intMax)%Z /\
  forall i row, nth_error ids (length H - 1 - i) = Some row -> (i < length H)%nat ->
    length row = length W /\
    forall j id, nth_error row j = Some id ->
      exists d, (0 <= id)%Z /\ nth_error dxdy (Z.to_nat id) = Some d /\
        nth_error W j = Some (fst d) /\ nth_error H i = Some (snd d).
