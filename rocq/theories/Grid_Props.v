(** Property theorems C19 - C22. *)
From Coq Require Import List Arith ZArith Reals Lra Lia.
From Verif Require Import Base Loops Grid_Model Grid_Spec Grid_Proofs.
Import ListNotations.
Open Scope R_scope.

(** C19. For every dimension: getFlatIndex numbers the cells 0 .. totalNumCells()-1
    without gaps or repetitions and without integer overflow. *)
Theorem C19_numbering : forall g, good_grid g -> g <> [] -> numbering (getFlatIndex g) (map nc g).
Proof. exact regular_numbering. Qed.
Print Assumptions C19_numbering.

Theorem C19_totalNumCells : forall g, good_grid g -> totalNumCells (map nc g) = Ret (cells (map nc g)).
Proof. exact regular_total. Qed.
Print Assumptions C19_totalNumCells.

(** The cell boxes tile the bounding box. *)
Theorem C19_tiling : forall g, good_grid g -> tiling (getBox g) (map nc g) (boundingBox g).
Proof. exact regular_tiling. Qed.
Print Assumptions C19_tiling.

(** Every centroid is the midpoint of its box, hence inside of it. *)
Theorem C19_centroid : forall g idx, good_grid g -> valid_idx (map nc g) idx ->
  exists c b, getCellCentroid g idx = Ret c /\ getBox g idx = Ret b /\ inside c b /\
    Forall2 (fun x i => x - fst i = snd i - x) c b.
Proof. exact regular_centroid. Qed.
Print Assumptions C19_centroid.

(** The grid made from a box is one cell that covers the box. *)
Theorem C19_from_box : forall b, Forall (fun i => fst i < snd i) b ->
  Forall (fun a => 0 < sp a) (regular_of_box b) /\ boundingBox (regular_of_box b) = b /\
  map nc (regular_of_box b) = repeat 1%Z (length b).
Proof. exact regular_of_box_ok. Qed.
Print Assumptions C19_from_box.

(** A 3 x 2 x 4 grid, and one in five dimensions. *)
Definition g3 : list axis := [mkAxis 1 (1/2) 3; mkAxis (-1) 2 2; mkAxis 0 1 4].
Definition g5 : list axis := g3 ++ [mkAxis 0 1 5; mkAxis 0 1 2].
Example C19_example : good_grid g3 /\ good_grid g5 /\ valid_idx (map nc g3) [2; 1; 3]%Z /\
  getFlatIndex g3 [2; 1; 3]%Z = Ret 23%Z /\ getFlatIndex g5 [2; 1; 3; 4; 1]%Z = Ret 239%Z.
Proof.
  unfold good_grid, pos_counts, intMax, valid_idx, g5, g3. cbn.
  repeat split; repeat constructor; cbn; lra || lia.
Qed.

(** C20. getCellIndexContaining: per axis the index of the half-open cell that contains
    the coordinate, or -1 if the coordinate is outside of the grid; unless the quotient
    exceeds the range of Int, which is undefined behaviour (see below). *)
Theorem C20_containing : forall g p, good_grid g -> Forall2 castable g p ->
  exists idx, getCellIndexContaining g p = Ret idx /\ length idx = length g /\
    forall d a x, nth_error g d = Some a -> nth_error p d = Some x ->
      exists k, nth_error idx d = Some k /\
        (mn a <= x < maxima a -> (0 <= k < nc a)%Z /\ mn a + sp a * IZR k <= x < mn a + sp a * IZR (k + 1)) /\
        (~ (mn a <= x < maxima a) -> k = (-1)%Z).
Proof. exact containing_ok. Qed.
Print Assumptions C20_containing.

(** In terms of boxes: a point of the (half-open) grid is in the (half-open) box of the
    returned cell; for any other point some index is -1. *)
Theorem C20_containing_box : forall g p, good_grid g -> Forall2 castable g p ->
  exists idx, getCellIndexContaining g p = Ret idx /\
    (in_half p (boundingBox g) -> exists b, valid_idx (map nc g) idx /\ getBox g idx = Ret b /\ in_half p b) /\
    (~ in_half p (boundingBox g) -> In (-1)%Z idx).
Proof. exact containing_box. Qed.
Print Assumptions C20_containing_box.

(** getCellIndicesIntersecting: per axis exactly the (half-open) cells the interval
    meets, clamped to the grid; (-1, -1) if there is none. *)
Theorem C20_intersecting : forall g b, good_grid g ->
  Forall2 (fun a i => castable a (fst i) /\ castable a (snd i)) g b ->
  Forall (fun i => fst i <= snd i) b ->
  exists r, getCellIndicesIntersecting g b = Ret r /\ length r = length g /\
    forall d a i, nth_error g d = Some a -> nth_error b d = Some i ->
      exists k0 k1, nth_error r d = Some (k0, k1) /\
        (forall k, (0 <= k < nc a)%Z ->
          ((k0 <= k <= k1)%Z <-> exists x, fst i <= x <= snd i /\ mn a + sp a * IZR k <= x < mn a + sp a * IZR (k + 1))) /\
        ((k0 = (-1)%Z /\ k1 = (-1)%Z) \/ (0 <= k0 <= k1 /\ k1 < nc a)%Z).
Proof. exact intersecting_ok. Qed.
Print Assumptions C20_intersecting.

Example C20_example : good_grid [mkAxis 1 (1/2) 3; mkAxis (-1) 2 2] /\
  Forall2 castable [mkAxis 1 (1/2) 3; mkAxis (-1) 2 2] [2; 10] /\
  in_half [2; 0] (boundingBox [mkAxis 1 (1/2) 3; mkAxis (-1) 2 2]) /\
  Forall2 (fun a i => castable a (fst i) /\ castable a (snd i))
    [mkAxis 1 (1/2) 3; mkAxis (-1) 2 2] [(0, 2); (5, 7)].
Proof.
  unfold good_grid, pos_counts, castable, in_half, boundingBox, maxima, intMax, intMin. cbn.
  repeat split; repeat constructor; cbn; lra || lia.
Qed.

(** The cast of the quotient to Int is undefined behaviour for a point further away than
    2^31 cells, although the documentation promises -1. *)
Theorem C20_far_point_refuted :
  exists g p, good_grid g /\ length p = length g /\ getCellIndexContaining g p = Ub.
Proof. exact far_point. Qed.
Print Assumptions C20_far_point_refuted.

(** C21. Rectilinear grids of every dimension: numbering and tiling. *)
Theorem C21_numbering : forall g, good_rgrid g -> g <> [] -> numbering (rect_getFlatIndex g) (numCells g).
Proof. exact rect_numbering. Qed.
Print Assumptions C21_numbering.

Theorem C21_tiling : forall g, good_rgrid g ->
  exists bb, rect_boundingBox g = Ret bb /\ tiling (rect_getBox g) (numCells g) bb.
Proof. exact rect_tiling. Qed.
Print Assumptions C21_tiling.

(** The grid made of one box: it is a grid, its bounding box is the box, and it has one cell. *)
Theorem C21_from_box : forall b, Forall (fun i => fst i < snd i) b ->
  good_rgrid (rect_of_box b) /\ rect_boundingBox (rect_of_box b) = Ret b /\
  numCells (rect_of_box b) = repeat 1%Z (length b).
Proof.
  intros b Hb. assert (N : numCells (rect_of_box b) = repeat 1%Z (length b)).
  { clear Hb. unfold numCells, rect_of_box. rewrite map_map. induction b as [|i b IH]; cbn; auto. f_equal. exact IH. }
  assert (C1 : forall n, cells (repeat 1%Z n) = 1%Z).
  { induction n as [|n IH]; [reflexivity|]. cbn. fold (cells (repeat 1%Z n)). rewrite IH. reflexivity. }
  split; [|split; [|exact N]].
  - split; [|rewrite N, C1; unfold intMax; lia]. unfold rect_of_box. apply Forall_map.
    eapply Forall_impl; [|exact Hb]. intros i Hi. split; [cbn; lia|].
    intros [|[|p]] [|[|q]] x y Hpq Hx Hy; cbn in Hx, Hy; try lia; try discriminate;
      try (destruct p; discriminate); try (destruct q; discriminate). injection Hx as <-. injection Hy as <-. exact Hi.
  - clear Hb N C1. unfold rect_boundingBox, rect_of_box. induction b as [|i b IH]; [reflexivity|].
    cbn in IH |- *. rewrite IH. cbn. now destruct i.
Qed.
Print Assumptions C21_from_box.
Example C21_from_box_ex : Forall (fun i => fst i < snd i) [(0, 2); (-1, 1)] /\ rect_of_box [(0, 2); (-1, 1)] = [[0; 2]; [-1; 1]].
Proof. split; [repeat constructor; cbn; lra|reflexivity]. Qed.

(** A grid built from boxes: along each axis the divisions are strictly increasing, at
    least eps apart, each of them is an edge of some box, and every edge of every box is
    a division up to eps. *)
Theorem C21_from_boxes : forall D boxes g, rect_of_boxes D boxes = Ret g ->
  length g = D /\ totalNumCells (numCells g) = Ret (Z.of_nat (length boxes)) /\
  forall d l, nth_error g d = Some l ->
    increasing l /\
    (forall a b, In a l -> In b l -> a <> b -> eps <= Rabs (a - b)) /\
    (forall x, In x l -> exists b i, In b boxes /\ nth_error b d = Some i /\ (x = fst i \/ x = snd i)) /\
    (forall b i x, In b boxes -> nth_error b d = Some i -> x = fst i \/ x = snd i ->
       exists y, In y l /\ Rabs (y - x) < eps).
Proof. exact of_boxes_ok. Qed.
Print Assumptions C21_from_boxes.

(** A grid built from a lattice of cells with column widths W and, bottom up, row heights
    H: the divisions are the partial sums from 0. *)
Theorem C21_from_lattice : forall dxdy ids W H, lattice dxdy ids W H ->
  rect_of_lattice dxdy ids = Ret [sums 0 W; sums 0 H].
Proof. exact of_lattice_ok. Qed.
Print Assumptions C21_from_lattice.

(** So the cell in column j and row i above the bottom has the extents of the lattice
    entry in column j of row (nrows - 1 - i): the first row of ids is on top. *)
Theorem C21_lattice_layout : forall dxdy ids W H g i j row id d,
  lattice dxdy ids W H -> rect_of_lattice dxdy ids = Ret g ->
  (i < length H)%nat -> nth_error ids (length H - 1 - i) = Some row -> nth_error row j = Some id ->
  nth_error dxdy (Z.to_nat id) = Some d ->
  exists lx hx ly hy, rect_getBox g [Z.of_nat j; Z.of_nat i] = Ret [(lx, hx); (ly, hy)] /\
    hx - lx = fst d /\ hy - ly = snd d.
Proof. exact lattice_cell. Qed.
Print Assumptions C21_lattice_layout.

(** A 3 x 2 lattice with different widths and heights. *)
Example C21_example :
  lattice [(1, 3); (2, 3); (1, 4); (2, 4)] [[0; 1; 0]; [2; 3; 2]]%Z [1; 2; 1] [4; 3] /\
  good_rgrid [sums 0 [1; 2; 1]; sums 0 [4; 3]] /\
  (exists g, rect_of_boxes 2 [[(0, 1); (0, 4)]; [(1, 3); (0, 4)]] = Ret g).
Proof.
  assert (He : eps < 1) by (unfold eps; lra).
  split; [|split].
  - unfold lattice. split; [reflexivity|]. split; [discriminate|]. split; [discriminate|].
    split; [repeat constructor; lra|]. split; [repeat constructor; lra|].
    split; [cbn; unfold intMax; lia|].
    intros [|[|i]] row E Hi; cbn in *; try lia; injection E as <-; (split; [reflexivity|]).
    + intros [|[|[|j]]] id; cbn; try (intros [= <-]; eexists; repeat split; cbn; (reflexivity || lia)).
      destruct j; discriminate.
    + intros [|[|[|j]]] id; cbn; try (intros [= <-]; eexists; repeat split; cbn; (reflexivity || lia)).
      destruct j; discriminate.
  - split; [|cbn; unfold intMax; lia].
    constructor; [|constructor; [|constructor]].
    + split; [cbn; lia|]. apply sums_good. repeat constructor; lra.
    + split; [cbn; lia|]. apply sums_good. repeat constructor; lra.
  - unfold rect_of_boxes. cbn [seq mapo divs_of rd nth_error bind].
    rewrite (divs_exact [(0, 1); (1, 3)] (sums 0 [1; 2])).
    + rewrite (divs_exact [(0, 4); (0, 4)] (sums 0 [4])).
      * eexists. cbn. reflexivity.
      * apply sums_good. repeat constructor; lra.
      * apply sums_good. repeat constructor; lra.
      * intros x. cbn. replace (0 + 4) with 4 by lra. tauto.
    + apply sums_good. repeat constructor; lra.
    + apply sums_good. repeat constructor; lra.
    + intros x. cbn. replace (0 + 1) with 1 by lra. replace (1 + 2) with 3 by lra. tauto.
Qed.

(** "An index outside the grid is never mapped onto another cell" is false: the assertion
    compares with the number of divisions, one more than the number of cells. *)
Theorem C21_flat_index_refuted : exists g i j, good_rgrid g /\ ~ valid_idx (numCells g) i /\
  valid_idx (numCells g) j /\ rect_getFlatIndex g i = rect_getFlatIndex g j /\
  exists k, rect_getFlatIndex g j = Ret k.
Proof. exact rect_flat_collision. Qed.
Print Assumptions C21_flat_index_refuted.

(** C22. A rectilinear partition made from a lattice of ids: getChild(i, j) is the id in
    column i of the j-th row from the bottom; there are exactly ncols * nrows children. *)
Theorem C22_from_lattice : forall P cast dflt dxdy ids W H, lattice dxdy ids W H ->
  exists g ch, rect_partition_of_lattice P cast dflt dxdy ids = Ret (g, ch) /\
    rect_of_lattice dxdy ids = Ret g /\ length ch = (length W * length H)%nat /\
    forall i j row id, (j < length H)%nat -> nth_error ids (length H - 1 - j) = Some row ->
      nth_error row i = Some id ->
      rect_getChild P (g, ch) [Z.of_nat i; Z.of_nat j] = Ret (cast id).
Proof. exact rect_partition_ok. Qed.
Print Assumptions C22_from_lattice.

(** A regular partition of any dimension: the given children are reached each by exactly
    the cell whose flat index is the child's position. *)
Theorem C22_regular : forall P g ch, good_grid g -> g <> [] -> Z.of_nat (length ch) = cells (map nc g) ->
  regular_partition P g ch = Ret (g, ch) /\
  (forall k c, nth_error ch k = Some c ->
     exists idx, valid_idx (map nc g) idx /\ getFlatIndex g idx = Ret (Z.of_nat k) /\
       regular_getChild P (g, ch) idx = Ret c) /\
  (forall idx, valid_idx (map nc g) idx -> exists k c, getFlatIndex g idx = Ret (Z.of_nat k) /\
       nth_error ch k = Some c /\ regular_getChild P (g, ch) idx = Ret c).
Proof. exact regular_partition_ok. Qed.
Print Assumptions C22_regular.

(** C21_example is an instance of C22_from_lattice; here one for C22_regular. *)
Example C22_example : good_grid [mkAxis 1 (1/2) 3; mkAxis (-1) 2 2] /\
  Z.of_nat (length [5; 6; 7; 8; 9; 9]%nat) = cells (map nc [mkAxis 1 (1/2) 3; mkAxis (-1) 2 2]) /\
  regular_getChild nat ([mkAxis 1 (1/2) 3; mkAxis (-1) 2 2], [5; 6; 7; 8; 9; 9]%nat) [1; 1]%Z = Ret 9%nat.
Proof.
  unfold good_grid, pos_counts, intMax. cbn. repeat split; repeat constructor; cbn; lra || lia.
Qed.
