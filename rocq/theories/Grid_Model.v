(** Model of include/um2/mesh/regular_grid.hpp, rectilinear_grid.hpp,
    regular_partition.hpp and rectilinear_partition.hpp.

    - The dimension D is the length of the lists; everything is modelled for every D.
    - A D-vector of minima, one of spacings and one of cell counts is represented as one
      list with an [axis] per dimension; a box is a list of intervals (minimum, maximum).
    - Floating point numbers are real numbers (no rounding); Int is int32_t with
      overflow as [Ub], and so is the cast of a float outside of its range.
    - ASSERT is modelled as active (a failing one is [Fail]); the theorems show that no
      assertion fails, so they hold in release builds, where it does nothing. *)
From Coq Require Import List Arith ZArith Reals Bool.
From Verif Require Import Base Loops.
Import ListNotations.
Open Scope R_scope.

Notation interval := (R * R)%type (only parsing).
Notation box := (list (R * R)) (only parsing).

(** ** Flat indices (both kinds of grid) *)

(** regular_grid.hpp:230-239, rectilinear_grid.hpp:316-325 *)
Definition totalNumCells (ns : list Z) : outcome Z :=
  fold_left (fun r n => let* t := r in i32 (t * n)%Z) ns (Ret 1%Z).

(** regular_grid.hpp:321-326, rectilinear_grid.hpp:362-367: exclusive_scan_prod *)
Fixpoint scan_prod (s : Z) (ns : list Z) : outcome (list Z) :=
  match ns with
  | [] => Ret []
  | [n] => Ret [s]
  | n :: ns' => let* s' := i32 (s * n)%Z in let* r := scan_prod s' ns' in Ret (s :: r)
  end.
(** math/vec.hpp:728-737: dot; [acc] is the sum so far *)
Fixpoint dot_loop (acc : Z) (xs ys : list Z) : outcome Z :=
  match xs, ys with
  | x :: xs', y :: ys' =>
      let* p := i32 (x * y)%Z in let* a := i32 (acc + p)%Z in dot_loop a xs' ys'
  | _, _ => Ret acc
  end.
Definition dot (xs ys : list Z) : outcome Z :=
  match xs, ys with
  | x :: xs', y :: ys' => let* p := i32 (x * y)%Z in dot_loop p xs' ys'
  | _, _ => Ub
  end.

(** regular_grid.hpp:312-330, rectilinear_grid.hpp:353-371, behind the assertions; [ns]
    are the numbers of cells *)
Definition flatIndex (ns idx : list Z) : outcome Z :=
  match ns, idx with
  | [_], [i0] => Ret i0
  | [n0; _], [i0; i1] => let* a := i32 (i1 * n0)%Z in i32 (i0 + a)%Z
  | [n0; n1; _], [i0; i1; i2] =>
      let* a := i32 (i2 * n1)%Z in
      let* b := i32 (i1 + a)%Z in
      let* c := i32 (n0 * b)%Z in
      i32 (i0 + c)%Z
  | _, _ => let* e := scan_prod 1 ns in dot idx e
  end.

(** ** RegularGrid *)
Record axis := mkAxis { mn : R; sp : R; nc : Z }.
Notation grid := (list axis) (only parsing).

(** regular_grid.hpp:166-174 (the member functions minima() and maxima() are meant) *)
Definition regular_of_box (b : box) : grid := map (fun i => mkAxis (fst i) (snd i - fst i) 1) b.

(** regular_grid.hpp:311-313 and 333-341 *)
Definition getFlatIndex (g : grid) (idx : list Z) : outcome Z :=
  if forallb (fun p => snd p <? nc (fst p))%Z (combine g idx) then flatIndex (map nc g) idx
  else Fail.

(** regular_grid.hpp:254-288: extents, maxima, boundingBox *)
Definition maxima (a : axis) : R := mn a + sp a * IZR (nc a).
Definition boundingBox (g : grid) : box := map (fun a => (mn a, maxima a)) g.

(** regular_grid.hpp:290-305 *)
Definition getBox (g : grid) (idx : list Z) : outcome box :=
  if forallb (fun p => snd p <? nc (fst p))%Z (combine g idx) then
    map2o (fun a i => let m := mn a + sp a * IZR i in Ret (m, m + sp a)) g idx
  else Fail.

(** regular_grid.hpp:343-359 *)
Definition getCellCentroid (g : grid) (idx : list Z) : outcome (list R) :=
  if forallb (fun p => snd p <? nc (fst p))%Z (combine g idx) then
    map2o (fun a i => Ret (mn a + sp a * (IZR i + 1 / 2))) g idx
  else Fail.

(** um2::floor followed by static_cast<Int> *)
Definition floor_int (x : R) : outcome Z := i32 (Int_part x).
(** stdlib/algorithm/clamp.hpp:9-18; lo > hi is an ASSERT_ASSUME violation *)
Definition clamp (v lo hi : Z) : outcome Z :=
  if (hi <? lo)%Z then Ub
  else Ret (if v <? lo then lo else if hi <? v then hi else v)%Z.

(** regular_grid.hpp:361-387; per axis the pair (result[i], result[i+D]) *)
Definition getCellIndicesIntersecting (g : grid) (b : box) : outcome (list (Z * Z)) :=
  map2o (fun a i =>
    let* k0 := floor_int ((fst i - mn a) / sp a) in
    let* k1 := floor_int ((snd i - mn a) / sp a) in
    let* m := i32 (nc a - 1)%Z in
    if ((m <? k0) || (k1 <? 0))%Z%bool then Ret (-1, -1)%Z
    else
      let* c0 := clamp k0 0 m in
      let* c1 := clamp k1 0 m in
      Ret (c0, c1)) g b.

(** regular_grid.hpp:389-407 *)
Definition getCellIndexContaining (g : grid) (p : list R) : outcome (list Z) :=
  map2o (fun a x =>
    let* k := floor_int ((x - mn a) / sp a) in
    let* m := i32 (nc a - 1)%Z in
    if ((m <? k) || (k <? 0))%Z%bool then Ret (-1)%Z
    else clamp k 0 m) g p.

(** ** RectilinearGrid: the divisions along each axis *)
Notation rgrid := (list (list R)) (only parsing).

(** rectilinear_grid.hpp:137-145 *)
Definition rect_of_box (b : box) : rgrid := map (fun i => [fst i; snd i]) b.

(** math/vec.hpp: epsDistance<double>() *)
Definition eps : R := 1 / 10000000.

(** rectilinear_grid.hpp:155-163 / 164-172: one edge *)
Definition add_div (l : list R) (x : R) : list R :=
  if existsb (fun d => if Rlt_dec (Rabs (d - x)) eps then true else false) l then l
  else l ++ [x].

(** std::sort on doubles: the sorted sequence with the same elements (unique) *)
Fixpoint insert (x : R) (l : list R) : list R :=
  match l with
  | [] => [x]
  | y :: l' => if Rle_dec x y then x :: l else y :: insert x l'
  end.
Definition sort (l : list R) : list R := fold_right insert [] l.

(** rectilinear_grid.hpp:147-182; the axes are independent, so each is built on its own;
    the last line is the ASSERT on the number of cells *)
Definition divs_of (boxes : list box) (d : nat) : outcome (list R) :=
  let* is := mapo (fun b => rd b d) boxes in
  Ret (sort (fold_left (fun l i => add_div (add_div l (fst i)) (snd i)) is [])).
Definition numCells (g : rgrid) : list Z := map (fun l => Z.of_nat (length l) - 1)%Z g.
Definition rect_of_boxes (D : nat) (boxes : list box) : outcome rgrid :=
  let* g := mapo (divs_of boxes) (seq 0 D) in
  let* n := totalNumCells (numCells g) in
  if (n =? Z.of_nat (length boxes))%Z then Ret g else Fail.

(** rectilinear_grid.hpp:199-212: the boxes of one row; [x] and [y] are lo *)
Fixpoint row_boxes (dxdy : list (R * R)) (row : list Z) (x y : R) : outcome (list box) :=
  match row with
  | [] => Ret []
  | id :: row' =>
      let* d := rdz dxdy id in
      let* r := row_boxes dxdy row' (x + fst d) y in
      Ret ([(x, x + fst d); (y, y + snd d)] :: r)
  end.
(** rectilinear_grid.hpp:196-213; [rows] are the remaining rows, bottom row first *)
Fixpoint rows_boxes (dxdy : list (R * R)) (rows : list (list Z)) (y : R) : outcome (list box) :=
  match rows with
  | [] => Ret []
  | row :: rows' =>
      let* b := row_boxes dxdy row 0 y in
      let* id := rdz row 0 in
      let* d := rdz dxdy id in
      let* r := rows_boxes dxdy rows' (y + snd d) in
      Ret (b ++ r)
  end.
(** rectilinear_grid.hpp:184-215 (D = 2) *)
Definition rect_of_lattice (dxdy : list (R * R)) (ids : list (list Z)) : outcome rgrid :=
  let* row0 := rd ids 0 in
  if forallb (fun row => (length row =? length row0) && forallb (fun id => 0 <=? id)%Z row)%bool (tl ids)
  then
    let* boxes := rows_boxes dxdy (rev ids) 0 in
    rect_of_boxes 2 boxes
  else Fail.

(** rectilinear_grid.hpp:240-281, 341-345: front() and back() of each axis *)
Definition rect_boundingBox (g : rgrid) : outcome box :=
  mapo (fun l => let* a := rd l 0 in let* b := rd l (length l - 1) in Ret (a, b)) g.

(** rectilinear_grid.hpp:347-382; the assertion compares with the number of divisions *)
Definition rect_getFlatIndex (g : rgrid) (idx : list Z) : outcome Z :=
  if forallb (fun p => snd p <? Z.of_nat (length (fst p)))%Z (combine g idx)
  then flatIndex (numCells g) idx else Fail.

(** rectilinear_grid.hpp:384-401 *)
Definition rect_getBox (g : rgrid) (idx : list Z) : outcome box :=
  if forallb (fun p => snd p + 1 <? Z.of_nat (length (fst p)))%Z (combine g idx) then
    map2o (fun l i => let* a := rdz l i in let* b := rdz l (i + 1)%Z in Ret (a, b)) g idx
  else Fail.

(** ** Partitions *)
Section Partition.
  Variable P : Type.

  (** regular_partition.hpp:89-97 *)
  Definition regular_partition (g : grid) (children : list P) : outcome (grid * list P) :=
    let* n := totalNumCells (map nc g) in
    if (n =? Z.of_nat (length children))%Z then Ret (g, children) else Fail.
  (** regular_partition.hpp:119-135 *)
  Definition regular_getChild (p : grid * list P) (idx : list Z) : outcome P :=
    let* k := getFlatIndex (fst p) idx in rdz (snd p) k.

  (** rectilinear_partition.hpp:92-100 *)
  Definition rect_partition (g : rgrid) (children : list P) : outcome (rgrid * list P) :=
    let* n := totalNumCells (numCells g) in
    if (n =? Z.of_nat (length children))%Z then Ret (g, children) else Fail.
  (** rectilinear_partition.hpp:150-166 *)
  Definition rect_getChild (p : rgrid * list P) (idx : list Z) : outcome P :=
    let* k := rect_getFlatIndex (fst p) idx in rdz (snd p) k.

  (** rectilinear_partition.hpp:102-119; [cast] is static_cast<P>(Int), [dflt] the value
      resize leaves in the new elements *)
  Variable cast : Z -> P.
  Variable dflt : P.
  Definition rect_partition_of_lattice (dxdy : list (R * R)) (ids : list (list Z))
      : outcome (rgrid * list P) :=
    let* g := rect_of_lattice dxdy ids in
    let* lx := rd g 0 in
    let* ly := rd g 1 in
    let nx := (length lx - 1)%nat in
    let ny := (length ly - 1)%nat in
    let* ch := for_ ny 0 (fun i ch =>
      for_ nx 0 (fun j ch =>
        let* row := rd ids (ny - 1 - i) in
        let* id := rd row j in
        wr ch (i * nx + j)%nat (cast id)) ch) (repeat dflt (nx * ny)%nat) in
    Ret (g, ch).
End Partition.
