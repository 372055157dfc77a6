(** Model of addCylindricalPin2D and addCylindricalPinLattice2D, src/gmsh/model.cpp:665-724 and 749-863.

    The geometry kernel is modelled as far as these functions use it: circles, loops of one circle,
    and plane surfaces bounded by loops, each with a tag that is one more than the largest so far.
    Radii and coordinates are real numbers, so castIfNot is the identity.  A surface is an entity of
    the gmsh model, with its circles as its boundary, as soon as it is made; the code synchronizes
    before it looks.  The points on the circles are left out. *)
From Coq Require Import String Reals.
From Coq Require Import List Arith ZArith Lia Bool.
From Verif Require Import Base Loops Grid_Model Groups_Model.
Import ListNotations.
Open Scope Z_scope.

(** A circle, a loop of one circle and a surface with its loops, by tag, with the largest tags. *)
Record circle : Type := mkC { c_x : R; c_y : R; c_r : R }.
Record occ : Type := mkO {
  n_curves : Z; n_loops : Z; n_surfs : Z;
  o_circles : list (Z * circle);
  o_loops : list (Z * Z);
  o_surfs : list (Z * list Z);
  o_gm : gm }.

Definition lookup {A} (k : Z) (l : list (Z * A)) : option A :=
  option_map snd (find (fun p => fst p =? k) l).

(** gmsh::model::occ::addCircle(x, y, 0, r), lines 694, 700, 811, 819 *)
Definition add_circle (o : occ) (x y r : R) : occ * Z :=
  let k := n_curves o + 1 in
  (mkO k (n_loops o) (n_surfs o) ((k, mkC x y r) :: o_circles o) (o_loops o) (o_surfs o) (o_gm o), k).
(** gmsh::model::occ::addCurveLoop({c}), lines 695, 701, 812, 820 *)
Definition add_loop (o : occ) (c : Z) : occ * Z :=
  let k := n_loops o + 1 in
  (mkO (n_curves o) k (n_surfs o) (o_circles o) ((k, c) :: o_loops o) (o_surfs o) (o_gm o), k).
(** gmsh::model::occ::addPlaneSurface(ls), lines 696, 702, 813, 822: the first loop is the outer
    boundary *)
Definition curves_of (o : occ) (ls : list Z) : list dimtag :=
  flat_map (fun l => match lookup l (o_loops o) with Some c => [(1, c)] | None => [] end) ls.
Definition add_surface (o : occ) (ls : list Z) : occ * Z :=
  let k := n_surfs o + 1 in
  let ge := geo (o_gm o) in
  let ge' := mkGeo ((2, k) :: ents ge)
               (fun d => if pair_eq d (2, k) then curves_of o ls else down ge d) (paint ge) in
  (mkO (n_curves o) (n_loops o) k (o_circles o) (o_loops o) ((k, ls) :: o_surfs o)
     (mkGm (groups (o_gm o)) ge'), k).

(** Lines 699-706 and 817-827: the annuli around the loop [prev]. *)
Fixpoint annuli (o : occ) (x y : R) (rs : list R) (prev : Z) : occ * list Z :=
  match rs with
  | [] => (o, [])
  | r :: rs' =>
      let '(o, c) := add_circle o x y r in
      let '(o, l) := add_loop o c in
      let '(o, s) := add_surface o [l; prev] in
      let '(o, ts) := annuli o x y rs' l in
      (o, s :: ts)
  end.
(** Lines 694-706 and 811-827: disk and annuli. *)
Definition pin_surfaces (o : occ) (x y : R) (rs : list R) : occ * list Z :=
  match rs with
  | [] => (o, [])
  | r0 :: rs' =>
      let '(o, c) := add_circle o x y r0 in
      let '(o, l) := add_loop o c in
      let '(o, s) := add_surface o [l] in
      let '(o, ts) := annuli o x y rs' l in
      (o, s :: ts)
  end.

(** The groups and colours are those of [g]. *)
Definition with_gm (o : occ) (g : gm) : occ :=
  mkO (n_curves o) (n_loops o) (n_surfs o) (o_circles o) (o_loops o) (o_surfs o) g.
(** Lines 711-721 and 842-858: the surfaces of a material join its group and take its colour. *)
Definition assign (g : gm) (ts : list Z) (m : material) : outcome gm :=
  let* g := add_to_group g 2 ts (-1) (material_group m) in
  Ret (mkGm (groups g) (set_colour (geo g) (map (pair 2) ts) (m_colour m))).

(** Lines 709-722: one surface per material *)
Fixpoint assign_each (g : gm) (ts : list Z) (ms : list material) : outcome gm :=
  match ts, ms with
  | t :: ts', m :: ms' => let* g' := assign g [t] m in assign_each g' ts' ms'
  | _, _ => Ret g
  end.

(** um2::is_sorted of the radii, line 685 *)
Fixpoint sorted_radii (l : list R) : bool :=
  match l with
  | a :: ((b :: _) as r) => (if Rlt_dec b a then false else true) && sorted_radii r
  | _ => true
  end.

(** addCylindricalPin2D, src/gmsh/model.cpp:665-724 *)
Definition pin_2d (o : occ) (x y : R) (rs : list R) (ms : list material) : outcome (occ * list Z) :=
  match rs with
  | [] => Fail
  | r0 :: _ =>
      if negb (length rs =? length ms)%nat then Fail
      else if (if Rle_dec r0 0 then true else false) then Fail
      else if negb (sorted_radii rs) then Fail
      else
        let '(o, ts) := pin_surfaces o x y rs in
        let* g := assign_each (o_gm o) ts ms in
        Ret (with_gm o g, ts)
  end.

(** * addCylindricalPinLattice2D, src/gmsh/model.cpp:749-863 *)
(** material_ids[k].emplace_back, lines 814 and 824 *)
Fixpoint append_each (ids : list (list Z)) (ts : list Z) : list (list Z) :=
  match ids, ts with
  | l :: ids', t :: ts' => (l ++ [t]) :: append_each ids' ts'
  | _, _ => ids
  end.
(** Lines 804-829: one row, left to right; [s] is the kernel, the surfaces per material and the
    surfaces to be returned. *)
Fixpoint row_pins (grid : list (list R)) (off : R * R) (pin : Z) (rs : list R) (row : list Z) (i j : nat)
    (s : occ * list (list Z) * list Z) : outcome (occ * list (list Z) * list Z) :=
  match row with
  | [] => Ret s
  | id :: row' =>
      let* s' :=
        if id =? pin then
          let* b := rect_getBox grid [Z.of_nat i; Z.of_nat j] in
          let* bx := rd b 0 in
          let* by_ := rd b 1 in
          let x := ((fst bx + snd bx) / 2 + fst off)%R in
          let y := ((fst by_ + snd by_) / 2 + snd off)%R in
          let '(o, ids, out) := s in
          let '(o, ts) := pin_surfaces o x y rs in
          Ret (o, append_each ids ts, out ++ ts)
        else Ret s in
      row_pins grid off pin rs row' (S i) j s'
  end.
(** Lines 802-830: the rows from the last, which is the bottom one, to the first. *)
Fixpoint rows_pins (grid : list (list R)) (off : R * R) (pin : Z) (rs : list R) (rows : list (list Z)) (j : nat)
    (s : occ * list (list Z) * list Z) : outcome (occ * list (list Z) * list Z) :=
  match rows with
  | [] => Ret s
  | row :: rows' =>
      let* s' := row_pins grid off pin rs row 0 j s in
      rows_pins grid off pin rs rows' (S j) s'
  end.
(** Lines 835-859: the materials of one kind of pin. *)
Fixpoint assign_mats (g : gm) (ids : list (list Z)) (ms : list material) (imat : nat) : outcome gm :=
  match ids with
  | [] => Ret g
  | l :: ids' =>
      let* m := rd ms imat in
      let* g' := match l with [] => Ret g | _ => assign g l m end in
      assign_mats g' ids' ms (S imat)
  end.
(** Lines 795-860: one kind of pin. *)
Definition one_pin (grid : list (list R)) (off : R * R) (pin_ids : list (list Z)) (radii : list (list R))
    (mats : list (list material)) (pin : nat) (s : occ * list Z) : outcome (occ * list Z) :=
  let* rs := rd radii pin in
  match rs with
  | [] => Ret s
  | _ =>
      let '(o, out) := s in
      let* s' := rows_pins grid off (Z.of_nat pin) rs (rev pin_ids) 0 (o, repeat [] (length rs), out) in
      let '(o, ids, out) := s' in
      let* ms := rd mats pin in
      let* g := assign_mats (o_gm o) ids ms 0 in
      Ret (with_gm o g, out)
  end.
(** The whole function; pin_ids[0] of no rows (line 773) is undefined. *)
Definition lattice_2d (o : occ) (pin_ids : list (list Z)) (xy : list (R * R)) (radii : list (list R))
    (mats : list (list material)) (off : R * R) : outcome (occ * list Z) :=
  let n := length radii in
  if (n =? 0)%nat then Fail
  else if negb (n =? length mats)%nat then Fail
  else if negb (n =? length xy)%nat then Fail
  else
    let* row0 := rd pin_ids 0 in
    if negb (forallb (fun row => (length row =? length row0)%nat) pin_ids) then Fail
    else if negb (forallb (forallb (fun id => (0 <=? id) && (id <? Z.of_nat n))) pin_ids) then Fail
    else
      let* grid := rect_of_lattice xy pin_ids in
      for_ n 0 (one_pin grid off pin_ids radii mats) (o, []).
