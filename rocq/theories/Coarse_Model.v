(** Model of the first part of overlayCoarseGrid, src/gmsh/model.cpp:1090-1206: where each coarse cell
    of an MPACT model first occurs in its core.

    The MPACT model is that of Mpact_Model with assertions enabled, and its Grid_Model accessors.  The
    flags asy_found, lat_found and rtm_found are lists of booleans; cc_found, cc_lower_lefts and
    cc_extents are one list of optional places.  castIfNot is the identity on real numbers. *)
From Coq Require Import List Arith ZArith Bool Reals.
From Verif Require Import Base Loops Grid_Model Mpact_Model.
Import ListNotations.
Local Open Scope R_scope.

(** model.cpp:1116-1117.  Lower left corner and extents of a coarse cell at the cut plane; [e_z] is half of the thickness. *)
Record place : Type := mkPlace { l_x : R; l_y : R; l_z : R; e_x : R; e_y : R; e_z : R }.
(** model.cpp:1116-1121 *)
Record found : Type := mkF { f_asy : list bool; f_lat : list bool; f_rtm : list bool; f_cc : list (option place) }.

(** v[i] = x for an index that may be negative, as model.cpp:1137 *)
Definition wrz {A} (l : list A) (i : Z) (a : A) : outcome (list A) :=
  if (i <? 0)%Z then Ub else wr l (Z.to_nat i) a.

(** model.cpp:1185-1197; [ll] is the corner of the assembly and [rl] that of the RTM in the assembly. *)
Definition visit_cell (rtm : list (list R) * list Z) (ll rl : R * R) (z dz : R) (ix iy : nat) (s : found)
    : outcome found :=
  let* id := rect_getChild Z rtm [Z.of_nat ix; Z.of_nat iy] in
  let* f := rdz (f_cc s) id in
  match f with
  | Some _ => Ret s
  | None =>
      let* b := rect_getBox (fst rtm) [Z.of_nat ix; Z.of_nat iy] in
      let* bx := rd b 0 in
      let* by_ := rd b 1 in
      let* cc := wrz (f_cc s) id (Some (mkPlace (fst ll + fst rl + fst bx) (snd ll + snd rl + fst by_) z
                                          (snd bx - fst bx) (snd by_ - fst by_) dz)) in
      Ret (mkF (f_asy s) (f_lat s) (f_rtm s) cc)
  end.

(** numCells(i) of a rectilinear grid, model.cpp:1130, 1146, 1181 *)
Definition ncells (g : list (list R)) (i : nat) : outcome nat :=
  let* l := rd g i in Ret (length l - 1)%nat.

(** model.cpp:1168-1199 *)
Definition visit_rtm (m : model) (lat : list axis * list Z) (ll : R * R) (z dz : R) (ix iy : nat) (s : found)
    : outcome found :=
  let* id := regular_getChild Z lat [Z.of_nat ix; Z.of_nat iy] in
  let* f := rdz (f_rtm s) id in
  if f then Ret s
  else
    let* fr := wrz (f_rtm s) id true in
    let s := mkF (f_asy s) (f_lat s) fr (f_cc s) in
    let* b := getBox (fst lat) [Z.of_nat ix; Z.of_nat iy] in
    let* bx := rd b 0 in
    let* by_ := rd b 1 in
    let* rtm := rdz (rtms m) id in
    match snd rtm with
    | [] => Fail
    | _ =>
        let* ny := ncells (fst rtm) 1 in
        let* nx := ncells (fst rtm) 0 in
        for_ ny 0 (fun iy => for_ nx 0 (fun ix => visit_cell rtm ll (fst bx, fst by_) z dz ix iy)) s
    end.

(** model.cpp:1148-1201 *)
Definition visit_lattice (m : model) (asy : list (list R) * list Z) (ll : R * R) (iz : nat) (s : found) : outcome found :=
  let* id := rect_getChild Z asy [Z.of_nat iz] in
  let* f := rdz (f_lat s) id in
  if f then Ret s
  else
    let* fl := wrz (f_lat s) id true in
    let s := mkF (f_asy s) fl (f_rtm s) (f_cc s) in
    let* zs := rd (fst asy) 0 in
    let* low := rd zs iz in
    let* high := rd zs (iz + 1) in
    let z := (low + high) / 2 in
    let dz := (high - low) / 2 in
    let* lat := rdz (lattices m) id in
    match snd lat with
    | [] => Fail
    | _ =>
        let* ay := rd (fst lat) 1 in
        let* ax := rd (fst lat) 0 in
        for_ (Z.to_nat (nc ay)) 0 (fun iy => for_ (Z.to_nat (nc ax)) 0 (fun ix => visit_rtm m lat ll z dz ix iy)) s
    end.

(** model.cpp:1133-1202 *)
Definition visit_assembly (m : model) (ix iy : nat) (s : found) : outcome found :=
  let* id := rect_getChild Z (core m) [Z.of_nat ix; Z.of_nat iy] in
  let* f := rdz (f_asy s) id in
  if f then Ret s
  else
    let* fa := wrz (f_asy s) id true in
    let s := mkF fa (f_lat s) (f_rtm s) (f_cc s) in
    let* b := rect_getBox (fst (core m)) [Z.of_nat ix; Z.of_nat iy] in
    let* bx := rd b 0 in
    let* by_ := rd b 1 in
    let* asy := rdz (assemblies m) id in
    match snd asy with
    | [] => Fail
    | _ =>
        let* nz := ncells (fst asy) 0 in
        for_ nz 0 (visit_lattice m asy (fst bx, fst by_)) s
    end.

(** model.cpp:1114-1204 *)
Definition find_cells (m : model) : outcome (list (option place)) :=
  match snd (core m) with
  | [] => Fail
  | _ =>
      let* ny := ncells (fst (core m)) 1 in
      let* nx := ncells (fst (core m)) 0 in
      let* s := for_ ny 0 (fun iy => for_ nx 0 (fun ix => visit_assembly m ix iy))
                  (mkF (repeat false (length (assemblies m))) (repeat false (length (lattices m)))
                       (repeat false (length (rtms m))) (repeat None (length (cells m)))) in
      Ret (f_cc s)
  end.
