(** Model of um2::gmsh::model::mesh::setMeshFieldFromKnudsenNumber, src/gmsh/mesh.cpp:158-513.

    - gmsh's groups and geometry are the state of Groups_Model; its mesh size fields are a list of numbered
      fields with the background field and three options.  A field is added together with its numbers
      (in the code: add, then setNumber, setNumbers or setString).  Which number a new field gets is a
      parameter.
    - double is the real numbers, but the text of a MathEval field, "F7 * 0.125000 - 0.500000", has what
      std::to_string makes of the numbers: [shown x] is the number denoted by the text of x.  The text
      itself is represented by its parts.
    - LOG_ERROR ends the program (its default): [Fail].  Logged text is left out.
    - The entities of a group are looked up once per material; the code asks gmsh again in each loop. *)
From Coq Require Import String.
From Coq Require Import Reals.
From Coq Require Import List Arith ZArith Bool.
From Verif Require Import Base Loops Arith TextIo_Model XSec_Model Groups_Model Overlay_Model.
Import ListNotations.
Open Scope Z_scope.

(** gmsh::model::mesh::field::add, with the numbers set later *)
Inductive field : Type :=
| Constant (vin : R) (on : list dimtag)
| Distance (from : list dimtag)
| Linear (f : Z) (scale : R) (minus : bool) (offset : R)
| Max (l : list Z)
| Min (l : list Z).
Record mesher : Type := mkMesher {
  fields : list (Z * field);
  background : option Z;
  extend_from_boundary : bool; from_points : bool; from_curvature : bool }.

(** Name and cross section of a Material *)
Record input : Type := mkIn { i_name : string; i_xsec : xsec }.
(** lcs, sigmas_t, is_fissile, is_absorber and the entities of the group, mesh.cpp:234-238 *)
Record data : Type := mkD { d_lc : R; d_sigma : R; d_fissile : bool; d_absorber : bool; d_tags : list Z }.

Section Knudsen.
Variable checks : bool.
Variable new_id : list Z -> Z.
Variable shown : R -> R.
(** dim, kn_target and the thresholds and scales *)
Variable dim : Z.
Variables kn fuel_threshold fuel_scale abs_threshold abs_scale : R.

(** ** Materials and groups *)
(** mesh.cpp:168-182 *)
Definition material_groups (g : gm) : list group :=
  filter (fun x => (g_dim x =? dim) && String.prefix "Material" (g_name x)) (groups g).
(** mesh.cpp:197-213: 10000 is the index of what was not found *)
Definition position (gs : list group) (m : input) : Z :=
  match index_of (map g_name gs) ("Material_" ++ i_name m) with Some i => Z.of_nat i | None => 10000 end.
(** material.hpp:185-188, material.cpp:357-364 *)
Definition has_xsec (x : xsec) : bool := isMacro x && negb (length (xa x) =? 0)%nat.
Definition validate_xsec (x : xsec) : outcome unit :=
  if negb (isMacro x) then Fail else let* _ := XSec_Model.validate x in Ret tt.
(** mesh.cpp:228-234 *)
Fixpoint validate_all (mats : list input) : outcome unit :=
  match mats with
  | [] => Ret tt
  | m :: mats' =>
      if negb (has_xsec (i_xsec m)) then Fail
      else let* _ := validate_xsec (i_xsec m) in validate_all mats'
  end.
(** mesh.cpp:241-275 *)
Definition data_of (gs : list group) (m : input) : outcome data :=
  let* y := collapseTo1GroupAvg (i_xsec m) in
  let* a := rd (xa y) 0 in
  let* s := rd (xs y) 0 in
  let t := (a + s)%R in
  let* _ := ASSERT checks (Rltb 0 t) in
  let* x := rd gs (Z.to_nat (position gs m)) in
  Ret (mkD (12 / (PI * sqrt 3 * kn * t))%R t (isFissile (i_xsec m)) (Rltb (s / t) (2 / 10) && Rltb (9 / 10) t) (g_ents x)).

(** ** Fields *)
Definition add_field (st : mesher) (f : field) : Z * mesher :=
  let id := new_id (map fst (fields st)) in
  (id, mkMesher ((id, f) :: fields st) (background st) (extend_from_boundary st) (from_points st) (from_curvature st)).
(** the switches over dim for PointsList, CurvesList, SurfacesList, VolumesList *)
Definition listed (d max : Z) (tags : list Z) : outcome (list dimtag) :=
  if (0 <=? d) && (d <=? max) then Ret (map (pair d) tags) else Fail.
(** mesh.cpp:278-308 *)
Fixpoint base_fields (ds : list data) (st : mesher) : outcome (list (data * Z) * mesher) :=
  match ds with
  | [] => Ret ([], st)
  | d :: ds' =>
      let* _ := ASSERT checks (negb (length (d_tags d) =? 0)%nat) in
      let* l := listed dim 3 (d_tags d) in
      let '(id, st) := add_field st (Constant (d_lc d) l) in
      let* r := base_fields ds' st in
      Ret ((d, id) :: fst r, snd r)
  end.
(** mesh.cpp:341-348 and 440-446: equal neighbours in a sorted vector; size() - 1 wraps around for an empty
    one, which is then read out of bounds *)
Fixpoint neighbours (l : list Z) : bool :=
  match l with
  | a :: (b :: _) as l' => (a =? b) || neighbours l'
  | _ => false
  end.
Definition no_repeats (l : list Z) : outcome unit :=
  match l with [] => Ub | _ => if neighbours l then Fail else Ret tt end.
(** mesh.cpp:387-408 and 480-501: the line above the threshold, and the maximum with the old field *)
Definition grow (d : data) (id dist : Z) (threshold scale : R) (st : mesher) : Z * mesher :=
  let a := (d_lc d * d_sigma d * scale)%R in
  let b := (d_lc d * (1 - threshold * scale))%R in
  let '(fid, st) := add_field st (if Rleb 0 b then Linear dist (shown a) false (shown b) else Linear dist (shown a) true (shown (- b))) in
  add_field st (Max [id; fid]).
(** mesh.cpp:384-411 *)
Fixpoint grow_fuel (dist : Z) (rows : list (data * Z)) (st : mesher) : list (data * Z) * mesher :=
  match rows with
  | [] => ([], st)
  | (d, id) :: rows' =>
      let '(id, st) := if negb (d_fissile d) && negb (d_absorber d) then grow d id dist fuel_threshold fuel_scale st else (id, st) in
      let '(rest, st) := grow_fuel dist rows' st in
      ((d, id) :: rest, st)
  end.
(** mesh.cpp:314-412 *)
Definition fuel_fields (rows : list (data * Z)) (st : mesher) : outcome (list (data * Z) * mesher) :=
  if Rleb 0 fuel_threshold then
    let* _ := ASSERT checks (Rleb 1 fuel_scale) in
    if forallb (fun r => negb (d_fissile (fst r))) rows then Fail
    else
      let tags := sort_tags (concat (map (fun r => if d_fissile (fst r) then d_tags (fst r) else []) rows)) in
      let* _ := no_repeats tags in
      let* l := listed dim 3 tags in
      let '(dist, st) := add_field st (Distance l) in
      Ret (grow_fuel dist rows st)
  else Ret (rows, st).
(** mesh.cpp:435-457: the boundary of the entities of an absorber *)
Fixpoint boundary (ge : geometry) (tags acc : list Z) : outcome (list Z) :=
  match tags with
  | [] => Ret acc
  | t :: tags' =>
      let downward := sort_tags (map snd (filter (fun x => fst x =? dim - 1) (down ge (dim, t)))) in
      let* _ := ASSERT checks (negb (length downward =? 0)%nat) in
      let* _ := no_repeats downward in
      boundary ge tags' (fold_left (fun acc e => if existsb (Z.eqb e) acc then acc else acc ++ [e]) downward acc)
  end.
(** mesh.cpp:427-503 *)
Fixpoint grow_absorbers (ge : geometry) (rows : list (data * Z)) (st : mesher) : outcome (list (data * Z) * mesher) :=
  match rows with
  | [] => Ret ([], st)
  | (d, id) :: rows' =>
      let* x := if d_absorber d then
          let* tags := boundary ge (d_tags d) [] in
          let* l := listed (dim - 1) 2 (sort_tags tags) in
          let '(dist, st) := add_field st (Distance l) in
          Ret (grow d id dist abs_threshold abs_scale st)
        else Ret (id, st) in
      let* r := grow_absorbers ge rows' (snd x) in
      Ret ((d, fst x) :: fst r, snd r)
  end.
(** mesh.cpp:414-504 *)
Definition absorber_fields (ge : geometry) (rows : list (data * Z)) (st : mesher) : outcome (list (data * Z) * mesher) :=
  if Rleb 0 abs_threshold then
    let* _ := ASSERT checks (Rleb 1 abs_scale) in
    if forallb (fun r => negb (d_absorber (fst r))) rows then Fail else grow_absorbers ge rows st
  else Ret (rows, st).

(** mesh.cpp:158-513 *)
Definition set_mesh_field (g : gm) (mats : list input) (st : mesher) : outcome (Z * mesher) :=
  let gs := material_groups g in
  if negb (length gs =? length mats)%nat then Fail
  else if existsb (fun m => position gs m =? 10000) mats then Fail
  else if Rleb kn 0 then Fail
  else
    let* _ := validate_all mats in
    let* ds := mapo (data_of gs) mats in
    let* r := base_fields ds st in
    let* r := fuel_fields (fst r) (snd r) in
    let* r := absorber_fields (geo g) (fst r) (snd r) in
    let '(id, st) := add_field (snd r) (Min (map snd (fst r))) in
    Ret (0, mkMesher (fields st) (Some id) false false false).
End Knudsen.
