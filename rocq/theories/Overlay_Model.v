(** Model of the second part of overlayCoarseGrid, src/gmsh/model.cpp:1206-1321 (with 1105-1113): the
    rectangles or boxes of the coarse cells, their groups, the fragments, and what is removed.  For a
    model of surfaces this is the whole rest of the function; the last step for a model of volumes,
    lines 1322-1411, is in Slice_Model.

    gmsh is the state of Groups_Model.  addRectangle and addBox are a parameter, as is the operation
    of the geometry kernel.  The places are those of Coarse_Model; the vectors of corners and extents
    are value-initialised, so that a cell without a place has zeros. *)
From Coq Require Import String.
From Coq Require Import Reals.
From Coq Require Import List Arith ZArith Bool.
From Verif Require Import Base Loops StringView_Model Ascii_Model TextIo_Model ModelIo_Model Mpact_Model Groups_Model Coarse_Model.
Import ListNotations.
Open Scope Z_scope.

(** gmsh::model::getEntities(dimtags, dim), model.cpp:1107-1111 and 1315-1316 *)
Definition entities (ge : geometry) (dim : Z) : list dimtag := filter (fun d => fst d =? dim) (ents ge).

(** ** The order of the materials, model.cpp:1214-1232 *)
Definition swap_last (mats : list Groups_Model.material) (i : nat) : list Groups_Model.material :=
  match nth_error mats i, nth_error mats (length mats - 1) with
  | Some a, Some b => upd (upd mats i b) (length mats - 1) a
  | _, _ => mats
  end.
Definition order_materials (mats : list Groups_Model.material) (fill : Groups_Model.material) : list Groups_Model.material :=
  match index_of (map m_name mats) (m_name fill) with
  | Some i => swap_last mats i
  | None => mats ++ [fill]
  end.

(** ** Shapes of the cells, model.cpp:1236-1255 *)
(** model.cpp:1241-1243, 1250-1253: factory::addRectangle for surfaces, factory::addBox for volumes, both with a new tag *)
Definition maker : Type := geometry -> Z -> place -> outcome (geometry * Z).
(** model.cpp:1116-1117 *)
Definition no_place : place := mkPlace 0 0 0 0 0 0.
Fixpoint make_all (make : maker) (ge : geometry) (dim : Z) (ps : list (option place)) : outcome (geometry * list Z) :=
  match ps with
  | [] => Ret (ge, [])
  | p :: ps' =>
      let* x := make ge dim (match p with Some p => p | None => no_place end) in
      let* r := make_all make (fst x) dim ps' in
      Ret (fst r, snd x :: snd r)
  end.

(** ** Groups of the cells, model.cpp:1264-1269 *)
Fixpoint add_cells (g : gm) (dim : Z) (tags : list Z) (name : list char) : outcome gm :=
  match tags with
  | [] => Ret g
  | t :: tags' =>
      let* g' := add_group g dim [t] (-1) (string_of name) in
      let* name' := incrementASCIINumber name in
      add_cells g' dim tags' name'
  end.

(** std::sort, model.cpp:1276 and 1302 *)
Fixpoint insert_sorted (e : Z) (l : list Z) : list Z :=
  match l with
  | [] => [e]
  | a :: r => if a <? e then a :: insert_sorted e r else e :: l
  end.
Definition sort_tags (l : list Z) : list Z := fold_right insert_sorted [] l.

(** ** What is removed *)
(** model.cpp:1284-1301 *)
Definition to_keep (g : gm) (dim : Z) : list Z :=
  flat_map (fun x => if (g_dim x =? dim) && prefix "Coarse_Cell" (g_name x) then g_ents x else []) (groups g).
(** model.cpp:1303-1311: neighbours that are equal are dropped *)
Fixpoint drop_repeats (l : list Z) : list Z :=
  match l with
  | a :: ((b :: _) as r) => if a =? b then drop_repeats r else a :: drop_repeats r
  | _ => l
  end.
(** occ::remove and removeEntities, recursive, model.cpp:1319-1320: the entities go, and with them what
    bounds only such entities; they leave their groups, and groups without entities are not listed. *)
Definition bounds (ge : geometry) (l : list dimtag) (d : dimtag) : bool :=
  existsb (fun x => existsb (pair_eq d) (down ge x)) l.
Definition remove_entities (g : gm) (rm : list dimtag) : gm :=
  let gone d := existsb (pair_eq d) rm in
  let ge := geo g in
  let stay := filter (fun d => negb (gone d) && negb (bounds ge rm d)) (ents ge) in
  mkGm
    (flat_map (fun x => match filter (fun e => negb (gone (g_dim x, e))) (g_ents x) with
                        | [] => []
                        | es => [mkG (g_dim x) (g_tag x) (g_name x) es]
                        end) (groups g))
    (mkGeo (filter (fun d => negb (gone d) && (negb (bounds ge rm d) || bounds ge stay d)) (ents ge)) (down ge) (paint ge)).

(** model.cpp:1284-1321; all pairs have the same dimension, so that the tags are compared *)
Definition keep_cells (g : gm) (dim : Z) : outcome gm :=
  let keep := drop_repeats (sort_tags (to_keep g dim)) in
  let all := map snd (entities (geo g) dim) in
  both_sorted all keep (Ret (remove_entities g (map (pair dim) (difference all keep)))).

Section Overlay.
Variable make : maker.
Variable op : operation.

(** model.cpp:1236-1321, for the model's dimension and entities, the places and the materials *)
Definition lay_grid (g : gm) (dim : Z) (objs : list dimtag) (ps : list (option place)) (fill : Groups_Model.material)
    (mats : list Groups_Model.material) : outcome gm :=
  let* x := make_all make (geo g) dim ps in
  let g := mkGm (groups g) (fst x) in
  let* g := add_to_group g dim (snd x) (-1) ("Material_" ++ m_name fill) in
  let* g := add_cells g dim (snd x) (lit "Coarse_Cell_00000") in
  let* g := group_preserving op g objs (map (pair dim) (sort_tags (snd x))) mats in
  keep_cells g dim.
(** model.cpp:1105-1321 *)
Definition overlay (m : model) (fill : Groups_Model.material) (g : gm) : outcome gm :=
  let '(dim, objs) := match entities (geo g) 3 with [] => (2, entities (geo g) 2) | l => (3, l) end in
  let* ps := find_cells m in
  let* mats := get_materials g [] in
  lay_grid g dim objs ps fill (order_materials mats fill).
End Overlay.
