(** Model of the last part of overlayCoarseGrid for a model of volumes, src/gmsh/model.cpp:1322-1411,
    and of the whole function.

    gmsh is the state of Groups_Model: what the geometry kernel holds and what gmsh lists is one geometry,
    so that the two removals of the same entities (lines 1375-1376, 1405-1406) are one, and line 1409 removes
    them from both.  Making shapes and the two operations of the kernel are parameters.  The assertion that all
    groups are groups of volumes (line 1329) is left out: it holds by what C84 says of the groups. *)
From Coq Require Import String.
From Coq Require Import Reals.
From Coq Require Import List Arith ZArith Bool.
From Verif Require Import Base Loops Mpact_Model Groups_Model Coarse_Model Overlay_Model.
Import ListNotations.
Open Scope Z_scope.

(** model.cpp:1336-1349: the surfaces in the boundary of the volumes, ascending, each once *)
Fixpoint surfaces_of (ge : geometry) (volumes acc : list Z) : outcome (list Z) :=
  match volumes with
  | [] => Ret acc
  | e :: volumes' =>
      let* acc' := insert_news acc (filter (fun d => fst d =? 2) (down ge (3, e))) in
      surfaces_of ge volumes' acc'
  end.
(** model.cpp:1325-1352, for each of the groups that there were before *)
Fixpoint add_surfaces (g : gm) (l : list group) : outcome gm :=
  match l with
  | [] => Ret g
  | x :: l' =>
      let* tags := surfaces_of (geo g) (g_ents x) [] in
      let* g' := add_group g 2 tags (-1) (g_name x) in
      add_surfaces g' l'
  end.
(** model.cpp:1372-1376 and 1404-1407: volumes without what bounds them; their groups go with them *)
Definition remove_volumes (g : gm) : gm :=
  mkGm (filter (fun x => negb (g_dim x =? 3)) (groups g))
       (mkGeo (filter (fun d => negb (fst d =? 3)) (ents (geo g))) (down (geo g)) (paint (geo g))).
(** model.cpp:1382-1393: the pieces of the rectangles *)
Fixpoint pieces_of (omap : list (list dimtag)) (i n : nat) (acc : list Z) : outcome (list Z) :=
  match n with
  | O => Ret acc
  | S n' =>
      let* cs := rd omap i in
      let* acc' := insert_news acc cs in
      pieces_of omap (S i) n' acc'
  end.

Section Slice.
Variable make : maker.
Variables fragment intersect : operation.

(** model.cpp:1322-1410 *)
Definition slice (g : gm) (ps : list (option place)) (mats : list Groups_Model.material) : outcome gm :=
  let* g := add_surfaces g (groups g) in
  let objs := entities (geo g) 2 in
  let* x := make_all make (geo g) 2 ps in
  let tools := map (pair 2) (sort_tags (snd x)) in
  let g := remove_volumes (mkGm (groups g) (fst x)) in
  let omap := snd (intersect (geo g) objs tools) in
  let* g := group_preserving intersect g objs tools mats in
  let* keep := pieces_of omap (length objs) (length tools) [] in
  let all := map snd (entities (geo g) 2) in
  both_sorted all keep (Ret (remove_entities (remove_volumes g) (map (pair 2) (difference all keep)))).

(** model.cpp:1088-1412 *)
Definition overlay_grid (m : model) (fill : Groups_Model.material) (g : gm) : outcome gm :=
  let '(dim, objs) := match entities (geo g) 3 with [] => (2, entities (geo g) 2) | l => (3, l) end in
  let* ps := find_cells m in
  let* mats := get_materials g [] in
  let* g := lay_grid make fragment g dim objs ps fill (order_materials mats fill) in
  if dim =? 3 then slice g ps (order_materials mats fill) else Ret g.
End Slice.
