(** What laying a coarse grid over a gmsh model of volumes promises: the model is cut at the bottoms of the cells. *)
From Coq Require Import String.
From Coq Require Import Reals.
From Coq Require Import List ZArith.
From Verif Require Import Base Groups_Model Groups_Spec Coarse_Model Overlay_Model Overlay_Spec.
Import ListNotations.
Open Scope Z_scope.

(** The boundaries of what a kernel makes exist. *)
Definition closes (op : operation) : Prop := forall ge objs tools ge' omap, op ge objs tools = (ge', omap) ->
  forall d d', In d (ents ge') -> In d' (down ge' d) -> In d' (ents ge').
(** What is asked of the intersection: one list of pieces for each object and tool, of existing entities of the
    same dimension; entities are listed in order; boundaries have lower dimension. *)
Definition intersects (op : operation) : Prop := forall ge objs tools ge' omap dim, op ge objs tools = (ge', omap) ->
  accepted objs tools dim ->
  length omap = (length objs + length tools)%nat /\ ascending_pairs (ents ge') /\
  (forall cs c, In cs omap -> In c cs -> In c (ents ge') /\ fst c = dim) /\
  (forall d d', In d' (down ge' d) -> fst d' < fst d).

(** The surfaces of a geometry, in order. *)
Definition surfaces (ge : geometry) (l : list dimtag) : Prop :=
  ascending_pairs l /\ forall d, In d l <-> In d (ents ge) /\ fst d = 2.
(** A geometry without its volumes. *)
Definition hollow (ge ge' : geometry) : Prop :=
  (forall d, In d (ents ge') <-> In d (ents ge) /\ fst d <> 3) /\ down ge' = down ge /\ paint ge' = paint ge.

(** [e] is a piece of a surface that bounds a volume of a group of this name. *)
Definition bounds_group (g : gm) (objs : list dimtag) (tags : list Z) (omap : list (list dimtag)) (n : string) (e : Z) : Prop :=
  exists u v t, has g 3 u n v /\ In (2, t) (down (geo g) (3, v)) /\ piece 2 objs (map (pair 2) tags) omap t e.

(** [g] is the model of volumes with its grid, [g0] the one before, [g'] the result; [objs] are the surfaces of
    [g], [tags] the rectangles, and [omap] their pieces. *)
Record sliced (g0 g g' : gm) (fill : material) (objs : list dimtag) (tags : list Z)
    (ge : geometry) (omap : list (list dimtag)) : Prop := {
  (** what is left are the pieces of rectangles, and no volumes *)
  sl_left : forall e, In (2, e) (ents (geo g')) <-> in_grid 2 objs tags omap e;
  sl_flat : forall e, ~ In (3, e) (ents (geo g'));
  sl_bounds : forall e d, In (2, e) (ents (geo g')) -> In d (down ge (2, e)) -> In d (ents ge) -> In d (ents (geo g'));
  (** all groups are of surfaces that are left *)
  sl_groups : well_formed g';
  sl_names : names_differ g' 2;
  sl_dim : forall d u n e, has g' d u n e -> d = 2 /\ in_grid 2 objs tags omap e;
  (** each group of volumes has become one of surfaces, the coarse cells among them *)
  sl_others : forall n e, ~ starts "Material_" n ->
    (exists u, has g' 2 u n e) <-> in_grid 2 objs tags omap e /\ bounds_group g objs tags omap n e;
  (** a surface has the material of a volume that it bounds, and only one; the fill material if there is no other *)
  sl_has : forall n e, has_material g' 2 n e -> bounds_group g objs tags omap ("Material_" ++ n) e;
  sl_one : forall n n' e, has_material g' 2 n e -> has_material g' 2 n' e -> n = n';
  sl_some : forall n e, in_grid 2 objs tags omap e -> bounds_group g objs tags omap ("Material_" ++ n) e -> exists n', has_material g' 2 n' e;
  sl_fill : forall n e, has_material g' 2 (m_name fill) e -> bounds_group g objs tags omap ("Material_" ++ n) e -> n = m_name fill;
  sl_colour : forall n e, has_material g' 2 n e -> colour_of g0 fill n (paint (geo g') (2, e)) }.
