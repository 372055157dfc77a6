(** What laying a coarse grid over a gmsh model promises. *)
From Coq Require Import String Ascii.
From Coq Require Import Reals.
From Coq Require Import List ZArith.
From Verif Require Import Base Groups_Model Groups_Spec Coarse_Model Overlay_Model.
Import ListNotations.
Open Scope Z_scope.

(** The name of the group of cell [i]: Coarse_Cell_ and five digits. *)
Definition digit (z : Z) : ascii := ascii_of_N (Z.to_N (48 + z mod 10)).
Definition cell_name (i : nat) : string :=
  let z := Z.of_nat i in
  "Coarse_Cell_" ++ String (digit (z / 10000)) (String (digit (z / 1000)) (String (digit (z / 100))
    (String (digit (z / 10)) (String (digit z) "")))).
Definition starts (p s : string) : Prop := exists r, s = (p ++ r)%string.

(** The model is made of volumes, or else of surfaces; [objs] are all of them. *)
Definition consists (ge : geometry) (dim : Z) (objs : list dimtag) : Prop :=
  (dim = 3 \/ (dim = 2 /\ forall t, ~ In (3, t) (ents ge))) /\ objs <> [] /\
  ascending_pairs objs /\ forall d, In d objs <-> In d (ents ge) /\ fst d = dim.

(** A gmsh model ready for a grid: the entities are listed in order, groups are groups of existing
    entities, names are not shared, names of materials begin with Material_, and there is no grid yet. *)
Record gridless (g : gm) (dim : Z) : Prop := {
  gl_ordered : ascending_pairs (ents (geo g));
  gl_groups : well_formed g;
  gl_exist : forall x e, In x (groups g) -> In e (g_ents x) -> In (g_dim x, e) (ents (geo g));
  gl_names : names_differ g dim;
  gl_materials : forall x, In x (groups g) -> starts "Material" (g_name x) -> starts "Material_" (g_name x);
  gl_cells : forall x, In x (groups g) -> g_dim x = dim -> ~ starts "Coarse_Cell" (g_name x) }.

(** Positive extents. *)
Definition solid_place (p : place) : Prop := (0 < e_x p)%R /\ (0 < e_y p)%R /\ (0 < e_z p)%R.
(** The kernel makes one entity of the dimension, with a tag above all others. *)
Definition makes (make : maker) : Prop := forall ge dim p, solid_place p ->
  exists ge' t, make ge dim p = Ret (ge', t) /\ (forall u, In (dim, u) (ents ge) -> u < t).
(** The shapes one after the other, with their tags. *)
Inductive shapes (make : maker) (dim : Z) : geometry -> list place -> geometry -> list Z -> Prop :=
| shapes_nil ge : shapes make dim ge [] ge []
| shapes_cons ge p ps ge1 ge2 t ts : make ge dim p = Ret (ge1, t) -> shapes make dim ge1 ps ge2 ts ->
    shapes make dim ge (p :: ps) ge2 (t :: ts).
(** A kernel that keeps what was there when it makes a shape. *)
Definition adds (make : maker) : Prop := forall ge dim p ge' t, make ge dim p = Ret (ge', t) ->
  In (dim, t) (ents ge') /\ forall d, In d (ents ge) -> In d (ents ge').

(** What is asked of the fragments: one list of pieces for each object and tool, none of them empty, of
    existing entities of the same dimension; entities are listed in order; boundaries have lower dimension. *)
Definition fragments (op : operation) : Prop := forall ge objs tools ge' omap dim, op ge objs tools = (ge', omap) ->
  accepted objs tools dim ->
  length omap = (length objs + length tools)%nat /\ ascending_pairs (ents ge') /\
  (forall cs, In cs omap -> cs <> [] /\ forall c, In c cs -> In c (ents ge') /\ fst c = dim) /\
  (forall d d', In d' (down ge' d) -> fst d' < fst d).

(** [e] is a piece of the shape of a cell. *)
Definition in_cell (dim : Z) (objs : list dimtag) (tags : list Z) (omap : list (list dimtag)) (i : nat) (e : Z) : Prop :=
  exists t, nth_error tags i = Some t /\ piece dim objs (map (pair dim) tags) omap t e.
Definition in_grid (dim : Z) (objs : list dimtag) (tags : list Z) (omap : list (list dimtag)) (e : Z) : Prop :=
  exists i, in_cell dim objs tags omap i e.
(** [e] is a piece of an entity that has the material. *)
Definition made_of (g : gm) (dim : Z) (objs : list dimtag) (tags : list Z) (omap : list (list dimtag)) (n : string) (e : Z) : Prop :=
  exists x, In x (groups g) /\ g_dim x = dim /\ g_name x = ("Material_" ++ n)%string /\
    inherits dim objs (map (pair dim) tags) omap x e.
(** [e] is in the group of the material. *)
Definition has_material (g : gm) (dim : Z) (n : string) (e : Z) : Prop := exists u, has g dim u ("Material_" ++ n) e.
(** The colour of a material of this name: that of the fill material if the model does not have it, else
    the one found in the model. *)
Definition colour_of (g : gm) (fill : material) (n : string) (c : colour) : Prop :=
  (n = m_name fill /\ c = m_colour fill /\ (forall x, In x (groups g) -> ~ names_material x n)) \/
  exists m, Groups_Spec.found g [] m /\ m_name m = n /\ m_colour m = c.

(** The model with the grid. *)
Record gridded (g g' : gm) (fill : material) (dim : Z) (objs : list dimtag) (tags : list Z)
    (ge : geometry) (omap : list (list dimtag)) : Prop := {
  (** what is left are the pieces of cells *)
  gr_left : forall e, In (dim, e) (ents (geo g')) <-> in_grid dim objs tags omap e;
  gr_bounds : forall e d, In (dim, e) (ents (geo g')) -> In d (down ge (dim, e)) -> In d (ents ge) -> In d (ents (geo g'));
  gr_ordered : ascending_pairs (ents (geo g')) /\ down (geo g') = down ge;
  (** no groups of another dimension, no empty ones *)
  gr_groups : well_formed g';
  gr_names : names_differ g' dim;
  gr_dim : forall d u n e, has g' d u n e -> d = dim /\ in_grid dim objs tags omap e;
  (** each cell has a group with its pieces *)
  gr_cells : forall i e, (i < length tags)%nat -> (exists u, has g' dim u (cell_name i) e) <-> in_cell dim objs tags omap i e;
  (** other groups keep what is left of them *)
  gr_others : forall u n e, ~ starts "Material_" n -> ~ starts "Coarse_Cell" n ->
    (has g' dim u n e <-> in_grid dim objs tags omap e /\
      exists x, In x (groups g) /\ g_dim x = dim /\ g_tag x = u /\ g_name x = n /\ inherits dim objs (map (pair dim) tags) omap x e);
  (** everything has one material, one of those it had before; the fill material if there was no other *)
  gr_material : forall e, in_grid dim objs tags omap e -> exists n, has_material g' dim n e /\
    (forall n', has_material g' dim n' e -> n' = n) /\
    ((n <> m_name fill /\ made_of g dim objs tags omap n e) \/
     (n = m_name fill /\ forall n', made_of g dim objs tags omap n' e -> n' = m_name fill));
  (** and the colour of the material *)
  gr_colour : forall n e, has_material g' dim n e -> colour_of g fill n (paint (geo g') (dim, e)) }.
