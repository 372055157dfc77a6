(** What the group preserving operations on a gmsh model promise. *)
From Coq Require Import String.
From Coq Require Import List ZArith Sorted.
From Verif Require Import Groups_Model.
Import ListNotations.
Open Scope Z_scope.

(** Ascending, each number once. *)
Definition ascending (l : list Z) : Prop := StronglySorted Z.lt l.

(** Ascending by dimension, then by tag, each pair once. *)
Definition before (a b : dimtag) : Prop := fst a < fst b \/ (fst a = fst b /\ snd a < snd b).
Definition ascending_pairs (l : list dimtag) : Prop := StronglySorted before l.

(** gmsh lists the groups by dimension and tag.  Tags are positive, and each group lists at least
    one entity, ascending, each one once. *)
Definition well_formed (g : gm) : Prop :=
  ascending_pairs (map (fun x => (g_dim x, g_tag x)) (groups g)) /\
  forall x, In x (groups g) -> 0 < g_tag x /\ g_ents x <> [] /\ ascending (g_ents x).

(** The group with this dimension, tag and name has the entity. *)
Definition has (g : gm) (dim tag : Z) (name : string) (e : Z) : Prop :=
  exists es, In (mkG dim tag name es) (groups g) /\ In e es.

(** Different groups of this dimension have different names. *)
Definition names_differ (g : gm) (dim : Z) : Prop :=
  forall x y, In x (groups g) -> In y (groups g) -> g_dim x = dim -> g_dim y = dim ->
    g_name x = g_name y -> x = y.

(** What the operations take: surfaces with surfaces or volumes with volumes, at least one object
    and one tool, each list ascending without repetitions. *)
Definition accepted (objs tools : list dimtag) (dim : Z) : Prop :=
  objs <> [] /\ tools <> [] /\ ascending_pairs objs /\ ascending_pairs tools /\
  (forall d, In d (objs ++ tools) -> fst d = dim) /\ (dim = 2 \/ dim = 3).

(** After an operation, the entity [e] is a piece of what was the entity [p]: one of the pieces of
    an object or a tool, or the same entity if it took no part.  The map of the operation lists the
    pieces of the objects, then the pieces of the tools. *)
Definition piece (dim : Z) (objs tools : list dimtag) (omap : list (list dimtag)) (p e : Z) : Prop :=
  (exists k cs c, nth_error objs k = Some (dim, p) /\ nth_error omap k = Some cs /\
     In c cs /\ snd c = e) \/
  (~ In (dim, p) objs /\
   exists k cs c, nth_error tools k = Some (dim, p) /\ nth_error omap (length objs + k) = Some cs /\
     In c cs /\ snd c = e) \/
  (~ In (dim, p) objs /\ ~ In (dim, p) tools /\ e = p).

(** An entity of the group was cut into [e], or is [e]. *)
Definition inherits (dim : Z) (objs tools : list dimtag) (omap : list (list dimtag)) (x : group) (e : Z)
  : Prop :=
  exists p, In p (g_ents x) /\ piece dim objs tools omap p e.

(** The group that holds the entities of a material. *)
Definition group_of (m : material) : string := ("Material_" ++ m_name m)%string.

(** [x] is the group of a material of the hierarchy and [y] that of an earlier one. *)
Definition outranked_by (mats : list material) (x y : group) : Prop :=
  exists i j m n, nth_error mats i = Some m /\ nth_error mats j = Some n /\ (j < i)%nat /\
    g_name x = group_of m /\ g_name y = group_of n.

(** The groups after the operation: those of the dimension, with tag and name, each with what it
    inherits, except for what the group of an earlier material inherits as well; those left
    without entities are gone, and so are the groups of other dimensions. *)
Definition preserved (g g' : gm) (dim : Z) (objs tools : list dimtag) (omap : list (list dimtag))
    (mats : list material) : Prop :=
  forall d tag name e,
    has g' d tag name e <->
    d = dim /\
    exists x, In x (groups g) /\ g_dim x = dim /\ g_tag x = tag /\ g_name x = name /\
      inherits dim objs tools omap x e /\
      forall y, In y (groups g) -> g_dim y = dim -> outranked_by mats x y ->
        ~ inherits dim objs tools omap y e.

(** An entity of the group of the material is [d], or has [d] in its boundary. *)
Definition touches (g : gm) (dim : Z) (m : material) (d : dimtag) : Prop :=
  exists tag e, has g dim tag (group_of m) e /\ (d = (dim, e) \/ In d (down (geo g) (dim, e))).

(** Everything a material touches has the colour of the first such material of the list;
    everything else has the colour it had in [ge]. *)
Definition coloured (g : gm) (dim : Z) (mats : list material) (ge : geometry) : Prop :=
  (forall d i m, nth_error mats i = Some m -> touches g dim m d ->
     (forall j n, (j < i)%nat -> nth_error mats j = Some n -> ~ touches g dim n d) ->
     paint (geo g) d = m_colour m) /\
  (forall d, (forall m, In m mats -> ~ touches g dim m d) -> paint (geo g) d = paint ge d).

(** The group is that of a material with this name. *)
Definition names_material (x : group) (n : string) : Prop :=
  exists c, g_name x = ("Material" ++ String c n)%string.

(** A material that getMaterials finds: the first group of its name has its colour on the first
    entity, and the list that was passed in does not have it yet. *)
Definition found (g : gm) (mats : list material) (m : material) : Prop :=
  exists k x e es, nth_error (groups g) k = Some x /\ names_material x (m_name m) /\
    g_ents x = e :: es /\ m_colour m = paint (geo g) (g_dim x, e) /\
    ~ In (m_name m) (map m_name mats) /\
    forall k' y, (k' < k)%nat -> nth_error (groups g) k' = Some y -> ~ names_material y (m_name m).
