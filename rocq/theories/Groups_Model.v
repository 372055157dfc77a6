(** Model of the physical groups of a gmsh model, src/gmsh/model.cpp.

    gmsh itself is not part of the repository.  Its state is modelled as far as these functions see
    it: the physical groups with dimension, tag, name and entities, and the geometry with the
    entities, what lies in the boundary of each, and colours.  What the geometry kernel makes of a
    boolean operation is a parameter: a function from the geometry, the objects and the tools to a
    new geometry and the map out_dimtags_map from the objects and tools to their pieces.

    Entity tags, group tags and dimensions are [Z].  LOG_ERROR ends the program (its default), as
    does an exception of gmsh or of the standard library: both are [Fail].  Logged text is left
    out, and so are assertions, whose conditions are hypotheses of the theorems. *)
From Coq Require Import String.
From Coq Require Import List Arith ZArith Lia Bool.
From Verif Require Import Base Loops.
Import ListNotations.
Open Scope Z_scope.

(** * gmsh *)

(** std::pair<int, int> of gmsh::vectorpair: dimension and tag of an entity. *)
Definition dimtag : Type := (Z * Z)%type.
(** RGBA as one number. *)
Definition colour : Type := Z.

(** A physical group: gmsh::model::getPhysicalGroups, getPhysicalName and
    getEntitiesForPhysicalGroup (used in src/gmsh/model.cpp:45-52). *)
Record group : Type := mkG { g_dim : Z; g_tag : Z; g_name : string; g_ents : list Z }.

(** Entities, the boundary of an entity with all that bounds the boundary, and colours:
    gmsh::model::getEntities, setColor and getColor (src/gmsh/model.cpp:102, 163-166). *)
Record geometry : Type := mkGeo {
  ents : list dimtag;
  down : dimtag -> list dimtag;
  paint : dimtag -> colour }.

Record gm : Type := mkGm { groups : list group; geo : geometry }.

(** Name and colour of a Material (src/include/um2/physics/material.hpp). *)
Record material : Type := mkM { m_name : string; m_colour : colour }.

(** Order of std::pair<int, int>. *)
Definition pair_lt (a b : dimtag) : bool :=
  (fst a <? fst b) || ((fst a =? fst b) && (snd a <? snd b)).
Definition pair_eq (a b : dimtag) : bool := (fst a =? fst b) && (snd a =? snd b).

(** Entities of a group as gmsh lists them: ascending, each one once. *)
Fixpoint insert_tag (e : Z) (l : list Z) : list Z :=
  match l with
  | [] => [e]
  | a :: r => if e <? a then e :: l else if e =? a then l else a :: insert_tag e r
  end.
Definition normal (l : list Z) : list Z := fold_right insert_tag [] l.

(** gmsh lists groups by dimension and tag. *)
Definition key (x : group) : dimtag := (g_dim x, g_tag x).
Fixpoint insert_group (x : group) (l : list group) : list group :=
  match l with
  | [] => [x]
  | a :: r => if pair_lt (key x) (key a) then x :: l else a :: insert_group x r
  end.

(** gmsh::model::addPhysicalGroup(dim, tags, tag, name): a negative tag asks for a new one, an
    existing tag is an error, and a group without entities is not listed. *)
Definition new_tag (gs : list group) (dim : Z) : Z :=
  1 + fold_right (fun x m => if g_dim x =? dim then Z.max (g_tag x) m else m) 0 gs.
Definition add_group (g : gm) (dim : Z) (tags : list Z) (tag : Z) (name : string) : outcome gm :=
  let tag := if tag <? 0 then new_tag (groups g) dim else tag in
  if existsb (fun x => pair_eq (key x) (dim, tag)) (groups g) then Fail
  else match normal tags with
       | [] => Ret g
       | es => Ret (mkGm (insert_group (mkG dim tag name es) (groups g)) (geo g))
       end.
(** gmsh::model::removePhysicalGroups with a list of one, and without a list. *)
Definition remove_group (g : gm) (dim tag : Z) : gm :=
  mkGm (filter (fun x => negb (pair_eq (key x) (dim, tag))) (groups g)) (geo g).
Definition remove_groups (g : gm) : gm := mkGm [] (geo g).

(** gmsh::model::setColor(dimtags, ..., recursive = true). *)
Definition set_colour (ge : geometry) (l : list dimtag) (c : colour) : geometry :=
  mkGeo (ents ge) (down ge)
    (fun d => if existsb (fun x => pair_eq x d || existsb (fun y => pair_eq y d) (down ge x)) l
              then c else paint ge d).

(** * The standard library.  Sorted ranges are preconditions. *)
Fixpoint sortedb {A} (lt : A -> A -> bool) (l : list A) : bool :=
  match l with
  | a :: ((b :: _) as r) => negb (lt b a) && sortedb lt r
  | _ => true
  end.
(** std::lower_bound: the first position whose element is not less. *)
Fixpoint first_not_less {A} (lt : A -> A -> bool) (l : list A) (v : A) : nat :=
  match l with
  | [] => O
  | a :: r => if lt a v then S (first_not_less lt r v) else O
  end.
Definition lower_bound {A} (lt : A -> A -> bool) (l : list A) (v : A) : outcome nat :=
  if sortedb lt l then Ret (first_not_less lt l v) else Ub.
(** std::vector::insert. *)
Definition insert_at {A} (l : list A) (i : nat) (a : A) : list A := firstn i l ++ a :: skipn i l.
(** std::merge, std::set_intersection, std::set_difference. *)
Fixpoint merge (l : list Z) : list Z -> list Z :=
  match l with
  | [] => fun m => m
  | a :: l' => fix go (m : list Z) : list Z :=
      match m with
      | [] => a :: l'
      | b :: m' => if b <? a then b :: go m' else a :: merge l' m
      end
  end.
Fixpoint intersection (l : list Z) : list Z -> list Z :=
  match l with
  | [] => fun _ => []
  | a :: l' => fix go (m : list Z) : list Z :=
      match m with
      | [] => []
      | b :: m' => if a <? b then intersection l' m
                   else if b <? a then go m' else a :: intersection l' m'
      end
  end.
Fixpoint difference (l : list Z) : list Z -> list Z :=
  match l with
  | [] => fun _ => []
  | a :: l' => fix go (m : list Z) : list Z :=
      match m with
      | [] => a :: l'
      | b :: m' => if a <? b then a :: difference l' m
                   else if b <? a then go m' else difference l' m'
      end
  end.
Definition both_sorted {A} (l m : list Z) (k : outcome A) : outcome A :=
  if sortedb Z.ltb l && sortedb Z.ltb m then k else Ub.

(** * addToPhysicalGroup, src/gmsh/model.cpp:38-71 *)
Definition add_to_group (g : gm) (dim : Z) (tags : list Z) (tag : Z) (name : string) : outcome gm :=
  match find (fun x => (g_dim x =? dim) && String.eqb (g_name x) name) (groups g) with
  | Some x =>
      both_sorted tags (g_ents x)
        (add_group (remove_group g dim (g_tag x)) dim (merge tags (g_ents x)) (g_tag x) name)
  | None => add_group g dim tags tag name
  end.

(** * getMaterials, src/gmsh/model.cpp:77-108.  [substr(9)] of a shorter name throws, and
    [tags[0]] of a group without entities is undefined. *)
Definition get_material (g : gm) (mats : list material) (x : group) : outcome (list material) :=
  if prefix "Material" (g_name x) then
    if (String.length (g_name x) <? 9)%nat then Fail
    else
      let n := substring 9 (String.length (g_name x) - 9) (g_name x) in
      if existsb (fun m => String.eqb (m_name m) n) mats then Ret mats
      else
        let* e := rd (g_ents x) 0 in
        Ret (mats ++ [mkM n (paint (geo g) (g_dim x, e))])
  else Ret mats.
Fixpoint get_materials_of (g : gm) (l : list group) (mats : list material) : outcome (list material) :=
  match l with
  | [] => Ret mats
  | x :: l' => let* mats' := get_material g mats x in get_materials_of g l' mats'
  end.
Definition get_materials (g : gm) (mats : list material) : outcome (list material) :=
  get_materials_of g (groups g) mats.

(** * colorMaterialPhysicalGroupEntities, src/gmsh/model.cpp:122-169 *)
(** Lines 125-129. *)
Definition material_group (m : material) : string := "Material_" ++ m_name m.
(** std::find, lines 145-148. *)
Fixpoint index_of (l : list string) (n : string) : option nat :=
  match l with
  | [] => None
  | a :: r => if String.eqb a n then Some O else option_map S (index_of r n)
  end.
(** Lines 135-151: the group of each material; [None] is the tag -1. *)
Fixpoint material_tags (names : list string) (dmax : Z) (l : list group) (ptags : list (option group))
  : list (option group) :=
  match l with
  | [] => ptags
  | x :: l' =>
      material_tags names dmax l'
        (if (g_dim x =? dmax) && prefix "Material_" (g_name x) then
           match index_of names (g_name x) with
           | Some i => upd ptags i (Some x)
           | None => ptags
           end
         else ptags)
  end.
(** Lines 152-168: from the last material to the first. *)
Fixpoint paint_materials (ge : geometry) (dmax : Z) (mats : list material) (ptags : list (option group))
  : geometry :=
  match mats, ptags with
  | m :: mats', Some x :: ptags' =>
      set_colour (paint_materials ge dmax mats' ptags') (map (pair dmax) (g_ents x)) (m_colour m)
  | _ :: mats', None :: ptags' => paint_materials ge dmax mats' ptags'
  | _, _ => ge
  end.
(** Line 134, [dimtags.back()], is undefined when there is no group at all. *)
Definition colour_materials (g : gm) (mats : list material) : outcome gm :=
  match rev (groups g) with
  | [] => Ub
  | x :: _ =>
      let ptags := material_tags (map material_group mats) (g_dim x) (groups g)
                     (repeat None (length mats)) in
      Ret (mkGm (groups g) (paint_materials (geo g) (g_dim x) mats ptags))
  end.

(** * groupPreservingInputChecking, src/gmsh/model.cpp:177-238 *)
Fixpoint uniqueb (l : list dimtag) : bool :=
  match l with
  | a :: ((b :: _) as r) => negb (pair_eq a b) && uniqueb r
  | _ => true
  end.
Definition input_check (objs tools : list dimtag) : outcome Z :=
  match objs, tools with
  | o :: _, t :: _ =>
      if negb (sortedb pair_lt objs) then Fail
      else if negb (sortedb pair_lt tools) then Fail
      else if negb (uniqueb objs) then Fail
      else if negb (uniqueb tools) then Fail
      else if negb (fst o =? fst (last objs o)) then Fail
      else if negb (fst t =? fst (last tools t)) then Fail
      else if negb (fst o =? fst t) then Fail
      else if negb (fst o =? 2) && negb (fst o =? 3) then Fail
      else Ret (fst o)
  | _, _ => Fail
  end.

(** * getPhysicalGroupInfo, src/gmsh/model.cpp:243-270: the groups of the dimension, by name.  The
    three parallel vectors are one list of groups. *)
Definition insert_by_name (acc : list group) (x : group) : outcome (list group) :=
  let* i := lower_bound String.ltb (map g_name acc) (g_name x) in
  Ret (insert_at acc i x).
Fixpoint group_info (l : list group) (dim : Z) (acc : list group) : outcome (list group) :=
  match l with
  | [] => Ret acc
  | x :: l' =>
      if negb (g_dim x =? dim) then group_info l' dim acc
      else let* acc' := insert_by_name acc x in group_info l' dim acc'
  end.

(** * getNewPhysicalGroups, src/gmsh/model.cpp:274-352 *)
(** Lines 331-335 and 341-344. *)
Definition insert_new (new : list Z) (e : Z) : outcome (list Z) :=
  let* i := lower_bound Z.ltb new e in
  match nth_error new i with
  | Some a => if a =? e then Ret new else Ret (insert_at new i e)
  | None => Ret (insert_at new i e)
  end.
Fixpoint insert_news (new : list Z) (l : list dimtag) : outcome (list Z) :=
  match l with
  | [] => Ret new
  | c :: l' => let* new' := insert_new new (snd c) in insert_news new' l'
  end.
(** Lines 312-314 and 320-322: while the tag is smaller. *)
Definition advance (tags : list Z) (i : nat) (e : Z) : nat :=
  (i + first_not_less Z.ltb (skipn i tags) e)%nat.
Definition at_tag (tags : list Z) (i : nat) (e : Z) : bool :=
  match nth_error tags i with Some a => a =? e | None => false end.
(** Lines 310-346, one entity of the group. *)
Definition step (otags ttags : list Z) (omap : list (list dimtag)) (e : Z) (s : nat * nat * list Z)
  : outcome (nat * nat * list Z) :=
  let '(oi, ti, new) := s in
  let oi := advance otags oi e in
  if at_tag otags oi e then
    let* cs := rd omap oi in
    let* new' := insert_news new cs in
    Ret (oi, ti, new')
  else
    let ti := advance ttags ti e in
    if at_tag ttags ti e then
      let* cs := rd omap (ti + length otags) in
      let* new' := insert_news new cs in
      Ret (oi, ti, new')
    else
      let* new' := insert_new new e in
      Ret (oi, ti, new').
Fixpoint steps (otags ttags : list Z) (omap : list (list dimtag)) (tags : list Z) (s : nat * nat * list Z)
  : outcome (nat * nat * list Z) :=
  match tags with
  | [] => Ret s
  | e :: tags' => let* s' := step otags ttags omap e s in steps otags ttags omap tags' s'
  end.
Definition new_group (otags ttags : list Z) (omap : list (list dimtag)) (x : group) : outcome (list Z) :=
  let* s := steps otags ttags omap (g_ents x) (O, O, []) in
  Ret (snd s).
Definition new_groups (objs tools : list dimtag) (omap : list (list dimtag)) (info : list group)
  : outcome (list (list Z)) :=
  mapo (new_group (map snd objs) (map snd tools) omap) info.

(** * processMaterialHierarchy, src/gmsh/model.cpp:356-409 *)
(** Lines 370-383. *)
Definition material_index (names : list string) (m : material) : outcome (option nat) :=
  let* i := lower_bound String.ltb names (material_group m) in
  match nth_error names i with
  | Some n => if String.eqb n (material_group m) then Ret (Some i) else Ret None
  | None => Ret None
  end.
(** Lines 389-405, one pair of materials. *)
Definition subtract (indices : list (option nat)) (a j : nat) (post : list (list Z))
  : outcome (list (list Z)) :=
  let* ij := rd indices j in
  match ij with
  | None => Ret post
  | Some b =>
      let* mi := rd post a in
      let* mj := rd post b in
      both_sorted mi mj
        (match intersection mi mj with
         | [] => Ret post
         | l => wr post a (difference mi l)
         end)
  end.
(** Lines 384-406. *)
Definition one_material (indices : list (option nat)) (i : nat) (post : list (list Z))
  : outcome (list (list Z)) :=
  let* ii := rd indices i in
  match ii with
  | None => Ret post
  | Some a => for_ i 0 (subtract indices a) post
  end.
Definition hierarchy (mats : list material) (names : list string) (post : list (list Z))
  : outcome (list (list Z)) :=
  match mats with
  | [] => Ret post
  | _ =>
      let* indices := mapo (material_index names) mats in
      for_ (length mats - 1) 1 (one_material indices) post
  end.

(** * groupPreservingFragment and groupPreservingIntersect, src/gmsh/model.cpp:424-502 and
    514-589: the same but for the operation. *)
(** Lines 477-494: the groups again, with their old tags and names. *)
Fixpoint add_groups (g : gm) (dim : Z) (info : list group) (post : list (list Z)) : outcome gm :=
  match info, post with
  | x :: info', es :: post' =>
      let* g' := add_group g dim es (g_tag x) (g_name x) in add_groups g' dim info' post'
  | _, _ => Ret g
  end.
Definition operation : Type := geometry -> list dimtag -> list dimtag -> geometry * list (list dimtag).
Definition group_preserving (op : operation) (g : gm) (objs tools : list dimtag) (mats : list material)
  : outcome gm :=
  let* dim := input_check objs tools in
  let* info := group_info (groups g) dim [] in
  let g := remove_groups g in
  let '(ge, omap) := op (geo g) objs tools in
  let* post := new_groups objs tools omap info in
  let* post := hierarchy mats (map g_name info) post in
  let* g' := add_groups (mkGm (groups g) ge) dim info post in
  match mats with
  | [] => Ret g'
  | _ => colour_materials g' mats
  end.
(** groupPreservingCut, src/gmsh/model.cpp:598-653: no hierarchy. *)
Definition group_preserving_cut (op : operation) (g : gm) (objs tools : list dimtag) : outcome gm :=
  let* dim := input_check objs tools in
  let* info := group_info (groups g) dim [] in
  let g := remove_groups g in
  let '(ge, omap) := op (geo g) objs tools in
  let* post := new_groups objs tools omap info in
  add_groups (mkGm (groups g) ge) dim info post.
