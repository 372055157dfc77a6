(** Model of src/mpact/powers.cpp over exact real numbers.

    A face is the list of its vertices, a mesh with faces of one element type [k] the list of its
    faces (FaceVertexMesh(soup, false), whose conversion is Fvm_Model).  The element set "power" of
    the file is the pair of its ids and data; PolytopeSoup::getElset is Soup_Model and the file format is
    not modelled here.  Logging of information is not modelled; LOG_ERROR ends the program ([Fail]). *)
From Coq Require Import List Arith ZArith Bool Reals.
From Verif Require Import Base Loops Arith Elem_Model Vec_Model Box_Model Seg_Model Poly_Model QSeg_Model QPoly_Model
  Stats_Model.
Import ListNotations.
Local Open Scope R_scope.

Notation pt := (R * R)%type.
Notation face := (list pt).

(** stdlib/algorithm/is_sorted.hpp:11-23: [first] and the rest *)
Fixpoint is_sorted_from (first : Z) (l : list Z) : bool :=
  match l with
  | [] => true
  | x :: r => if (x <? first)%Z then false else is_sorted_from x r
  end.
Definition is_sorted (l : list Z) : bool :=
  match l with [] => true | x :: r => is_sorted_from x r end.

(** powers.cpp:35-58 (getPowerData), the checks *)
Definition checkPowerData (num_elements : nat) (ids : list Z) (power : list R) : outcome unit :=
  if negb (length ids =? length power)%nat then Fail
  else if (length ids =? 0)%nat then Fail
  else if negb (length ids =? num_elements)%nat then Fail
  else if negb (is_sorted ids) then Fail
  else if existsb (fun p => Rltb 0 p) power then Ret tt
  else Fail.

(** powers.cpp:60-74 *)
Definition point_tolerance : R := 1 / 100000.
Definition facesShareVertex (a b : face) : bool :=
  existsb (fun p => existsb (fun q => Rltb (pdist Rarith p q) point_tolerance) b) a.

(** face.boundingBox(): polytope.hpp for the linear polygons, polygon.hpp:124-134 for the quadratic *)
Definition face_box (k : vtk) (f : face) : outcome box :=
  match k with
  | V_QuadraticTriangle | V_QuadraticQuad => q_boundingBox Rarith f
  | _ => boundingBox Rarith (map (fun p => [fst p; snd p]) f)
  end.
(** face.area() and face.centroid() *)
Definition face_area (k : vtk) (f : face) : outcome R :=
  match k with
  | V_QuadraticTriangle | V_QuadraticQuad => q_area Rarith f
  | _ => lin_area Rarith f
  end.
Definition face_centroid (k : vtk) (f : face) : outcome pt :=
  match k with
  | V_QuadraticTriangle | V_QuadraticQuad => q_centroid Rarith f
  | _ => lin_centroid Rarith f
  end.

Section GetPowers.
(** std::sort of a Vector<Int>, given by its contract in the theorems *)
Variable stdsort : list nat -> list nat.
Variable k : vtk.
Variable faces : list face.
Variable power : list R.

(** powers.cpp:93-109: the ids of the faces with power, in order, with their grown boxes (the code
    keeps the boxes in a vector with an unset entry for the other faces) *)
Definition scale : R := 101 / 100.
Fixpoint nonzero (n i : nat) : outcome (list (nat * box)) :=
  match n with
  | O => Ret []
  | S n' =>
      let* p := rd power i in
      if Rltb 0 p then
        let* f := rd faces i in
        let* b := face_box k f in
        let* r := nonzero n' (S i) in
        Ret ((i, box_scale Rarith b scale) :: r)
      else nonzero n' (S i)
  end.

(** a subset of faces: entry of subset_ids and entry of subset_aabbs *)
Definition subset := (list nat * box (T := R))%type.

(** powers.cpp:132-140: the loop over the faces of a subset *)
Fixpoint shares_any (f : face) (ids : list nat) : outcome bool :=
  match ids with
  | [] => Ret false
  | j :: r =>
      let* g := rd faces j in
      if facesShareVertex f g then Ret true else shares_any f r
  end.
(** powers.cpp:121-151: one face; the first subset it belongs to, else a new subset at the end *)
Fixpoint place (iface : nat) (face_aabb : box) (sets : list subset) : outcome (list subset) :=
  match sets with
  | [] => Ret [([iface], face_aabb)]
  | (ids, aabb) :: r =>
      let* hit :=
        if box_intersects Rarith face_aabb aabb then
          let* this_face := rd faces iface in shares_any this_face ids
        else Ret false in
      if hit then Ret ((ids ++ [iface], box_add Rarith aabb face_aabb) :: r)
      else let* r' := place iface face_aabb r in Ret ((ids, aabb) :: r')
  end.
(** powers.cpp:119-152: all faces *)
Fixpoint initial (l : list (nat * box)) (sets : list subset) : outcome (list subset) :=
  match l with
  | [] => Ret sets
  | (iface, b) :: r => let* sets := place iface b sets in initial r sets
  end.

(** powers.cpp:177-181: the loops over the faces of both subsets *)
Fixpoint sets_share (idi idj : list nat) : outcome bool :=
  match idi with
  | [] => Ret false
  | a :: r =>
      let* f := rd faces a in
      let* h := shares_any f idj in
      if h then Ret true else sets_share r idj
  end.
(** powers.cpp:170-181: the test for subsets i and j *)
Definition touching (sets : list subset) (i j : nat) : outcome bool :=
  let* si := rd sets i in
  let* sj := rd sets j in
  if box_intersects Rarith (snd sj) (snd si) then sets_share (fst si) (fst sj) else Ret false.
(** powers.cpp:172: for (j = i - 1; j >= 0; --j); [j] is one more than the index *)
Fixpoint find_j (sets : list subset) (i j : nat) : outcome (option nat) :=
  match j with
  | O => Ret None
  | S j' =>
      let* t := touching sets i j' in
      if t then Ret (Some j') else find_j sets i j'
  end.
(** powers.cpp:169: for (i = size - 1; i > 0; --i) *)
Fixpoint find_i (sets : list subset) (i : nat) : outcome (option (nat * nat)) :=
  match i with
  | O => Ret None
  | S i' =>
      let* r := find_j sets (S i') (S i') in
      match r with
      | Some j => Ret (Some (S i', j))
      | None => find_i sets i'
      end
  end.
(** powers.cpp:182-197: subset i is appended to subset j, which is sorted; those above i move down; the
    vectors lose their last entry *)
Definition merge (sets : list subset) (i j : nat) : outcome (list subset) :=
  let* si := rd sets i in
  let* sj := rd sets j in
  let* sets := wr sets j (stdsort (fst sj ++ fst si), box_add Rarith (snd sj) (snd si)) in
  let* sets := for_ (length sets - 1 - i) i (fun m s => let* x := rd s (S m) in wr s m x) sets in
  Ret (removelast sets).
(** powers.cpp:166-207: the while loop *)
Fixpoint merge_all (fuel : nat) (sets : list subset) : outcome (list subset) :=
  match fuel with
  | O => OutOfFuel
  | S fuel' =>
      let* r := find_i sets (length sets - 1) in
      match r with
      | None => Ret sets
      | Some (i, j) => let* sets := merge sets i j in merge_all fuel' sets
      end
  end.

(** powers.cpp:220-232: area, area times centroid and power times area of a face *)
Definition face_terms (iface : nat) : outcome (R * pt * R) :=
  let* f := rd faces iface in
  let* a := face_area k f in
  let* c := face_centroid k f in
  let* p := rd power iface in
  Ret (a, pscale Rarith a c, p * a).
(** powers.cpp:215-242: power and centroid of a subset; um2::sum of points is componentwise *)
Definition subset_power (ids : list nat) : outcome (R * pt) :=
  let* l := mapo face_terms ids in
  let* area_sum := sum (map (fun t => fst (fst t)) l) in
  let* cx := sum (map (fun t => fst (snd (fst t))) l) in
  let* cy := sum (map (fun t => snd (snd (fst t))) l) in
  let* total_power := sum (map snd l) in
  Ret (total_power, pdivs Rarith (cx, cy) area_sum).

(** powers.cpp:77-244 (getPowers<P, N>) *)
Definition getPowersN (ids : list Z) : outcome (list (R * pt)) :=
  let* _ := checkPowerData (length faces) ids power in
  let* nz := nonzero (length faces) 0 in
  let* sets := initial nz [] in
  let* sets := merge_all (S (length sets)) sets in
  mapo subset_power (map fst sets).
End GetPowers.

(** powers.cpp:248-282; [etypes] is soup.getElemTypes() *)
Definition getPowers (stdsort : list nat -> list nat) (etypes : list vtk) (faces : list face) (ids : list Z)
  (power : list R) : outcome (list (R * pt)) :=
  match etypes with
  | [k] =>
      match k with
      | V_Triangle | V_Quad | V_QuadraticTriangle | V_QuadraticQuad => getPowersN stdsort k faces power ids
      | _ => Fail
      end
  | _ => Fail
  end.
