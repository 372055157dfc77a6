(** Model of include/um2/geometry/axis_aligned_box.hpp and of ray.hpp.

    A box is the pair of its minima and maxima, each the list of D components; a ray is the pair of
    its origin and direction.  Over an arbitrary arithmetic [o] of T. *)
From Coq Require Import List Arith ZArith Bool.
From Verif Require Import Base Arith Vec_Model.
Import ListNotations.

Section Ops.
Context {T : Type} (o : arith T).
(** infDistance<T>() (vec.hpp:62-67): 1e8 *)
Variable infDistance : T.
(** the literal 2 *)
Definition o2 : T := oadd o (o1 o) (o1 o).

Record box := mkBox { bmin : list T; bmax : list T }.

(** operator+=(Point) (200-207) and operator+(box, point) (324-330) *)
Definition box_add_pt (b : box) (p : list T) : box := mkBox (vmin o (bmin b) p) (vmax o (bmax b) p).
(** operator+=(AxisAlignedBox) (209-216) and operator+(box, box) (316-322) *)
Definition box_add (a b : box) : box := mkBox (vmin o (bmin a) (bmin b)) (vmax o (bmax a) (bmax b)).
(** empty (222-232) *)
Definition box_empty (D : nat) : box := mkBox (repeat infDistance D) (repeat (oopp o infDistance) D).
(** extents (234-239) *)
Definition extents (b : box) : list T := vsub o (bmax b) (bmin b).
(** point.hpp midpoint (41-48) and centroid (250-255) *)
Definition midpoint (a b : list T) : list T := vdivs o (vadd o a b) o2.
Definition box_centroid (b : box) : list T := midpoint (bmin b) (bmax b).
(** contains (257-267): the loop over the components of p *)
Fixpoint contains_loop (p lo hi : list T) : bool :=
  match p, lo, hi with
  | x :: p', l :: lo', h :: hi' => if oltb o x l || oltb o h x then false else contains_loop p' lo' hi'
  | _, _, _ => true
  end.
Definition box_contains (b : box) (p : list T) : bool := contains_loop p (bmin b) (bmax b).
(** intersects(AxisAlignedBox) (363-374) *)
Fixpoint intersects_loop (lo hi lo' hi' : list T) : bool :=
  match lo, hi, lo', hi' with
  | a :: lo1, b :: hi1, a' :: lo2, b' :: hi2 =>
      if oltb o b a' || oltb o b' a then false else intersects_loop lo1 hi1 lo2 hi2
  | _, _, _, _ => true
  end.
Definition box_intersects (a b : box) : bool := intersects_loop (bmin a) (bmax a) (bmin b) (bmax b).
(** boundingBox(begin, end) (332-351): *begin is read before the loop, so no points is undefined *)
Definition boundingBox (ps : list (list T)) : outcome box :=
  match ps with
  | [] => Ub
  | p :: r => Ret (mkBox (fold_left (vmin o) r p) (fold_left (vmax o) r p))
  end.
(** scale (353-361) *)
Definition box_scale (b : box) (s : T) : box :=
  let d := vscale o (odiv o (osub o s (o1 o)) o2) (extents b) in
  mkBox (vsub o (bmin b) d) (vadd o (bmax b) d).

(** a <= b: false if either is NaN *)
Definition oleb (a b : T) : bool := oltb o a b || oeqb o a b.
(** ray.hpp operator()(r) (56-60) and inverseDirection (62-66) *)
Definition ray_at (ro rd : list T) (r : T) : list T := vadd o ro (vscale o r rd).
Definition inverseDirection (rd : list T) : list T := sdivv o (o1 o) rd.
(** intersect(ray, inv_dir) (295-310): the loop over the components of vt1 and vt2 *)
Fixpoint slab_loop (vt1 vt2 : list T) (t0 t1 : T) : T * T :=
  match vt1, vt2 with
  | a :: vt1', b :: vt2' =>
      slab_loop vt1' vt2' (tmin o (tmax o a t0) (tmax o b t0)) (tmax o (tmin o a t1) (tmin o b t1))
  | _, _ => (t0, t1)
  end.
Definition box_intersect_inv (b : box) (ro inv_dir : list T) : T * T :=
  let vt1 := vmul o (vsub o (bmin b) ro) inv_dir in
  let vt2 := vmul o (vsub o (bmax b) ro) inv_dir in
  let '(t0, t1) := slab_loop vt1 vt2 (o0 o) infDistance in
  if oleb t0 t1 then (t0, t1) else (oopp o (o1 o), oopp o (o1 o)).
(** intersect(ray) (278-293) *)
Definition box_intersect (b : box) (ro rd : list T) : T * T :=
  box_intersect_inv b ro (inverseDirection rd).
End Ops.
Arguments mkBox {T}. Arguments bmin {T}. Arguments bmax {T}.
