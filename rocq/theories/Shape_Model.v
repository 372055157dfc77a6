(** Model of interpolation and jacobian of the two-dimensional elements: include/um2/geometry/
    triangle.hpp, quadrilateral.hpp, quadratic_triangle.hpp and quadratic_quadrilateral.hpp.

    Points are lists of components (any dimension).  [w * p] is [vscale w p].  Integer literals are
    built from one, 0.5 and 0.25 are the quotients 1/2 and 1/4. *)
From Coq Require Import List.
From Verif Require Import Base Arith Vec_Model Box_Model Seg_Model Poly_Model QSeg_Model Roots_Model.
Import ListNotations.

Section Ops.
Context {T : Type} (o : arith T).
Notation "a + b" := (oadd o a b).
Notation "a - b" := (osub o a b).
Notation "a * b" := (omul o a b).
Notation one := (o1 o).
Notation two := (o2 o).
Notation four := (o4 o).
Notation three := (o3 o).
(** Triangle::operator() (170-179) *)
Definition tri_at (v0 v1 v2 : list T) (r s : T) : list T :=
  let w0 := one - r - s in
  vadd o (vadd o (vscale o w0 v0) (vscale o r v1)) (vscale o s v2).
(** jacobian (185-197) *)
Definition tri_jac (v0 v1 v2 : list T) (r s : T) : list T * list T := (vsub o v1 v0, vsub o v2 v0).
(** Quadrilateral::operator() (166-180) *)
Definition quad_at (v0 v1 v2 v3 : list T) (r s : T) : list T :=
  let w0 := (one - r) * (one - s) in
  let w1 := r * (one - s) in
  let w2 := r * s in
  let w3 := (one - r) * s in
  vadd o (vadd o (vadd o (vscale o w0 v0) (vscale o w1 v1)) (vscale o w2 v2)) (vscale o w3 v3).
(** jacobian (186-203) *)
Definition quad_jac (v0 v1 v2 v3 : list T) (r s : T) : list T * list T :=
  let w0 := one - s in
  let w2 := one - r in
  (vsub o (vscale o w0 (vsub o v1 v0)) (vscale o s (vsub o v3 v2)),
   vsub o (vscale o w2 (vsub o v3 v0)) (vscale o r (vsub o v1 v2))).
(** QuadraticTriangle::operator() (169-181) *)
Definition tri6_at (v0 v1 v2 v3 v4 v5 : list T) (r s : T) : list T :=
  let t := one - r - s in
  let w0 := t * (two * t - one) in
  let w1 := r * (two * r - one) in
  let w2 := s * (two * s - one) in
  let w3 := four * r * t in
  let w4 := four * r * s in
  let w5 := four * s * t in
  vadd o (vadd o (vadd o (vadd o (vadd o (vscale o w0 v0) (vscale o w1 v1)) (vscale o w2 v2))
    (vscale o w3 v3)) (vscale o w4 v4)) (vscale o w5 v5).
(** jacobian (187-205) *)
Definition tri6_jac (v0 v1 v2 v3 v4 v5 : list T) (r s : T) : list T * list T :=
  let rr := four * r in
  let ss := four * s in
  let tt := rr + ss - three in
  (vadd o (vadd o (vscale o tt (vsub o v0 v3)) (vscale o (rr - one) (vsub o v1 v3))) (vscale o ss (vsub o v4 v5)),
   vadd o (vadd o (vscale o tt (vsub o v0 v5)) (vscale o (ss - one) (vsub o v2 v5))) (vscale o rr (vsub o v4 v3))).
(** QuadraticQuadrilateral::operator() (170-189) *)
Definition quad8_at (v0 v1 v2 v3 v4 v5 v6 v7 : list T) (r s : T) : list T :=
  let hf := odiv o one two in
  let qtr := odiv o one four in
  let xi := two * r - one in
  let eta := two * s - one in
  let w0 := qtr * (one - xi) * (one - eta) * (oopp o xi - eta - one) in
  let w1 := qtr * (one + xi) * (one - eta) * (xi - eta - one) in
  let w2 := qtr * (one + xi) * (one + eta) * (xi + eta - one) in
  let w3 := qtr * (one - xi) * (one + eta) * (oopp o xi + eta - one) in
  let w4 := hf * (one - xi * xi) * (one - eta) in
  let w5 := hf * (one - eta * eta) * (one + xi) in
  let w6 := hf * (one - xi * xi) * (one + eta) in
  let w7 := hf * (one - eta * eta) * (one - xi) in
  vadd o (vadd o (vadd o (vadd o (vadd o (vadd o (vadd o (vscale o w0 v0) (vscale o w1 v1)) (vscale o w2 v2))
    (vscale o w3 v3)) (vscale o w4 v4)) (vscale o w5 v5)) (vscale o w6 v6)) (vscale o w7 v7).
(** jacobian (195-228) *)
Definition quad8_jac (v0 v1 v2 v3 v4 v5 v6 v7 : list T) (r s : T) : list T * list T :=
  let xi := two * r - one in
  let eta := two * s - one in
  let xi_eta := xi * eta in
  let xi_xi := xi * xi in
  let eta_eta := eta * eta in
  let w0 := odiv o (eta - eta_eta) two in
  let w1 := odiv o (eta + eta_eta) two in
  let w2 := xi - xi_eta in
  let w3 := xi + xi_eta in
  let w4 := one - eta_eta in
  let w5 := odiv o (xi - xi_xi) two in
  let w6 := odiv o (xi + xi_xi) two in
  let w7 := eta - xi_eta in
  let w8 := eta + xi_eta in
  let w9 := one - xi_xi in
  (vadd o (vadd o (vadd o (vadd o (vscale o w0 (vsub o v0 v1)) (vscale o w1 (vsub o v2 v3)))
     (vscale o w2 (vsub o (vadd o v0 v1) (vscale o two v4))))
     (vscale o w3 (vsub o (vadd o v2 v3) (vscale o two v6)))) (vscale o w4 (vsub o v5 v7)),
   vadd o (vadd o (vadd o (vadd o (vscale o w5 (vsub o v0 v3)) (vscale o w6 (vsub o v2 v1)))
     (vscale o w7 (vsub o (vadd o v0 v3) (vscale o two v7))))
     (vscale o w8 (vsub o (vadd o v1 v2) (vscale o two v5)))) (vscale o w9 (vsub o v6 v4))).
(** the four classes, with their vertex arrays; an array of another size is not a value of the type *)
Inductive shape := Tri3 | Quad4 | Tri6 | Quad8.
Definition shape_at (k : shape) (vs : list (list T)) (r s : T) : outcome (list T) :=
  match k, vs with
  | Tri3, [v0; v1; v2] => Ret (tri_at v0 v1 v2 r s)
  | Quad4, [v0; v1; v2; v3] => Ret (quad_at v0 v1 v2 v3 r s)
  | Tri6, [v0; v1; v2; v3; v4; v5] => Ret (tri6_at v0 v1 v2 v3 v4 v5 r s)
  | Quad8, [v0; v1; v2; v3; v4; v5; v6; v7] => Ret (quad8_at v0 v1 v2 v3 v4 v5 v6 v7 r s)
  | _, _ => Ub
  end.
Definition shape_jac (k : shape) (vs : list (list T)) (r s : T) : outcome (list T * list T) :=
  match k, vs with
  | Tri3, [v0; v1; v2] => Ret (tri_jac v0 v1 v2 r s)
  | Quad4, [v0; v1; v2; v3] => Ret (quad_jac v0 v1 v2 v3 r s)
  | Tri6, [v0; v1; v2; v3; v4; v5] => Ret (tri6_jac v0 v1 v2 v3 v4 v5 r s)
  | Quad8, [v0; v1; v2; v3; v4; v5; v6; v7] => Ret (quad8_jac v0 v1 v2 v3 v4 v5 v6 v7 r s)
  | _, _ => Ub
  end.
End Ops.
(** LineSegment::jacobian (line_segment.hpp:172-184) *)
Definition seg_jacobian {T} (o : arith T) (a b : list T) (r : T) : list T := vsub o b a.
