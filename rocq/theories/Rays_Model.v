(** Model of include/um2/geometry/modular_rays.hpp, in exact real arithmetic.

    ASSERT_ASSUME is an assumption of the compiler: violating it is undefined behaviour. *)
From Coq Require Import ZArith Reals Bool.
From Verif Require Import Base Loops Arith.
Local Open Scope R_scope.

(** um2::ceil *)
Definition ceil (x : R) : Z := (- Int_part (- x))%Z.
(** the members (31-36): box (minima and maxima), numbers of rays, spacing and direction *)
Record params := mkParams {
  p_x0 : R; p_y0 : R; p_x1 : R; p_y1 : R;
  p_nx : Z; p_ny : Z; p_sx : R; p_sy : R; p_dx : R; p_dy : R }.
(** constructor (77-106) *)
Definition make (a s x0 y0 x1 y1 : R) : outcome params :=
  if negb (Rltb 0 a && Rltb a PI && Rltb 0 s) then Ub
  else
    let w := x1 - x0 in
    let h := y1 - y0 in
    let cx := ceil (Rabs (w * sin a / s)) in
    let cy := ceil (Rabs (h * cos a / s)) in
    let* nx := i32 cx in
    let* ny := i32 cy in
    let sx := w / IZR cx in
    let sy := h / IZR cy in
    let a_eff := atan (sy / sx) in
    let dx := cos a_eff in
    let dx := if Rltb (PI / 2) a then - dx else dx in
    Ret (mkParams x0 y0 x1 y1 nx ny sx sy dx (sin a_eff)).
(** getTotalNumRays (165-170) *)
Definition getTotalNumRays (m : params) : outcome Z := i32 (p_nx m + p_ny m).
(** getRay (112-163): origin and direction *)
Definition getRay (m : params) (i : Z) : outcome ((R * R) * (R * R)) :=
  let* n := i32 (p_nx m + p_ny m) in
  if negb (i <? n)%Z then Ub
  else
    let case_id := ((if (i <? p_nx m)%Z then 0 else 1) + (if Rltb (p_dx m) 0 then 2 else 0))%nat in
    let i_half := IZR i + 1 / 2 in
    let dir := (p_dx m, p_dy m) in
    match case_id with
    | 0%nat => Ret ((p_x1 m - p_sx m * i_half, p_y0 m), dir)
    | 1%nat => Ret ((p_x0 m, p_y0 m + p_sy m * (i_half - IZR (p_nx m))), dir)
    | 2%nat => Ret ((p_x0 m + p_sx m * i_half, p_y0 m), dir)
    | 3%nat => Ret ((p_x1 m, p_y0 m + p_sy m * (i_half - IZR (p_nx m))), dir)
    | _ => Ub
    end.
