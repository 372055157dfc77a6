(** Model of Model::writeCMFDInfo (src/mpact/model.cpp:3251-3517) and getCoarseCellHomogenizedXSec (3137-3173), over exact real numbers.

    As in Export_Model, [xsecs] are the cross sections of the materials; the assertions on ids are left out, they forbid reads that are
    undefined behaviour here.  [solve] and [eigvals] are LAPACK's functions (Cmfd_Model).  An error in a cross section (validate) ends the
    program.  Division by a total cross section of zero has no meaning in the exact numbers.  LOG_INFO and LOG_WARN are left out. *)
From Coq Require Import String.
From Coq Require Import Reals.
From Coquelicot Require Import Complex.
From Coq Require Import List Arith ZArith Bool.
From Verif Require Import Base Loops Arith StringView_Model Ascii_Model TextIo_Model Elem_Model Matrix_Model Soup_Model XSec_Model Cmfd_Model PinCyl_Model
  Grid_Model Fvm_Model Xdmf_Model Mpact_Model Export_Model ModelIo_Model Outputs_Model.
Import ListNotations.
Local Open Scope list_scope.
Local Open Scope R_scope.

(** -infDistance<Float>() (math/vec.hpp:62-67) *)
Definition unset : R := - 100000000.
(** cmfd.hpp:61-75: the assertions of the constructor *)
Definition params_ok (w : R) (p : nat) (sigma_t c : R) (s : Z) (eta : R) : bool :=
  Rltb 0 w && (1 <=? p)%nat && Rltb 0 sigma_t && Rleb 0 c && Rleb c 1 && (0 <? s)%Z && Rleb 0 eta && Rleb eta (1 / 4).

Section Info.
Variables checks exit_on_error : bool.
Variable solve : cmat -> cmat -> outcome (cmat * cmat).
Variable eigvals : cmat -> outcome (list C).
(** [fsize] and [tol]: size of a Float and the tolerance below which z is not written (Xdmf_Model) *)
Variable fsize : Z.
Variable tol : R.
Variable m : model.
Variable xsecs : list xsec.
Notation assert := (Mpact_Model.assert checks).
(** logger::error, then return *)
Definition give_up {S : Type} (s : S) : outcome (S * bool) := if exit_on_error then Fail else Ret (s, false).

(** 3137-3173; XSec() has no groups *)
Definition cell_xsec (icc : nat) : outcome xsec :=
  let* cc := rd (cells m) icc in
  match kind_of (mtype cc), meshes_of m (mtype cc) with
  | Some k, Some ms =>
      let* x := rdz ms (mesh_id cc) in
      let* areas := mapo (fun i => let* p := face_of x i in area_of k p) (seq 0 (length (fv x))) in
      homogenize areas (material_ids cc) xsecs
  | _, _ => go_on exit_on_error (mkX false false 0 [] [] [] [] [] (mkM 0 0 []))
  end.

(** ** The faces *)
(** the soup and the ids of the faces of each coarse cell *)
Notation state := (soup3 * list (list Z))%type.
(** 3366-3398: a coarse cell of an RTM *)
Definition quad_cell (rtm : list (list R) * list Z) (asy_ll : R * R) (lat_z : R) (rtm_ll : R * R) (ix iy : Z) (st : state)
    : outcome (state * bool) :=
  let '(s, face_ids) := st in
  let* cell_id := rect_getChild Z rtm [ix; iy] in
  let* b := rect_getBox (fst rtm) [ix; iy] in
  let* bx := rd b 0 in
  let* by_ := rd b 1 in
  let ex := snd bx - fst bx in
  let ey := snd by_ - fst by_ in
  let x := fst bx + fst rtm_ll + fst asy_ll in
  let y := fst by_ + snd rtm_ll + snd asy_ll in
  let '(s, v0) := addVertex s (x, y, lat_z) in
  let '(s, v1) := addVertex s (x + ex, y, lat_z) in
  let '(s, v2) := addVertex s (x + ex, y + ey, lat_z) in
  let '(s, v3) := addVertex s (x, y + ey, lat_z) in
  let* r := addElement s V_Quad [v0; v1; v2; v3] in
  let* l := rdz face_ids cell_id in
  let* face_ids := wrz face_ids cell_id (l ++ [snd r]) in
  Ret ((fst r, face_ids), true).
(** 3345-3400: an RTM of a lattice *)
Definition quad_rtm (lat : list axis * list Z) (asy_ll : R * R) (lat_z : R) (ix iy : Z) (st : state) : outcome (state * bool) :=
  let* rtm_id := regular_getChild Z lat [ix; iy] in
  let* b := getBox (fst lat) [ix; iy] in
  let* rtm_ll := corner b in
  let* rtm := rdz (rtms m) rtm_id in
  if (length (snd rtm) =? 0)%nat then give_up st
  else
    let* n := num_cells (fst rtm) in
    loop2 (fst n) (snd n) (quad_cell rtm asy_ll lat_z rtm_ll) st.
(** 3321-3402: a lattice of an assembly *)
Definition quad_lattice (asy : list (list R) * list Z) (asy_ll : R * R) (iz : nat) (st : state) : outcome (state * bool) :=
  let* lat_id := rect_getChild Z asy [Z.of_nat iz] in
  let* divs := rd (fst asy) 0 in
  let* low_z := rd divs iz in
  let* high_z := rd divs (S iz) in
  let lat_z := (low_z + high_z) / 2 in
  let* lat := rdz (lattices m) lat_id in
  if (length (snd lat) =? 0)%nat then give_up st
  else
    let* ax := rd (fst lat) 0 in
    let* ay := rd (fst lat) 1 in
    loop2 (nc ax) (nc ay) (quad_rtm lat asy_ll lat_z) st.
(** 3302-3403: an assembly of the core *)
Definition quad_assembly (ix iy : Z) (st : state) : outcome (state * bool) :=
  let* asy_id := rect_getChild Z (core m) [ix; iy] in
  let* b := rect_getBox (fst (core m)) [ix; iy] in
  let* asy_ll := corner b in
  let* asy := rdz (assemblies m) asy_id in
  if (length (snd asy) =? 0)%nat then give_up st
  else
    let* nz := rd (numCells (fst asy)) 0 in
    loop (Z.to_nat nz) 0 (quad_lattice asy asy_ll) st.

(** ** The data *)
(** e.g. 3421-3437: the elset of a group.  [f] is the value of a coarse cell, [W] what the loop carries along besides the data *)
Definition group_set {W : Type} (prefix : string) (f : nat -> nat -> W -> outcome (R * W)) (face_ids : list (list Z)) (ids : list Z) (ig : nat)
    (st : soup3 * W) : outcome (soup3 * W) :=
  let* num := getASCIINumber (Z.of_nat ig) in
  let* r := for_ (length (cells m)) 0 (fun icc dw =>
      let* v := f icc ig (snd dw) in
      let* fs := rd face_ids icc in
      let* d := foreach fs (fun id d => wrz d id (fst v)) (fst dw) in
      Ret (d, snd v)) (repeat unset (length ids), snd st) in
  let* s := with_set exit_on_error (fst st) (lit prefix ++ num) ids (fst r) in
  assert (forallb (Rltb unset) (fst r)) (Ret (s, snd r)).
(** XSec::t (physics/cross_section.hpp:112-118) *)
Definition xs_t (x : xsec) (g : nat) : outcome R := let* a := rd (xa x) g in let* s := rd (xs x) g in Ret (a + s).
(** 3425 *)
Definition total_value (cxs : list xsec) (icc ig : nat) (w : unit) : outcome (R * unit) :=
  let* x := rd cxs icc in let* t := xs_t x ig in Ret (t, w).
(** 3444-3446: the scattering ratio *)
Definition ratio (cxs : list xsec) (icc ig : nat) : outcome R :=
  let* x := rd cxs icc in let* t := xs_t x ig in let* s := rd (xs x) ig in Ret (s / t).
Definition ratio_value (cxs : list xsec) (icc ig : nat) (w : unit) : outcome (R * unit) :=
  let* c := ratio cxs icc ig in Ret (c, w).
(** 3479-3503: the matrices omega, U, An, Bn and I are those that the last cell has left *)
Definition radius_value (J : cmat) (cxs : list xsec) (icc ig : nat) (w : cmat * work) : outcome (R * (cmat * work)) :=
  let* x := rd cxs icc in
  let* sigma_t := xs_t x ig in
  let* c := ratio cxs icc ig in
  let* cc := rd (cells m) icc in
  let width := (fst (xy_extents cc) + snd (xy_extents cc)) / 2 in
  if Rltb 1 c then Ret (-1, w)
  else
    assert (params_ok width 4 sigma_t c 1 (1 / 4)) (
    let* r := radius_run solve eigvals (CMFDCellParams width 4 sigma_t c 1 (1 / 4)) (fst w) J (snd w) in
    let '(omega, s, (rho, _)) := r in
    Ret (Re rho, (omega, s))).
(** 3461-3471: the matrices; omega, U and I have arbitrary contents [junk] *)
Definition matrix_of (junk : list C) : cmat := mkM 4 4 junk.

(** PolytopeSoup::write (polytope_soup.cpp:2084-2092) *)
Definition soup_write (s : soup3) (filename : list Z) (d : disk) : outcome disk :=
  let* b := is_xdmf filename in
  if b then writeXDMFFile fsize tol filename s d else go_on exit_on_error d.

(** 3253-3517 *)
Definition writeCMFDInfo (junk : list C) (filename : list Z) (d : disk) : outcome disk :=
  let* x0 := rd xsecs 0 in
  let num_groups := numGroups x0 in
  let* _ := foreach xsecs (fun x u =>
    if negb (isMacro x) then Fail else
    let* _ := validate x in
    assert (numGroups x =? num_groups)%nat (Ret u)) tt in
  if (length (snd (core m)) =? 0)%nat then go_on exit_on_error d
  else
    let* cxs := mapo cell_xsec (seq 0 (length (cells m))) in
    let* n := num_cells (fst (core m)) in
    let* r := loop2 (fst n) (snd n) quad_assembly (empty_soup, repeat [] (length (cells m))) in
    let '((s, face_ids), go) := r in
    if negb go then Ret d
    else
      let* s := for_ (length (cells m)) 0 (fun icc s =>
        let* num := getASCIINumber (Z.of_nat icc) in
        let* fs := rd face_ids icc in
        with_set exit_on_error s (lit "Coarse_Cell_" ++ num) fs []) s in
      let ids := map Z.of_nat (seq 0 (length (etypes s))) in
      let* st := for_ num_groups 0 (group_set "Homogenized_Total_XS_Group_" (total_value cxs) face_ids ids) (s, tt) in
      let* st := for_ num_groups 0 (group_set "Homogenized_Scattering_Ratio_Group_" (ratio_value cxs) face_ids ids) st in
      let zeros := repeat (RtoC 0) 16 in
      let J := matrix_of (repeat (RtoC 1) 16) in
      let* st := for_ num_groups 0 (group_set "1D_odCMFD_Spectral_Radius_Group_" (radius_value J cxs) face_ids ids)
        (fst st, (matrix_of junk, Cmfd_Model.mkW (matrix_of junk) (matrix_of zeros) (matrix_of zeros) (matrix_of junk))) in
      soup_write (fst st) filename d.
End Info.
