(** What the text files beside the XDMF file of a reactor model say. *)
From Coq Require Import String.
From Coq Require Import List Arith ZArith Bool Reals.
From Verif Require Import Base Loops Arith StringView_Model Logger_Model TextIo_Model Elem_Model Seg_Spec Poly_Spec QSeg_Spec QPoly_Spec XSec_Model XSec_Spec PinCyl_Model Grid_Model
  Grid_Spec Fvm_Model Fvm_Spec Xdmf_Model Mpact_Model Mpact_Spec Export_Model Export_Spec ModelIo_Model ModelIo_Spec Outputs_Model.
Import ListNotations.
Local Open Scope list_scope.
Local Open Scope R_scope.

(** ** Text *)
(** the parts of a text between the characters [c] *)
Fixpoint cut (c : Z) (t : list Z) : list (list Z) :=
  match t with
  | [] => [[]]
  | x :: t' => if (x =? c)%Z then [] :: cut c t' else match cut c t' with l :: ls => (x :: l) :: ls | [] => [[x]] end
  end.
Definition lines := cut 10.
Definition words := cut 32.
Definition one_line (t : list Z) : Prop := ~ In 10%Z t.
Definition one_word (t : list Z) : Prop := ~ In 10%Z t /\ ~ In 32%Z t.

(** ** Faces *)
(** the area of a face: the sum of the triangles that its edges form with the origin; for curved edges the integral of
    (x dy - y dx) / 2 along them *)
Definition has_area (k : kind) (p : list (R * R)) (A : R) : Prop :=
  if quadratic k then exists vs ms Is, p = vs ++ ms /\ length vs = length ms /\ integrals green (qedges vs ms) Is /\ A = rsum Is
  else A = rsum (map (fun e => tarea (0, 0) (fst e) (snd e)) (edges p)).
Definition measures (area : kind -> list (R * R) -> R) : Prop := forall k p, length p = nverts k -> has_area k p (area k p).

Section Spec.
Variable m : model.
(** models whose parts are there *)
Definition measurable : Prop := ids_valid m /\ shaped m /\ fits m /\ Forall (meshed m) (cells m).
Definition the_cell (id : Z) : cell := get (cells m) id no_cell.
Definition has_mesh (id : Z) : Prop := cell_mesh m (the_cell id) <> None.
(** the mean chord lengths of the faces, as in the export *)
Definition cell_chords (id : Z) : list R :=
  match cell_mesh m (the_cell id) with Some (k, x) => map (fun f => value_of (chord k (map (vertex x) f))) (fv x) | None => [] end.
Definition core_chords : list R := flat_map cell_chords (all_cells m).

(** ** Volumes *)
Variable area : kind -> list (R * R) -> R.
(** the area of the faces with a material: in a cell, an RTM, a lattice *)
Definition cell_content (mat : Z -> bool) (id : Z) : R :=
  match cell_mesh m (the_cell id) with
  | Some (k, x) => rsum (map (fun fm => area k (map (vertex x) (fst fm))) (filter (fun fm => mat (snd fm)) (combine (fv x) (material_ids (the_cell id)))))
  | None => 0
  end.
Definition rtm_content (mat : Z -> bool) (id : Z) : R := rsum (map (cell_content mat) (snd (get (rtms m) id ([], [])))).
Definition lat_content (mat : Z -> bool) (id : Z) : R := rsum (map (rtm_content mat) (snd (get (lattices m) id ([], [])))).
(** the distances of neighbouring planes *)
Definition gaps (z : list R) : list R := map (fun p => snd p - fst p) (combine z (tl z)).
Definition asy_volume (mat : Z -> bool) (id : Z) : R :=
  let a := get (assemblies m) id ([], []) in
  match fst a with [z] => rsum (map (fun p => lat_content mat (fst p) * snd p) (combine (snd a) (gaps z))) | _ => 0 end.
Definition volume (mat : Z -> bool) : R := rsum (map (asy_volume mat) (snd (core m))).
(** the materials in the core *)
Definition used (mat : Z) : Prop := exists c, In c (all_cells m) /\ has_mesh c /\ In mat (material_ids (the_cell c)).
(** a core without gaps: everything has exactly the size of its place, and the faces of a cell have together the area of the cell *)
Record solid (w h bot top : R) (W H : list R) : Prop := {
  solid_cells : forall id c, nth_error (cells m) id = Some c -> cell_content (fun _ => true) (Z.of_nat id) = fst (xy_extents c) * snd (xy_extents c);
  solid_rtms : forall r, In r (rtms m) -> exists ids Wr Hr, lattice (map xy_extents (cells m)) ids Wr Hr /\ r = ([sums 0 Wr; sums 0 Hr], concat (rev ids)) /\
    rsum Wr = w /\ rsum Hr = h;
  solid_lattices : forall l, In l (lattices m) -> exists nx ny, fst l = lattice_grid w h nx ny /\ (0 <= nx)%Z /\ (0 <= ny)%Z /\ Z.of_nat (length (snd l)) = (nx * ny)%Z;
  solid_assemblies : forall a, In a (assemblies m) -> exists z, fst a = [z] /\ length z = S (length (snd a)) /\ first_last z bot top /\
    forall i j l l', In i (snd a) -> In j (snd a) -> at_ (lattices m) i l -> at_ (lattices m) j l' -> map nc (fst l) = map nc (fst l');
  solid_core : exists exts ids, Forall2 (asy_extent m) (assemblies m) exts /\ lattice exts ids W H /\ core m = ([sums 0 W; sums 0 H], concat (rev ids)) }.
End Spec.

(** ** The input file *)
Definition small_number (x : R) : Prop := Rabs x <= 100000000000000.
Record info_ok (y : matinfo) : Prop := {
  density_ok : small_number (density y);
  temperature_ok : small_number (temperature y);
  nuclides_ok : length (num_densities y) = length (zaids y) }.
(** the card of a material: its name, then the nuclides below each other once a single character has been put for <type> *)
Definition card (show : R -> list Z) (i : nat) (x : material) (y : matinfo) (ls : list (list Z)) : Prop :=
  exists d t first rest,
    let front (type : list Z) := txt "  mat " ++ decimal (Z.of_nat (S i)) ++ txt " " ++ type ++ txt " " ++ d ++ txt " g/cc " ++ t ++ txt " K \ " in
    let nuclide (n : Z * R) := decimal (fst n) ++ txt " " ++ show (snd n) in
    print_float (density y) = Ret d /\ print_float (temperature y) = Ret t /\
    combine (zaids y) (num_densities y) = first :: rest /\
    ls = (txt "  ! " ++ lit (Mpact_Model.name x)) :: (front (txt "<type>") ++ nuclide first) ::
         map (fun n => repeat 32%Z (length (front (txt "F"))) ++ nuclide n) rest.
Definition before_cards (case : list Z) : list (list Z) := [txt "CASEID MPACT_" ++ case; []; txt "STATE"; txt "  edit fsr_flux fsr_power"; []; txt "MATERIAL"].
Definition after_cards (file ray : list Z) : list (list Z) :=
  [txt "GEOM"; txt "  um2_core"; txt "    " ++ file; []; txt "XSEC"; txt "  xslib ORNL mpact51g_71_v4.2m5_12062016_sph.fmt"; []; txt "OPTION";
   txt "  bound_cond <west_bc> <north_bc> <east_bc> <south_bc> <top_bc> <bottom_bc>"; txt "  solver 1 2";
   txt "  ! ray spacing is set such that the expected number of intersections in the largest";
   txt "  ! 90% of faces is 4+ for any given direction. (mean chord length / 4)";
   txt "  ray " ++ ray ++ txt " CHEBYSHEV-YAMAMOTO 16 3"; txt "  parallel 1 1 1 1"; txt "  conv_crit 2*1.e-6"; txt "  iter_lim 2000 1 1";
   txt "  vis_edits T T"; txt "  cmfd A mgnode F 0.0 1.0 150 F"].
(** a tenth of a number of faces, rounded down, or one less if nothing is lost by rounding *)
Definition tenths (tenth : nat -> nat) : Prop := forall n, (10 * tenth n <= n <= 10 * tenth n + 10)%nat.
(** how many of the lengths have the property *)
Definition number_of (f : R -> bool) (l : list R) : nat := length (filter f l).
(** [r] is such that at most a tenth of the lengths are below 4 r and at least a tenth are not above; 4 r is one of them *)
Definition ray_of (l : list R) (r : R) : Prop :=
  In (4 * r) l /\ (10 * number_of (fun c => if Rlt_dec c (4 * r) then true else false) l <= length l)%nat /\
  (length l <= 10 * number_of (fun c => if Rle_dec c (4 * r) then true else false) l)%nat.

(** ** Cross sections *)
Definition at_group (l : list R) (g : nat) : R := nth g l 0.
Definition xs_block (show : R -> list Z) (ng : nat) (p : material * xsec) (ls : list (list Z)) : Prop :=
  exists rows, ls = lit (Mpact_Model.name (fst p)) :: rows /\
    Forall2 (fun g row => words row = map show (map (fun f => at_group (f (snd p)) g) [xa; xf; xnuf; xtr; xs])) (seq 0 ng) rows.
