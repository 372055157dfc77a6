(** What the file with the CMFD data of a reactor model shows: a rectangle for each cell of the core and the homogenised data of the cells. *)
From Coq Require Import String.
From Coq Require Import Reals.
From Coquelicot Require Import Complex.
From Coq Require Import List Arith ZArith Bool.
From Verif Require Import Base Loops Arith TextIo_Model Elem_Model Matrix_Model Matrix_Spec Soup_Model Soup_Spec Stats_Spec XSec_Model XSec_Spec Cmfd_Model Cmfd_Spec PinCyl_Model
  Grid_Model Fvm_Model Fvm_Spec Mpact_Model Mpact_Spec Export_Model Export_Spec Outputs_Spec.
Import ListNotations.
Local Open Scope list_scope.
Local Open Scope R_scope.

(** ** Rectangles *)
(** the corners of a rectangle at [o], anticlockwise from the lower left one *)
Definition rectangle (o : pt3) (e : R * R) : list pt3 :=
  let '(x, y, z) := o in [(x, y, z); (x + fst e, y, z); (x + fst e, y + snd e, z); (x, y + snd e, z)].
(** the [i]-th of [n] quadrilaterals has the vertices 4 i, ..., 4 i + 3 *)
Definition quads_of (n : nat) : list (vtk * list Z) :=
  map (fun i => (V_Quad, map (fun j => Z.of_nat (4 * i + j)) [0; 1; 2; 3]%nat)) (seq 0 n).
(** the positions of [x] in a list *)
Definition positions (x : Z) (l : list Z) : list Z :=
  map (fun q => Z.of_nat (fst q)) (filter (fun q => (snd q =? x)%Z) (combine (seq 0 (length l)) l)).

Section Spec.
Variable m : model.
(** width and depth of the places of the cells of an RTM, row by row from the bottom; of all the cells of the core *)
Definition rtm_sizes (id : Z) : list (R * R) :=
  match fst (get (rtms m) id ([], [])) with [lx; ly] => flat_map (fun h => map (fun w => (w, h)) (gaps lx)) (gaps ly) | _ => [] end.
Definition cell_sizes : list (R * R) := flat_map (fun p => rtm_sizes (here p)) (placed_rtms m).
Definition rectangles : list pt3 := flat_map (fun q => rectangle (offset (fst q)) (snd q)) (combine (placed_cells m) cell_sizes).
(** the cells that are in the core *)
Definition in_core (c : Z) : bool := existsb (Z.eqb c) (all_cells m).
Definition every_id : list Z := map Z.of_nat (seq 0 (length (cells m))).

(** ** Data of a cell *)
Variable xsecs : list xsec.
Variable area : kind -> list (R * R) -> R.
(** area and material of the faces *)
Definition parts (c : Z) : list (R * Z) :=
  match cell_mesh m (the_cell m c) with
  | Some (k, x) => combine (map (fun f => area k (map (vertex x) f)) (fv x)) (material_ids (the_cell m c))
  | None => []
  end.
(** the mean over the area of the cell *)
Definition mixed (r : reaction) (c : Z) (g : nat) : R :=
  Stats_Spec.total (map (fun f => fst f * face_value xsecs f r g) (parts c)) / Stats_Spec.total (map fst (parts c)).
Definition total_of (c : Z) (g : nat) : R := mixed Absorption c g + mixed Scattering c g.
Definition ratio_of (c : Z) (g : nat) : R := mixed Scattering c g / total_of c g.
(** the slab that stands for the cell: four fine cells over the mean side length, one sweep, odCMFD *)
Definition slab (c : Z) (g : nat) : params :=
  let e := xy_extents (the_cell m c) in
  CMFDCellParams ((fst e + snd e) / 2) 4 (total_of c g) (ratio_of c g) 1 (1 / 4).

Section Lapack.
Variable solve : cmat -> cmat -> outcome (cmat * cmat).
Variable eigvals : cmat -> outcome (list C).
(** [r] is the spectral radius of [q], whatever is in the matrices that are used to compute it *)
Definition radius_is (q : params) (r : C) : Prop := forall omega J s, sized 4 omega -> sized 4 J ->
  sized 4 (wU s) -> sized 4 (wA s) -> sized 4 (wB s) -> sized 4 (wI s) -> spectral_radius solve eigvals q omega J s = Ret r.
(** -1 stands for cells that scatter more than they remove *)
Definition radius_data (c : Z) (g : nat) (v : R) : Prop :=
  if Rlt_dec 1 (ratio_of c g) then v = -1 else exists r, radius_is (slab c g) r /\ v = Re r.
End Lapack.

(** ** The soup *)
Definition cell_set (c : Z) : elset R := mkElset (lit "Coarse_Cell_" ++ digits5 c) (positions c (map here (placed_cells m))) [].
Definition data_set (prefix : string) (f : Z -> nat -> R) (g : nat) : elset R :=
  mkElset (lit prefix ++ digits5 (Z.of_nat g)) (map Z.of_nat (seq 0 (length (placed_cells m)))) (map (fun p => f (here p) g) (placed_cells m)).
Definition described (ng : nat) (radius : Z -> nat -> R) (a : asoup pt3 R) : Prop :=
  length cell_sizes = length (placed_cells m) /\
  a_verts a = rectangles /\ a_elems a = quads_of (length (placed_cells m)) /\
  a_elsets a = map cell_set (filter in_core every_id)
    ++ map (data_set "Homogenized_Total_XS_Group_" total_of) (seq 0 ng)
    ++ map (data_set "Homogenized_Scattering_Ratio_Group_" ratio_of) (seq 0 ng)
    ++ map (data_set "1D_odCMFD_Spectral_Radius_Group_" radius) (seq 0 ng).

(** ** Models with CMFD data *)
Record describable (ng : nat) : Prop := {
  d_measurable : measurable m;
  d_meshes : Forall (has_mesh m) every_id;
  d_groups : ng <> O;
  d_xsecs : length xsecs = length (materials m);
  d_macro : Forall (fun x => isMacro x = true /\ shape ng x) xsecs;
  d_areas : forall c, In c every_id -> Forall (Rle 0) (map fst (parts c)) /\ 0 < Stats_Spec.total (map fst (parts c));
  d_data : forall c g, In c every_id -> (g < ng)%nat -> 0 < total_of c g /\ 0 <= mixed Scattering c g /\ mixed Absorption c g <> 0 }.
(** five digits are enough, and 32 bits *)
Definition few (ng : nat) : Prop :=
  (Z.of_nat (length (cells m)) <= 100000)%Z /\ (Z.of_nat ng <= 100000)%Z /\ (12 * Z.of_nat (length (all_cells m)) <= intMax)%Z.
(** there is something at each place down to the cells *)
Definition branching : bool :=
  full (snd (core m)) (fun a => full (snd (get (assemblies m) a ([], []))) (fun l => full (snd (get (lattices m) l ([], [])))
    (fun r => full (snd (get (rtms m) r ([], []))) (fun _ => true)))).
End Spec.
(** LAPACK finds the eigenvalues of each matrix; the assertions ask for values above -10^8 *)
Definition eigen (checks : bool) (eigvals : cmat -> outcome (list C)) : Prop :=
  forall a f, is_mat Carith a 4 4 f -> exists l, eigvals a = Ret l /\ (checks = true -> forall e, In e l -> - 100000000 < Re e).
