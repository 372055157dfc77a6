(** What a model of a reactor promises. *)
From Coq Require Import String.
From Coq Require Import List Arith ZArith Bool Reals.
From Verif Require Import Base Loops Grid_Model Grid_Spec Fvm_Model Mpact_Model.
Import ListNotations.
Local Open Scope list_scope.
Local Open Scope R_scope.

(** [id] is the index of an object of the list; [x] is that object *)
Definition at_ {A} (l : list A) (id : Z) (x : A) : Prop := (0 <= id)%Z /\ nth_error l (Z.to_nat id) = Some x.
Definition exists_in {A} (l : list A) (id : Z) : Prop := (0 <= id < Z.of_nat (length l))%Z.

(** the mesh of a cell *)
Definition mesh_at (m : model) (t : mesh_type) (id : Z) (x : mesh R) : Prop :=
  match t with
  | MT_Tri => at_ (tris m) id x
  | MT_Quad => at_ (quads m) id x
  | MT_Tri6 => at_ (tri6s m) id x
  | MT_Quad8 => at_ (quad8s m) id x
  | _ => False
  end.
(** a cell the model can hold: positive extents, and either no mesh, or a mesh that exists with one existing
    material for each of its faces *)
Definition good_cell (m : model) (ext : R * R) (t : mesh_type) (id : Z) (mats : list Z) : Prop :=
  0 < fst ext /\ 0 < snd ext /\
  (id = (-1)%Z \/
   exists x, mesh_at m t id x /\ length mats = length (fv x) /\ Forall (exists_in (materials m)) mats).

(** every id stored anywhere refers to an existing object *)
Record ids_valid (m : model) : Prop := {
  core_ids : Forall (exists_in (assemblies m)) (snd (core m));
  assembly_ids : forall a, In a (assemblies m) -> Forall (exists_in (lattices m)) (snd a);
  lattice_ids : forall l, In l (lattices m) -> Forall (exists_in (rtms m)) (snd l);
  rtm_ids : forall r, In r (rtms m) -> Forall (exists_in (cells m)) (snd r);
  cell_ids : forall c, In c (cells m) -> good_cell m (xy_extents c) (mtype c) (mesh_id c) (material_ids c) }.

(** first and last division *)
Definition first_last (l : list R) (a b : R) : Prop :=
  nth_error l 0 = Some a /\ nth_error l (length l - 1) = Some b.
(** width and height of a rectilinear grid with two axes *)
Definition extent (g : list (list R)) (w h : R) : Prop :=
  exists lx ly a b c d, g = [lx; ly] /\ first_last lx a b /\ first_last ly c d /\ w = b - a /\ h = d - c.
(** points closer than the tolerance *)
Definition near (w h w' h' : R) : Prop := (w - w') * (w - w') + (h - h') * (h - h') < eps * eps.
Definition nondecreasing (z : list R) : Prop :=
  forall i j a b, (i < j)%nat -> nth_error z i = Some a -> nth_error z j = Some b -> a <= b.

(** the grid of a lattice with [nx] x [ny] cells of width [w] and height [h], from the origin *)
Definition lattice_grid (w h : R) (nx ny : Z) : list axis := [mkAxis 0 w nx; mkAxis 0 h ny].

(** the parts of the hierarchy fit together:
    - all RTMs have the extents of the first one up to the tolerance;
    - the cells of every lattice have the extents of the first RTM, one child for each;
    - every assembly has at least one lattice and one more z-plane than lattices, its planes ascend, its
      lattices have the same shape, and its bottom and top are those of the first assembly up to the tolerance;
    - the RTMs and the core have one child for each cell of their grid if assertions are enabled. *)
Record consistent (checks : bool) (m : model) : Prop := {
  rtm_extents : forall r0 r, nth_error (rtms m) 0 = Some r0 -> In r (rtms m) ->
    exists w0 h0 w h, extent (fst r0) w0 h0 /\ extent (fst r) w h /\ near w0 h0 w h;
  lattice_shape : forall l, In l (lattices m) -> exists r0 w0 h0 nx ny,
    nth_error (rtms m) 0 = Some r0 /\ extent (fst r0) w0 h0 /\ fst l = lattice_grid w0 h0 nx ny /\
    (0 <= nx)%Z /\ (0 < ny)%Z /\ Z.of_nat (length (snd l)) = (nx * ny)%Z;
  assembly_shape : forall a, In a (assemblies m) -> exists z bot top,
    fst a = [z] /\ snd a <> [] /\ length z = S (length (snd a)) /\ nondecreasing z /\ first_last z bot top /\
    (forall a0 z0, nth_error (assemblies m) 0 = Some a0 -> fst a0 = [z0] ->
       forall bot0 top0, first_last z0 bot0 top0 -> Rabs (bot - bot0) <= eps /\ Rabs (top - top0) <= eps) /\
    (forall i j l l', In i (snd a) -> In j (snd a) -> at_ (lattices m) i l -> at_ (lattices m) j l' ->
       map nc (fst l) = map nc (fst l'));
  rtm_children : checks = true -> forall r, In r (rtms m) ->
    exists lx ly, fst r = [lx; ly] /\ (2 <= length lx)%nat /\ (2 <= length ly)%nat /\ increasing lx /\ increasing ly /\
      length (snd r) = ((length lx - 1) * (length ly - 1))%nat;
  core_children : checks = true -> snd (core m) <> [] ->
    exists lx ly, fst (core m) = [lx; ly] /\ (2 <= length lx)%nat /\ (2 <= length ly)%nat /\
      increasing lx /\ increasing ly /\ length (snd (core m)) = ((length lx - 1) * (length ly - 1))%nat }.

(** [m'] has all objects of [m], unchanged, with the same ids *)
Definition prefix {A} (l l' : list A) : Prop := exists k, l' = l ++ k.
Record extends (m m' : model) : Prop := {
  ext_core : core m' = core m \/ snd (core m) = [];
  ext_assemblies : prefix (assemblies m) (assemblies m');
  ext_lattices : prefix (lattices m) (lattices m');
  ext_rtms : prefix (rtms m) (rtms m');
  ext_cells : prefix (cells m) (cells m');
  ext_materials : prefix (materials m) (materials m');
  ext_tris : prefix (tris m) (tris m');
  ext_quads : prefix (quads m) (quads m');
  ext_tri6s : prefix (tri6s m) (tri6s m');
  ext_quad8s : prefix (quad8s m) (quad8s m') }.

(** a lattice of ids given as [nr] rows, top row first, of [nc] ids each *)
Definition rectangular (ids : list (list Z)) (nr nc : nat) : Prop :=
  length ids = nr /\ Forall (fun row => length row = nc) ids.
Definition entry (ids : list (list Z)) (r c : nat) (id : Z) : Prop :=
  exists row, nth_error ids r = Some row /\ nth_error row c = Some id.

(** what a refused call does *)
Definition refused {A} (exit_on_error : bool) (x : A) (o : outcome (A * Z)) : Prop :=
  o = if exit_on_error then Fail else Ret (x, (-1)%Z).

(** What [addAssembly] asks of a stack of lattices [ids] cut at the heights [z]: the ids exist, there is one more height than
    lattices, the heights do not decrease, they start at 0 or are the two dimensional (-1/2, 1/2), they span the same interval as the
    first assembly, and all the lattices have the same number of columns and rows. *)
Definition good_assembly (m : model) (ids : list Z) (z : list R) : Prop :=
  Forall (exists_in (lattices m)) ids /\ length z = S (length ids) /\ nondecreasing z /\
  exists bot top, first_last z bot top /\
    (Rabs bot <= eps \/ Rabs (bot + 1 / 2) <= eps /\ Rabs (top - 1 / 2) <= eps) /\
    (forall a0 z0 bot0 top0, nth_error (assemblies m) 0 = Some a0 -> fst a0 = [z0] -> first_last z0 bot0 top0 ->
       Rabs (bot - bot0) <= eps /\ Rabs (top - top0) <= eps) /\
    (forall i j l l', In i ids -> In j ids -> at_ (lattices m) i l -> at_ (lattices m) j l' -> map nc (fst l) = map nc (fst l')).
(** The extents of an assembly: those of its bottom lattice. *)
Definition asy_extent (m : model) (a : list (list R) * list Z) (e : R * R) : Prop :=
  exists i l w h nx ny, nth_error (snd a) 0 = Some i /\ at_ (lattices m) i l /\ fst l = lattice_grid w h nx ny /\
    e = (w * IZR nx, h * IZR ny).

(** the object an id stands for *)
Definition get {A} (l : list A) (id : Z) (d : A) : A := nth (Z.to_nat id) l d.
(** the hierarchy written out: the lattices, the RTMs, the coarse cells and the fine cells of the whole core *)
Definition all_lattices (m : model) : list Z := flat_map (fun a => snd (get (assemblies m) a ([], []))) (snd (core m)).
Definition all_rtms (m : model) : list Z := flat_map (fun l => snd (get (lattices m) l ([], []))) (all_lattices m).
Definition all_cells (m : model) : list Z := flat_map (fun r => snd (get (rtms m) r ([], []))) (all_rtms m).
Definition all_fine (m : model) : list Z :=
  flat_map (fun c => material_ids (get (cells m) c (mkCell (0, 0) MT_Invalid (-1) []))) (all_cells m).
(** [o] is the number [n], or undefined behaviour if a 32-bit integer cannot hold it *)
Definition counts_to (o : outcome Z) (n : nat) : Prop :=
  o = if (Z.of_nat n <=? intMax)%Z then Ret (Z.of_nat n) else Ub.

(** [i] is the index of the first material with the name [s] *)
Definition first_named (ms : list material) (s : string) (i : nat) : Prop :=
  (exists x, nth_error ms i = Some x /\ name x = s) /\
  forall j y, (j < i)%nat -> nth_error ms j = Some y -> name y <> s.

(** what [addCoarseGrid] builds in a model without hierarchy: [nx * ny] cells without mesh, an RTM for each, the lattice of the RTMs
    counted row by row from the bottom left, one assembly from -1/2 to 1/2, and the core of size [w] x [h] *)
Definition coarse_model (m : model) (w h : R) (nx ny : nat) : model :=
  let dx := w / INR nx in let dy := h / INR ny in
  let ids := map Z.of_nat (seq 0 (nx * ny)) in
  mkModel ([[0; w]; [0; h]], [0%Z]) [([[-1 / 2; 1 / 2]], [0%Z])]
    [(lattice_grid dx dy (Z.of_nat nx) (Z.of_nat ny), ids)]
    (map (fun i => ([[0; dx]; [0; dy]], [i])) ids)
    (map (fun _ => mkCell (dx, dy) MT_Invalid (-1) []) ids)
    (materials m) (tris m) (quads m) (tri6s m) (quad8s m).
