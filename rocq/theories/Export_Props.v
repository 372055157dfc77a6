(** C70: a reactor model converted to a polytope soup. *)
From Coq Require Import String.
From Coq Require Import List Arith ZArith Lia Bool Reals Lra.
From Verif Require Import Base Loops Arith Elem_Model Sort_Spec Seg_Spec Poly_Spec QSeg_Model QSeg_Spec QPoly_Spec Soup_Model Soup_Spec XSec_Model PinCyl_Model Grid_Model Fvm_Model Mpact_Model Mpact_Spec Mpact_Refuted_Proofs Mpact_Props
  Export_Model Export_Spec Export_Final_Proofs Export_Names_Proofs.
Import ListNotations.
Local Open Scope list_scope.

(** The soup has the faces of all the cells of the core, at their places, in the order of the hierarchy; every face is in the set of the
    cell, RTM, lattice and assembly it belongs to, and has its material, cross section, mean chord length and Knudsen number. *)
Theorem C70_export : forall stdsort checks exit_on_error m xsecs, sort_contract stdsort -> exportable m xsecs -> complete m = true ->
  exists s, export stdsort checks exit_on_error m xsecs = Ret s /\ exported m xsecs s (placed_cells m).
Proof. intros stdsort checks exit m xsecs Hs He. exact (export_complete stdsort Hs checks exit m xsecs He). Qed.
Print Assumptions C70_export.
(** If something is missing below the core, the export ends the program, or (errors do not end it) gives the assemblies before the one
    where it is missing. *)
Theorem C70_incomplete : forall stdsort checks m xsecs, sort_contract stdsort -> exportable m xsecs -> complete m = false ->
  export stdsort checks true m xsecs = Fail /\
  exists s, export stdsort checks false m xsecs = Ret s /\
    exported m xsecs s (expand (rtm_kids m) (expand (lat_kids m) (expand (asy_kids m) (leading m (placed_assemblies m))))).
Proof.
  intros stdsort checks m xsecs Hs He Hc. split.
  - exact (export_incomplete stdsort Hs checks true m xsecs He Hc).
  - exact (export_incomplete stdsort Hs checks false m xsecs He Hc).
Qed.
Print Assumptions C70_incomplete.
(** The mean chord length of a face is pi times its area by its perimeter: for straight edges the sums over the edges, for curved ones
    those of the integrals along them. *)
Theorem C70_chord : forall k p, quadratic k = false -> length p = nverts k -> forall q,
  chord k p = Ret (PI * rsum (map (fun e => tarea q (fst e) (snd e)) (edges p)) / rsum (map (fun e => dist2 (fst e) (snd e)) (edges p)))%R.
Proof. exact chord_linear. Qed.
Print Assumptions C70_chord.
Theorem C70_chord_curved : forall k vs ms, quadratic k = true -> length (vs ++ ms) = nverts k -> length vs = length ms ->
  (forall a b c, In (a, b, c) (qedges vs ms) -> mid_half a b c \/ (orient a b c <> 0 /\ isStraight Rarith (eps * eps) a b c = false)%R) ->
  exists Is Ls, integrals green (qedges vs ms) Is /\ integrals arclength (qedges vs ms) Ls /\
    chord k (vs ++ ms) = Ret (PI * rsum Is / rsum Ls)%R.
Proof. exact chord_curved. Qed.
Print Assumptions C70_chord_curved.
(** The places are those of the hierarchy written out, and the copies of each object are numbered 0, 1, ... *)
Theorem C70_places : forall m xsecs, exportable m xsecs ->
  map here (placed_assemblies m) = snd (core m) /\ map here (placed_lattices m) = all_lattices m /\
  map here (placed_rtms m) = all_rtms m /\ map here (placed_cells m) = all_cells m.
Proof. exact place_ids. Qed.
Print Assumptions C70_places.
Theorem C70_numbered : forall kids l k p, nth_error (expand kids l) k = Some p ->
  exists q rest, In q l /\ path p = (here p, count_occ Z.eq_dec (map here (firstn k (expand kids l))) (here p)) :: rest /\ rest = path q.
Proof. exact expand_numbered. Qed.
Print Assumptions C70_numbered.
(** With at most five digits each set named after an object is exactly the faces in that object. *)
Theorem C70_object_sets : forall m xsecs a, shows a (flat_map (cell_faces m xsecs) (placed_cells m)) ->
  Forall (fun p => Forall small (path p)) (placed_cells m) ->
  forall L prefix l, nth_error levels L = Some prefix -> small l ->
  ((exists p, In p (placed_cells m) /\ cell_faces m xsecs p <> [] /\ nth_error (path p) L = Some l) ->
    exists e, In e (a_elsets a) /\ es_name e = named prefix l) /\
  (forall e, In e (a_elsets a) -> es_name e = named prefix l ->
     forall i p, nth_error (owners m xsecs (placed_cells m)) i = Some p -> (In (Z.of_nat i) (es_ids e) <-> nth_error (path p) L = Some l)).
Proof. exact object_sets. Qed.
Print Assumptions C70_object_sets.
(** Without that bound two different copies of a cell can share a set. *)
Theorem C70_shared_name_refuted : exists m xsecs p q lp lq, exportable m xsecs /\ complete m = true /\ In p (placed_cells m) /\ In q (placed_cells m) /\
  nth_error (path p) 0 = Some lp /\ nth_error (path q) 0 = Some lq /\ lp <> lq /\ named "Coarse_Cell_" lp = named "Coarse_Cell_" lq /\
  cell_faces m xsecs p <> [] /\ cell_faces m xsecs q <> [].
Proof. exact shared_name. Qed.
Print Assumptions C70_shared_name_refuted.
(** With assertions, a model that is built with the library's functions has the shape that is asked for. *)
Theorem C70_reachable : forall stdsort selfcheck at_origin exit_on_error ops m,
  run stdsort selfcheck at_origin true exit_on_error empty_model ops = Ret m -> ids_valid m /\ shaped m.
Proof.
  intros stdsort selfcheck at_origin exit ops m H. destruct (C55_history _ _ _ _ _ _ _ H) as (V & C). split; [exact V|]. now apply reachable_shaped.
Qed.
Print Assumptions C70_reachable.
(** addCoarseCell accepts a mesh type without a mesh; the export then reads a mesh that does not exist. *)
Theorem C70_meshless_cell_refuted : forall stdsort checks exit_on_error, sort_contract stdsort ->
  exists m, ids_valid m /\ shaped m /\ fits m /\ export stdsort checks exit_on_error m [] = Ub.
Proof. exact meshless. Qed.
Print Assumptions C70_meshless_cell_refuted.

(** * The hypotheses can be met *)
Example ex_chord : quadratic Quad = false /\ length [(0, 0); (1, 0); (1, 1); (0, 1)]%R = nverts Quad.
Proof. split; reflexivity. Qed.
Example ex_curved : let vs := [(0, 0); (1, 0); (0, 1)]%R in let ms := [(1 / 2, 0); (1 / 2, 1 / 2); (0, 1 / 2)]%R in
  forall a b c, In (a, b, c) (qedges vs ms) -> mid_half a b c \/ (orient a b c <> 0 /\ isStraight Rarith (eps * eps) a b c = false)%R.
Proof. exact ex_curved_ok. Qed.
Example ex_row : exportable (row_model 3) row_xsecs /\ complete (row_model 3) = true.
Proof. apply row_exportable; [lia|]. unfold intMax. lia. Qed.
Example ex_row_cells : map here (placed_cells (row_model 3)) = [0; 0; 0]%Z /\ map (fun p => nth_error (path p) 0) (placed_cells (row_model 3)) = [Some (0%Z, 0%nat); Some (0%Z, 1%nat); Some (0%Z, 2%nat)].
Proof. split; reflexivity. Qed.
Example ex_small : Forall (fun p => Forall small (path p)) (placed_cells (row_model 3)).
Proof. repeat constructor; cbn; lia. Qed.
Example ex_incomplete : exportable gap_model row_xsecs /\ complete gap_model = false /\ length (leading gap_model (placed_assemblies gap_model)) = 1%nat.
Proof. exact gap_ok. Qed.
Example ex_run : forall stdsort selfcheck at_origin, exists ops m, run stdsort selfcheck at_origin true true empty_model ops = Ret m /\ length (cells m) = 2%nat.
Proof. intros. eexists _, two_cells. split; [apply two_cells_run|reflexivity]. Qed.
