(** Model of the programs post-process/extract_meanchordlength.cpp, extract_edge_length.cpp and extract_cmfd_info.cpp, which list
    numbers of a reactor model or of its file with CMFD data in text files, over exact real numbers.

    Reading the model and the soup is in ModelIo_Model and Xdmf_Model: the programs start with what was read.  [show] is
    how fprintf prints a Float with "%.16f"; files can be opened, written and closed.  LOG_ERROR and return 1 are [Fail].
    Vector::resize leaves new entries unspecified, here they are zero. *)
From Coq Require Import String.
From Coq Require Import List Arith ZArith Bool Reals.
From Verif Require Import Base Loops Arith Elem_Model Soup_Model Ascii_Model Poly_Model QSeg_Model TextIo_Model PinCyl_Model Grid_Model Fvm_Model
  Mpact_Model Export_Model Outputs_Model Source_Model.
Import ListNotations.
Local Open Scope list_scope.
Local Open Scope R_scope.

(** the loop that prints a vector (e.g. extract_meanchordlength.cpp:87-93) *)
Definition print (show : R -> text) (l : list R) : outcome text := foreach l (fun x t => Ret (t ++ show x ++ NL)) [].

(** ** Mean chord lengths *)
(** extract_meanchordlength.cpp:32-62: a coarse cell *)
Definition cell_mcls (m : model) (cc : cell) : outcome (list R) :=
  with_mesh true m cc (fun k x l =>
    for_ (length (fv x)) 0 (fun i l => let* p := face_of x i in let* c := chord k p in wr l i c) l)
    (repeat 0 (length (material_ids cc))).
(** um2::copy to the place [at_] of a vector (73-74) *)
Definition copy_to (src : list R) (at_ : nat) (dst : list R) : outcome (list R) :=
  for_ (length src) 0 (fun i dst => let* v := rd src i in wr dst (at_ + i) v) dst.
(** 21-79: the vector global_mcls; the state of the second loop is the vector and cell_count *)
Definition global_mcls (m : model) : outcome (list R) :=
  let* n := numFineCellsTotal m in
  let* table := mapo (cell_mcls m) (cells m) in
  let* st := each_cell m (fun c st =>
    let* l := rdz table c in
    let* g := copy_to l (snd st) (fst st) in
    Ret (g, snd st + length l)%nat) (repeat 0 (Z.to_nat n), O) in
  Ret (fst st).
(** 19-100: the text of mcls.txt *)
Definition extract_mcls (show : R -> text) (m : model) : outcome text :=
  let* l := global_mcls m in print show l.

(** ** Edge lengths *)
(** length() of an edge: LineSegment (geometry/line_segment.hpp) or QuadraticSegment *)
Definition edge_length (e : list (R * R)) : outcome R :=
  match e with
  | [a; b] => Ret (pdist Rarith a b)
  | [a; b; c] => Ret (qs_length Rarith ln (eps * eps) a b c)
  | _ => Ub
  end.
(** extract_edge_length.cpp:33-81: a coarse cell; num_edges_per_face is [nedges k] *)
Definition cell_edge_lens (m : model) (cc : cell) : outcome (list R) :=
  with_mesh true m cc (fun k x _ =>
    for_ (length (fv x)) 0 (fun i l =>
      for_ (nedges k) 0 (fun j l =>
        let* e := getEdge k x i j in let* d := edge_length e in wr l (i * nedges k + j) d) l)
      (repeat 0 (nedges k * length (material_ids cc)))) [].
(** 21-96: the vector global_edge_lens; 4 * numFineCellsTotal() is computed for reserve (23) *)
Definition global_edge_lens (m : model) : outcome (list R) :=
  let* n := numFineCellsTotal m in
  let* _ := i32 (4 * n) in
  let* table := mapo (cell_edge_lens m) (cells m) in
  each_cell m (fun c g => let* l := rdz table c in Ret (g ++ l)) [].
(** 19-117: the text of edge_lens.txt *)
Definition extract_edge_lens (show : R -> text) (m : model) : outcome text :=
  let* l := global_edge_lens m in print show l.

(** ** CMFD data *)
(** extract_cmfd_info.cpp:37-43, 44-50 and 51-57: one of the element sets of group [i]; the state is ids and tmp, the vector of
    the groups and has_elset *)
Definition take (s : fsr) (prefix : string) (i : Z) (st : list Z * list R) (groups : list (list R)) (has : bool)
  : outcome ((list Z * list R) * list (list R) * bool) :=
  let* n := getASCIINumber i in
  let* st := fetch s (lit prefix ++ n) st in
  match fst st with
  | [] => Ret (st, groups, has)
  | _ => Ret (st, groups ++ [snd st], true)
  end.
Notation three := (list (list R) * list (list R) * list (list R))%type (only parsing).
(** 33-59: the while loop from group [i] on *)
Fixpoint groups_from (fuel : nat) (s : fsr) (i : Z) (acc : three) : outcome three :=
  match fuel with
  | O => OutOfFuel
  | S fuel' =>
      let '(xs, ratio, radius) := acc in
      let* r1 := take s "Homogenized_Total_XS_Group_" i ([], []) xs false in
      let '(st, xs, has) := r1 in
      let* r2 := take s "Homogenized_Scattering_Ratio_Group_" i st ratio has in
      let '(st, ratio, has) := r2 in
      let* r3 := take s "1D_odCMFD_Spectral_Radius_Group_" i st radius has in
      let '(_, radius, has) := r3 in
      let* i := i32 (i + 1) in
      if has : bool then groups_from fuel' s i (xs, ratio, radius) else Ret (xs, ratio, radius)
  end.
(** the two loops that print the groups (e.g. 69-77) *)
Definition print_groups (show : R -> text) (g : list (list R)) : outcome text :=
  foreach g (fun l t => foreach l (fun x t => Ret (t ++ show x ++ NL)) t) [].
(** 24-137: the texts of total_xs.txt, scattering_ratio.txt and spectral_radius.txt *)
Definition extract_cmfd (fuel : nat) (show : R -> text) (s : fsr) : outcome (text * text * text) :=
  let* r := groups_from fuel s 0 ([], [], []) in
  let '(xs, ratio, radius) := r in
  let* a := print_groups show xs in
  let* b := print_groups show ratio in
  let* c := print_groups show radius in
  Ret (a, b, c).
