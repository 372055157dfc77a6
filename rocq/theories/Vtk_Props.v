(** C68: reading a VTK file. *)
From Coq Require Import String Ascii.
From Coq Require Import List Arith ZArith Bool Reals Lia Lra Sorting.Sorted Sorting.Permutation.
From Verif Require Import Base Loops StringView_Model StringView_Spec Elem_Model Soup_Model Soup_Spec Soup_Final_Proofs TextIo_Model TextIo_Spec TextIo_Proofs Abaqus_Spec Vtk_Model Vtk_Spec Vtk_Proofs.
Import ListNotations.
Local Open Scope list_scope.
Local Open Scope nat_scope.

(** Reading a file into an empty soup gives the points and the cells of the file in its order, and one element set of all the cells for
    every section of data, in the order of the names, whether or not assertions are enabled, however long the file is. *)
Theorem C68_read checks stdsort max_int t a : sort_contract stdsort -> (max_int <= INT64_MAX)%Z -> vtk_text max_int t a -> NoDup (names a) ->
  exists s l m, readVTKFile checks max_int stdsort (Some t) empty_soup = Ret s /\ stores s (mkA (a_verts a) (a_elems a) l) /\
    names_sorted l /\ Permutation (a_elsets a) m /\ Forall2 same_sorted m l.
Proof.
  intros So M T N. destruct (read_ok checks max_int M stdsort So t a T) as [(_ & H)|(H & _)]; auto. contradiction.
Qed.
Print Assumptions C68_read.
(** A file with two sections of data of the same name is refused. *)
Theorem C68_repeated checks stdsort max_int t a : sort_contract stdsort -> (max_int <= INT64_MAX)%Z -> vtk_text max_int t a -> ~ NoDup (names a) ->
  readVTKFile checks max_int stdsort (Some t) empty_soup = Fail.
Proof.
  intros So M T N. destruct (read_ok checks max_int M stdsort So t a T) as [(H & _)|(_ & H)]; auto. contradiction.
Qed.
Print Assumptions C68_repeated.
(** A file that does not begin with the header, or that is not text, is refused, whatever the soup contains. *)
Theorem C68_rejects checks stdsort max_int s : readVTKFile checks max_int stdsort None s = Fail /\
  forall l1 l2 l3 ls t, file_text (l1 :: l2 :: l3 :: ls) t -> ~ begins "# vtk DataFile Version 3.0" l1 \/ ~ begins "ASCII" l3 ->
  readVTKFile checks max_int stdsort (Some t) s = Fail.
Proof.
  split; [reflexivity|]. intros l1 l2 l3 ls t Ft H. exact (header_bad checks max_int stdsort s l1 l2 l3 ls t Ft H).
Qed.
Print Assumptions C68_rejects.

(** A section of integers one of which cannot be stored without loss is refused. *)
Theorem C68_large checks stdsort max_int pre vs es ls post : grid_text pre vs es -> file_text ls post -> large_text max_int (length es) ls -> (max_int < INT64_MAX)%Z ->
  readVTKFile checks max_int stdsort (Some (pre ++ post)) empty_soup = Fail.
Proof. intros G Ft L M. apply (read_large checks max_int (Z.lt_le_incl _ _ M) stdsort pre vs es ls post G Ft L M). Qed.
Print Assumptions C68_large.

(** tests/mesh/mesh_files/tri_quad.vtk, with any name for the second set of data *)
Definition text_of (ls : list string) : list char := concat (map (fun l => lit l ++ [NEWLINE]) ls).
Definition ex_post (name : string) : list (list char) := map lit
  [""; "CELL_DATA 2"; "SCALARS A int"; "LOOKUP_TABLE A_table"; "1 2"; ""; "CELL_DATA 2"]%string ++
  [lit "SCALARS " ++ lit name ++ lit " float"] ++ map lit ["LOOKUP_TABLE flux_table"; "1.0 2.0"]%string.
Definition ex_pre : list char :=
  text_of ["# vtk DataFile Version 3.0"; "tri_quad"; "ASCII"; "DATASET UNSTRUCTURED_GRID"; "POINTS 5 float"; "0 0 0"; "1 0 0"; "1 1 0"; "0 1 0"; "2 0 0"; "";
    "CELLS 2 9"; "4 0 1 2 3"; "3 1 4 2"; ""; "CELL_TYPES 2"; "9 5"]%string.
Definition ex_content (name : string) : asoup point R := mkA
  [(0, 0, 0); (1, 0, 0); (1, 1, 0); (0, 1, 0); (2, 0, 0)]%R
  [(V_Quad, [0; 1; 2; 3]%Z); (V_Triangle, [1; 4; 2]%Z)]
  [mkElset (lit "A") [0; 1]%Z [1; 2]%R; mkElset (lit name) [0; 1]%Z [1; 2]%R].
Lemma digit_dec c d : (0 <= d <= 9)%Z -> c = (48 + d)%Z -> dec [c] d.
Proof. intros H ->. now constructor. Qed.
Ltac dg := apply digit_dec; [lia|reflexivity].
Ltac wd := split; [discriminate|intros X; cbn in X; repeat (destruct X as [X|X]; [discriminate X|]); exact X].
Ltac wds := repeat (first [refine (ws_last 0 _ _); wd | refine (ws_cons 0 [_] _ _ _ _); [wd|]]).
Ltac it := cbn [length snd Z.of_nat Pos.of_succ_nat Pos.succ]; split; [apply num_pos; dg|unfold int32; lia].
Ltac rt := apply (num_real [_]); apply num_pos; dg.
Lemma real1 c d : (0 <= d <= 9)%Z -> c = (48 + d)%Z -> real_text [c; DOT; 48%Z] (IZR d).
Proof.
  intros H E. replace (IZR d) with ((IZR d + 0 / 10 ^ 1) * powerRZ 10 0)%R by (cbn; lra). rewrite <- (app_nil_r [c; DOT; 48%Z]). apply rt_none; [|constructor].
  apply (m_frac [c] d [48%Z] 0); [now apply digit_dec|dg].
Qed.
Lemma lines_ok ls : forallb (fun l => (length l <? max_line_length) && negb (existsb (fun c => (c =? NEWLINE)%Z || (c =? 0)%Z) l)) ls = true -> Forall line_ok ls.
Proof.
  intros H. rewrite forallb_forall in H. apply Forall_forall. intros l Hl. specialize (H l Hl). apply andb_true_iff in H. destruct H as (H1 & H2).
  apply Nat.ltb_lt in H1. apply negb_true_iff in H2. split; [exact H1|].
  split; intros X; assert (existsb (fun c => (c =? NEWLINE)%Z || (c =? 0)%Z) l = true) by (apply existsb_exists; eexists; split; [exact X|reflexivity]); congruence.
Qed.
Example C68_data name : name = "A"%string \/ name = "flux"%string -> data_text (2 ^ 52) 2 (ex_post name) (a_elsets (ex_content name)).
Proof.
  intros Hn. unfold ex_post, ex_content. cbn [a_elsets map app]. apply dt_other. { intros (r & X). discriminate X. }
  refine (dt_data _ 2 _ (lit "2") 0 0 _ 0 (lit "A") "int" [] _ [lit "1 2"] [[1; 2]%R] (_ :: _) _ _ _ _ _ _ _ _ _ _ _); try reflexivity.
  { it. } { wd. } { eexists; reflexivity. } { cbn; auto. }
  { apply Forall2_cons; [|constructor]. split; [discriminate|]. exists [lit "1"; lit "2"]. split; [wds|]. repeat (apply Forall2_cons; [apply vt_int; [apply num_pos; dg|lia]|]). constructor. }
  { right. eexists. reflexivity. }
  apply dt_other. { intros (r & X). discriminate X. }
  refine (dt_data _ 2 _ (lit "2") 0 0 _ 0 (lit name) "float" [] _ [lit "1.0 2.0"] [[1; 2]%R] [] _ _ _ _ _ _ _ _ _ _ _); try reflexivity.
  { it. } { destruct Hn as [-> | ->]; wd. } { eexists; reflexivity. } { cbn; auto. }
  { apply Forall2_cons; [|constructor]. split; [discriminate|]. exists [lit "1.0"; lit "2.0"]. split.
    { refine (ws_cons 0 (lit "1.0") _ _ _ _); [wd|]. refine (ws_last 0 _ _); wd. }
    apply Forall2_cons; [apply vt_float; apply real1; [lia|reflexivity]|]. apply Forall2_cons; [apply vt_float; apply real1; [lia|reflexivity]|]. constructor. }
  { now left. }
  constructor.
Qed.
Ltac pnt := refine (pt_point _ _ _ _ _ _); [eexists [_], [_], [_]; split; [wds|split; [rt|split; rt]]|].
Ltac cel := eexists [_], _; split; [wds|split; [it|split; [repeat (apply Forall2_cons; [split; [it|cbn; lia]|]); constructor|repeat split; discriminate]]].
Example C68_grid : grid_text ex_pre (a_verts (ex_content "A")) (a_elems (ex_content "A")).
Proof.
  refine (grid (lit "# vtk DataFile Version 3.0") (lit "tri_quad") (lit "ASCII") (lit "DATASET UNSTRUCTURED_GRID") (lit "UNSTRUCTURED_GRID") (lit "POINTS 5 float") 0 (lit "5") "float" []
    (map lit ["0 0 0"; "1 0 0"; "1 1 0"; "0 1 0"; "2 0 0"; ""]%string) _ (lit "CELLS 2 9") (lit "2 9") (lit "2") (lit "9") 9 (map lit ["4 0 1 2 3"; "3 1 4 2"]%string) _
    (lit "CELL_TYPES 2") (lit "9 5") _ _ _ _ _ _ _ _ _ _ _ _ _ _ _ _ _ _ _); try reflexivity; try discriminate; cbn [a_verts a_elems ex_content].
  - now exists [].
  - now exists [].
  - now exists [].
  - cbn; auto.
  - it.
  - cbn [map]. do 5 pnt. apply pt_blank. constructor.
  - wds.
  - it.
  - it.
  - cbn [map]. apply Forall2_cons; [cel|]. apply Forall2_cons; [cel|]. constructor.
  - now exists (lit " 2").
  - intros X; cbn in X; repeat (destruct X as [X|X]; [discriminate X|]); exact X.
  - apply lines_ok. reflexivity.
Qed.
Example C68_text name : name = "A"%string \/ name = "flux"%string -> vtk_text (2 ^ 52) (ex_pre ++ joined (ex_post name)) (ex_content name).
Proof.
  intros Hn. refine (vtk_file _ ex_pre _ _ (ex_post name) (joined (ex_post name)) _ C68_grid _ (C68_data name Hn)).
  apply ft_lines. destruct Hn as [-> | ->]; apply lines_ok; reflexivity.
Qed.
Example C68_large_example : large_text 8 2 (map lit ["CELL_DATA 2"; "SCALARS A int"; "LOOKUP_TABLE A_table"; "1 9"]%string).
Proof.
  refine (large 8 2 _ (lit "2") 0 0 _ 0 (lit "A") [] _ [] [] (lit "1 9") [lit "1"] [1%R] (lit "9") 9 [] [] _ _ _ _ _ _ _ _ _ _ _ _); try reflexivity; try discriminate.
  - it.
  - wd.
  - now eexists.
  - constructor.
  - wds.
  - apply Forall2_cons; [|constructor]. apply vt_int; [apply num_pos; dg|lia].
  - apply num_pos. dg.
  - cbn. lia.
Qed.
Example C68_example : NoDup (names (ex_content "flux")) /\ ~ NoDup (names (ex_content "A")) /\ sort_contract isort_poly /\ (2 ^ 52 <= INT64_MAX)%Z.
Proof.
  split; [|split; [|split; [exact isort_poly_contract|discriminate]]].
  - cbn. repeat constructor; cbn; intuition discriminate.
  - cbn. intros H. inversion H as [|? ? N _]. apply N. now left.
Qed.

(** ** What is not read, or read as something else *)
Definition head4 : list string := ["# vtk DataFile Version 3.0"; ""; "ASCII"; "DATASET UNSTRUCTURED_GRID"]%string.
(** A second set of data in a section is not read, and nothing is reported. *)
Theorem C68_scalars_refuted : exists s, readVTKFile true (2 ^ 52) isort_poly
    (Some (text_of (head4 ++ ["POINTS 1 float"; "0 0 0"; ""; "CELLS 1 2"; "1 0"; ""; "CELL_TYPES 1"; "1"; "";
      "CELL_DATA 1"; "SCALARS A int 1"; "LOOKUP_TABLE default"; "4"; ""; "SCALARS B int 1"; "LOOKUP_TABLE default"; "5"]%string))) empty_soup = Ret s /\
  snames s = [lit "A"] /\ etypes s = [V_Vertex].
Proof. eexists. split; [vm_compute; reflexivity|]. split; reflexivity. Qed.
Print Assumptions C68_scalars_refuted.
(** The types of the cells are not read: an edge with a node in its middle (type 21) becomes a triangle. *)
Theorem C68_types_refuted : exists s, readVTKFile true (2 ^ 52) isort_poly
    (Some (text_of (head4 ++ ["POINTS 3 float"; "0 0 0"; "2 0 0"; "1 1 0"; ""; "CELLS 1 4"; "3 0 1 2"; ""; "CELL_TYPES 1"; "21"]%string))) empty_soup = Ret s /\
  etypes s = [V_Triangle] /\ vtk_code V_QuadraticEdge = 21%Z.
Proof. eexists. split; [vm_compute; reflexivity|]. split; reflexivity. Qed.
Print Assumptions C68_types_refuted.
(** Only the first point of a line is read, and the number of points is not checked: the cell refers to a vertex that is missing. *)
Theorem C68_points_refuted : exists s, readVTKFile true (2 ^ 52) isort_poly
    (Some (text_of (head4 ++ ["POINTS 2 float"; "0 0 0 1 0 0"; ""; "CELLS 1 3"; "2 0 1"; ""; "CELL_TYPES 1"; "3"]%string))) empty_soup = Ret s /\
  exists vs, stores s (mkA vs [(V_Line, [0; 1]%Z)] []) /\ length vs = 1.
Proof. eexists. split; [vm_compute; reflexivity|]. eexists. split; [repeat split|]. reflexivity. Qed.
Print Assumptions C68_points_refuted.
(** Reading into a soup that is not empty: the new cell refers to the vertex that was there before. *)
Theorem C68_append_refuted (p : point) : exists s, readVTKFile true (2 ^ 52) isort_poly
    (Some (text_of (head4 ++ ["POINTS 1 float"; "5 5 5"; ""; "CELLS 1 2"; "1 0"; ""; "CELL_TYPES 1"; "1"]%string))) (fst (addVertex empty_soup p)) = Ret s /\
  exists q, stores s (mkA [p; q] [(V_Vertex, [0%Z])] []).
Proof. eexists. split; [vm_compute; reflexivity|]. eexists. repeat split. Qed.
Print Assumptions C68_append_refuted.
(** One value more than there are cells is written past the end of the data, with assertions too. *)
Theorem C68_extra_refuted stdsort : readVTKFile true (2 ^ 52) stdsort
    (Some (text_of (head4 ++ ["POINTS 1 float"; "0 0 0"; ""; "CELLS 1 2"; "1 0"; ""; "CELL_TYPES 1"; "1"; "";
      "CELL_DATA 1"; "SCALARS A int 1"; "LOOKUP_TABLE default"; "4 5"]%string))) empty_soup = Ub.
Proof. vm_compute. reflexivity. Qed.
Print Assumptions C68_extra_refuted.
(** A file without the empty line after the cells is refused. *)
Theorem C68_blank_refuted checks stdsort : readVTKFile checks (2 ^ 52) stdsort
    (Some (text_of (head4 ++ ["POINTS 1 float"; "0 0 0"; "CELLS 1 2"; "1 0"; "CELL_TYPES 1"; "1"]%string))) empty_soup = Fail.
Proof. destruct checks; vm_compute; reflexivity. Qed.
Print Assumptions C68_blank_refuted.
