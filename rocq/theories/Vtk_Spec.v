(** What a VTK file contains. *)
From Coq Require Import String Ascii.
From Coq Require Import List Arith ZArith Reals.
From Verif Require Import Base StringView_Model StringView_Spec Elem_Model Soup_Model Soup_Spec TextIo_Model TextIo_Spec Abaqus_Spec.
Import ListNotations.
Local Open Scope list_scope.

(** words separated by one or more blanks, possibly with blanks before and after them *)
Definition word (t : list char) : Prop := t <> [] /\ ~ In SPACE t.
Inductive words : list (list char) -> list char -> Prop :=
| ws_none k : words [] (blanks k)
| ws_last k t : word t -> words [t] (blanks k ++ t)
| ws_cons k t ts l : word t -> words ts l -> words (t :: ts) (blanks k ++ t ++ SPACE :: l).
(** a keyword, a blank, something else *)
Definition after (kw : string) (l r : list char) : Prop := l = lit kw ++ SPACE :: r.
Definition int_text (t : list char) (z : Z) : Prop := num t z /\ int32 z.

(** the line of a point: three numbers *)
Definition point_text (l : list char) (p : point) : Prop :=
  exists x y z, words [x; y; z] l /\ real_text x (fst (fst p)) /\ real_text y (snd (fst p)) /\ real_text z (snd p).
(** points, one in a line, and blank lines *)
Inductive points_text : list (list char) -> list point -> Prop :=
| pt_end : points_text [] []
| pt_blank ls ps : points_text ls ps -> points_text ([] :: ls) ps
| pt_point l ls p ps : point_text l p -> points_text ls ps -> points_text (l :: ls) (p :: ps).
(** the line of a cell: how many vertices, the vertices. The number of vertices tells the type of the cell. *)
Definition cell_text (num_points : nat) (l : list char) (e : vtk * list Z) : Prop :=
  exists k ts, words (k :: ts) l /\ int_text k (Z.of_nat (length (snd e))) /\
    Forall2 (fun t v => int_text t v /\ (0 <= v < Z.of_nat num_points)%Z) ts (snd e) /\
    fst e <> V_Invalid /\ fst e <> V_QuadraticEdge /\ verticesPerElem (fst e) = Z.of_nat (length (snd e)).
(** data: real numbers, or integers of a size that is stored without loss *)
Inductive value_text (max_int : Z) : string -> list char -> R -> Prop :=
| vt_float t x : real_text t x -> value_text max_int "float" t x
| vt_double t x : real_text t x -> value_text max_int "double" t x
| vt_int t z : num t z -> (Z.abs z <= max_int)%Z -> value_text max_int "int" t (IZR z).
Definition values_text (max_int : Z) (ty : string) (l : list char) (xs : list R) : Prop :=
  l <> [] /\ exists ts, words ts l /\ Forall2 (value_text max_int ty) ts xs.
(** what follows the types of the cells: sections of data for the [n] cells, each of which ends at an empty line or with the file,
    and other lines. Every section becomes an element set of all the cells. *)
Inductive data_text (max_int : Z) (n : nat) : list (list char) -> list (elset R) -> Prop :=
| dt_end : data_text max_int n [] []
| dt_other l ls es : ~ begins "CELL_DATA" l -> data_text max_int n ls es -> data_text max_int n (l :: ls) es
| dt_data h1 t1 k1 k2 h2 k name ty more h3 body xss ls es :
    after "CELL_DATA" h1 (blanks k1 ++ t1 ++ blanks k2) -> int_text t1 (Z.of_nat n) ->
    after "SCALARS" h2 (blanks k ++ name ++ SPACE :: lit ty ++ more) -> word name ->
    begins "LOOKUP_TABLE" h3 ->
    In ty ["float"; "double"; "int"]%string -> Forall2 (values_text max_int ty) body xss -> length (concat xss) = n ->
    (ls = [] \/ exists ls', ls = [] :: ls') -> data_text max_int n ls es ->
    data_text max_int n (h1 :: h2 :: h3 :: body ++ ls) (mkElset name (map Z.of_nat (seq 0 n)) (concat xss) :: es).
Definition joined (ls : list (list char)) : list char := concat (map (fun l => l ++ [NEWLINE]) ls).
(** four lines of header, points, cells, and the types of the cells on one line of any length *)
Inductive grid_text : list char -> list point -> list (vtk * list Z) -> Prop :=
| grid l1 l2 l3 l4 r4 h5 k5 np ty5 more5 points vs h6 r6 nc len lenz cells es h7 types :
    begins "# vtk DataFile Version 3.0" l1 -> begins "ASCII" l3 -> after "DATASET" l4 r4 -> begins "UNSTRUCTURED_GRID" r4 ->
    after "POINTS" h5 (blanks k5 ++ np ++ SPACE :: lit ty5 ++ more5) -> In ty5 ["float"; "double"]%string ->
    int_text np (Z.of_nat (length vs)) -> points_text points vs -> vs <> [] ->
    after "CELLS" h6 r6 -> words [nc; len] r6 -> int_text nc (Z.of_nat (length es)) -> int_text len lenz -> (0 < lenz)%Z ->
    Forall2 (cell_text (length vs)) cells es -> es <> [] ->
    begins "CELL_TYPES" h7 -> ~ In NEWLINE types ->
    let pre := [l1; l2; l3; l4; h5] ++ points ++ [h6] ++ cells ++ [[]; h7] in
    Forall line_ok pre -> grid_text (joined pre ++ types ++ [NEWLINE]) vs es.
(** a file: the grid, data *)
Inductive vtk_text (max_int : Z) : list char -> asoup point R -> Prop :=
| vtk_file pre vs es ls post elsets :
    grid_text pre vs es -> file_text ls post -> data_text max_int (length es) ls elsets ->
    vtk_text max_int (pre ++ post) (mkA vs es elsets).
(** a section of integers one of which is too large to be stored without loss *)
Inductive large_text (max_int : Z) (n : nat) : list (list char) -> Prop :=
| large h1 t1 k1 k2 h2 k name more h3 body xss l ts xs t z ts' ls :
    after "CELL_DATA" h1 (blanks k1 ++ t1 ++ blanks k2) -> int_text t1 (Z.of_nat n) ->
    after "SCALARS" h2 (blanks k ++ name ++ SPACE :: lit "int" ++ more) -> word name ->
    begins "LOOKUP_TABLE" h3 -> Forall2 (values_text max_int "int") body xss ->
    words (ts ++ t :: ts') l -> Forall2 (value_text max_int "int") ts xs -> num t z -> (max_int < Z.abs z)%Z -> (- INT64_MAX <= z)%Z ->
    (length (concat xss) + length xs <= n)%nat ->
    large_text max_int n (h1 :: h2 :: h3 :: body ++ l :: ls).
