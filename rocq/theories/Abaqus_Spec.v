(** What an Abaqus file contains. *)
From Coq Require Import String Ascii.
From Coq Require Import List Arith ZArith Reals Sorting.Sorted.
From Verif Require Import Base StringView_Model StringView_Spec Elem_Model Soup_Model Soup_Spec TextIo_Model TextIo_Spec.
Import ListNotations.
Local Open Scope list_scope.

Notation point := (R * R * R)%type.
Definition begins (kw : string) (l : list char) : Prop := exists r, l = lit kw ++ r.
Definition keyword (l : list char) : Prop := begins "*NODE" l \/ begins "*ELEMENT" l \/ begins "*ELSET" l.
(** the id of a node or of an element; it is not used: nodes and elements are numbered in the order of the file *)
Definition id_tok (t : list char) : Prop := t <> [] /\ ~ In COMMA t /\ forall r, t <> STAR :: r.
(** id, x, y, z *)
Definition node_text (l : list char) (p : point) : Prop :=
  exists i x y z, l = i ++ [COMMA] ++ x ++ [COMMA] ++ y ++ [COMMA] ++ z /\
    id_tok i /\ real_tok x (fst (fst p)) /\ real_tok y (snd (fst p)) /\ real_tok z (snd p).
(** vertices and elements are numbered from 1 in the file and from 0 in the soup *)
Definition number (t : list char) (v : Z) : Prop := (0 <= v)%Z /\ int_tok t (v + 1).
(** id, v1, v2, ... *)
Definition elem_text (t : vtk) (l : list char) (e : vtk * list Z) : Prop :=
  fst e = t /\ Z.of_nat (length (snd e)) = verticesPerElem t /\
  exists i ts, l = i ++ concat (map (fun t => COMMA :: t) ts) /\ id_tok i /\ Forall2 number ts (snd e).
(** id, id, id, : every id is followed by a comma *)
Definition ids_text (l : list char) (ids : list Z) : Prop :=
  exists ts k, l = concat (map (fun t => t ++ [COMMA]) ts) ++ blanks k /\ Forall2 number ts ids.
(** the digit after CPS *)
Definition cps (t : vtk) (d : Z) : Prop :=
  match t with
  | V_Triangle => d = 51
  | V_Quad => d = 52
  | V_QuadraticTriangle => d = 54
  | V_QuadraticQuad => d = 56
  | _ => False
  end%Z.
(** a section ends at a line that starts with a star *)
Definition starred (ls : list (list char)) : Prop := match ls with [] => True | l :: _ => exists r, l = STAR :: r end.

(** the content of a file, line by line. A comment starts with two stars and stands between sections. With assertions
    enabled a section of nodes is not the last thing in the file. *)
Inductive abaqus (checks : bool) : list (list char) -> asoup point R -> Prop :=
| ab_end : abaqus checks [] a_empty
| ab_other l ls a : ~ keyword l -> abaqus checks ls a -> abaqus checks (l :: ls) a
| ab_nodes h body ls vs a : begins "*NODE" h -> Forall2 node_text body vs ->
    starred ls -> (checks = true -> (2 <= length ls)%nat) -> abaqus checks ls a ->
    abaqus checks (h :: body ++ ls) (mkA (vs ++ a_verts a) (a_elems a) (a_elsets a))
| ab_elems h more t d body ls es a : h = lit "*ELEMENT, type=CPS" ++ d :: more -> cps t d -> Forall2 (elem_text t) body es ->
    starred ls -> abaqus checks ls a ->
    abaqus checks (h :: body ++ ls) (mkA (a_verts a) (es ++ a_elems a) (a_elsets a))
| ab_elset h n body ls idss a : h = lit "*ELSET,ELSET=" ++ n -> n <> [] -> Forall2 ids_text body idss -> concat idss <> [] ->
    (checks = true -> StronglySorted Z.le (concat idss)) ->
    starred ls -> abaqus checks ls a ->
    abaqus checks (h :: body ++ ls) (mkA (a_verts a) (a_elems a) (mkElset n (concat idss) [] :: a_elsets a)).

Definition append (a b : asoup point R) : asoup point R :=
  mkA (a_verts a ++ a_verts b) (a_elems a ++ a_elems b) (a_elsets a ++ a_elsets b).
Definition names (a : asoup point R) : list (list Z) := map es_name (a_elsets a).
