(** C40: reading an Abaqus file. *)
From Coq Require Import String Ascii.
From Coq Require Import List Arith ZArith Bool Reals Lia Lra Sorting.Sorted Sorting.Permutation.
From Verif Require Import Base Loops StringView_Model StringView_Spec Elem_Model Soup_Model Soup_Spec Soup_Final_Proofs TextIo_Model TextIo_Spec TextIo_Proofs Abaqus_Model Abaqus_Spec Abaqus_Proofs.
Import ListNotations.
Local Open Scope list_scope.
Local Open Scope nat_scope.

(** Reading a file into an empty soup gives the nodes and the elements of the file in its order, and its element sets by name,
    with ascending ids, whether or not assertions are enabled, however many lines and sections there are. *)
Theorem C40_read checks stdsort ls t a : sort_contract stdsort -> file_text ls t -> abaqus checks ls a -> NoDup (names a) ->
  exists s l m, readAbaqusFile checks stdsort (Some t) empty_soup = Ret s /\ stores s (mkA (a_verts a) (a_elems a) l) /\
    names_sorted l /\ Permutation (a_elsets a) m /\ Forall2 same_sorted m l.
Proof.
  intros So Ft A N. pose proof (proj1 (abaqus_elsets_ok _ _ _ A)) as Fe.
  destruct (read_ok checks stdsort ls t a empty_soup a_empty So Ft A) as [(_ & H)|(H & _)]; auto.
  - repeat split.
  - split; constructor.
  - contradiction.
Qed.
Print Assumptions C40_read.
(** Reading into a soup that is not empty appends; the numbers in the file are not changed. *)
Theorem C40_append checks stdsort ls t a s a0 : sort_contract stdsort -> file_text ls t -> abaqus checks ls a -> stores s a0 -> content_ok a0 ->
  NoDup (names (append a0 a)) ->
  exists s' l m, readAbaqusFile checks stdsort (Some t) s = Ret s' /\
    stores s' (mkA (a_verts a0 ++ a_verts a) (a_elems a0 ++ a_elems a) l) /\
    names_sorted l /\ Permutation (a_elsets a0 ++ a_elsets a) m /\ Forall2 same_sorted m l.
Proof.
  intros So Ft A Hs Co N. pose proof (proj1 (abaqus_elsets_ok _ _ _ A)) as Fe.
  destruct (read_ok checks stdsort ls t a s a0 So Ft A Hs Co Fe) as [(_ & H)|(H & _)]; auto. contradiction.
Qed.
Print Assumptions C40_append.
(** A file with a name that occurs twice, or that the soup already has, is refused. *)
Theorem C40_repeated checks stdsort ls t a s a0 : sort_contract stdsort -> file_text ls t -> abaqus checks ls a -> stores s a0 -> content_ok a0 ->
  ~ NoDup (names (append a0 a)) -> readAbaqusFile checks stdsort (Some t) s = Fail.
Proof.
  intros So Ft A Hs Co N. pose proof (proj1 (abaqus_elsets_ok _ _ _ A)) as Fe.
  destruct (read_ok checks stdsort ls t a s a0 So Ft A Hs Co Fe) as [(H & _)|(_ & H)]; auto. contradiction.
Qed.
Print Assumptions C40_repeated.

(** tests/mesh/mesh_files/tri_quad.inp with one element set left out *)
Definition ex_lines : list (list char) := map lit
  ["*Heading"; " tri_quad.inp"; "*NODE"; "1, 0, 0, 0"; "2, 1, 0, 0"; "3, 1, 1, 0"; "4, 0, 1, 0"; "5, 2, 0, 0";
   "******* E L E M E N T S *************"; "*ELEMENT, type=CPS4, ELSET=Surface1"; "1, 1, 2, 3, 4";
   "*ELEMENT, type=CPS3, ELSET=Surface2"; "2, 2, 5, 3"; "*ELSET,ELSET=B"; "2,"; "*ELSET,ELSET=A"; "1, 2, "]%string.
Definition ex_content : asoup point R := mkA
  [(0, 0, 0); (1, 0, 0); (1, 1, 0); (0, 1, 0); (2, 0, 0)]%R
  [(V_Quad, [0; 1; 2; 3]%Z); (V_Triangle, [1; 4; 2]%Z)]
  [mkElset (lit "B") [1%Z] []; mkElset (lit "A") [0; 1]%Z []].
Lemma digit_dec c d : (0 <= d <= 9)%Z -> c = (48 + d)%Z -> dec [c] d.
Proof. intros H ->. now constructor. Qed.
Ltac dg := apply digit_dec; [lia|reflexivity].
Ltac tok1 := first [refine (real_tok_int 1 [_] _ _); dg | refine (real_tok_int 0 [_] _ _); dg].
Ltac node := eexists [_], [_; _], [_; _], [_; _]; split; [reflexivity|]; split;
  [split; [discriminate|split; [intros [H|[]]; discriminate|intros r; discriminate]]|split; [tok1|split; tok1]].
Ltac num0 := split; [lia|]; first [refine (int_tok_dec 0 [_] _ _ _) | refine (int_tok_dec 1 [_] _ _ _)]; [dg|unfold int32; lia].
Example C40_lines : abaqus true ex_lines ex_content.
Proof.
  unfold ex_lines, ex_content. cbn [map].
  apply ab_other. { intros [(r & H)|[(r & H)|(r & H)]]; discriminate H. }
  apply ab_other. { intros [(r & H)|[(r & H)|(r & H)]]; discriminate H. }
  refine (ab_nodes true _ [_; _; _; _; _] (_ :: _) [(0, 0, 0); (1, 0, 0); (1, 1, 0); (0, 1, 0); (2, 0, 0)]%R (mkA [] _ _) _ _ _ _ _).
  { now exists []. }
  { repeat (apply Forall2_cons; [node|]). constructor. }
  { now eexists. }
  { cbn. lia. }
  apply ab_other. { intros [(r & H)|[(r & H)|(r & H)]]; discriminate H. }
  refine (ab_elems true _ (lit ", ELSET=Surface1") V_Quad 52%Z [_] (_ :: _) [(V_Quad, [0; 1; 2; 3]%Z)] (mkA [] _ _) _ _ _ _ _).
  { reflexivity. }
  { reflexivity. }
  { apply Forall2_cons; [|constructor]. split; [reflexivity|]. split; [reflexivity|]. eexists [_], [[_; _]; [_; _]; [_; _]; [_; _]]. split; [reflexivity|].
    split; [split; [discriminate|split; [intros [H|[]]; discriminate|intros r; discriminate]]|].
    repeat (apply Forall2_cons; [num0|]). constructor. }
  { now eexists. }
  refine (ab_elems true _ (lit ", ELSET=Surface2") V_Triangle 51%Z [_] (_ :: _) [(V_Triangle, [1; 4; 2]%Z)] (mkA [] [] _) _ _ _ _ _).
  { reflexivity. }
  { reflexivity. }
  { apply Forall2_cons; [|constructor]. split; [reflexivity|]. split; [reflexivity|]. eexists [_], [[_; _]; [_; _]; [_; _]]. split; [reflexivity|].
    split; [split; [discriminate|split; [intros [H|[]]; discriminate|intros r; discriminate]]|].
    repeat (apply Forall2_cons; [num0|]). constructor. }
  { now eexists. }
  refine (ab_elset true _ (lit "B") [_] (_ :: _) [[1%Z]] (mkA [] [] [_]) _ _ _ _ _ _ _); try reflexivity; try discriminate.
  { apply Forall2_cons; [|constructor]. exists [[50%Z]], 0. split; [reflexivity|]. apply Forall2_cons; [num0|constructor]. }
  { intros _. repeat constructor. }
  { now eexists. }
  refine (ab_elset true _ (lit "A") [_] [] [[0; 1]%Z] (mkA [] [] []) _ _ _ _ _ _ _); try reflexivity; try discriminate.
  { apply Forall2_cons; [|constructor]. exists [[49%Z]; [32%Z; 50%Z]], 1. split; [reflexivity|]. repeat (apply Forall2_cons; [num0|]). constructor. }
  { intros _. apply SSorted_cons; [apply SSorted_cons; constructor|]. constructor; [lia|constructor]. }
  constructor.
Qed.
Lemma lines_ok ls : forallb (fun l => (length l <? max_line_length) && negb (existsb (fun c => (c =? NEWLINE)%Z || (c =? 0)%Z) l)) ls = true -> Forall line_ok ls.
Proof.
  intros H. rewrite forallb_forall in H. apply Forall_forall. intros l Hl. specialize (H l Hl). apply andb_true_iff in H. destruct H as (H1 & H2).
  apply Nat.ltb_lt in H1. apply negb_true_iff in H2. split; [exact H1|].
  split; intros X; assert (existsb (fun c => (c =? NEWLINE)%Z || (c =? 0)%Z) l = true) by (apply existsb_exists; eexists; split; [exact X|reflexivity]); congruence.
Qed.
(** the newline after the last line is missing *)
Example C40_text : file_text ex_lines (concat (map (fun l => l ++ [NEWLINE]) (removelast ex_lines)) ++ lit "1, 2, ").
Proof. refine (ft_last (removelast ex_lines) (lit "1, 2, ") _ _ _); [apply lines_ok; reflexivity| |discriminate]. pose proof (lines_ok [lit "1, 2, "] eq_refl) as H. now inversion H. Qed.
Example C40_example : NoDup (names ex_content) /\ sort_contract isort_poly /\ ~ NoDup (names (append ex_content ex_content)).
Proof.
  split; [|split; [exact isort_poly_contract|]].
  - cbn. repeat constructor; cbn; intuition discriminate.
  - cbn. intros H. inversion H as [|? ? N _]. apply N. right. now left.
Qed.
(** numbers with a sign, a point and an exponent *)
Example C40_number : real_text (lit "-1.25e-2") (- (125 / 10000))%R.
Proof.
  replace (- (125 / 10000))%R with (- ((1 + 25 / 10 ^ 2) * powerRZ 10 (-2)))%R by (change (powerRZ 10 (-2)) with (/ 10 ^ 2)%R; field).
  apply (rt_minus (lit "1.25") (1 + 25 / 10 ^ 2)%R (lit "e-2") (-2)).
  - apply (m_frac (lit "1") 1 (lit "25") 25); [dg|]. change (lit "25") with (lit "2" ++ [(48 + 5)%Z]). change 25%Z with (10 * 2 + 5)%Z. constructor; [dg|lia].
  - apply (ex_some 101 (lit "-2")); [now left|]. apply (sg_minus (lit "2") 2). dg.
Qed.

(** ** What is not read *)
Definition text_of (ls : list string) : list char := concat (map (fun l => lit l ++ [NEWLINE]) ls).
(** A comment within a section ends it: what follows up to the next keyword is not read, and nothing is reported. *)
Theorem C40_comment_refuted : exists s, readAbaqusFile true isort_poly
    (Some (text_of ["*ELSET,ELSET=A"; "1,"; "** more"; "2,"; "*ELSET,ELSET=B"; "3,"]%string)) empty_soup = Ret s /\
  stores s (mkA [] [] [mkElset (lit "A") [0%Z] []; mkElset (lit "B") [2%Z] []]).
Proof. eexists. split; [vm_compute; reflexivity|]. repeat split. Qed.
Print Assumptions C40_comment_refuted.
(** The last id of a line is not read if no comma follows it. *)
Theorem C40_comma_refuted : exists s, readAbaqusFile true isort_poly
    (Some (text_of ["*ELSET,ELSET=A"; "1, 2"]%string)) empty_soup = Ret s /\ stores s (mkA [] [] [mkElset (lit "A") [0%Z] []]).
Proof. eexists. split; [vm_compute; reflexivity|]. repeat split. Qed.
Print Assumptions C40_comma_refuted.
(** A line of more than 1023 characters ends the reading, and nothing is reported. *)
Theorem C40_long_refuted : exists s, readAbaqusFile true isort_poly
    (Some (text_of ["*ELSET,ELSET=A"; "1,"]%string ++ lit "**" ++ repeat SPACE (Z.to_nat 1022) ++ [NEWLINE] ++ text_of ["*ELSET,ELSET=B"; "2,"]%string)) empty_soup = Ret s /\
  stores s (mkA [] [] [mkElset (lit "A") [0%Z] []]).
Proof. eexists. split; [vm_compute; reflexivity|]. repeat split. Qed.
Print Assumptions C40_long_refuted.
(** An empty line among the nodes is undefined behaviour without assertions and ends the program with them. *)
Theorem C40_blank_refuted : forall stdsort,
  readAbaqusFile false stdsort (Some (text_of ["*NODE"; ""; "*END"; ""]%string)) empty_soup = Ub /\
  readAbaqusFile true stdsort (Some (text_of ["*NODE"; ""; "*END"; ""]%string)) empty_soup = Fail.
Proof. intros stdsort. split; reflexivity. Qed.
Print Assumptions C40_blank_refuted.
(** Keywords are recognised in upper case only: other sections are not read, and nothing is reported. *)
Theorem C40_case_refuted : exists s, readAbaqusFile true isort_poly
    (Some (text_of ["*Node"; "1, 0, 0, 0"; "*Elset, elset=A"; "1,"]%string)) empty_soup = Ret s /\ stores s (@a_empty point R).
Proof. eexists. split; [vm_compute; reflexivity|]. repeat split. Qed.
Print Assumptions C40_case_refuted.
(** Elements refer to nodes by position, whatever the ids of the nodes are: here the element names the nodes 7, 8 and 9, which are
    in the file, but the vertices 6, 7, and 8 of the element are not in the soup. *)
Theorem C40_ids_refuted : exists s, readAbaqusFile true isort_poly
    (Some (text_of ["*NODE"; "7, 0, 0, 0"; "8, 1, 0, 0"; "9, 0, 1, 0"; "*ELEMENT, type=CPS3"; "1, 7, 8, 9"]%string)) empty_soup = Ret s /\
  exists vs, stores s (mkA vs [(V_Triangle, [6; 7; 8]%Z)] []) /\ length vs = 3.
Proof. eexists. split; [reflexivity|]. eexists. split; [repeat split|]. reflexivity. Qed.
Print Assumptions C40_ids_refuted.
(** A file that cannot be opened, and one with elements that are not supported, end the program. *)
Theorem C40_rejects checks stdsort s : readAbaqusFile checks stdsort None s = Fail /\
  readAbaqusFile checks stdsort (Some (text_of ["*ELEMENT, type=CPS5"; "1, 1, 2, 3, 4, 5"]%string)) s = Fail.
Proof. split; destruct checks; reflexivity. Qed.
Print Assumptions C40_rejects.
