(** Property theorems C33 - C38. *)
From Coq Require Import List Arith ZArith Lia Bool Permutation Sorting.Sorted.
From Verif Require Import Base Loops Sort_Model Sort_Spec Sort_Proofs StringView_Spec Elem_Model
  Soup_Model Soup_Spec Soup_Proofs Soup_Sort_Proofs Soup_Merge_Proofs Soup_Subset_Proofs Soup_Compare_Proofs Soup_Final_Proofs.
Import ListNotations.

(** C33. Any history of additions, translations and reservations ends in a soup that stores exactly what
    the history describes (it never reads or writes outside of an array), ... *)
Theorem C33_history : forall (P F : Type) (padd : P -> P -> P) (os : list (op P F)),
  exists s a, run padd empty_soup os = Ret s /\ asteps padd a_empty os a /\ stores s a /\ content_ok a.
Proof. exact history_ok. Qed.
Print Assumptions C33_history.

(** ... a content for which every getter returns the corresponding item ... *)
Theorem C33_getters : forall (P F : Type) (s : soup P F) a, stores s a -> content_ok a ->
  (length (verts s) = length (a_verts a) /\ length (etypes s) = length (a_elems a) /\ length (snames s) = length (a_elsets a)) /\
  (forall i p, nth_error (a_verts a) i = Some p -> getVertex s i = Ret p) /\
  (forall i t c, nth_error (a_elems a) i = Some (t, c) -> getElement s i = Ret (t, c)) /\
  (forall i e d, nth_error (a_elsets a) i = Some e ->
     getElset s i d = Ret (es_name e, es_ids e, match es_data e with [] => d | _ => es_data e end)) /\
  (forall e d, In e (a_elsets a) ->
     getElsetByName s (es_name e) d = Ret (Some (es_ids e, match es_data e with [] => d | _ => es_data e end))) /\
  (forall n d, ~ In n (map es_name (a_elsets a)) -> getElsetByName s n d = Ret None).
Proof. exact getters_ok. Qed.
Print Assumptions C33_getters.

(** ... and later steps leave earlier items alone (translations move all points). *)
Theorem C33_undisturbed : forall (P F : Type) (padd : P -> P -> P) (a : asoup P F) os a', asteps padd a os a' ->
  (exists l, a_elems a' = a_elems a ++ l) /\ (exists l, a_elsets a' = a_elsets a ++ l) /\
  (length (a_verts a) <= length (a_verts a')) /\
  ((forall v, ~ In (Translate v) os) -> exists l, a_verts a' = a_verts a ++ l).
Proof. exact @asteps_extend. Qed.
Print Assumptions C33_undisturbed.

(** The ids returned count the additions. *)
Theorem C33_returned_ids : forall (P F : Type) (s : soup P F) a, stores s a ->
  (forall p, snd (addVertex s p) = Z.of_nat (length (a_verts a))) /\
  (forall t c, exists s', addElement s t c = Ret (s', Z.of_nat (length (a_elems a)))) /\
  (forall n ids d, acceptable a (mkElset n ids d) -> exists s', addElset s n ids d = (s', Z.of_nat (length (a_elsets a)), false)).
Proof. exact returned_ids. Qed.
Print Assumptions C33_returned_ids.

(** C34. *)
Theorem C34_rejected : forall (P F : Type) (s : soup P F) a n ids d, stores s a ->
  ~ acceptable a (mkElset n ids d) -> addElset s n ids d = (s, (-1)%Z, true).
Proof. exact @addElset_reject. Qed.
Print Assumptions C34_rejected.
Theorem C34_accepted : forall (P F : Type) (s : soup P F) a n ids d, stores s a ->
  acceptable a (mkElset n ids d) ->
  exists s', addElset s n ids d = (s', Z.of_nat (length (a_elsets a)), false) /\
    stores s' (mkA (a_verts a) (a_elems a) (a_elsets a ++ [mkElset n ids d])).
Proof. exact @addElset_accept. Qed.
Print Assumptions C34_accepted.
Theorem C34_names_unique : forall (P F : Type) (padd : P -> P -> P) (os : list (op P F)) a,
  asteps padd a_empty os a -> NoDup (map es_name (a_elsets a)).
Proof. exact names_unique. Qed.
Print Assumptions C34_names_unique.

(** C35. *)
Theorem C35_sortElsets : forall (P F : Type) stdsort, sort_contract stdsort ->
  forall (s : soup P F) a, stores s a -> content_ok a -> a_elsets a <> [] ->
  exists s' l, sortElsets stdsort s = Ret s' /\ stores s' (mkA (a_verts a) (a_elems a) l) /\
    names_sorted l /\ exists m, Permutation (a_elsets a) m /\ Forall2 same_sorted m l.
Proof. exact @sortElsets_ok. Qed.
Print Assumptions C35_sortElsets.
(** The claim fails for a soup without elsets: an element of an empty vector is written. *)
Theorem C35_empty_refuted : exists s : soup Z Z, stores s a_empty /\ content_ok (@a_empty Z Z) /\
  forall stdsort, sortElsets stdsort s = Ub.
Proof. exact sort_empty_refuted. Qed.
Print Assumptions C35_empty_refuted.

(** C36. *)
Theorem C36_append : forall (P F : Type) stdsort, sort_contract stdsort ->
  forall (s t : soup P F) a b, stores s a -> stores t b -> content_ok a -> content_ok b -> a_elems b <> [] ->
  exists u l, append_soup stdsort s t = Ret u /\
    stores u (mkA (a_verts a ++ a_verts b) (a_elems a ++ shift_elems (length (a_verts a)) (a_elems b)) l) /\
    (a_elsets b = [] -> l = a_elsets a) /\
    (a_elsets b <> [] -> names_sorted l /\ forall e, In e l <-> merged (length (a_elems a)) (a_elsets a) (a_elsets b) e).
Proof. exact append_content_ok. Qed.
Print Assumptions C36_append.
(** The result is well formed, and += preserves what getSubset needs. *)
Theorem C36_well_formed : forall (P F : Type) (a b : asoup P F) l, names_sorted l ->
  (forall e, In e l <-> merged (length (a_elems a)) (a_elsets a) (a_elsets b) e) ->
  let c := mkA (a_verts a ++ a_verts b) (a_elems a ++ shift_elems (length (a_verts a)) (a_elems b)) l in
  (content_ok a -> content_ok b -> data_agree (a_elsets a) (a_elsets b) -> content_ok c) /\
  (ids_ok a -> ids_ok b -> ids_ok c) /\
  (ids_ok a -> ids_ok b -> ascending (a_elsets a) -> ascending (a_elsets b) -> ascending l).
Proof. exact merged_well_formed. Qed.
Print Assumptions C36_well_formed.
(** Appending a soup without elements is undefined behaviour (the first offset of an empty vector is read). *)
Theorem C36_empty_refuted : exists s t : soup Z Z, stores s (mkA [1%Z] [(V_Vertex, [0%Z])] []) /\ stores t a_empty /\
  forall stdsort, append_soup stdsort s t = Ub.
Proof. exact append_empty_refuted. Qed.
Print Assumptions C36_empty_refuted.
(** a += a is undefined behaviour for every soup that holds a vertex or an element: the copies read the resized
    vectors, so they write past the ends of them. *)
Theorem C36_self_refuted : forall (P F : Type) (d : P) (e : vtk) (s : soup P F) a, stores s a ->
  a_verts a <> [] \/ a_elems a <> [] -> append_self_start d e s = Ub.
Proof. exact append_self_ub. Qed.
Print Assumptions C36_self_refuted.
(** Merging a set with data and a set of the same name without data leaves fewer data than ids. *)
Theorem C36_mixed_data_refuted : exists (a b : asoup Z Z) (s t : soup Z Z), stores s a /\ stores t b /\ content_ok a /\ content_ok b /\
  forall stdsort, sort_contract stdsort -> exists u c, append_soup stdsort s t = Ret u /\ stores u c /\ ~ content_ok c.
Proof. exact append_mixed_refuted. Qed.
Print Assumptions C36_mixed_data_refuted.

(** C37. *)
Theorem C37_getSubset : forall (P F : Type) stdsort, sort_contract stdsort ->
  forall (s : soup P F) a e, stores s a -> content_ok a -> ids_ok a -> In e (a_elsets a) -> ascending (a_elsets a) ->
  exists u c, getSubset stdsort s (es_name e) empty_soup = Ret (u, false) /\
    stores u c /\ subset_of a (es_name e) (es_ids e) c /\ content_ok c /\ ids_ok c /\ ascending (a_elsets c).
Proof. exact @getSubset_ok. Qed.
Print Assumptions C37_getSubset.
Theorem C37_unknown : forall (P F : Type) stdsort (s sub : soup P F) a n, stores s a ->
  ~ In n (map es_name (a_elsets a)) -> getSubset stdsort s n sub = Ret (sub, true).
Proof. exact @getSubset_unknown. Qed.
Print Assumptions C37_unknown.
Theorem C37_unsorted : forall (P F : Type) stdsort (s sub : soup P F) a e, stores s a -> content_ok a ->
  In e (a_elsets a) -> ~ StronglySorted Z.le (es_ids e) -> getSubset stdsort s (es_name e) sub = Ret (sub, true).
Proof. exact @getSubset_unsorted. Qed.
Print Assumptions C37_unsorted.

(** C38. *)
Theorem C38_compare : forall (P F : Type) (vclose : P -> P -> bool) (dclose : F -> F -> bool) (s t : soup P F) a b,
  stores s a -> stores t b ->
  exists z, compare vclose dclose s t = Ret z /\ first_difference vclose dclose a b z.
Proof. exact @compare_ok. Qed.
Print Assumptions C38_compare.
Theorem C38_zero : forall (P F : Type) (vclose : P -> P -> bool) (dclose : F -> F -> bool) (s t : soup P F) a b,
  stores s a -> stores t b -> (compare vclose dclose s t = Ret 0%Z <-> agree vclose dclose a b).
Proof. exact @agree_zero. Qed.
Print Assumptions C38_zero.

(** * The hypotheses are met *)
Example C35_contract : sort_contract isort_poly.
Proof. exact isort_poly_contract. Qed.

(** two triangles and a quad over five points; sets named "B", "A" (unsorted, with data) *)
Definition ex_ops : list (op Z Z) :=
  [AddVertex 10; AddVertex 11; AddVertex 12; AddVertex 13; AddVertex 14;
   AddElement V_Triangle [0; 1; 2]; AddElement V_Quad [1; 3; 4; 2]; AddElement V_Triangle [0; 2; 4];
   AddElset [66] [2; 1] []; AddElset [65] [2; 0] [200; 100]; AddElset [66] [0] []; AddElset [67] [0] [1; 2];
   AddElset [67] [0] []; Translate 1]%Z.
Definition ex_soup : soup Z Z := match run Z.add empty_soup ex_ops with Ret s => s | _ => empty_soup end.
Definition ex_content : asoup Z Z :=
  mkA [11; 12; 13; 14; 15]%Z [(V_Triangle, [0; 1; 2]); (V_Quad, [1; 3; 4; 2]); (V_Triangle, [0; 2; 4])]%Z
    [mkElset [66] [2; 1] []; mkElset [65] [2; 0] [200; 100]; mkElset [67] [0] []]%Z.
Example C33_example : stores ex_soup ex_content /\ content_ok ex_content /\
  getElement ex_soup 1 = Ret (V_Quad, [1; 3; 4; 2]%Z) /\ getElsetByName ex_soup [65%Z] [] = Ret (Some ([2; 0]%Z, [200; 100]%Z)).
Proof.
  repeat split; cbn; repeat constructor; cbn; intuition discriminate.
Qed.
Example C34_example : ~ acceptable ex_content (mkElset [66%Z] [0%Z] []) /\ ~ acceptable ex_content (mkElset [68%Z] [0%Z] [1; 2]%Z).
Proof. split; intros (H1 & H2 & H3); cbn in *; [tauto|]. destruct H3; discriminate. Qed.
Definition ex_sorted : asoup Z Z :=
  mkA (a_verts ex_content) (a_elems ex_content)
    [mkElset [65] [0; 2] [100; 200]; mkElset [66] [1; 2] []; mkElset [67] [0] []]%Z.
Example C35_example : exists s', sortElsets isort_poly ex_soup = Ret s' /\ stores s' ex_sorted.
Proof. eexists. split; [vm_compute; reflexivity|]. repeat split. Qed.
Definition ex_sorted_soup : soup Z Z := match sortElsets isort_poly ex_soup with Ret s => s | _ => empty_soup end.
Example C37_hypotheses : stores ex_sorted_soup ex_sorted /\ content_ok ex_sorted /\ ids_ok ex_sorted /\ ascending (a_elsets ex_sorted).
Proof.
  split; [repeat split; vm_compute; reflexivity|]. split; [|split].
  - repeat split; cbn; repeat constructor; cbn; intuition discriminate.
  - split; cbn.
    + intros t c v H Hv. repeat (destruct H as [H|H]; [injection H as <- <-; cbn in Hv; intuition lia|]). contradiction.
    + intros e i H Hv. repeat (destruct H as [H|H]; [subst e; cbn in Hv; intuition lia|]). contradiction.
  - repeat constructor.
Qed.
Example C37_example : exists u, getSubset isort_poly ex_sorted_soup [66%Z] empty_soup = Ret (u, false) /\
  stores u (mkA [11; 12; 13; 14; 15]%Z [(V_Quad, [1; 3; 4; 2]); (V_Triangle, [0; 2; 4])]%Z [mkElset [65] [1] [200]]%Z).
Proof. eexists. split; [vm_compute; reflexivity|]. repeat split. Qed.
Example C37_example_vertices : exists u, getSubset isort_poly ex_sorted_soup [65%Z] empty_soup = Ret (u, false) /\
  stores u (mkA [11; 12; 13; 15]%Z [(V_Triangle, [0; 1; 2]); (V_Triangle, [0; 2; 3])]%Z
    [mkElset [66] [1] []; mkElset [67] [0] []]%Z).
Proof. eexists. split; [vm_compute; reflexivity|]. repeat split. Qed.
Example C36_example : exists u, append_soup isort_poly ex_sorted_soup ex_sorted_soup = Ret u /\
  stores u (mkA (a_verts ex_sorted ++ a_verts ex_sorted)
     (a_elems ex_sorted ++ [(V_Triangle, [5; 6; 7]); (V_Quad, [6; 8; 9; 7]); (V_Triangle, [5; 7; 9])]%Z)
     [mkElset [65] [0; 2; 3; 5] [100; 200; 100; 200]; mkElset [66] [1; 2; 4; 5] []; mkElset [67] [0; 3] []]%Z).
Proof. eexists. split; [vm_compute; reflexivity|]. repeat split. Qed.
Example C36_self_example : a_verts ex_sorted <> [] /\ append_self_start 0%Z V_Vertex ex_sorted_soup = Ub.
Proof. split; [discriminate|vm_compute; reflexivity]. Qed.
Example C36_data_agree : data_agree (a_elsets ex_sorted) (a_elsets ex_sorted) /\ a_elems ex_sorted <> [].
Proof.
  split; [|discriminate]. intros e1 e2 H1 H2 E. cbn in H1, H2.
  destruct H1 as [<-|[<-|[<-|[]]]], H2 as [<-|[<-|[<-|[]]]]; cbn in *; try discriminate; tauto.
Qed.
Example C38_example : compare Z.eqb Z.eqb ex_soup ex_soup = Ret 0%Z /\ compare Z.eqb Z.eqb ex_soup ex_sorted_soup = Ret 6%Z /\
  compare Z.eqb Z.eqb ex_soup (translate Z.add 1%Z ex_soup) = Ret 2%Z.
Proof. repeat split; vm_compute; reflexivity. Qed.
