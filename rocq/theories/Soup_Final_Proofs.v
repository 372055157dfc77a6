(** Assembly of the facts about PolytopeSoup in the form of Soup_Props, and the counterexamples. *)
From Coq Require Import List Arith ZArith Lia Bool Permutation Sorting.Sorted.
From Verif Require Import Base Loops Sort_Model Sort_Spec Sort_Proofs StringView_Spec Elem_Model
  Soup_Model Soup_Spec Soup_Proofs Soup_Sort_Proofs Soup_Merge_Proofs.
Import ListNotations.

Lemma history_ok (P F : Type) (padd : P -> P -> P) (os : list (op P F)) :
  exists s a, run padd empty_soup os = Ret s /\ asteps padd a_empty os a /\ stores s a /\ content_ok a.
Proof.
  destruct (run_ok padd os empty_soup a_empty stores_empty) as (s & a & H1 & H2 & H3). exists s, a.
  split; auto. split; auto. split; auto. eapply asteps_content; eauto. split; constructor.
Qed.
Lemma getters_ok (P F : Type) (s : soup P F) a : stores s a -> content_ok a ->
  (length (verts s) = length (a_verts a) /\ length (etypes s) = length (a_elems a) /\ length (snames s) = length (a_elsets a)) /\
  (forall i p, nth_error (a_verts a) i = Some p -> getVertex s i = Ret p) /\
  (forall i t c, nth_error (a_elems a) i = Some (t, c) -> getElement s i = Ret (t, c)) /\
  (forall i e d, nth_error (a_elsets a) i = Some e ->
     getElset s i d = Ret (es_name e, es_ids e, match es_data e with [] => d | _ => es_data e end)) /\
  (forall e d, In e (a_elsets a) ->
     getElsetByName s (es_name e) d = Ret (Some (es_ids e, match es_data e with [] => d | _ => es_data e end))) /\
  (forall n d, ~ In n (map es_name (a_elsets a)) -> getElsetByName s n d = Ret None).
Proof.
  intros Hs Hc. split; [now apply counts_ok|]. split; [intros; eapply getVertex_ok; eauto|].
  split; [intros; eapply getElement_ok; eauto|]. split; [intros; eapply getElset_ok; eauto|].
  split; [intros; eapply getElsetByName_ok; eauto|intros; eapply getElsetByName_none; eauto].
Qed.
Lemma returned_ids (P F : Type) (s : soup P F) a : stores s a ->
  (forall p, snd (addVertex s p) = Z.of_nat (length (a_verts a))) /\
  (forall t c, exists s', addElement s t c = Ret (s', Z.of_nat (length (a_elems a)))) /\
  (forall n ids d, acceptable a (mkElset n ids d) -> exists s', addElset s n ids d = (s', Z.of_nat (length (a_elsets a)), false)).
Proof.
  intros Hs. split; [intros; now apply addVertex_ok|]. split.
  - intros t c. destruct (addElement_ok s a t c Hs) as (s' & H & _). eauto.
  - intros n ids d Ha. destruct (addElset_accept s a n ids d Hs Ha) as (s' & H & _). eauto.
Qed.
Lemma names_unique (P F : Type) (padd : P -> P -> P) (os : list (op P F)) a :
  asteps padd a_empty os a -> NoDup (map es_name (a_elsets a)).
Proof. intros H. eapply asteps_content in H; [apply H|]. split; constructor. Qed.
Lemma sort_empty_refuted : exists s : soup Z Z, stores s a_empty /\ content_ok (@a_empty Z Z) /\
  forall stdsort, sortElsets stdsort s = Ub.
Proof.
  exists empty_soup. split; [apply stores_empty|]. split; [split; constructor|].
  intros. eapply sortElsets_empty; [apply stores_empty|reflexivity].
Qed.
Lemma append_content_ok (P F : Type) stdsort : sort_contract stdsort ->
  forall (s t : soup P F) a b, stores s a -> stores t b -> content_ok a -> content_ok b -> a_elems b <> [] ->
  exists u l, append_soup stdsort s t = Ret u /\
    stores u (mkA (a_verts a ++ a_verts b) (a_elems a ++ shift_elems (length (a_verts a)) (a_elems b)) l) /\
    (a_elsets b = [] -> l = a_elsets a) /\
    (a_elsets b <> [] -> names_sorted l /\ forall e, In e l <-> merged (length (a_elems a)) (a_elsets a) (a_elsets b) e).
Proof. intros Hsort s t a b Hs Ht (Ha & _) (Hb & _) Hne. now apply append_ok. Qed.
Lemma merged_well_formed (P F : Type) (a b : asoup P F) l : names_sorted l ->
  (forall e, In e l <-> merged (length (a_elems a)) (a_elsets a) (a_elsets b) e) ->
  let c := mkA (a_verts a ++ a_verts b) (a_elems a ++ shift_elems (length (a_verts a)) (a_elems b)) l in
  (content_ok a -> content_ok b -> data_agree (a_elsets a) (a_elsets b) -> content_ok c) /\
  (ids_ok a -> ids_ok b -> ids_ok c) /\
  (ids_ok a -> ids_ok b -> ascending (a_elsets a) -> ascending (a_elsets b) -> ascending l).
Proof.
  intros Hl Hm c. split; [|split]; intros.
  - now apply merged_content.
  - now apply merged_ids.
  - now apply (merged_ascending a b l Hm).
Qed.
Lemma append_empty_refuted : exists s t : soup Z Z, stores s (mkA [1%Z] [(V_Vertex, [0%Z])] []) /\ stores t a_empty /\
  forall stdsort, append_soup stdsort s t = Ub.
Proof.
  exists (mkSoup [1%Z] [V_Vertex] [0; 1] [0%Z] [] [] [] []), empty_soup.
  split; [repeat split|]. split; [repeat split|]. intros. now apply append_empty_ub.
Qed.
Lemma append_mixed_refuted : exists (a b : asoup Z Z) (s t : soup Z Z), stores s a /\ stores t b /\ content_ok a /\ content_ok b /\
  forall stdsort, sort_contract stdsort -> exists u c, append_soup stdsort s t = Ret u /\ stores u c /\ ~ content_ok c.
Proof.
  pose (a := mkA [1%Z] [(V_Vertex, [0%Z])] [mkElset [65%Z] [0%Z] [7%Z]]).
  pose (b := mkA [1%Z] [(V_Vertex, [0%Z])] [mkElset (F := Z) [65%Z] [0%Z] []]).
  assert (Ha : content_ok a) by (repeat split; cbn; repeat constructor; cbn; intuition discriminate).
  assert (Hb : content_ok b) by (repeat split; cbn; repeat constructor; cbn; intuition discriminate).
  exists a, b, (mkSoup [1%Z] [V_Vertex] [0; 1] [0%Z] [[65%Z]] [0; 1] [0%Z] [[7%Z]]),
    (mkSoup [1%Z] [V_Vertex] [0; 1] [0%Z] [[65%Z]] [0; 1] [0%Z] [[]]).
  split; [repeat split|]. split; [repeat split|]. split; auto. split; auto.
  intros stdsort Hsort.
  destruct (append_content_ok Z Z stdsort Hsort (mkSoup [1%Z] [V_Vertex] [0; 1] [0%Z] [[65%Z]] [0; 1] [0%Z] [[7%Z]])
    (mkSoup [1%Z] [V_Vertex] [0; 1] [0%Z] [[65%Z]] [0; 1] [0%Z] [[]]) a b) as (u & l & E & St & _ & Hl); auto;
    try (repeat split; fail); try discriminate.
  destruct Hl as (_ & Hl); [discriminate|].
  eexists u, _. split; auto. split; [exact St|]. intros (_ & Hok). cbn in Hok. rewrite Forall_forall in Hok.
  destruct (Hok (mkElset [65%Z] [0; 1]%Z [7%Z])) as (_ & [H|H]); try discriminate.
  apply Hl. apply (merged_both 1 (a_elsets a) (a_elsets b) (mkElset [65%Z] [0%Z] [7%Z]) (mkElset [65%Z] [0%Z] [])); cbn; auto.
Qed.

(** the contract of std::sort can be met: by insertion sort *)
Definition isort_poly (A : Type) (cmp : A -> A -> bool) (l : list A) : list A :=
  match insertionSort cmp (map Some l) 0 (length l) with
  | Ret m => flat_map (fun o => match o with Some a => [a] | None => [] end) m
  | _ => []
  end.
Lemma isort_poly_contract : sort_contract isort_poly.
Proof.
  intros A cmp l H. unfold isort_poly.
  destruct (insertionSort_correct cmp [] l [] H) as (ys & E & P & S & _).
  simpl in E. rewrite app_nil_r in E. rewrite E. rewrite app_nil_r.
  assert (F : flat_map (fun o : option A => match o with Some a => [a] | None => [] end)
                (map Some ys) = ys) by (clear; induction ys; simpl; congruence).
  rewrite F. split; auto.
Qed.

(** appending a soup to itself *)
Lemma blit_self_ub : forall (A : Type) (l : list A) d, l <> [] ->
  blit (resized l (length l + length l) d) (length l) (resized l (length l + length l) d) = Ub.
Proof.
  intros A l d H. unfold blit.
  assert (E : length (resized l (length l + length l) d) = length l + length l).
  { unfold resized. rewrite app_length, firstn_length, repeat_length. lia. }
  rewrite E. destruct l as [|x l]; [contradiction|].
  destruct (_ <=? _) eqn:L; [|reflexivity]. apply Nat.leb_le in L. cbn [length] in L. lia.
Qed.
Lemma append_self_ub : forall (P F : Type) (d : P) (e : vtk) (s : soup P F) a, stores s a -> a_verts a <> [] \/ a_elems a <> [] ->
  append_self_start d e s = Ub.
Proof.
  intros P F d e s a Hs H. unfold append_self_start.
  destruct (verts s) as [|v vs] eqn:Ev.
  - cbn [length Nat.add]. unfold blit at 1. cbn.
    assert (Ht : etypes s <> []).
    { destruct H as [H|H]; [destruct Hs as (E & _); congruence|].
      intro Et. apply H. destruct Hs as (_ & E & _). rewrite Et in E. 
      destruct (a_elems a); [reflexivity|discriminate]. }
    rewrite blit_self_ub by exact Ht. reflexivity.
  - rewrite <- Ev at 1. rewrite <- Ev. rewrite blit_self_ub by (rewrite Ev; discriminate). reflexivity.
Qed.
