(** C47: sorting the intersections of a ray with a mesh *)
From Coq Require Import List Arith ZArith Lia Sorting.Permutation.
From Verif Require Import Base Sort_Spec Soup_Spec Soup_Sort_Proofs Soup_Final_Proofs RayMesh_Model RayMesh_Spec RayMesh_Proofs.
Import ListNotations.

(** For every record of intersections (each face with at least one): the output holds the same
    faces in some order, each with its own intersections in ascending order, and nothing beyond
    them in the arrays is changed.  If the first segment of [g] comes before that of [h] in the
    output, then the one of [h] is not strictly before the one of [g]; nor is it if it merely
    touches it, provided the average of different numbers is less than the larger one. *)
Theorem C47_sortRayMeshIntersections : forall (T : Type) (ltb : T -> T -> bool) avg,
  strict_weak_order_on ltb (fun _ => True) -> between ltb avg ->
  forall stdsort, sort_contract stdsort ->
  forall hs coords offsets faces sc so sf perm,
  holds hs coords offsets faces -> (forall h, In h hs -> snd h <> []) ->
  length (concat (map snd hs)) <= length sc -> length hs + 1 <= length so ->
  length hs <= length sf -> length hs <= length perm ->
  exists sc' so' sf' perm' hs0 hs',
    sortRayMeshIntersections ltb avg stdsort coords offsets faces sc so sf perm (length hs) = Ret (sc', so', sf', perm') /\
    Permutation hs hs0 /\ Forall2 (face_sorted ltb) hs0 hs' /\
    sc' = concat (map snd hs') ++ skipn (length (concat (map snd hs))) sc /\
    so' = sums 0 (map (fun h => length (snd h)) hs') ++ skipn (length hs + 1) so /\
    sf' = map fst hs' ++ skipn (length hs) sf /\
    length perm' = length perm /\
    (forall i j g h c0 c1 d0 d1, i < j -> nth_error hs' i = Some g -> nth_error hs' j = Some h ->
       first_segment g c0 c1 -> first_segment h d0 d1 ->
       ltb d1 c0 = false /\ (below_max ltb avg -> ltb d0 d1 = true -> ltb c0 d1 = true)).
Proof. exact @sortRay_ok. Qed.
Print Assumptions C47_sortRayMeshIntersections.
(** If the first segments do not overlap, consecutive segments are traversed in order. *)
Theorem C47_traversed_in_order : forall (T : Type) (ltb : T -> T -> bool) avg,
  strict_weak_order_on ltb (fun _ => True) -> between ltb avg ->
  forall stdsort, sort_contract stdsort ->
  forall hs coords offsets faces sc so sf perm,
  below_max ltb avg -> disjoint_segments ltb hs ->
  holds hs coords offsets faces -> (forall h, In h hs -> snd h <> []) ->
  length (concat (map snd hs)) <= length sc -> length hs + 1 <= length so ->
  length hs <= length sf -> length hs <= length perm ->
  exists sc' so' sf' perm' hs0 hs',
    sortRayMeshIntersections ltb avg stdsort coords offsets faces sc so sf perm (length hs) = Ret (sc', so', sf', perm') /\
    Permutation hs hs0 /\ Forall2 (face_sorted ltb) hs0 hs' /\ holds hs' sc' so' sf' /\
    (forall i j g h c0 c1 d0 d1, i < j -> nth_error hs' i = Some g -> nth_error hs' j = Some h ->
       first_segment g c0 c1 -> first_segment h d0 d1 -> leq ltb c1 d0).
Proof. exact @sortRay_by_entry. Qed.
Print Assumptions C47_traversed_in_order.
(** The order is not by entry coordinate in general: of two overlapping faces the one entered first
    can come second, even if they differ only in the order in which their coordinates are given. *)
Definition zavg (a b : Z) : Z := ((a + b) / 2)%Z.
Theorem C47_by_entry_refuted : exists stdsort, sort_contract stdsort /\
  (** face 0 is entered at 1 and left at 9, face 1 entered at 2 and left at 3 *)
  (exists p, sortRayMeshIntersections Z.ltb zavg stdsort [9; 1; 2; 3]%Z [0; 2; 4] [0; 1]
     [0; 0; 0; 0]%Z [0; 0; 0] [0; 0] [0; 0] 2 = Ret ([2; 3; 1; 9]%Z, [0; 2; 4], [1; 0], p)) /\
  (exists p, sortRayMeshIntersections Z.ltb zavg stdsort [1; 9; 2; 3]%Z [0; 2; 4] [0; 1]
     [0; 0; 0; 0]%Z [0; 0; 0] [0; 0] [0; 0] 2 = Ret ([1; 9; 2; 3]%Z, [0; 2; 4], [0; 1], p)).
Proof.
  exists isort_poly. split; [exact isort_poly_contract|].
  split; eexists; vm_compute; reflexivity.
Qed.
Print Assumptions C47_by_entry_refuted.

Example C47_order : strict_weak_order_on Z.ltb (fun _ => True) /\ between Z.ltb zavg /\ below_max Z.ltb zavg.
Proof.
  split; [|split].
  - split; intros.
    + apply Z.ltb_irrefl.
    + rewrite Z.ltb_lt in *. lia.
    + rewrite Z.ltb_ge in *. lia.
  - intros a b. unfold leq, zavg. rewrite !Z.ltb_ge. intros H. split; [apply Z.div_le_lower_bound|apply Z.div_le_upper_bound]; lia.
  - intros a b. unfold zavg. rewrite !Z.ltb_lt. intros H. apply Z.div_lt_upper_bound; lia.
Qed.
(** three faces along a ray; face 7 is crossed twice *)
Definition ex_hs : list (nat * list Z) := [(4, [6; 4]%Z); (7, [4; 2; 9; 8]%Z); (3, [6; 8]%Z)].
Example C47_hypotheses : holds ex_hs [6; 4; 4; 2; 9; 8; 6; 8; 0]%Z [0; 2; 6; 8; 5] [4; 7; 3].
Proof. split; [exists [0%Z]; reflexivity|split; [exists [5]; reflexivity|exists []; reflexivity]]. Qed.
Example C47_disjoint : disjoint_segments Z.ltb ex_hs.
Proof.
  assert (N : forall h c0 c1, In h ex_hs -> enters Z.ltb h c0 c1 ->
    fst h = 4 /\ c0 = 4%Z /\ c1 = 6%Z \/ fst h = 7 /\ c0 = 2%Z /\ c1 = 4%Z \/ fst h = 3 /\ c0 = 6%Z /\ c1 = 8%Z).
  { intros h c0 c1 Hi (cs & [Hp Hs] & Hf).
    assert (Hcs : cs = isort_poly Z Z.ltb (snd h)).
    { destruct (isort_poly_contract Z Z.ltb (snd h)) as [Hp' Hs']; [apply Z_swo|].
      apply Z_sorted_unique; auto. now rewrite <- Hp. }
    subst cs. destruct Hi as [<-|[<-|[<-|[]]]]; vm_compute in Hf; destruct Hf; subst; auto 10. }
  split.
  - intros h c0 c1 Hi He. apply Z.ltb_lt. destruct (N _ _ _ Hi He) as [H|[H|H]]; lia.
  - intros i j g h c0 c1 d0 d1 Hij Hg Hh Eg Eh.
    pose proof (N _ _ _ (nth_error_In _ _ Hg) Eg) as Ng. pose proof (N _ _ _ (nth_error_In _ _ Hh) Eh) as Nh.
    unfold leq. rewrite !Z.ltb_ge.
    destruct i as [|[|[|i]]]; cbn in Hg; try (destruct i; discriminate); injection Hg as <-; cbn in Ng;
    destruct j as [|[|[|j]]]; cbn in Hh; try (destruct j; discriminate); injection Hh as <-; cbn in Nh; lia.
Qed.
Example C47_example : exists p, sortRayMeshIntersections Z.ltb zavg isort_poly [6; 4; 4; 2; 9; 8; 6; 8; 0]%Z [0; 2; 6; 8; 5] [4; 7; 3]
  [0; 0; 0; 0; 0; 0; 0; 0; 1]%Z [0; 0; 0; 0; 1] [0; 0; 0; 1] [0; 0; 0; 0] 3
  = Ret ([2; 4; 8; 9; 4; 6; 6; 8; 1]%Z, [0; 4; 6; 8; 1], [7; 4; 3; 1], p).
Proof. eexists. vm_compute. reflexivity. Qed.
