From Coq Require Import List Arith ZArith Lia Bool Reals Lra Sorting.Permutation.
From Verif Require Import Base Arith Loops Sort_Spec Soup_Spec Fvm_Model Fvm_Spec Fvm_Proofs Manifold_Model Manifold_Spec Manifold_Proofs
  Manifold_Valid_Spec Seg_Spec Poly_Model Poly_Spec Poly_Proofs Import_Model.
Import ListNotations.

Section V.
Context {F : Type}.
Variable isCCW : list (F * F) -> bool.

Lemma oriented_ok k (m : mesh F) : mesh_ok k m -> exists m', checkCCWFaces isCCW k m = Ret m' /\ oriented isCCW k m m'.
Proof.
  intros Hm. destruct (checkCCW_ok isCCW k m Hm) as (m' & E & Hv & Hl & Hm' & Hf). exists m'. split; [exact E|].
  split; [exact Hv|]. split; [exact Hl|]. split; [exact Hm'|]. intros i c Hc. destruct (Hf i c Hc) as (p & Hp & H).
  assert (Lc : length c = nverts k) by (apply (Hm c (nth_error_In _ _ Hc))).
  destruct H as [(Hi & Hn)|(Hi & c' & Hfl & Hn)].
  - exists p, c. rewrite Hi. auto.
  - exists p, c'. rewrite Hi. split; [exact Hp|]. split; [exact Hn|].
    destruct (flip_conn_ok k c Lc) as (c2 & E2 & _ & HP & _). rewrite Hfl in E2. injection E2 as <-. split; [exact HP|].
    destruct k; try (apply flip_conn_reversed; auto; discriminate). now apply (flip_quad8 c c' Lc Hfl).
Qed.

Lemma turned_ccw k (m m' : mesh F) ps : mesh_ok k m -> quadratic k = false ->
  (forall p, length p = nverts k -> isCCW p = false -> isCCW (turned k p) = true) ->
  checkCCWFaces isCCW k m = Ret m' -> polygons m' ps -> forall p, In p ps -> isCCW p = true.
Proof.
  intros Hm Hq HT E Hps p Hp. destruct (checkCCW_ok isCCW k m Hm) as (m2 & E2 & Hv & Hl & Hm' & Hf). rewrite E in E2. injection E2 as <-.
  apply In_nth_error in Hp as (i & Hi).
  assert (Hc : nth_error (map (map Some) ps) i = nth_error (map (corners (mv m')) (fv m')) i) by now rewrite Hps.
  rewrite !nth_error_map, Hi in Hc. cbn in Hc. destruct (nth_error (fv m') i) as [c'|] eqn:Ec'; [|discriminate]. cbn in Hc. injection Hc as Hc.
  destruct (nth_error (fv m) i) as [c|] eqn:Ec.
  2:{ apply nth_error_None in Ec. assert (i < length (fv m')) by (apply nth_error_Some; congruence). lia. }
  destruct (Hf i c Ec) as (q & Hq1 & H). rewrite Hv in Hc.
  assert (Lc : length c = nverts k) by (apply (Hm c (nth_error_In _ _ Ec))).
  assert (inj : forall a b : list (F * F), map Some a = map Some b -> a = b).
  { clear. induction a as [|x a IH]; intros [|y b] H; try discriminate; auto. cbn in H. injection H as -> H. f_equal. auto. }
  destruct H as [(Hi1 & Hn)|(Hi1 & c2 & Hfl & Hn)].
  - rewrite Ec' in Hn. injection Hn as ->. rewrite <- Hq1 in Hc. apply inj in Hc. subst. exact Hi1.
  - rewrite Ec' in Hn. injection Hn as ->.
    assert (Lq : length q = nverts k) by (apply (f_equal (@length (option (F * F)))) in Hq1; unfold corners in Hq1; rewrite !map_length in Hq1; congruence).
    assert (p = turned k q); [|subst p; apply HT; auto].
    apply inj. rewrite Hc. destruct k; try discriminate Hq.
    + destruct c as [|a [|b [|d [|]]]]; try discriminate Lc. destruct q as [|a' [|b' [|d' [|]]]]; try discriminate Lq.
      cbn in Hfl. injection Hfl as <-. cbn in Hq1 |- *. congruence.
    + destruct c as [|a [|b [|d [|e [|]]]]]; try discriminate Lc. destruct q as [|a' [|b' [|d' [|e' [|]]]]]; try discriminate Lq.
      cbn in Hfl. injection Hfl as <-. cbn in Hq1 |- *. congruence.
Qed.
End V.

Lemma validate_iff : forall stdsort, sort_contract stdsort ->
  forall (F : Type) (isCCW : list (F * F) -> bool) selfcheck fuel k (m : mesh F), mesh_ok k m -> quadratic k = false ->
  length (all_edges k (fv m)) <= fuel ->
  exists m', checkCCWFaces isCCW k m = Ret m' /\ oriented isCCW k m m' /\
    let es := all_edges k (fv m') in
    let r := validate stdsort isCCW selfcheck fuel k m in
    (r = Ret m' <-> watertight es) /\ (r = Ub <-> es = [] \/ forall e, In e es -> uses es e = 2) /\
    (r = Ret m' \/ r = Ub \/ r = Fail).
Proof.
  intros stdsort Hs F isCCW selfcheck fuel k m Hm Hq Hf.
  destruct (oriented_ok isCCW k m Hm) as (m' & E & Ho). exists m'. split; [exact E|]. split; [exact Ho|].
  destruct Ho as (_ & Hl & Hm' & _). intros es r. unfold r, validate. rewrite E. cbn [bind]. rewrite Hq.
  assert (L : forall fs : list (list Z), (forall c, In c fs -> length c = nverts k) ->
    length (all_edges k fs) = length fs * nedges k).
  { induction fs as [|c fs IH]; intros Hc; auto. unfold all_edges in *. cbn [map concat]. rewrite app_length, IH by (intros; apply Hc; now right).
    rewrite Fvm_Proofs.edges_of_length by (apply Hc; now left). cbn. reflexivity. }
  assert (Hlen : forall c, In c (fv m') -> length c = nverts k) by (intros c Hc; apply (Hm' c Hc)).
  assert (Hlen0 : forall c, In c (fv m) -> length c = nverts k) by (intros c Hc; apply (Hm c Hc)).
  assert (Hf' : length (all_edges k (fv m')) <= fuel) by (rewrite L, Hl, <- L by auto; exact Hf).
  destruct (check_iff stdsort Hs F fuel k m' Hlen Hf') as (I1 & I2 & I3). fold es in I1, I2.
  rewrite <- I1, <- I2. destruct (checkManifoldWatertight stdsort fuel k m') as [[]| | |]; cbn [bind].
  all: try (destruct I3 as [I3|[I3|I3]]; discriminate).
  all: (split; [first [tauto|split; discriminate]|]); (split; [first [tauto|split; discriminate]|auto]).
Qed.

Lemma triangles_ccw : forall stdsort, sort_contract stdsort ->
  forall selfcheck fuel (m m' : mesh R) ps, mesh_ok Tri m -> length (all_edges Tri (fv m)) <= fuel ->
  validate stdsort (isCCW_of Tri) selfcheck fuel Tri m = Ret m' -> polygons m' ps ->
  forall p, In p ps -> exists a b c, p = [a; b; c] /\ (0 <= orient a b c)%R.
Proof.
  intros stdsort Hs selfcheck fuel m m' ps Hm Hf H Hps p Hp.
  destruct (validate_ok stdsort Hs R _ selfcheck fuel Tri m m' Hm eq_refl Hf H) as (E & _ & Hm' & _).
  assert (HT : isCCW_of Tri p = true).
  { apply (turned_ccw (isCCW_of Tri) Tri m m' ps Hm eq_refl); auto. clear. intros p Lp H.
    destruct p as [|a [|b [|c [|]]]]; try discriminate Lp. cbn in *.
    destruct (tri_isCCW Rarith a c b) eqn:E; auto. exfalso.
    assert (~ (0 <= tarea a b c)%R) by (rewrite <- (proj1 (tri_orient_ok a b c)); congruence).
    assert (~ (0 <= tarea a c b)%R) by (rewrite <- (proj1 (tri_orient_ok a c b)); congruence).
    unfold tarea, orient in *. lra. }
  destruct p as [|a [|b [|c [|]]]]; cbn in HT; try discriminate HT.
  apply (proj1 (tri_orient_ok a b c)) in HT. exists a, b, c. split; [reflexivity|]. unfold tarea in HT. lra.
Qed.

(** a dart: counter-clockwise, with a corner that turns right *)
Definition dart : mesh R := mkMesh false false [(0, 0); (4, 0); (4, 4); (3, 1)]%R [[0; 1; 2; 3]%Z] [] [].
Definition dart_turned : mesh R := mkMesh false false [(0, 0); (4, 0); (4, 4); (3, 1)]%R [[0; 3; 2; 1]%Z] [] [].
Lemma dart_ok : mesh_ok Quad dart.
Proof. intros c [<-|[]]. split; [reflexivity|]. cbn. intuition lia. Qed.
Lemma concave_turned : forall stdsort, sort_contract stdsort -> forall selfcheck fuel, 4 <= fuel ->
  validate stdsort (isCCW_of Quad) selfcheck fuel Quad dart = Ret dart_turned.
Proof.
  intros stdsort Hs selfcheck fuel Hf.
  assert (E : checkCCWFaces (isCCW_of Quad) Quad dart = Ret dart_turned).
  { unfold checkCCWFaces. change (length (fv dart)) with 1%nat. cbn [for_].
    replace (getFace dart _) with (Ret [(0, 0); (4, 0); (4, 4); (3, 1)]%R) by reflexivity. cbn [bind isCCW_of].
    destruct (quad_isCCW Rarith Grid_Model.eps _ _ _ _) eqn:Q.
    - exfalso. apply ccw_tolerance in Q. unfold orient in Q. cbn [fst snd] in Q. unfold Grid_Model.eps in Q. lra.
    - cbn [negb]. reflexivity. }
  destruct (validate_iff stdsort Hs R (isCCW_of Quad) selfcheck fuel Quad dart dart_ok eq_refl Hf) as (m' & E' & _ & H & _).
  rewrite E in E'. injection E' as <-. apply H.
  assert (B : boundary_of (all_edges Quad (fv dart_turned)) = [[0; 3]; [3; 2]; [2; 1]; [1; 0]]%Z) by (vm_compute; reflexivity).
  split.
  - intros e [<-|[<-|[<-|[<-|[]]]]]; cbn; lia.
  - exists [[0; 3]; [3; 2]; [2; 1]; [1; 0]]%Z. rewrite B. split; [reflexivity|]. exists 0%Z, [3; 2; 1]%Z. repeat split.
    repeat constructor; cbn; intuition lia.
Qed.
Lemma dart_area : (0 < tarea (0, 0) (4, 0) (4, 4) + tarea (0, 0) (4, 4) (3, 1))%R /\
  (tarea (0, 0) (3, 1) (4, 4) + tarea (0, 0) (4, 4) (4, 0) < 0)%R.
Proof. unfold tarea, orient. cbn [fst snd]. lra. Qed.
Lemma concave_refuted : exists (m m' : mesh R) a b c d, mesh_ok Quad m /\
  polygons m [[a; b; c; d]] /\ (0 < tarea a b c + tarea a c d)%R /\
  polygons m' [[a; d; c; b]] /\ (tarea a d c + tarea a c b < 0)%R /\
  forall stdsort, sort_contract stdsort -> forall selfcheck fuel, 4 <= fuel ->
    validate stdsort (isCCW_of Quad) selfcheck fuel Quad m = Ret m'.
Proof.
  exists dart, dart_turned, (0, 0)%R, (4, 0)%R, (4, 4)%R, (3, 1)%R.
  split; [exact dart_ok|]. split; [reflexivity|]. split; [apply dart_area|]. split; [reflexivity|]. split; [apply dart_area|exact concave_turned].
Qed.
