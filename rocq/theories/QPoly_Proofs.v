From Coq Require Import List Arith ZArith Reals Lia Lra Bool Psatz Permutation.
From Coquelicot Require Import Coquelicot.
From Verif Require Import Base Loops Arith XReal Vec_Model Box_Model Box_Spec Box_Proofs Seg_Model Seg_Spec Seg_Proofs
  Poly_Model Poly_Spec Poly_Proofs QSeg_Model QSeg_Spec QSeg_Proofs QSeg_Ray_Proofs QSeg_Len_Proofs QPoly_Model QPoly_Spec.
Import ListNotations.
Local Open Scope R_scope.

Lemma for_fold_from {S A} (f : nat -> S -> outcome S) (g : S -> A -> S) (l : list A) :
  (forall j x st, nth_error l j = Some x -> f j st = Ret (g st x)) ->
  forall suf pre st, l = pre ++ suf -> for_ (length suf) (length pre) f st = Ret (fold_left g suf st).
Proof.
  intros H. induction suf as [|x suf IH]; intros pre st E; cbn [for_ length fold_left]; auto.
  rewrite (H _ x) by (rewrite E, nth_error_app2, Nat.sub_diag; auto). cbn [bind].
  specialize (IH (pre ++ [x]) (g st x)). rewrite app_length in IH. cbn [length] in IH. rewrite Nat.add_1_r in IH. apply IH.
  now rewrite <- app_assoc.
Qed.
Lemma half_length (vs ms : list (R * R)) : length vs = length ms -> (length (vs ++ ms) / 2 = length vs)%nat.
Proof. intros E. rewrite app_length, <- E. replace (length vs + length vs)%nat with (length vs * 2)%nat by lia. apply Nat.div_mul. lia. Qed.
Lemma qedges_length vs ms : length vs = length ms -> length (qedges vs ms) = length vs.
Proof. intros E. unfold qedges. rewrite combine_length, edges_length. lia. Qed.
Lemma getEdgeQ_ok vs ms j a b c : length vs = length ms -> nth_error (qedges vs ms) j = Some (a, b, c) ->
  getEdgeQ (vs ++ ms) j = Ret (a, b, c).
Proof.
  intros L E. assert (Hj : (j < length vs)%nat).
  { rewrite <- (qedges_length vs ms L). apply nth_error_Some. congruence. }
  destruct (getEdge_ok vs j Hj) as ([a' b'] & G & Ed).
  assert (Em : exists c', nth_error ms j = Some c').
  { destruct (nth_error ms j) eqn:X; [eauto|]. apply nth_error_None in X. lia. }
  destruct Em as (c' & Ec).
  assert (Q : nth_error (qedges vs ms) j = Some (a', b', c')).
  { unfold qedges. revert Ed Ec. generalize (edges vs). clear. revert j ms. induction j as [|j IH]; intros [|m ms] [|e l]; cbn; try discriminate.
    - intros [= <-] [= <-]. reflexivity.
    - auto. }
  rewrite Q in E. injection E as <- <- <-.
  unfold getEdgeQ. rewrite half_length by auto. unfold getEdge in G.
  assert (Rv : forall i, (i < length vs)%nat -> rd (vs ++ ms) i = rd vs i).
  { intros i Hi. unfold rd. now rewrite nth_error_app1. }
  assert (Rm : forall i, rd (vs ++ ms) (i + length vs) = rd ms i).
  { intros i. unfold rd. rewrite nth_error_app2 by lia. f_equal. now replace (i + length vs - length vs)%nat with i by lia. }
  assert (Rc : rd ms j = Ret c') by (apply rd_Ret; auto).
  destruct (Nat.ltb_spec j (length vs - 1)).
  - rewrite (Rv j), (Rv (j + 1)%nat), Rm, Rc by lia. destruct (rd vs j); try discriminate. cbn [bind] in *.
    destruct (rd vs (j + 1)); try discriminate. cbn [bind] in *. injection G as -> ->. reflexivity.
  - rewrite (Rv (length vs - 1)%nat), (Rv 0%nat) by lia.
    replace (length (vs ++ ms) - 1)%nat with (j + length vs)%nat by (rewrite app_length; lia). rewrite Rm, Rc.
    destruct (rd vs (length vs - 1)); try discriminate. cbn [bind] in *.
    destruct (rd vs 0); try discriminate. cbn [bind] in *. injection G as -> ->. reflexivity.
Qed.
Lemma edge_loop {S} (g : S -> (R * R) * (R * R) * (R * R) -> S) (h : S -> R * R -> R * R -> R * R -> S) vs ms s :
  length vs = length ms -> (forall s e, g s e = h s (fst (fst e)) (snd (fst e)) (snd e)) ->
  for_ (length (vs ++ ms) / 2) 0 (fun i s => let* e := getEdgeQ (vs ++ ms) i in let '(a, b, c) := e in Ret (h s a b c)) s =
  Ret (fold_left g (qedges vs ms) s).
Proof.
  intros L E. rewrite half_length, <- (qedges_length vs ms L) by auto.
  rewrite (for_fold_from _ g (qedges vs ms)) with (pre := []) (suf := qedges vs ms); auto.
  intros j [[a b] c] st Hj. rewrite (getEdgeQ_ok _ _ _ _ _ _ L Hj). cbn [bind]. now rewrite E.
Qed.
Lemma edge_loop1 {S} (g : S -> (R * R) * (R * R) * (R * R) -> S) (h : S -> R * R -> R * R -> R * R -> S) (k : R * R -> R * R -> R * R -> S) vs ms :
  length vs = length ms -> vs <> [] -> (forall s e, g s e = h s (fst (fst e)) (snd (fst e)) (snd e)) ->
  exists e es, qedges vs ms = e :: es /\
  (let* e := getEdgeQ (vs ++ ms) 0 in let '(a, b, c) := e in
   for_ (length (vs ++ ms) / 2 - 1) 1 (fun i s => let* e := getEdgeQ (vs ++ ms) i in let '(a, b, c) := e in Ret (h s a b c)) (k a b c)) =
  Ret (fold_left g es (eget k e)).
Proof.
  intros L N E. destruct (qedges vs ms) as [|e es] eqn:Q.
  { pose proof (qedges_length vs ms L) as X. rewrite Q in X. destruct vs; [congruence|discriminate]. }
  exists e, es. split; [auto|]. destruct e as [[a b] c].
  rewrite (getEdgeQ_ok vs ms 0 a b c L) by now rewrite Q. cbn [bind].
  rewrite half_length, <- (qedges_length vs ms L), Q by auto. cbn [length]. replace (Datatypes.S (length es) - 1)%nat with (length es) by lia.
  change 1%nat with (length [(a, b, c)]). rewrite (for_fold_from _ g ((a, b, c) :: es)); auto.
  intros j [[a' b'] c'] st Hj. rewrite (getEdgeQ_ok vs ms j a' b' c' L) by now rewrite Q. cbn [bind]. now rewrite E.
Qed.
Lemma linear_ok (vs ms : list (R * R)) : length vs = length ms -> linearPolygon (vs ++ ms) = Ret vs.
Proof.
  intros L. unfold linearPolygon. rewrite half_length by auto.
  rewrite (mapo_ok _ (fun i => nth i vs (0, 0))).
  - f_equal. clear. induction vs as [|x l IH]; cbn [length seq map]; auto. f_equal. rewrite <- seq_shift, map_map. exact IH.
  - intros i Hi. apply in_seq in Hi. apply rd_Ret. rewrite nth_error_app1 by lia. apply nth_error_nth'. lia.
Qed.
Lemma lin_area_ok p : lin_area RA p = area RA p.
Proof.
  destruct p as [|a [|b [|c [|d [|e r]]]]]; cbn [lin_area]; auto.
  - symmetry. apply tri_agree.
  - symmetry. apply quad_agree.
Qed.
Lemma lin_centroid_ok p A : area RA p = Ret A -> A <> 0 -> lin_centroid RA p = centroid RA p.
Proof.
  intros HA N. destruct p as [|a [|b [|c [|d [|e r]]]]]; cbn [lin_centroid]; auto.
  - destruct (tri_agree a b c) as (E & T & C & _). symmetry. apply C. assert (X : A = tri_area RA a b c) by congruence. congruence.
  - destruct (quad_agree a b c d) as (E & C). symmetry. apply C. assert (X : A = quad_area RA a b c d) by congruence. congruence.
Qed.
Definition qsum (f : R * R -> R * R -> R * R -> R) (es : list ((R * R) * (R * R) * (R * R))) : R := rsum (map (eget f) es).
Lemma qsum_edges f vs ms : length vs = length ms -> qsum (fun a b _ => f a b) (qedges vs ms) = esum f vs.
Proof.
  intros L. unfold qsum, esum, qedges, eget. rewrite <- (map_map fst (fun e => f (fst e) (snd e))). do 2 f_equal.
  assert (E : length (edges vs) = length ms) by now rewrite edges_length. revert E. generalize (edges vs). clear. intros l; revert ms.
  induction l as [|x l IH]; intros [|m ms] E; cbn in *; try discriminate; auto. f_equal. auto.
Qed.
Lemma qsum_plus f g es : qsum (fun a b c => f a b c + g a b c) es = qsum f es + qsum g es.
Proof. apply (rsum_map_plus (eget f) (eget g)). Qed.
Lemma qsum_ext f g es : (forall a b c, In (a, b, c) es -> f a b c = g a b c) -> qsum f es = qsum g es.
Proof.
  intros H. unfold qsum. f_equal. apply map_ext_in. intros [[a b] c] Hi. unfold eget. cbn [fst snd]. auto.
Qed.
(** * area *)
Lemma q_area_val vs ms : vs <> [] -> length vs = length ms ->
  q_area RA (vs ++ ms) = Ret (esum cr vs / 2 + qsum (enclosedArea RA) (qedges vs ms)).
Proof.
  intros N L. unfold q_area. rewrite linear_ok by auto. cbn [bind]. rewrite lin_area_ok, area_sum by auto. cbn [bind].
  rewrite (edge_loop (fun s e => s + eget (enclosedArea RA) e) (fun s a b c => s + enclosedArea RA a b c)) by auto.
  rewrite fold_sum. reflexivity.
Qed.
Lemma q_area_ok vs ms : vs <> [] -> length vs = length ms -> exists A Is,
  q_area RA (vs ++ ms) = Ret A /\ integrals green (qedges vs ms) Is /\ A = rsum Is /\
  exists Al, area RA vs = Ret Al /\ A = Al + rsum (map (eget (enclosedArea RA)) (qedges vs ms)).
Proof.
  intros N L. do 2 eexists. split; [now apply q_area_val|]. split.
  - unfold integrals. instantiate (1 := map (eget (fun a b c => cr a b / 2 + enclosedArea RA a b c)) (qedges vs ms)).
    induction (qedges vs ms) as [|e es IH]; cbn [map]; constructor; auto. apply green_curve.
  - split.
    + fold (qsum (fun a b c => cr a b / 2 + enclosedArea RA a b c) (qedges vs ms)).
      rewrite (qsum_plus (fun a b c => cr a b / 2)), (qsum_edges (fun a b => cr a b / 2)) by auto.
      f_equal. rewrite (esum_ext (fun a b => cr a b / 2) (fun a b => / 2 * cr a b)), esum_scal by (intros; field). field.
    + eexists. split; [now apply area_sum|reflexivity].
Qed.
Lemma q_area_straight vs ms : vs <> [] -> length vs = length ms ->
  (forall a b c, In (a, b, c) (qedges vs ms) -> orient a b c = 0) -> q_area RA (vs ++ ms) = area RA vs.
Proof.
  intros N L H. rewrite q_area_val, area_sum by auto. f_equal.
  assert (Z : qsum (enclosedArea RA) (qedges vs ms) = 0).
  { rewrite (qsum_ext _ (fun a b c => 0)).
    - unfold qsum. induction (qedges vs ms); cbn [map]; rewrite ?rsum_cons, ?rsum_nil; auto. rewrite IHl; [unfold eget; lra|]. intros; apply H; now right.
    - intros a b c Hi. rewrite enclosed_val. specialize (H a b c Hi). unfold orient in H. lra. }
  rewrite Z. lra.
Qed.
(** * perimeter *)
Lemma q_perimeter_val len vs ms : vs <> [] -> length vs = length ms -> q_perimeter RA len (vs ++ ms) = Ret (qsum len (qedges vs ms)).
Proof.
  intros N L. unfold q_perimeter.
  destruct (edge_loop1 (fun s e => s + eget len e) (fun s a b c => s + len a b c) len vs ms L N (fun _ _ => eq_refl)) as (e & es & Q & E).
  cbn zeta. etransitivity; [exact E|]. rewrite fold_sum, Q. unfold qsum. cbn [map]. rewrite rsum_cons. reflexivity.
Qed.
Lemma q_perimeter_arc eps2 vs ms : 0 < eps2 -> vs <> [] -> length vs = length ms ->
  (forall a b c, In (a, b, c) (qedges vs ms) -> mid_half a b c \/ (orient a b c <> 0 /\ isStraight RA eps2 a b c = false)) ->
  exists P Ls, q_perimeter RA (qs_length RA ln eps2) (vs ++ ms) = Ret P /\ integrals arclength (qedges vs ms) Ls /\ P = rsum Ls.
Proof.
  intros He N L H. do 2 eexists. split; [now apply q_perimeter_val|]. split; [|reflexivity].
  unfold integrals. revert H. generalize (qedges vs ms). clear - He. induction l as [|[[a b] c] es IH]; cbn [map]; intros H; constructor.
  - unfold eget. cbn [fst snd]. destruct (H a b c (or_introl eq_refl)) as [(Hn & k & Hk & E)|(Ho & NS)].
    + destruct (straight_length_ok eps2 a b c k He Hn Hk E) as (_ & E1 & E2). now rewrite E1.
    + now apply length_ok.
  - apply IH. intros; apply H; now right.
Qed.
Lemma mid_half_orient a b c : mid_half a b c -> orient a b c = 0.
Proof. intros (_ & k & _ & ->). unfold orient, along2. cbn [fst snd]. ring. Qed.
Lemma q_straight_ok eps2 pi vs ms A P : 0 < eps2 -> vs <> [] -> length vs = length ms ->
  (forall a b c, In (a, b, c) (qedges vs ms) -> mid_half a b c) -> area RA vs = Ret A -> perimeter RA vs = Ret P ->
  q_area RA (vs ++ ms) = Ret A /\ q_perimeter RA (qs_length RA ln eps2) (vs ++ ms) = Ret P /\
  q_meanChordLength RA (qs_length RA ln eps2) pi (vs ++ ms) = meanChordLength RA pi vs.
Proof.
  intros He N L H HA HP.
  assert (EA : q_area RA (vs ++ ms) = Ret A).
  { rewrite q_area_straight; auto. intros a b c Hi. apply mid_half_orient. auto. }
  assert (EP : q_perimeter RA (qs_length RA ln eps2) (vs ++ ms) = Ret P).
  { rewrite q_perimeter_val by auto. rewrite perimeter_sum in HP by auto. injection HP as <-. f_equal.
    rewrite <- (qsum_edges dist2 vs ms L). apply qsum_ext. intros a b c Hi. destruct (H a b c Hi) as (Hn & k & Hk & E).
    now destruct (straight_length_ok eps2 a b c k He Hn Hk E) as (_ & E1 & _). }
  split; [auto|]. split; [auto|]. unfold q_meanChordLength, meanChordLength. rewrite EA, EP, HA, HP. reflexivity.
Qed.
(** * centroid *)
Lemma chord_x a b : green_x (along2 a b) (mx a b / 6 + (snd b * fst b * fst b - snd a * fst a * fst a) / 6).
Proof.
  destruct a as [x0 y0], b as [x1 y1]. unfold green_x.
  apply (RInt_poly _ (x0 * x0 * (y1 - y0) / 2) (x0 * (x1 - x0) * (y1 - y0)) ((x1 - x0) * (x1 - x0) * (y1 - y0) / 2) 0 0 0).
  - intros t. rewrite along_Derive_y. unfold along2. cbn [fst snd]. field.
  - unfold mx, cr. cbn [fst snd]. field.
Qed.
Lemma chord_y a b : green_y (along2 a b) (my a b / 6 + (fst a * snd a * snd a - fst b * snd b * snd b) / 6).
Proof.
  destruct a as [x0 y0], b as [x1 y1]. unfold green_y.
  apply (RInt_poly _ (- (y0 * y0 * (x1 - x0)) / 2) (- (y0 * (y1 - y0) * (x1 - x0))) (- ((y1 - y0) * (y1 - y0) * (x1 - x0)) / 2) 0 0 0).
  - intros t. rewrite along_Derive_x. unfold along2. cbn [fst snd]. field.
  - unfold my, cr. cbn [fst snd]. field.
Qed.
Lemma is_RInt_uniq (f : R -> R) a b u v : is_RInt f a b u -> is_RInt f a b v -> u = v.
Proof. intros H1 H2. rewrite <- (is_RInt_unique f a b u H1). exact (is_RInt_unique f a b v H2). Qed.
Lemma curve_x a b c : a <> b -> green_x (curve2 a b c)
  (enclosedArea RA a b c * fst (enclosedCentroid RA a b c) + (mx a b / 6 + (snd b * fst b * fst b - snd a * fst a * fst a) / 6)).
Proof.
  intros N. destruct (centroid_moments a b c N) as (Xc & Xl & _ & _ & H1 & H2 & _ & _ & E & _). rewrite E.
  rewrite (is_RInt_uniq _ _ _ _ _ H2 (chord_x a b)) in *. replace (Xc - _ + _) with Xc by ring. exact H1.
Qed.
Lemma curve_y a b c : a <> b -> green_y (curve2 a b c)
  (enclosedArea RA a b c * snd (enclosedCentroid RA a b c) + (my a b / 6 + (fst a * snd a * snd a - fst b * snd b * snd b) / 6)).
Proof.
  intros N. destruct (centroid_moments a b c N) as (_ & _ & Yc & Yl & _ & _ & H1 & H2 & _ & E). rewrite E.
  rewrite (is_RInt_uniq _ _ _ _ _ H2 (chord_y a b)) in *. replace (Yc - _ + _) with Yc by ring. exact H1.
Qed.
Lemma fold_cent (f : (R * R) * (R * R) * (R * R) -> R) (g : (R * R) * (R * R) * (R * R) -> R * R) es : forall s p,
  fold_left (fun s e => (fst s + f e, padd RA (snd s) (pscale RA (f e) (g e)))) es (s, p) =
  (s + rsum (map f es), (fst p + rsum (map (fun e => f e * fst (g e)) es), snd p + rsum (map (fun e => f e * snd (g e)) es))).
Proof.
  induction es as [|e es IH]; intros s [px py].
  - cbn [fold_left map]. rewrite !rsum_nil. cbn [fst snd]. rewrite !Rplus_0_r. reflexivity.
  - cbn [fold_left map]. rewrite IH, !rsum_cons. unfold padd, pscale. cbn. f_equal; [ring|]. f_equal; ring.
Qed.
Lemma q_centroid_ok vs ms Al A : length vs = length ms -> area RA vs = Ret Al -> Al <> 0 ->
  (forall a b c, In (a, b, c) (qedges vs ms) -> a <> b) -> q_area RA (vs ++ ms) = Ret A -> A <> 0 ->
  exists c Xs Ys, q_centroid RA (vs ++ ms) = Ret c /\ integrals green_x (qedges vs ms) Xs /\ integrals green_y (qedges vs ms) Ys /\
    A * fst c = rsum Xs /\ A * snd c = rsum Ys.
Proof.
  intros L HA NA H HQ NQ. assert (N : vs <> []) by (intros ->; discriminate).
  pose proof HA as HA'. rewrite area_sum in HA' by auto. injection HA' as EA.
  rewrite q_area_val in HQ by auto. injection HQ as EQ.
  exists ((esum mx vs / 6 + qsum (fun a b c => enclosedArea RA a b c * fst (enclosedCentroid RA a b c)) (qedges vs ms)) / A,
          (esum my vs / 6 + qsum (fun a b c => enclosedArea RA a b c * snd (enclosedCentroid RA a b c)) (qedges vs ms)) / A).
  exists (map (eget (fun a b c => enclosedArea RA a b c * fst (enclosedCentroid RA a b c) + (mx a b / 6 + (snd b * fst b * fst b - snd a * fst a * fst a) / 6))) (qedges vs ms)).
  exists (map (eget (fun a b c => enclosedArea RA a b c * snd (enclosedCentroid RA a b c) + (my a b / 6 + (fst a * snd a * snd a - fst b * snd b * snd b) / 6))) (qedges vs ms)).
  split; [|split; [|split; [|split]]].
  - unfold q_centroid. rewrite linear_ok by auto. cbn [bind]. rewrite lin_area_ok, HA. cbn [bind].
    rewrite (lin_centroid_ok vs Al HA NA), centroid_sum by auto. cbn [bind].
    rewrite (edge_loop (fun s e => (fst s + eget (enclosedArea RA) e, padd RA (snd s) (pscale RA (eget (enclosedArea RA) e) (eget (enclosedCentroid RA) e))))
      (fun s a b c => (fst s + enclosedArea RA a b c, padd RA (snd s) (pscale RA (enclosedArea RA a b c) (enclosedCentroid RA a b c))))) by auto.
    cbn [bind]. rewrite fold_cent. unfold pdivs, pscale. cbn [fst snd omul odiv Rarith]. fold (qsum (enclosedArea RA) (qedges vs ms)).
    replace (Al + qsum (enclosedArea RA) (qedges vs ms)) with A by lra. assert (NC : esum cr vs <> 0) by (intros Z; apply NA; rewrite <- EA, Z; lra).
    rewrite <- EA. unfold qsum, eget. f_equal. f_equal; f_equal; f_equal; field; auto.
  - unfold integrals. revert H. generalize (qedges vs ms). clear. induction l as [|[[a b] c] es IH]; cbn [map]; intros H; constructor.
    + unfold eget. cbn [fst snd]. apply curve_x. apply (H a b c). now left.
    + apply IH. intros; eapply H; right; eauto.
  - unfold integrals. revert H. generalize (qedges vs ms). clear. induction l as [|[[a b] c] es IH]; cbn [map]; intros H; constructor.
    + unfold eget. cbn [fst snd]. apply curve_y. apply (H a b c). now left.
    + apply IH. intros; eapply H; right; eauto.
  - cbn [fst]. match goal with |- _ = rsum (map (eget ?f) ?l) => fold (qsum f l) end.
    rewrite (qsum_plus (fun a b c => enclosedArea RA a b c * fst (enclosedCentroid RA a b c))).
    rewrite (qsum_edges (fun a b => mx a b / 6 + (snd b * fst b * fst b - snd a * fst a * fst a) / 6)) by auto.
    rewrite (esum_ext (fun a b => mx a b / 6 + (snd b * fst b * fst b - snd a * fst a * fst a) / 6) (fun a b => / 6 * mx a b + / 6 * (snd b * fst b * fst b - snd a * fst a * fst a))) by (intros; field).
    rewrite (esum_plus (fun a b => / 6 * mx a b)), !esum_scal, (esum_tele (fun p => snd p * fst p * fst p)). field. auto.
  - cbn [snd]. match goal with |- _ = rsum (map (eget ?f) ?l) => fold (qsum f l) end.
    rewrite (qsum_plus (fun a b c => enclosedArea RA a b c * snd (enclosedCentroid RA a b c))).
    rewrite (qsum_edges (fun a b => my a b / 6 + (fst a * snd a * snd a - fst b * snd b * snd b) / 6)) by auto.
    rewrite (esum_ext (fun a b => my a b / 6 + (fst a * snd a * snd a - fst b * snd b * snd b) / 6) (fun a b => / 6 * my a b + - / 6 * (fst b * snd b * snd b - fst a * snd a * snd a))) by (intros; field).
    rewrite (esum_plus (fun a b => / 6 * my a b)), !esum_scal, (esum_tele (fun p => fst p * snd p * snd p)). field. auto.
Qed.
(** * contains and intersect *)
Lemma q_contains_from_ok eps2 vs ms p : length vs = length ms -> forall suf pre, qedges vs ms = pre ++ suf ->
  q_contains_from eps2 (vs ++ ms) p (length suf) (length pre) = Ret (forallb (fun e => eget (qs_isLeft eps2) e p) suf).
Proof.
  intros L. induction suf as [|[[a b] c] suf IH]; intros pre E; cbn [length q_contains_from forallb]; auto.
  rewrite (getEdgeQ_ok vs ms (length pre) a b c L) by (rewrite E, nth_error_app2, Nat.sub_diag; auto). cbn [bind].
  unfold eget at 1. cbn [fst snd]. destruct (qs_isLeft eps2 a b c p); cbn [negb andb]; auto.
  specialize (IH (pre ++ [(a, b, c)])). rewrite app_length in IH. cbn [length] in IH. rewrite Nat.add_1_r in IH. apply IH.
  now rewrite <- app_assoc.
Qed.
Lemma q_contains_ok eps2 vs ms p : length vs = length ms -> exists r, q_contains eps2 (vs ++ ms) p = Ret r /\
  (r = true <-> forall a b c, In (a, b, c) (qedges vs ms) -> qs_isLeft eps2 a b c p = true).
Proof.
  intros L. eexists. split.
  - unfold q_contains. rewrite half_length, <- (qedges_length vs ms L) by auto.
    apply (q_contains_from_ok eps2 vs ms p L (qedges vs ms) []). reflexivity.
  - rewrite forallb_forall. split.
    + intros H a b c Hi. apply (H (a, b, c) Hi).
    + intros H [[a b] c] Hi. apply (H a b c Hi).
Qed.
Lemma fold_app {A B} (f : A -> list B) l : forall s, fold_left (fun s e => s ++ f e) l s = s ++ concat (map f l).
Proof.
  induction l as [|x l IH]; intros s; cbn [fold_left map concat]. { now rewrite app_nil_r. }
  now rewrite IH, app_assoc.
Qed.
Lemma q_intersect_ok vs ms ro d : length vs = length ms -> fst d * fst d + snd d * snd d = 1 ->
  (forall a b c, In (a, b, c) (qedges vs ms) ->
    ~ (parallel (fst b - fst a, snd b - snd a) d /\ parallel (fst c - fst a, snd c - snd a) d)) ->
  exists hits, q_intersect (vs ++ ms) ro d = Ret hits /\ (length hits <= 2 * length vs)%nat /\
    forall r, In r hits <-> 0 <= r /\ exists a b c s, In (a, b, c) (qedges vs ms) /\ 0 <= s <= 1 /\ ray2 ro d r = curve2 a b c s.
Proof.
  intros L Hd NP. exists (concat (map (fun e => eget qs_intersect e ro d) (qedges vs ms))). split; [|split].
  - unfold q_intersect.
    rewrite (edge_loop (fun s e => s ++ eget qs_intersect e ro d) (fun s a b c => s ++ qs_intersect a b c ro d)) by auto.
    now rewrite (fold_app (fun e => eget qs_intersect e ro d)).
  - rewrite <- (qedges_length vs ms L). clear NP. induction (qedges vs ms) as [|[[a b] c] es IH]; cbn [map concat length]; [lia|].
    rewrite app_length. destruct (qs_intersect_ok a b c ro d Hd) as (X & _). unfold eget at 1. cbn [fst snd]. lia.
  - intros r. rewrite in_concat. split.
    + intros (h & Hh & Hr). apply in_map_iff in Hh as ([[a b] c] & <- & Hi). unfold eget in Hr. cbn [fst snd] in Hr.
      destruct (qs_intersect_ok a b c ro d Hd) as (_ & X & _). destruct (X r Hr) as (H0 & s & Hs & E). split; [auto|].
      exists a, b, c, s. auto.
    + intros (H0 & a & b & c & s & Hi & Hs & E). exists (qs_intersect a b c ro d). split.
      * apply in_map_iff. exists (a, b, c). auto.
      * destruct (qs_intersect_ok a b c ro d Hd) as (_ & _ & X & _). apply (X (NP a b c Hi) r s); auto.
Qed.
(** * bounding box *)
Lemma edge_box_ok a b c : exists x0 y0 x1 y1, edge_box RA a b c = mkBox [x0; y0] [x1; y1] /\ encloses [(a, b, c)] x0 y0 x1 y1.
Proof.
  unfold edge_box. destruct (qs_box RA [fst a; snd a] [fst b; snd b] [fst c; snd c]) as [mn mx] eqn:E.
  destruct (box_ok [fst a; snd a] [fst b; snd b] [fst c; snd c] mn mx eq_refl eq_refl E) as (L1 & L2 & H).
  destruct mn as [|x0 [|y0 [|? ?]]]; cbn in L1; try discriminate. destruct mx as [|x1 [|y1 [|? ?]]]; cbn in L2; try discriminate.
  exists x0, y0, x1, y1. split; [auto|].
  destruct (H 0%nat ltac:(cbn; lia)) as (A0 & (t0 & T0 & B0) & (t1 & T1 & C0)).
  destruct (H 1%nat ltac:(cbn; lia)) as (A1 & (t2 & T2 & B1) & (t3 & T3 & C1)).
  split; [|split; [|split; [|split]]].
  - intros a' b' c' t [[= <- <- <-]|[]] Ht. split; [exact (A0 t Ht)|exact (A1 t Ht)].
  - exists a, b, c, t0. split; [now left|]. split; [auto|]. exact B0.
  - exists a, b, c, t1. split; [now left|]. split; [auto|]. exact C0.
  - exists a, b, c, t2. split; [now left|]. split; [auto|]. exact B1.
  - exists a, b, c, t3. split; [now left|]. split; [auto|]. exact C1.
Qed.
Lemma enc_min es es' (f : R * R -> R) u v :
  (exists a b c t, In (a, b, c) es /\ 0 <= t <= 1 /\ f (curve2 a b c t) = u) ->
  (exists a b c t, In (a, b, c) es' /\ 0 <= t <= 1 /\ f (curve2 a b c t) = v) ->
  (exists a b c t, In (a, b, c) (es ++ es') /\ 0 <= t <= 1 /\ f (curve2 a b c t) = Rmin u v) /\
  (exists a b c t, In (a, b, c) (es ++ es') /\ 0 <= t <= 1 /\ f (curve2 a b c t) = Rmax u v).
Proof.
  intros (a & b & c & t & Hi & Ht & <-) (a' & b' & c' & t' & Hi' & Ht' & <-).
  assert (I1 : In (a, b, c) (es ++ es')) by (apply in_or_app; auto). assert (I2 : In (a', b', c') (es ++ es')) by (apply in_or_app; auto).
  split.
  - unfold Rmin. destruct (Rle_dec _ _); [exists a, b, c, t|exists a', b', c', t']; auto.
  - unfold Rmax. destruct (Rle_dec _ _); [exists a', b', c', t'|exists a, b, c, t]; auto.
Qed.
Lemma box_add_ok es es' x0 y0 x1 y1 x0' y0' x1' y1' : encloses es x0 y0 x1 y1 -> encloses es' x0' y0' x1' y1' ->
  box_add RA (mkBox [x0; y0] [x1; y1]) (mkBox [x0'; y0'] [x1'; y1']) =
    mkBox [Rmin x0 x0'; Rmin y0 y0'] [Rmax x1 x1'; Rmax y1 y1'] /\
  encloses (es ++ es') (Rmin x0 x0') (Rmin y0 y0') (Rmax x1 x1') (Rmax y1 y1').
Proof.
  intros (A & A1 & A2 & A3 & A4) (B & B1 & B2 & B3 & B4). split.
  { unfold box_add, vmin, vmax. cbn [map2 bmin bmax]. rewrite !tmin_R, !tmax_R. reflexivity. }
  split; [|split; [|split; [|split]]].
  - intros a b c t Hi Ht. apply in_app_or in Hi as [Hi|Hi].
    + destruct (A a b c t Hi Ht) as (X & Y). pose proof (Rmin_l x0 x0'). pose proof (Rmin_l y0 y0'). pose proof (Rmax_l x1 x1'). pose proof (Rmax_l y1 y1'). lra.
    + destruct (B a b c t Hi Ht) as (X & Y). pose proof (Rmin_r x0 x0'). pose proof (Rmin_r y0 y0'). pose proof (Rmax_r x1 x1'). pose proof (Rmax_r y1 y1'). lra.
  - exact (proj1 (enc_min es es' fst _ _ A1 B1)).
  - exact (proj2 (enc_min es es' fst _ _ A2 B2)).
  - exact (proj1 (enc_min es es' snd _ _ A3 B3)).
  - exact (proj2 (enc_min es es' snd _ _ A4 B4)).
Qed.
Lemma fold_box es' : forall es x0 y0 x1 y1, encloses es x0 y0 x1 y1 -> exists x0' y0' x1' y1',
  fold_left (fun s e => box_add RA s (eget (edge_box RA) e)) es' (mkBox [x0; y0] [x1; y1]) = mkBox [x0'; y0'] [x1'; y1'] /\
  encloses (es ++ es') x0' y0' x1' y1'.
Proof.
  induction es' as [|[[a b] c] es' IH]; intros es x0 y0 x1 y1 H; cbn [fold_left].
  - exists x0, y0, x1, y1. now rewrite app_nil_r.
  - destruct (edge_box_ok a b c) as (u0 & w0 & u1 & w1 & E & F). unfold eget at 2. cbn [fst snd]. rewrite E.
    destruct (box_add_ok _ _ _ _ _ _ _ _ _ _ H F) as (-> & G).
    destruct (IH _ _ _ _ _ G) as (x0' & y0' & x1' & y1' & E' & G'). exists x0', y0', x1', y1'. split; [exact E'|].
    now rewrite <- app_assoc in G'.
Qed.
Lemma q_box_ok vs ms : vs <> [] -> length vs = length ms -> exists x0 y0 x1 y1,
  q_boundingBox RA (vs ++ ms) = Ret (mkBox [x0; y0] [x1; y1]) /\ encloses (qedges vs ms) x0 y0 x1 y1.
Proof.
  intros N L. unfold q_boundingBox.
  destruct (edge_loop1 (fun s e => box_add RA s (eget (edge_box RA) e)) (fun s a b c => box_add RA s (edge_box RA a b c)) (edge_box RA) vs ms L N (fun _ _ => eq_refl)) as (e & es & Q & E).
  cbn zeta. destruct e as [[a b] c]. destruct (edge_box_ok a b c) as (x0 & y0 & x1 & y1 & B & F).
  destruct (fold_box es _ _ _ _ _ F) as (x0' & y0' & x1' & y1' & E' & G').
  exists x0', y0', x1', y1'. split.
  - etransitivity; [exact E|]. unfold eget at 2. cbn [fst snd]. rewrite B. f_equal. exact E'.
  - rewrite Q. exact G'.
Qed.
(** * flipping *)
Lemma tri6_area_flip q : length q = 6%nat -> exists q' A, tri6_flip q = Ret q' /\ q_area RA q = Ret A /\ q_area RA q' = Ret (- A).
Proof.
  intros L. destruct q as [|v0 [|v1 [|v2 [|v3 [|v4 [|v5 [|? ?]]]]]]]; cbn in L; try discriminate.
  do 2 eexists. split; [reflexivity|].
  change [v0; v1; v2; v3; v4; v5] with ([v0; v1; v2] ++ [v3; v4; v5]).
  rewrite q_area_val by (cbn; auto; discriminate). split; [reflexivity|].
  match goal with |- q_area RA ?l = _ => change l with ([v0; v2; v1] ++ [v5; v4; v3]) end.
  rewrite q_area_val by (cbn; auto; discriminate). f_equal.
  unfold qsum, esum, qedges. cbn -[rsum enclosedArea]. rewrite !rsum_cons, !rsum_nil. unfold eget. cbn [fst snd].
  rewrite !enclosed_val. unfold cr. field.
Qed.
Lemma quad8_area_flip : exists q q' A, length q = 8%nat /\ quad8_flip q = Ret q' /\ q_area RA q = Ret A /\ q_area RA q' <> Ret (- A).
Proof.
  exists [(0, 0); (2, 0); (2, 2); (0, 2); (1, 0); (2, 1); (1, 3); (0, 1)]. do 2 eexists. split; [reflexivity|]. split; [reflexivity|].
  change [(0, 0); (2, 0); (2, 2); (0, 2); (1, 0); (2, 1); (1, 3); (0, 1)] with ([(0, 0); (2, 0); (2, 2); (0, 2)] ++ [(1, 0); (2, 1); (1, 3); (0, 1)]).
  rewrite q_area_val by (cbn; auto; discriminate). split; [reflexivity|].
  match goal with |- q_area RA ?l <> _ => change l with ([(0, 0); (0, 2); (2, 2); (2, 0)] ++ [(0, 1); (2, 1); (1, 3); (1, 0)]) end.
  rewrite q_area_val by (cbn; auto; discriminate). intros [= E]. revert E.
  unfold qsum, esum, qedges. cbn -[rsum enclosedArea]. rewrite !rsum_cons, !rsum_nil. unfold eget. cbn [fst snd].
  rewrite !enclosed_val. unfold cr. cbn [fst snd]. lra.
Qed.
(** * examples *)
Lemma q_example : let vs := [(0, 0); (4, 0); (0, 4)] in let ms := [(2, -1); (3, 3); (0, 2)] in
  q_area RA (vs ++ ms) = Ret (8 + 8 / 3 + 16 / 3).
Proof.
  cbn zeta. rewrite q_area_val by (cbn; auto; discriminate). f_equal.
  unfold qsum, esum, qedges. cbn -[rsum enclosedArea]. rewrite !rsum_cons, !rsum_nil. unfold eget. cbn [fst snd].
  rewrite !enclosed_val. unfold cr. cbn [fst snd]. lra.
Qed.
Lemma q_straight_example : forall a b c, In (a, b, c) (qedges [(0, 0); (4, 0); (4, 4); (0, 4)] [(2, 0); (4, 1); (2, 4); (0, 3)]) -> mid_half a b c.
Proof.
  intros a b c H. cbn in H.
  destruct H as [E|[E|[E|[E|[]]]]]; injection E as <- <- <-; (split; [intros [= X]; lra|]).
  - exists (1/2). split; [lra|]. unfold along2. cbn [fst snd]. f_equal; lra.
  - exists (1/4). split; [lra|]. unfold along2. cbn [fst snd]. f_equal; lra.
  - exists (1/2). split; [lra|]. unfold along2. cbn [fst snd]. f_equal; lra.
  - exists (1/4). split; [lra|]. unfold along2. cbn [fst snd]. f_equal; lra.
Qed.
Lemma straight_false a b c : psq RA (psub RA b a) <= psq RA (psub RA c a) \/
  1/100 <= cross2 RA (psub RA b a) (psub RA c a) * cross2 RA (psub RA b a) (psub RA c a) / psq RA (psub RA b a) ->
  isStraight RA (1/100) a b c = false.
Proof.
  intros H. unfold isStraight. match goal with |- (if ?x then _ else _) = _ => destruct x eqn:E end; auto.
  apply Box_Proofs.Rltb_false. destruct H as [H|H]; [|exact H]. exfalso. apply oleb_R in H. congruence.
Qed.
Lemma q_curved_example : let vs := [(0, 0); (4, 0); (0, 4)] in let ms := [(2, -1); (3, 3); (0, 2)] in
  (forall a b c, In (a, b, c) (qedges vs ms) ->
     a <> b /\ (mid_half a b c \/ (orient a b c <> 0 /\ isStraight RA (1/100) a b c = false)) /\
     ~ (parallel (fst b - fst a, snd b - snd a) (1, 0) /\ parallel (fst c - fst a, snd c - snd a) (1, 0))) /\
  area RA vs = Ret 8.
Proof.
  cbn zeta. split.
  - intros a b c H. cbn in H. destruct H as [E|[E|[E|[]]]]; injection E as <- <- <-; (split; [intros [= X]; lra|]); split.
    + right. split; [unfold orient; cbn [fst snd]; lra|]. apply straight_false. right. rewrite cross2_R. cbn. lra.
    + unfold parallel. cbn [fst snd]. lra.
    + right. split; [unfold orient; cbn [fst snd]; lra|]. apply straight_false. right. rewrite cross2_R. cbn. lra.
    + unfold parallel. cbn [fst snd]. lra.
    + left. split; [intros [= X]; lra|]. exists (1/2). split; [lra|]. unfold along2. cbn [fst snd]. f_equal; lra.
    + unfold parallel. cbn [fst snd]. lra.
  - rewrite area_sum by discriminate. f_equal. unfold esum. cbn -[rsum]. rewrite !rsum_cons, rsum_nil. unfold cr. cbn [fst snd]. lra.
Qed.
