From Coq Require Import List Arith ZArith Reals Lia Lra Bool Psatz Sorting.Permutation.
From Verif Require Import Base Loops Arith Vec_Model Box_Model Box_Proofs Seg_Model Seg_Spec Seg_Proofs Poly_Model Poly_Spec.
Import ListNotations.

Lemma loop_pairs {A S} (g : S -> A -> A -> S) : forall (p pre : list A) s,
  for_ (length p - 1) (length pre) (fun i s =>
    let* a := rd (pre ++ p) i in let* b := rd (pre ++ p) (i + 1) in Ret (g s a b)) s =
  Ret (fold_left (fun s ab => g s (fst ab) (snd ab)) (combine p (tl p)) s).
Proof.
  induction p as [|a p IH]; intros pre s; [reflexivity|]. destruct p as [|b r]; [reflexivity|].
  replace (length (a :: b :: r) - 1) with (Datatypes.S (length (b :: r) - 1)) by (cbn; lia). cbn [for_].
  assert (E1 : rd (pre ++ a :: b :: r) (length pre) = Ret a).
  { apply (proj2 (rd_Ret _ _ a)). apply nth_error_mid. }
  assert (E2 : rd (pre ++ a :: b :: r) (length pre + 1) = Ret b).
  { apply (proj2 (rd_Ret _ _ b)). rewrite nth_error_app2 by lia. replace (length pre + 1 - length pre) with 1 by lia. reflexivity. }
  rewrite E1, E2. cbn [bind].
  specialize (IH (pre ++ [a]) (g s a b)). rewrite <- app_assoc in IH. cbn [app] in IH.
  rewrite app_length in IH. cbn [length] in IH. rewrite Nat.add_1_r in IH. exact IH.
Qed.
Lemma edges_cons {A} (a : A) r : edges (a :: r) = combine (a :: r) (r ++ [a]).
Proof. reflexivity. Qed.
Lemma combine_app1 {A} (p : list A) : forall (a : A) (q : list A), length q = length p -> forall b, combine (p ++ [a]) (q ++ [b]) = combine p q ++ [(a, b)].
Proof. induction p as [|x p IH]; intros a [|y q] E b; cbn in *; try discriminate; auto. rewrite IH; auto. Qed.
(** the edges are the consecutive pairs, and the one from the last vertex to the first *)
Lemma edges_split {A} (p : list A) d : p <> [] ->
  edges p = combine p (tl p) ++ [(last p d, hd d p)].
Proof.
  intros Hp. destruct p as [|x r]; [congruence|]. clear Hp. rewrite edges_cons. cbn [tl hd].
  assert (H : forall (r : list A) x y, combine (x :: r) (r ++ [y]) = combine (x :: r) r ++ [(last (x :: r) d, y)]).
  { clear. induction r as [|b r IH]; intros x y; [reflexivity|]. specialize (IH b y). cbn [combine app last] in *. now rewrite IH. }
  apply H.
Qed.
Lemma rd_last {A} (p : list A) d : p <> [] -> rd p (length p - 1) = Ret (last p d).
Proof.
  intros Hp. apply (proj2 (rd_Ret _ _ _)). induction p as [|x r IH]; [congruence|]. destruct r as [|b r]; [reflexivity|].
  cbn [length]. replace (S (S (length r)) - 1) with (S (length (b :: r) - 1)) by (cbn; lia). cbn [nth_error].
  rewrite IH by discriminate. reflexivity.
Qed.
Lemma rd_hd {A} (p : list A) d : p <> [] -> rd p 0 = Ret (hd d p).
Proof. intros Hp. destruct p; [congruence|reflexivity]. Qed.

Local Open Scope R_scope.
Notation pt := (R * R)%type.
(** sum over edges *)
Definition esum (f : pt -> pt -> R) (p : list pt) : R := rsum (map (fun e => f (fst e) (snd e)) (edges p)).
Arguments rsum : simpl never.
Lemma rsum_nil : rsum [] = 0. Proof. reflexivity. Qed.
Lemma rsum_cons x l : rsum (x :: l) = x + rsum l. Proof. reflexivity. Qed.
Ltac rs := cbn; rewrite ?rsum_cons, ?rsum_nil.
Lemma rsum_app l m : rsum (l ++ m) = rsum l + rsum m.
Proof. induction l as [|x l IH]; rs; [lra|]. rewrite IH. lra. Qed.
Lemma rsum_perm l m : Permutation l m -> rsum l = rsum m.
Proof. induction 1; rs; lra. Qed.
Lemma rsum_map_plus {A} (f g : A -> R) l : rsum (map (fun x => f x + g x) l) = rsum (map f l) + rsum (map g l).
Proof. induction l as [|x l IH]; rs; [lra|]. rewrite IH. lra. Qed.
Lemma rsum_map_scal {A} c (f : A -> R) l : rsum (map (fun x => c * f x) l) = c * rsum (map f l).
Proof. induction l as [|x l IH]; rs; [lra|]. rewrite IH. lra. Qed.
Lemma rsum_map_ext {A} (f g : A -> R) l : (forall x, f x = g x) -> rsum (map f l) = rsum (map g l).
Proof. intros E. now rewrite (map_ext _ _ E). Qed.
Lemma fold_sum {A} (f : A -> R) l : forall s, fold_left (fun s x => s + f x) l s = s + rsum (map f l).
Proof. induction l as [|x l IH]; intros s; rs; [lra|]. rewrite IH. lra. Qed.
Lemma loop_sum f (p : list pt) : p <> [] ->
  for_ (length p - 1) 0 (fun i s => let* a := rd p i in let* b := rd p (i + 1) in Ret (s + f a b)) (f (last p (0, 0)) (hd (0, 0) p)) =
  Ret (esum f p).
Proof.
  intros Hp. rewrite (loop_pairs (fun s a b => s + f a b) p []). f_equal.
  unfold esum. rewrite (edges_split p (0, 0) Hp), map_app, rsum_app.
  rewrite (fold_sum (fun ab => f (fst ab) (snd ab))). rs. lra.
Qed.

Lemma esum_plus f g p : esum (fun a b => f a b + g a b) p = esum f p + esum g p.
Proof. apply (rsum_map_plus (fun e => f (fst e) (snd e)) (fun e => g (fst e) (snd e))). Qed.
Lemma esum_scal c f p : esum (fun a b => c * f a b) p = c * esum f p.
Proof. apply (rsum_map_scal c (fun e => f (fst e) (snd e))). Qed.
Lemma esum_ext f g p : (forall a b, f a b = g a b) -> esum f p = esum g p.
Proof. intros E. apply rsum_map_ext. auto. Qed.
Lemma combine_map {A B C D} (f : A -> C) (g : B -> D) l m : combine (map f l) (map g m) = map (fun e => (f (fst e), g (snd e))) (combine l m).
Proof. revert m; induction l as [|x l IH]; intros [|y m]; cbn; auto. now rewrite IH. Qed.
Lemma edges_map {A B} (h : A -> B) p : edges (map h p) = map (fun e => (h (fst e), h (snd e))) (edges p).
Proof. destruct p as [|x r]; [reflexivity|]. cbn [map]. rewrite !edges_cons. rewrite <- combine_map. cbn [map]. now rewrite map_app. Qed.
Lemma esum_map f h p : esum f (map h p) = esum (fun a b => f (h a) (h b)) p.
Proof. unfold esum. rewrite edges_map, map_map. reflexivity. Qed.
(** telescoping *)
Lemma esum_tele g p : esum (fun a b => g b - g a) p = 0.
Proof.
  destruct p as [|x r]; [reflexivity|]. unfold esum. rewrite edges_cons.
  assert (H : forall r x y, rsum (map (fun e => g (snd e) - g (fst e)) (combine (x :: r) (r ++ [y]))) = g y - g x).
  { clear. induction r as [|b r IH]; intros x y; rs; [lra|]. specialize (IH b y). cbn in IH. rewrite IH. lra. }
  rewrite H. lra.
Qed.
(** relabelling, reversing and cutting *)
Lemma edges_rot1 {A} (a : A) l : Permutation (edges (a :: l)) (edges (l ++ [a])).
Proof.
  destruct l as [|b r]; [reflexivity|]. rewrite edges_cons. cbn [app]. rewrite edges_cons.
  change (b :: r ++ [a]) with ((b :: r) ++ [a]).
  change (combine (a :: b :: r) ((b :: r) ++ [a])) with ((a, b) :: combine (b :: r) (r ++ [a])).
  rewrite (combine_app1 (b :: r) a (r ++ [a])) by (rewrite app_length; cbn; lia).
  apply Permutation_cons_append.
Qed.
Lemma edges_rot {A} (l m : list A) : Permutation (edges (l ++ m)) (edges (m ++ l)).
Proof.
  revert m; induction l as [|a l IH]; intros m; [now rewrite app_nil_r|].
  cbn [app]. rewrite edges_rot1. rewrite <- app_assoc. rewrite (IH (m ++ [a])). now rewrite <- app_assoc.
Qed.
Lemma combine_rev {A B} (l : list A) : forall (m : list B), length l = length m -> combine (rev l) (rev m) = rev (combine l m).
Proof.
  induction l as [|x l IH]; intros [|y m] E; cbn in *; try discriminate; auto.
  assert (L : forall (l' : list A) (m' : list B) a b, length l' = length m' -> combine (l' ++ [a]) (m' ++ [b]) = combine l' m' ++ [(a, b)]).
  { clear. induction l' as [|x l IH]; intros [|y m] a b E; cbn in *; try discriminate; auto. rewrite IH; auto. }
  rewrite L by (rewrite !rev_length; lia). rewrite IH by lia. reflexivity.
Qed.
Lemma combine_swap {A B} (l : list A) : forall (m : list B), combine m l = map (fun e => (snd e, fst e)) (combine l m).
Proof. induction l as [|x l IH]; intros [|y m]; cbn; auto. now rewrite IH. Qed.
Lemma edges_rev {A} (p : list A) : Permutation (edges (rev p)) (map (fun e => (snd e, fst e)) (edges p)).
Proof.
  destruct p as [|a r]; [reflexivity|]. cbn [rev].
  rewrite <- edges_rot1. rewrite !edges_cons.
  rewrite <- combine_swap. rewrite <- (rev_unit r a) at 1.
  replace (rev r ++ [a]) with (rev (a :: r)) by reflexivity.
  rewrite (combine_rev (r ++ [a]) (a :: r)) by (rewrite app_length; cbn; lia).
  symmetry. apply Permutation_rev.
Qed.
Lemma edges_length {A} (p : list A) : length (edges p) = length p.
Proof. destruct p as [|a r]; [reflexivity|]. rewrite edges_cons, combine_length, app_length. cbn [length]. lia. Qed.
Lemma combine_app {A B} (l1 : list A) : forall (m1 : list B) l2 m2, length l1 = length m1 -> combine (l1 ++ l2) (m1 ++ m2) = combine l1 m1 ++ combine l2 m2.
Proof. induction l1 as [|x l IH]; intros [|y m] l2 m2 E; cbn in *; try discriminate; auto. rewrite IH; auto. Qed.
Lemma edges_cut {A} (a b : A) l1 l2 :
  Permutation (edges (a :: l1 ++ [b]) ++ edges (b :: l2 ++ [a])) (edges (a :: l1 ++ b :: l2) ++ [(b, a); (a, b)]).
Proof.
  rewrite !edges_cons. rewrite <- !app_assoc. cbn [app].
  replace (a :: l1 ++ [b]) with ((a :: l1) ++ [b]) by reflexivity.
  replace (l1 ++ [b; a]) with ((l1 ++ [b]) ++ [a]) by (now rewrite <- app_assoc).
  rewrite (combine_app (a :: l1) (l1 ++ [b])) by (rewrite app_length; cbn; lia).
  replace (b :: l2 ++ [a]) with ((b :: l2) ++ [a]) by reflexivity.
  replace (l2 ++ [a; b]) with ((l2 ++ [a]) ++ [b]) by (now rewrite <- app_assoc).
  rewrite (combine_app (b :: l2) (l2 ++ [a])) by (rewrite app_length; cbn; lia).
  replace (a :: l1 ++ b :: l2) with ((a :: l1) ++ b :: l2) by reflexivity.
  replace (l1 ++ (b :: l2) ++ [a]) with ((l1 ++ [b]) ++ (l2 ++ [a])) by (now rewrite <- app_assoc).
  rewrite (combine_app (a :: l1) (l1 ++ [b])) by (rewrite app_length; cbn; lia).
  rewrite <- !app_assoc. apply Permutation_app_head. change (combine [b] [a]) with [(b, a)]. change (combine [a] [b]) with [(a, b)].
  cbn [app]. change [(b, a); (a, b)] with ([(b, a)] ++ [(a, b)]). rewrite app_assoc.
  change ((b, a) :: combine (b :: l2) (l2 ++ [a]) ++ [(a, b)]) with (((b, a) :: combine (b :: l2) (l2 ++ [a])) ++ [(a, b)]).
  apply Permutation_app_tail. apply Permutation_cons_append.
Qed.

(** * area, centroid and perimeter as sums over edges *)
Definition cr (a b : pt) : R := fst a * snd b - snd a * fst b.
Definition mx (a b : pt) : R := cr a b * (fst a + fst b).
Definition my (a b : pt) : R := cr a b * (snd a + snd b).
Lemma area_sum p : p <> [] -> area RA p = Ret (esum cr p / 2).
Proof.
  intros Hp. unfold area. rewrite (rd_last p (0, 0) Hp), (rd_hd p (0, 0) Hp). cbn [bind].
  rewrite cross2_R. fold (cr (last p (0, 0)) (hd (0, 0) p)).
  pose proof (loop_sum cr p Hp) as L.
  erewrite for_ext; [rewrite L; cbn [bind]; f_equal; cbn; field; lra|].
  intros i s. cbn beta. destruct (rd p i) eqn:E1; rewrite ?E1; cbn [bind]; auto. destruct (rd p (i + 1)) eqn:E2; rewrite ?E2; cbn [bind]; auto.
  rewrite cross2_R. reflexivity.
Qed.
Lemma dist_R a b : pdist RA a b = dist2 a b.
Proof. reflexivity. Qed.
Lemma perimeter_sum p : p <> [] -> perimeter RA p = Ret (esum dist2 p).
Proof.
  intros Hp. unfold perimeter. rewrite (rd_last p (0, 0) Hp), (rd_hd p (0, 0) Hp). cbn [bind]. exact (loop_sum dist2 p Hp).
Qed.
Lemma fold_sum3 (f g h : pt * pt -> R) l : forall s x y,
  fold_left (fun s e => (fst s + f e, (fst (snd s) + g e, snd (snd s) + h e))) l (s, (x, y)) =
  (s + rsum (map f l), (x + rsum (map g l), y + rsum (map h l))).
Proof.
  induction l as [|e l IH]; intros s x y; rs; [f_equal; [lra|f_equal; lra]|]. cbn. rewrite IH. f_equal; [lra|f_equal; lra].
Qed.
Lemma centroid_sum p : p <> [] -> centroid RA p = Ret (esum mx p / (3 * esum cr p), esum my p / (3 * esum cr p)).
Proof.
  intros Hp. unfold centroid. rewrite (rd_last p (0, 0) Hp), (rd_hd p (0, 0) Hp). cbn [bind].
  set (l := last p (0, 0)). set (h := hd (0, 0) p).
  set (G := fun (s : R * pt) (a b : pt) => (fst s + cr a b, (fst (snd s) + mx a b, snd (snd s) + my a b))).
  erewrite for_ext.
  2:{ intros i s. instantiate (1 := fun i s => let* a := rd p i in let* b := rd p (i + 1) in Ret (G s a b)). cbn beta.
      destruct (rd p i); cbn [bind]; auto. destruct (rd p (i + 1)); cbn [bind]; auto. rewrite cross2_R.
      unfold G, mx, my, cr, padd, pscale. cbn. f_equal. f_equal. f_equal; ring. }
  rewrite (loop_pairs G p []). cbn [bind].
  assert (E : forall f, esum f p = f l h + rsum (map (fun e => f (fst e) (snd e)) (combine p (tl p)))).
  { intros f. unfold esum. rewrite (edges_split p (0, 0) Hp), map_app, rsum_app. cbn [map]. rewrite rsum_cons, rsum_nil. fold l h. cbn [fst snd]. lra. }
  assert (F : fold_left (fun s ab => G s (fst ab) (snd ab)) (combine p (tl p))
     (cross2 RA l h, pscale RA (cross2 RA l h) (padd RA l h)) = (esum cr p, (esum mx p, esum my p))).
  { unfold G. rewrite !E. rewrite cross2_R. fold (cr l h).
    replace (pscale RA (cr l h) (padd RA l h)) with (mx l h, my l h) by (unfold pscale, padd, mx, my; cbn [fst snd]; f_equal; cbn [omul oadd Rarith]; ring).
    apply (fold_sum3 (fun e => cr (fst e) (snd e)) (fun e => mx (fst e) (snd e)) (fun e => my (fst e) (snd e))). }
  rewrite F. unfold pdivs. cbn [fst snd]. f_equal.
  replace (odiv RA) with Rdiv by reflexivity. replace (omul RA (o3 RA)) with (Rmult 3); [reflexivity|].
  change (Rmult 3 = Rmult (1 + 1 + 1)). f_equal. lra.
Qed.

Lemma esum_fan q p : esum cr p / 2 = esum (tarea q) p.
Proof.
  assert (E : esum (tarea q) p = esum (fun a b => / 2 * (cr a b + (- cr q b - - cr q a))) p).
  { apply esum_ext. intros a b. unfold tarea, orient, cr. field. }
  rewrite E, esum_scal, (esum_plus cr (fun a b => - cr q b - - cr q a)), (esum_tele (fun a => - cr q a)). field.
Qed.
Lemma esum_fan_x q p : esum mx p / 6 = esum (fun a b => tarea q a b * fst (tcentroid q a b)) p.
Proof.
  assert (E : esum (fun a b => tarea q a b * fst (tcentroid q a b)) p =
    esum (fun a b => / 6 * (mx a b + ((- fst q * fst b * snd b + snd q * fst b * fst b - fst q * cr q b) -
                                      (- fst q * fst a * snd a + snd q * fst a * fst a - fst q * cr q a)))) p).
  { apply esum_ext. intros a b. unfold tarea, tcentroid, orient, mx, cr. cbn [fst]. field. }
  rewrite E, esum_scal.
  rewrite (esum_plus mx (fun a b => (- fst q * fst b * snd b + snd q * fst b * fst b - fst q * cr q b) -
                                      (- fst q * fst a * snd a + snd q * fst a * fst a - fst q * cr q a))).
  rewrite (esum_tele (fun a => - fst q * fst a * snd a + snd q * fst a * fst a - fst q * cr q a)). field.
Qed.
Lemma esum_fan_y q p : esum my p / 6 = esum (fun a b => tarea q a b * snd (tcentroid q a b)) p.
Proof.
  assert (E : esum (fun a b => tarea q a b * snd (tcentroid q a b)) p =
    esum (fun a b => / 6 * (my a b + ((snd q * fst b * snd b - fst q * snd b * snd b - snd q * cr q b) -
                                      (snd q * fst a * snd a - fst q * snd a * snd a - snd q * cr q a)))) p).
  { apply esum_ext. intros a b. unfold tarea, tcentroid, orient, my, cr. cbn [snd]. field. }
  rewrite E, esum_scal.
  rewrite (esum_plus my (fun a b => (snd q * fst b * snd b - fst q * snd b * snd b - snd q * cr q b) -
                                      (snd q * fst a * snd a - fst q * snd a * snd a - snd q * cr q a))).
  rewrite (esum_tele (fun a => snd q * fst a * snd a - fst q * snd a * snd a - snd q * cr q a)). field.
Qed.

Lemma area_ok p : p <> [] -> exists A, area RA p = Ret A /\
  forall q, A = rsum (map (fun e => tarea q (fst e) (snd e)) (edges p)).
Proof. intros Hp. eexists. split; [now apply area_sum|]. intros q. apply esum_fan. Qed.
Lemma centroid_ok p A : area RA p = Ret A -> A <> 0 -> exists c, centroid RA p = Ret c /\
  forall q, A * fst c = rsum (map (fun e => tarea q (fst e) (snd e) * fst (tcentroid q (fst e) (snd e))) (edges p)) /\
            A * snd c = rsum (map (fun e => tarea q (fst e) (snd e) * snd (tcentroid q (fst e) (snd e))) (edges p)).
Proof.
  intros HA Hn. assert (Hp : p <> []) by (intros ->; discriminate).
  rewrite (area_sum p Hp) in HA. injection HA as <-.
  eexists. split; [now apply centroid_sum|]. cbn [fst snd]. intros q.
  change (rsum (map (fun e => tarea q (fst e) (snd e) * fst (tcentroid q (fst e) (snd e))) (edges p)))
    with (esum (fun a b => tarea q a b * fst (tcentroid q a b)) p).
  change (rsum (map (fun e => tarea q (fst e) (snd e) * snd (tcentroid q (fst e) (snd e))) (edges p)))
    with (esum (fun a b => tarea q a b * snd (tcentroid q a b)) p).
  rewrite <- esum_fan_x, <- esum_fan_y. split; field; lra.
Qed.

(** * motions *)
Lemma tarea_apply m q a b : tarea (apply m q) (apply m a) (apply m b) = det m * tarea q a b.
Proof. unfold tarea, orient, apply, det. cbn [fst snd]. field. Qed.
Lemma tcentroid_apply m q a b : tcentroid (apply m q) (apply m a) (apply m b) = apply m (tcentroid q a b).
Proof. unfold tcentroid, apply. cbn [fst snd]. f_equal; field. Qed.
Lemma map_nonnil {A B} (f : A -> B) l : l <> [] -> map f l <> [].
Proof. destruct l; cbn; congruence. Qed.
Lemma area_apply m p A : area RA p = Ret A -> area RA (map (apply m) p) = Ret (det m * A).
Proof.
  intros HA. assert (Hp : p <> []) by (intros ->; discriminate). rewrite (area_sum p Hp) in HA. injection HA as <-.
  rewrite area_sum by now apply map_nonnil. f_equal.
  rewrite (esum_fan (apply m (0, 0)) (map (apply m) p)), esum_map, (esum_fan (0, 0) p), <- esum_scal.
  apply esum_ext. intros a b. apply tarea_apply.
Qed.
Lemma centroid_apply m p A c : area RA p = Ret A -> A <> 0 -> det m <> 0 -> centroid RA p = Ret c ->
  centroid RA (map (apply m) p) = Ret (apply m c).
Proof.
  intros HA Hn Hd Hc. pose proof (area_apply m p A HA) as HA'.
  destruct (centroid_ok p A HA Hn) as (c0 & E0 & F0). rewrite Hc in E0. injection E0 as <-.
  assert (Hn' : det m * A <> 0) by (now apply Rmult_integral_contrapositive).
  destruct (centroid_ok _ _ HA' Hn') as (c1 & E1 & F1). rewrite E1. f_equal.
  destruct (F1 (apply m (0, 0))) as [G1 G2]. destruct (F0 (0, 0)) as [G3 G4].
  destruct (area_ok p) as (A0 & EA & FA); [intros ->; discriminate|]. rewrite HA in EA. injection EA as <-. specialize (FA (0, 0)).
  change (rsum (map (fun e => ?f (fst e) (snd e)) (edges ?p))) with (esum f p) in FA.
  change (A = esum (tarea (0, 0)) p) in FA.
  change (A * fst c = esum (fun a b => tarea (0, 0) a b * fst (tcentroid (0, 0) a b)) p) in G3.
  change (A * snd c = esum (fun a b => tarea (0, 0) a b * snd (tcentroid (0, 0) a b)) p) in G4.
  change (det m * A * fst c1 = esum (fun a b => tarea (apply m (0, 0)) a b * fst (tcentroid (apply m (0, 0)) a b)) (map (apply m) p)) in G1.
  change (det m * A * snd c1 = esum (fun a b => tarea (apply m (0, 0)) a b * snd (tcentroid (apply m (0, 0)) a b)) (map (apply m) p)) in G2.
  rewrite esum_map in G1, G2.
  assert (X : det m * A * fst c1 = det m * A * fst (apply m c)).
  { rewrite G1.
    transitivity (esum (fun a b => det m * (ma m * (tarea (0, 0) a b * fst (tcentroid (0, 0) a b)) +
       (mb m * (tarea (0, 0) a b * snd (tcentroid (0, 0) a b)) + tx m * tarea (0, 0) a b))) p).
    { apply esum_ext. intros a b. rewrite tarea_apply, tcentroid_apply. unfold apply at 1. cbn [fst]. ring. }
    rewrite esum_scal, (esum_plus (fun a b => ma m * (tarea (0, 0) a b * fst (tcentroid (0, 0) a b)))
      (fun a b => mb m * (tarea (0, 0) a b * snd (tcentroid (0, 0) a b)) + tx m * tarea (0, 0) a b)).
    rewrite (esum_plus (fun a b => mb m * (tarea (0, 0) a b * snd (tcentroid (0, 0) a b))) (fun a b => tx m * tarea (0, 0) a b)).
    rewrite (esum_scal (ma m)), (esum_scal (mb m)), (esum_scal (tx m)). rewrite <- G3, <- G4, <- FA. unfold apply. cbn [fst]. ring. }
  assert (Y : det m * A * snd c1 = det m * A * snd (apply m c)).
  { rewrite G2.
    transitivity (esum (fun a b => det m * (mc m * (tarea (0, 0) a b * fst (tcentroid (0, 0) a b)) +
       (md m * (tarea (0, 0) a b * snd (tcentroid (0, 0) a b)) + ty m * tarea (0, 0) a b))) p).
    { apply esum_ext. intros a b. rewrite tarea_apply, tcentroid_apply. unfold apply at 1. cbn [snd]. ring. }
    rewrite esum_scal, (esum_plus (fun a b => mc m * (tarea (0, 0) a b * fst (tcentroid (0, 0) a b)))
      (fun a b => md m * (tarea (0, 0) a b * snd (tcentroid (0, 0) a b)) + ty m * tarea (0, 0) a b)).
    rewrite (esum_plus (fun a b => md m * (tarea (0, 0) a b * snd (tcentroid (0, 0) a b))) (fun a b => ty m * tarea (0, 0) a b)).
    rewrite (esum_scal (mc m)), (esum_scal (md m)), (esum_scal (ty m)). rewrite <- G3, <- G4, <- FA. unfold apply. cbn [snd]. ring. }
  apply Rmult_eq_reg_l in X; [|auto]. apply Rmult_eq_reg_l in Y; [|auto]. destruct c1, (apply m c). cbn in *. congruence.
Qed.
Lemma perimeter_apply m p L : isometry m -> perimeter RA p = Ret L -> perimeter RA (map (apply m) p) = Ret L.
Proof.
  intros (I1 & I2 & I3) HL. assert (Hp : p <> []) by (intros ->; discriminate). rewrite (perimeter_sum p Hp) in HL. injection HL as <-.
  rewrite perimeter_sum by now apply map_nonnil. f_equal. rewrite esum_map. apply esum_ext. intros [ax ay] [bx by_].
  unfold dist2, apply. cbn [fst snd]. f_equal.
  set (x := ax - bx). set (y := ay - by_).
  replace (ma m * ax + mb m * ay + tx m - (ma m * bx + mb m * by_ + tx m)) with (ma m * x + mb m * y) by (unfold x, y; ring).
  replace (mc m * ax + md m * ay + ty m - (mc m * bx + md m * by_ + ty m)) with (mc m * x + md m * y) by (unfold x, y; ring).
  transitivity ((ma m * ma m + mc m * mc m) * (x * x) + (mb m * mb m + md m * md m) * (y * y) + 2 * (ma m * mb m + mc m * md m) * (x * y)); [ring|].
  rewrite I1, I2, I3. ring.
Qed.

(** * relabelling, reversing and cutting *)
Lemma esum_perm f p q : Permutation (edges p) (edges q) -> esum f p = esum f q.
Proof. intros H. unfold esum. apply rsum_perm. now apply Permutation_map. Qed.
Lemma esum_rev f p : esum f (rev p) = esum (fun a b => f b a) p.
Proof.
  unfold esum. rewrite (rsum_perm _ _ (Permutation_map (fun e => f (fst e) (snd e)) (edges_rev p))), map_map. reflexivity.
Qed.
Lemma rot_ok l m : l ++ m <> [] ->
  area RA (l ++ m) = area RA (m ++ l) /\ centroid RA (l ++ m) = centroid RA (m ++ l) /\
  perimeter RA (l ++ m) = perimeter RA (m ++ l).
Proof.
  intros H. assert (H' : m ++ l <> []) by (destruct l, m; cbn in *; congruence).
  rewrite !area_sum, !centroid_sum, !perimeter_sum by auto.
  rewrite !(esum_perm _ _ _ (edges_rot l m)). auto.
Qed.
Lemma rev_ok p A : area RA p = Ret A ->
  area RA (rev p) = Ret (- A) /\ perimeter RA (rev p) = perimeter RA p /\ (A <> 0 -> centroid RA (rev p) = centroid RA p).
Proof.
  intros HA. assert (Hp : p <> []) by (intros ->; discriminate).
  assert (Hr : rev p <> []). { intros E. apply Hp. rewrite <- (rev_involutive p), E. reflexivity. }
  rewrite (area_sum p Hp) in HA. injection HA as <-.
  rewrite !area_sum, !centroid_sum, !perimeter_sum by auto. rewrite !esum_rev.
  assert (E1 : esum (fun a b => cr b a) p = - esum cr p).
  { transitivity (esum (fun a b => -1 * cr a b) p); [apply esum_ext; intros; unfold cr; ring|]. rewrite esum_scal. ring. }
  assert (E2 : esum (fun a b => mx b a) p = - esum mx p).
  { transitivity (esum (fun a b => -1 * mx a b) p); [apply esum_ext; intros; unfold mx, cr; ring|]. rewrite esum_scal. ring. }
  assert (E3 : esum (fun a b => my b a) p = - esum my p).
  { transitivity (esum (fun a b => -1 * my a b) p); [apply esum_ext; intros; unfold my, cr; ring|]. rewrite esum_scal. ring. }
  assert (E4 : esum (fun a b => dist2 b a) p = esum dist2 p).
  { apply esum_ext. intros a b. unfold dist2. f_equal. ring. }
  rewrite E1, E2, E3, E4. split; [f_equal; field|]. split; [auto|]. intros Hn. f_equal. f_equal; field; lra.
Qed.
Lemma cut_ok a b l1 l2 A A1 A2 :
  area RA (a :: l1 ++ b :: l2) = Ret A -> area RA (a :: l1 ++ [b]) = Ret A1 -> area RA (b :: l2 ++ [a]) = Ret A2 ->
  A = A1 + A2 /\
  (A <> 0 -> A1 <> 0 -> A2 <> 0 -> exists c c1 c2,
    centroid RA (a :: l1 ++ b :: l2) = Ret c /\ centroid RA (a :: l1 ++ [b]) = Ret c1 /\ centroid RA (b :: l2 ++ [a]) = Ret c2 /\
    A * fst c = A1 * fst c1 + A2 * fst c2 /\ A * snd c = A1 * snd c1 + A2 * snd c2).
Proof.
  assert (E : forall f, (forall x y, f x y = - f y x) -> esum f (a :: l1 ++ b :: l2) = esum f (a :: l1 ++ [b]) + esum f (b :: l2 ++ [a])).
  { intros f Hf. pose proof (Permutation_map (fun e => f (fst e) (snd e)) (edges_cut a b l1 l2)) as P.
    apply rsum_perm in P. rewrite !map_app, !rsum_app in P. unfold esum. rewrite P. rs. rewrite (Hf b a). ring. }
  rewrite !area_sum by discriminate. intros H H1 H2. injection H as <-. injection H1 as <-. injection H2 as <-.
  assert (C : forall x y, cr x y = - cr y x) by (intros; unfold cr; ring).
  assert (X : forall x y, mx x y = - mx y x) by (intros; unfold mx, cr; ring).
  assert (Y : forall x y, my x y = - my y x) by (intros; unfold my, cr; ring).
  split; [rewrite (E cr C); field|].
  intros N N1 N2. rewrite !centroid_sum by discriminate. do 3 eexists. do 3 (split; [reflexivity|]). cbn [fst snd].
  assert (K : forall u v, v / 2 <> 0 -> v / 2 * (u / (3 * v)) = u / 6) by (intros u v Hv; field; lra).
  rewrite !K by auto. rewrite (E mx X), (E my Y). split; field.
Qed.

(** * triangles and quadrilaterals *)
Lemma tri_agree a b c : area RA [a; b; c] = Ret (tri_area RA a b c) /\ tri_area RA a b c = tarea a b c /\
  (tarea a b c <> 0 -> centroid RA [a; b; c] = Ret (tri_centroid RA a b c)) /\ tri_centroid RA a b c = tcentroid a b c.
Proof.
  destruct a as [ax ay], b as [bx by_], c as [cx cy].
  assert (T1 : tri_area RA (ax, ay) (bx, by_) (cx, cy) = tarea (ax, ay) (bx, by_) (cx, cy)).
  { unfold tri_area, tarea, orient. rewrite cross2_R. unfold psub, o2. cbn. field. }
  assert (T2 : tri_centroid RA (ax, ay) (bx, by_) (cx, cy) = tcentroid (ax, ay) (bx, by_) (cx, cy)).
  { unfold tri_centroid, tcentroid, pdivs, padd, o3, o2. cbn. f_equal; field. }
  split; [rewrite T1, area_sum by discriminate; unfold esum, cr, tarea, orient; cbn -[rsum]; rewrite !rsum_cons, rsum_nil; f_equal; field|].
  split; [auto|]. split; [|auto]. intros Hn. rewrite T2, centroid_sum by discriminate.
  unfold tarea, orient in Hn. unfold esum, mx, my, cr, tcentroid. cbn -[rsum]. rewrite !rsum_cons, !rsum_nil. cbn [fst snd] in *.
  f_equal. f_equal; field; lra.
Qed.
Lemma quad_agree a b c d : area RA [a; b; c; d] = Ret (quad_area RA a b c d) /\
  (quad_area RA a b c d <> 0 -> centroid RA [a; b; c; d] = Ret (quad_centroid RA a b c d)).
Proof.
  destruct a as [ax ay], b as [bx by_], c as [cx cy], d as [dx dy]. unfold quad_area. rewrite cross2_R.
  split.
  - rewrite area_sum by discriminate; unfold esum, cr, psub, o2; cbn -[rsum]; rewrite !rsum_cons, rsum_nil; f_equal; field.
  - rewrite centroid_sum by discriminate. intros Hn. cbn in Hn. unfold quad_centroid. rewrite !cross2_R.
    unfold esum, mx, my, cr, pdivs, padd, pscale, psub, o3, o2 in *. cbn -[rsum]. rewrite !rsum_cons, !rsum_nil. cbn in *.
    f_equal. f_equal; field; intros E; apply Hn; unfold Rdiv; apply Rmult_eq_0_compat_r; lra.
Qed.

(** * containment *)
Lemma orient_affine a b p q r t u v w :
  t + u + v = 1 -> fst w = t * fst p + u * fst q + v * fst r -> snd w = t * snd p + u * snd q + v * snd r ->
  orient a b w = t * orient a b p + u * orient a b q + v * orient a b r.
Proof. intros E X Y. unfold orient. rewrite X, Y. replace t with (1 - u - v) by lra. ring. Qed.
Lemma tri_contains_R a b c p : tri_contains RA a b c p = true <-> 0 <= orient a b p /\ 0 <= orient b c p /\ 0 <= orient c a p.
Proof. unfold tri_contains. rewrite !andb_true_iff, !areCCW_R. tauto. Qed.
Lemma quad_contains_R a b c d p : quad_contains RA a b c d p = true <->
  0 <= orient a b p /\ 0 <= orient b c p /\ 0 <= orient c d p /\ 0 <= orient d a p.
Proof. unfold quad_contains. rewrite !andb_true_iff, !areCCW_R. tauto. Qed.
Lemma hull3 a b c p : hull [a; b; c] p <-> exists u v w, 0 <= u /\ 0 <= v /\ 0 <= w /\ u + v + w = 1 /\
  fst p = u * fst a + v * fst b + w * fst c /\ snd p = u * snd a + v * snd b + w * snd c.
Proof.
  split.
  - intros (ws & L & N & S & X & Y). destruct ws as [|u [|v [|w [|? ?]]]]; cbn in L; try discriminate.
    inversion N as [|? ? N1 N']; subst. inversion N' as [|? ? N2 N'']; subst. inversion N'' as [|? ? N3 _]; subst.
    exists u, v, w. cbn [combine map fst snd] in X, Y. rewrite !rsum_cons, rsum_nil in *. repeat (split; [auto; lra|]). lra.
  - intros (u & v & w & N1 & N2 & N3 & S & X & Y). exists [u; v; w]. split; [auto|].
    split; [apply Forall_cons; auto; apply Forall_cons; auto; apply Forall_cons; auto|].
    cbn [combine map fst snd]. rewrite !rsum_cons, rsum_nil. repeat (split; [lra|]). lra.
Qed.
Lemma hull4 a b c d p : hull [a; b; c; d] p <-> exists u v w x, 0 <= u /\ 0 <= v /\ 0 <= w /\ 0 <= x /\ u + v + w + x = 1 /\
  fst p = u * fst a + v * fst b + w * fst c + x * fst d /\ snd p = u * snd a + v * snd b + w * snd c + x * snd d.
Proof.
  split.
  - intros (ws & L & N & S & X & Y). destruct ws as [|u [|v [|w [|x [|? ?]]]]]; cbn in L; try discriminate.
    inversion N as [|? ? N1 N']; subst. inversion N' as [|? ? N2 N'']; subst. inversion N'' as [|? ? N3 N4']; subst.
    inversion N4' as [|? ? N4 _]; subst.
    exists u, v, w, x. cbn [combine map fst snd] in X, Y. rewrite !rsum_cons, rsum_nil in *. repeat (split; [auto; lra|]). lra.
  - intros (u & v & w & x & N1 & N2 & N3 & N4 & S & X & Y). exists [u; v; w; x]. split; [auto|].
    split; [apply Forall_cons; auto; apply Forall_cons; auto; apply Forall_cons; auto; apply Forall_cons; auto|].
    cbn [combine map fst snd]. rewrite !rsum_cons, rsum_nil. repeat (split; [lra|]). lra.
Qed.
Lemma in_tri a b c p : 0 < orient a b c -> 0 <= orient a b p -> 0 <= orient b c p -> 0 <= orient c a p -> hull [a; b; c] p.
Proof.
  intros D A B C. apply hull3. exists (orient b c p / orient a b c), (orient c a p / orient a b c), (orient a b p / orient a b c).
  split; [apply Rmult_le_pos; auto; left; apply Rinv_0_lt_compat; auto|].
  split; [apply Rmult_le_pos; auto; left; apply Rinv_0_lt_compat; auto|].
  split; [apply Rmult_le_pos; auto; left; apply Rinv_0_lt_compat; auto|].
  unfold orient in *. split; [field; lra|]. split; field; lra.
Qed.
Lemma tri_contains_ok a b c p : 0 < orient a b c -> (tri_contains RA a b c p = true <-> hull [a; b; c] p).
Proof.
  intros D. rewrite tri_contains_R. split; [intros (A & B & C); now apply in_tri|].
  rewrite hull3. intros (u & v & w & U & V & W & S & X & Y).
  assert (Z : forall x y, orient x y p = u * orient x y a + v * orient x y b + w * orient x y c) by (intros; now apply orient_affine).
  rewrite !Z.
  assert (E1 : orient a b a = 0) by (unfold orient; ring). assert (E2 : orient a b b = 0) by (unfold orient; ring).
  assert (E3 : orient b c b = 0) by (unfold orient; ring). assert (E4 : orient b c c = 0) by (unfold orient; ring).
  assert (E5 : orient c a c = 0) by (unfold orient; ring). assert (E6 : orient c a a = 0) by (unfold orient; ring).
  assert (E7 : orient b c a = orient a b c) by (unfold orient; ring). assert (E8 : orient c a b = orient a b c) by (unfold orient; ring).
  rewrite E1, E2, E3, E4, E5, E6, E7, E8. repeat split; nra.
Qed.
Lemma quad_contains_ok a b c d p : quad_isConvex RA a b c d = true -> 0 < quad_area RA a b c d ->
  (quad_contains RA a b c d p = true <-> hull [a; b; c; d] p).
Proof.
  intros Hc Ha. unfold quad_isConvex in Hc. rewrite !andb_true_iff, !areCCW_R in Hc. destruct Hc as (((C1 & C2) & C3) & C4).
  rewrite quad_contains_R.
  assert (Ha' : 0 < orient a b c + orient a c d).
  { unfold quad_area in Ha. rewrite cross2_R in Ha. unfold psub, o2 in Ha. cbn in Ha. unfold orient. lra. }
  rewrite hull4. split.
  - intros (A & B & C & D).
    assert (E : orient a b c = orient a b p + orient b c p - orient a c p) by (unfold orient; ring).
    assert (G : orient a c d = orient a c p + orient c d p + orient d a p) by (unfold orient; ring).
    assert (K : (0 < orient a b c /\ orient a c p <= 0) \/ (0 < orient a c d /\ 0 <= orient a c p)).
    { destruct (Rle_or_lt (orient a c p) 0) as [S|S]; [|right; lra].
      destruct (Rle_or_lt (orient a b c) 0); [right; lra|left; lra]. }
    destruct K as [[P S]|[P S]].
    + assert (H : hull [a; b; c] p).
      { apply in_tri; auto. replace (orient c a p) with (- orient a c p) by (unfold orient; ring). lra. }
      apply hull3 in H. destruct H as (u & v & w & U & V & W & T & X & Y). exists u, v, w, 0. repeat (split; [auto; lra|]). lra.
    + assert (H : hull [a; c; d] p) by (apply in_tri; auto).
      apply hull3 in H. destruct H as (u & v & w & U & V & W & T & X & Y). exists u, 0, v, w. repeat (split; [auto; lra|]). lra.
  - intros (u & v & w & x & U & V & W & Q & T & X & Y).
    assert (Z : forall s t, orient s t p = u * orient s t a + v * orient s t b + w * orient s t c + x * orient s t d).
    { intros s t. unfold orient. rewrite X, Y. replace u with (1 - v - w - x) by lra. ring. }
    rewrite !Z.
    assert (E1 : forall s t, orient s t s = 0) by (intros; unfold orient; ring).
    assert (E2 : forall s t, orient s t t = 0) by (intros; unfold orient; ring).
    assert (E3 : forall s t r, orient t r s = orient s t r) by (intros; unfold orient; ring).
    rewrite !E1, !E2. rewrite (E3 a b c), (E3 b c d), (E3 c d a), (E3 d a b). repeat split; nra.
Qed.

(** * orientation and flips *)
Lemma tri_orient_ok a b c : (tri_isCCW RA a b c = true <-> 0 <= tarea a b c) /\
  tri_flip (tri_flip (a, b, c)) = (a, b, c) /\
  (forall a' b' c', tri_flip (a, b, c) = (a', b', c') -> Permutation [a; b; c] [a'; b'; c'] /\
     tri_area RA a' b' c' = - tri_area RA a b c /\ (tarea a b c <> 0 -> tri_isCCW RA a' b' c' = negb (tri_isCCW RA a b c))).
Proof.
  assert (I : forall a b c, tri_isCCW RA a b c = true <-> 0 <= tarea a b c).
  { intros. unfold tri_isCCW, tarea. rewrite areCCW_R. lra. }
  split; [apply I|]. split; [reflexivity|]. intros a' b' c' E. cbn in E. injection E as <- <- <-.
  split; [constructor; constructor|].
  assert (N : tarea a c b = - tarea a b c) by (unfold tarea, orient; field).
  split; [rewrite !(proj1 (proj2 (tri_agree _ _ _))); exact N|]. intros H.
  pose proof (I a b c) as I1. pose proof (I a c b) as I2. rewrite N in I2.
  destruct (tri_isCCW RA a b c), (tri_isCCW RA a c b); auto; cbn; exfalso.
  - destruct I1 as [I1 _], I2 as [I2 _]. specialize (I1 eq_refl). specialize (I2 eq_refl). lra.
  - destruct I1 as [_ I1], I2 as [_ I2]. destruct (Rle_or_lt 0 (tarea a b c)) as [G|G]; [specialize (I1 G)|specialize (I2 ltac:(lra))]; discriminate.
Qed.
Lemma quad_orient_ok eps a b c d : 0 <= eps ->
  (quad_isConvex RA a b c d = true -> quad_isCCW RA eps a b c d = true) /\
  (quad_isCCW RA eps a b c d = true -> - eps <= quad_area RA a b c d) /\
  quad_flip (quad_flip (a, b, c, d)) = (a, b, c, d) /\
  (forall a' b' c' d', quad_flip (a, b, c, d) = (a', b', c', d') -> Permutation [a; b; c; d] [a'; b'; c'; d'] /\
     quad_area RA a' b' c' d' = - quad_area RA a b c d /\
     (quad_isConvex RA a b c d = true -> eps < quad_area RA a b c d -> quad_isCCW RA eps a' b' c' d' = false)).
Proof.
  intros He.
  assert (I : forall a b c d, quad_isCCW RA eps a b c d = true <-> - eps <= orient a b c /\ - eps <= orient a c d).
  { intros. unfold quad_isCCW, areApproxCCW. rewrite andb_true_iff, !oleb_R, !cross2_R. unfold orient, psub. cbn. tauto. }
  assert (Ar : forall a b c d, quad_area RA a b c d = (orient a b c + orient a c d) / 2).
  { intros. unfold quad_area. rewrite cross2_R. unfold orient, psub, o2. cbn. field. }
  split.
  { intros H. apply I. unfold quad_isConvex in H. rewrite !andb_true_iff, !areCCW_R in H. destruct H as (((C1 & C2) & C3) & C4).
    replace (orient a c d) with (orient c d a) by (unfold orient; ring). lra. }
  split; [rewrite I, Ar; lra|]. split; [reflexivity|]. intros a' b' c' d' E. cbn in E. injection E as <- <- <- <-.
  split. { constructor. apply Permutation_trans with [c; d; b]; [|apply Permutation_trans with [d; c; b]; [constructor|]; auto].
    apply Permutation_trans with [c; b; d]; constructor. constructor. }
  split; [rewrite !Ar; unfold orient; field|].
  intros _ G. rewrite Ar in G. destruct (quad_isCCW RA eps a d c b) eqn:E; auto. apply I in E.
  assert (X : orient a d c = - orient a c d) by (unfold orient; ring). assert (Y : orient a c b = - orient a b c) by (unfold orient; ring). lra.
Qed.
Lemma tri6_flip_ok {A} (v : list A) : length v = 6%nat -> exists v', tri6_flip v = Ret v' /\ Permutation v v' /\ tri6_flip v' = Ret v /\
  forall a b m, (exists i, (i < 3)%nat /\ getEdgeQ v i = Ret (a, b, m)) <-> (exists j, (j < 3)%nat /\ getEdgeQ v' j = Ret (b, a, m)).
Proof.
  intros L. destruct v as [|v0 [|v1 [|v2 [|v3 [|v4 [|v5 [|? ?]]]]]]]; cbn in L; try discriminate.
  eexists. split; [reflexivity|]. split.
  { constructor. apply Permutation_trans with [v2; v1; v3; v4; v5]; [constructor|]. do 2 constructor.
    apply Permutation_trans with [v3; v5; v4]; [constructor; constructor|]. apply Permutation_trans with [v5; v3; v4]; constructor. constructor. }
  split; [reflexivity|].
  intros a b m. split; intros (i & Hi & E).
  - destruct i as [|[|[|i]]]; [| | |lia]; cbn in E; injection E as <- <- <-; [exists 2%nat|exists 1%nat|exists 0%nat]; split; auto with arith; reflexivity.
  - destruct i as [|[|[|i]]]; [| | |lia]; cbn in E; injection E as <- <- <-; [exists 2%nat|exists 1%nat|exists 0%nat]; split; auto with arith; reflexivity.
Qed.
Lemma quad8_refuted : exists v v' : list nat, length v = 8%nat /\ quad8_flip v = Ret v' /\
  exists a b m, getEdgeQ v 2 = Ret (a, b, m) /\ ~ (exists j, (j < 4)%nat /\ getEdgeQ v' j = Ret (b, a, m)) /\
    (exists j m', (j < 4)%nat /\ m' <> m /\ getEdgeQ v' j = Ret (b, a, m')).
Proof.
  exists (seq 0 8), [0; 3; 2; 1; 7; 5; 6; 4]%nat. split; [reflexivity|]. split; [reflexivity|].
  exists 2%nat, 3%nat, 6%nat. split; [reflexivity|]. split.
  - intros (j & Hj & E). destruct j as [|[|[|[|j]]]]; try lia; cbn in E; discriminate.
  - exists 1%nat, 5%nat. split; [lia|]. split; [lia|reflexivity].
Qed.
Lemma centroid_hull a b c : hull [a; b; c] (tri_centroid RA a b c).
Proof.
  rewrite (proj2 (proj2 (proj2 (tri_agree a b c)))). apply hull3. exists (1/3), (1/3), (1/3).
  do 4 (split; [lra|]). unfold tcentroid. cbn. lra.
Qed.
Lemma degenerate_refuted : exists a b c p, tri_isCCW RA a b c = true /\ tri_contains RA a b c p = true /\ ~ hull [a; b; c] p.
Proof.
  exists (0, 0), (1, 0), (2, 0), (5, 0). split; [apply areCCW_R; unfold orient; cbn; lra|].
  split; [apply tri_contains_R; unfold orient; cbn; lra|]. rewrite hull3. intros (u & v & w & U & V & W & S & X & Y). cbn in X. lra.
Qed.
Lemma rectangle_ok x y w h : area RA [(x, y); (x + w, y); (x + w, y + h); (x, y + h)] = Ret (w * h) /\
  perimeter RA [(x, y); (x + w, y); (x + w, y + h); (x, y + h)] = Ret (2 * (Rabs w + Rabs h)).
Proof.
  rewrite area_sum, perimeter_sum by discriminate. unfold esum. cbn -[rsum dist2]. rewrite !rsum_cons, !rsum_nil. unfold cr. cbn [fst snd].
  split; [f_equal; field|]. f_equal.
  assert (D : forall a b c d k, Rabs k = Rabs (a - c) -> b = d \/ False -> dist2 (a, b) (c, d) = Rabs k).
  { intros a b c d k E [->|[]]. unfold dist2. cbn [fst snd]. rewrite Rminus_diag_eq with (r1 := d) by auto.
    rewrite Rmult_0_l, Rplus_0_r, E. apply sqrt_Rsqr_abs. }
  assert (D' : forall a b c d k, Rabs k = Rabs (b - d) -> a = c -> dist2 (a, b) (c, d) = Rabs k).
  { intros a b c d k E ->. unfold dist2. cbn [fst snd]. rewrite (Rminus_diag_eq c c) by auto.
    rewrite Rmult_0_l, Rplus_0_l, E. apply sqrt_Rsqr_abs. }
  rewrite (D _ _ _ _ w), (D' _ _ _ _ h), (D _ _ _ _ w), (D' _ _ _ _ h); try reflexivity; auto; try (left; reflexivity).
  - lra.
  - f_equal. ring.
  - f_equal. ring.
  - rewrite <- Rabs_Ropp. f_equal. ring.
  - rewrite <- Rabs_Ropp. f_equal. ring.
Qed.
Lemma perimeter_ok p : p <> [] -> perimeter RA p = Ret (rsum (map (fun e => dist2 (fst e) (snd e)) (edges p))).
Proof. exact (perimeter_sum p). Qed.
Lemma mcl_ok pi p A L : area RA p = Ret A -> perimeter RA p = Ret L -> meanChordLength RA pi p = Ret (pi * A / L).
Proof. intros HA HL. unfold meanChordLength. rewrite HA, HL. reflexivity. Qed.
Lemma getEdge_ok {A} (p : list (A * A)) i : (i < length p)%nat -> exists e, getEdge p i = Ret e /\ nth_error (edges p) i = Some e.
Proof.
  intros Hi. assert (Hp : p <> []) by (intros ->; cbn in Hi; lia).
  destruct p as [|x r]; [congruence|]. pose proof (edges_split (x :: r) x Hp) as E. rewrite E. clear E.
  assert (Lc : length (combine (x :: r) r) = length r) by (rewrite combine_length; cbn [length]; lia).
  unfold getEdge. cbn [tl]. cbn [length] in *. replace (S (length r) - 1)%nat with (length r) by lia.
  destruct (Nat.ltb_spec i (length r)).
  - destruct (nth_error (x :: r) i) as [a|] eqn:Ea; [|apply nth_error_None in Ea; cbn in Ea; lia].
    destruct (nth_error r i) as [b|] eqn:Eb; [|apply nth_error_None in Eb; lia].
    rewrite (proj2 (rd_Ret _ _ a) Ea). rewrite (proj2 (rd_Ret (x :: r) (i + 1) b)) by (rewrite Nat.add_1_r; exact Eb).
    eexists. split; [reflexivity|]. rewrite nth_error_app1 by (rewrite Lc; auto).
    clear - Ea Eb. revert i x r Ea Eb.
    assert (H : forall (l m : list (A * A)) i a b, nth_error l i = Some a -> nth_error m i = Some b -> nth_error (combine l m) i = Some (a, b)).
    { induction l as [|u l IH]; intros [|w m] [|i] a' b'; cbn; try discriminate; [congruence|apply IH]. }
    intros. now apply H.
  - assert (i = length r) by lia. subst i.
    pose proof (rd_last (x :: r) x Hp) as RL. cbn [length] in RL. replace (S (length r) - 1)%nat with (length r) in RL by lia.
    rewrite RL. cbn [bind]. eexists. split; [reflexivity|].
    rewrite nth_error_app2 by (rewrite Lc; auto). rewrite Lc, Nat.sub_diag. reflexivity.
Qed.

Lemma areCCW_orient a b c : areCCW RA a b c = true <-> 0 <= orient a b c.
Proof.
  unfold areCCW. rewrite oleb_R, cross2_R. unfold psub, orient. cbn [RA Rarith osub o0 fst snd].
  split; intros H; lra.
Qed.
Lemma areApproxCCW_orient eps a b c : areApproxCCW RA eps a b c = true <-> - eps <= orient a b c.
Proof.
  unfold areApproxCCW. rewrite oleb_R, cross2_R. unfold psub, orient. cbn [RA Rarith osub oopp fst snd].
  split; intros H; lra.
Qed.
Lemma convex_ok a b c d : quad_isConvex RA a b c d = true <-> 0 <= orient a b c /\ 0 <= orient b c d /\ 0 <= orient c d a /\ 0 <= orient d a b.
Proof. unfold quad_isConvex. rewrite !andb_true_iff, !areCCW_orient. tauto. Qed.
Lemma ccw_tolerance eps a b c d : quad_isCCW RA eps a b c d = true <-> - eps <= orient a b c /\ - eps <= orient a c d.
Proof. unfold quad_isCCW. rewrite !andb_true_iff, !areApproxCCW_orient. tauto. Qed.
