From Coq Require Import List Arith ZArith Reals Lia Lra Bool.
From Coquelicot Require Import Coquelicot.
From Verif Require Import Base Arith Vec_Model Box_Model Seg_Model Poly_Model QSeg_Model QSeg_Spec QSeg_Proofs Shape_Model Shape_Spec.
Import ListNotations.
Local Open Scope R_scope.
Notation RA := Rarith.

Lemma V_map2 f (a b : list R) D : length a = D -> length b = D -> length (map2 f a b) = D.
Proof. revert b D; induction a as [|x a IH]; intros [|y b] D E F; cbn in *; try lia. rewrite (IH b (length a)); lia. Qed.
Lemma V_add a b D : length a = D -> length b = D -> length (vadd RA a b) = D.
Proof. apply V_map2. Qed.
Lemma V_sub a b D : length a = D -> length b = D -> length (vsub RA a b) = D.
Proof. apply V_map2. Qed.
Lemma V_scale w a D : length a = D -> length (vscale RA w a) = D.
Proof. intros <-. apply map_length. Qed.
Lemma V_affine rows x : length (affine rows x) = length rows.
Proof. apply map_length. Qed.
Ltac vl := repeat first [assumption | apply V_add | apply V_sub | apply V_scale | apply V_affine].
Lemma nth_map2 f (a : list R) : f 0 0 = 0 -> forall b i, length a = length b -> nth i (map2 f a b) 0 = f (nth i a 0) (nth i b 0).
Proof.
  intros Z. induction a as [|x a IH]; intros [|y b] i E; cbn in E; try discriminate.
  - destruct i; cbn; auto.
  - destruct i; cbn [map2 nth]; auto.
Qed.
Lemma nth_add D a b i : length a = D -> length b = D -> nth i (vadd RA a b) 0 = nth i a 0 + nth i b 0.
Proof. intros E F. apply (nth_map2 Rplus); [lra|congruence]. Qed.
Lemma nth_sub D a b i : length a = D -> length b = D -> nth i (vsub RA a b) 0 = nth i a 0 - nth i b 0.
Proof. intros E F. apply (nth_map2 Rminus); [lra|congruence]. Qed.
Lemma nth_scale w a i : nth i (vscale RA w a) 0 = nth i a 0 * w.
Proof. revert i; induction a as [|x a IH]; intros [|i]; cbn; try ring. apply IH. Qed.
Lemma vec_ext (a b : list R) D : length a = D -> length b = D -> (forall i, nth i a 0 = nth i b 0) -> a = b.
Proof. intros E F H. apply (nth_ext _ _ 0 0); [congruence|auto]. Qed.
Ltac vn D := repeat (first [rewrite (nth_add D) by (vl) | rewrite (nth_sub D) by (vl) | rewrite nth_scale]).
Ltac eqR := match goal with |- ?a = ?b => change (@eq R a b) | _ => idtac end.
Ltac lits := unfold o4, o3; unfold o2; cbn [oadd osub omul odiv oopp o1 o0 Rarith]; eqR.
Lemma V_nth_eta (vs : list (list R)) D : (forall v, In v vs -> length v = D) -> List.Forall (fun v => length v = D) vs.
Proof. intros H. apply List.Forall_forall. auto. Qed.
Ltac destr vs L := repeat (destruct vs as [|? vs]; cbn [length] in L; try discriminate L).
Ltac els k vs L F :=
  let H := fresh in intros (L & H); apply V_nth_eta in H; rename H into F; destruct k; cbn [nodes length] in L; destr vs L;
  repeat match goal with X : List.Forall _ (_ :: _) |- _ => inversion_clear X end.

Lemma shape_total k D vs r s : element k D vs -> exists x, shape_at RA k vs r s = Ret x /\ length x = D.
Proof.
  els k vs L F; cbn [shape_at]; eexists; (split; [reflexivity|]); unfold tri_at, quad_at, tri6_at, quad8_at; cbv zeta; vl.
Qed.
Ltac at_eq D := cbn [shape_at]; f_equal; apply (vec_ext _ _ D);
  [unfold tri_at, quad_at, tri6_at, quad8_at; cbv zeta; vl|try unfold seg_at; try unfold qs_at; vl|
   intros ii; unfold tri_at, quad_at, tri6_at, quad8_at; cbv zeta; vn D; lits].
Lemma vertices_ok k D vs : element k D vs -> forall j p v, nth_error (nodes k) j = Some p -> nth_error vs j = Some v ->
  shape_at RA k vs (fst p) (snd p) = Ret v.
Proof.
  els k vs L F; intros j p v Hp Hv; do 8 (try destruct j as [|j]); cbn in Hp, Hv; try discriminate; try (destruct j; discriminate);
  injection Hp as <-; injection Hv as <-; cbn [fst snd]; at_eq D; field.
Qed.
(** * affine maps *)
Lemma lin_add c D a b : length a = D -> length b = D -> lin c (vadd RA a b) = lin c a + lin c b.
Proof.
  unfold lin. revert c D b. induction a as [|x a IH]; intros c D [|y b] E F; cbn in *; try lia.
  - destruct c; cbn; lra.
  - destruct c as [|u c]; cbn [combine map fold_right fst snd]; [lra|]. specialize (IH c (length a) b eq_refl ltac:(lia)). unfold vadd in IH. cbn [oadd Rarith] in IH. rewrite IH. ring.
Qed.
Lemma lin_scale c w a : lin c (vscale RA w a) = w * lin c a.
Proof.
  unfold lin. revert c. induction a as [|x a IH]; intros c; cbn.
  - destruct c; cbn; lra.
  - destruct c as [|u c]; cbn [combine map fold_right fst snd]; [lra|]. specialize (IH c). unfold vscale in IH. cbn [omul Rarith] in IH. rewrite IH. ring.
Qed.
Ltac ln D := repeat (first [rewrite (lin_add _ D) by (vl) | rewrite lin_scale]).
Lemma affine_ext rows x y : length y = length rows -> (forall i, (i < length rows)%nat ->
  nth i y 0 = lin (fst (nth i rows ([], 0))) x + snd (nth i rows ([], 0))) -> y = affine rows x.
Proof.
  intros E H. apply (nth_ext _ _ 0 0). { unfold affine. now rewrite map_length. }
  intros i Hi. rewrite E in Hi. rewrite H by auto. unfold affine.
  rewrite (nth_indep (map _ rows) 0 (lin (fst ([], 0)) x + snd ([] : list R, 0))) by now rewrite map_length.
  now rewrite (map_nth (fun row : list R * R => lin (fst row) x + snd row)).
Qed.
Lemma nth_affine rows x i : (i < length rows)%nat -> nth i (affine rows x) 0 = lin (fst (nth i rows ([], 0))) x + snd (nth i rows ([], 0)).
Proof.
  intros Hi. unfold affine. rewrite (nth_indep (map _ rows) 0 (lin (fst ([], 0)) x + snd ([] : list R, 0))) by now rewrite map_length.
  now rewrite (map_nth (fun row : list R * R => lin (fst row) x + snd row)).
Qed.
Lemma affine_ok k D vs rows r s x : element k D vs -> shape_at RA k vs r s = Ret x ->
  shape_at RA k (map (affine rows) vs) r s = Ret (affine rows x).
Proof.
  els k vs L F; cbn [shape_at map]; intros [= <-]; f_equal; apply affine_ext;
  try (unfold tri_at, quad_at, tri6_at, quad8_at; cbv zeta; vl; fail);
  intros i Hi; unfold tri_at, quad_at, tri6_at, quad8_at; cbv zeta; vn (length rows); ln D;
  rewrite !nth_affine by auto; set (row := nth i rows ([], 0)); lits; field.
Qed.
(** * edges *)
Lemma linear_edges_ok k D vs : linear k -> element k D vs -> forall j a b pa pb t,
  getEdge vs j = Ret (a, b) -> getEdge (nodes k) j = Ret (pa, pb) ->
  shape_at RA k vs (fst (toward pa pb t)) (snd (toward pa pb t)) = Ret (seg_at RA a b t).
Proof.
  intros [-> | ->]; (intros (L & H); apply V_nth_eta in H; cbn [nodes length] in L; destr vs L;
  repeat match goal with X : List.Forall _ (_ :: _) |- _ => inversion_clear X end);
  intros j a b pa pb t E1 E2; unfold getEdge in E1, E2; cbn [length nodes Nat.sub] in E1, E2;
  (destruct (j <? _)%nat eqn:Hj in E1; rewrite Hj in E2; [apply Nat.ltb_lt in Hj; do 3 (try destruct j as [|j]); try lia|]);
  cbn in E1, E2; injection E1 as <- <-; injection E2 as <- <-; unfold toward; cbn [fst snd]; at_eq D; unfold seg_at; vn D; ring.
Qed.
Lemma quadratic_edges_ok k D vs : quadratic_shape k -> element k D vs -> forall j a b c pa pb pc t,
  getEdgeQ vs j = Ret (a, b, c) -> getEdgeQ (nodes k) j = Ret (pa, pb, pc) ->
  shape_at RA k vs (fst (toward pa pb t)) (snd (toward pa pb t)) = Ret (qs_at RA a b c t) /\ pc = toward pa pb (1/2).
Proof.
  intros [-> | ->]; (intros (L & H); apply V_nth_eta in H; cbn [nodes length] in L; destr vs L;
  repeat match goal with X : List.Forall _ (_ :: _) |- _ => inversion_clear X end);
  intros j a b c pa pb pc t E1 E2; unfold getEdgeQ in E1, E2; cbn [length nodes Nat.sub Nat.div Nat.divmod fst snd] in E1, E2;
  (destruct (j <? _)%nat eqn:Hj in E1; rewrite Hj in E2; [apply Nat.ltb_lt in Hj; do 3 (try destruct j as [|j]); try lia|]);
  cbn in E1, E2; injection E1 as <- <- <-; injection E2 as <- <- <-; unfold toward; cbn [fst snd]; (split; [|f_equal; lra]);
  at_eq D; unfold seg_at, qs_at, qw0, qw1, qw2; vn D; lits; field.
Qed.
(** * jacobian *)
Lemma jac_ok k D vs r s i : element k D vs -> exists c0 c1, shape_jac RA k vs r s = Ret (c0, c1) /\ length c0 = D /\ length c1 = D /\
  is_derive (fun t => comp k vs i t s) r (nth i c0 0) /\ is_derive (fun t => comp k vs i r t) s (nth i c1 0).
Proof.
  els k vs L F; cbn [shape_jac]; do 2 eexists; (split; [reflexivity|]); unfold tri_jac, quad_jac, tri6_jac, quad8_jac; cbv zeta; cbn [fst snd];
  (split; [vl|]); (split; [vl|]); unfold comp; cbn [shape_at].
  all: unfold tri_at, quad_at, tri6_at, quad8_at; cbv zeta.
  all: split.
  all: vn D; lits.
  all: eapply is_derive_ext; [intros t; symmetry; match goal with |- _ = ?rhs => set (zz := rhs) end; vn D; lits; subst zz; reflexivity|].
  all: auto_derive; [auto|]; eqR; field.
Qed.

Lemma segment_ok a b D i r : length a = D -> length b = D ->
  seg_at RA a b 0 = a /\ seg_at RA a b 1 = b /\ length (seg_jacobian RA a b r) = D /\
  is_derive (fun t => nth i (seg_at RA a b t) 0) r (nth i (seg_jacobian RA a b r) 0).
Proof.
  intros A B. unfold seg_at, seg_jacobian. split; [|split; [|split]].
  - apply (vec_ext _ _ D); [vl|vl|]. intros j. vn D. ring.
  - apply (vec_ext _ _ D); [vl|vl|]. intros j. vn D. ring.
  - vl.
  - vn D. eapply is_derive_ext. { intros t; symmetry; match goal with |- _ = ?rhs => set (zz := rhs) end; vn D; subst zz; reflexivity. }
    auto_derive; [auto|]. eqR. ring.
Qed.
Lemma segment_affine rows a b D r : length a = D -> length b = D ->
  seg_at RA (affine rows a) (affine rows b) r = affine rows (seg_at RA a b r).
Proof.
  intros A B. apply affine_ext. { unfold seg_at. vl. }
  intros i Hi. unfold seg_at. vn (length rows). rewrite !nth_affine by auto. set (row := nth i rows ([], 0)).
  assert (S : lin (fst row) (vsub RA b a) = lin (fst row) b - lin (fst row) a).
  { assert (E : vadd RA (vsub RA b a) a = b). { apply (vec_ext _ _ D); [vl|vl|]. intros j. vn D. ring. }
    rewrite <- E at 2. rewrite (lin_add _ D) by vl. ring. }
  rewrite (lin_add _ D), lin_scale, S by vl. ring.
Qed.
Lemma shape_example : element Quad8 2 [[0;0]; [2;0]; [2;2]; [0;2]; [1;-1]; [2;1]; [1;3]; [0;1]] /\
  shape_at RA Quad8 [[0;0]; [2;0]; [2;2]; [0;2]; [1;-1]; [2;1]; [1;3]; [0;1]] (1/2) (1/4) = Ret [1; 0].
Proof.
  split.
  - split; [reflexivity|]. intros v H. cbn in H. repeat destruct H as [<-|H]; auto. destruct H.
  - cbn [shape_at]. f_equal. unfold quad8_at, vadd, vscale. cbn. unfold o4, o2. cbn. f_equal; [field|]. f_equal. field.
Qed.

(** ** Interpolated polynomials *)
Lemma vadd_map {A} (f g : A -> R) l : vadd RA (map f l) (map g l) = map (fun x => f x + g x) l.
Proof. unfold vadd. induction l as [|x l IH]; [reflexivity|]. cbn [map map2]. now rewrite IH. Qed.
Lemma vscale_map {A} (f : A -> R) w l : vscale RA w (map f l) = map (fun x => f x * w) l.
Proof. unfold vscale. now rewrite map_map. Qed.
Lemma poly_ok k C r s : shape_at RA k (map (polynomials k C) (nodes k)) r s = Ret (polynomials k C (r, s)).
Proof.
  unfold polynomials.
  destruct k; cbn [nodes map shape_at fst snd]; f_equal; unfold tri_at, quad_at, tri6_at, quad8_at;
    rewrite !vscale_map, !vadd_map; apply map_ext; intros c; unfold monomials, lin;
    (destruct c as [|c0 [|c1 [|c2 [|c3 [|c4 [|c5 [|c6 [|c7 c]]]]]]]]); cbn [combine map fold_right fst snd];
    unfold o4, o3, o2; cbn [RA Rarith oadd osub omul odiv oopp o0 o1]; field.
Qed.
