(** The mesh of an imported cell. *)
From Coq Require Import String.
From Coq Require Import List Arith ZArith Lia Bool Reals Lra.
From Verif Require Import Base Loops Arith Box_Model Box_Spec Box_Proofs Elem_Model Elem_Proofs Soup_Model Soup_Spec Sort_Spec Seg_Model Seg_Spec Seg_Proofs Poly_Model QPoly_Model QPoly_Spec QPoly_Proofs
  PinCyl_Model Grid_Model Fvm_Model Fvm_Spec Fvm_Query_Proofs Manifold_Model Manifold_Spec Manifold_Proofs QInt_Model Mpact_Model Mpact_Spec Export_Model Export_Spec Export_Cell_Proofs Import_Model Import_Spec.
Import ListNotations.
Local Open Scope list_scope.
Local Open Scope R_scope.

(** ** Types *)
Lemma types_kind ts k : kind_of (mt_of (getMeshType (getElemTypes ts))) = Some k <-> ts <> [] /\ forall t, In t ts -> t = elem_type k.
Proof.
  split.
  - intros H. destruct (getElemTypes_ok ts) as (Nd & Hin). destruct (getElemTypes ts) as [|t [|t' [|t'' l]]]; try discriminate.
    + assert (Et : t = elem_type k) by (destruct t; cbn in H; try discriminate; injection H as <-; reflexivity). split.
      * intros ->. destruct (proj1 (Hin t) (or_introl eq_refl)).
      * intros t0 Ht0. destruct (proj2 (Hin t0) Ht0) as [<-|[]]. exact Et.
    + exfalso. revert H. unfold getMeshType. destruct (_ >? _)%Z; repeat (destruct (_ && _); [discriminate|]); discriminate.
  - intros (Ne & H). rewrite (all_same_types ts (elem_type k)) by auto. now destruct k.
Qed.
Lemma kind_type t k : kind_of t = Some k <-> t = type_of k.
Proof. split; [|intros ->]; [|now destruct k]. destruct t; cbn; try discriminate; intros H; injection H as <-; reflexivity. Qed.

(** ** Bounding boxes *)
Lemma box_unique k x x0 y0 x1 y1 x0' y0' x1' y1' : box_around k x x0 y0 x1 y1 -> box_around k x x0' y0' x1' y1' ->
  x0 = x0' /\ y0 = y0' /\ x1 = x1' /\ y1 = y1'.
Proof.
  unfold box_around. destruct (quadratic k).
  - intros (H & (a1 & b1 & c1 & t1 & I1 & T1 & E1) & (a2 & b2 & c2 & t2 & I2 & T2 & E2) & (a3 & b3 & c3 & t3 & I3 & T3 & E3) & (a4 & b4 & c4 & t4 & I4 & T4 & E4))
           (H' & (a5 & b5 & c5 & t5 & I5 & T5 & E5) & (a6 & b6 & c6 & t6 & I6 & T6 & E6) & (a7 & b7 & c7 & t7 & I7 & T7 & E7) & (a8 & b8 & c8 & t8 & I8 & T8 & E8)).
    pose proof (H' _ _ _ _ I1 T1). pose proof (H' _ _ _ _ I2 T2). pose proof (H' _ _ _ _ I3 T3). pose proof (H' _ _ _ _ I4 T4).
    pose proof (H _ _ _ _ I5 T5). pose proof (H _ _ _ _ I6 T6). pose proof (H _ _ _ _ I7 T7). pose proof (H _ _ _ _ I8 T8).
    repeat split; lra.
  - intros (H & (a1 & I1 & E1) & (a2 & I2 & E2) & (a3 & I3 & E3) & (a4 & I4 & E4))
           (H' & (a5 & I5 & E5) & (a6 & I6 & E6) & (a7 & I7 & E7) & (a8 & I8 & E8)).
    pose proof (H' _ I1). pose proof (H' _ I2). pose proof (H' _ I3). pose proof (H' _ I4).
    pose proof (H _ I5). pose proof (H _ I6). pose proof (H _ I7). pose proof (H _ I8).
    repeat split; lra.
Qed.
Lemma face_points k (x : mesh R) i c : mesh_ok k x -> nth_error (fv x) i = Some c -> getFace x i = Ret (map (vertex x) c).
Proof.
  intros Hm Hc. unfold getFace. rewrite (proj2 (rd_Ret _ _ _) Hc). cbn [bind]. destruct (Hm c (nth_error_In _ _ Hc)) as (_ & Hr).
  clear Hc. induction c as [|v c IH]; cbn [mapo map]; auto.
  pose proof (Hr v (or_introl eq_refl)) as Hv.
  rewrite (rdz_nth (mv x) v (vertex x v)); [|lia|unfold vertex; apply nth_error_nth'; lia].
  cbn [bind]. rewrite IH; auto. intros; apply Hr; now right.
Qed.
Lemma face_box_ok k x c : quadratic k = true -> mesh_ok k x -> In c (fv x) -> exists x0 y0 x1 y1,
  q_boundingBox Rarith (map (vertex x) c) = Ret (mkBox [x0; y0] [x1; y1]) /\ encloses (face_edges x c) x0 y0 x1 y1.
Proof.
  intros Hq Hm Hc. destruct (Hm c Hc) as (Hl & _).
  assert (Hn : (length c / 2 = nedges k /\ length c = nedges k + nedges k)%nat /\ (3 <= nedges k)%nat)
    by (rewrite Hl; destruct k; try discriminate; repeat split; cbn; lia).
  unfold face_edges. set (p := map (vertex x) c). assert (Lp : length p = length c) by apply map_length.
  pose proof (QPoly_Proofs.q_box_ok (firstn (length c / 2) p) (skipn (length c / 2) p)) as QB. rewrite firstn_skipn in QB. apply QB; clear QB.
  - intros E. apply (f_equal (@length _)) in E. rewrite firstn_length_le in E; [|lia]. cbn [length] in E. lia.
  - rewrite firstn_length_le, skipn_length by lia. lia.
Qed.
Lemma mesh_box_steps k x : quadratic k = true -> mesh_ok k x -> forall n i es x0 y0 x1 y1, (i + n = length (fv x))%nat -> encloses es x0 y0 x1 y1 ->
  exists a b c d, mesh_box_from Rarith n i x (mkBox [x0; y0] [x1; y1]) = Ret (mkBox [a; b] [c; d]) /\
    encloses (es ++ flat_map (face_edges x) (skipn i (fv x))) a b c d.
Proof.
  intros Hq Hm. induction n as [|n IH]; intros i es x0 y0 x1 y1 Hi H; cbn [mesh_box_from].
  - exists x0, y0, x1, y1. split; auto. rewrite skipn_all2 by lia. cbn. now rewrite app_nil_r.
  - destruct (nth_error (fv x) i) as [c|] eqn:Ec; [|apply nth_error_None in Ec; lia].
    rewrite (face_points k x i c) by auto. cbn [bind].
    destruct (face_box_ok k x c Hq Hm (nth_error_In _ _ Ec)) as (a & b & a' & b' & E & F). rewrite E. cbn [bind].
    destruct (box_add_ok _ _ _ _ _ _ _ _ _ _ H F) as (-> & G).
    destruct (IH (i + 1)%nat _ _ _ _ _ ltac:(lia) G) as (p & q & r & s & E' & G').
    exists p, q, r, s. split; [exact E'|]. rewrite <- app_assoc in G'.
    replace (skipn i (fv x)) with (c :: skipn (i + 1) (fv x)); [exact G'|].
    clear -Ec. revert i Ec. induction (fv x) as [|f l IHl]; intros [|i] Ec; try discriminate; cbn in *; [congruence|]. rewrite (IHl i Ec) at 1. reflexivity.
Qed.
Lemma box_of_ok k x : mesh_ok k x -> fv x <> [] -> mv x <> [] -> exists x0 y0 x1 y1,
  box_of k x = Ret (mkBox [x0; y0] [x1; y1]) /\ box_around k x x0 y0 x1 y1.
Proof.
  intros Hm Hf Hv. unfold box_of, box_around. destruct (quadratic k) eqn:Hq.
  - unfold mesh_box. destruct (fv x) as [|c l] eqn:Ef; [congruence|].
    assert (Hc : nth_error (fv x) 0 = Some c) by now rewrite Ef.
    rewrite (face_points k x 0 c) by auto. cbn [bind].
    destruct (face_box_ok k x c Hq Hm (nth_error_In _ _ Hc)) as (a & b & a' & b' & E & F). rewrite E. cbn [bind].
    destruct (mesh_box_steps k x Hq Hm (length (fv x) - 1) 1 _ _ _ _ _ ltac:(rewrite Ef; cbn; lia) F) as (p & q & r & s & E' & G').
    rewrite Ef in E', G'. exists p, q, r, s. split; [exact E'|]. exact G'.
  - set (ps := map (fun p => [fst p; snd p]) (mv x)).
    destruct (boundingBox_ok Rarith Rle R_total ps 2) as (b & E & (L1 & L2 & V) & Hs & Hi).
    + intros E. apply map_eq_nil in E. contradiction.
    + intros p Hp. apply in_map_iff in Hp as (q & <- & _). reflexivity.
    + destruct b as [[|x0 [|y0 [|]]] [|x1 [|y1 [|]]]]; cbn in L1, L2; try discriminate.
      exists x0, y0, x1, y1. split; [exact E|]. split.
      * intros p Hp. assert (In [fst p; snd p] ps) as Hp' by (apply in_map_iff; eauto).
        destruct (proj1 (Hs (mkBox [x0; y0] [x1; y1])) (fun q Hq' => Hq') _ Hp') as (A & B). cbn in A, B.
        inversion A as [|? ? ? ? A1 A2]; subst. inversion A2; subst. inversion B as [|? ? ? ? B1 B2]; subst. inversion B2; subst. auto.
      * destruct (Hi 0%nat ltac:(lia)) as ((p & Hp & Ep) & (q & Hq' & Eq)). destruct (Hi 1%nat ltac:(lia)) as ((p' & Hp' & Ep') & (q' & Hq'' & Eq')).
        apply in_map_iff in Hp as (p1 & <- & Hp). apply in_map_iff in Hq' as (q1 & <- & Hq'). apply in_map_iff in Hp' as (p1' & <- & Hp'). apply in_map_iff in Hq'' as (q1' & <- & Hq'').
        cbn in *. injection Ep as Ep. injection Eq as Eq. injection Ep' as Ep'. injection Eq' as Eq'. repeat split; eauto.
Qed.

(** ** Validation *)
Lemma validated_ok stdsort selfcheck k x x' : keeps_faces selfcheck -> mesh_ok k x -> validated stdsort selfcheck k x = Ret x' ->
  mesh_ok k x' /\ length (fv x') = length (fv x) /\ length (mv x') = length (mv x).
Proof.
  intros Hk Hm. unfold validated, validate. destruct (checkCCW_ok (isCCW_of k) k x Hm) as (y & E & Hv & Hl & Hy & _). rewrite E. cbn [bind].
  destruct (checkManifoldWatertight _ _ _ _) as [[]| | |]; try discriminate. cbn [bind]. destruct (quadratic k) eqn:Hq.
  - intros E'. destruct (Hk k _ _ Hq Hy E') as (F & L). split; [|split; congruence]. unfold mesh_ok. rewrite F, L. exact Hy.
  - intros E'. injection E' as <-. split; [exact Hy|]. split; congruence.
Qed.
Lemma anticlockwise_ok k p : length p = nverts k -> (isCCW_of k p = true <-> anticlockwise k p).
Proof.
  assert (T : forall a b c, tri_isCCW Rarith a b c = true <-> 0 <= orient a b c).
  { intros a b c. unfold tri_isCCW, areCCW. rewrite oleb_R, cross2_R. unfold orient, psub. cbn. tauto. }
  assert (Q : forall a b c d, quad_isCCW Rarith eps a b c d = true <-> - eps <= orient a b c /\ - eps <= orient a c d).
  { intros a b c d. unfold quad_isCCW, areApproxCCW. rewrite andb_true_iff, !oleb_R, !cross2_R. unfold orient, psub. cbn. tauto. }
  intros L. destruct k; repeat (destruct p as [|? p]; try discriminate L); cbn [isCCW_of anticlockwise]; auto.
Qed.
Lemma mirrored_ok k c c' : length c = nverts k -> flip_conn k c = Ret c' -> c' = mirrored k c.
Proof. intros L E. destruct k; repeat (destruct c as [|? c]; try discriminate L); cbn in E; injection E as <-; reflexivity. Qed.
Lemma ccw_keeps isCCW k n : forall i (x y : mesh R), has_vf x = false -> for_ n i (fun i m => let* p := getFace m i in if negb (isCCW p) then flipFace k m i else Ret m) x = Ret y ->
  y = mkMesh (is_morton x) (has_vf x) (mv x) (fv y) (vf_offs x) (vf x).
Proof.
  induction n as [|n IH]; intros i x y Hx; cbn [for_].
  - intros E. injection E as <-. now destruct x.
  - destruct (getFace x i) as [p| | |]; try discriminate. cbn [bind]. destruct (negb (isCCW p)); cbn [bind].
    + unfold flipFace. destruct (rd _ _); try discriminate. cbn [bind]. destruct (flip_conn _ _); try discriminate. cbn [bind].
      destruct (wr _ _ _); try discriminate. cbn [bind]. intros E. apply IH in E; [|reflexivity]. now rewrite Hx.
    + intros E. now apply IH in E.
Qed.
Lemma validated_iff stdsort selfcheck k x x' : sort_contract stdsort -> has_vf x = false -> mesh_ok k x ->
  (validated stdsort selfcheck k x = Ret x' <-> validation selfcheck k x x').
Proof.
  intros Hs Hn Hm. unfold validated, validate, validation.
  destruct (checkCCW_ok (isCCW_of k) k x Hm) as (y & E & Hv & Hl & Hy & Hf). rewrite E. cbn [bind].
  assert (Ey : y = mkMesh (is_morton x) (has_vf x) (mv x) (fv y) (vf_offs x) (vf x)) by exact (ccw_keeps _ _ _ _ _ _ Hn E).
  assert (Hlen : forall c, In c (fv y) -> length c = nverts k) by (intros c Hc; apply (Hy c Hc)).
  assert (L : length (all_edges k (fv y)) = (nedges k * length (fv x))%nat).
  { rewrite <- Hl. clear - Hlen. induction (fv y) as [|c fs IH]; [cbn; lia|]. unfold all_edges in *. cbn [map concat]. rewrite app_length, IH by (intros; apply Hlen; now right).
    rewrite Fvm_Proofs.edges_of_length by (apply Hlen; now left). cbn [length]. lia. }
  destruct (check_iff stdsort Hs _ (nedges k * length (fv x)) k y Hlen ltac:(lia)) as (Hi & _ & _).
  assert (Hf' : forall i c, nth_error (fv x) i = Some c -> exists p, map Some p = corners (mv x) c /\
       (anticlockwise k p /\ nth_error (fv y) i = Some c \/ ~ anticlockwise k p /\ nth_error (fv y) i = Some (mirrored k c))).
  { intros i c Hi'. destruct (Hf i c Hi') as (p & Ep & H). exists p. split; auto. destruct (Hm c (nth_error_In _ _ Hi')) as (Lc & _).
    assert (Lp : length p = nverts k) by (rewrite <- (map_length Some p), Ep; unfold corners; now rewrite map_length).
    destruct H as [(H1 & H2)|(H1 & c' & H2 & H3)]; [left; split; auto; now apply anticlockwise_ok|right]. split; [rewrite <- anticlockwise_ok by auto; congruence|].
    now rewrite <- (mirrored_ok k c c'). }
  split.
  - destruct (checkManifoldWatertight _ _ _ _) as [[]| | |]; try discriminate. cbn [bind]. intros E'. exists (fv y). split; [auto|]. split; [auto|].
    split; [now apply Hi|]. cbv zeta. rewrite <- Ey. destruct (quadratic k); auto. now injection E' as <-.
  - intros (fs & Hl' & Hf2 & Hw & Hx).
    assert (fs = fv y) as ->.
    { apply nth_error_ext. intros i. destruct (nth_error (fv x) i) as [c|] eqn:Ec.
      - destruct (Hf2 i c Ec) as (p & Ep & H). destruct (Hf' i c Ec) as (p' & Ep' & H'). assert (p' = p) as ->.
        { clear - Ep Ep'. rewrite <- Ep' in Ep. clear Ep'. revert p' Ep. induction p as [|a p IH]; intros [|b q] H; try discriminate; auto. cbn in H. injection H as -> H. f_equal. now apply IH. }
        destruct H as [(? & ->)|(? & ->)], H' as [(? & ->)|(? & ->)]; tauto.
      - apply nth_error_None in Ec. now rewrite !(proj2 (nth_error_None _ _)) by lia. }
    cbv zeta in Hx. rewrite <- Ey in Hx. rewrite (proj2 Hi Hw). cbn [bind]. destruct (quadratic k); congruence.
Qed.
