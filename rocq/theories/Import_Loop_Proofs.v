(** Importing the meshes of all cells. *)
From Coq Require Import String.
From Coq Require Import List Arith ZArith Lia Bool Reals.
From Verif Require Import Base Own Loops Arith TextIo_Model Ascii_Model Elem_Model Soup_Model Soup_Spec Sort_Spec
  PinCyl_Model Grid_Model Fvm_Model Fvm_Spec Manifold_Spec QInt_Model QInt_Spec QInt_Final_Proofs Mpact_Model Mpact_Spec Export_Model Export_Spec Import_Model Import_Spec Import_Sets_Proofs Import_Mesh_Proofs Import_Proofs.
Import ListNotations.
Local Open Scope list_scope.
Notation job := (kind * mesh R * list Z)%type.

Lemma updated_nil m : updated m [] m.
Proof.
  repeat (split; [reflexivity|]). split; [intros k; cbn; now rewrite app_nil_r|]. split; [reflexivity|]. split; auto.
  intros i c k x mats _ H. destruct i; discriminate.
Qed.
Lemma of_kind_app k (js js' : list job) : of_kind k (js ++ js') = of_kind k js ++ of_kind k js'.
Proof. unfold of_kind. now rewrite filter_app, map_app. Qed.
Lemma updated_next m js m1 cc k x mats : updated m js m1 -> nth_error (cells m) (length js) = Some cc ->
  updated m (js ++ [(k, x, mats)]) (filled m1 (length js) cc k x mats).
Proof.
  intros (E1 & E2 & E3 & E4 & E5 & Em & El & Ec & Er) Hc. assert (Hi : (length js < length (cells m))%nat) by (apply nth_error_Some; congruence).
  assert (Hx : forall k', meshes (filled m1 (length js) cc k x mats) k' = meshes m k' ++ of_kind k' (js ++ [(k, x, mats)])).
  { intros k'. rewrite of_kind_app, app_assoc, <- Em. destruct k, k'; cbn; now rewrite ?app_nil_r. }
  split; [destruct k; cbn; auto|]. split; [destruct k; cbn; auto|]. split; [destruct k; cbn; auto|]. split; [destruct k; cbn; auto|].
  split; [destruct k; cbn; auto|]. split; [exact Hx|].
  assert (Hcs : cells (filled m1 (length js) cc k x mats) =
    upd (cells m1) (length js) (mkCell (xy_extents cc) (type_of k) (Z.of_nat (length (meshes m k ++ of_kind k js))) mats)).
  { rewrite <- (Em k). destruct k; cbn; rewrite app_length; cbn; do 2 f_equal; lia. }
  rewrite Hcs. split; [now rewrite upd_length|]. split.
  - intros i c k' x' mats' Hci Hji. destruct (Nat.eq_dec i (length js)) as [->|Hne].
    + rewrite nth_error_upd_eq by lia. rewrite nth_error_app2, Nat.sub_diag in Hji by lia. cbn in Hji. injection Hji as <- <- <-.
      rewrite Hc in Hci. injection Hci as <-. now rewrite firstn_app, firstn_all, Nat.sub_diag, app_nil_r.
    + rewrite nth_error_upd_neq by auto. assert (i < length (js ++ [(k, x, mats)]))%nat by (apply nth_error_Some; congruence).
      rewrite app_length in H. cbn in H. rewrite nth_error_app1 in Hji by lia. rewrite (Ec _ _ _ _ _ Hci Hji).
      rewrite firstn_app. replace (i - length js)%nat with 0%nat by lia. now rewrite app_nil_r.
  - intros i Hle. rewrite app_length in Hle. cbn in Hle. rewrite nth_error_upd_neq by lia. apply Er. lia.
Qed.
Lemma updated_fun m js m1 m2 : updated m js m1 -> updated m js m2 -> m1 = m2.
Proof.
  intros (E1 & E2 & E3 & E4 & E5 & Em & El & Ec & Er) (D1 & D2 & D3 & D4 & D5 & Dm & Dl & Dc & Dr).
  assert (cells m1 = cells m2).
  { apply nth_error_ext. intros i. destruct (nth_error js i) as [((k, x), mats)|] eqn:Ej.
    - destruct (nth_error (cells m) i) as [c|] eqn:E.
      + now rewrite (Ec _ _ _ _ _ E Ej), (Dc _ _ _ _ _ E Ej).
      + apply nth_error_None in E. now rewrite !(proj2 (nth_error_None _ _)) by lia.
    - apply nth_error_None in Ej. now rewrite Er, Dr. }
  pose proof (Em Tri). pose proof (Em Quad). pose proof (Em Tri6). pose proof (Em Quad8).
  pose proof (Dm Tri). pose proof (Dm Quad). pose proof (Dm Tri6). pose proof (Dm Quad8). cbn [meshes] in *.
  destruct m1, m2; cbn in *; congruence.
Qed.

Section Loop.
Variable stdsort : forall A : Type, (A -> A -> bool) -> list A -> list A.
Hypothesis Hsort : sort_contract stdsort.
Variable selfcheck : mesh R -> outcome (mesh R).
Hypothesis Hself : keeps_faces selfcheck.
Variable junk : R * R.
Variables checks exit : bool.
Variable s : soup (R * R * R) R.
Variable a : asoup (R * R * R) R.
Hypotheses (Hst : stores s a) (Hco : content_ok a) (Hid : ids_ok a) (Has : Soup_Spec.ascending (a_elsets a)) (Hpl : planar a).
Notation accepted := (fun k x x' => validated stdsort selfcheck k x = Ret x').
Notation step := (import_cell stdsort selfcheck junk checks exit s).
Variable m : model.
Hypotheses (Hcells : (Z.of_nat (length (cells m)) < 100000)%Z) (Hms : (Z.of_nat (length (materials m)) <= 128)%Z).

Lemma at_cell js m1 : updated m js m1 -> (length js < length (cells m))%nat -> exists cc, nth_error (cells m) (length js) = Some cc /\
  nth_error (cells m1) (length js) = Some cc /\ materials m1 = materials m /\ incrementASCIINumber (cell_set (length js)) = Ret (cell_set (S (length js))).
Proof.
  intros (_ & _ & _ & _ & E5 & _ & _ & _ & Er) Hlt. destruct (nth_error (cells m) (length js)) as [cc|] eqn:E; [|apply nth_error_None in E; lia].
  exists cc. rewrite Er by lia. repeat split; auto. apply cell_set_next. lia.
Qed.
Lemma loop_ok rest : forall js m1, updated m js m1 -> (length js + length rest = length (cells m))%nat -> each accepted checks a m (js ++ rest) ->
  exists m' nm, loop (length rest) (length js) step (m1, cell_set (length js)) = Ret ((m', nm), true) /\ updated m (js ++ rest) m'.
Proof.
  induction rest as [|((k, x), mats) rest IH]; intros js m1 Hu Hl He; cbn [length loop] in *.
  - exists m1, (cell_set (length js)). rewrite app_nil_r. auto.
  - destruct (at_cell js m1 Hu ltac:(lia)) as (cc & Hc & Hc1 & Em & En).
    rewrite (step_ok stdsort Hsort selfcheck Hself junk checks exit s a Hst Hco Hid Has Hpl m1 _ cc k x mats _ Hc1 ltac:(rewrite Em; auto) En).
    + cbn [bind snd fst]. replace (S (length js)) with (length (js ++ [(k, x, mats)])) by (rewrite app_length; cbn; lia).
      replace (js ++ (k, x, mats) :: rest) with ((js ++ [(k, x, mats)]) ++ rest) in * by now rewrite <- app_assoc.
      apply IH; auto; [|rewrite app_length; cbn; lia]. now apply updated_next.
    + rewrite Em. apply (He _ _ _ _ _ Hc). rewrite nth_error_app2, Nat.sub_diag by lia. reflexivity.
Qed.
Lemma loop_inv n : forall js m1 m' nm go, updated m js m1 -> (length js + n = length (cells m))%nat -> each accepted checks a m js ->
  loop n (length js) step (m1, cell_set (length js)) = Ret ((m', nm), go) ->
  exists js', each accepted checks a m js' /\
    ((length js' = length (cells m) /\ updated m js' m') \/
     (exit = false /\ exists cc m2 t mats, nth_error (cells m) (length js') = Some cc /\ updated m js' m2 /\
        put_cell m2 (length js') (mkCell (xy_extents cc) t (mesh_id cc) mats) = Ret m' /\
        forall k x mats, ~ imports accepted checks a (materials m) (xy_extents cc) (length js') k x mats)).
Proof.
  induction n as [|n IH]; intros js m1 m' nm go Hu Hl He; cbn [loop].
  - intros E. injection E as <- <- <-. exists js. split; auto. left. split; auto. lia.
  - destruct (at_cell js m1 Hu ltac:(lia)) as (cc & Hc & Hc1 & Em & En).
    destruct (step _ _) as [(st, g)| | |] eqn:Es; try discriminate. cbn [bind snd fst].
    pose proof (step_inv stdsort Hsort selfcheck Hself junk checks exit s a Hst Hco Hid Has Hpl m1 _ cc _ st g Hc1 ltac:(rewrite Em; auto) En Es) as
      [(-> & k & x & mats & Hi & ->)|(-> & Hex & t & mats & Hp)].
    + intros Hr. replace (S (length js)) with (length (js ++ [(k, x, mats)])) in Hr by (rewrite app_length; cbn; lia).
      eapply IH; [| | |exact Hr].
      * now apply updated_next.
      * rewrite app_length. cbn. lia.
      * intros i c k' x' mats' Hci Hji. destruct (Nat.eq_dec i (length js)) as [->|Hne].
        -- rewrite nth_error_app2, Nat.sub_diag in Hji by lia. injection Hji as <- <- <-. rewrite Em in Hi. congruence.
        -- assert (i < length (js ++ [(k, x, mats)]))%nat by (apply nth_error_Some; congruence). rewrite app_length in H. cbn in H.
           rewrite nth_error_app1 in Hji by lia. eauto.
    + intros E. destruct st as (m2, nm'). injection E as <- <- <-. exists js. split; auto. right. split; auto. exists cc, m1, t, mats. repeat (split; [assumption|]).
      intros k x mats' Hi. rewrite <- Em in Hi.
      rewrite (step_ok stdsort Hsort selfcheck Hself junk checks exit s a Hst Hco Hid Has Hpl m1 _ cc k x mats' _ Hc1 ltac:(rewrite Em; auto) En Hi) in Es. discriminate.
Qed.

Hypothesis Hne : materials m <> [].
Notation import := (importCoarseCellMeshes stdsort selfcheck junk checks exit m s).
Lemma nonempty : negb (length (materials m) =? 0)%nat = true.
Proof. destruct (materials m); [congruence|reflexivity]. Qed.
Lemma import_ok js m' : length js = length (cells m) -> each accepted checks a m js -> updated m js m' -> import = Ret m'.
Proof.
  intros Hl He Hu. unfold importCoarseCellMeshes. rewrite nonempty, assert_true.
  destruct (loop_ok js [] m (updated_nil m) Hl He) as (m'' & nm & E & Hu').
  cbn [length] in E. rewrite Hl in E. etransitivity; [exact (f_equal (fun o => let* r := o in Ret (fst (fst r))) E)|]. cbn [bind fst]. f_equal. eapply updated_fun; eauto.
Qed.
Lemma import_inv m' : import = Ret m' -> exists js', each accepted checks a m js' /\
    ((length js' = length (cells m) /\ updated m js' m') \/
     (exit = false /\ exists cc m2 t mats, nth_error (cells m) (length js') = Some cc /\ updated m js' m2 /\
        put_cell m2 (length js') (mkCell (xy_extents cc) t (mesh_id cc) mats) = Ret m' /\
        forall k x mats, ~ imports accepted checks a (materials m) (xy_extents cc) (length js') k x mats)).
Proof.
  unfold importCoarseCellMeshes. rewrite nonempty, assert_true.
  destruct (loop _ _ _ _) as [((m1, nm), go)| | |] eqn:E; try discriminate. cbn [bind fst]. intros H. injection H as <-.
  apply (loop_inv (length (cells m)) [] m m1 nm go); auto; [apply updated_nil|]. intros i c k x mats _ H. destruct i; discriminate.
Qed.
End Loop.

(** the mesh of a subset *)
Lemma outline_ok a n ids c k : planar a -> subset_of a n ids c -> (forall t conn, In (t, conn) (a_elems c) -> t = elem_type k) -> mesh_ok k (outline c).
Proof.
  intros Hpl (used & _ & _ & Hv & F & _) Ht conn Hc. cbn [outline fv mv] in *. apply in_map_iff in Hc as ((t, conn') & <- & Hin). pose proof (Ht t conn' Hin) as ->. cbn [snd].
  apply In_nth_error in Hin as (p & Hp). destruct (F2_nth_r _ _ _ F p _ Hp) as (id & Hi & t & c1 & c2 & N & E & F'). injection E as <- <-.
  split.
  - apply Forall2_length in F'. rewrite <- F'. apply (proj1 Hpl). eapply nth_error_In; eauto.
  - intros v Hin. rewrite map_length. apply In_nth_error in Hin as (q & Hq). destruct (F2_nth_r _ _ _ F' q _ Hq) as (w & _ & Hr).
    apply Forall2_length in Hv. rewrite <- Hv. destruct Hr as (Hr & Hr'). assert (Z.to_nat v < length used)%nat by (apply nth_error_Some; congruence). lia.
Qed.
(** every job has as many materials as faces, all of them in the model *)
Lemma imports_faces stdsort selfcheck checks a ms ext i k x mats : keeps_faces selfcheck -> ids_ok a -> content_ok a -> planar a ->
  imports (fun k x x' => validated stdsort selfcheck k x = Ret x') checks a ms ext i k x mats -> length mats = length (fv x) /\ Forall (exists_in ms) mats.
Proof.
  intros Hk Hid Hco Hpl (e & c & x' & x0 & y0 & x1 & y1 & He & En & Sc & Ht & Ev & Eb & -> & Hn & HT & HK). split.
  - pose proof (outline_ok _ _ _ _ _ Hpl Sc Ht) as Mo. apply Forall2_length in HT. rewrite <- HT. destruct Sc as (used & _ & _ & Hv & F & _).
    destruct (validated_ok _ _ _ _ _ Hk Mo Ev) as (_ & L & _). cbn [moved fv]. rewrite L. cbn. rewrite map_length. apply Forall2_length in F. congruence.
  - apply Forall_forall. intros z Hz. apply In_nth_error in Hz as (j & Hj). destruct (F2_nth_r _ _ _ HT j _ Hj) as (id & _ & (b & e1 & af & n & _ & _ & _ & Hf & _)).
    now apply first_called_range in Hf.
Qed.
Lemma updated_valid stdsort selfcheck checks a m js m' : keeps_faces selfcheck -> ids_ok a -> content_ok a -> planar a ->
  length js = length (cells m) -> each (fun k x x' => validated stdsort selfcheck k x = Ret x') checks a m js -> updated m js m' -> ids_valid m -> ids_valid m'.
Proof.
  intros Hk Hid Hco Hpl Hl He (E1 & E2 & E3 & E4 & E5 & Em & El & Ec & Er) [V1 V2 V3 V4 V5]. constructor.
  - now rewrite E1, E2.
  - now rewrite E2, E3.
  - now rewrite E3, E4.
  - rewrite E4. intros r Hr. specialize (V4 r Hr). eapply Forall_impl; [|exact V4]. intros z. unfold exists_in. now rewrite El.
  - intros c Hc. apply In_nth_error in Hc as (i & Hi). assert (Hlt : (i < length (cells m))%nat) by (rewrite <- El; apply nth_error_Some; congruence).
    destruct (nth_error (cells m) i) as [c0|] eqn:E0; [|apply nth_error_None in E0; lia].
    destruct (nth_error js i) as [((k, x), mats)|] eqn:Ej; [|apply nth_error_None in Ej; lia].
    rewrite (Ec _ _ _ _ _ E0 Ej) in Hi. injection Hi as <-. cbn [xy_extents mtype mesh_id material_ids].
    destruct (V5 c0 (nth_error_In _ _ E0)) as (P1 & P2 & _). split; [exact P1|]. split; [exact P2|]. right. exists x.
    destruct (imports_faces _ _ _ _ _ _ _ _ _ _ Hk Hid Hco Hpl (He _ _ _ _ _ E0 Ej)) as (Lm & Fm). rewrite E5. split; [|auto].
    assert (Hn : nth_error (meshes m' k) (length (meshes m k ++ of_kind k (firstn i js))) = Some x).
    { rewrite Em. rewrite <- (firstn_skipn i js) at 1. rewrite of_kind_app, app_assoc.
      rewrite nth_error_app2, Nat.sub_diag by lia.
      replace (skipn i js) with ((k, x, mats) :: skipn (S i) js).
      - unfold of_kind. cbn [filter fst]. replace (kind_eq k k) with true by now destruct k. reflexivity.
      - clear - Ej. revert i Ej. induction js as [|j js IH]; intros [|i] E; try discriminate; cbn in *; [congruence|]. now apply IH. }
    destruct k; cbn [mesh_at type_of meshes] in *; split; try lia; now rewrite Nat2Z.id.
Qed.
Lemma imports_validation stdsort selfcheck checks a ms ext i k x mats : sort_contract stdsort -> planar a ->
  (imports (fun k x x' => validated stdsort selfcheck k x = Ret x') checks a ms ext i k x mats <-> imports (validation selfcheck) checks a ms ext i k x mats).
Proof.
  intros Hs Hpl. split; intros (e & c & x' & x0 & y0 & x1 & y1 & He & En & Sc & Ht & Ev & H); exists e, c, x', x0, y0, x1, y1; repeat (split; [assumption|]); (split; [|exact H]);
    apply (validated_iff stdsort selfcheck k (outline c) x' Hs eq_refl); auto; eapply outline_ok; eauto.
Qed.
Lemma each_validation stdsort selfcheck checks a m js : sort_contract stdsort -> planar a ->
  (each (fun k x x' => validated stdsort selfcheck k x = Ret x') checks a m js <-> each (validation selfcheck) checks a m js).
Proof. intros Hs Hpl. split; intros H i c k x mats H1 H2; apply (imports_validation stdsort); auto; eapply H; eauto. Qed.
Lemma put_cell_with m i c m' : put_cell m i c = Ret m' -> with_cell m i c m'.
Proof.
  unfold put_cell, wr. destruct (i <? length (cells m))%nat eqn:Hi; [|discriminate]. apply Nat.ltb_lt in Hi. cbn [bind]. intros E. injection E as <-.
  do 6 (split; [reflexivity|]). cbn [cells]. split; [apply upd_length|]. split; [now apply nth_error_upd_eq|].
  intros j Hj. apply nth_error_upd_neq. congruence.
Qed.
Lemma checkSelf_keeps dbg fuel buf : keeps_faces (checkSelfIntersections Rarith eps dbg fuel buf).
Proof.
  intros k x x' Hq Hm E. destruct (check_api Rarith eps dbg fuel k buf x x' Hq (fun c Hc => proj1 (Hm c Hc)) E) as ((Hf & _ & _ & _ & _ & Hl & _) & _). auto.
Qed.
