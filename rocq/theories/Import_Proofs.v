(** Importing the mesh of one cell. *)
From Coq Require Import String.
From Coq Require Import List Arith ZArith Lia Bool Reals Lra Sorting.Sorted.
From Verif Require Import Base Own Loops Arith Box_Model Box_Proofs TextIo_Model Ascii_Model Elem_Model Soup_Model Soup_Spec Soup_Proofs Soup_Subset_Proofs Sort_Spec
  PinCyl_Model Grid_Model Fvm_Model Fvm_Spec Fvm_Query_Proofs Mpact_Model Mpact_Spec Export_Model Export_Spec Import_Model Import_Spec Import_Sets_Proofs Import_Mesh_Proofs.
Import ListNotations.
Local Open Scope list_scope.
Local Open Scope R_scope.

Lemma int8_id z : (0 <= z < 128)%Z -> to_int8 z = z.
Proof. intros H. unfold to_int8. rewrite Z.mod_small by lia. lia. Qed.
Lemma near_ok u v : Mpact_Model.isApprox u v = true <-> near (fst u) (snd u) (fst v) (snd v).
Proof. unfold Mpact_Model.isApprox, near. now rewrite Rltb_true. Qed.
Lemma put_cell_ok m i c : (i < length (cells m))%nat -> put_cell m i c =
  Ret (mkModel (core m) (assemblies m) (lattices m) (rtms m) (upd (cells m) i c) (materials m) (tris m) (quads m) (tri6s m) (quad8s m)).
Proof. intros H. unfold put_cell. now rewrite wr_ok. Qed.

Section Step.
Variable stdsort : forall A : Type, (A -> A -> bool) -> list A -> list A.
Hypothesis Hsort : sort_contract stdsort.
Variable selfcheck : mesh R -> outcome (mesh R).
Hypothesis Hself : keeps_faces selfcheck.
Variable junk : R * R.
Variables checks exit : bool.
Variable s : soup (R * R * R) R.
Variable a : asoup (R * R * R) R.
Hypotheses (Hst : stores s a) (Hco : content_ok a) (Hid : ids_ok a) (Has : Soup_Spec.ascending (a_elsets a)) (Hpl : planar a).
Notation valid := (validated stdsort selfcheck).
Notation accepted := (fun k x x' => validated stdsort selfcheck k x = Ret x').

Definition known_a (ms : list material) (e : elset R) : Prop :=
  forall e' n id, In e' (a_elsets a) -> material_set e' n -> In id (es_ids e) -> In id (es_ids e') -> exists z, first_called ms n z.

Lemma ids_NoDup e : In e (a_elsets a) -> NoDup (es_ids e).
Proof. intros He. apply sorted_NoDup. unfold Soup_Spec.ascending in Has. rewrite Forall_forall in Has. auto. Qed.
Lemma touching_in n ids l (e : elset R) : In e (touching n ids l) <-> In e l /\ es_name e <> n /\ exists id, In id ids /\ In id (es_ids e).
Proof.
  unfold touching. rewrite filter_In, andb_true_iff. destruct (list_eq_dec Z.eq_dec (es_name e) n) as [E|E].
  - split; [intros (_ & F & _); discriminate|intros (_ & F & _); contradiction].
  - rewrite existsb_exists. split.
    + intros (H & _ & id & Hi & Hx). apply existsb_exists in Hx as (y & Hy & E'). apply Z.eqb_eq in E'. subst y. eauto.
    + intros (H & _ & id & Hi & Hx). repeat split; auto. exists id. split; auto. apply existsb_exists. exists id. split; auto. apply Z.eqb_refl.
Qed.
Lemma known_iff ms e c i : es_name e = cell_set i -> subset_of a (es_name e) (es_ids e) c -> (known ms (a_elsets c) <-> known_a ms e).
Proof.
  intros En (used & _ & _ & _ & _ & F). split.
  - intros K e' n id He' M Hi Hi'.
    assert (T : In e' (touching (es_name e) (es_ids e) (a_elsets a))).
    { apply touching_in. repeat split; eauto. unfold material_set in M. rewrite M, En. intros E. now apply eq_sym, cell_not_material in E. }
    apply In_nth_error in T as (p & Hp). destruct (F2_nth _ _ _ F p _ Hp) as (e2 & H2 & (Hn & _)). apply (K e2 n); [eapply nth_error_In; eauto|].
    unfold material_set in *. congruence.
  - intros K e2 n He2 M. apply In_nth_error in He2 as (p & Hp). destruct (F2_nth_r _ _ _ F p _ Hp) as (e' & H2 & (Hn & _)).
    apply nth_error_In, touching_in in H2 as (He' & _ & id & Hi & Hi'). apply (K e' n id); auto. unfold material_set in *. congruence.
Qed.
Lemma subset_ctx i e : In e (a_elsets a) -> es_name e = cell_set i -> exists u c,
  getSubset stdsort s (cell_set i) empty_soup = Ret (u, false) /\ stores u c /\ content_ok c /\ ids_ok c /\
  subset_of a (es_name e) (es_ids e) c /\ length (a_elems c) = length (es_ids e) /\ a_elems c <> [].
Proof.
  intros He En. destruct (getSubset_ok stdsort Hsort s a e Hst Hco Hid He Has) as (u & c & E & Su & Sc & Cc & Ic & _).
  exists u, c. rewrite <- En. repeat (split; [assumption|]).
  destruct Sc as (used & _ & _ & _ & F & _). apply Forall2_length in F. split; [congruence|].
  destruct Hco as (_ & Hok). rewrite Forall_forall in Hok. destruct (Hok e He) as (Hne & _). intros E0. rewrite E0 in F. destruct (es_ids e); [congruence|discriminate].
Qed.
Lemma mark_final ms e i u c : (Z.of_nat (length ms) <= 128)%Z -> In e (a_elsets a) -> es_name e = cell_set i -> stores u c -> content_ok c -> ids_ok c ->
  subset_of a (es_name e) (es_ids e) c ->
  (known_a ms e /\ exists mats, mark checks u ms (snames u) (repeat (-1)%Z (length (etypes u))) = Ret (mats, true) /\ length mats = length (es_ids e) /\
     forall j id, nth_error (es_ids e) j = Some id ->
       (silent (a_elsets a) id /\ nth_error mats j = Some (-1)%Z) \/ exists z, told a ms id z /\ nth_error mats j = Some z) \/
  (~ known_a ms e /\ exists mats, mark checks u ms (snames u) (repeat (-1)%Z (length (etypes u))) = Ret (mats, false)).
Proof.
  intros Hms He En Su Cc Ic Sc. assert (En' : snames u = map es_name (a_elsets c)) by apply Su.
  assert (Et : length (etypes u) = length (a_elems c)) by (destruct Su as (_ & -> & _); apply map_length).
  assert (El : length (a_elems c) = length (es_ids e)) by (destruct Sc as (used & _ & _ & _ & F & _); apply Forall2_length in F; congruence).
  rewrite En', Et. destruct (mark_ok checks u c ms Su Cc Ic (a_elsets c) (incl_refl _) (repeat (-1)%Z (length (a_elems c))) (repeat_length _ _)) as [(K & mats & E & L & N)|(K & mats & E & _)].
  - left. split; [now apply (known_iff ms e c i)|]. exists mats. rewrite repeat_length in L. split; [exact E|]. split; [congruence|].
    intros j id Hj. assert (Hlt : (j < length (a_elems c))%nat) by (rewrite El; apply nth_error_Some; congruence).
    destruct Sc as (used & _ & _ & _ & _ & F).
    destruct (touching_told (es_name e) (es_ids e) ms (ids_NoDup e He) ltac:(intros x; rewrite En; apply cell_not_material) j id Hj (a_elsets a) _ F) as (HS & HT).
    destruct (N j ltac:(rewrite repeat_length; exact Hlt)) as [(Hs & Hv)|(z & T & Hv)].
    + left. split; [now apply HS|]. rewrite Hv. now apply nth_error_repeat.
    + right. exists z. split; [now apply HT|]. rewrite Hv, int8_id; auto. destruct T as (b & e1 & af & n & _ & _ & _ & Hf & _). apply first_called_range in Hf. lia.
  - right. split; [intros K'; apply K; now apply (known_iff ms e c i)|]. now exists mats.
Qed.

(** the elements of a subset *)
Lemma subset_mesh e i c k : In e (a_elsets a) -> es_name e = cell_set i -> ids_ok c -> subset_of a (es_name e) (es_ids e) c -> a_elems c <> [] ->
  (forall t conn, In (t, conn) (a_elems c) -> t = elem_type k) ->
  mesh_ok k (outline c) /\ fv (outline c) <> [] /\ mv (outline c) <> [] /\
  forall u, stores u c -> from_soup far junk (valid k) k u = valid k (outline c).
Proof.
  intros He En Ic (used & _ & _ & Vu & Eu & _) Ne Ht.
  assert (Hlen : forall t conn, In (t, conn) (a_elems c) -> t = elem_type k /\ length conn = nverts k).
  { intros t conn Hin. split; [now apply (Ht t conn)|]. pose proof (Ht t conn Hin) as ->.
    apply In_nth_error in Hin as (p & Hp). destruct (F2_nth_r _ _ _ Eu p _ Hp) as (id & Hi & t & c1 & c2 & N & E & F). injection E as <- <-.
    apply Forall2_length in F. rewrite <- F. apply (proj1 Hpl). eapply nth_error_In; eauto. }
  assert (Hv : a_verts c <> []).
  { destruct (a_elems c) as [|(t, conn) l] eqn:El; [congruence|]. destruct (Hlen t conn (or_introl eq_refl)) as (_ & L).
    destruct conn as [|v conn]; [destruct k; discriminate|]. pose proof (proj1 Ic t (v :: conn) v) as Hr. rewrite El in Hr. specialize (Hr (or_introl eq_refl) (or_introl eq_refl)).
    intros E. rewrite E in Hr. cbn in Hr. lia. }
  split; [|split; [|split]].
  - intros conn Hc. cbn [outline fv mv] in *. apply in_map_iff in Hc as ((t, conn') & <- & Hin). split; [now apply (Hlen t)|].
    cbn [snd]. intros v Hv'. rewrite map_length. now apply (proj1 Ic t conn').
  - cbn. intros E. apply map_eq_nil in E. contradiction.
  - cbn. intros E. apply map_eq_nil in E. contradiction.
  - intros u Su. destruct (a_verts c) as [|v0 vs] eqn:Ev; [congruence|].
    rewrite (from_soup_ok far junk (valid k) k u c v0); auto.
    + now rewrite Ev.
    + intros p Hp. unfold far. apply Rltb_false.
      assert (Hin : forall q, In q (a_verts c) -> In q (a_verts a)).
      { intros q Hq. apply In_nth_error in Hq as (j & Hj). rewrite Ev in Hj. destruct (F2_nth_r _ _ _ Vu j q Hj) as (w & _ & N). eapply nth_error_In; eauto. }
      apply (proj2 Hpl); apply Hin; auto. rewrite Ev. now left.
Qed.

Definition filled (m : model) (i : nat) (cc : cell) (k : kind) (x : mesh R) (mats : list Z) : model :=
  let m := push_mesh m k x in
  mkModel (core m) (assemblies m) (lattices m) (rtms m)
    (upd (cells m) i (mkCell (xy_extents cc) (type_of k) (Z.of_nat (length (meshes m k)) - 1) mats)) (materials m) (tris m) (quads m) (tri6s m) (quad8s m).

Lemma final_step m i cc k x mats nm (u : soup (R * R * R) R) t c x' : nth_error (cells m) i = Some cc -> t = type_of k ->
  from_soup far junk (valid k) k u = valid k (outline c) -> valid k (outline c) = Ret x' ->
  forall x0 y0 x1 y1, box_of k x' = Ret (mkBox [x0; y0] [x1; y1]) -> x = moved x0 y0 x' ->
  (let* m := put_cell m i (mkCell (xy_extents cc) t (mesh_id cc) mats) in
   let id := num_meshes m k in
   let* x := from_soup far junk (valid k) k u in
   let* b := box_of k x in
   let* x0 := rd (bmin b) 0 in let* y0 := rd (bmin b) 1 in
   let* x1 := rd (bmax b) 0 in let* y1 := rd (bmax b) 1 in
   let m := push_mesh m k (shift x0 y0 x) in
   let* m := put_cell m i (mkCell (xy_extents cc) t id mats) in
   Mpact_Model.assert checks (Mpact_Model.isApprox (x1 - x0, y1 - y0) (xy_extents cc)) (Ret ((m, nm), true))) =
  Mpact_Model.assert checks (Mpact_Model.isApprox (x1 - x0, y1 - y0) (xy_extents cc)) (Ret ((filled m i cc k x mats, nm : list Z), true)).
Proof.
  intros Hc -> Ef Ev x0 y0 x1 y1 Eb ->. assert (Hi : (i < length (cells m))%nat) by (apply nth_error_Some; congruence).
  rewrite put_cell_ok by auto. cbn [bind]. rewrite Ef, Ev. cbn [bind]. rewrite Eb. cbn [bind]. unfold rd. cbn [nth_error bmin bmax bind].
  rewrite put_cell_ok by (destruct k; cbn [push_mesh set_meshes cells]; rewrite upd_length; auto). cbn [bind].
  f_equal. f_equal. f_equal. f_equal. unfold filled.
  destruct k; cbn [push_mesh set_meshes cells core assemblies lattices rtms materials tris quads tri6s quad8s num_meshes meshes]; f_equal;
    rewrite upd_upd; f_equal; f_equal; unfold size; rewrite app_length; cbn [length]; lia.
Qed.

Notation step := (import_cell stdsort selfcheck junk checks exit s).
(** the cell has its mesh: the step takes it *)
Lemma step_ok m i cc k x mats nm : nth_error (cells m) i = Some cc -> (Z.of_nat (length (materials m)) <= 128)%Z ->
  incrementASCIINumber (cell_set i) = Ret nm ->
  imports accepted checks a (materials m) (xy_extents cc) i k x mats -> step i (m, cell_set i) = Ret ((filled m i cc k x mats, nm), true).
Proof.
  intros Hc Hms Hnm (e & c0 & x' & x0 & y0 & x1 & y1 & He & En & Sc0 & Ht & Ev & Eb & Ex & Hn & HT & HK).
  destruct (subset_ctx i e He En) as (u & c & Eg & Su & Cc & Ic & Sc & Lc & Ne).
  destruct (subset_unique _ _ _ _ _ _ Sc0 Sc) as (EV & EE). assert (EO : outline c0 = outline c) by (unfold outline; now rewrite EV, EE).
  rewrite EO in Ev. rewrite EE in Ht. clear Sc0 EV EE EO c0.
  unfold import_cell. rewrite Eg. cbn [bind andb]. rewrite Hnm. cbn [bind].
  assert (Hk : kind_of (mt_of (getMeshType (getElemTypes (etypes u)))) = Some k).
  { apply types_kind. destruct Su as (_ & -> & _). split; [intros E; apply map_eq_nil in E; contradiction|].
    intros t Hin. apply in_map_iff in Hin as ((t', conn) & <- & Hin). now apply (Ht t' conn). }
  pose proof (proj1 (kind_type _ _) Hk) as Hty. set (t := mt_of _) in *. clearbody t. rewrite Hk, Hty.
  replace (match type_of k with MT_Invalid | MT_TriQuad | MT_Tri6Quad8 => false | _ => true end) with true by now destruct k.
  rewrite assert_true. rewrite (proj2 (rd_Ret _ _ _) Hc). cbn [bind].
  destruct (mark_final (materials m) e i u c Hms He En Su Cc Ic Sc) as [(_ & mats' & Em & Lm & Nm)|(K & _)]; [|now exfalso].
  rewrite Em. cbn [bind].
  assert (mats' = mats) as ->.
  { apply nth_error_ext. intros j. destruct (nth_error (es_ids e) j) as [id|] eqn:Ej.
    - destruct (F2_nth _ _ _ HT j id Ej) as (z & Hz & T). rewrite Hz. destruct (Nm j id Ej) as [(Hs & _)|(z' & T' & ->)].
      + now apply told_not_silent in T.
      + f_equal. eapply told_fun; eauto.
    - apply Forall2_length in HT. apply nth_error_None in Ej. rewrite !(proj2 (nth_error_None _ _)); auto; lia. }
  assert (Hpos : existsb (Z.eqb (-1)) mats = false).
  { apply not_true_is_false. intros E. apply existsb_exists in E as (z & Hz & E). apply Z.eqb_eq in E. subst z.
    apply In_nth_error in Hz as (j & Hj). destruct (F2_nth_r _ _ _ HT j _ Hj) as (id & _ & (b & e1 & af & n & _ & _ & _ & Hf & _)). apply first_called_range in Hf. lia. }
  destruct (subset_mesh e i c k He En Ic Sc Ne Ht) as (Mo & Mf & Mv & Efs).
  destruct (validated_ok _ _ _ _ _ Hself Mo Ev) as (Mo' & Lf & Lv).
  destruct (box_of_ok k x' Mo') as (p & q & r & w & Eb' & Hb).
  { destruct (fv x'); [|discriminate]. destruct (fv (outline c)); [congruence|discriminate]. }
  { destruct (mv x'); [|discriminate]. destruct (mv (outline c)); [congruence|discriminate]. }
  destruct (box_unique _ _ _ _ _ _ _ _ _ _ Eb Hb) as (-> & -> & -> & ->).
  pose proof (final_step m i cc k x mats nm u (type_of k) c x' Hc eq_refl (Efs u Su) Ev p q r w Eb' Ex) as FS.
  rewrite put_cell_ok in FS |- * by (apply nth_error_Some; congruence). cbn [bind] in FS |- *. cbn [negb]. rewrite Hpos.
  etransitivity; [exact FS|]. replace (Mpact_Model.isApprox (r - p, w - q) (xy_extents cc)) with (if checks then true else Mpact_Model.isApprox (r - p, w - q) (xy_extents cc)).
  - destruct checks; [apply assert_true|reflexivity].
  - destruct checks; auto. symmetry. apply near_ok. now apply Hn.
Qed.
(** what the step does otherwise *)
Lemma step_inv m i cc nm st go : nth_error (cells m) i = Some cc -> (Z.of_nat (length (materials m)) <= 128)%Z ->
  incrementASCIINumber (cell_set i) = Ret nm -> step i (m, cell_set i) = Ret (st, go) ->
  (go = true /\ exists k x mats, imports accepted checks a (materials m) (xy_extents cc) i k x mats /\ st = (filled m i cc k x mats, nm)) \/
  (go = false /\ exit = false /\ exists t mats, put_cell m i (mkCell (xy_extents cc) t (mesh_id cc) mats) = Ret (fst st)).
Proof.
  intros Hc Hms Hnm Hst'. assert (Hi : (i < length (cells m))%nat) by (apply nth_error_Some; congruence).
  assert (Halt : forall t mats r, (let* m' := put_cell m i (mkCell (xy_extents cc) t (mesh_id cc) mats) in (if exit then Fail else Ret ((m', nm), false))) = Ret r ->
    r = (st, go) -> (go = false /\ exit = false /\ exists t mats, put_cell m i (mkCell (xy_extents cc) t (mesh_id cc) mats) = Ret (fst st))).
  { intros t mats r E ->. rewrite put_cell_ok in E by auto. cbn [bind] in E. destruct exit; [discriminate|]. injection E as <- <-. repeat split. exists t, mats. now rewrite put_cell_ok. }
  destruct (in_dec (list_eq_dec Z.eq_dec) (cell_set i) (map es_name (a_elsets a))) as [Hin|Hin].
  - apply in_map_iff in Hin as (e & En & He).
    destruct (subset_ctx i e He En) as (u & c & Eg & Su & Cc & Ic & Sc & Lc & Ne).
    unfold import_cell in Hst'. rewrite Eg in Hst'. cbn [bind andb] in Hst'. rewrite Hnm in Hst'. cbn [bind] in Hst'.
    assert (Hty : forall k, kind_of (mt_of (getMeshType (getElemTypes (etypes u)))) = Some k -> forall t conn, In (t, conn) (a_elems c) -> t = elem_type k).
    { intros k Hk t conn Hin. apply types_kind in Hk as (_ & Hk). apply Hk. destruct Su as (_ & -> & _). apply in_map_iff. exists (t, conn). auto. }
    set (t := mt_of _) in *. clearbody t. unfold Mpact_Model.assert at 1 in Hst'. destruct (checks && _); [discriminate|].
    rewrite (proj2 (rd_Ret _ _ _) Hc) in Hst'. cbn [bind] in Hst'.
    destruct (mark_final (materials m) e i u c Hms He En Su Cc Ic Sc) as [(HK & mats & Em & Lm & Nm)|(_ & mats & Em)]; rewrite Em in Hst'; cbn [bind] in Hst'.
    + cbn [negb] in Hst'. destruct (existsb (Z.eqb (-1)) mats) eqn:Hpos.
      * right. eapply (Halt t mats); [exact Hst'|reflexivity].
      * destruct (kind_of t) as [k|] eqn:Hk.
        -- left. pose proof (proj1 (kind_type _ _) Hk) as Ht. specialize (Hty k eq_refl).
           destruct (subset_mesh e i c k He En Ic Sc Ne Hty) as (Mo & Mf & Mv & Efs).
           rewrite put_cell_ok in Hst' by auto. cbn [bind] in Hst'. rewrite (Efs u Su) in Hst'.
           assert (exists x', valid k (outline c) = Ret x') as (x' & Ev) by (destruct (valid k (outline c)); try discriminate; eauto).
           destruct (validated_ok _ _ _ _ _ Hself Mo Ev) as (Mo' & Lf & Lv).
           destruct (box_of_ok k x' Mo') as (p & q & r & w & Eb' & Hb).
           { destruct (fv x'); [|discriminate]. destruct (fv (outline c)); [congruence|discriminate]. }
           { destruct (mv x'); [|discriminate]. destruct (mv (outline c)); [congruence|discriminate]. }
           pose proof (final_step m i cc k (moved p q x') mats nm u t c x' Hc Ht (Efs u Su) Ev p q r w Eb' eq_refl) as FS.
           rewrite put_cell_ok in FS by auto. cbn [bind] in FS. rewrite (Efs u Su) in FS.
           pose proof (eq_trans (eq_sym FS) Hst') as Hst''. clear Hst' FS. rename Hst'' into Hst'.
           assert (Hn : checks = true -> near (r - p) (w - q) (fst (xy_extents cc)) (snd (xy_extents cc))).
           { intros Hch. unfold Mpact_Model.assert in Hst'. rewrite Hch in Hst'. cbn [andb] in Hst'.
             destruct (Mpact_Model.isApprox (r - p, w - q) (xy_extents cc)) eqn:Ea; [|discriminate]. now apply near_ok in Ea. }
           unfold Mpact_Model.assert in Hst'. destruct (checks && _); [discriminate|]. injection Hst' as <- <-. split; auto.
           exists k, (moved p q x'), mats. split; [|reflexivity].
           exists e, c, x', p, q, r, w. repeat (split; [assumption||reflexivity|]). split; [|exact HK].
           apply Forall2_nth_intro; [congruence|]. intros j id z Hj Hz. destruct (Nm j id Hj) as [(_ & Hz')|(z' & T & Hz')].
           ++ exfalso. assert (existsb (Z.eqb (-1)) mats = true); [|congruence]. apply existsb_exists. exists (-1)%Z. split; [eapply nth_error_In; eauto|reflexivity].
           ++ congruence.
        -- right. eapply (Halt t mats); [exact Hst'|reflexivity].
    + right. cbn [negb] in Hst'. eapply (Halt t mats); [exact Hst'|reflexivity].
  - right. unfold import_cell in Hst'. rewrite (getSubset_unknown stdsort s empty_soup a (cell_set i) Hst Hin) in Hst'. cbn [bind andb] in Hst'.
    destruct exit eqn:Hex; [discriminate|]. cbn [andb] in Hst'. rewrite Hnm in Hst'. cbn [bind] in Hst'.
    unfold Mpact_Model.assert at 1 in Hst'. destruct (checks && _); [discriminate|].
    rewrite (proj2 (rd_Ret _ _ _) Hc) in Hst'. cbn [bind] in Hst'. cbn [empty_soup snames etypes mark repeat length bind negb existsb] in Hst'.
    eapply (Halt MT_Invalid []); [exact Hst'|reflexivity].
Qed.
End Step.
