(** Reading the document of a model: what has been found at the end. *)
From Coq Require Import String.
From Coq Require Import List Arith ZArith Lia Bool Reals Lra.
From Verif Require Import Base Loops Arith Box_Model StringView_Model Logger_Model TextIo_Model TextIo_Spec Elem_Model
  Soup_Model Soup_Spec Soup_Proofs XSec_Model PinCyl_Model Grid_Model Grid_Spec Fvm_Model Fvm_Spec Xdmf_Model Xdmf_Spec Xdmf_Proofs Mpact_Model Mpact_Spec Mpact_Proofs Mpact_Accept_Proofs
  Export_Model Export_Spec Export_Sets_Proofs Export_Cell_Proofs Export_Loop_Proofs Export_Proofs Import_Model Import_Spec Import_Sets_Proofs ModelIo_Model ModelIo_Spec
  ModelIo_Text_Proofs ModelIo_Grid_Proofs ModelIo_Cell_Proofs ModelIo_Write_Proofs.
Import ListNotations.
Local Open Scope list_scope.

(** ** Rows of ids *)
Lemma rev_upd {A} (l : list A) i a : (i < length l)%nat -> rev (upd l i a) = upd (rev l) (length l - 1 - i) a.
Proof.
  intros H. apply nth_error_ext. intros k. destruct (le_lt_dec (length l) k) as [G|G].
  - rewrite !(proj2 (nth_error_None _ _)); auto; rewrite ?rev_length, ?upd_length, ?rev_length; auto.
  - assert (R : forall (q : list A), length q = length l -> nth_error (rev q) k = nth_error q (length l - 1 - k)).
    { intros q E. destruct (nth_error q (length l - 1 - k)) as [z|] eqn:Ez; [|apply nth_error_None in Ez; lia].
      rewrite <- Ez. rewrite (nth_error_nth' (rev q) z) by (rewrite rev_length; lia). rewrite (nth_error_nth' q z) by lia.
      f_equal. rewrite rev_nth by lia. f_equal. lia. }
    rewrite R by apply upd_length. destruct (Nat.eq_dec (length l - 1 - k) i) as [E|E].
    + rewrite E. rewrite nth_error_upd_eq by auto. replace k with (length l - 1 - i)%nat by lia. rewrite nth_error_upd_eq; auto. rewrite rev_length. lia.
    + rewrite nth_error_upd_neq by lia. rewrite nth_error_upd_neq by lia. now rewrite R.
Qed.
Lemma upd_app_l {A} (l r : list A) i a : (i < length l)%nat -> upd (l ++ r) i a = upd l i a ++ r.
Proof. revert i. induction l as [|x l IH]; intros [|i] H; cbn in *; try lia; [reflexivity|]. rewrite IH by lia. reflexivity. Qed.
Lemma upd_app_r {A} (l r : list A) i a : upd (l ++ r) (length l + i) a = l ++ upd r i a.
Proof. induction l as [|x l IH]; [reflexivity|]. cbn. now rewrite IH. Qed.
Lemma concat_upd {A} (n : nat) : forall (rows : list (list A)) q row c a, Forall (fun r => length r = n) rows -> nth_error rows q = Some row -> (c < n)%nat ->
  concat (upd rows q (upd row c a)) = upd (concat rows) (q * n + c) a.
Proof.
  induction rows as [|r rows IH]; intros [|q] row c a F E Hc; try discriminate; inversion F as [|? ? Hr Fr]; subst; cbn [nth_error] in E.
  - injection E as <-. cbn [upd concat Nat.mul Nat.add]. now rewrite upd_app_l.
  - cbn [upd concat]. rewrite (IH q row c a Fr E Hc). replace (S q * length r + c)%nat with (length r + (q * length r + c))%nat by lia. now rewrite upd_app_r.
Qed.
Lemma upd_next {A} (l : list A) k a d n : nth_error l k = Some a -> (k < n)%nat -> upd (firstn k l ++ repeat d (n - k)) k a = firstn (S k) l ++ repeat d (n - S k).
Proof.
  intros E H. assert (L : length (firstn k l) = k) by (rewrite firstn_length; apply Nat.min_l; apply Nat.lt_le_incl, nth_error_Some; congruence).
  replace k with (length (firstn k l) + 0)%nat at 3 by lia. rewrite upd_app_r. replace (n - k)%nat with (S (n - S k)) by lia. cbn [repeat upd].
  rewrite <- (firstn_skipn k l) at 2. change (S k) with (1 + k)%nat. rewrite Nat.add_comm. rewrite firstn_app. rewrite firstn_firstn, L. replace (Nat.min (k + 1) k) with k by lia. replace (k + 1 - k)%nat with 1%nat by lia.
  destruct (skipn k l) as [|b s] eqn:Es.
  { exfalso. apply (f_equal (@length A)) in Es. rewrite skipn_length in Es. assert (k < length l)%nat by (apply nth_error_Some; congruence). cbn in Es. lia. }
  rewrite <- (firstn_skipn k l), nth_error_app2, L, Nat.sub_diag, Es in E by lia. cbn [nth_error] in E. injection E as ->. cbn [firstn].
  rewrite <- app_assoc. cbn [app]. now replace (k + 1)%nat with (1 + k)%nat by lia.
Qed.

(** the rows after the first [k] of [bs] have been found *)
Definition rows_at (nx ny : nat) (bs : list Z) (k : nat) (rows : list (list Z)) : Prop :=
  rectangular rows ny nx /\ concat (rev rows) = firstn k bs ++ repeat (-1)%Z (nx * ny - k).
Lemma rect_rev rows nx ny : rectangular rows ny nx -> Forall (fun r => length r = nx) (rev rows).
Proof. intros (_ & F). now apply Forall_rev. Qed.
Lemma concat_len nx (l : list (list Z)) : Forall (fun r => length r = nx) l -> length (concat l) = (length l * nx)%nat.
Proof. induction 1 as [|r l Hr _ IH]; [reflexivity|]. cbn [concat length]. rewrite app_length, IH. lia. Qed.
Lemma put_id_ok checks nx ny bs k id rows : (0 < nx)%nat -> length bs = (nx * ny)%nat -> nth_error bs k = Some id -> rows_at nx ny bs k rows ->
  exists rows', put_id checks rows k (Z.of_nat nx) (Z.of_nat ny) id = Ret rows' /\ rows_at nx ny bs (S k) rows'.
Proof.
  intros Hnx Lb Hk (Hr & Hc). pose proof Hr as (Hl & Hf). assert (Kb : (k < nx * ny)%nat) by (rewrite <- Lb; apply nth_error_Some; congruence).
  assert (Hny : (0 < ny)%nat) by (clear - Kb; destruct ny; [rewrite Nat.mul_0_r in Kb; lia|lia]).
  unfold put_id. rewrite map_flat_ok by (rewrite <- ?Nat2Z.inj_mul; lia). cbn [bind fst snd].
  assert (Q : (k / nx < ny)%nat) by (apply Nat.div_lt_upper_bound; lia). assert (C : (k mod nx < nx)%nat) by (apply Nat.mod_upper_bound; lia).
  rewrite <- Nat2Z.inj_mod, <- Nat2Z.inj_div. replace (Z.of_nat ny - 1 - Z.of_nat (k / nx))%Z with (Z.of_nat (ny - 1 - k / nx)) by lia.
  destruct (nth_error rows (ny - 1 - k / nx)) as [row|] eqn:Er; [|apply nth_error_None in Er; lia].
  rewrite (rdz_nth rows (Z.of_nat (ny - 1 - k / nx)) row) by (rewrite ?Nat2Z.id; auto; lia). cbn [bind].
  assert (Lr : length row = nx) by (rewrite Forall_forall in Hf; apply Hf; eapply nth_error_In; eauto).
  assert (Wz : forall {A} (l : list A) i a, (i < length l)%nat -> wrz l (Z.of_nat i) a = Ret (upd l i a)).
  { intros A l i a Hi. unfold wrz. destruct (Z.ltb_spec (Z.of_nat i) 0); [lia|]. rewrite Nat2Z.id. unfold wr. destruct (Nat.ltb_spec i (length l)); [reflexivity|lia]. }
  rewrite Wz by lia. cbn [bind]. rewrite Wz by lia. eexists. split; [reflexivity|]. split; [split|].
  - now rewrite upd_length.
  - apply Forall_forall. intros r Hin. apply In_nth_error in Hin. destruct Hin as (j & Hj). destruct (Nat.eq_dec j (ny - 1 - k / nx)) as [->|N].
    + rewrite nth_error_upd_eq in Hj by lia. injection Hj as <-. now rewrite upd_length.
    + rewrite nth_error_upd_neq in Hj by auto. rewrite Forall_forall in Hf. apply Hf. eapply nth_error_In; eauto.
  - rewrite rev_upd by lia. rewrite Hl. replace (ny - 1 - (ny - 1 - k / nx))%nat with (k / nx)%nat by lia.
    rewrite (concat_upd nx); [|now apply rect_rev with ny| |auto].
    + replace (k / nx * nx + k mod nx)%nat with k by (rewrite (Nat.div_mod k nx) at 1; lia). rewrite Hc. now apply upd_next.
    + destruct (nth_error (rev rows) (k / nx)) as [r|] eqn:E; [|apply nth_error_None in E; rewrite rev_length in E; lia].
      rewrite <- Er, <- E. rewrite (nth_error_nth' (rev rows) r) by (rewrite rev_length; lia). rewrite (nth_error_nth' rows r) by lia.
      f_equal. rewrite rev_nth by lia. f_equal. lia.
Qed.
Lemma no_ids_ok nx ny bs : exists rows, no_ids (Z.of_nat nx) (Z.of_nat ny) = Ret rows /\ rows_at nx ny bs 0 rows.
Proof.
  unfold no_ids, vsize. destruct (Z.ltb_spec (Z.of_nat ny) 0); [lia|]. destruct (Z.ltb_spec (Z.of_nat nx) 0); [lia|]. cbn [bind]. rewrite !Nat2Z.id.
  eexists. split; [reflexivity|]. split; [split; [apply repeat_length|]|].
  - apply Forall_forall. intros r Hr. apply repeat_spec in Hr. subst r. apply repeat_length.
  - cbn [firstn app]. rewrite Nat.sub_0_r. assert (R : rev (repeat (repeat (-1)%Z nx) ny) = repeat (repeat (-1)%Z nx) ny).
    { clear. induction ny as [|n IH]; [reflexivity|]. cbn [repeat rev]. rewrite IH. symmetry. apply (repeat_cons n). }
    rewrite R. clear. induction ny as [|n IH]; [now rewrite Nat.mul_0_r|]. cbn [repeat concat]. rewrite IH, <- repeat_app. f_equal. lia.
Qed.
(** at the end *)
Definition rows_of (nx ny : nat) (bs : list Z) (rows : list (list Z)) : Prop := rectangular rows ny nx /\ concat (rev rows) = bs.
Lemma rows_full nx ny bs rows : length bs = (nx * ny)%nat -> rows_at nx ny bs (length bs) rows -> rows_of nx ny bs rows.
Proof. intros L (Hr & Hc). split; auto. rewrite Hc, firstn_all, L, Nat.sub_diag. apply app_nil_r. Qed.
Lemma concat_inj nx : forall (l r : list (list Z)), Forall (fun x => length x = nx) l -> Forall (fun x => length x = nx) r -> length l = length r -> concat l = concat r -> l = r.
Proof.
  induction l as [|x l IH]; intros [|y r] Fl Fr L E; try discriminate; [reflexivity|]. inversion Fl; inversion Fr; subst. cbn [concat length] in *.
  apply app_inj_len in E; [|congruence]. destruct E as (-> & E). f_equal. apply IH; auto.
Qed.
Lemma rows_unique nx ny bs rows rows' : rows_of nx ny bs rows -> rows_of nx ny bs rows' -> rows = rows'.
Proof.
  intros (H1 & E1) (H2 & E2). rewrite <- (rev_involutive rows), <- (rev_involutive rows'). f_equal. apply (concat_inj nx).
  - now apply rect_rev with ny.
  - now apply rect_rev with ny.
  - rewrite !rev_length. destruct H1, H2. congruence.
  - congruence.
Qed.

(** ** Loops *)
Lemma read_all {B S : Type} (P : list B -> S -> Prop) (Q : B -> xml -> Prop) (g : xml -> S -> outcome S) bs xs : Forall2 Q bs xs ->
  (forall pre b post x s, bs = pre ++ b :: post -> Q b x -> P pre s -> exists s', g x s = Ret s' /\ P (pre ++ [b]) s') ->
  forall s, P [] s -> exists s', foreach xs g s = Ret s' /\ P bs s'.
Proof.
  intros F. assert (G : forall done bs' xs', Forall2 Q bs' xs' -> bs = done ++ bs' ->
    (forall pre b post x s, bs = pre ++ b :: post -> Q b x -> P pre s -> exists s', g x s = Ret s' /\ P (pre ++ [b]) s') ->
    forall s, P done s -> exists s', foreach xs' g s = Ret s' /\ P bs s').
  { intros done bs' xs' F'. revert done. induction F' as [|b x bs' xs' Hq _ IH]; intros done E St s Ps; cbn [foreach].
    - rewrite app_nil_r in E. subst done. eauto.
    - destruct (St done b bs' x s E Hq Ps) as (s1 & E1 & P1). rewrite E1. cbn [bind]. apply (IH (done ++ [b])); auto. now rewrite <- app_assoc. }
  intros St s Ps. exact (G [] bs xs F eq_refl St s Ps).
Qed.

Section Read.
Variable stdsort : forall A : Type, (A -> A -> bool) -> list A -> list A.
Hypothesis Hsort : sort_contract stdsort.
Variable selfcheck : mesh R -> outcome (mesh R).
Variable junk : R * R.
Variables (checks : bool) (fsize : Z).
Variable m : model.
Hypothesis Hst : storable selfcheck m.
Variables (f : h5) (file : list Z).

(** ** Cells *)
Definition klist (m : model) (k : kind) : list (mesh R) := match k with Tri => tris m | Quad => quads m | Tri6 => tri6s m | Quad8 => quad8s m end.
Definition only_meshes (m' : model) : Prop := exists t q t6 q8, m' = set_meshes t q t6 q8 (only_materials (map bare (materials m))).
Record cells_ok (s : rstate) : Prop := {
  c_nodup : NoDup (r_cell s);
  c_mesh : length (r_mesh s) = length (r_cell s);
  c_ext : length (r_ext s) = length (r_cell s);
  c_mats : length (r_mats s) = length (r_cell s);
  c_at : forall j id, nth_error (r_cell s) j = Some id -> exists c k x i, at_ (cells m) id c /\ cell_mesh m c = Some (k, x) /\
    nth_error (r_mesh s) j = Some (type_of k, i) /\ at_ (klist (r_model s) k) i (at_place (0, 0)%R x) /\
    nth_error (r_ext s) j = Some (xy_extents c) /\ nth_error (r_mats s) j = Some (material_ids c);
  c_count : forall k, count_of (type_of k) (r_mesh s) = size (klist (r_model s) k);
  c_model : only_meshes (r_model s) }.
Definition up3 s := (r_asy s, r_asy_lats s, r_asy_zs s, r_lat s, r_lat_rtms s, r_rtm s, r_rtm_cells s).
Definition up2 s := (r_asy s, r_asy_lats s, r_asy_zs s, r_lat s, r_lat_rtms s).
Definition up1 s := (r_asy s, r_asy_lats s, r_asy_zs s).

Lemma add_mesh_ok m' k x : starts_at_origin k x = true -> add_mesh checks m' k x = Ret (push_mesh m' k x, size (klist m' k)).
Proof. intros H. unfold add_mesh, addTriMesh, addQuadMesh, addTri6Mesh, addQuad8Mesh, Mpact_Model.assert. destruct k; rewrite H, andb_false_r; reflexivity. Qed.
Lemma klist_push m' k x k' : klist (push_mesh m' k x) k' = if type_eqb (type_of k) (type_of k') then klist m' k' ++ [x] else klist m' k'.
Proof. now destruct k, k'. Qed.
Lemma count_push k t l i : count_of (type_of k) (l ++ [(type_of t, i)]) = (count_of (type_of k) l + if type_eqb (type_of t) (type_of k) then 1 else 0)%Z.
Proof. unfold count_of, size. rewrite filter_app, app_length, Nat2Z.inj_add. f_equal. now destruct k, t. Qed.
Lemma only_push m' k x : only_meshes m' -> only_meshes (push_mesh m' k x).
Proof. intros (t & q & t6 & q8 & ->). destruct k; eexists _, _, _, _; reflexivity. Qed.
Lemma mesh_type_of c k x : cell_mesh m c = Some (k, x) -> mtype c = type_of k.
Proof.
  unfold cell_mesh, meshes_like. destruct (mtype c); try discriminate; destruct (mesh_id c <? 0)%Z; try discriminate; destruct nth_error; try discriminate; intros E; injection E as <- _; reflexivity.
Qed.
Lemma at_small {A} (l : list A) id x : at_ l id x -> (Z.of_nat (length l) <= 100000)%Z -> (0 <= id < 100000)%Z.
Proof. intros (H & E) L. assert (Z.to_nat id < length l)%nat by (apply nth_error_Some; congruence). lia. Qed.
Lemma existsb_in id l : existsb (Z.eqb id) l = true <-> In id l.
Proof. rewrite existsb_exists. split; [intros (y & H & E); apply Z.eqb_eq in E; now subst|intros H; exists id; split; auto; apply Z.eqb_refl]. Qed.
Lemma nodup_snoc {A} (l : list A) a : NoDup l -> ~ In a l -> NoDup (l ++ [a]).
Proof.
  intros H N. induction H as [|x l Hx _ IH]; cbn [app]; constructor.
  - intros [].
  - constructor.
  - intros X. apply in_app_or in X. destruct X as [X|[->|[]]]; [auto|]. apply N. now left.
  - apply IH. intros X. apply N. now right.
Qed.

Lemma cell_read nx ny bs k id x rows s : (0 < nx)%nat -> length bs = (nx * ny)%nat -> nth_error bs k = Some id -> rows_at nx ny bs k rows ->
  cell_node checks fsize m file f id x -> cells_ok s ->
  exists rows' s', read_cell stdsort selfcheck junk checks fsize f file (Z.of_nat nx) (Z.of_nat ny) x ((rows, k), s) = Ret ((rows', S k), s') /\
    rows_at nx ny bs (S k) rows' /\ cells_ok s' /\ up3 s' = up3 s /\ incl (r_cell s) (r_cell s') /\ In id (r_cell s').
Proof.
  intros Hnx Lb Hk Hr (n & c & kd & y & a & o & Tx & Nx & Hc & Cm & Co & Rd) Cs.
  destruct (put_id_ok checks nx ny bs k id rows Hnx Lb Hk Hr) as (rows' & Ep & Hr').
  pose proof (at_small _ _ _ Hc (proj1 (s_few_cells _ _ Hst))) as Bid.
  unfold read_cell. rewrite Nx. rewrite (id_of_ok "Coarse_Cell_" id n Bid : id_of _ 12 = _). cbn [bind]. rewrite Ep. cbn [bind].
  destruct (existsb (Z.eqb id) (r_cell s)) eqn:Eid.
  - apply existsb_in in Eid. exists rows', s. repeat (split; [auto|]); auto using incl_refl. 
  - assert (Nid : ~ In id (r_cell s)) by (rewrite <- existsb_in; congruence). clear Eid.
    destruct (Rd []) as (u & Eu & Su). rewrite app_nil_r in Eu. rewrite Eu. cbn [bind].
    pose proof (s_cells _ _ Hst) as Sc. rewrite Forall_forall in Sc. destruct (Sc c (at_in _ _ _ Hc)) as (k0 & x0 & Cm' & Mo & Fv & Bx & Va & Lm & Rm & _).
    rewrite Cm in Cm'. injection Cm' as <- <-. destruct (xy_extents c) as (w, h) eqn:Exy. cbn [fst snd] in Bx.
    destruct (soup_back stdsort selfcheck junk checks kd y w h (material_ids c) a o u Hsort Mo Fv Bx Va Lm Rm Co Su) as (Et & Ef & Em).
    rewrite Et. unfold Mpact_Model.assert. replace (checks && negb (match type_of kd with MT_Invalid | MT_TriQuad | MT_Tri6Quad8 => false | _ => true end)) with false by (destruct kd; now rewrite andb_false_r).
    replace (kind_of (type_of kd)) with (Some kd) by now destruct kd. rewrite Ef. cbn [bind].
    rewrite (box_at_ok kd y (px o, py o) w h Mo Fv Bx). cbn [bind rd nth_error bmin bmax].
    rewrite (shift_at (px o, py o) y). rewrite add_mesh_ok by (eapply origin_ok; eauto). cbn [bind]. rewrite Em. cbn [bind fst snd].
    eexists rows', _. split; [reflexivity|]. split; [exact Hr'|]. split; [|split; [reflexivity|split]].
    + destruct Cs as [C1 C2 C3 C4 C5 C6 C7]. split; cbn [put_new_cell r_cell r_mesh r_ext r_mats r_model].
      * now apply nodup_snoc.
      * rewrite !app_length. now rewrite C2.
      * rewrite !app_length. now rewrite C3.
      * rewrite !app_length. now rewrite C4.
      * intros j id' Hj. destruct (le_lt_dec (length (r_cell s)) j) as [G|G].
        -- rewrite nth_error_app2 in Hj by auto. destruct (j - length (r_cell s))%nat as [|q] eqn:Eq; [|destruct q; discriminate]. cbn [nth_error] in Hj. injection Hj as <-.
           exists c, kd, y, (count_of (type_of kd) (r_mesh s)). split; [exact Hc|]. split; [exact Cm|]. assert (j = length (r_cell s)) by lia. subst j.
           split; [now rewrite nth_error_app2, C2, Nat.sub_diag by lia|]. split; [|split; [rewrite nth_error_app2, C3, Nat.sub_diag by lia; cbn [nth_error]|now rewrite nth_error_app2, C4, Nat.sub_diag by lia]].
           ++ rewrite klist_push. replace (type_eqb (type_of kd) (type_of kd)) with true by now destruct kd. rewrite C6. unfold size. split; [lia|]. rewrite Nat2Z.id, nth_error_app2, Nat.sub_diag by lia. reflexivity.
           ++ rewrite Exy. f_equal. f_equal; lra.
        -- rewrite nth_error_app1 in Hj by auto. destruct (C5 j id' Hj) as (c' & k' & x' & i' & H1 & H2 & H3 & H4 & H5 & H6). exists c', k', x', i'. split; [exact H1|]. split; [exact H2|].
           split; [now rewrite nth_error_app1 by lia|]. split; [|split; now rewrite nth_error_app1 by lia].
           rewrite klist_push. destruct (type_eqb (type_of kd) (type_of k')); [|exact H4]. destruct H4 as (H4 & H4'). split; auto. rewrite nth_error_app1; auto. apply nth_error_Some. congruence.
      * intros k'. rewrite count_push, C6, klist_push. destruct (type_eqb (type_of kd) (type_of k')); [|lia]. unfold size. rewrite app_length. cbn [length]. lia.
      * now apply only_push.
    + cbn [put_new_cell r_cell]. apply incl_appl, incl_refl.
    + cbn [put_new_cell r_cell]. apply in_or_app. right. now left.
Qed.

(** ** RTMs *)
Definition rect_rows (p : list (list R) * list Z) (rows : list (list Z)) : Prop := exists lx ly, fst p = [lx; ly] /\ rows_of (length lx - 1) (length ly - 1) (snd p) rows.
Record rtms_ok (s : rstate) : Prop := {
  t_nodup : NoDup (r_rtm s);
  t_len : length (r_rtm_cells s) = length (r_rtm s);
  t_at : forall j id, nth_error (r_rtm s) j = Some id -> exists r rows, at_ (rtms m) id r /\ nth_error (r_rtm_cells s) j = Some rows /\ rect_rows r rows /\ incl (snd r) (r_cell s) }.
Lemma rtms_mono s s' : rtms_ok s -> r_rtm s' = r_rtm s -> r_rtm_cells s' = r_rtm_cells s -> incl (r_cell s) (r_cell s') -> rtms_ok s'.
Proof.
  intros [H1 H2 H3] E1 E2 Hi. split; rewrite ?E1, ?E2; auto. intros j id Hj. destruct (H3 j id Hj) as (r & rows & A & B & C & D). exists r, rows. split; [exact A|]. split; [exact B|]. split; [exact C|]. intros z Hz. apply Hi, D, Hz.
Qed.
Lemma grids_of n l nodes : Forall (fun x => tag x <> txt "Grid") l -> Forall (fun x => tag x = txt "Grid") nodes -> grids (tree n (l ++ nodes)) = nodes.
Proof.
  intros H1 H2. unfold grids, tree. cbn [kids]. rewrite filter_app.
  assert (E1 : filter (fun y => is (tag y) "Grid") l = []).
  { induction H1 as [|x l Hx _ IH]; [reflexivity|]. cbn [filter]. unfold is at 1. rewrite (name_eqb_neq _ _ Hx). exact IH. }
  assert (E2 : filter (fun y => is (tag y) "Grid") nodes = nodes).
  { induction H2 as [|x l' Hx _ IH]; [reflexivity|]. cbn [filter]. unfold is at 1. rewrite Hx, name_eqb_refl. now rewrite IH. }
  now rewrite E1, E2.
Qed.
Lemma F2_all_r {A B} (P : A -> B -> Prop) (Q : B -> Prop) l r : (forall a b, P a b -> Q b) -> Forall2 P l r -> Forall Q r.
Proof. intros H. induction 1; constructor; eauto. Qed.
Lemma num_cells_2 lx ly : (1 <= length lx)%nat -> (1 <= length ly)%nat -> num_cells [lx; ly] = Ret (Z.of_nat (length lx - 1), Z.of_nat (length ly - 1)).
Proof. intros H1 H2. unfold num_cells, numCells. cbn. do 2 f_equal; lia. Qed.
Lemma prod_bounds a b : (0 < a)%nat -> (0 < b)%nat -> (Z.of_nat (a * b) <= intMax)%Z -> (0 <= Z.of_nat a <= intMax)%Z /\ (0 <= Z.of_nat b <= intMax)%Z.
Proof. intros Ha Hb H. rewrite Nat2Z.inj_mul in H. split; nia. Qed.

Lemma rtm_read nx ny bs k id x rows s : (0 < nx)%nat -> length bs = (nx * ny)%nat -> nth_error bs k = Some id -> rows_at nx ny bs k rows ->
  rtm_node checks fsize m file f id x -> cells_ok s -> rtms_ok s ->
  exists rows' s', read_rtm stdsort selfcheck junk checks fsize f file (Z.of_nat nx) (Z.of_nat ny) x ((rows, k), s) = Ret ((rows', S k), s') /\
    rows_at nx ny bs (S k) rows' /\ cells_ok s' /\ rtms_ok s' /\ up2 s' = up2 s /\ incl (r_rtm s) (r_rtm s') /\ In id (r_rtm s').
Proof.
  intros Hnx Lb Hk Hr (n & r & nx' & ny' & nodes & Hat & En & -> & Hn) Cs Ts.
  destruct (put_id_ok checks nx ny bs k id rows Hnx Lb Hk Hr) as (rows' & Ep & Hr').
  pose proof (at_small _ _ _ Hat (proj1 (s_few_rtms _ _ Hst))) as Bid.
  unfold read_rtm. change (attribute (tree (named "RTM_" (id, n)) (nx_by_ny nx' ny' :: nodes)) "Name") with (named "RTM_" (id, n)).
  rewrite (id_of_ok "RTM_" id n Bid : id_of _ 4 = _). cbn [bind]. rewrite Ep. cbn [bind].
  destruct (existsb (Z.eqb id) (r_rtm s)) eqn:Eid.
  - apply existsb_in in Eid. exists rows', s. repeat (split; [auto|]); auto using incl_refl.
  - assert (Nid : ~ In id (r_rtm s)) by (rewrite <- existsb_in; congruence). clear Eid.
    pose proof (at_in _ _ _ Hat) as Ir.
    destruct (rtm_children _ _ (s_consistent _ _ Hst) eq_refl r Ir) as (lx & ly & Er & L1 & L2 & _ & _ & Lr).
    destruct (s_rtms _ _ Hst r Ir) as (ids & W & H & HL & El'). pose proof HL as (_ & _ & _ & _ & _ & Hmax & _).
    assert (Hmx : (Z.of_nat ((length lx - 1) * (length ly - 1)) <= intMax)%Z).
    { rewrite El' in Er. cbn [fst] in Er. injection Er as <- <-. rewrite !Grid_Proofs.sums_length. cbn [Nat.sub]. rewrite !Nat.sub_0_r, Nat2Z.inj_mul. exact Hmax. }
    rewrite Er, num_cells_2 in En by lia. injection En as <- <-.
    destruct (prod_bounds (length lx - 1) (length ly - 1) ltac:(lia) ltac:(lia) Hmx) as (Bx & By).
    rewrite (getNXbyNY_ok _ (Z.of_nat (length lx - 1)) (Z.of_nat (length ly - 1))) by (reflexivity || assumption). cbn [bind fst snd].
    unfold Mpact_Model.assert. destruct (Z.ltb_spec 0 (Z.of_nat (length lx - 1))); [|lia]. destruct (Z.ltb_spec 0 (Z.of_nat (length ly - 1))); [|lia]. cbn [andb negb]. rewrite andb_false_r.
    destruct (no_ids_ok (length lx - 1) (length ly - 1) (snd r)) as (rows0 & E0 & Hr0). rewrite E0. cbn [bind].
    pose proof (grids_of (named "RTM_" (id, n)) [nx_by_ny (Z.of_nat (length lx - 1)) (Z.of_nat (length ly - 1))] nodes ltac:(repeat constructor; discriminate)) as Eg.
    cbn [app] in Eg. rewrite Eg by (eapply F2_all_r; [|exact Hn]; intros c y (? & ? & ? & ? & ? & ? & T & _); exact T).
    set (s1 := new_rtm id s).
    destruct (read_all (fun pre (st : (list (list Z) * nat) * rstate) => rows_at (length lx - 1) (length ly - 1) (snd r) (length pre) (fst (fst st)) /\ snd (fst st) = length pre /\
        cells_ok (snd st) /\ up3 (snd st) = up3 s1 /\ incl (r_cell s) (r_cell (snd st)) /\ incl pre (r_cell (snd st))) _ 
        (read_cell stdsort selfcheck junk checks fsize f file (Z.of_nat (length lx - 1)) (Z.of_nat (length ly - 1))) _ _ Hn) with (s := ((rows0, O), s1)) as (((rows2, n2), s2) & E2 & P1 & P2 & P3 & P4 & P5 & P6).
    + intros pre b post y ((rw, nn), st) Eb Hb (Q1 & Q2 & Q3 & Q4 & Q5 & Q6). cbn [fst snd] in *. subst nn.
      destruct (cell_read (length lx - 1) (length ly - 1) (snd r) (length pre) b y rw st ltac:(lia) Lr) as (rw' & st' & Ec & R1 & R2 & R3 & R4 & R5); auto.
      { rewrite Eb, nth_error_app2, Nat.sub_diag by lia. reflexivity. }
      eexists. split; [exact Ec|]. rewrite app_length, Nat.add_1_r. cbn [fst snd]. split; [exact R1|]. split; [reflexivity|]. split; [exact R2|]. split; [congruence|].
      split; [intros z Hz; auto|]. intros z Hz. apply in_app_or in Hz. destruct Hz as [Hz|[<-|[]]]; auto.
    + cbn [fst snd length]. split; [exact Hr0|]. split; [reflexivity|]. split; [|split; [reflexivity|split; [apply incl_refl|intros z []]]].
      destruct Cs as [C1 C2 C3 C4 C5 C6 C7]. split; assumption.
    + rewrite E2. cbn [bind fst snd]. cbn [fst snd] in *. eexists rows', _. split; [reflexivity|]. split; [exact Hr'|].
      injection P4 as U1 U2 U3 U4 U5 U6 U7. split; [|split; [|split; [|split]]].
      * destruct P3 as [C1 C2 C3 C4 C5 C6 C7]. split; assumption.
      * destruct Ts as [T1 T2 T3]. split; cbn [put_rtm r_rtm r_rtm_cells r_cell]; rewrite ?U6, ?U7.
        -- now apply nodup_snoc.
        -- rewrite !app_length. cbn [s1 new_rtm r_rtm_cells r_rtm length]. now rewrite T2.
        -- intros j id' Hj. cbn [s1 new_rtm r_rtm_cells r_rtm] in *. destruct (le_lt_dec (length (r_rtm s)) j) as [G|G].
           ++ rewrite nth_error_app2 in Hj by auto. destruct (j - length (r_rtm s))%nat as [|q] eqn:Eq; [|destruct q; discriminate]. cbn [nth_error] in Hj. injection Hj as <-.
              assert (j = length (r_rtm s)) by lia. subst j. exists r, rows2. split; [exact Hat|]. split; [now rewrite nth_error_app2, T2, Nat.sub_diag by lia|]. split; [|exact P6].
              exists lx, ly. split; auto. apply rows_full; auto.
           ++ rewrite nth_error_app1 in Hj by auto. destruct (T3 j id' Hj) as (r' & rw & A & B & C & D). exists r', rw. split; [exact A|]. split; [now rewrite nth_error_app1 by lia|]. split; [exact C|].
              intros z Hz. apply P5, D, Hz.
      * unfold up2. cbn [put_rtm r_asy r_asy_lats r_asy_zs r_lat r_lat_rtms]. rewrite U1, U2, U3, U4, U5. reflexivity.
      * cbn [put_rtm r_rtm]. rewrite U6. apply incl_appl, incl_refl.
      * cbn [put_rtm r_rtm]. rewrite U6. apply in_or_app. right. now left.
Qed.

(** ** Lattices *)
Definition reg_rows (l : list axis * list Z) (rows : list (list Z)) : Prop :=
  exists ax ay, fst l = [ax; ay] /\ rows_of (Z.to_nat (nc ax)) (Z.to_nat (nc ay)) (snd l) rows.
Record lats_ok (done : list (Z * Z)) (s : rstate) : Prop := {
  l_nodup : NoDup (r_lat s);
  l_len : length (r_lat_rtms s) = length (r_lat s);
  l_at : forall j id, nth_error (r_lat s) j = Some id -> exists l rows, at_ (lattices m) id l /\ nth_error (r_lat_rtms s) j = Some rows /\ reg_rows l rows /\ incl (snd l) (r_rtm s);
  l_done : forall id, In id (r_lat s) <-> exists a, In (a, id) done }.
Lemma own_first done rest a id : stacks m = done ++ (a, id) :: rest -> (forall b, ~ In (b, id) done) -> exists_in (lattices m) id -> a = id.
Proof.
  intros E Nd Hid. destruct (s_own _ _ Hst id Hid) as (before & after & E' & Nb). rewrite E in E'. clear E.
  revert before E' Nb. induction done as [|p done IH]; intros [|q before] E' Nb; cbn [app] in E'.
  - now injection E'.
  - injection E' as <- _. exfalso. apply (Nb a). now left.
  - injection E' as -> _. exfalso. apply (Nd id). now left.
  - injection E' as -> E'. apply (IH (fun b Hb => Nd b (or_intror Hb)) before E'). intros b Hb. apply (Nb b). now right.
Qed.
Definition zs_at (z : list R) (nz k : nat) : list R := match k with O => repeat 0%R (S nz) | S _ => firstn (S k) z ++ repeat 0%R (nz - k) end.
Lemma zs_next z nz k lo hi zs : length z = S nz -> (k < nz)%nat -> nth_error z k = Some lo -> nth_error z (S k) = Some hi -> zs = zs_at z nz k ->
  (let* q := (if (k =? 0)%nat then wr zs k lo else Ret zs) in wr q (S k) hi) = Ret (zs_at z nz (S k)).
Proof.
  intros Lz Hk Elo Ehi ->.
  assert (X : (if (k =? 0)%nat then wr (zs_at z nz k) k lo else Ret (zs_at z nz k)) = Ret (firstn (S k) z ++ repeat 0%R (S nz - S k))).
  { destruct k as [|k]; [|reflexivity]. cbn [Nat.eqb zs_at]. unfold wr. rewrite repeat_length. cbn [Nat.ltb Nat.leb repeat upd]. destruct z as [|z0 z]; [discriminate|]. cbn [nth_error] in Elo. injection Elo as ->.
    cbn [firstn app Nat.sub]. now rewrite Nat.sub_0_r. }
  rewrite X. cbn [bind]. unfold wr. rewrite app_length, repeat_length, firstn_length, Lz. rewrite Nat.min_l by lia. destruct (Nat.ltb_spec (S k) (S k + (S nz - S k))); [|lia].
  rewrite (upd_next z (S k) hi 0%R (S nz) Ehi ltac:(lia)). reflexivity.
Qed.
Lemma lat_read aid a z done rest k id x s : at_ (assemblies m) aid a -> fst a = [z] -> nth_error (snd a) k = Some id ->
  stacks m = done ++ (aid, id) :: rest -> lat_node checks fsize m file z f (id, k) x -> cells_ok s -> rtms_ok s -> lats_ok done s ->
  exists s', read_lattice stdsort selfcheck junk checks fsize f file aid x ((firstn k (snd a) ++ repeat 0%Z (length (snd a) - k), zs_at z (length (snd a)) k, k), s) =
      Ret ((firstn (S k) (snd a) ++ repeat 0%Z (length (snd a) - S k), zs_at z (length (snd a)) (S k), S k), s') /\
    cells_ok s' /\ rtms_ok s' /\ lats_ok (done ++ [(aid, id)]) s' /\ up1 s' = up1 s /\ incl (r_lat s) (r_lat s') /\ In id (r_lat s').
Proof.
  intros Ha Ez Hk Estk (n & l & ax & ay & nodes & lo & hi & low & mid & high & Hat & El & Elo & Ehi & Nl & Cl & Cm & Rl & Rh & -> & Hn) Cs Ts Ls. cbn [fst snd] in *.
  pose proof (at_small _ _ _ Hat (proj1 (s_few_lattices _ _ Hst))) as Bid. pose proof (at_in _ _ _ Ha) as Ia.
  assert (Kb : (k < length (snd a))%nat) by (apply nth_error_Some; congruence).
  destruct (assembly_shape _ _ (s_consistent _ _ Hst) a Ia) as (z' & bot & top & Ez' & _ & Lz & _). rewrite Ez in Ez'. injection Ez' as <-.
  destruct (s_assemblies _ _ Hst a z Ia Ez) as (Inc & _).
  unfold read_lattice. set (x := tree _ _). change (attribute x "Name") with (named "Lattice_" (id, n)).
  rewrite (id_of_ok "Lattice_" id n Bid : id_of _ 8 = _). cbn [bind].
  unfold wr at 1. rewrite app_length, repeat_length, firstn_length, Nat.min_l by lia. destruct (Nat.ltb_spec k (k + (length (snd a) - k))); [|lia]. cbn [bind].
  rewrite (upd_next (snd a) k id 0%Z (length (snd a)) Hk Kb).
  rewrite (read_z_ok checks x (z_text low mid high) low mid high lo hi eq_refl eq_refl Nl Cl Cm Rl Rh (Inc k (S k) lo hi ltac:(lia) Elo Ehi)). cbn [bind fst snd].
  pose proof (zs_next z (length (snd a)) k lo hi _ Lz Kb Elo Ehi eq_refl) as Zn. apply bind_Ret in Zn. destruct Zn as (zq & Z1 & Z2). rewrite Z1. cbn [bind]. rewrite Z2. cbn [bind]. clear zq Z1 Z2.
  destruct (existsb (Z.eqb id) (r_lat s)) eqn:Eid.
  - apply existsb_in in Eid. exists s. split; [reflexivity|]. split; [auto|]. split; [auto|]. split; [|split; [reflexivity|split; [apply incl_refl|auto]]].
    destruct Ls as [L1 L2 L3 L4]. split; auto. intros id'. rewrite L4. split; intros (b & Hb).
    + exists b. apply in_or_app. now left.
    + apply in_app_or in Hb. destruct Hb as [Hb|[Hb|[]]]; [now exists b|]. injection Hb as <- <-. now apply L4.
  - assert (Nid : ~ In id (r_lat s)) by (rewrite <- existsb_in; congruence). clear Eid.
    assert (Eaid : aid = id).
    { eapply own_first; [exact Estk| |apply (at_exists _ _ _ Hat)]. intros b Hb. apply Nid. apply (l_done _ _ Ls). now exists b. }
    cbn [x tree kids second_kid]. change (name_eqb (tag (info "Z" (z_text low mid high))) (txt "Information")) with true. cbn iota.
    change (find_kid (nx_by_ny (nc ax) (nc ay) :: nodes) (txt "Information")) with (Some (nx_by_ny (nc ax) (nc ay))). cbn [bind].
    change (is (attribute (nx_by_ny (nc ax) (nc ay)) "Name") "NX_by_NY") with true. cbn [need bind].
    pose proof (at_in _ _ _ Hat) as Il. destruct (s_lattices _ _ Hst l Il) as (Hne & Hmx).
    destruct (lattice_shape _ _ (s_consistent _ _ Hst) l Il) as (r0 & w0 & h0 & nx & ny & _ & _ & Eg' & Hnx & Hny & Ll).
    rewrite El in Eg'. injection Eg' as -> ->. cbn [nc] in *.
    assert (Pnx : (0 < nx)%Z). { destruct (Z.eq_dec nx 0) as [->|]; [|lia]. destruct (snd l); [congruence|]. cbn [length] in Ll. lia. }
    assert (Bx : (0 <= nx <= intMax)%Z) by nia. assert (By : (0 <= ny <= intMax)%Z) by nia.
    change (value (nx_by_ny nx ny)) with (decimal nx ++ txt " x " ++ decimal ny). rewrite two_numbers_ok by auto. cbn [bind fst snd].
    unfold Mpact_Model.assert. destruct (Z.ltb_spec 0 nx); [|lia]. destruct (Z.ltb_spec 0 ny); [|lia]. cbn [andb negb]. rewrite andb_false_r.
    rewrite <- (Z2Nat.id nx), <- (Z2Nat.id ny) by lia. set (nx' := Z.to_nat nx) in *. set (ny' := Z.to_nat ny) in *.
    destruct (no_ids_ok nx' ny' (snd l)) as (rows0 & E0 & Hr0). rewrite E0. cbn [bind].
    assert (Eg : grids x = nodes).
    { apply (grids_of (named "Lattice_" (id, n)) [info "Z" (z_text low mid high); nx_by_ny nx ny] nodes); [repeat constructor; discriminate|].
      eapply F2_all_r; [|exact Hn]. intros c y (? & ? & ? & ? & ? & _ & _ & -> & _). reflexivity. }
    change (grids (tree _ _)) with (grids x). rewrite Eg. clear Eg.
    assert (Lr : length (snd l) = (nx' * ny')%nat) by (apply Nat2Z.inj; rewrite Ll, Nat2Z.inj_mul; unfold nx', ny'; rewrite !Z2Nat.id by lia; reflexivity).
    set (s1 := new_lat aid s).
    destruct (read_all (fun pre (st : (list (list Z) * nat) * rstate) => rows_at nx' ny' (snd l) (length pre) (fst (fst st)) /\ snd (fst st) = length pre /\
        cells_ok (snd st) /\ rtms_ok (snd st) /\ up2 (snd st) = up2 s1 /\ incl (r_rtm s) (r_rtm (snd st)) /\ incl pre (r_rtm (snd st))) _ 
        (read_rtm stdsort selfcheck junk checks fsize f file (Z.of_nat nx') (Z.of_nat ny')) _ _ Hn) with (s := ((rows0, O), s1)) as (((rows2, n2), s2) & E2 & P1 & P2 & P3 & P3' & P4 & P5 & P6).
    + intros pre b post y ((rw, nn), st) Eb Hb (Q1 & Q2 & Q3 & Q3' & Q4 & Q5 & Q6). cbn [fst snd] in *. subst nn.
      destruct (rtm_read nx' ny' (snd l) (length pre) b y rw st ltac:(lia) Lr) as (rw' & st' & Ec & R1 & R2 & R2' & R3 & R4 & R5); auto.
      { rewrite Eb, nth_error_app2, Nat.sub_diag by lia. reflexivity. }
      eexists. split; [exact Ec|]. rewrite app_length, Nat.add_1_r. cbn [fst snd]. split; [exact R1|]. split; [reflexivity|]. split; [exact R2|]. split; [exact R2'|]. split; [congruence|].
      split; [intros y' Hy; auto|]. intros y' Hy. apply in_app_or in Hy. destruct Hy as [Hy|[<-|[]]]; auto.
    + cbn [fst snd length]. split; [exact Hr0|]. split; [reflexivity|]. split; [|split; [|split; [reflexivity|split; [apply incl_refl|intros y []]]]].
      * destruct Cs as [C1 C2 C3 C4 C5 C6 C7]. split; assumption.
      * destruct Ts as [C1 C2 C3]. split; assumption.
    + rewrite E2. cbn [bind fst snd]. cbn [fst snd] in *. eexists. split; [reflexivity|].
      injection P4 as U1 U2 U3 U4 U5. split; [|split; [|split; [|split; [|split]]]].
      * destruct P3 as [C1 C2 C3 C4 C5 C6 C7]. split; assumption.
      * destruct P3' as [C1 C2 C3]. split; assumption.
      * destruct Ls as [L1 L2 L3 L4]. split; cbn [put_lat r_lat r_lat_rtms r_rtm]; rewrite ?U4, ?U5; cbn [s1 new_lat r_lat r_lat_rtms].
        -- apply nodup_snoc; [auto|]. now rewrite Eaid.
        -- rewrite !app_length. now rewrite L2.
        -- intros j id' Hj. destruct (le_lt_dec (length (r_lat s)) j) as [G|G].
           ++ rewrite nth_error_app2 in Hj by auto. destruct (j - length (r_lat s))%nat as [|q] eqn:Eq; [|destruct q; discriminate]. cbn [nth_error] in Hj. injection Hj as <-.
              assert (j = length (r_lat s)) by lia. subst j. exists l, rows2. split; [now rewrite Eaid|]. split; [now rewrite nth_error_app2, L2, Nat.sub_diag by lia|]. split; [|exact P6].
              exists (mkAxis 0 w0 nx), (mkAxis 0 h0 ny). split; auto. cbn [nc]. apply rows_full; [exact Lr|exact P1].
           ++ rewrite nth_error_app1 in Hj by auto. destruct (L3 j id' Hj) as (r' & rw & A & B & C & D). exists r', rw. split; [exact A|]. split; [now rewrite nth_error_app1 by lia|]. split; [exact C|].
              intros y Hy. apply P5, D, Hy.
        -- intros id'. split.
           ++ intros Hi. apply in_app_or in Hi. destruct Hi as [Hi|[<-|[]]]; [apply L4 in Hi; destruct Hi as (b & Hb); exists b; apply in_or_app; now left|].
              exists aid. apply in_or_app. right. left. congruence.
           ++ intros (b & Hb). apply in_or_app. apply in_app_or in Hb. destruct Hb as [Hb|[Hb|[]]]; [left; apply L4; now exists b|]. injection Hb as <- <-. right. left. congruence.
      * unfold up1. cbn [put_lat r_asy r_asy_lats r_asy_zs]. rewrite U1, U2, U3. reflexivity.
      * cbn [put_lat r_lat]. rewrite U4. apply incl_appl, incl_refl.
      * cbn [put_lat r_lat]. rewrite U4. apply in_or_app. right. left. congruence.
Qed.

(** ** Assemblies *)
Record asys_ok (s : rstate) : Prop := {
  a_nodup : NoDup (r_asy s);
  a_len : length (r_asy_lats s) = length (r_asy s);
  a_lenz : length (r_asy_zs s) = length (r_asy s);
  a_at : forall j id, nth_error (r_asy s) j = Some id -> exists a z, at_ (assemblies m) id a /\ fst a = [z] /\ nth_error (r_asy_lats s) j = Some (snd a) /\
    nth_error (r_asy_zs s) j = Some z /\ incl (snd a) (r_lat s) }.
Definition stack (a : Z) : list (Z * Z) := map (fun l => (a, l)) (snd (get (assemblies m) a ([], []))).
Lemma combine_split {A} (l : list A) pre b post : combine l (seq 0 (length l)) = pre ++ b :: post ->
  nth_error l (length pre) = Some (fst b) /\ snd b = length pre /\ map fst pre = firstn (length pre) l /\ l = map fst pre ++ fst b :: map fst post.
Proof.
  intros E. assert (El : l = map fst (combine l (seq 0 (length l)))) by (symmetry; apply map_fst_combine; now rewrite seq_length).
  rewrite E in El. rewrite map_app in El. cbn [map] in El.
  assert (N : nth_error l (length pre) = Some (fst b)). { rewrite El, nth_error_app2, map_length, Nat.sub_diag by (rewrite map_length; lia). reflexivity. }
  split; [exact N|]. split; [|split; [|exact El]].
  - assert (Lt : (length pre < length l)%nat) by (apply nth_error_Some; congruence).
    pose proof (nth_combine l (seq 0 (length l)) _ _ _ N (seq_nth_error _ 0 _ Lt)) as X. rewrite E, nth_error_app2, Nat.sub_diag in X by lia. cbn [nth_error] in X. injection X as ->. reflexivity.
  - rewrite El, firstn_app, map_length, Nat.sub_diag. cbn [firstn]. rewrite app_nil_r. rewrite <- (map_length fst pre) at 1. symmetry. apply firstn_all.
Qed.
Lemma asy_read nx ny pre post id x rows s : (0 < nx)%nat -> length (snd (core m)) = (nx * ny)%nat -> snd (core m) = pre ++ id :: post ->
  rows_at nx ny (snd (core m)) (length pre) rows ->
  asy_node checks fsize m file f id x -> cells_ok s -> rtms_ok s -> lats_ok (flat_map stack pre) s -> asys_ok s ->
  exists rows' s', read_assembly stdsort selfcheck junk checks fsize f file (Z.of_nat nx) (Z.of_nat ny) x ((rows, length pre), s) = Ret ((rows', S (length pre)), s') /\
    rows_at nx ny (snd (core m)) (S (length pre)) rows' /\ cells_ok s' /\ rtms_ok s' /\ lats_ok (flat_map stack (pre ++ [id])) s' /\ asys_ok s' /\
    incl (r_asy s) (r_asy s') /\ In id (r_asy s').
Proof.
  intros Hnx Lb Ecore Hr (n & a & z & nodes & Hat & Ez & -> & Hn) Cs Ts Ls As.
  assert (Hk : nth_error (snd (core m)) (length pre) = Some id) by (rewrite Ecore, nth_error_app2, Nat.sub_diag by lia; reflexivity).
  destruct (put_id_ok checks nx ny (snd (core m)) (length pre) id rows Hnx Lb Hk Hr) as (rows' & Ep & Hr').
  pose proof (at_small _ _ _ Hat (proj1 (s_few_assemblies _ _ Hst))) as Bid. pose proof (at_in _ _ _ Hat) as Ia.
  set (nz := length (snd a)) in *.
  unfold read_assembly. set (x := tree _ _). change (attribute x "Name") with (named "Assembly_" (id, n)).
  rewrite (id_of_ok "Assembly_" id n Bid : id_of _ 9 = _). cbn [bind]. rewrite Ep. cbn [bind].
  assert (Es : stack id = map (fun l => (id, l)) (snd a)) by (unfold stack; now rewrite (get_at _ _ _ _ Hat)).
  rewrite flat_map_app. cbn [flat_map]. rewrite app_nil_r.
  destruct (existsb (Z.eqb id) (r_asy s)) eqn:Eid.
  - apply existsb_in in Eid. exists rows', s. split; [reflexivity|]. split; [auto|]. split; [auto|]. split; [auto|]. split; [|split; [auto|split; [apply incl_refl|auto]]].
    destruct Ls as [L1 L2 L3 L4]. split; auto. intros id'. rewrite L4. split; intros (b & Hb).
    + exists b. apply in_or_app. now left.
    + apply in_app_or in Hb. destruct Hb as [Hb|Hb]; [now exists b|]. apply L4. rewrite Es in Hb. apply in_map_iff in Hb. destruct Hb as (l & El & Hl). injection El as <- <-.
      apply In_nth_error in Eid. destruct Eid as (j & Hj). destruct (a_at _ As j id Hj) as (a' & z' & A1 & _ & _ & _ & A5). apply A5. destruct A1 as (_ & A1), Hat as (_ & A2). rewrite A1 in A2. injection A2 as ->. exact Hl.
  - assert (Nid : ~ In id (r_asy s)) by (rewrite <- existsb_in; congruence). clear Eid.
    destruct (assembly_shape _ _ (s_consistent _ _ Hst) a Ia) as (z' & bot & top & Ez' & Hne & Lz & _). rewrite Ez in Ez'. injection Ez' as <-.
    destruct (s_assemblies _ _ Hst a z Ia Ez) as (_ & _ & Hmx & _).
    assert (Pn : (0 < nz)%nat) by (unfold nz; destruct (snd a); [congruence|cbn; lia]).
    rewrite (getNXbyNY_ok x (Z.of_nat nz) 1) by (reflexivity || (unfold intMax; lia) || (split; [lia|exact Hmx])). cbn [bind fst snd].
    unfold Mpact_Model.assert. destruct (Z.ltb_spec 0 (Z.of_nat nz)); [|lia]. cbn [negb]. rewrite andb_false_r. cbn [Z.eqb Pos.eqb need bind].
    unfold vsize. destruct (Z.ltb_spec (Z.of_nat nz) 0); [lia|]. cbn [bind]. rewrite Nat2Z.id.
    assert (Eg : grids x = nodes).
    { apply (grids_of (named "Assembly_" (id, n)) [nx_by_ny (Z.of_nat nz) 1] nodes); [repeat constructor; discriminate|].
      eapply F2_all_r; [|exact Hn]. intros c y (? & ? & ? & ? & ? & ? & ? & ? & ? & ? & _ & _ & _ & _ & _ & _ & _ & _ & _ & -> & _). reflexivity. }
    rewrite Eg. clear Eg. set (s1 := new_asy id s).
    destruct (read_all (fun pr (st : (list Z * list R * nat) * rstate) => fst st = (firstn (length pr) (snd a) ++ repeat 0%Z (nz - length pr), zs_at z nz (length pr), length pr) /\
        cells_ok (snd st) /\ rtms_ok (snd st) /\ lats_ok (flat_map stack pre ++ map (fun l => (id, l)) (map fst pr)) (snd st) /\ up1 (snd st) = up1 s1 /\
        incl (map fst pr) (r_lat (snd st))) _ 
        (read_lattice stdsort selfcheck junk checks fsize f file id) _ _ Hn) with (s := ((repeat 0%Z nz, repeat 0%R (S nz), O), s1)) as (((p, n2), s2) & E2 & P1 & P3 & P3' & P4 & P5 & P6).
    + intros pr b post' y (p, st) Eb Hb (Q1 & Q3 & Q3' & Q4 & Q5 & Q6). cbn [fst snd] in *. subst p.
      destruct (combine_split _ _ _ _ Eb) as (N1 & N2 & N3 & N4). destruct b as (lid, kk). cbn [fst snd] in *. subst kk.
      assert (Estk : stacks m = (flat_map stack pre ++ map (fun l => (id, l)) (map fst pr)) ++ (id, lid) :: (map (fun l => (id, l)) (map fst post') ++ flat_map stack post)).
      { unfold stacks. change (flat_map (fun a => map (fun l => (a, l)) (snd (get (assemblies m) a ([], [])))) (snd (core m))) with (flat_map stack (snd (core m))).
        rewrite Ecore, flat_map_app. cbn [flat_map]. rewrite Es, N4, map_app. cbn [map]. now rewrite <- !app_assoc. }
      destruct (lat_read id a z _ _ (length pr) lid y st Hat Ez N1 Estk Hb Q3 Q3' Q4) as (st' & Ec & R1 & R2 & R3 & R4 & R5 & R6).
      eexists. split; [exact Ec|]. rewrite app_length, Nat.add_1_r. cbn [fst snd]. split; [reflexivity|]. split; [exact R1|]. split; [exact R2|]. split; [|split; [congruence|]].
      * rewrite map_app, map_app. cbn [map fst]. now rewrite app_assoc.
      * rewrite map_app. cbn [map fst]. intros q Hq. apply in_app_or in Hq. destruct Hq as [Hq|[<-|[]]]; auto.
    + cbn [fst snd length map]. rewrite app_nil_r, Nat.sub_0_r. split; [reflexivity|]. split; [|split; [|split; [|split; [reflexivity|intros q []]]]].
      * destruct Cs as [C1 C2 C3 C4 C5 C6 C7]. split; assumption.
      * destruct Ts as [C1 C2 C3]. split; assumption.
      * destruct Ls as [C1 C2 C3 C4]. split; assumption.
    + rewrite E2. cbn [bind]. cbn [fst snd] in *. rewrite combine_length, seq_length, Nat.min_id in P1. fold nz in P1. injection P1 as -> ->. 
      rewrite Nat.sub_diag. cbn [repeat]. rewrite app_nil_r. rewrite (firstn_all (snd a) : firstn nz (snd a) = snd a).
      assert (Ezs : zs_at z nz nz = z). { clear - Lz Pn. assert (Lz' : length z = S nz) by exact Lz. clearbody nz. destruct nz as [|q]; [lia|]. cbn [zs_at]. rewrite Nat.sub_diag. cbn [repeat]. rewrite app_nil_r. rewrite <- Lz'. apply firstn_all. }
      rewrite Ezs. rewrite map_fst_combine in P4, P6 by now rewrite seq_length.
      eexists rows', _. split; [reflexivity|]. split; [exact Hr'|]. injection P5 as U1 U2 U3. split; [|split; [|split; [|split; [|split]]]].
      * destruct P3 as [C1 C2 C3 C4 C5 C6 C7]. split; assumption.
      * destruct P3' as [C1 C2 C3]. split; assumption.
      * rewrite Es. destruct P4 as [C1 C2 C3 C4]. split; assumption.
      * destruct As as [A1 A2 A3 A4]. split; cbn [put_asy r_asy r_asy_lats r_asy_zs r_lat]; rewrite ?U1, ?U2, ?U3; cbn [s1 new_asy r_asy r_asy_lats r_asy_zs].
        -- now apply nodup_snoc.
        -- rewrite !app_length. now rewrite A2.
        -- rewrite !app_length. now rewrite A3.
        -- intros j id' Hj. destruct (le_lt_dec (length (r_asy s)) j) as [G|G].
           ++ rewrite nth_error_app2 in Hj by auto. destruct (j - length (r_asy s))%nat as [|q] eqn:Eq; [|destruct q; discriminate]. cbn [nth_error] in Hj. injection Hj as <-.
              assert (j = length (r_asy s)) by lia. subst j. exists a, z. split; [exact Hat|]. split; [exact Ez|]. split; [now rewrite nth_error_app2, A2, Nat.sub_diag by lia|].
              split; [now rewrite nth_error_app2, A3, Nat.sub_diag by lia|exact P6].
           ++ rewrite nth_error_app1 in Hj by auto. destruct (A4 j id' Hj) as (a' & z' & B1 & B2 & B3 & B4 & B5). exists a', z'. split; [exact B1|]. split; [exact B2|]. split; [now rewrite nth_error_app1 by lia|].
              split; [now rewrite nth_error_app1 by lia|]. intros q Hq. apply (l_done _ _ P4). apply B5 in Hq. apply (l_done _ _ Ls) in Hq. destruct Hq as (b & Hb). exists b. apply in_or_app. now left.
      * cbn [put_asy r_asy]. rewrite U1. apply incl_appl, incl_refl.
      * cbn [put_asy r_asy]. rewrite U1. apply in_or_app. right. now left.
Qed.
End Read.
