(** Proofs for the mesh size field of a gmsh model: what a result tells, and many materials. *)
From Coq Require Import String Ascii.
From Coq Require Import Reals Lra.
From Coq Require Import List Arith ZArith Lia Bool Sorted.
From Verif Require Import Base Loops Arith TextIo_Model XSec_Model XSec_Spec XSec_Proofs.
From Verif Require Import Groups_Model Groups_Spec Groups_Hier_Proofs Overlay_Model Overlay_Proofs Knudsen_Model Knudsen_Spec Knudsen_Proofs Knudsen_Size_Proofs.
Import ListNotations.
Open Scope R_scope.

Lemma bind_ret {A B} (m : outcome A) (k : A -> outcome B) r : bind m k = Ret r -> exists a, m = Ret a /\ k a = Ret r.
Proof. destruct m as [a| | |]; cbn; try discriminate. intros H. now exists a. Qed.
Ltac bd H := apply bind_ret in H as (? & ? & H).

Lemma validate_ret l : validate_all l = Ret tt -> forall m, In m l -> isMacro (i_xsec m) = true /\ exists w, XSec_Model.validate (i_xsec m) = Ret w.
Proof.
  induction l as [|a l IH]; intros H m Hm; [destruct Hm|]. cbn [validate_all] in H. destruct (has_xsec (i_xsec a)) eqn:Hx; [|discriminate]. cbn [negb] in H.
  apply bind_ret in H as (u & Hv & H). destruct Hm as [<-|Hm].
  - unfold has_xsec in Hx. apply andb_true_iff in Hx as (Hx & _). split; [auto|]. unfold validate_xsec in Hv. rewrite Hx in Hv. cbn [negb] in Hv. apply bind_ret in Hv as (w & Hw & _). eauto.
  - now apply IH.
Qed.
Lemma mapo_ret {A B} (f : A -> outcome B) l bs : mapo f l = Ret bs -> Forall2 (fun a b => f a = Ret b) l bs.
Proof.
  revert bs. induction l as [|a l IH]; intros bs H; cbn [mapo] in H; [injection H as <-; constructor|]. bd H. bd H. injection H as <-. constructor; auto.
Qed.
Lemma base_ret checks new_id dim ds : forall st rows st', base_fields checks new_id dim ds st = Ret (rows, st') -> map fst rows = ds /\ (ds <> [] -> (0 <= dim <= 3)%Z).
Proof.
  induction ds as [|d ds IH]; intros st rows st' H; cbn [base_fields] in H; [injection H as <- <-; split; [reflexivity|congruence]|].
  bd H. apply bind_ret in H as (l & Hl & H). destruct (add_field new_id st (Constant (d_lc d) l)) as (id & st1). apply bind_ret in H as ((rs & st2) & Hr & H). cbn [fst snd] in H. injection H as <- <-.
  apply IH in Hr as (Hr & _). split; [cbn; now rewrite Hr|]. intros _. unfold listed in Hl. destruct (Z.leb_spec 0 dim); [|discriminate]. destruct (Z.leb_spec dim 3); [lia|discriminate].
Qed.
Lemma accepts checks new_id shown g dim mats kn ft fs at_ as_ st r :
  set_mesh_field checks new_id shown dim kn ft fs at_ as_ g mats st = Ret r ->
  length (filter (fun x => (g_dim x =? dim)%Z && String.prefix "Material" (g_name x)) (groups g)) = length mats /\
  (forall m, In m mats -> exists x, In x (groups g) /\ g_dim x = dim /\ g_name x = ("Material_" ++ i_name m)%string) /\
  0 < kn /\ (forall m, In m mats -> isMacro (i_xsec m) = true /\ exists w, XSec_Model.validate (i_xsec m) = Ret w) /\
  (0 <= ft -> exists m, In m mats /\ fissile m) /\
  (mats <> [] -> (0 <= dim <= 3)%Z).
Proof.
  unfold set_mesh_field. set (gs := material_groups dim g). intros H.
  destruct (Nat.eqb_spec (length gs) (length mats)) as [L|]; [|discriminate]. cbn [negb] in H.
  destruct (existsb _ mats) eqn:E; [discriminate|]. destruct (Rleb_spec kn 0) as [|K]; [discriminate|].
  apply bind_ret in H as ([] & Hv & H). apply bind_ret in H as (ds & Hd & H). apply bind_ret in H as ((rows & st1) & Hb & H). cbn [fst snd] in H. apply bind_ret in H as ((rows2 & st2) & Hf & H).
  apply base_ret in Hb as (Mr & Dm). apply mapo_ret in Hd. split; [exact L|]. split; [|split; [lra|split; [now apply validate_ret|split]]].
  - intros m Hm. assert (P : position gs m <> 10000%Z).
    { intros A. apply not_true_iff_false in E. apply E. apply existsb_exists. exists m. split; [auto|]. now apply Z.eqb_eq. }
    unfold position in P. destruct (index_of (map g_name gs) ("Material_" ++ i_name m)) as [i|] eqn:Ei; [|congruence].
    apply index_of_some, nth_error_In, in_map_iff in Ei as (x & Nx & Ix). apply filter_In in Ix as (Ix & Bx). apply andb_true_iff in Bx as (Bx & _). apply Z.eqb_eq in Bx. exists x. auto.
  - intros T. unfold fuel_fields in Hf. destruct (Rleb_spec 0 ft) as [RT|]; [|lra]. bd Hf. destruct (forallb _ rows) eqn:F; [discriminate|].
    assert (exists r, In r rows /\ d_fissile (fst r) = true) as (r0 & Hr0 & F0).
    { clear - F. induction rows as [|r rows IH]; [discriminate|]. cbn [forallb] in F. destruct (d_fissile (fst r)) eqn:Fr; [exists r; split; [now left|auto]|]. cbn [negb andb] in F.
      destruct (IH F) as (r0 & Hr0 & F0). exists r0. split; [now right|auto]. }
    assert (Hd0 : In (fst r0) ds) by (rewrite <- Mr; now apply in_map). destruct (Forall2_in_r _ _ _ _ Hd Hd0) as (m & Hm & Em). exists m. split; [auto|].
    unfold data_of in Em. bd Em. bd Em. bd Em. bd Em. bd Em. injection Em as Em. rewrite <- Em in F0. exact F0.
  - intros Hm. apply Dm. intros ->. inversion Hd; subst. now apply Hm.
Qed.

(** ** Many materials *)
Fixpoint stars (n : nat) : string := match n with O => EmptyString | S n => String "*" (stars n) end.
Lemma stars_inj a b : stars a = stars b -> a = b.
Proof. revert b. induction a as [|a IH]; intros [|b] H; cbn in H; try discriminate; [reflexivity|]. injection H as H. f_equal. auto. Qed.
Definition many_group (i : nat) : group := mkG 2 (Z.of_nat i + 1) ("Material_" ++ stars i) [Z.of_nat i + 1]%Z.
Definition many_groups (ge : geometry) (n : nat) : gm := mkGm (map many_group (seq 0 n)) ge.
Definition many_mats (x : xsec) (n : nat) : list input := map (fun i => mkIn (stars i) x) (seq 0 n).
Lemma many_asc n : forall s, ascending_pairs (map (fun x => (g_dim x, g_tag x)) (map many_group (seq s n))).
Proof.
  induction n as [|n IH]; intros s; [constructor|]. cbn [seq map]. constructor; [apply IH|]. apply Forall_forall. intros d Hd.
  rewrite map_map in Hd. apply in_map_iff in Hd as (i & <- & Hi). apply in_seq in Hi. right. cbn [g_dim g_tag many_group fst snd]. split; [reflexivity|lia].
Qed.
Lemma many_wf ge n : well_formed (many_groups ge n).
Proof.
  split; [apply many_asc|]. intros x Hx. apply in_map_iff in Hx as (i & <- & _). cbn [g_tag g_ents many_group]. split; [lia|]. split; [discriminate|repeat constructor].
Qed.
Lemma many_differ ge n : names_differ (many_groups ge n) 2.
Proof.
  intros x y Hx Hy _ _ E. apply in_map_iff in Hx as (i & <- & _). apply in_map_iff in Hy as (j & <- & _). cbn [g_name many_group] in E. apply app_material_inj, stars_inj in E. now subst.
Qed.
Lemma many_nodup x n : NoDup (map i_name (many_mats x n)).
Proof. unfold many_mats. rewrite map_map. cbn [i_name]. apply FinFun.Injective_map_NoDup; [|apply seq_NoDup]. intros a b. apply stars_inj. Qed.
Lemma many_length x n : length (many_mats x n) = n.
Proof. unfold many_mats. now rewrite map_length, seq_length. Qed.
Lemma many_all s n : filter (fun x => (g_dim x =? 2)%Z && String.prefix "Material" (g_name x)) (map many_group (seq s n)) = map many_group (seq s n).
Proof. revert s. induction n as [|n IH]; intros s; [reflexivity|]. cbn [seq map filter]. rewrite IH. reflexivity. Qed.
Lemma many_count ge n : length (filter (fun x => (g_dim x =? 2)%Z && String.prefix "Material" (g_name x)) (groups (many_groups ge n))) = n.
Proof. cbn [groups many_groups]. rewrite many_all. now rewrite map_length, seq_length. Qed.
Lemma many_exist ge n x m : In m (many_mats x n) -> exists y, In y (groups (many_groups ge n)) /\ g_dim y = 2%Z /\ g_name y = ("Material_" ++ i_name m)%string.
Proof. intros Hm. apply in_map_iff in Hm as (i & <- & Hi). exists (many_group i). split; [now apply in_map|]. split; reflexivity. Qed.
Lemma many_fail ge n x checks new_id shown kn ft fs at_ as_ st : (Z.of_nat n > 10000)%Z ->
  set_mesh_field checks new_id shown 2 kn ft fs at_ as_ (many_groups ge n) (many_mats x n) st = Fail.
Proof.
  intros Hn. unfold set_mesh_field. set (gs := material_groups 2 (many_groups ge n)).
  assert (Eg : gs = map many_group (seq 0 n)) by (apply many_all). destruct (negb _); [reflexivity|].
  replace (existsb _ (many_mats x n)) with true; [reflexivity|]. symmetry. apply existsb_exists. destruct (Z_of_nat_complete 10000 ltac:(lia)) as (k & Ek).
  assert (Kn : (k < n)%nat) by lia.
  exists (mkIn (stars k) x). split; [unfold many_mats; apply (in_map (fun i => mkIn (stars i) x)), in_seq; lia|].
  unfold position. cbn [i_name]. rewrite Eg. pose proof (index_of_spec (map g_name (map many_group (seq 0 n))) ("Material_" ++ stars k)) as Q.
  assert (At : forall i, (i < n)%nat -> nth_error (map g_name (map many_group (seq 0 n))) i = Some ("Material_" ++ stars i)%string).
  { intros i Hi. rewrite !nth_error_map. rewrite (nth_error_nth' _ O) by (now rewrite seq_length). rewrite seq_nth by auto. reflexivity. }
  destruct (index_of _ _) as [i|].
  - destruct Q as (Q & _). assert (Hi : (i < n)%nat).
    { apply (f_equal (fun o => match o with Some _ => true | None => false end)) in Q. assert (nth_error (map g_name (map many_group (seq 0 n))) i <> None) as N by (destruct (nth_error _ i); congruence).
      apply nth_error_Some in N. now rewrite !map_length, seq_length in N. }
    rewrite At in Q by auto. injection Q as Q. apply stars_inj in Q. subst i. apply Z.eqb_eq. lia.
  - apply Z.eqb_refl.
Qed.
