(** The areas and radii of the rings. *)
From Coq Require Import List Arith ZArith Bool Reals Lra Lia Psatz.
From Verif Require Import Base Loops Arith Fill Box_Proofs Poly_Spec Poly_Proofs PinCyl_Model PinCyl_Trig_Proofs.
Import ListNotations.
Local Open Scope R_scope.

Lemma fold_add l : forall s, fold_left Nat.add l s = (s + list_sum l)%nat.
Proof. induction l as [|x l IH]; intros s; cbn; [lia|]. rewrite IH. change (fold_right Init.Nat.add 0%nat l) with (list_sum l). lia. Qed.
Lemma rd_nth {A} (l : list A) i d : (i < length l)%nat -> rd l i = Ret (nth i l d).
Proof. intros H. apply rd_Ret. now apply nth_error_nth'. Qed.

Section Rings.
Variables (pitch : R) (radii : list R) (ns : list nat).
Hypothesis Hlen : length ns = length radii.
Hypothesis Hne : radii <> [].
Hypothesis Hns : forall n, In n ns -> (0 < n)%nat.
(** r_{k-1}, with r_{-1} = 0 *)
Definition rad (k : nat) : R := nth k (0 :: radii) 0.
Hypothesis Hinc : forall k, (k < length radii)%nat -> rad k < rad (S k).
Definition reg (k : nat) : R := PI * (rad (S k) * rad (S k) - rad k * rad k).
Definition cnt (k : nat) : nat := nth k ns 0%nat.
Definition off (k : nat) : nat := list_sum (firstn k ns).
Definition m := length radii.
Definition asl : list R := concat (map (fun k => repeat (reg k / INR (cnt k)) (cnt k)) (seq 0 m)).
Definition nr := list_sum ns.
Definition cum (i : nat) : R := rsum (firstn (S i) asl) / PI.

Lemma m_pos : (0 < m)%nat.
Proof. unfold m. destruct radii; [congruence|cbn; lia]. Qed.
Lemma cnt_pos k : (k < m)%nat -> (0 < cnt k)%nat.
Proof. intros H. apply Hns. apply nth_In. unfold m in H. lia. Qed.
Lemma rad_nonneg k : (k <= m)%nat -> 0 <= rad k.
Proof.
  induction k as [|k IH]; intros H; [cbn; lra|]. assert (X := Hinc k ltac:(unfold m in H; lia)). specialize (IH ltac:(lia)). lra.
Qed.
Lemma reg_pos k : (k < m)%nat -> 0 < reg k.
Proof.
  intros H. assert (X := Hinc k H). assert (Y := rad_nonneg k ltac:(lia)). assert (P := PI_RGT_0). unfold reg.
  apply Rmult_lt_0_compat; nra.
Qed.
Lemma firstn_S_nth {A} (l : list A) d k : (k < length l)%nat -> firstn (S k) l = firstn k l ++ [nth k l d].
Proof.
  revert k. induction l as [|x l IH]; intros [|k] H; cbn in H; try lia; auto. cbn [firstn nth app]. f_equal. apply IH. lia.
Qed.
Lemma off_S k : (k < m)%nat -> off (S k) = (off k + cnt k)%nat.
Proof. intros H. unfold off, cnt. rewrite (firstn_S_nth ns 0%nat), list_sum_app by (unfold m in H; lia). cbn. lia. Qed.
Lemma off_m : off m = nr.
Proof. unfold off, nr, m. rewrite <- Hlen, firstn_all. reflexivity. Qed.
Lemma off_mono k : (k <= m)%nat -> (off k <= nr)%nat.
Proof. intros H. rewrite <- off_m. remember (m - k)%nat as d. revert k H Heqd. induction d as [|d IH]; intros k H E.
  - now replace k with m by lia.
  - specialize (IH (S k) ltac:(lia) ltac:(lia)). rewrite off_S in IH by lia. lia.
Qed.
Lemma asl_prefix k : (k <= m)%nat -> length (concat (map (fun k => repeat (reg k / INR (cnt k)) (cnt k)) (seq 0 k))) = off k.
Proof.
  induction k as [|k IH]; intros H; auto. replace (seq 0 (S k)) with (seq 0 k ++ [k]) by (rewrite <- (seq_app k 1); f_equal; lia).
  rewrite map_app, concat_app, app_length, IH by lia. cbn [map concat]. rewrite app_nil_r, repeat_length, off_S by lia. reflexivity.
Qed.
Lemma asl_length : length asl = nr.
Proof. unfold asl. rewrite asl_prefix by auto. apply off_m. Qed.
Lemma asl_split k : (k < m)%nat -> exists r, asl =
  concat (map (fun k => repeat (reg k / INR (cnt k)) (cnt k)) (seq 0 k)) ++ repeat (reg k / INR (cnt k)) (cnt k) ++ r.
Proof.
  intros H. unfold asl. assert (E : seq 0 m = seq 0 k ++ seq k (S (m - k - 1))) by (rewrite <- (seq_app k); f_equal; lia).
  rewrite E, map_app, concat_app. cbn [seq map concat].
  eexists. reflexivity.
Qed.
Lemma asl_nth k s : (k < m)%nat -> (s < cnt k)%nat -> nth_error asl (off k + s) = Some (reg k / INR (cnt k)).
Proof.
  intros H Hs. destruct (asl_split k H) as (r & E). rewrite E. rewrite nth_error_app2; rewrite asl_prefix by lia; [|lia].
  replace (off k + s - off k)%nat with s by lia. rewrite nth_error_app1 by (rewrite repeat_length; lia). now apply nth_error_repeat.
Qed.
Lemma asl_pos a : In a asl -> 0 < a.
Proof.
  intros H. apply in_concat in H as (l & H & Ha). apply in_map_iff in H as (k & <- & Hk). apply in_seq in Hk.
  apply repeat_spec in Ha. subst. apply Rdiv_lt_0_compat; [apply reg_pos; lia|]. apply lt_0_INR, cnt_pos. lia.
Qed.
Lemma rsum_repeat x n : rsum (repeat x n) = INR n * x.
Proof. induction n as [|n IH]; cbn [repeat]; [rewrite rsum_nil; cbn; ring|]. rewrite rsum_cons, IH, S_INR. ring. Qed.
Lemma prefix_sum k : (k <= m)%nat -> rsum (firstn (off k) asl) = PI * (rad k * rad k).
Proof.
  intros H.
  assert (E : firstn (off k) asl = concat (map (fun k => repeat (reg k / INR (cnt k)) (cnt k)) (seq 0 k))).
  { unfold asl. assert (E : seq 0 m = seq 0 k ++ seq k (m - k)) by (rewrite <- (seq_app k); f_equal; lia). rewrite E, map_app, concat_app, firstn_app, asl_prefix by lia.
    rewrite Nat.sub_diag, <- (asl_prefix k H), firstn_all. cbn [firstn]. apply app_nil_r. }
  rewrite E. clear E. revert H. induction k as [|k IH]; intros H; [cbn; rewrite rsum_nil; ring|].
  replace (seq 0 (S k)) with (seq 0 k ++ [k]) by (rewrite <- (seq_app k 1); f_equal; lia).
  rewrite map_app, concat_app, rsum_app, IH by lia. cbn [map concat]. rewrite app_nil_r, rsum_repeat. unfold reg.
  assert (INR (cnt k) <> 0) by (apply not_0_INR; assert (X := cnt_pos k ltac:(lia)); lia). field. auto.
Qed.
Lemma rsum_nonneg l : (forall a, In a l -> 0 < a) -> 0 <= rsum l.
Proof. induction l as [|x l IH]; intros H; [rewrite rsum_nil; lra|]. rewrite rsum_cons. specialize (IH (fun a Ha => H a (or_intror Ha))). specialize (H x (or_introl eq_refl)). lra. Qed.
Lemma firstn_In {A} (x : A) n l : In x (firstn n l) -> In x l.
Proof. revert l. induction n as [|n IH]; intros [|y l]; cbn; auto; [tauto|]. intros [->|H]; auto. Qed.
Lemma cum_S i : (S i < nr)%nat -> cum (S i) = nth (S i) asl 0 / PI + cum i.
Proof.
  intros H. unfold cum. rewrite (firstn_S_nth asl 0 (S i)) by (rewrite asl_length; auto). rewrite rsum_app, rsum_cons, rsum_nil.
  field. assert (P := PI_RGT_0). lra.
Qed.
Lemma asl_nth_pos i : (i < nr)%nat -> 0 < nth i asl 0.
Proof. intros H. apply asl_pos, nth_In. now rewrite asl_length. Qed.
Lemma cum_pos i : (i < nr)%nat -> 0 < cum i.
Proof.
  intros H. unfold cum. apply Rdiv_lt_0_compat; [|apply PI_RGT_0]. rewrite (firstn_S_nth asl 0) by (rewrite asl_length; auto).
  rewrite rsum_app, rsum_cons, rsum_nil. assert (X := asl_nth_pos i H).
  assert (Y := rsum_nonneg (firstn i asl) (fun a Ha => asl_pos a (firstn_In _ _ _ Ha))). lra.
Qed.
Lemma cum_mono i j : (i <= j < nr)%nat -> cum i <= cum j.
Proof.
  intros [H Hj]. induction j as [|j IH]; [replace i with 0%nat by lia; lra|]. destruct (Nat.eq_dec i (S j)) as [->|N]; [lra|].
  rewrite cum_S by auto. assert (X := asl_nth_pos (S j) Hj). specialize (IH ltac:(lia) ltac:(lia)).
  assert (0 < nth (S j) asl 0 / PI) by (apply Rdiv_lt_0_compat; auto; apply PI_RGT_0). lra.
Qed.
Lemma nr_pos : (0 < nr)%nat.
Proof. assert (X := off_mono 1 m_pos). rewrite off_S in X by apply m_pos. assert (Y := cnt_pos 0 m_pos). lia. Qed.
Lemma cum_last : cum (nr - 1) = rad m * rad m.
Proof.
  unfold cum. assert (X := nr_pos). replace (S (nr - 1)) with nr by lia. rewrite <- off_m, prefix_sum by auto.
  field. assert (P := PI_RGT_0). lra.
Qed.

(** * region_areas *)
Lemma regions_ok : exists l, region_areas pitch radii = Ret l /\ length l = (m + 1)%nat /\ forall k, (k < m)%nat -> nth_error l k = Some (reg k).
Proof.
  assert (Mp := m_pos). unfold region_areas. fold m. assert (E0 : rd radii 0 = Ret (rad 1)) by (apply (rd_nth radii 0 0); exact Mp).
  rewrite E0. cbn [bind]. rewrite wr_ok by (rewrite repeat_length; lia). cbn [bind].
  destruct (for_inv (fun i (a : list R) => length a = (m + 1)%nat /\ forall k, (k < i)%nat -> nth_error a k = Some (reg k))
    (fun i a => let* r := rd radii i in let* q := rd radii (i - 1) in wr a i (PI * (r * r - q * q)))
    (m + 1 - 2) 1 (upd (repeat 0 (m + 1)) 0 (PI * rad 1 * rad 1))) as (a & E & L & A).
  - split; [now rewrite upd_length, repeat_length|]. intros k Hk. assert (k = 0)%nat by lia. subst.
    rewrite nth_error_upd_eq by (rewrite repeat_length; lia). f_equal. unfold reg. cbn [rad nth]. ring.
  - intros j a Hj [L A]. rewrite (rd_nth radii j 0), (rd_nth radii (j - 1) 0) by (fold m; lia). cbn [bind].
    rewrite wr_ok by lia. eexists. split; [reflexivity|]. split; [now rewrite upd_length|].
    intros k Hk. destruct (Nat.eq_dec k j) as [->|N].
    + rewrite nth_error_upd_eq by lia. f_equal. unfold reg, rad. destruct j as [|j]; [lia|]. cbn [nth]. replace (S j - 1)%nat with j by lia. reflexivity.
    + rewrite nth_error_upd_neq by auto. apply A. lia.
  - rewrite E. cbn [bind]. replace (1 + (m + 1 - 2))%nat with m in A by lia. assert (P := A (m - 1)%nat ltac:(lia)).
    replace (m + 1 - 2)%nat with (m - 1)%nat by lia. rewrite (proj2 (rd_Ret _ _ _) P). cbn [bind]. rewrite wr_ok by lia.
    eexists. split; [reflexivity|]. split; [now rewrite upd_length|]. intros k Hk. rewrite nth_error_upd_neq by lia. auto.
Qed.

(** * rings *)
Definition good (ctr : nat) (areas rr : list R) : Prop :=
  length areas = (nr + 1)%nat /\ length rr = nr /\
  forall i, (i < ctr)%nat -> nth_error areas i = Some (nth i asl 0) /\ nth_error rr i = Some (sqrt (cum i)).
Lemma good_step ctr areas rr a : good ctr areas rr -> (0 < ctr < nr)%nat -> a = nth ctr asl 0 ->
  exists areas' rr', wr areas ctr a = Ret areas' /\ rd rr (ctr - 1) = Ret (sqrt (cum (ctr - 1))) /\
    wr rr ctr (sqrt (a / PI + sqrt (cum (ctr - 1)) * sqrt (cum (ctr - 1)))) = Ret rr' /\ good (S ctr) areas' rr'.
Proof.
  intros (L1 & L2 & G) Hc ->. rewrite !wr_ok by lia. eexists _, _. split; [reflexivity|]. split; [apply rd_Ret, G; lia|]. split; [reflexivity|].
  split; [now rewrite upd_length|]. split; [now rewrite upd_length|]. intros i Hi. destruct (Nat.eq_dec i ctr) as [->|N].
  - rewrite !nth_error_upd_eq by lia. split; [reflexivity|]. f_equal. f_equal.
    rewrite sqrt_sqrt by (assert (X := cum_pos (ctr - 1) ltac:(lia)); lia || lra).
    replace ctr with (S (ctr - 1)) at 1 3 by lia. symmetry. apply cum_S. lia.
  - rewrite !nth_error_upd_neq by auto. apply G. lia.
Qed.
Lemma asl_at k s : (k < m)%nat -> (s < cnt k)%nat -> reg k / INR (cnt k) = nth (off k + s) asl 0.
Proof. intros H Hs. symmetry. apply nth_error_nth. now apply asl_nth. Qed.
Lemma rings_ok : rings pitch radii ns =
  Ret (asl ++ [pitch * pitch - PI * rad m * rad m], map (fun i => sqrt (cum i)) (seq 0 nr)).
Proof.
  assert (Mp := m_pos). assert (Np := nr_pos). unfold rings. destruct regions_ok as (regs & E & L & G). rewrite E. cbn [bind]. clear E.
  rewrite fold_add. cbn [Nat.add]. fold nr. rewrite (rd_nth ns 0 0%nat) by (rewrite Hlen; exact Mp). cbn [bind]. fold (cnt 0).
  rewrite (proj2 (rd_Ret _ _ _) (G 0%nat Mp)). cbn [bind]. rewrite !wr_ok by (rewrite repeat_length; lia). cbn [bind].
  assert (Cp := cnt_pos 0 Mp). assert (O1 : off 1 = cnt 0) by (rewrite off_S by lia; cbn; lia). assert (O1n := off_mono 1 Mp).
  destruct (for_inv (fun i st => good i (fst st) (snd st))
    (fun i st => let* a := rd (fst st) 0 in let* areas := wr (fst st) i a in let* q := rd (snd st) (i - 1) in
       let* rr := wr (snd st) i (sqrt (a / PI + q * q)) in Ret (areas, rr)) (cnt 0 - 1) 1
    (upd (repeat 0 (nr + 1)) 0 (reg 0 / INR (cnt 0)), upd (repeat 0 nr) 0 (sqrt (reg 0 / INR (cnt 0) / PI)))) as ([areas rr] & E & I1).
  { cbn [fst snd]. split; [now rewrite upd_length, repeat_length|]. split; [now rewrite upd_length, repeat_length|].
    intros i Hi. assert (i = 0)%nat by lia. subst. rewrite !nth_error_upd_eq by (rewrite repeat_length; lia).
    assert (X := asl_at 0 0 Mp Cp). change (off 0 + 0)%nat with 0%nat in X. rewrite X. split; [reflexivity|]. f_equal. f_equal.
    unfold cum. rewrite (firstn_S_nth asl 0) by (rewrite asl_length; lia). cbn [firstn app]. rewrite rsum_cons, rsum_nil. unfold Rdiv. ring. }
  { intros j [areas rr] Hj I. cbn [fst snd] in *. destruct I as (L1 & L2 & I). rewrite (proj2 (rd_Ret _ _ _) (proj1 (I 0%nat ltac:(lia)))). cbn [bind].
    assert (Ea : nth 0 asl 0 = nth j asl 0).
    { assert (X := asl_at 0 j Mp ltac:(lia)). rewrite (asl_at 0 0 Mp ltac:(lia)) in X. exact X. }
    destruct (good_step j areas rr (nth 0 asl 0) (conj L1 (conj L2 I)) ltac:(lia) Ea) as (areas' & rr' & E1 & E2 & E3 & I').
    rewrite E1. cbn [bind]. rewrite E2. cbn [bind]. rewrite E3. cbn [bind]. eexists. split; [reflexivity|]. exact I'. }
  rewrite E. cbn [bind fst snd]. clear E. cbn [fst snd] in I1. replace (1 + (cnt 0 - 1))%nat with (off 1) in I1 by lia. rewrite <- O1.
  match goal with |- context [for_ ?n 1 ?f ?s] =>
    destruct (for_inv (fun k (st : list R * list R * nat) => snd st = off k /\ good (off k) (fst (fst st)) (snd (fst st))) f n 1%nat s) as ([[areas2 rr2] c2] & E & I2) end.
  { cbn. auto. }
  { intros k [[ar r] c] Hk [Hc I]. cbn [fst snd] in Hc, I. subst c.
    assert (Hkm : (k < m)%nat) by (unfold m in *; lia).
    rewrite (rd_nth ns k 0%nat) by (unfold m in Hkm; lia). cbn [bind]. rewrite (proj2 (rd_Ret _ _ _) (G k Hkm)). cbn [bind]. fold (cnt k).
    assert (Ok : (0 < off k)%nat).
    { clear - Hkm Hk Cp O1 Hlen. induction k as [|k IH]; [lia|]. destruct k as [|k]; [lia|]. rewrite off_S by lia. specialize (IH ltac:(lia) ltac:(lia)). lia. }
    assert (OS := off_S k Hkm). assert (OSn := off_mono (S k) Hkm).
    match goal with |- exists s', for_ ?n 0 ?f ?x = Ret _ /\ _ =>
      destruct (for_inv (fun s (st : list R * list R * nat) => snd st = (off k + s)%nat /\ good (off k + s) (fst (fst st)) (snd (fst st))) f n 0%nat x) as (st & E & I') end.
    { cbn. now rewrite Nat.add_0_r. }
    { intros s [[ar' r'] c] Hs [Hc I']. cbn [fst snd] in Hc, I'. subst c.
      destruct (good_step (off k + s) ar' r' (reg k / INR (cnt k)) I' ltac:(lia) (asl_at k s Hkm ltac:(lia))) as (a2 & r2 & E1 & E2 & E3 & I2).
      rewrite E1. cbn [bind]. rewrite E2. cbn [bind]. rewrite E3. cbn [bind]. eexists. split; [reflexivity|]. cbn [fst snd].
      replace (off k + S s)%nat with (S (off k + s)) by lia. split; [lia|exact I2]. }
    exists st. split; [exact E|]. cbn [Nat.add] in I'. now rewrite OS. }
  rewrite E. cbn [bind fst snd] in I2 |- *. clear E. replace (1 + (length radii + 1 - 2))%nat with m in I2 by (unfold m in *; lia).
  rewrite off_m in I2. destruct I2 as (-> & L1 & L2 & I2).
  rewrite L2, (proj2 (rd_Ret _ _ _) (proj2 (I2 (nr - 1)%nat ltac:(lia)))). cbn [bind]. rewrite cum_last, sqrt_square by (apply rad_nonneg; auto).
  rewrite wr_ok by lia. cbn [bind]. f_equal. f_equal.
  - apply nth_error_ext. intros i. destruct (lt_eq_lt_dec i nr) as [[H| ->]|H].
    + rewrite nth_error_upd_neq, nth_error_app1 by (rewrite ?asl_length; lia). rewrite (proj1 (I2 i H)). symmetry. apply nth_error_nth'. now rewrite asl_length.
    + rewrite nth_error_upd_eq, nth_error_app2 by (rewrite ?asl_length; lia). rewrite asl_length, Nat.sub_diag. reflexivity.
    + rewrite (proj2 (nth_error_None _ _)) by (rewrite upd_length; lia). symmetry. apply nth_error_None. rewrite app_length, asl_length. cbn. lia.
  - apply nth_error_ext. intros i. destruct (le_lt_dec nr i) as [H|H].
    + rewrite !(proj2 (nth_error_None _ _)); auto; [rewrite map_length, seq_length; lia|lia].
    + rewrite (proj2 (I2 i H)). symmetry. apply (nth_error_map_seq (fun i => sqrt (cum i))). auto.
Qed.
End Rings.
