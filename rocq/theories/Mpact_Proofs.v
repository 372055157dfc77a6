(** Flattening, and what each building function does. *)
From Coq Require Import String.
From Coq Require Import List Arith ZArith Bool Reals Lra Lia.
From Verif Require Import Base Loops Fill Arith Box_Proofs Grid_Model Grid_Spec Grid_Proofs Fvm_Model PinRect_Model PinCyl_Model Mpact_Model Mpact_Spec.
Import ListNotations.
Local Open Scope list_scope.
Local Open Scope R_scope.

(** * Lists *)
Lemma at_exists {A} (l : list A) id x : at_ l id x -> exists_in l id.
Proof.
  intros [H0 H]. split; auto. assert (Z.to_nat id < length l)%nat by (apply nth_error_Some; congruence). lia.
Qed.
Lemma exists_at {A} (l : list A) id : exists_in l id -> exists x, at_ l id x.
Proof.
  intros [H0 H]. destruct (nth_error l (Z.to_nat id)) as [x|] eqn:E; [exists x; split; auto|].
  apply nth_error_None in E. lia.
Qed.
Lemma at_rdz {A} (l : list A) id x : at_ l id x <-> rdz l id = Ret x.
Proof.
  unfold at_, rdz. destruct (Z.ltb_spec id 0) as [L|L].
  - split; [lia|discriminate].
  - rewrite rd_Ret. tauto.
Qed.
Lemma at_In {A} (l : list A) id x : at_ l id x -> In x l.
Proof. intros [_ H]. eapply nth_error_In; eauto. Qed.
Lemma out_of_range {A} (l : list A) id : ((id <? 0) || (size l <=? id))%Z = false <-> exists_in l id.
Proof.
  unfold exists_in, size. rewrite orb_false_iff, Z.ltb_ge, Z.leb_gt. tauto.
Qed.
Lemma existsb_false_iff {A} (f : A -> bool) l : existsb f l = false <-> Forall (fun x => f x = false) l.
Proof.
  induction l as [|x l IH]; cbn; [now split|]. rewrite orb_false_iff, IH. split; [intros []; auto|inversion 1; auto].
Qed.
Lemma ids_checked {A} (l : list A) ids : existsb (existsb (fun id => (id <? 0) || (size l <=? id)))%Z ids = false <->
  Forall (exists_in l) (concat ids).
Proof.
  rewrite existsb_false_iff. induction ids as [|row ids IH]; cbn; [now split|]. rewrite Forall_app, <- IH. clear IH.
  assert (H : existsb (fun id => (id <? 0) || (size l <=? id))%Z row = false <-> Forall (exists_in l) row).
  { rewrite existsb_false_iff, !Forall_forall. split; intros H x Hx; apply out_of_range; auto. }
  split; [inversion 1; subst; tauto|intros [H1 H2]; constructor; tauto].
Qed.

Lemma prefix_refl {A} (l : list A) : prefix l l.
Proof. exists []. now rewrite app_nil_r. Qed.
Lemma prefix_app {A} (l k : list A) : prefix l (l ++ k).
Proof. now exists k. Qed.
Lemma prefix_trans {A} (a b c : list A) : prefix a b -> prefix b c -> prefix a c.
Proof. intros [k ->] [k' ->]. exists (k ++ k'). now rewrite app_assoc. Qed.
Lemma prefix_exists {A} (l l' : list A) id : prefix l l' -> exists_in l id -> exists_in l' id.
Proof. intros [k ->] [H1 H2]. split; auto. rewrite app_length. lia. Qed.
Lemma prefix_at {A} (l l' : list A) id x : prefix l l' -> at_ l id x -> at_ l' id x.
Proof.
  intros [k ->] [H1 H2]. split; auto. rewrite nth_error_app1; auto. apply nth_error_Some. congruence.
Qed.
Lemma prefix_at_inv {A} (l l' : list A) id x : prefix l l' -> exists_in l id -> at_ l' id x -> at_ l id x.
Proof.
  intros [k ->] [H1 H2] [_ H]. split; auto. rewrite nth_error_app1 in H; auto. lia.
Qed.
Lemma prefix_In {A} (l l' : list A) x : prefix l l' -> In x l -> In x l'.
Proof. intros [k ->] H. apply in_app_iff. auto. Qed.
Lemma prefix_head {A} (l l' : list A) x : prefix l l' -> l <> [] -> nth_error l' 0 = Some x -> nth_error l 0 = Some x.
Proof. intros [k ->] Hn H. destruct l; [congruence|]. exact H. Qed.
Lemma prefix_head' {A} (l l' : list A) x : prefix l l' -> nth_error l 0 = Some x -> nth_error l' 0 = Some x.
Proof. intros [k ->] H. destruct l; [discriminate|]. exact H. Qed.

Lemma error_Ret {A} e (x y : A) : error e x = Ret y -> e = false /\ y = x.
Proof. unfold error. destruct e; [discriminate|]. intros [= <-]. auto. Qed.

(** * flattenLattice *)
Section Flatten.
Variable exit_on_error : bool.
Lemma ragged ids row0 : nth_error ids 0 = Some row0 ->
  existsb (fun row => negb (length row =? length row0)%nat) (tl ids) = false <-> rectangular ids (length ids) (length row0).
Proof.
  intros E. destruct ids as [|r ids]; [discriminate|]. injection E as ->. cbn [tl]. rewrite existsb_false_iff.
  unfold rectangular. split.
  - intros H. split; auto. constructor; auto. eapply Forall_impl; [|exact H]. cbn. intros a Ha.
    apply negb_false_iff, Nat.eqb_eq in Ha. auto.
  - intros [_ H]. inversion H; subst. eapply Forall_impl; [|eassumption]. cbn. intros a ->. now rewrite Nat.eqb_refl.
Qed.
Lemma rev_nth_error {A} (l : list A) i x : (i < length l)%nat -> nth_error l (length l - 1 - i) = Some x <-> nth_error (rev l) i = Some x.
Proof.
  intros H. rewrite (nth_error_nth' (rev l) x) by (rewrite rev_length; auto). rewrite rev_nth by auto.
  rewrite (nth_error_nth' l x) by lia. replace (length l - 1 - i)%nat with (length l - S i)%nat by lia. tauto.
Qed.
Lemma flatten_ok ids nr nc : rectangular ids nr nc -> (0 < nr)%nat -> (Z.of_nat nr * Z.of_nat nc <= intMax)%Z ->
  flattenLattice exit_on_error ids = Ret (concat (rev ids)).
Proof.
  intros HR Hn Hc. unfold flattenLattice. destruct (nth_error ids 0) as [row0|] eqn:E0.
  2:{ destruct ids; [destruct HR as [HR _]; cbn in HR; lia|discriminate]. }
  destruct HR as [Hl Hf].
  assert (L0 : length row0 = nc) by (rewrite Forall_forall in Hf; apply Hf; eapply nth_error_In; eauto).
  replace (rd ids 0) with (@Ret (list Z) row0) by (symmetry; now apply rd_Ret). cbn [bind].
  assert (Hrag : existsb (fun row => negb (length row =? length row0)%nat) (tl ids) = false).
  { apply ragged; auto. split; auto. now rewrite L0. }
  rewrite Hrag, L0, Hl. rewrite i32_ok by (unfold in_i32, intMin; lia). cbn [bind].
  pose proof (fill_blocks (fun i flat => for_ nc 0 (fun j flat => let* row := rd ids (nr - 1 - i) in let* id := rd row j in wr flat (i * nc + j) id) flat)
    (fun i => nth (nr - 1 - i) ids []) nc nr 0 [] (repeat 0%Z (nr * nc)) []) as F.
  cbn [app] in F. rewrite !app_nil_r in F. rewrite F.
  - f_equal. f_equal. apply nth_error_ext. intros i. destruct (Nat.lt_ge_cases i nr) as [Hi|Hi].
    + rewrite nth_error_map_seq by auto. symmetry. rewrite <- Hl in *. rewrite <- rev_nth_error by auto. apply nth_error_nth'. lia.
    + rewrite !(proj2 (nth_error_None _ _)); auto; [rewrite rev_length; lia|rewrite map_length, seq_length; auto].
  - intros j s1 o s2 Hj Hs Ho.
    assert (Er : nth_error ids (nr - 1 - j) = Some (nth (nr - 1 - j) ids [])) by (apply nth_error_nth'; lia).
    assert (Lr : length (nth (nr - 1 - j) ids []) = nc).
    { rewrite Forall_forall in Hf. apply Hf. eapply nth_error_In; eauto. }
    pose proof (fill_range (fun j0 flat => let* row := rd ids (nr - 1 - j) in let* id := rd row j0 in wr flat (j * nc + j0) id)
      (fun c => nth c (nth (nr - 1 - j) ids []) 0%Z) nc 0 s1 o s2) as G.
    rewrite G; auto.
    + f_equal. f_equal. f_equal. apply nth_error_ext. intros i. destruct (Nat.lt_ge_cases i nc) as [Hi|Hi].
      * rewrite nth_error_map_seq by auto. symmetry. apply nth_error_nth'. lia.
      * rewrite !(proj2 (nth_error_None _ _)); auto; [lia|rewrite map_length, seq_length; auto].
    + intros c s Hc' _. rewrite (proj2 (rd_Ret _ _ _) Er). cbn [bind].
      assert (Ec : nth_error (nth (nr - 1 - j) ids []) c = Some (nth c (nth (nr - 1 - j) ids []) 0%Z)) by (apply nth_error_nth'; lia).
      rewrite (proj2 (rd_Ret _ _ _) Ec). cbn [bind].
      cbn [length] in Hs. f_equal. lia.
  - intros j Hj. rewrite Forall_forall in Hf. apply Hf. apply nth_In. lia.
  - apply repeat_length.
Qed.
Lemma flatten_inv ids flat : flattenLattice exit_on_error ids = Ret flat ->
  (exists nr nc, rectangular ids nr nc /\ (0 < nr)%nat /\ (Z.of_nat nr * Z.of_nat nc <= intMax)%Z /\ flat = concat (rev ids)) \/
  (exit_on_error = false /\ flat = []).
Proof.
  intros H. pose proof H as H'. unfold flattenLattice in H. apply bind_Ret in H as (row0 & E0 & H). apply rd_Ret in E0.
  destruct (existsb _ (tl ids)) eqn:Er.
  - apply error_Ret in H as []. auto.
  - left. apply (ragged _ _ E0) in Er. apply bind_Ret in H as (n & En & H).
    assert (Hi : (Z.of_nat (length ids) * Z.of_nat (length row0) <= intMax)%Z).
    { unfold i32 in En. destruct (_ && _)%bool eqn:B in En; [|discriminate]. apply andb_true_iff in B as [_ B]. now apply Z.leb_le in B. }
    assert (Hp : (0 < length ids)%nat) by (destruct ids; [discriminate|cbn; lia]).
    exists (length ids), (length row0). rewrite (flatten_ok _ _ _ Er) in H' by auto. injection H' as <-. auto.
Qed.
Lemma flatten_ids ids flat : flattenLattice exit_on_error ids = Ret flat -> forall id, In id flat -> In id (concat ids).
Proof.
  intros H id Hin. apply flatten_inv in H as [(nr & nc & _ & _ & _ & ->)|[_ ->]]; [|destruct Hin].
  apply in_concat in Hin as (row & Hr & Hi). apply in_concat. exists row. split; auto. now apply in_rev.
Qed.
(** row r from the top, column c, is found at (rows - 1 - r) * cols + c *)
Lemma flatten_entry ids nr nc r c id : rectangular ids nr nc -> (r < nr)%nat -> (c < nc)%nat ->
  entry ids r c id <-> nth_error (concat (rev ids)) ((nr - 1 - r) * nc + c) = Some id.
Proof.
  intros [Hl Hf] Hr Hc. unfold entry.
  assert (Er : nth_error ids r = Some (nth r ids [])) by (apply nth_error_nth'; lia).
  rewrite (nth_error_concat (rev ids) nc) with (l := nth r ids []); auto.
  - split; [intros (row & H1 & H2); congruence|intros H; eauto].
  - intros l Hin. rewrite Forall_forall in Hf. apply Hf. now apply in_rev.
  - rewrite <- Hl in *. rewrite <- rev_nth_error by lia. replace (length ids - 1 - (length ids - 1 - r))%nat with r by lia. auto.
Qed.
Lemma flat_length ids nr nc : rectangular ids nr nc -> length (concat (rev ids)) = (nr * nc)%nat.
Proof.
  intros [Hl Hf]. rewrite (concat_length_eq _ nc), rev_length, Hl; auto. intros l Hin. rewrite Forall_forall in Hf. apply Hf.
  now apply in_rev.
Qed.
End Flatten.
Lemma map_flat_ok checks nx ny k : (0 < nx)%Z -> (0 <= k < nx * ny)%Z ->
  mapFlatIndexToLattice2D checks k nx ny = Ret (k mod nx, ny - 1 - k / nx)%Z.
Proof.
  intros Hx Hk. unfold mapFlatIndexToLattice2D, assert.
  assert (Hy : (0 < ny)%Z) by nia.
  assert (Hd : (0 <= k / nx < ny)%Z).
  { split; [apply Z.div_pos; lia|]. apply Z.div_lt_upper_bound; lia. }
  pose proof (Z.mod_pos_bound k nx Hx) as Hm.
  rewrite Z.rem_mod_nonneg, Z.quot_div_nonneg by lia.
  replace (0 <? nx)%Z with true by (symmetry; apply Z.ltb_lt; lia).
  replace (0 <? ny)%Z with true by (symmetry; apply Z.ltb_lt; lia).
  replace (nx =? 0)%Z with false by (symmetry; apply Z.eqb_neq; lia).
  replace (0 <=? k mod nx)%Z with true by (symmetry; apply Z.leb_le; lia).
  replace (k mod nx <? nx)%Z with true by (symmetry; apply Z.ltb_lt; lia).
  replace (0 <=? ny - k / nx - 1)%Z with true by (symmetry; apply Z.leb_le; lia).
  replace (ny - k / nx - 1 <? ny)%Z with true by (symmetry; apply Z.ltb_lt; lia).
  cbn. rewrite !andb_false_r. f_equal. f_equal. lia.
Qed.
