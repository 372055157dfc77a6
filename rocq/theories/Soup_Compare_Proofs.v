From Coq Require Import List Arith ZArith Lia Bool Permutation Sorting.Sorted.
From Verif Require Import Base Loops StringView_Spec Elem_Model Soup_Model Soup_Spec Soup_Proofs.
Import ListNotations.

Lemma vec_eqb_iff {A} (eqb : A -> A -> bool) : (forall x y, eqb x y = true <-> x = y) ->
  forall l m, vec_eqb eqb l m = true <-> l = m.
Proof.
  intros H. induction l as [|a l IH]; intros [|b m]; cbn; split; intros E; auto; try discriminate.
  - destruct (eqb a b) eqn:Eab; [|discriminate]. apply H in Eab. apply IH in E. congruence.
  - injection E as -> ->. rewrite (proj2 (H b b) eq_refl). now apply IH.
Qed.
Lemma vtk_eqb_iff x y : vtk_eqb x y = true <-> x = y.
Proof. destruct x, y; cbn; split; congruence. Qed.
Lemma all2_ok {A} (close : A -> A -> bool) : forall l m, length l = length m ->
  exists r, all2 close l m = Ret r /\ (r = true <-> Forall2 (fun x y => close x y = true) l m).
Proof.
  induction l as [|a l IH]; intros [|b m] Hl; cbn in *; try discriminate.
  - exists true. split; auto. split; auto.
  - destruct (close a b) eqn:E.
    + destruct (IH m) as (r & Er & Hr); [lia|]. exists r. split; auto. rewrite Hr. split; intros H.
      * constructor; auto.
      * now inversion H.
    + exists false. split; auto. split; [discriminate|]. intros H. inversion H; subst. congruence.
Qed.
Lemma sums_inj l : forall f m, sums f l = sums f m -> l = m.
Proof.
  induction l as [|x l IH]; intros f [|y m] E; cbn in E; auto.
  - exfalso. injection E. destruct m; discriminate.
  - exfalso. injection E. destruct l; discriminate.
  - injection E as E. assert (f + x = f + y) by (destruct l, m; cbn in E; congruence).
    assert (x = y) by lia. subst. f_equal. eauto.
Qed.
Lemma offsets_inj l m : offsets_of l = offsets_of m -> l = m.
Proof.
  unfold offsets_of. destruct l as [|x l], m as [|y m]; auto; try discriminate. apply sums_inj.
Qed.
Lemma concat_inj {A} : forall l m : list (list A), map (@length A) l = map (@length A) m -> concat l = concat m -> l = m.
Proof.
  induction l as [|x l IH]; intros [|y m] Hl E; cbn in *; try discriminate; auto.
  injection Hl as H1 H2. assert (x = y /\ concat l = concat m) as (-> & E').
  { clear - H1 E. revert y H1 E. induction x as [|u x IH]; intros [|v y] H E; cbn in *; try discriminate; auto.
    injection E as -> E. destruct (IH y) as (-> & ?); auto. }
  f_equal. auto.
Qed.
Lemma pairs_eq_inj {A B} : forall l m : list (A * B), map fst l = map fst m -> map snd l = map snd m -> l = m.
Proof.
  induction l as [|(x & y) l IH]; intros [|(u & v) m] H1 H2; cbn in *; try discriminate; auto.
  injection H1 as -> H1. injection H2 as -> H2. f_equal. auto.
Qed.

Section Compare.
Context {P F : Type} (vclose : P -> P -> bool) (dclose : F -> F -> bool).
Notation cd := (close_data dclose).
Lemma compare_data_ok : forall l m, length l = length m ->
  exists z, compare_data dclose l m = Ret z /\
   ((z = 0%Z /\ Forall2 cd l m) \/
    (exists i d e, nth_error l i = Some d /\ nth_error m i = Some e /\ Forall2 cd (firstn i l) (firstn i m) /\
      ((z = 10%Z /\ length d <> length e) \/ (z = 11%Z /\ length d = length e /\ ~ cd d e)))).
Proof.
  induction l as [|d l IH]; intros [|e m] Hl; cbn [compare_data]; try discriminate.
  - exists 0%Z. split; auto.
  - destruct (Nat.eqb_spec (length d) (length e)) as [Hde|Hde]; cbn [negb].
    + destruct (all2_ok dclose d e Hde) as (r & -> & Hr). cbn [bind].
      destruct r.
      * destruct (IH m) as (z & -> & Hz); [cbn in Hl; lia|]. exists z. split; auto.
        assert (Hcd : cd d e) by (now apply Hr). destruct Hz as [(-> & H)|(i & x & y & H1 & H2 & H3 & H4)].
        -- left. split; auto.
        -- right. exists (S i), x, y. cbn. split; auto.
      * exists 11%Z. split; auto. right. exists 0, d, e. cbn. repeat (split; auto). right.
        split; auto. split; auto. intros H. apply Hr in H. discriminate.
    + exists 10%Z. split; auto. right. exists 0, d, e. cbn. repeat (split; auto).
Qed.

Theorem compare_ok (s t : soup P F) a b : stores s a -> stores t b ->
  exists z, compare vclose dclose s t = Ret z /\ first_difference vclose dclose a b z.
Proof.
  intros (Hv & Hty & Ho & Hcn & Hn & Hso & Hsi & Hsd) (Hv' & Hty' & Ho' & Hcn' & Hn' & Hso' & Hsi' & Hsd').
  unfold compare. rewrite Hv, Hv'.
  destruct (Nat.eqb_spec (length (a_verts a)) (length (a_verts b))) as [Hl|Hl]; cbn [negb].
  2:{ exists 1%Z. repeat (split; auto). }
  destruct (all2_ok vclose _ _ Hl) as (r & -> & Hr). cbn [bind]. destruct r; cbn [negb].
  2:{ exists 2%Z. repeat (split; auto). intros H. apply Hr in H. discriminate. }
  assert (Hcv : close_verts vclose a b) by (now apply Hr). clear Hr.
  destruct (vec_eqb vtk_eqb (etypes s) (etypes t)) eqn:E3; cbn [negb].
  2:{ exists 3%Z. repeat (split; auto). rewrite <- Hty, <- Hty', <- (vec_eqb_iff _ vtk_eqb_iff). congruence. }
  apply (vec_eqb_iff _ vtk_eqb_iff) in E3. rewrite Hty, Hty' in E3.
  destruct (vec_eqb Nat.eqb (eoffs s) (eoffs t)) eqn:E4; cbn [negb].
  2:{ exists 4%Z. repeat (split; auto). intros H. rewrite Ho, Ho', H in E4.
      rewrite (proj2 (vec_eqb_iff _ Nat.eqb_eq _ _) eq_refl) in E4. discriminate. }
  apply (vec_eqb_iff _ Nat.eqb_eq) in E4. rewrite Ho, Ho' in E4. apply offsets_inj in E4.
  destruct (vec_eqb Z.eqb (econn s) (econn t)) eqn:E5; cbn [negb].
  2:{ exists 5%Z. repeat (split; auto). intros H. rewrite Hcn, Hcn', H in E5.
      rewrite (proj2 (vec_eqb_iff _ Z.eqb_eq _ _) eq_refl) in E5. discriminate. }
  apply (vec_eqb_iff _ Z.eqb_eq) in E5. rewrite Hcn, Hcn' in E5. apply concat_inj in E5; [|rewrite <- !map_snd_length; auto].
  pose proof (pairs_eq_inj _ _ E3 E5) as Hel.
  destruct (vec_eqb name_eqb (snames s) (snames t)) eqn:E6; cbn [negb].
  2:{ exists 6%Z. repeat (split; auto). intros H. rewrite Hn, Hn', H in E6.
      rewrite (proj2 (vec_eqb_iff _ name_eqb_iff _ _) eq_refl) in E6. discriminate. }
  apply (vec_eqb_iff _ name_eqb_iff) in E6. rewrite Hn, Hn' in E6.
  destruct (vec_eqb Nat.eqb (soffs s) (soffs t)) eqn:E7; cbn [negb].
  2:{ exists 7%Z. repeat (split; auto). intros H. rewrite Hso, Hso', H in E7.
      rewrite (proj2 (vec_eqb_iff _ Nat.eqb_eq _ _) eq_refl) in E7. discriminate. }
  apply (vec_eqb_iff _ Nat.eqb_eq) in E7. rewrite Hso, Hso' in E7. apply offsets_inj in E7.
  destruct (vec_eqb Z.eqb (sids s) (sids t)) eqn:E8; cbn [negb].
  2:{ exists 8%Z. repeat (split; auto). intros H. rewrite Hsi, Hsi', H in E8.
      rewrite (proj2 (vec_eqb_iff _ Z.eqb_eq _ _) eq_refl) in E8. discriminate. }
  apply (vec_eqb_iff _ Z.eqb_eq) in E8. rewrite Hsi, Hsi' in E8. apply concat_inj in E8; [|rewrite <- !map_ids_length; auto].
  assert (Hld : length (sdata s) = length (sdata t)).
  { rewrite Hsd, Hsd'. apply (f_equal (@length _)) in E6. now rewrite !map_length in *. }
  rewrite Hld, Nat.eqb_refl. cbn [negb].
  destruct (compare_data_ok _ _ Hld) as (z & -> & Hz). exists z. split; auto. rewrite Hsd, Hsd' in Hz.
  assert (Hb10 : before10 vclose a b) by (repeat (split; auto)).
  destruct Hz as [(-> & H)|(i & d & e & H1 & H2 & H3 & H4)].
  - split; auto. split; auto. clear - E6 E8 H. revert E6 E8 H. generalize (a_elsets b). 
    induction (a_elsets a) as [|x l IH]; intros [|y m] N I D; cbn in *; try discriminate; constructor.
    + injection N as N _. injection I as I _. inversion D; auto.
    + injection N as _ N. injection I as _ I. apply IH; auto. now inversion D.
  - rewrite nth_error_map in H1, H2. destruct (nth_error (a_elsets a) i) as [x|] eqn:X; [|discriminate].
    destruct (nth_error (a_elsets b) i) as [y|] eqn:Y; [|discriminate]. cbn in H1, H2.
    injection H1 as <-. injection H2 as <-.
    destruct H4 as [(-> & H4)|(-> & H4 & H5)]; (split; [exact Hb10|]); exists i, x, y; repeat (split; auto).
Qed.

(** 0 is returned exactly when the contents agree *)
Lemma agree_zero (s t : soup P F) a b : stores s a -> stores t b -> (compare vclose dclose s t = Ret 0%Z <-> agree vclose dclose a b).
Proof.
  intros Hs Ht. destruct (compare_ok s t a b Hs Ht) as (z & Ez & Hz). split.
  - intros E. rewrite E in Ez. injection Ez as <-. exact Hz.
  - intros (Hv & He & Hel). rewrite Ez. f_equal.
    assert (Hn : map es_name (a_elsets a) = map es_name (a_elsets b)).
    { clear - Hel. induction Hel as [|x y l m (H & _)]; cbn; congruence. }
    assert (Hi : map es_ids (a_elsets a) = map es_ids (a_elsets b)).
    { clear - Hel. induction Hel as [|x y l m (_ & H & _)]; cbn; congruence. }
    assert (Hli : map (fun e => length (es_ids e)) (a_elsets a) = map (fun e => length (es_ids e)) (a_elsets b)).
    { rewrite !map_ids_length. now f_equal. }
    assert (Hd : forall i x y, nth_error (a_elsets a) i = Some x -> nth_error (a_elsets b) i = Some y -> cd (es_data x) (es_data y)).
    { intros i x y X Y. now apply (Forall2_nth _ _ _ _ _ _ Hel X Y). }
    unfold first_difference in Hz.
    destruct z as [|p|p]; auto; [|contradiction].
    assert (Hlv : length (a_verts a) = length (a_verts b)) by (apply (Forall2_length _ _ _ Hv)).
    repeat (match goal with q : positive |- _ => destruct q; try contradiction end); cbn in Hz; try (destruct Hz as (_ & Hz)); try (exfalso; apply Hz; rewrite ?He; auto; fail); exfalso.
    + destruct Hz as (i & x & y & X & Y & _ & _ & Hz). apply Hz. eauto.
    + destruct Hz as (i & x & y & X & Y & _ & Hz). apply Hz. apply (Forall2_length _ _ _ (Hd _ _ _ X Y)).
Qed.
End Compare.
