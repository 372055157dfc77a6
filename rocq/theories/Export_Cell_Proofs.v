(** The soup of one coarse cell. *)
From Coq Require Import String.
From Coq Require Import List Arith ZArith Lia Bool Reals Permutation Sorting.Sorted.
From Verif Require Import Base Loops Arith StringView_Model TextIo_Model Elem_Model Sort_Spec
  Soup_Model Soup_Spec Soup_Proofs Soup_Sort_Proofs Soup_Merge_Proofs Soup_Final_Proofs
  XSec_Model Poly_Model QSeg_Model QPoly_Model PinCyl_Model Grid_Model Fvm_Model Fvm_Spec Fvm_Proofs Fvm_Query_Proofs Fvm_Sort_Proofs Mpact_Model Mpact_Spec
  Export_Model Export_Spec Export_Sets_Proofs.
Import ListNotations.
Local Open Scope list_scope.

Lemma chord_ret k p : length p = nverts k -> chord k p = Ret (value_of (chord k p)).
Proof.
  intros H. assert (exists c, chord k p = Ret c) as (c & E); [|now rewrite E].
  destruct k; cbn in H; repeat (destruct p as [|? p]; [try discriminate H|try discriminate H]); unfold chord; cbn [quadratic];
    try (eexists; reflexivity).
  all: unfold q_meanChordLength, q_area, q_perimeter.
  all: cbn [length Nat.div Nat.divmod fst snd linearPolygon mapo seq rd nth_error bind lin_area]; eexists; reflexivity.
Qed.
Lemma mapo_rd {A B} (g : A -> outcome B) (h : A -> B) : forall l (pre : list A), (forall x, In x l -> g x = Ret (h x)) ->
  mapo (fun i => let* x := rd (pre ++ l) i in g x) (seq (length pre) (length l)) = Ret (map h l).
Proof.
  induction l as [|a l IH]; intros pre H; [reflexivity|]. cbn [length seq mapo].
  replace (rd (pre ++ a :: l) (length pre)) with (@Ret A a) by (symmetry; apply rd_Ret; rewrite nth_error_app2, Nat.sub_diag by lia; reflexivity).
  cbn [bind]. rewrite (H a) by now left. cbn [bind].
  specialize (IH (pre ++ [a])). rewrite <- app_assoc, app_length, Nat.add_1_r in IH. cbn [app] in IH. rewrite IH.
  - reflexivity.
  - intros x Hx. apply H. now right.
Qed.
Lemma mapo_rd0 {A B} (g : A -> outcome B) (h : A -> B) l : (forall x, In x l -> g x = Ret (h x)) ->
  mapo (fun i => let* x := rd l i in g x) (seq 0 (length l)) = Ret (map h l).
Proof. intros H. exact (mapo_rd g h l [] H). Qed.
Lemma mapo_rd2 {A B C} (g : A -> B -> C) : forall l m (pre : list A) (pre' : list B), length pre = length pre' -> length l = length m ->
  mapo (fun i => let* x := rd (pre ++ l) i in let* y := rd (pre' ++ m) i in Ret (g x y)) (seq (length pre) (length l)) =
  Ret (map (fun p => g (fst p) (snd p)) (combine l m)).
Proof.
  induction l as [|a l IH]; intros [|b m] pre pre' Hp Hl; try discriminate; [reflexivity|]. cbn [length seq mapo].
  replace (rd (pre ++ a :: l) (length pre)) with (@Ret A a) by (symmetry; apply rd_Ret; rewrite nth_error_app2, Nat.sub_diag by lia; reflexivity).
  replace (rd (pre' ++ b :: m) (length pre)) with (@Ret B b) by (symmetry; apply rd_Ret; rewrite Hp, nth_error_app2, Nat.sub_diag by lia; reflexivity).
  cbn [bind]. injection Hl as Hl. specialize (IH m (pre ++ [a]) (pre' ++ [b])).
  rewrite <- !app_assoc, !app_length, !Nat.add_1_r in IH. cbn [app] in IH. rewrite IH by lia. reflexivity.
Qed.
Lemma mapo_map {A B} (f : A -> outcome B) h l : (forall a, In a l -> f a = Ret (h a)) -> mapo f l = Ret (map h l).
Proof.
  induction l as [|a l IH]; intros H; [reflexivity|]. cbn [mapo map]. rewrite (H a) by now left. cbn [bind].
  rewrite IH by (intros b Hb; apply H; now right). reflexivity.
Qed.
Lemma with_set_ok e (s : soup pt3 R) a n ids d : stores s a -> acceptable a (mkElset n ids d) ->
  exists s', with_set e s n ids d = Ret s' /\ stores s' (mkA (a_verts a) (a_elems a) (a_elsets a ++ [mkElset n ids d])).
Proof.
  intros Hs Ha. destruct (addElset_accept s a n ids d Hs Ha) as (s' & E & St). exists s'. unfold with_set. rewrite E. split; auto.
Qed.
Lemma translate_ok padd v (s : soup pt3 R) a : stores s a ->
  stores (translate padd v s) (mkA (map (fun p => padd p v) (a_verts a)) (a_elems a) (a_elsets a)).
Proof.
  intros (H1 & H2 & H3 & H4 & H5 & H6 & H7 & H8). unfold translate, stores. cbn. rewrite H1, H2, H3, H4, H5, H6, H7, H8.
  repeat (split; [reflexivity|]). reflexivity.
Qed.

Section Cell.
Variable stdsort : forall A : Type, (A -> A -> bool) -> list A -> list A.
Hypothesis Hsort : sort_contract stdsort.
Variable exit : bool.
Variables (k : kind) (x : mesh R) (mats : list Z) (xsecs : list xsec).
Hypothesis Hx : mesh_ok k x.
Hypothesis Hne : fv x <> [].
Hypothesis Hm : length mats = length (fv x).
Hypothesis Hid : forall id, In id mats -> (0 <= id < Z.of_nat (length xsecs))%Z.
Variables (lc lr ll la : Z * nat) (off : pt3).
Let p := mkPlace [lc; lr; ll; la] off.
Let faces := map (fun fm => face_at xsecs k x p (fst fm) (snd fm)) (combine (fv x) mats).
Let ids := map Z.of_nat (seq 0 (length (fv x))).
Let names := path_names [lc; lr; ll; la].
Let col (n : list Z) := flat_map (values_in n) faces.

Lemma faces_len : length faces = length (fv x).
Proof. unfold faces. rewrite map_length, combine_length. lia. Qed.
Lemma names_in n : In n names -> exists q l, In q prefixes /\ n = named q l.
Proof.
  unfold names, path_names. cbn [combine map fst snd]. intros [<-|[<-|[<-|[<-|[]]]]]; eexists _, _; (split; [|reflexivity]); cbn; auto.
Qed.
Lemma faces_std : Forall std faces.
Proof.
  apply Forall_forall. intros f Hf. unfold faces in Hf. apply in_map_iff in Hf. destruct Hf as (fm & <- & _). split; [reflexivity|].
  cbn [face_at f_sets p path]. intros n Hn. destruct (names_in n Hn) as (q & l & Hq & ->). now apply named_value.
Qed.
Lemma names_nodup : NoDup (names ++ value_names).
Proof.
  apply NoDup_app_intro.
  - unfold names, path_names. cbn [combine map fst snd].
    assert (D : forall q r a b, In q prefixes -> In r prefixes -> q <> r -> named q a <> named r b)
      by (intros q r a b Hq Hr N E; apply N; eapply named_prefix; eauto).
    repeat constructor; cbn [In]; intros X; repeat destruct X as [X|X]; try contradiction; symmetry in X; revert X; apply D; cbn; auto; discriminate.
  - apply value_names_nodup.
  - intros n Hn. destruct (names_in n Hn) as (q & l & Hq & ->). now apply named_value.
Qed.
Lemma face_in n f : In f faces -> (in_set n f = true <-> In n (names ++ value_names)).
Proof.
  intros Hf. rewrite in_set_iff, in_app_iff. unfold faces in Hf. apply in_map_iff in Hf. destruct Hf as (fm & <- & _). reflexivity.
Qed.
Lemma set_named n : In n (names ++ value_names) -> set_of n faces = mkElset n ids (col n).
Proof.
  intros Hn. unfold set_of. fold (set_ids n faces 0). f_equal. rewrite set_ids_all.
  - now rewrite faces_len.
  - intros f Hf. now apply face_in.
Qed.
Lemma set_other n : ~ In n (names ++ value_names) -> es_ids (set_of n faces) = [].
Proof.
  intros Hn. rewrite set_ids_eq. apply set_ids_none. intros f Hf. destruct (in_set n f) eqn:E; auto. apply (face_in n f Hf) in E. contradiction.
Qed.
Lemma col_eq g n : (forall c m, values_in n (face_at xsecs k x p c m) = [g c m]) ->
  col n = map (fun fm => g (fst fm) (snd fm)) (combine (fv x) mats).
Proof.
  intros H. unfold col, faces. induction (combine (fv x) mats) as [|fm l IH]; [reflexivity|]. cbn [map flat_map]. rewrite H, IH. reflexivity.
Qed.
Lemma map_fst_combine {A B} : forall (l : list A) (r : list B), length r = length l -> map fst (combine l r) = l.
Proof. induction l as [|a l IH]; intros [|b r] H; try discriminate; cbn; [auto|]. f_equal. apply IH. now injection H. Qed.
Lemma map_snd_combine {A B} : forall (l : list A) (r : list B), length r = length l -> map snd (combine l r) = r.
Proof. induction l as [|a l IH]; intros [|b r] H; try discriminate; cbn; [auto|]. f_equal. apply IH. now injection H. Qed.
Let mcl (c : list Z) : R := value_of (chord k (map (vertex x) c)).
Lemma col_mat : col (lit "Material_ID") = map IZR mats.
Proof. rewrite (col_eq (fun _ m => IZR m)) by reflexivity. rewrite <- (map_snd_combine (fv x) mats Hm) at 2. now rewrite map_map. Qed.
Lemma col_xs : col (lit "One_Group_XS") = map (material_xs xsecs) mats.
Proof. rewrite (col_eq (fun _ m => material_xs xsecs m)) by reflexivity. rewrite <- (map_snd_combine (fv x) mats Hm) at 2. now rewrite map_map. Qed.
Lemma col_mcl : col (lit "Mean_Chord_Length") = map mcl (fv x).
Proof. rewrite (col_eq (fun c _ => mcl c)) by reflexivity. rewrite <- (map_fst_combine (fv x) mats Hm) at 2. now rewrite map_map. Qed.
Lemma col_kn : col (lit "Knudsen_Number") = map (fun q => (1 / (fst q * snd q))%R) (combine (map (material_xs xsecs) mats) (map mcl (fv x))).
Proof.
  rewrite (col_eq (fun c m => (1 / (material_xs xsecs m * mcl c))%R)) by reflexivity.
  clear - Hm. revert mats Hm. induction (fv x) as [|c l IH]; intros [|m r] H; try discriminate; cbn; [auto|]. f_equal. apply IH. now injection H.
Qed.

Lemma step (s : soup pt3 R) v e pre suf n d : stores s (mkA v e (map (fun n => set_of n faces) pre)) ->
  names ++ value_names = pre ++ n :: suf -> d = col n -> (d = [] \/ length d = length ids) ->
  exists s', with_set exit s n ids d = Ret s' /\ stores s' (mkA v e (map (fun n => set_of n faces) (pre ++ [n]))).
Proof.
  intros Hs Hp Hd Hl. pose proof names_nodup as N. rewrite Hp in N.
  destruct (with_set_ok exit s _ n ids d Hs) as (s' & E & St).
  - split; [|split]; cbn [es_name es_ids es_data a_elsets]; auto.
    + rewrite map_map. cbn [set_of es_name]. rewrite map_id. apply NoDup_remove_2 in N. intros X. apply N. apply in_or_app. now left.
    + unfold ids. destruct (fv x); [congruence|discriminate].
  - exists s'. split; auto. rewrite map_app. cbn [map]. rewrite (set_named n), <- Hd; [exact St|].
    rewrite Hp. apply in_elt.
Qed.
Lemma col_name l : In l names -> col l = [].
Proof.
  intros Hl. unfold col. pose proof faces_std as Hs. rewrite Forall_forall in Hs.
  assert (N : ~ In l value_names) by (destruct (names_in l Hl) as (q & lb & Hq & ->); now apply named_value).
  clear -Hs N. induction faces as [|f r IH]; [reflexivity|]. cbn [flat_map].
  rewrite (proj2 (values_std l f (Hs f (or_introl eq_refl))) N). apply IH. intros g Hg. apply Hs. now right.
Qed.
Lemma ids_len : length ids = length (fv x).
Proof. unfold ids. now rewrite map_length, seq_length. Qed.
Lemma conn_verts c : In c (fv x) -> mapo (rdz (mv x)) c = Ret (map (vertex x) c).
Proof.
  intros Hc. destruct (Hx c Hc) as (_ & Hr). apply mapo_map. intros v Hv. specialize (Hr v Hv).
  unfold vertex. apply rdz_nth; [lia|]. apply nth_error_nth'. lia.
Qed.

Lemma cell_soup_ok : exists s a,
  cell_soup stdsort exit (map total_xs xsecs) k x mats (named "Coarse_Cell_" lc) (named "RTM_" lr) (named "Lattice_" ll) (named "Assembly_" la) off = Ret s /\
  stores s a /\ holds a faces /\ a_verts a = map (lifted off) (mv x).
Proof.
  unfold cell_soup. destruct (to_soup_ok (F := R) (G := R) 0%R k x) as (s0 & E0 & S0). rewrite E0. cbn [bind].
  rewrite Hm. rewrite (mapo_rd0 _ mcl). 2:{ intros c Hc. rewrite conn_verts by auto. cbn [bind]. apply chord_ret. rewrite map_length. apply (Hx c Hc). }
  cbn [bind]. apply (translate_ok add3 off) in S0. cbn [a_verts a_elems a_elsets] in S0.
  assert (Ei : map Z.of_nat (seq 0 (length (etypes (translate add3 off s0)))) = ids).
  { destruct S0 as (_ & Et & _). rewrite Et. cbn [a_elems]. now rewrite !map_length. }
  rewrite Ei. clear Ei E0. generalize dependent (translate add3 off s0). clear s0. intros s0 S0.
  rewrite map_map in S0.
  assert (Hn : names ++ value_names = [named "Coarse_Cell_" lc; named "RTM_" lr; named "Lattice_" ll; named "Assembly_" la;
    lit "Material_ID"; lit "One_Group_XS"; lit "Mean_Chord_Length"; lit "Knudsen_Number"]) by reflexivity.
  assert (In1 : forall l, In l names -> [] = col l) by (intros l H; symmetry; now apply col_name).
  change (@nil (elset R)) with (map (fun n => set_of n faces) []) in S0.
  assert (L1 : length (map IZR mats) = length ids) by now rewrite map_length, ids_len.
  assert (L2 : length (map (material_xs xsecs) mats) = length ids) by now rewrite map_length, ids_len.
  assert (L3 : length (map mcl (fv x)) = length ids) by now rewrite map_length, ids_len.
  destruct (step s0 _ _ _ _ _ [] S0 Hn ltac:(apply In1; cbn; auto) (or_introl eq_refl)) as (s1 & E1 & S1). rewrite E1. cbn [bind app] in S1 |- *.
  destruct (step s1 _ _ [_] _ _ [] S1 Hn ltac:(apply In1; cbn; auto) (or_introl eq_refl)) as (s2 & E2 & S2). rewrite E2. cbn [bind app] in S2 |- *.
  destruct (step s2 _ _ [_; _] _ _ [] S2 Hn ltac:(apply In1; cbn; auto) (or_introl eq_refl)) as (s3 & E3 & S3). rewrite E3. cbn [bind app] in S3 |- *.
  destruct (step s3 _ _ [_; _; _] _ _ [] S3 Hn ltac:(apply In1; cbn; auto) (or_introl eq_refl)) as (s4 & E4 & S4). rewrite E4. cbn [bind app] in S4 |- *.
  destruct (step s4 _ _ [_; _; _; _] _ _ _ S4 Hn (eq_sym col_mat) (or_intror L1)) as (s5 & E5 & S5). rewrite E5. cbn [bind app] in S5 |- *.
  rewrite <- ?Hm. rewrite (mapo_rd0 (rdz (map total_xs xsecs)) (material_xs xsecs)).
  2:{ intros id Hin. specialize (Hid id Hin). apply rdz_nth; [lia|]. unfold material_xs.
      destruct (nth_error xsecs (Z.to_nat id)) as [y|] eqn:Ey; [now rewrite (map_nth_error _ _ _ Ey)|].
      apply nth_error_None in Ey. lia. }
  cbn [bind].
  destruct (step s5 _ _ [_; _; _; _; _] _ _ _ S5 Hn (eq_sym col_xs) (or_intror L2)) as (s6 & E6 & S6). rewrite E6. cbn [bind app] in S6 |- *.
  destruct (step s6 _ _ [_; _; _; _; _; _] _ _ _ S6 Hn (eq_sym col_mcl) (or_intror L3)) as (s7 & E7 & S7). rewrite E7. cbn [bind app] in S7 |- *.
  pose proof (mapo_rd2 (fun a b => (1 / (a * b))%R) (map (material_xs xsecs) mats) (map mcl (fv x)) [] [] eq_refl) as Ek.
  cbn [app length] in Ek. rewrite Ek by lia. clear Ek. cbn [bind].
  assert (L4 : length (map (fun q => (1 / (fst q * snd q))%R) (combine (map (material_xs xsecs) mats) (map mcl (fv x)))) = length ids)
    by (rewrite map_length, combine_length, L2, L3; lia).
  destruct (step s7 _ _ [_; _; _; _; _; _; _] _ _ _ S7 Hn (eq_sym col_kn) (or_intror L4)) as (s8 & E8 & S8). rewrite E8. cbn [bind app] in S8 |- *.
  set (a := mkA (map (fun q => add3 (q, 0%R) off) (mv x)) (map (fun c => (elem_type k, c)) (fv x)) (map (fun n => set_of n faces) (names ++ value_names))).
  change (stores s8 a) in S8.
  assert (Hids : ids <> []) by (unfold ids; destruct (fv x); [congruence|discriminate]).
  assert (C8 : content_ok a).
  { split; cbn [a a_elsets].
    - rewrite map_map. cbn [set_of es_name]. rewrite map_id. apply names_nodup.
    - apply Forall_forall. intros e He. apply in_map_iff in He. destruct He as (n & <- & Hnn). rewrite (set_named n Hnn). split; cbn [es_ids es_data]; auto.
      apply in_app_or in Hnn. destruct Hnn as [Hnn|Hnn]; [left; now apply col_name|right].
      unfold value_names in Hnn. cbn [In] in Hnn. destruct Hnn as [<-|[<-|[<-|[<-|[]]]]]; [rewrite col_mat|rewrite col_xs|rewrite col_mcl|rewrite col_kn]; auto. }
  assert (A8 : ascending (a_elsets a)).
  { apply Forall_forall. intros e He. apply in_map_iff in He. destruct He as (n & <- & _). rewrite set_ids_eq. apply set_ids_SS. }
  assert (N8 : a_elsets a <> []) by (cbn [a a_elsets]; rewrite Hn; discriminate).
  destruct (sort_ascending stdsort Hsort s8 a S8 C8 A8 N8) as (s9 & l & E9 & S9 & _ & P9).
  exists s9, (mkA (a_verts a) (a_elems a) l). split; [exact E9|]. split; [exact S9|].
  assert (V : a_verts a = map (lifted off) (mv x)).
  { cbn [a a_verts]. apply map_ext. intros [u w]. reflexivity. }
  split; [|exact V]. split; [| apply faces_std |].
  - destruct C8 as (C1 & C2). split; cbn [a_elsets].
    + eapply Permutation_NoDup; [apply Permutation_map; exact P9|exact C1].
    + eapply Permutation_Forall; eauto.
  - split; cbn [a_elems a_elsets a_verts].
    + cbn [a a_elems]. unfold faces. rewrite V. clear -Hx Hm.
      assert (Hx' : forall c, In c (fv x) -> face_ok k (length (mv x)) c) by exact Hx. revert mats Hm Hx'. clear Hx.
      induction (fv x) as [|c l IH]; intros [|mt r] Hm Hx'; try discriminate; cbn [map combine]; [constructor|].
      constructor; [|apply IH; [now injection Hm|intros; apply Hx'; now right]].
      split; [reflexivity|]. cbn [snd fst face_at f_points p offset]. destruct (Hx' c (or_introl eq_refl)) as (_ & Hr).
      clear -Hr. induction c as [|v c IH]; cbn [map]; constructor; [|apply IH; intros; apply Hr; now right].
      specialize (Hr v (or_introl eq_refl)). split; [lia|]. apply map_nth_error. unfold vertex. apply nth_error_nth'. lia.
    + intros e. split.
      * intros He. eapply Permutation_in in He; [|apply Permutation_sym; exact P9]. apply in_map_iff in He. destruct He as (n & <- & Hnn).
        exists n. split; [reflexivity|]. rewrite (set_named n Hnn). exact Hids.
      * intros (n & -> & He). eapply Permutation_in; [exact P9|]. apply (in_map (fun n => set_of n faces)).
        destruct (in_dec (list_eq_dec Z.eq_dec) n (names ++ value_names)) as [|N]; auto. exfalso. apply He. now apply set_other.
Qed.
End Cell.
