(** Proofs about the face-vertex mesh model: edges, flipFace, populateVF. *)
From Coq Require Import List Arith ZArith Lia Bool Sorting.Permutation Sorting.Sorted.
From Verif Require Import Base Loops Sort_Model Sort_Spec Soup_Model Soup_Spec Fvm_Model Fvm_Spec.
Import ListNotations.

(** ** Loops *)
Lemma foreach_app {A S : Type} (f : A -> S -> outcome S) l1 l2 s :
  foreach (l1 ++ l2) f s = (let* s := foreach l1 f s in foreach l2 f s).
Proof.
  revert s. induction l1 as [|a l1 IH]; intros s; cbn; auto.
  destruct (f a s); cbn; auto.
Qed.
Lemma foreach_inv {A S : Type} (f : A -> S -> outcome S) (Q : list A -> S -> Prop) l s :
  Q [] s ->
  (forall p a r s, l = p ++ a :: r -> Q p s -> exists s', f a s = Ret s' /\ Q (p ++ [a]) s') ->
  exists s', foreach l f s = Ret s' /\ Q l s'.
Proof.
  intros H0 Hs.
  enough (G : forall r p s, l = p ++ r -> Q p s -> exists s', foreach r f s = Ret s' /\ Q l s') by (apply (G l []); auto).
  induction r as [|a r IH]; intros p s' E HQ; cbn.
  - rewrite app_nil_r in E. subst. eauto.
  - destruct (Hs p a r s' E HQ) as (s2 & -> & H2). cbn.
    apply (IH (p ++ [a])); auto. now rewrite <- app_assoc.
Qed.
Lemma foreach_map {A B S : Type} (g : A -> B) (f : B -> S -> outcome S) l s :
  foreach (map g l) f s = foreach l (fun a => f (g a)) s.
Proof. revert s. induction l as [|a l IH]; intros s; cbn; auto. destruct (f (g a) s); cbn; auto. Qed.

Lemma wrz_ok {A} (l : list A) (v : Z) a : (0 <= v < Z.of_nat (length l))%Z ->
  wrz l v a = Ret (upd l (Z.to_nat v) a).
Proof. intros H. unfold wrz. destruct (Z.ltb_spec v 0); [lia|]. apply wr_ok. lia. Qed.
Lemma rdz_ok {A} (l : list A) (v : Z) : (0 <= v < Z.of_nat (length l))%Z ->
  exists a, rdz l v = Ret a /\ nth_error l (Z.to_nat v) = Some a.
Proof.
  intros H. destruct (nth_error l (Z.to_nat v)) as [a|] eqn:E.
  - exists a. split; auto. apply rdz_nth; auto; lia.
  - apply nth_error_None in E. lia.
Qed.

(** ** Edges *)
Ltac list_len c H :=
  repeat (destruct c as [|? c]; cbn in H; try discriminate H).
Lemma edge_at_ok {A} k (c : list A) i : length c = nverts k -> edge_at k c i = rd (edges_of k c) i.
Proof.
  intros H. destruct k; cbn in H; list_len c H;
  do 5 (destruct i as [|i]; [reflexivity|]); cbn; unfold rd; cbn;
  destruct i; reflexivity.
Qed.
Lemma edges_of_length {A} k (c : list A) : length c = nverts k -> length (edges_of k c) = nedges k.
Proof. intros H. destruct k; cbn in H; list_len c H; reflexivity. Qed.
Lemma edges_of_map {A B} (f : A -> B) k c : length c = nverts k ->
  edges_of k (map f c) = map (map f) (edges_of k c).
Proof. intros H. destruct k; cbn in H; list_len c H; reflexivity. Qed.

(** ** flipFace *)
Lemma flip_conn_ok k c : length c = nverts k -> exists c', flip_conn k c = Ret c' /\
  length c' = nverts k /\ Permutation c c' /\ flip_conn k c' = Ret c.
Proof.
  intros H. destruct k; cbn in H; list_len c H; cbn; eexists; repeat split;
  (apply (Permutation_count_occ Z.eq_dec); intro; cbn;
   repeat (match goal with |- context [if ?b then _ else _] => destruct b end); lia).
Qed.
Lemma flip_conn_reversed k c c' : k <> Quad8 -> length c = nverts k ->
  flip_conn k c = Ret c' -> reversed k c c'.
Proof.
  intros Hk H E. destruct k; try congruence; cbn in H; list_len c H; cbn in E; injection E as <-;
  unfold reversed; cbn.
  - apply Permutation_rev.
  - apply Permutation_rev.
  - apply Permutation_rev.
Qed.
(** the corners of a quad8 are reversed, its mid-edge vertices 5 and 6 are not exchanged *)
Lemma flip_quad8 c c' : length c = 8 -> flip_conn Quad8 c = Ret c' ->
  reversed Quad (firstn 4 c) (firstn 4 c') /\
  (reversed Quad8 c c' -> NoDup (firstn 4 c) -> nth_error c 5 = nth_error c 6).
Proof.
  intros H E. list_len c H. cbn in E. injection E as <-. split.
  - unfold reversed; cbn. apply Permutation_rev.
  - unfold reversed; cbn. intros HP HN.
    assert (HI : In [z2; z1; z5] (map reverse_edge (edges_of Quad8 [z; z0; z1; z2; z3; z4; z5; z6]))).
    { cbn. tauto. }
    apply (Permutation_in _ (Permutation_sym HP)) in HI.
    repeat (apply NoDup_cons_iff in HN as (? & HN)). cbn in *.
    destruct HI as [HI|[HI|[HI|[HI|[]]]]]; injection HI; intros; subst; try tauto.
Qed.

Section Flip.
Context {F : Type}.
Lemma flipFace_ok k (m : mesh F) i : mesh_ok k m -> i < length (fv m) ->
  exists m' c c', flipFace k m i = Ret m' /\ nth_error (fv m) i = Some c /\ nth_error (fv m') i = Some c' /\
    mv m' = mv m /\ length (fv m') = length (fv m) /\
    (forall j, j <> i -> nth_error (fv m') j = nth_error (fv m) j) /\
    Permutation c c' /\ (k <> Quad8 -> reversed k c c') /\
    has_vf m' = false /\ is_morton m' = is_morton m /\
    mesh_ok k m' /\
    exists m'', flipFace k m' i = Ret m'' /\ fv m'' = fv m /\ mv m'' = mv m.
Proof.
  intros Hm Hi. destruct (nth_error (fv m) i) as [c|] eqn:Ec.
  2:{ apply nth_error_None in Ec. lia. }
  destruct (Hm c (nth_error_In _ _ Ec)) as (Hl & Hv).
  destruct (flip_conn_ok k c Hl) as (c' & Ef & Hl' & HP & Eb).
  unfold flipFace at 1. unfold rd. rewrite Ec. cbn [bind]. rewrite Ef. cbn [bind].
  rewrite wr_ok by auto. cbn [bind].
  eexists _, c, c'. split; [reflexivity|]. cbn [fv mv has_vf is_morton].
  split; auto. split; [now apply nth_error_upd_eq|]. split; auto.
  split; [apply upd_length|]. split; [intros; apply nth_error_upd_neq; congruence|].
  split; auto. split; [intros; now apply (flip_conn_reversed k c c')|]. split; auto. split; auto.
  split.
  - intros d Hd. cbn [fv mv] in *. apply In_nth_error in Hd as (j & Hj).
    rewrite nth_error_upd in Hj. destruct ((i =? j) && (i <? length (fv m))).
    + injection Hj as <-. split; auto. intros v Hv'. apply Hv.
      apply (Permutation_in _ (Permutation_sym HP)); auto.
    + apply Hm, (nth_error_In _ _ Hj).
  - unfold flipFace, rd. cbn [fv mv]. rewrite nth_error_upd_eq by auto. cbn [bind].
    rewrite Eb. cbn [bind]. rewrite wr_ok by now rewrite upd_length. cbn [bind].
    eexists. split; [reflexivity|]. cbn. split; auto.
    apply nth_error_ext. intros j. rewrite nth_error_upd, upd_length, nth_error_upd.
    apply Nat.ltb_lt in Hi. rewrite Hi, andb_true_r. destruct (Nat.eqb_spec i j); subst; auto.
Qed.
End Flip.

(** ** populateVF *)
(** (face, vertex) pairs in loop order *)
Fixpoint pairs (i : nat) (fs : list (list Z)) : list (nat * Z) :=
  match fs with [] => [] | c :: fs' => map (fun v => (i, v)) c ++ pairs (S i) fs' end.
Definition bucket (v : Z) (l : list (nat * Z)) : list nat :=
  map fst (filter (fun p => (snd p =? v)%Z) l).
Lemma bucket_app v l1 l2 : bucket v (l1 ++ l2) = bucket v l1 ++ bucket v l2.
Proof. unfold bucket. now rewrite filter_app, map_app. Qed.
Lemma bucket_face v i c : bucket v (map (fun v => (i, v)) c) = repeat i (count_occ Z.eq_dec c v).
Proof.
  unfold bucket. induction c as [|a c IH]; cbn; auto.
  destruct (Z.eqb_spec a v), (Z.eq_dec a v); try congruence; cbn; now rewrite ?IH.
Qed.
Lemma bucket_pairs v : forall fs i, bucket v (pairs i fs) = incident v i fs.
Proof. induction fs as [|c fs IH]; intros i; cbn [pairs incident]; auto. now rewrite bucket_app, bucket_face, IH. Qed.
Lemma pairs_snd : forall fs i, map snd (pairs i fs) = concat fs.
Proof.
  induction fs as [|c fs IH]; intros i; cbn; auto. rewrite map_app, IH, map_map. cbn. now rewrite map_id.
Qed.
Definition inc (v : Z) (c : list nat) : outcome (list nat) := let* x := rdz c v in wrz c v (x + 1).
Definition put (p : nat * Z) (st : list nat * list nat) : outcome (list nat * list nat) :=
  let '(f, o) := st in
  let* k := rdz o (snd p) in
  let* f := wr f k (fst p) in
  let* o := wrz o (snd p) (k + 1) in
  Ret (f, o).
Lemma count_loop fs : forall i c, foreach fs count_face c = foreach (map snd (pairs i fs)) inc c.
Proof.
  induction fs as [|face fs IH]; intros i c; cbn; auto.
  rewrite map_app, map_map, foreach_app. cbn. rewrite map_id.
  change (count_face face c) with (foreach face inc c).
  destruct (foreach face inc c); cbn; auto.
Qed.
Lemma fill_loop fs : forall i st, foreachi fs i fill_face st = foreach (pairs i fs) put st.
Proof.
  induction fs as [|face fs IH]; intros i st; cbn; auto.
  rewrite foreach_app, foreach_map.
  change (fill_face i face st) with (foreach face (fun v => put (i, v)) st).
  destruct (foreach face (fun v => put (i, v)) st); cbn; auto.
Qed.

(** number of pairs with vertex v *)
Definition occs (l : list (nat * Z)) (v : nat) : nat := length (bucket (Z.of_nat v) l).
Lemma occs_snoc l i w v : occs (l ++ [(i, w)]) v = occs l v + (if (w =? Z.of_nat v)%Z then 1 else 0).
Proof.
  unfold occs. rewrite bucket_app, app_length. f_equal. unfold bucket. cbn.
  destruct (w =? Z.of_nat v)%Z; reflexivity.
Qed.
Fixpoint start (l : list (nat * Z)) (v : nat) : nat :=
  match v with O => 0 | S v' => start l v' + occs l v' end.
Lemma start_mono l u v : u <= v -> start l u <= start l v.
Proof. induction 1; cbn; lia. Qed.

Lemma counts_ok l nv : (forall i v, In (i, v) l -> (0 <= v < Z.of_nat nv)%Z) ->
  exists c, foreach (map snd l) inc (repeat 0 nv) = Ret c /\ length c = nv /\
    forall v, v < nv -> nth_error c v = Some (occs l v).
Proof.
  intros Hl. rewrite foreach_map.
  destruct (foreach_inv (fun a => inc (snd a))
    (fun p c => length c = nv /\ forall v, v < nv -> nth_error c v = Some (occs p v)) l (repeat 0 nv))
    as (c & E & H1 & H2).
  - split; [apply repeat_length|]. intros v Hv. rewrite nth_error_repeat by auto. reflexivity.
  - intros p (i, w) r c E (Hlen & Hc). cbn [snd].
    assert (Hw : (0 <= w < Z.of_nat nv)%Z) by (apply (Hl i); rewrite E; apply in_or_app; right; now left).
    unfold inc. destruct (rdz_ok c w) as (x & -> & Hx); [lia|]. cbn [bind].
    rewrite wrz_ok by lia. eexists; split; [reflexivity|].
    split; [now rewrite upd_length|]. intros v Hv. rewrite occs_snoc, nth_error_upd.
    destruct (Nat.eqb_spec (Z.to_nat w) v) as [<-|Hn]; cbn [andb].
    + destruct (Nat.ltb_spec (Z.to_nat w) (length c)); [|lia].
      rewrite Z2Nat.id, Z.eqb_refl by lia. rewrite Hc in Hx by lia. now injection Hx as <-.
    + rewrite Hc by auto. destruct (Z.eqb_spec w (Z.of_nat v)); [subst; lia|]. f_equal. lia.
  - eauto.
Qed.

Lemma scan_nth : forall l acc v, v < length l ->
  nth_error (scan acc l) v = Some (acc + list_sum (firstn (S v) l)).
Proof.
  induction l as [|x l IH]; intros acc [|v] H; cbn [length] in H; try lia; cbn [scan nth_error].
  - unfold list_sum. cbn. f_equal. lia.
  - rewrite IH by lia. f_equal. cbn [firstn]. unfold list_sum. cbn [fold_right]. lia.
Qed.
Lemma scan_length : forall l acc, length (scan acc l) = length l.
Proof. induction l; intros; cbn; auto. Qed.
Lemma sum_start l c nv : length c = nv -> (forall v, v < nv -> nth_error c v = Some (occs l v)) ->
  forall v, v <= nv -> list_sum (firstn v c) = start l v.
Proof.
  intros Hlen Hc. induction v as [|v IH]; intros Hv; auto.
  assert (E : firstn (S v) c = firstn v c ++ [occs l v]).
  { specialize (Hc v). rewrite <- (firstn_skipn v c) at 1.
    assert (Hs : skipn v c = occs l v :: skipn (S v) c).
    { clear - Hc Hv Hlen. specialize (Hc Hv). revert v Hc Hv Hlen. intros v. generalize (occs l v). intros o Hc _ _.
      revert v Hc. induction c as [|x c IH]; intros [|v] Hc; cbn in *; try discriminate; [now injection Hc as <-|auto]. }
    rewrite Hs. rewrite firstn_app, firstn_firstn, firstn_length.
    replace (Nat.min (S v) v) with v by lia. replace (S v - Nat.min v (length c)) with 1 by lia. reflexivity. }
  rewrite E, list_sum_app, IH by lia. cbn. unfold list_sum. cbn. lia.
Qed.
Lemma offs_ok l c nv : length c = nv -> (forall v, v < nv -> nth_error c v = Some (occs l v)) ->
  forall v, v <= nv -> nth_error (0 :: scan 0 c) v = Some (start l v).
Proof.
  intros Hlen Hc [|v] Hv; cbn; auto.
  rewrite scan_nth by lia. rewrite (sum_start l c nv) by (auto; lia). reflexivity.
Qed.

Lemma occs_prefix p a r v : occs p v <= occs (p ++ a :: r) v.
Proof. unfold occs. rewrite bucket_app, app_length. lia. Qed.

Lemma fill_ok l nv offs f0 : (forall i v, In (i, v) l -> (0 <= v < Z.of_nat nv)%Z) ->
  length offs = nv + 1 -> (forall v, v <= nv -> nth_error offs v = Some (start l v)) ->
  length f0 = start l nv ->
  exists f o, foreach l put (f0, offs) = Ret (f, o) /\ length f = start l nv /\
    forall v t, v < nv -> t < occs l v ->
      nth_error f (start l v + t) = nth_error (bucket (Z.of_nat v) l) t.
Proof.
  intros Hl Hlo Ho Hf.
  destruct (foreach_inv put (fun p st =>
     length (fst st) = start l nv /\ length (snd st) = nv + 1 /\
     (forall v, v < nv -> nth_error (snd st) v = Some (start l v + occs p v)) /\
     (forall v t, v < nv -> t < occs p v ->
       nth_error (fst st) (start l v + t) = nth_error (bucket (Z.of_nat v) p) t)) l (f0, offs))
    as ((f & o) & E & H1 & _ & _ & H4).
  - cbn [fst snd]. split; auto. split; auto. split.
    + intros v Hv. rewrite Ho by lia. f_equal. cbn. lia.
    + intros v t _ Ht. cbn in Ht. lia.
  - intros p (i, w) r (f & o) E (Hf1 & Ho1 & Hov & Hfv). cbn [fst snd] in *.
    assert (Hw : (0 <= w < Z.of_nat nv)%Z) by (apply (Hl i); rewrite E; apply in_or_app; right; now left).
    set (w' := Z.to_nat w) in *.
    assert (Ew : w = Z.of_nat w') by (unfold w'; lia).
    unfold put. cbn [fst snd].
    rewrite (rdz_nth o w (start l w' + occs p w')) by (try lia; apply Hov; lia). cbn [bind].
    assert (Hocc : occs p w' < occs l w').
    { rewrite E. change (p ++ (i, w) :: r) with (p ++ [(i, w)] ++ r). rewrite app_assoc.
      unfold occs. rewrite bucket_app, app_length. fold (occs (p ++ [(i, w)]) w').
      rewrite occs_snoc, Ew, Z.eqb_refl. fold (occs p w'). lia. }
    assert (Hlt : start l w' + occs p w' < start l nv).
    { pose proof (start_mono l (S w') nv). cbn in H. lia. }
    rewrite wr_ok by lia. cbn [bind]. rewrite wrz_ok by lia. cbn [bind].
    eexists; split; [reflexivity|]. cbn [fst snd]. rewrite !upd_length.
    split; auto. split; auto. split.
    + intros v Hv. rewrite occs_snoc, nth_error_upd. fold w'.
      destruct (Nat.eqb_spec w' v) as [<-|Hn]; cbn [andb].
      * destruct (Nat.ltb_spec w' (length o)); [|lia]. rewrite Ew, Z.eqb_refl. f_equal. lia.
      * rewrite Hov by auto. destruct (Z.eqb_spec w (Z.of_nat v)); [lia|]. f_equal. lia.
    + intros v t Hv Ht. rewrite occs_snoc in Ht.
      rewrite bucket_app, nth_error_upd.
      destruct (Nat.eqb_spec w' v) as [<-|Hn].
      * rewrite Ew, Z.eqb_refl in Ht.
        destruct (Nat.eq_dec t (occs p w')) as [->|Hne].
        -- rewrite Nat.eqb_refl. destruct (Nat.ltb_spec (start l w' + occs p w') (length f)); [|lia].
           cbn [andb]. rewrite nth_error_app2 by (unfold occs; lia). unfold occs at 1. rewrite Nat.sub_diag.
           unfold bucket. cbn. now rewrite Ew, Z.eqb_refl.
        -- destruct (Nat.eqb_spec (start l w' + occs p w') (start l w' + t)); [lia|]. cbn [andb].
           rewrite Hfv by lia. rewrite nth_error_app1 by (fold (occs p w'); lia). reflexivity.
      * destruct (Z.eqb_spec w (Z.of_nat v)); [lia|].
        assert (Hd : start l w' + occs p w' <> start l v + t).
        { assert (occs p v <= occs l v) by (rewrite E; apply occs_prefix).
          destruct (Nat.lt_ge_cases w' v).
          - pose proof (start_mono l (S w') v). cbn in H1. lia.
          - pose proof (start_mono l (S v) w'). cbn in H1. lia. }
        apply Nat.eqb_neq in Hd. rewrite Hd. cbn [andb]. rewrite Hfv by lia.
        rewrite nth_error_app1; auto. fold (occs p v). lia.
  - eauto 6.
Qed.

Lemma nth_error_firstn_lt {A} (l : list A) : forall n i, i < n -> nth_error (firstn n l) i = nth_error l i.
Proof.
  induction l as [|x l IH]; intros [|n] [|i] H; cbn; auto; try lia. apply IH. lia.
Qed.
Lemma nth_error_skipn_add {A} (l : list A) : forall a t, nth_error (skipn a l) t = nth_error l (a + t).
Proof. induction l as [|x l IH]; intros [|a] t; cbn; auto. now destruct t. Qed.
Lemma firstn_skipn_nth {A} (l m : list A) a : a + length m <= length l ->
  (forall t, t < length m -> nth_error l (a + t) = nth_error m t) ->
  firstn (length m) (skipn a l) = m.
Proof.
  intros Hl H. apply nth_error_ext. intros t.
  destruct (Nat.lt_ge_cases t (length m)) as [Ht|Ht].
  - rewrite <- H by auto. rewrite nth_error_firstn_lt by auto.
    rewrite nth_error_skipn_add. reflexivity.
  - rewrite !(proj2 (nth_error_None _ _)); auto. rewrite firstn_length. lia.
Qed.

Lemma pairs_in : forall fs k i v, In (i, v) (pairs k fs) -> exists c, In c fs /\ In v c.
Proof.
  induction fs as [|c fs IH]; intros k i v H; cbn in H; [tauto|].
  apply in_app_or in H as [H|H].
  - apply in_map_iff in H as (w & E & H). injection E as _ <-. exists c. split; auto. now left.
  - apply IH in H as (d & Hd & Hv). exists d. split; auto. now right.
Qed.
Lemma start_total l nv : (forall i v, In (i, v) l -> (0 <= v < Z.of_nat nv)%Z) -> start l nv = length l.
Proof.
  induction l as [|(i, w) l IH]; intros H.
  - clear H. induction nv; cbn; auto. unfold occs, bucket. cbn in *. lia.
  - assert (IH' : start l nv = length l) by (apply IH; intros; eapply H; right; eauto).
    assert (Hw : (0 <= w < Z.of_nat nv)%Z) by (apply (H i); now left).
    enough (G : forall n, start ((i, w) :: l) n = start l n + (if (Z.to_nat w <? n) then 1 else 0)).
    { rewrite G. destruct (Nat.ltb_spec (Z.to_nat w) nv); cbn; lia. }
    induction n as [|n IHn]; cbn [start]; auto. rewrite IHn.
    replace (occs ((i, w) :: l) n) with (occs l n + (if (w =? Z.of_nat n)%Z then 1 else 0)).
    2:{ unfold occs, bucket. cbn. destruct (w =? Z.of_nat n)%Z; cbn; lia. }
    destruct (Nat.ltb_spec (Z.to_nat w) n), (Nat.ltb_spec (Z.to_nat w) (S n)), (Z.eqb_spec w (Z.of_nat n)); lia.
Qed.
Lemma resized_length {A} (l : list A) n d : length (resized l n d) = n.
Proof. unfold resized. rewrite app_length, firstn_length, repeat_length. lia. Qed.

Section Populate.
Context {F : Type}.
Lemma populateVF_ok (m : mesh F) :
  (forall c v, In c (fv m) -> In v c -> (0 <= v < Z.of_nat (length (mv m)))%Z) ->
  exists offs f, populateVF m = Ret (mkMesh (is_morton m) true (mv m) (fv m) offs f) /\
    is_incidence (length (mv m)) (fv m) offs f.
Proof.
  intros Hm. set (nv := length (mv m)). set (l := pairs 0 (fv m)).
  assert (Hl : forall i v, In (i, v) l -> (0 <= v < Z.of_nat nv)%Z).
  { intros i v H. apply pairs_in in H as (c & Hc & Hv). eauto. }
  unfold populateVF. fold nv. rewrite (count_loop (fv m) 0). fold l.
  destruct (counts_ok l nv Hl) as (c & -> & Hc & Hcv). cbn [bind].
  pose proof (offs_ok l c nv Hc Hcv) as Ho.
  rewrite (proj2 (rd_Ret _ _ _) (Ho nv (Nat.le_refl _))). cbn [bind].
  rewrite fill_loop. fold l.
  destruct (fill_ok l nv (0 :: scan 0 c) (resized (vf m) (start l nv) 0) Hl) as (f & o & -> & Hf & Hfv); auto.
  { cbn. rewrite scan_length. lia. }
  { apply resized_length. }
  cbn [bind fst]. exists (0 :: scan 0 c), f. split; auto.
  assert (Ht : start l nv = length l) by now apply start_total.
  assert (Hcat : length l = length (concat (fv m))).
  { rewrite <- (pairs_snd (fv m) 0), map_length. reflexivity. }
  split; [cbn; rewrite scan_length; lia|]. split; auto.
  split; [rewrite Ho by lia; congruence|]. split; [congruence|].
  intros v Hv. exists (start l v), (start l (v + 1)).
  split; [apply Ho; lia|]. split; [apply Ho; lia|]. split; [apply start_mono; lia|].
  rewrite Nat.add_1_r. cbn [start].
  replace (start l v + occs l v - start l v) with (occs l v) by lia.
  rewrite <- (bucket_pairs (Z.of_nat v) (fv m) 0). fold l. unfold occs.
  apply firstn_skipn_nth.
  - fold (occs l v). pose proof (start_mono l (S v) nv). cbn in H. lia.
  - intros t Hlt. apply Hfv; auto.
Qed.

(** an id that refers to no vertex is an out of bounds access *)
Lemma populateVF_bad (m : mesh F) c v : In c (fv m) -> In v c ->
  ~ (0 <= v < Z.of_nat (length (mv m)))%Z -> populateVF m = Ub.
Proof.
  intros Hc Hv Hb. unfold populateVF. rewrite (count_loop (fv m) 0), pairs_snd.
  enough (G : forall l (cs : list nat), In v l -> length cs = length (mv m) -> foreach l inc cs = Ub).
  { rewrite G; auto; [|now rewrite repeat_length]. apply in_concat. eauto. }
  clear Hc Hv. induction l as [|w l IH]; intros cs Hi Hl; cbn; [destruct Hi|].
  unfold inc at 1.
  destruct (rdz cs w) as [x| | |] eqn:E; cbn; try reflexivity.
  - assert (Hw : (0 <= w < Z.of_nat (length cs))%Z).
    { unfold rdz, rd in E. destruct (Z.ltb_spec w 0); [discriminate|].
      destruct (nth_error cs (Z.to_nat w)) eqn:E2; [|discriminate].
      assert (Z.to_nat w < length cs) by (apply nth_error_Some; congruence). lia. }
    rewrite wrz_ok by auto. cbn. apply IH; [|now rewrite upd_length].
    destruct Hi as [->|Hi]; auto. rewrite Hl in Hw. tauto.
  - unfold rdz, rd in E. destruct (w <? 0)%Z; [discriminate|]. destruct (nth_error cs (Z.to_nat w)); discriminate.
  - unfold rdz, rd in E. destruct (w <? 0)%Z; [discriminate|]. destruct (nth_error cs (Z.to_nat w)); discriminate.
Qed.
End Populate.

(** What [incident] means *)
Lemma incident_in v : forall fs i f, In f (incident v i fs) <->
  exists c, i <= f /\ nth_error fs (f - i) = Some c /\ In v c.
Proof.
  induction fs as [|c fs IH]; intros i f; cbn [incident].
  - split; [intros []|]. intros (c & _ & E & _). destruct (f - i); discriminate.
  - rewrite in_app_iff, IH. split.
    + intros [H|(d & H1 & H2 & H3)].
      * assert (f = i) by (apply repeat_spec in H; auto). subst. exists c. rewrite Nat.sub_diag. split; auto.
        split; auto. destruct (count_occ Z.eq_dec c v) eqn:E; [destruct H|].
        apply (count_occ_In Z.eq_dec). lia.
      * exists d. split; [lia|]. replace (f - i) with (S (f - S i)) by lia. auto.
    + intros (d & H1 & H2 & H3). destruct (Nat.eq_dec f i) as [->|Hn].
      * left. rewrite Nat.sub_diag in H2. injection H2 as ->.
        apply (count_occ_In Z.eq_dec) in H3. destruct (count_occ Z.eq_dec d v); [lia|]. now left.
      * right. exists d. split; [lia|]. replace (f - i) with (S (f - S i)) in H2 by lia. auto.
Qed.
Lemma incident_count v : forall fs i f c, i <= f -> nth_error fs (f - i) = Some c ->
  count_occ Nat.eq_dec (incident v i fs) f = count_occ Z.eq_dec c v.
Proof.
  induction fs as [|d fs IH]; intros i f c Hi H; [destruct (f - i); discriminate|].
  cbn [incident]. rewrite count_occ_app.
  destruct (Nat.eq_dec f i) as [->|Hn].
  - rewrite Nat.sub_diag in H. injection H as ->. rewrite count_occ_repeat_eq by auto.
    rewrite (proj1 (count_occ_not_In Nat.eq_dec _ _)); [lia|].
    intros HI. apply incident_in in HI as (e & ? & _). lia.
  - rewrite count_occ_repeat_neq by auto. cbn. apply IH; [lia|].
    now replace (f - i) with (S (f - S i)) in H by lia.
Qed.
Lemma incident_sorted v : forall fs i, Sorted.StronglySorted le (incident v i fs).
Proof.
  induction fs as [|d fs IH]; intros i; cbn; [constructor|].
  induction (count_occ Z.eq_dec d v) as [|n IHn]; cbn; auto.
  constructor; auto. apply Forall_forall. intros x Hx. apply in_app_or in Hx as [Hx|Hx].
  - apply repeat_spec in Hx. lia.
  - apply incident_in in Hx as (e & ? & _). lia.
Qed.
