(** Proofs for the mesh size field of a gmsh model. *)
From Coq Require Import String.
From Coq Require Import Reals Lra.
From Coq Require Import List Arith ZArith Lia Bool Sorted Permutation.
From Verif Require Import Base Loops Arith TextIo_Model XSec_Model XSec_Spec XSec_Proofs XSec_Mat_Proofs.
From Verif Require Import Groups_Model Groups_Spec Overlay_Model Overlay_Proofs Knudsen_Model Knudsen_Spec.
Import ListNotations.
Open Scope R_scope.

(** ** Values of fields *)
Scheme size_ind2 := Minimality for size_at Sort Prop with sizes_ind2 := Minimality for sizes_at Sort Prop.
Section Values.
Variable place : Type.
Variable on : place -> dimtag -> bool.
Variable distance : place -> list dimtag -> R.
Notation size := (size_at place on distance).
Notation sizes := (sizes_at place on distance).

Lemma size_mono fs fs' p id v : (forall x, In x fs -> In x fs') -> size fs p id v -> size fs' p id v.
Proof.
  intros I. apply (size_ind2 place on distance fs p (fun id v => size fs' p id v) (fun l vs => sizes fs' p l vs)); intros.
  - eapply at_in; eauto.
  - eapply at_out; eauto.
  - eapply at_distance; eauto.
  - eapply at_plus; eauto.
  - eapply at_minus; eauto.
  - eapply at_max; eauto.
  - eapply at_min; eauto.
  - constructor.
  - now constructor.
Qed.
Lemma field_unique (fs : list (Z * field)) id f f' : NoDup (map fst fs) -> In (id, f) fs -> In (id, f') fs -> f = f'.
Proof.
  induction fs as [|x fs IH]; intros N H H'; [destruct H|]. cbn in N. inversion N as [|? ? N1 N2]; subst.
  destruct H as [->|H], H' as [E|H'].
  - congruence.
  - destruct N1. cbn. change id with (fst (id, f')). now apply in_map.
  - subst x. destruct N1. cbn. change id with (fst (id, f)). now apply in_map.
  - now apply IH.
Qed.
Lemma size_det fs p id v : NoDup (map fst fs) -> size fs p id v -> forall v', size fs p id v' -> v' = v.
Proof.
  intros N. apply (size_ind2 place on distance fs p (fun id v => forall v', size fs p id v' -> v' = v) (fun l vs => forall vs', sizes fs p l vs' -> vs' = vs)).
  - intros i x l H E v' H'. inversion H'; subst; match goal with A : In (i, ?f) fs, B : In (i, ?f') fs |- _ => pose proof (field_unique fs i f f' N A B) as Q; try discriminate Q; try (injection Q; intros; subst) end; congruence.
  - intros i x l H E v' H'. inversion H'; subst; match goal with A : In (i, ?f) fs, B : In (i, ?f') fs |- _ => pose proof (field_unique fs i f f' N A B) as Q; try discriminate Q; try (injection Q; intros; subst) end; congruence.
  - intros i l H v' H'. inversion H'; subst; match goal with A : In (i, ?f) fs, B : In (i, ?f') fs |- _ => pose proof (field_unique fs i f f' N A B) as Q; try discriminate Q; try (injection Q; intros; subst) end; congruence.
  - intros i f a b d H _ IH v' H'. inversion H'; subst; match goal with A : In (i, ?f) fs, B : In (i, ?f') fs |- _ => pose proof (field_unique fs i f f' N A B) as Q; try discriminate Q; try (injection Q; intros; subst) end; f_equal; f_equal; now apply IH.
  - intros i f a b d H _ IH v' H'. inversion H'; subst; match goal with A : In (i, ?f) fs, B : In (i, ?f') fs |- _ => pose proof (field_unique fs i f f' N A B) as Q; try discriminate Q; try (injection Q; intros; subst) end; f_equal; f_equal; now apply IH.
  - intros i l vs H _ IH v' H'. inversion H'; subst; match goal with A : In (i, ?f) fs, B : In (i, ?f') fs |- _ => pose proof (field_unique fs i f f' N A B) as Q; try discriminate Q; try (injection Q; intros; subst) end; f_equal; now apply IH.
  - intros i l vs H _ IH v' H'. inversion H'; subst; match goal with A : In (i, ?f) fs, B : In (i, ?f') fs |- _ => pose proof (field_unique fs i f f' N A B) as Q; try discriminate Q; try (injection Q; intros; subst) end; f_equal; now apply IH.
  - intros vs' H'. now inversion H'.
  - intros i l x vs _ IH1 _ IH2 vs' H'. inversion H'; subst. f_equal; auto.
Qed.
End Values.

(** ** The state *)
Record ext (st st' : mesher) : Prop := {
  e_fields : exists l, fields st' = l ++ fields st;
  e_dup : NoDup (map fst (fields st)) -> NoDup (map fst (fields st')) }.
Lemma ext_refl st : ext st st. Proof. split; [now exists []|auto]. Qed.
Lemma ext_trans a b c : ext a b -> ext b c -> ext a c.
Proof. intros [(l & E) N] [(l' & E') N']. split; [|auto]. exists (l' ++ l). now rewrite E', E, app_assoc. Qed.
Lemma ext_in st st' x : ext st st' -> In x (fields st) -> In x (fields st').
Proof. intros [(l & E) _] H. rewrite E. apply in_or_app. now right. Qed.

Section Grow.
Variable place : Type.
Variable on : place -> dimtag -> bool.
Variable distance : place -> list dimtag -> R.
Hypothesis distance_nonneg : forall p l, 0 <= distance p l.
Variable new_id : list Z -> Z.
Hypothesis new_id_new : forall l, ~ In (new_id l) l.
Variable shown : R -> R.
Hypothesis shown_near : forall x, Rabs (shown x - x) <= / 2000000.
Notation size := (size_at place on distance).
Notation sizes := (sizes_at place on distance).

Lemma add_ok st f id st' : add_field new_id st f = (id, st') -> ext st st' /\ In (id, f) (fields st') /\ ~ In id (map fst (fields st)).
Proof.
  unfold add_field. intros [= <- <-]. split; [|split].
  - split; cbn [fields].
    + now exists [(new_id (map fst (fields st)), f)].
    + intros N. cbn. constructor; auto.
  - now left.
  - apply new_id_new.
Qed.
Lemma ext_size st st' p id v : ext st st' -> size (fields st) p id v -> size (fields st') p id v.
Proof. intros E. apply size_mono. intros x. now apply ext_in. Qed.

(** value of a field with what is asked of it, at every place *)
Definition has_sizes (st : mesher) (id : Z) (Q : place -> R -> Prop) : Prop := forall p, exists v, size (fields st) p id v /\ Q p v.
Lemma has_ext st st' id Q : ext st st' -> has_sizes st id Q -> has_sizes st' id Q.
Proof. intros E H p. destruct (H p) as (v & V & q). exists v. split; [|auto]. now apply (ext_size st). Qed.

Lemma max_near x y y' : Rabs (Rmax x y - Rmax x y') <= Rabs (y - y').
Proof. unfold Rmax, Rabs. repeat destruct Rle_dec; repeat destruct Rcase_abs; lra. Qed.
Definition near (lc sigma threshold scale D v : R) : Prop :=
  lc <= v /\ Rabs (v - grown lc sigma threshold scale D) <= (1 + D) / 2000000.
Lemma near_line lc sigma threshold scale D a b lin : 0 < lc -> 0 <= D ->
  a = lc * sigma * scale -> b = lc * (1 - threshold * scale) ->
  Rabs (lin - (D * a + b)) <= (1 + D) / 2000000 -> near lc sigma threshold scale D (Rmax lc lin).
Proof.
  intros L HD Ea Eb H. split; [apply Rmax_l|]. assert (G : grown lc sigma threshold scale D = Rmax lc (D * a + b)).
  { unfold grown. rewrite <- RmaxRmult by lra. rewrite Rmult_1_r. f_equal. rewrite Ea, Eb. ring. }
  rewrite G. eapply Rle_trans; [apply max_near|exact H].
Qed.
Lemma MAX_pos : 0 < MAX_LC. Proof. apply IZR_lt. reflexivity. Qed.

Lemma grow_ok d id dist threshold scale st id' st' l (inside : place -> bool) :
  0 < d_lc d -> In (dist, Distance l) (fields st) ->
  has_sizes st id (fun p v => (inside p = true -> v = d_lc d) /\ (inside p = false -> MAX_LC <= v)) ->
  grow new_id shown d id dist threshold scale st = (id', st') ->
  ext st st' /\ has_sizes st' id' (fun p v => (inside p = true -> near (d_lc d) (d_sigma d) threshold scale (distance p l) v) /\ (inside p = false -> MAX_LC <= v)).
Proof.
  intros L Hd H E. unfold grow in E. destruct (add_field new_id st _) as (fid & st1) eqn:E1. apply add_ok in E1 as (X1 & I1 & _).
  apply add_ok in E as (X2 & I2 & _). split; [now apply (ext_trans _ st1)|]. intros p. destruct (H p) as (v & V & Vin & Vout).
  set (D := distance p l). pose proof (distance_nonneg p l) as DN. fold D in DN.
  set (a := (d_lc d * d_sigma d * scale)) in *. set (b := (d_lc d * (1 - threshold * scale))) in *.
  assert (HD : size (fields st1) p dist D) by (apply (ext_size st); [auto|]; now apply at_distance).
  assert (exists lin, size (fields st1) p fid lin /\ Rabs (lin - (D * a + b)) <= (1 + D) / 2000000) as (lin & Hl & Hn).
  { pose proof (shown_near a) as Na.
    assert (Mul : Rabs (D * shown a - D * a) <= D * / 2000000).
    { replace (D * shown a - D * a) with (D * (shown a - a)) by ring. rewrite Rabs_mult, (Rabs_right D) by lra. now apply Rmult_le_compat_l. }
    destruct (Rleb 0 b).
    - exists (D * shown a + shown b). split; [now apply (at_plus _ _ _ _ _ fid dist)|]. pose proof (shown_near b) as Nb.
      replace (D * shown a + shown b - (D * a + b)) with ((D * shown a - D * a) + (shown b - b)) by ring.
      eapply Rle_trans; [apply Rabs_triang|]. lra.
    - exists (D * shown a - shown (- b)). split; [now apply (at_minus _ _ _ _ _ fid dist)|]. pose proof (shown_near (- b)) as Nb.
      replace (D * shown a - shown (- b) - (D * a + b)) with ((D * shown a - D * a) + - (shown (- b) - - b)) by ring.
      eapply Rle_trans; [apply Rabs_triang|]. rewrite Rabs_Ropp. lra. }
  exists (Rmax (Rmax (- MAX_LC) v) lin). split.
  - change (Rmax (Rmax (- MAX_LC) v) lin) with (fold_left Rmax [v; lin] (- MAX_LC)). eapply at_max; [exact I2|].
    constructor; [|constructor; [|constructor]].
    + apply (ext_size st); [now apply (ext_trans _ st1)|auto].
    + now apply (ext_size st1).
  - pose proof MAX_pos as MP. split; intros Hi.
    + rewrite (Vin Hi). rewrite (Rmax_right (- MAX_LC)) by lra. now apply (near_line _ _ _ _ _ a b).
    + specialize (Vout Hi). eapply Rle_trans; [exact Vout|]. eapply Rle_trans; [apply Rmax_r|apply Rmax_l].
Qed.

(** ** The phases *)
Variable checks : bool.
Variable dim : Z.
Variables fuel_threshold fuel_scale abs_threshold abs_scale : R.
Definition inside (d : data) (p : place) : bool := existsb (on p) (map (pair dim) (d_tags d)).
Definition base_size (d : data) (p : place) (v : R) : Prop := (inside d p = true -> v = d_lc d) /\ (inside d p = false -> MAX_LC <= v).
Definition fuel_size (fl : list dimtag) (d : data) (p : place) (v : R) : Prop :=
  (inside d p = true ->
    if Rleb 0 fuel_threshold && (negb (d_fissile d) && negb (d_absorber d)) then near (d_lc d) (d_sigma d) fuel_threshold fuel_scale (distance p fl) v else v = d_lc d) /\
  (inside d p = false -> MAX_LC <= v).
Definition edges (ge : geometry) (d : data) (l : list dimtag) : Prop :=
  forall x, In x l <-> exists t, In t (d_tags d) /\ In x (down ge (dim, t)) /\ fst x = (dim - 1)%Z.
Definition full_size (ge : geometry) (fl : list dimtag) (d : data) (p : place) (v : R) : Prop :=
  (inside d p = true ->
    if Rleb 0 abs_threshold && d_absorber d
    then exists l, edges ge d l /\ near (d_lc d) (d_sigma d) abs_threshold abs_scale (distance p l) v
    else if Rleb 0 fuel_threshold && (negb (d_fissile d) && negb (d_absorber d)) then near (d_lc d) (d_sigma d) fuel_threshold fuel_scale (distance p fl) v else v = d_lc d) /\
  (inside d p = false -> MAX_LC <= v).
Definition rows_ok (Q : data -> place -> R -> Prop) (st : mesher) (rows : list (data * Z)) : Prop :=
  Forall (fun r => has_sizes st (snd r) (Q (fst r))) rows.
Lemma rows_ext Q st st' rows : ext st st' -> rows_ok Q st rows -> rows_ok Q st' rows.
Proof. intros E. apply Forall_impl. intros r. now apply has_ext. Qed.
Lemma assert_ok b : b = true -> ASSERT checks b = Ret tt.
Proof. intros ->. unfold ASSERT. now rewrite andb_false_r. Qed.
Lemma listed_ok d max tags : (0 <= d <= max)%Z -> listed d max tags = Ret (map (pair d) tags).
Proof. intros H. unfold listed. destruct (Z.leb_spec 0 d); [|lia]. destruct (Z.leb_spec d max); [reflexivity|lia]. Qed.
Lemma nonempty_len {A} (l : list A) : l <> [] -> negb (length l =? 0)%nat = true.
Proof. destruct l; [congruence|reflexivity]. Qed.

Lemma base_ok ds : (0 <= dim <= 3)%Z -> (forall d, In d ds -> d_tags d <> []) -> forall st,
  exists rows st', base_fields checks new_id dim ds st = Ret (rows, st') /\ ext st st' /\ map fst rows = ds /\ rows_ok base_size st' rows.
Proof.
  intros Hd. induction ds as [|d ds IH]; intros Ht st; cbn [base_fields].
  - exists [], st. split; [reflexivity|]. split; [apply ext_refl|]. split; [reflexivity|constructor].
  - rewrite assert_ok by (apply nonempty_len, Ht; now left). cbn [bind]. rewrite listed_ok by lia. cbn [bind].
    destruct (add_field new_id st _) as (id & st1) eqn:E1. apply add_ok in E1 as (X1 & I1 & _).
    destruct (IH ltac:(intros; apply Ht; now right) st1) as (rows & st2 & E & X2 & M & K). rewrite E. cbn [bind fst snd].
    exists ((d, id) :: rows), st2. split; [reflexivity|]. split; [now apply (ext_trans _ st1)|]. split; [cbn; now rewrite M|].
    constructor; [|exact K]. cbn [fst snd]. intros p. unfold base_size, inside.
    pose proof (ext_in _ _ _ X2 I1) as I2. destruct (existsb (on p) (map (pair dim) (d_tags d))) eqn:Ex.
    + exists (d_lc d). split; [eapply at_in; [exact I2|exact Ex]|]. split; [auto|discriminate].
    + exists MAX_LC. split; [eapply at_out; [exact I2|exact Ex]|]. split; [discriminate|]. intros _. apply Rle_refl.
Qed.
Lemma grow_fuel_ok dist fl rows : forall st, (forall d, In d (map fst rows) -> 0 < d_lc d) -> Rleb 0 fuel_threshold = true ->
  In (dist, Distance fl) (fields st) -> rows_ok base_size st rows ->
  forall rows' st', grow_fuel new_id shown fuel_threshold fuel_scale dist rows st = (rows', st') ->
  ext st st' /\ map fst rows' = map fst rows /\ rows_ok (fuel_size fl) st' rows'.
Proof.
  induction rows as [|(d & id) rows IH]; intros st L T I K rows' st' E; cbn [grow_fuel] in E.
  - apply pair_equal_spec in E as (<- & <-). split; [apply ext_refl|]. split; [reflexivity|constructor].
  - apply Forall_cons_iff in K as (K1 & K2). cbn [fst snd] in K1.
    destruct (if negb (d_fissile d) && negb (d_absorber d) then _ else _) as (id1 & st1) eqn:E1.
    destruct (grow_fuel new_id shown fuel_threshold fuel_scale dist rows st1) as (rest & st2) eqn:E2. apply pair_equal_spec in E as (<- & <-).
    assert (ext st st1 /\ has_sizes st1 id1 (fuel_size fl d)) as (X1 & H1).
    { unfold fuel_size. rewrite T. cbn [andb]. destruct (negb (d_fissile d) && negb (d_absorber d)).
      - apply (grow_ok _ _ _ _ _ _ _ _ fl (inside d)) in E1; auto. apply L. now left.
      - apply pair_equal_spec in E1 as (<- & <-). split; [apply ext_refl|exact K1]. }
    destruct (IH st1) with (rows' := rest) (st' := st2) as (X2 & M2 & H2); auto.
    { intros x Hx. apply L. now right. }
    { now apply (ext_in st). }
    { now apply (rows_ext _ st). }
    split; [now apply (ext_trans _ st1)|]. split; [cbn; now rewrite M2|]. constructor; [|exact H2]. cbn [fst snd]. now apply (has_ext st1).
Qed.
Lemma nondec_cons_iff a l : StronglySorted Z.le (a :: l) <-> StronglySorted Z.le l /\ (forall b, In b l -> (a <= b)%Z).
Proof. split; [intros H; apply StronglySorted_inv in H as (A & B); rewrite Forall_forall in B; auto|]. intros (A & B). constructor; [auto|]. now apply Forall_forall. Qed.
Lemma neighbours_ok l : StronglySorted Z.le l -> NoDup l -> neighbours l = false.
Proof.
  induction l as [|a l IH]; intros Hs N; [reflexivity|]. inversion N as [|? ? N1 N2]; subst. apply nondec_cons_iff in Hs as (S1 & S2).
  destruct l as [|b l]; [reflexivity|]. change ((a =? b)%Z || neighbours (b :: l) = false). rewrite IH by auto.
  destruct (Z.eqb_spec a b) as [->|]; [destruct N1; now left|reflexivity].
Qed.
Lemma sort_perm l : Permutation (sort_tags l) l.
Proof.
  unfold sort_tags. induction l as [|a l IH]; [constructor|]. cbn [fold_right]. rewrite <- IH at 2. generalize (fold_right Overlay_Model.insert_sorted [] l).
  intros m. induction m as [|b m IHm]; cbn; [constructor; constructor|]. destruct (b <? a)%Z; [|reflexivity].
  etransitivity; [constructor; exact IHm|]. constructor.
Qed.
Lemma no_repeats_ok l : l <> [] -> NoDup l -> no_repeats (sort_tags l) = Ret tt.
Proof.
  intros Hl N. unfold no_repeats. destruct (sort_tags l) as [|a r] eqn:E.
  - destruct l as [|b l]; [congruence|]. assert (In b (sort_tags (b :: l))) as H by (apply in_sort; now left). rewrite E in H. destruct H.
  - rewrite <- E. rewrite neighbours_ok; [reflexivity|apply nondec_sort|]. now apply (Permutation_NoDup (Permutation_sym (sort_perm l))).
Qed.
Definition fuel_tags (ds : list data) : list Z := concat (map (fun d => if d_fissile d then d_tags d else []) ds).
Lemma fuel_ok rows st : (0 <= dim <= 3)%Z -> (forall d, In d (map fst rows) -> 0 < d_lc d) -> (forall d, In d (map fst rows) -> d_tags d <> []) ->
  (0 <= fuel_threshold -> 1 <= fuel_scale /\ (exists d, In d (map fst rows) /\ d_fissile d = true) /\ NoDup (fuel_tags (map fst rows))) ->
  rows_ok base_size st rows ->
  exists rows' st', fuel_fields checks new_id shown dim fuel_threshold fuel_scale rows st = Ret (rows', st') /\ ext st st' /\ map fst rows' = map fst rows /\
    rows_ok (fuel_size (map (pair dim) (sort_tags (fuel_tags (map fst rows))))) st' rows'.
Proof.
  intros Hd L Ht Hf K. unfold fuel_fields. destruct (Rleb 0 fuel_threshold) eqn:T.
  - assert (T0 : 0 <= fuel_threshold) by (destruct (Rleb_spec 0 fuel_threshold); [auto|discriminate]). destruct (Hf T0) as (Sc & (d & Hd1 & Fd) & N).
    rewrite assert_ok by (destruct (Rleb_spec 1 fuel_scale); [reflexivity|lra]). cbn [bind].
    replace (forallb _ rows) with false.
    2:{ symmetry. apply in_map_iff in Hd1 as (r & <- & Hr). apply not_true_is_false. intros A. rewrite forallb_forall in A. specialize (A r Hr). cbv beta in A. rewrite Fd in A. discriminate. }
    replace (concat (map (fun r => if d_fissile (fst r) then d_tags (fst r) else []) rows)) with (fuel_tags (map fst rows)) by (unfold fuel_tags; now rewrite map_map).
    assert (NE : fuel_tags (map fst rows) <> []).
    { pose proof (Ht d Hd1) as Hne. destruct (d_tags d) as [|t r] eqn:Et; [congruence|]. intros A. assert (In t (fuel_tags (map fst rows))) as B.
      { apply in_concat. exists (d_tags d). split; [|rewrite Et; now left]. apply in_map_iff. exists d. now rewrite Fd. }
      rewrite A in B. destruct B. }
    rewrite no_repeats_ok by auto. cbn [bind]. rewrite listed_ok by lia. cbn [bind].
    destruct (add_field new_id st _) as (dist & st1) eqn:E1. apply add_ok in E1 as (X1 & I1 & _).
    destruct (grow_fuel new_id shown fuel_threshold fuel_scale dist rows st1) as (rows' & st') eqn:E2.
    destruct (grow_fuel_ok dist _ rows st1 L T I1 (rows_ext _ _ _ _ X1 K) rows' st' E2) as (X2 & M & H2).
    exists rows', st'. split; [reflexivity|]. split; [now apply (ext_trans _ st1)|]. now split.
  - exists rows, st. split; [reflexivity|]. split; [apply ext_refl|]. split; [reflexivity|]. revert K. apply Forall_impl. intros r H p.
    destruct (H p) as (v & V & Q). exists v. split; [auto|]. unfold fuel_size. rewrite T. exact Q.
Qed.
Lemma collect_ok l : forall acc, exists acc', fold_left (fun acc e => if existsb (Z.eqb e) acc then acc else acc ++ [e]) l acc = acc' /\ forall e, In e acc' <-> In e acc \/ In e l.
Proof.
  induction l as [|a l IH]; intros acc; cbn [fold_left]; [exists acc; split; [reflexivity|cbn; tauto]|].
  destruct (IH (if existsb (Z.eqb a) acc then acc else acc ++ [a])) as (acc' & E & H). exists acc'. split; [exact E|]. intros e. rewrite H.
  destruct (existsb (Z.eqb a) acc) eqn:Ex.
  - apply existsb_exists in Ex as (x & Hx & Ex). apply Z.eqb_eq in Ex as <-. cbn. split; [tauto|]. intros [|[<-|]]; auto.
  - rewrite in_app_iff. cbn. tauto.
Qed.
Lemma boundary_ok ge tags : (forall t, In t tags -> let l := filter (fun x => fst x =? dim - 1)%Z (down ge (dim, t)) in l <> [] /\ NoDup l) -> forall acc,
  exists r, boundary checks dim ge tags acc = Ret r /\ forall e, In e r <-> In e acc \/ exists t, In t tags /\ In ((dim - 1)%Z, e) (down ge (dim, t)).
Proof.
  induction tags as [|t tags IH]; intros H acc; cbn [boundary].
  - exists acc. split; [reflexivity|]. intros e. split; [auto|]. intros [|(t & [] & _)]; auto.
  - destruct (H t (or_introl eq_refl)) as (H1 & H2). set (l := filter (fun x => fst x =? dim - 1)%Z (down ge (dim, t))) in *. cbn zeta in H1, H2.
    assert (N : NoDup (map snd l)).
    { assert (F : forall x, In x l -> fst x = (dim - 1)%Z) by (intros x Hx; apply filter_In in Hx as (_ & Hx); now apply Z.eqb_eq).
      clear - F H2. induction l as [|x l IHl]; cbn; [constructor|]. inversion H2 as [|? ? A B]; subst. constructor; [|apply IHl; auto; intros; apply F; now right].
      intros Hi. apply in_map_iff in Hi as (y & Ey & Hy). destruct A. replace x with y; [auto|]. destruct x, y. cbn in *. f_equal; [|auto].
      pose proof (F (z, z0) (or_introl eq_refl)). pose proof (F (z1, z2) (or_intror Hy)). cbn in *. congruence. }
    assert (NE : map snd l <> []) by (destruct l; [congruence|discriminate]).
    rewrite assert_ok.
    2:{ apply nonempty_len. intros A. destruct (map snd l) as [|a r] eqn:Em; [congruence|]. assert (In a (sort_tags (a :: r))) as B by (apply in_sort; now left). rewrite A in B. destruct B. }
    cbn [bind]. rewrite no_repeats_ok by auto. cbn [bind].
    destruct (collect_ok (sort_tags (map snd l)) acc) as (acc' & E & Ha). rewrite E.
    destruct (IH ltac:(intros; apply H; now right) acc') as (r & Er & Hr). exists r. split; [exact Er|]. intros e. rewrite Hr, Ha, in_sort.
    assert (Q : In e (map snd l) <-> In ((dim - 1)%Z, e) (down ge (dim, t))).
    { rewrite in_map_iff. split.
      - intros (x & <- & Hx). apply filter_In in Hx as (Hx & Ex). apply Z.eqb_eq in Ex. destruct x. cbn in *. now subst.
      - intros Hi. exists ((dim - 1)%Z, e). split; [reflexivity|]. apply filter_In. split; [auto|]. apply Z.eqb_refl. }
    rewrite Q. split.
    + intros [[|A]|(t' & A & B)]; [now left|right; exists t; split; [now left|auto]|right; exists t'; split; [now right|auto]].
    + intros [|(t' & [<-|A] & B)]; [auto|auto|]. right. exists t'. auto.
Qed.
Lemma grow_abs_ok ge fl rows : (1 <= dim <= 3)%Z -> (0 <= abs_threshold) -> forall st, (forall d, In d (map fst rows) -> 0 < d_lc d) ->
  (forall d t, In d (map fst rows) -> d_absorber d = true -> In t (d_tags d) ->
     let l := filter (fun x => fst x =? dim - 1)%Z (down ge (dim, t)) in l <> [] /\ NoDup l) ->
  rows_ok (fuel_size fl) st rows ->
  exists rows' st', grow_absorbers checks new_id shown dim abs_threshold abs_scale ge rows st = Ret (rows', st') /\
  ext st st' /\ map fst rows' = map fst rows /\ rows_ok (full_size ge fl) st' rows'.
Proof.
  intros Hd T0. induction rows as [|(d & id) rows IH]; intros st L Hb K; cbn [grow_absorbers].
  - exists [], st. split; [reflexivity|]. split; [apply ext_refl|]. split; [reflexivity|constructor].
  - apply Forall_cons_iff in K as (K1 & K2). cbn [fst snd] in K1.
    assert (T : Rleb 0 abs_threshold = true) by (destruct (Rleb_spec 0 abs_threshold); [reflexivity|lra]).
    match goal with |- context [bind ?m _] => assert (exists id1 st1, m = Ret (id1, st1) /\ ext st st1 /\ has_sizes st1 id1 (full_size ge fl d)) as (id1 & st1 & E1 & X1 & H1) end.
    { unfold full_size. rewrite T. cbn [andb]. destruct (d_absorber d) eqn:A.
      - destruct (boundary_ok ge (d_tags d)) with (acc := @nil Z) as (r & Er & Hr).
        { intros t Ht. apply (Hb d t); auto. now left. }
        rewrite Er. cbn [bind]. rewrite listed_ok by lia. cbn [bind].
        destruct (add_field new_id st _) as (dist & sta) eqn:Ea. apply add_ok in Ea as (Xa & Ia & _).
        destruct (grow new_id shown d id dist abs_threshold abs_scale sta) as (id1 & st1) eqn:Eg.
        apply (grow_ok _ _ _ _ _ _ _ _ (map (pair (dim - 1)%Z) (sort_tags r)) (inside d)) in Eg as (X1 & H1); auto.
        + exists id1, st1. split; [reflexivity|]. split; [now apply (ext_trans _ sta)|]. intros p. destruct (H1 p) as (v & V & Q1 & Q2).
          exists v. split; [auto|]. split; [|auto]. intros Hi. exists (map (pair (dim - 1)%Z) (sort_tags r)). split; [|auto].
          intros x. rewrite in_map_iff. split.
          * intros (e & <- & He). apply in_sort, Hr in He as [[]|(t & Ht & He)]. exists t. cbn. auto.
          * intros (t & Ht & Hx & Fx). exists (snd x). destruct x as (x1 & x2). cbn in *. subst. split; [reflexivity|]. apply in_sort, Hr. right. exists t. auto.
        + apply L. now left.
        + apply (has_ext st); [auto|]. intros p. destruct (K1 p) as (v & V & Q). exists v. split; [auto|]. unfold fuel_size in Q. rewrite A in Q.
          cbn [negb] in Q. rewrite !andb_false_r in Q. exact Q.
      - exists id, st. split; [reflexivity|]. split; [apply ext_refl|]. intros p. destruct (K1 p) as (v & V & Q). exists v. split; [auto|].
        unfold fuel_size in Q. rewrite A in Q. exact Q. }
    rewrite E1. cbn [bind fst snd].
    destruct (IH st1) as (rest & st2 & E2 & X2 & M2 & H2).
    { intros x Hx. apply L. now right. }
    { intros x t Hx. apply Hb. now right. }
    { now apply (rows_ext _ st). }
    rewrite E2. cbn [bind fst snd]. exists ((d, id1) :: rest), st2. split; [reflexivity|]. split; [now apply (ext_trans _ st1)|].
    split; [cbn; now rewrite M2|]. constructor; [|exact H2]. cbn [fst snd]. now apply (has_ext st1).
Qed.
Lemma abs_ok ge fl rows st : (0 <= dim <= 3)%Z -> (forall d, In d (map fst rows) -> 0 < d_lc d) ->
  (0 <= abs_threshold -> 1 <= abs_scale /\ (exists d, In d (map fst rows) /\ d_absorber d = true) /\ (1 <= dim)%Z /\
    (forall d t, In d (map fst rows) -> d_absorber d = true -> In t (d_tags d) ->
     let l := filter (fun x => fst x =? dim - 1)%Z (down ge (dim, t)) in l <> [] /\ NoDup l)) ->
  rows_ok (fuel_size fl) st rows ->
  exists rows' st', absorber_fields checks new_id shown dim abs_threshold abs_scale ge rows st = Ret (rows', st') /\
  ext st st' /\ map fst rows' = map fst rows /\ rows_ok (full_size ge fl) st' rows'.
Proof.
  intros Hd L Ha K. unfold absorber_fields. destruct (Rleb_spec 0 abs_threshold) as [T0|T0].
  - destruct (Ha T0) as (Sc & (d & Hd1 & Ad) & D1 & Hb).
    rewrite assert_ok by (destruct (Rleb_spec 1 abs_scale); [reflexivity|lra]). cbn [bind].
    replace (forallb _ rows) with false.
    2:{ symmetry. apply in_map_iff in Hd1 as (r & <- & Hr). apply not_true_is_false. intros A. rewrite forallb_forall in A. specialize (A r Hr). cbv beta in A. rewrite Ad in A. discriminate. }
    apply grow_abs_ok; auto. lia.
  - exists rows, st. split; [reflexivity|]. split; [apply ext_refl|]. split; [reflexivity|]. revert K. apply Forall_impl. intros r H p.
    destruct (H p) as (v & V & Q). exists v. split; [auto|]. unfold full_size. destruct (Rleb_spec 0 abs_threshold); [lra|]. exact Q.
Qed.
End Grow.
