From Coq Require Import String.
From Coq Require Import List Arith ZArith Bool Reals Lra Lia Permutation.
From Verif Require Import Base Loops Arith Fill Box_Proofs Sort_Spec Soup_Spec Fvm_Model Fvm_Spec Fvm_Proofs Grid_Model Grid_Spec Grid_Proofs Mpact_Model Mpact_Spec Mpact_Proofs Mpact_Steps_Proofs Mpact_Layout_Proofs CApi_Model CApi_Spec.
Import ListNotations.
Local Open Scope list_scope.
Local Open Scope R_scope.

(** ** Loops that cannot fail *)
Lemma foreach_fold {A S} (f : A -> S -> outcome S) (h : S -> A -> S) l : forall u, (forall x u, In x l -> f x u = Ret (h u x)) ->
  foreach l f u = Ret (fold_left h l u).
Proof.
  induction l as [|x l IH]; intros u H; [reflexivity|]. cbn [foreach fold_left]. rewrite H by now left. cbn [bind]. apply IH. intros y v Hy. apply H. now right.
Qed.
Lemma for_fold {S} (f : nat -> S -> outcome S) (h : S -> nat -> S) n : forall i u, (forall j u, (i <= j < i + n)%nat -> f j u = Ret (h u j)) ->
  for_ n i f u = Ret (fold_left h (seq i n) u).
Proof.
  induction n as [|n IH]; intros i u H; [reflexivity|]. cbn [for_ seq fold_left]. rewrite H by lia. cbn [bind]. apply IH. intros j v Hj. apply H. lia.
Qed.
Lemma fold_flat_map {A B S} (h : S -> B -> S) (g : A -> list B) l : forall u,
  fold_left h (flat_map g l) u = fold_left (fun u x => fold_left h (g x) u) l u.
Proof. induction l as [|x l IH]; intros u; [reflexivity|]. cbn [flat_map fold_left]. rewrite fold_left_app. apply IH. Qed.
Lemma fold_map {A B S} (h : S -> B -> S) (g : A -> B) l : forall u, fold_left h (map g l) u = fold_left (fun u x => h u (g x)) l u.
Proof. induction l as [|x l IH]; intros u; [reflexivity|]. cbn. apply IH. Qed.
Lemma flat_map_flat_map {A B C} (f : B -> list C) (g : A -> list B) l : flat_map f (flat_map g l) = flat_map (fun x => flat_map f (g x)) l.
Proof. induction l as [|x l IH]; [reflexivity|]. cbn. now rewrite flat_map_app, IH. Qed.
Lemma flat_map_map {A B C} (f : B -> list C) (g : A -> B) l : flat_map f (map g l) = flat_map (fun x => f (g x)) l.
Proof. induction l as [|x l IH]; [reflexivity|]. cbn. now rewrite IH. Qed.

(** ** The pairs in the order of the loops *)
Definition layer (a : list (list R) * list Z) (i : nat) : Z * R :=
  let z := nth 0 (fst a) [] in (nth i (snd a) 0%Z, nth (S i) z 0 - nth i z 0).
Definition layers (a : list (list R) * list Z) : list (Z * R) := map (layer a) (seq 0 (length (snd a))).
Definition lats (m : model) : list (Z * R) := flat_map layers (assemblies m).
Definition under (children : Z -> list Z) (p : Z * R) : list (Z * R) := map (fun i => (i, snd p)) (children (fst p)).
Definition lat_children (m : model) (i : Z) : list Z := snd (get (lattices m) i ([], [])).
Definition rtm_children_of (m : model) (i : Z) : list Z := snd (get (rtms m) i ([], [])).
Definition rtms_at (m : model) : list (Z * R) := flat_map (under (lat_children m)) (lats m).
Definition cells_at (m : model) : list (Z * R) := flat_map (under (rtm_children_of m)) (rtms_at m).
Definition collect_pairs (l : list (Z * R)) : list (Z * R) := fold_left add_pair l [].

Section Pairs.
Context (checks : bool) (m : model) (HV : ids_valid m) (HC : consistent checks m).
Lemma layer_ok a i : In a (assemblies m) -> (i < length (snd a))%nat ->
  exists z lo hi, fst a = [z] /\ nth_error z i = Some lo /\ nth_error z (S i) = Some hi /\ nth_error (snd a) i = Some (fst (layer a i)) /\
    snd (layer a i) = hi - lo /\ layer_height a i = Ret (hi - lo) /\ rect_getChild Z a [Z.of_nat i] = Ret (fst (layer a i)) /\
    exists_in (lattices m) (fst (layer a i)).
Proof.
  intros Ha Hi. destruct (assembly_shape _ _ HC a Ha) as (z & bot & top & Hz & _ & Lz & _).
  destruct (nth_error z i) as [lo|] eqn:E1; [|apply nth_error_None in E1; lia].
  destruct (nth_error z (S i)) as [hi|] eqn:E2; [|apply nth_error_None in E2; lia].
  destruct (nth_error (snd a) i) as [id|] eqn:E3; [|apply nth_error_None in E3; lia].
  exists z, lo, hi. unfold layer. rewrite Hz. cbn [nth fst snd]. rewrite (nth_error_nth _ _ _ E3), (nth_error_nth _ _ _ E1), (nth_error_nth _ _ _ E2).
  do 5 (split; [auto|]). split; [|split].
  - unfold layer_height, rect_getBox. rewrite Hz. cbn [combine forallb fst snd]. rewrite (proj2 (Z.ltb_lt _ _)) by lia. cbn [andb map2o].
    rewrite (proj2 (rdz_nat z i lo) E1). replace (Z.of_nat i + 1)%Z with (Z.of_nat (S i)) by lia. cbn [bind]. rewrite (proj2 (rdz_nat z (S i) hi) E2). reflexivity.
  - unfold rect_getChild, rect_getFlatIndex. rewrite Hz. cbn [combine forallb fst snd]. rewrite (proj2 (Z.ltb_lt _ _)) by lia.
    cbn [andb numCells map flatIndex bind]. now apply rdz_nat.
  - pose proof (assembly_ids _ HV a Ha) as HF. rewrite Forall_forall in HF. apply HF. eapply nth_error_In; eauto.
Qed.
Lemma walk_ok f g : (forall id h u, exists_in (lattices m) id -> f id (get (lattices m) id ([], [])) h u = Ret (fold_left add_pair (g (id, h)) u)) ->
  walk m f = Ret (collect_pairs (flat_map g (lats m))).
Proof.
  intros Hf. unfold walk, collect_pairs, lats. rewrite flat_map_flat_map, fold_flat_map.
  apply foreach_fold. intros a u Ha. unfold layers. rewrite flat_map_map, fold_flat_map. apply for_fold. intros i v Hi.
  destruct (layer_ok a i Ha) as (z & lo & hi & Hz & _ & _ & _ & Hs & Hh & Hc & Hl); [lia|]. rewrite Hh. cbn [bind]. rewrite Hc. cbn [bind].
  rewrite (rdz_get (lattices m) _ ([], []) Hl). cbn [bind]. rewrite Hf by auto. do 3 f_equal. destruct (layer a i); cbn in *. now rewrite Hs.
Qed.
Lemma lattice_pairs_ok : lattice_pairs m = Ret (collect_pairs (lats m)).
Proof.
  unfold lattice_pairs. rewrite (walk_ok _ (fun p => [p])) by reflexivity. do 2 f_equal. induction (lats m) as [|x l IH]; [reflexivity|]. cbn. now rewrite IH.
Qed.
Lemma rtm_pairs_ok : rtm_pairs m = Ret (collect_pairs (rtms_at m)).
Proof.
  unfold rtm_pairs. apply walk_ok. intros id h u Hid. rewrite (foreach_fold _ (fun u r => add_pair u (r, h))) by reflexivity.
  unfold under. cbn [fst snd]. now rewrite fold_map.
Qed.
Lemma lat_children_exist id r : exists_in (lattices m) id -> In r (lat_children m id) -> exists_in (rtms m) r.
Proof.
  intros [H1 H2] Hr. unfold lat_children, get in Hr.
  assert (Hl : In (nth (Z.to_nat id) (lattices m) ([], [])) (lattices m)) by (apply nth_In; lia).
  pose proof (lattice_ids _ HV _ Hl) as HF. rewrite Forall_forall in HF. now apply HF.
Qed.
Lemma cell_pairs_ok : cell_pairs m = Ret (collect_pairs (cells_at m)).
Proof.
  unfold cell_pairs, cells_at, rtms_at. rewrite flat_map_flat_map. apply walk_ok. intros id h u Hid.
  rewrite (foreach_fold _ (fun u r => fold_left add_pair (map (fun c => (c, h)) (rtm_children_of m r)) u)).
  - unfold under. cbn [fst snd]. now rewrite flat_map_map, fold_flat_map.
  - intros r v Hr. rewrite (rdz_get (rtms m) r ([], [])) by (eapply lat_children_exist; eauto). cbn [bind].
    rewrite (foreach_fold _ (fun u c => add_pair u (c, h))) by reflexivity. now rewrite fold_map.
Qed.

(** they are what occurs *)
Lemma In_lats id h : In (id, h) (lats m) <-> lattice_occurs m id h.
Proof.
  unfold lats, lattice_occurs. rewrite in_flat_map. split.
  - intros (a & Ha & Hl). unfold layers in Hl. apply in_map_iff in Hl as (i & Hi & Hs). apply in_seq in Hs.
    destruct (layer_ok a i Ha) as (z & lo & hi & Hz & H1 & H2 & H3 & H4 & _); [lia|].
    exists a, z, i, lo, hi. rewrite Hi in H3, H4. cbn in H3, H4. auto 10.
  - intros (a & z & i & lo & hi & Ha & Hz & Hi & H1 & H2 & ->). exists a. split; auto. unfold layers. apply in_map_iff. exists i.
    assert (Hli : (i < length (snd a))%nat) by (apply nth_error_Some; congruence). split; [|apply in_seq; lia].
    unfold layer. rewrite Hz. cbn [nth]. now rewrite (nth_error_nth _ _ _ Hi), (nth_error_nth _ _ _ H1), (nth_error_nth _ _ _ H2).
Qed.
Lemma lattice_occurs_exists id h : lattice_occurs m id h -> exists_in (lattices m) id.
Proof.
  intros (a & z & i & lo & hi & Ha & _ & Hi & _). pose proof (assembly_ids _ HV a Ha) as HF. rewrite Forall_forall in HF. apply HF.
  eapply nth_error_In; eauto.
Qed.
Lemma get_at {A} (l : list A) id d : exists_in l id -> at_ l id (get l id d).
Proof. intros H. apply at_rdz. now apply rdz_get. Qed.
Lemma at_get {A} (l : list A) id d x : at_ l id x -> get l id d = x.
Proof. intros [_ H]. unfold get. now apply nth_error_nth. Qed.
Lemma In_rtms_at id h : In (id, h) (rtms_at m) <-> rtm_occurs m id h.
Proof.
  unfold rtms_at, rtm_occurs. rewrite in_flat_map. split.
  - intros ([l h'] & Hl & Hu). unfold under in Hu. apply in_map_iff in Hu as (r & [= <- <-] & Hr). cbn [fst snd] in *.
    apply In_lats in Hl. exists l, (get (lattices m) l ([], [])). split; auto. split; auto. apply get_at. eapply lattice_occurs_exists; eauto.
  - intros (l & x & Hl & Hx & Hi). exists (l, h). split; [now apply In_lats|]. unfold under. apply in_map_iff. exists id. split; auto.
    cbn [fst]. unfold lat_children. now rewrite (at_get _ _ _ _ Hx).
Qed.
Lemma rtm_occurs_exists id h : rtm_occurs m id h -> exists_in (rtms m) id.
Proof.
  intros (l & x & Hl & [_ Hx] & Hi). pose proof (lattice_ids _ HV x (nth_error_In _ _ Hx)) as HF. rewrite Forall_forall in HF. now apply HF.
Qed.
Lemma In_cells_at id h : In (id, h) (cells_at m) <-> cell_occurs m id h.
Proof.
  unfold cells_at, cell_occurs. rewrite in_flat_map. split.
  - intros ([l h'] & Hl & Hu). unfold under in Hu. apply in_map_iff in Hu as (r & [= <- <-] & Hr). cbn [fst snd] in *.
    apply In_rtms_at in Hl. exists l, (get (rtms m) l ([], [])). split; auto. split; auto. apply get_at. eapply rtm_occurs_exists; eauto.
  - intros (l & x & Hl & Hx & Hi). exists (l, h). split; [now apply In_rtms_at|]. unfold under. apply in_map_iff. exists id. split; auto.
    cbn [fst]. unfold rtm_children_of. now rewrite (at_get _ _ _ _ Hx).
Qed.
End Pairs.

(** ** Removing repetitions *)
Lemma close_sym a b : close a b -> close b a.
Proof. unfold close. now rewrite Rabs_minus_sym. Qed.
Lemma close_refl a : close a a.
Proof. unfold close. rewrite Rminus_eq_0, Rabs_R0. lra. Qed.
Definition same (p q : Z * R) : Prop := fst p = fst q /\ close (snd p) (snd q).
Lemma seen_iff u p : seen u p = true <-> exists q, In q u /\ same q p.
Proof.
  unfold seen. rewrite existsb_exists. split; intros (q & Hq & H); exists q; (split; [exact Hq|]).
  - apply andb_true_iff in H as [H1 H2]. apply Z.eqb_eq in H1. apply Rltb_true in H2. now split.
  - destruct H as [H1 H2]. apply andb_true_iff. split; [now apply Z.eqb_eq|]. now apply Rltb_true.
Qed.
Record distinct (l u : list (Z * R)) : Prop := {
  d_incl : incl u l;
  d_all : forall p, In p l -> exists q, In q u /\ same q p;
  d_nodup : NoDup u;
  d_apart : forall p q, In p u -> In q u -> same p q -> p = q }.
Lemma collect_distinct l : distinct l (collect_pairs l).
Proof.
  unfold collect_pairs. induction l as [|p l IH] using rev_ind.
  - constructor; [intros x []|intros x []|constructor|intros x y []].
  - rewrite fold_left_app. cbn [fold_left]. set (u := fold_left add_pair l []) in *. destruct IH as [I1 I2 I3 I4].
    unfold add_pair. destruct (seen u p) eqn:B.
    + constructor; auto; [intros x Hx; apply in_or_app; auto|]. intros x Hx. apply in_app_or in Hx as [Hx|[<-|[]]]; auto. now apply seen_iff.
    + assert (N : forall q, In q u -> ~ same q p).
      { intros q Hq Hs. enough (seen u p = true) by congruence. apply seen_iff. eauto. }
      constructor.
      * intros x Hx. apply in_app_or in Hx as [Hx|[<-|[]]]; apply in_or_app; [left; auto|right; now left].
      * intros x Hx. apply in_app_or in Hx as [Hx|[<-|[]]].
        -- destruct (I2 x Hx) as (q & Hq & Hs). exists q. split; auto. apply in_or_app. auto.
        -- exists p. split; [apply in_or_app; right; now left|]. split; [reflexivity|apply close_refl].
      * apply (Permutation_NoDup (Permutation_app_comm [p] u)). cbn [app]. constructor; auto. intros Hp. apply (N p Hp). split; [reflexivity|apply close_refl].
      * intros x y Hx Hy Hs. apply in_app_or in Hx as [Hx|[<-|[]]]; apply in_app_or in Hy as [Hy|[<-|[]]]; auto.
        -- exfalso. eapply N; eauto.
        -- exfalso. apply (N y Hy). destruct Hs. split; [congruence|now apply close_sym].
Qed.

(** ** The order *)
Lemma cmp_true p q : cmp p q = true <-> close (snd p) (snd q) /\ (fst p < fst q)%Z \/ ~ close (snd p) (snd q) /\ snd p < snd q.
Proof.
  unfold cmp. change eps4 with (1 / 10000). destruct (Rltb (Rabs (snd p - snd q)) (1 / 10000)) eqn:B.
  - apply Rltb_true in B. rewrite Z.ltb_lt. unfold close. tauto.
  - assert (N : ~ close (snd p) (snd q)) by (intros H; apply Rltb_true in H; congruence). rewrite Rltb_true. tauto.
Qed.
Lemma cmp_false p q : cmp p q = false <-> (close (snd p) (snd q) -> (fst q <= fst p)%Z) /\ (~ close (snd p) (snd q) -> snd q <= snd p).
Proof.
  unfold cmp. change eps4 with (1 / 10000). destruct (Rltb (Rabs (snd p - snd q)) (1 / 10000)) eqn:B.
  - apply Rltb_true in B. rewrite Z.ltb_ge. unfold close. tauto.
  - assert (N : ~ close (snd p) (snd q)) by (intros H; apply Rltb_true in H; congruence). split.
    + intros H. split; [tauto|]. intros _. apply Rnot_lt_le. intros L. apply Rltb_true in L. congruence.
    + intros [_ H]. specialize (H N). destruct (Rltb (snd p) (snd q)) eqn:C; auto. apply Rltb_true in C. lra.
Qed.
Lemma close_dec a b : close a b \/ ~ close a b.
Proof. unfold close. destruct (Rlt_dec (Rabs (a - b)) (1 / 10000)); auto. Qed.
Lemma far a b : ~ close a b -> a < b -> b - a >= 1 / 10000.
Proof. unfold close, Rabs. intros H L. destruct (Rcase_abs (a - b)); lra. Qed.
Lemma near_bound a b : close a b -> - (1 / 10000) < a - b < 1 / 10000.
Proof. unfold close, Rabs. destruct (Rcase_abs (a - b)); lra. Qed.
Definition transitive_on (l : list (Z * R)) : Prop :=
  forall p q r, In p l -> In q l -> In r l -> close (snd p) (snd q) -> close (snd q) (snd r) -> close (snd p) (snd r).
Lemma cmp_swo l : transitive_on l -> strict_weak_order_on cmp (fun x => In x l).
Proof.
  intros T. constructor.
  - intros p Hp. apply cmp_false. split; [lia|]. intros H. exfalso. apply H, close_refl.
  - intros p q r Hp Hq Hr. rewrite !cmp_true. intros [[A1 A2]|[A1 A2]] [[B1 B2]|[B1 B2]].
    + left. split; [eapply (T p q r); eauto|lia].
    + right. assert (N : ~ close (snd p) (snd r)).
      { intros H. apply B1. apply (T q p r); auto. now apply close_sym. }
      split; auto. apply far in B2; auto. apply near_bound in A1. lra.
    + right. assert (N : ~ close (snd p) (snd r)).
      { intros H. apply A1. apply (T p r q); auto. now apply close_sym. }
      split; auto. apply far in A2; auto. apply near_bound in B1. lra.
    + right. apply far in A2; auto. apply far in B2; auto. split; [|lra]. intros H. apply near_bound in H. lra.
  - intros p q r Hp Hq Hr. rewrite !cmp_false. intros [A1 A2] [B1 B2].
    destruct (close_dec (snd p) (snd q)) as [C1|C1]; destruct (close_dec (snd q) (snd r)) as [C2|C2].
    + specialize (A1 C1). specialize (B1 C2). split; [lia|]. intros H. exfalso. apply H. eapply (T p q r); eauto.
    + specialize (B2 C2). assert (N : ~ close (snd p) (snd r)).
      { intros H. apply C2. apply (T q p r); auto. now apply close_sym. }
      split; [tauto|]. intros _. destruct (Rle_lt_or_eq_dec _ _ B2) as [L|E].
      * assert (C2' : ~ close (snd r) (snd q)) by (intros H; apply C2; now apply close_sym). apply far in L; auto. apply near_bound in C1. lra.
      * exfalso. apply C2. rewrite E. apply close_refl.
    + specialize (A2 C1). assert (N : ~ close (snd p) (snd r)).
      { intros H. apply C1. apply (T p r q); auto. now apply close_sym. }
      split; [tauto|]. intros _. destruct (Rle_lt_or_eq_dec _ _ A2) as [L|E].
      * assert (C1' : ~ close (snd q) (snd p)) by (intros H; apply C1; now apply close_sym). apply far in L; auto. apply near_bound in C2. lra.
      * exfalso. apply C1. rewrite E. apply close_refl.
    + specialize (A2 C1). specialize (B2 C2). split; [|lra]. intros H. apply near_bound in H.
      destruct (Rle_lt_or_eq_dec _ _ A2) as [L|E]; [|exfalso; apply C1; rewrite E; apply close_refl].
      assert (C1' : ~ close (snd q) (snd p)) by (intros G; apply C1; now apply close_sym). apply far in L; auto. lra.
Qed.
Lemma swo_iff {A} (lt : A -> A -> bool) l : swo lt l = true <-> strict_weak_order_on lt (fun x => In x l).
Proof.
  unfold swo. rewrite andb_true_iff, !forallb_forall. split.
  - intros [H1 H2]. assert (H : forall a b c, In a l -> In b l -> In c l ->
      (if lt a b && lt b c then lt a c else true) = true /\ (if lt a b || lt b c then true else negb (lt a c)) = true).
    { intros a b c Ha Hb Hc. specialize (H2 a Ha). rewrite forallb_forall in H2. specialize (H2 b Hb). rewrite forallb_forall in H2.
      specialize (H2 c Hc). now apply andb_true_iff in H2. }
    constructor.
    + intros a Ha. specialize (H1 a Ha). now destruct (lt a a).
    + intros a b c Ha Hb Hc E1 E2. destruct (H a b c Ha Hb Hc) as [G _]. now rewrite E1, E2 in G.
    + intros a b c Ha Hb Hc E1 E2. destruct (H a b c Ha Hb Hc) as [_ G]. rewrite E1, E2 in G. cbn in G. now destruct (lt a c).
  - intros [H1 H2 H3]. split.
    + intros a Ha. now rewrite H1.
    + intros a Ha. apply forallb_forall. intros b Hb. apply forallb_forall. intros c Hc. apply andb_true_iff. split.
      * destruct (lt a b) eqn:E1; [|reflexivity]. destruct (lt b c) eqn:E2; [|reflexivity]. cbn. eauto.
      * destruct (lt a b) eqn:E1; [reflexivity|]. destruct (lt b c) eqn:E2; [reflexivity|]. cbn. rewrite (H3 a b c); auto.
Qed.

Lemma item_iff s i id h : item (map fst s) (map snd s) i id h <-> nth_error s i = Some (id, h).
Proof.
  unfold item. rewrite !nth_error_map. destruct (nth_error s i) as [[a b]|]; cbn; [|split; [intros [? _]|]; discriminate].
  split; [intros [[= ->] [= ->]]; reflexivity|intros [= -> ->]; auto].
Qed.

Section Output.
Context (stdsort : forall A : Type, (A -> A -> bool) -> list A -> list A) (Hstd : sort_contract stdsort).
Context (occurs : Z -> R -> Prop) (l : list (Z * R)) (Hl : forall id h, In (id, h) l <-> occurs id h).

(** whatever is returned lists what occurs, in order *)
Lemma output_lists n ids hs : output stdsort (Ret (collect_pairs l)) = Ret (n, ids, hs) ->
  n = Z.of_nat (length ids) /\ lists occurs ids hs /\ ordered ids hs.
Proof.
  unfold output, sort. cbn [bind]. destruct (swo cmp (collect_pairs l)) eqn:B; [|discriminate]. cbn [bind]. intros [= <- <- <-].
  apply swo_iff in B. destruct (Hstd _ _ _ B) as [HP HS]. set (s := stdsort _ cmp (collect_pairs l)) in *.
  destruct (collect_distinct l) as [D1 D2 D3 D4].
  assert (Hin : forall p, In p s <-> In p (collect_pairs l)).
  { intros p. split; apply Permutation_in; [symmetry|]; exact HP. }
  assert (Hnd : NoDup s) by (eapply Permutation_NoDup; eauto).
  split; [now rewrite map_length|]. split.
  - split; [now rewrite !map_length|]. split; [|split].
    + intros i id h Hi. apply item_iff in Hi. apply Hl, D1, Hin. eapply nth_error_In; eauto.
    + intros id h Ho. apply Hl in Ho. destruct (D2 _ Ho) as ([id' h'] & Hq & Hs1 & Hs2). cbn in Hs1, Hs2. subst id'.
      apply Hin in Hq. apply In_nth_error in Hq as (i & Hi). exists i, h'. split; auto. now apply item_iff.
    + intros i j id h h' Hi Hj Hc. apply item_iff in Hi. apply item_iff in Hj.
      assert (E : (id, h) = (id, h')). { apply D4; [apply Hin; eapply nth_error_In; eauto|apply Hin; eapply nth_error_In; eauto|]. now split. }
      apply (proj1 (NoDup_nth_error s) Hnd); [apply nth_error_Some; congruence|congruence].
  - intros i j id id' h h' Hij Hi Hj. apply item_iff in Hi. apply item_iff in Hj.
    pose proof (HS i j _ _ Hij Hi Hj) as H. apply cmp_false in H as [H1 H2]. cbn [fst snd] in H1, H2. split.
    + intros Hc. specialize (H1 (close_sym _ _ Hc)). destruct (Z.eq_dec id id') as [->|N]; [|lia]. exfalso.
      assert (E : (id', h) = (id', h')). { apply D4; [apply Hin; eapply nth_error_In; eauto|apply Hin; eapply nth_error_In; eauto|]. now split. }
      enough (i = j) by lia. apply (proj1 (NoDup_nth_error s) Hnd); [apply nth_error_Some; congruence|congruence].
    + intros Hc. assert (H : h <= h') by (apply H2; intros G; apply Hc; now apply close_sym). destruct H as [H| ->]; auto. exfalso. apply Hc, close_refl.
Qed.
Lemma output_defined : clustered occurs -> exists n ids hs, output stdsort (Ret (collect_pairs l)) = Ret (n, ids, hs).
Proof.
  intros HC. unfold output, sort. cbn [bind]. replace (swo cmp (collect_pairs l)) with true; [do 3 eexists; reflexivity|].
  symmetry. apply swo_iff, cmp_swo. destruct (collect_distinct l) as [D1 _ _ _].
  intros [p hp] [q hq] [r hr] Hp Hq Hr. cbn [snd]. apply (HC p q r); apply Hl, D1; auto.
Qed.
End Output.

(** the lists are determined by what occurs, up to the tolerance *)
Definition seq_ordered (l : list (Z * R)) : Prop := forall i j p q, (i < j)%nat -> nth_error l i = Some p -> nth_error l j = Some q -> cmp p q = true.
Lemma unique_lists_aux (P : Z * R -> Prop) :
  (forall p q r, P p -> P q -> P r -> close (snd p) (snd q) -> close (snd q) (snd r) -> close (snd p) (snd r)) ->
  forall l1 l2, Forall P l1 -> Forall P l2 -> seq_ordered l1 -> seq_ordered l2 ->
  (forall p, In p l1 -> exists q, In q l2 /\ same p q) -> (forall q, In q l2 -> exists p, In p l1 /\ same p q) -> Forall2 same l1 l2.
Proof.
  intros T.
  assert (Tr : forall p q r, P p -> P q -> P r -> cmp p q = true -> cmp q r = true -> cmp p r = true).
  { intros p q r Hp Hq Hr. assert (W : strict_weak_order_on cmp (fun x => In x [p; q; r])).
    { apply cmp_swo. intros a b c Ha Hb Hc. apply T; [destruct Ha as [<-|[<-|[<-|[]]]]|destruct Hb as [<-|[<-|[<-|[]]]]|destruct Hc as [<-|[<-|[<-|[]]]]]; auto. }
    apply (swo_trans _ _ W); cbn; auto. }
  assert (Cg : forall p p' q q', P p -> P p' -> P q -> P q' -> same p p' -> same q q' -> cmp p q = true -> cmp p' q' = true).
  { intros p p' q q' Hp Hp' Hq Hq' [S1 S2] [R1 R2]. rewrite !cmp_true. intros [[A1 A2]|[A1 A2]].
    - left. split; [|lia]. apply (T p' p q'); auto; [now apply close_sym|]. apply (T p q q'); auto.
    - right. assert (N : ~ close (snd p') (snd q')).
      { intros H. apply A1. apply (T p p' q); auto. apply (T p' q' q); auto. now apply close_sym. }
      assert (N2 : ~ close (snd p') (snd q)). { intros H. apply A1. apply (T p p' q); auto. }
      split; auto. apply far in A2; auto. apply near_bound in S2. assert (L : snd p' < snd q) by lra. apply far in L; auto. apply near_bound in R2. lra. }
  assert (Ir : forall p, cmp p p = false). { intros p. apply cmp_false. split; [lia|]. intros H. exfalso. apply H, close_refl. }
  induction l1 as [|a l1 IH]; intros l2 F1 F2 O1 O2 A B.
  - destruct l2 as [|b l2]; [constructor|]. destruct (B b) as (p & [] & _). now left.
  - destruct l2 as [|b l2]; [destruct (A a) as (q & [] & _); now left|].
    inversion F1 as [|x1 y1 Pa F1' E1]; subst. inversion F2 as [|x2 y2 Pb F2' E2]; subst.
    assert (H1 : forall p, In p l1 -> cmp a p = true).
    { intros p Hp. apply In_nth_error in Hp as (i & Hi). apply (O1 0%nat (S i)); auto. lia. }
    assert (H2 : forall p, In p l2 -> cmp b p = true).
    { intros p Hp. apply In_nth_error in Hp as (i & Hi). apply (O2 0%nat (S i)); auto. lia. }
    rewrite Forall_forall in F1', F2'.
    assert (Sab : same a b).
    { destruct (A a) as (q & [<-|Hq] & Sq); [now left|auto|]. destruct (B b) as (p & [<-|Hp] & Sp); [now left|auto|]. exfalso.
      assert (C : cmp p a = true).
      { apply (Cg b p q a); auto; [destruct Sp; split; [congruence|now apply close_sym]|destruct Sq; split; [congruence|now apply close_sym]]. }
      specialize (Tr p a p (F1' p Hp) Pa (F1' p Hp) C (H1 p Hp)). rewrite Ir in Tr. discriminate. }
    constructor; auto. apply IH.
    + now apply Forall_forall.
    + now apply Forall_forall.
    + intros i j p q Hij Hi Hj. apply (O1 (S i) (S j)); auto. lia.
    + intros i j p q Hij Hi Hj. apply (O2 (S i) (S j)); auto. lia.
    + intros p Hp. destruct (A p) as (q & [<-|Hq] & Sq); [now right| |eauto]. exfalso.
      assert (Sap : cmp p p = true).
      { apply (Cg a p p p); auto; [|split; [reflexivity|apply close_refl]]. destruct Sab, Sq. split; [congruence|].
        apply (T a b p); auto. now apply close_sym. }
      rewrite Ir in Sap. discriminate.
    + intros q Hq. destruct (B q) as (p & [<-|Hp] & Sp); [now right| |eauto]. exfalso.
      assert (Sap : cmp q q = true).
      { apply (Cg b q q q); auto; [|split; [reflexivity|apply close_refl]]. destruct Sab, Sp. split; [congruence|].
        apply (T b a q); auto. now apply close_sym. }
      rewrite Ir in Sap. discriminate.
Qed.
