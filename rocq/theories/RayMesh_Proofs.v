From Coq Require Import List Arith ZArith Lia Bool Sorting.Permutation.
From Verif Require Import Base Loops Sort_Model Sort_Spec Sort_Proofs Soup_Model Soup_Spec Soup_Proofs
  Soup_Sort_Proofs Soup_Merge_Proofs Fvm_Proofs Fvm_Sort_Proofs Fvm_Query_Proofs RayMesh_Model RayMesh_Spec.
Import ListNotations.

Lemma tl_skipn {A} (x : list A) n : tl (skipn n x) = skipn (S n) x.
Proof. revert n. induction x as [|y x IH]; intros [|n]; auto. cbn [skipn]. rewrite IH. reflexivity. Qed.

Section RayProofs.
Context {T : Type}.
Variable ltb : T -> T -> bool.
Variable avg : T -> T -> T.
Hypothesis Hswo : strict_weak_order_on ltb (fun _ => True).
Notation leq := (leq ltb).

Lemma leq_refl a : leq a a. Proof. now apply (swo_irrefl _ _ Hswo). Qed.
Lemma leq_trans a b c : leq a b -> leq b c -> leq a c.
Proof. unfold RayMesh_Spec.leq. intros H1 H2. eapply (swo_incomp _ _ Hswo) with (b := b); auto. Qed.
Lemma lt_leq a b : ltb a b = true -> leq a b.
Proof.
  unfold RayMesh_Spec.leq. intros H. destruct (ltb b a) eqn:E; auto.
  rewrite <- (swo_irrefl _ _ Hswo a I). symmetry. eapply (swo_trans _ _ Hswo); eauto.
Qed.
Lemma leq_lt a b c : leq a b -> ltb b c = true -> ltb a c = true.
Proof.
  unfold RayMesh_Spec.leq. intros H1 H2. destruct (ltb a c) eqn:E; auto.
  rewrite <- H2. symmetry. eapply (swo_incomp _ _ Hswo); eauto.
Qed.
Lemma lt_leq_lt a b c : ltb a b = true -> leq b c -> ltb a c = true.
Proof.
  unfold RayMesh_Spec.leq. intros H1 H2. destruct (ltb a c) eqn:E; auto.
  rewrite <- H1. symmetry. eapply (swo_incomp _ _ Hswo); eauto.
Qed.

(** the invariant of the search *)
Definition ts_inv (p : list T) (st : T * T) : Prop :=
  let '(r0, r1) := st in exists q, Permutation p (r0 :: q) /\ leq r0 r1 /\ (forall x, In x q -> leq r1 x) /\
    (q = [] -> r1 = r0).
Lemma ts_step p r st : ts_inv p st -> ts_inv (p ++ [r]) (two_smallest ltb r st).
Proof.
  destruct st as (r0, r1). intros (q & Hp & H01 & Hq & Hn). unfold two_smallest.
  assert (Hp' : Permutation (p ++ [r]) (r :: r0 :: q)).
  { rewrite Permutation_app_comm. cbn. now constructor. }
  destruct (ltb r r0) eqn:E0.
  - exists (r0 :: q). split; [auto|]. split; [now apply lt_leq|]. split; [|discriminate].
    intros x [<-|Hx]; [apply leq_refl|]. eapply leq_trans; eauto.
  - destruct (ltb r r1) eqn:E1.
    + exists (r :: q). split; [rewrite Hp'; constructor|]. split; [exact E0|]. split; [|discriminate].
      intros x [<-|Hx]; [apply leq_refl|]. eapply leq_trans; [apply lt_leq; eauto|auto].
    + exists (r :: q). split; [rewrite Hp'; constructor|]. split; [auto|]. split; [|discriminate].
      intros x [<-|Hx]; auto.
Qed.
Lemma sorted_head_le a l x : sorted ltb (a :: l) -> In x l -> leq a x.
Proof.
  intros H Hx. apply In_nth_error in Hx as (i & Hi). apply (H 0 (S i) a x); [lia|auto|auto].
Qed.
Lemma sorted_tail a l : sorted ltb (a :: l) -> sorted ltb l.
Proof. intros H i j x y Hij Hi Hj. apply (H (S i) (S j)); [lia|auto|auto]. Qed.

Hypothesis Havg : between ltb avg.

Lemma ts_key p st cs i c0 c1 : ts_inv p st -> sorts ltb p cs -> first_segment (i, cs) c0 c1 ->
  let k := avg (fst st) (snd st) in
  leq c0 k /\ leq k c1 /\ leq c0 c1 /\
  (below_max ltb avg -> ltb c0 c1 = true -> ltb k c1 = true).
Proof.
  destruct st as (r0, r1). intros (q & Hp & H01 & Hq & Hn) [Hc Hs] Hf. cbn [fst snd].
  assert (Hperm : Permutation (r0 :: q) cs) by (now rewrite <- Hp).
  destruct (Havg r0 r1 H01) as [Ha0 Ha1].
  unfold first_segment in Hf. cbn [snd] in Hf.
  destruct cs as [|a [|b cs]]; [contradiction| |]; destruct Hf as [-> ->].
  - assert (q = []) by (apply Permutation_length in Hperm; destruct q; [auto|discriminate]). subst q.
    apply Permutation_length_1 in Hperm as ->. rewrite (Hn eq_refl) in *.
    repeat split; auto using leq_refl.
  - assert (Hr0 : leq a r0).
    { assert (Hi : In r0 (a :: b :: cs)) by (eapply Permutation_in; [exact Hperm|now left]).
      destruct Hi as [<-|Hi]; [apply leq_refl|]. eapply sorted_head_le; eauto. }
    assert (Hab : leq a b) by (eapply sorted_head_le; [exact Hs|now left]).
    assert (H0a : leq r0 a).
    { assert (Hi : In a (r0 :: q)) by (eapply Permutation_in; [symmetry; exact Hperm|now left]).
      destruct Hi as [<-|Hi]; [apply leq_refl|]. apply leq_trans with r1; auto. }
    assert (H1b : leq r1 b).
    { assert (Hi : In b (r0 :: q)) by (eapply Permutation_in; [symmetry; exact Hperm|right; now left]).
      destruct Hi as [<-|Hi]; [|auto].
      assert (Hq' : Permutation q (a :: cs)).
      { apply Permutation_cons_inv with (a := r0). rewrite Hperm. constructor. }
      eapply leq_trans; [|exact Hab]. apply Hq. eapply Permutation_in; [symmetry; exact Hq'|now left]. }
    split; [apply leq_trans with r0; auto|]. split; [apply leq_trans with r1; auto|]. split; [auto|].
    intros Hb Hl. destruct (ltb r0 r1) eqn:E.
    + eapply lt_leq_lt; [apply Hb; eauto|auto].
    + apply leq_lt with (b := a); [|auto]. eapply leq_trans; [exact Ha1|].
      eapply leq_trans; [|exact H0a]. exact E.
Qed.

(** the key of a non-empty range *)
Lemma face_key_ok (l m r : list T) : m <> [] ->
  exists st, ts_inv m st /\ face_key ltb avg (l ++ m ++ r) (length l) (length l + length m) = Ret (avg (fst st) (snd st)).
Proof.
  intros Hm. destruct m as [|c m]; [contradiction|]. unfold face_key.
  rewrite (proj2 (rd_Ret _ _ c)) by apply nth_error_mid. cbn [bind].
  destruct (for_inv (fun j st => ts_inv (firstn (j - length l) (c :: m)) st)
    (fun i st => let* r := rd (l ++ (c :: m) ++ r) i in Ret (two_smallest ltb r st))
    (length l + length (c :: m) - (length l + 1)) (length l + 1) (c, c)) as (st & E & Hst).
  - replace (length l + 1 - length l) with 1 by lia. cbn. exists []. repeat split; auto using leq_refl.
    intros x [].
  - intros j st Hj Hst. cbn [length] in Hj.
    destruct (nth_error (c :: m) (j - length l)) as [x|] eqn:E; [|apply nth_error_None in E; cbn in E; lia].
    exists (two_smallest ltb x st). split.
    + rewrite (proj2 (rd_Ret _ _ x)); [reflexivity|].
      rewrite nth_error_app2 by lia. rewrite nth_error_app1 by (cbn; lia). exact E.
    + replace (S j - length l) with (S (j - length l)) by lia. rewrite (firstn_S _ _ x E). now apply ts_step.
  - exists st. split; [|rewrite E; reflexivity].
    rewrite firstn_all2 in Hst by (cbn; lia). exact Hst.
Qed.

Definition is_key (h : nat * list T) (k : T) : Prop :=
  exists st, ts_inv (snd h) st /\ k = avg (fst st) (snd st).
Definition lens (hs : list (nat * list T)) : list nat := map (fun h : nat * list T => length (snd h)) hs.
Lemma sums_length (l : list nat) : forall f, length (sums f l) = S (length l).
Proof. induction l as [|x l IH]; intros f; cbn; auto. Qed.
Lemma length_concat_lens (hs : list (nat * list T)) : length (concat (map snd hs)) = list_sum (lens hs).
Proof. induction hs as [|h hs IH]; auto. cbn. rewrite app_length, IH. reflexivity. Qed.
Lemma list_sum_cons x l : list_sum (x :: l) = x + list_sum l. Proof. reflexivity. Qed.

(** where a face's data is *)
Lemma holds_at (hs : list (nat * list T)) coords offsets faces i h : holds hs coords offsets faces -> nth_error hs i = Some h ->
  exists l r, coords = l ++ snd h ++ r /\ rd offsets i = Ret (length l) /\
    rd offsets (i + 1) = Ret (length l + length (snd h)) /\ rd faces i = Ret (fst h).
Proof.
  intros ((rc & ->) & (ro & ->) & (rf & ->)) Hi.
  destruct (nth_error_split _ _ Hi) as (l1 & l2 & -> & Hl).
  exists (concat (map snd l1)), (concat (map snd l2) ++ rc).
  split; [rewrite map_app, concat_app; cbn; now rewrite <- !app_assoc|].
  assert (Hs : sums 0 (map (fun h : nat * list T => length (snd h)) (l1 ++ h :: l2)) =
               firstn i (sums 0 (lens l1)) ++ list_sum (lens l1) :: sums (list_sum (lens l1) + length (snd h)) (lens l2)).
  { rewrite map_app, sums_app_gen. fold (lens l1). f_equal. f_equal. unfold lens. now rewrite map_length. }
  assert (Hlen : length (firstn i (sums 0 (lens l1))) = i).
  { rewrite firstn_length, sums_length. unfold lens. rewrite map_length. lia. }
  rewrite Hs, length_concat_lens. split; [|split].
  - apply rd_Ret. rewrite nth_error_app1 by (rewrite app_length, Hlen; cbn; lia).
    rewrite nth_error_app2, Hlen, Nat.sub_diag by lia. reflexivity.
  - apply rd_Ret. rewrite nth_error_app1; [|rewrite app_length, Hlen; destruct (lens l2); cbn; lia].
    rewrite nth_error_app2, Hlen by lia. replace (i + 1 - i) with 1 by lia. cbn. destruct (lens l2); reflexivity.
  - apply rd_Ret. rewrite nth_error_app1; [|rewrite map_length, app_length; cbn; lia].
    rewrite map_app, nth_error_app2; rewrite map_length, Hl; [|lia]. now rewrite Nat.sub_diag.
Qed.

Lemma keys_loop (hs : list (nat * list T)) coords offsets faces sc :
  holds hs coords offsets faces -> (forall h, In h hs -> snd h <> []) -> length hs <= length sc ->
  exists ks, for_ (length hs) 0 (fun iface sc =>
    let* offset := rd offsets iface in
    let* next_offset := rd offsets (iface + 1) in
    let* k := face_key ltb avg coords offset next_offset in
    wr sc iface k) sc = Ret (ks ++ skipn (length hs) sc) /\ Forall2 is_key hs ks.
Proof.
  intros Hh Hne Hlen.
  destruct (for_inv (fun j s => exists ks, s = ks ++ skipn j sc /\ Forall2 is_key (firstn j hs) ks)
    (fun iface sc =>
    let* offset := rd offsets iface in
    let* next_offset := rd offsets (iface + 1) in
    let* k := face_key ltb avg coords offset next_offset in
    wr sc iface k) (length hs) 0 sc) as (s & E & ks & -> & Hk).
  - exists []. split; [reflexivity|constructor].
  - intros j s Hj (ks & -> & Hk).
    destruct (nth_error hs j) as [h|] eqn:Eh; [|apply nth_error_None in Eh; lia].
    destruct (holds_at _ _ _ _ _ _ Hh Eh) as (l & r & -> & -> & -> & _). cbn [bind].
    destruct (face_key_ok l (snd h) r) as (st & Hst & ->); [apply Hne; eapply nth_error_In; eauto|].
    assert (Hlk : length ks = j).
    { apply Forall2_length in Hk. rewrite firstn_length in Hk. lia. }
    cbn [bind]. rewrite wr_mid'; [|auto|intros Hn; apply (f_equal (@length T)) in Hn; rewrite skipn_length in Hn; cbn in Hn; lia].
    eexists. split; [reflexivity|]. eexists. split; [f_equal|].
    + apply tl_skipn.
    + rewrite (firstn_S _ _ _ Eh). apply Forall2_app; [auto|]. constructor; [|constructor]. exists st. auto.
  - exists ks. rewrite E. cbn [Nat.add] in Hk. rewrite firstn_all in Hk. auto.
Qed.

Variable stdsort : forall A : Type, (A -> A -> bool) -> list A -> list A.
Hypothesis Hstd : sort_contract stdsort.

Lemma place_loop (hs : list (nat * list T)) coords offsets faces perm l sc so sf :
  holds hs coords offsets faces ->
  (forall i, i < length hs -> exists k, nth_error perm i = Some k /\ k < length hs /\ nth_error l i = nth_error hs k) ->
  length l = length hs -> list_sum (lens l) <= length sc -> length hs + 1 <= length so ->
  nth_error so 0 = Some 0 -> length hs <= length sf ->
  exists hs' sc' so' sf', for_ (length hs) 0 (place_face ltb stdsort coords offsets faces perm) (sc, so, sf) = Ret (sc', so', sf') /\
    Forall2 (face_sorted ltb) l hs' /\
    sc' = concat (map snd hs') ++ skipn (list_sum (lens l)) sc /\
    so' = sums 0 (lens l) ++ skipn (length hs + 1) so /\
    sf' = map fst hs' ++ skipn (length hs) sf.
Proof.
  intros Hh Hp Hll Hsc Hso H0 Hsf.
  destruct (for_inv (fun j s => exists hs', Forall2 (face_sorted ltb) (firstn j l) hs' /\
      s = (concat (map snd hs') ++ skipn (list_sum (lens (firstn j l))) sc,
           sums 0 (lens (firstn j l)) ++ skipn (j + 1) so, map fst hs' ++ skipn j sf))
    (place_face ltb stdsort coords offsets faces perm) (length hs) 0 (sc, so, sf))
    as (s & E & hs' & Hf & ->).
  - exists []. split; [constructor|]. cbn. destruct so as [|x so]; [discriminate|]. injection H0 as ->. reflexivity.
  - intros j s Hj (hs' & Hf & ->). cbn [Nat.add] in Hj.
    destruct (Hp j) as (k & Ek & Hk & El); [lia|].
    destruct (nth_error hs k) as [h|] eqn:Eh; [|apply nth_error_None in Eh; lia].
    destruct (holds_at _ _ _ _ _ _ Hh Eh) as (lc & rc & Ec & Ea & Eb & Efc).
    unfold place_face. rewrite (proj2 (rd_Ret _ _ _) Ek). cbn [bind]. rewrite Ea, Eb. cbn [bind].
    assert (Hlj : length (firstn j l) = j) by (rewrite firstn_length; lia).
    assert (Hlh : length hs' = j) by (apply Forall2_length in Hf; lia).
    assert (Hlens : length (lens (firstn j l)) = j) by (unfold lens; now rewrite map_length).
    assert (Hsl : forall f (x : list nat), length (sums f x) = length x + 1) by (intros; rewrite sums_length; lia).
    assert (Hcl : length (concat (map snd hs')) = list_sum (lens (firstn j l))).
    { rewrite length_concat_lens. clear - Hf. induction Hf as [|x y a b Hxy Hf IH]; auto.
      cbn [lens map]. rewrite !list_sum_cons. f_equal; [|exact IH]. destruct Hxy as [_ [Hp _]].
      symmetry. now apply Permutation_length. }
    assert (Hsum : list_sum (lens (firstn j l)) + length (snd h) <= length sc).
    { assert (Hx : list_sum (lens (firstn (S j) l)) <= list_sum (lens l)).
      { rewrite <- (firstn_skipn (S j) l) at 2. unfold lens. rewrite map_app, list_sum_app. lia. }
      rewrite (firstn_S _ _ _ El) in Hx. unfold lens in Hx at 1. rewrite map_app, list_sum_app in Hx. cbn in Hx.
      fold (lens (firstn j l)) in Hx. lia. }
    rewrite (proj2 (rd_Ret _ _ (list_sum (lens (firstn j l))))).
    2:{ rewrite nth_error_app1 by (rewrite Hsl; lia).
        generalize (sums_last 0 (lens (firstn j l))). now rewrite Hlens. }
    cbn [bind]. destruct (Nat.ltb_spec (length lc + length (snd h)) (length lc)); [lia|].
    replace (length lc + length (snd h) - length lc) with (length (snd h)) by lia.
    rewrite wr_mid'; [|rewrite Hsl; lia|intros Hn; apply (f_equal (@length nat)) in Hn; rewrite skipn_length in Hn; cbn in Hn; lia].
    cbn [bind]. rewrite Efc. cbn [bind].
    rewrite wr_mid'; [|rewrite map_length; lia|intros Hn; apply (f_equal (@length nat)) in Hn; rewrite skipn_length in Hn; cbn in Hn; lia].
    cbn [bind]. rewrite Ec, range_mid. cbn [bind].
    rewrite <- Hcl, blit_ok by (rewrite skipn_length; lia). cbn [bind].
    rewrite range_mid. cbn [bind].
    destruct (Hstd T ltb (snd h)) as [Hsp Hss].
    { split; intros; [apply (swo_irrefl _ _ Hswo)|eapply (swo_trans _ _ Hswo)|eapply (swo_incomp _ _ Hswo)]; eauto. }
    set (c := stdsort T ltb (snd h)) in *.
    assert (Hc : length c = length (snd h)) by (symmetry; now apply Permutation_length).
    rewrite blit_ok by (rewrite app_length; lia). cbn [bind].
    eexists. split; [reflexivity|]. exists (hs' ++ [(fst h, c)]). split.
    { rewrite (firstn_S _ _ _ El). apply Forall2_app; [auto|]. constructor; [|constructor]. split; [reflexivity|]. now split. }
    rewrite !tl_skipn, (firstn_S _ _ _ El). unfold lens. rewrite !map_app, concat_app. cbn [map concat snd fst].
    fold (lens (firstn j l)). rewrite app_nil_r, <- !app_assoc, sums_app.
    apply f_equal2; [apply f_equal2|].
    + f_equal. f_equal. rewrite Hc, list_sum_app. change (list_sum [length (snd h)]) with (length (snd h) + 0).
      rewrite skipn_app, skipn_all2 by lia. cbn [app]. rewrite Nat.sub_diag. cbn [skipn].
      rewrite skipn_skipn_add. f_equal. lia.
    + rewrite ?Hcl, <- ?app_assoc. reflexivity.
    + reflexivity.
  - exists hs'. rewrite E. cbn [Nat.add] in *. rewrite <- Hll, firstn_all in Hf. rewrite <- Hll, firstn_all.
    do 3 eexists. split; [reflexivity|]. auto.
Qed.

Lemma len_le_total hs : (forall h, In h hs -> snd h <> []) -> length hs <= list_sum (lens hs).
Proof.
  induction hs as [|h hs IH]; intros H; [cbn; lia|]. cbn [lens map]. rewrite list_sum_cons. fold (lens hs).
  assert (snd h <> []) by (apply H; now left). assert (length (snd h) <> 0) by (destruct (snd h); [contradiction|discriminate]).
  specialize (IH (fun x Hx => H x (or_intror Hx))). cbn [length]. lia.
Qed.
Lemma lens_perm l l' : Permutation l l' -> list_sum (lens l) = list_sum (lens l').
Proof. intros H. apply list_sum_perm. now apply Permutation_map. Qed.
Lemma lens_sorted l l' : Forall2 (face_sorted ltb) l l' -> lens l = lens l'.
Proof.
  induction 1 as [|x y a b [_ [Hp _]] Hf IH]; auto. cbn [lens map]. f_equal; [now apply Permutation_length|exact IH].
Qed.

Theorem sortRay_ok hs coords offsets faces sc so sf perm :
  holds hs coords offsets faces -> (forall h, In h hs -> snd h <> []) ->
  length (concat (map snd hs)) <= length sc -> length hs + 1 <= length so ->
  length hs <= length sf -> length hs <= length perm ->
  exists sc' so' sf' perm' hs0 hs',
    sortRayMeshIntersections ltb avg stdsort coords offsets faces sc so sf perm (length hs) = Ret (sc', so', sf', perm') /\
    Permutation hs hs0 /\ Forall2 (face_sorted ltb) hs0 hs' /\
    sc' = concat (map snd hs') ++ skipn (length (concat (map snd hs))) sc /\
    so' = sums 0 (map (fun h => length (snd h)) hs') ++ skipn (length hs + 1) so /\
    sf' = map fst hs' ++ skipn (length hs) sf /\
    length perm' = length perm /\
    (forall i j g h c0 c1 d0 d1, i < j -> nth_error hs' i = Some g -> nth_error hs' j = Some h ->
       first_segment g c0 c1 -> first_segment h d0 d1 ->
       ltb d1 c0 = false /\ (below_max ltb avg -> ltb d0 d1 = true -> ltb c0 d1 = true)).
Proof.
  intros Hh Hne Hsc Hso Hsf Hp. unfold sortRayMeshIntersections.
  rewrite length_concat_lens in *. pose proof (len_le_total hs Hne) as Hle.
  destruct (keys_loop hs coords offsets faces sc) as (ks & -> & Hk); [auto|auto|lia|]. cbn [bind].
  assert (Hlk : length ks = length hs) by (symmetry; eapply Forall2_length; eauto).
  unfold range at 1. rewrite app_length, skipn_length. cbn [Nat.leb]. rewrite (proj2 (Nat.leb_le _ _)) by lia.
  cbn [andb bind]. rewrite Nat.sub_0_r. cbn [skipn]. rewrite <- Hlk, firstn_app, Nat.sub_diag, firstn_all, firstn_O, app_nil_r.
  unfold range. cbn [Nat.leb]. rewrite (proj2 (Nat.leb_le _ _)) by lia. cbn [andb bind].
  rewrite Nat.sub_0_r. cbn [skipn].
  destruct (sortPermutation_correct (stdsort nat) ltb ks (firstn (length ks) perm)) as (p & -> & Hip & Hsort & _).
  { exact (Hstd nat). }
  { split; intros; [apply (swo_irrefl _ _ Hswo)|eapply (swo_trans _ _ Hswo)|eapply (swo_incomp _ _ Hswo)]; eauto. }
  { rewrite firstn_length. lia. }
  cbn [bind]. pose proof (is_perm_length _ _ Hip) as Hpl.
  destruct (blit_facts perm 0 p) as (perm' & -> & Hpl' & Hpf & _); [lia|]. cbn [bind].
  specialize (Hpf (length p) (le_n _)). rewrite firstn_all in Hpf. cbn in Hpf.
  rewrite Hlk in Hip, Hpl.
  destruct (applyPermutation_ok p (length hs) Hip hs eq_refl) as (l & _ & Hr).
  pose proof (reads_perm _ _ _ _ Hip eq_refl Hr) as Hperm.
  destruct so as [|s0 so]; [cbn in Hso; lia|]. cbn [wr length Nat.ltb Nat.leb upd bind].
  destruct (place_loop hs coords offsets faces perm' l (ks ++ skipn (length hs) sc) (0 :: so) sf)
    as (hs' & sc' & so' & sf' & E & Hf & -> & -> & ->); auto.
  { intros i Hi. destruct (nth_error p i) as [k|] eqn:Ek; [|apply nth_error_None in Ek; lia].
    exists k. split; [|split; [eapply is_perm_lt; eauto|now apply Hr]].
    rewrite <- Ek, <- Hpf. symmetry. apply nth_error_firstn_lt. lia. }
  { rewrite (proj1 Hr). exact Hpl. }
  { rewrite <- (lens_perm _ _ Hperm), app_length, skipn_length. lia. }
  unfold wr. cbn [length Nat.ltb Nat.leb upd bind]. rewrite Hlk, E. cbn [bind fst snd].
  rewrite <- (lens_perm _ _ Hperm).
  do 4 eexists. exists l, hs'. split; [reflexivity|]. split; [auto|]. split; [auto|].
  split; [|split; [|split; [reflexivity|split; [lia|]]]].
  - f_equal. rewrite skipn_app, skipn_all2 by lia. cbn [app]. rewrite skipn_skipn_add. f_equal. lia.
  - rewrite (lens_sorted _ _ Hf). f_equal. rewrite Nat.add_1_r. reflexivity.
  - intros i j g h c0 c1 d0 d1 Hij Hg Hh' Hcg Hch.
    assert (Key : forall i g, nth_error hs' i = Some g -> exists k q ki st, nth_error p i = Some k /\
      nth_error hs k = Some q /\ nth_error ks k = Some ki /\ ts_inv (snd q) st /\ ki = avg (fst st) (snd st) /\
      face_sorted ltb q g).
    { clear i j g h c0 c1 d0 d1 Hij Hg Hh' Hcg Hch. intros i g Hg.
      assert (Hi : i < length hs').
      { apply nth_error_Some. congruence. }
      assert (Hi' : i < length p) by (apply Forall2_length in Hf; rewrite <- (proj1 Hr); lia).
      destruct (nth_error p i) as [k|] eqn:Ek; [|apply nth_error_None in Ek; lia].
      assert (Hkn : k < length hs) by (eapply is_perm_lt; eauto).
      destruct (nth_error hs k) as [q|] eqn:Eq; [|apply nth_error_None in Eq; lia].
      destruct (nth_error ks k) as [ki|] eqn:Eki; [|apply nth_error_None in Eki; lia].
      destruct (Forall2_nth _ _ _ _ _ _ Hk Eq Eki) as (st & Hst & ->).
      exists k, q, (avg (fst st) (snd st)), st. do 5 (split; [auto|]).
      apply (Forall2_nth _ _ _ i _ _ Hf); auto. rewrite (proj2 Hr _ _ Ek). exact Eq. }
    destruct (Key i g Hg) as (k & q & ki & st & Ek & Eq & Eki & Hst & -> & Hfg & Hsg).
    destruct (Key j h Hh') as (k' & q' & ki' & st' & Ek' & Eq' & Eki' & Hst' & -> & Hfh & Hsh).
    assert (Hkk : leq (avg (fst st) (snd st)) (avg (fst st') (snd st'))).
    { destruct (applyPermutation_ok p (length hs) Hip ks Hlk) as (ks' & _ & Hr').
      specialize (Hsort ks' Hr'). apply (Hsort i j); [exact Hij| |].
      - rewrite (proj2 Hr' _ _ Ek). exact Eki.
      - rewrite (proj2 Hr' _ _ Ek'). exact Eki'. }
    destruct g as (gf, gc), h as (hf, hc). cbn [fst snd] in *.
    destruct (ts_key (snd q) st gc gf c0 c1 Hst Hsg Hcg) as (G1 & G2 & G3 & _).
    destruct (ts_key (snd q') st' hc hf d0 d1 Hst' Hsh Hch) as (K1 & K2 & K3 & K4). split.
    + eapply leq_trans; [exact G1|]. eapply leq_trans; [exact Hkk|exact K2].
    + intros Hb Hd. eapply leq_lt; [|apply (K4 Hb Hd)]. exact (leq_trans _ _ _ G1 Hkk).
Qed.

(** in a record sorted face by face, the first segment is the one of the original *)
Lemma first_enters h h' c0 c1 : face_sorted ltb h h' -> first_segment h' c0 c1 -> enters ltb h c0 c1.
Proof. intros [Hf Hs] H. destruct h' as (f, cs). exists cs. cbn in *. subst f. auto. Qed.

Theorem sortRay_by_entry hs coords offsets faces sc so sf perm :
  below_max ltb avg -> disjoint_segments ltb hs ->
  holds hs coords offsets faces -> (forall h, In h hs -> snd h <> []) ->
  length (concat (map snd hs)) <= length sc -> length hs + 1 <= length so ->
  length hs <= length sf -> length hs <= length perm ->
  exists sc' so' sf' perm' hs0 hs',
    sortRayMeshIntersections ltb avg stdsort coords offsets faces sc so sf perm (length hs) = Ret (sc', so', sf', perm') /\
    Permutation hs hs0 /\ Forall2 (face_sorted ltb) hs0 hs' /\ holds hs' sc' so' sf' /\
    (forall i j g h c0 c1 d0 d1, i < j -> nth_error hs' i = Some g -> nth_error hs' j = Some h ->
       first_segment g c0 c1 -> first_segment h d0 d1 -> leq c1 d0).
Proof.
  intros Hb [Hd1 Hd2] Hh Hne Hsc Hso Hsf Hp.
  destruct (sortRay_ok hs coords offsets faces sc so sf perm) as (sc' & so' & sf' & perm' & hs0 & hs' & E & Hpm & Hf & H1 & H2 & H3 & _ & Ho); auto.
  exists sc', so', sf', perm', hs0, hs'. split; [auto|]. split; [auto|]. split; [auto|].
  split; [split; [eauto|split; eauto]|].
  intros i j g h c0 c1 d0 d1 Hij Hg Hh' Hcg Hch.
  destruct (Ho _ _ _ _ _ _ _ _ Hij Hg Hh' Hcg Hch) as [_ Hx]. specialize (Hx Hb).
  assert (Hn : forall i g, nth_error hs' i = Some g -> exists q, nth_error hs0 i = Some q /\ face_sorted ltb q g).
  { clear - Hf. intros i g Hg. destruct (nth_error hs0 i) as [q|] eqn:E.
    - exists q. split; [auto|]. eapply Forall2_nth; eauto.
    - apply nth_error_None in E. apply Forall2_length in Hf. assert (i < length hs') by (apply nth_error_Some; congruence). lia. }
  destruct (Hn i g Hg) as (q & Eq & Sq), (Hn j h Hh') as (q' & Eq' & Sq').
  pose proof (first_enters _ _ _ _ Sq Hcg) as Nq. pose proof (first_enters _ _ _ _ Sq' Hch) as Nq'.
  assert (Hdis : leq c1 d0 \/ leq d1 c0).
  { destruct (proj1 (Permutation_nth_error _ _) Hpm) as [_ (f & Hinj & Hf')].
    assert (Ei : nth_error hs (f i) = Some q) by (now rewrite <- Hf').
    assert (Ej : nth_error hs (f j) = Some q') by (now rewrite <- Hf').
    eapply (Hd2 (f i) (f j)); eauto. intros Heq. apply Hinj in Heq. lia. }
  destruct Hdis as [Hdis|Hdis]; [auto|]. exfalso.
  assert (Hin : In q' hs) by (eapply Permutation_in; [symmetry; exact Hpm|eapply nth_error_In; eauto]).
  specialize (Hx (Hd1 _ _ _ Hin Nq')). unfold RayMesh_Spec.leq in Hdis. congruence.
Qed.
End RayProofs.

(** integers have one sorted order *)
Lemma Z_sorted_unique (l : list Z) : forall m, Permutation l m -> sorted Z.ltb l -> sorted Z.ltb m -> l = m.
Proof.
  induction l as [|a l IH]; intros m Hp Hl Hm; [now apply Permutation_nil in Hp|].
  destruct m as [|b m]; [apply Permutation_sym, Permutation_nil in Hp; discriminate|].
  assert (Hswo : strict_weak_order_on Z.ltb (fun _ => True)) by (split; intros; lia).
  assert (a = b).
  { assert (Ha : In a (b :: m)) by (eapply Permutation_in; [exact Hp|now left]).
    assert (Hb : In b (a :: l)) by (eapply Permutation_in; [symmetry; exact Hp|now left]).
    destruct Ha as [Ha|Ha]; [auto|]. destruct Hb as [Hb|Hb]; [auto|].
    pose proof (sorted_head_le Z.ltb a l b Hl Hb) as H1. pose proof (sorted_head_le Z.ltb b m a Hm Ha) as H2.
    unfold leq in *. lia. }
  subst b. f_equal. apply IH; [eapply Permutation_cons_inv; eauto|eapply sorted_tail; eauto|eapply sorted_tail; eauto].
Qed.
