From Coq Require Import List Arith ZArith Reals Lia Lra Bool.
From Verif Require Import Base Loops Arith Matrix_Model Matrix_Spec.
Import ListNotations.

Section Generic.
Context {T : Type} (o : arith T).
Notation matrix := (@matrix T).
Implicit Types m : matrix.

Lemma index_bound r c i j : i < r -> j < c -> j * r + i < r * c.
Proof. intros. nia. Qed.
Lemma index_inj r i j i' j' : i < r -> i' < r -> j * r + i = j' * r + i' -> i = i' /\ j = j'.
Proof.
  intros Hi Hi' E.
  assert (j = j') by nia. subst. split; auto. lia.
Qed.
Lemma index_surj r c k : k < r * c -> exists i j, i < r /\ j < c /\ k = j * r + i.
Proof.
  intros H. assert (r <> 0) by nia.
  exists (k mod r), (k / r). repeat split.
  - now apply Nat.mod_upper_bound.
  - apply Nat.div_lt_upper_bound; auto.
  - pose proof (Nat.div_mod k r). lia.
Qed.

Lemma index_ok m i j : wf m -> i < rows m -> j < cols m ->
  index m i j = Ret (Z.of_nat (j * rows m + i)).
Proof.
  intros (_ & Hb) Hi Hj. unfold index.
  assert (Hx : (j * rows m + i < rows m * cols m)%nat) by now apply index_bound.
  assert (Hz : (Z.of_nat (rows m * cols m) <= intMax)%Z) by (rewrite Nat2Z.inj_mul; auto).
  rewrite i32_ok. 2:{ unfold in_i32. rewrite <- Nat2Z.inj_mul. unfold intMin. lia. }
  cbn [bind]. rewrite i32_ok.
  - f_equal. lia.
  - unfold in_i32. rewrite <- Nat2Z.inj_mul. unfold intMin. lia.
Qed.
Lemma get_ok m i j : wf m -> i < rows m -> j < cols m -> get m i j = Ret (ent o m i j).
Proof.
  intros Hw Hi Hj. unfold get. rewrite index_ok by auto. cbn [bind].
  apply rdz_nth; [lia|]. rewrite Nat2Z.id. unfold ent. apply nth_error_nth'.
  destruct Hw as (-> & _). now apply index_bound.
Qed.
Lemma nth_upd (l : list T) k x q d : nth q (upd l k x) d = if (q =? k) && (k <? length l) then x else nth q l d.
Proof.
  rewrite !nth_default_eq || idtac.
  destruct (nth_error (upd l k x) q) as [y|] eqn:E.
  - rewrite (nth_error_nth _ _ d E). rewrite nth_error_upd in E. rewrite (Nat.eqb_sym q k).
    destruct ((k =? q) && (k <? length l)); [congruence|]. symmetry. now apply nth_error_nth.
  - apply nth_error_None in E. rewrite upd_length in E. rewrite (nth_overflow (upd l k x)) by (rewrite upd_length; auto).
    destruct (Nat.eqb_spec q k); cbn [andb].
    + destruct (Nat.ltb_spec k (length l)); [lia|]. now rewrite nth_overflow.
    + now rewrite nth_overflow.
Qed.
Lemma set_ok m i j x : wf m -> i < rows m -> j < cols m ->
  exists m', set m i j x = Ret m' /\ wf m' /\ rows m' = rows m /\ cols m' = cols m /\
    forall i' j', i' < rows m -> j' < cols m ->
      ent o m' i' j' = if (i' =? i) && (j' =? j) then x else ent o m i' j'.
Proof.
  intros Hw Hi Hj. unfold set. rewrite index_ok by auto. cbn [bind]. rewrite Nat2Z.id.
  destruct Hw as (Hl & Hb).
  rewrite wr_ok by (rewrite Hl; now apply index_bound). cbn [bind].
  eexists. split; [reflexivity|]. split; [|split; [reflexivity|split; [reflexivity|]]].
  - split; cbn [data rows cols]; [now rewrite upd_length|auto].
  - intros i' j' Hi' Hj'. unfold ent. cbn [data rows]. rewrite nth_upd.
    destruct (Nat.eqb_spec (j' * rows m + i') (j * rows m + i)) as [E|E].
    + apply index_inj in E; auto. destruct E as (-> & ->). rewrite !Nat.eqb_refl.
      destruct (Nat.ltb_spec (j * rows m + i) (length (data m))); [reflexivity|].
      pose proof (index_bound _ _ _ _ Hi Hj). lia.
    + cbn [andb]. destruct (Nat.eqb_spec i' i), (Nat.eqb_spec j' j); cbn; auto. subst. lia.
Qed.

Lemma make_ok r c x : (Z.of_nat r * Z.of_nat c <= intMax)%Z ->
  exists m, make r c x = Ret m /\ is_mat o m r c (fun _ _ => x).
Proof.
  intros H. unfold make. rewrite i32_ok by (unfold in_i32, intMin; lia). cbn [bind].
  eexists. split; [reflexivity|]. rewrite <- Nat2Z.inj_mul, Nat2Z.id.
  split; [split; cbn; [apply repeat_length|auto]|]. split; [auto|]. split; [auto|].
  intros i j Hi Hj. unfold ent. cbn [data rows].
  rewrite nth_indep with (d' := x) by (rewrite repeat_length; now apply index_bound). apply nth_repeat.
Qed.

Lemma is_mat_ext m r c f g : is_mat o m r c f -> (forall i j, i < r -> j < c -> f i j = g i j) -> is_mat o m r c g.
Proof. intros (H1 & H2 & H3 & H4) H. repeat split; auto; try apply H1. intros. rewrite H4; auto. Qed.

Lemma is_mat_self m : wf m -> is_mat o m (rows m) (cols m) (ent o m).
Proof. intros H. repeat split; auto; apply H. Qed.

(** reads and writes of a known matrix *)
Lemma get_is m r c f i j : is_mat o m r c f -> i < r -> j < c -> get m i j = Ret (f i j).
Proof. intros (Hw & <- & <- & H) Hi Hj. rewrite get_ok; auto. f_equal. auto. Qed.
Lemma set_is m r c f i j x : is_mat o m r c f -> i < r -> j < c ->
  exists m', set m i j x = Ret m' /\ is_mat o m' r c (fun i' j' => if (i' =? i) && (j' =? j) then x else f i' j').
Proof.
  intros (Hw & <- & <- & H) Hi Hj. destruct (set_ok m i j x Hw Hi Hj) as (m' & E & Hw' & Hr & Hc & He).
  exists m'. split; auto. split; auto. split; auto. split; auto. intros i' j' Hi' Hj'.
  rewrite He by auto. destruct ((i' =? i) && (j' =? j)); auto.
Qed.

Lemma identity_ok n : (Z.of_nat n * Z.of_nat n <= intMax)%Z ->
  exists m, identity o n = Ret m /\ is_mat o m n n (fun i j => if i =? j then o1 o else o0 o).
Proof.
  intros H. unfold identity. destruct (make_ok n n (o0 o) H) as (m0 & -> & H0). cbn [bind].
  destruct (for_inv (fun k m => is_mat o m n n (fun i j => if (i =? j) && (i <? k) then o1 o else o0 o))
    (fun i m => set m i i (o1 o)) n 0 m0) as (m & E & Hm).
  - eapply is_mat_ext; [exact H0|]. intros i j _ _. cbn. now rewrite andb_false_r.
  - intros k m Hk Hm. destruct (set_is _ _ _ _ k k (o1 o) Hm) as (m' & E & Hm'); [lia|lia|].
    exists m'. split; auto. eapply is_mat_ext; [exact Hm'|]. intros i j Hi Hj. cbn beta.
    destruct (Nat.eqb_spec i k), (Nat.eqb_spec j k), (Nat.eqb_spec i j), (Nat.ltb_spec i k), (Nat.ltb_spec i (S k)); cbn; auto; lia.
  - exists m. split; auto. eapply is_mat_ext; [exact Hm|]. intros i j Hi Hj. cbn beta.
    destruct (Nat.ltb_spec i (0 + n)); [|lia]. now rewrite andb_true_r.
Qed.

(** loops over the flat index *)
Lemma flat_loop (g : nat -> T -> outcome T) (h : nat -> T -> T) m n : n = length (data m) ->
  (forall k x, k < n -> g k x = Ret (h k x)) ->
  exists m', for_ n 0 (fun i m =>
      let* x := rd (data m) i in let* v := g i x in let* d := wr (data m) i v in
      Ret (mkM (rows m) (cols m) d)) m = Ret m' /\
    rows m' = rows m /\ cols m' = cols m /\ length (data m') = length (data m) /\
    forall k d, k < n -> nth k (data m') d = h k (nth k (data m) d).
Proof.
  intros Hn Hg.
  destruct (for_inv (fun q m' => rows m' = rows m /\ cols m' = cols m /\ length (data m') = length (data m) /\
      forall k d, k < n -> nth k (data m') d = if k <? q then h k (nth k (data m) d) else nth k (data m) d)
    (fun i m => let* x := rd (data m) i in let* v := g i x in let* d := wr (data m) i v in
      Ret (mkM (rows m) (cols m) d)) n 0 m) as (m' & E & H1 & H2 & H3 & H4).
  - repeat split; auto.
  - intros k m' Hk (H1 & H2 & H3 & H4).
    assert (Hx : rd (data m') k = Ret (nth k (data m') (o0 o))).
    { unfold rd. rewrite (nth_error_nth' _ (o0 o)); auto. lia. }
    rewrite Hx. cbn [bind]. rewrite Hg by lia. cbn [bind]. rewrite wr_ok by lia. cbn [bind].
    eexists. split; [reflexivity|]. cbn [rows cols data]. rewrite upd_length. repeat split; auto.
    intros q d Hq. rewrite nth_upd.
    destruct (Nat.eqb_spec q k) as [->|Hne]; cbn [andb].
    + destruct (Nat.ltb_spec k (length (data m'))); [|lia]. destruct (Nat.ltb_spec k (S k)); [|lia].
      rewrite H4 by lia. destruct (Nat.ltb_spec k k); [lia|].
      f_equal. apply nth_indep. lia.
    + rewrite H4 by lia. destruct (Nat.ltb_spec q k), (Nat.ltb_spec q (S k)); auto; lia.
  - exists m'. repeat split; auto. intros k d Hk. rewrite H4 by auto.
    destruct (Nat.ltb_spec k (0 + n)); [auto|lia].
Qed.

Lemma for_ext_le {S : Type} (f g : nat -> S -> outcome S) n : forall i s,
  (forall j s, i <= j < i + n -> f j s = g j s) -> for_ n i f s = for_ n i g s.
Proof.
  induction n as [|n IH]; intros i s H; cbn; auto. rewrite H by lia.
  destruct (g i s); cbn; auto. apply IH. intros. apply H. lia.
Qed.

Lemma scale_ok m s : wf m -> exists m', scale o m s = Ret m' /\
  is_mat o m' (rows m) (cols m) (fun i j => omul o (ent o m i j) s).
Proof.
  intros (Hl & Hb). unfold scale. rewrite i32_ok by (unfold in_i32, intMin; lia). cbn [bind].
  rewrite <- Nat2Z.inj_mul, Nat2Z.id.
  destruct (flat_loop (fun _ x => Ret (omul o x s)) (fun _ x => omul o x s) m (rows m * cols m))
    as (m' & E & Hr & Hc & Hd & Hn); auto.
  cbn [bind] in E. rewrite E. exists m'. split; auto.
  split; [split; [congruence|now rewrite Hr, Hc]|]. split; auto. split; auto.
  intros i j Hi Hj. unfold ent. rewrite Hr. apply Hn. now apply index_bound.
Qed.

Lemma add_to_ok f m b : wf m -> wf b -> rows m = rows b -> cols m = cols b ->
  exists m', add_to f m b = Ret m' /\
  is_mat o m' (rows m) (cols m) (fun i j => f (ent o m i j) (ent o b i j)).
Proof.
  intros (Hl & Hb) (Hlb & _) Er Ec. unfold add_to. rewrite Er, Ec, !Nat.eqb_refl. cbn [andb negb].
  rewrite <- Er, <- Ec. rewrite i32_ok by (unfold in_i32, intMin; lia). cbn [bind].
  rewrite <- Nat2Z.inj_mul, Nat2Z.id.
  destruct (flat_loop (fun k x => let* y := rd (data b) k in Ret (f x y))
    (fun k x => f x (nth k (data b) (o0 o))) m (rows m * cols m)) as (m' & E & Hr & Hc & Hd & Hn); auto.
  { intros k x Hk. unfold rd. rewrite (nth_error_nth' _ (o0 o)) by (rewrite Hlb, <- Er, <- Ec; auto). reflexivity. }
  exists m'. split.
  - rewrite <- E. apply for_ext. intros j s. destruct (rd (data s) j); cbn; auto. destruct (rd (data b) j); cbn; auto.
  - split; [split; [congruence|now rewrite Hr, Hc]|]. split; auto. split; auto.
    intros i j Hi Hj. unfold ent. rewrite Hr, <- Er. apply Hn. now apply index_bound.
Qed.

Lemma combine_ok f x0 a b : wf a -> wf b -> rows a = rows b -> cols a = cols b ->
  exists m', combine_ f x0 a b = Ret m' /\
  is_mat o m' (rows a) (cols a) (fun i j => f (ent o a i j) (ent o b i j)).
Proof.
  intros (Hla & Hba) (Hlb & _) Er Ec. unfold combine_. rewrite Er, Ec, !Nat.eqb_refl. cbn [andb negb].
  rewrite <- Er, <- Ec. destruct (make_ok (rows a) (cols a) x0 Hba) as (r & -> & (Hwl & _) & Hrr & Hrc & _). cbn [bind].
  rewrite i32_ok by (unfold in_i32, intMin; lia). cbn [bind].
  rewrite <- Nat2Z.inj_mul, Nat2Z.id.
  set (h := fun k (_ : T) => f (nth k (data a) (o0 o)) (nth k (data b) (o0 o))).
  destruct (flat_loop (fun k x => Ret (h k x)) h r (rows a * cols a)) as (m' & E & Hr & Hc & Hd & Hn); auto.
  { rewrite Hwl, Hrr, Hrc. auto. }
  exists m'. split.
  - rewrite <- E.
    match goal with |- for_ _ _ ?F _ = for_ _ _ ?G _ => set (F1 := F); set (F2 := G) end.
    assert (Hstep : forall i s, i < rows a * cols a -> length (data s) = length (data r) ->
      exists s', F1 i s = Ret s' /\ F2 i s = Ret s' /\ length (data s') = length (data r)).
    { intros i s Hi Hs. unfold F1, F2.
      assert (Ea : rd (data a) i = Ret (nth i (data a) (o0 o))).
      { unfold rd. rewrite (nth_error_nth' _ (o0 o)) by (rewrite Hla; lia). reflexivity. }
      assert (Eb : rd (data b) i = Ret (nth i (data b) (o0 o))).
      { unfold rd. rewrite (nth_error_nth' _ (o0 o)) by (rewrite Hlb, <- Er, <- Ec; lia). reflexivity. }
      assert (Es : rd (data s) i = Ret (nth i (data s) (o0 o))).
      { unfold rd. rewrite (nth_error_nth' _ (o0 o)) by (rewrite Hs, Hwl, Hrr, Hrc; lia). reflexivity. }
      rewrite Ea, Eb, Es. cbn [bind]. unfold h. rewrite !wr_ok by (rewrite Hs, Hwl, Hrr, Hrc; lia). cbn [bind].
      eexists. split; [reflexivity|]. split; [reflexivity|]. cbn [data]. now rewrite upd_length. }
    assert (Hall : forall n i s, i + n <= rows a * cols a -> length (data s) = length (data r) ->
      for_ n i F1 s = for_ n i F2 s).
    { induction n as [|n IH]; intros i s Hi Hs; auto. cbn [for_].
      destruct (Hstep i s) as (s' & -> & -> & Hs'); [lia|auto|]. cbn [bind]. apply IH; auto. lia. }
    apply Hall; auto.
  - split; [split; [rewrite Hd, Hwl, Hr, Hc; auto|now rewrite Hr, Hc, Hrr, Hrc]|]. split; [congruence|]. split; [congruence|].
    intros i j Hi Hj. unfold ent. rewrite Hr, Hrr, <- Er. unfold h in Hn. rewrite Hn; auto. now apply index_bound.
Qed.

Lemma zero_ok m : wf m -> is_mat o (zero o m) (rows m) (cols m) (fun _ _ => o0 o).
Proof.
  intros (Hl & Hb). split; [split; cbn; [now rewrite map_length|auto]|]. repeat split.
  intros i j Hi Hj. unfold ent. cbn [data rows zero]. exact (map_nth (fun _ => o0 o) _ (o0 o) _).
Qed.

(** transpose *)
Lemma tswap_ok conj n m f i j : is_mat o m n n f -> i < n -> j < n -> i <> j ->
  exists m', tswap conj j i m = Ret m' /\ is_mat o m' n n (fun p q =>
    if (p =? i) && (q =? j) then conj (f j i) else if (p =? j) && (q =? i) then conj (f i j) else f p q).
Proof.
  intros Hm Hi Hj Hij. unfold tswap. rewrite (get_is _ _ _ _ i j Hm) by auto. cbn [bind].
  rewrite (get_is _ _ _ _ j i Hm) by auto. cbn [bind].
  destruct (set_is _ _ _ _ i j (conj (f j i)) Hm Hi Hj) as (m1 & -> & H1). cbn [bind].
  destruct (set_is _ _ _ _ j i (conj (f i j)) H1 Hj Hi) as (m2 & -> & H2).
  exists m2. split; auto. eapply is_mat_ext; [exact H2|]. intros p q Hp Hq. cbn beta.
  destruct (Nat.eqb_spec p i), (Nat.eqb_spec q j), (Nat.eqb_spec p j), (Nat.eqb_spec q i); cbn; auto; lia.
Qed.

Lemma transpose_ok conj n m f : is_mat o m n n f ->
  exists m', transpose conj m = Ret m' /\ is_mat o m' n n (fun i j => conj (f j i)).
Proof.
  intros Hm. unfold transpose.
  (* pairs {i, j} with min < k have been swapped *)
  set (F := fun k p q => if (p =? q) then f p q else if Nat.min p q <? k then conj (f q p) else f p q).
  destruct (for_inv (fun k m => is_mat o m n n (F k))
    (fun j m => for_ (rows m - S j) (S j) (fun i m => tswap conj j i m) m) (cols m - 1) 0 m) as (m1 & E1 & H1).
  - eapply is_mat_ext; [exact Hm|]. intros i j _ _. unfold F. cbn. destruct (i =? j); auto.
  - intros j m' Hj Hm'.
    assert (Hn : cols m = n) by apply Hm. assert (Hr : rows m' = n) by apply Hm'. rewrite Hr.
    (* within the row: pairs (i, j) with i < k have been swapped as well *)
    set (G := fun k p q => if (p =? q) then f p q
      else if (Nat.min p q <? j) || ((Nat.min p q =? j) && (Nat.max p q <? k)) then conj (f q p) else f p q).
    destruct (for_inv (fun k m => is_mat o m n n (G k)) (fun i m => tswap conj j i m) (n - S j) (S j) m')
      as (m2 & E2 & H2).
    + eapply is_mat_ext; [exact Hm'|]. intros p q Hp Hq. unfold F, G.
      destruct (Nat.eqb_spec p q); auto.
      destruct (Nat.ltb_spec (Nat.min p q) j), (Nat.eqb_spec (Nat.min p q) j), (Nat.ltb_spec (Nat.max p q) (S j)); cbn; auto; lia.
    + intros i m3 Hi H3. destruct (tswap_ok conj n m3 _ i j H3) as (m4 & E4 & H4); [lia|lia|lia|].
      exists m4. split; auto. eapply is_mat_ext; [exact H4|]. intros p q Hp Hq. cbn beta.
      assert (Gij : G i i j = f i j /\ G i j i = f j i).
      { unfold G. rewrite (Nat.eqb_sym j i). destruct (Nat.eqb_spec i j); [lia|].
        rewrite (Nat.min_comm j i), (Nat.max_comm j i).
        destruct (Nat.ltb_spec (Nat.min i j) j); [lia|]. destruct (Nat.ltb_spec (Nat.max i j) i); [lia|].
        rewrite andb_false_r. auto. }
      destruct Gij as (-> & ->). unfold G.
      destruct (Nat.eqb_spec p i), (Nat.eqb_spec q j), (Nat.eqb_spec p j), (Nat.eqb_spec q i), (Nat.eqb_spec p q);
        cbn [andb]; subst; try lia; auto;
      repeat match goal with |- context [?a <? ?b] => destruct (Nat.ltb_spec a b) end;
      repeat match goal with |- context [?a =? ?b] => destruct (Nat.eqb_spec a b) end; cbn; auto; lia.
    + exists m2. split; auto. eapply is_mat_ext; [exact H2|]. intros p q Hp Hq. unfold F, G.
      destruct (Nat.eqb_spec p q); auto.
      destruct (Nat.ltb_spec (Nat.min p q) j), (Nat.eqb_spec (Nat.min p q) j), (Nat.ltb_spec (Nat.max p q) (S j + (n - S j))),
        (Nat.ltb_spec (Nat.min p q) (S j)); cbn; auto; lia.
  - rewrite E1. cbn [bind].
    assert (Hn : cols m = n) by apply Hm. assert (Hr : rows m1 = n) by apply H1. rewrite Hr.
    destruct (for_inv (fun k m => is_mat o m n n (fun p q =>
        if p =? q then (if p <? k then conj (f p q) else f p q) else conj (f q p)))
      (fun i m => let* x := get m i i in set m i i (conj x)) n 0 m1) as (m2 & E2 & H2).
    + eapply is_mat_ext; [exact H1|]. intros p q Hp Hq. unfold F. cbn beta.
      destruct (Nat.eqb_spec p q); [reflexivity|]. rewrite Hn. destruct (Nat.ltb_spec (Nat.min p q) (0 + (n - 1))); auto; lia.
    + intros i m3 Hi H3. rewrite (get_is _ _ _ _ i i H3) by lia. cbn [bind].
      destruct (set_is _ _ _ _ i i (conj (if i =? i then if i <? i then conj (f i i) else f i i else conj (f i i))) H3)
        as (m4 & E4 & H4); [lia|lia|].
      exists m4. split; auto. eapply is_mat_ext; [exact H4|]. intros p q Hp Hq. cbn beta.
      rewrite Nat.eqb_refl, Nat.ltb_irrefl.
      destruct (Nat.eqb_spec p i), (Nat.eqb_spec q i), (Nat.eqb_spec p q), (Nat.ltb_spec p i), (Nat.ltb_spec p (S i)); cbn; subst; auto; lia.
    + exists m2. split; auto. eapply is_mat_ext; [exact H2|]. intros p q Hp Hq. cbn beta.
      destruct (Nat.ltb_spec p (0 + n)); [|lia]. destruct (Nat.eqb_spec p q); subst; auto.
Qed.

(** products *)
Lemma mat_vec_ok a x r c f : is_mat o a r c f -> length x = c ->
  exists y, mat_vec o a x = Ret y /\ length y = r /\ forall i, i < r ->
    nth i y (o0 o) = sum_left o c (fun k => omul o (f i k) (nth k x (o0 o))).
Proof.
  intros Ha Hx. unfold mat_vec. pose proof Ha as (_ & Hr & Hc & _). rewrite Hr, Hc.
  set (g := fun i n => sum_left o n (fun k => omul o (f i k) (nth k x (o0 o)))).
  destruct (for_inv (fun k y => length y = r /\ forall i, i < r -> nth i y (o0 o) = g i k)
    (fun i y => for_ r 0 (fun j y => let* yj := rd y j in let* aji := get a j i in let* xi := rd x i in
        wr y j (oadd o yj (omul o aji xi))) y) c 0 (repeat (o0 o) r)) as (y & E & Hl & Hy).
  - split; [apply repeat_length|]. intros i Hi. unfold g. rewrite sum_left_0. apply nth_repeat.
  - intros k y Hk (Hl & Hy).
    destruct (for_inv (fun q y => length y = r /\ forall i, i < r -> nth i y (o0 o) = if i <? q then g i (S k) else g i k)
      (fun j y => let* yj := rd y j in let* aji := get a j k in let* xi := rd x k in
        wr y j (oadd o yj (omul o aji xi))) r 0 y) as (y' & E' & Hl' & Hy').
    + split; auto.
    + intros j y1 Hj (Hl1 & Hy1). unfold rd at 1. rewrite (nth_error_nth' _ (o0 o)) by lia. cbn [bind].
      rewrite (get_is _ _ _ _ j k Ha) by lia. cbn [bind].
      unfold rd at 1. rewrite (nth_error_nth' _ (o0 o)) by lia. cbn [bind].
      rewrite wr_ok by lia. eexists. split; [reflexivity|]. rewrite upd_length. split; auto.
      intros i Hi. rewrite nth_upd. destruct (Nat.eqb_spec i j) as [->|]; cbn [andb].
      * destruct (Nat.ltb_spec j (length y1)); [|lia]. destruct (Nat.ltb_spec j (S j)); [|lia].
        rewrite Hy1 by lia. rewrite Nat.ltb_irrefl. unfold g. rewrite sum_left_S. reflexivity.
      * rewrite Hy1 by lia. destruct (Nat.ltb_spec i j), (Nat.ltb_spec i (S j)); auto; lia.
    + exists y'. split; auto. split; auto. intros i Hi. rewrite Hy' by auto. destruct (Nat.ltb_spec i (0 + r)); [auto|lia].
  - exists y. auto.
Qed.

(** c(i,j) + sum: what matmul leaves in c *)
Definition acc (s : T) n (f : nat -> T) : T := fold_left (fun s k => oadd o s (f k)) (seq 0 n) s.
Lemma acc_S s n f : acc s (S n) f = oadd o (acc s n f) (f n).
Proof. unfold acc. rewrite seq_S, fold_left_app. reflexivity. Qed.

Lemma matmul_ok c a b r n p fa fb fc : is_mat o a r n fa -> is_mat o b n p fb -> is_mat o c r p fc ->
  exists c', matmul o c a b = Ret c' /\
    is_mat o c' r p (fun i j => acc (fc i j) n (fun k => omul o (fa i k) (fb k j))).
Proof.
  intros Ha Hb Hc0. unfold matmul.
  pose proof Ha as (_ & Har & Hac & _). pose proof Hb as (_ & Hbr & Hbc & _). rewrite Har, Hac, Hbc.
  set (g := fun i j q => acc (fc i j) q (fun k => omul o (fa i k) (fb k j))).
  match goal with |- context [for_ r 0 ?fi c] => set (f1 := fi) end.
  destruct (for_inv (fun q c => is_mat o c r p (fun i j => if i <? q then g i j n else fc i j)) f1 r 0 c) as (c' & E & Hc').
  - eapply is_mat_ext; [exact Hc0|]. intros i j _ _. reflexivity.
  - intros i c1 Hi H1. unfold f1.
    match goal with |- context [for_ p 0 ?fj c1] => set (f2 := fj) end.
    destruct (for_inv (fun q c => is_mat o c r p (fun i' j => if (i' <? i) || ((i' =? i) && (j <? q)) then g i' j n else fc i' j))
      f2 p 0 c1) as (c2 & E2 & H2).
    + eapply is_mat_ext; [exact H1|]. intros i' j _ _. cbn beta. change (j <? 0) with false. rewrite andb_false_r, orb_false_r. auto.
    + intros j c3 Hj H3. unfold f2.
      match goal with |- context [for_ n 0 ?fk c3] => set (f3 := fk) end.
      destruct (for_inv (fun q c => is_mat o c r p (fun i' j' =>
          if (i' =? i) && (j' =? j) then g i j q
          else if (i' <? i) || ((i' =? i) && (j' <? j)) then g i' j' n else fc i' j')) f3 n 0 c3) as (c4 & E4 & H4).
      * eapply is_mat_ext; [exact H3|]. intros i' j' _ _. cbn beta.
        destruct (Nat.eqb_spec i' i), (Nat.eqb_spec j' j), (Nat.ltb_spec i' i), (Nat.ltb_spec j' j); cbn; subst; auto; lia.
      * intros k c5 Hk H5. unfold f3. rewrite (get_is _ _ _ _ i j H5) by lia. cbn [bind].
        rewrite (get_is _ _ _ _ i k Ha) by lia. cbn [bind]. rewrite (get_is _ _ _ _ k j Hb) by lia. cbn [bind].
        rewrite !Nat.eqb_refl. cbn [andb].
        destruct (set_is _ _ _ _ i j (oadd o (g i j k) (omul o (fa i k) (fb k j))) H5) as (c6 & E6 & H6); [lia|lia|].
        exists c6. split; auto. eapply is_mat_ext; [exact H6|]. intros i' j' _ _. cbn beta.
        destruct ((i' =? i) && (j' =? j)) eqn:Eq; auto.
        unfold g. rewrite acc_S. reflexivity.
      * exists c4. split; auto. eapply is_mat_ext; [exact H4|]. intros i' j' Hi' Hj'. cbn beta.
        destruct (Nat.eqb_spec i' i), (Nat.eqb_spec j' j), (Nat.ltb_spec i' i), (Nat.ltb_spec j' j), (Nat.ltb_spec j' (S j)); cbn; subst; auto; lia.
    + exists c2. split; auto. eapply is_mat_ext; [exact H2|]. intros i' j' Hi' Hj'. cbn beta.
      destruct (Nat.ltb_spec i' i), (Nat.eqb_spec i' i), (Nat.ltb_spec j' (0 + p)), (Nat.ltb_spec i' (S i)); cbn; auto; lia.
  - exists c'. split; auto. eapply is_mat_ext; [exact Hc'|]. intros i j Hi Hj. cbn beta.
    destruct (Nat.ltb_spec i (0 + r)); [reflexivity|lia].
Qed.

Lemma mat_mat_ok a b r n p fa fb : is_mat o a r n fa -> is_mat o b n p fb ->
  (Z.of_nat r * Z.of_nat p <= intMax)%Z ->
  exists c, mat_mat o a b = Ret c /\ is_mat o c r p (fun i j => sum_left o n (fun k => omul o (fa i k) (fb k j))).
Proof.
  intros Ha Hb H. unfold mat_mat.
  pose proof Ha as (_ & Har & Hac & _). pose proof Hb as (_ & Hbr & Hbc & _). rewrite Har, Hbc.
  destruct (make_ok r p (o0 o) H) as (c & -> & Hc). cbn [bind].
  apply (matmul_ok c a b r n p fa fb (fun _ _ => o0 o)); auto.
Qed.
Lemma is_mat_unique m m' r c f : is_mat o m r c f -> is_mat o m' r c f -> m = m'.
Proof.
  intros ((Hl & _) & Hr & Hc & H) ((Hl' & _) & Hr' & Hc' & H').
  destruct m as [r1 c1 d1], m' as [r2 c2 d2]. cbn in *. subst r1 c1 r2 c2. f_equal.
  apply nth_ext with (d := o0 o) (d' := o0 o); [congruence|]. intros k Hk. rewrite Hl in Hk.
  destruct (index_surj r c k Hk) as (i & j & Hi & Hj & ->).
  specialize (H i j Hi Hj). specialize (H' i j Hi Hj). unfold ent in H, H'. cbn in H, H'. congruence.
Qed.
Lemma transpose_invol conj m n : (forall x, conj (conj x) = x) -> wf m -> rows m = n -> cols m = n ->
  exists m', transpose conj m = Ret m' /\ transpose conj m' = Ret m.
Proof.
  intros Hconj Hw Hr Hc. pose proof (is_mat_self m Hw) as Hm. rewrite Hr, Hc in Hm.
  destruct (transpose_ok conj n m _ Hm) as (m1 & E1 & H1).
  destruct (transpose_ok conj n m1 _ H1) as (m2 & E2 & H2).
  exists m1. split; auto. rewrite E2. f_equal. apply (is_mat_unique m2 m n n (ent o m)); auto.
  eapply is_mat_ext; [exact H2|]. intros i j Hi Hj. cbn beta. apply Hconj.
Qed.
End Generic.

(** over the reals *)
Local Open Scope R_scope.
Lemma acc_R s n f : acc Rarith s n f = s + sum_left Rarith n f.
Proof.
  induction n as [|n IH]; [cbn; ring|]. rewrite acc_S, sum_left_S, IH. cbn [Rarith oadd]. ring.
Qed.
Lemma sum_delta n i f : (i < n)%nat ->
  sum_left Rarith n (fun k => (if (i =? k)%nat then 1 else 0) * f k) = f i.
Proof.
  induction n as [|n IH]; intros H; [lia|]. rewrite sum_left_S. cbn [Rarith oadd].
  destruct (Nat.eq_dec i n) as [->|Hne].
  - rewrite Nat.eqb_refl. rewrite (sum_left_ext Rarith n _ (fun _ => 0)); [rewrite sumR_0; ring|].
    intros k Hk. destruct (Nat.eqb_spec n k); [lia|ring].
  - rewrite IH by lia. destruct (Nat.eqb_spec i n); [lia|ring].
Qed.
Lemma identity_neutral n p a f : is_mat Rarith a n p f -> (Z.of_nat n * Z.of_nat n <= intMax)%Z ->
  exists e c, identity Rarith n = Ret e /\ mat_mat Rarith e a = Ret c /\ is_mat Rarith c n p f.
Proof.
  intros Ha Hn. destruct (identity_ok Rarith n Hn) as (e & Ee & He). exists e.
  destruct (mat_mat_ok Rarith e a n n p _ f He Ha) as (c & Ec & Hc).
  { destruct Ha as ((_ & Hb) & Hr & Hcc & _). now rewrite <- Hr, <- Hcc. }
  exists c. split; auto. split; auto. eapply is_mat_ext; [exact Hc|]. intros i j Hi Hj. cbn beta.
  cbn [Rarith omul o0 o1]. now rewrite (sum_delta n i (fun k => f k j)).
Qed.
Lemma identity_neutral_r n p a f : is_mat Rarith a p n f -> (Z.of_nat n * Z.of_nat n <= intMax)%Z ->
  exists e c, identity Rarith n = Ret e /\ mat_mat Rarith a e = Ret c /\ is_mat Rarith c p n f.
Proof.
  intros Ha Hn. destruct (identity_ok Rarith n Hn) as (e & Ee & He). exists e.
  destruct (mat_mat_ok Rarith a e p n n f _ Ha He) as (c & Ec & Hc).
  { destruct Ha as ((_ & Hb) & Hr & Hcc & _). now rewrite <- Hr, <- Hcc. }
  exists c. split; auto. split; auto. eapply is_mat_ext; [exact Hc|]. intros i j Hi Hj. cbn beta.
  cbn [Rarith omul o0 o1].
  rewrite (sum_left_ext Rarith n _ (fun k => (if (j =? k)%nat then 1 else 0) * f i k)).
  - now rewrite (sum_delta n j (fun k => f i k)).
  - intros k Hk. cbn beta. rewrite (Nat.eqb_sym k j). destruct (j =? k)%nat; ring.
Qed.
(** matmul adds A B to what c contained *)
Lemma matmul_adds c a b r n p fa fb fc :
  is_mat Rarith a r n fa -> is_mat Rarith b n p fb -> is_mat Rarith c r p fc ->
  exists c', matmul Rarith c a b = Ret c' /\
    is_mat Rarith c' r p (fun i j => fc i j + sum_left Rarith n (fun k => fa i k * fb k j)).
Proof.
  intros Ha Hb Hc. destruct (matmul_ok Rarith c a b r n p fa fb fc Ha Hb Hc) as (c' & E & H).
  exists c'. split; auto. eapply is_mat_ext; [exact H|]. intros i j Hi Hj. cbn beta. now rewrite acc_R.
Qed.
