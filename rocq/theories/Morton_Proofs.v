From Coq Require Import NArith ZArith List Bool Lia Reals Lra.
From Verif Require Import Base Morton_Model Morton_Spec.
Local Open Scope N_scope.

Lemma mod_lin d q r : r < d -> (d * q + r) mod d = r.
Proof. intros H. symmetry. now apply (N.mod_unique _ _ q). Qed.
Lemma div_lin d q r : r < d -> (d * q + r) / d = q.
Proof. intros H. symmetry. now apply (N.div_unique _ _ _ r). Qed.

(** * Decomposition of words into bits *)
Fixpoint big (op : N -> N -> N) (n : nat) (h : N -> N) : N :=
  match n with
  | O => 0
  | S n' => op (big op n' h) (h (N.of_nat n'))
  end.

Definition hom (op : N -> N -> N) (f : N -> N) : Prop :=
  f 0 = 0 /\ forall a b, f (op a b) = op (f a) (f b).

Lemma big_ext op n h g :
  (forall i, i < N.of_nat n -> h i = g i) -> big op n h = big op n g.
Proof.
  induction n as [|n IH]; simpl big; intros H; auto.
  rewrite IH, H; auto; try lia. intros i Hi. apply H. lia.
Qed.

Lemma big_hom op f n h : hom op f -> f (big op n h) = big op n (fun i => f (h i)).
Proof.
  intros [H0 H]. induction n as [|n IH]; simpl; auto. now rewrite H, IH.
Qed.

Lemma pow2_bit i j : N.testbit (2 ^ i) j = (i =? j).
Proof.
  destruct (N.eqb_spec i j) as [->|H].
  - apply N.pow2_bits_true.
  - now apply N.pow2_bits_false.
Qed.

Lemma big_or_bit n h j :
  N.testbit (big N.lor n h) j =
  existsb (fun i => N.testbit (h (N.of_nat i)) j) (seq 0 n).
Proof.
  induction n as [|n IH].
  - apply N.bits_0.
  - rewrite seq_S, existsb_app. simpl. now rewrite N.lor_spec, IH, orb_false_r.
Qed.

Lemma existsb_unique (f : nat -> bool) l k :
  (forall i, In i l -> f i = true -> i = k) ->
  existsb f l = existsb (Nat.eqb k) l && f k.
Proof.
  induction l as [|a l IH]; simpl; intros H; auto.
  rewrite IH by auto.
  destruct (Nat.eqb_spec k a) as [->|Hn]; simpl.
  - destruct (f a), (existsb (Nat.eqb a) l); auto.
  - destruct (f a) eqn:E; auto. specialize (H a (or_introl eq_refl) E). congruence.
Qed.

Lemma existsb_seq k n : existsb (Nat.eqb k) (seq 0 n) = (k <? n)%nat.
Proof.
  destruct (Nat.ltb_spec k n).
  - apply existsb_exists. exists k. rewrite in_seq, Nat.eqb_eq. split; lia.
  - destruct (existsb _ _) eqn:E; auto. apply existsb_exists in E as (x & Hx & E).
    apply in_seq in Hx. apply Nat.eqb_eq in E. lia.
Qed.

Lemma big_xor_bit_unique n h j k :
  (forall i, (i < n)%nat -> N.testbit (h (N.of_nat i)) j = true -> i = k) ->
  N.testbit (big N.lxor n h) j = (k <? n)%nat && N.testbit (h (N.of_nat k)) j.
Proof.
  induction n as [|n IH]; intros H.
  - change (big N.lxor 0 h) with 0. rewrite N.bits_0. destruct k; reflexivity.
  - simpl. rewrite N.lxor_spec, IH by (intros; apply H; auto).
    destruct (N.testbit (h (N.of_nat n)) j) eqn:E.
    + specialize (H n ltac:(lia) E). subst k.
      replace (n <? n)%nat with false by (symmetry; apply Nat.ltb_ge; lia).
      replace (n <? S n)%nat with true by (symmetry; apply Nat.ltb_lt; lia).
      now rewrite E.
    + rewrite xorb_false_r.
      destruct (Nat.ltb_spec k n), (Nat.ltb_spec k (S n)); auto; try lia.
      replace k with n by lia. now rewrite E.
Qed.

Lemma big_or_bit_unique n h j k :
  (forall i, (i < n)%nat -> N.testbit (h (N.of_nat i)) j = true -> i = k) ->
  N.testbit (big N.lor n h) j = (k <? n)%nat && N.testbit (h (N.of_nat k)) j.
Proof.
  intros H. rewrite big_or_bit, (existsb_unique _ _ k), existsb_seq; auto.
  intros i Hi. apply in_seq in Hi. apply H. lia.
Qed.

Lemma testbit_lt x n j : x < 2 ^ n -> n <= j -> N.testbit x j = false.
Proof.
  intros Hx Hj. destruct (N.eq_dec x 0) as [->|H0]; [apply N.bits_0|].
  apply N.bits_above_log2.
  apply N.log2_lt_pow2; [lia|].
  apply N.lt_le_trans with (2 ^ n); auto. apply N.pow_le_mono_r; lia.
Qed.

Lemma lt_pow2_bits x n : (forall j, n <= j -> N.testbit x j = false) -> x < 2 ^ n.
Proof.
  intros H. destruct (N.eq_dec x 0) as [->|H0].
  - pose proof (N.pow_nonzero 2 n). lia.
  - apply N.log2_lt_pow2; [lia|].
    destruct (N.lt_ge_cases (N.log2 x) n); auto.
    specialize (H _ H1). rewrite N.bit_log2 in H by auto. discriminate.
Qed.

Definition bitat (x i : N) : N := if N.testbit x i then 2 ^ i else 0.

Lemma bitat_bit x i j : N.testbit (bitat x i) j = N.testbit x i && (i =? j).
Proof. unfold bitat. destruct (N.testbit x i); [apply pow2_bit|apply N.bits_0]. Qed.

Lemma decomp_or x n : x < 2 ^ N.of_nat n -> x = big N.lor n (bitat x).
Proof.
  intros Hx. apply N.bits_inj. intros j.
  rewrite (big_or_bit_unique _ _ _ (N.to_nat j)).
  - rewrite N2Nat.id, bitat_bit, N.eqb_refl, andb_true_r.
    destruct (Nat.ltb_spec (N.to_nat j) n); auto. simpl.
    apply (testbit_lt _ (N.of_nat n)); auto. lia.
  - intros i Hi E. rewrite bitat_bit in E. apply andb_prop in E as [_ E].
    apply N.eqb_eq in E. lia.
Qed.

Lemma decomp_xor x n : x < 2 ^ N.of_nat n -> x = big N.lxor n (bitat x).
Proof.
  intros Hx. apply N.bits_inj. intros j.
  rewrite (big_xor_bit_unique _ _ _ (N.to_nat j)).
  - rewrite N2Nat.id, bitat_bit, N.eqb_refl, andb_true_r.
    destruct (Nat.ltb_spec (N.to_nat j) n); auto. simpl.
    apply (testbit_lt _ (N.of_nat n)); auto. lia.
  - intros i Hi E. rewrite bitat_bit in E. apply andb_prop in E as [_ E].
    apply N.eqb_eq in E. lia.
Qed.

(** A homomorphism is determined by its values on powers of two. *)
Lemma hom_or_decomp f x n : hom N.lor f -> x < 2 ^ N.of_nat n ->
  f x = big N.lor n (fun i => if N.testbit x i then f (2 ^ i) else 0).
Proof.
  intros Hf Hx. rewrite (decomp_or x n Hx) at 1. rewrite big_hom by auto.
  apply big_ext. intros i _. unfold bitat. destruct (N.testbit x i); auto. apply Hf.
Qed.

Lemma hom_xor_decomp f x n : hom N.lxor f -> x < 2 ^ N.of_nat n ->
  f x = big N.lxor n (fun i => if N.testbit x i then f (2 ^ i) else 0).
Proof.
  intros Hf Hx. rewrite (decomp_xor x n Hx) at 1. rewrite big_hom by auto.
  apply big_ext. intros i _. unfold bitat. destruct (N.testbit x i); auto. apply Hf.
Qed.

(** check of a fact about all bit positions below [n] *)
Definition allN (n : nat) (c : N -> bool) : bool := forallb (fun i => c (N.of_nat i)) (seq 0 n).
Lemma allN_spec n c : allN n c = true -> forall i, i < N.of_nat n -> c i = true.
Proof.
  unfold allN. rewrite forallb_forall. intros H i Hi.
  rewrite <- (N2Nat.id i). apply H, in_seq. lia.
Qed.

(** [f] deposits bit [i] (below [n]) at position [d*i + o]. *)
Lemma spread_bit f n d o x j : 0 < d -> o < d -> hom N.lor f ->
  allN n (fun i => f (2 ^ i) =? 2 ^ (d * i + o)) = true ->
  x < 2 ^ N.of_nat n ->
  N.testbit (f x) j = (j mod d =? o) && N.testbit x (j / d).
Proof.
  intros Hd Ho Hf Hb Hx.
  rewrite (hom_or_decomp f x n Hf Hx).
  assert (Hj : j = d * (j / d) + j mod d) by (apply N.div_mod; lia).
  rewrite (big_or_bit_unique _ _ _ (N.to_nat (j / d))).
  - rewrite N2Nat.id.
    destruct (Nat.ltb_spec (N.to_nat (j / d)) n) as [Hlt|Hge].
    + simpl. destruct (N.testbit x (j / d)).
      * pose proof (allN_spec _ _ Hb (j / d) ltac:(lia)) as E. cbv beta in E. apply N.eqb_eq in E.
        rewrite E, pow2_bit, andb_true_r.
        destruct (N.eqb_spec (j mod d) o); [apply N.eqb_eq|apply N.eqb_neq]; lia.
      * rewrite N.bits_0. now rewrite andb_false_r.
    + simpl. rewrite (testbit_lt x (N.of_nat n)) by (auto; lia). now rewrite andb_false_r.
  - intros i Hi E. destruct (N.testbit x (N.of_nat i)); [|now rewrite N.bits_0 in E].
    pose proof (allN_spec _ _ Hb (N.of_nat i) ltac:(lia)) as E'. cbv beta in E'. apply N.eqb_eq in E'.
    rewrite E', pow2_bit in E. apply N.eqb_eq in E.
    subst j. rewrite N.mul_comm, N.div_add_l by lia. rewrite N.div_small by lia. lia.
Qed.

(** [f] gathers bit [d*i + o] (i below [n]) at position [i] and drops the others. *)
Definition gathers (f : N -> N) (w n : nat) (d o : N) : bool :=
  allN w (fun i => f (2 ^ i) =? if (i mod d =? o) && (i / d <? N.of_nat n) then 2 ^ (i / d) else 0).

Lemma gather_bit op f w n d o m j : 0 < d -> o < d ->
  (op = N.lxor \/ op = N.lor) ->
  hom op f -> gathers f w n d o = true ->
  d * (N.of_nat n - 1) + o < N.of_nat w ->
  m < 2 ^ N.of_nat w ->
  N.testbit (f m) j = (j <? N.of_nat n) && N.testbit m (d * j + o).
Proof.
  intros Hd Ho Hop Hf Hb Hw Hm.
  assert (Hdec : f m = big op w (fun i => if N.testbit m i then f (2 ^ i) else 0)).
  { destruct Hop as [-> | ->]; [now apply hom_xor_decomp|now apply hom_or_decomp]. }
  rewrite Hdec. clear Hdec.
  assert (Huniq : forall i, (i < w)%nat ->
    N.testbit (if N.testbit m (N.of_nat i) then f (2 ^ N.of_nat i) else 0) j = true ->
    i = N.to_nat (d * j + o)).
  { intros i Hi E. destruct (N.testbit m (N.of_nat i)); [|now rewrite N.bits_0 in E].
    pose proof (allN_spec _ _ Hb (N.of_nat i) ltac:(lia)) as E'. cbv beta in E'. apply N.eqb_eq in E'.
    rewrite E' in E.
    destruct ((N.of_nat i mod d =? o) && (N.of_nat i / d <? N.of_nat n)) eqn:C;
      [|now rewrite N.bits_0 in E].
    rewrite pow2_bit in E. apply N.eqb_eq in E. apply andb_prop in C as [C _].
    apply N.eqb_eq in C.
    pose proof (N.div_mod (N.of_nat i) d ltac:(lia)). subst j. rewrite C in H. lia. }
  assert (Hgen : N.testbit (big op w (fun i => if N.testbit m i then f (2 ^ i) else 0)) j
    = (N.to_nat (d * j + o) <? w)%nat &&
      N.testbit (if N.testbit m (N.of_nat (N.to_nat (d * j + o)))
                 then f (2 ^ N.of_nat (N.to_nat (d * j + o))) else 0) j).
  { destruct Hop as [-> | ->]; [now apply big_xor_bit_unique|now apply big_or_bit_unique]. }
  rewrite Hgen, N2Nat.id. clear Hgen Huniq.
  assert (Hdiv : (d * j + o) / d = j).
  { rewrite N.mul_comm, N.div_add_l by lia. rewrite N.div_small by lia. lia. }
  assert (Hmod : (d * j + o) mod d = o).
  { rewrite N.add_comm, N.mul_comm, N.mod_add by lia. now apply N.mod_small. }
  destruct (Nat.ltb_spec (N.to_nat (d * j + o)) w) as [Hlt|Hge].
  - simpl. destruct (N.testbit m (d * j + o)).
    + pose proof (allN_spec _ _ Hb (d * j + o) ltac:(lia)) as E'. cbv beta in E'. apply N.eqb_eq in E'.
      rewrite E', Hdiv, Hmod, N.eqb_refl. simpl.
      destruct (N.ltb_spec j (N.of_nat n)); simpl.
      * now rewrite pow2_bit, N.eqb_refl.
      * reflexivity.
    + now rewrite N.bits_0, andb_false_r.
  - simpl. rewrite (testbit_lt m (N.of_nat w)) by (auto; lia). now rewrite andb_false_r.
Qed.

(** * The functions of the code are homomorphisms *)
Lemma bits_ext a b : (forall j, N.testbit a j = N.testbit b j) -> a = b.
Proof. intros H. now apply N.bits_inj. Qed.

Lemma shl_bit w x k j : N.testbit (shl w x k) j = (j <? w) && (k <=? j) && N.testbit x (j - k).
Proof.
  unfold shl. rewrite N.land_spec.
  destruct (N.ltb_spec j w).
  - rewrite N.ones_spec_low by auto. rewrite andb_true_r.
    destruct (N.leb_spec k j); simpl.
    + now rewrite N.shiftl_spec_high' by auto.
    + now rewrite N.shiftl_spec_low by auto.
  - rewrite N.ones_spec_high by auto. now rewrite andb_false_r.
Qed.

Lemma shl_0 w k : shl w 0 k = 0.
Proof. unfold shl. now rewrite N.shiftl_0_l. Qed.
Lemma shl_lor w a b k : shl w (N.lor a b) k = N.lor (shl w a k) (shl w b k).
Proof.
  apply bits_ext; intros j. rewrite !shl_bit, !N.lor_spec, !shl_bit.
  now rewrite andb_orb_distrib_r.
Qed.

Lemma hom_or_step f w k mask : hom N.lor f ->
  hom N.lor (fun x => N.land (N.lor (f x) (shl w (f x) k)) mask).
Proof.
  intros [H0 H]. split.
  - rewrite H0, shl_0. reflexivity.
  - intros a b. rewrite H, shl_lor. apply bits_ext; intros j.
    rewrite !N.lor_spec, !N.land_spec, !N.lor_spec.
    destruct (N.testbit (f a) j), (N.testbit (f b) j), (N.testbit (shl w (f a) k) j),
      (N.testbit (shl w (f b) k) j), (N.testbit mask j); auto.
Qed.

Lemma hom_xor_step f k mask : hom N.lxor f ->
  hom N.lxor (fun x => N.land (N.lxor (f x) (N.shiftr (f x) k)) mask).
Proof.
  intros [H0 H]. split.
  - rewrite H0, N.shiftr_0_l. reflexivity.
  - intros a b. rewrite H. apply bits_ext; intros j.
    repeat rewrite ?N.lxor_spec, ?N.land_spec, ?N.shiftr_spec'.
    destruct (N.testbit (f a) j), (N.testbit (f b) j), (N.testbit (f a) (j + k)),
      (N.testbit (f b) (j + k)), (N.testbit mask j); auto.
Qed.

Lemma hom_xor_mask mask : hom N.lxor (fun x => N.land x mask).
Proof.
  split; [apply N.land_0_l|]. intros a b. apply bits_ext; intros j.
  rewrite !N.lxor_spec, !N.land_spec, !N.lxor_spec.
  destruct (N.testbit a j), (N.testbit b j), (N.testbit mask j); auto.
Qed.

Lemma hom_id op : (op = N.lxor \/ op = N.lor) -> hom op (fun x => x).
Proof. intros [-> | ->]; split; auto. Qed.

Lemma hom_pdep2_32 : hom N.lor pdep0x55555555.
Proof. repeat apply hom_or_step. apply hom_id; auto. Qed.
Lemma hom_pdep2_64 : hom N.lor pdep0x5555555555555555.
Proof. repeat apply hom_or_step. apply hom_id; auto. Qed.
Lemma hom_pdep3_32 : hom N.lor pdep0x92492492.
Proof. repeat apply hom_or_step. apply hom_id; auto. Qed.
Lemma hom_pdep3_64 : hom N.lor pdep0x9249249249249249.
Proof. repeat apply hom_or_step. apply hom_id; auto. Qed.
Lemma hom_pext2_32 : hom N.lxor pext0x55555555.
Proof. repeat apply hom_xor_step. apply hom_xor_mask. Qed.
Lemma hom_pext2_64 : hom N.lxor pext0x5555555555555555.
Proof. repeat apply hom_xor_step. apply hom_xor_mask. Qed.
Lemma hom_pext3_32 : hom N.lxor pext0x92492492.
Proof. repeat apply hom_xor_step. apply hom_xor_mask. Qed.
Lemma hom_pext3_64 : hom N.lxor pext0x9249249249249249.
Proof. repeat apply hom_xor_step. apply hom_xor_mask. Qed.

(** * Bits of the portable functions *)
Lemma pdep2_32_bit x j : x < 2 ^ 16 ->
  N.testbit (pdep0x55555555 x) j = (j mod 2 =? 0) && N.testbit x (j / 2).
Proof.
  intros H. apply (spread_bit _ 16 2 0); try lia;
    first [exact hom_pdep2_32 | assumption | vm_compute; reflexivity].
Qed.
Lemma pdep2_64_bit x j : x < 2 ^ 32 ->
  N.testbit (pdep0x5555555555555555 x) j = (j mod 2 =? 0) && N.testbit x (j / 2).
Proof.
  intros H. apply (spread_bit _ 32 2 0); try lia;
    first [exact hom_pdep2_64 | assumption | vm_compute; reflexivity].
Qed.
Lemma pdep3_32_bit x j : x < 2 ^ 10 ->
  N.testbit (pdep0x92492492 x) j = (j mod 3 =? 0) && N.testbit x (j / 3).
Proof.
  intros H. apply (spread_bit _ 10 3 0); try lia;
    first [exact hom_pdep3_32 | assumption | vm_compute; reflexivity].
Qed.
Lemma pdep3_64_bit x j : x < 2 ^ 21 ->
  N.testbit (pdep0x9249249249249249 x) j = (j mod 3 =? 0) && N.testbit x (j / 3).
Proof.
  intros H. apply (spread_bit _ 21 3 0); try lia;
    first [exact hom_pdep3_64 | assumption | vm_compute; reflexivity].
Qed.
Lemma pext2_32_bit m j : m < 2 ^ 32 ->
  N.testbit (pext0x55555555 m) j = (j <? 16) && N.testbit m (2 * j).
Proof.
  intros H. rewrite (gather_bit N.lxor _ 32 16 2 0); try lia;
    first [exact hom_pext2_32 | assumption | now rewrite N.add_0_r | auto; fail | vm_compute; reflexivity].
Qed.
Lemma pext2_64_bit m j : m < 2 ^ 64 ->
  N.testbit (pext0x5555555555555555 m) j = (j <? 32) && N.testbit m (2 * j).
Proof.
  intros H. rewrite (gather_bit N.lxor _ 64 32 2 0); try lia;
    first [exact hom_pext2_64 | assumption | now rewrite N.add_0_r | auto; fail | vm_compute; reflexivity].
Qed.
Lemma pext3_32_bit m j : m < 2 ^ 32 ->
  N.testbit (pext0x92492492 m) j = (j <? 10) && N.testbit m (3 * j).
Proof.
  intros H. rewrite (gather_bit N.lxor _ 32 10 3 0); try lia;
    first [exact hom_pext3_32 | assumption | now rewrite N.add_0_r | auto; fail | vm_compute; reflexivity].
Qed.
Lemma pext3_64_bit m j : m < 2 ^ 64 ->
  N.testbit (pext0x9249249249249249 m) j = (j <? 21) && N.testbit m (3 * j).
Proof.
  intros H. rewrite (gather_bit N.lxor _ 64 21 3 0); try lia;
    first [exact hom_pext3_64 | assumption | now rewrite N.add_0_r | auto; fail | vm_compute; reflexivity].
Qed.

(** * Intel's pdep / pext *)
Lemma pdep_loop_hom n mask : forall m k, hom N.lor (fun src => pdep_loop n src mask m k).
Proof.
  induction n as [|n IH]; intros m k; cbn [pdep_loop]; [split; auto|].
  destruct (N.testbit mask m); [|apply IH].
  destruct (IH (N.succ m) (N.succ k)) as [H0 H]. split.
  - rewrite H0, N.bits_0. reflexivity.
  - intros a b. rewrite H, N.lor_spec. apply bits_ext; intros j.
    rewrite !N.lor_spec.
    generalize (N.shiftl 1 m); intros sh.
    destruct (N.testbit a k), (N.testbit b k); cbn [orb]; rewrite ?N.bits_0;
      destruct (N.testbit sh j), (N.testbit (pdep_loop n a mask (N.succ m) (N.succ k)) j),
        (N.testbit (pdep_loop n b mask (N.succ m) (N.succ k)) j); auto.
Qed.
Lemma pext_loop_hom n mask : forall m k, hom N.lor (fun src => pext_loop n src mask m k).
Proof.
  induction n as [|n IH]; intros m k; cbn [pext_loop]; [split; auto|].
  destruct (N.testbit mask m); [|apply IH].
  destruct (IH (N.succ m) (N.succ k)) as [H0 H]. split.
  - rewrite H0, N.bits_0. reflexivity.
  - intros a b. rewrite H, N.lor_spec. apply bits_ext; intros j.
    rewrite !N.lor_spec.
    generalize (N.shiftl 1 k); intros sh.
    destruct (N.testbit a m), (N.testbit b m); cbn [orb]; rewrite ?N.bits_0;
      destruct (N.testbit sh j), (N.testbit (pext_loop n a mask (N.succ m) (N.succ k)) j),
        (N.testbit (pext_loop n b mask (N.succ m) (N.succ k)) j); auto.
Qed.

Lemma pdep_bit w mask n d o x j : 0 < d -> o < d ->
  allN n (fun i => pdep w (2 ^ i) mask =? 2 ^ (d * i + o)) = true ->
  x < 2 ^ N.of_nat n ->
  N.testbit (pdep w x mask) j = (j mod d =? o) && N.testbit x (j / d).
Proof.
  intros. apply (spread_bit (fun s => pdep w s mask) n); auto. apply pdep_loop_hom.
Qed.
Lemma pext_bit w mask n d o m j : 0 < d -> o < d ->
  gathers (fun s => pext w s mask) w n d o = true ->
  d * (N.of_nat n - 1) + o < N.of_nat w ->
  m < 2 ^ N.of_nat w ->
  N.testbit (pext w m mask) j = (j <? N.of_nat n) && N.testbit m (d * j + o).
Proof.
  intros. apply (gather_bit N.lor (fun s => pext w s mask) w); auto. apply pext_loop_hom.
Qed.

(** * Interleaving *)
Lemma interleaves2_unique m m' x y : interleaves2 m x y -> interleaves2 m' x y -> m = m'.
Proof.
  intros H H'. apply bits_ext; intros j.
  destruct (N.even j) eqn:E.
  - apply N.even_spec in E as [i ->]. now rewrite (proj1 (H i)), (proj1 (H' i)).
  - assert (O : N.odd j = true) by (now rewrite <- N.negb_even, E).
    apply N.odd_spec in O as [i ->]. now rewrite (proj2 (H i)), (proj2 (H' i)).
Qed.

Lemma mod3_cases j : exists i, j = 3 * i \/ j = 3 * i + 1 \/ j = 3 * i + 2.
Proof.
  exists (j / 3). pose proof (N.div_mod j 3 ltac:(lia)).
  pose proof (N.mod_lt j 3 ltac:(lia)).
  revert H H0. generalize (j / 3) (j mod 3). intros q r H H0. lia.
Qed.

Lemma interleaves3_unique m m' x y z :
  interleaves3 m x y z -> interleaves3 m' x y z -> m = m'.
Proof.
  intros H H'. apply bits_ext; intros j.
  destruct (mod3_cases j) as [i [-> | [-> | ->]]];
    destruct (H i) as (A & B & C), (H' i) as (A' & B' & C'); congruence.
Qed.

Lemma interleaves2_inj m x y x' y' :
  interleaves2 m x y -> interleaves2 m x' y' -> x = x' /\ y = y'.
Proof.
  intros H H'. split; apply bits_ext; intros j; destruct (H j), (H' j); congruence.
Qed.
Lemma interleaves3_inj m x y z x' y' z' :
  interleaves3 m x y z -> interleaves3 m x' y' z' -> x = x' /\ y = y' /\ z = z'.
Proof.
  intros H H'. repeat split; apply bits_ext; intros j;
    destruct (H j) as (?&?&?), (H' j) as (?&?&?); congruence.
Qed.

Ltac divmod :=
  repeat match goal with
  | |- context [(?d * ?i + ?o) / ?d] => rewrite (div_lin d i o) by lia
  | |- context [(?d * ?i + ?o) mod ?d] => rewrite (mod_lin d i o) by lia
  | |- context [(?d * ?i) / ?d] =>
      replace ((d * i) / d) with i by (rewrite (N.mul_comm d i); symmetry; apply N.div_mul; lia)
  | |- context [(?d * ?i) mod ?d] =>
      replace ((d * i) mod d) with 0 by (rewrite (N.mul_comm d i); symmetry; apply N.mod_mul; lia)
  end.

(** the [d] parts are combined by [lor]; each sits on its own residue *)
Lemma combine2 (a b m x y : N) (n : N) :
  (forall j, N.testbit a j = (j mod 2 =? 0) && N.testbit x (j / 2)) ->
  (forall j, N.testbit b j = (j mod 2 =? 1) && N.testbit y (j / 2)) ->
  interleaves2 (N.lor a b) x y.
Proof.
  intros Ha Hb i. rewrite !N.lor_spec, !Ha, !Hb. divmod. simpl.
  rewrite orb_false_r. auto.
Qed.

Lemma combine3 (a b c x y z : N) :
  (forall j, N.testbit a j = (j mod 3 =? 0) && N.testbit x (j / 3)) ->
  (forall j, N.testbit b j = (j mod 3 =? 1) && N.testbit y (j / 3)) ->
  (forall j, N.testbit c j = (j mod 3 =? 2) && N.testbit z (j / 3)) ->
  interleaves3 (N.lor (N.lor a b) c) x y z.
Proof.
  intros Ha Hb Hc i. rewrite !N.lor_spec, !Ha, !Hb, !Hc. divmod. simpl.
  rewrite !orb_false_r. auto.
Qed.

(** shifting a spread word by [o] < d moves it to residue [o], if nothing is cut off *)
Lemma shl_spread w n d o s x : 0 < d -> o < d -> x < 2 ^ n ->
  (n = 0 \/ d * (n - 1) + o < w) ->
  (forall j, N.testbit s j = (j mod d =? 0) && N.testbit x (j / d)) ->
  forall j, N.testbit (shl w s o) j = (j mod d =? o) && N.testbit x (j / d).
Proof.
  intros Hd Ho Hx Hw Hs j. rewrite shl_bit, Hs.
  assert (Hj : j = d * (j / d) + j mod d) by (apply N.div_mod; lia).
  pose proof (N.mod_lt j d ltac:(lia)) as Hm.
  set (q := j / d) in *. set (r := j mod d) in *. clearbody q r. subst j.
  destruct (N.leb_spec o (d * q + r)) as [Hle|Hle]; simpl.
  - destruct (N.ltb_spec r o) as [Hro|Hro].
    + (* previous block *)
      assert (Hq : q = q - 1 + 1) by (destruct (N.eq_dec q 0) as [->|]; lia).
      assert (Hdq : d * q = d * (q - 1) + d) by (rewrite Hq at 1; ring).
      replace (d * q + r - o) with (d * (q - 1) + (d + r - o)) by lia.
      rewrite mod_lin by lia.
      destruct (N.eqb_spec (d + r - o) 0); [lia|].
      destruct (N.eqb_spec r o); [lia|]. simpl. now rewrite !andb_false_r.
    + replace (d * q + r - o) with (d * q + (r - o)) by lia.
      rewrite mod_lin, div_lin by lia.
      destruct (N.eqb_spec (r - o) 0), (N.eqb_spec r o); try lia; simpl;
        try (now rewrite !andb_false_r).
      destruct (N.ltb_spec (d * q + r) w); simpl; auto.
      symmetry. apply (testbit_lt x n); auto. nia.
  - destruct (N.eqb_spec r o); [nia|]. now rewrite andb_false_r.
Qed.

Lemma max_2d_32 : max_2d 32 = 2 ^ 16 - 1. Proof. reflexivity. Qed.
Lemma max_2d_64 : max_2d 64 = 2 ^ 32 - 1. Proof. reflexivity. Qed.
Lemma max_3d_32 : max_3d 32 = 2 ^ 10 - 1. Proof. reflexivity. Qed.
Lemma max_3d_64 : max_3d 64 = 2 ^ 21 - 1. Proof. reflexivity. Qed.

(** An interleaving of n-bit numbers has 2n (3n) bits. *)
Lemma interleaves2_lt m x y n : interleaves2 m x y -> x < 2 ^ n -> y < 2 ^ n -> m < 2 ^ (2 * n).
Proof.
  intros H Hx Hy. apply lt_pow2_bits. intros j Hj.
  assert (Hn : n <= j / 2) by (apply N.div_le_lower_bound; lia).
  destruct (N.even j) eqn:E.
  - apply N.even_spec in E as [i ->]. rewrite (proj1 (H i)). apply (testbit_lt x n); auto. lia.
  - assert (O : N.odd j = true) by (now rewrite <- N.negb_even, E).
    apply N.odd_spec in O as [i ->]. rewrite (proj2 (H i)). apply (testbit_lt y n); auto. lia.
Qed.
Lemma interleaves3_lt m x y z n :
  interleaves3 m x y z -> x < 2 ^ n -> y < 2 ^ n -> z < 2 ^ n -> m < 2 ^ (3 * n).
Proof.
  intros H Hx Hy Hz. apply lt_pow2_bits. intros j Hj.
  destruct (mod3_cases j) as [i [-> | [-> | ->]]]; destruct (H i) as (A & B & C).
  - rewrite A. apply (testbit_lt x n); auto; lia.
  - rewrite B. apply (testbit_lt y n); auto; lia.
  - rewrite C. apply (testbit_lt z n); auto; lia.
Qed.

(** ** encode *)
Lemma lt_le_m1 a b : a < b -> a <= b - 1.
Proof. lia. Qed.
Lemma le_m1_lt a b : 0 < b -> a <= b - 1 -> a < b.
Proof. lia. Qed.

Ltac enc_lt := unfold assume; repeat (rewrite (proj2 (N.leb_le _ _)) by assumption).

Lemma encode2_32_spec x y : x <= max_2d 32 -> y <= max_2d 32 ->
  exists m, encode2_32 x y = Ret m /\ interleaves2 m x y.
Proof.
  intros Hx Hy. unfold encode2_32. enc_lt. eexists. split; [reflexivity|].
  rewrite max_2d_32 in *. change (2 ^ 16 - 1) with 65535 in *.
  assert (Hx' : x < 2 ^ 16) by (change (2 ^ 16) with 65536; lia).
  assert (Hy' : y < 2 ^ 16) by (change (2 ^ 16) with 65536; lia).
  apply combine2; auto.
  - intros j. now apply pdep2_32_bit.
  - apply (shl_spread 32 16); try lia; auto. intros j. now apply pdep2_32_bit.
Qed.
Lemma encode2_64_spec x y : x <= max_2d 64 -> y <= max_2d 64 ->
  exists m, encode2_64 x y = Ret m /\ interleaves2 m x y.
Proof.
  intros Hx Hy. unfold encode2_64. enc_lt. eexists. split; [reflexivity|].
  rewrite max_2d_64 in *. change (2 ^ 32 - 1) with 4294967295 in *.
  assert (Hx' : x < 2 ^ 32) by (change (2 ^ 32) with 4294967296; lia).
  assert (Hy' : y < 2 ^ 32) by (change (2 ^ 32) with 4294967296; lia).
  apply combine2; auto.
  - intros j. now apply pdep2_64_bit.
  - apply (shl_spread 64 32); try lia; auto. intros j. now apply pdep2_64_bit.
Qed.
Lemma encode3_32_spec x y z : x <= max_3d 32 -> y <= max_3d 32 -> z <= max_3d 32 ->
  exists m, encode3_32 x y z = Ret m /\ interleaves3 m x y z.
Proof.
  intros Hx Hy Hz. unfold encode3_32. enc_lt. eexists. split; [reflexivity|].
  rewrite max_3d_32 in *. change (2 ^ 10 - 1) with 1023 in *.
  assert (Hx' : x < 2 ^ 10) by (change (2 ^ 10) with 1024; lia).
  assert (Hy' : y < 2 ^ 10) by (change (2 ^ 10) with 1024; lia).
  assert (Hz' : z < 2 ^ 10) by (change (2 ^ 10) with 1024; lia).
  apply combine3.
  - intros j. now apply pdep3_32_bit.
  - apply (shl_spread 32 10); try lia; auto. intros j. now apply pdep3_32_bit.
  - apply (shl_spread 32 10); try lia; auto. intros j. now apply pdep3_32_bit.
Qed.
Lemma encode3_64_spec x y z : x <= max_3d 64 -> y <= max_3d 64 -> z <= max_3d 64 ->
  exists m, encode3_64 x y z = Ret m /\ interleaves3 m x y z.
Proof.
  intros Hx Hy Hz. unfold encode3_64. enc_lt. eexists. split; [reflexivity|].
  rewrite max_3d_64 in *. change (2 ^ 21 - 1) with 2097151 in *.
  assert (Hx' : x < 2 ^ 21) by (change (2 ^ 21) with 2097152; lia).
  assert (Hy' : y < 2 ^ 21) by (change (2 ^ 21) with 2097152; lia).
  assert (Hz' : z < 2 ^ 21) by (change (2 ^ 21) with 2097152; lia).
  apply combine3.
  - intros j. now apply pdep3_64_bit.
  - apply (shl_spread 64 21); try lia; auto. intros j. now apply pdep3_64_bit.
  - apply (shl_spread 64 21); try lia; auto. intros j. now apply pdep3_64_bit.
Qed.

(** ** decode: the coordinates are in range and interleave to the code *)
Lemma shiftr_lt m n k : m < 2 ^ n -> N.shiftr m k < 2 ^ n.
Proof.
  intros H. apply lt_pow2_bits. intros j Hj. rewrite N.shiftr_spec'.
  apply (testbit_lt m n); auto. lia.
Qed.

Lemma gathered_interleaves2 m x y n : m < 2 ^ (2 * n) ->
  (forall j, N.testbit x j = (j <? n) && N.testbit m (2 * j)) ->
  (forall j, N.testbit y j = (j <? n) && N.testbit m (2 * j + 1)) ->
  interleaves2 m x y.
Proof.
  intros Hm Hx Hy i. rewrite Hx, Hy.
  destruct (N.ltb_spec i n); cbn [andb]; auto.
  split; apply (testbit_lt m (2 * n)); auto; lia.
Qed.
Lemma gathered_interleaves3 m x y z n : m < 2 ^ (3 * n) ->
  (forall j, N.testbit x j = (j <? n) && N.testbit m (3 * j)) ->
  (forall j, N.testbit y j = (j <? n) && N.testbit m (3 * j + 1)) ->
  (forall j, N.testbit z j = (j <? n) && N.testbit m (3 * j + 2)) ->
  interleaves3 m x y z.
Proof.
  intros Hm Hx Hy Hz i. rewrite Hx, Hy, Hz.
  destruct (N.ltb_spec i n); cbn [andb]; auto.
  repeat split; apply (testbit_lt m (3 * n)); auto; lia.
Qed.

Lemma gathered_lt x n (c : N -> bool) : (forall j, N.testbit x j = (j <? n) && c j) -> x < 2 ^ n.
Proof.
  intros H. apply lt_pow2_bits. intros j Hj. rewrite H.
  now replace (j <? n) with false by (symmetry; apply N.ltb_ge; auto).
Qed.

Lemma decode2_32_spec m : m < 2 ^ 32 ->
  exists x y, decode2_32 m = (x, y) /\ x <= max_2d 32 /\ y <= max_2d 32 /\ interleaves2 m x y.
Proof.
  intros Hm. exists (pext0x55555555 m), (pext0x55555555 (N.shiftr m 1)).
  assert (Hx : forall j, N.testbit (pext0x55555555 m) j = (j <? 16) && N.testbit m (2 * j))
    by (intros; now apply pext2_32_bit).
  assert (Hy : forall j, N.testbit (pext0x55555555 (N.shiftr m 1)) j = (j <? 16) && N.testbit m (2 * j + 1)).
  { intros j. rewrite pext2_32_bit by (now apply shiftr_lt). now rewrite N.shiftr_spec'. }
  rewrite max_2d_32. repeat split.
  - apply lt_le_m1. now apply gathered_lt in Hx.
  - apply lt_le_m1. now apply gathered_lt in Hy.
  - eapply (gathered_interleaves2 m _ _ 16); eauto.
  - eapply (gathered_interleaves2 m _ _ 16); eauto.
Qed.
Lemma decode2_64_spec m : m < 2 ^ 64 ->
  exists x y, decode2_64 m = (x, y) /\ x <= max_2d 64 /\ y <= max_2d 64 /\ interleaves2 m x y.
Proof.
  intros Hm. exists (pext0x5555555555555555 m), (pext0x5555555555555555 (N.shiftr m 1)).
  assert (Hx : forall j, N.testbit (pext0x5555555555555555 m) j = (j <? 32) && N.testbit m (2 * j))
    by (intros; now apply pext2_64_bit).
  assert (Hy : forall j, N.testbit (pext0x5555555555555555 (N.shiftr m 1)) j = (j <? 32) && N.testbit m (2 * j + 1)).
  { intros j. rewrite pext2_64_bit by (now apply shiftr_lt). now rewrite N.shiftr_spec'. }
  rewrite max_2d_64. repeat split.
  - apply lt_le_m1. now apply gathered_lt in Hx.
  - apply lt_le_m1. now apply gathered_lt in Hy.
  - eapply (gathered_interleaves2 m _ _ 32); eauto.
  - eapply (gathered_interleaves2 m _ _ 32); eauto.
Qed.

Lemma decode3_32_bits m : m < 2 ^ 32 ->
  exists x y z, decode3_32 m = (x, y, z) /\
  (forall j, N.testbit x j = (j <? 10) && N.testbit m (3 * j)) /\
  (forall j, N.testbit y j = (j <? 10) && N.testbit m (3 * j + 1)) /\
  (forall j, N.testbit z j = (j <? 10) && N.testbit m (3 * j + 2)).
Proof.
  intros Hm.
  exists (pext0x92492492 m), (pext0x92492492 (N.shiftr m 1)), (pext0x92492492 (N.shiftr m 2)).
  repeat split; intros j.
  - now apply pext3_32_bit.
  - rewrite pext3_32_bit by (now apply shiftr_lt). now rewrite N.shiftr_spec'.
  - rewrite pext3_32_bit by (now apply shiftr_lt). now rewrite N.shiftr_spec'.
Qed.
Lemma decode3_64_bits m : m < 2 ^ 64 ->
  exists x y z, decode3_64 m = (x, y, z) /\
  (forall j, N.testbit x j = (j <? 21) && N.testbit m (3 * j)) /\
  (forall j, N.testbit y j = (j <? 21) && N.testbit m (3 * j + 1)) /\
  (forall j, N.testbit z j = (j <? 21) && N.testbit m (3 * j + 2)).
Proof.
  intros Hm.
  exists (pext0x9249249249249249 m), (pext0x9249249249249249 (N.shiftr m 1)),
    (pext0x9249249249249249 (N.shiftr m 2)).
  repeat split; intros j.
  - now apply pext3_64_bit.
  - rewrite pext3_64_bit by (now apply shiftr_lt). now rewrite N.shiftr_spec'.
  - rewrite pext3_64_bit by (now apply shiftr_lt). now rewrite N.shiftr_spec'.
Qed.

Lemma decode3_32_spec m : m < 2 ^ 30 ->
  exists x y z, decode3_32 m = (x, y, z) /\ x <= max_3d 32 /\ y <= max_3d 32 /\ z <= max_3d 32 /\
    interleaves3 m x y z.
Proof.
  intros Hm.
  assert (Hm' : m < 2 ^ 32).
  { apply N.lt_le_trans with (2 ^ 30); auto. apply N.pow_le_mono_r; lia. }
  destruct (decode3_32_bits m Hm') as (x & y & z & E & Hx & Hy & Hz).
  exists x, y, z. rewrite max_3d_32. split; [auto|].
  pose proof (gathered_lt _ _ _ Hx). pose proof (gathered_lt _ _ _ Hy).
  pose proof (gathered_lt _ _ _ Hz).
  repeat split; try lia; eapply (gathered_interleaves3 m x y z 10); eauto.
Qed.
Lemma decode3_64_spec m : m < 2 ^ 63 ->
  exists x y z, decode3_64 m = (x, y, z) /\ x <= max_3d 64 /\ y <= max_3d 64 /\ z <= max_3d 64 /\
    interleaves3 m x y z.
Proof.
  intros Hm.
  assert (Hm' : m < 2 ^ 64).
  { apply N.lt_le_trans with (2 ^ 63); auto. apply N.pow_le_mono_r; lia. }
  destruct (decode3_64_bits m Hm') as (x & y & z & E & Hx & Hy & Hz).
  exists x, y, z. rewrite max_3d_64. split; [auto|].
  pose proof (gathered_lt _ _ _ Hx). pose proof (gathered_lt _ _ _ Hy).
  pose proof (gathered_lt _ _ _ Hz).
  repeat split; try lia; eapply (gathered_interleaves3 m x y z 21); eauto.
Qed.

(** * Round trips *)
Theorem roundtrip2_32 x y : x <= max_2d 32 -> y <= max_2d 32 ->
  exists m, encode2_32 x y = Ret m /\ m < 2 ^ 32 /\ interleaves2 m x y /\ decode2_32 m = (x, y).
Proof.
  intros Hx Hy. destruct (encode2_32_spec x y Hx Hy) as (m & E & I).
  rewrite max_2d_32 in *.
  assert (Hm : m < 2 ^ (2 * 16)) by (apply (interleaves2_lt m x y); auto; lia).
  exists m. repeat split; auto; try apply I.
  destruct (decode2_32_spec m Hm) as (x' & y' & -> & _ & _ & I').
  destruct (interleaves2_inj _ _ _ _ _ I I'). congruence.
Qed.
Theorem roundtrip2_64 x y : x <= max_2d 64 -> y <= max_2d 64 ->
  exists m, encode2_64 x y = Ret m /\ m < 2 ^ 64 /\ interleaves2 m x y /\ decode2_64 m = (x, y).
Proof.
  intros Hx Hy. destruct (encode2_64_spec x y Hx Hy) as (m & E & I).
  rewrite max_2d_64 in *.
  assert (Hm : m < 2 ^ (2 * 32)) by (apply (interleaves2_lt m x y); auto; lia).
  exists m. repeat split; auto; try apply I.
  destruct (decode2_64_spec m Hm) as (x' & y' & -> & _ & _ & I').
  destruct (interleaves2_inj _ _ _ _ _ I I'). congruence.
Qed.
Theorem roundtrip3_32 x y z : x <= max_3d 32 -> y <= max_3d 32 -> z <= max_3d 32 ->
  exists m, encode3_32 x y z = Ret m /\ m < 2 ^ 30 /\ interleaves3 m x y z /\
    decode3_32 m = (x, y, z).
Proof.
  intros Hx Hy Hz. destruct (encode3_32_spec x y z Hx Hy Hz) as (m & E & I).
  rewrite max_3d_32 in *.
  assert (Hm : m < 2 ^ (3 * 10)) by (apply (interleaves3_lt m x y z); auto; lia).
  exists m. repeat split; auto; try apply I.
  destruct (decode3_32_spec m Hm) as (x' & y' & z' & -> & _ & _ & _ & I').
  destruct (interleaves3_inj _ _ _ _ _ _ _ I I') as (? & ? & ?). congruence.
Qed.
Theorem roundtrip3_64 x y z : x <= max_3d 64 -> y <= max_3d 64 -> z <= max_3d 64 ->
  exists m, encode3_64 x y z = Ret m /\ m < 2 ^ 63 /\ interleaves3 m x y z /\
    decode3_64 m = (x, y, z).
Proof.
  intros Hx Hy Hz. destruct (encode3_64_spec x y z Hx Hy Hz) as (m & E & I).
  rewrite max_3d_64 in *.
  assert (Hm : m < 2 ^ (3 * 21)) by (apply (interleaves3_lt m x y z); auto; lia).
  exists m. repeat split; auto; try apply I.
  destruct (decode3_64_spec m Hm) as (x' & y' & z' & -> & _ & _ & _ & I').
  destruct (interleaves3_inj _ _ _ _ _ _ _ I I') as (? & ? & ?). congruence.
Qed.

Theorem codes2_32 m : m < 2 ^ 32 ->
  exists x y, decode2_32 m = (x, y) /\ x <= max_2d 32 /\ y <= max_2d 32 /\ encode2_32 x y = Ret m.
Proof.
  intros Hm. destruct (decode2_32_spec m Hm) as (x & y & E & Hx & Hy & I).
  exists x, y. repeat split; auto.
  destruct (encode2_32_spec x y Hx Hy) as (m' & -> & I').
  f_equal. eapply interleaves2_unique; eauto.
Qed.
Theorem codes2_64 m : m < 2 ^ 64 ->
  exists x y, decode2_64 m = (x, y) /\ x <= max_2d 64 /\ y <= max_2d 64 /\ encode2_64 x y = Ret m.
Proof.
  intros Hm. destruct (decode2_64_spec m Hm) as (x & y & E & Hx & Hy & I).
  exists x, y. repeat split; auto.
  destruct (encode2_64_spec x y Hx Hy) as (m' & -> & I').
  f_equal. eapply interleaves2_unique; eauto.
Qed.
Theorem codes3_32 m : m < 2 ^ 30 ->
  exists x y z, decode3_32 m = (x, y, z) /\ x <= max_3d 32 /\ y <= max_3d 32 /\ z <= max_3d 32 /\
    encode3_32 x y z = Ret m.
Proof.
  intros Hm. destruct (decode3_32_spec m Hm) as (x & y & z & E & Hx & Hy & Hz & I).
  exists x, y, z. repeat split; auto.
  destruct (encode3_32_spec x y z Hx Hy Hz) as (m' & -> & I').
  f_equal. eapply interleaves3_unique; eauto.
Qed.
Theorem codes3_64 m : m < 2 ^ 63 ->
  exists x y z, decode3_64 m = (x, y, z) /\ x <= max_3d 64 /\ y <= max_3d 64 /\ z <= max_3d 64 /\
    encode3_64 x y z = Ret m.
Proof.
  intros Hm. destruct (decode3_64_spec m Hm) as (x & y & z & E & Hx & Hy & Hz & I).
  exists x, y, z. repeat split; auto.
  destruct (encode3_64_spec x y z Hx Hy Hz) as (m' & -> & I').
  f_equal. eapply interleaves3_unique; eauto.
Qed.

(** * BMI2 = portable *)
Lemma assume2 {A} (a b : bool) (u v : outcome A) :
  (a = true -> b = true -> u = v) -> assume a (assume b u) = assume a (assume b v).
Proof. destruct a, b; simpl; auto. Qed.
Lemma assume3 {A} (a b c : bool) (u v : outcome A) :
  (a = true -> b = true -> c = true -> u = v) ->
  assume a (assume b (assume c u)) = assume a (assume b (assume c v)).
Proof. destruct a, b, c; simpl; auto. Qed.

Theorem bmi_encode2_32 x y : bmi_encode2 32 x y = encode2_32 x y.
Proof.
  unfold bmi_encode2, encode2_32. apply assume2. intros Hx Hy. apply N.leb_le in Hx, Hy.
  change (max_2d (N.of_nat 32)) with (2 ^ 16 - 1) in *.
  f_equal. eapply (interleaves2_unique _ _ x y).
  - apply combine2; auto; intros j.
    + apply (pdep_bit 32 _ 16); try lia; [vm_compute; reflexivity|apply le_m1_lt; [reflexivity|assumption]].
    + apply (pdep_bit 32 _ 16); try lia; [vm_compute; reflexivity|apply le_m1_lt; [reflexivity|assumption]].
  - destruct (encode2_32_spec x y Hx Hy) as (m & E & I).
    unfold encode2_32, assume in E. rewrite !(proj2 (N.leb_le _ _)) in E by assumption.
    now injection E as <-.
Qed.
Theorem bmi_encode2_64 x y : bmi_encode2 64 x y = encode2_64 x y.
Proof.
  unfold bmi_encode2, encode2_64. apply assume2. intros Hx Hy. apply N.leb_le in Hx, Hy.
  change (max_2d (N.of_nat 64)) with (2 ^ 32 - 1) in *.
  f_equal. eapply (interleaves2_unique _ _ x y).
  - apply combine2; auto; intros j.
    + apply (pdep_bit 64 _ 32); try lia; [vm_compute; reflexivity|apply le_m1_lt; [reflexivity|assumption]].
    + apply (pdep_bit 64 _ 32); try lia; [vm_compute; reflexivity|apply le_m1_lt; [reflexivity|assumption]].
  - destruct (encode2_64_spec x y Hx Hy) as (m & E & I).
    unfold encode2_64, assume in E. rewrite !(proj2 (N.leb_le _ _)) in E by assumption.
    now injection E as <-.
Qed.
Theorem bmi_encode3_32 x y z : bmi_encode3 32 x y z = encode3_32 x y z.
Proof.
  unfold bmi_encode3, encode3_32. apply assume3. intros Hx Hy Hz. apply N.leb_le in Hx, Hy, Hz.
  change (max_3d (N.of_nat 32)) with (2 ^ 10 - 1) in *.
  f_equal. eapply (interleaves3_unique _ _ x y z).
  - apply combine3; auto; intros j;
      (apply (pdep_bit 32 _ 10); try lia; [vm_compute; reflexivity|apply le_m1_lt; [reflexivity|assumption]]).
  - destruct (encode3_32_spec x y z Hx Hy Hz) as (m & E & I).
    unfold encode3_32, assume in E. rewrite !(proj2 (N.leb_le _ _)) in E by assumption.
    now injection E as <-.
Qed.
Theorem bmi_encode3_64 x y z : bmi_encode3 64 x y z = encode3_64 x y z.
Proof.
  unfold bmi_encode3, encode3_64. apply assume3. intros Hx Hy Hz. apply N.leb_le in Hx, Hy, Hz.
  change (max_3d (N.of_nat 64)) with (2 ^ 21 - 1) in *.
  f_equal. eapply (interleaves3_unique _ _ x y z).
  - apply combine3; auto; intros j;
      (apply (pdep_bit 64 _ 21); try lia; [vm_compute; reflexivity|apply le_m1_lt; [reflexivity|assumption]]).
  - destruct (encode3_64_spec x y z Hx Hy Hz) as (m & E & I).
    unfold encode3_64, assume in E. rewrite !(proj2 (N.leb_le _ _)) in E by assumption.
    now injection E as <-.
Qed.

Theorem bmi_decode2_32 m : m < 2 ^ 32 -> bmi_decode2 32 m = decode2_32 m.
Proof.
  intros Hm. destruct (decode2_32_spec m Hm) as (x & y & -> & Hx & Hy & I).
  unfold bmi_decode2. f_equal; apply bits_ext; intros j.
  - rewrite (pext_bit 32 _ 16 2 0); try lia; try (vm_compute; reflexivity); auto.
    destruct (I j) as [A B]. rewrite N.add_0_r, A.
    destruct (N.ltb_spec j (N.of_nat 16)); auto. symmetry.
    apply (testbit_lt x 16); [rewrite max_2d_32 in *; lia|lia].
  - rewrite (pext_bit 32 _ 16 2 1); try lia; try (vm_compute; reflexivity); auto.
    destruct (I j) as [A B]. rewrite B.
    destruct (N.ltb_spec j (N.of_nat 16)); auto. symmetry.
    apply (testbit_lt y 16); [rewrite max_2d_32 in *; lia|lia].
Qed.
Theorem bmi_decode2_64 m : m < 2 ^ 64 -> bmi_decode2 64 m = decode2_64 m.
Proof.
  intros Hm. destruct (decode2_64_spec m Hm) as (x & y & -> & Hx & Hy & I).
  unfold bmi_decode2. f_equal; apply bits_ext; intros j.
  - rewrite (pext_bit 64 _ 32 2 0); try lia; try (vm_compute; reflexivity); auto.
    destruct (I j) as [A B]. rewrite N.add_0_r, A.
    destruct (N.ltb_spec j (N.of_nat 32)); auto. symmetry.
    apply (testbit_lt x 32); [rewrite max_2d_64 in *; lia|lia].
  - rewrite (pext_bit 64 _ 32 2 1); try lia; try (vm_compute; reflexivity); auto.
    destruct (I j) as [A B]. rewrite B.
    destruct (N.ltb_spec j (N.of_nat 32)); auto. symmetry.
    apply (testbit_lt y 32); [rewrite max_2d_64 in *; lia|lia].
Qed.
(** In 3D the x (and y) masks have one more bit than the portable masks: the two
    branches agree on the codes that encoding can produce. *)
Theorem bmi_decode3_32 m : m < 2 ^ 30 -> bmi_decode3 32 m = decode3_32 m.
Proof.
  intros Hm. destruct (decode3_32_spec m Hm) as (x & y & z & -> & Hx & Hy & Hz & I).
  rewrite max_3d_32 in *.
  assert (Hm' : m < 2 ^ 32).
  { apply N.lt_le_trans with (2 ^ 30); auto. apply N.pow_le_mono_r; lia. }
  unfold bmi_decode3. f_equal; [f_equal|]; apply bits_ext; intros j;
    destruct (I j) as (A & B & C).
  - rewrite (pext_bit 32 _ 11 3 0); try lia; try (vm_compute; reflexivity); auto.
    rewrite N.add_0_r, A.
    destruct (N.ltb_spec j (N.of_nat 11)); auto. symmetry.
    apply (testbit_lt x 10); lia.
  - rewrite (pext_bit 32 _ 11 3 1); try lia; try (vm_compute; reflexivity); auto.
    rewrite B.
    destruct (N.ltb_spec j (N.of_nat 11)); auto. symmetry.
    apply (testbit_lt y 10); lia.
  - rewrite (pext_bit 32 _ 10 3 2); try lia; try (vm_compute; reflexivity); auto.
    rewrite C.
    destruct (N.ltb_spec j (N.of_nat 10)); auto. symmetry.
    apply (testbit_lt z 10); lia.
Qed.
Theorem bmi_decode3_64 m : m < 2 ^ 63 -> bmi_decode3 64 m = decode3_64 m.
Proof.
  intros Hm. destruct (decode3_64_spec m Hm) as (x & y & z & -> & Hx & Hy & Hz & I).
  rewrite max_3d_64 in *.
  assert (Hm' : m < 2 ^ 64).
  { apply N.lt_le_trans with (2 ^ 63); auto. apply N.pow_le_mono_r; lia. }
  unfold bmi_decode3. f_equal; [f_equal|]; apply bits_ext; intros j;
    destruct (I j) as (A & B & C).
  - rewrite (pext_bit 64 _ 22 3 0); try lia; try (vm_compute; reflexivity); auto.
    rewrite N.add_0_r, A.
    destruct (N.ltb_spec j (N.of_nat 22)); auto. symmetry.
    apply (testbit_lt x 21); lia.
  - rewrite (pext_bit 64 _ 21 3 1); try lia; try (vm_compute; reflexivity); auto.
    rewrite B.
    destruct (N.ltb_spec j (N.of_nat 21)); auto. symmetry.
    apply (testbit_lt y 21); lia.
  - rewrite (pext_bit 64 _ 21 3 2); try lia; try (vm_compute; reflexivity); auto.
    rewrite C.
    destruct (N.ltb_spec j (N.of_nat 21)); auto. symmetry.
    apply (testbit_lt z 21); lia.
Qed.

(** * Order *)
Fixpoint sp_pos (d : N) (p : positive) : N :=
  match p with
  | xH => 1
  | xO q => 2 ^ d * sp_pos d q
  | xI q => 2 ^ d * sp_pos d q + 1
  end.
Definition sp (d x : N) : N := match x with 0 => 0 | Npos p => sp_pos d p end.

Lemma pow2_ge2 d : 0 < d -> 2 <= 2 ^ d.
Proof. intros H. change 2 with (2 ^ 1) at 1. apply N.pow_le_mono_r; lia. Qed.

Lemma sp_pos_pos d p : 0 < sp_pos d p.
Proof.
  assert (0 < 2 ^ d) by (pose proof (N.pow_nonzero 2 d); lia).
  induction p as [p IH|p IH|]; cbn [sp_pos]; nia.
Qed.

Lemma sp_pos_mono d p q : 0 < d -> (p < q)%positive -> sp_pos d p < sp_pos d q.
Proof.
  intros Hd. pose proof (pow2_ge2 d Hd) as H2. revert q.
  induction p as [p IH|p IH|]; intros [q|q|] H; simpl.
  - specialize (IH q ltac:(lia)). nia.
  - specialize (IH q ltac:(lia)). nia.
  - lia.
  - destruct (Pos.eq_dec p q) as [->|Hn]; [lia|]. specialize (IH q ltac:(lia)). nia.
  - specialize (IH q ltac:(lia)). nia.
  - lia.
  - pose proof (sp_pos_pos d q). nia.
  - pose proof (sp_pos_pos d q). nia.
  - lia.
Qed.

Lemma sp_mono d x y : 0 < d -> x <= y -> sp d x <= sp d y.
Proof.
  intros Hd H. destruct x as [|p], y as [|q]; simpl; try lia.
  destruct (Pos.eq_dec p q) as [->|Hn]; [lia|].
  pose proof (sp_pos_mono d p q Hd). lia.
Qed.

Lemma sp_double d x : sp d (2 * x) = 2 ^ d * sp d x.
Proof. destruct x; simpl; [symmetry; apply N.mul_0_r|reflexivity]. Qed.
Lemma sp_succ_double d x : sp d (2 * x + 1) = 2 ^ d * sp d x + 1.
Proof. destruct x; simpl; [now rewrite N.mul_0_r|reflexivity]. Qed.

Lemma disjoint_add a b : (forall j, N.testbit a j && N.testbit b j = false) -> a + b = N.lor a b.
Proof.
  intros H.
  assert (E : N.land a b = 0) by (apply bits_ext; intros j; now rewrite N.land_spec, N.bits_0).
  rewrite N.add_nocarry_lxor by auto. now apply N.lxor_lor.
Qed.

Lemma sp_bits d x : 0 < d -> forall j,
  N.testbit (sp d x) j = (j mod d =? 0) && N.testbit x (j / d).
Proof.
  intros Hd. induction x as [|x IH|x IH] using N.binary_ind; intros j.
  - simpl. now rewrite andb_false_r.
  - replace (N.double x) with (2 * x) by (symmetry; apply N.double_spec).
    rewrite sp_double.
    destruct (N.lt_ge_cases j d) as [Hj|Hj].
    + rewrite (N.mul_comm (2 ^ d)), N.mul_pow2_bits_low by auto.
      rewrite N.mod_small, N.div_small by auto.
      rewrite N.testbit_even_0. now rewrite andb_false_r.
    + rewrite (N.mul_comm (2 ^ d)), N.mul_pow2_bits_high by auto. rewrite IH.
      assert (Ej : j = (j - d) + 1 * d) by (rewrite N.mul_1_l; lia).
      assert (Em : j mod d = (j - d) mod d) by (rewrite Ej at 1; apply N.mod_add; lia).
      assert (Ed : j / d = (j - d) / d + 1) by (rewrite Ej at 1; apply N.div_add; lia).
      rewrite Em, Ed.
      rewrite N.add_1_r, N.testbit_even_succ by apply N.le_0_l. reflexivity.
  - replace (N.succ_double x) with (2 * x + 1) by (symmetry; apply N.succ_double_spec).
    rewrite sp_succ_double.
    assert (E : 2 ^ d * sp d x + 1 = N.lor (sp d x * 2 ^ d) 1).
    { rewrite <- disjoint_add; [lia|]. intros k.
      destruct (N.eq_dec k 0) as [->|Hk].
      - rewrite N.mul_pow2_bits_low by lia. reflexivity.
      - change 1 with (2 ^ 0). rewrite pow2_bit.
        replace (0 =? k) with false by (symmetry; apply N.eqb_neq; lia). apply andb_false_r. }
    rewrite E, N.lor_spec. change 1 with (2 ^ 0) at 1. rewrite pow2_bit.
    destruct (N.lt_ge_cases j d) as [Hj|Hj].
    + rewrite N.mul_pow2_bits_low by auto.
      rewrite N.mod_small, N.div_small by auto.
      rewrite N.testbit_odd_0. rewrite andb_true_r. now destruct j.
    + rewrite N.mul_pow2_bits_high by auto. rewrite IH.
      replace (0 =? j) with false by (symmetry; apply N.eqb_neq; lia). rewrite orb_false_r.
      assert (Ej : j = (j - d) + 1 * d) by (rewrite N.mul_1_l; lia).
      assert (Em : j mod d = (j - d) mod d) by (rewrite Ej at 1; apply N.mod_add; lia).
      assert (Ed : j / d = (j - d) / d + 1) by (rewrite Ej at 1; apply N.div_add; lia).
      rewrite Em, Ed.
      rewrite (N.add_1_r ((j - d) / d)), N.testbit_odd_succ by apply N.le_0_l. reflexivity.
Qed.

Lemma sp_shift_bits d o x : 0 < d -> o < d -> forall j,
  N.testbit (2 ^ o * sp d x) j = (j mod d =? o) && N.testbit x (j / d).
Proof.
  intros Hd Ho j. rewrite N.mul_comm.
  pose proof (sp_bits d x Hd) as Hs.
  assert (Hj : j = d * (j / d) + j mod d) by (apply N.div_mod; lia).
  pose proof (N.mod_lt j d ltac:(lia)) as Hm.
  set (q := j / d) in *. set (r := j mod d) in *. clearbody q r. subst j.
  destruct (N.leb_spec o (d * q + r)) as [Hle|Hle].
  - rewrite N.mul_pow2_bits_high by auto. rewrite Hs.
    destruct (N.ltb_spec r o) as [Hro|Hro].
    + assert (Hq : q = q - 1 + 1) by (destruct (N.eq_dec q 0) as [->|]; lia).
      assert (Hdq : d * q = d * (q - 1) + d) by (rewrite Hq at 1; ring).
      replace (d * q + r - o) with (d * (q - 1) + (d + r - o)) by lia.
      rewrite mod_lin by lia.
      destruct (N.eqb_spec (d + r - o) 0); [lia|].
      destruct (N.eqb_spec r o); [lia|]. reflexivity.
    + replace (d * q + r - o) with (d * q + (r - o)) by lia.
      rewrite mod_lin, div_lin by lia.
      destruct (N.eqb_spec (r - o) 0), (N.eqb_spec r o); try lia; reflexivity.
  - rewrite N.mul_pow2_bits_low by auto.
    destruct (N.eqb_spec r o); [nia|]. reflexivity.
Qed.

Lemma interleaves2_value m x y : interleaves2 m x y -> m = sp 2 x + 2 * sp 2 y.
Proof.
  intros H.
  assert (E : sp 2 x + 2 * sp 2 y = N.lor (2 ^ 0 * sp 2 x) (2 ^ 1 * sp 2 y)).
  { rewrite <- disjoint_add; [change (2 ^ 0) with 1; change (2 ^ 1) with 2; lia|].
    intros j. rewrite !sp_shift_bits by lia.
    destruct (N.eqb_spec (j mod 2) 0) as [->|]; simpl; auto.
    apply andb_false_r. }
  rewrite E. eapply interleaves2_unique; eauto.
  apply combine2; auto; intros j; apply sp_shift_bits; lia.
Qed.
Lemma interleaves3_value m x y z :
  interleaves3 m x y z -> m = sp 3 x + 2 * sp 3 y + 4 * sp 3 z.
Proof.
  intros H.
  assert (E : sp 3 x + 2 * sp 3 y + 4 * sp 3 z
              = N.lor (N.lor (2 ^ 0 * sp 3 x) (2 ^ 1 * sp 3 y)) (2 ^ 2 * sp 3 z)).
  { rewrite <- disjoint_add; [rewrite <- disjoint_add|].
    - change (2 ^ 0) with 1. change (2 ^ 1) with 2. change (2 ^ 2) with 4. lia.
    - intros j. rewrite !sp_shift_bits by lia.
      destruct (N.eqb_spec (j mod 3) 0) as [->|]; simpl; auto. apply andb_false_r.
    - intros j. rewrite N.lor_spec, !sp_shift_bits by lia.
      destruct (N.eqb_spec (j mod 3) 2) as [->|]; simpl; auto. apply andb_false_r. }
  rewrite E. eapply interleaves3_unique; eauto.
  apply combine3; auto; intros j; apply sp_shift_bits; lia.
Qed.

Theorem interleaves2_mono m m' x y x' y' :
  interleaves2 m x y -> interleaves2 m' x' y' -> x <= x' -> y <= y' -> m <= m'.
Proof.
  intros H H' Hx Hy. rewrite (interleaves2_value _ _ _ H), (interleaves2_value _ _ _ H').
  pose proof (sp_mono 2 x x' ltac:(lia) Hx). pose proof (sp_mono 2 y y' ltac:(lia) Hy). lia.
Qed.
Theorem interleaves3_mono m m' x y z x' y' z' :
  interleaves3 m x y z -> interleaves3 m' x' y' z' ->
  x <= x' -> y <= y' -> z <= z' -> m <= m'.
Proof.
  intros H H' Hx Hy Hz. rewrite (interleaves3_value _ _ _ _ H), (interleaves3_value _ _ _ _ H').
  pose proof (sp_mono 3 x x' ltac:(lia) Hx). pose proof (sp_mono 3 y y' ltac:(lia) Hy).
  pose proof (sp_mono 3 z z' ltac:(lia) Hz). lia.
Qed.

Lemma max_3d_32_lt x : x <= max_3d 32 -> x < 2 ^ 10.
Proof. intros H. apply le_m1_lt; [reflexivity|exact H]. Qed.

Theorem dominance2_32 x y x' y' : x <= x' -> y <= y' -> x' <= max_2d 32 -> y' <= max_2d 32 ->
  exists m m', encode2_32 x y = Ret m /\ encode2_32 x' y' = Ret m' /\ m <= m'.
Proof.
  intros. destruct (encode2_32_spec x y) as (m & E & I); try lia.
  destruct (encode2_32_spec x' y') as (m' & E' & I'); try lia.
  exists m, m'. repeat split; auto. eapply interleaves2_mono; eauto.
Qed.
Theorem dominance2_64 x y x' y' : x <= x' -> y <= y' -> x' <= max_2d 64 -> y' <= max_2d 64 ->
  exists m m', encode2_64 x y = Ret m /\ encode2_64 x' y' = Ret m' /\ m <= m'.
Proof.
  intros. destruct (encode2_64_spec x y) as (m & E & I); try lia.
  destruct (encode2_64_spec x' y') as (m' & E' & I'); try lia.
  exists m, m'. repeat split; auto. eapply interleaves2_mono; eauto.
Qed.
Theorem dominance3_32 x y z x' y' z' :
  x <= x' -> y <= y' -> z <= z' -> x' <= max_3d 32 -> y' <= max_3d 32 -> z' <= max_3d 32 ->
  exists m m', encode3_32 x y z = Ret m /\ encode3_32 x' y' z' = Ret m' /\ m <= m'.
Proof.
  intros. destruct (encode3_32_spec x y z) as (m & E & I); try lia.
  destruct (encode3_32_spec x' y' z') as (m' & E' & I'); try lia.
  exists m, m'. repeat split; auto. eapply interleaves3_mono; eauto.
Qed.
Theorem dominance3_64 x y z x' y' z' :
  x <= x' -> y <= y' -> z <= z' -> x' <= max_3d 64 -> y' <= max_3d 64 -> z' <= max_3d 64 ->
  exists m m', encode3_64 x y z = Ret m /\ encode3_64 x' y' z' = Ret m' /\ m <= m'.
Proof.
  intros. destruct (encode3_64_spec x y z) as (m & E & I); try lia.
  destruct (encode3_64_spec x' y' z') as (m' & E' & I'); try lia.
  exists m, m'. repeat split; auto. eapply interleaves3_mono; eauto.
Qed.

(** * Floating point *)
Section Flt.
  Variable rnd : R -> R.
  Hypothesis rnd_mono : forall a b, (a <= b)%R -> (rnd a <= rnd b)%R.
  Variable mx : N.
  Hypothesis rnd_0 : rnd 0 = 0%R.
  Hypothesis rnd_max : rnd (IZR (Z.of_N mx)) = IZR (Z.of_N mx).

  Lemma Int_part_le a b : (a <= b)%R -> (Int_part a <= Int_part b)%Z.
  Proof.
    intros H. destruct (base_Int_part a) as [A1 A2], (base_Int_part b) as [B1 B2].
    assert (IZR (Int_part a) < IZR (Int_part b) + 1)%R by lra.
    rewrite <- plus_IZR in H0. apply lt_IZR in H0. lia.
  Qed.
  Lemma Int_part_IZR z : Int_part (IZR z) = z.
  Proof.
    destruct (base_Int_part (IZR z)) as [A B].
    apply le_IZR in A.
    assert (IZR z < IZR (Int_part (IZR z)) + 1)%R by lra.
    rewrite <- plus_IZR in H. apply lt_IZR in H. lia.
  Qed.

  Lemma rnd_range x : (0 <= x <= 1)%R ->
    (0 <= rnd (x * IZR (Z.of_N mx)) <= IZR (Z.of_N mx))%R.
  Proof.
    intros [H0 H1].
    assert (Hm : (0 <= IZR (Z.of_N mx))%R) by (apply IZR_le; lia).
    split.
    - rewrite <- rnd_0 at 1. apply rnd_mono. nra.
    - rewrite <- rnd_max at 2. apply rnd_mono. nra.
  Qed.

  Lemma to_coord_ok x : (0 <= x <= 1)%R ->
    exists k, to_coord rnd mx x = Ret k /\ k <= mx /\
              Z.of_N k = Int_part (rnd (x * IZR (Z.of_N mx))).
  Proof.
    intros Hx. destruct (rnd_range x Hx) as [R0 R1].
    apply Int_part_le in R0, R1. rewrite Int_part_IZR in R1. rewrite (Int_part_IZR 0) in R0.
    unfold to_coord. set (z := Int_part _) in *.
    exists (Z.to_N z). assert (Z.to_N z <= mx) by lia.
    split; [|split; [auto|lia]].
    destruct z as [|p|p]; try lia;
      (replace (mx <? _) with false by (symmetry; apply N.ltb_ge; lia)); reflexivity.
  Qed.

  Lemma to_coord_mono x x' : (0 <= x)%R -> (x <= x')%R -> (x' <= 1)%R ->
    exists k k', to_coord rnd mx x = Ret k /\ to_coord rnd mx x' = Ret k' /\ k <= k' /\ k' <= mx.
  Proof.
    intros H0 H H1.
    destruct (to_coord_ok x) as (k & E & Hk & Vk); [lra|].
    destruct (to_coord_ok x') as (k' & E' & Hk' & Vk'); [lra|].
    exists k, k'. repeat split; auto.
    assert (Hm : (0 <= IZR (Z.of_N mx))%R) by (apply IZR_le; lia).
    assert (Z.of_N k <= Z.of_N k')%Z; [|lia].
    rewrite Vk, Vk'. apply Int_part_le, rnd_mono. nra.
  Qed.
End Flt.

Lemma in_unit_true x : (0 <= x <= 1)%R -> in_unit x = true.
Proof.
  intros [H0 H1]. unfold in_unit. destruct (Rle_dec 0 x); [|contradiction].
  destruct (Rle_dec x 1); [auto|contradiction].
Qed.

Theorem encode2_32_float_mono rnd x y x' y' : rounding (max_2d 32) rnd ->
  (0 <= x)%R -> (x <= x')%R -> (x' <= 1)%R -> (0 <= y)%R -> (y <= y')%R -> (y' <= 1)%R ->
  exists m m', encode2_32_float rnd x y = Ret m /\ encode2_32_float rnd x' y' = Ret m' /\
    m <= m' /\ m' < 2 ^ 32.
Proof.
  intros (Hm & H0 & H1) Hx Hxx Hx' Hy Hyy Hy'.
  destruct (to_coord_mono rnd Hm (max_2d 32) H0 H1 x x') as (k & k' & E1 & E1' & L1 & B1); auto.
  destruct (to_coord_mono rnd Hm (max_2d 32) H0 H1 y y') as (l & l' & E2 & E2' & L2 & B2); auto.
  destruct (encode2_32_spec k l) as (m & Em & Im); try lia.
  destruct (roundtrip2_32 k' l') as (m' & Em' & Lm' & Im' & _); try lia.
  exists m, m'. unfold encode2_32_float.
  rewrite !in_unit_true by lra. cbn [assume]. rewrite E1, E2, E1', E2'. cbn [bind].
  repeat split; auto. eapply interleaves2_mono; eauto.
Qed.

Theorem encode2_64_float_mono rnd x y x' y' : rounding (max_2d 64) rnd ->
  (0 <= x)%R -> (x <= x')%R -> (x' <= 1)%R -> (0 <= y)%R -> (y <= y')%R -> (y' <= 1)%R ->
  exists m m', encode2_64_float rnd x y = Ret m /\ encode2_64_float rnd x' y' = Ret m' /\
    m <= m' /\ m' < 2 ^ 64.
Proof.
  intros (Hm & H0 & H1) Hx Hxx Hx' Hy Hyy Hy'.
  destruct (to_coord_mono rnd Hm (max_2d 64) H0 H1 x x') as (k & k' & E1 & E1' & L1 & B1); auto.
  destruct (to_coord_mono rnd Hm (max_2d 64) H0 H1 y y') as (l & l' & E2 & E2' & L2 & B2); auto.
  destruct (encode2_64_spec k l) as (m & Em & Im); try lia.
  destruct (roundtrip2_64 k' l') as (m' & Em' & Lm' & Im' & _); try lia.
  exists m, m'. unfold encode2_64_float.
  rewrite !in_unit_true by lra. cbn [assume]. rewrite E1, E2, E1', E2'. cbn [bind].
  repeat split; auto. eapply interleaves2_mono; eauto.
Qed.

Theorem encode3_32_float_mono rnd x y z x' y' z' : rounding (max_3d 32) rnd ->
  (0 <= x)%R -> (x <= x')%R -> (x' <= 1)%R -> (0 <= y)%R -> (y <= y')%R -> (y' <= 1)%R ->
  (0 <= z)%R -> (z <= z')%R -> (z' <= 1)%R ->
  exists m m', encode3_32_float rnd x y z = Ret m /\ encode3_32_float rnd x' y' z' = Ret m' /\
    m <= m' /\ m' < 2 ^ 30.
Proof.
  intros (Hm & H0 & H1) Hx Hxx Hx' Hy Hyy Hy' Hz Hzz Hz'.
  destruct (to_coord_mono rnd Hm (max_3d 32) H0 H1 x x') as (k & k' & E1 & E1' & L1 & B1); auto.
  destruct (to_coord_mono rnd Hm (max_3d 32) H0 H1 y y') as (l & l' & E2 & E2' & L2 & B2); auto.
  destruct (to_coord_mono rnd Hm (max_3d 32) H0 H1 z z') as (n & n' & E3 & E3' & L3 & B3); auto.
  destruct (encode3_32_spec k l n) as (m & Em & Im); try lia.
  destruct (roundtrip3_32 k' l' n') as (m' & Em' & Lm' & Im' & _); try lia.
  exists m, m'. unfold encode3_32_float.
  rewrite !in_unit_true by lra. cbn [assume]. rewrite E1, E2, E3, E1', E2', E3'. cbn [bind].
  repeat split; auto. eapply interleaves3_mono; eauto.
Qed.

Theorem mortonLess2_dominance rnd p q : rounding (max_2d 32) rnd ->
  (0 <= fst p)%R -> (fst p <= fst q)%R -> (fst q <= 1)%R ->
  (0 <= snd p)%R -> (snd p <= snd q)%R -> (snd q <= 1)%R ->
  mortonLess2 rnd q p = Ret false.
Proof.
  intros Hr. intros.
  destruct (encode2_32_float_mono rnd (fst p) (snd p) (fst q) (snd q) Hr) as (m & m' & E & E' & L & _); auto.
  unfold mortonLess2. rewrite E, E'. cbn [bind]. f_equal. apply N.ltb_ge. exact L.
Qed.

(** In exact arithmetic decoding undershoots by less than one grid step. *)
Theorem decode_encode_float x y : (0 <= x <= 1)%R -> (0 <= y <= 1)%R ->
  exists m, encode2_32_float (fun r => r) x y = Ret m /\
    let '(x', y') := decode2_32_float m in
    (x' <= x < x' + 1 / 65535)%R /\ (y' <= y < y' + 1 / 65535)%R.
Proof.
  intros Hx Hy.
  assert (Hid : forall a b : R, (a <= b)%R -> (a <= b)%R) by auto.
  destruct (to_coord_ok (fun r => r) Hid (max_2d 32) eq_refl eq_refl x Hx) as (k & E & Hk & Vk).
  destruct (to_coord_ok (fun r => r) Hid (max_2d 32) eq_refl eq_refl y Hy) as (l & E' & Hl & Vl).
  destruct (roundtrip2_32 k l Hk Hl) as (m & Em & _ & _ & Ed).
  exists m. split.
  - unfold encode2_32_float. rewrite !in_unit_true by lra. cbn [assume].
    rewrite E, E'. exact Em.
  - unfold decode2_32_float. rewrite Ed. change (Z.of_N (max_2d 32)) with 65535%Z in *.
    rewrite Vk, Vl.
    destruct (base_Int_part (x * 65535)) as [A B], (base_Int_part (y * 65535)) as [C D].
    split; split; lra.
Qed.

(** the integers the coordinates are scaled to *)
Lemma scaled_ok mx rnd x : rounding mx rnd -> (0 <= x <= 1)%R -> exists k, to_coord rnd mx x = Ret k /\ k <= mx /\ scaled mx rnd x k.
Proof.
  intros (Hm & H0 & H1) Hx. destruct (to_coord_ok rnd Hm mx H0 H1 x Hx) as (k & E & L & V). exists k. split; [exact E|]. split; [exact L|].
  unfold scaled. rewrite V. destruct (base_Int_part (rnd (x * IZR (Z.of_N mx))%R)). split; lra.
Qed.
Theorem float_cells rnd : (forall x y, rounding (max_2d 32) rnd -> (0 <= x <= 1)%R -> (0 <= y <= 1)%R ->
    exists m i j, encode2_32_float rnd x y = Ret m /\ interleaves2 m i j /\ scaled (max_2d 32) rnd x i /\ scaled (max_2d 32) rnd y j) /\
  (forall x y, rounding (max_2d 64) rnd -> (0 <= x <= 1)%R -> (0 <= y <= 1)%R ->
    exists m i j, encode2_64_float rnd x y = Ret m /\ interleaves2 m i j /\ scaled (max_2d 64) rnd x i /\ scaled (max_2d 64) rnd y j) /\
  (forall x y z, rounding (max_3d 32) rnd -> (0 <= x <= 1)%R -> (0 <= y <= 1)%R -> (0 <= z <= 1)%R ->
    exists m i j k, encode3_32_float rnd x y z = Ret m /\ interleaves3 m i j k /\
      scaled (max_3d 32) rnd x i /\ scaled (max_3d 32) rnd y j /\ scaled (max_3d 32) rnd z k).
Proof.
  split; [|split].
  - intros x y Hr Hx Hy. destruct (scaled_ok _ _ _ Hr Hx) as (i & Ei & Li & Si). destruct (scaled_ok _ _ _ Hr Hy) as (j & Ej & Lj & Sj).
    destruct (roundtrip2_32 i j Li Lj) as (m & Em & _ & Im & _). exists m, i, j. unfold encode2_32_float. rewrite !in_unit_true by lra. cbn [assume]. rewrite Ei, Ej. cbn [bind]. auto.
  - intros x y Hr Hx Hy. destruct (scaled_ok _ _ _ Hr Hx) as (i & Ei & Li & Si). destruct (scaled_ok _ _ _ Hr Hy) as (j & Ej & Lj & Sj).
    destruct (roundtrip2_64 i j Li Lj) as (m & Em & _ & Im & _). exists m, i, j. unfold encode2_64_float. rewrite !in_unit_true by lra. cbn [assume]. rewrite Ei, Ej. cbn [bind]. auto.
  - intros x y z Hr Hx Hy Hz. destruct (scaled_ok _ _ _ Hr Hx) as (i & Ei & Li & Si). destruct (scaled_ok _ _ _ Hr Hy) as (j & Ej & Lj & Sj). destruct (scaled_ok _ _ _ Hr Hz) as (k & Ek & Lk & Sk).
    destruct (roundtrip3_32 i j k Li Lj Lk) as (m & Em & _ & Im & _). exists m, i, j, k. unfold encode3_32_float. rewrite !in_unit_true by lra. cbn [assume]. rewrite Ei, Ej, Ek. cbn [bind]. split; [exact Em|]. split; [exact Im|]. auto.
Qed.
