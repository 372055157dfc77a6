From Coq Require Import List Arith ZArith Reals Lia Lra Bool.
From Verif Require Import Base Loops Arith Vec_Model Vec_Spec.
Import ListNotations.

Section Generic.
Context {T : Type} (o : arith T).
Implicit Types u v : list T.

Lemma map2_length f u : forall v, length u = length v -> length (map2 f u v) = length u.
Proof. induction u as [|x u IH]; intros [|y v] H; cbn in *; try lia. f_equal. apply IH. lia. Qed.
Lemma map2_comp f u : forall v i, i < length u -> i < length v ->
  comp o (map2 f u v) i = f (comp o u i) (comp o v i).
Proof.
  unfold comp. induction u as [|x u IH]; intros [|y v] [|i] Hu Hv; cbn in *; try lia; auto.
  apply IH; lia.
Qed.
Lemma map_comp f u i : i < length u -> comp o (map f u) i = f (comp o u i).
Proof.
  unfold comp. revert i. induction u as [|x u IH]; intros [|i] H; cbn in *; try lia; auto. apply IH. lia.
Qed.
Lemma repeat_comp n x i : i < n -> comp o (repeat x n) i = x.
Proof. unfold comp. revert i. induction n as [|n IH]; intros [|i] H; cbn; try lia; auto. apply IH. lia. Qed.
Lemma comp_ext u v : length u = length v -> (forall i, i < length u -> comp o u i = comp o v i) -> u = v.
Proof. intros H1 H2. apply nth_ext with (d := o0 o) (d' := o0 o); auto. Qed.
Lemma rd_comp u i : i < length u -> rd u i = Ret (comp o u i).
Proof. intros H. unfold rd, comp. now rewrite (nth_error_nth' _ (o0 o) H). Qed.
Lemma rd_col (a : list (list T)) j : j < length a -> rd a j = Ret (nth j a []).
Proof. intros H. unfold rd. now rewrite (nth_error_nth' _ [] H). Qed.
Lemma shape_col M N (a : list (list T)) j : shape M N a -> j < N -> length (nth j a []) = M.
Proof. intros (H1 & H2) Hj. apply H2, nth_In. lia. Qed.

Lemma elem_ok M N a i j : shape M N a -> i < M -> j < N -> elem a i j = Ret (entry o a i j).
Proof.
  intros Hs Hi Hj. unfold elem. rewrite rd_col by (destruct Hs; lia). cbn [bind].
  apply rd_comp. rewrite (shape_col M N); auto.
Qed.

Lemma vops_ok f u v : length u = length v ->
  length (map2 f u v) = length u /\
  forall i, i < length u -> comp o (map2 f u v) i = f (comp o u i) (comp o v i).
Proof. intros H. split; [now apply map2_length|]. intros i Hi. apply map2_comp; lia. Qed.

Lemma vscalar_ok (f : T -> T) u : length (map f u) = length u /\
  forall i, i < length u -> comp o (map f u) i = f (comp o u i).
Proof. split; [apply map_length|]. intros i Hi. now apply map_comp. Qed.

Lemma mat_vec_ok M N a x : shape M N a -> length x = N ->
  exists y, mat_vec o M N a x = Ret y /\ length y = M /\
    forall i, i < M -> comp o y i = prod_vec o N a x i.
Proof.
  intros Hs Hx. unfold mat_vec.
  destruct (for_inv (fun k y => length y = M /\
      forall i, i < M -> comp o y i = sum_left o k (fun k => omul o (entry o a i k) (comp o x k)))
    (fun i res => let* xi := rd x i in let* c := rd a i in Ret (vadd o res (vscale o xi c)))
    N 0 (vzero o M)) as (y & E & Hl & Hy).
  - split; [apply repeat_length|]. intros i Hi. now apply repeat_comp.
  - intros j s Hj (Hl & Hy).
    rewrite rd_comp by lia. cbn [bind]. rewrite rd_col by (destruct Hs; lia). cbn [bind].
    assert (Hc : length (nth j a []) = M) by (apply (shape_col M N); auto; lia).
    assert (Hv : length (vscale o (comp o x j) (nth j a [])) = M) by (unfold vscale; rewrite map_length; auto).
    eexists. split; [reflexivity|]. split.
    + unfold vadd. rewrite map2_length; lia.
    + intros i Hi. unfold vadd. rewrite map2_comp by lia. rewrite Hy by auto. unfold vscale.
      rewrite map_comp by lia. rewrite sum_left_S. reflexivity.
  - exists y. cbn [Nat.add] in *. auto.
Qed.

Lemma mcols_ok N g f : (forall i, i < N -> f i = Ret (g i)) ->
  mcols (T:=T) N N f = Ret (map Some (map g (seq 0 N))).
Proof.
  intros Hf. unfold mcols.
  destruct (for_inv (fun k (r : list (option (list T))) =>
      r = map Some (map g (seq 0 k)) ++ repeat None (N - k) /\ k <= N)
    (fun i r => let* c := f i in wr r i (Some c)) N 0 (repeat None N)) as (r & E & Hr & _).
  - split; [|lia]. cbn. now rewrite Nat.sub_0_r.
  - intros j s Hj (Hs & _). rewrite Hf by lia. cbn [bind].
    assert (Hlen : length (map Some (map g (seq 0 j))) = j) by (now rewrite !map_length, seq_length).
    eexists. split.
    + apply wr_ok. subst s. rewrite app_length, repeat_length, Hlen. lia.
    + split; [|lia]. subst s. replace (N - j) with (S (N - S j)) by lia. cbn [repeat].
      rewrite seq_S, !map_app. cbn [map].
      rewrite <- Hlen at 3. rewrite upd_mid. rewrite <- app_assoc. reflexivity.
  - rewrite E. f_equal. rewrite Hr. cbn [Nat.add]. rewrite Nat.sub_diag. cbn. apply app_nil_r.
Qed.

(** the part of the columns that the loop reaches *)
Lemma for_wr_prefix {A : Type} (f : nat -> outcome A) : forall n i (r r' : list (option A)),
  for_ n i (fun i r => let* c := f i in wr r i (Some c)) r = Ret r' ->
  length r' = length r /\ forall j, i + n <= j -> nth_error r' j = nth_error r j.
Proof.
  induction n as [|n IH]; intros i r r' E; cbn in E.
  - injection E as <-. auto.
  - destruct (f i) as [c| | |]; try discriminate. cbn [bind] in E.
    destruct (wr r i (Some c)) as [r1| | |] eqn:E1; try discriminate. cbn [bind] in E.
    apply wr_Ret in E1. destruct E1 as (Hi & ->). apply IH in E. destruct E as (H1 & H2).
    rewrite upd_length in H1. split; auto. intros j Hj. rewrite H2 by lia.
    apply nth_error_upd_neq. lia.
Qed.
Lemma for_wr_oob {A : Type} (f : nat -> outcome A) : forall n i (r : list (option A)),
  (forall k, i <= k < i + n -> exists c, f k = Ret c) -> length r < i + n -> i <= length r ->
  for_ n i (fun i r => let* c := f i in wr r i (Some c)) r = Ub.
Proof.
  induction n as [|n IH]; intros i r Hf Hl Hi; [lia|]. cbn.
  destruct (Hf i) as (c & Ec); [lia|]. rewrite Ec. cbn [bind]. unfold wr at 1.
  destruct (Nat.ltb_spec i (length r)).
  - cbn [bind]. apply IH.
    + intros k Hk. apply Hf. lia.
    + rewrite upd_length. lia.
    + rewrite upd_length. lia.
  - reflexivity.
Qed.

Lemma mat_mat_ok M N a b : shape M N a -> shape N N b ->
  exists c, mat_mat o M N N a b = Ret (map Some c) /\ shape M N c /\
    forall i j, i < M -> j < N -> entry o c i j = prod_mat o N a b i j.
Proof.
  intros Ha Hb.
  assert (Hg : forall j, exists y, j < N -> mat_vec o M N a (nth j b []) = Ret y /\ length y = M /\
      forall i, i < M -> comp o y i = prod_vec o N a (nth j b []) i).
  { intros j. destruct (Nat.lt_ge_cases j N) as [Hj|Hj].
    - destruct (mat_vec_ok M N a (nth j b []) Ha) as (y & Hy); [now apply (shape_col N N)|].
      exists y. auto.
    - exists []. lia. }
  assert (Hc : forall n, n <= N -> exists c, length c = n /\ forall j, j < n ->
      mat_vec o M N a (nth j b []) = Ret (nth j c []) /\ length (nth j c []) = M /\
      forall i, i < M -> comp o (nth j c []) i = prod_vec o N a (nth j b []) i).
  { induction n as [|n IH]; intros Hn; [exists []; split; auto; intros; lia|].
    destruct IH as (c & Hl & Hc); [lia|]. destruct (Hg n) as (y & Hy).
    exists (c ++ [y]). split; [rewrite app_length; cbn; lia|]. intros j Hj.
    destruct (Nat.eq_dec j n) as [->|Hne].
    - rewrite app_nth2 by lia. rewrite Hl, Nat.sub_diag. cbn [nth]. apply Hy. lia.
    - rewrite app_nth1 by lia. apply Hc. lia. }
  destruct (Hc N) as (c & Hl & H); [lia|]. exists c. split; [|split].
  - unfold mat_mat. rewrite (mcols_ok N (fun j => nth j c [])).
    + f_equal. f_equal. rewrite <- Hl. clear. induction c as [|x c IH]; auto.
      cbn [length seq map nth]. f_equal. rewrite <- IH at 2. rewrite <- seq_shift, map_map. reflexivity.
    + intros i Hi. rewrite rd_col by (destruct Hb; lia). cbn [bind]. now apply H.
  - split; auto. intros x Hx. destruct (In_nth c x [] Hx) as (j & Hj & <-). apply H. lia.
  - intros i j Hi Hj. unfold entry at 1. destruct (H j Hj) as (_ & _ & Hv). rewrite Hv by auto.
    reflexivity.
Qed.

Lemma mat_mat_uninit M N P a b r : N < P -> mat_mat o M N P a b = Ret r ->
  forall j, N <= j < P -> nth_error r j = Some None.
Proof.
  intros H E j Hj. unfold mat_mat, mcols in E. apply for_wr_prefix in E.
  destruct E as (_ & E). rewrite E by lia.
  rewrite (nth_error_nth' _ None) by (rewrite repeat_length; lia). f_equal. apply nth_repeat.
Qed.
Lemma mat_mat_oob M N P a b : shape M N a -> shape N P b -> P < N -> mat_mat o M N P a b = Ub.
Proof.
  intros Ha Hb H. unfold mat_mat, mcols.
  assert (Hk : forall n i (r : list (option (list T))), i + n = N -> length r = P -> i <= P ->
    for_ n i (fun i r => let* c := (let* bi := rd b i in mat_vec o M N a bi) in wr r i (Some c)) r = Ub).
  { induction n as [|n IH]; intros i r Hi Hr Hp; [lia|]. cbn.
    destruct (Nat.eq_dec i P) as [->|Hne].
    - unfold rd at 1. rewrite (proj2 (nth_error_None b P)) by (destruct Hb; lia). reflexivity.
    - rewrite rd_col by (destruct Hb; lia). cbn [bind].
      destruct (mat_vec_ok M N a (nth i b []) Ha) as (y & E & _).
      { apply (shape_col N P); auto. lia. }
      rewrite E. cbn [bind]. rewrite wr_ok by lia. cbn [bind]. apply IH; rewrite ?upd_length; lia. }
  apply Hk; [lia|apply repeat_length|lia].
Qed.

Lemma madd_ok N a b (f : T -> T -> T) M : shape M N a -> shape M N b ->
  exists c, mcols N N (fun i => let* x := rd a i in let* y := rd b i in Ret (map2 f x y)) = Ret (map Some c) /\
    shape M N c /\ forall i j, i < M -> j < N -> entry o c i j = f (entry o a i j) (entry o b i j).
Proof.
  intros Ha Hb. rewrite (mcols_ok N (fun j => map2 f (nth j a []) (nth j b []))).
  2:{ intros i Hi. rewrite !rd_col by (destruct Ha, Hb; lia). reflexivity. }
  eexists. split; [reflexivity|]. split; [split|].
  - now rewrite map_length, seq_length.
  - intros c Hc. apply in_map_iff in Hc. destruct Hc as (j & <- & Hj). apply in_seq in Hj.
    rewrite map2_length; rewrite !(shape_col M N); auto; lia.
  - intros i j Hi Hj. unfold entry.
    rewrite nth_indep with (d' := map2 f (nth 0 a []) (nth 0 b [])) by (rewrite map_length, seq_length; lia).
    rewrite (map_nth (fun j => map2 f (nth j a []) (nth j b []))), seq_nth by lia. cbn [Nat.add].
    apply map2_comp; rewrite (shape_col M N); auto.
Qed.

Lemma mident_ok N : exists m, mident o N = Ret m /\ shape N N m /\
  forall i j, i < N -> j < N -> entry o m i j = if i =? j then o1 o else o0 o.
Proof.
  unfold mident.
  destruct (for_inv (fun k m => shape N N m /\ forall i j, i < N -> j < N ->
      entry o m i j = if (i =? j) && (j <? k) then o1 o else o0 o)
    (fun i m => let* c := rd m i in let* c := wr c i (o1 o) in wr m i c) N 0 (mzero o N N))
    as (m & E & Hs & Hm).
  - split; [split|].
    + apply repeat_length.
    + intros c Hc. apply repeat_spec in Hc. subst. apply repeat_length.
    + intros i j Hi Hj. unfold entry, mzero. rewrite nth_indep with (d' := vzero o N) by (rewrite repeat_length; lia).
      rewrite nth_repeat. rewrite andb_false_r. now apply repeat_comp.
  - intros j m Hj (Hs & Hm). rewrite rd_col by (destruct Hs; lia). cbn [bind].
    assert (Hc : length (nth j m []) = N) by (apply (shape_col N N); auto; lia).
    rewrite wr_ok by lia. cbn [bind]. rewrite wr_ok by (destruct Hs; lia).
    eexists. split; [reflexivity|]. split.
    + destruct Hs as (H1 & H2). split; [now rewrite upd_length|].
      intros c Hin. apply In_nth_error in Hin. destruct Hin as (k & Hk).
      rewrite nth_error_upd in Hk. destruct ((j =? k) && (j <? length m)).
      * injection Hk as <-. now rewrite upd_length.
      * apply H2. eapply nth_error_In; eauto.
    + intros i k Hi Hk. unfold entry, comp.
      assert (Hnth : forall (l : list (list T)) x q, q < length l -> nth q (upd l j x) [] = if q =? j then x else nth q l []).
      { intros l x q Hq. apply nth_error_nth. rewrite nth_error_upd. destruct (Nat.eqb_spec j q).
        - subst. rewrite Nat.eqb_refl. destruct (Nat.ltb_spec q (length l)); [reflexivity|lia].
        - destruct (Nat.eqb_spec q j); [lia|]. cbn. now apply nth_error_nth'. }
      rewrite Hnth by (destruct Hs; lia).
      destruct (Nat.eqb_spec k j) as [->|Hne].
      * assert (Hin : nth i (upd (nth j m []) j (o1 o)) (o0 o) = if i =? j then o1 o else nth i (nth j m []) (o0 o)).
        { apply nth_error_nth. rewrite nth_error_upd. destruct (Nat.eqb_spec j i).
          - subst. rewrite Nat.eqb_refl. destruct (Nat.ltb_spec i (length (nth i m []))); [reflexivity|lia].
          - destruct (Nat.eqb_spec i j); [lia|]. cbn. apply nth_error_nth'. lia. }
        rewrite Hin. destruct (Nat.eqb_spec i j); cbn [andb].
        -- destruct (Nat.ltb_spec j (S j)); [auto|lia].
        -- specialize (Hm i j Hi Hk). unfold entry, comp in Hm. rewrite Hm.
           destruct (Nat.eqb_spec i j); [lia|]. reflexivity.
      * specialize (Hm i k Hi Hk). unfold entry, comp in Hm. rewrite Hm.
        destruct (Nat.eqb_spec i k); cbn [andb]; auto.
        destruct (Nat.ltb_spec k j), (Nat.ltb_spec k (S j)); auto; lia.
  - exists m. split; auto. split; auto. intros i j Hi Hj. rewrite Hm by auto.
    destruct (Nat.ltb_spec j (0 + N)); [|lia]. now rewrite andb_true_r.
Qed.

(** dot is the sum of the products (from the first product on) *)
Lemma dot_Ret x u y v : dot o (x :: u) (y :: v) =
  Ret (fold_left (fun s p => oadd o s (omul o (fst p) (snd p))) (combine u v) (omul o x y)).
Proof. reflexivity. Qed.
End Generic.

Local Open Scope R_scope.
Notation RA := Rarith.

Lemma dot_R u : forall v, u <> [] -> length u = length v ->
  dot RA u v = Ret (sum_left RA (length u) (fun k => comp RA u k * comp RA v k)).
Proof.
  intros v Hu Hl. destruct u as [|x u]; [congruence|]. destruct v as [|y v]; [discriminate|].
  cbn [dot]. f_equal.
  assert (H : forall u v s, length u = length v ->
    fold_left (fun s p => oadd RA s (omul RA (fst p) (snd p))) (combine u v) s =
    s + sum_left RA (length u) (fun k => comp RA u k * comp RA v k)).
  { clear. induction u as [|x u IH]; intros [|y v] s H; try discriminate.
    - cbn. ring.
    - cbn [combine fold_left length]. rewrite IH by (cbn in H; lia). cbn [fst snd RA oadd omul].
      assert (Hs : forall n f, sum_left RA (S n) f = f 0%nat + sum_left RA n (fun k => f (S k))).
      { clear. induction n as [|n IH]; intros f; [cbn; ring|].
        rewrite sum_left_S, IH, sum_left_S. cbn [RA oadd]. ring. }
      rewrite Hs. unfold comp. cbn [nth]. ring. }
  assert (Hs : forall n f, sum_left RA (S n) f = f 0%nat + sum_left RA n (fun k => f (S k))).
  { clear. induction n as [|n IH]; intros f; [cbn; ring|].
    rewrite sum_left_S, IH, sum_left_S. cbn [RA oadd]. ring. }
  rewrite H by (cbn in Hl; lia). cbn [length]. rewrite Hs. reflexivity.
Qed.

Lemma sum_nonneg n f : (forall k, (k < n)%nat -> 0 <= f k) -> 0 <= sum_left RA n f.
Proof.
  induction n as [|n IH]; intros H; [cbn; lra|]. rewrite sum_left_S. cbn [RA oadd].
  assert (0 <= sum_left RA n f) by (apply IH; intros; apply H; lia).
  specialize (H n ltac:(lia)). lra.
Qed.
Lemma sum_zero n f : (forall k, (k < n)%nat -> 0 <= f k) -> sum_left RA n f = 0 ->
  forall k, (k < n)%nat -> f k = 0.
Proof.
  induction n as [|n IH]; intros H E k Hk; [lia|]. rewrite sum_left_S in E. cbn [RA oadd] in E.
  assert (0 <= sum_left RA n f) by (apply sum_nonneg; intros; apply H; lia).
  pose proof (H n ltac:(lia)).
  destruct (Nat.eq_dec k n) as [->|]; [lra|]. apply IH; try lia; [intros; apply H; lia|lra].
Qed.

Lemma norm_ok u : u <> [] -> exists s n, squaredNorm RA u = Ret s /\ norm RA u = Ret n /\
  0 <= n /\ n * n = s /\ (n = 0 <-> forall i, (i < length u)%nat -> comp RA u i = 0).
Proof.
  intros Hu. unfold norm. unfold squaredNorm. rewrite dot_R by auto. cbn [bind].
  eexists. eexists. split; [reflexivity|]. split; [reflexivity|].
  cbn [RA osqrt]. set (s := sum_left RA (length u) (fun k => comp RA u k * comp RA u k)).
  assert (Hnn : forall k, (k < length u)%nat -> 0 <= comp RA u k * comp RA u k) by (intros; apply Rle_0_sqr).
  assert (Hs : 0 <= s) by now apply sum_nonneg.
  split; [apply sqrt_pos|]. split; [now apply sqrt_sqrt|]. split.
  - intros E i Hi. apply sqrt_eq_0 in E; auto. apply Rsqr_0_uniq.
    apply (sum_zero (length u) (fun k => comp RA u k * comp RA u k)); auto.
  - intros H. assert (E : s = 0).
    { unfold s. rewrite (sum_left_ext RA (length u) _ (fun _ => 0)); [apply sumR_0|].
      intros k Hk. rewrite H by auto. ring. }
    rewrite E. apply sqrt_0.
Qed.

Lemma normalized_ok u i0 : (i0 < length u)%nat -> comp RA u i0 <> 0 ->
  exists w n, normalized RA u = Ret w /\ norm RA u = Ret n /\ norm RA w = Ret 1 /\ length w = length u /\
    0 < n /\ forall i, (i < length u)%nat -> comp RA u i = n * comp RA w i.
Proof.
  intros Hi Hne. assert (Hu : u <> []) by (intros ->; cbn in Hi; lia).
  destruct (norm_ok u Hu) as (s & n & Es & En & Hn & Hns & Hz).
  assert (Hn0 : n <> 0).
  { intros E. apply Hne. apply Hz; auto. }
  unfold normalized. rewrite En. cbn [bind]. eexists. exists n.
  split; [reflexivity|]. split; [reflexivity|].
  assert (Hl : length (vdivs RA u n) = length u) by (unfold vdivs; apply map_length).
  assert (Hc : forall i, (i < length u)%nat -> comp RA (vdivs RA u n) i = comp RA u i / n).
  { intros i Hi'. unfold vdivs. rewrite map_comp by auto. reflexivity. }
  split; [|split; [auto|split; [lra|]]].
  - unfold norm, squaredNorm. rewrite dot_R; auto.
    2:{ intros E. rewrite E in Hl. cbn in Hl. destruct u; [congruence|discriminate]. }
    cbn [bind]. f_equal. rewrite Hl.
    rewrite (sum_left_ext RA (length u) _ (fun k => / (n * n) * (comp RA u k * comp RA u k))).
    2:{ intros k Hk. rewrite Hc by auto. field. auto. }
    rewrite sumR_scal. cbn [RA osqrt].
    unfold squaredNorm in Es. rewrite dot_R in Es by auto. injection Es as Es.
    rewrite Es, <- Hns. rewrite Rinv_l; [apply sqrt_1|]. nra.
  - intros i Hi'. rewrite Hc by auto. field. auto.
Qed.

Lemma det_R a b c d : det2x2 RA a b c d = a * d - b * c.
Proof. unfold det2x2. cbn. ring. Qed.

Lemma cross2_ok u v : cross2 RA u v = - cross2 RA v u /\ cross2 RA u u = 0 /\
  cross2 RA u v = fst u * snd v - snd u * fst v.
Proof. unfold cross2. rewrite !det_R. repeat split; ring. Qed.

Definition dot3 (u v : R * R * R) : R :=
  let '(a, b, c) := u in let '(x, y, z) := v in a * x + b * y + c * z.
Definition opp3 (u : R * R * R) : R * R * R := let '(a, b, c) := u in (- a, - b, - c).
Lemma cross3_ok u v : cross3 RA u v = opp3 (cross3 RA v u) /\
  dot3 u (cross3 RA u v) = 0 /\ dot3 v (cross3 RA u v) = 0 /\
  dot3 (cross3 RA u v) (cross3 RA u v) = dot3 u u * dot3 v v - dot3 u v * dot3 u v.
Proof.
  destruct u as [[u0 u1] u2], v as [[v0 v1] v2]. unfold cross3, opp3, dot3. rewrite !det_R.
  repeat split; try (f_equal; [f_equal|]); ring.
Qed.

(** entries determine a matrix *)
Lemma shape_ext M N (a b : list (list R)) : shape M N a -> shape M N b ->
  (forall i j, (i < M)%nat -> (j < N)%nat -> entry RA a i j = entry RA b i j) -> a = b.
Proof.
  intros Ha Hb H. apply nth_ext with (d := []) (d' := []); [destruct Ha, Hb; congruence|].
  intros j Hj. assert (Hj' : (j < N)%nat) by (destruct Ha; lia).
  apply (comp_ext RA); rewrite !(shape_col M N); auto.
  intros i Hi. apply (H i j); auto.
Qed.

Lemma assoc_ok M N a b v : shape M N a -> shape N N b -> length v = N ->
  exists c bv r, mat_mat RA M N N a b = Ret (map Some c) /\ mat_vec RA N N b v = Ret bv /\
    mat_vec RA M N c v = Ret r /\ mat_vec RA M N a bv = Ret r.
Proof.
  intros Ha Hb Hv.
  destruct (mat_mat_ok RA M N a b Ha Hb) as (c & Ec & Hc & Hce).
  destruct (mat_vec_ok RA N N b v Hb Hv) as (bv & Eb & Hbl & Hbe).
  destruct (mat_vec_ok RA M N c v Hc Hv) as (r & Er & Hrl & Hre).
  destruct (mat_vec_ok RA M N a bv Ha Hbl) as (r' & Er' & Hrl' & Hre').
  exists c, bv, r. split; auto. split; auto. split; auto. rewrite Er'. f_equal.
  apply (comp_ext RA); [lia|]. intros i Hi. rewrite Hre, Hre' by lia.
  unfold prod_vec.
  rewrite (sum_left_ext RA N (fun k => omul RA (entry RA a i k) (comp RA bv k))
    (fun k => sum_left RA N (fun j => entry RA a i k * (entry RA b k j * comp RA v j)))).
  2:{ intros k Hk. rewrite Hbe by auto. cbn [RA omul]. unfold prod_vec. rewrite <- sumR_scal. reflexivity. }
  rewrite sumR_swap. apply sum_left_ext. intros j Hj. rewrite Hce by lia. unfold prod_mat. cbn [RA omul].
  rewrite Rmult_comm, <- sumR_scal. apply sum_left_ext. intros k Hk. ring.
Qed.

Lemma sum_delta n i f : (i < n)%nat ->
  sum_left RA n (fun k => (if (i =? k)%nat then 1 else 0) * f k) = f i.
Proof.
  induction n as [|n IH]; intros H; [lia|]. rewrite sum_left_S. cbn [RA oadd].
  destruct (Nat.eq_dec i n) as [->|Hne].
  - rewrite Nat.eqb_refl. rewrite (sum_left_ext RA n _ (fun _ => 0)); [rewrite sumR_0; ring|].
    intros k Hk. destruct (Nat.eqb_spec n k); [lia|ring].
  - rewrite IH by lia. destruct (Nat.eqb_spec i n); [lia|ring].
Qed.
Lemma ident_ok N : exists m, mident RA N = Ret m /\ shape N N m /\
  (forall v, length v = N -> mat_vec RA N N m v = Ret v) /\
  (forall a, shape N N a -> mat_mat RA N N N m a = Ret (map Some a) /\ mat_mat RA N N N a m = Ret (map Some a)).
Proof.
  destruct (mident_ok RA N) as (m & Em & Hm & He). exists m. split; auto. split; auto. split.
  - intros v Hv. destruct (mat_vec_ok RA N N m v Hm Hv) as (y & Ey & Hl & Hy). rewrite Ey. f_equal.
    apply (comp_ext RA); [lia|]. intros i Hi. rewrite Hy by lia. unfold prod_vec.
    rewrite (sum_left_ext RA N _ (fun k => (if (i =? k)%nat then 1 else 0) * comp RA v k)).
    + apply sum_delta. lia.
    + intros k Hk. rewrite He by lia. reflexivity.
  - intros a Ha. split.
    + destruct (mat_mat_ok RA N N m a Hm Ha) as (c & Ec & Hc & Hce). rewrite Ec. do 2 f_equal.
      apply (shape_ext N N); auto. intros i j Hi Hj. rewrite Hce by auto. unfold prod_mat.
      rewrite (sum_left_ext RA N _ (fun k => (if (i =? k)%nat then 1 else 0) * entry RA a k j)).
      * now apply (sum_delta N i (fun k => entry RA a k j)).
      * intros k Hk. rewrite He by lia. reflexivity.
    + destruct (mat_mat_ok RA N N a m Ha Hm) as (c & Ec & Hc & Hce). rewrite Ec. do 2 f_equal.
      apply (shape_ext N N); auto. intros i j Hi Hj. rewrite Hce by auto. unfold prod_mat.
      rewrite (sum_left_ext RA N _ (fun k => (if (j =? k)%nat then 1 else 0) * entry RA a i k)).
      * now apply (sum_delta N j (fun k => entry RA a i k)).
      * intros k Hk. rewrite He by lia. cbn [RA omul o0 o1]. rewrite (Nat.eqb_sym k j).
        destruct (j =? k)%nat; ring.
Qed.

(** ** 2 by 2 *)
Lemma mat22_shape a b c d : shape 2 2 (mat22 a b c d).
Proof. split; auto. intros x [<-|[<-|[]]]; reflexivity. Qed.
Lemma mat22_mul a b c d e f g h :
  mat_mat RA 2 2 2 (mat22 a b c d) (mat22 e f g h) =
  Ret (map Some (mat22 (a * e + b * g) (a * f + b * h) (c * e + d * g) (c * f + d * h))).
Proof.
  destruct (mat_mat_ok RA 2 2 _ _ (mat22_shape a b c d) (mat22_shape e f g h)) as (m & E & Hm & He).
  rewrite E. do 2 f_equal. apply (shape_ext 2 2); auto using mat22_shape.
  intros i j Hi Hj. rewrite He by auto. unfold prod_mat, sum_left.
  destruct i as [|[|i]], j as [|[|j]]; try lia; cbn; ring.
Qed.
Lemma inv_ok a b c d : a * d - b * c <> 0 ->
  exists m, inv RA (mat22 a b c d) = Ret m /\
    mat_mat RA 2 2 2 m (mat22 a b c d) = Ret (map Some ident22) /\
    mat_mat RA 2 2 2 (mat22 a b c d) m = Ret (map Some ident22).
Proof.
  intros H. unfold inv. cbn [elem mat22 rd nth_error bind]. rewrite det_R.
  cbn [RA oeqb odiv oopp o0]. unfold Reqb. destruct (Req_EM_T (a * d - b * c) 0); [congruence|].
  eexists. split; [reflexivity|].
  set (D := a * d - b * c) in *.
  change [[d / D; - c / D]; [- b / D; a / D]] with (mat22 (d / D) (- b / D) (- c / D) (a / D)).
  change [[a; c]; [b; d]] with (mat22 a b c d).
  rewrite !mat22_mul. unfold ident22. split; do 3 f_equal; try (f_equal; try (f_equal; [|f_equal]));
    unfold mat22; unfold D; repeat f_equal; field; auto.
Qed.
Lemma inv_singular a b c d : a * d - b * c = 0 -> inv RA (mat22 a b c d) = Fail.
Proof.
  intros H. unfold inv. cbn [elem mat22 rd nth_error bind]. rewrite det_R.
  cbn [RA oeqb o0]. unfold Reqb. destruct (Req_EM_T (a * d - b * c) 0); [auto|congruence].
Qed.

Definition rotation (t : R) : list (list R) := makeRotation RA (cos t) (sin t).
Lemma rotation_ok t : exists a b c d, rotation t = mat22 a b c d /\
  a * d - b * c = 1 /\
  mat_mat RA 2 2 2 (mat22 a c b d) (rotation t) = Ret (map Some ident22) /\
  forall x y, mat_vec RA 2 2 (rotation t) [x; y] = Ret [x * cos t - y * sin t; x * sin t + y * cos t].
Proof.
  exists (cos t), (- sin t), (sin t), (cos t).
  assert (Hs : sin t * sin t + cos t * cos t = 1) by apply sin2_cos2.
  split; [reflexivity|]. split; [lra|]. split.
  - change (rotation t) with (mat22 (cos t) (- sin t) (sin t) (cos t)). rewrite mat22_mul.
    unfold ident22, mat22. do 3 f_equal; [|f_equal]; repeat (f_equal; try lra).
  - intros x y. destruct (mat_vec_ok RA 2 2 (rotation t) [x; y]) as (r & E & Hl & Hr).
    + apply (mat22_shape (cos t) (- sin t) (sin t) (cos t)).
    + reflexivity.
    + rewrite E. f_equal. apply (comp_ext RA); [cbn; lia|]. intros i Hi. rewrite Hr by lia.
      unfold prod_vec, sum_left. destruct i as [|[|i]]; [| |cbn in Hi; lia]; cbn; ring.
Qed.
Lemma rotation_add s t :
  mat_mat RA 2 2 2 (rotation s) (rotation t) = Ret (map Some (rotation (s + t))).
Proof.
  change (rotation s) with (mat22 (cos s) (- sin s) (sin s) (cos s)).
  change (rotation t) with (mat22 (cos t) (- sin t) (sin t) (cos t)). rewrite mat22_mul.
  change (rotation (s + t)) with (mat22 (cos (s + t)) (- sin (s + t)) (sin (s + t)) (cos (s + t))).
  rewrite cos_plus, sin_plus. unfold mat22. do 3 f_equal; [|f_equal]; repeat (f_equal; try ring).
Qed.

(** ** comparisons *)
Lemma Rltb_true x y : Rltb x y = true <-> x < y.
Proof. unfold Rltb. destruct (Rlt_dec x y); split; auto; congruence. Qed.
Lemma Reqb_true x y : Reqb x y = true <-> x = y.
Proof. unfold Reqb. destruct (Req_EM_T x y); split; auto; congruence. Qed.
Lemma veqb_ok u : forall v, length u = length v -> (veqb RA u v = true <-> u = v).
Proof.
  induction u as [|x u IH]; intros [|y v] H; try discriminate; cbn [veqb]; [tauto|].
  cbn [RA oeqb]. destruct (Reqb x y) eqn:E; cbn [negb].
  - apply Reqb_true in E. subst. rewrite IH by (cbn in H; lia). split; [congruence|now intros [=]].
  - split; [discriminate|]. intros [= -> _]. assert (Reqb y y = true) by now apply Reqb_true. congruence.
Qed.
Lemma vltb_ok u : forall v, length u = length v -> (vltb RA u v = true <-> lex_lt u v).
Proof.
  induction u as [|x u IH]; intros [|y v] H; try discriminate; cbn [vltb].
  - split; [discriminate|]. intros ([|i] & a & b & Ha & _); discriminate.
  - cbn [RA oltb]. destruct (Rltb x y) eqn:E.
    + apply Rltb_true in E. split; auto. intros _. exists 0%nat, x, y. repeat split; auto. lia.
    + destruct (Rltb y x) eqn:E'.
      * apply Rltb_true in E'. split; [discriminate|]. intros ([|i] & a & b & Ha & Hb & Hab & Hj).
        -- cbn in Ha, Hb. injection Ha as <-. injection Hb as <-. lra.
        -- specialize (Hj 0%nat ltac:(lia)). cbn in Hj. injection Hj as ->. lra.
      * assert (x = y).
        { destruct (Rtotal_order x y) as [Hlt|[->|Hlt]]; auto; apply Rltb_true in Hlt; congruence. }
        subst y. rewrite IH by (cbn in H; lia). split.
        -- intros (i & a & b & Ha & Hb & Hab & Hj). exists (S i), a, b. repeat split; auto.
           intros [|j] Hj'; cbn; auto. apply Hj. lia.
        -- intros ([|i] & a & b & Ha & Hb & Hab & Hj).
           ++ cbn in Ha, Hb. injection Ha as <-. injection Hb as <-. lra.
           ++ exists i, a, b. repeat split; auto. intros j Hj'. apply (Hj (S j)). lia.
Qed.
Lemma vltb_irr u : vltb RA u u = false.
Proof.
  induction u as [|x u IH]; cbn; auto. assert (Rltb x x = false).
  { destruct (Rltb x x) eqn:E; auto. apply Rltb_true in E. lra. }
  now rewrite H.
Qed.
Lemma vltb_trans u : forall v w, length u = length v -> length v = length w ->
  vltb RA u v = true -> vltb RA v w = true -> vltb RA u w = true.
Proof.
  induction u as [|x u IH]; intros [|y v] [|z w] H1 H2; try discriminate; cbn [vltb RA oltb].
  unfold Rltb. intros H3 H4.
  destruct (Rlt_dec x y), (Rlt_dec y z), (Rlt_dec x z), (Rlt_dec y x), (Rlt_dec z y), (Rlt_dec z x);
    auto; try discriminate; try lra.
  apply (IH v w); auto; cbn in *; lia.
Qed.
Lemma vltb_total u : forall v, length u = length v -> vltb RA u v = true \/ u = v \/ vltb RA v u = true.
Proof.
  induction u as [|x u IH]; intros [|y v] H; try discriminate; auto.
  cbn [vltb RA oltb]. unfold Rltb.
  destruct (Rlt_dec x y); auto. destruct (Rlt_dec y x); auto.
  assert (x = y) by lra. subst. destruct (IH v) as [|[->|]]; auto.
Qed.
Lemma cmp_ok u v : length u = length v ->
  (vneqb RA u v = true <-> u <> v) /\ (vgtb RA u v = true <-> lex_lt v u) /\
  (vleb RA u v = true <-> lex_lt u v \/ u = v) /\ (vgeb RA u v = true <-> lex_lt v u \/ u = v).
Proof.
  intros H. unfold vneqb, vgtb, vleb, vgeb. split; [|split; [|split]].
  - rewrite negb_true_iff, <- not_true_iff_false, veqb_ok by auto. tauto.
  - now apply vltb_ok.
  - rewrite negb_true_iff, <- not_true_iff_false, <- vltb_ok by auto.
    destruct (vltb_total u v H) as [E|[->|E]].
    + split; auto. intros _ E'. pose proof (vltb_trans u v u H (eq_sym H) E E'). rewrite vltb_irr in H0. discriminate.
    + rewrite vltb_irr. split; [auto|discriminate].
    + split; [congruence|]. intros [E'| ->].
      * pose proof (vltb_trans u v u H (eq_sym H) E' E). rewrite vltb_irr in H0. discriminate.
      * rewrite vltb_irr in E. discriminate.
  - rewrite negb_true_iff, <- not_true_iff_false, <- vltb_ok by auto.
    destruct (vltb_total u v H) as [E|[->|E]].
    + split; [congruence|]. intros [E'| ->].
      * pose proof (vltb_trans u v u H (eq_sym H) E E'). rewrite vltb_irr in H0. discriminate.
      * rewrite vltb_irr in E. discriminate.
    + rewrite vltb_irr. split; [auto|discriminate].
    + split; auto. intros _ E'. pose proof (vltb_trans u v u H (eq_sym H) E' E). rewrite vltb_irr in H0. discriminate.
Qed.

(** min/max *)
Lemma minmax_ok u v : length u = length v ->
  length (vmin RA u v) = length u /\ length (vmax RA u v) = length u /\
  forall i, (i < length u)%nat ->
    comp RA (vmin RA u v) i = Rmin (comp RA u i) (comp RA v i) /\
    comp RA (vmax RA u v) i = Rmax (comp RA u i) (comp RA v i).
Proof.
  intros H. unfold vmin, vmax. rewrite !map2_length by auto. repeat split.
  - rewrite map2_comp by lia. unfold tmin. cbn [RA oltb]. unfold Rltb, Rmin.
    destruct (Rlt_dec _ _), (Rle_dec _ _); lra.
  - rewrite map2_comp by lia. unfold tmax. cbn [RA oltb]. unfold Rltb, Rmax.
    destruct (Rlt_dec _ _), (Rle_dec _ _); lra.
Qed.

Lemma distance_ok u v : u <> [] -> length u = length v ->
  exists d, distanceTo Rarith u v = Ret d /\ distanceTo Rarith v u = Ret d /\ 0 <= d /\ (d = 0 <-> u = v) /\
    forall eps2, isApprox Rarith eps2 u v = Ret (Rltb (d * d) eps2).
Proof.
  intros Hu Hl.
  assert (Hne : forall w : list R, length w = length u -> w <> []).
  { intros w Hw ->. destruct u; [congruence|discriminate]. }
  assert (L1 : length (vsub RA u v) = length u) by (now apply map2_length).
  assert (L2 : length (vsub RA v u) = length u) by (unfold vsub; rewrite map2_length; lia).
  destruct (norm_ok (vsub RA u v)) as (s & n & Es & En & Hn & Hns & Hz); [auto|].
  assert (Es' : squaredNorm RA (vsub RA v u) = Ret s).
  { rewrite <- Es. unfold squaredNorm. rewrite !dot_R by auto. f_equal. rewrite L1, L2.
    apply sum_left_ext. intros k Hk. unfold vsub. rewrite !map2_comp by lia. cbn [RA osub]. ring. }
  unfold norm in En. rewrite Es in En. cbn [bind] in En.
  exists n. unfold isApprox, distanceTo, squaredDistanceTo. rewrite Es, Es'. cbn [bind].
  split; [auto|]. split; [auto|]. split; [auto|]. split; [|intros; now rewrite Hns].
  rewrite Hz. split.
  - intros H. apply (comp_ext RA); auto. intros i Hi. specialize (H i ltac:(lia)).
    unfold vsub in H. rewrite map2_comp in H by lia. cbn [RA osub] in H. lra.
  - intros -> i Hi. unfold vsub. rewrite map2_comp by lia. cbn [RA osub]. lra.
Qed.

(** ** Formulas *)
Lemma norm_full u : u <> [] -> exists s n, squaredNorm RA u = Ret s /\ s = sum_left RA (length u) (fun k => comp RA u k * comp RA u k) /\ norm RA u = Ret n /\
  0 <= n /\ n * n = s /\ (n = 0 <-> forall i, (i < length u)%nat -> comp RA u i = 0).
Proof.
  intros Hu. destruct (norm_ok u Hu) as (s & n & Es & En & H). exists s, n. split; [exact Es|]. split; [|split; [exact En|exact H]].
  unfold squaredNorm in Es. rewrite dot_R in Es by auto. now injection Es as <-.
Qed.
Lemma distance_full u v : u <> [] -> length u = length v ->
  exists d, distanceTo RA u v = Ret d /\ distanceTo RA v u = Ret d /\ 0 <= d /\
    d * d = sum_left RA (length u) (fun k => (comp RA u k - comp RA v k) * (comp RA u k - comp RA v k)) /\ squaredDistanceTo RA u v = Ret (d * d) /\ (d = 0 <-> u = v) /\
    forall eps2, isApprox RA eps2 u v = Ret (Rltb (d * d) eps2).
Proof.
  intros Hu Hl. destruct (distance_ok u v Hu Hl) as (d & E1 & E2 & Hd & Hz & Ha). exists d. split; [exact E1|]. split; [exact E2|]. split; [exact Hd|].
  assert (L1 : length (vsub RA u v) = length u) by (now apply map2_length).
  assert (Hn : vsub RA u v <> []) by (intros E; rewrite E in L1; destruct u; [congruence|discriminate]).
  destruct (norm_full _ Hn) as (s & n & Es & Hs & En & Hn0 & Hnn & _). unfold norm in En. unfold distanceTo, squaredDistanceTo in E1. rewrite Es in En, E1. cbn [bind] in En, E1.
  assert (n = d) as -> by congruence. rewrite L1 in Hs. split; [|split; [unfold squaredDistanceTo; now rewrite Es, Hnn|split; [exact Hz|exact Ha]]].
  rewrite Hnn, Hs. apply sum_left_ext. intros k Hk. unfold vsub. now rewrite !map2_comp by lia.
Qed.
Lemma cross3_full u0 u1 u2 v0 v1 v2 : cross3 RA (u0, u1, u2) (v0, v1, v2) = (u1 * v2 - u2 * v1, u2 * v0 - u0 * v2, u0 * v1 - u1 * v0).
Proof. unfold cross3. now rewrite !det_R. Qed.
