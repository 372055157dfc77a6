From Coq Require Import List Arith ZArith Bool Reals Lia Classical ClassicalDescription IndefiniteDescription.
From Coquelicot Require Import Complex.
From Verif Require Import Base Loops Arith Matrix_Model Matrix_Spec Matrix_Proofs Blas_Model Blas_Spec.
Import ListNotations.
Local Open Scope nat_scope.

Section Blas.
Context {T : Type} (o : arith T).
Implicit Types (pre post : list (option T)).

Lemma rd_mid {A} (pre : list A) (x : A) (post : list A) n : length pre = n -> rd (pre ++ x :: post) n = Ret x.
Proof. intros <-. unfold rd. rewrite nth_error_app2, Nat.sub_diag by lia. reflexivity. Qed.
Lemma wr_mid {A} (pre : list A) (x y : A) (post : list A) n : length pre = n -> wr (pre ++ x :: post) n y = Ret (pre ++ y :: post).
Proof.
  intros <-. rewrite wr_ok by (rewrite app_length; cbn; lia). f_equal.
  induction pre as [|p pre IH]; [reflexivity|]. cbn [app length upd]. now rewrite IH.
Qed.

Lemma clear_ok off m : forall i pre mid post, length pre = off + i -> length mid = m ->
  for_ m i (fun i c => wr c (off + i) (Some (o0 o))) (pre ++ mid ++ post) = Ret (pre ++ map (fun _ => Some (o0 o)) (seq i m) ++ post).
Proof.
  induction m as [|m IH]; intros i pre mid post Hp Hm.
  - destruct mid; [reflexivity|discriminate].
  - destruct mid as [|x mid]; [discriminate|]. cbn [for_]. cbn [app]. rewrite wr_mid by auto. cbn [bind].
    change (pre ++ Some (o0 o) :: mid ++ post) with (pre ++ [Some (o0 o)] ++ mid ++ post). rewrite app_assoc.
    rewrite IH; [|rewrite app_length; cbn; lia|now injection Hm]. cbn [seq map app]. now rewrite <- app_assoc.
Qed.

Lemma add_ok off (H : nat -> T -> T) body m : forall i pre F post, length pre = off + i ->
  (forall k c, i <= k < i + m -> body k c = let* v := rdo c (off + k) in wr c (off + k) (Some (H k v))) ->
  for_ m i body (pre ++ map (fun k => Some (F k)) (seq i m) ++ post) = Ret (pre ++ map (fun k => Some (H k (F k))) (seq i m) ++ post).
Proof.
  induction m as [|m IH]; intros i pre F post Hp Hb; [reflexivity|].
  cbn [for_]. rewrite Hb by lia. cbn [seq map app]. unfold rdo. rewrite rd_mid by auto. cbn [bind]. rewrite wr_mid by auto. cbn [bind].
  change (pre ++ Some (H i (F i)) :: ?l) with (pre ++ [Some (H i (F i))] ++ l). rewrite app_assoc.
  rewrite IH; [|rewrite app_length; cbn; lia|intros; apply Hb; lia]. now rewrite <- app_assoc.
Qed.

(** one column of a product *)
Lemma column_ok off offx (alpha : T) a lda x m n X A pre post : length pre = off ->
  (forall j, j < n -> rd x (offx + j) = Ret (X j)) ->
  (forall i j, i < m -> j < n -> rd a (j * lda + i) = Ret (A i j)) ->
  for_ n 0 (fun j c =>
    let* xj := rd x (offx + j) in
    let temp := omul o alpha xj in
    for_ m 0 (fun i c =>
      let* cij := rdo c (off + i) in
      let* aij := rd a (j * lda + i) in
      wr c (off + i) (Some (oadd o cij (omul o temp aij)))) c) (pre ++ map (fun _ => Some (o0 o)) (seq 0 m) ++ post)
  = Ret (pre ++ map (fun i => Some (sum_left o n (fun k => omul o (omul o alpha (X k)) (A i k)))) (seq 0 m) ++ post).
Proof.
  intros Hp Hx Ha.
  match goal with |- for_ n 0 ?f ?s = _ => pose proof (for_inv (fun j c => c = pre ++ map (fun i => Some (sum_left o j (fun k => omul o (omul o alpha (X k)) (A i k)))) (seq 0 m) ++ post) f n 0 s) as L end.
  destruct L as (c & E & Hc).
  - reflexivity.
  - intros j c Hj ->. rewrite Hx by lia. cbn [bind]. eexists. split.
    + eapply (add_ok off (fun i v => oadd o v (omul o (omul o alpha (X j)) (A i j)))); [lia|].
      intros k c Hk. destruct (rdo c (off + k)); cbn [bind]; auto. rewrite Ha by lia. reflexivity.
    + f_equal. f_equal. apply map_ext. intros i. now rewrite sum_left_S.
  - rewrite E, Hc. reflexivity.
Qed.

Lemma gemv_ok m n alpha a x y X A : m <> 0 -> n <> 0 -> length y = m ->
  (forall j, j < n -> rd x j = Ret (X j)) ->
  (forall i j, i < m -> j < n -> rd a (j * m + i) = Ret (A i j)) ->
  gemv o m n alpha a m x y = Ret (map (fun i => Some (sum_left o n (fun k => omul o (omul o alpha (X k)) (A i k)))) (seq 0 m)).
Proof.
  intros Hm Hn Hy Hx Ha. unfold gemv.
  replace (m <? Nat.max 1 m) with false by (symmetry; apply Nat.ltb_ge; lia).
  replace (m =? 0) with false by (symmetry; now apply Nat.eqb_neq).
  replace (n =? 0) with false by (symmetry; now apply Nat.eqb_neq). cbn [orb].
  pose proof (clear_ok 0 m 0 [] y [] eq_refl Hy) as E. cbn [app] in E. rewrite !app_nil_r in E.
  change (for_ m 0 (fun i y => wr y i (Some (o0 o))) y = Ret (map (fun _ => Some (o0 o)) (seq 0 m))) in E.
  rewrite E. cbn [bind].
  pose proof (column_ok 0 0 alpha a m x m n X A [] [] eq_refl Hx Ha) as F. cbn [app] in F. rewrite !app_nil_r in F. exact F.
Qed.

Lemma skipn_twice {A} (l : list A) : forall a b, skipn a (skipn b l) = skipn (b + a) l.
Proof. intros a b. revert l. induction b as [|b IH]; intros l; [reflexivity|]. destruct l; [now rewrite !skipn_nil|]. cbn [skipn Nat.add]. apply IH. Qed.
Lemma repeat_none_cols m p : repeat (@None T) (m * p) = concat (repeat (repeat None m) p).
Proof. induction p as [|p IH]; [now rewrite Nat.mul_0_r|]. cbn [repeat concat]. rewrite <- IH, <- repeat_app. f_equal. lia. Qed.

Definition pcol m k alpha (A B : nat -> nat -> T) (j : nat) : list (option T) :=
  map (fun i => Some (sum_left o k (fun l => omul o (omul o alpha (B l j)) (A i l)))) (seq 0 m).
Lemma pcol_length m k alpha A B j : length (pcol m k alpha A B j) = m.
Proof. unfold pcol. now rewrite map_length, seq_length. Qed.
Lemma pcols_length m k alpha A B n : length (concat (map (pcol m k alpha A B) (seq 0 n))) = n * m.
Proof.
  induction n as [|n IH]; [reflexivity|]. rewrite seq_S, map_app, concat_app, app_length, IH. cbn [map concat]. rewrite app_nil_r, pcol_length. cbn [Nat.add Nat.mul]. lia.
Qed.

Lemma gemm_ok m n k alpha a b c A B : m <> 0 -> n <> 0 -> k <> 0 -> length c = m * n ->
  (forall l j, l < k -> j < n -> rd b (j * k + l) = Ret (B l j)) ->
  (forall i l, i < m -> l < k -> rd a (l * m + i) = Ret (A i l)) ->
  gemm o m n k alpha a m b k c m = Ret (concat (map (pcol m k alpha A B) (seq 0 n))).
Proof.
  intros Hm Hn Hk Hc Hb Ha. unfold gemm.
  replace (m <? Nat.max 1 m) with false by (symmetry; apply Nat.ltb_ge; lia).
  replace (k <? Nat.max 1 k) with false by (symmetry; apply Nat.ltb_ge; lia).
  replace (m =? 0) with false by (symmetry; now apply Nat.eqb_neq).
  replace (n =? 0) with false by (symmetry; now apply Nat.eqb_neq). cbn [orb].
  match goal with |- for_ n 0 ?f ?s = _ => pose proof (for_inv (fun j c' => c' = concat (map (pcol m k alpha A B) (seq 0 j)) ++ skipn (j * m) c) f n 0 s) as L end.
  destruct L as (r & E & Hr).
  - reflexivity.
  - intros j c' Hj ->. set (pre := concat (map (pcol m k alpha A B) (seq 0 j))). assert (Hp : length pre = j * m) by apply pcols_length.
    assert (Hl : length (skipn (j * m) c) = m + (n - S j) * m) by (rewrite skipn_length; nia).
    rewrite <- (firstn_skipn m (skipn (j * m) c)).
    set (mid := firstn m (skipn (j * m) c)). set (post := skipn m (skipn (j * m) c)).
    assert (Hmid : length mid = m) by (unfold mid; rewrite firstn_length, Hl; apply Nat.min_l; apply Nat.le_add_r).
    rewrite (clear_ok (j * m) m 0 pre mid post); [|lia|auto]. cbn [bind].
    eexists. split; [apply (column_ok (j * m) (j * k) alpha a m b m k (fun l => B l j) A pre post); auto; intros; apply Hb; lia|].
    rewrite seq_S, map_app, concat_app. cbn [map concat]. rewrite app_nil_r. fold pre. rewrite <- app_assoc. f_equal. f_equal.
    unfold post. rewrite skipn_twice. f_equal. cbn [Nat.mul]. lia.
  - rewrite E, Hr. cbn [Nat.add]. rewrite skipn_all2 by nia. now rewrite app_nil_r.
Qed.

Lemma concat_nth {A} (l : list (list A)) m : (forall x, In x l -> length x = m) -> forall j i d, i < m -> j < length l ->
  nth (j * m + i) (concat l) d = nth i (nth j l []) d.
Proof.
  induction l as [|x l IH]; intros Hm j i d Hi Hj; [cbn in Hj; lia|].
  assert (Hx : length x = m) by (apply Hm; left; reflexivity). cbn [concat]. destruct j as [|j].
  - cbn [Nat.mul Nat.add nth]. rewrite app_nth1 by lia. reflexivity.
  - rewrite app_nth2 by (cbn [Nat.mul]; lia). cbn [nth]. rewrite <- (IH (fun y H => Hm y (or_intror H))); [|auto|cbn in Hj; lia].
    f_equal. cbn [Nat.mul]. lia.
Qed.
Lemma pcols_nth m k alpha A B n i j : i < m -> j < n ->
  nth (j * m + i) (concat (map (pcol m k alpha A B) (seq 0 n))) None = Some (sum_left o k (fun l => omul o (omul o alpha (B l j)) (A i l))).
Proof.
  intros Hi Hj. rewrite concat_nth with (m := m); auto.
  - rewrite (nth_indep _ _ (pcol m k alpha A B 0)) by (rewrite map_length, seq_length; auto).
    rewrite (map_nth (pcol m k alpha A B)), seq_nth by auto. unfold pcol.
    rewrite (nth_indep _ _ ((fun i => Some (sum_left o k (fun l => omul o (omul o alpha (B l (0 + j))) (A i l)))) 0)) by (rewrite map_length, seq_length; auto).
    rewrite (map_nth (fun i => Some (sum_left o k (fun l => omul o (omul o alpha (B l (0 + j))) (A i l))))), seq_nth by auto. reflexivity.
  - intros x Hx. apply in_map_iff in Hx as (q & <- & _). apply pcol_length.
  - now rewrite map_length, seq_length.
Qed.

Section Unit.
Hypothesis one_mul : forall x, omul o (o1 o) x = x.
Hypothesis mul_comm : forall x y, omul o x y = omul o y x.

Lemma rd_nth {A} (l : list A) i d : i < length l -> rd l i = Ret (nth i l d).
Proof. intros H. unfold rd. now rewrite (nth_error_nth' l d H). Qed.
Lemma sum_unit n (x a : nat -> T) : sum_left o n (fun k => omul o (omul o (o1 o) (x k)) (a k)) = sum_left o n (fun k => omul o (a k) (x k)).
Proof. apply sum_left_ext. intros k _. now rewrite one_mul, mul_comm. Qed.

Lemma mat_vec_blas_ok checks a (x : list T) (r c : nat) f : is_mat o a r c f -> length x = c -> r <> 0 -> c <> 0 ->
  mat_vec_blas o checks a x = Ret (map (fun i => Some (sum_left o c (fun k => omul o (f i k) (nth k x (o0 o))))) (seq 0 r)).
Proof.
  intros ((Hl & Hw) & <- & <- & He) Hx Hr Hc. unfold mat_vec_blas, require. rewrite Hx, Nat.eqb_refl. cbn [negb]. rewrite Bool.andb_false_r. cbn [bind].
  rewrite (gemv_ok (rows a) (cols a) (o1 o) (data a) x _ (fun j => nth j x (o0 o)) f); auto.
  - f_equal. apply map_ext. intros i. f_equal. apply sum_unit.
  - apply repeat_length.
  - intros j Hj. apply rd_nth. lia.
  - intros i j Hi Hj. rewrite (rd_nth _ _ (o0 o)) by (rewrite Hl; now apply index_bound). f_equal. now apply He.
Qed.

Lemma gemm_is c a b r n p fa fb : is_mat o a r n fa -> is_mat o b n p fb -> length c = r * p -> r <> 0 -> n <> 0 -> p <> 0 ->
  exists d, gemm o r p n (o1 o) (data a) r (data b) n c r = Ret d /\ length d = r * p /\
    forall i j, i < r -> j < p -> nth (j * r + i) d None = Some (sum_left o n (fun k => omul o (fa i k) (fb k j))).
Proof.
  intros ((Hl & Hw) & <- & <- & He) ((Hl' & Hw') & Hrb & <- & He') Hc Hr Hn Hp.
  eexists. split; [apply (gemm_ok _ _ _ _ _ _ _ fa fb); auto|].
  - intros l j Hl0 Hj. rewrite (rd_nth _ _ (o0 o)) by (rewrite Hl', Hrb; now apply index_bound). f_equal. rewrite <- He' by auto. unfold ent. now rewrite Hrb.
  - intros i l Hi Hl0. rewrite (rd_nth _ _ (o0 o)) by (rewrite Hl; now apply index_bound). f_equal. now apply He.
  - split; [rewrite pcols_length; lia|]. intros i j Hi Hj. rewrite pcols_nth by auto. f_equal. apply (sum_unit (cols a) (fun k => fb k j) (fun k => fa i k)).
Qed.

Lemma mat_mat_blas_ok checks a b r n p fa fb : is_mat o a r n fa -> is_mat o b n p fb -> r <> 0 -> n <> 0 -> p <> 0 ->
  (Z.of_nat r * Z.of_nat p <= intMax)%Z ->
  exists c, mat_mat_blas o checks a b = Ret c /\ rows c = r /\ cols c = p /\ length (data c) = r * p /\
    forall i j, i < r -> j < p -> nth (j * r + i) (data c) None = Some (sum_left o n (fun k => omul o (fa i k) (fb k j))).
Proof.
  intros Ha Hb Hr Hn Hp Hz. pose proof Ha as (_ & Ra & Ca & _). pose proof Hb as (_ & Rb & Cb & _).
  destruct (gemm_is (repeat None (r * p)) a b r n p fa fb Ha Hb (repeat_length _ _) Hr Hn Hp) as (d & E & Hd & He).
  unfold mat_mat_blas, require. rewrite Ra, Ca, Rb, Cb, Nat.eqb_refl. cbn [negb]. rewrite Bool.andb_false_r. cbn [bind].
  unfold make. rewrite i32_ok by (unfold in_i32, intMin; lia). cbn [bind rows cols data]. rewrite <- Nat2Z.inj_mul, Nat2Z.id, E. cbn [bind].
  eexists. split; [reflexivity|]. cbn [rows cols data]. auto.
Qed.

Lemma matmul_blas_ok checks (c : @matrix (option T)) a b r n p fa fb : is_mat o a r n fa -> is_mat o b n p fb -> r <> 0 -> n <> 0 -> p <> 0 ->
  rows c = r -> cols c = p -> length (data c) = r * p ->
  exists c', matmul_blas o checks c a b = Ret c' /\ rows c' = r /\ cols c' = p /\ length (data c') = r * p /\
    forall i j, i < r -> j < p -> nth (j * r + i) (data c') None = Some (sum_left o n (fun k => omul o (fa i k) (fb k j))).
Proof.
  intros Ha Hb Hr Hn Hp Rc Cc Lc. pose proof Ha as (_ & Ra & Ca & _). pose proof Hb as (_ & Rb & Cb & _).
  destruct (gemm_is (data c) a b r n p fa fb Ha Hb Lc Hr Hn Hp) as (d & E & Hd & He).
  unfold matmul_blas, require. rewrite Ra, Ca, Rb, Cb, Rc, Cc, !Nat.eqb_refl. cbn [negb]. rewrite !Bool.andb_false_r. cbn [bind]. rewrite E. cbn [bind].
  eexists. split; [reflexivity|]. cbn [rows cols data]. auto.
Qed.
End Unit.

(** no rows, or no columns *)
Lemma no_rows checks a x : rows a = 0 -> cols a = length x -> mat_vec_blas o checks a x = Fail.
Proof. intros Hr Hc. unfold mat_vec_blas, require. rewrite Hr, Hc, Nat.eqb_refl. cbn [negb]. rewrite Bool.andb_false_r. reflexivity. Qed.
Lemma no_cols checks a : rows a <> 0 -> cols a = 0 -> mat_vec_blas o checks a [] = Ret (repeat None (rows a)).
Proof.
  intros Hr Hc. unfold mat_vec_blas, require, gemv. rewrite Hc. cbn [length Nat.eqb negb]. rewrite Bool.andb_false_r. cbn [bind].
  replace (rows a <? Nat.max 1 (rows a)) with false by (symmetry; apply Nat.ltb_ge; lia). now rewrite Bool.orb_true_r.
Qed.
Lemma no_cols_plain a (x : list T) : cols a = 0 -> mat_vec o a x = Ret (repeat (o0 o) (rows a)).
Proof. intros Hc. unfold mat_vec. now rewrite Hc. Qed.
End Blas.

Section Lapack.
Context {T : Type} (o : arith T).
Variable gesv : nat -> nat -> list T -> nat -> list Z -> list T -> nat -> outcome (list T * list Z * list T * Z).
Hypothesis Hgesv : lapack_solves o gesv.

Lemma require_true checks b : b = true -> require checks b = Ret tt.
Proof. intros ->. unfold require. now rewrite Bool.andb_false_r. Qed.
Lemma solves_ext n p (a a' x x' b b' : nat -> nat -> T) : (forall i j, i < n -> j < n -> a i j = a' i j) -> (forall i j, i < n -> j < p -> x i j = x' i j) ->
  (forall i j, i < n -> j < p -> b i j = b' i j) -> solves o n p a x b -> solves o n p a' x' b'.
Proof.
  intros Ha Hx Hb H i j Hi Hj. rewrite <- Hb, <- (H i j) by auto. apply sum_left_ext. intros k Hk. now rewrite <- Ha, <- Hx by auto.
Qed.
Lemma dependent_ext n (a a' : nat -> nat -> T) : (forall i j, i < n -> j < n -> a i j = a' i j) -> dependent o n a -> dependent o n a'.
Proof.
  intros Ha (w & Hw & H). exists w. split; auto. intros k Hk. rewrite <- (H k Hk). apply sum_left_ext. intros i Hi. now rewrite Ha by auto.
Qed.

Lemma in_place_ok checks a b ipiv n p fa fb : is_mat o a n n fa -> is_mat o b n p fb -> length ipiv = n -> 1 <= n ->
  (exists a' b' q x, linearSolve_in_place gesv checks a b ipiv = Ret (a', b', q) /\
     wf a' /\ rows a' = n /\ cols a' = n /\ length q = n /\ is_mat o b' n p x /\ solves o n p fa x fb) \/
  (dependent o n fa /\
     if checks then linearSolve_in_place gesv checks a b ipiv = Fail
     else exists a' q, linearSolve_in_place gesv checks a b ipiv = Ret (a', b, q) /\ wf a' /\ rows a' = n /\ cols a' = n /\ length q = n).
Proof.
  intros ((La & Wa) & Ra & Ca & Ea) ((Lb & Wb) & Rb & Cb & Eb) Hi Hn.
  unfold linearSolve_in_place. rewrite !require_true by (rewrite ?Ra, ?Rb, ?Ca, ?Hi; apply Nat.eqb_refl). cbn [bind].
  rewrite Ra, Rb, Cb. rewrite Ra, Ca in La, Wa. rewrite Rb, Cb in Lb, Wb.
  destruct (Hgesv n p (data a) ipiv (data b) Hn La Hi Lb) as (a' & p' & b' & info & E & H1 & H2 & H3 & H).
  rewrite E. cbn [bind].
  assert (Ea' : forall i j, i < n -> j < n -> at_ o n (data a) i j = fa i j) by (intros; rewrite <- Ea by auto; unfold ent, at_; now rewrite Ra).
  assert (Eb' : forall i j, i < n -> j < p -> at_ o n (data b) i j = fb i j) by (intros; rewrite <- Eb by auto; unfold ent, at_; now rewrite Rb).
  destruct H as [(-> & H)|(H & Hd & ->)].
  - left. rewrite require_true by reflexivity. cbn [bind]. eexists _, _, _, (at_ o n b'). split; [reflexivity|]. cbn [rows cols data].
    split; [split; cbn [rows cols data]; [now rewrite Ca|now rewrite Ca]|]. split; [reflexivity|]. split; [exact Ca|]. split; [exact H2|]. split.
    + split; [split; cbn [rows cols data]; auto|]. split; [reflexivity|]. split; [reflexivity|]. intros i j Hi' Hj. unfold ent, at_. cbn [rows data]. reflexivity.
    + eapply solves_ext; [exact Ea'|reflexivity|exact Eb'|exact H].
  - right. split; [eapply dependent_ext; [exact Ea'|exact Hd]|].
    unfold require. destruct (Z.eqb_spec info 0); [lia|]. destruct checks; cbn [andb negb bind]; [reflexivity|].
    eexists _, _. split; [f_equal; f_equal; f_equal; destruct b; cbn in *; congruence|].
    split; [split; cbn [rows cols data]; [now rewrite Ca|now rewrite Ca]|]. auto.
Qed.

Lemma copy_ok checks junk a b n p fa fb : is_mat o a n n fa -> is_mat o b n p fb -> 1 <= n ->
  (exists m x, linearSolve gesv checks junk a b = Ret (m, a, b) /\ is_mat o m n p x /\ solves o n p fa x fb) \/
  (dependent o n fa /\ linearSolve gesv checks junk a b = if checks then Fail else Ret (b, a, b)).
Proof.
  intros ((La & Wa) & Ra & Ca & Ea) ((Lb & Wb) & Rb & Cb & Eb) Hn.
  unfold linearSolve. rewrite !require_true by (rewrite ?Ra, ?Rb, ?Ca; apply Nat.eqb_refl). cbn [bind].
  rewrite Ra, Rb, Cb. rewrite Ra, Ca in La, Wa. rewrite Rb, Cb in Lb, Wb.
  destruct (Hgesv n p (data a) (repeat junk n) (data b) Hn La (repeat_length _ _) Lb) as (a' & p' & b' & info & E & H1 & H2 & H3 & H).
  rewrite E. cbn [bind].
  assert (Ea' : forall i j, i < n -> j < n -> at_ o n (data a) i j = fa i j) by (intros; rewrite <- Ea by auto; unfold ent, at_; now rewrite Ra).
  assert (Eb' : forall i j, i < n -> j < p -> at_ o n (data b) i j = fb i j) by (intros; rewrite <- Eb by auto; unfold ent, at_; now rewrite Rb).
  destruct H as [(-> & H)|(H & Hd & ->)].
  - left. rewrite require_true by reflexivity. cbn [bind]. eexists _, (at_ o n b'). split; [reflexivity|].
    split.
    + split; [split; cbn [rows cols data]; auto|]. split; [reflexivity|]. split; [reflexivity|]. intros i j Hi' Hj. unfold ent, at_. cbn [rows data]. reflexivity.
    + eapply solves_ext; [exact Ea'|reflexivity|exact Eb'|exact H].
  - right. split; [eapply dependent_ext; [exact Ea'|exact Hd]|].
    unfold require. destruct (Z.eqb_spec info 0); [lia|]. destruct checks; cbn [andb negb bind]; [reflexivity|].
    f_equal. f_equal. f_equal. destruct b; cbn in *; congruence.
Qed.
End Lapack.

Section Eigen.
Variable geev : nat -> list R -> nat -> Z -> outcome (list R * list R * Z).
Hypothesis Hgeev : lapack_eigen geev.
Lemma zip_loop (x y : list R) n : length x = n -> length y = n ->
  for_ n 0 (fun i (w : list C) => let* x := rd x i in let* y := rd y i in wr w i (x, y)) (repeat (RtoC 0) n) = Ret (combine x y).
Proof.
  intros Hx Hy.
  match goal with |- for_ n 0 ?f ?s = _ => pose proof (for_inv (fun j (w : list C) => w = firstn j (combine x y) ++ repeat (RtoC 0) (n - j)) f n 0 s) as L end.
  assert (Hc : length (combine x y) = n) by (rewrite combine_length; lia).
  destruct L as (w & E & Hw).
  - now rewrite Nat.sub_0_r.
  - intros j w Hj ->. rewrite (rd_nth _ _ 0%R), (rd_nth _ _ 0%R) by lia. cbn [bind].
    replace (n - j) with (S (n - S j)) by lia. cbn [repeat]. eexists. split; [apply wr_mid; rewrite firstn_length; lia|].
    assert (Es : firstn (S j) (combine x y) = firstn j (combine x y) ++ [(nth j x 0%R, nth j y 0%R)]).
    { rewrite <- combine_nth by lia. clear E || idtac. revert Hj Hc. generalize (combine x y). intros l Hj Hl.
      rewrite <- (firstn_skipn j l) at 1. assert (Hs : skipn j l = nth j l (0%R, 0%R) :: skipn (S j) l).
      { clear -Hj Hl. assert (H : j < length l) by lia. clear Hj Hl. revert j H. induction l as [|p l IH]; intros j H; [cbn in H; lia|].
        destruct j as [|j]; [reflexivity|]. cbn [skipn nth]. apply IH. cbn in H. lia. }
      rewrite Hs. rewrite firstn_app, firstn_length, Nat.min_l by lia. replace (S j - j) with 1 by lia. rewrite firstn_firstn, Nat.min_r by lia. reflexivity. }
    rewrite Es, <- app_assoc. reflexivity.
  - refine (eq_trans E _). rewrite Hw. cbn [Nat.add]. rewrite Nat.sub_diag, firstn_all2 by lia. cbn [repeat]. now rewrite app_nil_r.
Qed.

Lemma eigvals_real_ok checks a n f : is_mat Rarith a n n f -> 1 <= n -> (4 * Z.of_nat n <= intMax)%Z ->
  exists x y info, geev n (data a) n (4 * Z.of_nat n)%Z = Ret (x, y, info) /\
    (info = 0%Z -> exists w, eigvals_real geev checks a = Ret w /\ length w = n /\ forall l, In l w <-> eigenvalue n (fun i j => RtoC (f i j)) l) /\
    (info <> 0%Z -> if checks then eigvals_real geev checks a = Fail else exists w, eigvals_real geev checks a = Ret w /\ length w = n).
Proof.
  intros ((La & Wa) & Ra & Ca & Ea) Hn Hz. rewrite Ra, Ca in La.
  destruct (Hgeev n (data a) (4 * Z.of_nat n)%Z Hn La ltac:(lia)) as (x & y & info & E & Hx & Hy & Hi & H).
  unfold eigvals_real. rewrite require_true by (rewrite Ra, Ca; apply Nat.eqb_refl). cbn [bind].
  rewrite Ra, i32_ok by (unfold in_i32, intMin; lia). cbn [bind]. rewrite E. cbn [bind].
  assert (Ev : forall l : C, eigenvalue n (fun i j => RtoC (nth (j * n + i) (data a) 0%R)) l <-> eigenvalue n (fun i j => RtoC (f i j)) l).
  { assert (Es : forall i (v : nat -> C) m, i < n -> m <= n -> csum m (fun k => Cmult (RtoC (nth (k * n + i) (data a) 0%R)) (v k)) = csum m (fun k => Cmult (RtoC (f i k)) (v k))).
    { intros i v m Hi'. induction m as [|m IH]; intros Hm; [reflexivity|]. cbn [csum]. rewrite IH by lia. do 3 f_equal. rewrite <- Ea by lia. unfold ent. now rewrite Ra. }
    intros l. split; intros (v & Hv & He); exists v; (split; [exact Hv|]); intros i Hi'; rewrite <- (He i Hi'); [symmetry|]; apply Es; auto. }
  unfold require. destruct (Z.eqb_spec info 0) as [->|N].
  - exists x, y, 0%Z. split; [reflexivity|]. split; [|congruence]. intros _. cbn [negb]. rewrite Bool.andb_false_r. cbn [bind]. eexists. split; [exact (zip_loop x y n Hx Hy)|].
    split; [refine (eq_trans (combine_length x y) _); lia|]. intros l. rewrite <- Ev. now apply H.
  - exists x, y, info. split; [reflexivity|]. split; [congruence|]. intros _. destruct checks; cbn [negb andb bind]; [reflexivity|]. eexists. split; [exact (zip_loop x y n Hx Hy)|].
    refine (eq_trans (combine_length x y) _); lia.
Qed.

Variable cgeev : nat -> list C -> nat -> Z -> outcome (list C * Z).
Hypothesis Hcgeev : lapack_eigen_complex cgeev.
Lemma eigvals_complex_ok (oc : arith C) checks a n f : o0 oc = RtoC 0 -> is_mat oc a n n f -> 1 <= n -> (4 * Z.of_nat n <= intMax)%Z ->
  exists w info, cgeev n (data a) n (4 * Z.of_nat n)%Z = Ret (w, info) /\ length w = n /\
    (info = 0%Z -> eigvals_complex cgeev checks a = Ret w /\ forall l, In l w <-> eigenvalue n f l) /\
    (info <> 0%Z -> eigvals_complex cgeev checks a = if checks then Fail else Ret w).
Proof.
  intros O0 ((La & Wa) & Ra & Ca & Ea) Hn Hz. rewrite Ra, Ca in La.
  destruct (Hcgeev n (data a) (4 * Z.of_nat n)%Z Hn La ltac:(lia)) as (w & info & E & Hw & Hi & H).
  unfold eigvals_complex. rewrite require_true by (rewrite Ra, Ca; apply Nat.eqb_refl). cbn [bind].
  rewrite Ra, i32_ok by (unfold in_i32, intMin; lia). cbn [bind]. rewrite E. cbn [bind].
  assert (Ev : forall l : C, eigenvalue n (fun i j => nth (j * n + i) (data a) (RtoC 0)) l <-> eigenvalue n f l).
  { assert (Es : forall i (v : nat -> C) m, i < n -> m <= n -> csum m (fun k => Cmult (nth (k * n + i) (data a) (RtoC 0)) (v k)) = csum m (fun k => Cmult (f i k) (v k))).
    { intros i v m Hi'. induction m as [|m IH]; intros Hm; [reflexivity|]. cbn [csum]. rewrite IH by lia. do 2 f_equal. rewrite <- Ea by lia. unfold ent. now rewrite Ra, O0. }
    intros l. split; intros (v & Hv & He); exists v; (split; [exact Hv|]); intros i Hi'; rewrite <- (He i Hi'); [symmetry|]; apply Es; auto. }
  unfold require. destruct (Z.eqb_spec info 0) as [->|N].
  - exists w, 0%Z. split; [reflexivity|]. split; [auto|]. split; [|congruence]. intros _. cbn [negb]. rewrite Bool.andb_false_r. split; [reflexivity|]. intros l. rewrite <- Ev. now apply H.
  - exists w, info. split; [reflexivity|]. split; [auto|]. split; [congruence|]. intros _. destruct checks; reflexivity.
Qed.
End Eigen.
