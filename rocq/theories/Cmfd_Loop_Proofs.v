(** The loops of the CMFD model. *)
From Coq Require Import List Arith ZArith Reals Lia Lra Bool.
From Coquelicot Require Import Complex.
From Verif Require Import Base Loops Arith Matrix_Model Matrix_Spec Matrix_Proofs Cmfd_Model Cmfd_Spec Cmfd_Proofs Cmfd_Ana_Proofs.
Import ListNotations.
Open Scope C_scope.

Lemma set_pattern_ok p d u e m f : (2 <= p)%nat -> is_mat Carith m p p f -> off_pattern_zero p f ->
  exists m', set_pattern p d u (u * e) m = Ret m' /\ is_mat Carith m' p p (cyclic p d u e).
Proof.
  intros Hp Hm Hf. unfold set_pattern, cset.
  destruct (set_is Carith m p p f 0 0 d Hm) as (m1 & -> & H1); [lia|lia|]. cbn [bind].
  destruct (set_is Carith m1 p p _ (p - 1) 0 (u * e) H1) as (m2 & -> & H2); [lia|lia|]. cbn [bind]. cbv beta in H2.
  match goal with |- context [for_ (p - 1) 1 ?g m2] => set (step := g) end.
  destruct (for_inv (fun k m => is_mat Carith m p p (fun i j => if (j <? k)%nat then cyclic p d u e i j else f i j))
    step (p - 1) 1 m2) as (m' & E & H').
  - eapply is_mat_ext; [exact H2|]. intros i j Hi Hj. cbv beta. unfold cyclic.
    destruct (Nat.ltb_spec j 1) as [Hj1|Hj1].
    + assert (j = 0)%nat as -> by lia.
      destruct (Nat.eqb_spec i (p - 1)), (Nat.eqb_spec i 0), (Nat.eqb_spec 0 i), (Nat.eqb_spec 0 (i + 1)); cbn [andb Nat.eqb]; try lia; try ring.
      rewrite Hf; try lia. ring.
    + destruct (Nat.eqb_spec j 0); [lia|]. rewrite !andb_false_r. reflexivity.
  - intros k mk Hk Hmk. unfold step.
    destruct (set_is Carith mk p p _ (k - 1) k u Hmk) as (m3 & -> & H3); [lia|lia|]. cbn [bind].
    destruct (set_is Carith m3 p p _ k k d H3) as (m4 & E4 & H4); [lia|lia|]. exists m4. split; auto.
    eapply is_mat_ext; [exact H4|]. intros i j Hi Hj. cbv beta. unfold cyclic.
    destruct (Nat.ltb_spec j k), (Nat.ltb_spec j (S k)); try lia.
    + destruct (Nat.eqb_spec j k); [lia|]. rewrite !andb_false_r. reflexivity.
    + assert (j = k) as -> by lia. rewrite Nat.eqb_refl, !andb_true_r.
      destruct (Nat.eqb_spec i k), (Nat.eqb_spec k i), (Nat.eqb_spec i (k - 1)), (Nat.eqb_spec k (i + 1)), (Nat.eqb_spec k 0); try lia;
        rewrite ?andb_false_r; try ring. rewrite Hf; try lia. ring.
    + destruct (Nat.eqb_spec j k); [lia|]. rewrite !andb_false_r. reflexivity.
  - exists m'. split; auto. eapply is_mat_ext; [exact H'|]. intros i j Hi Hj. cbv beta.
    destruct (Nat.ltb_spec j (1 + (p - 1))); [auto|lia].
Qed.

Lemma set_An_ok q mu alpha m f : cell_ok q -> mu <> 0%R -> is_mat Carith m (pp q) (pp q) f -> off_pattern_zero (pp q) f ->
  exists m', set_An m q mu alpha = Ret m' /\ is_mat Carith m' (pp q) (pp q) (average_matrix q mu alpha).
Proof.
  intros (Hp & _ & _ & Hh) Hmu Hm Hf. unfold set_An, average_matrix. cbv zeta.
  rewrite corner_phase, beta_weight by lra.
  apply (set_pattern_ok (pp q) _ _ _ m f); auto.
Qed.
Lemma set_Bn_ok q mu alpha m f a : cell_ok q -> mu <> 0%R -> is_mat Carith m (pp q) (pp q) f -> off_pattern_zero (pp q) f ->
  is_mat Carith a (pp q) (pp q) (average_matrix q mu alpha) ->
  exists m', set_Bn m a q mu alpha = Ret m' /\ is_mat Carith m' (pp q) (pp q) (balance_matrix q mu alpha).
Proof.
  intros (Hp & _ & _ & Hh) Hmu Hm Hf Ha. unfold set_Bn. cbv zeta. rewrite corner_phase.
  match goal with |- context [set_pattern _ ?d ?u _ _] => destruct (set_pattern_ok (pp q) d u (phase q alpha) m f Hp Hm Hf) as (m1 & -> & H1) end.
  cbn [bind]. pose proof H1 as (W1 & R1 & C1 & E1). pose proof Ha as (Wa & Ra & Ca & Ea).
  destruct (add_to_ok Carith Cplus m1 a W1 Wa) as (m2 & E2 & H2); [congruence|congruence|].
  exists m2. split; [exact E2|]. rewrite R1, C1 in H2. eapply is_mat_ext; [exact H2|]. intros i j Hi Hj. cbv beta.
  rewrite E1, Ea by auto. unfold balance_matrix, average_matrix. cbv zeta. rewrite cyclic_plus.
  unfold cyclic. 
  replace (- (mu / (Sigma_t q * ph q), 0)%R + ((1 - coth_weight (ph q / (2 * mu))) / 2)%R)
    with (RtoC ((1 - coth_weight (ph q / (2 * mu))) / 2 - mu / (Sigma_t q * ph q))).
  2:{ unfold RtoC, Cplus, Copp. cbn [fst snd]. f_equal; ring. }
  replace ((mu / (Sigma_t q * ph q), 0)%R + ((1 + coth_weight (ph q / (2 * mu))) / 2)%R)
    with (RtoC ((1 + coth_weight (ph q / (2 * mu))) / 2 + mu / (Sigma_t q * ph q))).
  2:{ unfold RtoC, Cplus, Copp. cbn [fst snd]. f_equal; ring. }
  reflexivity.
Qed.

Lemma sized_self p m : sized p m -> is_mat Carith m p p (ent Carith m).
Proof. intros (Hw & <- & E). pose proof (is_mat_self Carith m Hw) as H. rewrite E in H. exact H. Qed.
Lemma sized_of p m f : is_mat Carith m p p f -> sized p m.
Proof. intros (Hw & Hr & Hc & _). split; auto. Qed.
Lemma sized_zero p m : sized p m -> is_mat Carith (zero Carith m) p p (fun _ _ => 0).
Proof. intros (Hw & Hr & Hc). pose proof (zero_ok Carith m Hw) as H. rewrite Hr, Hc in H. exact H. Qed.

Lemma set_identity_ok p m : sized p m -> exists m', set_identity p m = Ret m' /\ is_mat Carith m' p p delta_.
Proof.
  intros Hm. unfold set_identity, cset.
  destruct (for_inv (fun k m => is_mat Carith m p p (fun i j => if (i <? k)%nat then delta_ i j else 0))
    (fun i m => set m i i (RtoC 1)) p 0 (zero Carith m)) as (m' & E & H').
  - eapply is_mat_ext; [apply sized_zero; exact Hm|]. reflexivity.
  - intros k mk Hk Hmk. destruct (set_is Carith mk p p _ k k (RtoC 1) Hmk) as (m2 & E2 & H2); [lia|lia|].
    exists m2. split; auto. eapply is_mat_ext; [exact H2|]. intros i j Hi Hj. cbv beta. unfold delta_.
    destruct (Nat.eqb_spec i k), (Nat.eqb_spec j k), (Nat.eqb_spec i j), (Nat.ltb_spec i k), (Nat.ltb_spec i (S k)); cbn [andb]; auto; lia.
  - exists m'. split; auto. eapply is_mat_ext; [exact H'|]. intros i j Hi Hj. cbv beta.
    destruct (Nat.ltb_spec i (0 + p)); [auto|lia].
Qed.

Lemma gemm_ok c a b p fa fb : sized p c -> is_mat Carith a p p fa -> is_mat Carith b p p fb ->
  exists c', gemm c a b = Ret c' /\ is_mat Carith c' p p (fun i j => csum p (fun k => fa i k * fb k j)).
Proof.
  intros Hc Ha Hb. unfold gemm.
  destruct (matmul_ok Carith (zero Carith c) a b p p p fa fb (fun _ _ => 0) Ha Hb (sized_zero p c Hc)) as (c' & E & H').
  exists c'. split; auto. eapply is_mat_ext; [exact H'|]. intros i j _ _. cbv beta. rewrite csum_acc. cbn [Carith omul]. ring.
Qed.

Lemma axpy_ok p w_n U X fu fx : is_mat Carith U p p fu -> is_mat Carith X p p fx ->
  exists U', for_ (Z.to_nat (Z.of_nat p * Z.of_nat p)) 0 (fun i U =>
      let* x := rd (data U) i in
      let* y := rd (data X) i in
      let* d := wr (data U) i (x + w_n * y) in
      Ret (mkM (rows U) (cols U) d)) U = Ret U' /\
    is_mat Carith U' p p (fun i j => fu i j + w_n * fx i j).
Proof.
  intros ((Lu & Bu) & Ru & Cu & Eu) ((Lx & Bx) & Rx & Cx & Ex).
  rewrite <- Nat2Z.inj_mul, Nat2Z.id.
  destruct (flat_loop Carith (fun k x => let* y := rd (data X) k in Ret (x + w_n * y))
    (fun k x => x + w_n * nth k (data X) 0) U (p * p)%nat) as (m' & E & Hr & Hc & Hd & Hn).
  { rewrite Lu, Ru, Cu. auto. }
  { intros k x Hk. unfold rd. rewrite (nth_error_nth' _ (RtoC 0)) by (rewrite Lx, Rx, Cx; auto). reflexivity. }
  exists m'. split.
  - rewrite <- E. apply for_ext. intros j s. destruct (rd (data s) j); cbn; auto. destruct (rd (data X) j); cbn; auto.
  - split; [split; [congruence|now rewrite Hr, Hc]|]. split; [congruence|]. split; [congruence|].
    intros i j Hi Hj. unfold ent. rewrite Hr, Ru.
    change (o0 Carith) with (RtoC 0). rewrite Hn by now apply index_bound.
    rewrite <- Eu, <- Ex by auto. unfold ent. rewrite Ru, Rx. reflexivity.
Qed.

Section Solve.
Variable solve : cmat -> cmat -> outcome (cmat * cmat).
Hypothesis Hsolve : solver solve.

Definition work_ok' (q : params) (s : work) (fu : nat -> nat -> C) : Prop :=
  is_mat Carith (wU s) (pp q) (pp q) fu /\ sized (pp q) (wB s) /\ sized (pp q) (wI s) /\ sized (pp q) (wA s) /\
  off_pattern_zero (pp q) (ent Carith (wA s)).

Lemma off_pattern_ext p f g : (forall i j, (i < p)%nat -> (j < p)%nat -> f i j = g i j) -> off_pattern_zero p g -> off_pattern_zero p f.
Proof. intros E H i j Hi Hj A B C. rewrite E by auto. now apply H. Qed.

Lemma ordinate_ok q alpha n s fu : cell_ok q -> (n < 32)%nat -> work_ok' q s fu ->
  exists s' x, ordinate solve q alpha n s = Ret s' /\
    right_inverse (pp q) (balance_matrix q (nth n mus 0%R) alpha) x /\
    work_ok' q s' (fun i j => fu i j + RtoC (nth n ws 0%R) *
      csum (pp q) (fun k => average_matrix q (nth n mus 0%R) alpha i k * x k j)).
Proof.
  intros Hq Hn (HU & HB & HI & HA & HAz). unfold ordinate. cbv zeta.
  destruct (set_identity_ok (pp q) (wI s) HI) as (Id & -> & HId). cbn [bind].
  assert (Em : rd mus n = Ret (nth n mus 0%R)) by (unfold rd; rewrite (nth_error_nth' _ 0%R); [auto|exact Hn]).
  rewrite Em. cbn [bind].
  assert (Ew : rd ws n = Ret (nth n ws 0%R)) by (unfold rd; rewrite (nth_error_nth' _ 0%R); [auto|exact Hn]).
  pose proof (mus_nz n Hn) as Hmu. set (mu := nth n mus 0%R) in *. clearbody mu.
  destruct (set_An_ok q mu alpha (wA s) _ Hq Hmu (sized_self _ _ HA) HAz) as (An & -> & HAn). cbn [bind].
  destruct (set_Bn_ok q mu alpha (zero Carith (wB s)) _ An Hq Hmu (sized_zero _ _ HB)) as (Bn & -> & HBn); auto.
  { intros i j _ _ _ _ _. reflexivity. }
  cbn [bind].
  destruct (Hsolve (pp q) Bn Id _ ltac:(destruct Hq; lia) HBn HId (balance_inverse q mu alpha Hq Hmu)) as (B' & X & x & -> & HB' & HX & Hx).
  cbn [bind]. destruct (gemm_ok B' An X (pp q) _ _ HB' HAn HX) as (Y & -> & HY). cbn [bind].
  rewrite Ew. cbn [bind]. set (w_n := nth n ws 0%R) in *. clearbody w_n.
  rewrite i32_ok. 2:{ destruct Hq as (_ & Hb & _). unfold in_i32, intMin. split; [lia|exact Hb]. }
  cbn [bind].
  destruct (axpy_ok (pp q) (RtoC w_n) (wU s) Y _ _ HU HY) as (U' & -> & HU'). cbn [bind].
  eexists. exists x. split; [reflexivity|]. split; [exact Hx|]. cbn [wU wA wB wI].
  split; [exact HU'|]. cbn [wU wA wB wI]. split; [eapply sized_of; eauto|]. split; [eapply sized_of; eauto|]. split; [eapply sized_of; eauto|].
  eapply off_pattern_ext; [|apply cyclic_off]. intros i j Hi Hj. destruct HAn as (_ & _ & _ & H). rewrite H by auto. reflexivity.
Qed.

Lemma set_U_ok q alpha s : cell_ok q -> work_ok q s ->
  exists s' u, set_U solve q alpha s = Ret s' /\ work_ok' q s' u /\ sweep q alpha u.
Proof.
  intros Hq (HU & HB & HI & HA & HAz). unfold set_U.
  destruct (for_inv (fun k s => exists binv, (forall n, (n < k)%nat -> right_inverse (pp q) (balance_matrix q (nth n mus 0%R) alpha) (binv n)) /\
      work_ok' q s (fun i j => csum k (fun n => RtoC (nth n ws 0%R) *
        csum (pp q) (fun k => average_matrix q (nth n mus 0%R) alpha i k * binv n k j))))
    (ordinate solve q alpha) 32 0 (mkW (zero Carith (wU s)) (wA s) (wB s) (wI s))) as (s' & -> & binv & Hb & H').
  - exists (fun _ _ _ => 0). split; [intros; lia|]. split; [|cbn; auto]. cbn [wU]. apply sized_zero. exact HU.
  - intros n s1 Hn (binv & Hb & H1).
    destruct (ordinate_ok q alpha n s1 _ Hq ltac:(lia) H1) as (s2 & x & E & Hx & H2). exists s2. split; auto.
    exists (fun k => if (k =? n)%nat then x else binv k). split.
    + intros k Hk. destruct (Nat.eqb_spec k n) as [->|]; auto. apply Hb. lia.
    + destruct H2 as (H2 & H3). split; auto. eapply is_mat_ext; [exact H2|]. intros i j Hi Hj. cbv beta.
      cbn [csum]. rewrite Nat.eqb_refl. f_equal. apply csum_ext. intros k Hk. destruct (Nat.eqb_spec k n); [lia|]. reflexivity.
  - cbn [bind]. change (0 + 32)%nat with 32%nat in *. destruct H' as (HU' & HB' & HI' & HA' & HAz').
    pose proof HU' as (W & R & C & E).
    destruct (scale_ok Carith (wU s') (RtoC (pc q / 2)) W) as (U & -> & H). cbn [bind].
    eexists. eexists. split; [reflexivity|]. split.
    + split; [|cbn; auto]. cbn [wU]. rewrite R, C in H. exact H.
    + exists binv. split; [exact Hb|]. intros i j Hi Hj. rewrite E by auto. cbn [Carith omul]. ring.
Qed.

Lemma diag_loop p m f g : (forall x, exists y, g x = y) -> is_mat Carith m p p f ->
  exists m', for_ p 0 (fun i m => let* x := cget m i i in cset m i i (g x)) m = Ret m' /\
    is_mat Carith m' p p (fun i j => if (i =? j)%nat then g (f i j) else f i j).
Proof.
  intros _ Hm.
  destruct (for_inv (fun k m => is_mat Carith m p p (fun i j => if (i =? j)%nat && (i <? k)%nat then g (f i j) else f i j))
    (fun i m => let* x := cget m i i in cset m i i (g x)) p 0 m) as (m' & E & H').
  - eapply is_mat_ext; [exact Hm|]. intros i j _ _. cbv beta. change (i <? 0)%nat with false. now rewrite andb_false_r.
  - intros k mk Hk Hmk. unfold cget, cset. rewrite (get_is Carith mk p p _ k k Hmk) by lia. cbn [bind].
    rewrite Nat.ltb_irrefl, andb_false_r.
    destruct (set_is Carith mk p p _ k k (g (f k k)) Hmk) as (m2 & E2 & H2); [lia|lia|].
    exists m2. split; auto. eapply is_mat_ext; [exact H2|]. intros i j Hi Hj. cbv beta.
    destruct (Nat.eqb_spec i k), (Nat.eqb_spec j k), (Nat.eqb_spec i j), (Nat.ltb_spec i k), (Nat.ltb_spec i (S k)); cbn [andb]; subst; auto; lia.
  - exists m'. split; auto. eapply is_mat_ext; [exact H'|]. intros i j Hi Hj. cbv beta.
    destruct (Nat.ltb_spec i (0 + p)); [now rewrite andb_true_r|lia].
Qed.

Lemma set_omega_ok omega J q alpha s : cell_ok q -> work_ok q s -> sized (pp q) omega ->
  is_mat Carith J (pp q) (pp q) (fun _ _ => 1) ->
  exists omega' s' w, set_omega solve omega J q alpha s = Ret (omega', s') /\ work_ok q s' /\
    is_mat Carith omega' (pp q) (pp q) w /\ amplification q alpha w.
Proof.
  intros Hq Hs Ho HJ. unfold set_omega. cbv zeta.
  destruct (set_U_ok q alpha s Hq Hs) as (s1 & u & -> & (HU & HR) & Hsw). cbn [bind].
  destruct (diag_loop (pp q) (wU s1) u (fun x => Cminus x (RtoC 1)) ltac:(eauto) HU) as (U & -> & HU'). cbn [bind].
  destruct (gemm_ok omega J U (pp q) _ _ Ho HJ HU') as (o1 & -> & H1). cbn [bind].
  pose proof H1 as (W1 & R1 & C1 & E1).
  destruct (scale_ok Carith o1 (RtoC (getF q alpha)) W1) as (o2 & -> & H2). cbn [bind]. rewrite R1, C1 in H2.
  pose proof H2 as (W2 & R2 & C2 & E2). pose proof HU' as (WU & RU & CU & EU).
  destruct (add_to_ok Carith Cplus o2 U W2 WU) as (o3 & E3 & H3); [congruence|congruence|].
  change (add_assign Carith o2 U) with (add_to Cplus o2 U). rewrite E3. cbn [bind]. rewrite R2, C2 in H3.
  destruct (diag_loop (pp q) o3 _ (fun x => Cplus x (RtoC 1)) ltac:(eauto) H3) as (o4 & -> & H4). cbn [bind].
  eexists _, _, _. split; [reflexivity|]. split.
  - unfold work_ok. cbn [wU wA wB wI]. split; [eapply sized_of; exact HU'|]. exact HR.
  - split; [exact H4|]. exists u. split; [exact Hsw|]. intros i j Hi Hj. cbv beta.
    rewrite E2, E1, EU by auto. cbn [Carith omul].
    assert (Es : csum (pp q) (fun k => 1 * (if (k =? j)%nat then Cminus (u k j) (RtoC 1) else u k j)) =
                 csum (pp q) (fun k => Cminus (u k j) (delta_ k j))).
    { apply csum_ext. intros k _. unfold delta_. destruct (k =? j)%nat; ring. }
    rewrite Es. unfold getF, correction. destruct (Nat.eqb_spec i j); ring.
Qed.
End Solve.
