(** The contracts of the CMFD program follow from those of LAPACK. *)
From Coq Require Import List Arith ZArith Bool Reals Lia Lra Classical IndefiniteDescription.
From Coquelicot Require Import Complex.
From Verif Require Import Base Loops Arith Matrix_Model Matrix_Spec Matrix_Proofs Cmfd_Model Cmfd_Spec Cmfd_Proofs.
From Verif Require Blas_Spec.
From Verif Require Import Blas_Model Blas_Proofs Blas_Ex_Proofs.
Import ListNotations.
Local Open Scope nat_scope.

Lemma C_field_theory_ : field_theory (o0 Carith) (o1 Carith) (oadd Carith) (omul Carith) (osub Carith) (oopp Carith) (odiv Carith) Cinv eq.
Proof.
  constructor; cbn [Carith o0 o1 oadd omul osub oopp odiv].
  - constructor; intros; try ring.
  - intros H. injection H. lra.
  - intros; reflexivity.
  - intros p Hp. rewrite Cmult_comm. now apply Cinv_r.
Qed.
Lemma R_field_theory_ : field_theory (o0 Rarith) (o1 Rarith) (oadd Rarith) (omul Rarith) (osub Rarith) (oopp Rarith) (odiv Rarith) Rinv eq.
Proof.
  constructor; cbn [Rarith o0 o1 oadd omul osub oopp odiv].
  - constructor; intros; ring.
  - lra.
  - intros; reflexivity.
  - intros p Hp. now apply Rinv_l.
Qed.

Lemma sum_csum n f : sum_left Carith n f = csum n f.
Proof. induction n as [|n IH]; [reflexivity|]. rewrite sum_left_S, IH. reflexivity. Qed.
Lemma solves_inverse p f x : Blas_Spec.solves Carith p p f x delta_ <-> right_inverse p f x.
Proof. split; intros H i j Hi Hj; specialize (H i j Hi Hj); rewrite sum_csum in *; exact H. Qed.

(** the call of cmfd.cpp:159: linearSolve(Bn, I, ipiv), the pivots dropped *)
Definition solve_of gesv (checks : bool) (junk : Z) (a b : cmat) : outcome (cmat * cmat) :=
  let* r := linearSolve_in_place gesv checks a b (repeat junk (rows a)) in
  let '(a, b, _) := r in Ret (a, b).

Lemma solver_of_lapack gesv checks junk : Blas_Spec.lapack_solves Carith gesv -> solver (solve_of gesv checks junk).
Proof.
  intros H p a b f Hp Ha Hb (x & Hx). unfold solve_of.
  pose proof Ha as (_ & Ra & _). rewrite Ra.
  destruct (in_place_ok Carith gesv H checks a b (repeat junk p) p p f delta_ Ha Hb (repeat_length _ _) Hp) as [(a' & b' & q & y & -> & W & R' & C' & _ & Hm & Hs)|(Hd & _)].
  - cbn [bind]. exists a', b', y. split; [reflexivity|]. split; [split; auto|]. split; [exact Hm|]. now apply solves_inverse.
  - exfalso. revert Hd. eapply (dependent_no_inverse Carith Cinv C_field_theory_). now apply solves_inverse; exact Hx.
Qed.

(** the product of cmfd.cpp, as modelled there and as computed by BLAS *)
Lemma gemm_same checks c a b p fa fb (c0 : @matrix (option C)) : p <> 0 -> sized p c -> is_mat Carith a p p fa -> is_mat Carith b p p fb ->
  rows c0 = p -> cols c0 = p -> length (data c0) = p * p ->
  exists m, Cmfd_Model.gemm c a b = Ret m /\ matmul_blas Carith checks c0 a b = Ret (mkM (rows m) (cols m) (map Some (data m))).
Proof.
  intros Hp (Wc & Rc & Cc) Ha Hb R0 C0 L0.
  assert (Hz : is_mat Carith (zero Carith c) p p (fun _ _ => RtoC 0)) by (pose proof (zero_ok Carith c Wc) as Z0; rewrite Rc, Cc in Z0; exact Z0).
  assert (Hm : exists m, Cmfd_Model.gemm c a b = Ret m /\ is_mat Carith m p p (fun i j => sum_left Carith p (fun k => Cmult (fa i k) (fb k j)))).
  { unfold Cmfd_Model.gemm. destruct (Matrix_Proofs.matmul_ok Carith (zero Carith c) a b p p p fa fb _ Ha Hb Hz) as (m & E & Hm). exists m. split; auto. }
  destruct Hm as (m & E & (Lm & Wm) & Rm & Cm & Em). exists m. split; auto.
  destruct (matmul_blas_ok Carith ltac:(intros; cbn; ring) ltac:(intros; cbn; ring) checks c0 a b p p p fa fb Ha Hb Hp Hp Hp R0 C0 L0) as (c' & -> & R' & C' & L' & E').
  f_equal. destruct c' as [r' k' d']. cbn [rows cols data] in *. rewrite Rm, Cm, R', C'. f_equal.
  apply (nth_ext _ _ None None); [rewrite map_length; rewrite Rm, Cm in Lm; lia|]. intros q Hq. rewrite L' in Hq.
  destruct (index_surj p p q Hq) as (i & j & Hi & Hj & ->). rewrite E' by auto.
  rewrite (nth_indep _ _ (Some (RtoC 0))) by (rewrite map_length, Lm, Rm, Cm; exact Hq). rewrite (map_nth Some).
  f_equal. refine (eq_trans (eq_sym (Em i j Hi Hj)) _). unfold ent. now rewrite Rm.
Qed.

(** some routine finds the eigenvalues of every matrix that has a list of them *)
Lemma cgeev_exists : exists cgeev, Blas_Spec.lapack_eigen_complex cgeev /\
  forall n a lwork w, length w = n -> (forall l : C, In l w <-> Blas_Spec.eigenvalue n (fun i j => nth (j * n + i) a (RtoC 0)) l) ->
    exists w', cgeev n a n lwork = Ret (w', 0%Z) /\ forall l, In l w' <-> In l w.
Proof.
  set (Q := fun n (a : list C) (w : list C) => length w = n /\ forall l : C, In l w <-> Blas_Spec.eigenvalue n (fun i j => nth (j * n + i) a (RtoC 0)) l).
  assert (H : forall n a, exists r : list C * Z, length (fst r) = n /\ ((snd r = 0%Z /\ Q n a (fst r)) \/ (snd r = 1%Z /\ ~ exists w, Q n a w))).
  { intros n a. destruct (classic (exists w, Q n a w)) as [(w & Hw)|N].
    - exists (w, 0%Z). split; [apply Hw|]. left. auto.
    - exists (repeat (RtoC 0) n, 1%Z). split; [apply repeat_length|]. right. auto. }
  exists (fun n a _ _ => Ret (proj1_sig (constructive_indefinite_description _ (H n a)))). split.
  - intros n a lwork Hn Ha Hw. destruct (constructive_indefinite_description _ (H n a)) as ((w & info) & Hl & Hr). cbn [proj1_sig fst snd] in *.
    exists w, info. split; [reflexivity|]. split; [auto|]. destruct Hr as [(-> & _ & Hq)|(-> & _)]; split; auto; lia.
  - intros n a lwork w Hw Hq. destruct (constructive_indefinite_description _ (H n a)) as ((w' & info) & Hl & Hr). cbn [proj1_sig fst snd] in *.
    destruct Hr as [(-> & _ & Hq')|(_ & N)]; [|exfalso; apply N; exists w; split; auto].
    exists w'. split; [reflexivity|]. intros l. now rewrite Hq, Hq'.
Qed.
Lemma geev_exists : exists geev, Blas_Spec.lapack_eigen geev /\
  forall n a lwork wr wi, length wr = n -> length wi = n -> (forall l : C, In l (combine wr wi) <-> Blas_Spec.eigenvalue n (fun i j => RtoC (nth (j * n + i) a 0%R)) l) ->
    exists x y, geev n a n lwork = Ret (x, y, 0%Z).
Proof.
  set (Q := fun n (a : list R) (w : list R * list R) => length (fst w) = n /\ length (snd w) = n /\ forall l : C, In l (combine (fst w) (snd w)) <-> Blas_Spec.eigenvalue n (fun i j => RtoC (nth (j * n + i) a 0%R)) l).
  assert (H : forall n a, exists r : list R * list R * Z, length (fst (fst r)) = n /\ length (snd (fst r)) = n /\ ((snd r = 0%Z /\ Q n a (fst r)) \/ (snd r = 1%Z /\ ~ exists w, Q n a w))).
  { intros n a. destruct (classic (exists w, Q n a w)) as [(w & Hw)|N].
    - exists (w, 0%Z). split; [apply Hw|]. split; [apply Hw|]. left. auto.
    - exists (repeat 0%R n, repeat 0%R n, 1%Z). split; [apply repeat_length|]. split; [apply repeat_length|]. right. auto. }
  exists (fun n a _ _ => Ret (proj1_sig (constructive_indefinite_description _ (H n a)))). split.
  - intros n a lwork Hn Ha Hw. destruct (constructive_indefinite_description _ (H n a)) as (((x & y) & info) & Hx & Hy & Hr). cbn [proj1_sig fst snd] in *.
    exists x, y, info. split; [reflexivity|]. split; [auto|]. split; [auto|]. destruct Hr as [(-> & _ & _ & Hq)|(-> & _)]; split; auto; lia.
  - intros n a lwork wr wi Hx Hy Hq. destruct (constructive_indefinite_description _ (H n a)) as (((x & y) & info) & Hx' & Hy' & Hr). cbn [proj1_sig fst snd] in *.
    destruct Hr as [(-> & _)|(_ & N)]; [|exfalso; apply N; exists (wr, wi); split; auto]. eauto.
Qed.

(** a quarter turn *)
Definition turn : @matrix R := mkM 2 2 [0; -1; 1; 0]%R.
Lemma turn_eigen (l : C) : Blas_Spec.eigenvalue 2 (fun i j => RtoC (nth (j * 2 + i) (data turn) 0%R)) l <-> l = (0, 1)%R \/ l = (0, -1)%R.
Proof.
  assert (E : forall v : nat -> C, (forall i, i < 2 -> Blas_Spec.csum 2 (fun k => Cmult (RtoC (nth (k * 2 + i) (data turn) 0%R)) (v k)) = Cmult l (v i)) <->
    v 1%nat = Cmult l (v 0%nat) /\ Copp (v 0%nat) = Cmult l (v 1%nat)).
  { intros v. assert (E0 : Blas_Spec.csum 2 (fun k => Cmult (RtoC (nth (k * 2 + 0) (data turn) 0%R)) (v k)) = v 1%nat) by (cbn; apply injective_projections; cbn; ring).
    assert (E1 : Blas_Spec.csum 2 (fun k => Cmult (RtoC (nth (k * 2 + 1) (data turn) 0%R)) (v k)) = Copp (v 0%nat)) by (cbn; apply injective_projections; cbn; ring).
    split.
    - intros H. pose proof (H 0%nat ltac:(lia)) as H0. pose proof (H 1%nat ltac:(lia)) as H1. rewrite E0 in H0. rewrite E1 in H1. auto.
    - intros (H0 & H1) i Hi. destruct i as [|[|i]]; [rewrite E0; exact H0|rewrite E1; exact H1|lia]. }
  split.
  - intros (v & (i & Hi & Hv) & H). apply E in H as (H1 & H2). rewrite H1 in H2.
    assert (N : v 0%nat <> RtoC 0).
    { intros Z0. apply Hv. destruct i as [|[|i]]; [exact Z0|rewrite H1, Z0; ring|lia]. }
    assert (Q : Cmult l l = Copp (RtoC 1)).
    { assert (Q : Cmult (Cplus (Cmult l l) (RtoC 1)) (v 0%nat) = RtoC 0).
      { transitivity (Cplus (Cmult l (Cmult l (v 0%nat))) (v 0%nat)); [ring|]. rewrite <- H2. ring. }
      destruct (classic (Cplus (Cmult l l) (RtoC 1) = RtoC 0)) as [Z0|Z0].
      - transitivity (Cminus (Cplus (Cmult l l) (RtoC 1)) (RtoC 1)); [ring|]. rewrite Z0. ring.
      - exfalso. exact (Cmult_neq_0 _ _ Z0 N Q). }
    destruct l as (x, y). injection Q as Q1 Q2. assert (x = 0)%R by nra. subst x.
    assert (Y : ((y - 1) * (y + 1) = 0)%R) by lra. apply Rmult_integral in Y as [Y|Y]; [left|right]; f_equal; lra.
  - intros Hl. exists (fun i => if i =? 0 then RtoC 1 else l). split; [exists 0%nat; split; [lia|]; cbn; intros Z0; injection Z0; lra|].
    apply E. cbn [Nat.eqb]. destruct Hl as [-> | ->]; split; apply injective_projections; cbn; ring.
Qed.
Lemma turn_ok : exists geev w, Blas_Spec.lapack_eigen geev /\ eigvals_real geev true turn = Ret w /\
  forall l, In l w <-> l = (0, 1)%R \/ l = (0, -1)%R.
Proof.
  destruct geev_exists as (geev & H & Hx). exists geev.
  destruct (Hx 2 (data turn) 8%Z [0; 0]%R [1; -1]%R eq_refl eq_refl) as (x & y & E).
  { intros l. rewrite turn_eigen. cbn [combine In]. split; intros [A|[A|A]] || intros [A|A]; auto; try contradiction. }
  assert (W : is_mat Rarith turn 2 2 (ent Rarith turn)) by (apply is_mat_self; split; [reflexivity|vm_compute; discriminate]).
  destruct (eigvals_real_ok geev H true turn 2 _ W ltac:(lia) ltac:(vm_compute; discriminate)) as (x' & y' & info & E' & Hi & _).
  change (4 * Z.of_nat 2)%Z with 8%Z in E'. rewrite E in E'. assert (info = 0%Z) as -> by (injection E'; auto).
  destruct (Hi eq_refl) as (w & F & _ & Hw). exists w. split; [exact H|]. split; [exact F|]. intros l. rewrite Hw, <- turn_eigen. reflexivity.
Qed.
