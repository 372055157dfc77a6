(** C54: the matrices of the CMFD spectral radius model. *)
From Coq Require Import List Arith ZArith Reals Lia Lra.
From Coquelicot Require Import Complex.
From Verif Require Import Base Loops Arith Matrix_Model Matrix_Spec
  Cmfd_Model Cmfd_Spec Cmfd_Proofs Cmfd_Ana_Proofs Cmfd_Loop_Proofs Cmfd_Flat_Proofs Cmfd_Again_Proofs Cmfd_Ex_Proofs.
Import ListNotations.
Open Scope C_scope.

(** C54: for two or more fine cells the cell-average matrix has the diagonal and the neighbour coupling
    of every row, the last row coupled to the first cell with the phase, and nothing else; the matrix of
    another direction or frequency may be stored there before. *)
Theorem C54_average : forall q mu alpha m f, cell_ok q -> mu <> 0%R ->
  is_mat Carith m (pp q) (pp q) f -> off_pattern_zero (pp q) f ->
  exists m', set_An m q mu alpha = Ret m' /\ is_mat Carith m' (pp q) (pp q) (average_matrix q mu alpha) /\
    off_pattern_zero (pp q) (average_matrix q mu alpha).
Proof.
  intros q mu alpha m f Hq Hmu Hm Hf. destruct (set_An_ok q mu alpha m f Hq Hmu Hm Hf) as (m' & A & B).
  exact (ex_intro _ m' (conj A (conj B (cyclic_off _ _ _ _)))).
Qed.
Print Assumptions C54_average.
Example C54_average_ex : exists m', set_An zero2 cell2 (1/3) 1 = Ret m' /\
  is_mat Carith m' 2 2 (average_matrix cell2 (1/3) 1).
Proof.
  destruct (C54_average cell2 (1/3) 1 zero2 (fun _ _ => 0) cell2_ok ltac:(lra) zero2_is) as (m' & A & B & _).
  - intros i j _ _ _ _ _. reflexivity.
  - exists m'. auto.
Qed.

(** The balance matrix likewise: leakage plus the cell-average matrix. *)
Theorem C54_balance : forall q mu alpha m f a, cell_ok q -> mu <> 0%R ->
  is_mat Carith m (pp q) (pp q) f -> off_pattern_zero (pp q) f ->
  is_mat Carith a (pp q) (pp q) (average_matrix q mu alpha) ->
  exists m', set_Bn m a q mu alpha = Ret m' /\ is_mat Carith m' (pp q) (pp q) (balance_matrix q mu alpha).
Proof. exact set_Bn_ok. Qed.
Print Assumptions C54_balance.

(** The balance system of every direction has exactly one solution for every source. *)
Theorem C54_nonsingular : forall q mu alpha, cell_ok q -> mu <> 0%R ->
  (exists x, right_inverse (pp q) (balance_matrix q mu alpha) x) /\
  forall y y' : nat -> C,
    (forall i, (i < pp q)%nat -> csum (pp q) (fun k => balance_matrix q mu alpha i k * y k) =
                                 csum (pp q) (fun k => balance_matrix q mu alpha i k * y' k)) ->
    forall i, (i < pp q)%nat -> y i = y' i.
Proof. exact (fun q mu alpha Hq Hmu => conj (balance_inverse q mu alpha Hq Hmu) (fun y y' => balance_unique q mu alpha y y' Hq Hmu)). Qed.
Print Assumptions C54_nonsingular.
Example C54_nonsingular_ex : exists x, right_inverse 2 (balance_matrix cell2 (-1/3) 1) x.
Proof. exact (proj1 (C54_nonsingular cell2 (-1/3) 1 cell2_ok ltac:(lra))). Qed.

(** With one fine cell the diagonal coupling is overwritten by the corner: the first transport matrix is
    never the periodic one. *)
Theorem C54_single_refuted : forall q mu alpha m, pp q = 1%nat -> (0 < ph q)%R -> mu <> 0%R ->
  is_mat Carith m 1 1 (fun _ _ => 0) ->
  exists m', set_An m q mu alpha = Ret m' /\ ent Carith m' 0 0 <> average_matrix q mu alpha 0%nat 0%nat.
Proof. exact single_cell. Qed.
Print Assumptions C54_single_refuted.
Example C54_single_ex : exists m', set_An (mkM 1 1 [RtoC 0]) (CMFDCellParams 1 1 1 (1/2) 1 0) (1/3) 0 = Ret m' /\
  ent Carith m' 0 0 <> average_matrix (CMFDCellParams 1 1 1 (1/2) 1 0) (1/3) 0 0%nat 0%nat.
Proof.
  apply C54_single_refuted; [reflexivity|cbn; lra|lra|].
  split; [split; cbn; [reflexivity|unfold intMax; lia]|]. split; [reflexivity|]. split; [reflexivity|].
  intros i j Hi Hj. destruct i; [destruct j; [reflexivity|lia]|lia].
Qed.

(** A beam without a source loses the factor exp (- Sigma_t h / mu) over a fine cell when the
    total cross section is one.  For others it does not (next theorem): the weight
    is computed from h instead of Sigma_t h. *)
Theorem C54_attenuation_unit : forall q mu alpha i, cell_ok q -> mu <> 0%R -> Sigma_t q = 1%R ->
  (S i < pp q)%nat ->
  balance_matrix q mu alpha i i + balance_matrix q mu alpha i (S i) * RtoC (exp (- (Sigma_t q * ph q / mu))) = 0.
Proof.
  intros q mu alpha i (Hp & _ & _ & Hh) Hmu Hs Hi. unfold balance_matrix, cyclic. cbv zeta.
  rewrite Nat.eqb_refl. destruct (Nat.eqb_spec i (i + 1)); [lia|]. destruct (Nat.eqb_spec (S i) i); [lia|].
  destruct (Nat.eqb_spec (S i) (i + 1)); [|lia]. destruct (Nat.eqb_spec i (pp q - 1)); [lia|]. cbn [andb].
  rewrite Hs, !Rmult_1_l.
  assert (Hz : (ph q / (2 * mu) <> 0)%R).
  { unfold Rdiv. apply Rmult_integral_contrapositive_currified; [lra|]. apply Rinv_neq_0_compat. lra. }
  pose proof (attenuation _ Hz) as A.
  replace (/ (2 * (ph q / (2 * mu))))%R with (mu / ph q)%R in A by (field; split; lra).
  replace (- (2 * (ph q / (2 * mu))))%R with (- (ph q / mu))%R in A by (field; lra).
  rewrite !Cplus_0_r, Cplus_0_l, <- RtoC_mult, <- RtoC_plus, A. reflexivity.
Qed.
Print Assumptions C54_attenuation_unit.
Example C54_attenuation_ex : balance_matrix cell2 (1/4) 1 0 0 + balance_matrix cell2 (1/4) 1 0 1 *
  RtoC (exp (- (1 * (1 / 2) / (1/4)))) = 0.
Proof.
  apply (C54_attenuation_unit cell2 (1/4) 1 0 cell2_ok); [lra|reflexivity|cbn; lia].
Qed.
Theorem C54_attenuation_refuted : exists q mu alpha i, cell_ok q /\ mu <> 0%R /\ (S i < pp q)%nat /\
  balance_matrix q mu alpha i i + balance_matrix q mu alpha i (S i) * RtoC (exp (- (Sigma_t q * ph q / mu))) <> 0.
Proof.
  exists (CMFDCellParams 1 2 2 (1/2) 1 0), 1%R, 0%R, 0%nat.
  split; [unfold cell_ok, intMax; cbn; repeat split; try lra; lia|]. split; [lra|]. split; [cbn; lia|].
  unfold balance_matrix, cyclic. cbn [Nat.eqb Nat.add Nat.sub andb pp ph Sigma_t CMFDCellParams].
  rewrite !Cplus_0_r, Cplus_0_l, <- RtoC_mult, <- RtoC_plus. intros E. apply RtoC_inj in E.
  apply (attenuation_wrong (1 / INR 2 / (2 * 1))); [cbn; lra|]. rewrite <- E. 
  replace (/ (2 * (2 * (1 / INR 2 / (2 * 1)))))%R with (1 / (2 * (1 / INR 2)))%R by (cbn; lra).
  replace (- (2 * (2 * (1 / INR 2 / (2 * 1)))))%R with (- (2 * (1 / INR 2) / 1))%R by (cbn; lra). reflexivity.
Qed.
Print Assumptions C54_attenuation_refuted.

(** The quadrature: 32 directions, symmetric about zero, inside (-1, 1), weights positive and summing to
    two within the precision of the table. *)
Theorem C54_quadrature : (forall n, (n < 32)%nat ->
    nth (31 - n) mus 0%R = (- nth n mus 0)%R /\ nth (31 - n) ws 0%R = nth n ws 0%R /\
    (-1 < nth n mus 0 < 1)%R /\ nth n mus 0%R <> 0%R /\ (0 < nth n ws 0)%R) /\
  (- / 10 ^ 15 < fold_right Rplus 0 ws - 2 < / 10 ^ 15)%R.
Proof.
  exact (conj (fun n Hn => conj (mus_odd n Hn) (conj (ws_even n Hn) (conj (mus_in n Hn) (conj (mus_nz n Hn) (ws_pos n Hn))))) wsum_near).
Qed.
Print Assumptions C54_quadrature.

(** The amplification matrix is the transport sweep over the 32 directions followed by the coarse mesh
    correction, for every frequency, whatever the previous frequency left in the working matrices, which
    stay usable for the next one; and those equations determine it. *)
Theorem C54_amplification : forall solve omega J q alpha s, solver solve -> cell_ok q -> work_ok q s ->
  sized (pp q) omega -> is_mat Carith J (pp q) (pp q) (fun _ _ => 1) ->
  exists omega' s' w, set_omega solve omega J q alpha s = Ret (omega', s') /\ work_ok q s' /\
    is_mat Carith omega' (pp q) (pp q) w /\ amplification q alpha w /\
    forall w', amplification q alpha w' -> forall i j, (i < pp q)%nat -> (j < pp q)%nat -> w' i j = w i j.
Proof.
  intros solve omega J q alpha s Hs Hq Hw Ho HJ.
  destruct (set_omega_ok solve Hs omega J q alpha s Hq Hw Ho HJ) as (o & s' & w & A & B & C & D).
  exists o, s', w. exact (conj A (conj B (conj C (conj D (fun w' H => amplification_unique q alpha w' w Hq H D))))).
Qed.
Print Assumptions C54_amplification.
Example C54_amplification_ex : exists solve omega' s', solver solve /\
  set_omega solve zero2 (mkM 2 2 [RtoC 1; RtoC 1; RtoC 1; RtoC 1]) cell2 1 work2 = Ret (omega', s').
Proof.
  destruct solver_exists as (solve & Hs). exists solve.
  destruct (C54_amplification solve zero2 (mkM 2 2 [RtoC 1; RtoC 1; RtoC 1; RtoC 1]) cell2 1 work2 Hs cell2_ok work2_ok
    (sized_of _ _ _ zero2_is)) as (o & s' & _ & E & _).
  - split; [split; cbn; [reflexivity|unfold intMax; lia]|]. split; [reflexivity|]. split; [reflexivity|].
    intros i j Hi Hj. cbn [pp cell2 CMFDCellParams] in *. do 2 (destruct i as [|i]; [do 2 (destruct j as [|j]; [reflexivity|]); lia|]). lia.
  - exists o, s'. auto.
Qed.

(** The homogeneous limit: at zero frequency every row of the sweep sums to the scattering ratio times half
    the sum of the quadrature weights... *)
Theorem C54_rows : forall q u, cell_ok q -> sweep q 0 u -> forall i, (i < pp q)%nat ->
  csum (pp q) (u i) = RtoC (pc q * (fold_right Rplus 0 ws / 2)).
Proof.
  intros q u Hq Hu i Hi. rewrite (sweep_rows q u Hq Hu i Hi). f_equal. unfold wsum. field.
Qed.
Print Assumptions C54_rows.
(** ... and the correction removes the flat mode: every row of the amplification matrix sums to zero, up to
    the error of the weights. *)
Theorem C54_flat : forall w p sigma c s eta f, (0 < w)%R -> (2 <= p)%nat ->
  (Z.of_nat p * Z.of_nat p <= intMax)%Z -> (0 < sigma)%R -> (0 <= c < 1)%R ->
  amplification (CMFDCellParams w p sigma c s eta) 0 f -> forall i, (i < p)%nat ->
  (Cmod (csum p (fun j => f i j)) <= c / (1 - c) * / 10 ^ 15)%R.
Proof.
  intros w p sigma c s eta f Hw Hp Hpi Hs Hc Hf i Hi.
  assert (Hp' : (0 < INR p)%R) by (apply (lt_INR 0); lia).
  assert (Hq : cell_ok (CMFDCellParams w p sigma c s eta)).
  { unfold cell_ok. cbn. repeat split; auto. apply Rdiv_lt_0_compat; auto. }
  pose proof (flat_rows _ f Hq eq_refl eq_refl ltac:(cbn; lra) Hf i Hi) as E. cbn [pp pc CMFDCellParams] in E. rewrite E, Cmod_R.
  assert (0 <= c / (1 - c))%R by (apply Rmult_le_pos; [lra|left; apply Rinv_0_lt_compat; lra]).
  rewrite Rabs_mult, (Rabs_pos_eq (c / (1 - c))) by auto. apply Rmult_le_compat_l; auto.
  pose proof wsum_near. unfold Rabs. destruct (Rcase_abs ((wsum - 2) / 2)); lra.
Qed.
Print Assumptions C54_flat.
Example C54_flat_ex : exists f, amplification cell2 0 f /\
  (Cmod (csum 2 (fun j => f 0%nat j)) <= (1/2) / (1 - 1/2) * / 10 ^ 15)%R.
Proof.
  destruct solver_exists as (solve & Hs).
  destruct (C54_amplification solve zero2 (mkM 2 2 [RtoC 1; RtoC 1; RtoC 1; RtoC 1]) cell2 0 work2 Hs cell2_ok work2_ok
    (sized_of _ _ _ zero2_is)) as (o & s' & f & _ & _ & _ & Hf & _).
  - split; [split; cbn; [reflexivity|unfold intMax; lia]|]. split; [reflexivity|]. split; [reflexivity|].
    intros i j Hi Hj. cbn [pp cell2 CMFDCellParams] in *. do 2 (destruct i as [|i]; [do 2 (destruct j as [|j]; [reflexivity|]); lia|]). lia.
  - exists f. split; auto. apply (C54_flat 1 2 1 (1/2) 1 0 f); try lra; try lia; auto. unfold intMax; lia.
Qed.

(** The spectral radius is an eigenvalue of largest modulus among those of the amplification matrices of
    all 256 frequencies 0, ..., pi / delta, or zero if they all vanish. *)
Theorem C54_spectral : forall solve eigvals q omega J s, solver solve -> cell_ok q ->
  (forall m f, is_mat Carith m (pp q) (pp q) f -> exists l, eigvals m = Ret l) ->
  sized (pp q) omega -> sized (pp q) J ->
  sized (pp q) (wU s) -> sized (pp q) (wA s) -> sized (pp q) (wB s) -> sized (pp q) (wI s) ->
  exists r (om : nat -> cmat) (eg : nat -> list C), spectral_radius solve eigvals q omega J s = Ret r /\
    (forall i, (i < 256)%nat -> eigvals (om i) = Ret (eg i) /\ exists w, is_mat Carith (om i) (pp q) (pp q) w /\
       amplification q (INR i * (PI / delta q / 255)) w) /\
    (r = 0 \/ exists i, (i < 256)%nat /\ In r (eg i)) /\
    forall i e, (i < 256)%nat -> In e (eg i) -> (Cmod e <= Cmod r)%R.
Proof. exact spectral_ok. Qed.
Print Assumptions C54_spectral.
Example C54_spectral_ex : exists solve r, solver solve /\
  spectral_radius solve (fun m => Ret (firstn 2 (data m))) cell2 zero2 zero2 work2 = Ret r.
Proof.
  destruct solver_exists as (solve & Hs). exists solve. pose proof (sized_of _ _ _ zero2_is) as Z.
  destruct (C54_spectral solve (fun m => Ret (firstn 2 (data m))) cell2 zero2 zero2 work2 Hs cell2_ok) as (r & _ & _ & E & _); auto.
  - intros m f _. eauto.
  - exists r. auto.
Qed.

(** The spectral radius does not depend on what the matrices held that are passed to compute it: that of one cell is the same after that of
    any other. *)
Theorem C54_repeatable : forall solve eigvals q o1 J1 s1 o2 J2 s2, solver solve -> cell_ok q ->
  (forall m f, is_mat Carith m (pp q) (pp q) f -> exists l, eigvals m = Ret l) ->
  Forall (sized (pp q)) [o1; J1; wU s1; wA s1; wB s1; wI s1] -> Forall (sized (pp q)) [o2; J2; wU s2; wA s2; wB s2; wI s2] ->
  exists r, spectral_radius solve eigvals q o1 J1 s1 = Ret r /\ spectral_radius solve eigvals q o2 J2 s2 = Ret r.
Proof.
  intros solve eigvals q o1 J1 s1 o2 J2 s2 Hs Hq He H1 H2. rewrite Forall_forall in H1, H2.
  apply spectral_again; auto; try (apply H1; cbn; tauto); try (apply H2; cbn; tauto);
    repeat split; try (apply H1; cbn; tauto); apply H2; cbn; tauto.
Qed.
Print Assumptions C54_repeatable.
Example C54_repeatable_ex : Forall (sized 2) [zero2; zero2; wU work2; wA work2; wB work2; wI work2].
Proof. pose proof (sized_of _ _ _ zero2_is) as Z. repeat constructor; try apply Z; apply work2_ok. Qed.
