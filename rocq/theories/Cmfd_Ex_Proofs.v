(** Corner cases of the CMFD model and instances for the examples. *)
From Coq Require Import List Arith ZArith Reals Lia Lra Bool ClassicalEpsilon.
From Coquelicot Require Import Complex.
From Verif Require Import Base Loops Arith Matrix_Model Matrix_Spec Matrix_Proofs
  Cmfd_Model Cmfd_Spec Cmfd_Proofs Cmfd_Ana_Proofs Cmfd_Loop_Proofs.
Import ListNotations.
Open Scope R_scope.

(** one fine cell: the diagonal is overwritten *)
Lemma weight_lt_1 z : z <> 0 -> coth_weight z <> 1.
Proof.
  intros H E. unfold coth_weight in E. pose proof (sinh_nz z H) as Hs.
  assert (E2 : z * (cosh z - sinh z) = sinh z).
  { apply (Rmult_eq_reg_r (/ (z * sinh z))); [|apply Rinv_neq_0_compat; apply Rmult_integral_contrapositive_currified; auto].
    transitivity (cosh z / sinh z - 1); [field; auto|]. transitivity (/ z); [lra|]. field. auto. }
  replace (cosh z - sinh z) with (exp (- z)) in E2 by (unfold sinh, cosh; lra). unfold sinh in E2.
  pose proof (exp_ineq1 (2 * z) ltac:(lra)) as L. replace (2 * z) with (z + z) in L by lra. rewrite exp_plus in L.
  assert (Ez : exp z * exp (- z) = 1) by (rewrite <- exp_plus, Rplus_opp_r; apply exp_0).
  pose proof (exp_pos z). pose proof (exp_pos (- z)).
  assert (exp z * (z * exp (- z)) = exp z * ((exp z - exp (- z)) / 2)) by (now rewrite E2). nra.
Qed.
Lemma single_cell q mu alpha m : pp q = 1%nat -> 0 < ph q -> mu <> 0 -> is_mat Carith m 1 1 (fun _ _ => RtoC 0) ->
  exists m', set_An m q mu alpha = Ret m' /\ ent Carith m' 0 0 <> average_matrix q mu alpha 0%nat 0%nat.
Proof.
  intros Hp Hh Hmu Hm. unfold set_An, set_pattern, cset. cbv zeta. rewrite Hp. cbn [Nat.sub for_].
  destruct (set_is Carith m 1 1 _ 0 0 (((1 - beta_n (ph q) mu) / 2, 0) : C) Hm) as (m1 & -> & H1); [lia|lia|]. cbn [bind].
  match goal with |- context [set m1 0 0 ?x] => destruct (set_is Carith m1 1 1 _ 0 0 x H1) as (m2 & -> & (_ & _ & _ & H2)) end; [lia|lia|].
  cbn [bind]. exists m2. split; auto. rewrite H2 by lia. cbn [Nat.eqb andb]. rewrite corner_phase, beta_weight by lra.
  unfold average_matrix. cbv zeta. rewrite Hp. unfold cyclic. cbn [Nat.eqb Nat.add Nat.sub andb].
  assert (Hz : ph q / (2 * mu) <> 0).
  { unfold Rdiv. apply Rmult_integral_contrapositive_currified; [lra|]. apply Rinv_neq_0_compat. lra. }
  pose proof (weight_lt_1 _ Hz) as Hw. set (b := coth_weight (ph q / (2 * mu))) in *. clearbody b.
  intros E. apply Hw. apply (f_equal fst) in E. unfold RtoC in E. cbn [Cplus Cmult fst snd] in E. lra.
Qed.

(** a total cross section other than one: the balance row does not attenuate as exp (- Sigma_t h / mu) *)
Lemma sinh_gt x : 0 < x -> x < sinh x.
Proof.
  intros H. destruct (MVT_cor2 (fun t => sinh t - t) (fun t => cosh t - 1) 0 x H) as (c & E & Hc).
  - intros c _. apply derivable_pt_lim_minus; [apply derivable_pt_lim_sinh|apply derivable_pt_lim_id].
  - rewrite sinh_0 in E.
    assert (1 < cosh c).
    { unfold cosh. pose proof (exp_ineq1 c ltac:(lra)). pose proof (exp_ineq1 (- c) ltac:(lra)). lra. }
    assert (0 < (cosh c - 1) * (x - 0)) by (apply Rmult_lt_0_compat; lra). lra.
Qed.
Lemma attenuation_wrong z : 0 < z ->
  ((1 - coth_weight z) / 2 - / (2 * (2 * z))) + ((1 + coth_weight z) / 2 + / (2 * (2 * z))) * exp (- (2 * (2 * z))) <> 0.
Proof.
  intros H E. pose proof (attenuation z ltac:(lra)) as A.
  pose proof (sinh_gt (2 * z) ltac:(lra)) as S2. unfold sinh in S2.
  unfold coth_weight in *. pose proof (sinh_pos z H) as Hs.
  set (a := exp (- (2 * z))) in *.
  assert (Ea : exp (- (2 * (2 * z))) = a * a) by (unfold a; rewrite <- exp_plus; f_equal; lra).
  assert (Eb : exp (2 * z) * a = 1) by (unfold a; rewrite <- exp_plus, Rplus_opp_r; apply exp_0).
  rewrite Ea in E. pose proof (exp_pos (- (2 * z))) as Pa. fold a in Pa.
  assert (a < 1). { unfold a. rewrite <- exp_0. apply exp_increasing. lra. }
  (* eliminate cosh / sinh through the attenuation identity *)
  set (t := cosh z / sinh z) in *.
  replace (/ (2 * (2 * z))) with (/ z / 4) in E by (field; lra).
  replace (/ (2 * z)) with (/ z / 2) in A by (field; lra).
  assert (Ez : z * / z = 1) by (field; lra). set (k := / z) in *. assert (0 < k) by (apply Rinv_0_lt_compat; auto).
  (* A: (1 - t)/2 + (1 + t)/2 a = 0,  E: (1 - t)/2 + k/4 + ((1 + t)/2 - k/4) a^2 = 0 *)
  assert (A' : 1 - t + (1 + t) * a = 0) by lra.
  assert (E' : 1 - t + k / 2 + (1 + t - k / 2) * (a * a) = 0) by lra.
  assert (F : (1 + t) * a * (a - 1) + k / 2 * (1 - a * a) = 0) by nra.
  assert (T : (1 + t) * (1 - a) = 2) by lra.
  assert (G : k / 2 * (1 - a * a) = 2 * a) by nra.
  assert (H3 : 1 - a * a = 4 * z * a). { transitivity (z * k * (1 - a * a)); [rewrite Ez; ring|]. nra. }
  assert (H4 : (exp (2 * z) - a) * a = 4 * z * a) by (rewrite Rmult_minus_distr_r, Eb; exact H3).
  apply Rmult_eq_reg_r in H4; [|lra]. lra.
Qed.

(** some solver keeps LAPACK's promise *)
Lemma solver_exists : exists solve, solver solve.
Proof.
  set (P := fun (a b : cmat) (r : cmat * cmat) => forall p f, is_mat Carith a p p f -> is_mat Carith b p p delta_ ->
    (exists x, right_inverse p f x) ->
    exists x, sized p (fst r) /\ is_mat Carith (snd r) p p x /\ right_inverse p f x).
  assert (H : forall a b, exists r, P a b r).
  { intros a b. destruct (classic (exists p f, is_mat Carith a p p f /\ is_mat Carith b p p delta_ /\ exists x, right_inverse p f x)) as [(p & f & Ha & Hb & x & Hx)|N].
    - destruct Ha as (Wa & Ra & Ca & Ea).
      assert (Hz : (Z.of_nat p * Z.of_nat p <= intMax)%Z) by (destruct Wa as (_ & W); rewrite Ra, Ca in W; exact W).
      (* the matrix with the entries x *)
      set (m := mkM p p (map (fun k => x (k mod p)%nat (k / p)%nat) (seq 0 (p * p))) : cmat).
      assert (Hm : is_mat Carith m p p x).
      { split; [split; [cbn; now rewrite map_length, seq_length|exact Hz]|]. split; [reflexivity|]. split; [reflexivity|].
        intros i j Hi Hj. unfold ent, m. cbn [rows data]. pose proof (index_bound p p i j Hi Hj) as B.
        rewrite (nth_indep _ _ ((fun k => x (k mod p)%nat (k / p)%nat) 0%nat)) by (rewrite map_length, seq_length; auto).
        rewrite (map_nth (fun k => x (k mod p)%nat (k / p)%nat)), seq_nth by auto. cbn [Nat.add].
        rewrite Nat.add_comm, Nat.mod_add, Nat.div_add, Nat.mod_small, Nat.div_small by lia. reflexivity. }
      exists (m, m). intros p' f' (Wa' & Ra' & Ca' & Ea') _ _. assert (p' = p) as -> by congruence.
      exists x. split; [eapply sized_of; exact Hm|]. split; [exact Hm|].
      intros i j Hi Hj. rewrite <- Hx by auto. apply csum_ext. intros k Hk. rewrite <- Ea, <- Ea' by auto. reflexivity.
    - exists (a, b). intros p f Ha Hb Hx. exfalso. apply N. exists p, f. auto. }
  exists (fun a b => Ret (proj1_sig (constructive_indefinite_description _ (H a b)))).
  intros p a b f _ Ha Hb Hx. destruct (constructive_indefinite_description _ (H a b)) as ((a', b') & Hr). cbn [proj1_sig].
  destruct (Hr p f Ha Hb Hx) as (x & H1 & H2 & H3). exists a', b', x. auto.
Qed.

(** a concrete cell: two fine cells of half a centimetre *)
Definition cell2 : params := CMFDCellParams 1 2 1 (1/2) 1 0.
Lemma cell2_ok : cell_ok cell2.
Proof. unfold cell_ok, cell2, CMFDCellParams. cbn. repeat split; try lra; try lia. unfold intMax. lia. Qed.
Definition zero2 : cmat := mkM 2 2 [RtoC 0; RtoC 0; RtoC 0; RtoC 0].
Lemma zero2_is : is_mat Carith zero2 2 2 (fun _ _ => RtoC 0).
Proof.
  split; [split; cbn; [reflexivity|unfold intMax; lia]|]. split; [reflexivity|]. split; [reflexivity|].
  intros i j Hi Hj. do 2 (destruct i as [|i]; [do 2 (destruct j as [|j]; [reflexivity|]); lia|]). lia.
Qed.
Definition work2 : work := mkW zero2 zero2 zero2 zero2.
Lemma work2_ok : work_ok cell2 work2.
Proof.
  unfold work_ok. cbn [wU wA wB wI work2]. pose proof (sized_of _ _ _ zero2_is) as H.
  split; [exact H|]. split; [exact H|]. split; [exact H|]. split; [exact H|].
  intros i j Hi Hj _ _ _. destruct zero2_is as (_ & _ & _ & E). now apply E.
Qed.
