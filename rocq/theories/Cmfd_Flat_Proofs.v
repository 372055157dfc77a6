(** Row sums, the flat mode, uniqueness and the largest eigenvalue. *)
From Coq Require Import List Arith ZArith Reals Lia Lra Bool.
From Coquelicot Require Import Complex.
From Verif Require Import Base Loops Arith Matrix_Model Matrix_Spec Matrix_Proofs Box_Proofs
  Cmfd_Model Cmfd_Spec Cmfd_Proofs Cmfd_Ana_Proofs Cmfd_Loop_Proofs.
Import ListNotations.
Open Scope C_scope.

Lemma balance_row q mu alpha i f : cell_ok q -> (i < pp q)%nat ->
  csum (pp q) (fun k => balance_matrix q mu alpha i k * f k) =
  RtoC ((1 - coth_weight (ph q / (2 * mu))) / 2 - mu / (Sigma_t q * ph q)) * f i +
  RtoC ((1 + coth_weight (ph q / (2 * mu))) / 2 + mu / (Sigma_t q * ph q)) *
    (if (i + 1 <? pp q)%nat then f (i + 1)%nat else phase q alpha * f 0%nat).
Proof. intros Hq Hi. unfold balance_matrix. cbv zeta. apply cyclic_row; auto. lia. Qed.

(** the solution of a balance system is unique *)
Lemma balance_unique q mu alpha y y' : cell_ok q -> mu <> 0%R ->
  (forall i, (i < pp q)%nat -> csum (pp q) (fun k => balance_matrix q mu alpha i k * y k) =
     csum (pp q) (fun k => balance_matrix q mu alpha i k * y' k)) ->
  forall i, (i < pp q)%nat -> y i = y' i.
Proof.
  intros Hq Hm H i Hi. enough (E : y i - y' i = 0).
  { transitivity (y i - y' i + y' i); [ring|]. rewrite E. ring. }
  refine (cyclic_inj (pp q) _ _ (phase q alpha) (fun i => y i - y' i) _ (balance_det q mu alpha Hq Hm) _ i Hi); [lia|].
  intros k Hk. specialize (H k Hk). unfold balance_matrix in H. cbv zeta in H.
  rewrite (csum_ext _ _ (fun n => cyclic (pp q) (RtoC ((1 - coth_weight (ph q / (2 * mu))) / 2 - mu / (Sigma_t q * ph q)))
    (RtoC ((1 + coth_weight (ph q / (2 * mu))) / 2 + mu / (Sigma_t q * ph q))) (phase q alpha) k n * y n +
    - (1) * (cyclic (pp q) (RtoC ((1 - coth_weight (ph q / (2 * mu))) / 2 - mu / (Sigma_t q * ph q)))
    (RtoC ((1 + coth_weight (ph q / (2 * mu))) / 2 + mu / (Sigma_t q * ph q))) (phase q alpha) k n * y' n))).
  2:{ intros. ring. }
  rewrite csum_plus, csum_scal, H. ring.
Qed.

Lemma sweep_unique q alpha u u' : cell_ok q -> sweep q alpha u -> sweep q alpha u' ->
  forall i j, (i < pp q)%nat -> (j < pp q)%nat -> u i j = u' i j.
Proof.
  intros Hq (b & Hb & Hu) (b' & Hb' & Hu') i j Hi Hj. rewrite Hu, Hu' by auto. f_equal.
  apply csum_ext. intros n Hn. f_equal. apply csum_ext. intros k Hk. f_equal.
  apply (balance_unique q (nth n mus 0%R) alpha (fun k => b n k j) (fun k => b' n k j) Hq (mus_nz n Hn)); auto.
  intros r Hr. rewrite (Hb n Hn r j Hr Hj), (Hb' n Hn r j Hr Hj). reflexivity.
Qed.
Lemma amplification_unique q alpha w w' : cell_ok q -> amplification q alpha w -> amplification q alpha w' ->
  forall i j, (i < pp q)%nat -> (j < pp q)%nat -> w i j = w' i j.
Proof.
  intros Hq (u & Hu & Hw) (u' & Hu' & Hw') i j Hi Hj. rewrite Hw, Hw' by auto.
  rewrite (sweep_unique q alpha u u' Hq Hu Hu' i j Hi Hj). f_equal. f_equal.
  apply csum_ext. intros k Hk. now rewrite (sweep_unique q alpha u u' Hq Hu Hu' k j Hk Hj).
Qed.

Lemma csum_ws : csum 32 (fun n => RtoC (nth n ws 0%R)) = RtoC wsum.
Proof.
  unfold wsum, ws. cbn [csum nth fold_right]. rewrite <- !RtoC_plus. f_equal. lra.
Qed.

Lemma phase_0 q : phase q 0 = 1.
Proof. unfold phase. rewrite Rmult_0_l, cos_0, sin_0. reflexivity. Qed.

Lemma sweep_rows q u : cell_ok q -> sweep q 0 u -> forall i, (i < pp q)%nat ->
  csum (pp q) (u i) = RtoC (pc q / 2 * wsum).
Proof.
  intros Hq (b & Hb & Hu) i Hi.
  refine (eq_trans (csum_ext _ _ _ (fun j Hj => Hu i j Hi Hj)) _). rewrite csum_scal, csum_swap.
  assert (Hx : forall n, (n < 32)%nat -> forall k, (k < pp q)%nat -> csum (pp q) (fun j => b n k j) = 1).
  { intros n Hn. apply (balance_unique q (nth n mus 0%R) 0 (fun k => csum (pp q) (fun j => b n k j)) (fun _ => 1) Hq (mus_nz n Hn)).
    intros r Hr. rewrite (balance_row q _ 0 r (fun _ => 1)) by auto. rewrite phase_0.
    rewrite (csum_ext _ _ (fun k => csum (pp q) (fun j => balance_matrix q (nth n mus 0%R) 0 r k * b n k j))).
    2:{ intros. now rewrite csum_scal. }
    rewrite csum_swap. rewrite (csum_ext _ _ (fun j => delta_ r j)) by (intros j Hj; apply (Hb n Hn r j Hr Hj)).
    unfold delta_. rewrite (csum_ext _ _ (fun j => if (j =? r)%nat then (fun _ => 1) j else 0)).
    2:{ intros k _. rewrite Nat.eqb_sym. reflexivity. }
    rewrite csum_at by auto.
    replace (if (r + 1 <? pp q)%nat then _ else _) with (RtoC 1) by (destruct (r + 1 <? pp q)%nat; ring).
    rewrite <- !RtoC_mult, <- RtoC_plus. f_equal. lra. }
  rewrite (csum_ext _ _ (fun n => RtoC (nth n ws 0%R))).
  - rewrite csum_ws, <- RtoC_mult. reflexivity.
  - intros n Hn. rewrite csum_scal, csum_swap.
    rewrite (csum_ext _ _ (fun k => average_matrix q (nth n mus 0%R) 0 i k * 1)).
    2:{ intros k Hk. rewrite csum_scal, Hx by auto. reflexivity. }
    unfold average_matrix. cbv zeta. rewrite cyclic_row by (auto; destruct Hq; lia). rewrite phase_0.
    replace (if (i + 1 <? pp q)%nat then _ else _) with (RtoC 1) by (destruct (i + 1 <? pp q)%nat; ring).
    rewrite <- !RtoC_mult, <- RtoC_plus, <- RtoC_mult. f_equal. field.
Qed.

(** the correction at zero frequency *)
Lemma correction_0 q : cell_ok q -> ph q = (pw q / INR (pp q))%R -> delta q = (Sigma_t q * pw q)%R -> (pc q < 1)%R ->
  correction q 0 = (pc q / ((1 - pc q) * INR (pp q)))%R.
Proof.
  intros (Hp & _ & Hs & Hh) Eh Ed Hc. unfold correction. rewrite Rmult_0_l, cos_0.
  assert (Hp' : (0 < INR (pp q))%R) by (apply (lt_INR 0); lia).
  assert (Hw : (pw q <> 0)%R).
  { intros E. rewrite Eh, E in Hh. unfold Rdiv in Hh. rewrite Rmult_0_l in Hh. lra. }
  rewrite Eh, Ed. field. repeat split; lra.
Qed.

Lemma flat_rows q w : cell_ok q -> ph q = (pw q / INR (pp q))%R -> delta q = (Sigma_t q * pw q)%R -> (pc q < 1)%R ->
  amplification q 0 w -> forall i, (i < pp q)%nat ->
  csum (pp q) (fun j => w i j) = RtoC (pc q / (1 - pc q) * ((wsum - 2) / 2)).
Proof.
  intros Hq Eh Ed Hc (u & Hu & Hw) i Hi.
  refine (eq_trans (csum_ext _ _ _ (fun j Hj => Hw i j Hi Hj)) _). rewrite csum_plus, csum_scal, csum_swap.
  rewrite (sweep_rows q u Hq Hu i Hi).
  rewrite (csum_ext _ _ (fun _ => RtoC (pc q / 2 * wsum - 1) * 1)).
  2:{ intros k Hk. rewrite (csum_ext _ _ (fun j => u k j + - (1) * delta_ k j)) by (intros; ring).
    rewrite csum_plus, csum_scal, (sweep_rows q u Hq Hu k Hk). unfold delta_.
    rewrite (csum_ext _ _ (fun j => if (j =? k)%nat then (fun _ => 1) j else 0)).
    2:{ intros j _. rewrite Nat.eqb_sym. reflexivity. }
    rewrite csum_at by auto. rewrite RtoC_minus. ring. }
  rewrite csum_scal, csum_one, correction_0 by auto.
  rewrite <- !RtoC_mult, <- RtoC_plus. f_equal.
  assert (Hp' : (0 < INR (pp q))%R) by (destruct Hq; apply (lt_INR 0); lia).
  field. split; lra.
Qed.

(** * the largest eigenvalue *)
Lemma largest_ok l : forall r r_abs, r_abs = Cmod r -> exists r', largest l r r_abs = (r', Cmod r') /\
  (r' = r \/ In r' l) /\ (Cmod r <= Cmod r')%R /\ forall e, In e l -> (Cmod e <= Cmod r')%R.
Proof.
  induction l as [|e l IH]; intros r ra Hra; cbn [largest].
  - exists r. subst. repeat split; auto; try lra. intros e [].
  - unfold Rltb. destruct (Rlt_dec ra (Cmod e)) as [H|H].
    + destruct (IH e (Cmod e) eq_refl) as (r' & E & H1 & H2 & H3). exists r'. split; auto. split; [|split].
      * destruct H1 as [->|H1]; right; [now left|now right].
      * subst. lra.
      * intros x [<-|Hx]; [auto|now apply H3].
    + destruct (IH r ra Hra) as (r' & E & H1 & H2 & H3). exists r'. split; auto. split; [|split]; auto.
      * destruct H1 as [->|H1]; [now left|right; now right].
      * intros x [<-|Hx]; [subst; lra|now apply H3].
Qed.

Lemma spectral_ok solve eigvals q omega J s : solver solve -> cell_ok q ->
  (forall m f, is_mat Carith m (pp q) (pp q) f -> exists l, eigvals m = Ret l) ->
  sized (pp q) omega -> sized (pp q) J -> sized (pp q) (wU s) -> sized (pp q) (wA s) -> sized (pp q) (wB s) -> sized (pp q) (wI s) ->
  exists r (om : nat -> cmat) (eg : nat -> list C), spectral_radius solve eigvals q omega J s = Ret r /\
    (forall i, (i < 256)%nat -> eigvals (om i) = Ret (eg i) /\ exists w, is_mat Carith (om i) (pp q) (pp q) w /\
       amplification q (INR i * (PI / delta q / 255)) w) /\
    (r = 0 \/ exists i, (i < 256)%nat /\ In r (eg i)) /\
    forall i e, (i < 256)%nat -> In e (eg i) -> (Cmod e <= Cmod r)%R.
Proof.
  intros Hsol Hq Heig Ho HJ HU HA HB HI. unfold spectral_radius, radius_run. cbv zeta.
  replace (256 - 1)%R with 255%R by lra.
  set (J1 := mkM (rows J) (cols J) (map (fun _ : C => RtoC 1) (data J))).
  assert (HJ1 : is_mat Carith J1 (pp q) (pp q) (fun _ _ => 1)).
  { destruct HJ as ((L & B) & R & C). unfold J1. split; [split; cbn; [now rewrite map_length|auto]|].
    split; [auto|]. split; [auto|]. intros i j Hi Hj. unfold ent. cbn [data rows Carith o0].
    rewrite (nth_indep _ (RtoC 0) (RtoC 1)) by (rewrite map_length, L, R, C; apply index_bound; auto).
    exact (map_nth (fun _ : Complex.C => RtoC 1) (data J) (RtoC 0) _). }
  set (da := (PI / delta q / 255)%R).
  destruct (for_inv (fun k (x : cmat * work * (C * R)) =>
      let '(omega, s, (r, ra)) := x in sized (pp q) omega /\ work_ok q s /\ ra = Cmod r /\
      exists (om : nat -> cmat) (eg : nat -> list C),
        (forall i, (i < k)%nat -> eigvals (om i) = Ret (eg i) /\ exists w, is_mat Carith (om i) (pp q) (pp q) w /\
           amplification q (INR i * da) w) /\
        (r = 0 \/ exists i, (i < k)%nat /\ In r (eg i)) /\
        forall i e, (i < k)%nat -> In e (eg i) -> (Cmod e <= Cmod r)%R)
    (sample solve eigvals q J1 da) 256 0
    (omega, mkW (wU s) (zero Carith (wA s)) (zero Carith (wB s)) (wI s), (RtoC 0, 0%R))) as (x & E & H).
  - cbn zeta. split; [exact Ho|]. split.
    { split; [exact HU|]. cbn [wU wA wB wI]. split; [eapply sized_of; apply sized_zero; exact HB|]. split; [exact HI|].
      pose proof (sized_zero _ _ HA) as Hz. split; [eapply sized_of; exact Hz|].
      intros i j Hi Hj _ _ _. destruct Hz as (_ & _ & _ & Hz). now apply Hz. }
    split; [now rewrite Cmod_0|]. exists (fun _ => omega), (fun _ => []). split; [intros; lia|]. split; [now left|]. intros; lia.
  - intros k ((om0, s0), (r, ra)) Hk (H1 & H2 & H3 & om & eg & Hi & Hr & Hmax). unfold sample.
    destruct (set_omega_ok solve Hsol om0 J1 q (INR k * da) s0 Hq H2 H1 HJ1) as (om' & s' & w & -> & Hs' & Hom & Hw).
    cbn [bind]. destruct (Heig om' w Hom) as (l & El). rewrite El. cbn [bind].
    destruct (largest_ok l r ra H3) as (r' & -> & A1 & A2 & A3).
    eexists. split; [reflexivity|]. cbn zeta. split; [eapply sized_of; exact Hom|]. split; [exact Hs'|]. split; [reflexivity|].
    exists (fun i => if (i =? k)%nat then om' else om i), (fun i => if (i =? k)%nat then l else eg i). split; [|split].
    + intros i Hik. destruct (Nat.eqb_spec i k) as [->|Hne]; [eauto|]. apply Hi. lia.
    + destruct A1 as [->|A1].
      * destruct Hr as [->|(i & Hik & Hr)]; [now left|]. right. exists i. split; [lia|]. destruct (Nat.eqb_spec i k); [lia|auto].
      * right. exists k. split; [lia|]. now rewrite Nat.eqb_refl.
    + intros i e Hik He. destruct (Nat.eqb_spec i k) as [->|Hne]; [auto|].
      assert (Cmod e <= Cmod r)%R by (apply (Hmax i); [lia|auto]). lra.
  - rewrite E. cbn [bind]. destruct x as ((om0, s0), (r, ra)). change (0 + 256)%nat with 256%nat in H.
    destruct H as (_ & _ & _ & om & eg & Hi & Hr & Hmax). exists r, om, eg. auto.
Qed.
