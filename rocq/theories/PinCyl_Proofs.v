(** Cylindrical pin meshes: the results. *)
From Coq Require Import List Arith ZArith Bool Reals Lra Lia Psatz.
From Verif Require Import Base Loops Arith Fill Box_Proofs Poly_Model Poly_Spec Poly_Proofs Fvm_Model Fvm_Spec Manifold_Model Manifold_Spec
  Soup_Spec PinRect_Model PinRect_Spec PinCyl_Model PinCyl_Spec PinCyl_Trig_Proofs PinCyl_Rings_Proofs PinCyl_Edges_Proofs PinCyl_Lin_Proofs PinCyl_Quad_Proofs.
Import ListNotations.
Local Open Scope R_scope.

(** * Powers of two *)
Lemma pow2_land e : (0 <= e)%Z -> Z.land (2 ^ e) (2 ^ e - 1) = 0%Z.
Proof.
  intros H. replace (2 ^ e - 1)%Z with (Z.ones e) by (rewrite Z.ones_equiv; lia). rewrite Z.land_ones by auto. apply Z.mod_same. apply Z.pow_nonzero; lia.
Qed.
Lemma land_pow2 n : (0 < n)%Z -> Z.land n (n - 1) = 0%Z -> n = (2 ^ Z.log2 n)%Z.
Proof.
  intros H E. destruct (Z.log2_spec n H) as [L U]. assert (D : n = (2 ^ Z.log2 n)%Z \/ (2 ^ Z.log2 n <= n - 1)%Z) by lia. destruct D as [D|D]; auto.
  exfalso. assert (X : Z.log2 (n - 1) = Z.log2 n) by (apply Z.log2_unique; [apply Z.log2_nonneg|lia]).
  assert (B : Z.testbit (Z.land n (n - 1)) (Z.log2 n) = true).
  { rewrite Z.land_spec, Z.bit_log2 by auto. rewrite <- X. apply Z.bit_log2. assert (0 < 2 ^ Z.log2 n)%Z by (apply Z.pow_pos_nonneg; [lia|apply Z.log2_nonneg]). lia. }
  rewrite E, Z.testbit_0_l in B. discriminate.
Qed.
Definition pow2_ge8 (n : Z) : Prop := exists e, (3 <= e)%Z /\ n = (2 ^ e)%Z.
Lemma pow2_K e : exists K, (0 < K)%nat /\ (2 ^ (3 + e) = 8 * K)%nat.
Proof. exists (2 ^ e)%nat. split; [apply Nat.neq_0_lt_0; now apply Nat.pow_nonzero|]. rewrite Nat.pow_add_r. reflexivity. Qed.
Lemma nat_land e : Z.land (Z.of_nat (2 ^ e)) (Z.of_nat (2 ^ e) - 1) = 0%Z.
Proof. rewrite Nat2Z.inj_pow. apply pow2_land. lia. Qed.

(** * Areas of the rings *)
Section P.
Variables (radii : list R) (ns : list nat).
Hypothesis Hpin : pin_ok radii ns.
Lemma asl_ring k s : (k < length radii)%nat -> (s < nth k ns 0)%nat -> nth (first_ring ns k + s) (asl radii ns) 0 = ring_area radii ns k.
Proof.
  intros Hk Hs. change (first_ring ns k) with (off ns k). rewrite <- (asl_at radii ns) by (auto; apply Hpin). unfold ring_area, reg, rad, cnt, circle. field.
  assert (0 < nth k ns 0)%nat by lia. apply not_0_INR. lia.
Qed.
Lemma first_ring_lt k s : (k < length radii)%nat -> (s < nth k ns 0)%nat -> (first_ring ns k + s < nr ns)%nat.
Proof.
  intros Hk Hs. unfold first_ring, nr. assert (L : length ns = length radii) by apply Hpin.
  rewrite <- (firstn_skipn k ns) at 2. rewrite list_sum_app. destruct (skipn k ns) as [|n l] eqn:E.
  - exfalso. apply (f_equal (@length _)) in E. rewrite skipn_length in E. cbn in E. lia.
  - assert (X : nth k ns 0%nat = n). { rewrite <- (firstn_skipn k ns), E, app_nth2; rewrite firstn_length_le by lia; [|lia]. now rewrite Nat.sub_diag. }
    change (list_sum (n :: l)) with (n + list_sum l)%nat. lia.
Qed.
End P.
Lemma on_side2 m w u v : on_side m w [u; v] <-> on_border m w w [u; v].
Proof.
  unfold on_side, on_border. split.
  - intros (ps & E & B). destruct ps as [|p [|q [|]]]; try discriminate. exists p, q. split; [now rewrite <- E|].
    destruct B as [B|[B|[B|B]]]; [left|right; left|right; right; left|right; right; right]; split; apply B; cbn; auto.
  - intros (p & q & E & B). exists [p; q]. split; [now rewrite E|].
    destruct B as [[B B']|[[B B']|[[B B']|[B B']]]]; [left|right; left|right; right; left|right; right; right]; intros x [<-|[<-|[]]]; auto.
Qed.

Theorem linear_ok stdsort selfcheck eps exit quads quad8s pitch radii ns e :
  let na := (2 ^ e)%nat in let theta := 2 * PI / INR na in
  sort_contract stdsort -> pin_ok radii ns -> (3 <= e)%nat -> 0 < pitch ->
  0 < eps -> eps <= sin theta -> eps <= pitch / 2 * sin theta ->
  circle radii (length radii) * sqrt (theta / sin theta) + eps <= pitch / 2 ->
  (Z.of_nat (1 + (list_sum ns + 1) * na + na / 2) <= intMax)%Z ->
  exists m, addCylindricalPinMesh stdsort selfcheck eps exit quads quad8s pitch radii ns (Z.of_nat na) 1 = Ret (quads ++ [m], quad8s, Z.of_nat (length quads)) /\
    pin_mesh Quad m pitch radii ns na.
Proof.
  intros na theta Hs Hpin He Hp Heps. subst na theta. assert (Hl := nat_land e). revert Hl. replace e with (3 + (e - 3))%nat by lia.
  destruct (pow2_K (e - 3)) as (K & HK & ->). rewrite (theta_dl radii ns K HK Hpin). intros Hl Heps1 Heps2 Hfit Hmax.
  assert (Hfit' : eqr radii ns K (nr ns - 1) + eps <= pitch / 2).
  { eapply Rle_trans; [|exact Hfit]. apply Rplus_le_compat_r. unfold eqr. rewrite cum_last by apply Hpin. change (rad radii (m radii)) with (circle radii (length radii)).
    right. assert (X := rad_le radii ns K HK Hpin 0 ltac:(lia)). change (0 <= circle radii (length radii)) in X.
    rewrite sqrt_mult_alt by (apply Rle_0_sqr). rewrite sqrt_square; auto. }
  assert (N2 := na_half radii ns K HK Hpin). rewrite N2 in Hmax.
  exists (msh pitch radii ns K). split.
  - now apply add_linear.
  - set (M := msh pitch radii ns K). split; [now apply msh_ok|]. split.
    { unfold M. cbn [fv msh]. rewrite map_length. now apply (flist_length radii ns). }
    split.
    { intros k s j Hk Hj Hs'. assert (L := first_ring_lt radii ns Hpin k s Hk Hj).
      exists (fconn K (ringf (first_ring ns k + s) j)). split.
      - unfold M. cbn [fv msh]. rewrite nth_error_map. rewrite (flist_nth radii ns K HK Hpin) by (auto; lia). reflexivity.
      - rewrite <- (asl_ring radii ns Hpin k s Hk Hj). rewrite <- (ringf_area eps pitch radii ns K HK Hpin Heps Heps1 _ j L).
        apply farea_ok; auto. apply (ringf_ok radii ns); auto. lia. }
    split.
    { unfold M at 2. cbn [fv msh]. change (list_sum ns) with (nr ns). rewrite skipn_map. rewrite (flist_outer radii ns K HK Hpin).
      replace (pitch ^ 2 - PI * circle radii (length radii) ^ 2) with (rsum (map (farea pitch radii ns K) (map (FR (nr ns)) (seq 0 (8 * K))))).
      - apply total_area_map. intros f Hf. apply farea_ok; auto. apply in_map_iff in Hf as (a & <- & Ha). apply in_seq in Ha. cbn [fok].
        assert (X := nr_pos radii ns). assert (0 < nr ns)%nat by (apply X; apply Hpin). lia.
      - rewrite map_map, (area_outer eps) by auto. unfold circle, rad. ring. }
    split.
    { unfold M at 2. cbn [fv msh]. replace (pitch ^ 2) with (rsum (map (farea pitch radii ns K) (flist (4 * K) (nr ns)))) by (rewrite (area_total eps) by auto; ring).
      apply total_area_map. intros f Hf. apply farea_ok; auto. apply flist_in; [lia|auto]. }
    split.
    { intros c Hc. unfold M in Hc. cbn [fv msh] in Hc. apply in_map_iff in Hc as (f & <- & Hf). apply flist_in in Hf; [|lia].
      exists (farea pitch radii ns K f). split; [now apply farea_ok|now apply (farea_pos eps)]. }
    split; [intros v Hv; now apply (vertices_square eps pitch radii ns K)|].
    unfold M. rewrite msh_edges. split; [now apply (msh_nodup radii ns)|]. split; [now apply (msh_watertight radii ns)|].
    intros x Hx. rewrite (msh_border eps pitch radii ns K) by auto.
    apply in_map_iff in Hx as ((u & v) & <- & _). unfold ide. now rewrite on_side2.
Qed.
Theorem quadratic_ok stdsort selfcheck eps exit quads quad8s pitch radii ns e :
  let na := (2 ^ e)%nat in let gamma := PI / INR na in
  sort_contract stdsort -> pin_ok radii ns -> (3 <= e)%nat -> 0 < pitch ->
  0 < eps -> eps <= sin gamma -> eps <= pitch / 2 * sin gamma ->
  circle radii (length radii) + 2 * eps <= pitch / 2 ->
  circle radii (length radii) * (3 * gamma / (4 * sin gamma) + cos gamma / 4) + eps <= pitch / 2 ->
  (Z.of_nat (1 + 4 * na + 3 * na * list_sum ns) <= intMax)%Z ->
  exists m, addCylindricalPinMesh stdsort selfcheck eps exit quads quad8s pitch radii ns (Z.of_nat na) 2 =
      (let* m := selfcheck m in Ret (quads, quad8s ++ [m], Z.of_nat (length quad8s))) /\
    pin_mesh Quad8 m pitch radii ns na.
Proof.
  intros na gamma Hs Hpin He Hp Heps. subst na gamma. assert (Hl := nat_land e). revert Hl. replace e with (3 + (e - 3))%nat by lia.
  destruct (pow2_K (e - 3)) as (K & HK & ->). replace (PI / INR (8 * K)) with (dl (2 * K)) by (unfold dl; do 2 f_equal; lia).
  intros Hl Heps1 Heps2 Hfit Hfit2 Hmax.
  assert (LL : lr radii ns (nr ns - 1) = circle radii (length radii)) by now apply (last_lr radii ns K).
  rewrite <- LL in Hfit, Hfit2. change (3 * dl (2 * K) / (4 * sin (dl (2 * K))) + cos (dl (2 * K)) / 4) with (kap K) in Hfit2.
  exists (msh2 pitch radii ns K). split.
  - now apply add_quadratic.
  - set (M := msh2 pitch radii ns K). split; [now apply msh2_ok|]. split.
    { unfold M. cbn [fv msh2]. rewrite map_length. now apply (flist_length radii ns). }
    split.
    { intros k s j Hk Hj Hs'. assert (L := first_ring_lt radii ns Hpin k s Hk Hj).
      exists (fconn2 K (ringf (first_ring ns k + s) j)). split.
      - unfold M. cbn [fv msh2]. rewrite nth_error_map. rewrite (flist_nth radii ns K HK Hpin) by (auto; lia). reflexivity.
      - rewrite <- (asl_ring radii ns Hpin k s Hk Hj). rewrite <- (ringf_area2 pitch radii ns K HK Hpin _ j L).
        apply (farea2_ok eps); auto. apply (ringf_ok radii ns); auto. lia. }
    split.
    { unfold M at 2. cbn [fv msh2]. change (list_sum ns) with (nr ns). rewrite skipn_map. rewrite (flist_outer radii ns K HK Hpin).
      replace (pitch ^ 2 - PI * circle radii (length radii) ^ 2) with (rsum (map (farea2 pitch radii ns K) (map (FR (nr ns)) (seq 0 (8 * K))))).
      - apply total_area_map. intros f Hf. apply (farea2_ok eps); auto. apply in_map_iff in Hf as (a & <- & Ha). apply in_seq in Ha. cbn [fok].
        assert (X := nr_pos radii ns). assert (0 < nr ns)%nat by (apply X; apply Hpin). lia.
      - rewrite map_map, area2_outer by auto. unfold circle, rad. ring. }
    split.
    { unfold M at 2. cbn [fv msh2]. replace (pitch ^ 2) with (rsum (map (farea2 pitch radii ns K) (flist (4 * K) (nr ns)))) by (rewrite area2_total by auto; ring).
      apply total_area_map. intros f Hf. apply (farea2_ok eps); auto. apply flist_in; [lia|auto]. }
    split.
    { intros c Hc. unfold M in Hc. cbn [fv msh2] in Hc. apply in_map_iff in Hc as (f & <- & Hf). apply flist_in in Hf; [|lia].
      exists (farea2 pitch radii ns K f). split; [now apply (farea2_ok eps)|now apply (farea2_pos eps)]. }
    split; [intros v Hv; now apply (vertices2_square eps pitch radii ns K)|].
    unfold M. rewrite (msh2_edges pitch radii ns K HK Hpin). split; [now apply (msh2_nodup radii ns)|]. split; [now apply (msh2_watertight radii ns)|].
    intros x Hx. now rewrite (msh2_border eps pitch radii ns K).
Qed.

(** * Rejection *)
Section Rej.
Variable stdsort : forall A : Type, (A -> A -> bool) -> list A -> list A.
Variable selfcheck : mesh R -> outcome (mesh R).
Variables (eps : R) (exit : bool) (quads quad8s : list (mesh R)) (pitch : R) (radii : list R) (ns : list nat) (na order : Z).
Definition refused : outcome (list (mesh R) * list (mesh R) * Z) := if exit then Fail else Ret (quads, quad8s, (-1)%Z).
Lemma rejected : (order <> 1 /\ order <> 2)%Z \/ ~ pow2_ge8 na \/ length radii <> length ns \/ (exists r, In r radii /\ pitch / 2 < r) ->
  addCylindricalPinMesh stdsort selfcheck eps exit quads quad8s pitch radii ns na order = refused.
Proof.
  intros H. unfold addCylindricalPinMesh, refused. change (error exit (quads, quad8s, (-1)%Z)) with (if exit then Fail else Ret (quads, quad8s, (-1)%Z)).
  destruct (negb _) eqn:B1; auto. destruct (Z.ltb_spec na 8); auto. destruct (negb (Z.land _ _ =? 0)%Z) eqn:B2; auto.
  destruct (negb (length radii =? length ns)%nat) eqn:B3; auto. destruct (existsb _ radii) eqn:B4; auto. exfalso.
  apply negb_false_iff in B1, B2, B3. apply orb_true_iff in B1. rewrite !Z.eqb_eq in B1. apply Z.eqb_eq in B2. apply Nat.eqb_eq in B3.
  destruct H as [H|[H|[H|(r & Hr & H)]]]; try lia.
  - apply H. exists (Z.log2 na). apply land_pow2 in B2; [|lia]. split; [|auto]. change 3%Z with (Z.log2 8). now apply Z.log2_le_mono.
  - assert (X : existsb (fun r => Rltb (pitch / 2) r) radii = true) by (apply existsb_exists; exists r; split; [auto|now apply Rltb_true]). congruence.
Qed.
End Rej.
Lemma rejected_linear stdsort selfcheck eps exit quads quad8s pitch radii ns e :
  let na := (2 ^ e)%nat in let theta := 2 * PI / INR na in
  pin_ok radii ns -> (3 <= e)%nat -> pitch / 2 < circle radii (length radii) * sqrt (theta / sin theta) ->
  addCylindricalPinMesh stdsort selfcheck eps exit quads quad8s pitch radii ns (Z.of_nat na) 1 = refused exit quads quad8s.
Proof.
  intros na theta Hpin He. subst na theta. assert (Hl := nat_land e). revert Hl. replace e with (3 + (e - 3))%nat by lia.
  destruct (pow2_K (e - 3)) as (K & HK & ->). rewrite (theta_dl radii ns K HK Hpin). intros Hl H.
  unfold addCylindricalPinMesh, refused. change (error exit (quads, quad8s, (-1)%Z)) with (if exit then Fail else Ret (quads, quad8s, (-1)%Z)).
  cbn [Z.eqb Pos.eqb orb negb]. destruct (Z.ltb_spec (Z.of_nat (8 * K)) 8); auto. destruct (negb (Z.land _ _ =? 0)%Z) eqn:B2; auto.
  destruct (negb (length radii =? length ns)%nat) eqn:B3; auto. destruct (existsb _ radii) eqn:B4; auto.
  destruct Hpin as (P1 & P2 & P3 & P4). assert (Hpin : pin_ok radii ns) by (repeat split; auto).
  rewrite (rings_ok pitch radii ns P2 P1 P3 P4). cbn [bind]. rewrite fold_add, Nat2Z.id. change (0 + list_sum ns)%nat with (nr ns).
  rewrite (eq_radii1_ok (sin (dl K)) radii ns K HK Hpin (sin_dl_pos K HK) (Rle_refl _)). cbn [bind].
  assert (Np : (0 < nr ns)%nat) by (apply (nr_pos radii ns); auto).
  replace (existsb _ (map _ _)) with true; [auto|]. symmetry. apply existsb_exists. exists (eqr radii ns K (nr ns - 1)). split; [apply in_map, in_seq; lia|].
  apply Rltb_true. eapply Rlt_le_trans; [exact H|]. right. unfold eqr. rewrite cum_last by auto. change (rad radii (m radii)) with (circle radii (length radii)).
  assert (X := rad_le radii ns K HK Hpin 0 ltac:(lia)). change (0 <= circle radii (length radii)) in X.
  rewrite sqrt_mult_alt by (apply Rle_0_sqr). now rewrite sqrt_square.
Qed.
Lemma rejected_quadratic stdsort selfcheck eps exit quads quad8s pitch radii ns e :
  let na := (2 ^ e)%nat in let gamma := PI / INR na in
  pin_ok radii ns -> (3 <= e)%nat -> pitch / 2 < circle radii (length radii) * (3 * gamma / (4 * sin gamma) + cos gamma / 4) ->
  addCylindricalPinMesh stdsort selfcheck eps exit quads quad8s pitch radii ns (Z.of_nat na) 2 = refused exit quads quad8s.
Proof.
  intros na theta Hpin He. subst na theta. assert (Hl := nat_land e). revert Hl. replace e with (3 + (e - 3))%nat by lia.
  destruct (pow2_K (e - 3)) as (K & HK & ->). replace (PI / INR (8 * K)) with (dl (2 * K)) by (unfold dl; do 2 f_equal; lia). intros Hl H.
  unfold addCylindricalPinMesh, refused. change (error exit (quads, quad8s, (-1)%Z)) with (if exit then Fail else Ret (quads, quad8s, (-1)%Z)).
  cbn [Z.eqb Pos.eqb orb negb]. destruct (Z.ltb_spec (Z.of_nat (8 * K)) 8); auto. destruct (negb (Z.land _ _ =? 0)%Z) eqn:B2; auto.
  destruct (negb (length radii =? length ns)%nat) eqn:B3; auto. destruct (existsb _ radii) eqn:B4; auto.
  destruct Hpin as (P1 & P2 & P3 & P4). assert (Hpin : pin_ok radii ns) by (repeat split; auto).
  rewrite (rings_ok pitch radii ns P2 P1 P3 P4). cbn [bind]. rewrite fold_add, Nat2Z.id. change (0 + list_sum ns)%nat with (nr ns).
  match goal with |- context [eq_radii2 _ _ ?x _] => change x with (map (lr radii ns) (seq 0 (nr ns))) end.
  rewrite (eq_radii2_ok (sin (dl (2 * K))) radii ns K HK Hpin (sin_dl_pos (2 * K) ltac:(lia)) (Rle_refl _)). cbn [bind].
  assert (Np : (0 < nr ns)%nat) by (apply (nr_pos radii ns); auto).
  replace (existsb _ (map _ _)) with true; [auto|]. symmetry. apply existsb_exists. exists (lr radii ns (nr ns - 1) * kap K). split.
  - apply (in_map (fun i => lr radii ns i * kap K)), in_seq. lia.
  - apply Rltb_true. rewrite (last_lr radii ns K HK Hpin). exact H.
Qed.
