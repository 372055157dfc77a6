(** The mesh of quadratic quadrilaterals. *)
From Coq Require Import List Arith ZArith Bool Reals Lra Lia Psatz.
From Verif Require Import Base Loops Arith Fill Box_Proofs Vec_Model Seg_Model Seg_Spec Seg_Proofs Poly_Model Poly_Spec Poly_Proofs Fvm_Model Fvm_Spec Manifold_Model Manifold_Spec Manifold_Proofs
  Soup_Spec PinRect_Model PinRect_Spec PinCyl_Model PinCyl_Spec PinCyl_Trig_Proofs PinCyl_Rings_Proofs PinCyl_Edges_Proofs PinCyl_Lin_Proofs.
Import ListNotations.
Local Open Scope R_scope.

Lemma for_double {A} (F : nat -> A -> outcome A) n : forall i s, for_ (2 * n) (2 * i) F s = for_ n i (fun i s => let* s := F (2 * i)%nat s in F (2 * i + 1)%nat s) s.
Proof.
  induction n as [|n IH]; intros i s; auto. replace (2 * S n)%nat with (S (S (2 * n))) by lia. cbn [for_].
  destruct (F (2 * i)%nat s) as [t| | |]; cbn [bind]; auto. replace (S (2 * i)) with (2 * i + 1)%nat by lia.
  destruct (F (2 * i + 1)%nat t) as [t'| | |]; cbn [bind]; auto. replace (S (2 * i + 1)) with (2 * S i)%nat by lia. apply IH.
Qed.
(** all vertices *)
Inductive wx := Vx (v : vx) | MC (a : nat) | MT0 (i : nat) | MT1 (i : nat) | MA (r a : nat) | MR (r a : nat).

(** * Every face has positive area *)
Lemma sin_cos_le x : 0 < x -> x <= PI -> x * cos x < sin x.
Proof.
  intros H H'. destruct (MVT_cor2 (fun y => sin y - y * cos y) (fun y => y * sin y) 0 x H) as (c & E & Hc).
  - intros c Hc. replace (c * sin c) with (cos c - (1 * cos c + c * - sin c)) by ring.
    apply (derivable_pt_lim_minus sin (fun y => y * cos y)); [apply derivable_pt_lim_sin|].
    apply (derivable_pt_lim_mult (fun y => y) cos); [apply derivable_pt_lim_id|apply derivable_pt_lim_cos].
  - rewrite sin_0 in E. assert (0 < sin c) by (apply sin_gt_0; lra). assert (0 < c * sin c * (x - 0)) by (apply Rmult_lt_0_compat; [apply Rmult_lt_0_compat|]; lra). lra.
Qed.
Section Wedge.
Variable K : nat.
Hypothesis HK : (0 < K)%nat.
Lemma same_sign a : 0 <= C K a * C K (S a) /\ 0 <= Sn K a * Sn K (S a).
Proof.
  assert (X : forall q i, (i < 2 * K)%nat -> 0 <= C K (q * (2 * K) + i) * C K (S (q * (2 * K) + i)) /\ 0 <= Sn K (q * (2 * K) + i) * Sn K (S (q * (2 * K) + i))).
  { induction q as [|q IH]; intros i Hi.
    - cbn [Nat.mul Nat.add].
      assert (B : forall j, (j <= 2 * K)%nat -> 0 <= C K j /\ 0 <= Sn K j).
      { intros j Hj. destruct (le_lt_dec j K) as [L|L].
        - destruct (first_octant K HK j L). lra.
        - destruct (first_octant K HK (2 * K - j) ltac:(lia)) as [U V]. rewrite C_reflect, S_reflect in * by auto. lra. }
      destruct (B i ltac:(lia)), (B (S i) ltac:(lia)). split; now apply Rmult_le_pos.
    - destruct (IH i Hi) as [U V]. replace (S q * (2 * K) + i)%nat with (q * (2 * K) + i + 2 * K)%nat by lia.
      replace (S (q * (2 * K) + i + 2 * K)) with (S (q * (2 * K) + i) + 2 * K)%nat by lia. rewrite !C_quarter, !S_quarter by auto. split; [|exact U].
      replace (- _ * - _) with (Sn K (q * (2 * K) + i) * Sn K (S (q * (2 * K) + i))) by ring. exact V. }
  assert (D := Nat.div_mod a (2 * K) ltac:(lia)). specialize (X (a / (2 * K))%nat (a mod (2 * K))%nat ltac:(apply Nat.mod_upper_bound; lia)).
  rewrite (Nat.mul_comm (a / (2 * K))), <- D in X. exact X.
Qed.
Lemma cos_turn a : C K a * C K (S a) + Sn K a * Sn K (S a) = cos (dl K).
Proof. unfold C, Sn. rewrite (Rmult_comm (cos (INR a * _))), (Rmult_comm (sin (INR a * _))), <- cos_minus. f_equal. rewrite S_INR. ring. Qed.
Lemma M_M a : M K a * M K (S a) <= cos (dl K).
Proof.
  destruct (octant_side K HK (a / K)) as (u & v & Sd & G). assert (D := Nat.div_mod a K ltac:(lia)). assert (L := Nat.mod_upper_bound a K ltac:(lia)).
  assert (G0 := G 1 a ltac:(nia)). assert (G1 := G 1 (S a) ltac:(nia)). unfold Bx, By in G0, G1. assert (P0 := M_pos K a). assert (P1 := M_pos K (S a)).
  assert (E0 : M K a = u * C K a + v * Sn K a) by (rewrite <- (Rmult_1_r (M K a)), <- G0 at 1; field; lra).
  assert (E1 : M K (S a) = u * C K (S a) + v * Sn K (S a)) by (rewrite <- (Rmult_1_r (M K (S a))), <- G1 at 1; field; lra).
  rewrite E0, E1, <- (cos_turn a). destruct (same_sign a). destruct Sd as [[-> ->]|[[-> ->]|[[-> ->]|[-> ->]]]]; lra.
Qed.
Lemma wedge_ge a : dl K <= wedge K a.
Proof.
  unfold wedge. assert (P0 := M_pos K a). assert (P1 := M_pos K (S a)). assert (P := Rmult_lt_0_compat _ _ P0 P1). assert (B := M_M a).
  assert (Dp := dl_pos K HK). assert (Dl := dl_le K HK). assert (Pp := PI_RGT_0). assert (X := sin_cos_le (dl K) Dp ltac:(lra)).
  apply Rmult_le_reg_r with (M K a * M K (S a)); auto. replace (sin (dl K) / _ * _) with (sin (dl K)) by (field; lra).
  assert (dl K * (M K a * M K (S a)) <= dl K * cos (dl K)) by (apply Rmult_le_compat_l; lra). lra.
Qed.
End Wedge.

Section Quad.
Variables (eps pitch : R) (radii : list R) (ns : list nat) (K : nat).
Hypothesis HK : (0 < K)%nat.
Hypothesis Hpin : pin_ok radii ns.
Notation h := (pitch / 2).
Notation na := (8 * K)%nat.
Notation n2 := (4 * K)%nat.
Notation K2 := (2 * K)%nat.
Notation gm := (dl K2).
Notation C := (C K).
Notation Sn := (Sn K).
Notation M := (M K).
Notation nr := (nr ns).
Notation cum := (cum radii ns).
Notation asl := (asl radii ns).
Hypothesis Hpitch : 0 < pitch.
Hypothesis Heps : 0 < eps.
Hypothesis Heps1 : eps <= sin gm.
Hypothesis Heps2 : eps <= h * sin gm.
Definition kap : R := 3 * gm / (4 * sin gm) + cos gm / 4.
Definition lr (i : nat) : R := sqrt (cum i).
Hypothesis Hfit : lr (nr - 1) + 2 * eps <= h.
Hypothesis Hfit2 : lr (nr - 1) * kap + eps <= h.

Let HK2 : (0 < K2)%nat. Proof. lia. Qed.
Let Hlen : length ns = length radii. Proof. apply Hpin. Qed.
Let Hne : radii <> []. Proof. apply Hpin. Qed.
Let Hns : forall n, In n ns -> (0 < n)%nat. Proof. apply Hpin. Qed.
Let Hinc : forall k, (k < length radii)%nat -> rad radii k < rad radii (S k). Proof. apply Hpin. Qed.
Let Nr : (0 < nr)%nat. Proof. apply (nr_pos radii ns); auto. Qed.
Let Cpos i : (i < nr)%nat -> 0 < cum i. Proof. apply (cum_pos radii ns); auto. Qed.
Let Sp : 0 < sin gm. Proof. apply sin_dl_pos. auto. Qed.
Let Dp : 0 < gm. Proof. apply dl_pos. auto. Qed.
Let La : length asl = nr. Proof. now apply asl_length. Qed.
Lemma dl_gm : dl K = 2 * gm.
Proof. unfold dl. rewrite !mult_INR. cbn [INR]. field. apply not_0_INR. lia. Qed.
Lemma fine_C a : PinCyl_Trig_Proofs.C K2 (2 * a) = C a.
Proof. unfold PinCyl_Trig_Proofs.C. rewrite dl_gm. f_equal. rewrite mult_INR. cbn [INR]. ring. Qed.
Lemma fine_S a : PinCyl_Trig_Proofs.Sn K2 (2 * a) = Sn a.
Proof. unfold PinCyl_Trig_Proofs.Sn. rewrite dl_gm. f_equal. rewrite mult_INR. cbn [INR]. ring. Qed.
Lemma fine_M a : PinCyl_Trig_Proofs.M K2 (2 * a) = M a.
Proof. unfold PinCyl_Trig_Proofs.M. now rewrite fine_C, fine_S. Qed.
Lemma gm_na : INR na * gm = PI.
Proof. assert (X := dl_na radii ns K HK Hpin). rewrite dl_gm in X. lra. Qed.
Lemma theta : 2 * PI / INR na = dl K.
Proof. now apply (theta_dl radii ns). Qed.
Lemma gamma : 2 * PI / INR na / 2 = gm.
Proof. rewrite theta, dl_gm. field. Qed.
Lemma cos_gm_pos : 0 < cos gm.
Proof. assert (X := dl_le K2 HK2). assert (P := PI_RGT_0). apply cos_gt_0; lra. Qed.
Lemma kap_pos : 0 < kap.
Proof. unfold kap. assert (X := cos_gm_pos). assert (0 < 3 * gm / (4 * sin gm)) by (apply Rdiv_lt_0_compat; lra). lra. Qed.
Lemma lr_sq i : (i < nr)%nat -> lr i * lr i = cum i.
Proof. intros H. unfold lr. apply sqrt_sqrt. apply Rlt_le. now apply Cpos. Qed.
Lemma lr_pos i : (i < nr)%nat -> 0 < lr i.
Proof. intros H. apply sqrt_lt_R0. now apply Cpos. Qed.
Lemma lr_mono i : (i < nr)%nat -> lr i <= lr (nr - 1).
Proof. intros H. unfold lr. apply sqrt_le_1_alt. apply cum_mono; auto. lia. Qed.
Lemma lr_le i : (i < nr)%nat -> lr i + 2 * eps <= h.
Proof. intros H. assert (X := lr_mono i H). lra. Qed.
Lemma lk_le i : (i < nr)%nat -> lr i * kap + eps <= h.
Proof. intros H. assert (X := lr_mono i H). assert (Y := kap_pos). nra. Qed.
Lemma sector y : y / INR na = y / PI * gm.
Proof. rewrite <- gm_na. field. split; [lra|apply not_0_INR; lia]. Qed.
Lemma eq_radii2_ok x : eq_radii2 na (asl ++ [x]) (map lr (seq 0 nr)) nr = Ret (map (fun i => lr i * kap) (seq 0 nr)).
Proof.
  unfold eq_radii2. rewrite gamma. unfold rd at 1. rewrite nth_error_map_seq by auto. cbn [bind].
  rewrite (rd_nth _ 0 0) by (rewrite app_length, La; cbn; lia). cbn [bind].
  rewrite wr_ok by (rewrite repeat_length; auto). cbn [bind]. assert (Cp := cos_gm_pos).
  match goal with |- for_ _ _ _ (upd _ 0 ?y) = _ => replace y with (lr 0 * kap) end.
  - apply (scan_loop (fun i => lr i * kap)); auto. intros i l Hi Ll E.
    unfold rd at 1. rewrite nth_error_map_seq by lia. cbn [bind]. unfold rd at 1. rewrite E. cbn [bind].
    unfold rd at 1. rewrite nth_error_map_seq by lia. cbn [bind]. rewrite (rd_nth _ i 0) by (rewrite app_length, La; cbn; lia). cbn [bind].
    f_equal. rewrite app_nth1 by lia. rewrite sector.
    assert (E1 : nth i asl 0 / PI = lr i * lr i - lr (i - 1) * lr (i - 1)).
    { rewrite !lr_sq by lia. replace i with (S (i - 1)) at 2 by lia. rewrite cum_S by (auto; lia). replace (S (i - 1)) with i by lia. lra. }
    rewrite E1. unfold kap. assert (X := lr_pos i ltac:(lia)). field. lra.
  - rewrite app_nth1 by lia. rewrite sector.
    assert (E1 : nth 0 asl 0 / PI = lr 0 * lr 0).
    { rewrite lr_sq by auto. unfold PinCyl_Rings_Proofs.cum. rewrite (firstn_S_nth radii ns Hlen asl 0) by lia. cbn [firstn app]. rewrite rsum_cons, rsum_nil. f_equal. ring. }
    rewrite E1. unfold kap. assert (X := lr_pos 0 Nr). field. lra.
Qed.

(** * Vertices *)
Definition rho2 (r a : nat) : R := if (r <? nr)%nat then lr r else h / M a.
Definition rhoA (r a : nat) : R := if (r <? nr)%nat then lr r * kap else h / PinCyl_Trig_Proofs.M K2 (2 * a + 1).
Definition raw2 (w : wx) : R * R :=
  match w with
  | Vx Ctr => (0, 0)
  | Vx (Tr i) => (lr 0 / 2 * C (2 * i + 1), lr 0 / 2 * Sn (2 * i + 1))
  | Vx (Qv r a) => (rho2 r a * C a, rho2 r a * Sn a)
  | MC a => (lr 0 / 2 * C a, lr 0 / 2 * Sn a)
  | MT0 i => (lr 0 / 2 * C (2 * i + 1) / 2, lr 0 / 2 * Sn (2 * i + 1) / 2)
  | MT1 i => (3 * (lr 0 / 2) * C (2 * i + 1) / 2, 3 * (lr 0 / 2) * Sn (2 * i + 1) / 2)
  | MA r a => (rhoA r a * PinCyl_Trig_Proofs.C K2 (2 * a + 1), rhoA r a * PinCyl_Trig_Proofs.Sn K2 (2 * a + 1))
  | MR r a => ((rho2 r a + rho2 (r - 1) a) / 2 * C a, (rho2 r a + rho2 (r - 1) a) / 2 * Sn a)
  end.
Definition pos2 (w : wx) : R * R := (fst (raw2 w) + h, snd (raw2 w) + h).
(** the points of a ring *)
Definition rp (r j : nat) : wx := if Nat.even j then Vx (Qv r (Nat.div2 j)) else MA r (Nat.div2 j).
Definition tri_pts (i : nat) : list wx := [MC (2 * i); MT0 i; Vx (Tr i); MT1 i].
Definition ring_pts (r : nat) : list wx := map (rp r) (seq 0 (2 * na)).
Definition block (r : nat) : list wx := map (MR r) (seq 0 na) ++ ring_pts r.
Definition wlist : list wx := [Vx Ctr] ++ concat (map tri_pts (seq 0 n2)) ++ ring_pts 0 ++ concat (map block (seq 1 nr)).
Definition wid (w : wx) : nat :=
  match w with
  | Vx Ctr => 0
  | Vx (Tr i) => 4 * i + 3
  | Vx (Qv r a) => 1 + 2 * na + 3 * na * r + 2 * a
  | MC a => 1 + 2 * a
  | MT0 i => 4 * i + 2
  | MT1 i => 4 * i + 4
  | MA r a => 1 + 2 * na + 3 * na * r + 2 * a + 1
  | MR r a => 1 + 4 * na + 3 * na * (r - 1) + a
  end.
Definition wok (w : wx) : Prop :=
  match w with
  | Vx v => vok n2 nr v
  | MC a => (a < na)%nat /\ Nat.even a = true
  | MT0 i | MT1 i => (i < n2)%nat
  | MA r a => (r <= nr)%nat /\ (a < na)%nat
  | MR r a => (1 <= r <= nr)%nat /\ (a < na)%nat
  end.
Lemma ring_pts_length r : length (ring_pts r) = (2 * na)%nat.
Proof. unfold ring_pts. now rewrite map_length, seq_length. Qed.
Lemma block_length r : length (block r) = (3 * na)%nat.
Proof. unfold block. rewrite app_length, ring_pts_length, map_length, seq_length. lia. Qed.
Lemma tri_length : length (concat (map tri_pts (seq 0 n2))) = (2 * na)%nat.
Proof. rewrite (concat_length_eq _ 4) by (intros l Hl; now apply in_map_iff in Hl as (q & <- & _)). rewrite map_length, seq_length. lia. Qed.
Lemma blocks_length s n : length (concat (map block (seq s n))) = (n * (3 * na))%nat.
Proof. rewrite (concat_length_eq _ (3 * na)) by (intros l Hl; apply in_map_iff in Hl as (q & <- & _); apply block_length). now rewrite map_length, seq_length. Qed.
Lemma wlist_length : length wlist = (1 + 4 * na + 3 * na * nr)%nat.
Proof. unfold wlist. rewrite !app_length, tri_length, ring_pts_length, blocks_length. cbn [length]. lia. Qed.
Lemma even_2 a : Nat.even (2 * a) = true.
Proof. apply Nat.even_spec. now exists a. Qed.
Lemma even_21 a : Nat.even (2 * a + 1) = false.
Proof. rewrite Nat.add_1_r, Nat.even_succ. apply not_true_is_false. intros X. apply Nat.odd_spec in X as (k & X). lia. Qed.
Lemma div2_21 a : Nat.div2 (2 * a + 1) = a.
Proof. rewrite Nat.add_1_r. apply Nat.div2_succ_double. Qed.
Lemma rp_even r a : rp r (2 * a) = Vx (Qv r a).
Proof. unfold rp. now rewrite even_2, Nat.div2_double. Qed.
Lemma rp_odd r a : rp r (2 * a + 1) = MA r a.
Proof. unfold rp. now rewrite even_21, div2_21. Qed.
Lemma ring_pts_nth r j : (j < 2 * na)%nat -> nth_error (ring_pts r) j = Some (rp r j).
Proof. intros H. unfold ring_pts. now apply nth_error_map_seq. Qed.
Lemma ring_at r j : (r <= nr)%nat -> (j < 2 * na)%nat -> nth_error wlist (1 + 2 * na + 3 * na * r + j) = Some (rp r j).
Proof.
  intros Hr Hj. unfold wlist. change (1 + 2 * na + 3 * na * r + j)%nat with (S (2 * na + 3 * na * r + j)). cbn [app nth_error].
  rewrite nth_error_app2; rewrite tri_length; [|lia]. replace (2 * na + 3 * na * r + j - 2 * na)%nat with (3 * na * r + j)%nat by lia.
  destruct r as [|r].
  - rewrite Nat.mul_0_r. cbn [Nat.add]. rewrite nth_error_app1 by (rewrite ring_pts_length; auto). now apply ring_pts_nth.
  - rewrite nth_error_app2; rewrite ring_pts_length; [|nia]. replace (3 * na * S r + j - 2 * na)%nat with (r * (3 * na) + (na + j))%nat by nia.
    rewrite (nth_error_concat _ (3 * na)) with (l := block (S r)); try lia.
    + unfold block. rewrite nth_error_app2; rewrite map_length, seq_length; [|lia]. replace (na + j - na)%nat with j by lia. now apply ring_pts_nth.
    + intros l Hl. apply in_map_iff in Hl as (q & <- & _). apply block_length.
    + rewrite nth_error_map, nth_error_seq by lia. reflexivity.
Qed.
Lemma tri_at i j w : (i < n2)%nat -> nth_error (tri_pts i) j = Some w -> nth_error wlist (1 + (i * 4 + j)) = Some w.
Proof.
  intros Hi Hw. assert (Hj : (j < 4)%nat) by (apply nth_error_Some in Hw as Hw' || (assert (X : nth_error (tri_pts i) j <> None) by congruence; apply nth_error_Some in X; exact X)).
  unfold wlist. cbn [app Nat.add nth_error]. rewrite nth_error_app1 by (rewrite tri_length; lia).
  rewrite (nth_error_concat _ 4) with (l := tri_pts i); auto.
  - intros l Hl. now apply in_map_iff in Hl as (q & <- & _).
  - now apply (nth_error_map_seq tri_pts).
Qed.
Lemma wlist_id w : wok w -> nth_error wlist (wid w) = Some w.
Proof.
  destruct w as [[|i|r a]|a|i|i|r a|r a]; cbn [wok wid vok]; intros H.
  - reflexivity.
  - replace (4 * i + 3)%nat with (1 + (i * 4 + 2))%nat by lia. now apply tri_at.
  - rewrite ring_at by lia. now rewrite rp_even.
  - destruct H as [H E]. apply Nat.even_spec in E as (i & ->). replace (1 + 2 * (2 * i))%nat with (1 + (i * 4 + 0))%nat by lia. apply tri_at; [lia|auto].
  - replace (4 * i + 2)%nat with (1 + (i * 4 + 1))%nat by lia. now apply tri_at.
  - replace (4 * i + 4)%nat with (1 + (i * 4 + 3))%nat by lia. now apply tri_at.
  - replace (1 + 2 * na + 3 * na * r + 2 * a + 1)%nat with (1 + 2 * na + 3 * na * r + (2 * a + 1))%nat by lia. rewrite ring_at by lia. now rewrite rp_odd.
  - unfold wlist. replace (1 + 4 * na + 3 * na * (r - 1) + a)%nat with (S (4 * na + 3 * na * (r - 1) + a)) by lia. cbn [app nth_error].
    replace (4 * na + 3 * na * (r - 1) + a)%nat with (2 * na + (2 * na + ((r - 1) * (3 * na) + a)))%nat by (rewrite (Nat.mul_comm (3 * na)); generalize ((r - 1) * (3 * na))%nat; lia).
    rewrite nth_error_app2; rewrite tri_length; [|apply Nat.le_add_r]. rewrite Nat.add_comm, Nat.add_sub. rewrite nth_error_app2; rewrite ring_pts_length; [|apply Nat.le_add_r]. rewrite Nat.add_comm, Nat.add_sub.
    rewrite (nth_error_concat _ (3 * na)) with (l := block r); try lia.
    + unfold block. rewrite nth_error_app1 by (rewrite map_length, seq_length; lia). apply nth_error_map_seq. lia.
    + intros l Hl. apply in_map_iff in Hl as (q & <- & _). apply block_length.
    + rewrite nth_error_map, nth_error_seq by lia. cbn [option_map]. do 2 f_equal. lia.
Qed.
Lemma rp_ok r j : (r <= nr)%nat -> (j < 2 * na)%nat -> wok (rp r j).
Proof.
  intros Hr Hj. destruct (Nat.Even_or_Odd j) as [(a & ->)|(a & ->)]; [rewrite rp_even|rewrite rp_odd]; cbn [wok vok]; lia.
Qed.
Lemma wlist_wok w : In w wlist -> wok w.
Proof.
  unfold wlist. rewrite !in_app_iff, !in_concat. intros [[<-|[]]|[(l & Hl & H)|[H|(l & Hl & H)]]].
  - exact I.
  - apply in_map_iff in Hl as (i & <- & Hi). apply in_seq in Hi. destruct H as [<-|[<-|[<-|[<-|[]]]]]; cbn [wok vok]; try lia.
    split; [lia|apply even_2].
  - apply in_map_iff in H as (j & <- & Hj). apply in_seq in Hj. apply rp_ok; lia.
  - apply in_map_iff in Hl as (r & <- & Hr). apply in_seq in Hr. unfold block in H. apply in_app_iff in H as [H|H];
      apply in_map_iff in H as (j & <- & Hj); apply in_seq in Hj; [cbn [wok]; lia|apply rp_ok; lia].
Qed.
Lemma snapC a : snap eps (C a) = C a.
Proof. rewrite <- fine_C. now apply snap_C. Qed.
Lemma snapS a : snap eps (Sn a) = Sn a.
Proof. rewrite <- fine_S. now apply snap_S. Qed.
Lemma ring_points2_ok r s1 old s2 : (r < nr)%nat -> length old = (2 * na)%nat ->
  ring_points2 eps na (length s1) r (map lr (seq 0 nr)) (map (fun i => lr i * kap) (seq 0 nr)) (s1 ++ old ++ s2) = Ret (s1 ++ map raw2 (ring_pts r) ++ s2).
Proof.
  intros Hr Lo. unfold ring_points2. rewrite gamma. unfold ring_pts. rewrite map_map. apply fill_range; auto. intros j s Hj Ls.
  unfold rd. rewrite !nth_error_map_seq by auto. cbn [bind]. fold (PinCyl_Trig_Proofs.C K2 j) (PinCyl_Trig_Proofs.Sn K2 j). rewrite snap_C, snap_S by auto.
  rewrite Nat.sub_0_r. destruct (Nat.Even_or_Odd j) as [(a & ->)|(a & ->)].
  - replace ((2 * a) mod 2)%nat with 0%nat by (rewrite Nat.mul_comm, Nat.mod_mul; lia). cbn [Nat.eqb]. rewrite rp_even. cbn [raw2]. unfold rho2.
    destruct (Nat.ltb_spec r nr); [|lia]. now rewrite fine_C, fine_S.
  - replace ((2 * a + 1) mod 2)%nat with 1%nat by (rewrite Nat.add_comm, Nat.mul_comm, Nat.mod_add by lia; reflexivity). cbn [Nat.eqb]. rewrite rp_odd. cbn [raw2]. unfold rhoA.
    destruct (Nat.ltb_spec r nr); [|lia]. auto.
Qed.
Lemma vertices2_ok : vertices2 eps pitch na nr (map lr (seq 0 nr)) (map (fun i => lr i * kap) (seq 0 nr)) = Ret (map raw2 wlist).
Proof.
  unfold vertices2. rewrite gamma, theta.
  rewrite wr_ok by (rewrite repeat_length; lia). cbn [bind].
  unfold rd at 1. rewrite nth_error_map_seq by auto. cbn [bind].
  replace (upd (repeat (0, 0) (1 + 4 * na + 3 * na * nr)) 0 (0, 0)) with
    ([(0, 0)] ++ repeat (0, 0) (2 * na) ++ (repeat (0, 0) (2 * na) ++ repeat (0, 0) ((nr - 1) * (3 * na)) ++ repeat (0, 0) na ++ repeat (0, 0) (2 * na))).
  2:{ rewrite <- !repeat_app. replace (2 * na + (2 * na + ((nr - 1) * (3 * na) + (na + 2 * na))))%nat with (4 * na + 3 * na * nr)%nat by nia. reflexivity. }
  replace na with (2 * n2)%nat at 1 by lia. rewrite (for_double _ n2 0).
  rewrite (fill_blocks _ (fun i => map raw2 (tri_pts i)) 4).
  2:{ intros i s1 o s2 Hi Ls Lo. destruct o as [|o0 [|o1 [|o2 [|o3 [|]]]]]; try discriminate. cbn [length Nat.add] in Ls. rewrite Nat.sub_0_r in Ls.
      replace ((2 * i) mod 2)%nat with 0%nat by (rewrite Nat.mul_comm, Nat.mod_mul; lia). cbn [Nat.eqb].
      replace ((2 * i + 1) mod 2)%nat with 1%nat by (rewrite Nat.add_comm, Nat.mul_comm, Nat.mod_add by lia; reflexivity). cbn [Nat.eqb].
      fold (C (2 * i)) (Sn (2 * i)) (C (2 * i + 1)) (Sn (2 * i + 1)). cbn [app tri_pts map raw2].
      assert (W : forall (t u : list (R * R)) (x y : R * R) k, k = length t -> wr (t ++ y :: u) k x = Ret (t ++ x :: u)).
      { intros t u x y k ->. rewrite wr_ok by (rewrite app_length; cbn; lia). now rewrite upd_mid. }
      rewrite W by lia. cbn [bind].
      match goal with |- context [s1 ++ ?x :: o1 :: o2 :: o3 :: s2] => replace (s1 ++ x :: o1 :: o2 :: o3 :: s2) with ((s1 ++ [x]) ++ o1 :: o2 :: o3 :: s2) by now rewrite <- app_assoc end.
      rewrite W by (rewrite app_length; cbn; lia). cbn [bind].
      match goal with |- context [(s1 ++ [?x]) ++ ?y :: o2 :: o3 :: s2] => replace ((s1 ++ [x]) ++ y :: o2 :: o3 :: s2) with ((s1 ++ [x; y]) ++ o2 :: o3 :: s2) by now rewrite <- !app_assoc end.
      rewrite W by (rewrite app_length; cbn; lia). cbn [bind].
      match goal with |- context [(s1 ++ [?x; ?y]) ++ ?z :: o3 :: s2] => replace ((s1 ++ [x; y]) ++ z :: o3 :: s2) with ((s1 ++ [x; y; z]) ++ o3 :: s2) by now rewrite <- !app_assoc end.
      rewrite W by (rewrite app_length; cbn; lia). now rewrite <- app_assoc. }
  2:{ reflexivity. }
  2:{ rewrite repeat_length. lia. }
  cbn [bind]. rewrite app_assoc. set (P1 := [(0, 0)] ++ _).
  assert (LP1 : length P1 = (1 + 2 * na)%nat).
  { unfold P1. rewrite app_length, (concat_length_eq _ 4) by (intros l Hl; now apply in_map_iff in Hl as (q & <- & _)). rewrite map_length, seq_length. cbn [length]. lia. }
  rewrite <- LP1, ring_points2_ok by (auto; apply repeat_length). cbn [bind]. rewrite app_assoc. set (P2 := P1 ++ _).
  assert (LP2 : length P2 = (1 + 4 * na)%nat) by (unfold P2; rewrite app_length, map_length, ring_pts_length; lia).
  rewrite (fill_blocks _ (fun r => map raw2 (block r)) (3 * na)).
  2:{ intros r s1 o s2 Hr Ls Lo. rewrite <- (firstn_skipn na o). rewrite <- app_assoc.
      replace (1 + 4 * na + 3 * na * (r - 1))%nat with (length s1) by lia.
      rewrite (fill_range _ (fun a => raw2 (MR r a))).
      2:{ intros a s Ha Lss. unfold rd. rewrite !nth_error_map_seq by lia. cbn [bind]. rewrite Nat.sub_0_r. fold (C a) (Sn a). rewrite snapC, snapS. cbn [raw2]. unfold rho2.
          destruct (Nat.ltb_spec r nr); [|lia]. destruct (Nat.ltb_spec (r - 1) nr); [auto|lia]. }
      2:{ rewrite firstn_length. lia. }
      cbn [bind]. rewrite app_assoc. replace (length s1 + na)%nat with (length (s1 ++ map (fun a => raw2 (MR r a)) (seq 0 na))) by (rewrite app_length, map_length, seq_length; auto).
      rewrite ring_points2_ok; [|lia|rewrite skipn_length; lia]. unfold block. rewrite map_app, map_map, <- !app_assoc. reflexivity. }
  2:{ intros. rewrite map_length. apply block_length. }
  2:{ apply repeat_length. }
  cbn [bind]. rewrite app_assoc. set (P3 := P2 ++ _).
  assert (LP3 : length P3 = (1 + 4 * na + 3 * na * (nr - 1))%nat).
  { unfold P3. rewrite app_length, (concat_length_eq _ (3 * na)) by (intros l Hl; apply in_map_iff in Hl as (q & <- & _); rewrite map_length; apply block_length).
    rewrite map_length, seq_length. lia. }
  rewrite <- LP3.
  rewrite (fill_range _ (fun a => raw2 (MR nr a))).
  2:{ intros a s Ha Lss. unfold rd. rewrite !nth_error_map_seq by lia. cbn [bind]. rewrite Nat.sub_0_r. fold (C a) (Sn a). rewrite snapC, snapS. cbn [raw2]. unfold rho2.
      rewrite Nat.ltb_irrefl. destruct (Nat.ltb_spec (nr - 1) nr); [|lia]. rewrite bound_r_M by (auto; apply CS).
      fold (M a). assert (Mp := M_pos K a). replace (pitch / (2 * M a)) with (pitch / 2 / M a) by (field; lra). auto. }
  2:{ apply repeat_length. }
  cbn [bind]. rewrite app_assoc. rewrite <- (app_nil_r (repeat (0, 0) (2 * na))).
  rewrite (fill_range _ (fun j => raw2 (rp nr j))).
  2:{ intros j s Hj Lss. rewrite Nat.sub_0_r, app_length, map_length, seq_length. rewrite !(Rmult_comm gm). fold (PinCyl_Trig_Proofs.C K2 j) (PinCyl_Trig_Proofs.Sn K2 j). rewrite snap_C, snap_S by auto.
      rewrite bound_r_M by (auto; apply CS). fold (PinCyl_Trig_Proofs.M K2 j). assert (Mp := M_pos K2 j).
      replace (pitch / (2 * PinCyl_Trig_Proofs.M K2 j)) with (pitch / 2 / PinCyl_Trig_Proofs.M K2 j) by (field; lra).
      destruct (Nat.Even_or_Odd j) as [(a & ->)|(a & ->)].
      - rewrite rp_even. cbn [raw2]. unfold rho2. rewrite Nat.ltb_irrefl. now rewrite fine_C, fine_S, fine_M.
      - rewrite rp_odd. cbn [raw2]. unfold rhoA. now rewrite Nat.ltb_irrefl. }
  2:{ apply repeat_length. }
  f_equal. unfold P3, P2, P1, wlist. rewrite !map_app. cbn [map raw2]. rewrite <- !app_assoc. cbn [app]. f_equal. rewrite !concat_map, !map_map. f_equal. f_equal.
  replace (seq 1 nr) with (seq 1 (nr - 1) ++ [nr]).
  2:{ replace (seq 1 nr) with (seq 1 (nr - 1 + 1)) by (f_equal; lia). rewrite seq_app. f_equal. cbn [seq]. f_equal. lia. }
  rewrite map_app, concat_app. f_equal. cbn [map concat]. rewrite !app_nil_r. unfold block, ring_pts. now rewrite map_app, !map_map.
Qed.

(** vertices not on the border are at least [eps] away from it *)
Definition inner2 (w : wx) : Prop := match w with Vx (Qv r _) => (r < nr)%nat | MA r _ => (r < nr)%nat | _ => True end.
Lemma inner2_dec w : inner2 w \/ ~ inner2 w.
Proof. destruct w as [[|i|r a]|a|i|i|r a|r a]; cbn; auto; lia. Qed.
Lemma reach r x : 0 < r -> r + eps <= h -> Rabs x <= 1 -> eps <= r * x + h <= pitch - eps.
Proof. intros. now apply in_reach. Qed.
Lemma reach' r x : 0 < r -> r + 2 * eps <= h -> Rabs x <= 1 -> 2 * eps <= r * x + h <= pitch - 2 * eps.
Proof. intros Hr Hr' Hx. assert (- 1 <= x <= 1) by (revert Hx; unfold Rabs; destruct (Rcase_abs x); lra). nra. Qed.
Lemma border_in a : 0 <= h / M a * C a + h <= pitch /\ 0 <= h / M a * Sn a + h <= pitch.
Proof.
  assert (X := Bx_abs K h a ltac:(lra)). assert (Y := By_abs K h a ltac:(lra)). unfold Bx, By in X, Y.
  revert X Y. unfold Rabs. do 2 destruct Rcase_abs; lra.
Qed.
Lemma pos2_inner w : wok w -> inner2 w -> eps <= fst (pos2 w) <= pitch - eps /\ eps <= snd (pos2 w) <= pitch - eps.
Proof.
  assert (E0 := lr_le 0 Nr). assert (P0 := lr_pos 0 Nr). assert (Ca := C_abs K). assert (Sa := S_abs K).
  destruct w as [[|i|r a]|a|i|i|r a|r a]; cbn [wok vok inner2]; intros H I; unfold pos2; cbn [raw2 fst snd].
  - lra.
  - split; apply reach; auto; lra.
  - unfold rho2. destruct (Nat.ltb_spec r nr); [|lia]. assert (X := lr_le r I). assert (Y := lr_pos r I). split; apply reach; auto; lra.
  - split; apply reach; auto; lra.
  - replace (lr 0 / 2 * C (2 * i + 1) / 2) with (lr 0 / 4 * C (2 * i + 1)) by field. replace (lr 0 / 2 * Sn (2 * i + 1) / 2) with (lr 0 / 4 * Sn (2 * i + 1)) by field.
    split; apply reach; auto; lra.
  - replace (3 * (lr 0 / 2) * C (2 * i + 1) / 2) with (3 * lr 0 / 4 * C (2 * i + 1)) by field. replace (3 * (lr 0 / 2) * Sn (2 * i + 1) / 2) with (3 * lr 0 / 4 * Sn (2 * i + 1)) by field.
    split; apply reach; auto; lra.
  - unfold rhoA. destruct (Nat.ltb_spec r nr); [|lia]. assert (X := lk_le r I). assert (Y := lr_pos r I). assert (Z := kap_pos).
    assert (0 < lr r * kap) by now apply Rmult_lt_0_compat. split; apply reach; auto; [apply C_abs|apply S_abs].
  - assert (X1 : (r - 1 < nr)%nat) by lia. assert (X := lr_le _ X1). assert (Y := lr_pos _ X1).
    assert (U1 := reach' (lr (r - 1)) (C a) Y X (Ca a)). assert (U2 := reach' (lr (r - 1)) (Sn a) Y X (Sa a)).
    unfold rho2. destruct (Nat.ltb_spec (r - 1) nr); [|lia].
    assert (V : 0 <= (if (r <? nr)%nat then lr r else h / M a) * C a + h <= pitch /\ 0 <= (if (r <? nr)%nat then lr r else h / M a) * Sn a + h <= pitch).
    { destruct (Nat.ltb_spec r nr) as [L|L].
      - assert (X' := lr_le r L). assert (Y' := lr_pos r L). assert (V1 := reach' (lr r) (C a) Y' X' (Ca a)). assert (V2 := reach' (lr r) (Sn a) Y' X' (Sa a)). lra.
      - apply border_in. }
    revert V. generalize (if (r <? nr)%nat then lr r else h / M a). intros q V. lra.
Qed.
Lemma snap_pos2 w : wok w -> (snap eps (fst (raw2 w) + h), snap eps (snd (raw2 w) + h)) = pos2 w.
Proof.
  intros H. destruct (inner2_dec w) as [I|I].
  - destruct (pos2_inner w H I) as [X Y]. unfold pos2 in *. cbn [fst snd] in X, Y.
    assert (Rabs (fst (raw2 w) + h) = fst (raw2 w) + h) by (apply Rabs_right; lra).
    assert (Rabs (snd (raw2 w) + h) = snd (raw2 w) + h) by (apply Rabs_right; lra). rewrite !snap_id; auto; right; lra.
  - assert (B : forall j, (snap eps (h / PinCyl_Trig_Proofs.M K2 j * PinCyl_Trig_Proofs.C K2 j + h), snap eps (h / PinCyl_Trig_Proofs.M K2 j * PinCyl_Trig_Proofs.Sn K2 j + h)) =
      (h / PinCyl_Trig_Proofs.M K2 j * PinCyl_Trig_Proofs.C K2 j + h, h / PinCyl_Trig_Proofs.M K2 j * PinCyl_Trig_Proofs.Sn K2 j + h)).
    { intros j. assert (X := B_snap_x K2 HK2 eps h j ltac:(lra) Heps2). assert (Y := B_snap_y K2 HK2 eps h j ltac:(lra) Heps2). unfold Bx, By in X, Y. now rewrite X, Y. }
    destruct w as [[|i|r a]|a|i|i|r a|r a]; cbn [inner2] in I; try (exfalso; exact (I Logic.I)); unfold pos2; cbn [raw2 fst snd]; unfold rho2, rhoA; (destruct (Nat.ltb_spec r nr); [lia|]).
    + specialize (B (2 * a)%nat). rewrite fine_C, fine_S, fine_M in B. exact B.
    + apply B.
Qed.
Definition pts2 : list (R * R) := map pos2 wlist.
Lemma shifted2 : shift_points eps pitch (map raw2 wlist) = Ret pts2.
Proof. rewrite shift_ok. f_equal. rewrite map_map. apply map_ext_in. intros v Hv. apply snap_pos2. now apply wlist_wok. Qed.
Lemma pts2_id w : wok w -> nth_error pts2 (wid w) = Some (pos2 w).
Proof. intros H. unfold pts2. now rewrite nth_error_map, wlist_id. Qed.

(** * Faces *)
Notation nxt := (nxt n2).
Notation flist := (flist n2 nr).
Notation fok := (fok n2 nr).
Definition zwid (w : wx) : Z := Z.of_nat (wid w).
Definition fverts2 (f : fc) : list wx :=
  match f with
  | F0 i => [Vx Ctr; Vx (Qv 0 (2 * i)); Vx (Qv 0 (2 * i + 1)); Vx (Tr i); MC (2 * i); MA 0 (2 * i); MT1 i; MT0 i]
  | F1 i => [Vx Ctr; Vx (Tr i); Vx (Qv 0 (2 * i + 1)); Vx (Qv 0 (nxt (2 * i + 1))); MT0 i; MT1 i; MA 0 (2 * i + 1); MC (nxt (2 * i + 1))]
  | FR r a => [Vx (Qv (r - 1) a); Vx (Qv r a); Vx (Qv r (nxt a)); Vx (Qv (r - 1) (nxt a)); MR r a; MA r a; MR r (nxt a); MA (r - 1) a]
  end.
Definition fconn2 (f : fc) : list Z := map zwid (fverts2 f).
Lemma faces2_ok : faces2 na nr = Ret (map fconn2 flist).
Proof.
  unfold faces2. rewrite (na_half radii ns K HK Hpin).
  set (z8 := [0; 0; 0; 0; 0; 0; 0; 0]%Z).
  replace (repeat z8 (na * (nr + 1))) with ([] ++ repeat z8 na ++ repeat z8 (nr * na)).
  2:{ cbn [app]. rewrite <- repeat_app. f_equal. lia. }
  rewrite (fill_blocks _ (fun i => [fconn2 (F0 i); fconn2 (F1 i)]) 2).
  2:{ intros i s1 o s2 Hi Ls Lo. destruct o as [|o1 [|o2 [|]]]; try discriminate. cbn [length Nat.add] in Ls.
      replace (2 * i)%nat with (length s1) by lia. cbn [app]. rewrite wr_ok by (rewrite app_length; cbn; lia). cbn [bind]. rewrite upd_mid.
      match goal with |- wr (s1 ++ ?x :: _) _ _ = _ => replace (s1 ++ x :: o2 :: s2) with ((s1 ++ [x]) ++ o2 :: s2) by now rewrite <- app_assoc end.
      rewrite wr_ok by (rewrite !app_length; cbn; lia).
      match goal with |- context [upd ((s1 ++ [?x]) ++ _) _ _] => replace (length s1 + 1)%nat with (length (s1 ++ [x])) by (rewrite app_length; reflexivity) end.
      rewrite upd_mid, <- app_assoc. cbn [app]. apply f_equal. apply f_equal. assert (i < n2)%nat by lia.
      apply f_equal2; [|apply f_equal2; [|auto]].
      + cbn [fconn2 fverts2 map]. unfold zwid. cbn [wid]. repeat (apply f_equal2; [apply f_equal; lia|]). auto.
      + cbn [fconn2 fverts2 map]. unfold zwid, PinCyl_Edges_Proofs.nxt. cbn [wid].
        destruct (Nat.eqb_spec (3 + 4 * i + 1 + 1) (1 + 2 * na)), (Nat.eqb_spec (S (2 * i + 1)) (2 * n2)); try lia; repeat (apply f_equal2; [apply f_equal; lia|]); auto. }
  2:{ reflexivity. }
  2:{ rewrite repeat_length. lia. }
  cbn [bind app]. rewrite <- (app_nil_r (repeat z8 (nr * na))).
  assert (L1 : length (concat (map (fun i => [fconn2 (F0 i); fconn2 (F1 i)]) (seq 0 n2))) = na).
  { rewrite (concat_length_eq _ 2) by (intros l Hl; now apply in_map_iff in Hl as (q & <- & _)). rewrite map_length, seq_length. lia. }
  rewrite (fill_blocks _ (fun r => map (fun a => fconn2 (FR r a)) (seq 0 na)) na).
  2:{ intros r s1 o s2 Hr Ls Lo. rewrite (fill_range _ (fun a => fconn2 (FR r a))); auto. intros a s Ha Lss.
      rewrite L1 in Ls. f_equal; [nia|]. cbn [fconn2 fverts2 map]. unfold zwid, PinCyl_Edges_Proofs.nxt. cbn [wid].
      replace (3 * na * r)%nat with (3 * na * (r - 1) + 3 * na)%nat by nia. generalize (3 * na * (r - 1))%nat as rn. intros rn.
      destruct (Nat.eqb_spec (a + 1) na), (Nat.eqb_spec (S a) (2 * n2)); try lia; repeat (apply f_equal2; [apply f_equal; lia|]); auto. }
  2:{ intros. now rewrite map_length, seq_length. }
  2:{ apply repeat_length. }
  f_equal. unfold PinCyl_Edges_Proofs.flist. rewrite map_app, app_nil_r, !concat_map, !map_map. f_equal. f_equal.
  replace (2 * n2)%nat with na by lia. apply map_ext. intros r. now rewrite map_map.
Qed.
Definition msh2 : mesh R := mkMesh false false pts2 (map fconn2 flist) [] [].
Lemma fverts2_ok f w : fok f -> In w (fverts2 f) -> wok w.
Proof.
  assert (N := nxt_lt n2 ltac:(lia)).
  destruct f as [i|i|r a]; cbn [PinCyl_Edges_Proofs.fok fverts2 In]; intros H [<-|[<-|[<-|[<-|[<-|[<-|[<-|[<-|[]]]]]]]]]; cbn [wok vok]; try exact I; try lia;
    try (split; [lia|apply even_2]); try (split; [lia|]; try lia; replace na with (2 * n2)%nat by lia; apply N; lia).
  destruct (nxt_odd n2 ltac:(lia) i H) as (j & Hj & ->). split; [lia|apply even_2].
Qed.
Lemma fconn2_corners f : fok f -> corners pts2 (fconn2 f) = map Some (map pos2 (fverts2 f)).
Proof.
  intros H. unfold fconn2, corners. rewrite !map_map. apply map_ext_in. intros v Hv. unfold zwid. rewrite Nat2Z.id. apply pts2_id. now apply (fverts2_ok f).
Qed.
Lemma wid_lt w : wok w -> (wid w < length pts2)%nat.
Proof. intros H. apply nth_error_Some. rewrite pts2_id by auto. discriminate. Qed.
Lemma msh2_ok : mesh_ok Quad8 msh2.
Proof.
  intros c Hc. cbn in Hc. apply in_map_iff in Hc as (f & <- & Hf). apply flist_in in Hf; [|lia]. split; [now destruct f|].
  intros z Hz. unfold fconn2 in Hz. apply in_map_iff in Hz as (v & <- & Hv). assert (X := wid_lt v (fverts2_ok f v Hf Hv)). unfold zwid. cbn [mv msh2]. lia.
Qed.
Definition vid (v : vx) : Z := zwid (Vx v).
Lemma vid_inj u v : vok n2 nr u -> vok n2 nr v -> vid u = vid v -> u = v.
Proof.
  intros Hu Hv E. unfold vid, zwid in E. apply Nat2Z.inj in E. assert (Hu' := wlist_id (Vx u) Hu). assert (Hv' := wlist_id (Vx v) Hv). rewrite E in Hu'. congruence.
Qed.
(** the vertex halfway along an edge *)
Definition midw (e : vx * vx) : wx :=
  match e with
  | (Ctr, Tr i) | (Tr i, Ctr) => MT0 i
  | (Ctr, Qv _ a) | (Qv _ a, Ctr) => MC a
  | (Tr i, Qv _ _) | (Qv _ _, Tr i) => MT1 i
  | (Qv r a, Qv s b) => if (r =? s)%nat then (if (nxt a =? b)%nat then MA r a else MA r b) else MR (Nat.max r s) a
  | _ => MT0 0
  end.
Definition mid (e : vx * vx) : list Z := [zwid (midw e)].
Notation vedges := (vedges n2 nr).
Lemma midw_ring r a : (a < na)%nat -> midw (Qv r a, Qv r (nxt a)) = MA r a.
Proof. intros H. cbn [midw]. now rewrite !Nat.eqb_refl. Qed.
Lemma midw_ring' r a : (a < na)%nat -> midw (Qv r (nxt a), Qv r a) = MA r a.
Proof.
  intros H. cbn [midw]. rewrite Nat.eqb_refl. destruct (Nat.eqb_spec (nxt (nxt a)) a); auto.
  exfalso. apply (nxt_nxt n2 ltac:(lia) a (nxt a)); auto. lia.
Qed.
Lemma midw_ray r a : (1 <= r)%nat -> midw (Qv (r - 1) a, Qv r a) = MR r a.
Proof. intros H. cbn [midw]. destruct (Nat.eqb_spec (r - 1) r); [lia|]. f_equal. lia. Qed.
Lemma midw_ray' r a : (1 <= r)%nat -> midw (Qv r a, Qv (r - 1) a) = MR r a.
Proof. intros H. cbn [midw]. destruct (Nat.eqb_spec r (r - 1)); [lia|]. f_equal. lia. Qed.
Lemma midw_even i : (i < n2)%nat -> midw (Qv 0 (2 * i), Qv 0 (2 * i + 1)) = MA 0 (2 * i).
Proof. intros H. rewrite <- (nxt_even n2 ltac:(lia) i H). apply midw_ring. lia. Qed.
Lemma midw_even' i : (i < n2)%nat -> midw (Qv 0 (2 * i + 1), Qv 0 (2 * i)) = MA 0 (2 * i).
Proof. intros H. rewrite <- (nxt_even n2 ltac:(lia) i H). apply midw_ring'. lia. Qed.
Lemma mid_sym e : In e vedges -> mid (swap e) = mid e.
Proof.
  intros H. unfold mid. do 2 f_equal. apply vedges_in in H as (f & Hf & H); [|lia].
  destruct f as [i|i|r a]; cbn [PinCyl_Edges_Proofs.fok fedges In] in *; destruct H as [<-|[<-|[<-|[<-|[]]]]]; unfold swap; cbn [fst snd]; auto.
  - now rewrite midw_even, midw_even'.
  - rewrite midw_ring, midw_ring' by lia. auto.
  - rewrite midw_ray, midw_ray' by lia. auto.
  - rewrite midw_ring, midw_ring' by lia. auto.
  - rewrite midw_ray, midw_ray' by lia. auto.
  - rewrite midw_ring, midw_ring' by lia. auto.
Qed.
Notation ies := (ies n2 nr vid mid).
Lemma msh2_edges : all_edges Quad8 (fv msh2) = ies.
Proof.
  unfold all_edges. cbn [fv msh2]. unfold PinCyl_Edges_Proofs.ies, PinCyl_Edges_Proofs.vedges. rewrite concat_map, !map_map. f_equal. apply map_ext_in. intros f Hf.
  apply flist_in in Hf; [|lia].
  destruct f as [i|i|r a]; cbn [PinCyl_Edges_Proofs.fok] in Hf; cbn [fconn2 fverts2 map edges_of fedges]; unfold ide, mid; cbn [fst snd].
  - rewrite midw_even by auto. reflexivity.
  - rewrite midw_ring by lia. reflexivity.
  - rewrite midw_ring, midw_ring', midw_ray, midw_ray' by lia. reflexivity.
Qed.
Lemma msh2_nodup : NoDup ies.
Proof. apply ies_nodup; [lia|]. exact vid_inj. Qed.
Lemma msh2_watertight : watertight ies.
Proof. apply ies_watertight; [lia|exact vid_inj|exact mid_sym]. Qed.

(** * Areas *)
Notation polar := (polar pitch K).
Notation fpolar := (PinCyl_Lin_Proofs.polar pitch K2).
Lemma polar_fine a r : polar a r = fpolar (2 * a) r.
Proof. unfold PinCyl_Lin_Proofs.polar. now rewrite fine_C, fine_S. Qed.
Lemma polar_fineS a r : polar (S a) r = fpolar (S (S (2 * a))) r.
Proof. rewrite polar_fine. f_equal. lia. Qed.
Lemma sin_th : sin (dl K) = 2 * sin gm * cos gm.
Proof. rewrite dl_gm. apply sin_2a. Qed.
Lemma fturn2 j : PinCyl_Trig_Proofs.C K2 j * PinCyl_Trig_Proofs.Sn K2 (S (S j)) - PinCyl_Trig_Proofs.Sn K2 j * PinCyl_Trig_Proofs.C K2 (S (S j)) = 2 * sin gm * cos gm.
Proof.
  rewrite <- sin_2a. unfold PinCyl_Trig_Proofs.C, PinCyl_Trig_Proofs.Sn.
  rewrite (Rmult_comm (sin (INR j * gm))), (Rmult_comm (cos (INR j * gm))), <- sin_minus. f_equal. rewrite !S_INR. ring.
Qed.
Lemma arc_circle j l e : arc_area (fpolar j l) (fpolar (S (S j)) l) (fpolar (S j) e) = 4 / 3 * (l * sin gm * (e - l * cos gm)).
Proof.
  unfold arc_area, tarea, orient, PinCyl_Lin_Proofs.polar. cbn [fst snd]. assert (X := turn K2 j). assert (Y := turn K2 (S j)). assert (Z := fturn2 j).
  set (c0 := PinCyl_Trig_Proofs.C K2 j) in *. set (s0 := PinCyl_Trig_Proofs.Sn K2 j) in *.
  set (c1 := PinCyl_Trig_Proofs.C K2 (S j)) in *. set (s1 := PinCyl_Trig_Proofs.Sn K2 (S j)) in *.
  set (c2 := PinCyl_Trig_Proofs.C K2 (S (S j))) in *. set (s2 := PinCyl_Trig_Proofs.Sn K2 (S (S j))) in *.
  transitivity (2 / 3 * (l * e * (c0 * s1 - s0 * c1) + l * e * (c1 * s2 - s1 * c2) - l * l * (c0 * s2 - s0 * c2))); [field|].
  rewrite X, Y, Z. field.
Qed.
Lemma arc_rev a b c : arc_area b a c = - arc_area a b c.
Proof. unfold arc_area, tarea, orient. field. Qed.
Lemma arc_ring r a : (r < nr)%nat -> arc_area (pos2 (Vx (Qv r a))) (polar (S a) (lr r)) (pos2 (MA r a)) = cum r * (gm - sin gm * cos gm).
Proof.
  intros H. assert (E : pos2 (Vx (Qv r a)) = polar a (lr r)) by (unfold pos2; cbn [raw2 fst snd]; unfold rho2; destruct (Nat.ltb_spec r nr); [auto|lia]).
  assert (E' : pos2 (MA r a) = fpolar (S (2 * a)) (lr r * kap)).
  { unfold pos2. cbn [raw2 fst snd]. unfold rhoA. destruct (Nat.ltb_spec r nr); [|lia]. rewrite Nat.add_1_r. auto. }
  rewrite E, E', polar_fine, polar_fineS, arc_circle. rewrite <- lr_sq by auto. unfold kap. field. lra.
Qed.
Lemma arc_mid a b c : fst c = (fst a + fst b) / 2 -> snd c = (snd a + snd b) / 2 -> arc_area a b c = 0.
Proof. intros X Y. unfold arc_area, tarea, orient. rewrite X, Y. field. Qed.
Lemma polar_Q2 r a : pos2 (Vx (Qv r a)) = polar a (rho2 r a).
Proof. reflexivity. Qed.
Lemma rho2_nxt r a : (a < na)%nat -> rho2 r (nxt a) = rho2 r (S a).
Proof. intros H. unfold rho2. now rewrite (M_nxt radii ns K HK Hpin). Qed.
Lemma polar_Qn2 r a : (a < na)%nat -> pos2 (Vx (Qv r (nxt a))) = polar (S a) (rho2 r (S a)).
Proof. intros H. rewrite polar_Q2. unfold PinCyl_Lin_Proofs.polar. now rewrite rho2_nxt, (C_nxt radii ns K HK Hpin), (S_nxt radii ns K HK Hpin). Qed.
Lemma polar_C2 a : pos2 (Vx Ctr) = polar a 0.
Proof. unfold pos2, PinCyl_Lin_Proofs.polar. cbn. f_equal; ring. Qed.
Lemma polar_T2 i : pos2 (Vx (Tr i)) = polar (2 * i + 1) (lr 0 / 2).
Proof. reflexivity. Qed.
Lemma rho2_in r a : (r < nr)%nat -> rho2 r a = lr r.
Proof. intros H. unfold rho2. destruct (Nat.ltb_spec r nr); [auto|lia]. Qed.
Lemma rho2_out a : rho2 nr a = h / M a.
Proof. unfold rho2. now rewrite Nat.ltb_irrefl. Qed.
Lemma rho2_pos r a : (r <= nr)%nat -> 0 < rho2 r a.
Proof. intros H. unfold rho2. destruct (Nat.ltb_spec r nr); [now apply lr_pos|]. apply Rdiv_lt_0_compat; [lra|apply M_pos]. Qed.
Lemma lr_incr r : (1 <= r < nr)%nat -> lr (r - 1) < lr r.
Proof.
  intros H. unfold lr. apply sqrt_lt_1_alt. assert (Y := Cpos (r - 1) ltac:(lia)). split; [lra|].
  replace r with (S (r - 1)) at 2 by lia. rewrite cum_S by (auto; lia).
  assert (Z := asl_nth_pos radii ns Hlen Hns Hinc r ltac:(lia)). replace (S (r - 1)) with r by lia.
  assert (0 < nth r asl 0 / PI) by (apply Rdiv_lt_0_compat; [auto|apply PI_RGT_0]). lra.
Qed.
Lemma rho2_incr r a b : (1 <= r <= nr)%nat -> rho2 (r - 1) a < rho2 r b.
Proof.
  intros H. rewrite rho2_in by lia. unfold rho2. destruct (Nat.ltb_spec r nr); [now apply lr_incr|].
  apply Rlt_le_trans with h; [|now apply rho_border]. assert (E := lr_le (r - 1) ltac:(lia)). lra.
Qed.
Lemma face2_ccw f : fok f -> face8_isCCW eps (map pos2 (fverts2 f)) = true.
Proof.
  assert (E0 := lr_pos 0 Nr). unfold face8_isCCW.
  destruct f as [i|i|r a]; cbn [PinCyl_Edges_Proofs.fok fverts2 map firstn]; intros H.
  - rewrite (polar_C2 (2 * i)), polar_T2, !polar_Q2. replace (2 * i + 1)%nat with (S (2 * i)) by lia. rewrite !rho2_in by auto. apply polar_ccw; auto; lra.
  - rewrite (polar_C2 (2 * i + 1)), polar_T2, polar_Qn2, polar_Q2 by lia. rewrite !rho2_in by auto. apply polar_ccw'; auto; lra.
  - rewrite !polar_Qn2, !polar_Q2 by lia. apply polar_ccw; auto; apply Rlt_le; try (apply rho2_pos; lia); apply rho2_incr; lia.
Qed.
Definition farea2 (f : fc) : R :=
  match f with
  | F0 _ => cum 0 * gm
  | F1 _ => cum 0 * gm
  | FR r a => (if (r <? nr)%nat then cum r * gm else h * h / 2 * wedge K a) - cum (r - 1) * gm
  end.
Lemma on_line (u v : R) (a b c : R * R) : side u v -> u * (fst a - h) + v * (snd a - h) = h -> u * (fst b - h) + v * (snd b - h) = h -> u * (fst c - h) + v * (snd c - h) = h -> arc_area a b c = 0.
Proof.
  intros S A B D. unfold arc_area, tarea, orient. destruct S as [[-> ->]|[[-> ->]|[[-> ->]|[-> ->]]]].
  - replace (fst b) with (fst a) by lra. replace (fst c) with (fst a) by lra. field.
  - replace (snd b) with (snd a) by lra. replace (snd c) with (snd a) by lra. field.
  - replace (fst b) with (fst a) by lra. replace (fst c) with (fst a) by lra. field.
  - replace (snd b) with (snd a) by lra. replace (snd c) with (snd a) by lra. field.
Qed.
(** the three points of an outermost edge lie on one side *)
Lemma outer_side2 a : (a < na)%nat -> exists u v, side u v /\ forall w, In w [Vx (Qv nr a); Vx (Qv nr (nxt a)); MA nr a] -> u * (fst (pos2 w) - h) + v * (snd (pos2 w) - h) = h.
Proof.
  intros Ha. destruct (octant_side K2 HK2 (2 * a / K2)) as (u & v & Sd & G). exists u, v. split; [auto|].
  assert (D : (2 * a / K2 = a / K)%nat) by (apply Nat.div_mul_cancel_l; lia). rewrite D in G.
  assert (E := Nat.div_mod a K ltac:(lia)). assert (L := Nat.mod_upper_bound a K ltac:(lia)).
  assert (G0 := G h (2 * a)%nat ltac:(nia)). assert (G1 := G h (2 * a + 1)%nat ltac:(nia)). assert (G2 := G h (2 * S a)%nat ltac:(nia)).
  unfold Bx, By in G0, G1, G2. rewrite fine_C, fine_S, fine_M in G0, G2.
  intros w [<-|[<-|[<-|[]]]].
  - rewrite polar_Q2, rho2_out. unfold PinCyl_Lin_Proofs.polar. cbn [fst snd]. transitivity (u * (h / M a * C a) + v * (h / M a * Sn a)); [ring|exact G0].
  - rewrite polar_Qn2, rho2_out by auto. unfold PinCyl_Lin_Proofs.polar. cbn [fst snd]. transitivity (u * (h / M (S a) * C (S a)) + v * (h / M (S a) * Sn (S a))); [ring|exact G2].
  - unfold pos2. cbn [raw2 fst snd]. unfold rhoA. rewrite Nat.ltb_irrefl. transitivity (u * (h / PinCyl_Trig_Proofs.M K2 (2 * a + 1) * PinCyl_Trig_Proofs.C K2 (2 * a + 1)) + v * (h / PinCyl_Trig_Proofs.M K2 (2 * a + 1) * PinCyl_Trig_Proofs.Sn K2 (2 * a + 1))); [ring|exact G1].
Qed.
Lemma farea2_ok f : fok f -> face_area msh2 (fconn2 f) (farea2 f).
Proof.
  intros H. exists (map pos2 (fverts2 f)). split; [symmetry; now apply fconn2_corners|].
  assert (L0 := lr_sq 0 Nr).
  destruct f as [i|i|r a]; cbn [PinCyl_Edges_Proofs.fok fverts2 map farea2] in *.
  - rewrite (arc_mid (pos2 (Vx Ctr))) by (unfold pos2; cbn [raw2 fst snd]; rewrite rho2_in by auto; field).
    rewrite (arc_mid (pos2 (Vx (Qv 0 (2 * i + 1))))) by (unfold pos2; cbn [raw2 fst snd]; rewrite rho2_in by auto; field).
    rewrite (arc_mid (pos2 (Vx (Tr i)))) by (unfold pos2; cbn [raw2 fst snd]; field).
    assert (A := arc_ring 0 (2 * i) Nr). rewrite <- (rho2_in 0 (S (2 * i)) Nr), <- polar_Qn2, (nxt_even n2) in A by lia. rewrite A.
    rewrite (polar_C2 (2 * i)), polar_T2, !polar_Q2. replace (2 * i + 1)%nat with (S (2 * i)) by lia. rewrite !rho2_in by auto. rewrite polar_area, sin_th, <- L0. field.
  - rewrite (arc_mid (pos2 (Vx Ctr))) by (unfold pos2; cbn [raw2 fst snd]; field).
    rewrite (arc_mid (pos2 (Vx (Tr i)))) by (unfold pos2; cbn [raw2 fst snd]; rewrite rho2_in by auto; field).
    rewrite (arc_mid (pos2 (Vx (Qv 0 (nxt (2 * i + 1)))))) by (unfold pos2; cbn [raw2 fst snd]; rewrite rho2_in by auto; field).
    assert (A := arc_ring 0 (2 * i + 1) Nr). rewrite <- (rho2_in 0 (S (2 * i + 1)) Nr), <- polar_Qn2 in A by lia. rewrite A.
    rewrite (polar_C2 (2 * i + 1)), polar_T2, polar_Qn2, polar_Q2 by lia. rewrite !rho2_in by auto. rewrite polar_area', sin_th, <- L0. field.
  - rewrite (arc_mid (pos2 (Vx (Qv (r - 1) a)))) by (unfold pos2; cbn [raw2 fst snd]; field).
    rewrite (arc_mid (pos2 (Vx (Qv r (nxt a))))) by (unfold pos2; cbn [raw2 fst snd]; field).
    assert (A := arc_ring (r - 1) a ltac:(lia)). rewrite <- (rho2_in (r - 1) (S a)), <- polar_Qn2 in A by lia. rewrite (arc_rev (pos2 (Vx (Qv (r - 1) a)))), A.
    assert (L1 := lr_sq (r - 1) ltac:(lia)).
    destruct (Nat.ltb_spec r nr) as [L|L].
    + assert (B := arc_ring r a L). rewrite <- (rho2_in r (S a)), <- polar_Qn2 in B by lia. rewrite B. assert (L2 := lr_sq r L).
      rewrite !polar_Qn2, !polar_Q2 by lia. rewrite !rho2_in by lia. rewrite polar_area, sin_th, <- L1, <- L2. field.
    + replace r with nr in * by lia. destruct (outer_side2 a ltac:(lia)) as (u & v & Sd & G).
      rewrite (on_line u v (pos2 (Vx (Qv nr a)))); auto; try (apply G; cbn; tauto).
      rewrite !polar_Qn2, !polar_Q2 by lia. rewrite !rho2_out, !rho2_in by lia. rewrite polar_area, <- L1. unfold wedge. rewrite sin_th.
      assert (X := M_pos K a). assert (Y := M_pos K (S a)). field. lra.
Qed.
Lemma gm_cum x : x / PI * gm = x / INR na.
Proof. rewrite <- (dl_half radii ns K HK Hpin), dl_gm. field. apply PI_neq0. Qed.
Lemma cum0 : cum 0 = nth 0 asl 0 / PI.
Proof. unfold PinCyl_Rings_Proofs.cum. rewrite (firstn_S_nth radii ns Hlen asl 0) by lia. cbn [firstn app]. rewrite rsum_cons, rsum_nil. f_equal. ring. Qed.
Lemma area2_ring r a : (1 <= r < nr)%nat -> farea2 (FR r a) = nth r asl 0 / INR na.
Proof.
  intros H. cbn [farea2]. destruct (Nat.ltb_spec r nr); [|lia]. rewrite <- gm_cum. replace r with (S (r - 1)) at 1 by lia. rewrite cum_S by (auto; lia).
  replace (S (r - 1)) with r by lia. ring.
Qed.
Lemma ringf_area2 r a : (r < nr)%nat -> farea2 (ringf r a) = nth r asl 0 / INR na.
Proof.
  intros H. unfold ringf. destruct (Nat.eqb_spec r 0) as [->|N].
  - destruct (Nat.even a); cbn [farea2]; rewrite cum0; apply gm_cum.
  - apply area2_ring. lia.
Qed.
Lemma area2_outer : rsum (map (fun a => farea2 (FR nr a)) (seq 0 na)) = pitch * pitch - PI * (rad radii (length radii) * rad radii (length radii)).
Proof.
  rewrite (Poly_Proofs.rsum_map_ext _ (fun a => h * h / 2 * wedge K a + - (cum (nr - 1) * gm))).
  - rewrite Poly_Proofs.rsum_map_plus, Poly_Proofs.rsum_map_scal, rsum_const, wedge_total by auto.
    rewrite cum_last by auto. change (m radii) with (length radii).
    replace (INR na * - (rad radii (length radii) * rad radii (length radii) * gm)) with (- (INR na * gm) * (rad radii (length radii) * rad radii (length radii))) by ring.
    rewrite gm_na. field.
  - intros a. cbn [farea2]. rewrite Nat.ltb_irrefl. ring.
Qed.
Lemma area2_total : rsum (map farea2 flist) = pitch * pitch.
Proof.
  rewrite (flist_rings radii ns K HK Hpin). replace (seq 0 (1 + nr)) with (seq 0 nr ++ [nr]) by (rewrite <- (seq_app nr 1); f_equal; lia).
  rewrite map_app, concat_app, map_app, rsum_app. cbn [map concat]. rewrite app_nil_r, map_map.
  rewrite (rsum_seq_ext (fun a => farea2 (ringf nr a)) (fun a => farea2 (FR nr a)) na 0 0).
  2:{ intros i _. unfold ringf. destruct (Nat.eqb_spec nr 0); [lia|auto]. }
  rewrite area2_outer, concat_map, rsum_concat, !map_map.
  rewrite (rsum_seq_ext _ (fun r => nth r asl 0) nr 0 0).
  2:{ intros r Hr. cbn [Nat.add]. rewrite map_map. rewrite (rsum_seq_ext _ (fun _ => nth r asl 0 / INR na) na 0 0) by (intros; now apply ringf_area2).
      rewrite rsum_const. field. apply not_0_INR. lia. }
  rewrite <- (asl_length radii ns Hlen). replace (map (fun r => nth r asl 0) (seq 0 (length asl))) with asl; [rewrite (asl_total radii ns K HK Hpin); ring|].
  apply nth_error_ext. intros i. destruct (lt_dec i (length asl)) as [Hi|Hi].
  - rewrite nth_error_map_seq by auto. now apply nth_error_nth'.
  - rewrite !(proj2 (nth_error_None _ _)); auto; [rewrite map_length, seq_length|]; lia.
Qed.
Lemma farea2_pos f : fok f -> 0 < farea2 f.
Proof.
  destruct f as [i|i|r a]; cbn [PinCyl_Edges_Proofs.fok farea2]; intros H.
  - apply Rmult_lt_0_compat; auto.
  - apply Rmult_lt_0_compat; auto.
  - destruct (Nat.ltb_spec r nr) as [L|L].
    + assert (X := lr_incr r ltac:(lia)). assert (Y := lr_pos (r - 1) ltac:(lia)). rewrite <- !lr_sq by lia. rewrite <- Rmult_minus_distr_r. apply Rmult_lt_0_compat; auto. nra.
    + assert (X := lr_le (r - 1) ltac:(lia)). assert (Y := lr_pos (r - 1) ltac:(lia)). rewrite <- lr_sq by lia. assert (W := wedge_ge K HK a). rewrite dl_gm in W.
      assert (lr (r - 1) * lr (r - 1) < h * h) by nra. assert (h * h / 2 * (2 * gm) <= h * h / 2 * wedge K a) by (apply Rmult_le_compat_l; nra). nra.
Qed.
(** * The border *)
Lemma pos2_square w : wok w -> 0 <= fst (pos2 w) <= pitch /\ 0 <= snd (pos2 w) <= pitch.
Proof.
  intros H. destruct (inner2_dec w) as [I|I].
  - destruct (pos2_inner w H I). lra.
  - assert (B : forall j, 0 <= h / PinCyl_Trig_Proofs.M K2 j * PinCyl_Trig_Proofs.C K2 j + h <= pitch /\ 0 <= h / PinCyl_Trig_Proofs.M K2 j * PinCyl_Trig_Proofs.Sn K2 j + h <= pitch).
    { intros j. assert (X := Bx_abs K2 h j ltac:(lra)). assert (Y := By_abs K2 h j ltac:(lra)). unfold Bx, By in X, Y. revert X Y. unfold Rabs. do 2 destruct Rcase_abs; lra. }
    destruct w as [[|i|r a]|a|i|i|r a|r a]; cbn [inner2] in I; try (exfalso; exact (I Logic.I)); unfold pos2; cbn [raw2 fst snd]; unfold rho2, rhoA; (destruct (Nat.ltb_spec r nr); [lia|]).
    + specialize (B (2 * a)%nat). rewrite fine_C, fine_S, fine_M in B. exact B.
    + apply B.
Qed.
Lemma midw_ok u v : In (u, v) vedges -> wok (midw (u, v)).
Proof.
  intros H. apply vedges_in in H as (f & Hf & H); [|lia]. assert (N := nxt_lt n2 ltac:(lia)).
  destruct f as [i|i|r a]; cbn [PinCyl_Edges_Proofs.fok fedges In] in *; destruct H as [H|[H|[H|[H|[]]]]]; apply pair_equal_spec in H as [<- <-].
  - split; [lia|apply even_2].
  - rewrite midw_even by auto. split; lia.
  - exact Hf.
  - exact Hf.
  - exact Hf.
  - exact Hf.
  - rewrite midw_ring by lia. split; lia.
  - cbn [midw]. destruct (nxt_odd n2 ltac:(lia) i Hf) as (j & Hj & ->). split; [lia|apply even_2].
  - rewrite midw_ray by lia. split; lia.
  - rewrite midw_ring by lia. split; lia.
  - rewrite midw_ray' by lia. split; [lia|]. assert (X := N a ltac:(lia)). lia.
  - rewrite midw_ring' by lia. split; lia.
Qed.
Lemma border2_iff u v : In (u, v) vedges -> (on_side msh2 pitch (ide vid mid (u, v)) <-> exists a, (a < 2 * n2)%nat /\ (u, v) = (Qv nr a, Qv nr (nxt a))).
Proof.
  intros H. destruct (vedges_ok n2 nr ltac:(lia) u v H) as (Hu & Hv & N). assert (Hm := midw_ok u v H).
  assert (Q : corners (mv msh2) (ide vid mid (u, v)) = map Some [pos2 (Vx u); pos2 (Vx v); pos2 (midw (u, v))]).
  { unfold ide, mid, vid. cbn [fst snd corners map mv msh2]. unfold zwid. now rewrite !Nat2Z.id, !pts2_id. }
  unfold on_side. rewrite Q. split.
  - intros (ps & E & B). assert (Eps : ps = [pos2 (Vx u); pos2 (Vx v); pos2 (midw (u, v))]).
    { destruct ps as [|p0 [|p1 [|p2 [|]]]]; try discriminate. cbn [map] in E. congruence. }
    assert (Iu : ~ inner2 (Vx u)). { intros I. destruct (pos2_inner (Vx u) Hu I). destruct B as [B|[B|[B|B]]]; specialize (B (pos2 (Vx u)) ltac:(rewrite Eps; cbn; auto)); lra. }
    assert (Iv : ~ inner2 (Vx v)). { intros I. destruct (pos2_inner (Vx v) Hv I). destruct B as [B|[B|[B|B]]]; specialize (B (pos2 (Vx v)) ltac:(rewrite Eps; cbn; auto)); lra. }
    destruct u as [|i|r a]; try (exfalso; exact (Iu Logic.I)). destruct v as [|j|s b]; try (exfalso; exact (Iv Logic.I)).
    cbn [inner2 PinCyl_Edges_Proofs.vok] in *. replace r with nr in * by lia. replace s with nr in * by lia. exists a. split; [lia|]. f_equal.
    apply vedges_in in H as (f & Hf & H); [|lia]. destruct f as [i|i|q c]; cbn [PinCyl_Edges_Proofs.fok fedges In] in *;
      destruct H as [H|[H|[H|[H|[]]]]]; try discriminate; injection H; intros; subst; try lia; auto.
  - intros (a & Ha & E). injection E as -> ->. rewrite midw_ring in * by lia. eexists. split; [reflexivity|].
    destruct (outer_side2 a ltac:(lia)) as (x & y & Sd & G).
    assert (G' : forall p, In p [pos2 (Vx (Qv nr a)); pos2 (Vx (Qv nr (nxt a))); pos2 (MA nr a)] -> x * (fst p - h) + y * (snd p - h) = h).
    { intros p [<-|[<-|[<-|[]]]]; apply G; cbn; auto. }
    destruct Sd as [[-> ->]|[[-> ->]|[[-> ->]|[-> ->]]]]; [right; left|right; right; right|left|right; right; left]; intros p Hp; specialize (G' p Hp); lra.
Qed.
Lemma msh2_border e : In e ies -> (In (reverse_edge e) ies <-> ~ on_side msh2 pitch e).
Proof.
  intros H. apply in_map_iff in H as ((u & v) & <- & H). rewrite ies_rev; auto; [|lia|exact vid_inj|exact mid_sym].
  now rewrite border2_iff.
Qed.
Lemma vertices2_square v : In v (mv msh2) -> 0 <= fst v <= pitch /\ 0 <= snd v <= pitch.
Proof. intros H. cbn [mv msh2] in H. unfold pts2 in H. apply in_map_iff in H as (x & <- & Hx). apply pos2_square. now apply wlist_wok. Qed.
Lemma last_lr : lr (nr - 1) = rad radii (length radii).
Proof.
  unfold lr. rewrite cum_last by auto. change (m radii) with (length radii). apply sqrt_square.
  assert (X := rad_le radii ns K HK Hpin 0 ltac:(lia)). exact X.
Qed.
Hypothesis Hmax : (Z.of_nat (1 + 4 * na + 3 * na * nr) <= intMax)%Z.
Hypothesis Hpow : Z.land (Z.of_nat na) (Z.of_nat na - 1) = 0%Z.
Lemma add_quadratic stdsort selfcheck exit quads quad8s : sort_contract stdsort ->
  addCylindricalPinMesh stdsort selfcheck eps exit quads quad8s pitch radii ns (Z.of_nat na) 2 =
  let* m := selfcheck msh2 in Ret (quads, quad8s ++ [m], Z.of_nat (length quad8s)).
Proof.
  intros Hs. unfold addCylindricalPinMesh. cbn [Z.eqb Pos.eqb orb negb].
  destruct (Z.ltb_spec (Z.of_nat na) 8); [lia|]. rewrite Hpow. cbn [Z.eqb negb]. rewrite Hlen, Nat.eqb_refl. cbn [negb].
  rewrite existsb_false by (intros r Hr; apply Rltb_false; apply (radii_fit radii ns K HK Hpin) in Hr; assert (X := last_lr); lra).
  rewrite (rings_ok pitch radii ns Hlen Hne Hns Hinc). cbn [bind]. rewrite fold_add, Nat2Z.id. change (0 + list_sum ns)%nat with nr.
  match goal with |- context [eq_radii2 _ _ ?x _] => change x with (map lr (seq 0 nr)) end.
  rewrite eq_radii2_ok. cbn [bind].
  rewrite existsb_false by (intros r Hr; apply Rltb_false; apply in_map_iff in Hr as (i & <- & Hi); apply in_seq in Hi; assert (X := lk_le i ltac:(lia)); lra).
  rewrite i32_ok by (unfold in_i32, intMin; lia). cbn [bind].
  rewrite vertices2_ok. cbn [bind]. rewrite faces2_ok. cbn [bind]. rewrite shifted2. cbn [bind].
  fold msh2. change (map fconn2 flist) with (fv msh2). rewrite (validate_id stdsort (face8_isCCW eps) selfcheck Quad8 msh2 Hs msh2_ok eq_refl); [reflexivity| |].
  - intros c Hc. cbn in Hc. apply in_map_iff in Hc as (f & <- & Hf). apply flist_in in Hf; [|lia]. exists (map pos2 (fverts2 f)).
    split; [symmetry; now apply fconn2_corners|now apply face2_ccw].
  - rewrite msh2_edges. apply msh2_watertight.
Qed.
End Quad.
