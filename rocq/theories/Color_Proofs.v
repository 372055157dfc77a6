From Coq Require Import List ZArith Reals Lia Lra Bool Floats.SpecFloat.
From Verif Require Import Base Loops Color_Model Color_Spec Grid_Proofs.
Import ListNotations.
Local Open Scope Z_scope.

Lemma eqb_ok x y : eqb x y = true <-> x = y.
Proof.
  unfold eqb. rewrite !andb_true_iff, !Z.eqb_eq. destruct x, y; cbn. split.
  - intros (((-> & ->) & ->) & ->). auto.
  - intros [= -> -> -> ->]. auto.
Qed.
Lemma neqb_ok x y : neqb x y = true <-> x <> y.
Proof. unfold neqb. rewrite negb_true_iff, <- not_true_iff_false, eqb_ok. tauto. Qed.

Lemma of_ints_ok r0 g0 b0 a0 : is_color (of_ints r0 g0 b0 a0) /\
  (0 <= r0 < 256 -> r (of_ints r0 g0 b0 a0) = r0) /\ (0 <= g0 < 256 -> g (of_ints r0 g0 b0 a0) = g0) /\
  (0 <= b0 < 256 -> b (of_ints r0 g0 b0 a0) = b0) /\ (0 <= a0 < 256 -> a (of_ints r0 g0 b0 a0) = a0).
Proof.
  unfold of_ints, is_color, u8; cbn [r g b a].
  pose proof (Z.mod_pos_bound r0 256 ltac:(lia)). pose proof (Z.mod_pos_bound g0 256 ltac:(lia)).
  pose proof (Z.mod_pos_bound b0 256 ltac:(lia)). pose proof (Z.mod_pos_bound a0 256 ltac:(lia)).
  repeat split; try lia; intros; apply Z.mod_small; lia.
Qed.

Lemma of_ints3_ok r0 g0 b0 : 0 <= r0 < 256 -> 0 <= g0 < 256 -> 0 <= b0 < 256 ->
  of_ints3 r0 g0 b0 = mk r0 g0 b0 255.
Proof.
  intros Q1 Q2 Q3. destruct (of_ints_ok r0 g0 b0 255) as (_ & H1 & H2 & H3 & H4). unfold of_ints3.
  unfold of_ints in *. cbn [r g b a] in *. now rewrite H1, H2, H3, H4 by lia.
Qed.

Lemma Int_part_mono x y : (x <= y)%R -> Int_part x <= Int_part y.
Proof.
  intros H. destruct (Int_part_spec x), (Int_part_spec y).
  apply Z.lt_succ_r. apply lt_IZR. unfold Z.succ. rewrite plus_IZR. lra.
Qed.
Lemma trunc_pos x : (0 <= x)%R -> trunc x = Int_part x.
Proof. unfold trunc. destruct (Rle_dec 0 x); tauto. Qed.
Lemma Int_part_Z k : Int_part (IZR k) = k.
Proof. apply Int_part_unique; lra. Qed.

Lemma rnd_range rnd v : sane_rounding rnd -> (0 <= v <= 1)%R -> (0 <= rnd (v * 255) <= 255)%R.
Proof.
  intros (Hm & H0 & H1) Hv. split.
  - rewrite <- H0. apply Hm. lra.
  - rewrite <- H1 at 2. apply Hm. lra.
Qed.
Lemma channel_val rnd v : sane_rounding rnd -> (0 <= v <= 1)%R ->
  channel rnd v = Ret (Int_part (rnd (v * 255)%R)) /\ 0 <= Int_part (rnd (v * 255)%R) <= 255.
Proof.
  intros Hr Hv. pose proof (rnd_range rnd v Hr Hv) as Hx.
  assert (Hi : 0 <= Int_part (rnd (v * 255)%R) <= 255).
  { destruct Hx as (Hx1 & Hx2). apply Int_part_mono in Hx1, Hx2.
    rewrite (Int_part_Z 0) in Hx1. rewrite (Int_part_Z 255) in Hx2. lia. }
  split; auto. unfold channel. rewrite trunc_pos by lra.
  destruct (Z.leb_spec 0 (Int_part (rnd (v * 255)%R))), (Z.ltb_spec (Int_part (rnd (v * 255)%R)) 256);
    cbn; auto; lia.
Qed.
Lemma channel_ok rnd v : sane_rounding rnd -> (0 <= v <= 1)%R ->
  exists k, channel rnd v = Ret k /\ 0 <= k <= 255.
Proof. intros Hr Hv. destruct (channel_val rnd v Hr Hv). eauto. Qed.
Lemma channel_mono rnd v w j k : sane_rounding rnd -> (0 <= v <= w)%R -> (w <= 1)%R ->
  channel rnd v = Ret j -> channel rnd w = Ret k -> j <= k.
Proof.
  intros Hr Hv Hw Ej Ek.
  destruct (channel_val rnd v Hr) as (Ev & _); [lra|]. destruct (channel_val rnd w Hr) as (Ew & _); [lra|].
  rewrite Ev in Ej. rewrite Ew in Ek. injection Ej as <-. injection Ek as <-.
  apply Int_part_mono. apply Hr. lra.
Qed.
Lemma channel_ends rnd : sane_rounding rnd -> channel rnd 0 = Ret 0 /\ channel rnd 1 = Ret 255.
Proof.
  intros Hr. destruct (channel_val rnd 0 Hr) as (E0 & _); [lra|].
  destruct (channel_val rnd 1 Hr) as (E1 & _); [lra|]. rewrite E0, E1.
  destruct Hr as (_ & H0 & H1). rewrite Rmult_0_l, Rmult_1_l, H0, H1.
  now rewrite (Int_part_Z 0), (Int_part_Z 255).
Qed.
Lemma of_floats_ok rnd r0 g0 b0 a0 : sane_rounding rnd ->
  (0 <= r0 <= 1)%R -> (0 <= g0 <= 1)%R -> (0 <= b0 <= 1)%R -> (0 <= a0 <= 1)%R ->
  exists c, of_floats rnd r0 g0 b0 a0 = Ret c /\ is_color c /\
    channel rnd r0 = Ret (r c) /\ channel rnd g0 = Ret (g c) /\
    channel rnd b0 = Ret (b c) /\ channel rnd a0 = Ret (a c).
Proof.
  intros Hr H1 H2 H3 H4. unfold of_floats.
  destruct (channel_ok rnd r0 Hr H1) as (k1 & E1 & B1).
  destruct (channel_ok rnd g0 Hr H2) as (k2 & E2 & B2).
  destruct (channel_ok rnd b0 Hr H3) as (k3 & E3 & B3).
  destruct (channel_ok rnd a0 Hr H4) as (k4 & E4 & B4).
  rewrite E1, E2, E3, E4. cbn [bind].
  eexists. split; [reflexivity|]. unfold is_color; cbn [r g b a]. repeat split; auto; lia.
Qed.

Lemma of_floats3_ok rnd r0 g0 b0 : sane_rounding rnd ->
  (0 <= r0 <= 1)%R -> (0 <= g0 <= 1)%R -> (0 <= b0 <= 1)%R ->
  exists c, of_floats3 rnd r0 g0 b0 = Ret c /\ channel rnd r0 = Ret (r c) /\ channel rnd g0 = Ret (g c) /\
    channel rnd b0 = Ret (b c) /\ a c = 255.
Proof.
  intros S0 Hr Hg Hb. destruct (of_floats_ok rnd r0 g0 b0 1 S0 Hr Hg Hb ltac:(lra)) as (c & E & _ & H1 & H2 & H3 & H4).
  exists c. repeat split; auto. destruct (channel_ends rnd S0) as (_ & E1). rewrite E1 in H4. now inversion H4.
Qed.

(** all 256 fractions, by evaluation *)
Definition all256 (f : Z -> bool) : bool := forallb (fun n => f (Z.of_nat n)) (seq 0 256).
Lemma all256_ok f : all256 f = true -> forall k, 0 <= k <= 255 -> f k = true.
Proof.
  unfold all256. rewrite forallb_forall. intros H k Hk.
  rewrite <- (Z2Nat.id k) by lia. apply H. apply in_seq. lia.
Qed.
Definition is_ret (o : outcome Z) (k : Z) : bool := match o with Ret x => x =? k | _ => false end.
Lemma is_ret_ok o k : is_ret o k = true -> o = Ret k.
Proof. destruct o; cbn; try discriminate. intros H. apply Z.eqb_eq in H. now subst. Qed.
Lemma fractions_double k : 0 <= k <= 255 -> channel_sf 53 1024 (fraction 53 1024 k) = Ret k.
Proof.
  intros H. apply is_ret_ok.
  apply (all256_ok (fun k => is_ret (channel_sf 53 1024 (fraction 53 1024 k)) k)); [|exact H].
  vm_compute. reflexivity.
Qed.
Lemma fractions_float k : 0 <= k <= 255 -> channel_sf 24 128 (fraction 24 128 k) = Ret k.
Proof.
  intros H. apply is_ret_ok.
  apply (all256_ok (fun k => is_ret (channel_sf 24 128 (fraction 24 128 k)) k)); [|exact H].
  vm_compute. reflexivity.
Qed.
Lemma channel_bad v : (v <= -1 \/ 256 / 255 <= v)%R -> channel (fun x => x) v = Ub.
Proof.
  intros H. unfold channel, trunc. destruct (Rle_dec 0 (v * 255)).
  - assert (Hv : (256 <= v * 255)%R) by lra.
    apply Int_part_mono in Hv. rewrite (Int_part_Z 256) in Hv.
    destruct (Z.ltb_spec (Int_part (v * 255)%R) 256); [lia|]. now rewrite andb_false_r.
  - assert (Hv : (1 <= - (v * 255))%R) by lra.
    apply Int_part_mono in Hv. rewrite (Int_part_Z 1) in Hv.
    destruct (Z.leb_spec 0 (- Int_part (- (v * 255)))); [lia|]. reflexivity.
Qed.

Lemma channel_value rnd v : sane_rounding rnd -> (0 <= v <= 1)%R -> exists k, channel rnd v = Ret k /\ (IZR k <= rnd (v * 255) < IZR k + 1)%R.
Proof.
  intros Hr Hv. destruct (channel_val rnd v Hr Hv) as (E & _). eexists. split; [exact E|].
  destruct (base_Int_part (rnd (v * 255)%R)). split; lra.
Qed.
