(** Proofs about interpolation, macroscopic data and homogenisation. *)
From Coq Require Import List Arith ZArith Bool Reals Lra Lia Permutation.
From Verif Require Import Base Loops Arith Matrix_Model Matrix_Spec Matrix_Proofs
  Stats_Model Stats_Spec Stats_Proofs XSec_Model XSec_Spec XSec_Proofs.
Import ListNotations.
Local Open Scope R_scope.

Definition no_flag (_ : nat) (_ : R) : bool := false.
Lemma no_flag_any {A} (f : A -> bool) l : (forall x, f x = false) -> existsb f l = false.
Proof. induction l; cbn; auto. intros H. rewrite H. auto. Qed.

(** ** Interpolation *)
Lemma lerp_at_ok d v v0 v1 g : (g < length v)%nat -> (g < length v0)%nat -> (g < length v1)%nat ->
  lerp_at d v v0 v1 g = Ret (upd v g (nth g v0 0 + d * (nth g v1 0 - nth g v0 0))).
Proof.
  intros. unfold lerp_at. rewrite !rd_nth by auto. cbn [bind]. rewrite wr_ok by auto. reflexivity.
Qed.

Lemma lerp_body ng d x0 x1 : shape ng x0 -> shape ng x1 ->
  body_ok ng (fun r g _ => value x0 r g + d * (value x1 r g - value x0 r g)) no_flag
  (fun g x =>
    let* va := lerp_at d (xa x) (xa x0) (xa x1) g in
    let* vf := lerp_at d (xf x) (xf x0) (xf x1) g in
    let* vnuf := lerp_at d (xnuf x) (xnuf x0) (xnuf x1) g in
    let* vtr := lerp_at d (xtr x) (xtr x0) (xtr x1) g in
    let* vs := lerp_at d (xs x) (xs x0) (xs x1) g in
    let* m := for_ ng 0 (fun gg m =>
      let* y0 := get (xss x0) gg g in
      let* y1 := get (xss x1) gg g in
      set m gg g (y0 + d * (y1 - y0))) (xss x) in
    Ret (mkX (isMacro x) (isFissile x) (numGroups x) va vf vnuf vtr vs m)).
Proof.
  intros S0 S1 g x Hg Sx.
  pose proof S0 as (A1 & A2 & A3 & A4 & A5 & A6 & _). pose proof S1 as (B1 & B2 & B3 & B4 & B5 & B6 & _).
  pose proof Sx as (C1 & C2 & C3 & C4 & C5 & C6 & _).
  rewrite !lerp_at_ok by congruence. cbn [bind].
  destruct (col_loop ng g (xss x) (fun gg m =>
      let* y0 := get (xss x0) gg g in
      let* y1 := get (xss x1) gg g in
      set m gg g (y0 + d * (y1 - y0)))
    (fun i => value x0 (ScatterTo i) g + d * (value x1 (ScatterTo i) g - value x0 (ScatterTo i) g)) Hg (shape_ss _ _ Sx)) as (m' & E & Hm).
  { intros i m0 Hi _ _. rewrite !(get_sq ng) by (auto using shape_ss). reflexivity. }
  rewrite E. cbn [bind]. eexists. split; [reflexivity|].
  set (c := mkCol (value x0 Absorption g + d * (value x1 Absorption g - value x0 Absorption g))
    (value x0 Fission g + d * (value x1 Fission g - value x0 Fission g))
    (value x0 NuFission g + d * (value x1 NuFission g - value x0 NuFission g))
    (value x0 Transport g + d * (value x1 Transport g - value x0 Transport g))
    (value x0 Scattering g + d * (value x1 Scattering g - value x0 Scattering g))
    (fun i => value x0 (ScatterTo i) g + d * (value x1 (ScatterTo i) g - value x0 (ScatterTo i) g))).
  destruct (put_column ng x g c m' (isMacro x) (isFissile x) Sx Hg Hm) as [P1 P2].
  split; [exact P1|]. split; [reflexivity|]. split; [cbn; now rewrite orb_false_r|].
  intros r g' Hr Hg'. refine (eq_trans (P2 r g' Hr Hg') _). destruct (g' =? g)%nat; auto. now destruct r.
Qed.

Lemma upper_ok ts T : forall fuel i, (length ts - i < fuel)%nat ->
  (exists j t, (i <= j)%nat /\ nth_error ts j = Some t /\ T < t) ->
  exists k t, upper fuel ts T i = Ret k /\ (i <= k)%nat /\ nth_error ts k = Some t /\ T < t /\
    forall j s, (i <= j < k)%nat -> nth_error ts j = Some s -> s <= T.
Proof.
  induction fuel as [|fuel IH]; intros i Hf (j & t & Hj & Et & Ht).
  - assert (nth_error ts j <> None) as N by congruence. apply nth_error_Some in N. lia.
  - cbn [upper]. assert (N : nth_error ts j <> None) by congruence. apply nth_error_Some in N.
    destruct (nth_error ts i) as [u|] eqn:Eu.
    2:{ apply nth_error_None in Eu. lia. }
    rewrite (proj2 (rd_Ret _ _ u) Eu). cbn [bind]. destruct (Rleb_spec u T) as [L|L].
    + assert (i <> j) by (intros ->; assert (u = t) by congruence; lra).
      destruct (IH (S i)) as (k & t' & E & K1 & K2 & K3 & K4); [lia|exists j, t; repeat split; auto; lia|].
      exists k, t'. split; auto. split; [lia|]. split; auto. split; auto. intros j' s Hj' Es.
      destruct (Nat.eq_dec j' i) as [->|Hne]; [assert (s = u) by congruence; lra|]. apply (K4 j' s); auto. lia.
    + exists i, u. split; auto. split; [lia|]. split; auto. split; [lra|]. intros. lia.
Qed.

Lemma rdz_last {A} (l : list A) : rdz l (Z.of_nat (length l) - 1) = match rev l with [] => Ub | x :: _ => Ret x end.
Proof.
  destruct (rev l) as [|x r] eqn:E.
  - assert (l = []) by (rewrite <- (rev_involutive l), E; reflexivity). subst l. reflexivity.
  - assert (l = rev r ++ [x]) by (rewrite <- (rev_involutive l), E; reflexivity). subst l.
    apply rdz_nth; [rewrite app_length; cbn; lia|].
    rewrite app_length. cbn [length]. rewrite nth_error_app2 by lia.
    replace (Z.to_nat _ - length (rev r))%nat with O by lia. reflexivity.
Qed.
Lemma last_nth {A} (l : list A) x : nth_error l (length l - 1) = Some x -> match rev l with [] => Ub | x :: _ => Ret x end = Ret x.
Proof.
  intros H. destruct (rev l) as [|y r] eqn:E.
  - assert (l = []) by (rewrite <- (rev_involutive l), E; reflexivity). subst l. discriminate.
  - assert (l = rev r ++ [y]) by (rewrite <- (rev_involutive l), E; reflexivity). subst l.
    rewrite app_length in H. cbn [length] in H. rewrite nth_error_app2 in H by lia.
    replace (length (rev r) + 1 - 1 - length (rev r))%nat with O in H by lia. cbn in H. congruence.
Qed.

Lemma ext_entry ng x x0 : shape ng x -> shape ng x0 ->
  (forall r g, known ng r -> (g < ng)%nat -> value x r g = value x0 r g) ->
  isMacro x = isMacro x0 -> isFissile x = isFissile x0 -> x = x0.
Proof. intros. eapply xsec_ext; eauto. Qed.

Lemma nth_error_lt {A} (l : list A) i x : nth_error l i = Some x -> (i < length l)%nat.
Proof. intros H. apply nth_error_Some. congruence. Qed.
Lemma table_at ng n i : table ng n -> (i < length (temps n))%nat ->
  exists t x, nth_error (temps n) i = Some t /\ nth_error (tables n) i = Some x /\ 0 < t /\ shape ng x.
Proof.
  intros (H1 & H2 & H3 & H4 & H5) Hi.
  destruct (nth_error (temps n) i) as [t|] eqn:Et; [|apply nth_error_None in Et; lia].
  destruct (nth_error (tables n) i) as [x|] eqn:Ex; [|apply nth_error_None in Ex; lia].
  exists t, x. split; auto. split; auto. rewrite Forall_forall in H3, H5.
  split; [apply H3|apply H5]; eapply nth_error_In; eauto.
Qed.

Lemma below ng n T t0 x0 : table ng n -> nth_error (temps n) 0 = Some t0 -> nth_error (tables n) 0 = Some x0 ->
  T <= t0 -> interpXS n T = Ret x0.
Proof.
  intros Ht E0 X0 HT. unfold interpXS. rewrite (proj2 (rd_Ret (tables n) 0 x0) X0), (proj2 (rd_Ret (temps n) 0 t0) E0).
  cbn [bind]. destruct (length (temps n) =? 1)%nat; auto. destruct (Rleb_spec T t0); auto. lra.
Qed.
Lemma above ng n T tn xn : table ng n -> nth_error (temps n) (length (temps n) - 1) = Some tn ->
  nth_error (tables n) (length (temps n) - 1) = Some xn ->
  tn <= T -> (forall t0, nth_error (temps n) 0 = Some t0 -> t0 < T) \/ length (temps n) = 1%nat -> interpXS n T = Ret xn.
Proof.
  intros Ht En Xn HT H0. unfold interpXS. pose proof Ht as (H1 & H2 & H3 & H4 & H5).
  destruct (Nat.eqb_spec (length (temps n)) 1) as [L|L].
  - rewrite L in Xn. cbn in Xn. now apply (proj2 (rd_Ret (tables n) 0 xn)).
  - assert (L0 : (0 < length (temps n))%nat) by (destruct (temps n); cbn; [congruence|lia]).
    destruct (table_at ng n 0 Ht L0) as (t0 & x0 & E0 & X0 & _).
    rewrite (proj2 (rd_Ret (temps n) 0 t0) E0). cbn [bind].
    destruct H0 as [H0|H0]; [|lia]. specialize (H0 t0 E0).
    destruct (Rleb_spec T t0); [lra|]. rewrite rdz_last, (last_nth _ tn) by auto. cbn [bind].
    destruct (Rleb_spec tn T); [|lra]. rewrite rdz_last. apply last_nth. now rewrite H2.
Qed.

Lemma root_line_at t0 t1 y0 y1 : root_line t0 t1 y0 y1 t0 = y0.
Proof. unfold root_line. replace (sqrt t0 - sqrt t0) with 0 by ring. unfold Rdiv. ring. Qed.

Lemma interp_gen ng n T i t0 t1 x0 x1 : table ng n -> bracket n T i t0 t1 x0 x1 ->
  (forall tm, nth_error (temps n) 0 = Some tm -> T <= tm -> i = O) ->
  exists x, interpXS n T = Ret x /\ shape ng x /\ isMacro x = isMacro x0 /\ isFissile x = isFissile x0 /\
    forall r g, known ng r -> (g < ng)%nat -> value x r g = root_line t0 t1 (value x0 r g) (value x1 r g) T.
Proof.
  intros Ht (E0 & E1 & HT & X0 & X1) Hc. pose proof Ht as (H1 & H2 & H3 & H4 & H5).
  pose proof (nth_error_lt _ _ _ E1) as L1.
  assert (S0 : shape ng x0) by (rewrite Forall_forall in H5; apply H5; eapply nth_error_In; eauto).
  assert (S1 : shape ng x1) by (rewrite Forall_forall in H5; apply H5; eapply nth_error_In; eauto).
  destruct (table_at ng n 0 Ht) as (tm & xm & Em & Xm & Pm & Sm); [lia|].
  destruct (Rle_dec T tm) as [Lm|Lm].
  - rewrite (Hc tm Em Lm) in *. rewrite E0 in Em. rewrite X0 in Xm. inversion Em; inversion Xm; subst tm xm.
    assert (T = t0) by lra. subst T.
    exists x0. rewrite (below ng n t0 t0 x0 Ht E0 X0) by lra. split; auto. split; auto. split; auto. split; auto.
    intros. now rewrite root_line_at.
  - unfold interpXS. destruct (Nat.eqb_spec (length (temps n)) 1) as [L|_]; [lia|].
    rewrite (proj2 (rd_Ret (temps n) 0 tm) Em). cbn [bind]. destruct (Rleb_spec T tm); [lra|].
    destruct (table_at ng n (length (temps n) - 1) Ht) as (tn & xn & En & Xn & _); [lia|].
    rewrite rdz_last, (last_nth _ tn) by auto. cbn [bind].
    assert (t1 <= tn) by (apply (H4 (S i) (length (temps n) - 1)%nat); auto; lia).
    destruct (Rleb_spec tn T); [lra|].
    destruct (upper_ok (temps n) T (S (length (temps n))) 0) as (k & t & Ek & _ & K1 & K2 & K3); [lia|exists (S i), t1; repeat split; auto; [lia|lra]|].
    assert (k = S i).
    { destruct (Nat.lt_trichotomy k (S i)) as [Hk|[Hk|Hk]]; auto.
      - exfalso. assert (t <= t0) by (apply (H4 k i); auto; lia). lra.
      - exfalso. assert (t1 <= T) by (apply (K3 (S i)); auto; lia). lra. }
    subst k. rewrite Ek. cbn [bind]. replace (Z.of_nat (S i) - 1)%Z with (Z.of_nat i) by lia.
    rewrite (rdz_nth (temps n) (Z.of_nat i) t0) by (rewrite ?Nat2Z.id; auto; lia).
    rewrite (proj2 (rd_Ret (temps n) (S i) t1) E1).
    rewrite (rdz_nth (tables n) (Z.of_nat i) x0) by (rewrite ?Nat2Z.id; auto; lia).
    rewrite (proj2 (rd_Ret (tables n) (S i) x1) X1). cbn [bind]. cbv zeta.
    destruct (XSec_ok ng (shape_size _ _ S0)) as (z & Ez & Sz & Mz & Fz & Vz).
    replace (numGroups x0) with ng by (symmetry; apply S0). rewrite Ez. cbn [bind].
    set (y := set_fissile (isFissile x0) (set_macro (isMacro x0) z)).
    assert (Sy : shape ng y) by exact Sz.
    set (d := (sqrt T - sqrt t0) / (sqrt t1 - sqrt t0)).
    destruct (group_loop ng _ _ _ y (lerp_body ng d x0 x1 S0 S1) Sy) as (x & Ex & Sx & Mx & Fx & Vx).
    exists x. split; [exact Ex|]. split; auto. split; [exact Mx|]. split.
    + rewrite Fx. unfold no_flag. rewrite no_flag_any by auto. now rewrite orb_false_r.
    + intros r g Hr Hg. rewrite Vx by auto. reflexivity.
Qed.

Lemma interp_between ng n T i t0 t1 x0 x1 : table ng n -> strictly_ascending (temps n) -> bracket n T i t0 t1 x0 x1 ->
  exists x, interpXS n T = Ret x /\ shape ng x /\ isMacro x = isMacro x0 /\ isFissile x = isFissile x0 /\
    forall r g, known ng r -> (g < ng)%nat -> value x r g = root_line t0 t1 (value x0 r g) (value x1 r g) T.
Proof.
  intros Ht Hs Hb. apply (interp_gen ng n T i t0 t1 x0 x1 Ht Hb). intros tm Em HT.
  destruct Hb as (E0 & E1 & HTT & _). destruct (Nat.eq_dec i 0) as [|N]; auto.
  exfalso. assert (tm < t0) by (apply (Hs O i); auto; lia). lra.
Qed.

(** every temperature is below, above or between neighbours *)
Lemma cases_of ng n T : table ng n ->
  (exists t0 x0, nth_error (temps n) 0 = Some t0 /\ nth_error (tables n) 0 = Some x0 /\ T <= t0) \/
  (exists tn xn, nth_error (temps n) (length (temps n) - 1) = Some tn /\
     nth_error (tables n) (length (temps n) - 1) = Some xn /\ tn <= T /\
     forall t0, nth_error (temps n) 0 = Some t0 -> t0 < T) \/
  (exists i t0 t1 x0 x1, bracket n T i t0 t1 x0 x1 /\ forall tm, nth_error (temps n) 0 = Some tm -> tm < T).
Proof.
  intros Ht. pose proof Ht as (H1 & H2 & H3 & H4 & H5).
  assert (L0 : (0 < length (temps n))%nat) by (destruct (temps n); cbn; [congruence|lia]).
  destruct (table_at ng n 0 Ht L0) as (tm & xm & Em & Xm & Pm & Sm).
  destruct (Rle_dec T tm) as [L|L]; [left; eauto 6|right].
  destruct (table_at ng n (length (temps n) - 1) Ht) as (tn & xn & En & Xn & _); [lia|].
  destruct (Rle_dec tn T) as [Ln|Ln].
  { left. exists tn, xn. do 3 (split; auto). intros t0 E. assert (t0 = tm) by congruence. lra. }
  right. destruct (upper_ok (temps n) T (S (length (temps n))) 0) as (k & t & Ek & _ & K1 & K2 & K3);
    [lia|exists (length (temps n) - 1)%nat, tn; repeat split; auto; [lia|lra]|].
  destruct k as [|i]; [assert (t = tm) by congruence; lra|].
  pose proof (nth_error_lt _ _ _ K1).
  destruct (table_at ng n i Ht) as (t0 & x0 & E0 & X0 & _); [lia|].
  destruct (table_at ng n (S i) Ht) as (t1 & x1 & E1 & X1 & _); [lia|].
  exists i, t0, t1, x0, x1. split.
  - assert (t1 = t) by congruence. subst t1. repeat split; auto. apply (K3 i); auto; lia.
  - intros t' E. assert (t' = tm) by congruence. lra.
Qed.

Lemma frac_bounds t0 t1 T : 0 < t0 -> t0 <= T < t1 -> 0 <= (sqrt T - sqrt t0) / (sqrt t1 - sqrt t0) < 1.
Proof.
  intros H0 [H1 H2]. assert (A : sqrt t0 <= sqrt T) by (apply sqrt_le_1; lra).
  assert (B : sqrt T < sqrt t1) by (apply sqrt_lt_1; lra).
  split; [apply Rmult_le_pos; [lra|apply Rlt_le, Rinv_0_lt_compat; lra]|].
  apply (Rmult_lt_reg_r (sqrt t1 - sqrt t0)); [lra|]. unfold Rdiv. rewrite Rmult_assoc, Rinv_l by lra. lra.
Qed.
Lemma root_line_range t0 t1 y0 y1 T lo hi : 0 < t0 -> t0 <= T < t1 -> lo <= y0 <= hi -> lo <= y1 <= hi ->
  lo <= root_line t0 t1 y0 y1 T <= hi.
Proof.
  intros H0 HT A B. unfold root_line. pose proof (frac_bounds t0 t1 T H0 HT) as F.
  set (d := (sqrt T - sqrt t0) / (sqrt t1 - sqrt t0)) in *. nra.
Qed.
Lemma root_line_mono t0 t1 y0 y1 T T' : 0 < t0 -> t0 <= T -> T <= T' -> T' < t1 -> y0 <= y1 ->
  y0 <= root_line t0 t1 y0 y1 T <= root_line t0 t1 y0 y1 T' /\ root_line t0 t1 y0 y1 T' <= y1.
Proof.
  intros H0 H1 H2 H3 Hy. unfold root_line.
  pose proof (frac_bounds t0 t1 T H0 ltac:(lra)) as F. pose proof (frac_bounds t0 t1 T' H0 ltac:(lra)) as F'.
  assert (D : (sqrt T - sqrt t0) / (sqrt t1 - sqrt t0) <= (sqrt T' - sqrt t0) / (sqrt t1 - sqrt t0)).
  { apply Rmult_le_compat_r.
    - apply Rlt_le, Rinv_0_lt_compat. assert (sqrt t0 < sqrt t1) by (apply sqrt_lt_1; lra). lra.
    - assert (sqrt T <= sqrt T') by (apply sqrt_le_1; lra). lra. }
  set (d := (sqrt T - sqrt t0) / (sqrt t1 - sqrt t0)) in *.
  set (d' := (sqrt T' - sqrt t0) / (sqrt t1 - sqrt t0)) in *. nra.
Qed.

(** the result always is a mixture of two neighbouring table entries *)
Definition mix (ng : nat) (x x0 x1 : xsec) (d : R) : Prop :=
  forall r g, known ng r -> (g < ng)%nat -> value x r g = value x0 r g + d * (value x1 r g - value x0 r g).
Lemma interp_mix ng n T : table ng n -> exists x x0 x1 d, interpXS n T = Ret x /\ shape ng x /\
  In x0 (tables n) /\ In x1 (tables n) /\ 0 <= d <= 1 /\ mix ng x x0 x1 d /\
  isMacro x = isMacro x0 /\ isFissile x = isFissile x0.
Proof.
  intros Ht. pose proof Ht as (H1 & H2 & H3 & H4 & H5). rewrite Forall_forall in H5.
  destruct (cases_of ng n T Ht) as [(t0 & x0 & E & X & L)|[(tn & xn & E & X & L & L')|(i & t0 & t1 & x0 & x1 & B & L)]].
  - exists x0, x0, x0, 0. pose proof (nth_error_In _ _ X). split; [eapply below; eauto|]. split; auto. do 2 (split; auto).
    split; [lra|]. split; auto. intros r g _ _. ring.
  - exists xn, xn, xn, 0. pose proof (nth_error_In _ _ X). split; [eapply above; eauto|]. split; auto. do 2 (split; auto).
    split; [lra|]. split; auto. intros r g _ _. ring.
  - destruct (interp_gen ng n T i t0 t1 x0 x1 Ht B) as (x & E & S & M & F & V).
    { intros tm Em Hm. specialize (L tm Em). lra. }
    destruct B as (E0 & E1 & HT & X0 & X1).
    exists x, x0, x1, ((sqrt T - sqrt t0) / (sqrt t1 - sqrt t0)). split; auto. split; auto.
    split; [eapply nth_error_In; eauto|]. split; [eapply nth_error_In; eauto|].
    assert (0 < t0) by (rewrite Forall_forall in H3; apply H3; eapply nth_error_In; eauto).
    pose proof (frac_bounds t0 t1 T). split; [lra|]. split; auto.
Qed.

Lemma interp_range ng n T r g lo hi : table ng n -> known ng r -> (g < ng)%nat ->
  (forall x, In x (tables n) -> lo <= value x r g <= hi) ->
  exists x, interpXS n T = Ret x /\ lo <= value x r g <= hi.
Proof.
  intros Ht Hr Hg H. destruct (interp_mix ng n T Ht) as (x & x0 & x1 & d & E & _ & I0 & I1 & D & M & _).
  exists x. split; auto. rewrite (M r g Hr Hg). pose proof (H x0 I0). pose proof (H x1 I1). nra.
Qed.
Lemma interp_consistent ng n T : table ng n -> (forall x, In x (tables n) -> consistent ng x) ->
  exists x, interpXS n T = Ret x /\ consistent ng x.
Proof.
  intros Ht H. destruct (interp_mix ng n T Ht) as (x & x0 & x1 & d & E & _ & I0 & I1 & D & M & _).
  exists x. split; auto. intros g Hg. rewrite M by (cbn; auto). rewrite (H x0 I0 g Hg), (H x1 I1 g Hg).
  transitivity (total (map (fun g' => value x0 (ScatterTo g') g + d * (value x1 (ScatterTo g') g + - 1 * value x0 (ScatterTo g') g)) (seq 0 ng))).
  - rewrite total_map_plus, total_map_scal, total_map_plus, total_map_scal. ring.
  - apply total_map_ext. intros g' Hi. apply in_seq in Hi. rewrite M by (cbn; auto; lia). ring.
Qed.
Lemma interp_fissile ng n T b : table ng n -> (forall x, In x (tables n) -> isFissile x = b) ->
  exists x, interpXS n T = Ret x /\ isFissile x = b.
Proof.
  intros Ht H. destruct (interp_mix ng n T Ht) as (x & x0 & x1 & d & E & _ & I0 & _ & _ & _ & _ & F).
  exists x. split; auto. rewrite F. auto.
Qed.
Lemma interp_physical ng n T b : table ng n -> (forall x, In x (tables n) -> physical ng x /\ isFissile x = b) ->
  exists x, interpXS n T = Ret x /\ shape ng x /\ physical ng x /\ isFissile x = b.
Proof.
  intros Ht H. destruct (interp_mix ng n T Ht) as (x & x0 & x1 & d & E & S & I0 & I1 & D & M & _ & F).
  destruct (H x0 I0) as [[P0 Q0] F0], (H x1 I1) as [[P1 Q1] F1].
  exists x. split; auto. split; auto. split; [|congruence]. split.
  - intros r g Hr Hg. rewrite M by auto. pose proof (P0 r g Hr Hg). pose proof (P1 r g Hr Hg). nra.
  - intros Fx g Hg. rewrite !M by (cbn; auto).
    assert (B0 : isFissile x0 = false) by congruence. assert (B1 : isFissile x1 = false) by congruence.
    destruct (Q0 B0 g Hg), (Q1 B1 g Hg). split; nra.
Qed.

Lemma interp_tabulated ng n i t x : table ng n -> strictly_ascending (temps n) ->
  nth_error (temps n) i = Some t -> nth_error (tables n) i = Some x -> interpXS n t = Ret x.
Proof.
  intros Ht Hs Et Ex. pose proof Ht as (H1 & H2 & H3 & H4 & H5). rewrite Forall_forall in H5.
  pose proof (nth_error_lt _ _ _ Et) as L. pose proof (H5 x (nth_error_In _ _ Ex)) as Sx.
  destruct (Nat.eq_dec i 0) as [->|N0]; [eapply below; eauto; lra|].
  destruct (Nat.eq_dec i (length (temps n) - 1)) as [->|N1].
  - apply (above ng n t t x); auto; [lra|]. left. intros t0 E0. apply (Hs O (length (temps n) - 1)%nat); auto; lia.
  - destruct (table_at ng n (S i) Ht) as (t1 & x1 & E1 & X1 & _); [lia|].
    destruct (interp_between ng n t i t t1 x x1 Ht Hs) as (y & E & Sy & M & F & V).
    { repeat split; auto; [lra|apply (Hs i (S i)); auto]. }
    rewrite E. f_equal. apply (xsec_ext ng); auto. intros r g Hr Hg. rewrite V by auto. apply root_line_at.
Qed.

Lemma interp_mono ng n T T' r g : table ng n -> known ng r -> (g < ng)%nat -> 
  (forall i j x y, (i <= j)%nat -> nth_error (tables n) i = Some x -> nth_error (tables n) j = Some y ->
     value x r g <= value y r g) ->
  T <= T' -> exists x x', interpXS n T = Ret x /\ interpXS n T' = Ret x' /\ value x r g <= value x' r g.
Proof.
  intros Ht Hr Hg Hm HT. pose proof Ht as (H1 & H2 & H3 & H4 & H5). rewrite Forall_forall in H3.
  assert (Pos : forall i t, nth_error (temps n) i = Some t -> 0 < t) by (intros i t E; apply H3; eapply nth_error_In; eauto).
  destruct (interp_mix ng n T Ht) as (x & x0 & x1 & d & Ex & _ & I0 & I1 & D & M & _).
  destruct (interp_mix ng n T' Ht) as (x' & x0' & x1' & d' & Ex' & _ & I0' & I1' & D' & M' & _).
  exists x, x'. split; auto. split; auto.
  apply In_nth_error in I0, I1, I0', I1'. destruct I0 as (j0 & J0), I1 as (j1 & J1), I0' as (j0' & J0'), I1' as (j1' & J1').
  assert (V : value x r g = value x0 r g + d * (value x1 r g - value x0 r g)) by auto.
  assert (V' : value x' r g = value x0' r g + d' * (value x1' r g - value x0' r g)) by auto.
  clear M M'.
  destruct (cases_of ng n T Ht) as [(t0 & y0 & E & X & L)|[(tn & yn & E & X & L & L')|(i & t0 & t1 & y0 & y1 & B & L)]].
  - assert (R : interpXS n T = Ret y0) by (eapply below; eauto). assert (x = y0) by congruence. subst y0.
    pose proof (Hm O j0' _ _ ltac:(lia) X J0'). pose proof (Hm O j1' _ _ ltac:(lia) X J1'). nra.
  - assert (R : interpXS n T = Ret yn) by (eapply above; eauto).
    assert (R' : interpXS n T' = Ret yn).
    { apply (above ng n T' tn yn); auto; [lra|]. left. intros t0 E0. specialize (L' t0 E0). lra. }
    assert (x = x') by congruence. subst. lra.
  - destruct (interp_gen ng n T i t0 t1 y0 y1 Ht B) as (z & Ez & _ & _ & _ & Vz).
    { intros tm Em Hm'. specialize (L tm Em). lra. }
    assert (z = x) by congruence. subst z. specialize (Vz r g Hr Hg).
    destruct B as (E0 & E1 & HB & Y0 & Y1). pose proof (Pos _ _ E0).
    assert (Q : value y0 r g <= value y1 r g) by (apply (Hm i (S i)); auto).
    destruct (root_line_mono t0 t1 (value y0 r g) (value y1 r g) T T) as [Q1 Q2]; try lra.
    destruct (cases_of ng n T' Ht) as [(t0' & y0' & E' & X' & L2)|[(tn' & yn' & E' & X' & L2 & L2')|(i' & t0' & t1' & y0' & y1' & B' & L2)]].
    + exfalso. specialize (L _ E'). lra.
    + assert (R : interpXS n T' = Ret yn') by (eapply above; eauto). assert (x' = yn') by congruence. subst yn'.
      pose proof (nth_error_lt _ _ _ E1).
      assert (value y1 r g <= value x' r g) by (apply (Hm (S i) (length (temps n) - 1)%nat); auto; lia). lra.
    + destruct (interp_gen ng n T' i' t0' t1' y0' y1' Ht B') as (z & Ez' & _ & _ & _ & Vz').
      { intros tm Em Hm'. specialize (L tm Em). lra. }
      assert (z = x') by congruence. subst z. specialize (Vz' r g Hr Hg).
      destruct B' as (E0' & E1' & HB' & Y0' & Y1'). pose proof (Pos _ _ E0').
      assert (Q' : value y0' r g <= value y1' r g) by (apply (Hm i' (S i')); auto).
      destruct (root_line_mono t0' t1' (value y0' r g) (value y1' r g) T' T') as [Q1' Q2']; try lra.
      destruct (Nat.lt_trichotomy i i') as [Hi|[Hi|Hi]].
      * assert (value y1 r g <= value y0' r g) by (apply (Hm (S i) i'); auto; lia). lra.
      * subst i'. assert (t0' = t0) by congruence. assert (t1' = t1) by congruence.
        assert (y0' = y0) by congruence. assert (y1' = y1) by congruence. subst t0' t1' y0' y1'.
        destruct (root_line_mono t0 t1 (value y0 r g) (value y1 r g) T T') as [Q3 _]; try lra.
      * exfalso. assert (t1' <= t0) by (apply (H4 (S i') i); auto; lia). lra.
Qed.

(** between two neighbours the data move from one to the other *)
Lemma root_line_opp t0 t1 y0 y1 T : root_line t0 t1 (- y0) (- y1) T = - root_line t0 t1 y0 y1 T.
Proof. unfold root_line. ring. Qed.
Lemma interp_local ng n T T' i t0 t1 x0 x1 r g : table ng n -> strictly_ascending (temps n) ->
  bracket n T i t0 t1 x0 x1 -> bracket n T' i t0 t1 x0 x1 -> T <= T' -> known ng r -> (g < ng)%nat ->
  exists x x', interpXS n T = Ret x /\ interpXS n T' = Ret x' /\
    (value x0 r g <= value x1 r g -> value x0 r g <= value x r g <= value x' r g /\ value x' r g <= value x1 r g) /\
    (value x1 r g <= value x0 r g -> value x1 r g <= value x' r g <= value x r g /\ value x r g <= value x0 r g).
Proof.
  intros Ht Hs B B' HT Hr Hg.
  destruct (interp_between ng n T i t0 t1 x0 x1 Ht Hs B) as (x & E & _ & _ & _ & V).
  destruct (interp_between ng n T' i t0 t1 x0 x1 Ht Hs B') as (x' & E' & _ & _ & _ & V').
  exists x, x'. do 2 (split; auto). rewrite V, V' by auto.
  pose proof Ht as (H1 & H2 & H3 & H4 & H5). rewrite Forall_forall in H3.
  destruct B as (E0 & _ & HTT & _), B' as (_ & _ & HTT' & _).
  assert (0 < t0) by (apply H3; eapply nth_error_In; eauto).
  split; intros Hv.
  - apply root_line_mono; lra.
  - destruct (root_line_mono t0 t1 (- value x0 r g) (- value x1 r g) T T') as [[A1 A2] A3]; try lra.
    rewrite !root_line_opp in *. lra.
Qed.

(** ** What Nuclide::validate accepts *)
Lemma is_sorted_ascending l : is_sorted l = true -> ascending l.
Proof.
  induction l as [|a l IH]; intros H i j x y Hij Hx Hy.
  - destruct i; discriminate.
  - assert (Hl : is_sorted l = true /\ forall b l', l = b :: l' -> a <= b).
    { destruct l as [|b l']; [split; auto; discriminate|]. cbn [is_sorted] in H. destruct (Rltb_spec b a); [discriminate|].
      split; auto. intros b0 l0 E. inversion E; subst. lra. }
    destruct Hl as [Hl Hh]. specialize (IH Hl). destruct i as [|i].
    + destruct j as [|j]; cbn in *; [inversion Hx; inversion Hy; subst; lra|]. inversion Hx; subst a.
      destruct l as [|b l']; [destruct j; discriminate|].
      specialize (Hh b l' eq_refl). assert (b <= y) by (apply (IH O j b y); auto; lia). lra.
    + destruct j as [|j]; [lia|]. cbn in *. apply (IH i j); auto. lia.
Qed.
Lemma validate_lengths x w : validate x = Ret w ->
  length (xa x) = numGroups x /\ length (xf x) = numGroups x /\ length (xnuf x) = numGroups x /\
  length (xtr x) = numGroups x /\ length (xs x) = numGroups x /\ rows (xss x) = numGroups x /\ cols (xss x) = numGroups x.
Proof.
  unfold validate. cbv zeta.
  destruct (Nat.eqb_spec (numGroups x) 0); [discriminate|].
  destruct (Nat.eqb_spec (length (xa x)) (numGroups x)); [cbn [negb]|discriminate].
  destruct (Nat.eqb_spec (length (xf x)) (numGroups x)); [cbn [negb]|discriminate].
  destruct (Nat.eqb_spec (length (xnuf x)) (numGroups x)); [cbn [negb]|discriminate].
  destruct (Nat.eqb_spec (length (xtr x)) (numGroups x)); [cbn [negb]|discriminate].
  destruct (Nat.eqb_spec (length (xs x)) (numGroups x)); [cbn [negb]|discriminate].
  destruct (Nat.eqb_spec (rows (xss x)) (numGroups x)); [cbn [negb orb]|discriminate].
  destruct (Nat.eqb_spec (cols (xss x)) (numGroups x)); [|discriminate]. auto 10.
Qed.
Lemma for_Ret_inv {S} (f : nat -> S -> outcome S) : forall n i s t, for_ n i f s = Ret t ->
  forall j, (i <= j < i + n)%nat -> exists s1 s2, f j s1 = Ret s2.
Proof.
  induction n as [|n IH]; intros i s t E j Hj; [lia|]. cbn in E. destruct (f i s) as [s'| | |] eqn:Ef; try discriminate.
  destruct (Nat.eq_dec j i) as [->|N]; eauto. eapply IH; [exact E|lia].
Qed.
Lemma nuc_validate_table ng n : nuc_validate n = Ret tt -> temps n <> [] ->
  Forall (fun x => numGroups x = ng /\ wf (xss x)) (tables n) ->
  table ng n /\ (0 < zaid n)%Z /\ 0 < mass n /\ Forall (fun x => isMacro x = false) (tables n).
Proof.
  unfold nuc_validate. destruct (Z.leb_spec (zaid n) 0); [discriminate|].
  destruct (Rleb_spec (mass n) 0); [discriminate|].
  destruct (for_ _ _ _ _) as [any| | |] eqn:Ef; try discriminate. cbn [bind].
  destruct (negb (Bool.eqb any (fissile n))); [discriminate|].
  destruct (Nat.eqb_spec (length (temps n)) (length (tables n))) as [El|]; [cbn [negb]|discriminate].
  rewrite error_loop_ok, firstn_all by auto. destruct (existsb _ (temps n)) eqn:Ex; [discriminate|]. cbn [bind].
  destruct (is_sorted (temps n)) eqn:Es; [cbn [negb]|discriminate]. intros _ Hne Hw.
  assert (G : forall x, In x (tables n) -> (exists w, validate x = Ret w) /\ isMacro x = false).
  { intros x Hi. apply In_nth_error in Hi. destruct Hi as (j & Hj).
    destruct (for_Ret_inv _ _ _ _ _ Ef j) as (s1 & s2 & E); [pose proof (nth_error_lt _ _ _ Hj); lia|].
    rewrite (proj2 (rd_Ret _ _ x) Hj) in E. cbn [bind] in E.
    destruct (validate x) as [w| | |]; try discriminate. cbn [bind] in E. destruct (isMacro x); [discriminate|]. eauto. }
  rewrite Forall_forall in Hw. repeat split; auto; try lra.
  - rewrite Forall_forall. intros t Ht. destruct (Rle_dec t 0) as [L|L]; [|lra]. exfalso.
    assert (existsb (fun t => Rleb t 0) (temps n) = true); [|congruence]. apply existsb_exists. exists t. split; auto.
    destruct (Rleb_spec t 0); auto.
  - now apply is_sorted_ascending.
  - rewrite Forall_forall. intros x Hx. destruct (Hw x Hx) as [A B]. destruct (G x Hx) as [(w & V) _].
    pose proof (validate_lengths x w V) as L. rewrite A in L. unfold shape. intuition.
  - rewrite Forall_forall. intros x Hx. now apply G.
Qed.

(** ** The fissile flag comes from the cooler entry only *)
Definition cold : xsec := mkX false false 1 [1] [0] [0] [1] [0] (mkM 1 1 [0]).
Definition hot : xsec := mkX false true 1 [1] [1] [2] [1] [0] (mkM 1 1 [0]).
Definition odd_nuclide : nuclide := mkNuc 92235 235 true [1; 4] [cold; hot].
Lemma shape_cold : shape 1 cold. Proof. unfold shape, wf, intMax; cbn; repeat split; auto; lia. Qed.
Lemma shape_hot : shape 1 hot. Proof. unfold shape, wf, intMax; cbn; repeat split; auto; lia. Qed.
Lemma odd_valid : nuc_validate odd_nuclide = Ret tt.
Proof.
  unfold nuc_validate, odd_nuclide. cbn [zaid mass tables temps fissile length for_ rd nth_error bind Z.leb].
  change (235235 <=? 0)%Z with false. change (92235 <=? 0)%Z with false.
  destruct (Rleb_spec 235 0); [lra|].
  assert (V0 : validate cold = Ret O).
  { apply (physical_validate 1); [apply shape_cold|lia|]. split.
    - intros [| | | | |g'] g Hr Hg; assert (g = O) by lia; subst g; cbn; try lra. cbn in Hr. assert (g' = O) by lia. subst. cbn. lra.
    - intros _ g Hg. assert (g = O) by lia; subst g; cbn. lra. }
  assert (V1 : validate hot = Ret O).
  { apply (physical_validate 1); [apply shape_hot|lia|]. split.
    - intros [| | | | |g'] g Hr Hg; assert (g = O) by lia; subst g; cbn; try lra. cbn in Hr. assert (g' = O) by lia. subst. cbn. lra.
    - discriminate. }
  unfold rd. cbn [nth_error bind]. rewrite V0, V1. cbn [bind isFissile cold hot isMacro Bool.eqb negb Nat.eqb].
  rewrite error_loop_ok by auto. cbn [firstn existsb]. destruct (Rleb_spec 1 0); [lra|]. destruct (Rleb_spec 4 0); [lra|].
  cbn [orb bind is_sorted]. destruct (Rltb_spec 4 1); [lra|]. reflexivity.
Qed.
Lemma odd_table : table 1 odd_nuclide.
Proof.
  apply (nuc_validate_table 1); [apply odd_valid|discriminate|].
  constructor; [split; [reflexivity|apply shape_cold]|]. constructor; [split; [reflexivity|apply shape_hot]|]. constructor.
Qed.
Lemma odd_ascending : strictly_ascending (temps odd_nuclide).
Proof.
  intros [|[|i]] [|[|j]] x y Hij Hx Hy; cbn in *; try lia; try (destruct j; discriminate); try (destruct i; discriminate).
  inversion Hx; inversion Hy; lra.
Qed.
Lemma interp_fissile_refuted : exists n T x, nuc_validate n = Ret tt /\ fissile n = true /\ table 1 n /\
  strictly_ascending (temps n) /\ interpXS n T = Ret x /\ 0 < value x Fission 0 /\ isFissile x = false /\ validate x = Fail.
Proof.
  exists odd_nuclide, 2.
  destruct (interp_between 1 odd_nuclide 2 0 1 4 cold hot odd_table odd_ascending) as (x & E & S & M & F & V).
  { repeat split; auto; lra. }
  exists x. split; [apply odd_valid|]. split; auto. split; [apply odd_table|]. split; [apply odd_ascending|]. split; auto.
  assert (P : 0 < value x Fission 0).
  { rewrite V by (cbn; auto; lia). unfold root_line. cbn [value cold hot xf nth].
    assert (sqrt 1 < sqrt 2) by (apply sqrt_lt_1; lra). assert (sqrt 2 < sqrt 4) by (apply sqrt_lt_1; lra).
    assert (0 < (sqrt 2 - sqrt 1) / (sqrt 4 - sqrt 1)) by (apply Rdiv_lt_0_compat; lra). lra. }
  split; auto. split; auto.
  pose proof (shape_validate 1 x _ S ltac:(lia) eq_refl) as W. rewrite M in W. cbn [isMacro cold] in W. rewrite W.
  replace (existsb _ _) with true; auto. symmetry. apply existsb_exists. exists (value x Fission 0). split.
  - apply in_or_app. left. apply nth_In. destruct S as (_ & _ & -> & _). lia.
  - rewrite F. cbn [isFissile cold negb]. destruct (Rltb_spec 0 (value x Fission 0)); auto.
Qed.

Lemma above_strict ng n T tn xn : table ng n -> nth_error (temps n) (length (temps n) - 1) = Some tn ->
  nth_error (tables n) (length (temps n) - 1) = Some xn -> tn < T -> interpXS n T = Ret xn.
Proof.
  intros Ht En Xn HT. apply (above ng n T tn xn); auto; [lra|]. left. intros t0 E0.
  pose proof Ht as (_ & _ & _ & H4 & _). assert (t0 <= tn); [|lra]. apply (H4 O (length (temps n) - 1)%nat); auto. lia.
Qed.
Lemma interp_physical_ok ng n T b : ng <> O -> table ng n -> (forall x, In x (tables n) -> physical ng x /\ isFissile x = b) ->
  exists x, interpXS n T = Ret x /\ shape ng x /\ physical ng x /\ isFissile x = b /\ validate x = Ret O.
Proof.
  intros Hn Ht H. destruct (interp_physical ng n T b Ht H) as (x & E & S & P & F). exists x. do 4 (split; auto).
  now apply (physical_validate ng).
Qed.
