From Coq Require Import ZArith Reals Lia Lra Psatz Bool.
From Verif Require Import Base Loops Arith Box_Proofs Rays_Model Rays_Spec.
Local Open Scope R_scope.

Lemma ceil_bounds x : x <= IZR (ceil x) < x + 1.
Proof. unfold ceil. rewrite opp_IZR. destruct (base_Int_part (- x)). lra. Qed.
Lemma ceil_pos x : 0 < x -> (1 <= ceil x)%Z.
Proof. intros H. destruct (ceil_bounds x) as (A & _). assert (0 < IZR (ceil x)) by lra. apply lt_IZR in H0. lia. Qed.
(** the constructor, with the quantities the proofs use *)
Definition sgn (a : R) : R := if Rltb (PI / 2) a then -1 else 1.
Lemma cos_abs a : 0 < a < PI -> a <> PI / 2 -> 0 < Rabs (cos a).
Proof.
  intros (A & B) C. apply Rabs_pos_lt. intros E. destruct (Rtotal_order a (PI / 2)) as [H|[H|H]]; [|congruence|].
  - pose proof (cos_gt_0 a). lra.
  - pose proof (cos_lt_0 a). lra.
Qed.
Lemma make_ok a s x0 y0 x1 y1 : good a s x0 y0 x1 y1 -> exists nx ny sx sy q,
  make a s x0 y0 x1 y1 = Ret (mkParams x0 y0 x1 y1 nx ny sx sy (sgn a * (sx / q)) (sy / q)) /\
  (1 <= nx)%Z /\ (1 <= ny)%Z /\ (nx + ny <= intMax)%Z /\ 0 < sx /\ 0 < sy /\ 0 < q /\ q * q = sx * sx + sy * sy /\
  IZR nx * sx = x1 - x0 /\ IZR ny * sy = y1 - y0 /\ nx = ceil ((x1 - x0) * sin a / s) /\ ny = ceil ((y1 - y0) * Rabs (cos a) / s) /\
  sx * sin a <= s /\ sy * Rabs (cos a) <= s.
Proof.
  intros (Ha & Hn & Hs & Hx & Hy & HB).
  assert (Sp : 0 < sin a) by (apply sin_gt_0; lra). assert (Cp := cos_abs a Ha Hn).
  assert (X : 0 < (x1 - x0) * sin a / s). { apply Rdiv_lt_0_compat; [|lra]. apply Rmult_lt_0_compat; lra. }
  assert (Y : 0 < (y1 - y0) * Rabs (cos a) / s). { apply Rdiv_lt_0_compat; [|lra]. apply Rmult_lt_0_compat; lra. }
  assert (EX : Rabs ((x1 - x0) * sin a / s) = (x1 - x0) * sin a / s) by (apply Rabs_pos_eq; lra).
  assert (EY : Rabs ((y1 - y0) * cos a / s) = (y1 - y0) * Rabs (cos a) / s).
  { unfold Rdiv. rewrite !Rabs_mult, (Rabs_pos_eq (y1 - y0)), (Rabs_pos_eq (/ s)); [reflexivity| |lra]. left. apply Rinv_0_lt_compat. lra. }
  set (nx := ceil ((x1 - x0) * sin a / s)). set (ny := ceil ((y1 - y0) * Rabs (cos a) / s)).
  assert (Nx := ceil_pos _ X). assert (Ny := ceil_pos _ Y). fold nx in Nx. fold ny in Ny.
  destruct (ceil_bounds ((x1 - x0) * sin a / s)) as (Bx & Bx'). destruct (ceil_bounds ((y1 - y0) * Rabs (cos a) / s)) as (By & By'). fold nx in Bx, Bx'. fold ny in By, By'.
  assert (Sum : (nx + ny <= intMax)%Z). { apply Z.lt_succ_r, lt_IZR. rewrite succ_IZR, plus_IZR. lra. }
  assert (Px : 1 <= IZR nx) by now apply IZR_le. assert (Py : 1 <= IZR ny) by now apply IZR_le.
  set (sx := (x1 - x0) / IZR nx). set (sy := (y1 - y0) / IZR ny).
  assert (Psx : 0 < sx) by (apply Rdiv_lt_0_compat; lra). assert (Psy : 0 < sy) by (apply Rdiv_lt_0_compat; lra).
  exists nx, ny, sx, sy, (sqrt (sx * sx + sy * sy)).
  assert (Q : 0 < sqrt (sx * sx + sy * sy)) by (apply sqrt_lt_R0; nra).
  assert (QQ : sqrt (sx * sx + sy * sy) * sqrt (sx * sx + sy * sy) = sx * sx + sy * sy) by (apply sqrt_sqrt; nra).
  split.
  - unfold make. rewrite (proj2 (Rltb_true 0 a)), (proj2 (Rltb_true a PI)), (proj2 (Rltb_true 0 s)) by lra. cbn [andb negb].
    rewrite EX, EY. fold nx ny. rewrite !i32_ok by (unfold in_i32, intMin, intMax in *; lia). cbn [bind]. fold sx sy. cbv zeta.
    rewrite cos_atan, sin_atan.
    assert (E : sqrt (1 + (sy / sx)²) = sqrt (sx * sx + sy * sy) / sx).
    { rewrite <- (sqrt_square (sqrt (sx * sx + sy * sy) / sx)) by (left; apply Rdiv_lt_0_compat; lra). f_equal.
      replace (sqrt (sx * sx + sy * sy) / sx * (sqrt (sx * sx + sy * sy) / sx)) with
        (sqrt (sx * sx + sy * sy) * sqrt (sx * sx + sy * sy) / (sx * sx)) by (field; lra). rewrite QQ. unfold Rsqr. field. lra. }
    rewrite E. unfold sgn. destruct (Rltb (PI / 2) a); do 2 f_equal; field; lra.
  - do 8 (split; [auto; try lra|]); [unfold sx; field; lra|]. split; [unfold sy; field; lra|].
    split; [reflexivity|]. split; [reflexivity|]. split.
    + unfold sx. apply (Rmult_le_reg_r (IZR nx)); [lra|]. replace ((x1 - x0) / IZR nx * sin a * IZR nx) with ((x1 - x0) * sin a / s * s) by (field; lra).
      rewrite (Rmult_comm s). apply Rmult_le_compat_r; lra.
    + unfold sy. apply (Rmult_le_reg_r (IZR ny)); [lra|]. replace ((y1 - y0) / IZR ny * Rabs (cos a) * IZR ny) with ((y1 - y0) * Rabs (cos a) / s * s) by (field; lra).
      rewrite (Rmult_comm s). apply Rmult_le_compat_r; lra.
Qed.
Lemma sgn_cases a : (sgn a = 1 /\ a <= PI / 2) \/ (sgn a = -1 /\ PI / 2 < a).
Proof. unfold sgn. destruct (Rltb (PI / 2) a) eqn:E; [apply Rltb_true in E|apply Rltb_false in E]; auto. Qed.
(** origin of ray i, with [g] the sign of the direction *)
Definition orig (g x0 y0 x1 sx sy : R) (nx i : Z) : R * R :=
  if (i <? nx)%Z then ((if Rltb g 0 then x0 else x1) - g * (sx * (IZR i + 1/2)), y0)
  else ((if Rltb g 0 then x1 else x0), y0 + sy * (IZR i + 1/2 - IZR nx)).
Lemma getRay_ok x0 y0 x1 y1 nx ny sx sy g q dy i : g = 1 \/ g = -1 -> 0 < sx -> 0 < q -> (1 <= nx)%Z -> (1 <= ny)%Z -> (nx + ny <= intMax)%Z -> (i < nx + ny)%Z ->
  getRay (mkParams x0 y0 x1 y1 nx ny sx sy (g * (sx / q)) dy) i = Ret (orig g x0 y0 x1 sx sy nx i, (g * (sx / q), dy)).
Proof.
  intros G S Q N1 N2 NN I. unfold getRay, orig. cbn [p_nx p_ny p_dx p_dy p_sx p_sy p_x0 p_x1 p_y0].
  rewrite i32_ok by (unfold in_i32, intMin, intMax in *; lia). cbn [bind]. rewrite (proj2 (Z.ltb_lt i (nx + ny)) I). cbn [negb].
  assert (P : 0 < sx / q) by (apply Rdiv_lt_0_compat; lra).
  destruct G as [-> | ->].
  - rewrite (proj2 (Rltb_false (1 * (sx / q)) 0)), (proj2 (Rltb_false 1 0)) by lra. destruct (i <? nx)%Z; cbn [Nat.add]; [|reflexivity].
    f_equal. f_equal. f_equal. ring.
  - rewrite (proj2 (Rltb_true (-1 * (sx / q)) 0)), (proj2 (Rltb_true (-1) 0)) by lra. destruct (i <? nx)%Z; cbn [Nat.add]; [|reflexivity].
    f_equal. f_equal. f_equal. ring.
Qed.

Section Rays.
Variables (x0 y0 x1 y1 : R) (nx ny : Z) (sx sy q g : R).
Hypotheses (G : g = 1 \/ g = -1) (S : 0 < sx) (S' : 0 < sy) (Q : 0 < q) (N1 : (1 <= nx)%Z) (N2 : (1 <= ny)%Z)
  (QQ : q * q = sx * sx + sy * sy) (W : IZR nx * sx = x1 - x0) (H : IZR ny * sy = y1 - y0).
Let o := orig g x0 y0 x1 sx sy nx.
Let d := (g * (sx / q), sy / q).
Lemma IZR_lt1 i n : (i < n)%Z -> IZR i + 1 <= IZR n.
Proof. intros L. rewrite <- plus_IZR. apply IZR_le. lia. Qed.
Lemma unit_dir : fst d * fst d + snd d * snd d = 1.
Proof.
  unfold d. cbn [fst snd]. replace (g * (sx / q) * (g * (sx / q)) + sy / q * (sy / q)) with ((g * g * (sx * sx) + sy * sy) / (q * q)) by (field; lra).
  replace (g * g) with 1 by (destruct G as [-> | ->]; ring). rewrite Rmult_1_l, <- QQ. field. lra.
Qed.
Definition side := if Rltb g 0 then x0 else x1.
Lemma orig_boundary i : (0 <= i < nx + ny)%Z ->
  ((i < nx)%Z /\ snd (o i) = y0 /\ x0 < fst (o i) < x1) \/
  ((nx <= i)%Z /\ fst (o i) = side - g * (x1 - x0) /\ y0 < snd (o i) < y1).
Proof.
  intros I. unfold o, orig, side. destruct (Z.ltb_spec i nx) as [L|L]; [left|right].
  - apply IZR_lt1 in L as L'. assert (I0 : 0 <= IZR i) by (apply IZR_le; lia).
    assert (A : 0 < sx * (IZR i + 1/2)) by (apply Rmult_lt_0_compat; lra).
    assert (B : 0 < sx * (IZR nx - IZR i - 1/2)) by (apply Rmult_lt_0_compat; lra). cbn [fst snd].
    split; [auto|]. split; [auto|]. destruct G as [-> | ->].
    + rewrite (proj2 (Rltb_false 1 0)) by lra. lra.
    + rewrite (proj2 (Rltb_true (-1) 0)) by lra. lra.
  - assert (L' : IZR nx <= IZR i) by now apply IZR_le. assert (I1 : IZR i + 1 <= IZR nx + IZR ny) by (rewrite <- (plus_IZR nx ny); apply IZR_lt1; lia).
    assert (A : 0 < sy * (IZR i + 1/2 - IZR nx)) by (apply Rmult_lt_0_compat; lra).
    assert (B : 0 < sy * (IZR ny - (IZR i + 1/2 - IZR nx))) by (apply Rmult_lt_0_compat; lra). cbn [fst snd].
    split; [auto|]. split.
    + destruct G as [-> | ->]; [rewrite (proj2 (Rltb_false 1 0)) by lra|rewrite (proj2 (Rltb_true (-1) 0)) by lra]; ring.
    + lra.
Qed.
Definition next (i : Z) : Z := if (i <? ny)%Z then (i + nx)%Z else (i - ny)%Z.
Lemma next_range i : (0 <= i < nx + ny)%Z -> (0 <= next i < nx + ny)%Z /\ ((i < ny)%Z -> (nx <= next i)%Z) /\ ((ny <= i)%Z -> (next i < nx)%Z).
Proof. intros I. unfold next. destruct (Z.ltb_spec i ny); lia. Qed.
Definition exit (i : Z) : R * R :=
  if (i <? ny)%Z then (fst (o (next i)) + g * (x1 - x0), snd (o (next i))) else (fst (o (next i)), snd (o (next i)) + (y1 - y0)).
Lemma point_at p u : point p d (u * q) = (fst p + g * (u * sx), snd p + u * sy).
Proof. unfold point, d. cbn [fst snd]. f_equal; f_equal; field; lra. Qed.
Lemma leaves_ok i : (0 <= i < nx + ny)%Z -> leaves x0 y0 x1 y1 (o i) d (exit i).
Proof.
  intros I. assert (Hu : exists u, 0 < u /\ exit i = (fst (o i) + g * (u * sx), snd (o i) + u * sy) /\
    forall v, 0 < v < u -> inside x0 y0 x1 y1 (fst (o i) + g * (v * sx), snd (o i) + v * sy)).
  - assert (I0 : 0 <= IZR i) by (apply IZR_le; lia). assert (Nx : 1 <= IZR nx) by now apply IZR_le. assert (Ny : 1 <= IZR ny) by now apply IZR_le.
    assert (I1 : IZR i + 1 <= IZR nx + IZR ny) by (rewrite <- (plus_IZR nx ny); apply IZR_lt1; lia).
    unfold exit, next, inside. destruct (Z.ltb_spec i ny) as [L|L]; unfold o, orig; destruct (Z.ltb_spec i nx) as [M|M]; cbn [fst snd].
    + apply IZR_lt1 in L as L'. apply IZR_lt1 in M as M'. rewrite (proj2 (Z.ltb_ge (i + nx) nx)) by lia. cbn [fst snd].
      rewrite plus_IZR. exists (IZR i + 1/2). split; [lra|]. split.
      * f_equal; [|ring]. destruct G as [-> | ->]; [rewrite (proj2 (Rltb_false 1 0)) by lra|rewrite (proj2 (Rltb_true (-1) 0)) by lra]; lra.
      * intros v Hv. assert (A : 0 < sx * (IZR i + 1/2 - v)) by (apply Rmult_lt_0_compat; lra).
        assert (B : 0 < sx * (IZR nx - IZR i - 1/2 + v)) by (apply Rmult_lt_0_compat; lra).
        assert (C : 0 < sy * v) by (apply Rmult_lt_0_compat; lra). assert (D : 0 < sy * (IZR ny - v)) by (apply Rmult_lt_0_compat; lra).
        destruct G as [-> | ->]; [rewrite (proj2 (Rltb_false 1 0)) by lra|rewrite (proj2 (Rltb_true (-1) 0)) by lra]; lra.
    + apply IZR_lt1 in L as L'. assert (M' : IZR nx <= IZR i) by now apply IZR_le. rewrite (proj2 (Z.ltb_ge (i + nx) nx)) by lia. cbn [fst snd].
      rewrite plus_IZR. exists (IZR nx). split; [lra|]. split.
      * f_equal; [|ring]. destruct G as [-> | ->]; [rewrite (proj2 (Rltb_false 1 0)) by lra|rewrite (proj2 (Rltb_true (-1) 0)) by lra]; lra.
      * intros v Hv. assert (A : 0 < sx * (IZR nx - v)) by (apply Rmult_lt_0_compat; lra).
        assert (B : 0 < sx * v) by (apply Rmult_lt_0_compat; lra).
        assert (C : 0 < sy * (v + IZR i + 1/2 - IZR nx)) by (apply Rmult_lt_0_compat; lra).
        assert (D : 0 < sy * (IZR ny - (v + IZR i + 1/2 - IZR nx))) by (apply Rmult_lt_0_compat; lra).
        destruct G as [-> | ->]; [rewrite (proj2 (Rltb_false 1 0)) by lra|rewrite (proj2 (Rltb_true (-1) 0)) by lra]; lra.
    + apply IZR_lt1 in M as M'. assert (L' : IZR ny <= IZR i) by now apply IZR_le. rewrite (proj2 (Z.ltb_lt (i - ny) nx)) by lia. cbn [fst snd].
      rewrite minus_IZR. exists (IZR ny). split; [lra|]. split.
      * f_equal; [ring|lra].
      * intros v Hv. assert (A : 0 < sx * (IZR i + 1/2 - v)) by (apply Rmult_lt_0_compat; lra).
        assert (B : 0 < sx * (IZR nx - IZR i - 1/2 + v)) by (apply Rmult_lt_0_compat; lra).
        assert (C : 0 < sy * v) by (apply Rmult_lt_0_compat; lra). assert (D : 0 < sy * (IZR ny - v)) by (apply Rmult_lt_0_compat; lra).
        destruct G as [-> | ->]; [rewrite (proj2 (Rltb_false 1 0)) by lra|rewrite (proj2 (Rltb_true (-1) 0)) by lra]; lra.
    + assert (L' : IZR ny <= IZR i) by now apply IZR_le. assert (M' : IZR nx <= IZR i) by now apply IZR_le. rewrite (proj2 (Z.ltb_lt (i - ny) nx)) by lia. cbn [fst snd].
      rewrite minus_IZR. exists (IZR ny + IZR nx - IZR i - 1/2). split; [lra|]. split.
      * f_equal; [|lra]. destruct G as [-> | ->]; [rewrite (proj2 (Rltb_false 1 0)) by lra|rewrite (proj2 (Rltb_true (-1) 0)) by lra]; lra.
      * intros v Hv. assert (A : 0 < sx * (IZR nx - v)) by (apply Rmult_lt_0_compat; lra).
        assert (B : 0 < sx * v) by (apply Rmult_lt_0_compat; lra).
        assert (C : 0 < sy * (v + IZR i + 1/2 - IZR nx)) by (apply Rmult_lt_0_compat; lra).
        assert (D : 0 < sy * (IZR ny - (v + IZR i + 1/2 - IZR nx))) by (apply Rmult_lt_0_compat; lra).
        destruct G as [-> | ->]; [rewrite (proj2 (Rltb_false 1 0)) by lra|rewrite (proj2 (Rltb_true (-1) 0)) by lra]; lra.
  - destruct Hu as (u & U & E & F). exists (u * q). split; [now apply Rmult_lt_0_compat|]. rewrite point_at. split; [auto|].
    intros t Ht. replace t with (t / q * q) by (field; lra). rewrite point_at. apply F. split.
    + apply Rdiv_lt_0_compat; lra.
    + apply (Rmult_lt_reg_r q); [lra|]. unfold Rdiv. rewrite Rmult_assoc, Rinv_l, Rmult_1_r by lra. lra.
Qed.
Lemma offset_ok i : (0 <= i < nx + ny)%Z -> offset d (o 0) (o i) = g * (IZR i * (sx * sy / q)).
Proof.
  intros I. unfold offset, o, orig, d. rewrite (proj2 (Z.ltb_lt 0 nx)) by lia. destruct (Z.ltb_spec i nx); cbn [fst snd].
  - field. lra.
  - replace (IZR i * (sx * sy / q)) with ((sx * IZR nx * sy + (IZR i - IZR nx) * sx * sy) / q) by (field; lra).
    replace (sx * IZR nx) with (x1 - x0) by lra.
    destruct G as [-> | ->]; [rewrite (proj2 (Rltb_false 1 0)) by lra|rewrite (proj2 (Rltb_true (-1) 0)) by lra]; field; lra.
Qed.
Lemma offset_first : offset d (side, y0) (o 0) = g * (sx * sy / q / 2).
Proof.
  unfold offset, o, orig, d, side. rewrite (proj2 (Z.ltb_lt 0 nx)) by lia. cbn [fst snd]. field. lra.
Qed.
Lemma offset_last : offset d (o (nx + ny - 1)) (side - g * (x1 - x0), y1) = g * (sx * sy / q / 2).
Proof.
  unfold offset, o, orig, d, side. rewrite (proj2 (Z.ltb_ge (nx + ny - 1) nx)) by lia. cbn [fst snd]. rewrite minus_IZR, plus_IZR.
  replace y1 with (y0 + IZR ny * sy) by lra.
  destruct G as [-> | ->]; [rewrite (proj2 (Rltb_false 1 0)) by lra|rewrite (proj2 (Rltb_true (-1) 0)) by lra]; field; lra.
Qed.
End Rays.
Lemma delta_le sx sy q s sa ca : 0 < sx -> 0 < sy -> 0 < q -> q * q = sx * sx + sy * sy -> 0 < s -> 0 <= sa -> 0 <= ca -> sa * sa + ca * ca = 1 ->
  sx * sa <= s -> sy * ca <= s -> 0 < sx * sy / q <= s.
Proof.
  intros A B Q QQ Hs Pa Pc E F1 F2. split; [apply Rdiv_lt_0_compat; nra|].
  apply (Rmult_le_reg_r q); auto. unfold Rdiv. rewrite Rmult_assoc, Rinv_l, Rmult_1_r by lra.
  apply Rsqr_incr_0; [|nra|nra]. unfold Rsqr. replace (s * q * (s * q)) with (s * s * (q * q)) by ring. rewrite QQ.
  assert (G1 : (sx * sa) * (sx * sa) <= s * s) by (apply Rmult_le_compat; nra).
  assert (G2 : (sy * ca) * (sy * ca) <= s * s) by (apply Rmult_le_compat; nra).
  replace (sx * sy * (sx * sy)) with (sy * sy * (sx * sa * (sx * sa)) + sx * sx * (sy * ca * (sy * ca))).
  - apply Rle_trans with (sy * sy * (s * s) + sx * sx * (s * s)); [|lra].
    apply Rplus_le_compat; apply Rmult_le_compat_l; nra.
  - replace (sx * sy * (sx * sy)) with (sx * sx * (sy * sy) * (sa * sa + ca * ca)) by (rewrite E; ring). ring.
Qed.

Lemma sgn_or a : sgn a = 1 \/ sgn a = -1.
Proof. destruct (sgn_cases a) as [(-> & _)|(-> & _)]; auto. Qed.
Ltac mk Hg := destruct (make_ok _ _ _ _ _ _ Hg) as (nx & ny & sx & sy & q & E & N1 & N2 & NN & S & S' & Q & QQ & W & H & Ex & Ey & Bx & By).
Lemma rays_make a s x0 y0 x1 y1 : good a s x0 y0 x1 y1 -> exists m, make a s x0 y0 x1 y1 = Ret m /\
  getTotalNumRays m = Ret (p_nx m + p_ny m)%Z /\
  (IZR (p_nx m) - 1) * s < (x1 - x0) * sin a <= IZR (p_nx m) * s /\
  (IZR (p_ny m) - 1) * s < (y1 - y0) * Rabs (cos a) <= IZR (p_ny m) * s /\
  p_sx m = (x1 - x0) / IZR (p_nx m) /\ p_sy m = (y1 - y0) / IZR (p_ny m) /\
  p_dx m * p_dx m + p_dy m * p_dy m = 1 /\ 0 < p_dy m /\ (0 < p_dx m <-> a < PI / 2) /\ (p_dx m < 0 <-> PI / 2 < a).
Proof.
  intros Hg. mk Hg. eexists. split; [exact E|]. unfold getTotalNumRays. cbn [p_nx p_ny p_sx p_sy p_dx p_dy].
  destruct Hg as (Ha & Hn & Hs & Hx & Hy & HB).
  assert (Nx : 1 <= IZR nx) by now apply IZR_le. assert (Ny : 1 <= IZR ny) by now apply IZR_le.
  split; [apply i32_ok; unfold in_i32, intMin, intMax in *; lia|]. split.
  { destruct (ceil_bounds ((x1 - x0) * sin a / s)) as (B1 & B2). rewrite <- Ex in B1, B2.
    assert (X : (x1 - x0) * sin a / s * s = (x1 - x0) * sin a) by (field; lra).
    split; [apply Rlt_le_trans with ((x1 - x0) * sin a / s * s); [apply Rmult_lt_compat_r; lra|lra]|].
    rewrite <- X. apply Rmult_le_compat_r; lra. }
  split.
  { destruct (ceil_bounds ((y1 - y0) * Rabs (cos a) / s)) as (B1 & B2). rewrite <- Ey in B1, B2.
    assert (X : (y1 - y0) * Rabs (cos a) / s * s = (y1 - y0) * Rabs (cos a)) by (field; lra).
    split; [apply Rlt_le_trans with ((y1 - y0) * Rabs (cos a) / s * s); [apply Rmult_lt_compat_r; lra|lra]|].
    rewrite <- X. apply Rmult_le_compat_r; lra. }
  split; [rewrite <- W; field; lra|]. split; [rewrite <- H; field; lra|].
  split; [exact (unit_dir x0 y0 x1 nx sx sy q (sgn a) (sgn_or a) Q QQ)|].
  assert (P : 0 < sx / q) by (apply Rdiv_lt_0_compat; lra). split; [apply Rdiv_lt_0_compat; lra|].
  destruct (sgn_cases a) as [(-> & X)|(-> & X)]; split; split; lra.
Qed.
Lemma side_sgn a x0 x1 : side x0 x1 (sgn a) = (if Rltb (PI / 2) a then x0 else x1).
Proof.
  unfold side, sgn. destruct (Rltb (PI / 2) a); [rewrite (proj2 (Rltb_true (-1) 0)) by lra|rewrite (proj2 (Rltb_false 1 0)) by lra]; auto.
Qed.
Lemma side_back a x0 x1 : side x0 x1 (sgn a) - sgn a * (x1 - x0) = (if Rltb (PI / 2) a then x1 else x0).
Proof. rewrite side_sgn. unfold sgn. destruct (Rltb (PI / 2) a); ring. Qed.
Lemma rays_start a s x0 y0 x1 y1 m : good a s x0 y0 x1 y1 -> make a s x0 y0 x1 y1 = Ret m ->
  forall i, (0 <= i < p_nx m + p_ny m)%Z -> exists o, getRay m i = Ret (o, (p_dx m, p_dy m)) /\
    (((i < p_nx m)%Z /\ snd o = y0 /\ x0 < fst o < x1) \/
     ((p_nx m <= i)%Z /\ fst o = (if Rltb (PI / 2) a then x1 else x0) /\ y0 < snd o < y1)).
Proof.
  intros Hg. mk Hg. rewrite E. intros [= <-] i Hi. cbn [p_nx p_ny p_dx p_dy] in *.
  rewrite getRay_ok by (auto using sgn_or; lia). eexists. split; [reflexivity|].
  rewrite <- side_back. exact (orig_boundary x0 y0 x1 y1 nx ny sx sy q (sgn a) (sgn_or a) S S' W H i Hi).
Qed.
Lemma rays_linked a s x0 y0 x1 y1 m : good a s x0 y0 x1 y1 -> make a s x0 y0 x1 y1 = Ret m ->
  forall i, (0 <= i < p_nx m + p_ny m)%Z -> exists o e j o', getRay m i = Ret (o, (p_dx m, p_dy m)) /\
    leaves x0 y0 x1 y1 o (p_dx m, p_dy m) e /\
    (0 <= j < p_nx m + p_ny m)%Z /\ getRay m j = Ret (o', (p_dx m, p_dy m)) /\
    ((fst e = (if Rltb (PI / 2) a then x0 else x1) /\ fst o' = (if Rltb (PI / 2) a then x1 else x0) /\ snd o' = snd e) \/
     (snd e = y1 /\ snd o' = y0 /\ fst o' = fst e)).
Proof.
  intros Hg. mk Hg. rewrite E. intros [= <-] i Hi. cbn [p_nx p_ny p_dx p_dy] in *.
  destruct (next_range nx ny N1 N2 i Hi) as (J & J1 & J2).
  pose proof (leaves_ok x0 y0 x1 y1 nx ny sx sy q (sgn a) (sgn_or a) S S' Q N1 N2 W H i Hi) as X.
  rewrite !getRay_ok with (i := i) by (auto using sgn_or; lia).
  do 4 eexists. split; [reflexivity|]. split; [exact X|]. split; [exact J|].
  rewrite getRay_ok by (auto using sgn_or; lia). split; [reflexivity|].
  destruct (orig_boundary x0 y0 x1 y1 nx ny sx sy q (sgn a) (sgn_or a) S S' W H (next nx ny i) J) as [(B & B1 & B2)|(B & B1 & B2)].
  - right. assert (L : (i <? ny)%Z = false). { apply Z.ltb_ge. destruct (Z.lt_ge_cases i ny) as [C|C]; auto. specialize (J1 C). lia. }
    unfold exit. rewrite L. cbn [fst snd]. rewrite B1. split; [ring|]. auto.
  - left. assert (L : (i <? ny)%Z = true). { apply Z.ltb_lt. destruct (Z.lt_ge_cases i ny) as [C|C]; auto. specialize (J2 C). lia. }
    unfold exit. rewrite L. cbn [fst snd]. rewrite B1. split; [|split]; auto.
    + rewrite <- side_sgn. ring.
    + apply side_back.
Qed.
Lemma rays_spacing a s x0 y0 x1 y1 m : good a s x0 y0 x1 y1 -> make a s x0 y0 x1 y1 = Ret m ->
  exists delta g, 0 < delta <= s /\ (g = 1 \/ g = -1) /\
  forall o0, getRay m 0 = Ret (o0, (p_dx m, p_dy m)) ->
    offset (p_dx m, p_dy m) (if Rltb (PI / 2) a then x0 else x1, y0) o0 = g * (delta / 2) /\
    (forall i o, (0 <= i < p_nx m + p_ny m)%Z -> getRay m i = Ret (o, (p_dx m, p_dy m)) ->
       offset (p_dx m, p_dy m) o0 o = g * (IZR i * delta)) /\
    (forall o, getRay m (p_nx m + p_ny m - 1) = Ret (o, (p_dx m, p_dy m)) ->
       offset (p_dx m, p_dy m) o (if Rltb (PI / 2) a then x1 else x0, y1) = g * (delta / 2)).
Proof.
  intros Hg. mk Hg. rewrite E. intros [= <-]. cbn [p_nx p_ny p_dx p_dy] in *.
  exists (sx * sy / q), (sgn a). split; [|split; [apply sgn_or|]].
  - destruct Hg as (Ha & Hn & Hs & Hx & Hy & HB). apply (delta_le sx sy q s (sin a) (Rabs (cos a))); auto.
    + left. apply sin_gt_0; lra.
    + apply Rabs_pos.
    + pose proof (sin2_cos2 a) as T. unfold Rsqr in T. rewrite <- Rabs_mult, Rabs_pos_eq; [lra|]. nra.
  - intros o0. rewrite getRay_ok by (auto using sgn_or; lia). intros [= <-].
    split; [rewrite <- side_sgn; now apply offset_first|]. split.
    + intros i o Hi. rewrite getRay_ok by (auto using sgn_or; lia). intros [= <-]. apply offset_ok with (ny := ny); auto using sgn_or.
    + intros o. rewrite getRay_ok by (auto using sgn_or; lia). intros [= <-]. rewrite <- side_back. now apply offset_last; auto using sgn_or.
Qed.
Lemma good_compl a s x0 y0 x1 y1 : good a s x0 y0 x1 y1 -> good (PI - a) s x0 y0 x1 y1.
Proof.
  intros (Ha & Hn & Hs & Hx & Hy & HB). assert (C : Rabs (cos (PI - a)) = Rabs (cos a)).
  { rewrite Rtrigo_facts.cos_pi_minus, Rabs_Ropp. reflexivity. }
  split; [lra|]. split; [lra|]. split; [auto|]. split; [auto|]. split; [auto|]. rewrite C, sin_PI_x. exact HB.
Qed.
Lemma rays_compl a s x0 y0 x1 y1 m : good a s x0 y0 x1 y1 -> make a s x0 y0 x1 y1 = Ret m ->
  make (PI - a) s x0 y0 x1 y1 = Ret (mkParams x0 y0 x1 y1 (p_nx m) (p_ny m) (p_sx m) (p_sy m) (- p_dx m) (p_dy m)).
Proof.
  intros Hg. mk Hg. rewrite E. intros [= <-]. cbn [p_nx p_ny p_sx p_sy p_dx p_dy].
  destruct (make_ok _ _ _ _ _ _ (good_compl _ _ _ _ _ _ Hg)) as (nx' & ny' & sx' & sy' & q' & E' & N1' & N2' & NN' & T & T' & Q' & QQ' & W' & H' & Ex' & Ey' & _ & _).
  rewrite E'. rewrite Rtrigo_facts.cos_pi_minus, Rabs_Ropp in Ey'. rewrite sin_PI_x in Ex'.
  assert (nx' = nx) by congruence. assert (ny' = ny) by congruence. clear Ex Ex' Ey Ey'. subst nx' ny'.
  assert (Nx : 1 <= IZR nx) by now apply IZR_le. assert (Ny : 1 <= IZR ny) by now apply IZR_le.
  assert (sx' = sx) by (apply (Rmult_eq_reg_l (IZR nx)); lra). assert (sy' = sy) by (apply (Rmult_eq_reg_l (IZR ny)); lra). subst sx' sy'.
  assert (q' = q) by (apply Rsqr_inj; unfold Rsqr; lra). subst q'.
  assert (G : sgn (PI - a) = - sgn a).
  { destruct Hg as (Ha & Hn & _). destruct (sgn_cases a) as [(-> & X)|(-> & X)]; destruct (sgn_cases (PI - a)) as [(-> & Y)|(-> & Y)]; lra. }
  rewrite G. do 2 f_equal. ring.
Qed.
Lemma orig_flip g x0 y0 x1 sx sy nx j : g = 1 \/ g = -1 -> IZR nx * sx = x1 - x0 ->
  ((nx <= j)%Z -> orig (- g) x0 y0 x1 sx sy nx j = (fst (orig g x0 y0 x1 sx sy nx j) + g * (x1 - x0), snd (orig g x0 y0 x1 sx sy nx j))) /\
  ((0 <= j < nx)%Z -> orig (- g) x0 y0 x1 sx sy nx (nx - 1 - j) = orig g x0 y0 x1 sx sy nx j).
Proof.
  intros G W. unfold orig. split.
  - intros L. rewrite (proj2 (Z.ltb_ge j nx)) by lia. cbn [fst snd]. f_equal.
    destruct G as [-> | ->]; [rewrite (proj2 (Rltb_false 1 0)), (proj2 (Rltb_true (- (1)) 0)) by lra|rewrite (proj2 (Rltb_true (-1) 0)), (proj2 (Rltb_false (- -1) 0)) by lra]; ring.
  - intros L. rewrite (proj2 (Z.ltb_lt j nx)), (proj2 (Z.ltb_lt (nx - 1 - j) nx)) by lia. f_equal. rewrite !minus_IZR.
    destruct G as [-> | ->]; [rewrite (proj2 (Rltb_false 1 0)), (proj2 (Rltb_true (- (1)) 0)) by lra|rewrite (proj2 (Rltb_true (-1) 0)), (proj2 (Rltb_false (- -1) 0)) by lra]; lra.
Qed.
Lemma rays_reflect a s x0 y0 x1 y1 m m' : good a s x0 y0 x1 y1 -> make a s x0 y0 x1 y1 = Ret m -> make (PI - a) s x0 y0 x1 y1 = Ret m' ->
  p_nx m' = p_nx m /\ p_ny m' = p_ny m /\ p_dx m' = - p_dx m /\ p_dy m' = p_dy m /\
  forall i, (0 <= i < p_nx m + p_ny m)%Z -> exists o e j o', getRay m i = Ret (o, (p_dx m, p_dy m)) /\
    leaves x0 y0 x1 y1 o (p_dx m, p_dy m) e /\
    (0 <= j < p_nx m + p_ny m)%Z /\ getRay m' j = Ret (o', (p_dx m', p_dy m')) /\
    ((fst e = (if Rltb (PI / 2) a then x0 else x1) /\ o' = e) \/
     (snd e = y1 /\ leaves x0 y0 x1 y1 o' (p_dx m', p_dy m') e)).
Proof.
  intros Hg Hm Hm'. rewrite (rays_compl _ _ _ _ _ _ _ Hg Hm) in Hm'. injection Hm' as <-. cbn [p_nx p_ny p_dx p_dy].
  do 4 (split; [reflexivity|]). revert Hm. mk Hg. rewrite E. intros [= <-] i Hi. cbn [p_nx p_ny p_sx p_sy p_dx p_dy] in *.
  destruct (next_range nx ny N1 N2 i Hi) as (J & J1 & J2).
  pose proof (leaves_ok x0 y0 x1 y1 nx ny sx sy q (sgn a) (sgn_or a) S S' Q N1 N2 W H i Hi) as X.
  assert (G' : - sgn a = 1 \/ - sgn a = -1) by (destruct (sgn_or a) as [-> | ->]; [right|left]; lra).
  replace (- (sgn a * (sx / q))) with (- sgn a * (sx / q)) by ring.
  destruct (Z.lt_ge_cases i ny) as [C|C].
  - specialize (J1 C). exists (orig (sgn a) x0 y0 x1 sx sy nx i). eexists. exists (next nx ny i). eexists.
    split; [apply getRay_ok; auto using sgn_or; lia|]. split; [exact X|]. split; [exact J|].
    split; [apply getRay_ok; auto; lia|]. left. unfold exit. rewrite (proj2 (Z.ltb_lt i ny) C). cbn [fst snd].
    destruct (orig_boundary x0 y0 x1 y1 nx ny sx sy q (sgn a) (sgn_or a) S S' W H (next nx ny i) J) as [(B & B1 & B2)|(B & B1 & B2)]; [lia|].
    split; [rewrite B1, <- side_sgn; ring|]. apply (orig_flip (sgn a)); auto using sgn_or.
  - specialize (J2 C). exists (orig (sgn a) x0 y0 x1 sx sy nx i). eexists. exists (nx - 1 - next nx ny i + ny)%Z. eexists.
    split; [apply getRay_ok; auto using sgn_or; lia|]. split; [exact X|]. split; [lia|].
    split; [apply getRay_ok; auto; lia|]. right.
    destruct (orig_boundary x0 y0 x1 y1 nx ny sx sy q (sgn a) (sgn_or a) S S' W H (next nx ny i) J) as [(B & B1 & B2)|(B & B1 & B2)]; [|lia].
    unfold exit at 1. rewrite (proj2 (Z.ltb_ge i ny) C). cbn [fst snd]. split; [rewrite B1; ring|].
    pose proof (leaves_ok x0 y0 x1 y1 nx ny sx sy q (- sgn a) G' S S' Q N1 N2 W H (nx - 1 - next nx ny i + ny)%Z ltac:(lia)) as Y.
    assert (EE : exit x0 y0 x1 y1 nx ny sx sy (- sgn a) (nx - 1 - next nx ny i + ny) = exit x0 y0 x1 y1 nx ny sx sy (sgn a) i).
    { unfold exit. rewrite (proj2 (Z.ltb_ge i ny) C), (proj2 (Z.ltb_ge (nx - 1 - next nx ny i + ny) ny)) by lia.
      assert (Nn : next nx ny (nx - 1 - next nx ny i + ny) = (nx - 1 - next nx ny i)%Z).
      { unfold next at 1. rewrite (proj2 (Z.ltb_ge (nx - 1 - next nx ny i + ny) ny)) by lia. lia. }
      rewrite Nn, (proj2 (orig_flip (sgn a) x0 y0 x1 sx sy nx (next nx ny i) (sgn_or a) W)) by lia. reflexivity. }
    rewrite EE in Y. exact Y.
Qed.
Lemma rays_example : good (PI / 4) (1/10) 0 0 2 1.
Proof.
  pose proof PI_RGT_0. pose proof (SIN_bound (PI / 4)). pose proof (COS_bound (PI / 4)).
  assert (Rabs (cos (PI / 4)) <= 1) by (apply Rabs_le; lra). unfold good, intMax. lra.
Qed.
