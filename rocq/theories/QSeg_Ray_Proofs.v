From Coq Require Import List Arith ZArith Reals Lia Lra Bool Psatz Permutation.
From Coquelicot Require Import Coquelicot.
From Verif Require Import Base Loops Arith XReal Vec_Model Box_Model Box_Proofs Seg_Model Seg_Spec Seg_Proofs
  Poly_Model Poly_Spec Poly_Proofs Roots_Model Roots_Spec Roots_Proofs QSeg_Model QSeg_Spec QSeg_Proofs.
Import ListNotations.
Local Open Scope R_scope.

(** * ray intersections *)
Lemma no_root_big : 1 < no_root.
Proof. rewrite <- invalid_val. unfold invalid. apply IZR_lt. reflexivity. Qed.
Definition cross (u v : R * R) : R := fst u * snd v - snd u * fst v.
Lemma hit_split (d e : R * R) (r : R) : fst d * fst d + snd d * snd d = 1 -> fst e * snd d - snd e * fst d = 0 ->
  e = ((fst e * fst d + snd e * snd d) * fst d, (fst e * fst d + snd e * snd d) * snd d).
Proof.
  intros U C. destruct d as [dx dy], e as [ex ey]. cbn [fst snd] in *. f_equal.
  - transitivity (ex * (dx * dx + dy * dy)); [rewrite U; ring|].
    replace (ex * (dx * dx + dy * dy)) with (ex * dx * dx + ex * dy * dy) by ring. replace (ex * dy) with (ey * dx) by lra. ring.
  - transitivity (ey * (dx * dx + dy * dy)); [rewrite U; ring|].
    replace (ey * (dx * dx + dy * dy)) with (ey * dx * dx + ey * dy * dy) by ring. replace (ey * dx) with (ex * dy) by lra. ring.
Qed.
Lemma qs_intersect_ok v0 v1 v2 ro d : fst d * fst d + snd d * snd d = 1 ->
  let hits := qs_intersect v0 v1 v2 ro d in
  (length hits <= 2)%nat /\
  (forall r, In r hits -> 0 <= r /\ exists s, 0 <= s <= 1 /\ ray2 ro d r = curve2 v0 v1 v2 s) /\
  (~ (parallel (fst v1 - fst v0, snd v1 - snd v0) d /\ parallel (fst v2 - fst v0, snd v2 - snd v0) d) ->
     forall r s, 0 <= r -> 0 <= s <= 1 -> ray2 ro d r = curve2 v0 v1 v2 s -> In r hits) /\
  (parallel (fst v1 - fst v0, snd v1 - snd v0) d /\ parallel (fst v2 - fst v0, snd v2 - snd v0) d -> hits = []).
Proof.
  intros U hits. unfold hits, qs_intersect.
  destruct (pqs_poly_at v0 v1 v2) as (B & A & EP & EQ & EB & EA). rewrite EP.
  rewrite !cross2_R.
  set (a := fst A * snd d - snd A * fst d). set (b := fst B * snd d - snd B * fst d).
  set (voc := psub RA v0 ro). set (c := fst voc * snd d - snd voc * fst d).
  assert (QV : forall s, quadratic a b c s = (fst (curve2 v0 v1 v2 s) - fst ro) * snd d - (snd (curve2 v0 v1 v2 s) - snd ro) * fst d).
  { intros s. rewrite EQ. unfold quadratic, a, b, c, voc, psub. cbn. ring. }
  assert (RV : forall s, pdot RA (padd RA voc (pscale RA s (padd RA B (pscale RA s A)))) d =
    (fst (curve2 v0 v1 v2 s) - fst ro) * fst d + (snd (curve2 v0 v1 v2 s) - snd ro) * snd d).
  { intros s. rewrite EQ. unfold pdot, padd, pscale, voc, psub. cbn. ring. }
  assert (ON : forall s, quadratic a b c s = 0 ->
    ray2 ro d (pdot RA (padd RA voc (pscale RA s (padd RA B (pscale RA s A)))) d) = curve2 v0 v1 v2 s).
  { intros s Hs. rewrite QV in Hs. rewrite RV.
    destruct (curve2 v0 v1 v2 s) as [qx qy]. cbn [fst snd] in *.
    pose proof (hit_split d (qx - fst ro, qy - snd ro) 0 U Hs) as E. cbn [fst snd] in E.
    injection E as E1 E2. unfold ray2. rewrite <- E1, <- E2. f_equal; ring. }
  assert (CO : forall r s, ray2 ro d r = curve2 v0 v1 v2 s -> quadratic a b c s = 0 /\
    r = pdot RA (padd RA voc (pscale RA s (padd RA B (pscale RA s A)))) d).
  { intros r s E. rewrite QV, RV, <- E. unfold ray2. cbn [fst snd]. split; [ring|].
    replace ((fst ro + r * fst d - fst ro) * fst d + (snd ro + r * snd d - snd ro) * snd d) with (r * (fst d * fst d + snd d * snd d)) by ring.
    rewrite U. ring. }
  assert (PA : (parallel (fst v1 - fst v0, snd v1 - snd v0) d /\ parallel (fst v2 - fst v0, snd v2 - snd v0) d) <-> (a = 0 /\ b = 0)).
  { unfold parallel, a, b. rewrite EA, EB. cbn [fst snd]. split; intros [P1 P2]; split; lra. }
  rewrite PA. clear PA.
  pose proof (solveQuadratic_roots a b c) as SQ. cbn zeta in SQ. destruct (solveQuadratic a b c) as [s0 s1]. cbn [fst snd] in SQ.
  destruct SQ as (Q1 & Q2 & Q3 & Q4).
  set (R_ := fun s => pdot RA (padd RA voc (pscale RA s (padd RA B (pscale RA s A)))) d) in *.
  set (hit := fun s => if oleb RA 0 s && oleb RA s 1 then let r := R_ s in if oleb RA 0 r then [r] else [] else []).
  assert (H1 : forall r s, In r (hit s) <-> (0 <= s <= 1 /\ r = R_ s /\ 0 <= r)).
  { intros r s. unfold hit. destruct (oleb RA 0 s && oleb RA s 1) eqn:E.
    - apply andb_true_iff in E. rewrite !oleb_R in E. cbn zeta. destruct (oleb RA 0 (R_ s)) eqn:E2.
      + apply oleb_R in E2. cbn. split; [intros [<-|[]]; auto|intros (_ & -> & _); auto].
      + split; [intros []|]. intros (_ & -> & G). apply oleb_R in G. congruence.
    - split; [intros []|]. intros ((G1 & G2) & _). apply oleb_R in G1, G2. rewrite G1, G2 in E. discriminate. }
  assert (H2 : forall s, (length (hit s) <= 1)%nat).
  { intros s. unfold hit. destruct (_ && _); cbn zeta; [destruct (oleb RA 0 (R_ s))|]; cbn; lia. }
  assert (H3 : hit no_root = []).
  { unfold hit. destruct (oleb RA 0 no_root && oleb RA no_root 1) eqn:E; auto. apply andb_true_iff in E. rewrite !oleb_R in E. pose proof no_root_big. lra. }
  change ((length (hit s0 ++ hit s1) <= 2)%nat /\
  (forall r, In r (hit s0 ++ hit s1) -> 0 <= r /\ exists s, 0 <= s <= 1 /\ ray2 ro d r = curve2 v0 v1 v2 s) /\
  (~ (a = 0 /\ b = 0) -> forall r s, 0 <= r -> 0 <= s <= 1 -> ray2 ro d r = curve2 v0 v1 v2 s -> In r (hit s0 ++ hit s1)) /\
  (a = 0 /\ b = 0 -> hit s0 ++ hit s1 = [])).
  assert (SND : forall s, (quadratic a b c s = 0 \/ s = no_root) -> forall r, In r (hit s) -> 0 <= r /\ exists s, 0 <= s <= 1 /\ ray2 ro d r = curve2 v0 v1 v2 s).
  { intros s [Z| ->] r Hr; [|rewrite H3 in Hr; destruct Hr]. apply H1 in Hr. destruct Hr as (S01 & -> & P). split; [exact P|]. exists s. split; [exact S01|]. exact (ON s Z). }
  split. { rewrite app_length. pose proof (H2 s0). pose proof (H2 s1). lia. }
  assert (CASES : (quadratic a b c s0 = 0 \/ s0 = no_root) /\ (quadratic a b c s1 = 0 \/ s1 = no_root) /\
    (~ (a = 0 /\ b = 0) -> forall s, quadratic a b c s = 0 -> s = s0 \/ s = s1) /\ (a = 0 /\ b = 0 -> s0 = no_root /\ s1 = no_root)).
  { destruct (Req_dec a 0) as [Za|Za]; [destruct (Req_dec b 0) as [Zb|Zb]|].
    - specialize (Q4 Za Zb). injection Q4 as -> ->. repeat split; auto. intros X. exfalso. auto.
    - destruct (Q3 Za Zb) as [-> Q]. split; [left; now apply Q|]. split; [auto|]. split; [intros _ s Hs; left; now apply Q|tauto].
    - destruct (Rle_or_lt 0 (b ^ 2 - 4 * a * c)) as [D|D].
      + destruct (Q1 Za D) as (_ & Q & _). split; [left; apply Q; auto|]. split; [left; apply Q; auto|]. split; [intros _ s; apply Q|tauto].
      + destruct (Q2 Za D) as (E & Q). injection E as -> ->. split; [auto|]. split; [auto|]. split; [intros _ s Hs; destruct (Q s Hs)|tauto]. }
  destruct CASES as (C0 & C1 & C2 & C3). split; [|split].
  - intros r Hr. apply in_app_or in Hr. destruct Hr as [Hr|Hr]; [apply (SND s0)|apply (SND s1)]; auto.
  - intros N r s Hr Hs E. destruct (CO r s E) as [Z ->]. apply in_or_app.
    destruct (C2 N s Z) as [-> | ->]; [left|right]; apply H1; auto.
  - intros Z. destruct (C3 Z) as [-> ->]. rewrite H3. reflexivity.
Qed.
Lemma tangent_twice : exists v0 v1 v2 ro d r, fst d * fst d + snd d * snd d = 1 /\ v0 <> v1 /\ qs_intersect v0 v1 v2 ro d = [r; r].
Proof.
  exists (-1, 1), (1, 1), (0, 0), (-5, 0), (1, 0), 5. split; [cbn; lra|]. split; [intros E; injection E; lra|].
  unfold qs_intersect, pqs_poly. rewrite !cross2_R. unfold padd, psub, pscale, pdot, o3, o2. cbn [fst snd Rarith oadd osub omul oopp o1].
  match goal with |- context [solveQuadratic ?a ?b ?c] => replace a with (-4) by lra; replace b with 4 by lra; replace c with (-1) by lra end.
  destruct (solveQuadratic_roots (-4) 4 (-1)) as (Q & _). specialize (Q ltac:(lra) ltac:(lra)). destruct Q as (_ & Q & _).
  destruct (solveQuadratic (-4) 4 (-1)) as [s0 s1]. cbn [fst snd] in Q.
  assert (s0 = /2). { assert (Z : quadratic (-4) 4 (-1) s0 = 0) by (apply Q; auto). unfold quadratic in Z. assert ((2 * s0 - 1) * (2 * s0 - 1) = 0) by lra. apply sq_zero in H. lra. }
  assert (s1 = /2). { assert (Z : quadratic (-4) 4 (-1) s1 = 0) by (apply Q; auto). unfold quadratic in Z. assert ((2 * s1 - 1) * (2 * s1 - 1) = 0) by lra. apply sq_zero in H0. lra. }
  subst s0 s1. assert (E1 : oleb RA 0 (/2) = true) by (apply oleb_R; lra). assert (E2 : oleb RA (/2) 1 = true) by (apply oleb_R; lra).
  rewrite E1, E2. cbn [andb].
  match goal with |- context [oleb RA 0 ?r] => replace r with 5 by lra end.
  assert (E3 : oleb RA 0 5 = true) by (apply oleb_R; lra). rewrite E3. reflexivity.
Qed.
Lemma hits_unsorted : exists v0 v1 v2 ro d r0 r1, fst d * fst d + snd d * snd d = 1 /\ qs_intersect v0 v1 v2 ro d = [r0; r1] /\ r1 < r0.
Proof.
  exists (-1, 1), (1, 1), (0, -1/3), (5, 0), (-1, 0), (11/2), (9/2). split; [cbn; lra|]. split; [|lra].
  unfold qs_intersect, pqs_poly. rewrite !cross2_R. unfold padd, psub, pscale, pdot, o3, o2. cbn [fst snd Rarith oadd osub omul oopp o1].
  match goal with |- context [solveQuadratic ?a ?b ?c] => replace a with (16/3) by lra; replace b with (-16/3) by lra; replace c with 1 by lra end.
  destruct (solveQuadratic_roots (16/3) (-16/3) 1) as (Q & _). specialize (Q ltac:(lra) ltac:(lra)). destruct Q as (Hle & Q & _).
  destruct (solveQuadratic (16/3) (-16/3) 1) as [s0 s1]. cbn [fst snd] in Q, Hle.
  pose proof (proj1 (Q (/4))) as A. pose proof (proj1 (Q (3/4))) as B. unfold quadratic in A, B.
  specialize (A ltac:(field)). specialize (B ltac:(field)).
  assert (s0 = /4 /\ s1 = 3/4) as [-> ->] by lra.
  assert (E1 : oleb RA 0 (/4) = true) by (apply oleb_R; lra). assert (E2 : oleb RA (/4) 1 = true) by (apply oleb_R; lra).
  assert (E1' : oleb RA 0 (3/4) = true) by (apply oleb_R; lra). assert (E2' : oleb RA (3/4) 1 = true) by (apply oleb_R; lra).
  rewrite E1, E2, E1', E2'. cbn [andb].
  match goal with |- (if oleb RA 0 ?r then _ else _) ++ (if oleb RA 0 ?r' then _ else _) = _ => replace r with (11/2) by lra; replace r' with (9/2) by lra end.
  assert (E3 : oleb RA 0 (11/2) = true) by (apply oleb_R; lra). assert (E4 : oleb RA 0 (9/2) = true) by (apply oleb_R; lra). rewrite E3, E4. reflexivity.
Qed.
