(** The spectral radius does not depend on what the working matrices held before. *)
From Coq Require Import Reals.
From Coquelicot Require Import Complex.
From Coq Require Import List Arith ZArith Lia Lra.
From Verif Require Import Base Loops Arith Matrix_Model Matrix_Spec Matrix_Proofs Cmfd_Model Cmfd_Spec Cmfd_Proofs Cmfd_Ana_Proofs Cmfd_Loop_Proofs Cmfd_Flat_Proofs.
Import ListNotations.

Lemma for_rel {A B} (Rel : A -> B -> Prop) f g n : forall i x y, Rel x y ->
  (forall k x y, Rel x y -> exists x' y', f k x = Ret x' /\ g k y = Ret y' /\ Rel x' y') ->
  exists x' y', for_ n i f x = Ret x' /\ for_ n i g y = Ret y' /\ Rel x' y'.
Proof.
  induction n as [|n IH]; intros i x y H Hs; [exists x, y; auto|].
  destruct (Hs i x y H) as (x' & y' & E1 & E2 & H'). cbn [for_]. rewrite E1, E2. cbn [bind]. exact (IH (S i) x' y' H' Hs).
Qed.
Definition usable (q : params) (omega : cmat) (s : work) : Prop :=
  sized (pp q) omega /\ sized (pp q) (wU s) /\ sized (pp q) (wA s) /\ sized (pp q) (wB s) /\ sized (pp q) (wI s).
Lemma ones_is p J : sized p J -> is_mat Carith (mkM (rows J) (cols J) (map (fun _ : C => RtoC 1) (data J))) p p (fun _ _ => RtoC 1).
Proof.
  intros ((L & B) & R & C). split; [split; cbn; [now rewrite map_length|auto]|].
  split; [auto|]. split; [auto|]. intros i j Hi Hj. unfold ent. cbn [data rows Carith o0].
  rewrite (nth_indep _ (RtoC 0) (RtoC 1)) by (rewrite map_length, L, R, C; apply index_bound; auto).
  exact (map_nth (fun _ : Complex.C => RtoC 1) (data J) (RtoC 0) _).
Qed.
Lemma cleared q omega s : usable q omega s -> work_ok q (mkW (wU s) (zero Carith (wA s)) (zero Carith (wB s)) (wI s)).
Proof.
  intros (Ho & HU & HA & HB & HI). split; [exact HU|]. cbn [wU wA wB wI]. split; [eapply sized_of; apply sized_zero; exact HB|]. split; [exact HI|].
  pose proof (sized_zero _ _ HA) as Hz. split; [eapply sized_of; exact Hz|].
  intros i j Hi Hj _ _ _. destruct Hz as (_ & _ & _ & Hz). now apply Hz.
Qed.
Lemma largest_from l : forall r a, fst (largest l r a) = r \/ In (fst (largest l r a)) l.
Proof.
  induction l as [|e l IH]; intros r a; [now left|]. cbn [largest]. destruct (Rltb a (Cmod e)).
  - right. destruct (IH e (Cmod e)) as [->|H]; [now left|now right].
  - destruct (IH r a) as [->|H]; [now left|right; now right].
Qed.
Lemma radius_again solve eigvals (P : C -> Prop) q o1 J1 s1 o2 J2 s2 : solver solve -> cell_ok q -> P (RtoC 0) ->
  (forall a f, is_mat Carith a (pp q) (pp q) f -> exists l, eigvals a = Ret l /\ Forall P l) ->
  usable q o1 s1 -> usable q o2 s2 -> sized (pp q) J1 -> sized (pp q) J2 ->
  exists o1' s1' o2' s2' r a, radius_run solve eigvals q o1 J1 s1 = Ret (o1', s1', (r, a)) /\ radius_run solve eigvals q o2 J2 s2 = Ret (o2', s2', (r, a)) /\
    P r /\ usable q o1' s1' /\ usable q o2' s2'.
Proof.
  intros Hsol Hq P0 Heig U1 U2 HJ1 HJ2. unfold radius_run. cbv zeta.
  pose proof (ones_is _ _ HJ1) as K1. pose proof (ones_is _ _ HJ2) as K2. 
  assert (EJ := is_mat_unique Carith _ _ _ _ _ K2 K1). rewrite EJ.
  set (J := mkM (rows J1) (cols J1) _) in *. set (da := (PI / delta q / (256 - 1))%R).
  destruct (for_rel (fun (x y : cmat * work * (C * R)) => let '(o, s, (r, a)) := x in let '(o', s', (r', a')) := y in
      sized (pp q) o /\ work_ok q s /\ sized (pp q) o' /\ work_ok q s' /\ r' = r /\ a' = a /\ P r)
    (sample solve eigvals q J da) (sample solve eigvals q J da) 256 0
    (o1, mkW (wU s1) (zero Carith (wA s1)) (zero Carith (wB s1)) (wI s1), (RtoC 0, 0%R))
    (o2, mkW (wU s2) (zero Carith (wA s2)) (zero Carith (wB s2)) (wI s2), (RtoC 0, 0%R))) as (x & y & -> & -> & H).
  - split; [exact (proj1 U1)|]. split; [exact (cleared _ _ _ U1)|]. split; [exact (proj1 U2)|]. split; [exact (cleared _ _ _ U2)|]. auto.
  - intros k ((p1, t1), (r, a)) ((p2, t2), (r', a')) (A1 & A2 & A3 & A4 & -> & -> & Pr). unfold sample.
    destruct (set_omega_ok solve Hsol p1 J q (INR k * da) t1 Hq A2 A1 K1) as (m1 & u1 & w1 & -> & W1 & M1 & D1).
    destruct (set_omega_ok solve Hsol p2 J q (INR k * da) t2 Hq A4 A3 K1) as (m2 & u2 & w2 & -> & W2 & M2 & D2).
    cbn [bind].
    assert (E : m2 = m1).
    { apply (is_mat_unique Carith m2 m1 (pp q) (pp q) w1); [|exact M1]. eapply is_mat_ext; [exact M2|]. intros i j Hi Hj.
      exact (amplification_unique q _ w2 w1 Hq D2 D1 i j Hi Hj). }
    rewrite E. destruct (Heig m1 w1 M1) as (l & -> & Hl). cbn [bind].
    eexists _, _. split; [reflexivity|]. split; [reflexivity|].
    pose proof (largest_from l r a) as Hf. destruct (largest l r a) as (r2, a2). cbn [fst] in Hf.
    split; [exact (sized_of _ _ _ M1)|]. split; [exact W1|]. split; [exact (sized_of _ _ _ M1)|]. split; [exact W2|]. split; [auto|]. split; [auto|].
    destruct Hf as [->|Hf]; [exact Pr|]. rewrite Forall_forall in Hl. now apply Hl.
  - destruct x as ((p1, t1), (r, a)), y as ((p2, t2), (r', a')). destruct H as (A1 & A2 & A3 & A4 & -> & -> & Pr).
    exists p1, t1, p2, t2, r, a. split; [reflexivity|]. split; [reflexivity|]. split; [exact Pr|].
    destruct A2 as (B1 & B2 & B3 & B4 & _), A4 as (C1 & C2 & C3 & C4 & _). unfold usable. auto 10.
Qed.
Lemma spectral_again solve eigvals q o1 J1 s1 o2 J2 s2 : solver solve -> cell_ok q ->
  (forall a f, is_mat Carith a (pp q) (pp q) f -> exists l, eigvals a = Ret l) ->
  usable q o1 s1 -> usable q o2 s2 -> sized (pp q) J1 -> sized (pp q) J2 ->
  exists r, spectral_radius solve eigvals q o1 J1 s1 = Ret r /\ spectral_radius solve eigvals q o2 J2 s2 = Ret r.
Proof.
  intros Hsol Hq Heig U1 U2 HJ1 HJ2.
  destruct (radius_again solve eigvals (fun _ => True) q o1 J1 s1 o2 J2 s2 Hsol Hq Logic.I) as (p1 & t1 & p2 & t2 & r & a & E1 & E2 & _); auto.
  - intros m f Hm. destruct (Heig m f Hm) as (l & El). exists l. split; [exact El|]. apply Forall_forall. auto.
  - exists r. unfold spectral_radius. now rewrite E1, E2.
Qed.
