(** Examples in doubles. *)
From Coq Require Import List Arith ZArith Reals Lia Lra Bool Floats.SpecFloat.
From Verif Require Import Base Arith Seg_Spec QSeg_Model QSeg_Spec QPoly_Model Soup_Model Fvm_Model Fvm_Spec
  QInt_Model QInt_Spec QInt_Final_Proofs.
Import ListNotations.
Local Open Scope Z_scope.

Definition P (a b c d : Z) := (sf_lit 53 1024 a b, sf_lit 53 1024 c d).
Definition ex_up := (P (-1) 1 1 1, P 1 1 1 1, P 0 1 0 1).
Definition ex_down := (P (-1) 1 0 1, P 1 1 0 1, P 0 1 1 1).
Definition ex_tri := [P 0 1 0 1; P 4 1 0 1; P 0 1 4 1; P 2 1 3 2; P 2 1 2 1; P 0 1 2 1].
Definition ex_vid : nat := 4.
(** inside a large straight triangle, so that the repair does not change the bounding box *)
Definition ex_mesh : mesh spec_float :=
  mkMesh false false (ex_tri ++ [P (-16) 1 (-16) 1; P 16 1 (-16) 1; P 0 1 16 1; P 0 1 (-16) 1; P 8 1 0 1; P (-8) 1 0 1])
    [[0;1;2;3;4;5];[6;7;8;9;10;11]] [] [].

Local Open Scope R_scope.
Lemma sf_val_neg s m p : sf_val (S754_finite s m (Z.neg p)) = (if s then -1 else 1) * IZR (Z.pos m) / IZR (2 ^ Z.pos p).
Proof.
  unfold sf_val, Rdiv. f_equal. cbn [powerRZ]. f_equal. rewrite <- (positive_nat_Z p), <- pow_IZR. reflexivity.
Qed.
Lemma P_val a b c d x y : sf_val (sf_lit 53 1024 a b) = x -> sf_val (sf_lit 53 1024 c d) = y -> pt_val (P a b c d) = (x, y).
Proof. intros <- <-. reflexivity. Qed.
Ltac num := match goal with |- sf_val ?t = _ => let v := eval vm_compute in t in change t with v end;
  first [reflexivity | rewrite sf_val_neg; match goal with |- context [(2 ^ Z.pos ?p)%Z] => let v := eval vm_compute in (2 ^ Z.pos p)%Z in change (2 ^ Z.pos p)%Z with v end; lra].
Lemma seg_P a b c x y z : pt_val a = x -> pt_val b = y -> pt_val c = z -> seg_val (a, b, c) = (x, y, z).
Proof. intros <- <- <-. reflexivity. Qed.
Ltac pts := apply seg_P; apply P_val; num.

Lemma assert_ex : exists q1 q2,
  (exists r1 r2 r3 s1 s2 s3, (0 < r1 < r2 /\ r2 < r3 < 1) /\ (0 <= s1 <= 1 /\ 0 <= s2 <= 1 /\ 0 <= s3 <= 1) /\
    on_curve (seg_val q1) r1 = on_curve (seg_val q2) s1 /\ on_curve (seg_val q1) r2 = on_curve (seg_val q2) s2 /\
    on_curve (seg_val q1) r3 = on_curve (seg_val q2) s3) /\
  intersect F64 eps64 true levels q1 q2 (repeat (o0 F64, o0 F64) 28) 0 = Fail.
Proof.
  exists (P (-2) 1 4 1, P 2 1 4 1, P 0 1 0 1), (P (-1) 1 1 1, P 1 1 1 1, P 1 2 1 4).
  split; [|vm_compute; reflexivity].
  assert (E1 : seg_val (P (-2) 1 4 1, P 2 1 4 1, P 0 1 0 1) = ((-2, 4), (2, 4), (0, 0))) by pts.
  assert (E2 : seg_val (P (-1) 1 1 1, P 1 1 1 1, P 1 2 1 4) = ((-1, 1), (1, 1), (1/2, 1/4))) by pts.
  rewrite E1, E2. exists (1/4), (5/8), (3/4), 0, (1/2), 1. split; [lra|]. split; [lra|].
  unfold on_curve, curve2, lag. cbn [fst snd]. repeat split; f_equal; field.
Qed.
Lemma missed_ex : exists q1 q2 buf,
  (exists r1 r2 s1 s2, 0 < r1 < 1 /\ 0 < r2 < 1 /\ 0 < s1 < 1 /\ 0 < s2 < 1 /\
    on_curve (seg_val q1) r1 = on_curve (seg_val q2) s1 /\ on_curve (seg_val q1) r2 = on_curve (seg_val q2) s2 /\
    dsq (on_curve (seg_val q1) r1) (on_curve (seg_val q1) r2) = 1 / 4096) /\
  intersect F64 eps64 false levels q1 q2 (repeat (o0 F64, o0 F64) 4) 0 = Ret (buf, 1%nat).
Proof.
  exists (P (-3) 8 9 64, P 5 8 25 64, P 1 8 1 64), (P (-3) 8 1 16384, P 5 8 1 16384, P 1 8 1 16384). eexists.
  split; [|vm_compute; reflexivity].
  assert (E1 : seg_val (P (-3) 8 9 64, P 5 8 25 64, P 1 8 1 64) = ((-3/8, 9/64), (5/8, 25/64), (1/8, 1/64))) by pts.
  assert (E2 : seg_val (P (-3) 8 1 16384, P 5 8 1 16384, P 1 8 1 16384) = ((-3/8, 1/16384), (5/8, 1/16384), (1/8, 1/16384))) by pts.
  rewrite E1, E2. exists (3/8 - 1/128), (3/8 + 1/128), (3/8 - 1/128), (3/8 + 1/128).
  split; [lra|]. split; [lra|]. split; [lra|]. split; [lra|].
  unfold on_curve, curve2, lag, dsq. cbn [fst snd]. split; [f_equal; field|]. split; [f_equal; field|]. field.
Qed.
Lemma contact_ex : exists q1 q2,
  on_curve (seg_val q1) 0 = on_curve (seg_val q2) 0 /\
  intersects F64 eps64 levels q1 q2 = false.
Proof.
  exists (P 0 1 0 1, P 1 1 1 1, P 1 2 1 4), (P 0 1 0 1, P 1 1 (-1) 1, P 1 2 (-1) 4). split; [|vm_compute; reflexivity].
  unfold on_curve, seg_val, curve2, lag. f_equal; field.
Qed.
Lemma false_hit_ex : exists q1 q2 buf,
  (forall r s, 19 / 10000000 * (19 / 10000000) <= dsq (on_curve (seg_val q1) r) (on_curve (seg_val q2) s)) /\
  intersect F64 eps64 false levels q1 q2 (repeat (o0 F64, o0 F64) 4) 0 = Ret (buf, 2%nat).
Proof.
  exists (P (-11) 16 121 256, P 2 16 4 256, P (-9) 32 81 1024), (P (-1) 8 (-1) 524288, P 1 1 (-1) 524288, P 7 16 (-1) 524288). eexists.
  split; [|vm_compute; reflexivity].
  assert (E1 : seg_val (P (-11) 16 121 256, P 2 16 4 256, P (-9) 32 81 1024) = ((-11/16, 121/256), (1/8, 1/64), (-9/32, 81/1024))) by pts.
  assert (E2 : seg_val (P (-1) 8 (-1) 524288, P 1 1 (-1) 524288, P 7 16 (-1) 524288) = ((-1/8, -1/524288), (1, -1/524288), (7/16, -1/524288))) by pts.
  rewrite E1, E2. intros r s. unfold dsq.
  assert (Y1 : snd (on_curve ((-11/16, 121/256), (1/8, 1/64), (-9/32, 81/1024)) r) = (-11/16 + 13/16 * r) * (-11/16 + 13/16 * r)).
  { unfold on_curve, curve2, lag. cbn [fst snd]. field. }
  assert (Y2 : snd (on_curve ((-1/8, -1/524288), (1, -1/524288), (7/16, -1/524288)) s) = -1/524288).
  { unfold on_curve, curve2, lag. cbn [fst snd]. field. }
  rewrite Y1, Y2. set (u := -11/16 + 13/16 * r). set (w := fst _ - fst _). clearbody u w.
  pose proof (Rle_0_sqr u) as Hu. pose proof (Rle_0_sqr w) as Hw. unfold Rsqr in Hu, Hw.
  assert (Hy : 19 / 10000000 <= u * u - -1/524288) by lra. set (v := u * u - -1/524288) in *. clearbody v.
  assert (19 / 10000000 * (19 / 10000000) <= v * v) by (apply Rmult_le_compat; lra). lra.
Qed.
Lemma overflow_ex : exists m : mesh spec_float,
  mesh_ok Tri6 m /\ length (fv m) = 1%nat /\
  checkSelfIntersections F64 eps64 false 1 (repeat (o0 F64, o0 F64) 12) m = Ub.
Proof.
  exists (mkMesh false false [P 0 200 0 200; P 160 200 120 200; P 80 200 60 200; P 80 200 60 200; P 120 200 90 200; P 40 200 30 200] [[0;1;2;3;4;5]%Z] [] []).
  split; [|split; [reflexivity|vm_compute; reflexivity]].
  intros c [<-|[]]. split; [reflexivity|]. cbn. intuition lia.
Qed.
(** the quadrilateral (0,0) (1,1) (1,0) (0,1) with straight edges *)
Lemma bowtie eps : 0 < eps ->
  exists p e f buf', edge_of p 4 1 e /\ edge_of p 4 3 f /\ on_curve e (1/2) = on_curve f (1/2) /\
    hasSelfIntersection Rarith eps false p (repeat (0, 0) (slots false)) = Ret (buf', false).
Proof.
  intros He. set (p := [(0, 0); (0, 1); (1, 0); (1, 1); (0, 1/2); (1/2, 1/2); (1, 1/2); (1/2, 1/2)]).
  destruct (self_returns Rarith eps false p 4 (repeat (0, 0) (slots false)) eq_refl (or_intror eq_refl)) as [[[buf' r] E]|[? _]];
    [now rewrite repeat_length| |discriminate].
  exists p, ((0, 1), (1, 0), (1/2, 1/2)), ((1, 1), (0, 0), (1/2, 1/2)), buf'.
  split; [repeat split|]. split; [repeat split|]. split; [unfold on_curve, curve2, lag; cbn; f_equal; lra|].
  replace r with false in E; [exact E|]. symmetry. apply (self_straight eps false p 4 (repeat (0, 0) (slots false)) He eq_refl (or_intror eq_refl)) in E; [auto|].
  intros i [[a b] c] Hi (H1 & H2 & H3). cbn [fst snd] in *.
  destruct i as [|[|[|[|]]]]; [| | | |lia]; cbn in H1, H2, H3; injection H1 as <-; injection H2 as <-; injection H3 as <-; cbn; f_equal; lra.
Qed.
