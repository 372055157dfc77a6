(** What is lost when a model is written to an XDMF file and read back. *)
From Coq Require Import String.
From Coq Require Import List Arith ZArith Lia Bool Reals Lra Sorting.Permutation.
From Verif Require Grid_Proofs.
From Verif Require Import Base Loops Arith Box_Model Box_Proofs StringView_Model StringView_Proofs Logger_Model TextIo_Model TextIo_Spec TextIo_Proofs Elem_Model Seg_Spec
  Soup_Model Soup_Spec Soup_Proofs XSec_Model PinCyl_Model Grid_Model Grid_Spec Fvm_Model Fvm_Spec Manifold_Spec Xdmf_Model Xdmf_Spec Xdmf_Proofs Xdmf_File_Proofs Mpact_Model Mpact_Spec Mpact_Proofs Mpact_Steps_Proofs
  Export_Model Export_Spec Import_Model Import_Spec ModelIo_Model ModelIo_Spec
  ModelIo_Text_Proofs ModelIo_Write_Proofs ModelIo_Read_Proofs ModelIo_Build_Proofs ModelIo_Proofs.
Import ListNotations.
Local Open Scope list_scope.

(** ** Heights are rounded to millionths *)
Lemma millionths_near x : (Rabs (IZR (millionths x) / 1000000 - x) <= 1 / 2000000)%R.
Proof.
  unfold millionths. pose proof (Grid_Proofs.Int_part_spec (x * 1000000)) as (A & B). unfold frac_part. set (n := Int_part (x * 1000000)) in *.
  destruct (Rltb (x * 1000000 - IZR n) (1 / 2)) eqn:E1; [apply Rltb_true in E1|apply Rltb_false in E1; destruct (Rltb (1 / 2) (x * 1000000 - IZR n)) eqn:E2; [apply Rltb_true in E2|apply Rltb_false in E2; destruct (Z.even n)]];
    rewrite ?plus_IZR; unfold Rabs; destruct Rcase_abs; lra.
Qed.
Lemma print_near x : (Rabs x <= 100000000000000)%R -> exists t y, print_float x = Ret t /\ strtod (t ++ [0%Z]) = Ret y /\ (Rabs (y - x) <= 1 / 2000000)%R.
Proof.
  intros Hb. destruct (print_shape x Hb) as (q & B & Eq & Q & E). pose proof (millionths_near (Rabs x)) as Nr. set (a := millionths (Rabs x)) in *. subst q.
  pose proof (decimal_dec (a / 1000000) ltac:(lia)) as D. pose proof (Z.mod_pos_bound a 1000000 ltac:(lia)) as M. destruct (six_dec _ M) as (D6 & L6).
  assert (V : (IZR a / 1000000 = IZR (a / 1000000) + IZR (a mod 1000000) / 10 ^ length (six_digits (a mod 1000000)))%R).
  { rewrite L6. rewrite (Z.div_mod a 1000000) at 1 by lia. rewrite plus_IZR, mult_IZR. cbn [pow]. field. }
  assert (Mt : mantissa (decimal (a / 1000000) ++ [DOT] ++ six_digits (a mod 1000000)) (IZR a / 1000000)) by (rewrite V; exact (m_frac _ _ _ _ D D6)).
  assert (St : stops [0%Z]) by (eexists _, _; split; [reflexivity|]; auto).
  destruct (Rltb x 0) eqn:S.
  - apply Rltb_true in S. pose proof (rt_minus _ _ [] 0%Z Mt ex_none) as T. rewrite app_nil_r in T. cbn [powerRZ] in T. eexists _, _. split; [exact E|].
    split; [exact (strtod_text 0 _ _ [0%Z] T St)|]. rewrite (Rabs_left x S) in Nr. revert Nr. unfold Rabs. repeat destruct Rcase_abs; lra.
  - apply Rltb_false in S. pose proof (rt_none _ _ [] 0%Z Mt ex_none) as T. rewrite app_nil_r in T. cbn [powerRZ] in T. eexists _, _. split; [exact E|].
    split; [exact (strtod_text 0 _ _ [0%Z] T St)|]. rewrite (Rabs_right x) in Nr by lra. revert Nr. unfold Rabs. repeat destruct Rcase_abs; lra.
Qed.
(** a third is read back as 0.333333 *)
Lemma print_third : exists t, print_float (1 / 3) = Ret t /\ strtod (t ++ [0%Z]) = Ret (333333 / 1000000)%R.
Proof.
  assert (A : Rabs (1 / 3) = (1 / 3)%R) by (apply Rabs_right; lra).
  assert (Ei : Int_part (1 / 3 * 1000000) = 333333%Z) by (apply Grid_Proofs.Int_part_unique; lra).
  assert (Em : millionths (1 / 3) = 333333%Z).
  { unfold millionths, frac_part. rewrite Ei. destruct (Rltb (1 / 3 * 1000000 - 333333) (1 / 2)) eqn:E; [reflexivity|]. apply Rltb_false in E. lra. }
  assert (Hs : six_decimals (333333 / 1000000)) by (exists 333333%Z; split; [reflexivity|lia]). destruct (print_exact _ Hs) as (t & E & _ & _ & T). exists t. split.
  - rewrite <- E. unfold print_float. rewrite A, Em. rewrite (Rabs_right (333333 / 1000000)) by lra. rewrite (millionths_Z 333333).
    assert (X1 : Rltb (1 / 3) 0 = false) by (apply Rltb_false; lra). assert (X2 : Rltb (333333 / 1000000) 0 = false) by (apply Rltb_false; lra). now rewrite X1, X2.
  - apply (strtod_text 0 t _ [0%Z] T). eexists _, _; split; [reflexivity|]; auto.
Qed.

(** ** Names of materials *)
Lemma comma_name : exists ms m', length ms = 1%nat /\ read_materials (length (join_names ms)) (join_names ms) empty_model = Ret m' /\ length (materials m') = 2%nat.
Proof. exists [mkMaterial "a,b" true]. eexists. split; [reflexivity|]. split; [vm_compute; reflexivity|reflexivity]. Qed.
Lemma comma_only fuel : read_names fuel (view (join_names [mkMaterial "," true])) = OutOfFuel.
Proof.
  change (join_names [mkMaterial "," true]) with [44%Z]. induction fuel as [|fuel IH]; [reflexivity|]. cbn [read_names].
  change (find_first_of (view [44%Z]) COMMA 0) with (Ret (Some O)). cbn [bind].
  change (getTokenAndShrink (view [44%Z]) COMMA) with (Ret ({| tail := []; StringView_Model.vsize := 0 |}, view [44%Z])). cbn [bind].
  change (removeLeadingSpaces {| tail := []; StringView_Model.vsize := 0 |}) with (Ret {| tail := []; StringView_Model.vsize := 0 |}). cbn [bind]. now rewrite IH.
Qed.

(** ** Where a mesh stands does not matter if its edges are straight *)
Lemma place_corners o v c p : map Some p = corners v c -> map Some (map (fun q => (fst q + fst o, snd q + snd o)%R) p) = corners (map (fun q => (fst q + fst o, snd q + snd o)%R) v) c.
Proof.
  revert p. induction c as [|i c IH]; intros [|q p] H; try discriminate; [reflexivity|]. cbn [corners map] in *. injection H as H1 H2. rewrite nth_error_map, <- H1. cbn [option_map]. f_equal. now apply IH.
Qed.
Lemma orient_place a b c o : orient (fst a + fst o, snd a + snd o)%R (fst b + fst o, snd b + snd o)%R (fst c + fst o, snd c + snd o)%R = orient a b c.
Proof. unfold orient. cbn [fst snd]. ring. Qed.
Lemma turn_place k o p : quadratic k = false -> anticlockwise k (map (fun q => (fst q + fst o, snd q + snd o)%R) p) <-> anticlockwise k p.
Proof.
  intros Hk. destruct k; try discriminate; repeat (destruct p as [|? p]; cbn [map anticlockwise]; try tauto); now rewrite ?orient_place.
Qed.
Lemma place_free selfcheck k x : quadratic k = false -> validation selfcheck k (at_place (0, 0)%R x) (at_place (0, 0)%R x) -> forall o, validation selfcheck k (at_place o x) (at_place o x).
Proof.
  intros Hk (fs & L & F & W & E) o. unfold validation in *. rewrite Hk in *. unfold at_place in *. cbn [fv mv is_morton has_vf vf_offs vf] in *. injection E as E. 
  exists fs. split; [exact L|]. split; [|split; [exact W|now rewrite E]].
  intros i c Hi. destruct (F i c Hi) as (p & Hp & A).
  assert (E0 : map (fun q : R * R => (fst q + fst (0, 0), snd q + snd (0, 0))%R) (mv x) = mv x).
  { cbn [fst snd]. rewrite <- (map_id (mv x)) at 2. apply map_ext. intros (a, b). cbn. f_equal; ring. }
  rewrite E0 in Hp. exists (map (fun q => (fst q + fst o, snd q + snd o)%R) p). split; [now apply place_corners|]. rewrite turn_place by auto. exact A.
Qed.

(** ** There are never more lattices than assemblies after reading *)
Lemma foreach_inv {A S : Type} (P : S -> Prop) (g : A -> S -> outcome S) : (forall x s s', P s -> g x s = Ret s' -> P s') ->
  forall l s s', P s -> foreach l g s = Ret s' -> P s'.
Proof. intros H l. induction l as [|x l IH]; intros s s' Hs E; cbn [foreach] in E; [now injection E as <-|]. apply bind_Ret in E. destruct E as (s1 & E1 & E2). eauto. Qed.
Lemma assert_inv {A} c b (o : outcome A) x : Mpact_Model.assert c b o = Ret x -> o = Ret x.
Proof. unfold Mpact_Model.assert. destruct (c && negb b); [discriminate|auto]. Qed.
Ltac step E := first [apply assert_inv in E | apply bind_Ret in E; let a := fresh "a" in let Ea := fresh "E" in destruct E as (a & Ea & E)].

Section Any.
Variable stdsort : forall A : Type, (A -> A -> bool) -> list A -> list A.
Variable selfcheck : mesh R -> outcome (mesh R).
Variable junk : R * R.
Variables (checks : bool) (fsize : Z) (f : h5) (file : list Z).

(** what has been read of the lattices and assemblies, and the model so far *)
Definition upper (s : rstate) := (r_asy s, r_lat s, r_lat_rtms s).
Definition grown (m m' : model) : Prop := inv checks m' /\ extends m m' /\ lattices m' = lattices m /\ assemblies m' = assemblies m.
Definition well (m : model) (s : rstate) : Prop := incl (r_lat s) (r_asy s) /\ length (r_lat_rtms s) = length (r_lat s) /\ grown m (r_model s).
Lemma grown_refl m : inv checks m -> grown m m.
Proof. split; auto using extends_refl. Qed.
Lemma grown_step m m1 at_origin o m2 r : grown m m1 -> step stdsort selfcheck at_origin checks true m1 o = Ret (m2, r) -> o <> Clear ->
  lattices m2 = lattices m1 -> assemblies m2 = assemblies m1 -> grown m m2.
Proof.
  intros (H1 & H2 & H3 & H4) E No E1 E2. split; [|split; [|split; congruence]].
  - exact (proj1 (step_keeps _ _ _ _ _ _ _ _ _ H1 No E)).
  - eapply extends_trans; [exact H2|]. exact (proj2 (step_keeps _ _ _ _ _ _ _ _ _ H1 No E)).
Qed.
Lemma grown_mesh m m1 k x r : grown m m1 -> add_mesh checks m1 k x = Ret r -> grown m (fst r).
Proof.
  intros G E. destruct r as (m2, r). cbn [fst]. assert (X : lattices m2 = lattices m1 /\ assemblies m2 = assemblies m1).
  { destruct k; cbn [add_mesh] in E; apply assert_inv in E; injection E as <- <-; auto. }
  destruct X as (X1 & X2). destruct k; cbn [add_mesh] in E.
  - apply (grown_step m m1 (starts_at_origin Tri) (AddTriMesh x) m2 r); auto; discriminate.
  - apply (grown_step m m1 (starts_at_origin Quad) (AddQuadMesh x) m2 r); auto; discriminate.
  - apply (grown_step m m1 (starts_at_origin Tri6) (AddTri6Mesh x) m2 r); auto; discriminate.
  - apply (grown_step m m1 (starts_at_origin Quad8) (AddQuad8Mesh x) m2 r); auto; discriminate.
Qed.
Definition kept (m : model) (s s' : rstate) : Prop := grown m (r_model s') /\ upper s' = upper s.
Lemma cell_kept m nx ny x st st' : grown m (r_model (snd st)) -> read_cell stdsort selfcheck junk checks fsize f file nx ny x st = Ret st' -> kept m (snd st) (snd st').
Proof.
  destruct st as ((rows, n), s). cbn [snd]. intros W E. unfold read_cell in E. do 2 step E. destruct (existsb _ _).
  - injection E as <-. split; auto.
  - do 2 step E. destruct (kind_of _) as [k|]; [|discriminate]. do 8 step E. injection E as <-. cbn [snd]. split; [|reflexivity].
    cbn [put_new_cell r_model]. eapply grown_mesh; eauto.
Qed.
Lemma kept_all {B : Type} m (g : xml -> B * rstate -> outcome (B * rstate)) l st st' :
  (forall x st st', grown m (r_model (snd st)) -> g x st = Ret st' -> kept m (snd st) (snd st')) ->
  grown m (r_model (snd st)) -> foreach l g st = Ret st' -> kept m (snd st) (snd st').
Proof.
  intros H G E. eapply (foreach_inv (fun u => kept m (snd st) (snd u))); [| |exact E]; [|split; auto].
  intros x u u' (Q1 & Q2) Eg. destruct (H x u u' Q1 Eg) as (R1 & R2). split; [auto|congruence].
Qed.
Lemma rtm_kept m nx ny x st st' : grown m (r_model (snd st)) -> read_rtm stdsort selfcheck junk checks fsize f file nx ny x st = Ret st' -> kept m (snd st) (snd st').
Proof.
  destruct st as ((rows, n), s). cbn [snd]. intros W E. unfold read_rtm in E. do 2 step E. destruct (existsb _ _).
  - injection E as <-. split; auto.
  - do 4 step E. injection E as <-. cbn [snd]. apply (kept_all m) in E4; [exact E4| |exact W]. intros y u u'. apply cell_kept.
Qed.
Lemma lat_well m asy x st st' : well m (snd st) -> In asy (r_asy (snd st)) -> read_lattice stdsort selfcheck junk checks fsize f file asy x st = Ret st' ->
  well m (snd st') /\ r_asy (snd st') = r_asy (snd st).
Proof.
  destruct st as (((lats, zs), n), s). cbn [snd]. intros (W1 & W2 & W3) Ha E. unfold read_lattice in E. step E. step E. step E. step E. step E. destruct (existsb _ _).
  - injection E as <-. split; [split; [|split]|]; auto.
  - do 6 step E. injection E as <-. cbn [snd].
    match goal with H : foreach _ _ _ = Ret _ |- _ => apply (kept_all m) in H; [destruct H as (G & U)|intros y u u'; apply rtm_kept|exact W3] end.
    cbn [snd] in U. unfold upper in U. cbn [new_lat r_asy r_lat r_lat_rtms] in U. injection U as U1 U2 U3.
    split; [|cbn [put_lat r_asy]; congruence]. split; [|split; [|exact G]]; cbn [put_lat r_asy r_lat r_lat_rtms]; rewrite U2, ?U1, ?U3.
    + intros i Hi. apply in_app_or in Hi. destruct Hi as [Hi|[<-|[]]]; auto.
    + rewrite !app_length. cbn [length]. lia.
Qed.
Lemma asy_well m nx ny x st st' : well m (snd st) -> read_assembly stdsort selfcheck junk checks fsize f file nx ny x st = Ret st' -> well m (snd st').
Proof.
  destruct st as ((rows, n), s). cbn [snd]. intros (W1 & W2 & W3) E. unfold read_assembly in E. do 2 step E. destruct (existsb _ _).
  - injection E as <-. split; auto.
  - step E. step E. step E. step E. step E. 
    match goal with H : foreach _ _ _ = Ret ?r |- _ => assert (X : well m (snd r) /\ r_asy (snd r) = r_asy s ++ [a]) end.
    { eapply (foreach_inv (fun u => well m (snd u) /\ r_asy (snd u) = r_asy s ++ [a])); [| |eassumption].
      - intros y u u' (Q1 & Q2) El. destruct (lat_well m a y u u' Q1) as (R1 & R2); auto; [rewrite Q2; apply in_or_app; right; now left|]. split; [auto|congruence].
      - cbn [snd new_asy]. split; [|reflexivity]. split; [|split; auto]. cbn [r_lat r_asy]. intros i Hi. apply in_or_app. auto. }
    destruct a4 as (((lats, zs), ?), s2). injection E as <-. cbn [snd] in *. destruct X as (X & _). exact X.
Qed.
Lemma for_Ret {S : Type} (P : nat -> S -> Prop) g : forall n i s s', P i s -> (forall j s s', (i <= j < i + n)%nat -> P j s -> g j s = Ret s' -> P (Datatypes.S j) s') -> for_ n i g s = Ret s' -> P (i + n)%nat s'.
Proof.
  induction n as [|n IH]; intros i s s' H0 H E; cbn [for_] in E; [injection E as <-; now rewrite Nat.add_0_r|]. apply bind_Ret in E. destruct E as (s1 & E1 & E2).
  replace (i + Datatypes.S n)%nat with (Datatypes.S i + n)%nat by lia. apply (IH _ s1); auto; [apply (H i s); auto; lia|]. intros j u u' Hj. apply H. lia.
Qed.
Lemma index_in ids i j : index_of checks ids i = Ret j -> j = find_id ids (Z.of_nat i) /\ ((j < length ids)%nat -> In (Z.of_nat i) ids).
Proof.
  intros E. unfold index_of in E. apply assert_inv in E. injection E as <-. split; auto. generalize (Z.of_nat i). intros z. induction ids as [|v ids IH]; [cbn; lia|].
  cbn [find_id length]. destruct (Z.eqb_spec v z) as [->|]; [now left|]. intros H. right. apply IH. lia.
Qed.
Definition built (m : model) (nl na : nat) (m' : model) : Prop :=
  inv checks m' /\ extends m m' /\ length (lattices m') = (length (lattices m) + nl)%nat /\ length (assemblies m') = (length (assemblies m) + na)%nat.
Lemma built_step m nl na m1 o m2 r nl' na' : built m nl na m1 -> step stdsort selfcheck (fun _ => true) checks true m1 o = Ret (m2, r) -> o <> Clear ->
  length (lattices m2) = (length (lattices m) + nl')%nat -> length (assemblies m2) = (length (assemblies m) + na')%nat -> built m nl' na' m2.
Proof.
  intros (H1 & H2 & H3 & H4) E No E1 E2. split; [|split; [|split; auto]].
  - exact (proj1 (step_keeps _ _ _ _ _ _ _ _ _ H1 No E)).
  - eapply extends_trans; [exact H2|]. exact (proj2 (step_keeps _ _ _ _ _ _ _ _ _ H1 No E)).
Qed.
Lemma build_bound m rows s m' : well m s -> build checks rows s = Ret m' ->
  inv checks m' /\ extends m m' /\ (length (lattices m') + length (assemblies m) <= length (assemblies m') + length (lattices m))%nat.
Proof.
  intros (W1 & W2 & (G1 & G2 & G3 & G4)) E. unfold build in E.
  apply bind_Ret in E. destruct E as (m1 & E1 & E). apply bind_Ret in E. destruct E as (m2 & E2 & E). apply bind_Ret in E. destruct E as (m3 & E3 & E). apply bind_Ret in E. destruct E as (m4 & E4 & E).
  assert (B0 : built m 0 0 (r_model s)) by (split; [|split; [|split]]; auto; rewrite ?G3, ?G4; lia).
  assert (B1 : built m 0 0 m1).
  { eapply (for_Ret (fun _ => built m 0 0)) in E1; [exact E1|exact B0|]. intros j u u' _ B Ej. do 4 step Ej. step Ej. injection Ej as <-. match goal with H : addCoarseCell _ _ _ _ _ _  = Ret _ |- _ => rename H into Ea end. destruct a3 as (u2, r). cbn [fst].
    pose proof B as (_ & _ & B3 & B4). destruct (addCoarseCell_inv _ _ _ _ _ _ _ _ Ea) as [(? & _)|(_ & Eu & _)]; [discriminate|].
    apply (built_step m 0 0 u (AddCoarseCell _ _ _ _) u2 r 0 0 B Ea); [discriminate|now subst u2..]. }
  assert (B2 : built m 0 0 m2).
  { eapply (for_Ret (fun _ => built m 0 0)) in E2; [exact E2|exact B1|]. intros j u u' _ B Ej. do 2 step Ej. step Ej. injection Ej as <-. match goal with H : addRTM _ _ _ _  = Ret _ |- _ => rename H into Ea end. destruct a1 as (u2, r). cbn [fst].
    pose proof B as ((_ & B0') & _ & B3 & B4). destruct (addRTM_inv _ _ _ _ _ _ B0' Ea) as [(? & _)|(p & _ & Eu & _)]; [discriminate|].
    apply (built_step m 0 0 u (AddRTM _) u2 r 0 0 B Ea); [discriminate|now subst u2..]. }
  assert (B3 : built m (length (r_lat s)) 0 m3 /\ forall i, (i < length (r_lat s))%nat -> In (Z.of_nat i) (r_lat s)).
  { eapply (for_Ret (fun k u => built m k 0 u /\ forall i, (i < k)%nat -> In (Z.of_nat i) (r_lat s))) in E3; [exact E3| |].
    - split; [exact B2|]. lia.
    - intros j u u' _ (B & Bi) Ej. step Ej. step Ej. step Ej. injection Ej as <-. match goal with H : addLattice _ _ _ _  = Ret _ |- _ => rename H into Ea end. destruct a1 as (u2, r). cbn [fst].
      pose proof B as ((_ & B0') & _ & B3 & B4). destruct (addLattice_inv _ _ _ _ _ _ B0' Ea) as [(? & _)|(p & nr & nc & _ & Eu & _)]; [discriminate|]. split.
      + apply (built_step m j 0 u (AddLattice _) u2 r (Datatypes.S j) 0 B Ea); [discriminate|subst u2; cbn [push_lattice lattices assemblies]; rewrite ?app_length; cbn [length]; lia..].
      + intros i Hi. destruct (Nat.eq_dec i j) as [->|]; [|apply Bi; lia]. apply (proj2 (index_in _ _ _ E0)). apply rd_Ret in E5. apply (f_equal (fun o => match o with Some _ => true | None => false end)) in E5.
        destruct (nth_error (r_lat_rtms s) a) eqn:En; [|discriminate]. rewrite <- W2. apply nth_error_Some. congruence. }
  destruct B3 as (B3 & Bi).
  assert (B4 : built m (length (r_lat s)) (length (r_asy s)) m4).
  { eapply (for_Ret (fun k u => built m (length (r_lat s)) k u)) in E4; [exact E4|exact B3|].
    intros j u u' _ B Ej. step Ej. step Ej. step Ej. step Ej. injection Ej as <-. match goal with H : addAssembly _ _ _ _ _  = Ret _ |- _ => rename H into Ea end. destruct a2 as (u2, r). cbn [fst].
    pose proof B as ((B0'' & B0') & _ & B5 & B6). destruct (addAssembly_inv _ _ _ _ _ _ _ B0'' B0' Ea) as [(? & _)|(_ & Eu & _)]; [discriminate|].
    apply (built_step m (length (r_lat s)) j u (AddAssembly _ _) u2 r (length (r_lat s)) (Datatypes.S j) B Ea); [discriminate|subst u2; cbn [push_assembly lattices assemblies]; rewrite ?app_length; cbn [length]; lia..]. }
  step E. injection E as <-. destruct a as (m5, r). cbn [fst]. pose proof B4 as (_ & _ & B5 & B6).
  destruct (addCore_inv _ _ _ _ _ _ E0) as [(? & _)|(c & _ & _ & Eu & _)]; [discriminate|].
  assert (B7 : built m (length (r_lat s)) (length (r_asy s)) m5) by (apply (built_step m _ _ m4 (AddCore rows) m5 r _ _ B4 E0); [discriminate|now subst m5..]).
  destruct B7 as (R1 & R2 & R3 & R4). split; [exact R1|]. split; [exact R2|]. rewrite R3, R4.
  assert (L : (length (r_lat s) <= length (r_asy s))%nat); [|lia].
  transitivity (length (map Z.of_nat (seq 0 (length (r_lat s))))); [now rewrite map_length, seq_length|]. apply NoDup_incl_length.
  - apply FinFun.Injective_map_NoDup; [intros x y; lia|apply seq_NoDup].
  - intros z Hz. apply in_map_iff in Hz. destruct Hz as (i & <- & Hi). apply in_seq in Hi. apply W1, Bi. lia.
Qed.
Lemma materials_grown fuel t m m' : inv checks m -> read_materials fuel t m = Ret m' -> grown m m'.
Proof.
  intros Hi E. unfold read_materials in E. step E. eapply (foreach_inv (grown m)); [|now apply grown_refl|exact E].
  intros x u u' G Eu. step Eu. injection Eu as <-. destruct a0 as (u2, r). cbn [fst]. apply (grown_step m u (fun _ => true) (AddMaterial (mkMaterial (string_of x) false) false) u2 r G E1); [discriminate|..];
    unfold addMaterial in E1; cbn [andb negb bind] in E1; injection E1 as <- _; reflexivity.
Qed.
Lemma doc_bound doc m m' : ids_valid m -> consistent checks m -> read_doc stdsort selfcheck junk checks fsize f file doc m = Ret m' ->
  inv checks m' /\ extends m m' /\ (length (lattices m') + length (assemblies m) <= length (assemblies m') + length (lattices m))%nat.
Proof.
  intros H1 H2 E. unfold read_doc in E. do 4 step E. step E. do 3 step E. step E. step E. step E.
  match goal with H : read_materials _ _ _ = Ret ?u |- _ => rename u into m1; apply materials_grown in H; [destruct H as (G1 & G2 & G3 & G4)|now split] end.
  match goal with H : foreach _ _ _ = Ret ?r |- _ => assert (W : well m1 (snd r)) end.
  { eapply (foreach_inv (fun u => well m1 (snd u))); [| |eassumption].
    - intros y u u'. apply asy_well.
    - split; [intros i []|]. split; [reflexivity|]. now apply grown_refl. }
  destruct (build_bound _ _ _ _ W E) as (R1 & R2 & R3). split; [exact R1|]. split; [eapply extends_trans; eassumption|]. rewrite G3, G4 in R3. exact R3.
Qed.
End Any.
Theorem any_file stdsort selfcheck junk checks fsize path d m m' : ids_valid m -> consistent checks m ->
  read stdsort selfcheck junk checks fsize path d m = Ret m' ->
  (ids_valid m' /\ consistent checks m') /\ extends m m' /\ (length (lattices m') + length (assemblies m) <= length (assemblies m') + length (lattices m))%nat.
Proof.
  intros H1 H2 E. unfold read in E. step E. destruct a; [|discriminate]. unfold readXDMF in E. step E. destruct a as (h5, full). destruct (h5files d full) as [f|]; [|discriminate].
  destruct (xmlfiles d path) as [doc|]; [|discriminate]. exact (doc_bound _ _ _ _ _ _ _ _ _ _ H1 H2 E).
Qed.
Theorem lattices_lost stdsort selfcheck fsize knudsen xsdata m xsecs path h d :
  sort_contract stdsort -> fsize = 4%Z \/ fsize = 8%Z -> can_be_written selfcheck m -> xsecs_storable m knudsen xsdata xsecs -> xdmf_path path h ->
  (length (assemblies m) < length (lattices m))%nat ->
  exists d', write stdsort fsize knudsen xsdata m xsecs path d = Ret d' /\
    forall junk checks m', read stdsort selfcheck junk checks fsize path d' empty_model = Ret m' -> ~ same_model m m'.
Proof.
  intros Hsort Hsize Hst Hx Hp L. destruct (h5names_base fsize Hsize path h Hp) as (base & (Nb & Nb1 & Nb2) & Enm).
  unfold write. rewrite (path_xdmf _ _ Hp). cbn [bind]. unfold writeXDMF. rewrite Enm. cbn [bind].
  rewrite app_length. change (length (txt ".h5")) with 3%nat. rewrite Nat.add_sub, substr_app0. cbn [bind].
  destruct (write_core_ok stdsort true fsize knudsen xsdata selfcheck m xsecs (base ++ txt ".h5") base Hsort Hsize Hst Hx Nb Nb1 Nb2) as (nx & ny & nodes & f & Ew & _).
  rewrite Ew. cbn [bind fst snd]. eexists. split; [reflexivity|]. intros junk checks m' Er (_ & Ea & El & _).
  destruct (any_file _ _ _ _ _ _ _ _ _ (proj1 (inv_empty checks)) (proj2 (inv_empty checks)) Er) as (_ & _ & B). rewrite Ea, El in B. cbn in B. lia.
Qed.
