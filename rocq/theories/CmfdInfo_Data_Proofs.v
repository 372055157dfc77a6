(** The data of the file with the CMFD data: values of the cells and sets of rectangles. *)
From Coq Require Import String.
From Coq Require Import Reals.
From Coquelicot Require Import Complex.
From Coq Require Import List Arith ZArith Lia Lra Bool.
From Verif Require Import Base Loops Arith StringView_Model Ascii_Model TextIo_Model Elem_Model Matrix_Model Matrix_Spec Soup_Model Soup_Spec Soup_Proofs Stats_Spec XSec_Model XSec_Spec XSec_Proofs XSec_Mat_Proofs
  Cmfd_Model Cmfd_Spec Cmfd_Again_Proofs PinCyl_Model Grid_Model Grid_Spec Fvm_Model Fvm_Spec
  Mpact_Model Mpact_Spec Export_Model Export_Spec Export_Sets_Proofs Export_Cell_Proofs Export_Loop_Proofs Export_Proofs ModelIo_Write_Proofs Outputs_Model Outputs_Spec Outputs_Volume_Proofs
  CmfdInfo_Model CmfdInfo_Spec CmfdInfo_Quads_Proofs.
Import ListNotations.
Local Open Scope list_scope.
Local Open Scope R_scope.

(** ** Writing at positions *)
Lemma positions_in c l k : In k (positions c l) <-> exists i, k = Z.of_nat i /\ nth_error l i = Some c.
Proof.
  induction l as [|x l IH] using rev_ind.
  - cbn. split; [tauto|]. intros (i & _ & H). destruct i; discriminate.
  - rewrite positions_snoc, in_app_iff, IH. split.
    + intros [(i & -> & H)|H].
      * exists i. split; [auto|]. rewrite nth_error_app1; [auto|]. apply nth_error_Some. congruence.
      * destruct (Z.eqb_spec x c) as [->|]; [|destruct H]. destruct H as [<-|[]]. exists (length l). split; [auto|]. now rewrite nth_error_app2, Nat.sub_diag by auto.
    + intros (i & -> & H). destruct (Nat.lt_ge_cases i (length l)) as [L|L].
      * left. rewrite nth_error_app1 in H by auto. eauto.
      * right. rewrite nth_error_app2 in H by auto. destruct (i - length l)%nat as [|n] eqn:E; [|destruct n; discriminate]. injection H as ->.
        rewrite Z.eqb_refl. left. f_equal. lia.
Qed.
Lemma write_all (v : R) : forall l d, (forall id, In id l -> (0 <= id < Z.of_nat (length d))%Z) ->
  exists d', foreach l (fun id d => wrz d id v) d = Ret d' /\ length d' = length d /\
    forall k, (k < length d)%nat -> nth_error d' k = if existsb (Z.eqb (Z.of_nat k)) l then Some v else nth_error d k.
Proof.
  induction l as [|id l IH]; intros d H; [exists d; cbn; auto|].
  pose proof (H id (or_introl eq_refl)) as Hid. cbn [foreach]. unfold wrz at 1. rewrite (proj2 (Z.ltb_ge _ _)) by lia. rewrite wr_ok by lia. cbn [bind].
  destruct (IH (upd d (Z.to_nat id) v)) as (d' & E & L & Hn).
  { intros i Hi. rewrite upd_length. apply H. now right. }
  rewrite upd_length in L, Hn. exists d'. split; [exact E|]. split; [exact L|]. intros k Hk. rewrite Hn by auto. cbn [existsb].
  destruct (existsb (Z.eqb (Z.of_nat k)) l); [now rewrite orb_true_r|]. rewrite orb_false_r. destruct (Z.eqb_spec (Z.of_nat k) id) as [<-|D].
  - rewrite Nat2Z.id. now apply nth_error_upd_eq.
  - apply nth_error_upd_neq. lia.
Qed.
Lemma write_positions (h h' : Z -> R) v c l : (forall x, h' x = if (x =? c)%Z then v else h x) ->
  foreach (positions c l) (fun id d => wrz d id v) (map h l) = Ret (map h' l).
Proof.
  intros Hh. destruct (write_all v (positions c l) (map h l)) as (d & E & L & Hn).
  { intros id Hi. apply positions_in in Hi. destruct Hi as (i & -> & Hi). rewrite map_length. assert (i < length l)%nat by (apply nth_error_Some; congruence). lia. }
  rewrite E. f_equal. apply nth_ext with (d := v) (d' := v); [now rewrite L, !map_length|].
  intros k Hk. rewrite L, map_length in Hk. apply nth_error_nth. rewrite Hn by (rewrite map_length; auto).
  destruct (nth_error l k) as [x|] eqn:Ek; [|apply nth_error_None in Ek; lia].
  rewrite (nth_error_nth (map h' l) k v (map_nth_error h' k l Ek)). rewrite (map_nth_error h k l Ek), Hh.
  destruct (Z.eqb_spec x c) as [->|D].
  - assert (existsb (Z.eqb (Z.of_nat k)) (positions c l) = true) as ->; [|reflexivity].
    apply existsb_exists. exists (Z.of_nat k). split; [|apply Z.eqb_refl]. apply positions_in. eauto.
  - assert (existsb (Z.eqb (Z.of_nat k)) (positions c l) = false) as ->; [|reflexivity].
    apply not_true_is_false. intros X. apply existsb_exists in X. destruct X as (y & Hy & Ey). apply Z.eqb_eq in Ey. subst y.
    apply positions_in in Hy. destruct Hy as (i & Ei & Hi). replace i with k in Hi by lia. congruence.
Qed.

(** ** Names *)
Lemma app_same_tail {A} : forall (l1 l2 d1 d2 : list A), l1 ++ d1 = l2 ++ d2 -> length d1 = length d2 -> l1 = l2 /\ d1 = d2.
Proof.
  induction l1 as [|a l1 IH]; intros [|b l2] d1 d2 E L; cbn in E.
  - auto.
  - exfalso. apply (f_equal (@length A)) in E. cbn in E. rewrite app_length in E. lia.
  - exfalso. apply (f_equal (@length A)) in E. cbn in E. rewrite app_length in E. lia.
  - injection E as -> E. destruct (IH l2 d1 d2 E L) as (-> & ->). auto.
Qed.
Lemma name_inj p q a b : lit p ++ digits5 a = lit q ++ digits5 b -> lit p = lit q /\ digits5 a = digits5 b.
Proof. intros E. apply app_same_tail; [exact E|reflexivity]. Qed.

Section Data.
Variables checks exit : bool.
Variable m : model.
Variable xsecs : list xsec.
Variable area : kind -> list (R * R) -> R.
Hypothesis Harea : measures area.
Variable ng : nat.
Hypothesis Hd : describable m xsecs area ng.
Hypothesis Hfew : few m ng.
Notation ids0 := (map here (placed_cells m)).

(** ** Values *)
Lemma id_in icc : (icc < length (cells m))%nat -> In (Z.of_nat icc) (every_id m).
Proof. intros H. unfold every_id. apply in_map. apply in_seq. lia. Qed.
Lemma cell_xsec_ok icc : (icc < length (cells m))%nat -> exists x, cell_xsec exit m xsecs icc = Ret x /\ shape ng x /\
  forall r g, known ng r -> (g < ng)%nat -> XSec_Spec.value x r g = mixed m xsecs area r (Z.of_nat icc) g.
Proof.
  intros Hi. pose proof (id_in icc Hi) as Hin. destruct Hd as [(Hids & Hsh & Hf & Hme) Hms Hg Hl Hma Har Hda].
  assert (Hex : exists_in (cells m) (Z.of_nat icc)) by (unfold exists_in; lia).
  destruct (Export_Proofs.get_ok (cells m) (Z.of_nat icc) no_cell Hex) as (E & Ic). fold (the_cell m (Z.of_nat icc)) in E, Ic.
  destruct (Har _ Hin) as (Hpos & Htot). pose proof (proj1 (Forall_forall _ _) Hms _ Hin) as Hm. unfold has_mesh in Hm. unfold mixed. unfold parts in *.
  set (cc := the_cell m (Z.of_nat icc)) in *. pose proof (proj1 (Forall_forall _ _) Hme cc Ic) as Hcc.
  assert (Erd : rd (cells m) icc = Ret cc).
  { unfold rdz in E. destruct (Z.ltb_spec (Z.of_nat icc) 0); [lia|]. now rewrite Nat2Z.id in E. }
  unfold cell_xsec. rewrite Erd. cbn [bind].
  destruct (cell_mesh m cc) as [[k x]|] eqn:Ecm; [clear Hm|now elim Hm].
  destruct (meshes_like m (mtype cc)) as [[k' ms]|] eqn:El; [|unfold cell_mesh in Ecm; rewrite El in Ecm; discriminate].
  destruct (Hcc ltac:(rewrite El; discriminate)) as (k1 & x1 & Ex & Hx & _ & L). rewrite Ecm in Ex. injection Ex as <- <-. unfold cell_mesh in Ecm. rewrite El in Ecm.
  destruct (Z.ltb_spec (mesh_id cc) 0) as [?|Hp]; [discriminate|]. destruct (nth_error ms (Z.to_nat (mesh_id cc))) as [y|] eqn:Ey; [|discriminate].
  injection Ecm as -> ->.
  assert (kind_of (mtype cc) = Some k /\ meshes_of m (mtype cc) = Some ms) as (-> & ->) by (destruct (mtype cc); cbn in El |- *; try discriminate; injection El as <- <-; auto).
  rewrite (rdz_nth ms _ x) by auto. cbn [bind].
  assert (Em : mapo (fun i => let* p := face_of x i in area_of k p) (seq 0 (length (fv x))) = Ret (map (fun f => area k (map (vertex x) f)) (fv x))).
  { rewrite (mapo_map _ (fun i => area k (map (vertex x) (nth i (fv x) [])))).
    - f_equal. clear. induction (fv x) as [|f l IH]; [reflexivity|]. cbn [length seq map nth]. f_equal. rewrite <- seq_shift, map_map. exact IH.
    - intros i Hi'. apply in_seq in Hi'. assert (Hn : nth_error (fv x) i = Some (nth i (fv x) [])) by (apply nth_error_nth'; lia).
      assert (In (nth i (fv x) []) (fv x)) as Hin' by (eapply nth_error_In; eauto).
      unfold face_of. rewrite (proj2 (rd_Ret _ _ _) Hn). cbn [bind]. rewrite (conn_verts k x (material_ids cc) Hx L _ Hin'). cbn [bind].
      apply area_ret; [|apply Harea]; rewrite map_length; exact (proj1 (Hx _ Hin')). }
  rewrite Em. cbn [bind]. set (ps := combine (map (fun f => area k (map (vertex x) f)) (fv x)) (material_ids cc)) in *.
  assert (P1 : map fst ps = map (fun f => area k (map (vertex x) f)) (fv x)) by (apply map_fst_combine; rewrite map_length; auto).
  assert (P2 : map snd ps = material_ids cc) by (apply map_snd_combine; rewrite map_length; auto).
  rewrite <- P1, <- P2.
  destruct (homogenize_full ng ps xsecs) as (z & Ez & Sz & _ & _ & Hv).
  { split; [|split; [exact Htot|split; [|exact Hg]]].
    - intros f Hf'. split; [|rewrite Forall_forall in Hpos; apply Hpos; now apply in_map].
      assert (In (snd f) (material_ids cc)) as Hs by (rewrite <- P2; now apply in_map).
      destruct (Mpact_Spec.cell_ids _ Hids cc Ic) as (_ & _ & [E1|(x'' & _ & _ & Fm)]); [lia|].
      rewrite Forall_forall in Fm. specialize (Fm _ Hs). unfold exists_in in Fm. rewrite Hl. exact Fm.
    - eapply Forall_impl; [|exact Hma]. now intros a (_ & H). }
  exists z. split; [exact Ez|]. split; [exact Sz|]. intros r g Hr Hgn. apply Rmult_eq_reg_r with (Stats_Spec.total (map fst ps)); [|lra].
  rewrite (Hv r g Hr Hgn). field. lra.
Qed.
Lemma xsecs_of : exists cxs, mapo (cell_xsec exit m xsecs) (seq 0 (length (cells m))) = Ret cxs /\ length cxs = length (cells m) /\
  forall icc, (icc < length (cells m))%nat -> exists x, rd cxs icc = Ret x /\ shape ng x /\
    forall r g, known ng r -> (g < ng)%nat -> XSec_Spec.value x r g = mixed m xsecs area r (Z.of_nat icc) g.
Proof.
  set (f := fun icc => match cell_xsec exit m xsecs icc with Ret x => x | _ => mkX false false 0 [] [] [] [] [] (mkM 0 0 []) end).
  assert (E : forall icc, (icc < length (cells m))%nat -> cell_xsec exit m xsecs icc = Ret (f icc)).
  { intros icc H. destruct (cell_xsec_ok icc H) as (x & Ex & _). unfold f. now rewrite Ex. }
  exists (map f (seq 0 (length (cells m)))). split; [|split].
  - apply mapo_map. intros i Hi. apply in_seq in Hi. apply E. lia.
  - now rewrite map_length, seq_length.
  - intros icc H. exists (f icc). split.
    + apply rd_Ret. apply map_nth_error. now rewrite seq_nth_error.
    + destruct (cell_xsec_ok icc H) as (x & Ex & Hx). rewrite (E icc H) in Ex. injection Ex as ->. exact Hx.
Qed.
Section Cells.
Variable cxs : list xsec.
Hypothesis Hcxs : forall icc, (icc < length (cells m))%nat -> exists x, rd cxs icc = Ret x /\ shape ng x /\
    forall r g, known ng r -> (g < ng)%nat -> XSec_Spec.value x r g = mixed m xsecs area r (Z.of_nat icc) g.
Lemma rd_value l g n : length l = ng -> (g < ng)%nat -> nth g l 0 = n -> rd l g = Ret n.
Proof. intros L H E. apply rd_Ret. rewrite <- E. apply nth_error_nth'. lia. Qed.
Lemma xs_values icc g : (icc < length (cells m))%nat -> (g < ng)%nat -> exists x, rd cxs icc = Ret x /\
  xs_t x g = Ret (total_of m xsecs area (Z.of_nat icc) g) /\ rd (xs x) g = Ret (mixed m xsecs area Scattering (Z.of_nat icc) g).
Proof.
  intros Hi Hg. destruct (Hcxs icc Hi) as (x & E & (S1 & S2 & S3 & S4 & S5 & S6 & _) & Hv). exists x. split; [exact E|].
  assert (Es : rd (xs x) g = Ret (mixed m xsecs area Scattering (Z.of_nat icc) g)) by (apply rd_value; auto; apply (Hv Scattering g Logic.I Hg)).
  split; [|exact Es]. unfold xs_t. rewrite (rd_value (xa x) g (mixed m xsecs area Absorption (Z.of_nat icc) g)); auto; [|apply (Hv Absorption g Logic.I Hg)].
  cbn [bind]. rewrite Es. reflexivity.
Qed.
Lemma total_ok icc g w : (icc < length (cells m))%nat -> (g < ng)%nat -> total_value cxs icc g w = Ret (total_of m xsecs area (Z.of_nat icc) g, w).
Proof. intros Hi Hg. destruct (xs_values icc g Hi Hg) as (x & E1 & E2 & _). unfold total_value. rewrite E1. cbn [bind]. now rewrite E2. Qed.
Lemma ratio_is icc g : (icc < length (cells m))%nat -> (g < ng)%nat -> ratio cxs icc g = Ret (ratio_of m xsecs area (Z.of_nat icc) g).
Proof. intros Hi Hg. destruct (xs_values icc g Hi Hg) as (x & E1 & E2 & E3). unfold ratio. rewrite E1. cbn [bind]. rewrite E2. cbn [bind]. now rewrite E3. Qed.
Lemma ratio_ok icc g w : (icc < length (cells m))%nat -> (g < ng)%nat -> ratio_value cxs icc g w = Ret (ratio_of m xsecs area (Z.of_nat icc) g, w).
Proof. intros Hi Hg. unfold ratio_value. now rewrite ratio_is. Qed.

(** ** Spectral radii *)
Variable solve : cmat -> cmat -> outcome (cmat * cmat).
Variable eigvals : cmat -> outcome (list C).
Hypothesis Hsolve : solver solve.
Hypothesis Heig : eigen checks eigvals.
Definition ready (w : cmat * work) : Prop := sized 4 (fst w) /\ sized 4 (wU (snd w)) /\ sized 4 (wA (snd w)) /\ sized 4 (wB (snd w)) /\ sized 4 (wI (snd w)).
Lemma slab_ok icc g : (icc < length (cells m))%nat -> (g < ng)%nat -> Cmfd_Spec.cell_ok (slab m xsecs area (Z.of_nat icc) g) /\
  0 < (fst (xy_extents (the_cell m (Z.of_nat icc))) + snd (xy_extents (the_cell m (Z.of_nat icc)))) / 2 /\ 0 < total_of m xsecs area (Z.of_nat icc) g /\
  0 <= ratio_of m xsecs area (Z.of_nat icc) g.
Proof.
  intros Hi Hg. pose proof (id_in icc Hi) as Hin. destruct Hd as [(Hids & _) _ _ _ _ _ Hda]. destruct (Hda _ g Hin Hg) as (D1 & D2 & D3).
  assert (Hex : exists_in (cells m) (Z.of_nat icc)) by (unfold exists_in; lia).
  destruct (Export_Proofs.get_ok (cells m) (Z.of_nat icc) no_cell Hex) as (E & Ic). fold (the_cell m (Z.of_nat icc)) in E, Ic.
  destruct (Mpact_Spec.cell_ids _ Hids _ Ic) as (X1 & X2 & _).
  assert (0 <= ratio_of m xsecs area (Z.of_nat icc) g) by (unfold ratio_of; apply Rmult_le_pos; [auto|]; left; now apply Rinv_0_lt_compat).
  assert (0 < (fst (xy_extents (the_cell m (Z.of_nat icc))) + snd (xy_extents (the_cell m (Z.of_nat icc)))) / 2) by lra.
  split; [|auto]. unfold slab, Cmfd_Spec.cell_ok.
  set (w := (fst (xy_extents _) + snd (xy_extents _)) / 2) in *. set (t := total_of _ _ _ _ _) in *. set (c := ratio_of _ _ _ _ _) in *.
  cbn. split; [lia|]. split; [unfold intMax; lia|]. split; [exact D1|]. lra.
Qed.
Lemma radius_ok J w1 w2 icc g : sized 4 J -> ready w1 -> ready w2 -> (icc < length (cells m))%nat -> (g < ng)%nat ->
  exists v w1' w2', radius_value checks solve eigvals m J cxs icc g w1 = Ret (v, w1') /\ radius_value checks solve eigvals m J cxs icc g w2 = Ret (v, w2') /\
    ready w1' /\ ready w2' /\ radius_data m xsecs area solve eigvals (Z.of_nat icc) g v /\ (checks = true -> unset < v).
Proof.
  intros HJ R1 R2 Hi Hg. destruct (xs_values icc g Hi Hg) as (x & E1 & E2 & _). destruct (slab_ok icc g Hi Hg) as (Sok & Wp & Tp & Cp).
  assert (Hex : exists_in (cells m) (Z.of_nat icc)) by (unfold exists_in; lia).
  destruct (Export_Proofs.get_ok (cells m) (Z.of_nat icc) no_cell Hex) as (E & _). fold (the_cell m (Z.of_nat icc)) in E.
  assert (Erd : rd (cells m) icc = Ret (the_cell m (Z.of_nat icc))).
  { unfold rdz in E. destruct (Z.ltb_spec (Z.of_nat icc) 0); [lia|]. now rewrite Nat2Z.id in E. }
  unfold radius_value. rewrite E1. cbn [bind]. rewrite E2. cbn [bind]. rewrite ratio_is by auto. cbn [bind]. rewrite Erd. cbn [bind].
  set (q := slab m xsecs area (Z.of_nat icc) g) in *.
  change (CMFDCellParams ((fst (xy_extents (the_cell m (Z.of_nat icc))) + snd (xy_extents (the_cell m (Z.of_nat icc)))) / 2) 4 (total_of m xsecs area (Z.of_nat icc) g)
    (ratio_of m xsecs area (Z.of_nat icc) g) 1 (1 / 4)) with q.
  unfold radius_data. destruct (Rlt_dec 1 (ratio_of m xsecs area (Z.of_nat icc) g)) as [L|L].
  - assert (Rltb 1 (ratio_of m xsecs area (Z.of_nat icc) g) = true) as -> by (unfold Rltb; destruct (Rlt_dec 1 (ratio_of m xsecs area (Z.of_nat icc) g)); [reflexivity|lra]).
    exists (-1), w1, w2. repeat (split; [auto|]). intros _. unfold unset. lra.
  - assert (Rltb 1 (ratio_of m xsecs area (Z.of_nat icc) g) = false) as -> by (unfold Rltb; destruct (Rlt_dec 1 (ratio_of m xsecs area (Z.of_nat icc) g)); [lra|reflexivity]).
    set (wd := (fst (xy_extents (the_cell m (Z.of_nat icc))) + snd (xy_extents (the_cell m (Z.of_nat icc)))) / 2) in *.
    assert (Pk : params_ok wd 4 (total_of m xsecs area (Z.of_nat icc) g) (ratio_of m xsecs area (Z.of_nat icc) g) 1 (1 / 4) = true).
    { unfold params_ok, Rleb, Rltb. repeat match goal with |- context [Rlt_dec ?a ?b] => destruct (Rlt_dec a b); [first [exfalso; lra|idtac]|first [exfalso; lra|idtac]] end. reflexivity. }
    assert (As : forall k : outcome (R * (cmat * work)), Mpact_Model.assert checks (params_ok wd 4 (total_of m xsecs area (Z.of_nat icc) g) (ratio_of m xsecs area (Z.of_nat icc) g) 1 (1 / 4)) k = k).
    { intros k. rewrite Pk. unfold Mpact_Model.assert. now destruct checks. }
    rewrite !As.
    assert (Pq : pp q = 4%nat) by reflexivity.
    destruct w1 as (o1, s1). destruct w2 as (o2, s2). cbn [fst snd].
    destruct (radius_again solve eigvals (fun e => checks = true -> - 100000000 < Re e) q o1 J s1 o2 J s2 Hsolve Sok) as (o1' & s1' & o2' & s2' & r & a & F1 & F2 & Pr & U1 & U2);
      rewrite ?Pq; auto.
    + intros _. cbn. lra.
    + intros b f Hb. destruct (Heig b f Hb) as (l & El & Hl). exists l. split; [exact El|]. apply Forall_forall. auto.
    + exists (Re r), (o1', s1'), (o2', s2'). rewrite F1, F2. cbn [bind]. repeat (split; [first [reflexivity|assumption]|]). split; [|exact Pr].
      exists r. split; [|reflexivity]. intros o3 J3 s3 G1 G2 G3 G4 G5 G6.
      destruct (radius_again solve eigvals (fun _ => True) q o1 J s1 o3 J3 s3 Hsolve Sok Logic.I) as (o1'' & s1'' & o3' & s3' & r' & a' & F1' & F3 & _); rewrite ?Pq; auto.
      * intros b f Hb. destruct (Heig b f Hb) as (l & El & Hl). exists l. split; [exact El|]. apply Forall_forall. auto.
      * repeat split; try apply G1; try apply G3; try apply G4; try apply G5; apply G6.
      * rewrite F1 in F1'. injection F1' as _ _ <- _. unfold spectral_radius. fold q. now rewrite F3.
Qed.
End Cells.

(** ** Sets *)
Hypothesis Hcells : Forall (exists_in (cells m)) ids0.
Notation fids := (map (fun c => positions c ids0) (every_id m)).
Lemma fids_rd icc : (icc < length (cells m))%nat -> rd fids icc = Ret (positions (Z.of_nat icc) ids0).
Proof.
  intros H. apply rd_Ret. apply (map_nth_error (fun c => positions c ids0)). unfold every_id. apply map_nth_error. now rewrite seq_nth_error.
Qed.
Notation base a := (a_verts a = rectangles m /\ a_elems a = quads_of (length (placed_cells m)))%type.
Lemma fill {W : Type} (Inv : W -> Prop) (f : nat -> nat -> W -> outcome (R * W)) (val : nat -> R) g w0 :
  (forall icc w, (icc < length (cells m))%nat -> Inv w -> exists w', f icc g w = Ret (val icc, w') /\ Inv w') -> Inv w0 ->
  exists w', for_ (length (cells m)) 0 (fun icc dw =>
      let* v := f icc g (snd dw) in
      let* fs := rd fids icc in
      let* d := foreach fs (fun id d => wrz d id (fst v)) (fst dw) in
      Ret (d, snd v)) (repeat unset (length (placed_cells m)), w0) = Ret (map (fun c => val (Z.to_nat c)) ids0, w') /\ Inv w'.
Proof.
  intros Hf H0. set (h := fun (n : nat) (c : Z) => if (c <? Z.of_nat n)%Z then val (Z.to_nat c) else unset).
  destruct (for_inv (fun n (dw : list R * W) => fst dw = map (h n) ids0 /\ Inv (snd dw)) (fun icc dw =>
      let* v := f icc g (snd dw) in
      let* fs := rd fids icc in
      let* d := foreach fs (fun id d => wrz d id (fst v)) (fst dw) in
      Ret (d, snd v)) (length (cells m)) 0 (repeat unset (length (placed_cells m)), w0)) as ((d & w') & E & Ed & Iw).
  - split; [|exact H0]. cbn [fst]. rewrite map_map. clear -Hcells. induction (placed_cells m) as [|p l IH]; [reflexivity|]. cbn [map] in *. inversion Hcells; subst.
    cbn [length repeat]. rewrite IH by auto. f_equal. unfold h. match goal with H : exists_in _ _ |- _ => unfold exists_in in H end. destruct (Z.ltb_spec (here p) (Z.of_nat 0)); [lia|reflexivity].
  - intros icc (d, w) Hi (Hd' & Iw). cbn [fst snd] in *. destruct (Hf icc w ltac:(lia) Iw) as (w' & -> & Iw'). cbn [bind fst snd].
    rewrite fids_rd by lia. cbn [bind]. subst d. rewrite (write_positions (h icc) (h (S icc))).
    + cbn [bind]. eexists. split; [reflexivity|]. auto.
    + intros x. unfold h. destruct (Z.eqb_spec x (Z.of_nat icc)) as [->|D].
      * rewrite (proj2 (Z.ltb_lt _ _)) by lia. now rewrite Nat2Z.id.
      * destruct (Z.ltb_spec x (Z.of_nat (S icc))), (Z.ltb_spec x (Z.of_nat icc)); try lia; reflexivity.
  - cbn [fst snd] in *. exists w'. split; [|exact Iw]. rewrite E. subst d. f_equal. f_equal. apply map_ext_in. intros c Hc.
    pose proof (proj1 (Forall_forall _ _) Hcells c Hc) as X. unfold exists_in in X. unfold h. now rewrite (proj2 (Z.ltb_lt _ _)) by lia.
Qed.
Notation ids_all := (map Z.of_nat (seq 0 (length (placed_cells m)))).
Lemma group_sets {W : Type} (Inv : W -> Prop) prefix (f : nat -> nat -> W -> outcome (R * W)) (val : Z -> nat -> R) s a w :
  (forall icc g w, (icc < length (cells m))%nat -> (g < ng)%nat -> Inv w -> exists w', f icc g w = Ret (val (Z.of_nat icc) g, w') /\ Inv w') ->
  (forall icc g, (icc < length (cells m))%nat -> (g < ng)%nat -> checks = true -> unset < val (Z.of_nat icc) g) ->
  placed_cells m <> [] -> stores s a -> Inv w -> (forall g, (g < ng)%nat -> ~ In (lit prefix ++ digits5 (Z.of_nat g)) (map es_name (a_elsets a))) ->
  exists s' w', for_ ng 0 (group_set checks exit m prefix f fids ids_all) (s, w) = Ret (s', w') /\ Inv w' /\
    stores s' (mkA (a_verts a) (a_elems a) (a_elsets a ++ map (data_set m prefix val) (seq 0 ng))).
Proof.
  intros Hf Hv Hne Hs Hw Hn.
  destruct (for_inv (fun g (sw : soup3 * W) => Inv (snd sw) /\ stores (fst sw) (mkA (a_verts a) (a_elems a) (a_elsets a ++ map (data_set m prefix val) (seq 0 g))))
    (group_set checks exit m prefix f fids ids_all) ng 0 (s, w)) as ((s' & w') & E & Iw & St).
  - split; [exact Hw|]. cbn [fst seq map]. rewrite app_nil_r. destruct a. exact Hs.
  - intros g (s1, w1) Hg (Iw & St). cbn [fst snd] in *. unfold group_set. rewrite ascii5 by lia. cbn [bind fst snd]. rewrite map_length, seq_length.
    destruct (fill Inv f (fun icc => val (Z.of_nat icc) g) g w1) as (w2 & -> & Iw2); [|exact Iw|].
    { intros icc w0 Hi Hw0. apply Hf; auto. lia. }
    cbn [bind fst snd].
    assert (Ev : map (fun c => val (Z.of_nat (Z.to_nat c)) g) ids0 = map (fun p => val (here p) g) (placed_cells m)).
    { rewrite map_map. apply map_ext_in. intros p Hp. f_equal. pose proof (proj1 (Forall_forall _ _) Hcells (here p) (in_map here _ _ Hp)) as X. unfold exists_in in X. lia. }
    rewrite Ev.
    destruct (with_set_ok exit s1 _ (lit prefix ++ digits5 (Z.of_nat g)) ids_all (map (fun p => val (here p) g) (placed_cells m)) St) as (s2 & E2 & St2).
    { split; [|split]; cbn [es_name es_ids es_data a_elsets].
      - rewrite map_app, in_app_iff. intros [X|X]; [now apply (Hn g); [lia|]|]. rewrite map_map in X. apply in_map_iff in X. destruct X as (g' & X & Hg').
        apply in_seq in Hg'. unfold data_set in X. cbn [es_name] in X. apply name_inj in X. destruct X as (_ & X). destruct Hfew as (_ & Fg & _). apply digits5_inj in X; lia.
      - destruct (placed_cells m); [now elim Hne|discriminate].
      - right. now rewrite !map_length, seq_length. }
    rewrite E2. cbn [bind]. assert (As : Mpact_Model.assert checks (forallb (Rltb unset) (map (fun p => val (here p) g) (placed_cells m))) (Ret (s2, w2)) = Ret (s2, w2)).
    { unfold Mpact_Model.assert. destruct checks eqn:Ck; [|reflexivity].
      assert (forallb (Rltb unset) (map (fun p => val (here p) g) (placed_cells m)) = true) as ->; [|reflexivity].
      apply forallb_forall. intros v Hv'. apply in_map_iff in Hv'. destruct Hv' as (p & <- & Hp).
      pose proof (proj1 (Forall_forall _ _) Hcells (here p) (in_map here _ _ Hp)) as X. unfold exists_in in X.
      specialize (Hv (Z.to_nat (here p)) g ltac:(lia) ltac:(lia) eq_refl). rewrite Z2Nat.id in Hv by lia. unfold Rltb. now destruct (Rlt_dec unset (val (here p) g)). }
    rewrite As. exists (s2, w2). split; [reflexivity|]. split; [exact Iw2|]. cbn [fst]. rewrite seq_S, map_app, app_assoc. exact St2.
  - exists s', w'. split; [exact E|]. split; [exact Iw|exact St].
Qed.

Lemma positions_none c l : positions c l = [] <-> existsb (Z.eqb c) l = false.
Proof.
  split.
  - intros E. apply not_true_is_false. intros X. apply existsb_exists in X. destruct X as (y & Hy & Ey). apply Z.eqb_eq in Ey. subst y.
    apply In_nth_error in Hy. destruct Hy as (i & Hi). assert (In (Z.of_nat i) (positions c l)) as X by (apply positions_in; eauto). rewrite E in X. destruct X.
  - intros E. destruct (positions c l) as [|k r] eqn:Ep; [reflexivity|]. exfalso. assert (In k (positions c l)) as X by (rewrite Ep; now left).
    apply positions_in in X. destruct X as (i & _ & Hi). apply nth_error_In in Hi. assert (existsb (Z.eqb c) l = true); [|congruence].
    apply existsb_exists. exists c. split; [exact Hi|apply Z.eqb_refl].
Qed.
Hypothesis Hall : ids0 = all_cells m.
Definition cell_loop := (fun icc s =>
        let* num := getASCIINumber (Z.of_nat icc) in
        let* fs := rd fids icc in
        with_set exit s (lit "Coarse_Cell_" ++ num) fs []).
Lemma cell_sets s a : exit = false \/ (forall c, In c (every_id m) -> in_core m c = true) -> stores s a -> a_elsets a = [] ->
  exists s', for_ (length (cells m)) 0 cell_loop s = Ret s' /\
    stores s' (mkA (a_verts a) (a_elems a) (map (cell_set m) (filter (in_core m) (every_id m)))).
Proof.
  intros Hx Hs Ha.
  destruct (for_inv (fun n s' => stores s' (mkA (a_verts a) (a_elems a) (map (cell_set m) (filter (in_core m) (map Z.of_nat (seq 0 n)))))) cell_loop (length (cells m)) 0 s)
    as (s' & E & St).
  - cbn [seq map filter]. rewrite <- Ha. destruct a. exact Hs.
  - intros icc s1 Hi St. unfold cell_loop. rewrite ascii5 by lia. cbn [bind]. rewrite fids_rd by lia. cbn [bind].
    rewrite seq_S, map_app, filter_app, map_app. cbn [map filter Nat.add]. destruct (in_core m (Z.of_nat icc)) eqn:Ec.
    + destruct (with_set_ok exit s1 _ (lit "Coarse_Cell_" ++ digits5 (Z.of_nat icc)) (positions (Z.of_nat icc) ids0) [] St) as (s2 & E2 & St2); [|eauto].
      split; [|split]; cbn [es_name es_ids es_data a_elsets]; [| |now left].
      * rewrite map_map. intros X. apply in_map_iff in X. destruct X as (c & X & Hc). apply filter_In in Hc. destruct Hc as (Hc & _). apply in_map_iff in Hc. destruct Hc as (n & <- & Hn).
        apply in_seq in Hn. cbn [cell_set es_name] in X. apply name_inj in X. destruct X as (_ & X). destruct Hfew as (Fc & _). apply digits5_inj in X; lia.
      * intros X. apply positions_none in X. rewrite Hall in X. unfold in_core in Ec. congruence.
    + destruct Hx as [->|Hx]; [|rewrite (Hx (Z.of_nat icc)) in Ec by (apply id_in; lia); discriminate].
      exists s1. rewrite app_nil_r. split; [|exact St]. unfold with_set. rewrite (addElset_reject s1 _ _ _ _ St); [reflexivity|].
      intros (_ & X & _). cbn [es_ids] in X. apply X. apply positions_none. rewrite Hall. exact Ec.
  - exists s'. split; [exact E|]. exact St.
Qed.
End Data.
