(** The volumes of the materials. *)
From Coq Require Import String.
From Coquelicot Require Import Coquelicot.
From Coq Require Import List Arith ZArith Lia Bool Reals Lra Permutation.
From Verif Require Import Base Loops Arith StringView_Model TextIo_Model Elem_Model Sort_Spec Seg_Spec Poly_Model Poly_Spec Poly_Proofs QSeg_Spec QPoly_Model QPoly_Spec QPoly_Proofs Stats_Model Stats_Spec
  Stats_Proofs Soup_Model Soup_Spec Soup_Proofs XSec_Model XSec_Spec PinCyl_Model Grid_Model Grid_Spec Fvm_Model Fvm_Spec Mpact_Model Mpact_Spec
  Export_Model Export_Spec Export_Cell_Proofs Export_Loop_Proofs Export_Proofs CApi_More_Proofs ModelIo_Write_Proofs Outputs_Model Outputs_Spec.
Import ListNotations.
Local Open Scope list_scope.
Local Open Scope R_scope.

(** ** Areas *)
Lemma green_unique es : forall Is Js, integrals green es Is -> integrals green es Js -> Is = Js.
Proof.
  induction es as [|e es IH]; intros Is Js H1 H2; inversion H1; subst; inversion H2; subst; [reflexivity|]. f_equal; [|now apply IH].
  match goal with A : green _ ?a, B : green _ ?b |- ?a = ?b => unfold green in A, B; rewrite <- (is_RInt_unique _ _ _ _ A); exact (is_RInt_unique _ _ _ _ B) end.
Qed.
Lemma area_ret k p A : length p = nverts k -> has_area k p A -> area_of k p = Ret A.
Proof.
  intros L H. unfold has_area in H. unfold area_of. destruct (quadratic k) eqn:Hk.
  - destruct H as (vs & ms & Is & -> & E & HI & ->). assert (N : vs <> []) by (intros ->; destruct ms; [destruct k; discriminate|discriminate]).
    destruct (q_area_ok vs ms N E) as (B & Js & EB & HJ & -> & _). rewrite EB. now rewrite (green_unique _ _ _ HI HJ).
  - subst A. assert (N : p <> []) by (intros ->; destruct k; discriminate). rewrite lin_area_ok. destruct (area_ok p N) as (B & EB & HB).
    now rewrite EB, (HB (0, 0)).
Qed.

(** ** Collecting the volumes *)
Definition push (q : Z * R) (vols : list (list R)) : outcome (list (list R)) :=
  let* l := rdz vols (fst q) in wrz vols (fst q) (l ++ [snd q]).
Definition picked (f : Z -> bool) (l : list (Z * R)) : list R := map snd (filter (fun q => f (fst q)) l).
Lemma picked_app f l1 l2 : picked f (l1 ++ l2) = picked f l1 ++ picked f l2.
Proof. unfold picked. now rewrite filter_app, map_app. Qed.
Lemma picked_flat {A} f (g : A -> list (Z * R)) l : rsum (picked f (flat_map g l)) = rsum (map (fun a => rsum (picked f (g a))) l).
Proof. induction l as [|a l IH]; [reflexivity|]. cbn [flat_map map]. rewrite picked_app, rsum_app, IH. reflexivity. Qed.
Lemma push_all l : forall vols, Forall (fun q => exists_in vols (fst q)) l ->
  exists v, foreach l push vols = Ret v /\ length v = length vols /\
    forall i, (i < length vols)%nat -> nth i v [] = nth i vols [] ++ picked (Z.eqb (Z.of_nat i)) l.
Proof.
  induction l as [|[q r] l IH]; intros vols H.
  - exists vols. split; [reflexivity|]. split; [reflexivity|]. intros i _. cbn. now rewrite app_nil_r.
  - inversion H as [|? ? Hq Hl]; subst. cbn [fst] in Hq. unfold exists_in in Hq.
    assert (E : push (q, r) vols = Ret (upd vols (Z.to_nat q) (nth (Z.to_nat q) vols [] ++ [r]))).
    { unfold push. cbn [fst snd]. rewrite (rdz_nth vols q (nth (Z.to_nat q) vols [])) by (try lia; apply nth_error_nth'; lia). cbn [bind].
      unfold wrz. rewrite (proj2 (Z.ltb_ge _ _)) by lia. unfold wr. rewrite (proj2 (Nat.ltb_lt _ _)) by lia. reflexivity. }
    destruct (IH (upd vols (Z.to_nat q) (nth (Z.to_nat q) vols [] ++ [r]))) as (v & E1 & E2 & E3).
    { eapply Forall_impl; [|exact Hl]. intros a. unfold exists_in. now rewrite upd_length. }
    rewrite upd_length in E2, E3. exists v. cbn [foreach]. rewrite E. cbn [bind]. split; [exact E1|]. split; [exact E2|].
    intros i Hi. rewrite E3 by lia. unfold picked at 2. cbn [filter fst]. destruct (Z.eqb_spec (Z.of_nat i) q) as [<-|D].
    + rewrite Nat2Z.id. cbn [map snd]. rewrite <- app_comm_cons || idtac.
      assert (nth i (upd vols i (nth i vols [] ++ [r])) [] = nth i vols [] ++ [r]) as ->.
      { apply nth_error_nth. apply nth_error_upd_eq. lia. }
      rewrite <- app_assoc. reflexivity.
    + f_equal. assert (Dn : Z.to_nat q <> i) by lia. 
      destruct (nth_error vols i) as [a|] eqn:Ea; [|apply nth_error_None in Ea; lia].
      rewrite (nth_error_nth _ _ _ Ea). apply nth_error_nth. rewrite nth_error_upd_neq; auto.
Qed.
Lemma map_seq_combine {A B C} (h : A * B -> C) d e : forall l r, length r = length l ->
  map (fun i => h (nth i l d, nth i r e)) (seq 0 (length l)) = map h (combine l r).
Proof.
  induction l as [|a l IH]; intros [|b r] H; try discriminate; [reflexivity|]. cbn [length seq map combine nth]. f_equal.
  rewrite <- seq_shift, map_map. rewrite <- (IH r) by now injection H. reflexivity.
Qed.
Lemma nth_combine' {A B} (l : list A) (r : list B) i d e : (i < length l)%nat -> (i < length r)%nat -> nth_error (combine l r) i = Some (nth i l d, nth i r e).
Proof. intros H1 H2. apply nth_combine; apply nth_error_nth'; auto. Qed.

Section Volumes.
Variable stdsort : forall A : Type, (A -> A -> bool) -> list A -> list A.
Hypothesis Hsort : sort_contract stdsort.
Variable exit : bool.
Variable m : model.
Hypothesis Hm : measurable m.
Variable area : kind -> list (R * R) -> R.
Hypothesis Harea : measures area.
(** every cell of the core has a mesh, or errors do not end the program *)
Definition tolerated : Prop := exit = false \/ Forall (has_mesh m) (all_cells m).

Definition face_pushes (dz : R) (k : kind) (x : mesh R) (mats : list Z) : list (Z * R) :=
  map (fun fm => (snd fm, area k (map (vertex x) (fst fm)) * dz)) (combine (fv x) mats).
Lemma faces_ok dz k x mats vols : mesh_ok k x -> length mats = length (fv x) ->
  face_volumes mats dz k x vols = foreach (face_pushes dz k x mats) push vols.
Proof.
  intros Hx L. unfold face_volumes, face_pushes. rewrite for_foreach.
  rewrite <- (map_seq_combine (fun fm => (snd fm, area k (map (vertex x) (fst fm)) * dz)) [] 0%Z) by auto. rewrite foreach_map.
  apply foreach_ext. intros i s Hi. apply in_seq in Hi.
  assert (Hn : nth_error (fv x) i = Some (nth i (fv x) [])) by (apply nth_error_nth'; lia).
  rewrite (proj2 (rd_Ret mats i (nth i mats 0%Z))) by (apply nth_error_nth'; lia). cbn [bind].
  unfold face_of. rewrite (proj2 (rd_Ret _ _ _) Hn). cbn [bind].
  assert (In (nth i (fv x) []) (fv x)) as Hin by (eapply nth_error_In; eauto).
  rewrite (conn_verts k x mats Hx L _ Hin). cbn [bind].
  rewrite (area_ret k _ (area k (map (vertex x) (nth i (fv x) [])))). 2: rewrite map_length; exact (proj1 (Hx _ Hin)). 2: apply Harea; rewrite map_length; exact (proj1 (Hx _ Hin)).
  cbn [bind]. reflexivity.
Qed.
Definition cell_pushes (dz : R) (c : Z) : list (Z * R) :=
  match cell_mesh m (the_cell m c) with Some (k, x) => face_pushes dz k x (material_ids (the_cell m c)) | None => [] end.
Lemma cell_pushes_ok dz c vols : exists_in (cells m) c -> exit = false \/ has_mesh m c -> cell_volumes exit m dz c vols = foreach (cell_pushes dz c) push vols.
Proof.
  intros Hc He. destruct (get_ok (cells m) c no_cell Hc) as (E & Hi). unfold cell_volumes. rewrite E. cbn [bind]. unfold cell_pushes, has_mesh, the_cell in *.
  set (cc := get (cells m) c no_cell) in *. destruct Hm as (_ & _ & _ & Hme). pose proof (proj1 (Forall_forall _ _) Hme cc Hi) as Hcc.
  unfold with_mesh. destruct (meshes_like m (mtype cc)) as [[k ms]|] eqn:El.
  - destruct (Hcc ltac:(rewrite El; discriminate)) as (k' & x & Ex & Hx & _ & L). pose proof Ex as Ex'. unfold cell_mesh in Ex'. rewrite El in Ex'.
    destruct (Z.ltb_spec (mesh_id cc) 0) as [?|Hp]; [discriminate|]. destruct (nth_error ms (Z.to_nat (mesh_id cc))) as [y|] eqn:Ey; [|discriminate].
    injection Ex' as <- <-. rewrite Ex.
    assert (kind_of (mtype cc) = Some k /\ meshes_of m (mtype cc) = Some ms) as (-> & ->) by (destruct (mtype cc); cbn in El |- *; try discriminate; injection El as <- <-; auto).
    rewrite (rdz_nth ms _ y) by auto. cbn [bind]. now apply faces_ok.
  - assert (kind_of (mtype cc) = None) as -> by (destruct (mtype cc); cbn in El |- *; try discriminate; auto).
    assert (cell_mesh m cc = None) as En by (unfold cell_mesh; now rewrite El). rewrite En. cbn [foreach].
    destruct He as [->|He]; [reflexivity|]. now elim He.
Qed.
Definition rtm_pushes (dz : R) (r : Z) : list (Z * R) := flat_map (cell_pushes dz) (snd (get (rtms m) r ([], []))).
Definition lat_pushes (dz : R) (l : Z) : list (Z * R) := flat_map (rtm_pushes dz) (snd (get (lattices m) l ([], []))).
Definition asy_pushes (a : Z) : list (Z * R) :=
  let y := get (assemblies m) a ([], []) in match fst y with [z] => flat_map (fun p => lat_pushes (snd p) (fst p)) (combine (snd y) (gaps z)) | _ => [] end.
Definition core_pushes : list (Z * R) := flat_map asy_pushes (snd (core m)).

Lemma gaps_length z n : length z = S n -> length (gaps z) = n.
Proof. intros H. unfold gaps. rewrite map_length, combine_length. destruct z; [discriminate|]. cbn [tl length] in *. lia. Qed.
Lemma gaps_nth z i lo hi : nth_error z i = Some lo -> nth_error z (S i) = Some hi -> nth_error (gaps z) i = Some (hi - lo).
Proof.
  intros E1 E2. unfold gaps. apply (map_nth_error (fun p => snd p - fst p) i (combine z (tl z)) (d := (lo, hi))). apply nth_combine; auto. destruct z; [discriminate|exact E2].
Qed.
Lemma foreach_step {A} (F : A -> list (list R) -> outcome (list (list R))) (g : A -> list (Z * R)) l vols :
  (forall a s, In a l -> F a s = foreach (g a) push s) -> foreach l F vols = foreach (flat_map g l) push vols.
Proof. intros H. rewrite foreach_flat. now apply foreach_ext. Qed.
Lemma lattices_ok a i l dz vols : (forall c r, In r (snd (get (lattices m) l ([], []))) -> In c (snd (get (rtms m) r ([], []))) -> exit = false \/ has_mesh m c) ->
  exists_in (lattices m) l -> rect_getChild Z a [Z.of_nat i] = Ret l ->
  (exists z lo hi, fst a = [z] /\ nth_error z i = Some lo /\ nth_error z (S i) = Some hi /\ dz = hi - lo) ->
  lattice_volumes exit m a i vols = foreach (lat_pushes dz l) push vols.
Proof.
  intros Ht Hl Ec (z & lo & hi & Ez & E1 & E2 & ->). unfold lattice_volumes. rewrite Ec. cbn [bind]. rewrite Ez. cbn [rd nth_error bind].
  rewrite (proj2 (rd_Ret _ _ _) E1). cbn [bind]. rewrite (proj2 (rd_Ret _ _ _) E2). cbn [bind].
  destruct (get_ok (lattices m) l ([], []) Hl) as (E & Hi). rewrite E. cbn [bind]. apply foreach_step. intros r s Hr.
  destruct Hm as (Hv & _). pose proof (proj1 (Forall_forall _ _) (lattice_ids m Hv _ Hi) r Hr) as Hre.
  destruct (get_ok (rtms m) r ([], []) Hre) as (E' & Hi'). rewrite E'. cbn [bind]. apply foreach_step. intros c s' Hc.
  apply cell_pushes_ok; [|now apply (Ht c r)]. exact (proj1 (Forall_forall _ _) (rtm_ids m Hv _ Hi') c Hc).
Qed.
Lemma assemblies_ok a vols : exists_in (assemblies m) a ->
  (forall l r c, In l (snd (get (assemblies m) a ([], []))) -> In r (snd (get (lattices m) l ([], []))) -> In c (snd (get (rtms m) r ([], []))) -> exit = false \/ has_mesh m c) ->
  (let* asy := rdz (assemblies m) a in for_ (length (snd asy)) 0 (lattice_volumes exit m asy) vols) = foreach (asy_pushes a) push vols.
Proof.
  intros Ha Ht. destruct (get_ok (assemblies m) a ([], []) Ha) as (E & Hi). rewrite E. cbn [bind]. unfold asy_pushes.
  set (y := get (assemblies m) a ([], [])) in *. destruct Hm as (Hv & Hsh & (_ & Hf & _) & _).
  destruct (assemblies_shaped m Hsh y Hi) as (z & Ez & Lz). rewrite Ez. rewrite for_foreach, foreach_flat.
  pose proof (gaps_length z _ Lz) as Lg.
  replace (combine (snd y) (gaps z)) with (map (fun i => (nth i (snd y) 0%Z, nth i (gaps z) 0)) (seq 0 (length (snd y)))).
  2:{ rewrite (map_seq_combine (fun p => p) 0%Z 0 (snd y) (gaps z) Lg). apply map_id. }
  rewrite foreach_map. apply foreach_ext. intros i s Hseq. apply in_seq in Hseq. cbn [fst snd].
  destruct (column_kids y z Ez Lz (Hf y Hi)) as (Hk & _).
  assert (Hn : nth_error (snd y) i = Some (nth i (snd y) 0%Z)) by (apply nth_error_nth'; lia).
  destruct (nth_error z i) as [lo|] eqn:E1; [|apply nth_error_None in E1; lia].
  destruct (nth_error z (S i)) as [hi|] eqn:E2; [|apply nth_error_None in E2; lia].
  assert (El : rect_getChild Z y [Z.of_nat i] = Ret (nth i (snd y) 0%Z)).
  { destruct (nth_error (combine (snd y) (midplanes z)) i) as [[id rel]|] eqn:Ek.
    - assert (id = nth i (snd y) 0%Z) as -> .
      { assert (length (midplanes z) = length (snd y)) by (unfold midplanes; rewrite map_length, combine_length; destruct z; [discriminate|]; cbn [tl length] in *; lia).
        rewrite (nth_combine' (snd y) (midplanes z) i 0%Z (0,0,0)) in Ek by lia. now injection Ek. }
      assert (G : forall K P (l : list K) (r : list (Z * pt3)) j u v, Forall2 P l r -> nth_error l j = Some u -> nth_error r j = Some v -> P u v).
      { clear. intros K P l r j u v F. revert j. induction F as [|? ? ? ? HP F IH]; intros [|j] Eu Ev; try discriminate; [now injection Eu as <-; injection Ev as <-|]. eapply IH; eauto. }
      refine (proj1 (G _ _ _ _ i i _ Hk _ Ek _ _ eq_refl)). rewrite seq_nth_error by lia. reflexivity.
    - exfalso. apply nth_error_None in Ek. rewrite combine_length in Ek.
      assert (length (midplanes z) = length (snd y)) by (unfold midplanes; rewrite map_length, combine_length; destruct z; [discriminate|]; cbn [tl length] in *; lia). lia. }
  apply lattices_ok; auto.
  - intros c r Hr Hc. apply (Ht (nth i (snd y) 0%Z) r c); auto. eapply nth_error_In; eauto.
  - apply (proj1 (Forall_forall _ _) (assembly_ids m Hv y Hi)). eapply nth_error_In; eauto.
  - exists z, lo, hi. repeat split; auto. rewrite (nth_error_nth _ _ _ (gaps_nth z i lo hi E1 E2)). reflexivity.
Qed.
Lemma core_ok vols : tolerated ->
  foreach (snd (core m)) (fun a vols => let* asy := rdz (assemblies m) a in for_ (length (snd asy)) 0 (lattice_volumes exit m asy) vols) vols
  = foreach core_pushes push vols.
Proof.
  intros Ht. apply foreach_step. intros a s Ha. destruct Hm as (Hv & _). apply assemblies_ok.
  - exact (proj1 (Forall_forall _ _) (core_ids m Hv) a Ha).
  - intros l r c Hl Hr Hc. destruct Ht as [Ht|Ht]; [now left|]. right. apply (proj1 (Forall_forall _ _) Ht). unfold all_cells, all_rtms, all_lattices.
    apply in_flat_map. exists r. split; auto. apply in_flat_map. exists l. split; auto. apply in_flat_map. exists a. auto.
Qed.

(** ** The sums *)
Lemma rsum_map_in {A} (f g : A -> R) l : (forall x, In x l -> f x = g x) -> rsum (map f l) = rsum (map g l).
Proof. intros H. now rewrite (map_ext_in f g l H). Qed.
Lemma rsum_scal_r {A} (f : A -> R) c l : rsum (map (fun a => f a * c) l) = rsum (map f l) * c.
Proof. induction l as [|a l IH]; cbn [map]; rewrite ?rsum_nil, ?rsum_cons; [ring|]. rewrite IH. ring. Qed.
Lemma cell_sum f dz c : rsum (picked f (cell_pushes dz c)) = cell_content m area f c * dz.
Proof.
  unfold cell_pushes, cell_content. destruct (cell_mesh m (the_cell m c)) as [[k x]|]; [|change (rsum [] = 0 * dz); rewrite rsum_nil; ring].
  rewrite <- rsum_scal_r. unfold picked, face_pushes. f_equal. induction (combine (fv x) (material_ids (the_cell m c))) as [|[a b] l IH]; [reflexivity|].
  cbn [map filter fst snd]. destruct (f b); cbn [map fst snd]; now rewrite IH.
Qed.
Lemma rtm_sum f dz r : rsum (picked f (rtm_pushes dz r)) = rtm_content m area f r * dz.
Proof. unfold rtm_pushes, rtm_content. rewrite picked_flat, <- rsum_scal_r. apply rsum_map_in. intros; apply cell_sum. Qed.
Lemma lat_sum f dz l : rsum (picked f (lat_pushes dz l)) = lat_content m area f l * dz.
Proof. unfold lat_pushes, lat_content. rewrite picked_flat, <- rsum_scal_r. apply rsum_map_in. intros; apply rtm_sum. Qed.
Lemma asy_sum f a : rsum (picked f (asy_pushes a)) = asy_volume m area f a.
Proof.
  unfold asy_pushes, asy_volume. destruct (fst (get (assemblies m) a ([], []))) as [|z [|]]; try reflexivity.
  rewrite picked_flat. apply rsum_map_in. intros; apply lat_sum.
Qed.
Lemma core_sum f : rsum (picked f core_pushes) = volume m area f.
Proof. unfold core_pushes, volume. rewrite picked_flat. apply rsum_map_in. intros; apply asy_sum. Qed.

(** ** Which materials *)
Lemma cell_push_in dz c q : In q (cell_pushes dz c) -> has_mesh m c /\ In (fst q) (material_ids (the_cell m c)).
Proof.
  unfold cell_pushes, has_mesh. destruct (cell_mesh m (the_cell m c)) as [[k x]|]; [|intros []]. intros H. split; [discriminate|].
  unfold face_pushes in H. apply in_map_iff in H. destruct H as ([a b] & <- & H). cbn [fst snd]. eapply in_combine_r; eauto.
Qed.
Lemma cell_push_all dz c mat : exists_in (cells m) c -> has_mesh m c -> In mat (material_ids (the_cell m c)) -> exists v, In (mat, v) (cell_pushes dz c).
Proof.
  intros Hc Hh Hi. unfold cell_pushes. unfold has_mesh in Hh. destruct (cell_mesh m (the_cell m c)) as [[k x]|] eqn:E; [|now elim Hh].
  destruct (get_ok (cells m) c no_cell Hc) as (_ & Hin). destruct Hm as (_ & _ & _ & Hme). pose proof (proj1 (Forall_forall _ _) Hme _ Hin) as Hcc.
  destruct Hcc as (k' & x' & Ex & _ & _ & L). { intros N. unfold cell_mesh, the_cell in E. now rewrite N in E. }
  unfold the_cell in E. rewrite E in Ex. injection Ex as <- <-.
  destruct (In_nth _ _ 0%Z Hi) as (n & Hn & En). unfold the_cell in *.
  eexists. unfold face_pushes. apply in_map_iff. exists (nth n (fv x) [], mat). split; [reflexivity|].
  rewrite <- En. eapply nth_error_In. apply nth_combine'; lia.
Qed.
Lemma core_push_in q : In q core_pushes -> exists c, In c (all_cells m) /\ exists_in (cells m) c /\ has_mesh m c /\ In (fst q) (material_ids (the_cell m c)).
Proof.
  intros H. unfold core_pushes in H. apply in_flat_map in H. destruct H as (a & Ha & H). unfold asy_pushes in H.
  destruct Hm as (Hv & _). pose proof (proj1 (Forall_forall _ _) (core_ids m Hv) a Ha) as Hae. destruct (get_ok (assemblies m) a ([], []) Hae) as (_ & Hai).
  destruct (fst (get (assemblies m) a ([], []))) as [|z [|]] eqn:Ez; try contradiction. apply in_flat_map in H. destruct H as ([l dz] & Hl & H). cbn [fst snd] in H.
  apply in_combine_l in Hl. pose proof (proj1 (Forall_forall _ _) (assembly_ids m Hv _ Hai) l Hl) as Hle. destruct (get_ok (lattices m) l ([], []) Hle) as (_ & Hli).
  unfold lat_pushes in H. apply in_flat_map in H. destruct H as (r & Hr & H).
  pose proof (proj1 (Forall_forall _ _) (lattice_ids m Hv _ Hli) r Hr) as Hre. destruct (get_ok (rtms m) r ([], []) Hre) as (_ & Hri).
  unfold rtm_pushes in H. apply in_flat_map in H. destruct H as (c & Hc & H). exists c. split.
  - unfold all_cells, all_rtms, all_lattices. apply in_flat_map. exists r. split; auto. apply in_flat_map. exists l. split; auto. apply in_flat_map. exists a. auto.
  - split; [exact (proj1 (Forall_forall _ _) (rtm_ids m Hv _ Hri) c Hc)|]. eapply cell_push_in; eauto.
Qed.
Lemma core_push_all mat : used m mat -> exists v, In (mat, v) core_pushes.
Proof.
  intros (c & Hc & Hh & Hi). unfold all_cells, all_rtms, all_lattices in Hc. apply in_flat_map in Hc. destruct Hc as (r & Hr & Hc).
  apply in_flat_map in Hr. destruct Hr as (l & Hl & Hr). apply in_flat_map in Hl. destruct Hl as (a & Ha & Hl).
  destruct Hm as (Hv & Hsh & _). pose proof (proj1 (Forall_forall _ _) (core_ids m Hv) a Ha) as Hae. destruct (get_ok (assemblies m) a ([], []) Hae) as (_ & Hai).
  pose proof (proj1 (Forall_forall _ _) (assembly_ids m Hv _ Hai) l Hl) as Hle. destruct (get_ok (lattices m) l ([], []) Hle) as (_ & Hli).
  pose proof (proj1 (Forall_forall _ _) (lattice_ids m Hv _ Hli) r Hr) as Hre. destruct (get_ok (rtms m) r ([], []) Hre) as (_ & Hri).
  pose proof (proj1 (Forall_forall _ _) (rtm_ids m Hv _ Hri) c Hc) as Hce.
  destruct (assemblies_shaped m Hsh _ Hai) as (z & Ez & Lz). pose proof (gaps_length z _ Lz) as Lg.
  destruct (In_nth _ _ 0%Z Hl) as (n & Hn & En).
  destruct (cell_push_all (nth n (gaps z) 0) c mat Hce Hh Hi) as (v & Hp). exists v.
  unfold core_pushes. apply in_flat_map. exists a. split; auto. unfold asy_pushes. rewrite Ez. apply in_flat_map.
  exists (l, nth n (gaps z) 0). split. { rewrite <- En. eapply nth_error_In. apply nth_combine'; lia. }
  cbn [fst snd]. unfold lat_pushes. apply in_flat_map. exists r. split; auto. unfold rtm_pushes. apply in_flat_map. exists c. auto.
Qed.
Lemma core_push_exist : Forall (fun q => exists_in (materials m) (fst q)) core_pushes.
Proof.
  apply Forall_forall. intros q Hq. destruct (core_push_in q Hq) as (c & _ & Hc & Hh & Hi). destruct (get_ok (cells m) c no_cell Hc) as (_ & Hin).
  destruct Hm as (Hv & _). unfold has_mesh, the_cell in *. destruct (cell_ids m Hv _ Hin) as (_ & _ & [E|(x & _ & _ & F)]).
  - unfold cell_mesh in Hh. rewrite E in Hh. destruct (meshes_like m (mtype (get (cells m) c no_cell))) as [[]|]; now elim Hh.
  - exact (proj1 (Forall_forall _ _) F _ Hi).
Qed.
Lemma picked_used i : picked (Z.eqb i) core_pushes = [] <-> ~ used m i.
Proof.
  split.
  - intros E U. destruct (core_push_all i U) as (v & H). assert (In v (picked (Z.eqb i) core_pushes)); [|now rewrite E in *].
    unfold picked. apply in_map_iff. exists (i, v). split; [reflexivity|]. apply filter_In. split; auto. apply Z.eqb_refl.
  - intros U. destruct (picked (Z.eqb i) core_pushes) as [|v l] eqn:E; [reflexivity|]. elim U. assert (H : In v (picked (Z.eqb i) core_pushes)) by (rewrite E; now left).
    unfold picked in H. apply in_map_iff in H. destruct H as (q & _ & H). apply filter_In in H. destruct H as (H & Eq). apply Z.eqb_eq in Eq.
    destruct (core_push_in q H) as (c & H1 & _ & H2 & H3). exists c. now rewrite Eq.
Qed.

(** ** The function *)
Lemma sorted_sum l : l <> [] -> sum (stdsort R Rltb l) = Ret (rsum l).
Proof.
  intros N. destruct (Hsort R Rltb l (Rltb_swo l)) as (P & _). rewrite sum_total.
  - f_equal. symmetry. now apply rsum_perm.
  - intros E. rewrite E in P. apply Permutation_sym, Permutation_nil in P. contradiction.
Qed.
Lemma sorted_empty : sum (stdsort R Rltb []) = Ub.
Proof. destruct (Hsort R Rltb [] (Rltb_swo [])) as (P & _). apply Permutation_nil in P. rewrite P. reflexivity. Qed.
Lemma volumes_collected : tolerated -> exists v, material_volumes stdsort exit m = mapo (fun l => sum (stdsort R Rltb l)) v /\
  length v = length (materials m) /\ forall i, (i < length (materials m))%nat -> nth i v [] = picked (Z.eqb (Z.of_nat i)) core_pushes.
Proof.
  intros Ht. unfold material_volumes. rewrite core_ok by auto.
  destruct (push_all core_pushes (repeat [] (length (materials m)))) as (v & E1 & E2 & E3).
  { eapply Forall_impl; [|apply core_push_exist]. intros q. unfold exists_in. now rewrite repeat_length. }
  rewrite E1. cbn [bind]. exists v. rewrite repeat_length in E2, E3. split; [reflexivity|]. split; [exact E2|]. intros i Hi. rewrite E3 by auto.
  now rewrite nth_repeat.
Qed.
Lemma mapo_seq' {A B} (f : A -> outcome B) (g : nat -> B) d v : (forall i, (i < length v)%nat -> f (nth i v d) = Ret (g i)) -> mapo f v = Ret (map g (seq 0 (length v))).
Proof.
  revert g. induction v as [|a v IH]; intros g H; [reflexivity|]. cbn [mapo length seq map]. assert (E : f a = Ret (g 0%nat)) by (apply (H 0%nat); cbn; lia). rewrite E. cbn [bind].
  rewrite (IH (fun i => g (S i))). - cbn [bind]. now rewrite <- seq_shift, map_map. - intros i Hi. apply (H (S i)). cbn. lia.
Qed.
Lemma material_volumes_ok : tolerated -> (forall i, (i < length (materials m))%nat -> used m (Z.of_nat i)) ->
  material_volumes stdsort exit m = Ret (map (fun i => volume m area (Z.eqb (Z.of_nat i))) (seq 0 (length (materials m)))).
Proof.
  intros Ht Hu. destruct (volumes_collected Ht) as (v & E & L & H). rewrite E, <- L. apply mapo_seq' with (d := []).
  intros i Hi. rewrite H by lia. rewrite sorted_sum; [now rewrite core_sum|]. intros N. apply picked_used in N. apply N, Hu. lia.
Qed.
Lemma mapo_Ub {A B} (f : A -> outcome B) l : (forall a, In a l -> f a = Ub \/ exists b, f a = Ret b) -> (exists a, In a l /\ f a = Ub) -> mapo f l = Ub.
Proof.
  induction l as [|a l IH]; intros H (b & Hb & Eb); [destruct Hb|]. cbn [mapo]. destruct (H a (or_introl eq_refl)) as [E|(c & E)]; rewrite E; [reflexivity|]. cbn [bind].
  destruct Hb as [->|Hb]; [congruence|]. rewrite IH; [reflexivity|intros; apply H; now right|]. exists b; auto.
Qed.
Lemma material_volumes_unused i : tolerated -> (i < length (materials m))%nat -> ~ used m (Z.of_nat i) -> material_volumes stdsort exit m = Ub.
Proof.
  intros Ht Hi Hu. destruct (volumes_collected Ht) as (v & E & L & H). rewrite E. apply mapo_Ub.
  - intros a _. destruct a as [|x a]; [left; apply sorted_empty|]. right. eexists. now apply sorted_sum.
  - exists []. split; [|apply sorted_empty]. pose proof (proj2 (picked_used _) Hu) as N. rewrite <- N, <- (H i Hi). apply nth_In. lia.
Qed.
End Volumes.
