(** The soup of one coarse cell, and the cell again from that soup. *)
From Coq Require Import String.
From Coq Require Import List Arith ZArith Lia Bool Reals Lra Permutation Sorting.Sorted.
From Verif Require Import Base Loops Arith Box_Model Poly_Spec Poly_Proofs QSeg_Spec StringView_Model Logger_Model TextIo_Model Ascii_Model Elem_Model Elem_Spec Elem_Proofs Sort_Spec
  Soup_Model Soup_Spec Soup_Proofs Soup_Sort_Proofs Soup_Merge_Proofs Soup_Final_Proofs
  XSec_Model XSec_Spec XSec_Proofs Poly_Model QSeg_Model QPoly_Model QPoly_Spec PinCyl_Model Grid_Model Grid_Proofs Box_Proofs
  Fvm_Model Fvm_Spec Fvm_Proofs Fvm_Query_Proofs Fvm_Sort_Proofs Xdmf_Model Xdmf_Spec Xdmf_Proofs Mpact_Model Mpact_Spec Mpact_Proofs
  Export_Model Export_Spec Export_Sets_Proofs Export_Cell_Proofs Export_Proofs Import_Model Import_Spec Import_Mesh_Proofs ModelIo_Model ModelIo_Spec.
Import ListNotations.
Local Open Scope list_scope.

(** ** The element sets of the cross sections *)
Definition good_name (n : list Z) : Prop := name_ok n /\ forall q, n <> data_name q.
Definition good_extra (n : nat) (extra : list (list Z * list R)) : Prop :=
  NoDup (txt "Material_ID" :: map fst extra) /\ Forall (fun e => good_name (fst e) /\ length (snd e) = n) extra.
Lemma no_slash n : existsb (Z.eqb SLASH) n = false -> ~ In SLASH n.
Proof. intros H X. assert (E : existsb (Z.eqb SLASH) n = true) by (apply existsb_exists; exists SLASH; split; auto). congruence. Qed.
Lemma not_data n : match rev n with c :: d :: _ => negb ((c =? 97) && (d =? 116))%Z | _ => false end = true -> forall q, n <> data_name q.
Proof.
  intros E q X. subst n. unfold data_name in E. rewrite rev_app_distr in E. discriminate E.
Qed.
Lemma good_constants : Forall good_name [txt "Material_ID"; txt "One_Group_Avg_XS_a"; txt "One_Group_Avg_XS_f"; txt "One_Group_Avg_XS_s"; txt "One_Group_Avg_XS_t";
  txt "Mean_Chord_Length"; txt "Knudsen_Number"].
Proof.
  apply Forall_forall. intros n H. cbn [In] in H. repeat destruct H as [<-|H]; [..|contradiction];
    (split; [split; [discriminate|split; [discriminate|split; [apply no_slash; reflexivity|split; discriminate]]]|apply not_data; reflexivity]).
Qed.
Definition group_name (g : nat) : list Z := txt "Group_" ++ digits5 (Z.of_nat g) ++ txt "_Total_XS".
Lemma group_chars g : Forall (fun c => 48 <= c <= 57)%Z (digits5 g).
Proof. unfold digits5. repeat constructor; match goal with |- context [(?a mod 10)%Z] => pose proof (Z.mod_pos_bound a 10 ltac:(lia)) end; lia. Qed.
Lemma group_good g : good_name (group_name g).
Proof.
  unfold group_name. split; [split; [|split; [|split; [|split]]]|]; try discriminate.
  - intros H. apply in_app_or in H. destruct H as [H|H]; [revert H; apply no_slash; reflexivity|].
    apply in_app_or in H. destruct H as [H|H]; [|revert H; apply no_slash; reflexivity].
    pose proof (group_chars (Z.of_nat g)) as C. rewrite Forall_forall in C. specialize (C _ H). unfold SLASH in C. lia.
  - apply not_data. rewrite !rev_app_distr. reflexivity.
Qed.
Lemma group_inj g g' : (Z.of_nat g < 100000)%Z -> (Z.of_nat g' < 100000)%Z -> group_name g = group_name g' -> g = g'.
Proof.
  intros H H' E. unfold group_name in E. apply app_inv_head in E. apply app_inv_tail in E. apply digits5_inj in E; lia.
Qed.

Lemma nodup_map {A B} (f : A -> B) l : (forall a b, In a l -> In b l -> f a = f b -> a = b) -> NoDup l -> NoDup (map f l).
Proof.
  induction l as [|a l IH]; intros H N; [constructor|]. inversion N; subst. cbn. constructor.
  - intros X. apply in_map_iff in X. destruct X as (b & E & Hb). apply H in E; [subst; contradiction|now right|now left].
  - apply IH; auto. intros; apply H; auto; now right.
Qed.
Lemma averages_ok x ng w : isMacro x = true -> ng <> O -> shape ng x -> XSec_Model.validate x = Ret w -> exists t, averages x = Ret t.
Proof.
  intros Hi Hn Hs Hv. unfold averages. rewrite Hi, Hv. cbn [negb bind].
  destruct (collapse_ok ng x Hs Hn ltac:(intros; congruence)) as (y & E & Sy & _). rewrite E. cbn [bind].
  destruct Sy as (_ & L1 & L2 & _ & _ & L3 & _).
  destruct (xa y) as [|a [|]]; try discriminate. destruct (xf y) as [|b [|]]; try discriminate. destruct (xs y) as [|c [|]]; try discriminate.
  cbn. eauto.
Qed.
Lemma averages_all m xsecs : xsecs_ok m xsecs -> exists avg, mapo averages xsecs = Ret avg /\ length avg = length xsecs.
Proof.
  intros (_ & H). induction xsecs as [|x l IH]; [exists []; auto|]. inversion H as [|? ? (Hi & ng & w & Hn & Hs & Hv) Hl]; subst.
  destruct (averages_ok x ng w Hi Hn Hs Hv) as (t & E). destruct (IH Hl) as (avg & E' & L). exists (t :: avg). cbn [mapo length]. rewrite E. cbn [bind]. rewrite E'. cbn. auto.
Qed.
Lemma extra_ok m knudsen xsdata xsecs avg k x mats : mesh_ok k x -> fv x <> [] -> length mats = length (fv x) ->
  Forall (exists_in (materials m)) mats -> xsecs_storable m knudsen xsdata xsecs ->
  (knudsen || xsdata = true -> length avg = length (materials m)) ->
  exists extra, extra_sets knudsen xsdata xsecs avg k x mats = Ret extra /\ good_extra (length (fv x)) extra.
Proof.
  intros Hx Hf Hm Hid (Hxs & Hg) Ha. unfold extra_sets.
  set (mcl := fun c => value_of (chord k (map (vertex x) c))).
  assert (E1 : mapo (fun i => let* f := rd (fv x) i in let* p := mapo (rdz (mv x)) f in chord k p) (seq 0 (length mats)) = Ret (map mcl (fv x))).
  { rewrite Hm. apply mapo_rd0. intros c Hc. rewrite (conn_verts k x mats Hx Hm c Hc). cbn [bind]. apply chord_ret. rewrite map_length. apply (Hx c Hc). }
  rewrite Forall_forall in Hid.
  assert (E2 : knudsen || xsdata = true -> exists one, mapo (rdz avg) mats = Ret one /\ length one = length (fv x)).
  { intros Hk. specialize (Ha Hk). exists (map (fun id => nth (Z.to_nat id) avg (0, 0, 0, 0)%R) mats). split; [|now rewrite map_length].
    apply mapo_map. intros id Hi. specialize (Hid id Hi). unfold exists_in in Hid. apply rdz_nth; [lia|]. apply nth_error_nth'. lia. }
  assert (Hpos : (0 < length (materials m))%nat).
  { destruct mats as [|id mats]; [destruct (fv x); cbn in Hm; congruence|]. specialize (Hid id (or_introl eq_refl)). unfold exists_in in Hid. lia. }
  assert (E3 : xsdata = true -> exists groups,
     (let* x0 := rdz xsecs 0 in mapo (fun g => let* n := getASCIINumber (Z.of_nat g) in
        let* d := mapo (fun id => let* y := rdz xsecs id in total_of y g) mats in Ret (txt "Group_" ++ n ++ txt "_Total_XS", d)) (seq 0 (numGroups x0))) = Ret groups /\
     exists ng, (Z.of_nat ng <= 100000)%Z /\ map fst groups = map group_name (seq 0 ng) /\ Forall (fun e => length (snd e) = length (fv x)) groups).
  { intros Hd. destruct (Hxs ltac:(rewrite Hd; apply orb_true_r)) as (Lx & _). destruct (Hg Hd) as (ng & Hng & Fs).
    assert (R : forall id, exists_in (materials m) id -> exists y, rdz xsecs id = Ret y /\ shape ng y).
    { intros id Hi. unfold exists_in in Hi. destruct (nth_error xsecs (Z.to_nat id)) as [y|] eqn:E; [|apply nth_error_None in E; lia].
      exists y. split; [apply rdz_nth; [lia|auto]|]. rewrite Forall_forall in Fs. apply Fs. eapply nth_error_In; eauto. }
    destruct (R 0%Z) as (x0 & E0 & S0); [unfold exists_in; lia|]. rewrite E0. cbn [bind]. replace (numGroups x0) with ng by (symmetry; apply S0).
    set (dat := fun g id => match rdz xsecs id with Ret y => nth g (xa y) 0%R + nth g (xs y) 0%R | _ => 0%R end).
    exists (map (fun g => (group_name g, map (dat g) mats)) (seq 0 ng)). split.
    - apply mapo_map. intros g Hgg. apply in_seq in Hgg. rewrite ascii5 by lia. cbn [bind].
      rewrite (mapo_map _ (dat g)); [reflexivity|]. intros id Hi. destruct (R id (Hid id Hi)) as (y & Ey & Sy). unfold dat. rewrite Ey. cbn [bind]. unfold total_of.
      destruct Sy as (_ & La & _ & _ & _ & Ls & _).
      rewrite (proj2 (rd_Ret (xa y) g (nth g (xa y) 0%R))) by (apply nth_error_nth'; lia). cbn [bind].
      rewrite (proj2 (rd_Ret (xs y) g (nth g (xs y) 0%R))) by (apply nth_error_nth'; lia). reflexivity.
    - exists ng. split; auto. split; [rewrite map_map; reflexivity|]. apply Forall_forall. intros e He. apply in_map_iff in He. destruct He as (g & <- & _). cbn. now rewrite map_length. }
  assert (GN : forall ng, (Z.of_nat ng <= 100000)%Z -> NoDup (map group_name (seq 0 ng))).
  { intros ng Hng. apply nodup_map; [|apply seq_NoDup]. intros a b Ia Ib. apply in_seq in Ia. apply in_seq in Ib. apply group_inj; lia. }
  pose proof good_constants as GC. rewrite Forall_forall in GC.
  assert (G1 : forall n, In n [txt "One_Group_Avg_XS_a"; txt "One_Group_Avg_XS_f"; txt "One_Group_Avg_XS_s"; txt "One_Group_Avg_XS_t"] -> good_name n)
    by (intros n Hn; apply GC; cbn [In] in *; tauto).
  assert (NG : forall ng n, In n (map group_name (seq 0 ng)) -> exists r, n = 71%Z :: r) by (intros ng n Hn; apply in_map_iff in Hn; destruct Hn as (g & <- & _); eexists; reflexivity).
  assert (A1 : exists one, (if knudsen || xsdata then mapo (rdz avg) mats else Ret []) = Ret one /\ (knudsen || xsdata = true -> length one = length (fv x))).
  { destruct (knudsen || xsdata); [destruct (E2 eq_refl) as (one & ? & ?); eauto|exists []; split; [reflexivity|discriminate]]. }
  destruct A1 as (one & A1 & L1).
  assert (A2 : exists groups, (if xsdata then let* x0 := rdz xsecs 0 in mapo (fun g => let* n := getASCIINumber (Z.of_nat g) in
        let* d := mapo (fun id => let* y := rdz xsecs id in total_of y g) mats in Ret (txt "Group_" ++ n ++ txt "_Total_XS", d)) (seq 0 (numGroups x0)) else Ret []) = Ret groups /\
     exists ng, (Z.of_nat ng <= 100000)%Z /\ map fst groups = map group_name (seq 0 ng) /\ Forall (fun e => length (snd e) = length (fv x)) groups).
  { destruct xsdata; [apply E3; auto|]. exists []. split; auto. exists O. split; [lia|]. split; auto. }
  destruct A2 as (groups & A2 & ng & Hng & Mg & Lg).
  assert (A3 : exists mcls kn, (if knudsen then mapo (fun i => let* f := rd (fv x) i in let* p := mapo (rdz (mv x)) f in chord k p) (seq 0 (length mats)) else Ret []) = Ret mcls /\
     (if knudsen then mapo (fun i => let* t := rd one i in let* c := rd mcls i in Ret (1 / (snd t * c))%R) (seq 0 (length one)) else Ret []) = Ret kn /\
     (knudsen = true -> length mcls = length (fv x) /\ length kn = length (fv x))).
  { destruct knudsen; [|exists [], []; repeat split; discriminate]. rewrite E1. exists (map mcl (fv x)).
    pose proof (mapo_rd2 (fun t c => (1 / (snd t * c))%R) one (map mcl (fv x)) [] [] eq_refl) as Ek. cbn [app length] in Ek.
    eexists. split; [reflexivity|]. split; [apply Ek; rewrite map_length; apply L1; reflexivity|]. intros _. rewrite map_length. split; auto.
    rewrite map_length, combine_length, map_length, L1 by reflexivity. lia. }
  destruct A3 as (mcls & kn & A3 & A4 & L4).
  eexists. split.
  - rewrite A3. cbn [bind]. rewrite A1. cbn [bind]. rewrite A2. cbn [bind]. rewrite A4. cbn [bind]. reflexivity.
  - split.
    + rewrite !map_app, Mg.
      assert (N1 : NoDup (map fst (if knudsen || xsdata then
         [(txt "One_Group_Avg_XS_a", map (fun t => fst (fst (fst t))) one); (txt "One_Group_Avg_XS_f", map (fun t => snd (fst (fst t))) one);
          (txt "One_Group_Avg_XS_s", map (fun t => snd (fst t)) one); (txt "One_Group_Avg_XS_t", map snd one)] else []))).
      { destruct (knudsen || xsdata); [|constructor]. cbn [map fst]. repeat constructor; cbn [In]; intros X; repeat destruct X as [X|X]; try contradiction; discriminate X. }
      assert (I1 : forall n, In n (map fst (if knudsen || xsdata then
         [(txt "One_Group_Avg_XS_a", map (fun t => fst (fst (fst t))) one); (txt "One_Group_Avg_XS_f", map (fun t => snd (fst (fst t))) one);
          (txt "One_Group_Avg_XS_s", map (fun t => snd (fst t)) one); (txt "One_Group_Avg_XS_t", map snd one)] else [])) -> exists r, n = 79%Z :: r).
      { intros n. destruct (knudsen || xsdata); cbn [map fst In]; [|tauto]. intros X; repeat destruct X as [<-|X]; try contradiction; eexists; reflexivity. }
      assert (I3 : forall n, In n (map fst (if knudsen then [(txt "Mean_Chord_Length", mcls); (txt "Knudsen_Number", kn)] else [])) -> exists r, n = 77%Z :: 101%Z :: r \/ n = 75%Z :: r).
      { intros n. destruct knudsen; cbn [map fst In]; [|tauto]. intros [<-|[<-|[]]]; eexists; [left|right]; reflexivity. }
      assert (N3 : NoDup (map fst (if knudsen then [(txt "Mean_Chord_Length", mcls); (txt "Knudsen_Number", kn)] else []))).
      { destruct knudsen; [|constructor]. cbn [map fst]. repeat constructor; cbn [In]; intros X; repeat destruct X as [X|X]; try contradiction; discriminate X. }
      constructor.
      * rewrite !in_app_iff. intros [X|[X|X]].
        -- apply I1 in X. destruct X as (r & X). discriminate X.
        -- apply NG in X. destruct X as (r & X). discriminate X.
        -- apply I3 in X. destruct X as (r & [X|X]); discriminate X.
      * apply NoDup_app_intro; [exact N1| |].
        -- apply NoDup_app_intro; [now apply GN|exact N3|]. intros n Hn Hn'. apply NG in Hn. apply I3 in Hn'. destruct Hn as (r & ->). destruct Hn' as (r' & [X|X]); discriminate X.
        -- intros n Hn Hn'. apply I1 in Hn. destruct Hn as (r & ->). apply in_app_or in Hn'. destruct Hn' as [Hn'|Hn'].
           ++ apply NG in Hn'. destruct Hn' as (r' & X); discriminate X.
           ++ apply I3 in Hn'. destruct Hn' as (r' & [X|X]); discriminate X.
    + apply Forall_app. split; [|apply Forall_app; split].
      * destruct (knudsen || xsdata); [|constructor]. specialize (L1 eq_refl).
        repeat constructor; cbn [fst snd]; rewrite ?map_length; auto; apply G1; cbn [In]; auto.
      * apply Forall_forall. intros e He. split.
        -- apply (in_map fst) in He. rewrite Mg in He. apply in_map_iff in He. destruct He as (g & <- & _). apply group_good.
        -- rewrite Forall_forall in Lg. auto.
      * destruct knudsen; [|constructor]. destruct (L4 eq_refl). repeat constructor; cbn [fst snd]; auto; apply GC; cbn [In]; auto 10.
Qed.

(** ** The soup of a cell *)
Lemma all_sets (ids : list Z) : ids <> [] -> forall (l : list (list Z * list R)) (s : soup (R * R * R) R) v e pre, stores s (mkA v e pre) ->
  NoDup (map es_name pre ++ map fst l) -> Forall (fun e => length (snd e) = length ids) l ->
  exists s', foreach l (fun e s => with_set true s (fst e) ids (snd e)) s = Ret s' /\
    stores s' (mkA v e (pre ++ map (fun e => mkElset (fst e) ids (snd e)) l)).
Proof.
  intros Hi. induction l as [|(n, d) l IH]; intros s v e pre St N F.
  - exists s. split; auto. cbn [map]. now rewrite app_nil_r.
  - inversion F as [|? ? F1 F2]; subst. cbn [map fst snd foreach] in *. destruct (with_set_ok true s _ n ids d St) as (s1 & E1 & S1).
    + split; [|split]; cbn [es_name es_ids es_data a_elsets]; auto. apply NoDup_remove_2 in N. intros X. apply N. apply in_or_app. now left.
    + rewrite E1. cbn [bind]. cbn [a_verts a_elems a_elsets] in S1. destruct (IH s1 v e _ S1) as (s2 & E2 & S2); auto.
      * rewrite map_app. cbn [map es_name]. rewrite <- app_assoc. exact N.
      * exists s2. split; auto. rewrite <- app_assoc in S2. exact S2.
Qed.
Definition flat3 (p : R * R) : R * R * R := (fst p, snd p, 0%R).
Definition mat_set (n : nat) (mats : list Z) : elset R := mkElset (lit "Material_ID") (map Z.of_nat (seq 0 n)) (map IZR mats).
Definition cell_content (k : kind) (x : mesh R) (mats : list Z) (a : asoup (R * R * R) R) : Prop :=
  content_ok a /\ writable a /\ a_verts a = map flat3 (mv x) /\ a_elems a = map (fun c => (elem_type k, c)) (fv x) /\ In (mat_set (length (fv x)) mats) (a_elsets a).

Lemma per_elem k : verticesPerElem (elem_type k) = Z.of_nat (nverts k).
Proof. now destruct k. Qed.
Lemma faces_size k (fs : list (list Z)) : (forall c, In c fs -> length c = nverts k) -> length (concat fs) = (nverts k * length fs)%nat.
Proof. induction fs as [|c fs IH]; intros H; [cbn; lia|]. cbn [concat]. rewrite app_length, IH, (H c) by (try (intros; apply H; now right); now left). cbn [length]. lia. Qed.
Lemma cell_soup_ok stdsort knudsen xsdata m xsecs avg c k x extra : sort_contract stdsort ->
  cell_mesh m c = Some (k, x) -> mesh_ok k x -> fv x <> [] -> length (material_ids c) = length (fv x) ->
  (3 * Z.of_nat (length (mv x)) <= intMax)%Z -> (9 * Z.of_nat (length (fv x)) <= intMax)%Z ->
  extra_sets knudsen xsdata xsecs avg k x (material_ids c) = Ret extra -> good_extra (length (fv x)) extra ->
  exists s a, cell_soup stdsort knudsen xsdata m xsecs avg c = Ret s /\ stores s a /\ cell_content k x (material_ids c) a /\
    names_sorted (a_elsets a) /\
    Permutation (map (fun e => mkElset (fst e) (map Z.of_nat (seq 0 (length (fv x)))) (snd e)) ((txt "Material_ID", map IZR (material_ids c)) :: extra)) (a_elsets a).
Proof.
  intros Hsort Hc Hx Hf Hm Hs1 Hs2 Ex (Gn & Gf). unfold cell_soup. unfold cell_mesh in Hc. rewrite meshes_like_eq in Hc.
  destruct (kind_of (mtype c)) as [k'|]; [|discriminate]. destruct (meshes_of m (mtype c)) as [ms|]; [|discriminate].
  destruct (Z.ltb_spec (mesh_id c) 0); [discriminate|]. destruct (nth_error ms (Z.to_nat (mesh_id c))) as [x'|] eqn:En; [|discriminate]. injection Hc as -> ->.
  rewrite (rdz_nth ms (mesh_id c) x ltac:(lia) En). cbn [bind].
  destruct (to_soup_ok (F := R) (G := R) 0%R k x) as (s0 & E0 & S0). rewrite E0. cbn [bind].
  assert (Ei : map Z.of_nat (seq 0 (length (etypes s0))) = map Z.of_nat (seq 0 (length (fv x)))).
  { destruct S0 as (_ & Et & _). rewrite Et. cbn [a_elems]. now rewrite !map_length. }
  rewrite Ei. clear Ei. rewrite Ex. cbn [bind]. set (ids := map Z.of_nat (seq 0 (length (fv x)))).
  assert (Li : length ids = length (fv x)) by (unfold ids; now rewrite map_length, seq_length).
  assert (Hids : ids <> []) by (intros X; rewrite X in Li; destruct (fv x); cbn in *; congruence).
  set (l := (txt "Material_ID", map IZR (material_ids c)) :: extra).
  assert (Fl : Forall (fun e => good_name (fst e) /\ length (snd e) = length ids) l).
  { constructor; cbn [fst snd].
    - split; [|rewrite map_length; lia]. pose proof good_constants as GC. inversion GC; auto.
    - rewrite Li. exact Gf. }
  destruct (all_sets ids Hids l s0 _ _ [] S0) as (s1 & E1 & S1).
  { exact Gn. }
  { eapply Forall_impl; [|exact Fl]. now intros e (_ & H'). }
  rewrite E1. cbn [bind app] in S1 |- *.
  set (a := mkA (map (fun q => (q, 0%R)) (mv x)) (map (fun c => (elem_type k, c)) (fv x)) (map (fun e => mkElset (fst e) ids (snd e)) l)) in S1.
  assert (C1 : content_ok a).
  { split; cbn [a a_elsets].
    - rewrite map_map. cbn [es_name]. exact Gn.
    - apply Forall_forall. intros e He. apply in_map_iff in He. destruct He as (e' & <- & Hl). rewrite Forall_forall in Fl. destruct (Fl _ Hl) as (_ & L). split; cbn [es_ids es_data]; auto. }
  assert (A1 : Soup_Spec.ascending (a_elsets a)).
  { apply Forall_forall. intros e He. apply in_map_iff in He. destruct He as (e' & <- & _). cbn [es_ids]. unfold ids. clear.
    generalize 0%nat. induction (length (fv x)) as [|n IH]; intros i; cbn; constructor; auto.
    apply Forall_forall. intros z Hz. apply in_map_iff in Hz. destruct Hz as (j & <- & Hj). apply in_seq in Hj. lia. }
  destruct (sort_ascending stdsort Hsort s1 a S1 C1 A1 ltac:(discriminate)) as (s2 & l2 & E2 & S2 & N2 & P2).
  exists s2, (mkA (a_verts a) (a_elems a) l2). split; [exact E2|]. split; [exact S2|]. cut (cell_content k x (material_ids c) (mkA (a_verts a) (a_elems a) l2)); [intros Y; split; [exact Y|split; [exact N2|exact P2]]|].
  assert (In2 : forall e, In e l2 -> exists e', In e' l /\ e = mkElset (fst e') ids (snd e')).
  { intros e He. eapply Permutation_in in He; [|apply Permutation_sym; exact P2]. apply in_map_iff in He. destruct He as (e' & <- & Hl). eauto. }
  rewrite Forall_forall in Fl. destruct C1 as (C1 & C2).
  split; [split; cbn [a_elsets]|split; [constructor; cbn [a_elems a_verts a_elsets a]|split; [|split]]].
  - eapply Permutation_NoDup; [apply Permutation_map; exact P2|exact C1].
  - eapply Permutation_Forall; eauto.
  - apply Forall_forall. intros e He. apply in_map_iff in He. destruct He as (f & <- & Hin). split; cbn [fst snd]; [now destruct k|]. rewrite per_elem. f_equal. apply (Hx f Hin).
  - intros t (_ & Ht). destruct (fv x) as [|f fs]; [congruence|]. specialize (Ht (elem_type k, f) (or_introl eq_refl)). cbn in Ht. subst t. unfold Xdmf_Spec.face. destruct k; cbn; auto.
  - apply Forall_forall. intros e He. destruct (In2 e He) as (e' & Hl & ->). cbn [es_name]. apply (Fl e' Hl).
  - intros e e' He He' _. destruct (In2 e' He') as (e2 & Hl & ->). cbn [es_name]. apply (Fl e2 Hl).
  - now rewrite map_length.
  - rewrite map_map. cbn [snd]. rewrite map_id, map_length, (faces_size k) by (intros f Hin; apply (Hx f Hin)).
    assert (nverts k <= 8)%nat by (destruct k; cbn; lia). nia.
  - apply Forall_forall. intros e He. destruct (In2 e He) as (e' & Hl & ->). cbn [es_ids]. rewrite Li. unfold intMax in *. lia.
  - cbn [a a_verts]. apply map_ext. now intros [u w].
  - reflexivity.
  - eapply Permutation_in; [exact P2|]. left. reflexivity.
Qed.

(** ** Meshes that are moved *)
Definition moved_by (o p : R * R) : R * R := (fst p + fst o, snd p + snd o)%R.
Lemma vertex_at o x k c : mesh_ok k x -> In c (fv x) -> map (vertex (at_place o x)) c = map (moved_by o) (map (vertex x) c).
Proof.
  intros Hx Hc. rewrite map_map. apply map_ext_in. intros v Hv. destruct (Hx c Hc) as (_ & Hr). specialize (Hr v Hv).
  unfold vertex. cbn [at_place mv]. apply (nth_map_lt (moved_by o)). lia.
Qed.
Lemma curve_moved o a b c t : curve2 (moved_by o a) (moved_by o b) (moved_by o c) t = moved_by o (curve2 a b c t).
Proof. unfold curve2, moved_by, lag. cbn [fst snd]. f_equal; field. Qed.
Lemma qedges_map o vs ms : qedges (map (moved_by o) vs) (map (moved_by o) ms) = map (fun e => (moved_by o (fst (fst e)), moved_by o (snd (fst e)), moved_by o (snd e))) (qedges vs ms).
Proof.
  unfold qedges. rewrite edges_map. revert ms. induction (Poly_Spec.edges vs) as [|e es IH]; intros [|p ms]; cbn; auto. now rewrite IH.
Qed.
Lemma box_at k x o x0 y0 x1 y1 : mesh_ok k x -> box_around k x x0 y0 x1 y1 ->
  box_around k (at_place o x) (x0 + fst o) (y0 + snd o) (x1 + fst o) (y1 + snd o).
Proof.
  intros Hx. unfold box_around. destruct (Fvm_Model.quadratic k).
  - set (es := flat_map (face_edges x) (fv x)). intros (H & H1 & H2 & H3 & H4).
    assert (E : flat_map (face_edges (at_place o x)) (fv (at_place o x)) = map (fun e => (moved_by o (fst (fst e)), moved_by o (snd (fst e)), moved_by o (snd e))) es).
    { unfold es. cbn [at_place fv]. assert (Hx' : forall c, In c (fv x) -> map (vertex (at_place o x)) c = map (moved_by o) (map (vertex x) c)) by (intros; eapply vertex_at; eauto).
      revert Hx'. clear. induction (fv x) as [|c l IH]; intros H; [reflexivity|]. cbn [flat_map]. rewrite map_app, <- IH by (intros; apply H; now right). f_equal.
      unfold face_edges. rewrite (H c) by now left. now rewrite firstn_map, skipn_map, qedges_map. }
    rewrite E. clear E. split; [|split; [|split; [|split]]].
    + intros a b c t Hin Ht. apply in_map_iff in Hin. destruct Hin as (((a', b'), c') & E & Hin). cbn [fst snd] in E. injection E as <- <- <-. rewrite curve_moved.
      specialize (H _ _ _ _ Hin Ht). unfold moved_by. cbn [fst snd]. lra.
    + destruct H1 as (a & b & c & t & Hin & Ht & E). exists (moved_by o a), (moved_by o b), (moved_by o c), t. split; [apply in_map_iff; exists (a, b, c); auto|]. split; auto. rewrite curve_moved. unfold moved_by. cbn [fst snd]. lra.
    + destruct H2 as (a & b & c & t & Hin & Ht & E). exists (moved_by o a), (moved_by o b), (moved_by o c), t. split; [apply in_map_iff; exists (a, b, c); auto|]. split; auto. rewrite curve_moved. unfold moved_by. cbn [fst snd]. lra.
    + destruct H3 as (a & b & c & t & Hin & Ht & E). exists (moved_by o a), (moved_by o b), (moved_by o c), t. split; [apply in_map_iff; exists (a, b, c); auto|]. split; auto. rewrite curve_moved. unfold moved_by. cbn [fst snd]. lra.
    + destruct H4 as (a & b & c & t & Hin & Ht & E). exists (moved_by o a), (moved_by o b), (moved_by o c), t. split; [apply in_map_iff; exists (a, b, c); auto|]. split; auto. rewrite curve_moved. unfold moved_by. cbn [fst snd]. lra.
  - cbn [at_place mv]. intros (H & (p1 & I1 & E1) & (p2 & I2 & E2) & (p3 & I3 & E3) & (p4 & I4 & E4)). split; [|split; [|split; [|split]]].
    + intros p Hin. apply in_map_iff in Hin. destruct Hin as (q & <- & Hin). specialize (H q Hin). cbn. lra.
    + exists (moved_by o p1). split; [now apply (in_map (moved_by o))|]. cbn. lra.
    + exists (moved_by o p2). split; [now apply (in_map (moved_by o))|]. cbn. lra.
    + exists (moved_by o p3). split; [now apply (in_map (moved_by o))|]. cbn. lra.
    + exists (moved_by o p4). split; [now apply (in_map (moved_by o))|]. cbn. lra.
Qed.
Lemma mesh_ok_at k x o : mesh_ok k x -> mesh_ok k (at_place o x).
Proof. intros H c Hc. cbn [at_place fv mv] in *. unfold face_ok. rewrite map_length. exact (H c Hc). Qed.
Lemma box_at_ok k x o w h : mesh_ok k x -> fv x <> [] -> box_around k x 0 0 w h ->
  box_of k (at_place o x) = Ret (mkBox [fst o; snd o] [(w + fst o)%R; (h + snd o)%R]).
Proof.
  intros Hx Hf Hb. assert (Hv : mv (at_place o x) <> []).
  { cbn [at_place mv]. destruct (fv x) as [|c l] eqn:E; [congruence|]. destruct (Hx c) as (L & Hr); [rewrite E; now left|].
    destruct c as [|v c]; [destruct k; discriminate|]. specialize (Hr v (or_introl eq_refl)). destruct (mv x); cbn in *; [lia|discriminate]. }
  destruct (box_of_ok k (at_place o x) (mesh_ok_at _ _ _ Hx) Hf Hv) as (x0 & y0 & x1 & y1 & E & B). rewrite E.
  pose proof (box_at k x o _ _ _ _ Hx Hb) as B'. destruct (box_unique _ _ _ _ _ _ _ _ _ _ B B') as (-> & -> & -> & ->). now rewrite !Rplus_0_l.
Qed.
Lemma shift_at o x : shift (fst o) (snd o) (at_place o x) = at_place (0, 0)%R x.
Proof. unfold shift, at_place. cbn [is_morton has_vf mv fv vf_offs vf]. rewrite map_map. f_equal. apply map_ext. intros [a b]. cbn. f_equal; lra. Qed.
Lemma mv_at0 x : mv (at_place (0, 0)%R x) = mv x.
Proof. cbn [at_place mv]. rewrite <- (map_id (mv x)) at 2. apply map_ext. intros [a b]. cbn. f_equal; lra. Qed.
Lemma origin_ok k x w h : mesh_ok k x -> fv x <> [] -> box_around k x 0 0 w h -> starts_at_origin k (at_place (0, 0)%R x) = true.
Proof.
  intros Hx Hf Hb. unfold starts_at_origin. rewrite (box_at_ok k x (0, 0)%R w h Hx Hf Hb). cbn [bmin fst snd].
  apply Rltb_true. replace (0 * 0 + 0 * 0)%R with 0%R by ring. rewrite sqrt_0. unfold eps. lra.
Qed.
Lemma cast_ok i : (0 <= i < 128)%Z -> cast_mat (IZR i) = Ret i.
Proof.
  intros H. unfold cast_mat. destruct (Rltb (IZR i) 0) eqn:E.
  - apply Rltb_true in E. apply lt_IZR in E. lia.
  - rewrite (Int_part_unique (IZR i) i) by lra. destruct (Z.leb_spec (-128) i); [|lia]. destruct (Z.leb_spec i 127); [|lia]. reflexivity.
Qed.

(** ** The cell from its soup *)
Lemma placed_planar o vs : exists z, placed eps o (map flat3 vs) = map (fun p => (moved_by (px o, py o) p, z)) vs.
Proof.
  unfold placed. destruct (is_3d eps (map flat3 vs) o); [exists (0 + pz o)%R|exists 0%R]; rewrite map_map; apply map_ext; intros [a b]; reflexivity.
Qed.
Lemma soup_back stdsort selfcheck junk checks k x w h mats a o (u : soup (R * R * R) R) : sort_contract stdsort -> mesh_ok k x -> fv x <> [] ->
  box_around k x 0 0 w h -> (forall o, validation selfcheck k (at_place o x) (at_place o x)) -> length mats = length (fv x) -> Forall (fun i => (0 <= i < 128)%Z) mats ->
  cell_content k x mats a -> stores u (mkA (placed eps o (a_verts a)) (a_elems a) (a_elsets a)) ->
  mt_of (getMeshType (getElemTypes (etypes u))) = type_of k /\
  from_soup far junk (validated stdsort selfcheck k) k u = Ret (at_place (px o, py o) x) /\
  read_mats checks u = Ret mats.
Proof.
  intros Hsort Hx Hf Hb Hva Hm Hr (Co & _ & Ev & Ee & Hin) St. rewrite Ev, Ee in St. destruct (placed_planar o (mv x)) as (z & Ez). rewrite Ez in St.
  assert (Et : etypes u = map (fun _ => elem_type k) (fv x)). { destruct St as (_ & Et & _). rewrite Et. cbn [a_elems]. rewrite map_map. reflexivity. }
  split; [|split].
  - apply kind_type. apply types_kind. rewrite Et. split; [destruct (fv x); [congruence|discriminate]|]. intros t Ht. apply in_map_iff in Ht. destruct Ht as (c & <- & _). reflexivity.
  - assert (Hv : exists v0, nth_error (map (fun p => (moved_by (px o, py o) p, z)) (mv x)) 0 = Some v0).
    { destruct (fv x) as [|c l] eqn:E; [congruence|]. destruct (Hx c) as (L & Hr'); [rewrite E; now left|].
      destruct c as [|v c]; [destruct k; discriminate|]. specialize (Hr' v (or_introl eq_refl)). destruct (mv x); cbn in *; [lia|eauto]. }
    destruct Hv as (v0 & Hv0). rewrite (from_soup_ok far junk (validated stdsort selfcheck k) k u _ v0 St); cbn [a_verts a_elems].
    + rewrite !map_map. cbn [fst snd]. rewrite map_id. apply (validated_iff stdsort selfcheck k (at_place (px o, py o) x) _ Hsort eq_refl); [now apply mesh_ok_at|apply Hva].
    + destruct (fv x); [congruence|discriminate].
    + intros t c Hc. apply in_map_iff in Hc. destruct Hc as (f & E & Hc). injection E as <- <-. split; auto. apply (Hx f Hc).
    + exact Hv0.
    + intros p Hp. apply nth_error_In in Hv0. apply in_map_iff in Hp. destruct Hp as (q & <- & _). apply in_map_iff in Hv0. destruct Hv0 as (q' & <- & _). cbn [snd].
      unfold far. apply Rltb_false. replace (z - z)%R with 0%R by ring. rewrite Rabs_R0. unfold eps. lra.
  - unfold read_mats. assert (Co' : content_ok (mkA (map (fun p => (moved_by (px o, py o) p, z)) (mv x)) (map (fun c => (elem_type k, c)) (fv x)) (a_elsets a))) by exact Co.
    rewrite (getElsetByName_ok u _ (mat_set (length (fv x)) mats) [] St Co' Hin : getElsetByName u (lit "Material_ID") [] = _). cbn [bind mat_set es_ids es_data].
    assert (Em : match map IZR mats with [] => [] | r :: l => map IZR mats end = map IZR mats) by now destruct mats. 
    replace (match map IZR mats with [] => [] | _ :: _ => map IZR mats end) with (map IZR mats) by now destruct mats.
    rewrite Et, map_length, !map_length, seq_length, Hm, Nat.eqb_refl. cbn [andb].
    assert (Ev' : vec_eqb Z.eqb (map Z.of_nat (seq 0 (length (fv x)))) (map Z.of_nat (seq 0 (length (fv x)))) = true).
    { generalize (map Z.of_nat (seq 0 (length (fv x)))). intros l. induction l as [|i l IH]; [reflexivity|]. cbn. rewrite Z.eqb_refl. exact IH. }
    rewrite Ev'. replace (Mpact_Model.assert checks true (mapo cast_mat (map IZR mats))) with (mapo cast_mat (map IZR mats)) by now destruct checks.
    clear - Hr. induction mats as [|i mats IH]; [reflexivity|]. inversion Hr; subst. cbn [map mapo]. rewrite cast_ok by auto. cbn [bind]. rewrite IH by auto. reflexivity.
Qed.
