(** Proofs about conversions and queries of the face-vertex mesh model. *)
From Coq Require Import List Arith ZArith Lia Bool Sorting.Permutation.
From Verif Require Import Base Loops Elem_Model Elem_Proofs Sort_Model Sort_Spec Soup_Model Soup_Spec
  Soup_Proofs Soup_Sort_Proofs Fvm_Model Fvm_Spec Fvm_Proofs Fvm_Sort_Proofs.
Import ListNotations.

(** ** Conversions *)
Lemma mapo_seq {A} (f : nat -> outcome A) l : forall s n, length l = n ->
  (forall i a, nth_error l i = Some a -> f (s + i) = Ret a) -> mapo f (seq s n) = Ret l.
Proof.
  induction l as [|x l IH]; intros s n <- H; cbn; auto.
  rewrite <- (Nat.add_0_r s) at 1. rewrite (H 0 x eq_refl). cbn [bind]. rewrite (IH (S s) (length l)); auto.
  intros i a E. rewrite <- (H (S i) a E). f_equal. lia.
Qed.
Lemma concat_nth {A} (ll : list (list A)) N : Forall (fun c => length c = N) ll ->
  forall i c, nth_error ll i = Some c -> forall j a, nth_error c j = Some a -> nth_error (concat ll) (i * N + j) = Some a.
Proof.
  induction 1 as [|d ll Hd HF IH]; intros [|i] c Ec j a Ea; try discriminate; cbn in Ec |- *.
  - injection Ec as ->. rewrite nth_error_app1; auto. apply nth_error_Some. congruence.
  - rewrite nth_error_app2 by lia. replace (N + i * N + j - length d) with (i * N + j) by lia. eauto.
Qed.
Lemma conn_ok ll N : Forall (fun c => length c = N) ll ->
  mapo (fun i => mapo (fun j => rd (concat ll) (i * N + j)) (seq 0 N)) (seq 0 (length ll)) = Ret (ll : list (list Z)).
Proof.
  intros H. apply mapo_seq; auto. intros i c Ec. cbn. apply mapo_seq.
  - rewrite Forall_forall in H. apply H. eapply nth_error_In; eauto.
  - intros j a Ea. apply rd_Ret. cbn. eapply concat_nth; eauto.
Qed.
Lemma all_same_types ts t : ts <> [] -> (forall u, In u ts -> u = t) -> getElemTypes ts = [t].
Proof.
  intros Hn Ha. destruct (getElemTypes_ok ts) as (Hd & Hi).
  destruct (getElemTypes ts) as [|x [|y r]] eqn:E.
  - destruct ts as [|u ts]; [contradiction|]. exfalso. apply (Hi u). now left.
  - f_equal. apply Ha, Hi. now left.
  - exfalso. assert (x = t) by (apply Ha, Hi; now left). assert (y = t) by (apply Ha, Hi; right; now left).
    subst. inversion Hd. subst. apply H1. now left.
Qed.
Lemma vtk_eqb_iff a b : vtk_eqb a b = true <-> a = b.
Proof. destruct a, b; cbn; split; intros; congruence. Qed.

Section Conv.
Context {F G : Type}.
Notation P3 := (F * F * F)%type.
Variables (far : F -> F -> bool) (junk : F * F) (valid : mesh F -> outcome (mesh F)).

Lemma copy_planar_ok z (l : list P3) : (forall p, In p l -> far (snd p) z = false) ->
  copy_planar far junk z l = map fst l.
Proof.
  induction l as [|((x, y), pz) l IH]; intros H; cbn; auto.
  rewrite (H (x, y, pz) (or_introl eq_refl) : far pz z = false). cbn. f_equal. apply IH. intros; apply H; now right.
Qed.

Lemma from_soup_ok k (s : soup P3 G) a v0 : stores s a ->
  a_elems a <> [] -> (forall t c, In (t, c) (a_elems a) -> t = elem_type k /\ length c = nverts k) ->
  nth_error (a_verts a) 0 = Some v0 -> (forall p, In p (a_verts a) -> far (snd p) (snd v0) = false) ->
  from_soup far junk valid k s = valid (mkMesh false false (map fst (a_verts a)) (map snd (a_elems a)) [] []).
Proof.
  intros (Hv & Ht & _ & Hc & _) Hne Hall Hv0 Hpl. unfold from_soup. rewrite Ht, Hv, Hc.
  rewrite (all_same_types _ (elem_type k)).
  - cbn [length Nat.eqb negb]. unfold rd at 1. cbn [nth_error bind].
    rewrite (proj2 (vtk_eqb_iff _ _) eq_refl). cbn [negb].
    rewrite (proj2 (rd_Ret _ _ _) Hv0). cbn [bind]. rewrite copy_planar_ok by auto.
    rewrite map_length, <- (map_length snd). rewrite conn_ok; [reflexivity|].
    apply Forall_forall. intros c Hin. apply in_map_iff in Hin as ((t, c') & <- & Hin). now apply (Hall t).
  - destruct (a_elems a); [contradiction|discriminate].
  - intros u Hu. apply in_map_iff in Hu as ((t, c) & <- & Hin). now apply (Hall t c).
Qed.
Lemma from_soup_rejected k (s : soup P3 G) a : stores s a ->
  a_elems a = [] \/ (exists t c, In (t, c) (a_elems a) /\ t <> elem_type k) ->
  from_soup far junk valid k s = Fail.
Proof.
  intros (_ & Ht & _) Hor. unfold from_soup. rewrite Ht. set (ts := map fst (a_elems a)).
  destruct (getElemTypes_ok ts) as (_ & Hi).
  destruct Hor as [E|(t & c & Hin & Hne)].
  - unfold ts. rewrite E. reflexivity.
  - assert (Ht' : In t (getElemTypes ts)).
    { apply Hi. unfold ts. apply in_map_iff. now exists (t, c). }
    destruct (getElemTypes ts) as [|x [|y r]]; cbn [length Nat.eqb negb]; auto.
    unfold rd. cbn [nth_error bind]. destruct Ht' as [->|[]].
    destruct (vtk_eqb t (elem_type k)) eqn:E2; auto. apply vtk_eqb_iff in E2. contradiction.
Qed.

Lemma to_soup_ok (zero : F) k (m : mesh F) : exists s, to_soup (G := G) zero k m = Ret s /\
  stores s (mkA (map (fun p => (p, zero)) (mv m)) (map (fun c => (elem_type k, c)) (fv m)) []).
Proof.
  unfold to_soup.
  assert (H1 : forall (l : list (F * F)) (s : soup P3 G) a, stores s a -> a_elems a = [] -> a_elsets a = [] ->
    stores (fold_left (fun s p => fst (addVertex s (fst p, snd p, zero))) l s)
      (mkA (a_verts a ++ map (fun p => (p, zero)) l) [] [])).
  { induction l as [|p l IH]; intros s a Hs He Hes; cbn [fold_left map].
    - rewrite app_nil_r. destruct a; cbn in *; subst; auto.
    - destruct (addVertex_ok s a (fst p, snd p, zero) Hs) as (Hs' & _).
      apply IH in Hs'; auto. cbn [a_verts] in Hs'. rewrite <- app_assoc in Hs'. destruct p; exact Hs'. }
  specialize (H1 (mv m) empty_soup a_empty (stores_empty) eq_refl eq_refl). cbn [a_verts a_empty app] in H1.
  set (s0 := fold_left _ (mv m) _) in *. clearbody s0.
  set (vs := map (fun p => (p, zero)) (mv m)) in *. clearbody vs.
  destruct (foreach_inv (fun c s => let* r := addElement s (elem_type k) c in Ret (fst r))
    (fun pre s => stores s (mkA vs (map (fun c => (elem_type k, c)) pre) [])) (fv m) s0) as (s & E & Hs); auto.
  - intros p c r s _ Hs. destruct (addElement_ok s _ (elem_type k) c Hs) as (s1 & -> & Hs1). cbn [bind fst].
    exists s1. split; auto. now rewrite map_app.
  - eauto.
Qed.

Lemma round_trip (zero : F) k (m : mesh F) : mesh_ok k m -> mv m <> [] -> fv m <> [] ->
  far zero zero = false ->
  exists s, to_soup (G := G) zero k m = Ret s /\
    from_soup far junk valid k s = valid (mkMesh false false (mv m) (fv m) [] []).
Proof.
  intros Hm Hv Hf Hz. destruct (to_soup_ok zero k m) as (s & E & Hs). exists s. split; auto.
  destruct (mv m) as [|v0 vs] eqn:Ev; [contradiction|].
  rewrite (from_soup_ok k s _ (v0, zero) Hs); cbn [a_verts a_elems].
  - rewrite !map_map. cbn [fst snd]. rewrite map_id. now rewrite map_id.
  - destruct (fv m); [contradiction|discriminate].
  - intros t c H. apply in_map_iff in H as (d & H & Hd). injection H as <- <-. split; auto. now apply Hm.
  - reflexivity.
  - intros p H. apply in_map_iff in H as (q & <- & _). exact Hz.
Qed.
End Conv.

(** ** Queries *)
Section Query.
Context {F : Type}.
Variable contains : list (F * F) -> bool.
Variable edge_hits : list (F * F) -> list F * nat.

Lemma faceContaining_ok k (m : mesh F) ps : mesh_ok k m -> polygons m ps ->
  exists r, faceContaining contains m = Ret r /\
    ((r = -1)%Z /\ (forall p, In p ps -> contains p = false) \/
     exists i p, r = Z.of_nat i /\ nth_error ps i = Some p /\ contains p = true /\
       forall j q, j < i -> nth_error ps j = Some q -> contains q = false).
Proof.
  intros Hm Hp. unfold faceContaining, mesh_ok, polygons in *.
  enough (G : forall fs i ps, (forall c, In c fs -> face_ok k (length (mv m)) c) ->
    map (map Some) ps = map (corners (mv m)) fs ->
    exists r, faceContaining_loop contains m i fs = Ret r /\
    ((r = -1)%Z /\ (forall p, In p ps -> contains p = false) \/
     exists j p, r = Z.of_nat (i + j) /\ nth_error ps j = Some p /\ contains p = true /\
       forall j' q, j' < j -> nth_error ps j' = Some q -> contains q = false)).
  { destruct (G (fv m) 0 ps Hm Hp) as (r & E & [H|H]); eauto. }
  clear ps Hp Hm. induction fs as [|c fs IH]; intros i ps Hm Hp; cbn [faceContaining_loop].
  - destruct ps; [|discriminate]. eexists. split; [reflexivity|]. left. split; auto. intros p [].
  - destruct ps as [|p ps]; [discriminate|]. cbn [map] in Hp. injection Hp as Hc Hp.
    destruct (rdz_corner (mv m) c) as (poly & -> & E1); [apply (Hm c); now left|]. cbn [bind].
    assert (poly = p).
    { rewrite <- Hc in E1. clear - E1. revert p E1. induction poly as [|x l IHl]; intros [|y p] E; try discriminate; auto.
      cbn in E. injection E as -> E. f_equal; auto. }
    subst poly. destruct (contains p) eqn:Ep.
    + eexists. split; [reflexivity|]. right. exists 0, p. rewrite Nat.add_0_r. repeat split; auto. intros; lia.
    + destruct (IH (S i) ps) as (r & -> & H); auto; [intros; apply Hm; now right|].
      eexists. split; [reflexivity|]. destruct H as [(-> & H)|(j & q & -> & Hq & Hcq & Hmin)].
      * left. split; auto. intros q [<-|Hq]; auto.
      * right. exists (S j), q. split; [f_equal; lia|]. split; auto. split; auto.
        intros [|j'] q' Hj Hq'; cbn in Hq'; [congruence|]. apply (Hmin j'); auto. lia.
Qed.

Lemma skipn_skipn_add {A} (l : list A) : forall a b, skipn b (skipn a l) = skipn (b + a) l.
Proof.
  induction l as [|x l IH]; intros [|a] b; cbn [skipn]; rewrite ?Nat.add_0_r, ?skipn_nil; auto.
  rewrite IH. now rewrite Nat.add_succ_r.
Qed.
Lemma blit_facts {A} (buf : list A) a w : a + length w <= length buf ->
  exists buf', blit buf a w = Ret buf' /\ length buf' = length buf /\
    (forall h, h <= length w -> firstn (a + h) buf' = firstn a buf ++ firstn h w) /\
    (forall n, a + length w <= n -> skipn n buf' = skipn n buf).
Proof.
  intros H. unfold blit. destruct (Nat.leb_spec (a + length w) (length buf)); [|lia].
  eexists. split; [reflexivity|].
  assert (Ha : length (firstn a buf) = a) by (rewrite firstn_length; lia).
  split; [rewrite !app_length, skipn_length, Ha; lia|]. split.
  - intros h Hh. rewrite firstn_app, Ha. rewrite firstn_all2 by lia. f_equal.
    replace (a + h - a) with h by lia. rewrite firstn_app. replace (h - length w) with 0 by lia.
    cbn. now rewrite app_nil_r.
  - intros n Hn. rewrite skipn_app, Ha, (skipn_all2 (firstn a buf)) by lia. cbn [app].
    rewrite skipn_app, (skipn_all2 w) by lia. cbn [app]. rewrite skipn_skipn_add. f_equal. lia.
Qed.
Lemma skipn_le {A} (l m : list A) a b : a <= b -> skipn a l = skipn a m -> skipn b l = skipn b m.
Proof.
  intros H E. replace b with ((b - a) + a) by lia. rewrite <- (skipn_skipn_add l), <- (skipn_skipn_add m). now rewrite E.
Qed.

Hypothesis Hh : hits_ok edge_hits.
Notation fr := (face_reports edge_hits).

Lemma concat_firstn_le {A} (ll : list (list A)) i : length (concat (firstn i ll)) <= length (concat ll).
Proof.
  rewrite <- (firstn_skipn i ll) at 2. rewrite concat_app, app_length. lia.
Qed.
Lemma concat_firstn_S {A} (ll : list (list A)) i x : nth_error ll i = Some x ->
  concat (firstn (S i) ll) = concat (firstn i ll) ++ x.
Proof. intros E. rewrite (firstn_S _ _ _ E), concat_app. cbn. now rewrite app_nil_r. Qed.

Lemma intersect_face_ok k poly at_ buf : length poly = nverts k ->
  at_ + length (fr k poly) + 1 <= length buf ->
  exists buf', intersect_face edge_hits k poly at_ buf = Ret (length (fr k poly), buf') /\
    length buf' = length buf /\
    firstn (at_ + length (fr k poly)) buf' = firstn at_ buf ++ fr k poly /\
    skipn (at_ + length (fr k poly) + 1) buf' = skipn (at_ + length (fr k poly) + 1) buf.
Proof.
  intros Hp Hb. unfold intersect_face. set (es := edges_of k poly).
  set (rs := map (edge_reports edge_hits) es).
  assert (Efr : fr k poly = concat rs) by reflexivity. rewrite Efr in *.
  destruct (for_inv (fun i st => fst st = length (concat (firstn i rs)) /\ length (snd st) = length buf /\
      firstn (at_ + fst st) (snd st) = firstn at_ buf ++ concat (firstn i rs) /\
      skipn (at_ + fst st + 1) (snd st) = skipn (at_ + fst st + 1) buf)
    (fun i st => let '(hits, buf) := st in let* e := edge_at k poly i in let '(w, h) := edge_hits e in
       let* buf := blit buf (at_ + hits) w in Ret (hits + h, buf)) (nedges k) 0 (0, buf)) as ((hits & buf') & -> & H).
  - cbn [fst snd firstn concat length]. repeat split; auto. now rewrite Nat.add_0_r, app_nil_r.
  - intros j (hits & b) Hj (H1 & H2 & H3 & H4). cbn [fst snd] in *.
    rewrite edge_at_ok by auto. fold es.
    destruct (nth_error es j) as [e|] eqn:Ee.
    2:{ apply nth_error_None in Ee. unfold es in Ee. rewrite edges_of_length in Ee by auto. lia. }
    rewrite (proj2 (rd_Ret _ _ _) Ee). cbn [bind].
    assert (Er : nth_error rs j = Some (edge_reports edge_hits e)) by (unfold rs; now apply map_nth_error).
    pose proof (Hh e) as He. pose proof (concat_firstn_S rs j _ Er) as Ec.
    pose proof (concat_firstn_le rs (S j)) as Hle. rewrite Ec, app_length in Hle.
    unfold edge_reports in *. destruct (edge_hits e) as (w & h). cbn [fst snd] in *.
    rewrite firstn_length in Hle.
    destruct (blit_facts b (at_ + hits) w) as (b' & -> & Hl & Hf & Hs); [lia|]. cbn [bind].
    eexists. split; [reflexivity|]. cbn [fst snd]. rewrite Ec, app_length, firstn_length.
    split; [lia|]. split; [lia|]. split.
    + rewrite Nat.add_assoc, Hf by lia. rewrite H3. now rewrite app_assoc.
    + rewrite Hs by lia. eapply skipn_le; [|exact H4]. lia.
  - cbn [fst snd] in H. rewrite Nat.add_0_l, firstn_all2 in H by (unfold rs, es; rewrite map_length, edges_of_length; auto).
    destruct H as (-> & H2 & H3 & H4). eauto.
Qed.

Lemma getFace_ok k (m : mesh F) ps i p : mesh_ok k m -> polygons m ps -> nth_error ps i = Some p ->
  getFace m i = Ret p /\ length p = nverts k.
Proof.
  intros Hm Hp Ei. unfold polygons in Hp.
  assert (E : nth_error (map (map Some) ps) i = nth_error (map (corners (mv m)) (fv m)) i) by now rewrite Hp.
  rewrite !nth_error_map, Ei in E. cbn in E. unfold getFace, rd.
  destruct (nth_error (fv m) i) as [c|] eqn:Ec; cbn in E; [|discriminate]. injection E as E. cbn [bind].
  destruct (Hm c (nth_error_In _ _ Ec)) as (Hl & Hv).
  destruct (rdz_corner (mv m) c Hv) as (poly & -> & E1).
  assert (length p = length c).
  { apply (f_equal (@length _)) in E. unfold corners in E. now rewrite !map_length in E. }
  split; [|congruence]. f_equal. rewrite <- E in E1. clear - E1. revert p E1.
  induction poly as [|x l IHl]; intros [|y p] E; try discriminate; auto. cbn in E. injection E as -> E. f_equal; auto.
Qed.
Lemma polygons_length (m : mesh F) ps : polygons m ps -> length ps = length (fv m).
Proof. intros H. apply (f_equal (@length _)) in H. now rewrite !map_length in H. Qed.

Lemma intersect_ok k (m : mesh F) ps coords : mesh_ok k m -> polygons m ps ->
  let rs := concat (map (fr k) ps) in
  length rs + 1 <= length coords ->
  exists coords', intersect edge_hits k m coords = Ret (length rs, coords') /\
    length coords' = length coords /\ firstn (length rs) coords' = rs /\
    skipn (length rs + 1) coords' = skipn (length rs + 1) coords.
Proof.
  intros Hm Hp rs Hb. unfold intersect. rewrite <- (polygons_length _ _ Hp).
  set (ll := map (fr k) ps) in *.
  destruct (for_inv (fun i st => fst st = length (concat (firstn i ll)) /\ length (snd st) = length coords /\
      firstn (fst st) (snd st) = concat (firstn i ll) /\
      skipn (fst st + 1) (snd st) = skipn (fst st + 1) coords)
    (fun i st => let '(hits, coords) := st in let* p := getFace m i in
       let* r := intersect_face edge_hits k p hits coords in let '(h, coords) := r in
       Ret (hits + h, coords)) (length ps) 0 (0, coords)) as ((hits & c') & -> & H).
  - cbn. auto.
  - intros j (hits & b) Hj (H1 & H2 & H3 & H4). cbn [fst snd] in *.
    destruct (nth_error ps j) as [p|] eqn:Ep; [|apply nth_error_None in Ep; lia].
    destruct (getFace_ok k m ps j p Hm Hp Ep) as (-> & Hlp). cbn [bind].
    assert (El : nth_error ll j = Some (fr k p)) by (unfold ll; now apply map_nth_error).
    pose proof (concat_firstn_S ll j _ El) as Ec.
    pose proof (concat_firstn_le ll (S j)) as Hle. rewrite Ec, app_length in Hle. fold rs in Hle.
    destruct (intersect_face_ok k p hits b Hlp) as (b' & -> & Hl & Hf & Hs); [lia|]. cbn [bind].
    eexists. split; [reflexivity|]. cbn [fst snd]. rewrite Ec, app_length.
    split; [lia|]. split; [lia|]. split.
    + rewrite Hf, H3. reflexivity.
    + rewrite Hs. eapply skipn_le; [|exact H4]. lia.
  - cbn [fst snd] in H. rewrite Nat.add_0_l, firstn_all2 in H by (unfold ll; now rewrite map_length).
    destruct H as (-> & H2 & H3 & H4). eauto.
Qed.

Lemma upd_firstn {A} (l : list A) n x : n < length l -> firstn (n + 1) (upd l n x) = firstn n l ++ [x].
Proof.
  intros H. rewrite Nat.add_1_r. rewrite (firstn_S _ _ x) by now apply nth_error_upd_eq. f_equal.
  clear H. revert n. induction l as [|y l IH]; intros [|n]; cbn; auto. now rewrite IH.
Qed.
Lemma upd_skipn {A} (l : list A) n x m : n < m -> skipn m (upd l n x) = skipn m l.
Proof.
  revert n m. induction l as [|y l IH]; intros [|n] [|m] H; cbn; auto; try lia. apply IH. lia.
Qed.
Lemma filter_concat {A} (l : list (nat * list A)) :
  concat (map snd (filter (fun p => negb (length (snd p) =? 0)) l)) = concat (map snd l).
Proof.
  induction l as [|(i, x) l IH]; cbn; auto. destruct x; cbn; auto. now rewrite IH.
Qed.
Lemma combine_snd {A B} (l : list A) (m : list B) : length l = length m -> map snd (combine l m) = m.
Proof. revert m. induction l as [|a l IH]; intros [|b m] H; cbn in *; try discriminate; auto. f_equal. auto. Qed.
Lemma nth_combine {A B} (l : list A) (m : list B) i a b : nth_error l i = Some a -> nth_error m i = Some b ->
  nth_error (combine l m) i = Some (a, b).
Proof.
  revert m i. induction l as [|x l IH]; intros [|y m] [|i] Ha Hb; cbn in *; try discriminate; try congruence. auto.
Qed.
Lemma firstn_filter_le {A} (f : A -> bool) l i : length (filter f (firstn i l)) <= length (filter f l).
Proof. rewrite <- (firstn_skipn i l) at 2. rewrite filter_app, app_length. lia. Qed.

Lemma intersect_offsets_ok k (m : mesh F) ps coords offs faces : mesh_ok k m -> polygons m ps ->
  let hs := hit_faces edge_hits k ps in
  let rs := concat (map snd hs) in
  length rs + 1 <= length coords -> length hs + 1 <= length offs -> length hs <= length faces ->
  exists coords' offs' faces',
    intersect_offsets edge_hits k m coords offs faces = Ret (length rs, length hs, coords', offs', faces') /\
    firstn (length rs) coords' = rs /\
    firstn (length hs + 1) offs' = sums 0 (map (fun p => length (snd p)) hs) /\
    firstn (length hs) faces' = map fst hs /\
    length coords' = length coords /\ skipn (length rs + 1) coords' = skipn (length rs + 1) coords /\
    length offs' = length offs /\ skipn (length hs + 1) offs' = skipn (length hs + 1) offs /\
    length faces' = length faces /\ skipn (length hs) faces' = skipn (length hs) faces.
Proof.
  intros Hm Hp hs rs Hbc Hbo Hbf. unfold intersect_offsets. rewrite <- (polygons_length _ _ Hp).
  rewrite wr_ok by lia. cbn [bind].
  set (ne := fun p : nat * list F => negb (length (snd p) =? 0)) in *.
  set (al := combine (seq 0 (length ps)) (map (fr k) ps)) in *.
  assert (Hhs : hs = filter ne al) by reflexivity.
  assert (Hal : length al = length ps) by (unfold al; rewrite combine_length, seq_length, map_length; lia).
  set (Hf := fun i => filter ne (firstn i al)).
  destruct (for_inv (fun i st => let '(total, nf, c, o, f) := st in
      total = length (concat (map snd (Hf i))) /\ nf = length (Hf i) /\
      firstn total c = concat (map snd (Hf i)) /\
      firstn (nf + 1) o = sums 0 (map (fun p => length (snd p)) (Hf i)) /\
      firstn nf f = map fst (Hf i) /\
      length c = length coords /\ skipn (total + 1) c = skipn (total + 1) coords /\
      length o = length offs /\ skipn (nf + 1) o = skipn (nf + 1) offs /\
      length f = length faces /\ skipn nf f = skipn nf faces)
    (fun i st => let '(total, nf, coords, offsets, faces) := st in
      let* p := getFace m i in
      let* r := intersect_face edge_hits k p total coords in
      let '(h, coords) := r in
      if 0 <? h then
        let* offsets := wr offsets (nf + 1) (total + h) in
        let* faces := wr faces nf i in
        Ret (total + h, nf + 1, coords, offsets, faces)
      else Ret (total, nf, coords, offsets, faces)) (length ps) 0 (0, 0, coords, upd offs 0 0, faces))
    as (((((total & nf) & c) & o) & f) & -> & H).
  - unfold Hf. cbn [firstn filter map concat length]. rewrite Nat.add_0_l.
    split; auto. split; auto. split; auto. split.
    + destruct offs; [cbn in Hbo; lia|reflexivity].
    + split; auto. split; auto. split; auto. split; [apply upd_length|]. split; auto.
      apply upd_skipn. lia.
  - intros j ((((total & nf) & c) & o) & f) Hj (H1 & H2 & H3 & H4 & H5 & H6 & H7 & H8 & H9 & H10 & H11).
    destruct (nth_error ps j) as [p|] eqn:Ep; [|apply nth_error_None in Ep; lia].
    destruct (getFace_ok k m ps j p Hm Hp Ep) as (-> & Hlp). cbn [bind].
    assert (Ea : nth_error al j = Some (j, fr k p)).
    { unfold al. apply nth_combine; [|now apply map_nth_error].
      rewrite (nth_error_nth' _ 0) by (rewrite seq_length; lia). now rewrite seq_nth by lia. }
    assert (EH : Hf (S j) = Hf j ++ (if ne (j, fr k p) then [(j, fr k p)] else [])).
    { unfold Hf. rewrite (firstn_S _ _ _ Ea), filter_app. cbn. destruct (ne (j, fr k p)); auto. }
    assert (Hle1 : length (concat (map snd (Hf (S j)))) <= length rs).
    { unfold rs, Hf. rewrite Hhs. unfold ne. rewrite !filter_concat, <- firstn_map. apply concat_firstn_le. }
    assert (Hle2 : length (Hf (S j)) <= length hs) by (rewrite Hhs; apply firstn_filter_le).
    assert (Ecat : concat (map snd (Hf (S j))) = concat (map snd (Hf j)) ++ fr k p).
    { rewrite EH, map_app, concat_app. f_equal. unfold ne. cbn [snd]. destruct (fr k p); cbn; auto. now rewrite app_nil_r. }
    rewrite Ecat, app_length in Hle1.
    destruct (intersect_face_ok k p total c Hlp) as (c' & -> & Hl & Hfi & Hsk); [lia|]. cbn [bind].
    assert (Hcoords : firstn (total + length (fr k p)) c' = concat (map snd (Hf (S j)))).
    { rewrite Hfi, H3, Ecat. reflexivity. }
    assert (Hskip : skipn (total + length (fr k p) + 1) c' = skipn (total + length (fr k p) + 1) coords).
    { rewrite Hsk. eapply skipn_le; [|exact H7]. lia. }
    destruct (Nat.ltb_spec 0 (length (fr k p))) as [Hpos|Hz].
    + assert (Ene : ne (j, fr k p) = true).
      { unfold ne. cbn [snd]. destruct (Nat.eqb_spec (length (fr k p)) 0); [lia|reflexivity]. }
      rewrite Ene in EH. rewrite EH, app_length in Hle2. cbn [length] in Hle2.
      rewrite wr_ok by lia. cbn [bind]. rewrite wr_ok by lia. cbn [bind].
      eexists. split; [reflexivity|]. cbn beta iota.
      split; [rewrite Ecat, app_length; lia|].
      split; [rewrite EH, app_length; cbn; lia|].
      split; auto. split; [|split; [|split; [lia|split; auto; split; [|split; [|split]]]]].
      * rewrite upd_firstn by lia. rewrite H4. rewrite EH, map_app. cbn [map snd]. rewrite sums_app. f_equal. f_equal.
        rewrite H1, length_concat, map_map. cbn. lia.
      * rewrite upd_firstn by lia. rewrite H5, EH, map_app. reflexivity.
      * now rewrite upd_length.
      * rewrite upd_skipn by lia. eapply skipn_le; [|exact H9]. lia.
      * now rewrite upd_length.
      * rewrite upd_skipn by lia. eapply skipn_le; [|exact H11]. lia.
    + assert (Efr : fr k p = []) by (apply length_zero_iff_nil; lia).
      assert (Ene : ne (j, fr k p) = false) by (rewrite Efr; reflexivity).
      rewrite Ene, app_nil_r in EH. rewrite Efr in *. cbn [length] in *. rewrite Nat.add_0_r in *.
      eexists. split; [reflexivity|]. cbn beta iota. rewrite EH in *. intuition congruence.
  - cbn beta iota in H. unfold Hf in H. rewrite Nat.add_0_l, firstn_all2 in H by lia. rewrite <- Hhs in H. fold rs in H.
    destruct H as (-> & -> & H3 & H4 & H5 & H6 & H7 & H8 & H9 & H10 & H11).
    exists c, o, f. intuition.
Qed.
End Query.
