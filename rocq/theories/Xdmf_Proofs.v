(** Proofs about the XDMF writer and reader: texts, data sets, geometry. *)
From Coq Require Import String Ascii.
From Coq Require Import List Arith ZArith Bool Reals Lia Lra.
From Verif Require Import Base Arith Loops Fill StringView_Model StringView_Spec StringView_Proofs Elem_Model Logger_Model Logger_Spec Logger_Proofs
  Soup_Model Soup_Spec Soup_Proofs Box_Proofs Xdmf_Model Xdmf_Spec.
Import ListNotations.
Local Open Scope list_scope.
Local Open Scope nat_scope.

(** ** Texts *)
Lemma name_eqb_refl a : name_eqb a a = true.
Proof. now apply name_eqb_iff. Qed.
Lemma name_eqb_neq a b : a <> b -> name_eqb a b = false.
Proof. intros H. destruct (name_eqb_spec a b); [contradiction|auto]. Qed.
Lemma fmt_num n : (Z.of_nat n <= intMax)%Z -> num (fmt n) (Z.of_nat n).
Proof.
  intros H. unfold fmt. assert (X : in_64 (Z.of_nat n)) by (unfold in_64, intMax in *; lia).
  apply decimal_shown in X. apply X.
Qed.
Lemma strto_fmt n : (Z.of_nat n <= intMax)%Z -> strto (fmt n) = Ret (Z.of_nat n).
Proof.
  intros H. unfold strto. apply strto_num; [now apply fmt_num| | |discriminate].
  - unfold int32, intMax in *. lia.
  - intros c r E. injection E as <- <-. reflexivity.
Qed.
Lemma num_chars l z : num l z -> Forall (fun c => c = 45 \/ 48 <= c <= 57)%Z l.
Proof.
  assert (D : forall l z, dec l z -> Forall (fun c => c = 45 \/ 48 <= c <= 57)%Z l).
  { intros l' z' D. apply dec_digits in D. destruct D as (_ & D & _). eapply Forall_impl; [|exact D]. intros c Hc.
    apply isdigit_range in Hc. lia. }
  intros [? ? H|? ? H]; [now apply D in H|constructor; auto]. now apply D in H.
Qed.
Lemma fmt_chars n : (Z.of_nat n <= intMax)%Z -> Forall (fun c => c = 45 \/ 48 <= c <= 57)%Z (fmt n).
Proof. intros H. eapply num_chars, fmt_num. exact H. Qed.
Lemma fmt_no n c : (Z.of_nat n <= intMax)%Z -> (c < 45)%Z -> ~ In c (fmt n).
Proof. intros H Hc X. pose proof (fmt_chars n H) as F. rewrite Forall_forall in F. apply F in X. lia. Qed.

Lemma last_of a b c : ~ In c b -> str_find_last_of (a ++ [c] ++ b) c (length (a ++ [c] ++ b)) = Ret (Some (length a)).
Proof.
  intros H. destruct (str_find_last_of_ok (a ++ [c] ++ b) c (length (a ++ [c] ++ b))) as (r & -> & G). f_equal.
  assert (E : nth_error (a ++ [c] ++ b) (length a) = Some c) by (rewrite nth_error_app2, Nat.sub_diag by lia; reflexivity).
  destruct r as [i|]; cbn [greatest_upto] in G.
  - destruct G as (G1 & G2 & G3). f_equal. destruct (Nat.lt_trichotomy i (length a)) as [X|[X|X]]; auto; exfalso.
    + apply (G3 (length a)); auto. rewrite app_length. lia.
    + rewrite nth_error_app2 in G2 by lia. destruct (i - length a) as [|k] eqn:K; [lia|]. cbn in G2. apply nth_error_In in G2. auto.
  - exfalso. apply (G (length a)); auto. rewrite app_length. lia.
Qed.
Lemma last_of_none b c : ~ In c b -> str_find_last_of b c (length b) = Ret None.
Proof.
  intros H. destruct (str_find_last_of_ok b c (length b)) as (r & -> & G). f_equal.
  destruct r as [i|]; auto. cbn [greatest_upto] in G. destruct G as (_ & G1 & _). apply nth_error_In in G1. contradiction.
Qed.
Lemma substr_app0 a b : substr (a ++ b) 0 (length a) = Ret a.
Proof. unfold substr. cbn [Nat.leb skipn]. rewrite firstn_app, Nat.sub_diag, firstn_all. cbn. now rewrite app_nil_r. Qed.
Lemma substr_app1 a b n : n = length a -> substr_from (a ++ b) n = Ret b.
Proof.
  intros ->. unfold substr_from, substr. rewrite app_length. destruct (Nat.leb_spec (length a) (length a + length b)); [|lia].
  replace (length a + length b - length a) with (length b) by lia.
  rewrite skipn_app, Nat.sub_diag, skipn_all. cbn [app skipn]. now rewrite firstn_all.
Qed.
Lemma two_dims_ok m n : (Z.of_nat m <= intMax)%Z -> (Z.of_nat n <= intMax)%Z ->
  two_dims (fmt m ++ [SPACE] ++ fmt n) = Ret (Z.of_nat m, Z.of_nat n).
Proof.
  intros Hm Hn. unfold two_dims. rewrite last_of by (apply fmt_no; [auto|unfold SPACE; lia]). cbn [bind].
  rewrite substr_app0. cbn [bind]. rewrite strto_fmt by auto. cbn [bind].
  rewrite app_assoc, substr_app1 by (rewrite app_length; cbn; lia). cbn [bind]. rewrite strto_fmt by auto. reflexivity.
Qed.

(** ** Data sets *)
Lemma find_path_app f g p : find_path (f ++ g) p = match find_path f p with Some d => Some d | None => find_path g p end.
Proof. induction f as [|(q, d) f IH]; cbn; auto. destruct (name_eqb q p); auto. Qed.
Lemma create_ok f g n d : link_name n = true -> find_path f (g ++ [SLASH] ++ n) = None ->
  createDataSet f g n d = Ret (f ++ [(g ++ [SLASH] ++ n, d)]).
Proof. intros H1 H2. unfold createDataSet. rewrite H1, H2. reflexivity. Qed.
Lemma link_ok n : n <> [] -> n <> txt "." -> ~ In SLASH n -> link_name n = true.
Proof.
  intros H1 H2 H3. unfold link_name. rewrite !name_eqb_neq by auto. cbn.
  destruct (existsb _ n) eqn:E; auto. apply existsb_exists in E. destruct E as (c & X & E). apply Z.eqb_eq in E. subst c. contradiction.
Qed.
(** the data set of the name [n] in the group [g] *)
Definition at_path (f : h5) (g n : list Z) : option dataset := find_path f (g ++ [SLASH] ++ n).
Lemma path_inj (g m n : list Z) : g ++ [SLASH] ++ m = g ++ [SLASH] ++ n -> m = n.
Proof. intros H. apply app_inv_head in H. now apply app_inv_head in H. Qed.
Lemma at_path_snoc f g m d n : at_path (f ++ [(g ++ [SLASH] ++ m, d)]) g n =
  match at_path f g n with Some e => Some e | None => if name_eqb m n then Some d else None end.
Proof.
  unfold at_path. rewrite find_path_app. cbn [find_path]. destruct (find_path f (g ++ [SLASH] ++ n)); auto.
  destruct (name_eqb_spec m n) as [->|H]; [now rewrite name_eqb_refl|].
  rewrite name_eqb_neq; auto. intros E. apply path_inj in E. contradiction.
Qed.
(** a path as it is found in the XML file *)
Lemma open_ok f file g n d : at_path f g n = Some d ->
  (let* p := substr_from (file ++ [COLON] ++ g ++ [SLASH] ++ n) (length file + 1) in openDataSet f p) = Ret d.
Proof.
  intros H. rewrite (app_assoc file [COLON]). rewrite substr_app1 by (rewrite app_length; reflexivity). cbn [bind].
  unfold openDataSet. unfold at_path in H. now rewrite H.
Qed.
Lemma bind_assoc {A B C} (m : outcome A) (f : A -> outcome B) (g : B -> outcome C) :
  bind (bind m f) g = bind m (fun x => bind (f x) g).
Proof. destruct m; reflexivity. Qed.
Lemma open_k {C} f file g n d (k : dataset -> outcome C) : at_path f g n = Some d ->
  (let* p := substr_from (file ++ [COLON] ++ g ++ [SLASH] ++ n) (length file + 1) in let* ds := openDataSet f p in k ds) = k d.
Proof. intros H. rewrite <- bind_assoc. transitivity (bind (Ret d) k); [|reflexivity]. f_equal. exact (open_ok f file g n d H). Qed.

Lemma readInto_exact {A} (d : A) l : readInto (length l) d l = Ret l.
Proof. unfold readInto. rewrite Nat.leb_refl, Nat.sub_diag. cbn. now rewrite app_nil_r. Qed.
Lemma vsize_of n : vsize (Z.of_nat n) = Ret n.
Proof. unfold vsize. destruct (Z.ltb_spec (Z.of_nat n) 0); [lia|]. now rewrite Nat2Z.id. Qed.

(** ** Geometry *)
Section Geometry.
Variables (checks : bool) (fsize : Z) (eps : R).
Hypothesis Hsize : fsize = 4%Z \/ fsize = 8%Z.
Lemma fsize_text : is (decimal fsize) "4" || is (decimal fsize) "8" = true.
Proof. destruct Hsize as [-> | ->]; reflexivity. Qed.
Lemma fsize_strto : strto (decimal fsize) = Ret fsize.
Proof. destruct Hsize as [-> | ->]; reflexivity. Qed.
Lemma fsize_ok : ((fsize =? 4) || (fsize =? 8))%Z = true.
Proof. destruct Hsize as [-> | ->]; reflexivity. Qed.

Lemma concat_map_nth {A B} (f : A -> list B) (d : A) : forall l, concat (map (fun j => f (nth j l d)) (seq 0 (length l))) = flat_map f l.
Proof.
  induction l as [|a l IH]; auto. cbn [length seq map concat flat_map nth]. f_equal. rewrite <- seq_shift, map_map. exact IH.
Qed.
Lemma nth_error_nth' {A} (l : list A) d : forall i, i < length l -> nth_error l i = Some (nth i l d).
Proof. induction l as [|a l IH]; intros [|i] H; cbn in *; try lia; auto. apply IH. lia. Qed.
Definition p0 : point := (0%R, 0%R, 0%R).
Definition xy (o : point) (v : point) : list R := [px v + px o; py v + py o]%R.
Definition xyz_ (o : point) (v : point) : list R := [px v + px o; py v + py o; pz v + pz o]%R.
Lemma wr_mid {A} (l1 : list A) x l2 y i : i = length l1 -> wr (l1 ++ x :: l2) i y = Ret (l1 ++ y :: l2).
Proof.
  intros ->. unfold wr. rewrite app_length. cbn [length]. destruct (Nat.ltb_spec (length l1) (length l1 + S (length l2))); [|lia].
  f_equal. induction l1 as [|a l1 IH]; cbn; auto. f_equal. apply IH. lia.
Qed.
Lemma fill2 vs o : for_ (length vs) 0 (fun i xyz =>
        let* v := rd vs i in
        let* xyz := wr xyz (2 * i) (px v + px o)%R in
        wr xyz (2 * i + 1) (py v + py o)%R) (repeat 0%R (length vs * 2)) = Ret (flat_map (xy o) vs).
Proof.
  rewrite <- (concat_map_nth (xy o) p0).
  pose proof (fill_blocks (fun i xyz => let* v := rd vs i in let* xyz := wr xyz (2 * i) (px v + px o)%R in wr xyz (2 * i + 1) (py v + py o)%R)
    (fun j => xy o (nth j vs p0)) 2 (length vs) 0 [] (repeat 0%R (length vs * 2)) []) as X.
  cbn [app] in X. rewrite !app_nil_r in X. apply X; clear X.
  - intros j s1 old s2 Hj L1 L2. unfold rd. rewrite (nth_error_nth' vs p0) by lia. cbn [bind].
    destruct old as [|x [|y [|? ?]]]; cbn in L2; try lia. cbn [app length] in *.
    rewrite wr_mid by lia. cbn [bind]. change (s1 ++ (px (nth j vs p0) + px o)%R :: y :: s2) with (s1 ++ [(px (nth j vs p0) + px o)%R] ++ y :: s2).
    rewrite app_assoc. rewrite wr_mid by (rewrite app_length; cbn; lia). rewrite <- app_assoc. reflexivity.
  - reflexivity.
  - rewrite repeat_length. lia.
Qed.
Lemma fill3 vs o : for_ (length vs) 0 (fun i xyz =>
        let* v := rd vs i in
        let* xyz := wr xyz (3 * i) (px v + px o)%R in
        let* xyz := wr xyz (3 * i + 1) (py v + py o)%R in
        wr xyz (3 * i + 2) (pz v + pz o)%R) (repeat 0%R (length vs * 3)) = Ret (flat_map (xyz_ o) vs).
Proof.
  rewrite <- (concat_map_nth (xyz_ o) p0).
  pose proof (fill_blocks (fun i xyz => let* v := rd vs i in
        let* xyz := wr xyz (3 * i) (px v + px o)%R in
        let* xyz := wr xyz (3 * i + 1) (py v + py o)%R in
        wr xyz (3 * i + 2) (pz v + pz o)%R)
    (fun j => xyz_ o (nth j vs p0)) 3 (length vs) 0 [] (repeat 0%R (length vs * 3)) []) as X.
  cbn [app] in X. rewrite !app_nil_r in X. apply X; clear X.
  - intros j s1 old s2 Hj L1 L2. unfold rd. rewrite (nth_error_nth' vs p0) by lia. cbn [bind].
    destruct old as [|x [|y [|z [|? ?]]]]; cbn in L2; try lia. cbn [app length] in *.
    set (v := nth j vs p0). rewrite wr_mid by lia. cbn [bind].
    change (s1 ++ (px v + px o)%R :: y :: z :: s2) with (s1 ++ [(px v + px o)%R] ++ y :: z :: s2).
    rewrite app_assoc. rewrite wr_mid by (rewrite app_length; cbn; lia). cbn [bind].
    change ((s1 ++ [(px v + px o)%R]) ++ (py v + py o)%R :: z :: s2) with ((s1 ++ [(px v + px o)%R]) ++ [(py v + py o)%R] ++ z :: s2).
    rewrite app_assoc. rewrite wr_mid by (rewrite !app_length; cbn; lia). rewrite <- !app_assoc. reflexivity.
  - reflexivity.
  - rewrite repeat_length. lia.
Qed.
Lemma flat_map_const_length {A B} (f : A -> list B) k l : (forall a, length (f a) = k) -> length (flat_map f l) = length l * k.
Proof. intros H. induction l as [|a l IH]; cbn; auto. rewrite app_length, H, IH. lia. Qed.
Lemma flat_map_nth {A B} (f : A -> list B) k (d : A) : (forall a, length (f a) = k) -> forall l i j, i < length l -> j < k ->
  nth_error (flat_map f l) (i * k + j) = nth_error (f (nth i l d)) j.
Proof.
  intros H. induction l as [|a l IH]; intros i j Hi Hj; cbn in Hi; [lia|]. cbn [flat_map]. destruct i as [|i]; cbn [nth].
  - rewrite nth_error_app1; auto. rewrite H. lia.
  - rewrite nth_error_app2 by (rewrite H; lia). rewrite H. replace (S i * k + j - k) with (i * k + j) by lia. apply IH; lia.
Qed.
Definition add_verts (a : @asoup point R) vs := mkA (a_verts a ++ vs) (a_elems a) (a_elsets a).
Lemma firstn_S {A} (l : list A) d i : i < length l -> firstn (S i) l = firstn i l ++ [nth i l d].
Proof. revert i. induction l as [|a l IH]; intros [|i] H; cbn in *; try lia; auto. f_equal. apply IH. lia. Qed.
Lemma add_loop (s : soup point R) a vs (f : nat -> soup point R -> outcome (soup point R)) : stores s a ->
  (forall i s, i < length vs -> f i s = Ret (fst (addVertex s (nth i vs p0)))) ->
  exists s', for_ (length vs) 0 f s = Ret s' /\ stores s' (add_verts a vs).
Proof.
  intros Hs Hf. destruct (for_inv (fun i s => stores s (add_verts a (firstn i vs))) f (length vs) 0 s) as (s' & E & H).
  - unfold add_verts. cbn [firstn]. rewrite app_nil_r. destruct a; exact Hs.
  - intros j t Hj Ht. rewrite Hf by lia. eexists. split; [reflexivity|].
    rewrite (firstn_S _ p0) by lia. pose proof (proj1 (addVertex_ok t _ (nth j vs p0) Ht)) as X.
    unfold add_verts in *. cbn [a_verts a_elems a_elsets] in X. now rewrite app_assoc.
  - cbn [Nat.add] in H. rewrite firstn_all in H. eauto.
Qed.

Definition is_3d (vs : list point) (o : point) : bool := existsb (fun v => Rltb eps (Rabs (pz v))) vs || Rltb eps (Rabs (pz o)).
(** what is read when the origin was [o] *)
Definition placed (o : point) (vs : list point) : list point :=
  if is_3d vs o then map (fun v => (px v + px o, py v + py o, pz v + pz o)%R) vs
  else map (fun v => (px v + px o, py v + py o, 0)%R) vs.
Definition dim_of vs o := if is_3d vs o then 3 else 2.
Definition xgeom_of (file g : list Z) vs o : xml :=
  Node (txt "Geometry") [(txt "GeometryType", if dim_of vs o =? 3 then txt "XYZ" else txt "XY")]
    [HDF "Float" (fmt (length vs) ++ [SPACE] ++ fmt (dim_of vs o)) fsize (file ++ [COLON] ++ g ++ txt "/Geometry")] [].
Definition geom_ds vs o : dataset := mkDs [length vs; dim_of vs o] (HFloats fsize (if is_3d vs o then flat_map (xyz_ o) vs else flat_map (xy o) vs)).
Lemma write_geometry f file g (s : soup point R) o : (3 * Z.of_nat (length (verts s)) <= intMax)%Z -> at_path f g (txt "Geometry") = None ->
  writeXDMFGeometry fsize eps f file g s o = Ret (xgeom_of file g (verts s) o, f ++ [(g ++ [SLASH] ++ txt "Geometry", geom_ds (verts s) o)]).
Proof.
  intros L Hf. unfold writeXDMFGeometry. cbv zeta. fold (is_3d (verts s) o). fold (dim_of (verts s) o).
  rewrite i32_ok.
  2:{ unfold in_i32, intMin, intMax in *. unfold dim_of. destruct (is_3d _ _); lia. }
  cbn [bind].
  assert (E : Z.to_nat (Z.of_nat (length (verts s)) * Z.of_nat (dim_of (verts s) o)) = length (verts s) * dim_of (verts s) o) by lia.
  rewrite E. unfold xgeom_of, geom_ds. unfold dim_of. destruct (is_3d (verts s) o); cbn [Nat.eqb].
  - rewrite fill3. cbn [bind]. rewrite create_ok by auto. reflexivity.
  - rewrite fill2. cbn [bind]. rewrite create_ok by auto. reflexivity.
Qed.
Lemma asserts_ok b : b = Ret true -> asserts checks b = Ret tt.
Proof. intros ->. unfold asserts. now destruct checks. Qed.
Lemma attr_type dt d p path : attribute (HDF dt d p path) "DataType" = txt dt. Proof. reflexivity. Qed.
Lemma attr_dims dt d p path : attribute (HDF dt d p path) "Dimensions" = d. Proof. reflexivity. Qed.
Lemma attr_prec dt d p path : attribute (HDF dt d p path) "Precision" = decimal p. Proof. reflexivity. Qed.
Lemma attr_format dt d p path : attribute (HDF dt d p path) "Format" = txt "HDF". Proof. reflexivity. Qed.
Lemma value_HDF dt d p path : value (HDF dt d p path) = path. Proof. reflexivity. Qed.
Lemma is_txt a : is (txt a) a = true.
Proof. apply name_eqb_refl. Qed.
Lemma placed_2d o vs : is_3d vs o = false -> placed o vs = map (fun v => (px v + px o, py v + py o, 0)%R) vs.
Proof. unfold placed. now intros ->. Qed.
Lemma placed_3d o vs : is_3d vs o = true -> placed o vs = map (fun v => (px v + px o, py v + py o, pz v + pz o)%R) vs.
Proof. unfold placed. now intros ->. Qed.
Lemma placed_length o vs : length (placed o vs) = length vs.
Proof. unfold placed. destruct (is_3d vs o); apply map_length. Qed.
Lemma nth_map_lt {A B} (g : A -> B) d d' : forall l i, i < length l -> nth i (map g l) d' = g (nth i l d).
Proof. induction l as [|a l IH]; intros [|i] H; cbn in *; try lia; auto. apply IH. lia. Qed.
Lemma add_nodes (s : soup point R) a vs o : stores s a -> (3 * Z.of_nat (length vs) <= intMax)%Z ->
  exists s', addNodesToSoup s (Z.of_nat (length vs)) (Z.of_nat (dim_of vs o))
    (if is_3d vs o then flat_map (xyz_ o) vs else flat_map (xy o) vs) (dim_of vs o =? 3) = Ret s' /\ stores s' (add_verts a (placed o vs)).
Proof.
  intros Hs L. unfold addNodesToSoup. rewrite i32_ok.
  2:{ unfold in_i32, intMin, intMax in *. unfold dim_of. destruct (is_3d _ _); lia. }
  cbn [bind]. rewrite <- Nat2Z.inj_mul, vsize_of. cbn [bind]. rewrite Nat2Z.id.
  unfold dim_of. destruct (is_3d vs o) eqn:D; cbn [Nat.eqb].
  - rewrite <- (flat_map_const_length (xyz_ o) 3 vs) by reflexivity. rewrite readInto_exact. cbn [bind]. rewrite <- (placed_length o vs).
    destruct (add_loop s a (placed o vs) (fun i s =>
       let* x := rd (flat_map (xyz_ o) vs) (i * 3) in let* y := rd (flat_map (xyz_ o) vs) (i * 3 + 1) in let* z := rd (flat_map (xyz_ o) vs) (i * 3 + 2) in
      Ret (fst (addVertex s (x, y, z)))) Hs) as (s' & E & H); [|eauto].
    intros i t Hi. rewrite placed_length in Hi. rewrite placed_3d by auto. rewrite (nth_map_lt _ p0) by auto. unfold rd.
    pose proof (flat_map_nth (xyz_ o) 3 p0 (fun _ => eq_refl) vs i 0 Hi) as X0. rewrite Nat.add_0_r in X0. rewrite X0 by lia.
    rewrite !(flat_map_nth (xyz_ o) 3 p0 (fun _ => eq_refl) vs i) by lia. reflexivity.
  - rewrite <- (flat_map_const_length (xy o) 2 vs) by reflexivity. rewrite readInto_exact. cbn [bind]. rewrite <- (placed_length o vs).
    destruct (add_loop s a (placed o vs) (fun i s =>
       let* x := rd (flat_map (xy o) vs) (i * 2) in let* y := rd (flat_map (xy o) vs) (i * 2 + 1) in
      Ret (fst (addVertex s (x, y, 0%R)))) Hs) as (s' & E & H); [|eauto].
    intros i t Hi. rewrite placed_length in Hi. rewrite placed_2d by auto. rewrite (nth_map_lt _ p0) by auto. unfold rd.
    pose proof (flat_map_nth (xy o) 2 p0 (fun _ => eq_refl) vs i 0 Hi) as X0. rewrite Nat.add_0_r in X0. rewrite X0 by lia.
    rewrite !(flat_map_nth (xy o) 2 p0 (fun _ => eq_refl) vs i) by lia. reflexivity.
Qed.
Lemma geom_path g : g ++ txt "/Geometry" = g ++ [SLASH] ++ txt "Geometry". Proof. reflexivity. Qed.
Lemma read_geometry f file g vs o (s : soup point R) a xg : stores s a -> (3 * Z.of_nat (length vs) <= intMax)%Z ->
  the_child xg "Geometry" = Ret (xgeom_of file g vs o) -> at_path f g (txt "Geometry") = Some (geom_ds vs o) ->
  exists s', readXDMFGeometry checks xg f file s = Ret s' /\ stores s' (add_verts a (placed o vs)).
Proof.
  intros Hs L Hx Hd. unfold readXDMFGeometry. rewrite Hx. cbn [bind].
  replace (attribute (xgeom_of file g vs o) "GeometryType") with (if dim_of vs o =? 3 then txt "XYZ" else txt "XY") by reflexivity.
  change (the_child (xgeom_of file g vs o) "DataItem") with
    (Ret (HDF "Float" (fmt (length vs) ++ [SPACE] ++ fmt (dim_of vs o)) fsize (file ++ [COLON] ++ g ++ txt "/Geometry"))).
  destruct (add_nodes s a vs o Hs L) as (s' & E & H). exists s'. split; [|exact H]. rewrite <- E; clear E.
  assert (G : is (if dim_of vs o =? 3 then txt "XYZ" else txt "XY") "XYZ" = (dim_of vs o =? 3) /\
              is (if dim_of vs o =? 3 then txt "XYZ" else txt "XY") "XY" = negb (dim_of vs o =? 3)).
  { destruct (dim_of vs o =? 3); split; reflexivity. }
  destruct G as (-> & ->). assert (Hd3 : (dim_of vs o =? 3) || negb (dim_of vs o =? 3) = true) by apply orb_negb_r. rewrite Hd3. cbn [need bind].
  rewrite attr_type, attr_dims, attr_prec, attr_format, value_HDF. cbn [bind]. rewrite is_txt, fsize_text. cbn [need bind].
  rewrite two_dims_ok.
  2: lia. 2:{ unfold dim_of, intMax. destruct (is_3d _ _); cbn; lia. }
  cbn [bind].
  assert (C : need (negb ((dim_of vs o =? 3) && negb (Z.of_nat (dim_of vs o) =? 3)%Z)) = Ret tt /\
              need (negb (negb (dim_of vs o =? 3) && negb (Z.of_nat (dim_of vs o) =? 2)%Z)) = Ret tt).
  { unfold dim_of. destruct (is_3d vs o); split; reflexivity. }
  destruct C as (-> & ->). cbn [bind]. change (need (is (txt "HDF") "HDF")) with (Ret tt). cbn [bind].
  rewrite geom_path. rewrite (open_k f file g (txt "Geometry") _ _ Hd).
  replace (floats (geom_ds vs o)) with (Ret (if is_3d vs o then flat_map (xyz_ o) vs else flat_map (xy o) vs)) by reflexivity.
  cbn [bind]. rewrite asserts_ok.
  2:{ rewrite fsize_strto. cbn [bind]. f_equal. unfold geom_ds, size_of, same_dims. cbn [content dims combine forallb length fst snd].
      rewrite !Z.eqb_refl. reflexivity. }
  cbn [bind]. change (size_of (geom_ds vs o)) with fsize. rewrite fsize_ok. reflexivity.
Qed.
End Geometry.
