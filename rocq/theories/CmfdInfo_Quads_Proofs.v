(** The rectangles of the file with the CMFD data. *)
From Coq Require Import String.
From Coq Require Import Reals.
From Coquelicot Require Import Complex.
From Coq Require Import List Arith ZArith Lia Lra Bool.
From Verif Require Import Base Loops Arith TextIo_Model Elem_Model Soup_Model Soup_Spec Soup_Proofs XSec_Model Cmfd_Model PinCyl_Model Grid_Model Grid_Spec Grid_Proofs Fvm_Model
  Mpact_Model Mpact_Spec Export_Model Export_Spec Export_Loop_Proofs Export_Proofs Outputs_Model Outputs_Spec Outputs_Volume_Proofs CmfdInfo_Model CmfdInfo_Spec.
Import ListNotations.
Local Open Scope list_scope.
Local Open Scope R_scope.

(** ** Positions *)
Lemma combine_app' {A B} : forall (l : list A) (r : list B) l' r', length r = length l -> combine (l ++ l') (r ++ r') = combine l r ++ combine l' r'.
Proof. induction l as [|a l IH]; intros [|b r] l' r' H; try discriminate; cbn; [auto|]. f_equal. apply IH. now injection H. Qed.
Lemma positions_snoc c l x : positions c (l ++ [x]) = positions c l ++ (if (x =? c)%Z then [Z.of_nat (length l)] else []).
Proof.
  unfold positions. rewrite app_length, seq_app, combine_app' by now rewrite seq_length. cbn [length seq combine Nat.add].
  rewrite filter_app, map_app. f_equal. cbn. destruct (x =? c)%Z; reflexivity.
Qed.
Lemma quads_snoc n : quads_of (S n) = quads_of n ++ [(V_Quad, map (fun j => Z.of_nat (4 * n + j)) [0; 1; 2; 3]%nat)].
Proof. unfold quads_of. rewrite seq_S, map_app. reflexivity. Qed.

(** ** Boxes *)
Lemma rect_boxes lx ly k : (k < (length lx - 1) * (length ly - 1))%nat ->
  exists x x' y y', let nx := (length lx - 1)%nat in
    rect_getBox [lx; ly] [Z.of_nat (k mod nx); Z.of_nat (k / nx)] = Ret [(x, x'); (y, y')] /\
    nth_error (corners2 lx ly) k = Some (x, y, 0) /\
    nth_error (flat_map (fun h => map (fun w => (w, h)) (gaps lx)) (gaps ly)) k = Some (x' - x, y' - y).
Proof.
  set (nx := (length lx - 1)%nat). set (ny := (length ly - 1)%nat). intros Hk. assert (Hn : (0 < nx /\ 0 < ny)%nat) by nia.
  assert (Hi : (k mod nx < nx)%nat) by (apply Nat.mod_upper_bound; lia).
  assert (Hj : (k / nx < ny)%nat) by (apply Nat.div_lt_upper_bound; lia).
  destruct (nth_error lx (k mod nx)) as [x|] eqn:Ex; [|apply nth_error_None in Ex; lia].
  destruct (nth_error lx (S (k mod nx))) as [x'|] eqn:Ex'; [|apply nth_error_None in Ex'; lia].
  destruct (nth_error ly (k / nx)) as [y|] eqn:Ey; [|apply nth_error_None in Ey; lia].
  destruct (nth_error ly (S (k / nx))) as [y'|] eqn:Ey'; [|apply nth_error_None in Ey'; lia].
  exists x, x', y, y'. cbv zeta. split; [|split].
  - unfold rect_getBox. cbn [combine forallb fst snd].
    rewrite (proj2 (Z.ltb_lt (Z.of_nat (k mod nx) + 1) _)) by lia. rewrite (proj2 (Z.ltb_lt (Z.of_nat (k / nx) + 1) _)) by lia. cbn [andb map2o].
    rewrite (rdz_nth lx (Z.of_nat (k mod nx)) x) by (try lia; now rewrite Nat2Z.id). cbn [bind].
    rewrite (rdz_nth lx (Z.of_nat (k mod nx) + 1) x') by (try lia; replace (Z.to_nat _) with (S (k mod nx)) by lia; auto). cbn [bind].
    rewrite (rdz_nth ly (Z.of_nat (k / nx)) y) by (try lia; now rewrite Nat2Z.id). cbn [bind].
    rewrite (rdz_nth ly (Z.of_nat (k / nx) + 1) y') by (try lia; replace (Z.to_nat _) with (S (k / nx)) by lia; auto). reflexivity.
  - unfold corners2. rewrite (rows_nth (fun x y => (x, y, 0))) by (intros X; apply (f_equal (@length R)) in X; rewrite removelast_len in X; cbn in X; lia).
    rewrite removelast_len. fold nx. rewrite !removelast_nth by (fold nx ny; lia). now rewrite Ex, Ey.
  - assert (Lg : length (gaps lx) = nx) by (apply gaps_length; lia).
    rewrite (rows_nth (fun w h => (w, h))) by (intros X; rewrite X in Lg; cbn in Lg; lia).
    rewrite Lg, (gaps_nth ly _ y y' Ey Ey'), (gaps_nth lx _ x x' Ex Ex'). reflexivity.
Qed.

Lemma F2_nth {A B} (P : A -> B -> Prop) l r : Forall2 P l r -> forall k a b, nth_error l k = Some a -> nth_error r k = Some b -> P a b.
Proof. induction 1 as [|x y l r H _ IH]; intros [|k] a b Ha Hb; try discriminate; cbn in *; [congruence|eauto]. Qed.
Lemma F2_in {A B} (P Q : A -> B -> Prop) l r : Forall2 P l r -> (forall a b, In b r -> P a b -> Q a b) -> Forall2 Q l r.
Proof. induction 1 as [|x y l r H _ IH]; intros F; constructor; [apply F; auto; now left|]. apply IH. intros; apply F; auto. now right. Qed.

Section Quads.
Variable exit : bool.
Variable m : model.
Hypothesis Hids : ids_valid m.
Hypothesis Hshape : shaped m.
Hypothesis Hfits : fits m.
(** a cell, its place and its size *)
Notation item := (Z * pt3 * (R * R))%type.
Notation state := (soup pt3 R * list (list Z))%type.
Definition item_id (it : item) : Z := fst (fst it).
Definition has_items (st : state) (items : list item) : Prop :=
  stores (fst st) (mkA (flat_map (fun it => rectangle (snd (fst it)) (snd it)) items) (quads_of (length items)) []) /\
  snd st = map (fun c => positions c (map item_id items)) (every_id m).
Definition adds (f : state -> outcome (state * bool)) (ok : bool) (its : list item) : Prop :=
  forall st items, has_items st items ->
    if ok then exists st', f st = Ret (st', true) /\ has_items st' (items ++ its)
    else if exit then f st = Fail else exists st', f st = Ret (st', false).
Lemma runs_adds {K L} (f : L -> state -> outcome (state * bool)) (ok : K -> bool) (its : K -> list item) idx kids :
  Forall2 (fun i k => adds (f i) (ok k) (its k)) idx kids -> adds (runs f idx) (forallb ok kids) (flat_map its kids).
Proof.
  induction 1 as [|i k idx kids H _ IH]; intros st items Hst.
  - exists st. cbn. rewrite app_nil_r. auto.
  - cbn [forallb flat_map runs]. specialize (H st items Hst). destruct (ok k); cbn [andb].
    + destruct H as (st' & -> & H'). cbn [bind fst snd]. specialize (IH st' _ H'). destruct (forallb ok kids); [|exact IH].
      destruct IH as (st'' & E & H''). exists st''. rewrite app_assoc. auto.
    + destruct exit; [now rewrite H|]. destruct H as (st' & ->). exists st'. reflexivity.
Qed.
Lemma adds_ext f g ok its : (forall st, g st = f st) -> adds f ok its -> adds g ok its.
Proof. intros E H st items Hst. specialize (H st items Hst). rewrite E. exact H. Qed.
Lemma adds_eq f ok its ok' its' : ok = ok' -> its = its' -> adds f ok its -> adds f ok' its'.
Proof. now intros -> ->. Qed.
Lemma adds_stop : adds (fun st => give_up exit st) false [].
Proof. intros st items _. unfold give_up. destruct exit; [reflexivity|]. now exists st. Qed.

(** ** Cells *)
Lemma cell_adds rtm ax ay z rx ry ix iy id x x' y y' : rect_getChild Z rtm [ix; iy] = Ret id -> exists_in (cells m) id ->
  rect_getBox (fst rtm) [ix; iy] = Ret [(x, x'); (y, y')] ->
  adds (quad_cell rtm (ax, ay) z (rx, ry) ix iy) true [((id, (x + rx + ax, y + ry + ay, z)), (x' - x, y' - y))].
Proof.
  intros Ec Hid Eb (s, fids) items (Hs & Hf). cbn [fst snd] in Hs, Hf. unfold quad_cell. rewrite Ec. cbn [bind]. rewrite Eb. cbn [bind rd nth_error fst snd].
  set (v := flat_map (fun it => rectangle (snd (fst it)) (snd it)) items) in *.
  assert (Lv : length v = (4 * length items)%nat).
  { subst v. clear. induction items as [|[[? [[? ?] ?]] ?] l IH]; [reflexivity|]. cbn [flat_map]. rewrite app_length, IH. cbn. lia. }
  set (x0 := x + rx + ax). set (y0 := y + ry + ay). set (ex := x' - x). set (ey := y' - y).
  destruct (addVertex_ok s _ (x0, y0, z) Hs) as (H1 & E1). destruct (addVertex s (x0, y0, z)) as (s1, v0). cbn [fst snd a_verts a_elems a_elsets] in H1, E1.
  destruct (addVertex_ok s1 _ (x0 + ex, y0, z) H1) as (H2 & E2). destruct (addVertex s1 (x0 + ex, y0, z)) as (s2, v1). cbn [fst snd a_verts a_elems a_elsets] in H2, E2.
  destruct (addVertex_ok s2 _ (x0 + ex, y0 + ey, z) H2) as (H3 & E3). destruct (addVertex s2 (x0 + ex, y0 + ey, z)) as (s3, v2). cbn [fst snd a_verts a_elems a_elsets] in H3, E3.
  destruct (addVertex_ok s3 _ (x0, y0 + ey, z) H3) as (H4 & E4). destruct (addVertex s3 (x0, y0 + ey, z)) as (s4, v3). cbn [fst snd a_verts a_elems a_elsets] in H4, E4.
  destruct (addElement_ok s4 _ V_Quad [v0; v1; v2; v3] H4) as (s5 & E5 & H5). cbn [fst snd a_verts a_elems a_elsets] in E5, H5. rewrite E5. cbn [bind fst snd].
  assert (Lq : length (quads_of (length items)) = length items) by (unfold quads_of; now rewrite map_length, seq_length).
  rewrite Lq. unfold exists_in in Hid.
  assert (Li : length (every_id m) = length (cells m)) by (unfold every_id; now rewrite map_length, seq_length).
  assert (Rf : rdz fids id = Ret (positions id (map item_id items))).
  { apply rdz_nth; [lia|]. rewrite Hf. rewrite (map_nth_error (fun c => positions c (map item_id items)) (Z.to_nat id) (every_id m) (d := id)); [reflexivity|].
    unfold every_id. rewrite (map_nth_error Z.of_nat (Z.to_nat id) (seq 0 (length (cells m))) (d := Z.to_nat id)); [f_equal; lia|]. rewrite seq_nth_error by lia. reflexivity. }
  rewrite Rf. cbn [bind]. unfold wrz. destruct (Z.ltb_spec id 0) as [?|_]; [lia|].
  assert (Ew : wr fids (Z.to_nat id) (positions id (map item_id items) ++ [Z.of_nat (length items)]) = Ret (upd fids (Z.to_nat id) (positions id (map item_id items) ++ [Z.of_nat (length items)]))).
  { apply wr_ok. rewrite Hf, map_length. lia. }
  rewrite Ew. cbn [bind]. eexists. split; [reflexivity|]. split; cbn [fst snd].
  - rewrite app_length. cbn [length]. rewrite Nat.add_1_r, quads_snoc, flat_map_app. fold v. cbn [flat_map rectangle fst snd app].
    rewrite <- !app_assoc in H5. cbn [app] in H5.
    replace (map (fun j => Z.of_nat (4 * length items + j)) [0; 1; 2; 3]%nat) with [v0; v1; v2; v3]; [exact H5|].
    rewrite !app_length in E2, E3, E4. cbn [length] in E2, E3, E4.
    assert (Q : forall a b c d a' b' c' d' : Z, a = a' -> b = b' -> c = c' -> d = d' -> [a; b; c; d] = [a'; b'; c'; d']) by (intros; subst; reflexivity).
    cbn [map]. rewrite ?app_length in *. cbn [length] in *. apply Q; lia.
  - rewrite Hf. apply nth_ext with (d := []) (d' := []).
    + rewrite upd_length, !map_length. reflexivity.
    + intros n Hn. rewrite upd_length, map_length, Li in Hn. apply nth_error_nth.
      assert (En : forall its, nth_error (map (fun c => positions c (map item_id its)) (every_id m)) n = Some (positions (Z.of_nat n) (map item_id its))).
      { intros its. apply (map_nth_error (fun c => positions c (map item_id its))). unfold every_id. apply map_nth_error. now rewrite seq_nth_error. }
      rewrite (nth_error_nth _ _ _ (En (items ++ _))). rewrite map_app. cbn [map item_id fst]. rewrite positions_snoc, map_length.
      destruct (Nat.eq_dec n (Z.to_nat id)) as [->|Hne].
      * rewrite nth_error_upd_eq by (rewrite map_length; lia). rewrite Z2Nat.id, Z.eqb_refl by lia. reflexivity.
      * rewrite nth_error_upd_neq by auto. rewrite En. destruct (Z.eqb_spec id (Z.of_nat n)); [lia|]. now rewrite app_nil_r.
Qed.

(** ** Levels *)
Definition items_rtm (o : pt3) (id : Z) : list item :=
  map (fun it => ((fst (fst it), plus3 o (snd (fst it))), snd it)) (combine (rtm_kids m id) (rtm_sizes m id)).
Definition items_lat (o : pt3) (id : Z) : list item := flat_map (fun k => items_rtm (plus3 o (snd k)) (fst k)) (lat_kids m id).
Definition items_asy (o : pt3) (id : Z) : list item := flat_map (fun k => items_lat (plus3 o (snd k)) (fst k)) (asy_kids m id).
Definition items_core : list item := flat_map (fun k => items_asy (plus3 (0, 0, 0) (snd k)) (fst k)) (core_kids m).
Definition rtm_ok (r : Z) : bool := full (snd (get (rtms m) r ([], []))) (fun _ => true).
Definition lat_ok (l : Z) : bool := full (snd (get (lattices m) l ([], []))) rtm_ok.
Definition asy_ok (a : Z) : bool := full (snd (get (assemblies m) a ([], []))) lat_ok.

Lemma rtm_adds lat ax ay z ij kid : child_at (regular_getChild Z lat) (getBox (fst lat)) ij kid -> exists_in (rtms m) (fst kid) ->
  adds (quad_rtm exit m lat (ax, ay) z (Z.of_nat (fst ij)) (Z.of_nat (snd ij))) (rtm_ok (fst kid)) (items_rtm (plus3 (ax, ay, z) (snd kid)) (fst kid)).
Proof.
  intros (Ec & b & rx & ry & Eb & Eco & Ek) Hid.
  destruct (Export_Proofs.get_ok (rtms m) (fst kid) ([], []) Hid) as (Eg & Ig). unfold items_rtm, rtm_ok, rtm_sizes, rtm_kids. set (r := get (rtms m) (fst kid) ([], [])) in *.
  eapply adds_ext; [intros st; unfold quad_rtm; rewrite Ec; cbn [bind]; rewrite Eb; cbn [bind]; rewrite Eco; cbn [bind]; rewrite Eg; cbn [bind]; reflexivity|].
  unfold full. destruct (Nat.eqb_spec (length (snd r)) 0) as [L0|L0].
  { cbn [negb andb]. intros st items _. unfold give_up. destruct exit; [reflexivity|]. now exists st. }
  cbn [negb andb]. assert (Hne : snd r <> []) by (intros X; rewrite X in L0; now apply L0).
  destruct (rtms_shaped _ Hshape r Ig) as (lx & ly & Er & Hlx & Hly & Lr).
  assert (Hmax : (Z.of_nat (length (snd r)) <= intMax)%Z) by (apply (proj2 (proj2 (proj2 Hfits)) r Ig)).
  destruct (rect_kids r ltac:(exists lx, ly; auto) Hmax Hne) as (lx' & ly' & Er' & En & D & Em).
  assert (X : lx' = lx /\ ly' = ly) by (rewrite Er in Er'; injection Er' as <- <-; auto). destruct X as (-> & ->).
  eapply adds_ext; [intros st; rewrite En; cbn [bind fst snd]; rewrite loop2_runs, !Nat2Z.id; reflexivity|].
  rewrite Er. set (kids := combine (snd r) (corners2 lx ly)) in *. set (sz := flat_map (fun h => map (fun w => (w, h)) (gaps lx)) (gaps ly)).
  pose proof (rtm_ids _ Hids r Ig) as Hch. rewrite Forall_forall in Hch.
  assert (Lk : length kids = ((length lx - 1) * (length ly - 1))%nat).
  { rewrite <- Lr, <- Em, map_length. reflexivity. }
  assert (Ls : length sz = length kids).
  { subst sz. rewrite (rows_len (fun w h => (w, h))), Lk, (gaps_length lx (length lx - 1)), (gaps_length ly (length ly - 1)) by lia. reflexivity. }
  assert (A : adds (runs (fun p => quad_cell r (ax, ay) z (rx, ry) (Z.of_nat (fst p)) (Z.of_nat (snd p))) (cells2 (length lx - 1) (length ly - 1)))
     (forallb (fun _ => true) (combine kids sz))
     (flat_map (fun it => [((fst (fst it), plus3 (plus3 (ax, ay, z) (snd kid)) (snd (fst it))), snd it)]) (combine kids sz))).
  { apply runs_adds. pose proof (Forall2_length _ _ _ D) as LD. apply F2_of_nth.
    - rewrite combine_length, Ls, LD. lia.
    - intros n (i, j) it Hij Hit.
      assert (Hn : (n < length kids)%nat).
      { assert (n < length (combine kids sz))%nat by (apply nth_error_Some; congruence). rewrite combine_length in H. lia. }
      rewrite cells2_nth in Hij by nia. injection Hij as <- <-.
      destruct (rect_boxes lx ly n) as (x & x' & y & y' & B1 & B2 & B3); [lia|]. cbv zeta in B1.
      destruct (nth_error kids n) as [kd|] eqn:Ekd; [|apply nth_error_None in Ekd; lia].
      fold sz in B3. rewrite (nth_combine _ _ _ _ _ Ekd B3) in Hit. injection Hit as <-.
      assert (Ekd2 : snd kd = (x, y, 0)).
      { unfold kids in Ekd. destruct (nth_error (snd r) n) as [id|] eqn:Eid; [|apply nth_error_None in Eid; lia].
        rewrite (nth_combine _ _ _ _ _ Eid B2) in Ekd. now injection Ekd as <-. }
      destruct kd as (id, rel). cbn [fst snd] in *. subst rel. rewrite Ek. cbn [plus3].
      assert (Hc2 : nth_error (cells2 (length lx - 1) (length ly - 1)) n = Some (n mod (length lx - 1), n / (length lx - 1))%nat) by (apply cells2_nth; nia).
      destruct (F2_nth _ _ _ D _ _ _ Hc2 Ekd) as (Hc & _). cbn [fst snd] in Hc.
      intros st items Hst. assert (Hex : exists_in (cells m) id).
      { apply Hch. rewrite <- Em. apply (in_map fst kids (id, (x, y, 0))). eapply nth_error_In; eauto. }
      pose proof (cell_adds r ax ay z rx ry _ _ id x x' y y' Hc Hex ltac:(rewrite Er; exact B1) st items Hst) as CA. cbv beta iota in CA.
      destruct CA as (st' & E1 & E2). exists st'. split; [exact E1|].
      replace (ax + rx + x) with (x + rx + ax) by ring. replace (ay + ry + y) with (y + ry + ay) by ring. replace (z + 0 + 0) with z by ring. exact E2. }
  eapply adds_eq; [| |exact A].
  - replace (forallb (fun _ : Z => true) (snd r)) with true by (symmetry; apply forallb_forall; auto). apply forallb_forall. auto.
  - generalize (plus3 (ax, ay, z) (snd kid)). intros o. clear. induction (combine kids sz) as [|q l IH]; [reflexivity|]. cbn [flat_map map app]. f_equal; try exact IH.
Qed.

Lemma lat_adds asy zs ax ay iz kid : fst asy = [zs] ->
  (forall id rel, kid = (id, rel) -> rect_getChild Z asy [Z.of_nat iz] = Ret id /\
     exists lo hi, nth_error zs iz = Some lo /\ nth_error zs (S iz) = Some hi /\ rel = (0, 0, (lo + hi) / 2)) ->
  exists_in (lattices m) (fst kid) ->
  adds (quad_lattice exit m asy (ax, ay) iz) (lat_ok (fst kid)) (items_lat (plus3 (ax, ay, 0) (snd kid)) (fst kid)).
Proof.
  intros Ez Hkid Hid. destruct (Hkid _ _ (surjective_pairing kid)) as (Ec & lo & hi & Elo & Ehi & Ek).
  destruct (Export_Proofs.get_ok (lattices m) (fst kid) ([], []) Hid) as (Eg & Ig). unfold items_lat, lat_ok, lat_kids. set (l := get (lattices m) (fst kid) ([], [])) in *.
  eapply adds_ext; [intros st; unfold quad_lattice; rewrite Ec; cbn [bind]; rewrite Ez; cbn [rd nth_error bind];
    rewrite (proj2 (rd_Ret _ _ _) Elo), (proj2 (rd_Ret _ _ _) Ehi); cbn [bind]; rewrite Eg; cbn [bind]; reflexivity|].
  unfold full. destruct (Nat.eqb_spec (length (snd l)) 0) as [L0|L0].
  { cbn [negb andb]. intros st items _. unfold give_up. destruct exit; [reflexivity|]. now exists st. }
  cbn [negb andb]. assert (Hne : snd l <> []) by (intros X; rewrite X in L0; now apply L0).
  destruct (lattices_shaped _ Hshape l Ig) as (w & h & nx & ny & El & Hnx & Hny & Ll).
  destruct (regular_kids l w h nx ny El Hnx Hny Ll (proj1 (proj2 (proj2 Hfits)) l Ig) Hne) as (D & Em).
  assert (R0 : rd (fst l) 0 = Ret (mkAxis 0 w nx)) by now rewrite El.
  assert (R1 : rd (fst l) 1 = Ret (mkAxis 0 h ny)) by now rewrite El.
  eapply adds_ext; [intros st; rewrite R0; cbn [bind]; rewrite R1; cbn [bind nc]; rewrite loop2_runs; reflexivity|].
  pose proof (lattice_ids _ Hids l Ig) as Hch. rewrite Forall_forall in Hch.
  rewrite El. cbn [lattice_grid sp nc]. set (kids := combine (snd l) (regular_corners w h nx ny)) in *.
  eapply adds_eq; [| |apply (runs_adds _ (fun k => rtm_ok (fst k)) (fun k => items_rtm (plus3 (plus3 (ax, ay, 0) (snd kid)) (snd k)) (fst k)) _ kids)].
  - rewrite <- Em. clear. induction kids as [|k ks IH]; [reflexivity|]. cbn. now rewrite IH.
  - reflexivity.
  - eapply F2_in; [exact D|]. intros ij k Hk Hc.
    replace (plus3 (ax, ay, 0) (snd kid)) with (ax, ay, (lo + hi) / 2) by (rewrite Ek; cbn [plus3]; f_equal; [f_equal|]; ring).
    apply rtm_adds; auto. apply Hch. rewrite <- Em. now apply in_map.
Qed.

Lemma asy_adds ij kid : child_at (rect_getChild Z (core m)) (rect_getBox (fst (core m))) ij kid -> exists_in (assemblies m) (fst kid) ->
  adds (quad_assembly exit m (Z.of_nat (fst ij)) (Z.of_nat (snd ij))) (asy_ok (fst kid)) (items_asy (plus3 (0, 0, 0) (snd kid)) (fst kid)).
Proof.
  intros (Ec & b & x0 & y0 & Eb & Eco & Ek) Hid.
  destruct (Export_Proofs.get_ok (assemblies m) (fst kid) ([], []) Hid) as (Eg & Ig). unfold items_asy, asy_ok, asy_kids. set (r := get (assemblies m) (fst kid) ([], [])) in *.
  eapply adds_ext; [intros st; unfold quad_assembly; rewrite Ec; cbn [bind]; rewrite Eb; cbn [bind]; rewrite Eco; cbn [bind]; rewrite Eg; cbn [bind]; reflexivity|].
  unfold full. destruct (Nat.eqb_spec (length (snd r)) 0) as [L0|L0].
  { cbn [negb andb]. intros st items _. unfold give_up. destruct exit; [reflexivity|]. now exists st. }
  cbn [negb andb]. assert (Hne : snd r <> []) by (intros X; rewrite X in L0; now apply L0).
  destruct (assemblies_shaped _ Hshape r Ig) as (z & Er & Lz).
  destruct (column_kids r z Er Lz (proj1 (proj2 Hfits) r Ig)) as (D & Em).
  assert (R0 : rd (numCells (fst r)) 0 = Ret (Z.of_nat (length z) - 1)%Z) by now rewrite Er.
  eapply adds_ext; [intros st; rewrite R0; cbn [bind]; rewrite loop_runs; replace (Z.to_nat (Z.of_nat (length z) - 1)) with (length (snd r)) by lia; reflexivity|].
  pose proof (assembly_ids _ Hids r Ig) as Hch. rewrite Forall_forall in Hch.
  rewrite Er. set (kids := combine (snd r) (midplanes z)) in *.
  eapply adds_eq; [| |apply (runs_adds _ (fun k => lat_ok (fst k)) (fun k => items_lat (plus3 (plus3 (0, 0, 0) (snd kid)) (snd k)) (fst k)) _ kids)].
  - rewrite <- Em. clear. induction kids as [|k ks IH]; [reflexivity|]. cbn. now rewrite IH.
  - reflexivity.
  - eapply F2_in; [exact D|]. intros iz k Hk Hc.
    replace (plus3 (0, 0, 0) (snd kid)) with (x0, y0, 0) by (rewrite Ek; cbn [plus3]; f_equal; [f_equal|]; ring).
    eapply lat_adds; eauto. apply Hch. rewrite <- Em. now apply in_map.
Qed.

Lemma core_adds : snd (core m) <> [] -> exists nx ny, num_cells (fst (core m)) = Ret (nx, ny) /\
  adds (loop2 nx ny (quad_assembly exit m)) (branching m) items_core.
Proof.
  intros Hne. destruct (core_shaped _ Hshape) as [E|Hs]; [now elim Hne|].
  destruct (rect_kids (core m) Hs (proj1 Hfits) Hne) as (lx & ly & Er & En & D & Em).
  eexists. eexists. split; [exact En|]. eapply adds_ext; [intros st; rewrite loop2_runs, !Nat2Z.id; reflexivity|].
  unfold items_core, core_kids. rewrite Er. set (kids := combine (snd (core m)) (corners2 lx ly)) in *.
  eapply adds_eq; [| |apply (runs_adds _ (fun k => asy_ok (fst k)) (fun k => items_asy (plus3 (0, 0, 0) (snd k)) (fst k)) _ kids)].
  - unfold branching. change (forallb (fun k => asy_ok (fst k)) kids = full (snd (core m)) asy_ok). unfold full.
    destruct (Nat.eqb_spec (length (snd (core m))) 0) as [L0|_]; [destruct (snd (core m)); [now elim Hne|discriminate]|].
    cbn [negb andb]. rewrite <- Em. clear. induction kids as [|k l IH]; [reflexivity|]. cbn. now rewrite IH.
  - reflexivity.
  - eapply F2_in; [exact D|]. intros ij k Hk Hc. apply asy_adds; auto. pose proof (core_ids _ Hids) as H. rewrite Forall_forall in H. apply H. rewrite <- Em. now apply in_map.
Qed.

(** ** Places *)
Definition spot (p : place) : Z * pt3 := (here p, offset p).
Lemma number_spots l : forall seen, map spot (number seen l) = map (fun q => (fst q, snd (snd q))) l.
Proof. induction l as [|[id [p o]] l IH]; intros seen; [reflexivity|]. cbn [number map]. rewrite IH. reflexivity. Qed.
Lemma expand_spots kids l : map spot (expand kids l) = flat_map (fun q => map (fun k => (fst k, plus3 (snd q) (snd k))) (kids (fst q))) (map spot l).
Proof.
  unfold expand. rewrite number_spots. unfold below. induction l as [|p l IH]; [reflexivity|]. cbn [flat_map map]. rewrite map_app, map_map, IH. reflexivity.
Qed.
Lemma flat_flat {A B D} (f : A -> list B) (g : B -> list D) l : flat_map g (flat_map f l) = flat_map (fun a => flat_map g (f a)) l.
Proof. induction l as [|a l IH]; [reflexivity|]. cbn. now rewrite flat_map_app, IH. Qed.
Lemma flat_of_map {A B D} (f : A -> B) (g : B -> list D) l : flat_map g (map f l) = flat_map (fun a => g (f a)) l.
Proof. induction l as [|a l IH]; [reflexivity|]. cbn. now rewrite IH. Qed.
Lemma items_flat : items_core = flat_map (fun q => items_rtm (snd q) (fst q)) (map spot (placed_rtms m)).
Proof.
  unfold placed_rtms, placed_lattices, placed_assemblies. rewrite !expand_spots. cbn [map flat_map spot here path offset]. rewrite app_nil_r.
  rewrite !flat_flat, flat_of_map. unfold items_core, items_asy, items_lat. apply flat_map_ext. intros k. cbn [fst snd].
  rewrite flat_of_map. apply flat_map_ext. intros k2. cbn [fst snd]. rewrite flat_of_map. reflexivity.
Qed.
Lemma rtm_lens id : length (rtm_sizes m id) = length (rtm_kids m id) \/ ~ exists_in (rtms m) id.
Proof.
  destruct (Z_lt_dec id 0) as [H|H]; [right; unfold exists_in; lia|]. destruct (Z_lt_dec id (Z.of_nat (length (rtms m)))) as [H'|H']; [|right; unfold exists_in; lia].
  left. destruct (Export_Proofs.get_ok (rtms m) id ([], []) ltac:(unfold exists_in; lia)) as (_ & Ig). unfold rtm_sizes, rtm_kids.
  destruct (rtms_shaped _ Hshape _ Ig) as (lx & ly & Er & Hlx & Hly & Lr). rewrite Er.
  rewrite combine_length, Lr. unfold corners2. rewrite (rows_len (fun x y => (x, y, 0))), (rows_len (fun w h => (w, h))), !removelast_len, (gaps_length lx (length lx - 1)), (gaps_length ly (length ly - 1)) by lia. lia.
Qed.
Lemma items_placed : Forall (exists_in (rtms m)) (map here (placed_rtms m)) ->
  length (cell_sizes m) = length (placed_cells m) /\ items_core = map (fun q => (spot (fst q), snd q)) (combine (placed_cells m) (cell_sizes m)).
Proof.
  intros Hr. rewrite items_flat. unfold cell_sizes.
  assert (X : length (flat_map (fun p => rtm_sizes m (here p)) (placed_rtms m)) = length (map spot (placed_cells m)) /\
    flat_map (fun q => items_rtm (snd q) (fst q)) (map spot (placed_rtms m)) = combine (map spot (placed_cells m)) (flat_map (fun p => rtm_sizes m (here p)) (placed_rtms m))).
  { unfold placed_cells. rewrite expand_spots. revert Hr. generalize (placed_rtms m). intros l. induction l as [|p l IH]; intros Hr; [split; reflexivity|].
    cbn [map] in Hr. inversion Hr as [|? ? Hp Hl]; subst. destruct (IH Hl) as (I1 & I2). destruct (rtm_lens (here p)) as [L|L]; [|now elim L].
    cbn [map flat_map spot fst snd]. split.
    - rewrite !app_length, I1, map_length, L. reflexivity.
    - rewrite I2, combine_app' by (rewrite map_length; exact L). f_equal. unfold items_rtm. clear. revert p.
      generalize (rtm_sizes m). intros. destruct p as [pp o]. cbn [offset here]. generalize (l (here (mkPlace pp o))) (rtm_kids m (here (mkPlace pp o))). clear. intros sz ks. revert sz.
      induction ks as [|k ks IH]; intros [|s sz]; try reflexivity. cbn. now rewrite IH. }
  destruct X as (X1 & X2). rewrite map_length in X1. split; [exact X1|]. rewrite X2. clear. generalize (placed_cells m) (flat_map (fun p => rtm_sizes m (here p)) (placed_rtms m)).
  induction l as [|p l IH]; intros [|s sz]; try reflexivity. cbn. now rewrite IH.
Qed.
End Quads.
