(** The export of a model, level by level. *)
From Coq Require Import String.
From Coq Require Import List Arith ZArith Lia Bool Reals Permutation Sorting.Sorted.
From Verif Require Import Base Loops Arith StringView_Model TextIo_Model Elem_Model Sort_Spec
  Soup_Model Soup_Spec Soup_Proofs Stats_Spec XSec_Model XSec_Spec XSec_Proofs PinCyl_Model Grid_Model Fvm_Model Fvm_Spec Mpact_Model Mpact_Spec
  Export_Model Export_Spec Export_Sets_Proofs Export_Cell_Proofs Export_Loop_Proofs Export_Level_Proofs.
Import ListNotations.
Local Open Scope list_scope.

Lemma get_ok {A} (l : list A) id d : exists_in l id -> rdz l id = Ret (get l id d) /\ In (get l id d) l.
Proof.
  intros H. unfold exists_in in H. unfold get. split.
  - apply rdz_nth; [lia|]. apply nth_error_nth'. lia.
  - apply nth_In. lia.
Qed.
Lemma stores_empty : stores (@empty_soup pt3 R) a_empty.
Proof. repeat split. Qed.
Lemma sorted_empty : names_sorted (a_elsets (@a_empty pt3 R)).
Proof. constructor. Qed.

Section Export.
Variable stdsort : forall A : Type, (A -> A -> bool) -> list A -> list A.
Hypothesis Hsort : sort_contract stdsort.
Variables checks exit : bool.
Variable m : model.
Variable xsecs : list xsec.
Hypothesis Hids : ids_valid m.
Hypothesis Hshape : shaped m.
Hypothesis Hfits : fits m.
Hypothesis Hmesh : Forall (meshed m) (cells m).
Hypothesis Hxs : xsecs_ok m xsecs.
Notation state := (counters * soup pt3 R)%type.
Notation faces l := (flat_map (cell_faces m xsecs) l).
Notation points l := (flat_map (cell_verts m) l).
Notation xs1 := (map total_xs xsecs).

Lemma nest {K} adv cs lvl full_of pp o (f : K -> state -> outcome (state * bool)) idx kids t1 c1 s a fs :
  good_level adv cs lvl -> Forall2 (fun i k => does exit m xsecs adv cs lvl full_of pp o (f i) k) idx kids -> kids <> [] ->
  matches m c1 t1 -> stores s a -> holds a fs ->
  let body := (let* r := runs f idx (c1, empty_soup) in
    let '((c, s'), go) := r in
    if go then let* u := append_soup stdsort s s' in Ret ((c, u), true) else Ret ((c, s), false)) in
  let new := puts lvl pp o t1 kids in
  (forallb full_of (map fst kids) = true -> faces (cs t1 new) <> [] /\ exists c' u a', body = Ret ((c', u), true) /\
    matches m c' (adv t1 new) /\ stores u a' /\ holds a' (fs ++ faces (cs t1 new)) /\ a_verts a' = a_verts a ++ points (cs t1 new) /\
    names_sorted (a_elsets a')) /\
  (forallb full_of (map fst kids) = false -> exists c', body = stop exit (c', s)).
Proof.
  intros G D Hk Hm Hs Hh body new. split; intros F.
  - destruct (run_full exit m xsecs adv cs lvl G full_of pp o f idx kids D F t1 c1 empty_soup a_empty [] Hm stores_empty holds_empty sorted_empty)
      as (Ne & [c' s'] & E & a' & M' & S' & H' & V' & N'). cbn [fst snd app] in *.
    specialize (Ne Hk). split; auto.
    destruct (holds_append stdsort Hsort s s' a a' fs _ Hs S' Hh H' Ne) as (u & b & Eu & Su & Hu & Nu & Vu).
    exists c', u, b. unfold body. rewrite E. cbn [bind]. rewrite Eu. cbn [bind]. rewrite Vu, V'. cbn [a_empty a_verts app].
    repeat (split; [assumption || reflexivity|]). assumption.
  - destruct (run_stop exit m xsecs adv cs lvl G full_of pp o f idx kids D F t1 c1 empty_soup a_empty [] Hm stores_empty holds_empty sorted_empty)
      as (_ & _ & _ & st' & _ & _ & _ & _ & c' & E).
    exists c'. unfold body. rewrite E. unfold stop. destruct exit; reflexivity.
Qed.

(** ** Cells *)
Lemma meshes_like_eq t : meshes_like m t = match kind_of t, meshes_of m t with Some k, Some ms => Some (k, ms) | _, _ => None end.
Proof. now destruct t. Qed.
Lemma cell_does rtm la ll lr asy_ll lat_z rtm_ll ij kid :
  child_at (rect_getChild Z rtm) (rect_getBox (fst rtm)) ij kid -> exists_in (cells m) (fst kid) ->
  does exit m xsecs adv_cell cells_cell t_cell (cell_full m) [lr; ll; la] (fst rtm_ll + fst asy_ll, snd rtm_ll + snd asy_ll, lat_z)%R
    (do_cell stdsort exit m xs1 rtm (named "Assembly_" la) (named "Lattice_" ll) (named "RTM_" lr) asy_ll lat_z rtm_ll (Z.of_nat (fst ij)) (Z.of_nat (snd ij))) kid.
Proof.
  intros (Ec & b & x0 & y0 & Eb & Eco & Ek) Hid t c s a fs Hm Hs Hh Hn p.
  assert (Hp : here p = fst kid) by reflexivity.
  destruct (visit_ok (cells m) (f_cell c) (t_cell t) p (m_cell _ _ _ Hm) Hid) as (f' & Ev & Cf).
  destruct (get_ok (cells m) (fst kid) no_cell Hid) as (Eg & Ig). set (cc := get (cells m) (fst kid) no_cell) in *.
  unfold do_cell. rewrite Ec. cbn [bind]. rewrite Hp in Ev. rewrite Ev. cbn [bind fst snd].
  rewrite label_ok by (unfold exists_in in Hid; lia). cbn [bind]. rewrite Eb. cbn [bind]. rewrite Eco. cbn [bind]. rewrite Eg. cbn [bind fst snd].
  assert (M' : matches m (set_cell f' c) (adv_cell t [p])).
  { destruct Hm as [M1 M2 M3 M4]. split; auto. }
  unfold cell_full. fold cc. rewrite Forall_forall in Hmesh. specialize (Hmesh cc Ig). unfold meshed in Hmesh.
  pose proof (meshes_like_eq (mtype cc)) as ML. rewrite ML in *.
  split; intros F; destruct (kind_of (mtype cc)) as [k|] eqn:Kk; destruct (meshes_of m (mtype cc)) as [ms|] eqn:Ems; try discriminate F.
  - destruct Hmesh as (k' & x & Ecm & Mok & Hne & Hl); [discriminate|]. pose proof Ecm as Ecm'.
    unfold cell_mesh in Ecm. rewrite ML in Ecm.
    destruct (Z.ltb_spec (mesh_id cc) 0) as [|Hmi]; [discriminate|].
    destruct (nth_error ms (Z.to_nat (mesh_id cc))) as [x'|] eqn:Ex; [|discriminate]. injection Ecm as <- <-.
    rewrite (rdz_nth ms (mesh_id cc) x') by auto. cbn [bind].
    assert (Hmat : forall id, In id (material_ids cc) -> (0 <= id < Z.of_nat (length xsecs))%Z).
    { intros id Hi. destruct (cell_ids _ Hids cc Ig) as (_ & _ & [E|(x'' & _ & _ & Fm)]); [lia|].
      rewrite Forall_forall in Fm. specialize (Fm id Hi). unfold exists_in in Fm. destruct Hxs as (-> & _). exact Fm. }
    destruct (cell_soup_ok stdsort Hsort exit k x' (material_ids cc) xsecs Mok Hne Hl Hmat (fst kid, count_occ Z.eq_dec (map here (t_cell t)) (fst kid)) lr ll la (offset p))
      as (s' & a' & E' & S' & H' & V').
    replace (x0 + fst rtm_ll + fst asy_ll, y0 + snd rtm_ll + snd asy_ll, lat_z)%R with (offset p).
    2:{ cbn [p put offset]. rewrite Ek. cbn [plus3]. f_equal; [f_equal|]; ring. }
    rewrite E'. cbn [bind].
    assert (EF : faces (cells_cell t [p]) = map (fun fm => face_at xsecs k x' p (fst fm) (snd fm)) (combine (fv x') (material_ids cc))).
    { unfold cells_cell. cbn [flat_map]. rewrite app_nil_r. unfold cell_faces. rewrite Hp. fold cc. now rewrite Ecm'. }
    assert (EV : points (cells_cell t [p]) = map (lifted (offset p)) (mv x')).
    { unfold cells_cell. cbn [flat_map]. rewrite app_nil_r. unfold cell_verts. rewrite Hp. fold cc. now rewrite Ecm'. }
    assert (Ne : faces (cells_cell t [p]) <> []).
    { rewrite EF. clear -Hne Hl. destruct (fv x'); [congruence|]. destruct (material_ids cc); discriminate. }
    split; auto. change (mkPlace _ (offset p)) with p in H'. rewrite <- EF in H'.
    destruct (holds_append stdsort Hsort s s' a a' fs _ Hs S' Hh H' Ne) as (u & d & Eu & Su & Hu & Nu & Vu).
    rewrite Eu. cbn [bind]. eexists. split; [reflexivity|]. exists d. cbn [fst snd]. rewrite Vu, V', EV. auto.
  - eexists. reflexivity.
  - eexists. reflexivity.
  - eexists. reflexivity.
Qed.

(** ** RTMs *)
Lemma rtm_does lat la ll asy_ll lat_z ij kid :
  child_at (regular_getChild Z lat) (getBox (fst lat)) ij kid -> exists_in (rtms m) (fst kid) ->
  does exit m xsecs (adv_rtm m) (cells_rtm m) t_rtm (rtm_full m) [ll; la] (fst asy_ll, snd asy_ll, lat_z)%R
    (do_rtm stdsort exit m xs1 lat (named "Assembly_" la) (named "Lattice_" ll) asy_ll lat_z (Z.of_nat (fst ij)) (Z.of_nat (snd ij))) kid.
Proof.
  intros (Ec & b & x0 & y0 & Eb & Eco & Ek) Hid t c s a fs Hm Hs Hh Hn p.
  assert (Hp : here p = fst kid) by reflexivity.
  destruct (visit_ok (rtms m) (f_rtm c) (t_rtm t) p (m_rtm _ _ _ Hm) Hid) as (f' & Ev & Cf).
  destruct (get_ok (rtms m) (fst kid) ([], []) Hid) as (Eg & Ig). set (r := get (rtms m) (fst kid) ([], [])) in *.
  unfold do_rtm. rewrite Ec. cbn [bind]. rewrite Hp in Ev. rewrite Ev. cbn [bind fst snd].
  rewrite label_ok by (unfold exists_in in Hid; lia). cbn [bind]. rewrite Eb. cbn [bind]. rewrite Eco. cbn [bind]. rewrite Eg. cbn [bind fst snd].
  set (t1 := mkT (t_asy t) (t_lat t) (t_rtm t ++ [p]) (t_cell t)).
  assert (M' : matches m (set_rtm f' c) t1).
  { destruct Hm as [M1 M2 M3 M4]. split; auto. }
  unfold rtm_full. fold r. unfold full.
  destruct (Nat.eqb_spec (length (snd r)) 0) as [L0|L0].
  - cbn [negb andb]. split; [discriminate|]. intros _. eexists. reflexivity.
  - cbn [negb andb].
    assert (Hne : snd r <> []) by (intros X; rewrite X in L0; now apply L0).
    destruct (rect_kids r (rtms_shaped _ Hshape r Ig) (proj2 (proj2 (proj2 Hfits)) r Ig) Hne) as (lx & ly & Er & En & D & Em).
    rewrite En. cbn [bind fst snd]. rewrite loop2_runs, !Nat2Z.id.
    set (kids := combine (snd r) (corners2 lx ly)) in *.
    assert (Hkn : kids <> []) by (intros X; rewrite X in Em; cbn in Em; congruence).
    assert (Ekids : rtm_kids m (fst kid) = kids) by (unfold rtm_kids; fold r; now rewrite Er).
    set (lr := (fst kid, count_occ Z.eq_dec (map here (t_rtm t)) (fst kid))).
    pose proof (rtm_ids _ Hids r Ig) as Hch. rewrite Forall_forall in Hch.
    assert (Hin : forall k, In k kids -> exists_in (cells m) (fst k)) by (intros k Hk; apply Hch; rewrite <- Em; now apply in_map).
    assert (DD : Forall2 (fun i k => does exit m xsecs adv_cell cells_cell t_cell (cell_full m) [lr; ll; la] (fst (x0, y0) + fst asy_ll, snd (x0, y0) + snd asy_ll, lat_z)%R
       (do_cell stdsort exit m xs1 r (named "Assembly_" la) (named "Lattice_" ll) (named "RTM_" lr) asy_ll lat_z (x0, y0) (Z.of_nat (fst i)) (Z.of_nat (snd i))) k)
       (cells2 (length lx - 1) (length ly - 1)) kids).
    { clearbody kids. clear -D Hin Hsort Hids Hmesh Hxs. induction D as [|i k idx l Hik _ IH]; constructor.
      - apply cell_does; auto. apply Hin. now left.
      - apply IH. intros q Hq. apply Hin. now right. }
    pose proof (nest _ _ _ _ _ _ _ _ _ t1 _ s a fs good_cells DD Hkn M' Hs Hh) as N. cbv zeta in N. rewrite Em in N.
    assert (EC : puts t_cell [lr; ll; la] (fst (x0, y0) + fst asy_ll, snd (x0, y0) + snd asy_ll, lat_z)%R t1 kids = cells_rtm m t [p]).
    { unfold puts, cells_rtm, expand_from. cbn [t1 t_cell below flat_map]. rewrite app_nil_r. rewrite Hp, Ekids. f_equal. apply map_ext. intros q.
      replace (fst (x0, y0) + fst asy_ll, snd (x0, y0) + snd asy_ll, lat_z)%R with (offset p); [reflexivity|].
      cbn [p put offset]. rewrite Ek. cbn [plus3 fst snd]. f_equal; [f_equal|]; ring. }
    rewrite EC in N. destruct N as (N1 & N2). split; intros F.
    + destruct (N1 F) as (Ne & c' & u & a' & E' & R'). split; [exact Ne|]. exists (c', u). split; [exact E'|]. exists a'. exact R'.
    + destruct (N2 F) as (c' & E'). exists c'. exact E'.
Qed.

(** ** Lattices *)
Lemma lat_does asy z la asy_ll iz kid : fst asy = [z] -> length z = S (length (snd asy)) ->
  (forall id rel, kid = (id, rel) -> rect_getChild Z asy [Z.of_nat iz] = Ret id /\
     exists lo hi, nth_error z iz = Some lo /\ nth_error z (S iz) = Some hi /\ rel = (0, 0, (lo + hi) / 2)%R) ->
  exists_in (lattices m) (fst kid) ->
  does exit m xsecs (adv_lat m) (cells_lat m) t_lat (lat_full m) [la] (fst asy_ll, snd asy_ll, 0)%R
    (do_lattice stdsort exit m xs1 asy (named "Assembly_" la) asy_ll iz) kid.
Proof.
  intros Ez _ Hkid Hid t c s a fs Hm Hs Hh Hn p. destruct (Hkid _ _ (surjective_pairing kid)) as (Ec & lo & hi & Elo & Ehi & Ek).
  assert (Hp : here p = fst kid) by reflexivity.
  destruct (visit_ok (lattices m) (f_lat c) (t_lat t) p (m_lat _ _ _ Hm) Hid) as (f' & Ev & Cf).
  destruct (get_ok (lattices m) (fst kid) ([], []) Hid) as (Eg & Ig). set (l := get (lattices m) (fst kid) ([], [])) in *.
  unfold do_lattice. rewrite Ec. cbn [bind]. rewrite Hp in Ev. rewrite Ev. cbn [bind fst snd].
  rewrite label_ok by (unfold exists_in in Hid; lia). cbn [bind]. rewrite Ez. cbn [rd nth_error bind].
  rewrite (proj2 (rd_Ret _ _ _) Elo), (proj2 (rd_Ret _ _ _) Ehi). cbn [bind]. rewrite Eg. cbn [bind].
  set (t1 := mkT (t_asy t) (t_lat t ++ [p]) (t_rtm t) (t_cell t)).
  assert (M' : matches m (set_lat f' c) t1).
  { destruct Hm as [M1 M2 M3 M4]. split; auto. }
  unfold lat_full. fold l. unfold full.
  destruct (Nat.eqb_spec (length (snd l)) 0) as [L0|L0].
  - cbn [negb andb]. split; [discriminate|]. intros _. eexists. reflexivity.
  - cbn [negb andb].
    assert (Hne : snd l <> []) by (intros X; rewrite X in L0; now apply L0).
    destruct (lattices_shaped _ Hshape l Ig) as (w & h & nx & ny & El & Hnx & Hny & Ll).
    destruct (regular_kids l w h nx ny El Hnx Hny Ll (proj1 (proj2 (proj2 Hfits)) l Ig) Hne) as (D & Em).
    assert (R0 : rd (fst l) 0 = Ret (mkAxis 0 w nx)) by now rewrite El.
    assert (R1 : rd (fst l) 1 = Ret (mkAxis 0 h ny)) by now rewrite El.
    rewrite R0. cbn [bind]. rewrite R1. cbn [bind nc]. rewrite loop2_runs.
    set (kids := combine (snd l) (regular_corners w h nx ny)) in *.
    assert (Hkn : kids <> []) by (intros X; rewrite X in Em; cbn in Em; congruence).
    assert (Ekids : lat_kids m (fst kid) = kids) by (unfold lat_kids; fold l; now rewrite El).
    set (ll := (fst kid, count_occ Z.eq_dec (map here (t_lat t)) (fst kid))).
    pose proof (lattice_ids _ Hids l Ig) as Hch. rewrite Forall_forall in Hch.
    assert (Hin : forall k, In k kids -> exists_in (rtms m) (fst k)) by (intros k Hk; apply Hch; rewrite <- Em; now apply in_map).
    assert (DD : Forall2 (fun i k => does exit m xsecs (adv_rtm m) (cells_rtm m) t_rtm (rtm_full m) [ll; la] (fst asy_ll, snd asy_ll, (lo + hi) / 2)%R
       (do_rtm stdsort exit m xs1 l (named "Assembly_" la) (named "Lattice_" ll) asy_ll ((lo + hi) / 2)%R (Z.of_nat (fst i)) (Z.of_nat (snd i))) k)
       (cells2 (Z.to_nat nx) (Z.to_nat ny)) kids).
    { clearbody kids. clear -D Hin Hsort Hids Hshape Hfits Hmesh Hxs. induction D as [|i k idx q Hik _ IH]; constructor.
      - apply rtm_does; auto. apply Hin. now left.
      - apply IH. intros y Hy. apply Hin. now right. }
    pose proof (nest _ _ _ _ _ _ _ _ _ t1 _ s a fs (good_rtms m) DD Hkn M' Hs Hh) as N. cbv zeta in N. rewrite Em in N.
    assert (EC : puts t_rtm [ll; la] (fst asy_ll, snd asy_ll, (lo + hi) / 2)%R t1 kids = rtms_lat m t [p]).
    { unfold puts, rtms_lat, expand_from. cbn [t1 t_rtm below flat_map]. rewrite app_nil_r. rewrite Hp, Ekids. f_equal. apply map_ext. intros q.
      replace (fst asy_ll, snd asy_ll, (lo + hi) / 2)%R with (offset p); [reflexivity|].
      cbn [p put offset]. rewrite Ek. cbn [plus3 fst snd]. f_equal; [f_equal|]; ring. }
    rewrite EC in N. destruct N as (N1 & N2). split; intros F.
    + destruct (N1 F) as (Ne & c' & u & a' & E' & R'). split; [exact Ne|]. exists (c', u). split; [exact E'|]. exists a'. exact R'.
    + destruct (N2 F) as (c' & E'). exists c'. exact E'.
Qed.

(** ** Assemblies *)
Lemma column_kids (a : list (list R) * list Z) z : fst a = [z] -> length z = S (length (snd a)) -> (Z.of_nat (length (snd a)) <= intMax)%Z ->
  let kids := combine (snd a) (midplanes z) in
  Forall2 (fun iz kid => forall id rel, kid = (id, rel) -> rect_getChild Z a [Z.of_nat iz] = Ret id /\
     exists lo hi, nth_error z iz = Some lo /\ nth_error z (S iz) = Some hi /\ rel = (0, 0, (lo + hi) / 2)%R) (seq 0 (length (snd a))) kids /\
  map fst kids = snd a.
Proof.
  intros E L Hm kids. destruct a as [g ch]. cbn [fst snd] in *. subst g.
  assert (Lm : length (midplanes z) = length ch).
  { unfold midplanes. rewrite map_length, combine_length. replace (length (tl z)) with (length ch) by (destruct z; [discriminate|]; cbn [tl length] in *; lia). lia. }
  split.
  - apply F2_of_nth.
    + unfold kids. rewrite seq_length, combine_length. lia.
    + intros k iz kid Hi Hk id rel ->.
      assert (Hl : (k < length ch)%nat) by (rewrite <- (seq_length (length ch) 0); apply nth_error_Some; congruence).
      rewrite seq_nth_error in Hi by auto. injection Hi as <-. cbn [Nat.add].
      destruct (nth_error ch k) as [id'|] eqn:Eid; [|apply nth_error_None in Eid; lia].
      destruct (nth_error z k) as [lo|] eqn:Elo; [|apply nth_error_None in Elo; lia].
      destruct (nth_error z (S k)) as [hi|] eqn:Ehi; [|apply nth_error_None in Ehi; lia].
      unfold kids in Hk. rewrite (nth_combine _ _ _ id' (0, 0, (lo + hi) / 2)%R Eid) in Hk.
      2:{ unfold midplanes. apply (map_nth_error (fun p => (0, 0, (fst p + snd p) / 2)%R) k (combine z (tl z)) (d := (lo, hi))).
          apply nth_combine; auto. destruct z; [discriminate|exact Ehi]. }
      injection Hk as -> <-. split; [|now exists lo, hi].
      unfold rect_getChild, rect_getFlatIndex. cbn [combine forallb fst snd numCells map].
      rewrite (proj2 (Z.ltb_lt (Z.of_nat k) _)) by lia. cbn [andb flatIndex bind]. 
      apply rdz_nth; [lia|]. now rewrite Nat2Z.id.
  - subst kids. clear -Lm. revert Lm. generalize (midplanes z). induction ch as [|c ch IH]; intros [|q l] H; try discriminate; cbn; [auto|]. f_equal. apply IH. now injection H.
Qed.
Lemma asy_does ij kid :
  child_at (rect_getChild Z (core m)) (rect_getBox (fst (core m))) ij kid -> exists_in (assemblies m) (fst kid) ->
  does exit m xsecs (adv_asy m) (cells_asy m) t_asy (asy_full m) [] (0, 0, 0)%R
    (do_assembly stdsort exit m xs1 (Z.of_nat (fst ij)) (Z.of_nat (snd ij))) kid.
Proof.
  intros (Ec & b & x0 & y0 & Eb & Eco & Ek) Hid t c s a fs Hm Hs Hh Hn p.
  assert (Hp : here p = fst kid) by reflexivity.
  destruct (visit_ok (assemblies m) (f_asy c) (t_asy t) p (m_asy _ _ _ Hm) Hid) as (f' & Ev & Cf).
  destruct (get_ok (assemblies m) (fst kid) ([], []) Hid) as (Eg & Ig). set (r := get (assemblies m) (fst kid) ([], [])) in *.
  unfold do_assembly. rewrite Ec. cbn [bind]. rewrite Hp in Ev. rewrite Ev. cbn [bind fst snd].
  rewrite label_ok by (unfold exists_in in Hid; lia). cbn [bind]. rewrite Eb. cbn [bind]. rewrite Eco. cbn [bind]. rewrite Eg. cbn [bind fst snd].
  set (t1 := mkT (t_asy t ++ [p]) (t_lat t) (t_rtm t) (t_cell t)).
  assert (M' : matches m (set_asy f' c) t1).
  { destruct Hm as [M1 M2 M3 M4]. split; auto. }
  unfold asy_full. fold r. unfold full.
  destruct (Nat.eqb_spec (length (snd r)) 0) as [L0|L0].
  - cbn [negb andb]. split; [discriminate|]. intros _. eexists. reflexivity.
  - cbn [negb andb].
    assert (Hne : snd r <> []) by (intros X; rewrite X in L0; now apply L0).
    destruct (assemblies_shaped _ Hshape r Ig) as (z & Er & Lz).
    destruct (column_kids r z Er Lz (proj1 (proj2 Hfits) r Ig)) as (D & Em).
    assert (R0 : rd (numCells (fst r)) 0 = Ret (Z.of_nat (length z) - 1)%Z) by now rewrite Er.
    rewrite R0. cbn [bind]. rewrite loop_runs.
    replace (Z.to_nat (Z.of_nat (length z) - 1)) with (length (snd r)) by lia.
    set (kids := combine (snd r) (midplanes z)) in *.
    assert (Hkn : kids <> []) by (intros X; rewrite X in Em; cbn in Em; congruence).
    assert (Ekids : asy_kids m (fst kid) = kids) by (unfold asy_kids; fold r; now rewrite Er).
    set (la := (fst kid, count_occ Z.eq_dec (map here (t_asy t)) (fst kid))).
    pose proof (assembly_ids _ Hids r Ig) as Hch. rewrite Forall_forall in Hch.
    assert (Hin : forall k, In k kids -> exists_in (lattices m) (fst k)) by (intros k Hk; apply Hch; rewrite <- Em; now apply in_map).
    assert (DD : Forall2 (fun i k => does exit m xsecs (adv_lat m) (cells_lat m) t_lat (lat_full m) [la] (fst (x0, y0), snd (x0, y0), 0)%R
       (do_lattice stdsort exit m xs1 r (named "Assembly_" la) (x0, y0) i) k) (seq 0 (length (snd r))) kids).
    { clearbody kids. revert Lz Er Hin D. generalize (seq 0 (length (snd r))). clear -Hsort Hids Hshape Hfits Hmesh Hxs. intros idx Lz Er Hin D.
      induction D as [|i k idx q Hik _ IH]; constructor.
      - eapply lat_does; eauto. apply Hin. now left.
      - apply IH. intros y Hy. apply Hin. now right. }
    pose proof (nest _ _ _ _ _ _ _ _ _ t1 _ s a fs (good_lats m) DD Hkn M' Hs Hh) as N. cbv zeta in N. rewrite Em in N.
    assert (EC : puts t_lat [la] (fst (x0, y0), snd (x0, y0), 0)%R t1 kids = lats_asy m t [p]).
    { unfold puts, lats_asy, expand_from. cbn [t1 t_lat below flat_map]. rewrite app_nil_r. rewrite Hp, Ekids. f_equal. apply map_ext. intros q.
      replace (fst (x0, y0), snd (x0, y0), 0)%R with (offset p); [reflexivity|].
      cbn [p put offset]. rewrite Ek. cbn [plus3 fst snd]. f_equal; [f_equal|]; ring. }
    rewrite EC in N. destruct N as (N1 & N2). split; intros F.
    + destruct (N1 F) as (Ne & c' & u & a' & E' & R'). split; [exact Ne|]. exists (c', u). split; [exact E'|]. exists a'. exact R'.
    + destruct (N2 F) as (c' & E'). exists c'. exact E'.
Qed.
End Export.
