(** The levels of the hierarchy: what the loop over the children of an object adds. *)
From Coq Require Import String.
From Coq Require Import List Arith ZArith Lia Bool Reals Permutation Sorting.Sorted.
From Verif Require Import Base Loops Arith StringView_Model TextIo_Model Elem_Model Sort_Spec
  Soup_Model Soup_Spec Soup_Proofs XSec_Model XSec_Spec PinCyl_Model Grid_Model Fvm_Model Fvm_Spec Mpact_Model Mpact_Spec
  Export_Model Export_Spec Export_Sets_Proofs Export_Cell_Proofs Export_Loop_Proofs.
Import ListNotations.
Local Open Scope list_scope.

(** ** Numbering *)
Lemma number_ids l : forall seen, map here (number seen l) = map fst l.
Proof. induction l as [|[id [p o]] l IH]; intros seen; cbn; [auto|]. now rewrite IH. Qed.
Lemma number_app l1 l2 : forall seen, number seen (l1 ++ l2) = number seen l1 ++ number (seen ++ map fst l1) l2.
Proof.
  induction l1 as [|[id [p o]] l IH]; intros seen; cbn; [now rewrite app_nil_r|]. rewrite IH, <- app_assoc. reflexivity.
Qed.
Definition expand_from (seen : list place) (kids : Z -> list (Z * pt3)) (l : list place) : list place := number (map here seen) (below kids l).
Lemma below_app kids l1 l2 : below kids (l1 ++ l2) = below kids l1 ++ below kids l2.
Proof. apply flat_map_app. Qed.
Lemma expand_from_app seen kids l1 l2 : expand_from seen kids (l1 ++ l2) = expand_from seen kids l1 ++ expand_from (seen ++ expand_from seen kids l1) kids l2.
Proof. unfold expand_from. rewrite below_app, number_app. rewrite map_app, number_ids. reflexivity. Qed.
Lemma expand_from_nil seen kids : expand_from seen kids [] = [].
Proof. reflexivity. Qed.

(** the objects met so far *)
Record trace := mkT { t_asy : list place; t_lat : list place; t_rtm : list place; t_cell : list place }.
Section Level.
Variable stdsort : forall A : Type, (A -> A -> bool) -> list A -> list A.
Hypothesis Hsort : sort_contract stdsort.
Variable exit : bool.
Variable m : model.
Variable xsecs : list xsec.
Notation state := (counters * soup pt3 R)%type.
Notation faces l := (flat_map (cell_faces m xsecs) l).
Notation points l := (flat_map (cell_verts m) l).

Definition adv_cell (t : trace) (l : list place) : trace := mkT (t_asy t) (t_lat t) (t_rtm t) (t_cell t ++ l).
Definition cells_cell (t : trace) (l : list place) : list place := l.
Definition cells_rtm (t : trace) (l : list place) : list place := expand_from (t_cell t) (rtm_kids m) l.
Definition adv_rtm (t : trace) (l : list place) : trace := mkT (t_asy t) (t_lat t) (t_rtm t ++ l) (t_cell t ++ cells_rtm t l).
Definition rtms_lat (t : trace) (l : list place) : list place := expand_from (t_rtm t) (lat_kids m) l.
Definition cells_lat (t : trace) (l : list place) : list place := cells_rtm t (rtms_lat t l).
Definition adv_lat (t : trace) (l : list place) : trace :=
  adv_rtm (mkT (t_asy t) (t_lat t ++ l) (t_rtm t) (t_cell t)) (rtms_lat t l).
Definition lats_asy (t : trace) (l : list place) : list place := expand_from (t_lat t) (asy_kids m) l.
Definition cells_asy (t : trace) (l : list place) : list place := cells_lat t (lats_asy t l).
Definition adv_asy (t : trace) (l : list place) : trace :=
  adv_lat (mkT (t_asy t ++ l) (t_lat t) (t_rtm t) (t_cell t)) (lats_asy t l).

(** a level: how the trace grows, the cells that come with it, and its own places *)
Record good_level (adv : trace -> list place -> trace) (cs : trace -> list place -> list place) (lvl : trace -> list place) : Prop := {
  adv_nil : forall t, adv t [] = t;
  adv_app : forall t l1 l2, adv t (l1 ++ l2) = adv (adv t l1) l2;
  lvl_adv : forall t l, lvl (adv t l) = lvl t ++ l;
  cs_nil : forall t, cs t [] = [];
  cs_app : forall t l1 l2, cs t (l1 ++ l2) = cs t l1 ++ cs (adv t l1) l2 }.
Lemma good_cells : good_level adv_cell cells_cell t_cell.
Proof. split; try reflexivity; intros []; unfold adv_cell; cbn; intros; now rewrite ?app_nil_r, ?app_assoc. Qed.
Lemma good_rtms : good_level adv_rtm cells_rtm t_rtm.
Proof.
  split; try reflexivity; intros [a l r c]; unfold adv_rtm, cells_rtm; cbn [t_asy t_lat t_rtm t_cell]; intros.
  - now rewrite expand_from_nil, !app_nil_r.
  - now rewrite expand_from_app, !app_assoc.
  - now rewrite expand_from_app.
Qed.
Lemma good_lats : good_level adv_lat cells_lat t_lat.
Proof.
  split; try reflexivity; intros [a l r c]; unfold adv_lat, adv_rtm, cells_lat, cells_rtm, rtms_lat; cbn [t_asy t_lat t_rtm t_cell]; intros.
  - now rewrite !expand_from_nil, !app_nil_r.
  - rewrite !expand_from_app. now rewrite !app_assoc.
  - now rewrite !expand_from_app.
Qed.
Lemma good_asys : good_level adv_asy cells_asy t_asy.
Proof.
  split; try reflexivity; intros [a l r c]; unfold adv_asy, adv_lat, adv_rtm, cells_asy, cells_lat, cells_rtm, rtms_lat, lats_asy; cbn [t_asy t_lat t_rtm t_cell]; intros.
  - now rewrite !expand_from_nil, !app_nil_r.
  - rewrite !expand_from_app. now rewrite !app_assoc.
  - now rewrite !expand_from_app.
Qed.

(** ** Counters *)
Definition count {A} (objects : list A) (found : list Z) (seen : list place) : Prop :=
  length found = length objects /\
  forall id, exists_in objects id -> nth_error found (Z.to_nat id) = Some (Z.of_nat (count_occ Z.eq_dec (map here seen) id) - 1)%Z.
Record matches (c : counters) (t : trace) : Prop := {
  m_asy : count (assemblies m) (f_asy c) (t_asy t);
  m_lat : count (lattices m) (f_lat c) (t_lat t);
  m_rtm : count (rtms m) (f_rtm c) (t_rtm t);
  m_cell : count (cells m) (f_cell c) (t_cell t) }.
Lemma visit_ok {A} (objects : list A) found seen p : count objects found seen -> exists_in objects (here p) ->
  exists f, visit found (here p) = Ret (f, Z.of_nat (count_occ Z.eq_dec (map here seen) (here p))) /\ count objects f (seen ++ [p]).
Proof.
  intros (L & H) Hid. pose proof (H _ Hid) as E. set (id := here p) in *. unfold exists_in in Hid. unfold visit.
  rewrite (rdz_nth found id _) with (2 := E) by lia. cbn [bind].
  assert (W : forall v, wrz found id v = Ret (upd found (Z.to_nat id) v)).
  { intros v. unfold wrz. destruct (Z.ltb_spec id 0); [lia|]. apply wr_ok. lia. }
  rewrite W. cbn [bind]. eexists. split; [do 2 f_equal; lia|]. split; [now rewrite upd_length|].
  intros i Hi. rewrite map_app, count_occ_app. cbn [map count_occ]. fold id. unfold exists_in in Hi.
  destruct (Z.eq_dec id i) as [<-|N].
  - rewrite nth_error_upd_eq by lia. f_equal. lia.
  - rewrite nth_error_upd_neq by lia. rewrite H by auto. f_equal. lia.
Qed.

(** ** A step and a run over the children *)
Section Run.
Variables (adv : trace -> list place -> trace) (cs : trace -> list place -> list place) (lvl : trace -> list place).
Hypothesis G : good_level adv cs lvl.
Variable full_of : Z -> bool.
Variables (pp : list (Z * nat)) (o : pt3).
Definition put (t : trace) (kid : Z * pt3) : place := mkPlace ((fst kid, count_occ Z.eq_dec (map here (lvl t)) (fst kid)) :: pp) (plus3 o (snd kid)).
Definition puts (t : trace) (kids : list (Z * pt3)) : list place :=
  number (map here (lvl t)) (map (fun k => (fst k, (pp, plus3 o (snd k)))) kids).
Lemma puts_cons t k l : puts t (k :: l) = put t k :: puts (adv t [put t k]) l.
Proof. unfold puts, put. destruct k as [id rel]. cbn [map number fst snd]. rewrite (lvl_adv _ _ _ G), map_app. reflexivity. Qed.
Lemma puts_app l1 : forall t l2, puts t (l1 ++ l2) = puts t l1 ++ puts (adv t (puts t l1)) l2.
Proof.
  induction l1 as [|k l1 IH]; intros t l2.
  - cbn [app]. unfold puts at 2. cbn [map number app]. unfold puts at 2. cbn [map number]. now rewrite (adv_nil _ _ _ G).
  - cbn [app]. rewrite !puts_cons, IH. cbn [app]. f_equal. f_equal. f_equal.
    rewrite <- (adv_app _ _ _ G). reflexivity.
Qed.

(** what a step does to the state *)
Definition added (t : trace) (a : asoup pt3 R) (fs : list face) (l : list place) (st' : state) : Prop :=
  exists a', matches (fst st') (adv t l) /\ stores (snd st') a' /\ holds a' (fs ++ faces (cs t l)) /\
    a_verts a' = a_verts a ++ points (cs t l) /\ names_sorted (a_elsets a').
Definition does (f : state -> outcome (state * bool)) (kid : Z * pt3) : Prop :=
  forall t c s a fs, matches c t -> stores s a -> holds a fs -> names_sorted (a_elsets a) ->
  let p := put t kid in
  (full_of (fst kid) = true -> faces (cs t [p]) <> [] /\ exists st', f (c, s) = Ret (st', true) /\ added t a fs [p] st') /\
  (full_of (fst kid) = false -> exists c', f (c, s) = stop exit (c', s)).

Lemma added_nil t c s a fs : matches c t -> stores s a -> holds a fs -> names_sorted (a_elsets a) -> added t a fs [] (c, s).
Proof.
  intros Hm Hs Hh Hn. exists a. rewrite (adv_nil _ _ _ G), (cs_nil _ _ _ G). cbn. rewrite !app_nil_r. auto.
Qed.
Lemma added_app t a fs l1 l2 st1 st2 a1 : matches (fst st1) (adv t l1) -> stores (snd st1) a1 -> holds a1 (fs ++ faces (cs t l1)) ->
  a_verts a1 = a_verts a ++ points (cs t l1) ->
  added (adv t l1) a1 (fs ++ faces (cs t l1)) l2 st2 -> added t a fs (l1 ++ l2) st2.
Proof.
  intros _ _ _ V (a2 & M2 & S2 & H2 & V2 & N2). exists a2. rewrite (adv_app _ _ _ G), (cs_app _ _ _ G), !flat_map_app.
  rewrite V2, V, <- !app_assoc in *. auto.
Qed.
Lemma run_full {K} (f : K -> state -> outcome (state * bool)) idx kids : Forall2 (fun i k => does (f i) k) idx kids ->
  forallb full_of (map fst kids) = true ->
  forall t c s a fs, matches c t -> stores s a -> holds a fs -> names_sorted (a_elsets a) ->
  (kids <> [] -> faces (cs t (puts t kids)) <> []) /\
  exists st', runs f idx (c, s) = Ret (st', true) /\ added t a fs (puts t kids) st'.
Proof.
  induction 1 as [|i k idx kids D _ IH]; intros F t c s a fs Hm Hs Hh Hn.
  - split; [congruence|]. exists (c, s). split; [reflexivity|]. now apply added_nil.
  - cbn [map forallb] in F. apply andb_prop in F. destruct F as (F1 & F2).
    destruct (proj1 (D t c s a fs Hm Hs Hh Hn) F1) as (Ne & [c1 s1] & E1 & a1 & M1 & S1 & H1 & V1 & N1). cbn [fst snd] in *.
    destruct (IH F2 _ _ _ _ _ M1 S1 H1 N1) as (_ & st2 & E2 & A2).
    rewrite puts_cons. change (put t k :: puts (adv t [put t k]) kids) with ([put t k] ++ puts (adv t [put t k]) kids). split.
    + intros _. rewrite (cs_app _ _ _ G), flat_map_app. intros X. apply app_eq_nil in X. now apply Ne.
    + exists st2. cbn [runs]. rewrite E1. cbn [bind snd fst]. split; auto. eapply (added_app _ _ _ _ _ (c1, s1)); eauto.
Qed.
Lemma run_stop {K} (f : K -> state -> outcome (state * bool)) idx kids : Forall2 (fun i k => does (f i) k) idx kids ->
  forallb full_of (map fst kids) = false ->
  forall t c s a fs, matches c t -> stores s a -> holds a fs -> names_sorted (a_elsets a) ->
  exists k1 k k2 st', kids = k1 ++ k :: k2 /\ forallb full_of (map fst k1) = true /\ full_of (fst k) = false /\
    added t a fs (puts t k1) st' /\ exists c', runs f idx (c, s) = stop exit (c', snd st').
Proof.
  induction 1 as [|i k idx kids D _ IH]; intros F t c s a fs Hm Hs Hh Hn; [discriminate|].
  cbn [map forallb] in F. destruct (full_of (fst k)) eqn:Fk.
  - destruct (proj1 (D t c s a fs Hm Hs Hh Hn) Fk) as (_ & [c1 s1] & E1 & a1 & M1 & S1 & H1 & V1 & N1). cbn [fst snd] in *.
    destruct (IH F _ _ _ _ _ M1 S1 H1 N1) as (k1 & k' & k2 & st2 & -> & F1 & F2 & A2 & c2 & E2).
    exists (k :: k1), k', k2, st2. split; [reflexivity|]. split; [cbn; now rewrite Fk|]. split; auto. split.
    + rewrite puts_cons. change (put t k :: puts (adv t [put t k]) k1) with ([put t k] ++ puts (adv t [put t k]) k1).
      eapply (added_app _ _ _ _ _ (c1, s1)); eauto.
    + exists c2. cbn [runs]. rewrite E1. cbn [bind snd fst]. exact E2.
  - exists [], k, kids, (c, s). split; [reflexivity|]. split; [reflexivity|]. split; auto. split; [now apply added_nil|].
    destruct (proj2 (D t c s a fs Hm Hs Hh Hn) Fk) as (c' & E'). exists c'. cbn [runs]. rewrite E'. unfold stop. destruct exit; reflexivity.
Qed.
End Run.
End Level.
