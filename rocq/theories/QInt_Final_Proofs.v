(** The statements about calls with buffers. *)
From Coq Require Import List Arith ZArith Reals Lia Lra Bool Psatz.
From Verif Require Import Base Loops Arith XReal Vec_Model Vec_Proofs Box_Model Box_Spec Box_Proofs Seg_Model Seg_Spec Seg_Proofs
  Poly_Model Poly_Spec Poly_Proofs QSeg_Model QSeg_Spec QSeg_Proofs QSeg_Near_Proofs QPoly_Model Soup_Model Sort_Spec Soup_Spec Fvm_Model Fvm_Spec
  Manifold_Model Manifold_Spec Manifold_Proofs QInt_Model QInt_Spec QInt_Proofs QInt_Poly_Proofs QInt_Real_Proofs.
Import ListNotations.

Lemma ret_inj {A} (x y : A) : Ret x = Ret y -> x = y.
Proof. now injection 1. Qed.
Section Gen.
Context {T : Type} (o : arith T) (eps : T).
Lemma slots_cap dbg : slots dbg = cap dbg levels.
Proof. destruct dbg; reflexivity. Qed.
Lemma split_at {A} (l : list A) b : b <= length l -> l = firstn b l ++ skipn b l /\ length (firstn b l) = b.
Proof. intros H. rewrite firstn_skipn, firstn_length. split; [auto|lia]. Qed.
Lemma int_ret_at dbg k q1 q2 buf0 b pre l buf n : buf0 = pre ++ l -> b = length pre -> intersect o eps dbg k q1 q2 buf0 b = Ret (buf, n) ->
  exists l', buf = pre ++ hits o eps k q1 q2 ++ l' /\ n = length (hits o eps k q1 q2) /\ length (hits o eps k q1 q2 ++ l') = length l /\
    skipn (cap dbg k) (hits o eps k q1 q2 ++ l') = skipn (cap dbg k) l /\ n <= hit_bound dbg k.
Proof. intros -> ->. apply int_ret. Qed.
Lemma int_room_at dbg k q1 q2 buf b pre l : buf = pre ++ l -> b = length pre -> cap dbg k <= length l -> returns dbg (intersect o eps dbg k q1 q2 buf b).
Proof. intros -> ->. apply int_room. Qed.
Lemma int_at dbg k q1 q2 buf b buf' n : b <= length buf -> intersect o eps dbg k q1 q2 buf b = Ret (buf', n) ->
  n = length (hits o eps k q1 q2) /\ length buf' = length buf /\
  (forall i, i < n -> nth_error buf' (b + i) = nth_error (hits o eps k q1 q2) i) /\
  (forall i, i < b \/ b + cap dbg k <= i -> nth_error buf' i = nth_error buf i).
Proof.
  intros Hb E. destruct (split_at buf b Hb) as [Eb Lb]. apply (int_ret_at _ _ _ _ _ _ _ _ _ _ Eb (eq_sym Lb)) in E as (l' & -> & -> & L & K & _).
  split; [auto|]. split; [rewrite app_length, L, firstn_length, skipn_length; lia|]. split.
  - intros i Hi. rewrite nth_error_app2 by lia. rewrite Lb. replace (b + i - b) with i by lia. now rewrite nth_error_app1.
  - intros i [Hi|Hi].
    + rewrite nth_error_app1 by lia. symmetry. etransitivity; [apply (f_equal (fun l => nth_error l i) Eb)|]. now rewrite nth_error_app1 by lia.
    + rewrite nth_error_app2 by lia. symmetry. etransitivity; [apply (f_equal (fun l => nth_error l i) Eb)|]. rewrite nth_error_app2 by lia. rewrite Lb. symmetry.
      assert (S : forall (l : list (T * T)) c j, c <= j -> nth_error l j = nth_error (skipn c l) (j - c)).
      { clear. intros l c. revert l. induction c as [|c IH]; intros l j Hj; [cbn; f_equal; lia|].
        destruct l as [|x l]; [now destruct (j - S c), j|]. destruct j; [lia|]. cbn. apply IH. lia. }
      rewrite (S _ (cap dbg k)) by lia. rewrite K. rewrite <- S by lia. reflexivity.
Qed.
Lemma int_pure dbg dbg' q1 q2 buf b buf' n buf2 b2 buf2' n2 : b <= length buf -> b2 <= length buf2 ->
  intersect o eps dbg levels q1 q2 buf b = Ret (buf', n) -> intersect o eps dbg' levels q1 q2 buf2 b2 = Ret (buf2', n2) ->
  n2 = n /\ (forall i, i < n -> nth_error buf2' (b2 + i) = nth_error buf' (b + i)) /\
  length buf' = length buf /\ (forall i, i < b \/ b + slots dbg <= i -> nth_error buf' i = nth_error buf i) /\
  (dbg = true -> n <= 2) /\ intersects o eps levels q1 q2 = (0 <? n).
Proof.
  intros Hb Hb2 E E2. pose proof (int_at _ _ _ _ _ _ _ _ Hb E) as (N1 & L1 & P1 & F1). pose proof (int_at _ _ _ _ _ _ _ _ Hb2 E2) as (N2 & L2 & P2 & F2).
  split; [congruence|]. split; [intros i Hi; rewrite P1, P2 by (congruence || lia); auto|]. split; [auto|]. rewrite slots_cap. split; [auto|].
  split.
  - intros ->. destruct (split_at buf b Hb) as [Eb Lb]. apply (int_ret_at _ _ _ _ _ _ _ _ _ _ Eb (eq_sym Lb)) in E as (_ & _ & _ & _ & _ & B). exact B.
  - rewrite intersects_hits, N1. destruct (hits o eps levels q1 q2); reflexivity.
Qed.
Lemma int_returns dbg q1 q2 buf b : b + slots dbg <= length buf ->
  (exists r, intersect o eps dbg levels q1 q2 buf b = Ret r) \/ dbg = true /\ intersect o eps dbg levels q1 q2 buf b = Fail.
Proof.
  rewrite slots_cap. intros H. destruct (split_at buf b ltac:(lia)) as [Eb Lb]. apply (int_room_at _ _ _ _ _ _ _ _ Eb (eq_sym Lb)). rewrite skipn_length. lia.
Qed.

(** polygons *)
Lemma edge_of_get (p : list (T * T)) m i e : length p = 2 * m -> i < m -> (getEdgeQ p i = Ret e <-> edge_of p m i e).
Proof.
  intros Hl Hi. destruct (edge_ok p m i Hl Hi) as (a & b & c & A & B & C & E). rewrite E. unfold edge_of. rewrite A, B, C. split.
  - intros H. injection H as <-. auto.
  - destruct e as [[x y] z]. cbn. intros (H1 & H2 & H3). congruence.
Qed.
Lemma eh_hits (p : list (T * T)) m i j ei ej : length p = 2 * m -> i < m -> j < m -> edge_of p m i ei -> edge_of p m j ej ->
  eh o eps p i j = Ret (length (hits o eps levels ei ej)).
Proof.
  intros Hl Hi Hj Ei Ej. apply edge_of_get in Ei, Ej; auto. unfold eh. now rewrite Ei, Ej.
Qed.
Lemma edge_ex (p : list (T * T)) m i : length p = 2 * m -> i < m -> exists e, edge_of p m i e.
Proof. intros Hl Hi. destruct (edge_ok p m i Hl Hi) as (a & b & c & A & B & C & E). exists (a, b, c). repeat split; auto. Qed.
Lemma self_iff dbg (p : list (T * T)) m buf buf' r : length p = 2 * m -> m = 3 \/ m = 4 ->
  hasSelfIntersection o eps dbg p buf = Ret (buf', r) ->
  (r = true <-> exists i j ei ej, compared m i j /\ edge_of p m i ei /\ edge_of p m j ej /\ 1 < length (hits o eps levels ei ej)).
Proof.
  intros Hl Hm E. apply self_ret in E as [E _]. split.
  - intros ->. destruct (self_true o eps p m Hl Hm E) as (i & j & h & Hc & Eh & Hh).
    destruct (compared_lt m i j Hm Hc) as (Hi & Hj & _). destruct (edge_ex p m i Hl Hi) as (ei & Ei), (edge_ex p m j Hl Hj) as (ej & Ej).
    rewrite (eh_hits p m i j ei ej) in Eh by auto. apply ret_inj in Eh; subst h. exists i, j, ei, ej. auto.
  - intros (i & j & ei & ej & Hc & Ei & Ej & Hh). destruct r; [auto|]. exfalso.
    destruct (self_false o eps p m Hl Hm E i j Hc) as (h & Eh & Hle). destruct (compared_lt m i j Hm Hc) as (Hi & Hj & _).
    rewrite (eh_hits p m i j ei ej) in Eh by auto. apply ret_inj in Eh; subst h. lia.
Qed.
Lemma self_api dbg (p : list (T * T)) m buf buf' r : length p = 2 * m -> m = 3 \/ m = 4 ->
  hasSelfIntersection o eps dbg p buf = Ret (buf', r) ->
  length buf' = length buf /\
  (r = true <-> exists i j ei ej pts n, compared m i j /\ edge_of p m i ei /\ edge_of p m j ej /\
     intersect o eps false levels ei ej (repeat (o0 o, o0 o) (slots false)) 0 = Ret (pts, n) /\ 1 < n).
Proof.
  intros Hl Hm E. split; [now apply self_ret in E|]. rewrite (self_iff _ _ _ _ _ _ Hl Hm E). split.
  - intros (i & j & ei & ej & Hc & Ei & Ej & Hh).
    destruct (int_returns false ei ej (repeat (o0 o, o0 o) (slots false)) 0) as [[[pts n] Er]|[? _]]; [now rewrite repeat_length|exists i, j, ei, ej, pts, n|discriminate].
    assert (Hn := Er). apply int0 in Hn as [-> _]. auto 8.
  - intros (i & j & ei & ej & pts & n & Hc & Ei & Ej & Er & Hn). apply int0 in Er as [-> _]. exists i, j, ei, ej. auto.
Qed.
Lemma self_returns dbg (p : list (T * T)) m buf : length p = 2 * m -> m = 3 \/ m = 4 -> slots dbg <= length buf ->
  (exists r, hasSelfIntersection o eps dbg p buf = Ret r) \/ dbg = true /\ hasSelfIntersection o eps dbg p buf = Fail.
Proof.
  rewrite slots_cap. intros Hl Hm Hb. destruct (self_ok o eps p m Hl Hm) as (r & E). exact (self_room o eps dbg p buf r Hb E).
Qed.
Lemma fix_api dbg (p p' : list (T * T)) m buf buf' vid : length p = 2 * m -> m = 3 \/ m = 4 ->
  fixSelfIntersection o eps dbg p buf = Ret (buf', Some (p', vid)) ->
  length buf' = length buf /\ length p' = length p /\ (forall i, i <> vid -> nth_error p' i = nth_error p i) /\
  exists a b ea eb d x, (compared m a b \/ compared m b a) /\ edge_of p m a ea /\ edge_of p m b eb /\
    (1 < length (hits o eps levels ea eb) \/ 1 < length (hits o eps levels eb ea)) /\
    vid = m + a /\ nth_error buf' 0 = Some d /\ nth_error p vid = Some x /\ nth_error p' vid = Some (padd o x d) /\
    length (hits o eps levels (fst ea, padd o (snd ea) d) eb) <= 1.
Proof.
  intros Hl Hm E. destruct (fix_ret o eps dbg p m buf buf' _ Hl Hm E) as (L & i & j & h & Hc & Eh & Hh & a & b & ea & eb & da & db & d & Hab & Ea & Eb & Da & Db & _ & _ & Ed & Hv & Hd & Hmv & h' & Eh' & Hle).
  destruct (compared_lt m i j Hm Hc) as (Hi & Hj & Hij). assert (Ha : a < m /\ b < m /\ a <> b) by (destruct Hab as [[-> ->]|[-> ->]]; auto).
  destruct Ha as (Ha & Hb & Hne). destruct (edge_moved o p p' m a b d ea Hl Ha Hb Hne ltac:(now rewrite Hv in Hmv) Ea) as [M1 M2].
  destruct Hmv as (x & Hx & ->). assert (Lv : vid < length p) by (apply nth_error_Some; congruence).
  split; [auto|]. split; [apply upd_length|]. split; [intros k Hk; apply nth_error_upd_neq; auto|].
  exists a, b, ea, eb, d, x. split; [destruct Hab as [[-> ->]|[-> ->]]; auto|].
  assert (Hea := Ea). assert (Heb := Eb). apply (edge_of_get p m) in Ea, Eb; auto. split; [auto|]. split; [auto|]. split.
  { destruct Hab as [[-> ->]|[-> ->]]; [left|right]; [rewrite (eh_hits p m i j ea eb) in Eh by auto|rewrite (eh_hits p m i j eb ea) in Eh by auto]; apply ret_inj in Eh; subst h; auto. }
  split; [auto|]. split; [auto|]. split; [auto|]. split; [now apply nth_error_upd_eq|].
  unfold eh in Eh'. rewrite M1, M2, Heb in Eh'. cbn [bind] in Eh'. apply ret_inj in Eh'; subst h'. exact Hle.
Qed.
Lemma mapo_upd (vs : list (T * T)) y : forall c p t v, mapo (rdz vs) c = Ret p -> NoDup c -> nth_error c t = Some v -> (0 <= v)%Z ->
  Z.to_nat v < length vs -> mapo (rdz (upd vs (Z.to_nat v) y)) c = Ret (upd p t y).
Proof.
  assert (Hne : forall v w, w <> v -> (0 <= v)%Z -> rdz (upd vs (Z.to_nat v) y) w = rdz vs w).
  { intros v w Hw Hv. unfold rdz. destruct (Z.ltb_spec w 0); [auto|].
    assert (Hn : Z.to_nat v <> Z.to_nat w) by lia. pose proof (nth_error_upd_neq vs _ _ y Hn) as E. unfold rd. rewrite E. reflexivity. }
  assert (Hsame : forall c v, ~ In v c -> (0 <= v)%Z -> mapo (rdz (upd vs (Z.to_nat v) y)) c = mapo (rdz vs) c).
  { induction c as [|w c IH]; intros v Hv H0; [auto|]. cbn [mapo]. rewrite Hne by (auto; intros ->; apply Hv; now left).
    rewrite IH by (auto; intros H; apply Hv; now right). reflexivity. }
  induction c as [|w c IH]; intros p t v E Hd Ht Hv Hl; [destruct t; discriminate|].
  cbn [mapo] in *. apply bind_Ret in E as (x & E1 & E). apply bind_Ret in E as (l & E2 & E). injection E as <-.
  inversion Hd as [|? ? Hw Hd']; subst. destruct t as [|t]; cbn in Ht.
  - injection Ht as ->. rewrite Hsame by auto. unfold rdz at 1. destruct (Z.ltb_spec v 0); [lia|].
    rewrite (proj2 (rd_Ret _ _ _) (nth_error_upd_eq vs _ y Hl)). cbn [bind]. rewrite E2. reflexivity.
  - rewrite Hne by (auto; intros ->; apply Hw; eapply nth_error_In; eauto). rewrite E1. cbn [bind].
    rewrite (IH l t v E2 Hd' Ht Hv Hl). reflexivity.
Qed.
Lemma repair_api dbg k (m m' : mesh T) i buf buf' : (forall c, In c (fv m) -> length c = nverts k) -> quadratic k = true ->
  repair o eps dbg m i buf = Ret (buf', m') ->
  same_but_mids k m m' /\
  exists c p p' vid, nth_error (fv m) i = Some c /\ getFace m i = Ret p /\
    fixSelfIntersection o eps dbg p buf = Ret (buf', Some (p', vid)) /\
    (NoDup c -> getFace m' i = Ret p') /\
    (forall v, nth_error c vid <> Some (Z.of_nat v) -> nth_error (mv m') v = nth_error (mv m) v) /\
    exists b b', mesh_box o m = Ret b /\ mesh_box o m' = Ret b' /\ box_approx o eps b b' = Ret true.
Proof.
  intros Hk Hq E. destruct (repair_ret o eps dbg k m i buf buf' m' Hk Hq E) as [S1 B1]. split; [auto|].
  unfold repair in E. apply bind_Ret in E as (bb & Eb & E). apply bind_Ret in E as (p & Ep & E).
  apply let_pair in E as (b1 & r & Ef & E). destruct r as [[p' vid]|]; [|discriminate].
  destruct (face_conn m i p Ep) as (c & Ec & Lc). assert (Hc := Hk c (nth_error_In _ _ Ec)).
  assert (Hlp : exists h, length p = 2 * h /\ (h = 3 \/ h = 4)).
  { exists (nedges k). rewrite <- Lc, Hc. destruct k; try discriminate; cbn; lia. }
  destruct Hlp as (h & Hl & Hh).
  destruct (fix_ret o eps dbg p h buf b1 _ Hl Hh Ef) as (_ & i0 & j0 & h0 & Hcmp & _ & _ & a & b & ea & eb & da & db & d & Hab & _ & _ & _ & _ & _ & _ & _ & Hv & Ebuf & Hmv & _).
  apply bind_Ret in E as (c' & Ec' & E). apply rd_Ret in Ec'. rewrite Ec in Ec'. injection Ec' as <-.
  apply bind_Ret in E as (v & Ev & E). apply rd_Ret in Ev.
  apply bind_Ret in E as (d' & Ed' & E). apply rd_Ret in Ed'. rewrite Ebuf in Ed'. injection Ed' as <-.
  apply bind_Ret in E as (m1 & Em & E).
  apply bind_Ret in E as (bb' & Eb' & E). apply bind_Ret in E as (ok & Eok & E). destruct ok; [|discriminate].
  injection E as <- <-. unfold move_vertex in Em. apply bind_Ret in Em as (x & Ex & Em). apply bind_Ret in Em as (vs & Evs & Em).
  injection Em as <-. unfold wrz in Evs. destruct (Z.ltb_spec v 0); [discriminate|]. apply wr_Ret in Evs as [Lv ->].
  destruct Hmv as (x' & Hx' & ->).
  assert (x' = x).
  { unfold getFace in Ep. rewrite (proj2 (rd_Ret _ _ _) Ec) in Ep. cbn [bind] in Ep.
    pose proof (Fvm_Sort_Proofs.mapo_In _ _ _ Ep) as F. clear - F Ev Ex Hx'. revert vid Ev Hx'. induction F as [|w y c p Hw F IH]; intros t Ev Hx'; [destruct t; discriminate|].
    destruct t as [|t]; cbn in Ev, Hx'; [|eauto]. injection Ev as ->. injection Hx' as ->. rewrite Ex in Hw. now injection Hw. }
  subst x'. exists c, p, (upd p vid (padd o x d)), vid. split; [auto|]. split; [auto|]. split; [auto|]. split; [|split; [|auto]].
  - intros Hd. unfold getFace in *. cbn [fv mv]. rewrite (proj2 (rd_Ret _ _ _) Ec) in *. cbn [bind] in *.
    apply mapo_upd; auto.
  - intros w Hw. cbn [mv]. apply nth_error_upd_neq. intros <-. apply Hw. rewrite Z2Nat.id by lia. exact Ev.
Qed.
Lemma check_api dbg fuel k buf (m m' : mesh T) : quadratic k = true -> (forall c, In c (fv m) -> length c = nverts k) ->
  checkSelfIntersections o eps dbg fuel buf m = Ret m' ->
  same_but_mids k m m' /\
  (forall i p dbg' buf2 buf3 r, getFace m' i = Ret p -> hasSelfIntersection o eps dbg' p buf2 = Ret (buf3, r) -> r = false) /\
  ((forall i p buf2 buf3 r, getFace m i = Ret p -> hasSelfIntersection o eps dbg p buf2 = Ret (buf3, r) -> r = false) -> m' = m).
Proof.
  intros Hq Hk E. destruct (check_ret o eps dbg fuel k Hq buf m m' Hk E) as (S1 & F1 & H1). split; [auto|]. split.
  - intros i p dbg' buf2 buf3 r Hp Hr. apply self_ret in Hr as [Hr _].
    assert (Hi : i < length (fv m)).
    { replace (fv m) with (fv m') by apply S1. destruct (face_conn m' i p Hp) as (c & Hc & _). apply nth_error_Some. congruence. }
    pose proof (face_self_iff o eps m' i false p Hp (F1 i Hi)) as Hf. congruence.
  - intros Hall. destruct H1 as [->|(i & Hi & p & Hp & Hs)]; [auto|]. exfalso.
    destruct (face_conn m i p Hp) as (c & Ec & Lc). pose proof (Hk c (nth_error_In _ _ Ec)) as Hlc.
    assert (Hlp : exists h, length p = 2 * h /\ (h = 3 \/ h = 4)).
    { exists (nedges k). rewrite <- Lc, Hlc. destruct k; try discriminate; cbn; lia. }
    destruct Hlp as (h & Hl & Hh). cbn [checkSelfIntersections] in E.
    (* the first call in the loop returned for this face *)
    destruct fuel as [|fuel]; [discriminate|]. cbn [checkSelfIntersections] in E. apply let_pair in E as (b & r & E1 & E). clear E.
    destruct r as [j|].
    + assert (G : forall n i0 buf0 b0 j0, first_bad o eps dbg n i0 m buf0 = Ret (b0, Some j0) ->
        exists p0 bb bb', getFace m j0 = Ret p0 /\ hasSelfIntersection o eps dbg p0 bb = Ret (bb', true)).
      { induction n as [|n IH]; intros i0 buf0 b0 j0 Ef; cbn [first_bad] in Ef; [discriminate|].
        apply bind_Ret in Ef as (p0 & G1 & Ef). apply let_pair in Ef as (b2 & r2 & G2 & Ef). destruct r2; [injection Ef as <- <-; eauto|eauto]. }
      destruct (G _ _ _ _ _ E1) as (p0 & bb & bb' & G1 & G2). pose proof (Hall _ _ _ _ _ G1 G2). discriminate.
    + pose proof (first_bad_none o eps _ _ _ _ _ _ E1 i ltac:(lia)) as Hf. pose proof (face_self_iff o eps m i false p Hp Hf) as Hf'. congruence.
Qed.
Lemma check_api_clean dbg fuel k buf (m : mesh T) : quadratic k = true -> (forall c, In c (fv m) -> length c = nverts k) ->
  slots dbg <= length buf -> 0 < fuel ->
  (forall i, i < length (fv m) -> exists p buf2 buf3, getFace m i = Ret p /\ hasSelfIntersection o eps dbg p buf2 = Ret (buf3, false)) ->
  checkSelfIntersections o eps dbg fuel buf m = Ret m \/ dbg = true /\ checkSelfIntersections o eps dbg fuel buf m = Fail.
Proof.
  rewrite slots_cap. intros Hq Hk Hb Hf Hall. destruct fuel as [|fuel]; [lia|].
  destruct (check_clean o eps dbg fuel buf m Hb) as [[[m' E]|H] H2].
  - intros i Hi. destruct (Hall i Hi) as (p & b2 & b3 & Hp & Hs). apply self_ret in Hs as [Hs _]. exists p. auto.
  - left. now rewrite E, (H2 m' E).
  - right. exact H.
Qed.
Lemma validate_quad : forall stdsort, sort_contract stdsort ->
  forall isCCW dbg sfuel buf fuel k (m m' : mesh T), mesh_ok k m -> quadratic k = true ->
  length (all_edges k (fv m)) <= fuel ->
  validate stdsort isCCW (checkSelfIntersections o eps dbg sfuel buf) fuel k m = Ret m' ->
  exists m1, checkCCWFaces isCCW k m = Ret m1 /\ mv m1 = mv m /\ mesh_ok k m1 /\ same_but_mids k m1 m' /\
    watertight (all_edges k (fv m')) /\
    (forall i p dbg' buf2 buf3 r, getFace m' i = Ret p -> hasSelfIntersection o eps dbg' p buf2 = Ret (buf3, r) -> r = false).
Proof.
  intros stdsort Hs isCCW dbg sfuel buf fuel k m m' Hm Hq Hf H. unfold validate in H.
  destruct (checkCCW_ok isCCW k m Hm) as (m1 & E & H1 & H2 & H3 & _). rewrite E in H. cbn [bind] in H.
  destruct (checkManifoldWatertight stdsort fuel k m1) as [[]| | |] eqn:Ec; cbn [bind] in H; try discriminate. rewrite Hq in H.
  assert (Hlen : forall c, In c (fv m1) -> length c = nverts k) by (intros c Hc; apply (H3 c Hc)).
  destruct (check_api dbg sfuel k buf m1 m' Hq Hlen H) as (S1 & F1 & _).
  exists m1. split; [auto|]. split; [auto|]. split; [auto|]. split; [auto|]. split; [|exact F1].
  replace (fv m') with (fv m1) by (symmetry; apply S1).
  apply (check_iff stdsort Hs T fuel k m1 Hlen); [|exact Ec].
  assert (L : forall fs : list (list Z), (forall c, In c fs -> length c = nverts k) ->
    length (all_edges k fs) = length fs * nedges k).
  { induction fs as [|c fs IH]; intros Hc; auto. unfold all_edges in *. cbn [map concat]. rewrite app_length, IH by (intros; apply Hc; now right).
    rewrite Fvm_Proofs.edges_of_length by (apply Hc; now left). cbn. reflexivity. }
  rewrite L, H2, <- L; auto. intros c Hc. apply (Hm c Hc).
Qed.
End Gen.

Local Open Scope R_scope.
Lemma int_sound eps dbg q1 q2 buf b buf' n : 0 < eps -> (b <= length buf)%nat -> intersect RA eps dbg levels q1 q2 buf b = Ret (buf', n) ->
  (forall i, (i < n)%nat -> exists p, nth_error buf' (b + i) = Some p /\ near_hit (100 * eps) (100 * eps / 32) q1 q2 p) /\
  (forall i j p p', (i < j < n)%nat -> nth_error buf' (b + i) = Some p -> nth_error buf' (b + j) = Some p' -> eps * eps <= dsq p p').
Proof.
  intros He Hb E. apply int_at in E as (-> & _ & P1 & _); [|auto]. split.
  - intros i Hi. rewrite P1 by auto. destruct (nth_error _ i) as [p|] eqn:Ep; [|apply nth_error_None in Ep; lia]. exists p. split; [auto|].
    apply nth_error_In in Ep. apply (hits_sound eps levels He) in Ep. replace 32 with (2 ^ levels) by (unfold levels; cbn; ring). exact Ep.
  - intros i j p p' Hij. rewrite !P1 by lia. intros H1 H2. pose proof (hits_far RA eps levels q1 q2) as F. apply approx_R_false.
    clear P1. revert i j Hij H1 H2. induction F as [|x l Hx F IH]; intros i j Hij H1 H2; [cbn in Hij; lia|].
    destruct j as [|j]; [lia|]. destruct i as [|i].
    + injection H1 as ->. rewrite Forall_forall in Hx. apply Hx. eapply nth_error_In; eauto.
    + cbn in Hij. apply (IH i j); auto. lia.
Qed.
Lemma two_of {A} (l : list A) : (1 < length l)%nat -> exists x y t, l = x :: y :: t.
Proof. destruct l as [|x [|y t]]; cbn; try lia. eauto. Qed.
Lemma self_sound eps dbg p m buf buf' : 0 < eps -> length p = (2 * m)%nat -> m = 3%nat \/ m = 4%nat ->
  hasSelfIntersection RA eps dbg p buf = Ret (buf', true) ->
  exists i j ei ej P P', (i < m)%nat /\ (j < m)%nat /\ i <> j /\ edge_of p m i ei /\ edge_of p m j ej /\ eps * eps <= dsq P P' /\
    near_hit (100 * eps) (100 * eps / 32) ei ej P /\ near_hit (100 * eps) (100 * eps / 32) ei ej P'.
Proof.
  intros He Hl Hm E. destruct (proj1 (self_iff RA eps dbg p m buf buf' true Hl Hm E) eq_refl) as (i & j & ei & ej & Hc & Ei & Ej & Hh).
  destruct (compared_lt m i j Hm Hc) as (Hi & Hj & Hij). destruct (two_of _ Hh) as (P & P' & t & Et).
  exists i, j, ei, ej, P, P'. repeat (split; [assumption|]).
  pose proof (hits_far RA eps levels ei ej) as F. rewrite Et in F. inversion F as [|? ? Fx ?]; subst. inversion Fx; subst.
  split; [now apply approx_R_false|]. replace 32 with (2 ^ levels) by (unfold levels; cbn; ring).
  split; apply hits_sound; auto; rewrite Et; [now left|right; now left].
Qed.
Lemma self_straight eps dbg p m buf : 0 < eps -> length p = (2 * m)%nat -> m = 3%nat \/ m = 4%nat ->
  (forall i e, (i < m)%nat -> edge_of p m i e -> centred e) ->
  forall buf' r, hasSelfIntersection RA eps dbg p buf = Ret (buf', r) -> r = false.
Proof.
  intros He Hl Hm Hc buf' r E. destruct r; [|auto]. exfalso.
  destruct (proj1 (self_iff RA eps dbg p m buf buf' true Hl Hm E) eq_refl) as (i & j & ei & ej & Hcm & Ei & Ej & Hh).
  destruct (compared_lt m i j Hm Hcm) as (Hi & Hj & _).
  pose proof (hits_straight_le eps levels ei ej He (Hc i ei Hi Ei) (Hc j ej Hj Ej)). lia.
Qed.
Lemma dsq_ge a b : 0 <= dsq a b.
Proof. unfold dsq. pose proof (Rle_0_sqr (fst a - fst b)). pose proof (Rle_0_sqr (snd a - snd b)). unfold Rsqr in *. lra. Qed.
(** the displacement *)
Lemma offset_ok v0 v1 v2 d : v0 <> v1 -> offset RA (v0, v1, v2) = Ret d ->
  exists x, foot (v0, v1, v2) x /\ d = (fst v2 - fst x, snd v2 - snd x) /\ chord_dist RA (v0, v1, v2) = Ret (sqrt (dsq v2 x)).
Proof.
  destruct v0 as [a0 a1], v1 as [b0 b1], v2 as [c0 c1]. intros Hne E. unfold offset in E.
  destruct (closest_ok [a0; a1] [b0; b1] [c0; c1]) as (r & d2 & dd & Er & Hr & Hmin & _ & -> & Ed & -> & _); [congruence|reflexivity|reflexivity|].
  unfold comps in E. cbn [fst snd] in E. rewrite Er in E. cbn [bind] in E. injection E as <-.
  assert (Hs : forall t, sqdist (along [a0; a1] [b0; b1] t) [c0; c1] = dsq (c0, c1) (along2 (a0, a1) (b0, b1) t)).
  { intros t. unfold dsq. cbn. ring. }
  exists (along2 (a0, a1) (b0, b1) r). split; [|split].
  - split; [eauto|]. intros t Ht. rewrite <- !Hs. destruct (Req_dec t r) as [->|Hne2]; [lra|]. left. auto.
  - unfold psub, padd, pscale, along2. cbn. f_equal; ring.
  - unfold chord_dist, comps. cbn [fst snd]. rewrite Ed, Hs. reflexivity.
Qed.
Lemma fix_R eps dbg p p' m buf buf' vid : length p = (2 * m)%nat -> m = 3%nat \/ m = 4%nat ->
  (forall i e, (i < m)%nat -> edge_of p m i e -> fst (fst e) <> snd (fst e)) ->
  fixSelfIntersection RA eps dbg p buf = Ret (buf', Some (p', vid)) ->
  exists a b ea eb x y, (compared m a b \/ compared m b a) /\ edge_of p m a ea /\ edge_of p m b eb /\ vid = (m + a)%nat /\
    foot ea y /\ foot eb x /\ dsq (snd ea) y <= dsq (snd eb) x /\
    nth_error p' vid = Some (fst (snd ea) + (fst (snd eb) - fst x), snd (snd ea) + (snd (snd eb) - snd x)).
Proof.
  intros Hl Hm Hne E. destruct (fix_ret RA eps dbg p m buf buf' _ Hl Hm E) as (L & i & j & h & Hc & Eh & Hh & a & b & ea & eb & da & db & d & Hab & Ea & Eb & Da & Db & O1 & O2 & Ed & Hv & Hd & Hmv & h' & Eh' & Hle).
  destruct (compared_lt m i j Hm Hc) as (Hi & Hj & Hij). assert (Ha : (a < m)%nat /\ (b < m)%nat /\ a <> b) by (destruct Hab as [[-> ->]|[-> ->]]; auto).
  destruct Ha as (Ha & Hb & Hnab). apply (edge_of_get p m) in Ea, Eb; auto.
  pose proof (Hne a ea Ha Ea) as Na. pose proof (Hne b eb Hb Eb) as Nb.
  destruct (chord_ok RA ea) as (_ & oa & Eoa).
  destruct ea as [[a0 a1] a2], eb as [[b0 b1] b2]. cbn [fst snd] in Na, Nb.
  destruct (offset_ok _ _ _ _ Nb Ed) as (x & Fx & -> & Cx). destruct (offset_ok _ _ _ _ Na Eoa) as (y & Fy & _ & Cy).
  exists a, b, (a0, a1, a2), (b0, b1, b2), x, y. split; [destruct Hab as [[-> ->]|[-> ->]]; auto|].
  split; [auto|]. split; [auto|]. split; [auto|]. split; [auto|]. split; [auto|]. cbn [fst snd].
  rewrite Cx in Db. rewrite Cy in Da. injection Da as <-. injection Db as <-. split.
  - assert (Hs : sqrt (dsq a2 y) <= sqrt (dsq b2 x)).
    { destruct Hab as [[-> ->]|[-> ->]].
      - specialize (O1 eq_refl). apply Rltb_false in O1. exact O1.
      - specialize (O2 eq_refl). apply Rltb_true in O2. lra. }
    apply sqrt_le_0; auto using dsq_ge.
  - destruct Hmv as (z & Hz & ->). assert (vid < length p)%nat by (apply nth_error_Some; congruence).
    rewrite nth_error_upd_eq by auto. destruct Ea as (_ & _ & Ea). cbn [fst snd] in Ea. rewrite <- Hv, Hz in Ea. injection Ea as ->. reflexivity.
Qed.
Lemma hits_are T (o : arith T) eps dbg q1 q2 buf b buf' n : (b <= length buf)%nat ->
  intersect o eps dbg levels q1 q2 buf b = Ret (buf', n) ->
  n = length (hits o eps levels q1 q2) /\ forall i, (i < n)%nat -> nth_error buf' (b + i) = nth_error (hits o eps levels q1 q2) i.
Proof. intros Hb E. apply int_at in E as (H1 & _ & H2 & _); auto. Qed.
Lemma search_api eps q1 q2 r s dbg buf b buf' n : 0 < eps -> (b <= length buf)%nat ->
  0 <= r <= 1 -> 0 <= s <= 1 -> on_curve q1 r = on_curve q2 s ->
  intersect RA eps dbg levels q1 q2 buf b = Ret (buf', n) ->
  exists i j s1 s2, (i < 32)%nat /\ (j < 32)%nat /\
    (forall t, on_curve s1 t = on_curve q1 ((INR i + t) / 32)) /\ (forall t, on_curve s2 t = on_curve q2 ((INR j + t) / 32)) /\
    INR i <= r * 32 <= INR i + 1 /\ INR j <= s * 32 <= INR j + 1 /\
    forall p z, intersect RA eps dbg 0 s1 s2 [z] 0 = Ret ([p], 1%nat) ->
      exists c p', (c < n)%nat /\ nth_error buf' (b + c) = Some p' /\ dsq p' p <= (5 * eps) * (5 * eps).
Proof.
  intros He Hb Hr Hs E Ei. apply hits_are in Ei as [-> Hn]; [|auto].
  destruct (search_ok eps levels He q1 q2 r s Hr Hs E) as (i & j & s1 & s2 & Li & Lj & S1 & S2 & Bi & Bj & Hl).
  assert (H32 : INR (2 ^ levels) = 32) by (unfold levels; cbn; ring). unfold sub in S1, S2. rewrite H32 in *.
  exists i, j, s1, s2. split; [exact Li|]. split; [exact Lj|]. split; [exact S1|]. split; [exact S2|]. split; [exact Bi|]. split; [exact Bj|].
  intros p z Ez. assert (Lf : leaf RA eps s1 s2 = Some p).
  { cbn [intersect] in Ez. destruct (negb _); [injection Ez; discriminate|]. destruct (leaf RA eps s1 s2) as [p0|]; [|injection Ez; discriminate].
    cbn in Ez. injection Ez as ->. reflexivity. }
  destruct (Hl p Lf) as (p' & Hin & Hd). apply In_nth_error in Hin as [c Hc]. exists c, p'.
  assert (Hlt : (c < length (hits RA eps levels q1 q2))%nat) by (apply nth_error_Some; congruence).
  split; [auto|]. rewrite Hn by auto. split; [auto|]. replace 5 with (INR levels) by (unfold levels; cbn; ring). exact Hd.
Qed.
Lemma straight_api eps dbg q1 q2 buf b buf' n : 0 < eps -> (b <= length buf)%nat -> centred q1 -> centred q2 ->
  intersect RA eps dbg levels q1 q2 buf b = Ret (buf', n) ->
  (~ across q1 q2 -> n = 0%nat) /\
  (forall r s, across q1 q2 -> on_curve q1 r = on_curve q2 s ->
     (n = 0%nat \/ n = 1%nat /\ nth_error buf' b = Some (on_curve q1 r)) /\
     (0 <= r <= 1 -> 0 <= s <= 1 -> n = 1%nat) /\
     (n = 1%nat -> - (100 * eps / 32) <= r <= 1 + 100 * eps / 32 /\ - (100 * eps / 32) <= s <= 1 + 100 * eps / 32)).
Proof.
  intros He Hb C1 C2 E. apply hits_are in E as [Hn Hp]; [|auto].
  split.
  - intros Ha. assert (W : wedge q1 q2 = 0) by (destruct (Req_dec (wedge q1 q2) 0); [auto|contradiction]).
    rewrite hits_parallel in Hn by auto. exact Hn.
  - intros r s Ha Ers. replace 32 with (2 ^ levels) by (unfold levels; cbn; ring).
    destruct (hits_straight eps levels He q1 q2 r s C1 C2 Ha Ers) as [(H1 & H2 & H3)|(H1 & H2)]; rewrite H1 in Hn, Hp; cbn [length] in Hn; subst n.
    + specialize (Hp 0%nat ltac:(lia)). rewrite Nat.add_0_r in Hp. unfold in_tol in *. auto.
    + split; [auto|]. split; [tauto|]. discriminate.
Qed.
