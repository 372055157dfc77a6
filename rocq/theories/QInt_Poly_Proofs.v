(** Polygons and meshes: proofs for every arithmetic. *)
From Coq Require Import List Arith ZArith Bool Lia.
From Verif Require Import Base Loops Arith Vec_Model Box_Model Seg_Model Poly_Model QSeg_Model QPoly_Model Soup_Model Fvm_Model
  QInt_Model QInt_Spec QInt_Proofs.
Import ListNotations.

Section Gen.
Context {T : Type} (o : arith T) (eps : T).
Notation pt := (T * T)%type.
Notation qseg := (T * T * (T * T) * (T * T))%type.
Notation intersect := (intersect o eps).
Notation hits := (hits o eps).
Notation edge_hits := (edge_hits o eps).
Notation adjacent := (adjacent o eps).
Notation hasSelfIntersection := (hasSelfIntersection o eps).
Notation find_edges := (find_edges o eps).
Notation fixSelfIntersection := (fixSelfIntersection o eps).

(** the number of hits of two edges, without the buffer *)
Definition eh (p : list pt) (i j : nat) : outcome nat :=
  let* e := getEdgeQ p i in let* f := getEdgeQ p j in Ret (length (hits levels e f)).
Lemma int0 dbg k q1 q2 buf buf' n : intersect dbg k q1 q2 buf 0 = Ret (buf', n) ->
  n = length (hits k q1 q2) /\ length buf' = length buf /\ firstn n buf' = hits k q1 q2.
Proof.
  intros E. apply (int_ret o eps dbg k q1 q2 [] buf) in E as (l' & -> & -> & L & _ & _). cbn [app].
  split; [auto|split; [auto|]]. rewrite firstn_app, firstn_all, Nat.sub_diag. cbn. now rewrite app_nil_r.
Qed.
Lemma int0_room dbg k q1 q2 buf : cap dbg k <= length buf -> returns dbg (intersect dbg k q1 q2 buf 0).
Proof. exact (int_room o eps dbg k q1 q2 [] buf). Qed.
Lemma edge_hits_ret dbg p i j buf buf' n : edge_hits dbg p i j buf = Ret (buf', n) -> eh p i j = Ret n /\ length buf' = length buf.
Proof.
  unfold QInt_Model.edge_hits, eh. intros E. apply bind_Ret in E as (e & E1 & E). apply bind_Ret in E as (f & E2 & E).
  apply int0 in E as (-> & L & _). rewrite E1, E2. auto.
Qed.
Lemma edge_hits_room dbg p i j buf n : cap dbg levels <= length buf -> eh p i j = Ret n -> returns dbg (edge_hits dbg p i j buf).
Proof.
  unfold QInt_Model.edge_hits, eh. intros Hc E. apply bind_Ret in E as (e & -> & E). apply bind_Ret in E as (f & -> & E).
  cbn [bind]. now apply int0_room.
Qed.
(** the tests without the buffer *)
Fixpoint adj (n i : nat) (p : list pt) : outcome (option nat) :=
  match n with
  | O => Ret None
  | S n' => let* h := eh p i (i + 1) in if 1 <? h then Ret (Some i) else adj n' (i + 1) p
  end.
Definition selfp (p : list pt) : outcome bool :=
  let m := length p / 2 in
  let* a := adj (m - 1) 0 p in
  match a with
  | Some _ => Ret true
  | None =>
      let* h := eh p (m - 1) 0 in
      if 1 <? h then Ret true
      else if m =? 4 then
        let* h := eh p 0 2 in
        if 1 <? h then Ret true else let* h := eh p 1 3 in Ret (1 <? h)
      else Ret false
  end.
Definition findp (p : list pt) : outcome (option (nat * nat)) :=
  let m := length p / 2 in
  let* a := adj (m - 1) 0 p in
  let e := match a with Some i => Some (i, i + 1) | None => None end in
  let* h := eh p (m - 1) 0 in
  let e := if 1 <? h then Some (m - 1, 0) else e in
  if m =? 4 then
    let* h := eh p 0 2 in
    let e := if 1 <? h then Some (0, 2) else e in
    let* h := eh p 1 3 in
    Ret (if 1 <? h then Some (1, 3) else e)
  else Ret e.
Lemma adjacent_ret dbg n : forall i p buf buf' r, adjacent dbg n i p buf = Ret (buf', r) -> adj n i p = Ret r /\ length buf' = length buf.
Proof.
  induction n as [|n IH]; intros i p buf buf' r E; cbn [QInt_Model.adjacent adj] in *; [injection E as <- <-; auto|].
  apply let_pair in E as (b & h & E1 & E). apply edge_hits_ret in E1 as [-> L]. cbn [bind].
  destruct (1 <? h); [injection E as <- <-; auto|]. apply IH in E as [E L']. split; [auto|congruence].
Qed.
Lemma adjacent_room dbg n : forall i p buf r, cap dbg levels <= length buf -> adj n i p = Ret r -> returns dbg (adjacent dbg n i p buf).
Proof.
  induction n as [|n IH]; intros i p buf r Hc E; cbn [QInt_Model.adjacent adj] in *; [left; eauto|].
  apply bind_Ret in E as (h & E1 & E). apply returns_pair; [eapply edge_hits_room; eauto|].
  intros b h' E2. apply edge_hits_ret in E2 as [E2 L]. rewrite E1 in E2. injection E2 as <-.
  destruct (1 <? h); [left; eauto|]. eapply IH; eauto. lia.
Qed.
Lemma self_ret dbg p buf buf' r : hasSelfIntersection dbg p buf = Ret (buf', r) -> selfp p = Ret r /\ length buf' = length buf.
Proof.
  unfold QInt_Model.hasSelfIntersection, selfp. intros E.
  apply let_pair in E as (b1 & a & E1 & E). apply adjacent_ret in E1 as [-> L1]. cbn [bind].
  destruct a; [injection E as <- <-; auto|].
  apply let_pair in E as (b2 & h2 & E2 & E). apply edge_hits_ret in E2 as [-> L2]. cbn [bind].
  destruct (1 <? h2); [injection E as <- <-; split; [auto|congruence]|].
  destruct (_ =? 4); [|injection E as <- <-; split; [auto|congruence]].
  apply let_pair in E as (b3 & h3 & E3 & E). apply edge_hits_ret in E3 as [-> L3]. cbn [bind].
  destruct (1 <? h3); [injection E as <- <-; split; [auto|congruence]|].
  apply let_pair in E as (b4 & h4 & E4 & E). apply edge_hits_ret in E4 as [-> L4]. cbn [bind].
  injection E as <- <-; split; [auto|congruence].
Qed.
Ltac step E := let h := fresh "h" in let E1 := fresh "E" in
  apply bind_Ret in E as (h & E1 & E); apply returns_pair; [eapply edge_hits_room; [lia|exact E1]|];
  let b := fresh "b" in let h' := fresh "h" in let E2 := fresh "E" in let L := fresh "L" in
  intros b h' E2; apply edge_hits_ret in E2 as [E2 L]; rewrite E1 in E2; injection E2 as <-.
Lemma self_room dbg p buf r : cap dbg levels <= length buf -> selfp p = Ret r -> returns dbg (hasSelfIntersection dbg p buf).
Proof.
  unfold QInt_Model.hasSelfIntersection, selfp. intros Hc E.
  apply bind_Ret in E as (a & E1 & E). apply returns_pair; [eapply adjacent_room; [lia|exact E1]|].
  intros b1 a' E2. apply adjacent_ret in E2 as [E2 L1]. rewrite E1 in E2. injection E2 as <-.
  destruct a; [left; eauto|]. step E. destruct (1 <? h); [left; eauto|]. destruct (_ =? 4); [|left; eauto].
  step E. destruct (1 <? h0); [left; eauto|]. step E. left. eauto.
Qed.
Lemma find_ret dbg p buf buf' r : find_edges dbg p buf = Ret (buf', r) -> findp p = Ret r /\ length buf' = length buf.
Proof.
  unfold QInt_Model.find_edges, findp. intros E.
  apply let_pair in E as (b1 & a & E1 & E). apply adjacent_ret in E1 as [-> L1]. cbn [bind].
  apply let_pair in E as (b2 & h2 & E2 & E). apply edge_hits_ret in E2 as [-> L2]. cbn [bind].
  destruct (_ =? 4); [|injection E as <- <-; split; [auto|congruence]].
  apply let_pair in E as (b3 & h3 & E3 & E). apply edge_hits_ret in E3 as [-> L3]. cbn [bind].
  apply let_pair in E as (b4 & h4 & E4 & E). apply edge_hits_ret in E4 as [-> L4]. cbn [bind].
  injection E as <- <-; split; [auto|congruence].
Qed.
Lemma find_room dbg p buf r : cap dbg levels <= length buf -> findp p = Ret r -> returns dbg (find_edges dbg p buf).
Proof.
  unfold QInt_Model.find_edges, findp. intros Hc E.
  apply bind_Ret in E as (a & E1 & E). apply returns_pair; [eapply adjacent_room; [lia|exact E1]|].
  intros b1 a' E2. apply adjacent_ret in E2 as [E2 L1]. rewrite E1 in E2. injection E2 as <-.
  step E. destruct (_ =? 4); [|left; eauto]. step E. step E. left. eauto.
Qed.

(** polygons with m edges *)
Lemma edge_ok (p : list pt) m i : length p = 2 * m -> i < m -> exists a b c,
  nth_error p i = Some a /\ nth_error p ((i + 1) mod m) = Some b /\ nth_error p (m + i) = Some c /\ getEdgeQ p i = Ret (a, b, c).
Proof.
  intros Hl Hi. unfold getEdgeQ.
  assert (Hm : length p / 2 = m) by (rewrite Hl, Nat.mul_comm, Nat.div_mul; lia). rewrite Hm.
  assert (R : forall j, j < 2 * m -> exists x, nth_error p j = Some x /\ rd p j = Ret x).
  { intros j Hj. destruct (nth_error p j) as [x|] eqn:E; [exists x; split; [auto|now apply rd_Ret]|].
    apply nth_error_None in E. lia. }
  destruct (Nat.ltb_spec i (m - 1)).
  - rewrite (Nat.mod_small (i + 1)) by lia.
    destruct (R i ltac:(lia)) as (a & -> & ->), (R (i + 1) ltac:(lia)) as (b & -> & ->), (R (i + m) ltac:(lia)) as (c & Ec & Ec').
    rewrite Ec'. rewrite (Nat.add_comm m i), Ec. exists a, b, c. auto.
  - replace i with (m - 1) by lia. replace (m - 1 + 1) with m by lia. rewrite Nat.mod_same by lia.
    destruct (R (m - 1) ltac:(lia)) as (a & -> & ->), (R 0 ltac:(lia)) as (b & -> & ->), (R (length p - 1) ltac:(lia)) as (c & Ec & Ec').
    rewrite Ec'. replace (m + (m - 1)) with (length p - 1) by lia. rewrite Ec. exists a, b, c. auto.
Qed.
Lemma eh_ok (p : list pt) m i j : length p = 2 * m -> i < m -> j < m -> exists n, eh p i j = Ret n.
Proof.
  intros Hl Hi Hj. unfold eh. destruct (edge_ok p m i Hl Hi) as (a & b & c & _ & _ & _ & ->).
  destruct (edge_ok p m j Hl Hj) as (a' & b' & c' & _ & _ & _ & ->). cbn [bind]. eauto.
Qed.
Lemma adj_ok (p : list pt) m n : forall i, length p = 2 * m -> i + n < m -> exists r, adj n i p = Ret r.
Proof.
  induction n as [|n IH]; intros i Hl Hi; cbn [adj]; [eauto|]. destruct (eh_ok p m i (i + 1) Hl ltac:(lia) ltac:(lia)) as (h & ->).
  cbn [bind]. destruct (1 <? h); [eauto|]. apply IH; [auto|lia].
Qed.
Lemma adj_some p n : forall i r, adj n i p = Ret (Some r) -> i <= r < i + n /\ exists h, eh p r (r + 1) = Ret h /\ 1 < h.
Proof.
  induction n as [|n IH]; intros i r E; cbn [adj] in E; [discriminate|]. apply bind_Ret in E as (h & E1 & E).
  destruct (Nat.ltb_spec 1 h).
  - injection E as <-. split; [lia|eauto].
  - apply IH in E as [? ?]. split; [lia|auto].
Qed.
Lemma adj_none p n : forall i, adj n i p = Ret None -> forall r, i <= r < i + n -> exists h, eh p r (r + 1) = Ret h /\ h <= 1.
Proof.
  induction n as [|n IH]; intros i E r Hr; cbn [adj] in E; [lia|]. apply bind_Ret in E as (h & E1 & E).
  destruct (Nat.ltb_spec 1 h); [discriminate|]. destruct (Nat.eq_dec r i) as [->|]; [eauto|]. apply (IH _ E). lia.
Qed.
Lemma half (p : list pt) m : length p = 2 * m -> length p / 2 = m.
Proof. intros ->. rewrite Nat.mul_comm, Nat.div_mul; lia. Qed.
Lemma self_ok p m : length p = 2 * m -> m = 3 \/ m = 4 -> exists r, selfp p = Ret r.
Proof.
  intros Hl Hm. unfold selfp. rewrite (half p m Hl). destruct (adj_ok p m (m - 1) 0 Hl ltac:(lia)) as ([a|] & ->); cbn [bind]; [eauto|].
  destruct (eh_ok p m (m - 1) 0 Hl ltac:(lia) ltac:(lia)) as (h & ->). cbn [bind]. destruct (1 <? h); [eauto|].
  destruct (Nat.eqb_spec m 4); [|eauto].
  destruct (eh_ok p m 0 2 Hl ltac:(lia) ltac:(lia)) as (h' & ->). cbn [bind]. destruct (1 <? h'); [eauto|].
  destruct (eh_ok p m 1 3 Hl ltac:(lia) ltac:(lia)) as (h'' & ->). cbn [bind]. eauto.
Qed.
Lemma self_true p m : length p = 2 * m -> m = 3 \/ m = 4 -> selfp p = Ret true ->
  exists i j h, compared m i j /\ eh p i j = Ret h /\ 1 < h.
Proof.
  intros Hl Hm. unfold selfp. rewrite (half p m Hl). intros E. apply bind_Ret in E as (a & E1 & E). destruct a as [r|].
  - apply adj_some in E1 as (? & h & ? & ?). exists r, (r + 1), h. split; [left; lia|auto].
  - apply bind_Ret in E as (h & E2 & E). destruct (Nat.ltb_spec 1 h).
    + exists (m - 1), 0, h. split; [right; left; lia|auto].
    + destruct (Nat.eqb_spec m 4); [|discriminate]. apply bind_Ret in E as (h' & E3 & E). destruct (Nat.ltb_spec 1 h').
      * exists 0, 2, h'. split; [right; right; lia|auto].
      * apply bind_Ret in E as (h'' & E4 & E). injection E as E. exists 1, 3, h''. split; [right; right; lia|].
        apply Nat.ltb_lt in E. auto.
Qed.
Lemma self_false p m : length p = 2 * m -> m = 3 \/ m = 4 -> selfp p = Ret false ->
  forall i j, compared m i j -> exists h, eh p i j = Ret h /\ h <= 1.
Proof.
  intros Hl Hm. unfold selfp. rewrite (half p m Hl). intros E i j Hij. apply bind_Ret in E as (a & E1 & E).
  destruct a as [r|]; [discriminate|]. apply bind_Ret in E as (h & E2 & E). destruct (Nat.ltb_spec 1 h); [discriminate|].
  destruct Hij as [(-> & Hi)|[(-> & ->)|(-> & Hij)]].
  - exact (adj_none p (m - 1) 0 E1 i ltac:(lia)).
  - eauto.
  - cbn [Nat.eqb] in E. apply bind_Ret in E as (h' & E3 & E). destruct (Nat.ltb_spec 1 h'); [discriminate|].
    apply bind_Ret in E as (h'' & E4 & E). injection E as E. apply Nat.ltb_ge in E.
    destruct Hij as [(-> & ->)|(-> & ->)]; eauto.
Qed.
Lemma find_ok p m : length p = 2 * m -> m = 3 \/ m = 4 -> exists r, findp p = Ret r /\
  (selfp p = Ret true -> exists i j, r = Some (i, j)) /\
  (forall i j, r = Some (i, j) -> compared m i j /\ exists h, eh p i j = Ret h /\ 1 < h).
Proof.
  intros Hl Hm. unfold findp, selfp. rewrite (half p m Hl). destruct (adj_ok p m (m - 1) 0 Hl ltac:(lia)) as (a & Ea). rewrite Ea. cbn [bind].
  assert (Ha : forall i j, match a with Some i => Some (i, i + 1) | None => None end = Some (i, j) ->
    compared m i j /\ exists h, eh p i j = Ret h /\ 1 < h).
  { intros i j E. destruct a as [r|]; [|discriminate]. injection E as <- <-. apply adj_some in Ea as [? ?]. split; [left; lia|auto]. }
  destruct (eh_ok p m (m - 1) 0 Hl ltac:(lia) ltac:(lia)) as (h & Eh). rewrite Eh. cbn [bind].
  assert (Hh : forall i j, (if 1 <? h then Some (m - 1, 0) else match a with Some i => Some (i, i + 1) | None => None end) = Some (i, j) ->
    compared m i j /\ exists h, eh p i j = Ret h /\ 1 < h).
  { intros i j E. destruct (Nat.ltb_spec 1 h); [|auto]. injection E as <- <-. split; [right; left; lia|eauto]. }
  destruct (Nat.eqb_spec m 4) as [E4|E4].
  - destruct (eh_ok p m 0 2 Hl ltac:(lia) ltac:(lia)) as (h' & Eh'). rewrite Eh'. cbn [bind].
    destruct (eh_ok p m 1 3 Hl ltac:(lia) ltac:(lia)) as (h'' & Eh''). rewrite Eh''. cbn [bind].
    eexists. split; [reflexivity|split].
    + intros E. destruct (1 <? h''); [eauto|]. destruct (1 <? h'); [eauto|]. destruct (1 <? h); [eauto|]. destruct a; [eauto|discriminate].
    + intros i j E. destruct (Nat.ltb_spec 1 h''); [injection E as <- <-; split; [right; right; lia|eauto]|].
      destruct (Nat.ltb_spec 1 h'); [injection E as <- <-; split; [right; right; lia|eauto]|]. auto.
  - eexists. split; [reflexivity|split; [|auto]]. intros E. destruct (1 <? h); [eauto|]. destruct a; [eauto|discriminate].
Qed.
Lemma compared_lt m i j : m = 3 \/ m = 4 -> compared m i j -> i < m /\ j < m /\ i <> j.
Proof. unfold compared. lia. Qed.

(** fixSelfIntersection *)
Lemma chord_ok (e : qseg) : (exists d, chord_dist o e = Ret d) /\ exists d, offset o e = Ret d.
Proof. destruct e as [[[ax ay] [bx by_]] [cx cy]]. split; cbn; eauto. Qed.
Definition moved (p p' : list pt) (v : nat) (d : pt) : Prop :=
  exists x, nth_error p v = Some x /\ p' = upd p v (padd o x d).
Lemma edge_moved p p' m a b d ea : length p = 2 * m -> a < m -> b < m -> a <> b -> moved p p' (m + a) d ->
  getEdgeQ p a = Ret ea -> getEdgeQ p' a = Ret (fst ea, padd o (snd ea) d) /\ getEdgeQ p' b = getEdgeQ p b.
Proof.
  intros Hl Ha Hb Hab (x & Hx & ->) E.
  assert (Hl' : length (upd p (m + a) (padd o x d)) = 2 * m) by now rewrite upd_length.
  pose proof (Nat.mod_upper_bound (a + 1) m ltac:(lia)). pose proof (Nat.mod_upper_bound (b + 1) m ltac:(lia)).
  destruct (edge_ok p m a Hl Ha) as (a0 & a1 & a2 & A0 & A1 & A2 & A3).
  destruct (edge_ok _ m a Hl' Ha) as (b0 & b1 & b2 & B0 & B1 & B2 & B3).
  rewrite nth_error_upd_neq in B0, B1 by lia. rewrite nth_error_upd_eq in B2 by lia.
  rewrite A0 in B0. rewrite A1 in B1. rewrite A2 in Hx. injection B0 as <-. injection B1 as <-. injection B2 as <-. injection Hx as <-.
  rewrite A3 in E. injection E as <-. split; [exact B3|].
  destruct (edge_ok p m b Hl Hb) as (c0 & c1 & c2 & C0 & C1 & C2 & C3).
  destruct (edge_ok _ m b Hl' Hb) as (d0 & d1 & d2 & D0 & D1 & D2 & D3).
  rewrite nth_error_upd_neq in D0, D1, D2 by lia. congruence.
Qed.
Lemma fix_ret dbg p m buf buf' r : length p = 2 * m -> m = 3 \/ m = 4 -> fixSelfIntersection dbg p buf = Ret (buf', r) ->
  length buf' = length buf /\
  exists i j h, compared m i j /\ eh p i j = Ret h /\ 1 < h /\
  exists a b ea eb da db d, (a = i /\ b = j \/ a = j /\ b = i) /\ getEdgeQ p a = Ret ea /\ getEdgeQ p b = Ret eb /\
    chord_dist o ea = Ret da /\ chord_dist o eb = Ret db /\ (a = i -> oltb o db da = false) /\ (a = j -> oltb o da db = true) /\
    offset o eb = Ret d /\
    match r with
    | None => 1 < length (hits levels (fst ea, padd o (snd ea) d) eb)
    | Some (p', vid) => vid = m + a /\ nth_error buf' 0 = Some d /\ moved p p' vid d /\
        exists h', eh p' a b = Ret h' /\ h' <= 1
    end.
Proof.
  intros Hl Hm. unfold QInt_Model.fixSelfIntersection. rewrite (half p m Hl). intros E.
  apply let_pair in E as (b1 & e & E1 & E). apply find_ret in E1 as [E1 L1].
  destruct (find_ok p m Hl Hm) as (r' & F1 & _ & F2). rewrite F1 in E1. injection E1 as ->.
  destruct e as [[i j]|]; [|discriminate]. destruct (F2 i j eq_refl) as (Hc & h & Eh & Hh).
  destruct (compared_lt m i j Hm Hc) as (Hi & Hj & Hij).
  apply bind_Ret in E as (ei & Ei & E). apply bind_Ret in E as (ej & Ej & E).
  apply bind_Ret in E as (di & Di & E). apply bind_Ret in E as (dj & Dj & E).
  assert (K : forall a b ea eb d, a < m -> b < m -> a <> b -> getEdgeQ p a = Ret ea -> getEdgeQ p b = Ret eb -> offset o eb = Ret d ->
    (let '(va, vb, vc) := ea in
     let* (buf, h) := intersect dbg levels (va, vb, padd o vc d) eb b1 0 in
     if 1 <? h then Ret (buf, None)
     else
       let vid := m + a in
       let* buf := wr buf 0 d in
       let* x := rd p vid in
       let* p := wr p vid (padd o x d) in
       Ret (buf, Some (p, vid))) = Ret (buf', r) ->
    length buf' = length b1 /\
    match r with
    | None => 1 < length (hits levels (fst ea, padd o (snd ea) d) eb)
    | Some (p', vid) => vid = m + a /\ nth_error buf' 0 = Some d /\ moved p p' vid d /\
        exists h', eh p' a b = Ret h' /\ h' <= 1
    end).
  { intros a b [[va vb] vc] eb d Ha Hb Hab Ea Eb Ed Ex. apply let_pair in Ex as (b2 & h2 & E2 & Ex).
    apply int0 in E2 as (-> & L2 & _). destruct (Nat.ltb_spec 1 (length (hits levels (va, vb, padd o vc d) eb))).
    - injection Ex as <- <-. split; [auto|assumption].
    - cbv zeta in Ex. apply bind_Ret in Ex as (b3 & E3 & Ex). apply bind_Ret in Ex as (x & E4 & Ex). apply bind_Ret in Ex as (p' & E5 & Ex).
      injection Ex as <- <-. apply wr_Ret in E3 as [L3 ->]. apply wr_Ret in E5 as [L5 ->]. apply rd_Ret in E4.
      rewrite upd_length. split; [auto|]. split; [auto|]. rewrite nth_error_upd_eq by lia. split; [auto|].
      assert (Hmv : moved p (upd p (m + a) (padd o x d)) (m + a) d) by (exists x; auto). split; [auto|].
      destruct (edge_moved _ _ m a b d _ Hl Ha Hb Hab Hmv Ea) as [M1 M2]. unfold eh. rewrite M1, M2, Eb. cbn [bind fst snd].
      eexists. split; [reflexivity|assumption]. }
  destruct (oltb o dj di) eqn:El; apply bind_Ret in E as (d & Ed & E).
  - destruct (K j i ej ei d Hj Hi ltac:(auto) Ej Ei Ed E) as [L2 K2]. split; [congruence|].
    exists i, j, h. split; [auto|split; [auto|split; [auto|]]].
    exists j, i, ej, ei, dj, di, d. split; [auto|]. split; [auto|]. split; [auto|]. split; [auto|]. split; [auto|].
    split; [intros ->; lia|]. auto.
  - destruct (K i j ei ej d Hi Hj ltac:(auto) Ei Ej Ed E) as [L2 K2]. split; [congruence|].
    exists i, j, h. split; [auto|split; [auto|split; [auto|]]].
    exists i, j, ei, ej, di, dj, d. split; [auto|]. split; [auto|]. split; [auto|]. split; [auto|]. split; [auto|].
    split; [auto|]. split; [intros ->; lia|]. auto.
Qed.
Lemma fix_room dbg p m buf : length p = 2 * m -> m = 3 \/ m = 4 -> cap dbg levels <= length buf -> selfp p = Ret true ->
  returns dbg (fixSelfIntersection dbg p buf).
Proof.
  intros Hl Hm Hcap Hs. unfold QInt_Model.fixSelfIntersection. rewrite (half p m Hl).
  destruct (find_ok p m Hl Hm) as (r' & F1 & F3 & F2). apply returns_pair; [eapply find_room; [lia|exact F1]|].
  intros b1 e E1. apply find_ret in E1 as [E1 L1]. rewrite F1 in E1. injection E1 as <-.
  destruct (F3 Hs) as (i & j & ->). destruct (F2 i j eq_refl) as (Hc & h & Eh & Hh).
  destruct (compared_lt m i j Hm Hc) as (Hi & Hj & Hij).
  destruct (edge_ok p m i Hl Hi) as (i0 & i1 & i2 & _ & _ & _ & ->). destruct (edge_ok p m j Hl Hj) as (j0 & j1 & j2 & _ & _ & _ & ->).
  cbn [bind]. destruct (chord_ok (i0, i1, i2)) as ((di & ->) & oi & Eoi). destruct (chord_ok (j0, j1, j2)) as ((dj & ->) & oj & Eoj).
  cbn [bind].
  assert (Hb0 : 0 < length b1). { rewrite L1. unfold levels, cap in Hcap. destruct dbg; cbn in Hcap; lia. }
  assert (K : forall a va vb vc eb d, a < m -> returns dbg (
     let* (buf, h) := intersect dbg levels (va, vb, padd o vc d) eb b1 0 in
     if 1 <? h then Ret (buf, @None (list pt * nat))
     else
       let vid := m + a in
       let* buf := wr buf 0 d in
       let* x := rd p vid in
       let* p := wr p vid (padd o x d) in
       Ret (buf, Some (p, vid)))).
  { intros a va vb vc eb d Ha. apply returns_pair; [apply int0_room; lia|]. intros b2 h2 E2. apply int0 in E2 as (_ & L2 & _).
    destruct (1 <? h2); [left; eauto|]. cbv zeta. rewrite wr_ok by lia. cbn [bind].
    destruct (nth_error p (m + a)) as [x|] eqn:Ex; [|apply nth_error_None in Ex; lia].
    rewrite (proj2 (rd_Ret _ _ _) Ex). cbn [bind]. rewrite wr_ok by lia. left. cbn. eauto. }
  destruct (oltb o dj di).
  - rewrite Eoi. apply K; auto.
  - rewrite Eoj. apply K; auto.
Qed.

(** * Meshes *)
Notation first_bad := (first_bad o eps).
Notation repair := (repair o eps).
Notation checkSelf := (checkSelfIntersections o eps).
Definition face_self (m : mesh T) (i : nat) (r : bool) : Prop := exists p, getFace m i = Ret p /\ selfp p = Ret r.
Lemma first_bad_none dbg n : forall i m buf buf', first_bad dbg n i m buf = Ret (buf', None) ->
  forall j, i <= j < i + n -> face_self m j false.
Proof.
  induction n as [|n IH]; intros i m buf buf' E j Hj; cbn [QInt_Model.first_bad] in E; [lia|].
  apply bind_Ret in E as (p & E1 & E). apply let_pair in E as (b & h & E2 & E). apply self_ret in E2 as [E2 _].
  destruct h; [discriminate|]. destruct (Nat.eq_dec j i) as [->|]; [exists p; auto|]. apply (IH _ _ _ _ E). lia.
Qed.
Lemma first_bad_some dbg n : forall i m buf buf' j, first_bad dbg n i m buf = Ret (buf', Some j) ->
  i <= j < i + n /\ face_self m j true.
Proof.
  induction n as [|n IH]; intros i m buf buf' j E; cbn [QInt_Model.first_bad] in E; [discriminate|].
  apply bind_Ret in E as (p & E1 & E). apply let_pair in E as (b & h & E2 & E). apply self_ret in E2 as [E2 _].
  destruct h; [injection E as <- <-; split; [lia|exists p; auto]|]. apply IH in E as [? ?]. split; [lia|auto].
Qed.
Lemma first_bad_len dbg n : forall i m buf buf' r, first_bad dbg n i m buf = Ret (buf', r) -> length buf' = length buf.
Proof.
  induction n as [|n IH]; intros i m buf buf' r E; cbn [QInt_Model.first_bad] in E; [injection E as <- <-; auto|].
  apply bind_Ret in E as (p & E1 & E). apply let_pair in E as (b & h & E2 & E). apply self_ret in E2 as [E2 L].
  destruct h; [injection E as <- <-; auto|]. apply IH in E. congruence.
Qed.
Lemma first_bad_clean dbg n : forall i m buf, cap dbg levels <= length buf -> (forall j, i <= j < i + n -> face_self m j false) ->
  returns dbg (first_bad dbg n i m buf) /\ forall buf' r, first_bad dbg n i m buf = Ret (buf', r) -> r = None.
Proof.
  induction n as [|n IH]; intros i m buf Hc Hf; cbn [QInt_Model.first_bad].
  { split; [left; eauto|]. intros buf' r E. now injection E as _ <-. }
  destruct (Hf i ltac:(lia)) as (p & E1 & E2). rewrite E1. cbn [bind].
  destruct (self_room dbg p buf false Hc E2) as [[[b h] E]|[-> E]]; rewrite E; cbn [bind].
  - apply self_ret in E as [E L]. rewrite E2 in E. injection E as <-. apply IH; [lia|]. intros j Hj. apply Hf. lia.
  - split; [right; auto|discriminate].
Qed.
Lemma face_conn (m : mesh T) i p : getFace m i = Ret p -> exists c, nth_error (fv m) i = Some c /\ length c = length p.
Proof.
  unfold getFace. intros E. apply bind_Ret in E as (c & E1 & E). apply rd_Ret in E1. exists c. split; [auto|].
  revert p E. clear. induction c as [|v c IH]; intros p E; cbn in E; [injection E as <-; auto|].
  apply bind_Ret in E as (x & _ & E). apply bind_Ret in E as (l & E & E'). injection E' as <-. cbn. f_equal. auto.
Qed.
(** what one repair, and a run of them, may change *)
Lemma repair_ret dbg k m i buf buf' m' : (forall c, In c (fv m) -> length c = nverts k) -> quadratic k = true ->
  repair dbg m i buf = Ret (buf', m') ->
  same_but_mids k m m' /\
  exists b b', mesh_box o m = Ret b /\ mesh_box o m' = Ret b' /\ box_approx o eps b b' = Ret true.
Proof.
  intros Hk Hq. unfold QInt_Model.repair. intros E. apply bind_Ret in E as (bb & Eb & E). apply bind_Ret in E as (p & Ep & E).
  apply let_pair in E as (b1 & r & Ef & E). destruct r as [[p' vid]|]; [|discriminate].
  destruct (face_conn m i p Ep) as (c & Ec & Lc). assert (Hc := Hk c (nth_error_In _ _ Ec)).
  assert (Hlp : exists h, length p = 2 * h /\ (h = 3 \/ h = 4) /\ h = nedges k).
  { exists (nedges k). rewrite <- Lc, Hc. destruct k; try discriminate; cbn; lia. }
  destruct Hlp as (h & Hl & Hh & Hhk).
  destruct (fix_ret dbg p h buf b1 _ Hl Hh Ef) as (_ & i0 & j0 & h0 & Hcmp & _ & _ & a & b & ea & eb & da & db & d & Hab & _ & _ & _ & _ & _ & _ & _ & -> & Ebuf & _).
  destruct (compared_lt h i0 j0 Hh Hcmp) as (? & ? & ?).
  apply bind_Ret in E as (c' & Ec' & E). apply rd_Ret in Ec'. rewrite Ec in Ec'. injection Ec' as <-.
  apply bind_Ret in E as (v & Ev & E). apply rd_Ret in Ev.
  apply bind_Ret in E as (d' & Ed' & E). apply bind_Ret in E as (m1 & Em & E).
  apply bind_Ret in E as (bb' & Eb' & E). apply bind_Ret in E as (ok & Eok & E). destruct ok; [|discriminate].
  injection E as <- <-. unfold move_vertex in Em. apply bind_Ret in Em as (x & Ex & Em). apply bind_Ret in Em as (vs & Evs & Em).
  injection Em as <-. split; [|exists bb, bb'; auto].
  unfold wrz in Evs. destruct (Z.ltb_spec v 0); [discriminate|]. apply wr_Ret in Evs as [Lv ->].
  unfold same_but_mids. cbn [fv is_morton has_vf vf_offs vf mv]. repeat (split; [reflexivity|]). split; [now rewrite upd_length|].
  intros w Hw. apply nth_error_upd_neq. intros <-. apply (Hw c (h + a)); [eapply nth_error_In; eauto|rewrite <- Hhk; lia|].
  rewrite Z2Nat.id by lia. exact Ev.
Qed.
Lemma same_refl k (m : mesh T) : same_but_mids k m m.
Proof. unfold same_but_mids. repeat split; auto. Qed.
Lemma same_trans k (m1 m2 m3 : mesh T) : same_but_mids k m1 m2 -> same_but_mids k m2 m3 -> same_but_mids k m1 m3.
Proof.
  unfold same_but_mids. intros (A1 & A2 & A3 & A4 & A5 & A6 & A7) (B1 & B2 & B3 & B4 & B5 & B6 & B7).
  repeat (split; [congruence|]). intros v Hv. rewrite B7; [apply A7; auto|]. rewrite A1. exact Hv.
Qed.
Lemma check_ret dbg fuel k : quadratic k = true -> forall buf m m', (forall c, In c (fv m) -> length c = nverts k) ->
  checkSelf dbg fuel buf m = Ret m' ->
  same_but_mids k m m' /\ (forall i, i < length (fv m) -> face_self m' i false) /\
  (m' = m \/ exists i, i < length (fv m) /\ face_self m i true).
Proof.
  intros Hq. induction fuel as [|fuel IH]; intros buf m m' Hk E; cbn [checkSelfIntersections] in E; [discriminate|].
  apply let_pair in E as (b & r & E1 & E). destruct r as [i|].
  - apply first_bad_some in E1 as [Hi Hs]. apply let_pair in E as (b2 & m2 & E2 & E).
    apply (repair_ret dbg k) in E2 as [S2 _]; [|auto|auto]. assert (Ef : fv m2 = fv m) by apply S2.
    apply IH in E as (S3 & F3 & _); [|now rewrite Ef]. split; [exact (same_trans k _ _ _ S2 S3)|]. rewrite Ef in F3. split; [auto|].
    right. exists i. split; [lia|auto].
  - injection E as <-. split; [apply same_refl|]. split; [|auto]. intros i Hi. apply (first_bad_none _ _ _ _ _ _ E1). lia.
Qed.
Lemma check_clean dbg fuel buf m : cap dbg levels <= length buf -> (forall i, i < length (fv m) -> face_self m i false) ->
  returns dbg (checkSelf dbg (S fuel) buf m) /\ (forall m', checkSelf dbg (S fuel) buf m = Ret m' -> m' = m).
Proof.
  intros Hc Hf. cbn [checkSelfIntersections].
  destruct (first_bad_clean dbg (length (fv m)) 0 m buf Hc ltac:(intros; apply Hf; lia)) as [H1 H2].
  destruct H1 as [[[b r] E]|[-> E]]; rewrite E; cbn [bind].
  - rewrite (H2 _ _ E). split; [left; eauto|]. now injection 1.
  - split; [right; auto|discriminate].
Qed.
Lemma face_self_iff m i r p : getFace m i = Ret p -> face_self m i r -> selfp p = Ret r.
Proof. intros E (p' & E' & H). rewrite E in E'. injection E' as <-. exact H. Qed.
End Gen.
