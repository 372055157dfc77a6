(** The edges of a mesh of rings around a centre. *)
From Coq Require Import List Arith ZArith Bool Lia Sorting.Permutation.
From Verif Require Import Base Fill Fvm_Model Fvm_Spec Manifold_Spec Manifold_Proofs.
Import ListNotations.

(** * Meshes whose directed edges are distinct *)
Lemma reverse_invol {A} (e : list A) : reverse_edge (reverse_edge e) = e.
Proof. now destruct e as [|a [|b r]]. Qed.
Definition is_edge (e y : list Z) : bool := if edge_dec e y then true else false.
Lemma is_edge_iff e y : is_edge e y = true <-> y = e.
Proof. unfold is_edge. destruct (edge_dec e y); intuition congruence. Qed.
Lemma uses_split l e : e <> reverse_edge e -> uses l e = length (filter (is_edge e) l) + length (filter (is_edge (reverse_edge e)) l).
Proof.
  intros N. unfold uses. induction l as [|y l IH]; auto. cbn [filter]. unfold same_edge at 1.
  change (is_edge e y) with (if edge_dec e y then true else false).
  change (is_edge (reverse_edge e) y) with (if edge_dec (reverse_edge e) y then true else false).
  assert (R : e = reverse_edge y <-> reverse_edge e = y).
  { split; intros E; [rewrite E; apply reverse_invol|rewrite <- E; symmetry; apply reverse_invol]. }
  destruct (edge_dec e y) as [E|E], (edge_dec e (reverse_edge y)) as [E'|E'], (edge_dec (reverse_edge e) y) as [E2|E2];
    try tauto; cbn [length]; rewrite ?IH; try lia.
  all: congruence.
Qed.
Lemma filter_edge l e : NoDup l -> length (filter (is_edge e) l) = if in_dec edge_dec e l then 1 else 0.
Proof.
  induction l as [|y l IH]; intros N; auto. inversion N as [|? ? N1 N2]; subst. cbn [filter].
  destruct (is_edge e y) eqn:E.
  - apply is_edge_iff in E. subst. cbn [length]. rewrite IH by auto. destruct (in_dec edge_dec e l); [contradiction|].
    destruct (in_dec edge_dec e (e :: l)) as [_|H]; auto. exfalso. apply H. now left.
  - assert (y <> e) by (intros H; apply is_edge_iff in H; congruence). rewrite IH by auto.
    destruct (in_dec edge_dec e l) as [I|I], (in_dec edge_dec e (y :: l)) as [J|J]; auto.
    + exfalso. apply J. now right.
    + destruct J; contradiction.
Qed.
Section Simple.
Variable es : list (list Z).
Hypothesis N : NoDup es.
Hypothesis Hrev : forall e, In e es -> e <> reverse_edge e.
Lemma simple_uses e : In e es -> uses es e = 1 + (if in_dec edge_dec (reverse_edge e) es then 1 else 0).
Proof.
  intros H. rewrite uses_split, !filter_edge by auto. now destruct (in_dec edge_dec e es).
Qed.
Lemma simple_watertight l : closed_loop l -> (forall e, In e l <-> In e es /\ ~ In (reverse_edge e) es) -> watertight es.
Proof.
  intros L B. split.
  - intros e He. rewrite simple_uses by auto. destruct (in_dec _ _ _); lia.
  - exists l. split; [|auto]. apply NoDup_Permutation.
    + unfold boundary_of. now apply NoDup_filter.
    + destruct L as (s & t & E & _ & M). rewrite <- E in M. exact (NoDup_map_inv _ _ M).
    + intros e. rewrite B. unfold boundary_of. rewrite filter_In, Nat.eqb_eq. split; intros [H H']; (split; [auto|]).
      * intros I. rewrite simple_uses in H' by auto. destruct (in_dec _ _ _); [discriminate|contradiction].
      * rewrite simple_uses by auto. destruct (in_dec _ _ _); [contradiction|auto].
Qed.
End Simple.

(** * Rings around a centre *)
Inductive vx := Ctr | Tr (i : nat) | Qv (r a : nat).
Inductive fc := F0 (i : nat) | F1 (i : nat) | FR (r a : nat).
Section Rings.
Variables n2 nr : nat.
Notation na := (2 * n2).
Hypothesis Hn : 2 <= n2.
Definition nxt (a : nat) : nat := if S a =? na then 0 else S a.
Definition fedges (f : fc) : list (vx * vx) :=
  match f with
  | F0 i => [(Ctr, Qv 0 (2 * i)); (Qv 0 (2 * i), Qv 0 (2 * i + 1)); (Qv 0 (2 * i + 1), Tr i); (Tr i, Ctr)]
  | F1 i => [(Ctr, Tr i); (Tr i, Qv 0 (2 * i + 1)); (Qv 0 (2 * i + 1), Qv 0 (nxt (2 * i + 1))); (Qv 0 (nxt (2 * i + 1)), Ctr)]
  | FR r a => [(Qv (r - 1) a, Qv r a); (Qv r a, Qv r (nxt a)); (Qv r (nxt a), Qv (r - 1) (nxt a)); (Qv (r - 1) (nxt a), Qv (r - 1) a)]
  end.
Definition flist : list fc :=
  concat (map (fun i => [F0 i; F1 i]) (seq 0 n2)) ++ concat (map (fun r => map (fun a => FR r a) (seq 0 na)) (seq 1 nr)).
Definition fok (f : fc) : Prop :=
  match f with F0 i => i < n2 | F1 i => i < n2 | FR r a => 1 <= r <= nr /\ a < na end.
Definition vok (v : vx) : Prop := match v with Ctr => True | Tr i => i < n2 | Qv r a => r <= nr /\ a < na end.
Lemma flist_in f : In f flist <-> fok f.
Proof.
  unfold flist. rewrite in_app_iff, !in_concat. split.
  - intros [(l & Hl & H)|(l & Hl & H)]; apply in_map_iff in Hl as (x & <- & Hx); apply in_seq in Hx.
    + destruct H as [<-|[<-|[]]]; cbn; lia.
    + apply in_map_iff in H as (a & <- & Ha). apply in_seq in Ha. cbn [fok]. lia.
  - destruct f as [i|i|r a]; cbn [fok]; intros H.
    + left. exists [F0 i; F1 i]. split; [apply in_map_iff; exists i; rewrite in_seq; auto with arith|now left].
    + left. exists [F0 i; F1 i]. split; [apply in_map_iff; exists i; rewrite in_seq; auto with arith|right; now left].
    + right. exists (map (fun a => FR r a) (seq 0 na)). split; [apply in_map_iff; exists r; rewrite in_seq; split; [auto|lia]|].
      apply in_map_iff. exists a. rewrite in_seq. split; [auto|lia].
Qed.
Lemma NoDup_app2 {A} (l k : list A) : NoDup l -> NoDup k -> (forall x, In x l -> In x k -> False) -> NoDup (l ++ k).
Proof.
  induction l as [|x l IH]; intros N1 N2 D; cbn; auto. inversion N1; subst. constructor.
  - rewrite in_app_iff. intros [H|H]; [contradiction|]. apply (D x); [now left|auto].
  - apply IH; auto. intros y Hy. apply D. now right.
Qed.
Lemma flist_nodup : NoDup flist.
Proof.
  unfold flist. apply NoDup_app2.
  - apply NoDup_concat_map; [apply seq_NoDup| |].
    + intros i _. repeat constructor; cbn; intuition congruence.
    + intros i j f _ _ [<-|[<-|[]]] [E|[E|[]]]; congruence.
  - apply NoDup_concat_map; [apply seq_NoDup| |].
    + intros r _. apply FinFun.Injective_map_NoDup; [|apply seq_NoDup]. intros a b E. congruence.
    + intros r s f _ _ H1 H2. apply in_map_iff in H1 as (a & <- & _), H2 as (b & E & _). congruence.
  - intros f H1 H2. apply in_concat in H1 as (l & H1 & F1'), H2 as (k & H2 & F2').
    apply in_map_iff in H1 as (i & <- & _), H2 as (r & <- & _). apply in_map_iff in F2' as (a & <- & _).
    destruct F1' as [E|[E|[]]]; discriminate.
Qed.
Definition vedges : list (vx * vx) := concat (map fedges flist).
Lemma nxt_lt a : a < na -> nxt a < na.
Proof. unfold nxt. destruct (Nat.eqb_spec (S a) na); lia. Qed.
Lemma nxt_inj a b : a < na -> b < na -> nxt a = nxt b -> a = b.
Proof. unfold nxt. destruct (Nat.eqb_spec (S a) na), (Nat.eqb_spec (S b) na); lia. Qed.
Lemma nxt_neq a : a < na -> nxt a <> a.
Proof. unfold nxt. destruct (Nat.eqb_spec (S a) na); lia. Qed.
Lemma nxt_nxt a b : a < na -> nxt a = b -> nxt b = a -> False.
Proof. unfold nxt. intros H <-. destruct (Nat.eqb_spec (S a) na); match goal with |- context [Nat.eqb ?x ?y] => destruct (Nat.eqb_spec x y) end; lia. Qed.
Lemma nxt_even i : i < n2 -> nxt (2 * i) = 2 * i + 1.
Proof. intros H. unfold nxt. destruct (Nat.eqb_spec (S (2 * i)) na); lia. Qed.
Lemma nxt_odd i : i < n2 -> exists j, j < n2 /\ nxt (2 * i + 1) = 2 * j.
Proof.
  intros H. unfold nxt. destruct (Nat.eqb_spec (S (2 * i + 1)) na); [exists 0; lia|exists (i + 1); lia].
Qed.
Lemma nxt_surj a : a < na -> exists b, b < na /\ nxt b = a.
Proof.
  intros H. destruct a as [|a]; [exists (na - 1)|exists a]; unfold nxt.
  - destruct (Nat.eqb_spec (S (na - 1)) na); lia.
  - destruct (Nat.eqb_spec (S a) na); lia.
Qed.
Ltac inj := repeat match goal with
  | H : (_, _) = (_, _) |- _ => injection H; clear H; intros
  | H : Qv _ _ = Qv _ _ |- _ => injection H; clear H; intros
  | H : Tr _ = Tr _ |- _ => injection H; clear H; intros
  end.
Ltac nx := unfold nxt in *; repeat match goal with
  | H : context [Nat.eqb ?x ?y] |- _ => destruct (Nat.eqb_spec x y)
  | |- context [Nat.eqb ?x ?y] => destruct (Nat.eqb_spec x y) end; try lia.
Lemma fedges_disjoint f g e : fok f -> fok g -> In e (fedges f) -> In e (fedges g) -> f = g.
Proof.
  intros Hf Hg H1 H2.
  destruct f as [i|i|r a], g as [j|j|s b]; cbn [fedges In fok] in *;
    destruct H1 as [<-|[<-|[<-|[<-|[]]]]]; destruct H2 as [E|[E|[E|[E|[]]]]]; try discriminate; inj; subst; try f_equal; nx.
Qed.
Lemma fedges_nodup f : fok f -> NoDup (fedges f).
Proof.
  destruct f as [i|i|r a]; cbn [fedges fok]; intros H; repeat constructor; cbn [In]; intros X;
    repeat (destruct X as [X|X]); try exact X; try discriminate; inj; nx.
Qed.
Lemma vedges_nodup : NoDup vedges.
Proof.
  apply NoDup_concat_map; [apply flist_nodup| |].
  - intros f Hf. apply fedges_nodup. now apply flist_in.
  - intros f g e Hf Hg. apply fedges_disjoint; now apply flist_in.
Qed.
Lemma vedges_in e : In e vedges <-> exists f, fok f /\ In e (fedges f).
Proof.
  unfold vedges. rewrite in_concat. split.
  - intros (l & Hl & He). apply in_map_iff in Hl as (f & <- & Hf). apply flist_in in Hf. eauto.
  - intros (f & Hf & He). exists (fedges f). split; auto. apply in_map. now apply flist_in.
Qed.
Definition swap {A} (e : A * A) : A * A := (snd e, fst e).
Lemma vedges_ok u v : In (u, v) vedges -> vok u /\ vok v /\ u <> v.
Proof.
  intros H. apply vedges_in in H as (f & Hf & H). destruct f as [i|i|r a]; cbn [fedges fok In] in *;
    destruct H as [H|[H|[H|[H|[]]]]]; injection H as <- <-; cbn [vok]; (split; [|split]); try exact I; try discriminate; try (split; nx); try lia;
    intros E; inj; nx.
Qed.
(** an edge has a partner unless it is on the outermost ring *)
Lemma vedges_swap e : In e vedges -> (In (swap e) vedges <-> ~ exists a, a < na /\ e = (Qv nr a, Qv nr (nxt a))).
Proof.
  intros H. split.
  - intros H' (a & Ha & ->). unfold swap in H'. cbn [fst snd] in H'. apply vedges_in in H' as (f & Hf & H').
    destruct f as [i|i|r b]; cbn [fedges fok In] in *; destruct H' as [E|[E|[E|[E|[]]]]]; try discriminate; inj; subst; nx.
  - intros X. apply vedges_in in H as (f & Hf & H). rewrite vedges_in.
    assert (R0 : forall a, a < na -> nr <> 0 -> exists f, fok f /\ In (Qv 0 (nxt a), Qv 0 a) (fedges f)).
    { intros a Ha Hr. exists (FR 1 a). cbn [fok fedges]. split; [lia|]. cbn. auto. }
    destruct f as [i|i|r a]; cbn [fok fedges In] in *; destruct H as [<-|[<-|[<-|[<-|[]]]]]; cbn [swap fst snd].
    + assert (Hk : exists j, j < n2 /\ nxt (2 * j + 1) = 2 * i).
      { destruct i as [|i]; [exists (n2 - 1)|exists i]; (split; [lia|]); unfold nxt.
        - destruct (Nat.eqb_spec (S (2 * (n2 - 1) + 1)) na); lia.
        - destruct (Nat.eqb_spec (S (2 * i + 1)) na); lia. }
      destruct Hk as (j & Hj & E). exists (F1 j). cbn [fok fedges In]. rewrite E. auto 10.
    + assert (Hr : nr <> 0). { intros ->. apply X. exists (2 * i). rewrite nxt_even by auto. split; [lia|auto]. }
      rewrite <- nxt_even by auto. apply R0; [lia|auto].
    + exists (F1 i). cbn [fok fedges In]. auto 10.
    + exists (F1 i). cbn [fok fedges In]. auto 10.
    + exists (F0 i). cbn [fok fedges In]. auto 10.
    + exists (F0 i). cbn [fok fedges In]. auto 10.
    + assert (Hr : nr <> 0). { intros ->. apply X. exists (2 * i + 1). split; [lia|auto]. } apply R0; [lia|auto].
    + destruct (nxt_odd i Hf) as (j & Hj & E). exists (F0 j). cbn [fok fedges In]. rewrite E. auto 10.
    + destruct (nxt_surj a ltac:(lia)) as (b & Hb & <-). exists (FR r b). cbn [fok fedges In]. split; [lia|auto 10].
    + assert (Hr : r <> nr). { intros ->. apply X. exists a. split; [lia|auto]. }
      exists (FR (S r) a). cbn [fok fedges In]. replace (S r - 1) with r by lia. split; [lia|auto 10].
    + exists (FR r (nxt a)). cbn [fok fedges In]. split; [split; [lia|nx]|auto 10].
    + destruct (Nat.eq_dec r 1) as [->|Hr].
      * cbn [Nat.sub]. destruct (Nat.Even_or_Odd a) as [(i & Ei)|(i & Ei)].
        -- exists (F0 i). cbn [fok fedges In]. subst a. rewrite nxt_even by lia. split; [lia|auto 10].
        -- exists (F1 i). cbn [fok fedges In]. subst a. split; [lia|auto 10].
      * exists (FR (r - 1) a). cbn [fok fedges In]. split; [lia|auto 10].
Qed.
Lemma outer_in a : a < na -> In (Qv nr a, Qv nr (nxt a)) vedges.
Proof.
  intros H. apply vedges_in. destruct (Nat.eq_dec nr 0) as [->|Hr].
  - destruct (Nat.Even_or_Odd a) as [(i & Ei)|(i & Ei)]; subst a.
    + exists (F0 i). cbn [fok fedges In]. rewrite nxt_even by lia. split; [lia|auto 10].
    + exists (F1 i). cbn [fok fedges In]. split; [lia|auto 10].
  - exists (FR nr a). cbn [fok fedges In]. split; [lia|auto 10].
Qed.

(** * Numbered vertices *)
Variable id : vx -> Z.
Hypothesis id_inj : forall u v, vok u -> vok v -> id u = id v -> u = v.
(** the mid-edge vertices *)
Variable mid : vx * vx -> list Z.
Hypothesis mid_sym : forall e, In e vedges -> mid (swap e) = mid e.
Definition ide (e : vx * vx) : list Z := id (fst e) :: id (snd e) :: mid e.
Definition ies : list (list Z) := map ide vedges.
Lemma ide_inj e f : In e vedges -> In f vedges -> ide e = ide f -> e = f.
Proof.
  intros He Hf E. destruct e as [u v], f as [x y]. apply vedges_ok in He as (Hu & Hv & _), Hf as (Hx & Hy & _).
  unfold ide in E. cbn [fst snd] in E. injection E as E1 E2 _. f_equal; apply id_inj; auto.
Qed.
Lemma ies_nodup : NoDup ies.
Proof.
  unfold ies. assert (X : forall l, incl l vedges -> NoDup l -> NoDup (map ide l)); [|apply X; [apply incl_refl|apply vedges_nodup]].
  induction l as [|e l IH]; intros I N; cbn; constructor; inversion N; subst.
  - intros H. apply in_map_iff in H as (f & E & Hf). apply ide_inj in E; [subst; contradiction|apply I; now right|apply I; now left].
  - apply IH; auto. intros f Hf. apply I. now right.
Qed.
Lemma ide_swap e : In e vedges -> reverse_edge (ide e) = ide (swap e).
Proof. intros H. unfold ide. cbn. now rewrite mid_sym. Qed.
Lemma ies_rev e : In e vedges -> (In (reverse_edge (ide e)) ies <-> ~ exists a, a < na /\ e = (Qv nr a, Qv nr (nxt a))).
Proof.
  intros H. rewrite <- vedges_swap by auto. rewrite ide_swap by auto. unfold ies. split; intros X.
  - apply in_map_iff in X as (f & E & Hf). destruct e as [u v], f as [x y]. unfold ide in E. cbn in E. injection E as E1 E2 _.
    apply vedges_ok in H as (Hu & Hv & _). assert (Hf' := Hf). apply vedges_ok in Hf' as (Hx & Hy & _). cbn.
    apply id_inj in E1, E2; auto. subst. auto.
  - now apply in_map.
Qed.
Definition rim : list (list Z) := map (fun a => ide (Qv nr a, Qv nr (nxt a))) (seq 0 na).
Lemma rim_closed : closed_loop rim.
Proof.
  exists (id (Qv nr 0)), (map (fun a => id (Qv nr a)) (seq 1 (na - 1))). unfold rim. rewrite !map_map. cbn [ide start_of end_of nth fst snd].
  split; [|split].
  - replace na with (S (na - 1)) at 1 by lia. reflexivity.
  - replace na with (na - 1 + 1) at 1 by lia. rewrite seq_app, map_app, <- seq_shift, map_map. cbn [seq map Nat.add]. f_equal.
    + apply map_ext_in. intros a Ha. apply in_seq in Ha. unfold nxt. destruct (Nat.eqb_spec (S a) na); [lia|auto].
    + f_equal. f_equal. f_equal. unfold nxt. destruct (Nat.eqb_spec (S (na - 1)) na); lia.
  - change (id (Qv nr 0) :: map (fun a => id (Qv nr a)) (seq 1 (na - 1))) with (map (fun a => id (Qv nr a)) (seq 0 (S (na - 1)))).
    replace (S (na - 1)) with na by lia.
    assert (X : forall l, (forall a, In a l -> a < na) -> NoDup l -> NoDup (map (fun a => id (Qv nr a)) l)).
    { induction l as [|a l IH]; intros B N; cbn; constructor; inversion N; subst.
      - intros H. apply in_map_iff in H as (b & E & Hb). apply id_inj in E; [|cbn; split; [lia|apply B; now right]|cbn; split; [lia|apply B; now left]].
        injection E as ->. contradiction.
      - apply IH; auto. intros; apply B; now right. }
    apply X; [|apply seq_NoDup]. intros a Ha. apply in_seq in Ha. lia.
Qed.
Lemma ies_watertight : watertight ies.
Proof.
  apply (simple_watertight ies ies_nodup) with (l := rim).
  - intros e He. apply in_map_iff in He as ((u & v) & <- & H). apply vedges_ok in H as (Hu & Hv & N). cbn. intros E. injection E as E _.
    apply N. apply id_inj; auto.
  - exact rim_closed.
  - intros e. unfold rim. rewrite in_map_iff. split.
    + intros (a & <- & Ha). apply in_seq in Ha. assert (I := outer_in a ltac:(lia)). split; [now apply in_map|].
      rewrite ies_rev by auto. intros X. apply X. exists a. split; [lia|auto].
    + intros [H X]. apply in_map_iff in H as (f & <- & Hf). rewrite ies_rev in X by auto.
      assert (Y : exists a, a < na /\ f = (Qv nr a, Qv nr (nxt a))).
      { destruct f as [[|i|r a] [|j|s b]]; try (exfalso; apply X; intros (c & _ & Hc); discriminate).
        destruct (Nat.eq_dec r nr) as [->|Hr]; [|exfalso; apply X; intros (c & _ & Hc); congruence].
        destruct (Nat.eq_dec s nr) as [->|Hs]; [|exfalso; apply X; intros (c & _ & Hc); congruence].
        destruct (Nat.eq_dec b (nxt a)) as [->|Hb]; [|exfalso; apply X; intros (c & _ & Hc); congruence].
        exists a. split; auto. apply vedges_ok in Hf. cbn in Hf. lia. }
      destruct Y as (a & Ha & ->). exists a. split; auto. apply in_seq. lia.
Qed.
End Rings.
