(** Proofs for adding pins. *)
From Coq Require Import String Reals.
From Coq Require Import List Arith ZArith Lia Lra Bool Sorted.
From Verif Require Import Base Loops Grid_Model Grid_Spec Grid_Proofs.
From Verif Require Import Groups_Model Groups_Spec Groups_List_Proofs Groups_Ops_Proofs Groups_Hier_Proofs Groups_Proofs.
From Verif Require Import Pins_Model Pins_Spec.
Import ListNotations.
Open Scope Z_scope.

(** * The geometry kernel *)
Lemma lookup_cons {A} k k' (a : A) l : lookup k ((k', a) :: l) = if k' =? k then Some a else lookup k l.
Proof. unfold lookup. cbn. now destruct (k' =? k). Qed.
Lemma lookup_in {A} k (a : A) l : lookup k l = Some a -> In (k, a) l.
Proof.
  unfold lookup. destruct (find _ l) as [[k' a']|] eqn:F; [|discriminate]. cbn. intros [= <-].
  apply find_some in F as (Hi & E). cbn in E. apply Z.eqb_eq in E. now subst.
Qed.

(** [o'] has everything of [o]; the boundaries of the new surfaces are circles above [c0]. *)
Record ext (c0 : Z) (o o' : occ) : Prop := {
  x_c : n_curves o <= n_curves o';
  x_l : n_loops o <= n_loops o';
  x_s : n_surfs o <= n_surfs o';
  x_lc : forall k, k <= n_curves o -> lookup k (o_circles o') = lookup k (o_circles o);
  x_ll : forall k, k <= n_loops o -> lookup k (o_loops o') = lookup k (o_loops o);
  x_ls : forall k, k <= n_surfs o -> lookup k (o_surfs o') = lookup k (o_surfs o);
  x_ents : forall d, In d (ents (geo (o_gm o'))) <->
     In d (ents (geo (o_gm o))) \/ exists s, n_surfs o < s <= n_surfs o' /\ d = (2, s);
  x_down : forall d, ~ (exists s, n_surfs o < s <= n_surfs o' /\ d = (2, s)) ->
     down (geo (o_gm o')) d = down (geo (o_gm o)) d;
  x_new : forall s y, n_surfs o < s <= n_surfs o' -> In y (down (geo (o_gm o')) (2, s)) ->
     fst y = 1 /\ c0 < snd y }.

Lemma ext_refl c0 o : ext c0 o o.
Proof.
  constructor; try lia; auto.
  intros d. split; auto. intros [H|(s & H & _)]; auto; lia.
Qed.
Lemma ext_trans c0 o o' o'' : ext c0 o o' -> ext c0 o' o'' -> ext c0 o o''.
Proof.
  intros [A1 A2 A3 A4 A5 A6 A7 A8 A9] [B1 B2 B3 B4 B5 B6 B7 B8 B9]. constructor; try lia.
  - intros k Hk. rewrite B4 by lia. auto.
  - intros k Hk. rewrite B5 by lia. auto.
  - intros k Hk. rewrite B6 by lia. auto.
  - intros d. rewrite B7, A7. split.
    + intros [[H|(s & Hs & ->)]|(s & Hs & ->)]; auto; right; exists s; split; auto; lia.
    + intros [H|(s & Hs & ->)]; auto. destruct (Z_le_dec s (n_surfs o')).
      * left. right. exists s. split; auto. lia.
      * right. exists s. split; auto. lia.
  - intros d Hd. rewrite B8, A8; auto; intros (s & Hs & ->); apply Hd; exists s; split; auto; lia.
  - intros s y Hs Hy. destruct (Z_le_dec s (n_surfs o')) as [L|L].
    + rewrite B8 in Hy; [apply (A9 s); auto; lia|]. intros (s' & Hs' & E). injection E as <-. lia.
    + apply (B9 s); auto. lia.
Qed.
Lemma ext_weaken c0 c1 o o' : c0 <= c1 -> ext c1 o o' -> ext c0 o o'.
Proof.
  intros L [A1 A2 A3 A4 A5 A6 A7 A8 A9]. constructor; auto.
  intros s y Hs Hy. destruct (A9 s y Hs Hy). split; auto. lia.
Qed.
Lemma bounded_ext c0 o o' s cs : counted o -> ext c0 o o' -> s <= n_surfs o -> bounded_by o s cs -> bounded_by o' s cs.
Proof.
  intros (K1 & K2 & K3) X Hs (ls & E & F). exists ls. split; [now rewrite (x_ls _ _ _ X)|].
  clear E. induction F as [|l c ls' cs' (k & H1 & H2) F IH]; constructor; auto.
  exists k. split.
  - rewrite (x_ll _ _ _ X); auto. eapply K2. apply lookup_in. eauto.
  - rewrite (x_lc _ _ _ X); auto. eapply K1. apply lookup_in. eauto.
Qed.

(** Groups and colours are the same. *)
Definition same (o o' : occ) : Prop :=
  groups (o_gm o') = groups (o_gm o) /\ paint (geo (o_gm o')) = paint (geo (o_gm o)).

Lemma circle_ok c0 o x y r o' c : counted o -> add_circle o x y r = (o', c) ->
  ext c0 o o' /\ counted o' /\ same o o' /\ c = n_curves o + 1 /\ n_curves o' = n_curves o + 1 /\
  n_surfs o' = n_surfs o /\ lookup c (o_circles o') = Some (mkC x y r).
Proof.
  intros (K1 & K2 & K3) [= <- <-]. split; [|split; [|split; [split; reflexivity|]]].
  - constructor; cbn; auto; try lia.
    + intros k Hk. rewrite lookup_cons. destruct (Z.eqb_spec (n_curves o + 1) k); auto; lia.
    + intros d. split; auto. intros [H|(s & H & _)]; auto; lia.
  - split; [|split]; cbn; eauto. intros k c' [H|H]; [injection H as <- _; lia|].
    apply K1 in H. lia.
  - cbn. do 3 (split; [reflexivity|]). rewrite lookup_cons, Z.eqb_refl. reflexivity.
Qed.
Lemma loop_ok c0 o c o' l : counted o -> add_loop o c = (o', l) ->
  ext c0 o o' /\ counted o' /\ same o o' /\ l = n_loops o + 1 /\ n_loops o' = n_loops o + 1 /\
  n_curves o' = n_curves o /\
  n_surfs o' = n_surfs o /\ lookup l (o_loops o') = Some c.
Proof.
  intros (K1 & K2 & K3) [= <- <-]. split; [|split; [|split; [split; reflexivity|]]].
  - constructor; cbn; auto; try lia.
    + intros k Hk. rewrite lookup_cons. destruct (Z.eqb_spec (n_loops o + 1) k); auto; lia.
    + intros d. split; auto. intros [H|(s & H & _)]; auto; lia.
  - split; [|split]; cbn; eauto. intros k c' [H|H]; [injection H as <- _; lia|].
    apply K2 in H. lia.
  - cbn. do 4 (split; [reflexivity|]). rewrite lookup_cons, Z.eqb_refl. reflexivity.
Qed.
Lemma surface_ok c0 o ls o' s : counted o -> add_surface o ls = (o', s) ->
  (forall l k, In l ls -> lookup l (o_loops o) = Some k -> c0 < k) ->
  ext c0 o o' /\ counted o' /\ same o o' /\ s = n_surfs o + 1 /\ n_surfs o' = n_surfs o + 1 /\
  n_curves o' = n_curves o /\ n_loops o' = n_loops o /\ lookup s (o_surfs o') = Some ls.
Proof.
  intros (K1 & K2 & K3) [= <- <-] Hl. split; [|split; [|split; [split; reflexivity|]]].
  - constructor; cbn -[pair_eq]; auto; try lia.
    + intros k Hk. rewrite lookup_cons. destruct (Z.eqb_spec (n_surfs o + 1) k); auto; lia.
    + intros d. split.
      * intros [<-|H]; auto. right. exists (n_surfs o + 1). split; auto. lia.
      * intros [H|(s & H & ->)]; auto. left. f_equal. lia.
    + intros d Hd. destruct (pair_eq d _) eqn:E; auto. apply pair_eq_iff in E. exfalso. apply Hd.
      exists (n_surfs o + 1). split; auto. lia.
    + intros s y Hs. replace s with (n_surfs o + 1) by lia. rewrite pair_eq_refl.
      unfold curves_of. rewrite in_flat_map. intros (l & Hin & Hy).
      destruct (lookup l (o_loops o)) as [k|] eqn:E; [|destruct Hy]. destruct Hy as [<-|[]]. cbn.
      split; auto. eapply Hl; eauto.
  - split; [|split]; cbn; eauto. intros k c' [H|H]; [injection H as <- _; lia|].
    apply K3 in H. lia.
  - cbn. do 4 (split; [reflexivity|]). rewrite lookup_cons, Z.eqb_refl. reflexivity.
Qed.
Lemma same_trans o o' o'' : same o o' -> same o' o'' -> same o o''.
Proof. intros (A & B) (C & D). split; congruence. Qed.

Definition tags (n : Z) (k : nat) : list Z := map (fun q => n + 1 + Z.of_nat q) (seq 0 k).
Lemma tags_S n k : tags n (S k) = n + 1 :: tags (n + 1) k.
Proof.
  unfold tags. cbn [seq map]. f_equal; [lia|]. rewrite <- seq_shift, map_map. apply map_ext. intros q. lia.
Qed.
Lemma tags_app n a b : tags n (a + b) = tags n a ++ tags (n + Z.of_nat a) b.
Proof.
  revert n. induction a as [|a IH]; intros n.
  - cbn [Nat.add]. replace (n + Z.of_nat 0) with n by lia. reflexivity.
  - cbn [Nat.add]. rewrite !tags_S, IH. cbn [app]. do 3 f_equal. lia.
Qed.
Lemma tags_length n k : length (tags n k) = k.
Proof. unfold tags. now rewrite map_length, seq_length. Qed.
Lemma tags_nth n k q : (q < k)%nat -> nth_error (tags n k) q = Some (n + 1 + Z.of_nat q).
Proof.
  intros H. unfold tags. rewrite nth_error_map, (nth_error_nth' _ O) by now rewrite seq_length.
  rewrite seq_nth; auto.
Qed.

(** The loop [l] is the circle [k]. *)
Definition loop_is (o : occ) (l : Z) (cc : circle) (c0 : Z) : Prop :=
  l <= n_loops o /\ exists k, lookup l (o_loops o) = Some k /\ lookup k (o_circles o) = Some cc /\ c0 < k <= n_curves o.
Lemma loop_is_ext c1 o o' l cc c0 : ext c1 o o' -> loop_is o l cc c0 -> loop_is o' l cc c0.
Proof.
  intros X (Hl & k & E1 & E2 & H). pose proof (x_c _ _ _ X). pose proof (x_l _ _ _ X). split; [lia|].
  exists k. rewrite (x_ll _ _ _ X), (x_lc _ _ _ X) by lia. repeat split; auto; lia.
Qed.

Lemma annuli_ok c0 x y rs : forall o prev pr, counted o -> c0 <= n_curves o -> loop_is o prev (mkC x y pr) c0 ->
  exists o', annuli o x y rs prev = (o', tags (n_surfs o) (length rs)) /\ ext c0 o o' /\ counted o' /\ same o o' /\
    n_surfs o' = n_surfs o + Z.of_nat (length rs) /\
    forall k, (k < length rs)%nat ->
      bounded_by o' (n_surfs o + 1 + Z.of_nat k) [mkC x y (nth k rs 0%R); mkC x y (nth k (pr :: rs) 0%R)].
Proof.
  induction rs as [|r rs IH]; intros o prev pr Ko Hc Hp.
  - exists o. cbn [annuli]. split; auto. split; [apply ext_refl|]. split; auto.
    split; [split; auto|]. split; [cbn; lia|]. cbn. lia.
  - cbn [annuli]. destruct (add_circle o x y r) as [o1 c] eqn:E1.
    destruct (circle_ok c0 _ _ _ _ _ _ Ko E1) as (X1 & K1 & S1 & Ec & N1 & M1 & L1).
    destruct (add_loop o1 c) as [o2 l] eqn:E2.
    destruct (loop_ok c0 _ _ _ _ K1 E2) as (X2 & K2 & S2 & El & NL2 & N2 & M2 & L2).
    assert (Hl2 : loop_is o2 l (mkC x y r) c0).
    { split; [lia|]. exists c. split; auto. split; [rewrite (x_lc _ _ _ X2); auto; lia|lia]. }
    assert (Hp2 : loop_is o2 prev (mkC x y pr) c0) by eauto using loop_is_ext.
    destruct (add_surface o2 [l; prev]) as [o3 s] eqn:E3.
    destruct (surface_ok c0 _ _ _ _ K2 E3) as (X3 & K3 & S3 & Es & M3 & N3 & NL3 & L3).
    { intros l' k [<-|[<-|[]]] Hk; [destruct Hl2 as (_ & k' & E & _ & H)|destruct Hp2 as (_ & k' & E & _ & H)];
        rewrite E in Hk; injection Hk as <-; lia. }
    destruct (IH o3 l r K3) as (o' & E' & X' & K' & S' & M' & B'); [lia|eauto using loop_is_ext|].
    exists o'. cbn [length]. rewrite tags_S.
    assert (Eo3 : n_surfs o3 = n_surfs o + 1) by lia. rewrite Eo3 in E', M', B'. rewrite E'. replace s with (n_surfs o + 1) by lia.
    split; auto. split; [eauto using ext_trans|]. split; auto. split; [eauto using same_trans|].
    split; [lia|]. intros [|k] Hk.
    + apply (bounded_ext c0 o3); auto; [lia|]. exists [l; prev]. split; [|].
      { rewrite <- L3. f_equal. lia. }
      assert (Hl3 := loop_is_ext _ _ _ _ _ _ X3 Hl2). assert (Hp3 := loop_is_ext _ _ _ _ _ _ X3 Hp2).
      destruct Hl3 as (_ & k1 & ? & ? & _), Hp3 as (_ & k2 & ? & ? & _). cbn [nth].
      repeat (constructor; eauto).
    + specialize (B' k). cbn [nth] in *. replace (n_surfs o + 1 + Z.of_nat (S k)) with (n_surfs o + 1 + 1 + Z.of_nat k) by lia.
      apply B'. lia.
Qed.

Lemma pin_surfaces_ok o x y rs : counted o -> rs <> [] ->
  exists o', pin_surfaces o x y rs = (o', tags (n_surfs o) (length rs)) /\ ext (n_curves o) o o' /\ counted o' /\
    same o o' /\ n_surfs o' = n_surfs o + Z.of_nat (length rs) /\
    forall k, (k < length rs)%nat -> bounded_by o' (n_surfs o + 1 + Z.of_nat k) (ring x y rs k).
Proof.
  intros Ko Hne. destruct rs as [|r rs]; [congruence|]. clear Hne. set (c0 := n_curves o). cbn [pin_surfaces].
  destruct (add_circle o x y r) as [o1 c] eqn:E1.
  destruct (circle_ok c0 _ _ _ _ _ _ Ko E1) as (X1 & K1 & S1 & Ec & N1 & M1 & L1).
  destruct (add_loop o1 c) as [o2 l] eqn:E2.
  destruct (loop_ok c0 _ _ _ _ K1 E2) as (X2 & K2 & S2 & El & NL2 & N2 & M2 & L2).
  assert (Hl2 : loop_is o2 l (mkC x y r) c0).
  { split; [lia|]. exists c. split; auto. split; [rewrite (x_lc _ _ _ X2); auto; lia|lia]. }
  destruct (add_surface o2 [l]) as [o3 s] eqn:E3.
  destruct (surface_ok c0 _ _ _ _ K2 E3) as (X3 & K3 & S3 & Es & M3 & N3 & NL3 & L3).
  { intros l' k [<-|[]] Hk. destruct Hl2 as (_ & k' & E & _ & H). rewrite E in Hk. injection Hk as <-. lia. }
  destruct (annuli_ok c0 x y rs o3 l r K3) as (o' & E' & X' & K' & S' & M' & B'); [lia|eauto using loop_is_ext|].
  exists o'. cbn [length]. rewrite tags_S.
  assert (Eo3 : n_surfs o3 = n_surfs o + 1) by lia. rewrite Eo3 in E', M', B'. rewrite E'. replace s with (n_surfs o + 1) by lia.
  split; auto. split; [eauto using ext_trans|]. split; auto. split; [eauto using same_trans|].
  split; [lia|]. intros [|k] Hk.
  - apply (bounded_ext c0 o3); auto; [lia|]. exists [l]. split.
    { rewrite <- L3. f_equal. lia. }
    assert (Hl3 := loop_is_ext _ _ _ _ _ _ X3 Hl2). destruct Hl3 as (_ & k1 & ? & ? & _).
    unfold ring. cbn [nth]. repeat (constructor; eauto).
  - specialize (B' k). unfold ring. cbn [nth] in *.
    replace (n_surfs o + 1 + Z.of_nat (S k)) with (n_surfs o + 1 + 1 + Z.of_nat k) by lia. apply B'. lia.
Qed.

(** * Groups and colours *)
Record gains (g g' : gm) (F : string -> Z -> Prop) : Prop := {
  g_wf : well_formed g';
  g_nd : names_differ g 2 -> names_differ g' 2;
  g_old : forall d u n e, has g d u n e -> has g' d u n e;
  g_new : forall d n e, (exists u, has g' d u n e) <-> (exists u, has g d u n e) \/ (d = 2 /\ F n e) }.

Lemma gains_refl g F : well_formed g -> (forall n e, ~ F n e) -> gains g g F.
Proof. intros W N. constructor; auto. intros d n e. split; auto. intros [H|(_ & H)]; auto. now apply N in H. Qed.
Lemma gains_trans g g' g'' F1 F2 F : gains g g' F1 -> gains g' g'' F2 ->
  (forall n e, F n e <-> F1 n e \/ F2 n e) -> gains g g'' F.
Proof.
  intros [A1 A2 A3 A4] [B1 B2 B3 B4] HF. constructor; auto.
  intros d n e. rewrite B4, A4, HF. tauto.
Qed.
Lemma gains_iff g g' F1 F2 : gains g g' F1 -> (forall n e, F2 n e <-> F1 n e) -> gains g g' F2.
Proof. intros [A1 A2 A3 A4] H. constructor; auto. intros d n e. now rewrite A4, H. Qed.
Lemma gains_geo g g' ge F : gains g g' F -> gains g (mkGm (groups g') ge) F.
Proof. intros [A1 A2 A3 A4]. constructor; auto. Qed.
Lemma gains_from g ge g' F : gains g g' F -> gains (mkGm (groups g) ge) g' F.
Proof. intros [A1 A2 A3 A4]. constructor; auto. Qed.

Lemma has_of g x e : In x (groups g) -> In e (g_ents x) -> has g (g_dim x) (g_tag x) (g_name x) e.
Proof. intros H He. exists (g_ents x). split; auto. now destruct x. Qed.
Lemma of_has g d u n e : has g d u n e -> exists x, In x (groups g) /\ g_dim x = d /\ g_tag x = u /\ g_name x = n /\ In e (g_ents x).
Proof. intros (es & H & He). exists (mkG d u n es). auto. Qed.

Lemma assign_ok g ts m : well_formed g -> ascending ts ->
  exists g', assign g ts m = Ret g' /\ gains g g' (fun n e => n = group_of m /\ In e ts) /\
    ents (geo g') = ents (geo g) /\ down (geo g') = down (geo g) /\
    paint (geo g') = paint (set_colour (geo g) (map (pair 2) ts) (m_colour m)).
Proof.
  intros W A. unfold assign. change (material_group m) with (group_of m).
  destruct (add_to_group_ok g 2 ts (-1) (group_of m) W A) as (g' & t & -> & W' & G' & I' & D); [left; lia|].
  cbn [bind]. eexists. split; [reflexivity|]. cbn [geo]. rewrite G'. split; [|auto].
  apply gains_geo. constructor; auto.
  - intros N x y Hx Hy Dx Dy En.
    destruct (proj2 W' _ Hx) as (_ & Nx & _), (proj2 W' _ Hy) as (_ & Ny & _).
    destruct (g_ents x) as [|ex lx] eqn:Ex; [congruence|]. destruct (g_ents y) as [|ey ly] eqn:Ey; [congruence|].
    assert (Hhx := has_of g' x ex Hx ltac:(rewrite Ex; now left)).
    assert (Hhy := has_of g' y ey Hy ltac:(rewrite Ey; now left)).
    apply I' in Hhx, Hhy. apply (key_inj g' x y W' Hx Hy). unfold key. rewrite Dx, Dy in *. f_equal.
    assert (Q : forall z e, has g 2 (g_tag z) (g_name z) e -> g_name z = group_of m -> g_tag z = t).
    { intros z e Hz Ez. apply of_has in Hz as (x' & H1 & H2 & H3 & H4 & _). destruct D as [(x2 & P1 & P2 & P3 & P4)|(D & _)].
      - assert (x' = x2) by (apply N; congruence). subst x2. congruence.
      - destruct (D x' H1 H2) as (D1 & _). exfalso. apply D1. congruence. }
    destruct Hhx as [Hhx|(_ & Tx & Mx & _)], Hhy as [Hhy|(_ & Ty & My & _)].
    + apply of_has in Hhx as (x1 & P1 & P2 & P3 & P4 & _), Hhy as (x2 & Q1 & Q2 & Q3 & Q4 & _).
      assert (x1 = x2) by (apply N; congruence). subst x2. congruence.
    + rewrite Ty. eapply Q; eauto. congruence.
    + rewrite Tx. symmetry. eapply Q; eauto. congruence.
    + congruence.
  - intros d u n e H. apply I'. auto.
  - intros d n e. split.
    + intros (u & H). apply I' in H as [H|(H1 & H2 & H3 & H4)]; eauto.
    + intros [(u & H)|(-> & -> & H)]; [exists u|exists t]; apply I'; auto.
Qed.

(** Only surfaces of the lists and their boundary circles get new colours. *)
Lemma assign_mats_ok ms : forall ids g imat, well_formed g ->
  (forall k l, nth_error ids k = Some l -> ascending l) ->
  (imat + length ids <= length ms)%nat ->
  (forall k k' l l' e, nth_error ids k = Some l -> nth_error ids k' = Some l' -> In e l -> In e l' -> k = k') ->
  (forall k l s y, nth_error ids k = Some l -> In s l -> In y (down (geo g) (2, s)) -> fst y = 1) ->
  exists g', assign_mats g ids ms imat = Ret g' /\
    gains g g' (fun n e => exists k l m, nth_error ids k = Some l /\ In e l /\ nth_error ms (imat + k) = Some m /\ n = group_of m) /\
    ents (geo g') = ents (geo g) /\ down (geo g') = down (geo g) /\
    (forall k l m s, nth_error ids k = Some l -> In s l -> nth_error ms (imat + k) = Some m ->
       paint (geo g') (2, s) = m_colour m) /\
    (forall d, (forall k l s, nth_error ids k = Some l -> In s l -> d <> (2, s) /\ ~ In d (down (geo g) (2, s))) ->
       paint (geo g') d = paint (geo g) d).
Proof.
  induction ids as [|l ids IH]; intros g imat W A Hlen Dj Dn.
  - exists g. split; [reflexivity|]. split; [|split; [|split; [|split]]]; auto.
    + apply gains_refl; auto. intros n e (k & l & m & H & _). destruct k; discriminate.
    + intros k l m s H. destruct k; discriminate.
  - cbn [assign_mats]. cbn [length] in Hlen.
    destruct (nth_error ms imat) as [m|] eqn:Em; [|apply nth_error_None in Em; lia].
    rewrite (proj2 (rd_Ret _ _ _) Em). cbn [bind].
    assert (St : exists g1, match l with [] => Ret g | _ => assign g l m end = Ret g1 /\
      gains g g1 (fun n e => n = group_of m /\ In e l) /\ ents (geo g1) = ents (geo g) /\ down (geo g1) = down (geo g) /\
      paint (geo g1) = paint (set_colour (geo g) (map (pair 2) l) (m_colour m))).
    { destruct l as [|e0 l0].
      - exists g. split; auto. split; [apply gains_refl; auto; cbn; tauto|]. split; auto.
      - apply assign_ok; auto. apply (A O). reflexivity. }
    destruct St as (g1 & -> & G1 & E1 & D1 & P1). cbn [bind].
    destruct (IH g1 (S imat)) as (g' & -> & G' & E' & D' & C' & U').
    { apply G1. }
    { intros k l' H. apply (A (S k)). auto. }
    { lia. }
    { intros k k' l1 l2 e H1 H2 H3 H4. assert (S k = S k') by (eapply Dj; eauto; auto). lia. }
    { intros k l' s y H1 H2 H3. rewrite D1 in H3. apply (Dn (S k) l' s); auto. }
    exists g'. split; auto. split; [|split; [congruence|split; [congruence|split]]].
    + eapply gains_trans; [exact G1|exact G'|]. cbn beta. intros n e. split.
      * intros ([|k] & l' & m' & H1 & H2 & H3 & H4).
        -- left. injection H1 as <-. rewrite Nat.add_0_r, Em in H3. injection H3 as <-. auto.
        -- right. exists k, l', m'. replace (S imat + k)%nat with (imat + S k)%nat by lia. auto.
      * intros [(H1 & H2)|(k & l' & m' & H1 & H2 & H3 & H4)].
        -- exists O, l, m. rewrite Nat.add_0_r. auto.
        -- exists (S k), l', m'. replace (imat + S k)%nat with (S imat + k)%nat by lia. auto.
    + intros [|k] l' m' s H1 H2 H3.
      * injection H1 as <-. rewrite Nat.add_0_r, Em in H3. injection H3 as <-.
        rewrite U'.
        -- rewrite P1, set_colour_paint.
           replace (existsb _ _) with true; auto. symmetry. apply on_iff. exists (2, s). split; auto.
           apply in_map_iff. eauto.
        -- intros k l' s' K1 K2. split.
           ++ intros Eq. injection Eq as <-. assert (O = S k) by exact (Dj O (S k) l l' s eq_refl K1 H2 K2). lia.
           ++ intros Hd. rewrite D1 in Hd. apply (Dn (S k) l' s' (2, s)) in Hd; auto. cbn in Hd. lia.
      * apply (C' k l'); auto. now replace (S imat + k)%nat with (imat + S k)%nat by lia.
    + intros d Hd. rewrite U'.
      * rewrite P1, set_colour_paint. replace (existsb _ _) with false; auto. symmetry.
        apply not_true_iff_false. rewrite on_iff. intros (x & Hx & Hon).
        apply in_map_iff in Hx as (s & <- & Hs). destruct (Hd O l s eq_refl Hs). tauto.
      * intros k l' s H1 H2. rewrite D1. apply (Hd (S k) l'); auto.
Qed.

(** * The pins of one kind *)
Section OnePin.
Variables (o0 : occ) (cx cy : nat -> R) (pin : nat) (rs : list R).
Hypothesis rs_ne : rs <> [].

Record built (P : list part) (o : occ) (ids : list (list Z)) (out0 out : list Z) : Prop := {
  b_ext : ext (n_curves o0) o0 o;
  b_cnt : counted o;
  b_same : same o0 o;
  b_n : n_surfs o = n_surfs o0 + Z.of_nat (length P);
  b_out : out = out0 ++ tags (n_surfs o0) (length P);
  b_shape : forall q p, nth_error P q = Some p ->
     bounded_by o (n_surfs o0 + 1 + Z.of_nat q) (ring (cx (p_col p)) (cy (p_row p)) rs (p_ring p));
  b_ring : forall q p, nth_error P q = Some p -> p_pin p = pin /\ (p_ring p < length rs)%nat;
  b_len : length ids = length rs;
  b_ids : forall k l, nth_error ids k = Some l -> ascending l /\
     forall e, In e l <-> exists q p, nth_error P q = Some p /\ p_ring p = k /\ e = n_surfs o0 + 1 + Z.of_nat q }.

Lemma append_each_length : forall ids ts, length (append_each ids ts) = length ids.
Proof. induction ids as [|l ids IH]; intros [|t ts]; cbn; auto. Qed.
Lemma append_each_nth : forall ids ts k, length ids = length ts ->
  nth_error (append_each ids ts) k =
  match nth_error ids k, nth_error ts k with Some l, Some t => Some (l ++ [t]) | _, _ => None end.
Proof.
  induction ids as [|l ids IH]; intros [|t ts] k E; cbn in *; try discriminate.
  - now destruct k.
  - destruct k; cbn; auto.
Qed.
Lemma asc_snoc l t : ascending l -> (forall e, In e l -> e < t) -> ascending (l ++ [t]).
Proof.
  induction l as [|a l IH]; intros A H; cbn.
  - repeat constructor.
  - apply StronglySorted_inv in A as (A1 & A2). constructor.
    + apply IH; auto. intros e He. apply H. now right.
    + apply Forall_app. split; auto. constructor; auto. apply H. now left.
Qed.

Definition new_parts (j i : nat) : list part := map (mkPart pin j i) (seq 0 (length rs)).
Lemma new_parts_nth j i q : (q < length rs)%nat -> nth_error (new_parts j i) q = Some (mkPart pin j i q).
Proof.
  intros H. unfold new_parts. rewrite nth_error_map, (nth_error_nth' _ O) by now rewrite seq_length.
  rewrite seq_nth; auto.
Qed.
Lemma new_parts_length j i : length (new_parts j i) = length rs.
Proof. unfold new_parts. now rewrite map_length, seq_length. Qed.
Lemma app_nth_cases {A} (P Q : list A) q p : nth_error (P ++ Q) q = Some p ->
  nth_error P q = Some p \/ exists q', q = (length P + q')%nat /\ nth_error Q q' = Some p.
Proof.
  intros H. destruct (Nat.lt_ge_cases q (length P)) as [L|L].
  - left. now rewrite nth_error_app1 in H.
  - right. exists (q - length P)%nat. split; [lia|]. now rewrite nth_error_app2 in H.
Qed.

Lemma built_step P o ids out0 out i j : built P o ids out0 out ->
  exists o' ts, pin_surfaces o (cx i) (cy j) rs = (o', ts) /\
    built (P ++ new_parts j i) o' (append_each ids ts) out0 (out ++ ts).
Proof.
  intros [B1 B2 B3 B4 B5 B6 BR B7 B8].
  destruct (pin_surfaces_ok o (cx i) (cy j) rs B2 rs_ne) as (o' & E & X & K & S1 & N & B).
  exists o', (tags (n_surfs o) (length rs)). split; auto.
  assert (X0 : ext (n_curves o0) o0 o').
  { eapply ext_trans; [exact B1|]. eapply ext_weaken; [|exact X]. apply (x_c _ _ _ B1). }
  constructor; auto.
  - eauto using same_trans.
  - rewrite app_length, new_parts_length. lia.
  - subst out. rewrite app_length, new_parts_length, tags_app, B4. now rewrite app_assoc.
  - intros q p H. destruct (app_nth_cases _ _ _ _ H) as [H1|(q' & -> & H1)].
    + apply (bounded_ext (n_curves o) o); auto.
      assert (q < length P)%nat by (apply nth_error_Some; congruence). lia.
    + assert (Hq : (q' < length rs)%nat) by (rewrite <- (new_parts_length j i); apply nth_error_Some; congruence).
      rewrite new_parts_nth in H1 by auto. injection H1 as <-. cbn.
      replace (n_surfs o0 + 1 + Z.of_nat (length P + q')) with (n_surfs o + 1 + Z.of_nat q') by lia. auto.
  - intros q p H. destruct (app_nth_cases _ _ _ _ H) as [H1|(q' & -> & H1)]; eauto.
    assert (Hq : (q' < length rs)%nat) by (rewrite <- (new_parts_length j i); apply nth_error_Some; congruence).
    rewrite new_parts_nth in H1 by auto. injection H1 as <-. auto.
  - now rewrite append_each_length.
  - intros k l H. rewrite append_each_nth in H by (rewrite tags_length; auto).
    destruct (nth_error ids k) as [l0|] eqn:E0; [|discriminate].
    assert (Hk : (k < length rs)%nat) by (rewrite <- B7; apply nth_error_Some; congruence).
    rewrite tags_nth in H by auto. injection H as <-. destruct (B8 k l0 E0) as (A0 & I0). split.
    + apply asc_snoc; auto. intros e He. apply I0 in He as (q & p & Hq & _ & ->).
      assert (q < length P)%nat by (apply nth_error_Some; congruence). lia.
    + intros e. rewrite in_app_iff, I0. split.
      * intros [(q & p & H1 & H2 & H3)|[<-|[]]].
        -- exists q, p. rewrite nth_error_app1; auto. apply nth_error_Some. congruence.
        -- exists (length P + k)%nat, (mkPart pin j i k). split; [|split; [auto|lia]].
           rewrite nth_error_app2 by lia. replace (length P + k - length P)%nat with k by lia. now apply new_parts_nth.
      * intros (q & p & H1 & H2 & ->). destruct (app_nth_cases _ _ _ _ H1) as [H3|(q' & -> & H3)].
        -- left. eauto.
        -- right. left.
           assert (Hq : (q' < length rs)%nat) by (rewrite <- (new_parts_length j i); apply nth_error_Some; congruence).
           rewrite new_parts_nth in H3 by auto. injection H3 as <-. cbn in H2. lia.
Qed.

Variables (grid : list (list R)) (off : R * R) (nx ny : nat).
Hypothesis boxes : forall i j, (i < nx)%nat -> (j < ny)%nat -> exists a b, rect_getBox grid [Z.of_nat i; Z.of_nat j] = Ret [a; b] /\
  ((fst a + snd a) / 2 + fst off = cx i)%R /\ ((fst b + snd b) / 2 + snd off = cy j)%R.

Definition row_parts (row : list Z) (i j : nat) : list part :=
  flat_map (fun k => if nth k row (-1) =? Z.of_nat pin then new_parts j (i + k) else []) (seq 0 (length row)).
Lemma row_parts_cons id row i j : row_parts (id :: row) i j =
  (if id =? Z.of_nat pin then new_parts j i else []) ++ row_parts row (S i) j.
Proof.
  unfold row_parts. cbn [length seq flat_map nth]. rewrite Nat.add_0_r. f_equal.
  rewrite <- seq_shift, !flat_map_concat_map, map_map. f_equal. apply map_ext. intros k. cbn [nth].
  now rewrite Nat.add_succ_comm.
Qed.

Lemma row_pins_ok j : (j < ny)%nat -> forall row i P o ids out0 out, (i + length row <= nx)%nat -> built P o ids out0 out ->
  exists o' ids' out', row_pins grid off (Z.of_nat pin) rs row i j (o, ids, out) = Ret (o', ids', out') /\
    built (P ++ row_parts row i j) o' ids' out0 out'.
Proof.
  intros Hj. induction row as [|id row IH]; intros i P o ids out0 out Hi B.
  - exists o, ids, out. cbn. rewrite app_nil_r. auto.
  - cbn [row_pins]. rewrite row_parts_cons. cbn [length] in Hi. destruct (id =? Z.of_nat pin).
    + destruct (boxes i j) as (a & b & -> & Ex & Ey); [lia|auto|]. cbn [bind rd nth_error].
      rewrite Ex, Ey. destruct (built_step P o ids out0 out i j B) as (o' & ts & -> & B'). cbn [bind].
      rewrite app_assoc. apply IH; auto. lia.
    + cbn [bind app]. apply IH; auto. lia.
Qed.

Definition rows_parts (rows : list (list Z)) (j : nat) : list part :=
  flat_map (fun k => row_parts (nth k rows []) 0 (j + k)) (seq 0 (length rows)).
Lemma rows_pins_ok : forall rows j P o ids out0 out, (j + length rows <= ny)%nat ->
  Forall (fun row => length row <= nx)%nat rows -> built P o ids out0 out ->
  exists o' ids' out', rows_pins grid off (Z.of_nat pin) rs rows j (o, ids, out) = Ret (o', ids', out') /\
    built (P ++ rows_parts rows j) o' ids' out0 out'.
Proof.
  induction rows as [|row rows IH]; intros j P o ids out0 out Hj Hr B.
  - exists o, ids, out. cbn. rewrite app_nil_r. auto.
  - cbn [rows_pins]. cbn [length] in Hj. inversion Hr as [|? ? H1 H2]; subst.
    destruct (row_pins_ok j ltac:(lia) row 0 P o ids out0 out) as (o1 & ids1 & out1 & -> & B1); [cbn; lia|auto|]. cbn [bind].
    destruct (IH (S j) _ _ _ _ _ ltac:(lia) H2 B1) as (o' & ids' & out' & E & B').
    exists o', ids', out'. split; auto. rewrite <- app_assoc in B'.
    replace (rows_parts (row :: rows) j) with (row_parts row 0 j ++ rows_parts rows (S j)); auto.
    unfold rows_parts. cbn [length seq flat_map nth]. rewrite Nat.add_0_r. f_equal.
    rewrite <- seq_shift, !flat_map_concat_map, map_map. f_equal. apply map_ext. intros k. cbn [nth].
    now rewrite Nat.add_succ_comm.
Qed.

Lemma built_nil out0 : counted o0 -> built [] o0 (repeat [] (length rs)) out0 out0.
Proof.
  intros K. constructor; auto.
  - apply ext_refl.
  - split; auto.
  - cbn. lia.
  - cbn. now rewrite app_nil_r.
  - intros [|q] p; discriminate.
  - intros [|q] p; discriminate.
  - apply repeat_length.
  - intros k l H. apply nth_error_In, repeat_spec in H. subst l. split; [constructor|].
    intros e. split; [intros []|]. intros ([|q] & p & H & _); discriminate.
Qed.

(** The surfaces join the groups of the materials. *)
Lemma built_assigned P o ids out0 out ms : built P o ids out0 out -> well_formed (o_gm o0) ->
  (length rs <= length ms)%nat ->
  exists g', assign_mats (o_gm o) ids ms 0 = Ret g' /\
    gains (o_gm o0) g' (fun n e => exists q p m, nth_error P q = Some p /\ nth_error ms (p_ring p) = Some m /\
       n = group_of m /\ e = n_surfs o0 + 1 + Z.of_nat q) /\
    ents (geo g') = ents (geo (o_gm o)) /\ down (geo g') = down (geo (o_gm o)) /\
    (forall q p m, nth_error P q = Some p -> nth_error ms (p_ring p) = Some m ->
       paint (geo g') (2, n_surfs o0 + 1 + Z.of_nat q) = m_colour m) /\
    (forall d, (fst d = 2 -> snd d <= n_surfs o0) -> (fst d = 1 -> snd d <= n_curves o0) ->
       paint (geo g') d = paint (geo (o_gm o0)) d).
Proof.
  intros [B1 B2 B3 B4 B5 B6 BR B7 B8] W Hm. destruct B3 as (Sg & Sp).
  assert (Rg : forall k l s, nth_error ids k = Some l -> In s l -> n_surfs o0 < s <= n_surfs o).
  { intros k l s H Hs. apply (B8 k l H) in Hs as (q & p & Hq & _ & ->).
    assert (q < length P)%nat by (apply nth_error_Some; congruence). lia. }
  assert (Dn : forall k l s y, nth_error ids k = Some l -> In s l -> In y (down (geo (o_gm o)) (2, s)) ->
    fst y = 1 /\ n_curves o0 < snd y).
  { intros k l s y H Hs Hy. eapply (x_new _ _ _ B1); eauto. }
  destruct (assign_mats_ok ms ids (o_gm o) 0) as (g' & E & G & E1 & E2 & C & U).
  { unfold well_formed in *. now rewrite Sg. }
  { intros k l H. apply (B8 k l H). }
  { rewrite B7. cbn. lia. }
  { intros k k' l l' e H1 H2 H3 H4. apply (B8 k l H1) in H3 as (q & p & Hq & <- & ->).
    apply (B8 k' l' H2) in H4 as (q' & p' & Hq' & <- & Eq). assert (q' = q) by lia. subst q'. congruence. }
  { intros k l s y H1 H2 H3. eapply Dn; eauto. }
  assert (Rr : forall q p, nth_error P q = Some p -> exists l, nth_error ids (p_ring p) = Some l /\
    In (n_surfs o0 + 1 + Z.of_nat q) l).
  { intros q p H. destruct (BR q p H) as (_ & Hr). rewrite <- B7 in Hr. apply nth_error_Some in Hr.
    destruct (nth_error ids (p_ring p)) as [l|] eqn:En; [|congruence]. exists l. split; auto.
    apply (B8 _ _ En). eauto. }
  exists g'. split; auto. split; [|split; auto; split; auto; split].
  - assert (G0 : gains (o_gm o0) g' (fun n e => exists k l m, nth_error ids k = Some l /\ In e l /\
      nth_error ms (0 + k) = Some m /\ n = group_of m)).
    { destruct G as [A1 A2 A3 A4]. constructor; auto.
      - unfold names_differ in *. now rewrite <- Sg.
      - unfold has in *. now rewrite <- Sg.
      - unfold has in *. now rewrite <- Sg. }
    eapply gains_iff; [exact G0|]. cbn beta. intros n e. split.
    + intros (q & p & m & H1 & H2 & H3 & H4). destruct (Rr q p H1) as (l & Hl & Hi).
      exists (p_ring p), l, m. subst e. auto.
    + intros (k & l & m & H1 & H2 & H3 & H4). apply (B8 _ _ H1) in H2 as (q & p & Hq & <- & ->).
      exists q, p, m. auto.
  - intros q p m H1 H2. destruct (Rr q p H1) as (l & Hl & Hi). eapply C; eauto.
  - intros [d1 d2] H2 H1. cbn in H1, H2. rewrite U.
    + now rewrite Sp.
    + intros k l s H3 H4. split.
      * intros Eq. injection Eq as -> ->. pose proof (Rg k l s H3 H4). lia.
      * intros Hd. destruct (Dn k l s (d1, d2) H3 H4 Hd) as (X1 & X2). cbn in *. lia.
Qed.
End OnePin.

Lemma flat_map_nil_all {A B} (f : A -> list B) l : (forall a, In a l -> f a = []) -> flat_map f l = [].
Proof. induction l as [|a l IH]; intros H; cbn; auto. rewrite H, IH; auto; [intros; apply H; now right|now left]. Qed.

(** * The lattice *)
Record laid (o0 : occ) (shape : part -> list circle) (mat : part -> option material) (E : list part) (o : occ) (out : list Z) : Prop := {
  l_ext : ext (n_curves o0) o0 o;
  l_cnt : counted o;
  l_n : n_surfs o = n_surfs o0 + Z.of_nat (length E);
  l_out : out = tags (n_surfs o0) (length E);
  l_shape : forall q p, nth_error E q = Some p -> bounded_by o (n_surfs o0 + 1 + Z.of_nat q) (shape p);
  l_gains : gains (o_gm o0) (o_gm o) (fun n e => exists q p m, nth_error E q = Some p /\ mat p = Some m /\
       n = group_of m /\ e = n_surfs o0 + 1 + Z.of_nat q);
  l_col : forall q p m, nth_error E q = Some p -> mat p = Some m ->
       paint (geo (o_gm o)) (2, n_surfs o0 + 1 + Z.of_nat q) = m_colour m;
  l_keep : forall d, (fst d = 2 -> snd d <= n_surfs o0) -> (fst d = 1 -> snd d <= n_curves o0) ->
       paint (geo (o_gm o)) d = paint (geo (o_gm o0)) d }.

Lemma ext_gm c0 o o' g : ext c0 o o' -> ents (geo g) = ents (geo (o_gm o')) -> down (geo g) = down (geo (o_gm o')) ->
  ext c0 o (with_gm o' g).
Proof.
  intros [A1 A2 A3 A4 A5 A6 A7 A8 A9] E D. constructor; cbn; auto.
  - intros d. rewrite E. apply A7.
  - intros d Hd. rewrite D. auto.
  - intros s y Hs. rewrite D. eauto.
Qed.

(** One more kind of pin. *)
Lemma laid_step o0 shape mat E o out cx cy pin rs P o1 ids out1 ms : laid o0 shape mat E o out ->
  built o cx cy pin rs P o1 ids out out1 -> (length rs <= length ms)%nat ->
  (forall p, In p P -> shape p = ring (cx (p_col p)) (cy (p_row p)) rs (p_ring p)) ->
  (forall p, In p P -> mat p = nth_error ms (p_ring p)) ->
  exists g', assign_mats (o_gm o1) ids ms 0 = Ret g' /\ laid o0 shape mat (E ++ P) (with_gm o1 g') out1.
Proof.
  intros L B Hm Hs Hmat. pose proof (g_wf _ _ _ (l_gains _ _ _ _ _ _ L)) as W.
  destruct (built_assigned _ _ _ _ _ _ _ _ _ _ _ B W Hm) as (g' & Eg & G & E1 & E2 & C & U).
  exists g'. split; auto. destruct L as [L1 L2 L3 L4 L5 L6 L7 L8]. destruct B as [B1 B2 B3 B4 B5 B6 BR B7 B8].
  assert (Wk : n_curves o0 <= n_curves o) by apply (x_c _ _ _ L1).
  assert (Wn : n_surfs o0 <= n_surfs o) by apply (x_s _ _ _ L1).
  constructor.
  - apply ext_gm; auto. eapply ext_trans; [exact L1|]. eapply ext_weaken; [|exact B1]. auto.
  - exact B2.
  - cbn. rewrite app_length. lia.
  - rewrite app_length, tags_app, B5, L4, <- L3. reflexivity.
  - intros q p H. destruct (app_nth_cases _ _ _ _ H) as [H1|(q' & -> & H1)].
    + change (bounded_by o1 (n_surfs o0 + 1 + Z.of_nat q) (shape p)).
      assert (q < length E)%nat by (apply nth_error_Some; congruence).
      apply (bounded_ext (n_curves o) o); auto. lia.
    + change (bounded_by o1 (n_surfs o0 + 1 + Z.of_nat (length E + q')) (shape p)).
      rewrite Hs by eauto using nth_error_In.
      replace (n_surfs o0 + 1 + Z.of_nat (length E + q')) with (n_surfs o + 1 + Z.of_nat q') by lia. auto.
  - cbn [o_gm with_gm]. eapply gains_trans; [exact L6|exact G|]. cbn beta. intros n e. split.
    + intros (q & p & m & H1 & H2 & H3 & H4). destruct (app_nth_cases _ _ _ _ H1) as [H5|(q' & -> & H5)].
      * left. exists q, p, m. auto.
      * right. exists q', p, m. rewrite <- Hmat by eauto using nth_error_In. repeat split; auto. lia.
    + intros [(q & p & m & H1 & H2 & H3 & H4)|(q & p & m & H1 & H2 & H3 & H4)].
      * exists q, p, m. split; auto. rewrite nth_error_app1; auto. apply nth_error_Some. congruence.
      * exists (length E + q)%nat, p, m. split; [|split; [|split; [auto|lia]]].
        -- rewrite nth_error_app2 by lia. now replace (length E + q - length E)%nat with q by lia.
        -- rewrite Hmat by eauto using nth_error_In. auto.
  - cbn [o_gm with_gm]. intros q p m H H2. destruct (app_nth_cases _ _ _ _ H) as [H1|(q' & -> & H1)].
    + assert (q < length E)%nat by (apply nth_error_Some; congruence).
      rewrite U; [eauto|cbn; lia|cbn; lia].
    + rewrite Hmat in H2 by eauto using nth_error_In.
      replace (n_surfs o0 + 1 + Z.of_nat (length E + q')) with (n_surfs o + 1 + Z.of_nat q') by lia. eauto.
  - cbn [o_gm with_gm]. intros d H2 H1. rewrite U; auto; intros H; [apply H2 in H|apply H1 in H]; lia.
Qed.

Lemma laid_nil o0 shape mat : counted o0 -> well_formed (o_gm o0) -> laid o0 shape mat [] o0 [].
Proof.
  intros K W. constructor; auto.
  - apply ext_refl.
  - cbn. lia.
  - intros [|q] p; discriminate.
  - apply gains_refl; auto. intros n e ([|q] & p & m & H & _); discriminate.
  - intros [|q] p m; discriminate.
Qed.

Lemma laid_added o0 shape mat E o out d : counted o0 -> laid o0 shape mat E o out ->
  surfaces_added o0 o out (length E) (fun q => shape (nth q E d)) (fun q => mat (nth q E d)).
Proof.
  intros K0 [L1 L2 L3 L4 L5 L6 L7 L8]. unfold surfaces_added. cbv zeta.
  assert (Hn : forall q, (q < length E)%nat -> nth_error E q = Some (nth q E d)) by (intros; now apply nth_error_nth').
  assert (Hk : forall q p, nth_error E q = Some p -> (q < length E)%nat /\ nth q E d = p).
  { intros q p H. split; [apply nth_error_Some; congruence|]. now apply nth_error_nth. }
  split; [auto|]. split; [auto|]. split; [auto|]. split; [auto|]. split.
  { intros s cs Hs Hb. exact (bounded_ext _ _ _ _ _ K0 L1 Hs Hb). }
  split.
  { intros e. rewrite (x_ents _ _ _ L1). split; (intros [H|H]; [auto|right]).
    - destruct H as (s & Hs & ->). exists (Z.to_nat (s - n_surfs o0 - 1)). split; [lia|]. f_equal. lia.
    - destruct H as (q & Hq & ->). eexists. split; [|reflexivity]. lia. }
  destruct L6 as [G1 G2 G3 G4]. split; [auto|]. split; [auto|]. split; [auto|]. split.
  { intros e n x. rewrite G4. split; (intros [H|(H1 & H2)]; [auto|right; split; auto]).
    - destruct H2 as (q & p & m & H3 & H4 & H5 & H6). destruct (Hk q p H3) as (Q1 & Q2). exists q, m. rewrite Q2. auto.
    - destruct H2 as (q & m & H3 & H4 & H5 & H6). exists q, (nth q E d), m. auto. }
  split; [eauto|]. split; intros s Hs; apply L8; cbn; lia.
Qed.

Lemma added_ext o o' out n s1 s2 m1 m2 : surfaces_added o o' out n s1 m1 ->
  (forall q, (q < n)%nat -> s1 q = s2 q) -> (forall q, (q < n)%nat -> m1 q = m2 q) ->
  surfaces_added o o' out n s2 m2.
Proof.
  intros (H1 & H2 & H3 & H4 & H5 & H6 & H7 & H8 & H9 & H10 & H11 & H12 & H13) Es Em.
  unfold surfaces_added. cbv zeta in *. do 3 (split; [auto|]). split.
  { intros q Hq. rewrite <- Es by auto. auto. }
  do 5 (split; [auto|]). split.
  { intros d name e. rewrite H10. split; (intros [H|(H & q & m & Q1 & Q2 & Q3)]; [auto|right; split; [auto|]]);
      exists q, m; split; auto; split; auto; rewrite <- Q2; [symmetry|]; apply Em; auto. }
  split; [|auto]. intros q m Hq Hm. apply H11; auto. rewrite Em; auto.
Qed.

(** * addCylindricalPin2D *)
Lemma append_nil : forall ts, append_each (repeat [] (length ts)) ts = map (fun t => [t]) ts.
Proof. induction ts as [|t ts IH]; cbn; auto. now rewrite IH. Qed.
Lemma assign_each_mats : forall ts ms g ms0, length ts = length ms ->
  assign_each g ts ms = assign_mats g (map (fun t => [t]) ts) (ms0 ++ ms) (length ms0).
Proof.
  induction ts as [|t ts IH]; intros [|m ms] g ms0 E; cbn in E; try discriminate; auto.
  cbn [assign_each assign_mats map].
  rewrite (proj2 (rd_Ret (ms0 ++ m :: ms) (length ms0) m)).
  2:{ rewrite nth_error_app2, Nat.sub_diag by lia. reflexivity. }
  cbn [bind]. destruct (assign g [t] m) as [g'| | |]; cbn [bind]; auto.
  rewrite (IH ms g' (ms0 ++ [m])) by lia. rewrite <- app_assoc, app_length. cbn [app length].
  f_equal. lia.
Qed.

Lemma sorted_radii_iff rs : sorted_radii rs = true <-> nondecreasing rs.
Proof.
  induction rs as [|a rs IH]; [split; auto; intros _ [|i]; discriminate|].
  destruct rs as [|b rs]; [split; auto; intros _ [|[|i]]; discriminate|].
  change (sorted_radii (a :: b :: rs)) with ((if Rlt_dec b a then false else true) && sorted_radii (b :: rs)).
  rewrite andb_true_iff, IH. split.
  - intros (H1 & H2) [|i] x y Hx Hy.
    + cbn in Hx, Hy. injection Hx as <-. injection Hy as <-. destruct (Rlt_dec b a); [discriminate|lra].
    + apply (H2 i); auto.
  - intros H. split.
    + pose proof (H O a b eq_refl eq_refl). destruct (Rlt_dec b a); auto; lra.
    + intros i x y Hx Hy. apply (H (S i)); auto.
Qed.

Theorem pin_ok o x y rs ms : counted o -> well_formed (o_gm o) ->
  rs <> [] -> length ms = length rs -> (0 < nth 0 rs 0)%R -> nondecreasing rs ->
  exists o' out, pin_2d o x y rs ms = Ret (o', out) /\
    surfaces_added o o' out (length rs) (ring x y rs) (nth_error ms).
Proof.
  intros K W Hne Hl Hp Hs.
  destruct (built_step o (fun _ => x) (fun _ => y) O rs Hne _ _ _ _ _ O O (built_nil o (fun _ => x) (fun _ => y) O rs [] K))
    as (o1 & ts & E & B). cbn beta in E.
  assert (L := laid_nil o (fun p => ring x y rs (p_ring p)) (fun p => nth_error ms (p_ring p)) K W).
  destruct (laid_step _ _ _ _ _ _ _ _ _ _ _ _ _ _ ms L B) as (g' & Eg & L'); [lia|reflexivity|reflexivity|].
  destruct (pin_surfaces_ok o x y rs K Hne) as (o2 & E2 & _). rewrite E in E2. injection E2 as <- ->.
  cbn [app] in L', B. assert (LA := laid_added _ _ _ _ _ _ (mkPart 0 0 0 0) K L').
  rewrite new_parts_length in LA.
  exists (with_gm o1 g'), (tags (n_surfs o) (length rs)). split.
  - destruct rs as [|r0 rs']; [congruence|]. unfold pin_2d. rewrite Hl, Nat.eqb_refl. cbn [negb].
    cbn [nth] in Hp. destruct (Rle_dec r0 0); [lra|].
    rewrite (proj2 (sorted_radii_iff _) Hs). cbn [negb]. rewrite E.
    rewrite (assign_each_mats _ ms _ []) by (rewrite tags_length; auto). cbn [app length] in *.
    rewrite <- (tags_length (n_surfs o) (S (length rs'))) in Eg at 1. rewrite append_nil in Eg. rewrite Eg. reflexivity.
  - eapply added_ext; [exact LA| |]; intros q Hq; cbn beta;
      rewrite (nth_error_nth _ _ _ (new_parts_nth O rs O O q Hq)); reflexivity.
Qed.

Theorem pin_rejects o x y rs ms :
  rs = [] \/ length ms <> length rs \/ (nth 0 rs 0 <= 0)%R \/ ~ nondecreasing rs ->
  pin_2d o x y rs ms = Fail.
Proof.
  intros H. destruct rs as [|r0 rs]; [reflexivity|]. unfold pin_2d.
  destruct (Nat.eqb_spec (length (r0 :: rs)) (length ms)) as [E|E]; [|reflexivity]. cbn [negb].
  destruct (Rle_dec r0 0); auto. destruct (sorted_radii (r0 :: rs)) eqn:Es; [|reflexivity].
  exfalso. destruct H as [H|[H|[H|H]]]; [discriminate|congruence|cbn in H; lra|]. apply H. now apply sorted_radii_iff.
Qed.

(** * addCylindricalPinLattice2D *)
Lemma sums_sum : forall W s i, (i <= length W)%nat -> nth i (sums s W) 0%R = (s + fold_right Rplus 0 (firstn i W))%R.
Proof.
  induction W as [|w W IH]; intros s [|i] H; cbn in *; try lia; try lra.
  rewrite IH by lia. lra.
Qed.
Lemma firstn_S_sum : forall W i, (i < length W)%nat ->
  fold_right Rplus 0%R (firstn (S i) W) = (fold_right Rplus 0 (firstn i W) + nth i W 0)%R.
Proof.
  induction W as [|w W IH]; intros i H; cbn [length] in H; [lia|]. destruct i as [|i].
  - cbn. lra.
  - cbn [firstn fold_right nth]. cbn [firstn] in IH. rewrite IH by lia. cbn [fold_right]. lra.
Qed.
Lemma lattice_boxes W H i j : (i < length W)%nat -> (j < length H)%nat ->
  exists a b, rect_getBox [sums 0 W; sums 0 H] [Z.of_nat i; Z.of_nat j] = Ret [a; b] /\
    ((fst a + snd a) / 2 = middle W i)%R /\ ((fst b + snd b) / 2 = middle H j)%R.
Proof.
  intros Hi Hj. rewrite rect_getBox_ok.
  2:{ constructor; [|constructor; [|constructor]]; rewrite sums_length; lia. }
  cbn [gbox map rtoax combine fst snd]. do 2 eexists. split; [reflexivity|]. cbn [fst snd].
  replace (Z.to_nat (Z.of_nat j + 1)) with (S j) by lia. replace (Z.to_nat (Z.of_nat i + 1)) with (S i) by lia.
  rewrite !Nat2Z.id, !sums_sum by lia. unfold middle. rewrite !firstn_S_sum by lia. split; lra.
Qed.

Lemma lattice_parts_eq ids radii : lattice_parts ids radii =
  flat_map (fun pin => rows_parts pin (nth pin radii []) (rev ids) 0) (seq 0 (length radii)).
Proof.
  unfold lattice_parts. rewrite !flat_map_concat_map. f_equal. apply map_ext. intros pin.
  unfold rows_parts. rewrite rev_length, !flat_map_concat_map. f_equal. apply map_ext_in. intros j Hj.
  apply in_seq in Hj. rewrite rev_nth by lia. replace (length ids - 1 - j)%nat with (length ids - S j)%nat by lia.
  reflexivity.
Qed.
Lemma parts_nil pin rows j : rows_parts pin [] rows j = [].
Proof.
  unfold rows_parts. apply flat_map_nil_all. intros k _. unfold row_parts. apply flat_map_nil_all. intros i _.
  destruct (_ =? _); reflexivity.
Qed.

Theorem lattice_ok o ids xy radii mats off W H : counted o -> well_formed (o_gm o) ->
  lattice xy ids W H -> length radii = length xy -> length mats = length xy ->
  (forall pin rs ms, nth_error radii pin = Some rs -> nth_error mats pin = Some ms -> (length rs <= length ms)%nat) ->
  exists o' out, lattice_2d o ids xy radii mats off = Ret (o', out) /\
    let parts := lattice_parts ids radii in
    let p q := nth q parts (mkPart 0 0 0 0) in
    surfaces_added o o' out (length parts)
      (fun q => ring (middle W (p_col (p q)) + fst off) (middle H (p_row (p q)) + snd off)
                     (nth (p_pin (p q)) radii []) (p_ring (p q)))
      (fun q => nth_error (nth (p_pin (p q)) mats []) (p_ring (p q))).
Proof.
  intros K Wf HL Hr Hm Hms. cbv zeta. pose proof (of_lattice_ok _ _ _ _ HL) as EG.
  destruct HL as (Hl & HW & HH & _ & _ & _ & Hrow).
  set (shape := fun p => ring (middle W (p_col p) + fst off) (middle H (p_row p) + snd off) (nth (p_pin p) radii []) (p_ring p)).
  set (mat := fun p => nth_error (nth (p_pin p) mats []) (p_ring p)).
  assert (Rows : forall row, In row ids -> length row = length W /\
    forall id, In id row -> 0 <= id < Z.of_nat (length xy)).
  { intros row Hi. apply In_nth_error in Hi as (n & Hn).
    assert (Ln : (n < length ids)%nat) by (apply nth_error_Some; congruence).
    destruct (Hrow (length H - 1 - n)%nat row) as (R1 & R2); [|lia|].
    - replace (length H - 1 - (length H - 1 - n))%nat with n by lia. auto.
    - split; auto. intros id Hid. apply In_nth_error in Hid as (j & Hj). destruct (R2 j id Hj) as (d & D1 & D2 & _).
      split; auto. assert (Z.to_nat id < length xy)%nat by (apply nth_error_Some; congruence). lia. }
  assert (Hne : ids <> []) by (destruct H; [congruence|]; destruct ids; cbn in *; congruence).
  destruct ids as [|row0 ids']; [congruence|]. set (ids := row0 :: ids') in *.
  assert (Hn0 : length radii <> O).
  { rewrite Hr. destruct (Rows row0 (or_introl eq_refl)) as (R1 & R2).
    destruct row0 as [|z row0]; [destruct W; [congruence|discriminate]|]. specialize (R2 z (or_introl eq_refl)). lia. }
  assert (Loop : exists s, for_ (length radii) 0 (one_pin [sums 0 W; sums 0 H] off ids radii mats) (o, []) = Ret s /\
    laid o shape mat (flat_map (fun pin => rows_parts pin (nth pin radii []) (rev ids) 0) (seq 0 (length radii)))
      (fst s) (snd s)).
  { destruct (for_inv (fun n s => laid o shape mat
      (flat_map (fun pin => rows_parts pin (nth pin radii []) (rev ids) 0) (seq 0 n)) (fst s) (snd s))
      (one_pin [sums 0 W; sums 0 H] off ids radii mats) (length radii) O (o, [])) as (s & E & Hs).
    - apply laid_nil; auto.
    - intros pin [o1 out] Hp L. cbn [fst snd] in L.
      rewrite seq_S, flat_map_app. cbn [flat_map Nat.add]. rewrite app_nil_r.
      destruct (nth_error radii pin) as [rs|] eqn:Er; [|apply nth_error_None in Er; lia].
      destruct (nth_error mats pin) as [ms|] eqn:Em; [|apply nth_error_None in Em; lia].
      rewrite (nth_error_nth _ _ _ Er). unfold one_pin. rewrite (proj2 (rd_Ret _ _ _) Er). cbn [bind].
      destruct rs as [|r0 rs'] eqn:Ers.
      + exists (o1, out). split; auto. rewrite parts_nil, app_nil_r. auto.
      + rewrite <- Ers in *. assert (Rne : rs <> []) by (rewrite Ers; discriminate). clear r0 rs' Ers.
        destruct (rows_pins_ok o1 (fun i => middle W i + fst off)%R (fun j => middle H j + snd off)%R pin rs Rne
          [sums 0 W; sums 0 H] off (length W) (length H)) with
          (rows := rev ids) (j := O) (P := @nil part) (o := o1) (ids := repeat (@nil Z) (length rs)) (out0 := out) (out := out)
          as (o2 & ids2 & out2 & -> & B).
        * intros i j Hi Hj. destruct (lattice_boxes W H i j Hi Hj) as (a & b & Q1 & Q2 & Q3).
          exists a, b. split; auto. split; [rewrite Q2|rewrite Q3]; reflexivity.
        * rewrite rev_length. cbn [Nat.add]. rewrite Hl. auto.
        * apply Forall_forall. intros row Hin. apply in_rev in Hin. destruct (Rows row Hin). lia.
        * apply built_nil. apply L.
        * cbn [bind app] in *. rewrite (proj2 (rd_Ret _ _ _) Em). cbn [bind].
          destruct (laid_step _ _ _ _ _ _ _ _ _ _ _ _ _ _ ms L B) as (g' & -> & L').
          -- eapply Hms; eauto.
          -- intros p Hin. apply In_nth_error in Hin as (q & Hq). destruct (b_ring _ _ _ _ _ _ _ _ _ _ B q p Hq) as (P1 & _).
             unfold shape. rewrite P1, (nth_error_nth _ _ _ Er). reflexivity.
          -- intros p Hin. apply In_nth_error in Hin as (q & Hq). destruct (b_ring _ _ _ _ _ _ _ _ _ _ B q p Hq) as (P1 & _).
             unfold mat. rewrite P1, (nth_error_nth _ _ _ Em). reflexivity.
          -- cbn [bind]. eexists. split; [reflexivity|]. exact L'.
    - exists s. split; auto. }
  destruct Loop as ([o' out] & EL & L). cbn [fst snd] in L. exists o', out. split.
  - unfold lattice_2d. rewrite (proj2 (Nat.eqb_neq _ _) Hn0).
    rewrite Hm, Hr, Nat.eqb_refl. cbn [negb]. cbn [rd nth_error ids bind].
    fold ids. replace (forallb (fun row => (length row =? length row0)%nat) ids) with true.
    2:{ symmetry. apply forallb_forall. intros row Hi. apply Nat.eqb_eq.
        destruct (Rows row Hi) as (-> & _), (Rows row0 (or_introl eq_refl)) as (-> & _). auto. }
    replace (forallb _ ids) with true.
    2:{ symmetry. apply forallb_forall. intros row Hi. apply forallb_forall. intros id Hid.
        destruct (Rows row Hi) as (_ & R2). apply R2 in Hid. apply andb_true_iff. split; [apply Z.leb_le|apply Z.ltb_lt]; lia. }
    cbn [negb]. rewrite EG. cbn [bind]. rewrite <- Hr. exact EL.
  - rewrite lattice_parts_eq. exact (laid_added _ _ _ _ _ _ (mkPart 0 0 0 0) K L).
Qed.

Theorem lattice_rejects o row0 ids xy radii mats off :
  radii = [] \/ length mats <> length radii \/ length xy <> length radii \/
  (exists row, In row (row0 :: ids) /\ length row <> length row0) \/
  (exists row id, In row (row0 :: ids) /\ In id row /\ ~ 0 <= id < Z.of_nat (length radii)) ->
  lattice_2d o (row0 :: ids) xy radii mats off = Fail.
Proof.
  intros H. unfold lattice_2d. destruct (Nat.eqb_spec (length radii) 0) as [|N0]; auto.
  destruct (Nat.eqb_spec (length radii) (length mats)); auto. destruct (Nat.eqb_spec (length radii) (length xy)); auto.
  cbn [negb rd nth_error bind].
  destruct (forallb (fun row => (length row =? length row0)%nat) (row0 :: ids)) eqn:F1; auto.
  destruct (forallb (forallb _) (row0 :: ids)) eqn:F2; auto.
  exfalso. destruct H as [->|[H|[H|[(row & Hi & H)|(row & id & Hi & Hd & H)]]]]; auto.
  - rewrite forallb_forall in F1. apply H. apply Nat.eqb_eq. auto.
  - rewrite forallb_forall in F2. apply F2 in Hi. rewrite forallb_forall in Hi. apply Hi in Hd.
    apply andb_true_iff in Hd as (A & B). apply Z.leb_le in A. apply Z.ltb_lt in B. lia.
Qed.

(** * The parts of a lattice *)
Lemma nodup_app_intro {A} (l m : list A) : NoDup l -> NoDup m -> (forall x, In x l -> ~ In x m) -> NoDup (l ++ m).
Proof.
  induction l as [|a l IH]; intros Hl Hm H; cbn; auto. inversion Hl; subst. constructor.
  - rewrite in_app_iff. intros [?|?]; [auto|]. apply (H a); auto. now left.
  - apply IH; auto. intros x Hx. apply H. now right.
Qed.
Lemma nodup_flat_map {A B} (f : A -> list B) (key : B -> A) l : NoDup l ->
  (forall a, In a l -> NoDup (f a)) -> (forall a b, In b (f a) -> key b = a) -> NoDup (flat_map f l).
Proof.
  intros N Hf Hk. induction l as [|a l IH]; cbn; [constructor|]. inversion N as [|? ? N1 N2]; subst.
  apply nodup_app_intro.
  - apply Hf. now left.
  - apply IH; auto. intros x Hx. apply Hf. now right.
  - intros b H1 H2. apply in_flat_map in H2 as (a' & Ha' & H2). apply Hk in H1, H2. subst. auto.
Qed.
Theorem parts_iff ids radii : NoDup (lattice_parts ids radii) /\
  forall p, In p (lattice_parts ids radii) <->
    exists row rs, (p_row p < length ids)%nat /\ nth_error ids (length ids - 1 - p_row p) = Some row /\
      nth_error row (p_col p) = Some (Z.of_nat (p_pin p)) /\
      nth_error radii (p_pin p) = Some rs /\ (p_ring p < length rs)%nat.
Proof.
  assert (Mem : forall pin j row rs p,
    In p (flat_map (fun i => if nth i row (-1) =? Z.of_nat pin then map (mkPart pin j i) (seq 0 (length rs)) else []) (seq 0 (length row)))
    <-> p_pin p = pin /\ p_row p = j /\ nth_error row (p_col p) = Some (Z.of_nat (p_pin p)) /\ (p_ring p < length (rs : list R))%nat).
  { intros pin j row rs p. rewrite in_flat_map. split.
    - intros (i & Hi & H). apply in_seq in Hi. destruct (Z.eqb_spec (nth i row (-1)) (Z.of_nat pin)) as [E|E]; [|destruct H].
      apply in_map_iff in H as (k & <- & Hk). apply in_seq in Hk. cbn. repeat split; try lia.
      rewrite <- E. apply nth_error_nth'. lia.
    - intros (<- & <- & H1 & H2). exists (p_col p).
      assert (p_col p < length row)%nat by (apply nth_error_Some; congruence). split; [apply in_seq; lia|].
      rewrite (nth_error_nth _ _ _ H1), Z.eqb_refl. apply in_map_iff. exists (p_ring p). split; [now destruct p|].
      apply in_seq. lia. }
  split.
  - unfold lattice_parts. apply (nodup_flat_map _ p_pin); [apply seq_NoDup| |].
    + intros pin _. apply (nodup_flat_map _ p_row); [apply seq_NoDup| |].
      * intros j _. cbv zeta. apply (nodup_flat_map _ p_col); [apply seq_NoDup| |].
        -- intros i _. destruct (_ =? _); [|constructor]. apply FinFun.Injective_map_NoDup; [|apply seq_NoDup].
           intros a b E. now injection E.
        -- intros i p H. destruct (_ =? _); [|destruct H]. apply in_map_iff in H as (k & <- & _). reflexivity.
      * intros j p H. cbv zeta in H. apply Mem in H. tauto.
    + intros pin p H. apply in_flat_map in H as (j & _ & H). cbv zeta in H. apply Mem in H. tauto.
  - intros p. unfold lattice_parts. rewrite in_flat_map. split.
    + intros (pin & Hp & H). apply in_flat_map in H as (j & Hj & H). cbv zeta in H.
      apply Mem in H as (<- & <- & H1 & H2). apply in_seq in Hp, Hj.
      exists (nth (length ids - 1 - p_row p) ids []), (nth (p_pin p) radii []).
      split; [lia|]. split; [apply nth_error_nth'; lia|]. split; [auto|]. split; [apply nth_error_nth'; lia|auto].
    + intros (row & rs & H1 & H2 & H3 & H4 & H5). exists (p_pin p).
      assert (p_pin p < length radii)%nat by (apply nth_error_Some; congruence). split; [apply in_seq; lia|].
      apply in_flat_map. exists (p_row p). split; [apply in_seq; lia|]. cbv zeta.
      apply Mem. rewrite (nth_error_nth _ _ _ H2), (nth_error_nth _ _ _ H4). auto.
Qed.
