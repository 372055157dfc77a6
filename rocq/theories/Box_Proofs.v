From Coq Require Import List Arith ZArith Reals Lia Lra Bool Psatz.
From Verif Require Import Base Loops Arith Vec_Model XReal Box_Model Box_Spec.
Import ListNotations.

Section Order.
Context {T : Type} (o : arith T) (le : T -> T -> Prop) (H : total_order o le).

Lemma le_cases x y : le x y \/ le y x.
Proof.
  destruct (oltb o x y) eqn:E; [left; now apply (to_ltb_le o le H)|right; now apply (to_ltb o le H)].
Qed.
Lemma tmin_l a b : le (tmin o a b) a.
Proof. unfold tmin. destruct (oltb o b a) eqn:E; [now apply (to_ltb_le o le H)|apply (to_refl o le H)]. Qed.
Lemma tmin_r a b : le (tmin o a b) b.
Proof. unfold tmin. destruct (oltb o b a) eqn:E; [apply (to_refl o le H)|now apply (to_ltb o le H)]. Qed.
Lemma tmin_glb a b c : le c a -> le c b -> le c (tmin o a b).
Proof. unfold tmin. destruct (oltb o b a); auto. Qed.
Lemma tmax_l a b : le a (tmax o a b).
Proof. unfold tmax. destruct (oltb o a b) eqn:E; [now apply (to_ltb_le o le H)|apply (to_refl o le H)]. Qed.
Lemma tmax_r a b : le b (tmax o a b).
Proof. unfold tmax. destruct (oltb o a b) eqn:E; [apply (to_refl o le H)|now apply (to_ltb o le H)]. Qed.
Lemma tmax_lub a b c : le a c -> le b c -> le (tmax o a b) c.
Proof. unfold tmax. destruct (oltb o a b); auto. Qed.
Lemma tmin_choice a b : tmin o a b = a \/ tmin o a b = b.
Proof. unfold tmin. destruct (oltb o b a); auto. Qed.
Lemma tmax_choice a b : tmax o a b = a \/ tmax o a b = b.
Proof. unfold tmax. destruct (oltb o a b); auto. Qed.

Notation F2 := (Forall2 le).
Lemma F2_refl u : F2 u u.
Proof. induction u; constructor; auto. apply (to_refl o le H). Qed.
Lemma F2_trans u v w : F2 u v -> F2 v w -> F2 u w.
Proof.
  intros Huv; revert w; induction Huv as [|x y u v Hxy Huv IH]; intros w Hw; inversion Hw; subst; constructor; auto.
  eapply (to_trans o le H); eauto.
Qed.
Lemma F2_anti u v : F2 u v -> F2 v u -> u = v.
Proof.
  induction 1 as [|x y u v Hxy Huv IH]; intros Hv; [auto|]. inversion Hv; subst. f_equal; auto.
  now apply (to_anti o le H).
Qed.
Lemma F2_len u v : F2 u v -> length u = length v.
Proof. induction 1; cbn; auto. Qed.

Lemma map2_length (f : T -> T -> T) u v : length u = length v -> length (map2 f u v) = length u.
Proof. revert v; induction u as [|x u IH]; intros [|y v] E; cbn in *; try lia. rewrite IH; lia. Qed.

Lemma vmin_lower u v : length u = length v -> F2 (vmin o u v) u /\ F2 (vmin o u v) v.
Proof.
  revert v; induction u as [|x u IH]; intros [|y v] E; cbn in *; try lia; [split; constructor|].
  destruct (IH v) as [? ?]; [lia|]. split; constructor; auto; [apply tmin_l|apply tmin_r].
Qed.
Lemma vmax_upper u v : length u = length v -> F2 u (vmax o u v) /\ F2 v (vmax o u v).
Proof.
  revert v; induction u as [|x u IH]; intros [|y v] E; cbn in *; try lia; [split; constructor|].
  destruct (IH v) as [? ?]; [lia|]. split; constructor; auto; [apply tmax_l|apply tmax_r].
Qed.
Lemma vmin_glb w u v : F2 w u -> F2 w v -> F2 w (vmin o u v).
Proof.
  intros Hu; revert v; induction Hu as [|x y w u Hxy Hu IH]; intros v Hv; inversion Hv; subst; cbn; constructor.
  - now apply tmin_glb.
  - now apply IH.
Qed.
Lemma vmax_lub w u v : F2 u w -> F2 v w -> F2 (vmax o u v) w.
Proof.
  intros Hu; revert v; induction Hu as [|x y u w Hxy Hu IH]; intros v Hv; inversion Hv; subst; cbn; constructor.
  - now apply tmax_lub.
  - now apply IH.
Qed.

Lemma contains_iff b p D : length (bmin b) = D -> length (bmax b) = D -> length p = D ->
  (box_contains o b p = true <-> in_box le b p).
Proof.
  destruct b as [lo hi]. unfold box_contains, in_box. cbn [bmin bmax]. revert p lo hi.
  induction D as [|D IH]; intros p lo hi E1 E2 E3; destruct p, lo, hi; cbn in *; try lia.
  - split; auto.
  - specialize (IH p lo hi ltac:(lia) ltac:(lia) ltac:(lia)).
    destruct (oltb o t t0) eqn:Ea; cbn [orb].
    + split; [discriminate|]. intros [A B]. inversion A; subst.
      apply (to_ltb o le H) in H3. congruence.
    + destruct (oltb o t1 t) eqn:Eb.
      * split; [discriminate|]. intros [A B]. inversion B; subst.
        apply (to_ltb o le H) in H3. congruence.
      * apply (to_ltb o le H) in Ea, Eb. rewrite IH. split.
        -- intros [A B]. split; constructor; auto.
        -- intros [A B]. inversion A; inversion B; subst. auto.
Qed.

Lemma intersects_iff a b D : valid_box le D a -> valid_box le D b ->
  (box_intersects o a b = true <-> exists p, in_box le a p /\ in_box le b p).
Proof.
  destruct a as [lo hi], b as [lo' hi']. unfold valid_box, box_intersects, in_box. cbn [bmin bmax].
  intros (E1 & E2 & V1) (E3 & E4 & V2). revert lo' hi' D E1 E2 E3 E4 V2.
  induction V1 as [|a b lo hi Hab V1 IH]; intros lo' hi' D E1 E2 E3 E4 V2.
  - destruct V2; cbn in *; [|lia]. split; auto. intros _. exists []. auto.
  - destruct V2 as [|a' b' lo' hi' Hab' V2]; cbn in *; [lia|].
    specialize (IH lo' hi' (pred D) ltac:(lia) ltac:(lia) ltac:(lia) ltac:(lia) V2).
    destruct (oltb o b a') eqn:Ea; cbn [orb].
    + split; [discriminate|]. intros (p & (A & B) & (C & E)). inversion A; subst. inversion B; subst. inversion C; subst.
      assert (L : le a' b) by (eapply (to_trans o le H); eauto). apply (to_ltb o le H) in L. congruence.
    + destruct (oltb o b' a) eqn:Eb.
      * split; [discriminate|]. intros (p & (A & B) & (C & E)). inversion A; subst. inversion B; subst. inversion C; subst. inversion E; subst.
        assert (L : le a b') by (eapply (to_trans o le H); eauto). apply (to_ltb o le H) in L. congruence.
      * apply (to_ltb o le H) in Ea, Eb. rewrite IH. split.
        -- intros (p & (A & B) & (C & E)). exists (tmax o a a' :: p).
           split; split; constructor; auto.
           ++ apply tmax_l.
           ++ now apply tmax_lub.
           ++ apply tmax_r.
           ++ now apply tmax_lub.
        -- intros (p & (A & B) & (C & E)). destruct p as [|x p]; [inversion A|]. exists p.
           inversion A; inversion B; inversion C; inversion E; subst. auto.
Qed.

(** for non-empty boxes, inclusion of point sets is the order of the corners *)
Lemma subset_within a b D : valid_box le D a -> (subset le a b <-> within le a b).
Proof.
  intros (E1 & E2 & V). split.
  - intros Hs. split.
    + apply (Hs (bmin a)). split; [apply F2_refl|auto].
    + apply (Hs (bmax a)). split; [auto|apply F2_refl].
  - intros (A & B) p (P & Q). split; eapply F2_trans; eauto.
Qed.

Lemma box_add_valid a b D : valid_box le D a -> valid_box le D b -> valid_box le D (box_add o a b).
Proof.
  intros (A1 & A2 & A3) (B1 & B2 & B3). unfold valid_box, box_add. cbn.
  unfold vmin, vmax. rewrite !map2_length by congruence. split; [auto|]. split; [auto|].
  apply F2_trans with (bmin a); [apply vmin_lower; congruence|].
  apply F2_trans with (bmax a); [auto|]. apply vmax_upper; congruence.
Qed.
Lemma box_add_within a b D c : valid_box le D a -> valid_box le D b ->
  (within le (box_add o a b) c <-> within le a c /\ within le b c).
Proof.
  intros (A1 & A2 & A3) (B1 & B2 & B3). unfold within, box_add. cbn.
  destruct (vmin_lower (bmin a) (bmin b)) as [L1 L2]; [congruence|].
  destruct (vmax_upper (bmax a) (bmax b)) as [U1 U2]; [congruence|]. split.
  - intros [P Q]. repeat split; eapply F2_trans; eauto.
  - intros ((P & Q) & (P' & Q')). split; [now apply vmin_glb|now apply vmax_lub].
Qed.
Lemma box_add_least a b D : valid_box le D a -> valid_box le D b ->
  valid_box le D (box_add o a b) /\ forall c, subset le (box_add o a b) c <-> subset le a c /\ subset le b c.
Proof.
  intros Ha Hb. pose proof (box_add_valid a b D Ha Hb) as Hv. split; [auto|]. intros c.
  rewrite (subset_within _ c D Hv), (subset_within a c D Ha), (subset_within b c D Hb).
  now apply box_add_within with (D := D).
Qed.

Lemma tmin_comm a b : tmin o a b = tmin o b a.
Proof. apply (to_anti o le H); apply tmin_glb; auto using tmin_l, tmin_r. Qed.
Lemma tmax_comm a b : tmax o a b = tmax o b a.
Proof. apply (to_anti o le H); apply tmax_lub; auto using tmax_l, tmax_r. Qed.
Lemma tmin_assoc a b c : tmin o a (tmin o b c) = tmin o (tmin o a b) c.
Proof.
  apply (to_anti o le H); repeat apply tmin_glb; auto using tmin_l, tmin_r;
  eauto using (to_trans o le H), tmin_l, tmin_r.
Qed.
Lemma tmax_assoc a b c : tmax o a (tmax o b c) = tmax o (tmax o a b) c.
Proof.
  apply (to_anti o le H); repeat apply tmax_lub; auto using tmax_l, tmax_r;
  eauto using (to_trans o le H), tmax_l, tmax_r.
Qed.
Lemma tmin_idem a : tmin o a a = a.
Proof. destruct (tmin_choice a a); auto. Qed.
Lemma tmax_idem a : tmax o a a = a.
Proof. destruct (tmax_choice a a); auto. Qed.
Lemma map2_comm f (Hf : forall a b : T, f a b = f b a) u v : map2 f u v = map2 f v u.
Proof. revert v; induction u as [|x u IH]; intros [|y v]; cbn; auto. f_equal; auto. Qed.
Lemma map2_assoc f (Hf : forall a b c : T, f a (f b c) = f (f a b) c) u v w :
  map2 f u (map2 f v w) = map2 f (map2 f u v) w.
Proof. revert v w; induction u as [|x u IH]; intros [|y v] [|z w]; cbn; auto. f_equal; auto. Qed.
Lemma map2_idem f (Hf : forall a : T, f a a = a) u : map2 f u u = u.
Proof. induction u as [|x u IH]; cbn; auto. f_equal; auto. Qed.
Lemma box_add_laws a b c : box_add o a b = box_add o b a /\
  box_add o a (box_add o b c) = box_add o (box_add o a b) c /\ box_add o a a = a.
Proof.
  unfold box_add, vmin, vmax. cbn [bmin bmax]. repeat split.
  - now rewrite (map2_comm _ tmin_comm), (map2_comm _ tmax_comm).
  - now rewrite (map2_assoc _ tmin_assoc), (map2_assoc _ tmax_assoc).
  - rewrite (map2_idem _ tmin_idem), (map2_idem _ tmax_idem). now destruct a.
Qed.

(** adding a point is adding the box of that one point *)
Lemma box_add_pt_eq b p : box_add_pt o b p = box_add o b (mkBox p p).
Proof. reflexivity. Qed.
Lemma point_box_valid p : valid_box le (length p) (mkBox p p).
Proof. unfold valid_box; cbn. auto using F2_refl. Qed.
Lemma subset_point p c : subset le (mkBox p p) c <-> in_box le c p.
Proof.
  rewrite (subset_within _ c _ (point_box_valid p)). unfold within, in_box. cbn. tauto.
Qed.
Lemma box_add_pt_least b p D : valid_box le D b -> length p = D ->
  valid_box le D (box_add_pt o b p) /\ in_box le (box_add_pt o b p) p /\ subset le b (box_add_pt o b p) /\
  forall c, subset le (box_add_pt o b p) c <-> subset le b c /\ in_box le c p.
Proof.
  intros Hb Hp. rewrite box_add_pt_eq. pose proof (point_box_valid p) as Hv. rewrite Hp in Hv.
  destruct (box_add_least b (mkBox p p) D Hb Hv) as [V L]. split; [auto|].
  assert (R : forall c, subset le c c) by (intros c q; auto).
  destruct (proj1 (L _) (R _)) as [L1 L2]. rewrite subset_point in L2. split; [auto|]. split; [auto|].
  intros c. rewrite L, subset_point. tauto.
Qed.

(** boundingBox *)
Lemma fold_bounds ps : forall lo hi D, length lo = D -> length hi = D -> (forall q, In q ps -> length q = D) ->
  let lo' := fold_left (vmin o) ps lo in let hi' := fold_left (vmax o) ps hi in
  length lo' = D /\ length hi' = D /\
  F2 lo' lo /\ F2 hi hi' /\ (forall q, In q ps -> F2 lo' q /\ F2 q hi') /\
  (forall w, F2 w lo -> (forall q, In q ps -> F2 w q) -> F2 w lo') /\
  (forall w, F2 hi w -> (forall q, In q ps -> F2 q w) -> F2 hi' w).
Proof.
  induction ps as [|p ps IH]; intros lo hi D E1 E2 Hps; cbn.
  - repeat split; auto using F2_refl; intros; contradiction.
  - assert (Hp : length p = D) by (apply Hps; now left).
    destruct (IH (vmin o lo p) (vmax o hi p) D) as (L1 & L2 & A & B & C & G & U).
    { unfold vmin. rewrite map2_length; congruence. }
    { unfold vmax. rewrite map2_length; congruence. }
    { intros q Hq; apply Hps; now right. }
    destruct (vmin_lower lo p) as [M1 M2]; [congruence|]. destruct (vmax_upper hi p) as [N1 N2]; [congruence|].
    split; [auto|]. split; [auto|]. split; [eapply F2_trans; eauto|]. split; [eapply F2_trans; eauto|]. split.
    { intros q [<-|Hq]; [split; eapply F2_trans; eauto|auto]. }
    split.
    + intros w Hw Hq. apply G; [apply vmin_glb; auto|auto].
    + intros w Hw Hq. apply U; [apply vmax_lub; auto|auto].
Qed.
Lemma nth_map2 (f : T -> T -> T) u v i x y : nth_error u i = Some x -> nth_error v i = Some y ->
  nth_error (map2 f u v) i = Some (f x y).
Proof.
  revert u v; induction i as [|i IH]; intros [|a u] [|b v] E1 E2; cbn in *; try discriminate.
  - injection E1 as ->. now injection E2 as ->.
  - now apply IH.
Qed.
Lemma fold_touch f (Hf : forall a b : T, f a b = a \/ f a b = b) ps : forall lo D i, length lo = D ->
  (forall q, In q ps -> length q = D) -> i < D ->
  exists q, In q (lo :: ps) /\ nth_error (fold_left (map2 f) ps lo) i = nth_error q i.
Proof.
  induction ps as [|p ps IH]; intros lo D i E Hps Hi; cbn [fold_left].
  - exists lo. split; [now left|auto].
  - assert (Hp : length p = D) by (apply Hps; now left).
    destruct (IH (map2 f lo p) D i) as (q & Hq & Eq); auto.
    { rewrite map2_length; congruence. }
    { intros q Hq; apply Hps; now right. }
    destruct Hq as [<-|Hq]; [|exists q; split; [right; now right|auto]].
    destruct (nth_error lo i) as [x|] eqn:Ex; [|apply nth_error_None in Ex; lia].
    destruct (nth_error p i) as [y|] eqn:Ey; [|apply nth_error_None in Ey; lia].
    rewrite (nth_map2 f _ _ _ _ _ Ex Ey) in Eq.
    destruct (Hf x y) as [Hc|Hc].
    + exists lo. split; [now left|]. rewrite Eq, Ex. now f_equal.
    + exists p. split; [right; now left|]. rewrite Eq, Ey. now f_equal.
Qed.
Lemma boundingBox_ok ps D : ps <> [] -> (forall p, In p ps -> length p = D) ->
  exists b, boundingBox o ps = Ret b /\ valid_box le D b /\
    (forall c, subset le b c <-> forall p, In p ps -> in_box le c p) /\
    (forall i, i < D -> (exists p, In p ps /\ nth_error p i = nth_error (bmin b) i) /\
                        (exists p, In p ps /\ nth_error p i = nth_error (bmax b) i)).
Proof.
  destruct ps as [|p r]; intros Hne Hps; [congruence|]. clear Hne.
  assert (Hp : length p = D) by (apply Hps; now left).
  assert (Hr : forall q, In q r -> length q = D) by (intros; apply Hps; now right).
  cbn [boundingBox]. eexists. split; [reflexivity|].
  destruct (fold_bounds r p p D Hp Hp Hr) as (L1 & L2 & A & B & C & G & U).
  assert (V : valid_box le D (mkBox (fold_left (vmin o) r p) (fold_left (vmax o) r p))).
  { split; [auto|]. split; [auto|]. cbn. eapply F2_trans; eauto. }
  split; [auto|]. split.
  - intros c. rewrite (subset_within _ c D V). unfold within, in_box. cbn [bmin bmax]. split.
    + intros [P Q] q [<-|Hq]; [split; eapply F2_trans; eauto|]. destruct (C q Hq). split; eapply F2_trans; eauto.
    + intros Hc. split; [apply G|apply U]; try (apply Hc; now left); intros q Hq; apply Hc; now right.
  - intros i Hi. cbn [bmin bmax]. split.
    + destruct (fold_touch (tmin o) tmin_choice r p D i Hp Hr Hi) as (q & Hq & E). exists q. split; [auto|]. symmetry. exact E.
    + destruct (fold_touch (tmax o) tmax_choice r p D i Hp Hr Hi) as (q & Hq & E). exists q. split; [auto|]. symmetry. exact E.
Qed.

(** the empty box *)
Lemma vmin_repeat c D u : length u = D -> Forall (fun x => le x c) u -> vmin o (repeat c D) u = u.
Proof.
  revert u; induction D as [|D IH]; intros [|x u] E Hu; cbn in *; try lia; auto. inversion Hu; subst. f_equal.
  - apply (to_anti o le H); [apply tmin_r|apply tmin_glb; auto; apply (to_refl o le H)].
  - apply IH; auto.
Qed.
Lemma vmax_repeat c D u : length u = D -> Forall (fun x => le c x) u -> vmax o (repeat c D) u = u.
Proof.
  revert u; induction D as [|D IH]; intros [|x u] E Hu; cbn in *; try lia; auto. inversion Hu; subst. f_equal.
  - apply (to_anti o le H); [apply tmax_lub; auto; apply (to_refl o le H)|apply tmax_r].
  - apply IH; auto.
Qed.
Lemma box_empty_neutral big D b : length (bmin b) = D -> length (bmax b) = D ->
  Forall (fun x => le x big) (bmin b) -> Forall (fun x => le (oopp o big) x) (bmax b) ->
  box_add o (box_empty o big D) b = b /\ box_add o b (box_empty o big D) = b.
Proof.
  intros E1 E2 H1 H2.
  assert (L : box_add o (box_empty o big D) b = b).
  { unfold box_add, box_empty. cbn [bmin bmax]. rewrite vmin_repeat, vmax_repeat by auto. now destruct b. }
  split; [auto|]. destruct (box_add_laws b (box_empty o big D) b) as (C & _). now rewrite C.
Qed.
Lemma box_empty_nothing big D p : D > 0 -> ~ le big (oopp o big) -> ~ in_box le (box_empty o big D) p.
Proof.
  intros HD Hb (A & B). destruct D as [|D]; [lia|]. cbn in *. inversion A; subst. inversion B; subst.
  apply Hb. eapply (to_trans o le H); eauto.
Qed.
End Order.

(** * instances *)
Lemma Rltb_false x y : Rltb x y = false <-> (y <= x)%R.
Proof. unfold Rltb. destruct (Rlt_dec x y); split; intros; auto; try discriminate; lra. Qed.
Lemma Rltb_true x y : Rltb x y = true <-> (x < y)%R.
Proof. unfold Rltb. destruct (Rlt_dec x y); split; intros; auto; try discriminate; lra. Qed.
Lemma Reqb_true x y : Reqb x y = true <-> x = y.
Proof. unfold Reqb. destruct (Req_EM_T x y); split; intros; auto; discriminate. Qed.
Lemma Reqb_false x y : Reqb x y = false <-> x <> y.
Proof. unfold Reqb. destruct (Req_EM_T x y); split; intros; auto; try discriminate; contradiction. Qed.
Lemma R_total : total_order Rarith Rle.
Proof.
  constructor; cbn; intros; try lra.
  - apply Rltb_false.
  - apply Rltb_true in H. lra.
Qed.
Lemma Z_total : total_order Zarith Z.le.
Proof.
  constructor; cbn; intros; try lia.
Qed.

Local Open Scope R_scope.
(** * extents, centroid and scaling, over the reals *)
Lemma box_scale_ok D b s : valid_box Rle D b ->
  let b' := box_scale Rarith b s in
  box_centroid Rarith b' = box_centroid Rarith b /\ extents Rarith b' = map (Rmult s) (extents Rarith b).
Proof.
  destruct b as [lo hi]. intros (E1 & E2 & V). unfold box_scale, box_centroid, extents, midpoint. cbn [bmin bmax] in *.
  clear E1 E2. cbv zeta. cbn [bmin bmax]. unfold vsub, vadd, vscale, vdivs. induction V as [|x y lo hi Hxy V [IH1 IH2]]; cbn; auto.
  cbn in IH1, IH2. split; f_equal; auto; unfold o2; cbn; field.
Qed.
Lemma box_centroid_in D b : valid_box Rle D b -> in_box Rle b (box_centroid Rarith b) /\ Forall (Rle 0) (extents Rarith b).
Proof.
  destruct b as [lo hi]. intros (E1 & E2 & V). unfold in_box, box_centroid, extents, midpoint. cbn [bmin bmax] in *.
  clear E1 E2. unfold vsub, vadd, vdivs. induction V as [|x y lo hi Hxy V [[IH1 IH2] IH3]]; cbn; auto.
  cbn in *. unfold o2; cbn. repeat split; constructor; auto; lra.
Qed.
Lemma box_scale_valid D b s : valid_box Rle D b -> 0 <= s -> valid_box Rle D (box_scale Rarith b s).
Proof.
  destruct b as [lo hi]. unfold valid_box, box_scale, extents. cbn [bmin bmax]. intros (E1 & E2 & V) Hs.
  cbv zeta. cbn [bmin bmax]. unfold vsub, vadd, vscale.
  rewrite !map2_length; rewrite ?map_length, ?map2_length; try congruence. split; [auto|]. split; [auto|]. clear E1 E2.
  induction V as [|x y lo hi Hxy V IH]; cbn; auto. constructor; auto. unfold o2; cbn. nra.
Qed.

(** * rays and boxes *)
(** order on extended reals *)
Definition xval (x : xr) : R := match x with Fin r => r | _ => 0 end.
Definition xle (x y : xr) : Prop :=
  match x, y with
  | NaN, _ | _, NaN => False
  | Inf s, Inf t => s = true \/ t = false
  | Inf s, _ => s = true
  | _, Inf s => s = false
  | x, y => xval x <= xval y
  end.
Ltac xb := unfold tmin, tmax, xltb, xle, xval in *; cbn in *; unfold xltb in *.
Lemma xltb_true x y : xltb x y = true <-> (xle x y /\ ~ xle y x).
Proof.
  destruct x as [a| |[]|], y as [b| |[]|]; cbn; rewrite ?Rltb_true; try (split; [intros|intros [? ?]]; intuition (try discriminate; try lra)).
Qed.
Lemma xle_trans x y z : xle x y -> xle y z -> xle x z.
Proof. destruct x as [a| |[]|], y as [b| |[]|], z as [c| |[]|]; cbn; intuition (try discriminate; try lra). Qed.
Lemma xle_total x y : x <> NaN -> y <> NaN -> xle x y \/ xle y x.
Proof.
  destruct x as [a| |[]|], y as [b| |[]|]; cbn; intros; try congruence; try (left; intuition lra); try (right; intuition lra); try (left; tauto); try (right; tauto).
  - destruct (Rle_dec a b); [left|right]; lra.
  - destruct (Rle_dec a 0); [left|right]; lra.
  - destruct (Rle_dec 0 b); [left|right]; lra.
Qed.
Lemma xltb_false x y : x <> NaN -> y <> NaN -> xltb y x = false -> xle x y.
Proof.
  intros Hx Hy. destruct x as [a| |[]|], y as [b| |[]|]; cbn; intros E; try congruence; try apply Rltb_false in E; auto; lra.
Qed.
Lemma xmin_le x y z : x <> NaN -> y <> NaN -> (xle (tmin Xarith x y) z <-> xle x z \/ xle y z) /\ tmin Xarith x y <> NaN.
Proof.
  intros Hx Hy. unfold tmin. cbn [Xarith oltb]. destruct (xltb y x) eqn:E.
  - apply xltb_true in E as [E1 E2]. split; [|auto]. split; [auto|]. intros [H|H]; auto. eapply xle_trans; eauto.
  - assert (E1 : xle x y) by (now apply xltb_false).
    split; [|auto]. split; [auto|]. intros [H|H]; auto. eapply xle_trans; eauto.
Qed.
Lemma xmin_ge x y z : x <> NaN -> y <> NaN -> (xle z (tmin Xarith x y) <-> xle z x /\ xle z y).
Proof.
  intros Hx Hy. unfold tmin. cbn [Xarith oltb]. destruct (xltb y x) eqn:E.
  - apply xltb_true in E as [E1 E2]. split; [|tauto]. intros; split; auto. eapply xle_trans; eauto.
  - assert (E1 : xle x y) by (now apply xltb_false).
    split; [|tauto]. intros; split; auto. eapply xle_trans; eauto.
Qed.
Lemma xmax_ge x y z : x <> NaN -> y <> NaN -> (xle z (tmax Xarith x y) <-> xle z x \/ xle z y) /\ tmax Xarith x y <> NaN.
Proof.
  intros Hx Hy. unfold tmax. cbn [Xarith oltb]. destruct (xltb x y) eqn:E.
  - apply xltb_true in E as [E1 E2]. split; [|auto]. split; [auto|]. intros [H|H]; auto. eapply xle_trans; eauto.
  - assert (E1 : xle y x) by (now apply xltb_false).
    split; [|auto]. split; [auto|]. intros [H|H]; auto. eapply xle_trans; eauto.
Qed.
Lemma xmax_le x y z : x <> NaN -> y <> NaN -> (xle (tmax Xarith x y) z <-> xle x z /\ xle y z).
Proof.
  intros Hx Hy. unfold tmax. cbn [Xarith oltb]. destruct (xltb x y) eqn:E.
  - apply xltb_true in E as [E1 E2]. split; [|tauto]. intros; split; auto. eapply xle_trans; eauto.
  - assert (E1 : xle y x) by (now apply xltb_false).
    split; [|tauto]. intros; split; auto. eapply xle_trans; eauto.
Qed.

Definition proper (x : xr) : Prop := match x with Fin _ | Inf _ => True | _ => False end.
Lemma proper_nan x : proper x -> x <> NaN.
Proof. destruct x; cbn; congruence. Qed.
Lemma proper_min x y : proper x -> proper y -> proper (tmin Xarith x y).
Proof. unfold tmin. destruct (oltb Xarith y x); auto. Qed.
Lemma proper_max x y : proper x -> proper y -> proper (tmax Xarith x y).
Proof. unfold tmax. destruct (oltb Xarith x y); auto. Qed.
Lemma xsub_Fin a b : xsub (Fin a) (Fin b) = Fin (a - b).
Proof.
  unfold xsub, xopp. destruct (Reqb b 0) eqn:E; cbn; [|reflexivity].
  apply Reqb_true in E. subst. f_equal. lra.
Qed.

Lemma slab_ok lo hi p d : lo <= hi -> finite_dir d -> (dir_val d = 0 -> p <> lo /\ p <> hi) ->
  let inv := xdiv (Fin 1) d in
  let v1 := xmul (xsub (Fin lo) (Fin p)) inv in
  let v2 := xmul (xsub (Fin hi) (Fin p)) inv in
  proper v1 /\ proper v2 /\
  forall t, (xle v1 (Fin t) \/ xle v2 (Fin t)) /\ (xle (Fin t) v1 \/ xle (Fin t) v2) <-> lo <= p + t * dir_val d <= hi.
Proof.
  intros Hb Hd Hz. cbv zeta. rewrite !xsub_Fin.
  assert (Zc : dir_val d = 0 -> forall s, let inv := Inf s in
    let v1 := xmul (Fin (lo - p)) inv in let v2 := xmul (Fin (hi - p)) inv in
    proper v1 /\ proper v2 /\ forall t, (xle v1 (Fin t) \/ xle v2 (Fin t)) /\ (xle (Fin t) v1 \/ xle (Fin t) v2) <-> lo <= p + t * 0 <= hi).
  { intros Ed s. destruct (Hz Ed) as [N1 N2]. cbv zeta. cbn [xmul].
    assert (Q1 : Reqb (lo - p) 0 = false) by (apply Reqb_false; lra).
    assert (Q2 : Reqb (hi - p) 0 = false) by (apply Reqb_false; lra).
    rewrite Q1, Q2. cbn. split; [auto|]. split; [auto|]. intros t. unfold rneg.
    destruct (Rltb (lo - p) 0) eqn:A; destruct (Rltb (hi - p) 0) eqn:B;
      [apply Rltb_true in A; apply Rltb_true in B|apply Rltb_true in A; apply Rltb_false in B|apply Rltb_false in A; apply Rltb_true in B|apply Rltb_false in A; apply Rltb_false in B];
      assert (lo < p \/ p < lo) by lra; assert (hi < p \/ p < hi) by lra; destruct s; cbn; split; intros; try lra; intuition (try discriminate; try lra). }
  destruct d as [d| |s|]; cbn in Hd; try contradiction.
  - cbn [dir_val] in *. unfold xdiv, xinv. destruct (Reqb d 0) eqn:E.
    + apply Reqb_true in E. subst d.
      assert (E1 : xmul (Fin 1) (Inf false) = Inf false).
      { cbn. assert (Q : Reqb 1 0 = false) by (apply Reqb_false; lra). rewrite Q. unfold rneg.
        assert (Q' : Rltb 1 0 = false) by (apply Rltb_false; lra). now rewrite Q'. }
      rewrite E1. now apply Zc.
    + apply Reqb_false in E. cbn. split; [auto|]. split; [auto|]. intros t.
      replace (1 * / d) with (/ d) by ring.
      destruct (Rdichotomy _ _ E) as [Hn|Hp].
      * assert (I : / d < 0) by (now apply Rinv_lt_0_compat).
        assert (X : forall a, (a - p) * / d <= t <-> p + t * d <= a).
        { intros a. assert (P1 : d * / d = 1) by (now apply Rinv_r). split; intros.
          - assert ((a - p) * / d * d >= t * d) by nra. replace ((a - p) * / d * d) with (a - p) in H0 by (field; auto). lra.
          - apply Rmult_le_reg_r with (- d); [lra|]. replace ((a - p) * / d * - d) with (- (a - p)) by (field; auto). lra. }
        assert (Y : forall a, t <= (a - p) * / d <-> a <= p + t * d).
        { intros a. split; intros.
          - apply Rmult_le_compat_r with (r := - d) in H; [|lra]. replace ((a - p) * / d * - d) with (- (a - p)) in H by (field; auto). lra.
          - apply Rmult_le_reg_r with (- d); [lra|]. replace ((a - p) * / d * - d) with (- (a - p)) by (field; auto). lra. }
        rewrite !X, !Y. lra.
      * assert (X : forall a, (a - p) * / d <= t <-> a <= p + t * d).
        { intros a. split; intros.
          - apply Rmult_le_compat_r with (r := d) in H; [|lra]. replace ((a - p) * / d * d) with (a - p) in H by (field; auto). lra.
          - apply Rmult_le_reg_r with d; [lra|]. replace ((a - p) * / d * d) with (a - p) by (field; auto). lra. }
        assert (Y : forall a, t <= (a - p) * / d <-> p + t * d <= a).
        { intros a. split; intros.
          - apply Rmult_le_compat_r with (r := d) in H; [|lra]. replace ((a - p) * / d * d) with (a - p) in H by (field; auto). lra.
          - apply Rmult_le_reg_r with d; [lra|]. replace ((a - p) * / d * d) with (a - p) by (field; auto). lra. }
        rewrite !X, !Y. lra.
  - cbn [dir_val] in *. assert (E1 : xdiv (Fin 1) NZero = Inf true).
    { cbn. assert (Q : Reqb 1 0 = false) by (apply Reqb_false; lra). rewrite Q. unfold rneg.
      assert (Q' : Rltb 1 0 = false) by (apply Rltb_false; lra). now rewrite Q'. }
    rewrite E1. now apply Zc.
Qed.

Lemma slab_step v1 v2 t0 t1 t : proper v1 -> proper v2 -> proper t0 -> proper t1 ->
  (xle (tmin Xarith (tmax Xarith v1 t0) (tmax Xarith v2 t0)) (Fin t) /\
   xle (Fin t) (tmax Xarith (tmin Xarith v1 t1) (tmin Xarith v2 t1))) <->
  ((xle v1 (Fin t) \/ xle v2 (Fin t)) /\ (xle (Fin t) v1 \/ xle (Fin t) v2)) /\ (xle t0 (Fin t) /\ xle (Fin t) t1).
Proof.
  intros P1 P2 P3 P4.
  pose proof (proper_nan _ P1). pose proof (proper_nan _ P2). pose proof (proper_nan _ P3). pose proof (proper_nan _ P4).
  rewrite (proj1 (xmin_le _ _ _ (proper_nan _ (proper_max _ _ P1 P3)) (proper_nan _ (proper_max _ _ P2 P3)))).
  rewrite (proj1 (xmax_ge _ _ _ (proper_nan _ (proper_min _ _ P1 P4)) (proper_nan _ (proper_min _ _ P2 P4)))).
  rewrite !xmax_le, !xmin_ge by auto. tauto.
Qed.
Lemma xle_refl x : x <> NaN -> xle x x.
Proof. destruct x as [a| |[]|]; cbn; try congruence; auto; lra. Qed.

Lemma slab_loop_ok lo : forall hi ro rd t0 t1, Forall2 Rle lo hi -> length ro = length lo -> length rd = length lo ->
  Forall finite_dir rd -> off_faces lo hi ro (map dir_val rd) -> proper t0 -> proper t1 ->
  let inv := inverseDirection Xarith rd in
  let vt1 := vmul Xarith (vsub Xarith (map Fin lo) (map Fin ro)) inv in
  let vt2 := vmul Xarith (vsub Xarith (map Fin hi) (map Fin ro)) inv in
  let '(a, b) := slab_loop Xarith vt1 vt2 t0 t1 in
  proper a /\ proper b /\ xle t0 a /\ xle b t1 /\
  forall t, xle a (Fin t) /\ xle (Fin t) b <-> ray_in_box lo hi ro (map dir_val rd) t /\ xle t0 (Fin t) /\ xle (Fin t) t1.
Proof.
  induction lo as [|l lo IH]; intros hi ro rd t0 t1 Hb E1 E2 Hd Ho P0 P1; inversion Hb; subst.
  - destruct ro; [|cbn in E1; lia]. destruct rd; [|cbn in E2; lia]. cbn.
    do 2 (split; [auto|]). split; [now apply xle_refl, proper_nan|]. split; [now apply xle_refl, proper_nan|].
    intros t. unfold ray_in_box, in_box. cbn. split; [|tauto]. intros; repeat split; auto; tauto.
  - rename y into h. rename l' into hi'. destruct ro as [|p ro]; [cbn in E1; lia|]. destruct rd as [|d rd]; [cbn in E2; lia|].
    inversion Hd; subst. cbn [length] in E1, E2.
    destruct (slab_ok l h p d) as (Q1 & Q2 & Q3); auto.
    { intros Ed. destruct (Ho 0%nat (dir_val d)) as [N1 N2]; auto. cbn in N1, N2. split; congruence. }
    cbv zeta. unfold inverseDirection, sdivv, vmul, vsub. cbn [map map2 slab_loop Xarith omul osub odiv o1].
    set (v1 := xmul (xsub (Fin l) (Fin p)) (xdiv (Fin 1) d)) in *.
    set (v2 := xmul (xsub (Fin h) (Fin p)) (xdiv (Fin 1) d)) in *.
    fold Xarith.
    assert (Pa : proper (tmin Xarith (tmax Xarith v1 t0) (tmax Xarith v2 t0))) by (apply proper_min; now apply proper_max).
    assert (Pb : proper (tmax Xarith (tmin Xarith v1 t1) (tmin Xarith v2 t1))) by (apply proper_max; now apply proper_min).
    assert (Ho' : off_faces lo hi' ro (map dir_val rd)).
    { intros i x Hx Hx0. apply (Ho (S i) x); auto. }
    specialize (IH hi' ro rd _ _ H3 ltac:(lia) ltac:(lia) H4 Ho' Pa Pb). unfold inverseDirection, sdivv, vmul, vsub in IH. cbv zeta in IH.
    change (omul Xarith) with xmul in *. change (osub Xarith) with xsub in *. change (odiv Xarith) with xdiv in *.
    change (o1 Xarith) with (Fin 1) in *.
    destruct (slab_loop Xarith _ _ _ _) as [a b]. destruct IH as (A1 & A2 & A3 & A4 & A5).
    pose proof (proper_nan _ Q1). pose proof (proper_nan _ Q2). pose proof (proper_nan _ P0). pose proof (proper_nan _ P1).
    do 2 (split; [auto|]). split; [|split].
    + apply xle_trans with (tmin Xarith (tmax Xarith v1 t0) (tmax Xarith v2 t0)); [|auto].
      apply xmin_ge; try (apply proper_nan; now apply proper_max). split; apply xmax_ge; auto; right; now apply xle_refl.
    + apply xle_trans with (tmax Xarith (tmin Xarith v1 t1) (tmin Xarith v2 t1)); [auto|].
      apply xmax_le; try (apply proper_nan; now apply proper_min). split; apply xmin_le; auto; right; now apply xle_refl.
    + intros t. rewrite A5, slab_step, Q3 by auto. unfold ray_in_box, in_box. cbn [combine map bmin bmax fst snd].
      split.
      * intros ((B1 & B2) & (C1 & C2) & D1 & D2). repeat split; auto; constructor; auto; lra.
      * intros ((B1 & B2) & D1 & D2). inversion B1; inversion B2; subst. repeat split; auto.
Qed.

Lemma box_intersect_ok big D lo hi ro rd : 0 <= big -> valid_box Rle D (mkBox lo hi) -> length ro = D -> length rd = D ->
  Forall finite_dir rd -> off_faces lo hi ro (map dir_val rd) ->
  let res := box_intersect Xarith (Fin big) (mkBox (map Fin lo) (map Fin hi)) (map Fin ro) rd in
  (exists a b, res = (Fin a, Fin b) /\ 0 <= a <= b /\ b <= big /\
     forall t, a <= t <= b <-> ray_in_box lo hi ro (map dir_val rd) t /\ 0 <= t <= big) \/
  (res = (Fin (-1), Fin (-1)) /\ forall t, 0 <= t <= big -> ~ ray_in_box lo hi ro (map dir_val rd) t).
Proof.
  intros Hbig (V1 & V2 & V3) E1 E2 Hd Ho. cbn [bmin bmax] in *. unfold box_intersect, box_intersect_inv. cbn [bmin bmax].
  pose proof (slab_loop_ok lo hi ro rd (Fin 0) (Fin big) V3 ltac:(lia) ltac:(lia) Hd Ho I I) as L. cbv zeta in L.
  change (o0 Xarith) with (Fin 0). destruct (slab_loop Xarith _ _ _ _) as [a b].
  destruct L as (A1 & A2 & A3 & A4 & A5). cbv zeta.
  change (oleb Xarith a b) with (xltb a b || xeqb a b)%bool.
  assert (Eopp : oopp Xarith (o1 Xarith) = Fin (-1)).
  { cbn. assert (Q : Reqb 1 0 = false) by (apply Reqb_false; lra). rewrite Q. f_equal. }
  rewrite Eopp.
  assert (Xle : (xltb a b || xeqb a b)%bool = true <-> xle a b).
  { destruct a as [a| |[]|], b as [b| |[]|]; cbn in *; try contradiction; rewrite ?orb_true_iff, ?Rltb_true, ?Reqb_true; try lra; intuition (try discriminate; try lra). }
  destruct (xltb a b || xeqb a b)%bool eqn:E.
  - left. assert (Hab : xle a b) by (now apply Xle).
    destruct a as [a| |[]|], b as [b| |[]|]; cbn in *; try contradiction; try discriminate; try (intuition discriminate).
    exists a, b. split; [auto|]. split; [lra|]. split; [lra|]. intros t. rewrite A5. tauto.
  - right. split; [auto|]. intros t Ht Hr.
    assert (N : ~ xle a b) by (rewrite <- Xle; discriminate). apply N.
    apply xle_trans with (Fin t); apply A5; cbn; tauto.
Qed.

Lemma measures_ok (b : @box R) i x y : nth_error (bmin b) i = Some x -> nth_error (bmax b) i = Some y ->
  nth_error (extents Rarith b) i = Some (y - x)%R /\ nth_error (box_centroid Rarith b) i = Some ((x + y) / 2)%R.
Proof.
  destruct b as [lo hi]. unfold extents, box_centroid, midpoint, vsub, vadd, vdivs. cbn [bmin bmax]. revert hi i.
  induction lo as [|l lo IH]; intros [|h hi] [|i] Hx Hy; try discriminate; cbn [nth_error map2 map] in *.
  - injection Hx as <-. injection Hy as <-. split; reflexivity.
  - now apply IH.
Qed.
