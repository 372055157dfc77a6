From Coq Require Import List Arith ZArith Reals Permutation Sorted Lia Lra Bool.
From Verif Require Import Base Loops Arith Elem_Model Vec_Model Box_Model Box_Spec Box_Proofs Seg_Model Seg_Spec Poly_Model
  Poly_Spec QSeg_Model QSeg_Spec QPoly_Model QPoly_Spec QPoly_Proofs Stats_Model Stats_Spec Stats_Proofs
  XSec_Proofs Powers_Model Powers_Spec.
Import ListNotations.
Local Open Scope R_scope.

(** * faces *)
Lemma near_sym p q : near p q -> near q p.
Proof. unfold near. intros H. replace ((fst q - fst p) * (fst q - fst p) + (snd q - snd p) * (snd q - snd p)) with
  ((fst p - fst q) * (fst p - fst q) + (snd p - snd q) * (snd p - snd q)) by ring. exact H. Qed.
Lemma touch_sym f g : touch f g -> touch g f.
Proof. intros (p & q & A & B & C). exists q, p. auto using near_sym. Qed.
Lemma near_coords p q : near p q -> Rabs (fst p - fst q) < 1 / 100000 /\ Rabs (snd p - snd q) < 1 / 100000.
Proof.
  unfold near. set (x := fst p - fst q). set (y := snd p - snd q). intros H.
  split; eapply Rle_lt_trans; try exact H; rewrite <- sqrt_Rsqr_abs; apply sqrt_le_1_alt; unfold Rsqr; nra.
Qed.
Lemma shares_iff f g : facesShareVertex f g = true <-> touch f g.
Proof.
  unfold facesShareVertex, touch. rewrite existsb_exists. split.
  - intros (p & Hp & H). apply existsb_exists in H as (q & Hq & H). apply Rltb_true in H. exists p, q. auto.
  - intros (p & q & Hp & Hq & H). exists p. split; [auto|]. apply existsb_exists. exists q. split; [auto|]. apply Rltb_true. exact H.
Qed.
Lemma split_face (f : face) m : length f = (2 * m)%nat -> exists vs ms, f = vs ++ ms /\ length vs = m /\ length ms = m.
Proof.
  intros L. exists (firstn m f), (skipn m f). rewrite firstn_skipn, firstn_length, skipn_length. repeat split; lia.
Qed.
Lemma curve_ends a b c : curve2 a b c 0 = a /\ curve2 a b c (1/2) = c.
Proof. destruct a, b, c. unfold curve2, lag. cbn. split; f_equal; field. Qed.

Definition pl (p : pt) : list R := [fst p; snd p].
Lemma edge_in vs ms x0 y0 x1 y1 (E : encloses (qedges vs ms) x0 y0 x1 y1) a b c : In (a, b, c) (qedges vs ms) ->
  in_box Rle (mkBox [x0; y0] [x1; y1]) (pl a) /\ in_box Rle (mkBox [x0; y0] [x1; y1]) (pl c).
Proof.
  intros H. destruct E as (E & _). destruct (curve_ends a b c) as (C0 & C1).
  pose proof (E a b c 0 H ltac:(lra)) as A. pose proof (E a b c (1/2) H ltac:(lra)) as B. rewrite C0 in A. rewrite C1 in B.
  unfold in_box, pl. cbn [bmin bmax]. repeat split; repeat (apply Forall2_cons; [tauto|]); apply Forall2_nil.
Qed.
Lemma encl_valid vs ms x0 y0 x1 y1 : encloses (qedges vs ms) x0 y0 x1 y1 -> valid_box Rle 2 (mkBox [x0; y0] [x1; y1]).
Proof.
  intros (A & (a & b & c & t & Hi & Ht & _) & _). destruct (A a b c t Hi Ht) as (X & Y).
  split; [reflexivity|]. split; [reflexivity|]. cbn. repeat (apply Forall2_cons; [lra|]); apply Forall2_nil.
Qed.
Ltac dl f := let x := fresh "v" in destruct f as [|x f]; [discriminate|].
Lemma face_box_ok k f n : vertices k = Some n -> length f = n ->
  exists b, face_box k f = Ret b /\ valid_box Rle 2 b /\ forall p, In p f -> in_box Rle b (pl p).
Proof.
  intros K L.
  assert (Lin : f <> [] -> exists b, boundingBox Rarith (map pl f) = Ret b /\ valid_box Rle 2 b /\ forall p, In p f -> in_box Rle b (pl p)).
  { intros N. destruct (boundingBox_ok Rarith Rle R_total (map pl f) 2) as (b & E & V & S & _).
    { destruct f; [congruence|discriminate]. }
    { intros p Hp. apply in_map_iff in Hp as (q & <- & _). reflexivity. }
    exists b. split; [exact E|]. split; [exact V|]. intros p Hp. apply (proj1 (S b)); [intros q Hq; exact Hq|]. now apply in_map. }
  destruct k; try discriminate; injection K as <-; cbn [face_box].
  - apply Lin. now destruct f.
  - apply Lin. now destruct f.
  - clear Lin. do 6 dl f. destruct f; [|discriminate].
    destruct (q_box_ok [v; v0; v1] [v2; v3; v4] ltac:(discriminate) eq_refl) as (x0 & y0 & x1 & y1 & E & G).
    exists (mkBox [x0; y0] [x1; y1]). split; [exact E|]. split; [eapply encl_valid, G|].
    intros p Hp. pose proof (edge_in _ _ _ _ _ _ G) as H.
    cbn in Hp. destruct Hp as [<-|[<-|[<-|[<-|[<-|[<-|[]]]]]]].
    + eapply proj1, H. cbn. left; reflexivity.
    + eapply proj1, H. cbn. right; left; reflexivity.
    + eapply proj1, H. cbn. right; right; left; reflexivity.
    + eapply proj2, H. cbn. left; reflexivity.
    + eapply proj2, H. cbn. right; left; reflexivity.
    + eapply proj2, H. cbn. right; right; left; reflexivity.
  - clear Lin. do 8 dl f. destruct f; [|discriminate].
    destruct (q_box_ok [v; v0; v1; v2] [v3; v4; v5; v6] ltac:(discriminate) eq_refl) as (x0 & y0 & x1 & y1 & E & G).
    exists (mkBox [x0; y0] [x1; y1]). split; [exact E|]. split; [eapply encl_valid, G|].
    intros p Hp. pose proof (edge_in _ _ _ _ _ _ G) as H.
    cbn in Hp. destruct Hp as [<-|[<-|[<-|[<-|[<-|[<-|[<-|[<-|[]]]]]]]]].
    + eapply proj1, H. cbn. left; reflexivity.
    + eapply proj1, H. cbn. right; left; reflexivity.
    + eapply proj1, H. cbn. right; right; left; reflexivity.
    + eapply proj1, H. cbn. right; right; right; left; reflexivity.
    + eapply proj2, H. cbn. left; reflexivity.
    + eapply proj2, H. cbn. right; left; reflexivity.
    + eapply proj2, H. cbn. right; right; left; reflexivity.
    + eapply proj2, H. cbn. right; right; right; left; reflexivity.
Qed.
Lemma face_area_ok k f n : vertices k = Some n -> length f = n ->
  (exists a, face_area k f = Ret a) /\ (exists c, face_centroid k f = Ret c).
Proof.
  intros K L. destruct k; try discriminate; injection K as <-; cbn [face_area face_centroid].
  - do 3 dl f. destruct f; [|discriminate]. split; eexists; reflexivity.
  - do 4 dl f. destruct f; [|discriminate]. split; eexists; reflexivity.
  - do 6 dl f. destruct f; [|discriminate]. split; eexists; reflexivity.
  - do 8 dl f. destruct f; [|discriminate]. split; eexists; reflexivity.
Qed.
(** the grown boxes of faces that share a vertex, or are wide and touch, meet *)
Lemma box2 b : valid_box Rle 2 b -> exists x0 y0 x1 y1, b = mkBox [x0; y0] [x1; y1] /\ x0 <= x1 /\ y0 <= y1.
Proof.
  destruct b as [lo hi]. intros (A & B & V). cbn in *. destruct lo as [|x0 [|y0 [|? ?]]]; cbn in A; try discriminate.
  destruct hi as [|x1 [|y1 [|? ?]]]; cbn in B; try discriminate. inversion V as [|? ? ? ? V1 V2]; subst. inversion V2; subst.
  exists x0, y0, x1, y1. auto.
Qed.
Lemma in_box2 x0 y0 x1 y1 p : in_box Rle (mkBox [x0; y0] [x1; y1]) (pl p) -> x0 <= fst p <= x1 /\ y0 <= snd p <= y1.
Proof.
  intros (A & B). cbn in *. inversion A as [|? ? ? ? A1 A2]; subst. inversion A2; subst. inversion B as [|? ? ? ? B1 B2]; subst.
  inversion B2; subst. lra.
Qed.
Lemma grown x0 y0 x1 y1 : box_scale Rarith (mkBox [x0; y0] [x1; y1]) scale =
  mkBox [x0 - (x1 - x0) / 200; y0 - (y1 - y0) / 200] [x1 + (x1 - x0) / 200; y1 + (y1 - y0) / 200].
Proof. unfold box_scale, extents, vscale, vsub, vadd, scale, o2. cbn. f_equal; (apply f_equal2; [field|apply f_equal2; [field|reflexivity]]). Qed.
Lemma grown_meet f g b c : (forall p, In p f -> in_box Rle b (pl p)) -> (forall p, In p g -> in_box Rle c (pl p)) ->
  valid_box Rle 2 b -> valid_box Rle 2 c -> touch f g -> (exists p, In p f /\ In p g) \/ (wide f /\ wide g) ->
  box_intersects Rarith (box_scale Rarith b scale) (box_scale Rarith c scale) = true.
Proof.
  intros Hb Hc Vb Vc T W.
  destruct (box2 b Vb) as (x0 & y0 & x1 & y1 & -> & X & Y). destruct (box2 c Vc) as (u0 & w0 & u1 & w1 & -> & U & V).
  rewrite !grown. unfold box_intersects. cbn [bmin bmax intersects_loop oltb Rarith].
  assert (H : u0 - (u1 - u0) / 200 <= x1 + (x1 - x0) / 200 /\ x0 - (x1 - x0) / 200 <= u1 + (u1 - u0) / 200 /\
              w0 - (w1 - w0) / 200 <= y1 + (y1 - y0) / 200 /\ y0 - (y1 - y0) / 200 <= w1 + (w1 - w0) / 200).
  { destruct W as [(p & Pf & Pg)|(((p1 & q1 & P1 & Q1 & D1) & (p2 & q2 & P2 & Q2 & D2)) & ((p3 & q3 & P3 & Q3 & D3) & (p4 & q4 & P4 & Q4 & D4)))].
    - pose proof (in_box2 _ _ _ _ _ (Hb p Pf)). pose proof (in_box2 _ _ _ _ _ (Hc p Pg)). lra.
    - destruct T as (p & q & Pf & Qg & N). destruct (near_coords p q N) as (NX & NY).
      apply Rabs_def2 in NX. apply Rabs_def2 in NY.
      pose proof (in_box2 _ _ _ _ _ (Hb p Pf)). pose proof (in_box2 _ _ _ _ _ (Hc q Qg)).
      pose proof (in_box2 _ _ _ _ _ (Hb p1 P1)). pose proof (in_box2 _ _ _ _ _ (Hb q1 Q1)).
      pose proof (in_box2 _ _ _ _ _ (Hb p2 P2)). pose proof (in_box2 _ _ _ _ _ (Hb q2 Q2)).
      pose proof (in_box2 _ _ _ _ _ (Hc p3 P3)). pose proof (in_box2 _ _ _ _ _ (Hc q3 Q3)).
      pose proof (in_box2 _ _ _ _ _ (Hc p4 P4)). pose proof (in_box2 _ _ _ _ _ (Hc q4 Q4)). lra. }
  destruct H as (H1 & H2 & H3 & H4).
  repeat match goal with |- context [Rltb ?a ?b] => rewrite (proj2 (Rltb_false a b)) by assumption end. reflexivity.
Qed.

(** * chains *)
Section Chains.
Variable faces : list face.
Variable power : list R.
Notation adj := (adjacent faces).
Notation pw := (powered power).
Notation lk := (linked faces power).
Lemma adj_sym i j : adj i j -> adj j i.
Proof. intros (f & g & A & B & C). exists g, f. auto using touch_sym. Qed.
Lemma lk_left i j : lk i j -> pw i.
Proof. induction 1; auto. Qed.
Lemma lk_right i j : lk i j -> pw j.
Proof. induction 1; auto. Qed.
Lemma lk_trans i j l : lk i j -> lk j l -> lk i l.
Proof. intros A B. induction B; auto. eapply linked_step; eauto. Qed.
Lemma lk_one i j : pw i -> pw j -> adj i j -> lk i j.
Proof. intros. eapply linked_step; eauto. now constructor. Qed.
Lemma lk_sym i j : lk i j -> lk j i.
Proof.
  induction 1; [now constructor|]. eapply lk_trans; [|eassumption]. apply lk_one; auto using adj_sym. eapply lk_right; eauto.
Qed.

(** * subsets *)
Variable stdsort : list nat -> list nat.
Variable k : vtk.
Hypothesis Hsort : sorts stdsort.
Hypothesis Hmesh : mesh_of k faces.
Hypothesis Hlen : length power = length faces.

Lemma pw_face i : pw i -> exists f, nth_error faces i = Some f.
Proof.
  intros (p & E & _). destruct (nth_error faces i) eqn:F; [eauto|]. apply nth_error_None in F.
  assert (i < length power)%nat by (apply nth_error_Some; congruence). lia.
Qed.
(** the grown box of a face *)
Definition gbox (i : nat) (b : box) : Prop :=
  exists f c, nth_error faces i = Some f /\ face_box k f = Ret c /\ b = box_scale Rarith c scale.
Lemma gbox_fun i b c : gbox i b -> gbox i c -> b = c.
Proof. intros (f & x & A & B & ->) (g & y & C & D & ->). congruence. Qed.
Lemma face_ok i f : nth_error faces i = Some f -> exists c, face_box k f = Ret c /\ valid_box Rle 2 c /\
  forall p, In p f -> in_box Rle c (pl p).
Proof. intros E. destruct Hmesh as (n & K & L). apply (face_box_ok k f n K). apply L. eapply nth_error_In, E. Qed.
Lemma gbox_valid i b : gbox i b -> valid_box Rle 2 b.
Proof.
  intros (f & c & A & B & ->). destruct (face_ok i f A) as (c' & E & V & _). assert (c' = c) by congruence. subst.
  apply box_scale_valid; [auto|]. unfold scale. lra.
Qed.
Lemma gbox_ex i : pw i -> exists b, gbox i b.
Proof. intros P. destruct (pw_face i P) as (f & E). destruct (face_ok i f E) as (c & F & _). exists (box_scale Rarith c scale), f, c. auto. Qed.
Lemma gbox_meet i j b c f g : gbox i b -> gbox j c -> nth_error faces i = Some f -> nth_error faces j = Some g ->
  touch f g -> (exists p, In p f /\ In p g) \/ (wide f /\ wide g) -> box_intersects Rarith b c = true.
Proof.
  intros (f' & x & A & B & ->) (g' & y & C & D & ->) Ef Eg T W. assert (f' = f) by congruence. assert (g' = g) by congruence. subst.
  destruct (face_ok i f Ef) as (x' & X1 & X2 & X3). destruct (face_ok j g Eg) as (y' & Y1 & Y2 & Y3).
  assert (x' = x) by congruence. assert (y' = y) by congruence. subst. eapply grown_meet; eauto.
Qed.

Record good (s : subset) : Prop := {
  g_ne : fst s <> [];
  g_valid : valid_box Rle 2 (snd s);
  g_lk : forall a b, In a (fst s) -> In b (fst s) -> lk a b;
  g_box : forall a b, In a (fst s) -> gbox a b -> Box_Spec.subset Rle b (snd s);
  g_sorted : Sorted le (fst s) }.
Definition inv (sets : list subset) (done : list nat) : Prop :=
  Permutation (concat (map fst sets)) done /\ List.Forall good sets.

Lemma shares_any_ok f ids : (forall j, In j ids -> pw j) ->
  exists r, shares_any faces f ids = Ret r /\
    (r = true <-> exists j g, In j ids /\ nth_error faces j = Some g /\ touch f g).
Proof.
  induction ids as [|j ids IH]; intros H; cbn.
  - exists false. split; [auto|]. split; [discriminate|]. intros (? & ? & [] & _).
  - destruct (pw_face j (H j (or_introl eq_refl))) as (g & E). rewrite (proj2 (rd_Ret _ _ _) E). cbn.
    destruct (facesShareVertex f g) eqn:S.
    + exists true. split; [auto|]. split; [|auto]. intros _. exists j, g. apply shares_iff in S. auto.
    + destruct (IH (fun j' Hj => H j' (or_intror Hj))) as (r & Er & Ir). exists r. split; [auto|]. rewrite Ir. split.
      * intros (i & h & A & B & C). exists i, h. auto.
      * intros (i & h & [<-|A] & B & C); [|exists i, h; auto]. assert (h = g) by congruence. subst.
        apply shares_iff in C. congruence.
Qed.
Lemma good_pw s a : good s -> In a (fst s) -> pw a.
Proof. intros G A. eapply lk_left, (g_lk s G a a A A). Qed.

Lemma sub_refl b : Box_Spec.subset Rle b b.
Proof. intros p H. exact H. Qed.
Lemma sub_trans a b c : Box_Spec.subset Rle a b -> Box_Spec.subset Rle b c -> Box_Spec.subset Rle a c.
Proof. intros A B p H. auto. Qed.
Lemma add_subs a b : valid_box Rle 2 a -> valid_box Rle 2 b ->
  Box_Spec.subset Rle a (box_add Rarith a b) /\ Box_Spec.subset Rle b (box_add Rarith a b).
Proof. intros A B. destruct (box_add_least Rarith Rle R_total a b 2 A B) as (_ & Y). apply (Y (box_add Rarith a b)), sub_refl. Qed.

Lemma sorted_snoc l i : Sorted le l -> (forall a, In a l -> (a < i)%nat) -> Sorted le (l ++ [i]).
Proof.
  induction l as [|x l IH]; intros S H; cbn; [repeat constructor|]. inversion S as [|? ? S1 S2]; subst.
  constructor; [apply IH; cbn in *; auto|]. destruct l as [|y l]; cbn; constructor.
  - apply Nat.lt_le_incl, H. now left.
  - now inversion S2.
Qed.
Lemma good_one i b : pw i -> gbox i b -> good ([i], b).
Proof.
  intros P G. constructor; cbn.
  - discriminate.
  - eapply gbox_valid, G.
  - intros a c [<-|[]] [<-|[]]. now constructor.
  - intros a c [<-|[]] H. rewrite (gbox_fun _ _ _ H G). apply sub_refl.
  - repeat constructor.
Qed.
Lemma good_join s t : good s -> good t -> (exists a b, In a (fst s) /\ In b (fst t) /\ adj a b) ->
  forall l, Permutation l (fst s ++ fst t) -> Sorted le l -> good (l, box_add Rarith (snd s) (snd t)).
Proof.
  intros S T (a & b & Ha & Hb & AB) l P So. constructor; cbn [fst snd].
  - intros ->. apply Permutation_nil, app_eq_nil in P. destruct P. now apply (g_ne s S).
  - apply box_add_valid; [exact R_total|apply S|apply T].
  - assert (L : lk a b) by (apply lk_one; [eapply good_pw, Ha|eapply good_pw, Hb|]; auto).
    assert (X : forall c, In c (fst s ++ fst t) -> lk c a).
    { intros c Hc. apply in_app_or in Hc as [Hc|Hc]; [now apply (g_lk s S)|].
      eapply lk_trans; [exact (g_lk t T c b Hc Hb)|]. now apply lk_sym. }
    intros c d Hc Hd. eapply lk_trans; [apply X; eapply Permutation_in; eassumption|]. apply lk_sym, X. eapply Permutation_in; eassumption.
  - intros c d Hc G. destruct (add_subs (snd s) (snd t) (g_valid s S) (g_valid t T)) as (X & Y).
    apply (Permutation_in _ P), in_app_or in Hc as [Hc|Hc].
    + eapply sub_trans; [exact (g_box s S c d Hc G)|exact X].
    + eapply sub_trans; [exact (g_box t T c d Hc G)|exact Y].
  - exact So.
Qed.
Lemma place_ok i b : pw i -> gbox i b -> forall sets done, inv sets done -> (forall a, In a done -> (a < i)%nat) ->
  exists sets', place faces i b sets = Ret sets' /\ inv sets' (i :: done).
Proof.
  intros P G. induction sets as [|[ids aabb] sets IH]; intros done (Pm & F) Lt; cbn [place].
  - exists [([i], b)]. split; [auto|]. split; [cbn; cbn in Pm; now constructor|]. constructor; [now apply good_one|constructor].
  - inversion F as [|? ? F1 F2]; subst. destruct (pw_face i P) as (f & E).
    destruct (shares_any_ok f ids) as (r & Er & Ir). { intros j Hj. exact (good_pw (ids, aabb) j F1 Hj). }
    assert (HH : exists h, (if box_intersects Rarith b aabb then let* this_face := rd faces i in shares_any faces this_face ids else Ret false) = Ret h
      /\ (h = true -> exists j, In j ids /\ adj j i)).
    { destruct (box_intersects Rarith b aabb); [|exists false; split; [auto|discriminate]].
      rewrite (proj2 (rd_Ret _ _ _) E). cbn. exists r. split; [auto|]. intros Hr. apply Ir in Hr as (j & g & A & B & C).
      exists j. split; [auto|]. exists g, f. auto using touch_sym. }
    destruct HH as (h & -> & Hh). cbn [bind]. destruct h.
    + eexists. split; [reflexivity|]. destruct (Hh eq_refl) as (j & Hj & A). cbn in Pm. split.
      * cbn. rewrite <- app_assoc. cbn. rewrite <- Permutation_middle. now constructor.
      * constructor; [|auto]. apply (good_join (ids, aabb) ([i], b)); cbn; auto using good_one.
        -- exists j, i. cbn. auto.
        -- apply sorted_snoc; [apply F1|]. intros a Ha. apply Lt. eapply Permutation_in; [exact Pm|]. apply in_or_app. now left.
    + destruct (IH (concat (map fst sets))) as (sets' & -> & (Pm' & F')); [split; auto| |].
      { intros a Ha. apply Lt. eapply Permutation_in; [exact Pm|]. cbn. apply in_or_app. now right. }
      eexists. split; [reflexivity|]. split; [|constructor; auto].
      cbn in Pm |- *. rewrite Pm'. rewrite <- Permutation_middle. now constructor.
Qed.
Lemma initial_ok : forall l sets done, inv sets done -> (forall i b, In (i, b) l -> pw i /\ gbox i b) ->
  Sorted lt (map fst l) -> (forall a i b, In a done -> In (i, b) l -> (a < i)%nat) ->
  exists sets', initial faces l sets = Ret sets' /\ inv sets' (rev (map fst l) ++ done).
Proof.
  induction l as [|[i b] l IH]; intros sets done I H S Lt; cbn [initial].
  - exists sets. auto.
  - destruct (H i b (or_introl eq_refl)) as (P & G). cbn in S.
    apply Sorted_StronglySorted in S; [|intros x y z; lia]. inversion S as [|? ? S1 S2]; subst.
    destruct (place_ok i b P G sets done I) as (s1 & -> & I1). { intros a Ha. apply (Lt a i b); [auto|now left]. }
    cbn [bind]. destruct (IH s1 (i :: done) I1) as (s2 & E & I2).
    + intros i' b' Hi. apply H. now right.
    + now apply StronglySorted_Sorted.
    + intros a i' b' [<-|Ha] Hi; [|apply (Lt a i' b'); [auto|now right]].
      rewrite Forall_forall in S2. apply S2. change i' with (fst (i', b')). now apply in_map.
    + exists s2. split; [auto|]. cbn. rewrite <- app_assoc. exact I2.
Qed.
Lemma nonzero_ok : forall n i, (i + n <= length faces)%nat -> exists l, nonzero k faces power n i = Ret l /\
  Sorted lt (map fst l) /\ (forall a b, In (a, b) l -> pw a /\ gbox a b /\ (i <= a)%nat) /\
  (forall a, (i <= a < i + n)%nat -> pw a -> In a (map fst l)).
Proof.
  induction n as [|n IH]; intros i L; cbn [nonzero].
  - exists []. split; [auto|]. split; [constructor|]. split; [intros ? ? []|]. intros; lia.
  - destruct (nth_error power i) as [p|] eqn:Ep; [|apply nth_error_None in Ep; lia].
    rewrite (proj2 (rd_Ret _ _ _) Ep). cbn [bind]. destruct (IH (S i) ltac:(lia)) as (l & E & S & A & B).
    destruct (Rltb 0 p) eqn:Z.
    + apply Rltb_true in Z. assert (P : pw i) by (exists p; auto). destruct (pw_face i P) as (f & Ef).
      rewrite (proj2 (rd_Ret _ _ _) Ef). cbn [bind]. destruct (face_ok i f Ef) as (c & Ec & _). rewrite Ec. cbn [bind]. rewrite E. cbn [bind].
      eexists. split; [reflexivity|]. cbn [map fst]. split; [|split].
      * constructor; [auto|]. destruct l as [|[a b] l]; cbn; constructor. destruct (A a b (or_introl eq_refl)) as (_ & _ & H). lia.
      * intros a b [H|H].
        { injection H as <- <-. split; [auto|]. split; [exists f, c; auto|lia]. }
        destruct (A a b H) as (X & Y & W). split; [auto|]. split; [auto|lia].
      * intros a Ha Pa. destruct (Nat.eq_dec a i) as [->|N]; [now left|]. right. apply B; [lia|auto].
    + exists l. split; [auto|]. split; [auto|]. split.
      * intros a b H. destruct (A a b H) as (X & Y & W). split; [auto|]. split; [auto|lia].
      * intros a Ha Pa. destruct (Nat.eq_dec a i) as [->|N]; [|apply B; [lia|auto]].
        destruct Pa as (q & Eq & Q). apply Rltb_false in Z. assert (q = p) by congruence. subst. lra.
Qed.

(** * merging *)
Lemma sets_share_ok idi idj : (forall j, In j idi -> pw j) -> (forall j, In j idj -> pw j) ->
  exists r, sets_share faces idi idj = Ret r /\ (r = true <-> exists a b, In a idi /\ In b idj /\ adj a b).
Proof.
  intros Hi Hj. induction idi as [|a idi IH]; cbn [sets_share].
  - exists false. split; [auto|]. split; [discriminate|]. intros (? & ? & [] & _).
  - destruct (pw_face a (Hi a (or_introl eq_refl))) as (f & E). rewrite (proj2 (rd_Ret _ _ _) E). cbn [bind].
    destruct (shares_any_ok f idj Hj) as (h & -> & Ih). cbn [bind]. destruct h.
    + exists true. split; [auto|]. split; [|auto]. intros _. destruct (proj1 Ih eq_refl) as (b & g & A & B & C).
      exists a, b. split; [now left|]. split; [auto|]. exists f, g. auto.
    + destruct (IH (fun j H => Hi j (or_intror H))) as (r & -> & Ir). exists r. split; [auto|]. rewrite Ir. split.
      * intros (x & y & A & B & C). exists x, y. cbn. auto.
      * intros (x & y & [<-|A] & B & C); [|exists x, y; auto]. destruct C as (f' & g & F & Gg & T).
        assert (f' = f) by congruence. subst. assert (false = true) by (apply Ih; exists y, g; auto). discriminate.
Qed.
(** the test of the merge loop *)
Definition joined (s t : subset) : Prop :=
  box_intersects Rarith (snd t) (snd s) = true /\ exists a b, In a (fst s) /\ In b (fst t) /\ adj a b.
Lemma touching_ok sets i j s t : List.Forall good sets -> nth_error sets i = Some s -> nth_error sets j = Some t ->
  exists r, touching faces sets i j = Ret r /\ (r = true <-> joined s t).
Proof.
  intros F Ei Ej. unfold touching. rewrite (proj2 (rd_Ret _ _ _) Ei), (proj2 (rd_Ret _ _ _) Ej). cbn [bind]. unfold joined.
  rewrite Forall_forall in F. assert (Gs := F s (nth_error_In _ _ Ei)). assert (Gt := F t (nth_error_In _ _ Ej)).
  destruct (box_intersects Rarith (snd t) (snd s)).
  - destruct (sets_share_ok (fst s) (fst t) (fun a => good_pw s a Gs) (fun a => good_pw t a Gt)) as (r & E & Ir). exists r. split; [auto|]. tauto.
  - exists false. split; [auto|]. split; [discriminate|]. intros (A & _). discriminate.
Qed.
Lemma find_j_ok sets i s : List.Forall good sets -> nth_error sets i = Some s -> forall j, (j <= length sets)%nat ->
  (exists j' t, find_j faces sets i j = Ret (Some j') /\ (j' < j)%nat /\ nth_error sets j' = Some t /\ joined s t) \/
  (find_j faces sets i j = Ret None /\ forall j' t, (j' < j)%nat -> nth_error sets j' = Some t -> ~ joined s t).
Proof.
  intros F E. induction j as [|j IH]; intros L; cbn [find_j].
  - right. split; [auto|]. intros; lia.
  - destruct (nth_error sets j) as [t|] eqn:Ej; [|apply nth_error_None in Ej; lia].
    destruct (touching_ok sets i j s t F E Ej) as (r & -> & Ir). cbn [bind]. destruct r.
    + left. exists j, t. split; [auto|]. split; [lia|]. split; [auto|]. now apply Ir.
    + destruct (IH ltac:(lia)) as [(j' & t' & A & B & C & D)|(A & B)].
      * left. exists j', t'. split; [auto|]. split; [lia|]. auto.
      * right. split; [auto|]. intros j' t' Hj Et J. destruct (Nat.eq_dec j' j) as [->|N].
        -- assert (t' = t) by congruence. subst. apply Ir in J. discriminate.
        -- exact (B j' t' ltac:(lia) Et J).
Qed.
Lemma find_i_ok sets : List.Forall good sets -> forall i, (i < length sets)%nat \/ i = 0%nat ->
  (exists i' j' s t, find_i faces sets i = Ret (Some (i', j')) /\ (j' < i' <= i)%nat /\ nth_error sets i' = Some s /\
     nth_error sets j' = Some t /\ joined s t) \/
  (find_i faces sets i = Ret None /\ forall i' j' s t, (j' < i' <= i)%nat -> nth_error sets i' = Some s ->
     nth_error sets j' = Some t -> ~ joined s t).
Proof.
  intros F. induction i as [|i IH]; intros L; cbn [find_i].
  - right. split; [auto|]. intros; lia.
  - destruct (nth_error sets (S i)) as [s|] eqn:Es; [|apply nth_error_None in Es; lia].
    destruct (find_j_ok sets (S i) s F Es (S i) ltac:(lia)) as [(j & t & -> & A & B & C)|(-> & A)]; cbn [bind].
    + left. exists (S i), j, s, t. split; [auto|]. split; [lia|]. auto.
    + destruct (IH ltac:(lia)) as [(i' & j' & s' & t' & X & Y & Z)|(X & Y)].
      * left. exists i', j', s', t'. split; [auto|]. split; [lia|]. auto.
      * right. split; [auto|]. intros i' j' s' t' Hi Ei Ej. destruct (Nat.eq_dec i' (S i)) as [->|N].
        -- assert (s' = s) by congruence. subst. apply (A j' t'); [lia|auto].
        -- apply (Y i' j' s' t'); [lia|auto|auto].
Qed.
Lemma shift_ok {A} : forall (l3 : list A) l x,
  exists y, for_ (length l3) (length l) (fun m s => let* x := rd s (S m) in wr s m x) (l ++ x :: l3) = Ret (l ++ l3 ++ [y]).
Proof.
  induction l3 as [|z l3 IH]; intros l x; cbn [length for_].
  - exists x. reflexivity.
  - assert (R1 : rd (l ++ x :: z :: l3) (S (length l)) = Ret z).
    { apply rd_Ret. rewrite nth_error_app2 by lia. replace (S (length l) - length l)%nat with 1%nat by lia. reflexivity. }
    rewrite R1. cbn [bind]. rewrite wr_ok by (rewrite app_length; cbn; lia). cbn [bind].
    rewrite upd_mid. specialize (IH (l ++ [z]) z). rewrite app_length, Nat.add_1_r in IH. cbn [length] in IH. rewrite <- !app_assoc in IH. cbn [app] in IH.
    destruct IH as (y & E). exists y. rewrite E. rewrite <- app_assoc. reflexivity.
Qed.
Lemma merge_list (l1 l2 l3 : list subset) s t :
  merge stdsort (l1 ++ t :: l2 ++ s :: l3) (length l1 + S (length l2)) (length l1) =
  Ret (l1 ++ (stdsort (fst t ++ fst s), box_add Rarith (snd t) (snd s)) :: l2 ++ l3).
Proof.
  unfold merge.
  assert (R1 : rd (l1 ++ t :: l2 ++ s :: l3) (length l1 + S (length l2)) = Ret s).
  { apply rd_Ret. rewrite nth_error_app2 by lia. replace (length l1 + S (length l2) - length l1)%nat with (S (length l2)) by lia.
    cbn. apply nth_error_mid. }
  rewrite R1. cbn [bind].
  assert (R2 : rd (l1 ++ t :: l2 ++ s :: l3) (length l1) = Ret t) by (apply rd_Ret, nth_error_mid).
  rewrite R2. cbn [bind]. rewrite wr_ok by (rewrite app_length; cbn; lia). cbn [bind]. rewrite upd_mid.
  set (t' := (stdsort (fst t ++ fst s), box_add Rarith (snd t) (snd s))). change (list nat * box)%type with subset in t'.
  change (list nat * box)%type with subset. replace (length (l1 ++ t' :: l2 ++ s :: l3) - 1 - (length l1 + S (length l2)))%nat with (length l3)
    by (rewrite !app_length; cbn; rewrite app_length; cbn; lia).
  replace (length l1 + S (length l2))%nat with (length (l1 ++ t' :: l2)) by (rewrite app_length; cbn; lia).
  change (list nat * box)%type with subset. replace (l1 ++ t' :: l2 ++ s :: l3) with ((l1 ++ t' :: l2) ++ s :: l3) by (rewrite <- app_assoc; reflexivity).
  destruct (shift_ok l3 (l1 ++ t' :: l2) s) as (y & ->). cbn [bind]. rewrite app_assoc, removelast_last.
  rewrite <- app_assoc. reflexivity.
Qed.
Lemma two_split {A} (l : list A) i j s t : (j < i)%nat -> nth_error l i = Some s -> nth_error l j = Some t ->
  exists l1 l2 l3, l = l1 ++ t :: l2 ++ s :: l3 /\ length l1 = j /\ (i = length l1 + S (length l2))%nat.
Proof.
  intros L Ei Ej. apply nth_error_split in Ej as (l1 & r & -> & L1).
  rewrite nth_error_app2 in Ei by lia. destruct (i - length l1)%nat as [|d] eqn:D; [lia|]. cbn in Ei.
  apply nth_error_split in Ei as (l2 & l3 & -> & L2). exists l1, l2, l3. split; [auto|]. split; [auto|]. lia.
Qed.
Lemma merge_ok sets done i j s t : inv sets done -> (j < i)%nat -> nth_error sets i = Some s -> nth_error sets j = Some t ->
  joined s t -> exists sets', merge stdsort sets i j = Ret sets' /\ inv sets' done /\ length sets = S (length sets').
Proof.
  intros (P & F) L Ei Ej (_ & a & b & Ha & Hb & AB).
  destruct (two_split sets i j s t L Ei Ej) as (l1 & l2 & l3 & -> & <- & ->). rewrite merge_list.
  eexists. split; [reflexivity|]. destruct (Hsort (fst t ++ fst s)) as (Ps & So). split; [split|].
  - rewrite <- P. rewrite !map_app. cbn [map fst]. rewrite !map_app. cbn [map fst]. rewrite !concat_app. cbn [concat].
    rewrite !concat_app. cbn [concat]. apply Permutation_app_head. rewrite Ps, <- app_assoc. apply Permutation_app_head.
    rewrite !app_assoc. apply Permutation_app_tail. apply Permutation_app_comm.
  - apply Forall_app in F as (F1 & F). inversion F as [|? ? Ft F']; subst. apply Forall_app in F' as (F2 & F'). inversion F' as [|? ? Fs F3]; subst.
    apply Forall_app. split; [auto|]. constructor; [|apply Forall_app; auto].
    apply good_join; auto. exists b, a. auto using adj_sym.
  - rewrite !app_length. cbn. rewrite !app_length. cbn. lia.
Qed.
Lemma merge_all_ok done : forall fuel sets, (length sets < fuel)%nat -> inv sets done ->
  exists sets', merge_all stdsort faces fuel sets = Ret sets' /\ inv sets' done /\
    forall i j s t, i <> j -> nth_error sets' i = Some s -> nth_error sets' j = Some t -> ~ joined s t.
Proof.
  induction fuel as [|fuel IH]; intros sets L I; [lia|]. cbn [merge_all].
  destruct (find_i_ok sets (proj2 I) (length sets - 1) ltac:(lia)) as [(i & j & s & t & -> & Lij & Ei & Ej & J)|(-> & N)]; cbn [bind].
  - destruct (merge_ok sets done i j s t I ltac:(lia) Ei Ej J) as (sets' & -> & I' & Le). cbn [bind]. apply IH; [lia|auto].
  - exists sets. split; [auto|]. split; [auto|]. intros i j s t D Ei Ej J.
    assert (Li : (i < length sets)%nat) by (apply nth_error_Some; congruence).
    assert (Lj : (j < length sets)%nat) by (apply nth_error_Some; congruence).
    destruct (Nat.lt_gt_cases i j) as [[H|H] _]; [auto| |].
    + apply (N j i t s); [lia|auto|auto|]. destruct J as (B & a & b & Ha & Hb & AB). split; [|exists b, a; auto using adj_sym].
      destruct I as (_ & F). rewrite Forall_forall in F.
      assert (Vs := g_valid s (F s (nth_error_In _ _ Ei))). assert (Vt := g_valid t (F t (nth_error_In _ _ Ej))).
      apply (intersects_iff Rarith Rle R_total _ _ 2); auto. apply (intersects_iff Rarith Rle R_total _ _ 2) in B as (p & X & Y); eauto.
    + apply (N i j s t); [lia|auto|auto|auto].
Qed.

(** * powers *)
Definition terms (t : R * pt * R) : R * pt * R :=
  (fst (fst t), pscale Rarith (fst (fst t)) (snd (fst t)), snd t * fst (fst t)).
Lemma face_terms_ok i : pw i -> exists t, face_terms k faces power i = Ret (terms t) /\ data_of faces power k i t.
Proof.
  intros P. destruct (pw_face i P) as (f & E). destruct P as (p & Ep & _). unfold face_terms.
  rewrite (proj2 (rd_Ret _ _ _) E), (proj2 (rd_Ret _ _ _) Ep). cbn [bind]. destruct Hmesh as (n & K & L).
  destruct (face_area_ok k f n K (L f (nth_error_In _ _ E))) as ((a & Ea) & (c & Ec)). rewrite Ea, Ec. cbn [bind].
  exists (a, c, p). split; [reflexivity|]. exists f. auto.
Qed.
Lemma mapo_terms ids : (forall i, In i ids -> pw i) ->
  exists ts, mapo (face_terms k faces power) ids = Ret (map terms ts) /\ Forall2 (data_of faces power k) ids ts.
Proof.
  induction ids as [|i ids IH]; intros H; cbn [mapo].
  - exists []. split; [auto|constructor].
  - destruct (face_terms_ok i (H i (or_introl eq_refl))) as (t & -> & D). cbn [bind].
    destruct (IH (fun j Hj => H j (or_intror Hj))) as (ts & -> & F). cbn [bind]. exists (t :: ts). split; [auto|]. now constructor.
Qed.
Lemma subset_power_ok ids : ids <> [] -> (forall i, In i ids -> pw i) ->
  exists v, subset_power k faces power ids = Ret v /\ region_value faces power k ids v.
Proof.
  intros N H. unfold subset_power. destruct (mapo_terms ids H) as (ts & -> & F). cbn [bind].
  assert (Nt : ts <> []) by (intros ->; inversion F; subst; congruence).
  rewrite !sum_total by (destruct ts; [congruence|discriminate]). cbn [bind]. eexists. split; [reflexivity|].
  exists ts. split; [auto|]. cbn zeta. rewrite !map_map. cbn [fst snd terms]. split; [reflexivity|].
  intros A. unfold pdivs. cbn [fst snd odiv Rarith]. split; (unfold Rdiv; rewrite (Rmult_comm (total _)), Rmult_assoc, Rinv_l by exact A; rewrite Rmult_1_r);
    (apply f_equal, map_ext; intros t; cbn [pscale fst snd omul Rarith]; ring).
Qed.
Lemma mapo_regions sets done : inv sets done -> exists vs, mapo (subset_power k faces power) (map fst sets) = Ret vs /\
  Forall2 (region_value faces power k) (map fst sets) vs.
Proof.
  intros (_ & F). induction F as [|s sets G F IH]; cbn [map mapo].
  - exists []. split; [auto|constructor].
  - destruct (subset_power_ok (fst s) (g_ne s G) (fun a => good_pw s a G)) as (v & -> & V). cbn [bind].
    destruct IH as (vs & -> & Fv). cbn [bind]. exists (v :: vs). split; [auto|]. now constructor.
Qed.
Lemma pw_bound i : pw i -> (i < length faces)%nat.
Proof. intros P. destruct (pw_face i P) as (f & E). apply nth_error_Some. congruence. Qed.
End Chains.
Lemma is_sorted_from_iff l : forall x, is_sorted_from x l = true <-> Sorted Z.le (x :: l).
Proof.
  induction l as [|y l IH]; intros x; cbn [is_sorted_from].
  - split; [repeat constructor|auto].
  - destruct (Z.ltb_spec y x).
    + split; [discriminate|]. intros S. inversion S as [|? ? S1 S2]; subst. inversion S2; subst. lia.
    + rewrite IH. split; [intros S; constructor; [auto|now constructor]|]. intros S. now inversion S.
Qed.
Lemma is_sorted_iff l : is_sorted l = true <-> Sorted Z.le l.
Proof. destruct l as [|x l]; cbn; [split; [constructor|auto]|apply is_sorted_from_iff]. Qed.
Lemma powered_iff power : (exists i, powered power i) <-> existsb (fun p => Rltb 0 p) power = true.
Proof.
  rewrite existsb_exists. split.
  - intros (i & p & E & P). exists p. split; [eapply nth_error_In, E|now apply Rltb_true].
  - intros (p & H & P). apply In_nth_error in H as (i & E). apply Rltb_true in P. exists i, p. auto.
Qed.
Lemma check_iff faces power ids : checkPowerData (length faces) ids power = Ret tt <-> accepted faces power ids.
Proof.
  unfold checkPowerData, accepted. rewrite powered_iff. rewrite <- is_sorted_iff.
  destruct (Nat.eqb_spec (length ids) (length power)); cbn [negb]; [|split; [discriminate|intros (? & _); congruence]].
  destruct (Nat.eqb_spec (length ids) 0) as [E|E].
  { split; [discriminate|]. intros (A & _ & B & _). destruct power; [discriminate|cbn in A; lia]. }
  destruct (Nat.eqb_spec (length ids) (length faces)); cbn [negb]; [|split; [discriminate|intros (_ & ? & _); congruence]].
  destruct (is_sorted ids); cbn [negb]; [|split; [discriminate|intros (_ & _ & _ & ?); congruence]].
  destruct (existsb _ power); split; auto; try discriminate. intros (_ & _ & ? & _). discriminate.
Qed.
Lemma check_cases n ids power : checkPowerData n ids power = Ret tt \/ checkPowerData n ids power = Fail.
Proof.
  unfold checkPowerData. destruct (negb _); [auto|]. destruct (_ =? _)%nat; [auto|]. destruct (negb _); [auto|].
  destruct (negb _); [auto|]. destruct (existsb _ _); auto.
Qed.
Lemma getPowers_N stdsort k faces power ids : mesh_of k faces -> getPowers stdsort [k] faces ids power = getPowersN stdsort k faces power ids.
Proof. intros (n & K & _). destruct k; try discriminate; reflexivity. Qed.
Lemma sorted_lt l : NoDup l -> Sorted le l -> Sorted lt l.
Proof.
  intros N S. induction S as [|x l S IH H]; [constructor|]. inversion N; subst. constructor; [auto|]. destruct H; constructor.
  assert (x <> b) by (intros ->; cbn in *; tauto). lia.
Qed.
Lemma nodup_parts {A} (l m : list A) : NoDup (l ++ m) -> NoDup l /\ NoDup m /\ forall x, In x l -> In x m -> False.
Proof.
  induction l as [|y l IH]; cbn; intros N; [repeat split; [constructor|auto|tauto]|]. inversion N as [|? ? N1 N2]; subst.
  destruct (IH N2) as (A1 & A2 & A3). rewrite in_app_iff in N1. split; [constructor; tauto|]. split; [auto|].
  intros x [<-|H]; [tauto|]. apply A3. auto.
Qed.
Lemma nodup_concat {A} (r : list A) rs : NoDup (concat rs) -> In r rs -> NoDup r.
Proof.
  induction rs as [|x rs IH]; intros N; [intros []|]; intros [<-|H]; cbn in N.
  - now apply nodup_parts in N.
  - apply IH; auto. now apply nodup_parts in N.
Qed.
Section Core.
Variables (stdsort : list nat -> list nat) (k : vtk) (faces : list face) (power : list R) (ids : list Z).
Hypothesis Hsort : sorts stdsort.
Hypothesis Hmesh : mesh_of k faces.
Hypothesis Hacc : accepted faces power ids.
Lemma core : exists sets vs done, getPowers stdsort [k] faces ids power = Ret vs /\ inv faces power k sets done /\
  Forall2 (region_value faces power k) (map fst sets) vs /\ NoDup done /\ (forall i, In i done <-> powered power i) /\
  (forall i j s t, i <> j -> nth_error sets i = Some s -> nth_error sets j = Some t -> ~ joined faces s t).
Proof.
  rewrite (getPowers_N _ _ _ _ _ Hmesh). unfold getPowersN. rewrite (proj2 (check_iff faces power ids) Hacc). cbn [bind].
  destruct Hacc as (L1 & L2 & _). assert (Hl : length power = length faces) by lia.
  destruct (nonzero_ok faces power k Hmesh Hl (length faces) 0 ltac:(lia)) as (nz & -> & S & A & B). cbn [bind].
  destruct (initial_ok faces power k Hmesh Hl nz [] []) as (sets & -> & I1).
  { split; [constructor|constructor]. }
  { intros i b H. destruct (A i b H) as (X & Y & _). auto. }
  { exact S. }
  { intros a i b []. }
  cbn [bind].
  destruct (merge_all_ok faces power stdsort k Hsort Hl _ (Datatypes.S (length sets)) sets ltac:(lia) I1) as (sets' & -> & I2 & N). cbn [bind].
  destruct (mapo_regions faces power k Hmesh Hl sets' _ I2) as (vs & E & F).
  exists sets', vs, (rev (map fst nz) ++ []). split; [exact E|]. split; [exact I2|]. split; [exact F|].
  rewrite app_nil_r. split; [|split; [|exact N]].
  - apply NoDup_rev. apply Sorted_StronglySorted in S; [|intros x y z; lia].
    clear - S. induction S as [|x l S IH H]; constructor; auto. intros Hx. rewrite Forall_forall in H. specialize (H x Hx). lia.
  - intros i. rewrite <- in_rev. split.
    + intros H. apply in_map_iff in H as ((a & b) & <- & H). apply (A a b H).
    + intros P. apply B; [|auto]. pose proof (pw_bound faces power Hl i P). lia.
Qed.
Theorem regions_ok : exists regions vs, getPowers stdsort [k] faces ids power = Ret vs /\
  Forall2 (region_value faces power k) regions vs /\ partition power regions /\
  (forall a b, together regions a b -> linked faces power a b) /\
  (forall a b f g, powered power a -> powered power b -> nth_error faces a = Some f -> nth_error faces b = Some g ->
    touch f g -> (exists p, In p f /\ In p g) \/ (wide f /\ wide g) -> together regions a b).
Proof.
  destruct core as (sets & vs & done & E & (P & F) & V & N & D & J). exists (map fst sets), vs.
  assert (Hl : length power = length faces) by (destruct Hacc; lia).
  assert (G : forall s, In s sets -> good faces power k s) by (rewrite Forall_forall in F; exact F).
  assert (ND : NoDup (concat (map fst sets))) by (eapply Permutation_NoDup; [symmetry; exact P|exact N]).
  split; [exact E|]. split; [exact V|]. split; [|split].
  - split; [exact ND|]. split; [|split].
    + intros i. rewrite <- D. split; apply Permutation_in; [exact P|symmetry; exact P].
    + intros H. apply in_map_iff in H as (s & Es & Hs). exact (g_ne _ _ _ s (G s Hs) Es).
    + apply Forall_forall. intros r Hr. apply sorted_lt; [eapply nodup_concat; eauto|].
      apply in_map_iff in Hr as (s & <- & Hs). apply (G s Hs).
  - intros a b (r & Hr & Ha & Hb). apply in_map_iff in Hr as (s & <- & Hs). exact (g_lk _ _ _ s (G s Hs) a b Ha Hb).
  - intros a b f g Pa Pb Ea Eb T W.
    assert (X : forall c, powered power c -> exists i s, nth_error sets i = Some s /\ In c (fst s)).
    { intros c Pc. apply D in Pc. apply (Permutation_in _ (Permutation_sym P)) in Pc. apply in_concat in Pc as (r & Hr & Hc).
      apply in_map_iff in Hr as (s & <- & Hs). apply In_nth_error in Hs as (i & Ei). eauto. }
    destruct (X a Pa) as (i & s & Ei & Has). destruct (X b Pb) as (j & t & Ej & Hbt).
    destruct (Nat.eq_dec i j) as [->|Nij].
    { assert (s = t) by congruence. subst. exists (fst t). split; [apply in_map; eapply nth_error_In, Ej|]. auto. }
    exfalso. apply (J i j s t Nij Ei Ej).
    assert (Gs := G s (nth_error_In _ _ Ei)). assert (Gt := G t (nth_error_In _ _ Ej)).
    split; [|exists a, b; split; [auto|]; split; [auto|]; exists f, g; auto].
    destruct (gbox_ex faces power k Hmesh Hl a Pa) as (ba & Ba). destruct (gbox_ex faces power k Hmesh Hl b Pb) as (bb & Bb).
    pose proof (gbox_meet faces k Hmesh a b ba bb f g Ba Bb Ea Eb T W) as M.
    apply (intersects_iff Rarith Rle R_total _ _ 2) in M as (p & Qa & Qb); [|eapply gbox_valid; eauto..].
    apply (intersects_iff Rarith Rle R_total _ _ 2); [apply Gt|apply Gs|]. exists p. split.
    + exact (g_box _ _ _ t Gt b bb Hbt Bb p Qb).
    + exact (g_box _ _ _ s Gs a ba Has Ba p Qa).
Qed.
Theorem regions_iff : resolved faces power -> exists regions vs, getPowers stdsort [k] faces ids power = Ret vs /\
  Forall2 (region_value faces power k) regions vs /\ partition power regions /\
  (forall a b, together regions a b <-> linked faces power a b).
Proof.
  intros Rs. destruct regions_ok as (rs & vs & E & V & P & S & C). exists rs, vs. split; [exact E|]. split; [exact V|]. split; [exact P|].
  intros a b. split; [apply S|]. destruct P as (ND & D & _). intros L. induction L as [Pa|j l L IH Pl (f & g & Ej & El & T)].
  - apply D, in_concat in Pa as (r & Hr & Ha). exists r. auto.
  - assert (Pj := lk_right _ _ _ _ L). destruct (C j l f g Pj Pl Ej El T (Rs j l f g Pj Pl Ej El T)) as (r & Hr & Hj & Hl).
    destruct IH as (r' & Hr' & Ha & Hj'). assert (r' = r).
    { clear - ND Hr Hr' Hj Hj'. induction rs as [|x rs IH]; [destruct Hr|]. cbn in ND. destruct (nodup_parts _ _ ND) as (_ & N2 & N3).
      assert (Y : forall y, In y rs -> In j y -> In j (concat rs)) by (intros y A B; apply in_concat; eauto).
      destruct Hr as [->|Hr], Hr' as [->|Hr']; auto; exfalso; eauto. }
    subst. exists r. auto.
Qed.
(** * the total power *)
Lemma map_seq {A B} (G : R -> A -> B) d : forall (p : list R) (q : list A), length p = length q ->
  map (fun i => G (nth i p 0) (nth i q d)) (seq 0 (length p)) = map (fun x => G (fst x) (snd x)) (combine p q).
Proof.
  induction p as [|x p IH]; intros [|y q] L; try discriminate; [reflexivity|]. cbn [length seq map combine fst snd].
  f_equal. injection L as L. rewrite <- seq_shift, map_map. cbn [nth]. now apply IH.
Qed.
Lemma total_filter {A} (P : A -> bool) (F : A -> R) l : total (map F (filter P l)) = total (map (fun x => if P x then F x else 0) l).
Proof. induction l as [|x l IH]; [reflexivity|]. cbn [filter map]. destruct (P x); cbn [map]; rewrite ?total_cons, IH; lra. Qed.
Theorem total_ok areas : Forall2 (fun f a => face_area k f = Ret a) faces areas -> exists vs,
  getPowers stdsort [k] faces ids power = Ret vs /\
  total (map fst vs) = total (map (fun pa => if Rltb 0 (fst pa) then fst pa * snd pa else 0) (combine power areas)).
Proof.
  intros FA. destruct regions_ok as (rs & vs & E & V & (ND & D & _) & _). exists vs. split; [exact E|].
  assert (Hl : length power = length faces) by (destruct Hacc; lia).
  assert (La : length faces = length areas) by (eapply Forall2_length, FA).
  set (F i := nth i power 0 * nth i areas 0).
  assert (V1 : forall r v, region_value faces power k r v -> fst v = total (map F r)).
  { intros r v (ts & T & -> & _). clear - T FA. induction T as [|i t r ts (f & Ef & Ea & _ & Ep) T IH]; [reflexivity|]. cbn [map].
    rewrite !total_cons, IH. f_equal. unfold F. rewrite (nth_error_nth _ _ 0 Ep).
    destruct (nth_error areas i) as [a|] eqn:Eai.
    - pose proof (Forall2_nth _ _ _ i _ _ FA Ef Eai) as X. cbn in X. rewrite (nth_error_nth _ _ 0 Eai). assert (a = fst (fst t)) by congruence. now subst.
    - apply nth_error_None in Eai. rewrite <- (Forall2_length _ _ _ FA) in Eai. assert (i < length faces)%nat by (apply nth_error_Some; congruence). lia. }
  assert (V2 : total (map fst vs) = total (map F (concat rs))).
  { clear - V V1. induction V as [|r v rs vs X V IH]; [reflexivity|]. cbn [map concat]. rewrite map_app, total_app, total_cons, IH.
    now rewrite (V1 r v X). }
  rewrite V2. transitivity (total (map F (filter (fun i => Rltb 0 (nth i power 0)) (seq 0 (length power))))).
  - apply total_perm, Permutation_map, NoDup_Permutation; [exact ND|apply NoDup_filter, seq_NoDup|].
    intros i. rewrite D, filter_In, in_seq, Rltb_true. split.
    + intros (p & Ep & Pp). rewrite (nth_error_nth _ _ 0 Ep). split; [|auto]. assert (i < length power)%nat by (apply nth_error_Some; congruence). lia.
    + intros (B & Pp). exists (nth i power 0). split; [|auto]. apply nth_error_nth'. lia.
  - rewrite total_filter. f_equal. unfold F. apply (map_seq (fun p a => if Rltb 0 p then p * a else 0) 0). lia.
Qed.
End Core.
(** * rejection *)
Lemma rejected stdsort k faces power ids : mesh_of k faces -> ~ accepted faces power ids -> getPowers stdsort [k] faces ids power = Fail.
Proof.
  intros M N. rewrite (getPowers_N _ _ _ _ _ M). unfold getPowersN. destruct (check_cases (length faces) ids power) as [E|E].
  - exfalso. now apply N, check_iff.
  - rewrite E. reflexivity.
Qed.
Lemma rejected_types stdsort types faces power ids : length types <> 1%nat \/ (exists k, types = [k] /\ vertices k = None) ->
  getPowers stdsort types faces ids power = Fail.
Proof.
  intros [H|(k & -> & H)].
  - destruct types as [|k [|? ?]]; cbn in *; auto. congruence.
  - destruct k; try discriminate; reflexivity.
Qed.
(** * examples *)
Definition tri_at (x y s : R) : face := [(x, y); (x + s, y); (x, y + s)].
Definition ex_faces : list face := [tri_at 0 0 1; tri_at 1 0 1; tri_at 5 5 1; tri_at 0 1 1].
Definition ex_power : list R := [1; 2; 3; 0].
Lemma wide_tri x y s : 1 / 1000 <= s -> wide (tri_at x y s).
Proof.
  intros H. split.
  - exists (x + s, y), (x, y). cbn. repeat split; auto. lra.
  - exists (x, y + s), (x, y). cbn. repeat split; auto. lra.
Qed.
Lemma powered_cases i : powered ex_power i -> i = 0%nat \/ i = 1%nat \/ i = 2%nat.
Proof. intros (p & E & P). destruct i as [|[|[|[|i]]]]; auto; cbn in E; [injection E as <-; lra|destruct i; discriminate]. Qed.
Lemma near_same p : near p p.
Proof. unfold near. replace (_ + _) with 0 by ring. rewrite sqrt_0. lra. Qed.
Lemma far_sep p q : 1 <= Rabs (fst p - fst q) -> ~ near p q.
Proof. intros H N. apply near_coords in N as (A & _). lra. Qed.
Lemma ex_ok : mesh_of V_Triangle ex_faces /\ accepted ex_faces ex_power [0; 1; 2; 3]%Z /\ resolved ex_faces ex_power /\
  linked ex_faces ex_power 0 1 /\ ~ linked ex_faces ex_power 0 2.
Proof.
  assert (P0 : powered ex_power 0) by (exists 1; cbn; split; [auto|lra]).
  assert (P1 : powered ex_power 1) by (exists 2; cbn; split; [auto|lra]).
  assert (A01 : adjacent ex_faces 0 1).
  { exists (tri_at 0 0 1), (tri_at 1 0 1). repeat split. exists (0 + 1, 0), (1, 0). cbn. repeat split; auto.
    replace (0 + 1) with 1 by ring. apply near_same. }
  split; [|split; [|split; [|split]]].
  - exists 3%nat. split; [reflexivity|]. intros f H. cbn in H. destruct H as [<-|[<-|[<-|[<-|[]]]]]; reflexivity.
  - split; [reflexivity|]. split; [reflexivity|]. split; [now exists 0%nat|]. repeat constructor; lia.
  - intros i j f g Pi Pj Ei Ej _. right. split.
    + apply powered_cases in Pi as [->|[->| ->]]; cbn in Ei; injection Ei as <-; apply wide_tri; lra.
    + apply powered_cases in Pj as [->|[->| ->]]; cbn in Ej; injection Ej as <-; apply wide_tri; lra.
  - apply lk_one; auto.
  - assert (X : forall j, linked ex_faces ex_power 0 j -> j = 0%nat \/ j = 1%nat).
    { induction 1 as [|j l L IH Pl (f & g & Ef & Eg & p & q & Hp & Hq & N)]; [auto|].
      apply powered_cases in Pl as [->|[->| ->]]; auto. exfalso. cbn in Eg. injection Eg as <-.
      assert (Q : 5 <= fst q) by (cbn in Hq; destruct Hq as [<-|[<-|[<-|[]]]]; cbn; lra).
      assert (Pp : fst p <= 2).
      { destruct IH as [->| ->]; cbn in Ef; injection Ef as <-; cbn in Hp; destruct Hp as [<-|[<-|[<-|[]]]]; cbn; lra. }
      apply (far_sep p q); [|auto]. rewrite Rabs_left; lra. }
    intros H. apply X in H as [H|H]; discriminate.
Qed.
(** touching faces far smaller than the tolerance are kept apart *)
Definition tiny : list face := [tri_at 0 0 (1 / 1000000); tri_at (5 / 1000000) 0 (1 / 1000000)].
Ltac rl := match goal with |- context [Rltb ?a ?b] =>
  first [ rewrite (proj2 (Rltb_true a b)) by lra | rewrite (proj2 (Rltb_false a b)) by lra ]; cbn end.
Lemma tiny_linked : linked tiny [1; 1] 0 1.
Proof.
  apply lk_one; [exists 1; cbn; split; [auto|lra]..|]. exists (tri_at 0 0 (1 / 1000000)), (tri_at (5 / 1000000) 0 (1 / 1000000)).
  repeat split. exists (0 + 1 / 1000000, 0), (5 / 1000000, 0). cbn. repeat split; auto. unfold near. cbn [fst snd].
  replace (_ + _) with ((4 / 1000000) * (4 / 1000000)) by field. rewrite sqrt_square by lra. lra.
Qed.
Lemma tiny_initial : exists b c, nonzero V_Triangle tiny [1; 1] 2 0 = Ret [(0%nat, b); (1%nat, c)] /\ box_intersects Rarith c b = false /\
  box_intersects Rarith b c = false.
Proof.
  cbn [nonzero rd nth_error bind]. rewrite (proj2 (Rltb_true 0 1)) by lra. cbn [rd nth_error bind tiny face_box map tri_at fst snd boundingBox].
  eexists. eexists. split; [reflexivity|]. cbn. unfold box_intersects, vmin, vmax, tmin, tmax, scale, o2. cbn. split; repeat rl; reflexivity.
Qed.
Lemma tiny_result stdsort : exists u v, getPowers stdsort [V_Triangle] tiny [0; 1]%Z [1; 1] = Ret [u; v].
Proof.
  cbn [getPowers]. unfold getPowersN. change (length tiny) with 2%nat.
  assert (E : checkPowerData 2 [0; 1]%Z [1; 1] = Ret tt).
  { unfold checkPowerData. cbn. rewrite (proj2 (Rltb_true 0 1)) by lra. reflexivity. }
  rewrite E. cbn [bind]. destruct tiny_initial as (b & c & -> & B & B'). cbn [bind initial place]. rewrite B. cbn [bind].
  cbn [length merge_all find_i find_j Nat.sub touching rd nth_error fst snd bind]. unfold touching. cbn [rd nth_error bind fst snd]. rewrite B'. cbn [bind].
  cbn [map fst]. eexists. eexists. reflexivity.
Qed.
