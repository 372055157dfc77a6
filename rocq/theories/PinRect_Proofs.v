(** Proofs about rectangular pin meshes. *)
From Coq Require Import List Arith ZArith Bool Reals Lra Lia Psatz Sorting.Permutation.
From Verif Require Import Base Loops Arith Fill Vec_Model Seg_Model Poly_Model Fvm_Model Fvm_Spec Manifold_Model Manifold_Spec
  Soup_Spec Manifold_Proofs Box_Proofs Seg_Proofs PinRect_Model PinRect_Spec.
Import ListNotations.

Section Grid.
Variables nx ny : nat.
Hypothesis Hx : 0 < nx.
Hypothesis Hy : 0 < ny.
(** vertex in column i, row j *)
Definition V (i j : nat) : Z := Z.of_nat (j * (nx + 1) + i).
Definition rface (i j : nat) : list Z := [V i j; V (S i) j; V (S i) (S j); V i (S j)].
Definition rvs (dx dy : R) : list (R * R) :=
  concat (map (fun j => map (fun i => (INR i * dx, INR j * dy)%R) (seq 0 (nx + 1))) (seq 0 (ny + 1))).
Definition rfs : list (list Z) := concat (map (fun j => map (fun i => rface i j) (seq 0 nx)) (seq 0 ny)).

Lemma V_inj i j i' j' : i <= nx -> i' <= nx -> V i j = V i' j' -> i = i' /\ j = j'.
Proof. unfold V. intros H H' E. assert (j = j') by nia. subst. lia. Qed.

Lemma vertices_ok w h : rect_vertices w h nx ny = Ret (rvs (w / INR nx) (h / INR ny)).
Proof.
  unfold rect_vertices, rvs.
  assert (E := fill_blocks (fun j vs => for_ (nx + 1) 0 (fun i vs => wr vs (j * (nx + 1) + i) (INR i * (w / INR nx), INR j * (h / INR ny))%R) vs)
    (fun j => map (fun i => (INR i * (w / INR nx), INR j * (h / INR ny))%R) (seq 0 (nx + 1))) (nx + 1) (ny + 1) 0 []
    (repeat (0, 0)%R ((nx + 1) * (ny + 1))) []).
  cbn [app] in E. rewrite !app_nil_r in E. apply E.
  - intros j s1 o s2 Hj Hs Ho. apply fill_range; auto. intros i s Hi Hl. f_equal. cbn in Hs. rewrite Hs. lia.
  - intros. now rewrite map_length, seq_length.
  - rewrite repeat_length. lia.
Qed.
Lemma faces_ok : rect_faces nx ny = Ret rfs.
Proof.
  unfold rect_faces, rfs.
  assert (E := fill_blocks (fun j fs => for_ nx 0 (fun i fs => wr fs (j * nx + i) (map Z.of_nat
      [j * (nx + 1) + i; j * (nx + 1) + i + 1; j * (nx + 1) + i + 1 + nx + 1; j * (nx + 1) + i + 1 + nx + 1 - 1])) fs)
    (fun j => map (fun i => rface i j) (seq 0 nx)) nx ny 0 [] (repeat [0; 0; 0; 0]%Z (nx * ny)) []).
  cbn [app] in E. rewrite !app_nil_r in E. apply E.
  - intros j s1 o s2 Hj Hs Ho. apply fill_range; auto. intros i s Hi Hl. cbn in Hs. f_equal; [rewrite Hs; lia|].
    unfold rface, V. cbn [map].
    repeat (apply f_equal2; [f_equal; lia|]). reflexivity.
  - intros. now rewrite map_length, seq_length.
  - rewrite repeat_length. lia.
Qed.
Lemma rvs_length dx dy : length (rvs dx dy) = (nx + 1) * (ny + 1).
Proof.
  unfold rvs. rewrite (concat_length_eq _ (nx + 1)); [rewrite map_length, seq_length; lia|].
  intros l Hl. apply in_map_iff in Hl as (j & <- & _). now rewrite map_length, seq_length.
Qed.
Lemma rfs_length : length rfs = nx * ny.
Proof.
  unfold rfs. rewrite (concat_length_eq _ nx); [rewrite map_length, seq_length; lia|].
  intros l Hl. apply in_map_iff in Hl as (j & <- & _). now rewrite map_length, seq_length.
Qed.
Lemma rvs_nth dx dy i j : i <= nx -> j <= ny ->
  nth_error (rvs dx dy) (j * (nx + 1) + i) = Some (INR i * dx, INR j * dy)%R.
Proof.
  intros Hi Hj. unfold rvs. erewrite nth_error_concat; [| |apply nth_error_map_seq; lia|lia].
  - apply (nth_error_map_seq (fun i => (INR i * dx, INR j * dy)%R)). lia.
  - intros l Hl. apply in_map_iff in Hl as (j' & <- & _). now rewrite map_length, seq_length.
Qed.
Lemma rfs_nth i j : i < nx -> j < ny -> nth_error rfs (j * nx + i) = Some (rface i j).
Proof.
  intros Hi Hj. unfold rfs. erewrite nth_error_concat; [| |apply nth_error_map_seq; lia|lia].
  - apply (nth_error_map_seq (fun i => rface i j)). lia.
  - intros l Hl. apply in_map_iff in Hl as (j' & <- & _). now rewrite map_length, seq_length.
Qed.
Lemma rfs_index k c : nth_error rfs k = Some c -> exists i j, i < nx /\ j < ny /\ k = j * nx + i /\ c = rface i j.
Proof.
  intros E. assert (Hk : k < nx * ny) by (rewrite <- rfs_length; apply nth_error_Some; congruence).
  exists (k mod nx), (k / nx). assert (D := Nat.div_mod k nx ltac:(lia)).
  assert (M := Nat.mod_upper_bound k nx ltac:(lia)). assert (Q : k / nx < ny) by (apply Nat.div_lt_upper_bound; lia).
  split; [auto|]. split; [auto|]. split; [lia|]. rewrite D, (Nat.mul_comm nx), rfs_nth in E by auto. congruence.
Qed.
Lemma rfs_in c : In c rfs <-> exists i j, i < nx /\ j < ny /\ c = rface i j.
Proof.
  split.
  - intros H. apply In_nth_error in H as (k & H). apply rfs_index in H as (i & j & ? & ? & _ & ?). eauto.
  - intros (i & j & Hi & Hj & ->). eapply nth_error_In. apply rfs_nth; auto.
Qed.
Lemma grid_mesh_ok dx dy b c e f : mesh_ok Quad (mkMesh b c (rvs dx dy) rfs e f).
Proof.
  intros q Hq. cbn in Hq. apply rfs_in in Hq as (i & j & Hi & Hj & ->). split; [reflexivity|].
  cbn [mv]. rewrite rvs_length. unfold rface, V.
  intros v Hv. assert (j * (nx + 1) + (nx + 1) <= ny * (nx + 1)) by nia.
  cbn [In] in Hv. destruct Hv as [<-|[<-|[<-|[<-|[]]]]]; nia.
Qed.
Lemma grid_corners dx dy i j : i < nx -> j < ny -> corners (rvs dx dy) (rface i j) =
  [Some (INR i * dx, INR j * dy)%R; Some (INR (S i) * dx, INR j * dy)%R;
   Some (INR (S i) * dx, INR (S j) * dy)%R; Some (INR i * dx, INR (S j) * dy)%R].
Proof.
  intros Hi Hj. unfold corners, rface, V. cbn [map]. rewrite !Nat2Z.id, !rvs_nth by lia. reflexivity.
Qed.

(** * Edges *)
Definition redges (c : nat * nat) : list (list Z) := edges_of Quad (rface (fst c) (snd c)).
Definition cells : list (nat * nat) := list_prod (seq 0 nx) (seq 0 ny).
Definition es := all_edges Quad rfs.
Lemma V_eq i j i' j' : i <= nx -> i' <= nx -> (V i j = V i' j' <-> i = i' /\ j = j').
Proof. intros. split; [now apply V_inj|intros [-> ->]; auto]. Qed.
Lemma es_in e : In e es <-> exists i j, i < nx /\ j < ny /\ In e (redges (i, j)).
Proof.
  unfold es, all_edges. rewrite in_concat. split.
  - intros (l & Hl & He). apply in_map_iff in Hl as (c & <- & Hc). apply rfs_in in Hc as (i & j & ? & ? & ->). eauto.
  - intros (i & j & Hi & Hj & He). exists (redges (i, j)). split; [|auto]. apply in_map_iff. exists (rface i j).
    split; [reflexivity|]. apply rfs_in. eauto.
Qed.
(** the edges of cell (i, j) *)
Lemma redges_in i j e : In e (redges (i, j)) <->
  e = [V i j; V (S i) j] \/ e = [V (S i) j; V (S i) (S j)] \/ e = [V (S i) (S j); V i (S j)] \/ e = [V i (S j); V i j].
Proof. unfold redges. cbn. intuition congruence. Qed.
Ltac vinj := repeat match goal with
  | H : [_; _] = [_; _] |- _ => injection H as ? ?
  | H : V _ _ = V _ _ |- _ => apply V_inj in H; [destruct H|lia|lia] end.
Lemma redges_disjoint i j i' j' e : i < nx -> i' < nx -> In e (redges (i, j)) -> In e (redges (i', j')) -> i = i' /\ j = j'.
Proof.
  intros Hi Hi' H H'. rewrite redges_in in H, H'.
  destruct H as [->|[->|[->| ->]]], H' as [E|[E|[E|E]]]; vinj; lia.
Qed.
Lemma redges_nodup i j : i < nx -> NoDup (redges (i, j)).
Proof.
  intros Hi. unfold redges. cbn [edges_of rface fst snd].
  repeat constructor; intros H; cbn [In] in H; repeat (destruct H as [H|H]); try exact H; vinj; lia.
Qed.
Lemma es_nodup : NoDup es.
Proof.
  unfold es, all_edges, rfs. rewrite concat_map, map_map. 
  assert (E : concat (concat (map (fun j => map (edges_of Quad) (map (fun i => rface i j) (seq 0 nx))) (seq 0 ny))) =
    concat (map (fun j => concat (map (fun i => redges (i, j)) (seq 0 nx))) (seq 0 ny))).
  { generalize (seq 0 ny) as l. induction l as [|j l IH]; auto. cbn [map concat]. rewrite concat_app, IH, map_map. reflexivity. }
  rewrite E. clear E. apply NoDup_concat_map; [apply seq_NoDup| |].
  - intros j Hj. apply NoDup_concat_map; [apply seq_NoDup| |].
    + intros i Hi. apply in_seq in Hi. apply redges_nodup. lia.
    + intros i i' e Hi Hi' H H'. apply in_seq in Hi, Hi'. destruct (redges_disjoint i j i' j e ltac:(lia) ltac:(lia) H H'); auto.
  - intros j j' e _ _ H H'. apply in_concat in H as (l & H & He), H' as (l' & H' & He').
    apply in_map_iff in H as (i & <- & Hi), H' as (i' & <- & Hi'). apply in_seq in Hi, Hi'.
    destruct (redges_disjoint i j i' j' e ltac:(lia) ltac:(lia) He He'); auto.
Qed.
(** a list without repetitions has an element once *)
Lemma filter_one {A} (f : A -> bool) l x : NoDup l -> (forall y, f y = true <-> y = x) -> In x l -> filter f l = [x].
Proof.
  induction l as [|y l IH]; intros N F H; [destruct H|]. inversion N as [|? ? N1 N2]; subst. cbn. destruct (f y) eqn:E.
  - apply F in E. subst. f_equal. apply filter_none. intros z Hz. destruct (f z) eqn:Ez; auto. apply F in Ez. subst. contradiction.
  - destruct H as [->|H]; [|auto]. assert (f x = true) by now apply F. congruence.
Qed.
Lemma filter_zero {A} (f : A -> bool) l x : (forall y, f y = true <-> y = x) -> ~ In x l -> filter f l = [].
Proof. intros F H. apply filter_none. intros z Hz. destruct (f z) eqn:Ez; auto. apply F in Ez. subst. contradiction. Qed.
Definition is_edge (e y : list Z) : bool := if edge_dec e y then true else false.
Lemma is_edge_iff e y : is_edge e y = true <-> y = e.
Proof. unfold is_edge. destruct (edge_dec e y); intuition congruence. Qed.
Lemma uses_split l a b : a <> b -> uses l [a; b] = length (filter (is_edge [a; b]) l) + length (filter (is_edge [b; a]) l).
Proof.
  intros N. unfold uses. induction l as [|y l IH]; auto. cbn [filter]. unfold same_edge at 1.
  change (is_edge [a; b] y) with (if edge_dec [a; b] y then true else false).
  change (is_edge [b; a] y) with (if edge_dec [b; a] y then true else false).
  assert (R : [a; b] = reverse_edge y <-> [b; a] = y).
  { destruct y as [|p [|q r]]; cbn; split; intros E; congruence. }
  destruct (edge_dec [a; b] y) as [E|E], (edge_dec [a; b] (reverse_edge y)) as [E'|E'], (edge_dec [b; a] y) as [E2|E2];
    try tauto; cbn [length]; rewrite ?IH; try lia.
  all: congruence.
Qed.
Lemma es_ends e : In e es -> exists a b, e = [a; b] /\ a <> b.
Proof.
  intros H. apply es_in in H as (i & j & Hi & Hj & H). apply redges_in in H.
  destruct H as [->|[->|[->| ->]]]; eexists _, _; (split; [reflexivity|]); intros E; vinj; lia.
Qed.
Lemma es_uses a b : In [a; b] es -> a <> b ->
  uses es [a; b] = 1 + (if in_dec edge_dec [b; a] es then 1 else 0).
Proof.
  intros H N. rewrite uses_split, (filter_one _ _ [a; b] es_nodup (is_edge_iff _) H) by auto.
  destruct (in_dec edge_dec [b; a] es) as [I|I].
  - now rewrite (filter_one _ _ [b; a] es_nodup (is_edge_iff _) I).
  - now rewrite (filter_zero _ _ [b; a] (is_edge_iff _) I).
Qed.

(** * The boundary *)
Definition N := 2 * nx + 2 * ny.
Definition path (t : nat) : Z :=
  if t <=? nx then V t 0
  else if t <=? nx + ny then V nx (t - nx)
  else if t <=? 2 * nx + ny then V (2 * nx + ny - t) ny
  else V 0 (N - t).
Definition loop : list (list Z) := map (fun t => [path t; path (S t)]) (seq 0 N).
Ltac pth := unfold path, N in *; repeat match goal with |- context [Nat.leb ?a ?b] => destruct (Nat.leb_spec a b); try lia end.
Lemma path_inj s t : s < N -> t < N -> path s = path t -> s = t.
Proof.
  unfold path, N. intros Hs Ht E.
  repeat match type of E with context [Nat.leb ?a ?b] => destruct (Nat.leb_spec a b); try lia end; vinj; lia.
Qed.
Lemma loop_closed : closed_loop loop.
Proof.
  assert (P : 0 < N) by (unfold N; lia).
  exists (path 0), (map path (seq 1 (N - 1))). unfold loop. rewrite !map_map. cbn [start_of end_of nth].
  split; [|split].
  - replace N with (S (N - 1)) at 1 by lia. cbn [seq map]. reflexivity.
  - replace N with (N - 1 + 1) at 1 by lia. rewrite seq_app, map_app, <- seq_shift, map_map. cbn [seq map]. f_equal. f_equal.
    replace (S (0 + (N - 1))) with N by lia. pth; f_equal; lia.
  - change (path 0 :: map path (seq 1 (N - 1))) with (map path (seq 0 (S (N - 1)))).
    assert (X : forall l, NoDup l -> (forall t, In t l -> t < N) -> NoDup (map path l)).
    { induction l as [|t l IH]; intros M B; cbn; constructor; inversion M; subst.
      - intros H. apply in_map_iff in H as (s & E & Hs). apply path_inj in E; [subst; contradiction| |]; apply B; [now right|now left].
      - apply IH; auto. intros; apply B; now right. }
    apply X; [apply seq_NoDup|]. intros t Ht. apply in_seq in Ht. lia.
Qed.
Lemma loop_nodup : NoDup loop.
Proof.
  destruct loop_closed as (s & t & E & _ & M). rewrite <- E in M. exact (NoDup_map_inv _ _ M).
Qed.
Lemma loop_in e : In e loop <->
  (exists i, i < nx /\ e = [V i 0; V (S i) 0]) \/ (exists j, j < ny /\ e = [V nx j; V nx (S j)]) \/
  (exists i, i < nx /\ e = [V (S i) ny; V i ny]) \/ (exists j, j < ny /\ e = [V 0 (S j); V 0 j]).
Proof.
  unfold loop. rewrite in_map_iff. split.
  - intros (t & <- & Ht). apply in_seq in Ht. unfold N in Ht.
    destruct (le_lt_dec nx t); [destruct (le_lt_dec (nx + ny) t); [destruct (le_lt_dec (2 * nx + ny) t)|]|].
    + right. right. right. exists (N - t - 1). split; [unfold N; lia|]. f_equal; [|f_equal]; pth; f_equal; lia.
    + right. right. left. exists (2 * nx + ny - t - 1). split; [lia|]. f_equal; [|f_equal]; pth; f_equal; lia.
    + right. left. exists (t - nx). split; [lia|]. f_equal; [|f_equal]; pth; f_equal; lia.
    + left. exists t. split; [lia|]. f_equal; [|f_equal]; pth; f_equal; lia.
  - intros [(i & Hi & ->)|[(j & Hj & ->)|[(i & Hi & ->)|(j & Hj & ->)]]].
    + exists i. split; [|apply in_seq; unfold N; lia]. f_equal; [|f_equal]; pth; f_equal; lia.
    + exists (nx + j). split; [|apply in_seq; unfold N; lia]. f_equal; [|f_equal]; pth; f_equal; lia.
    + exists (2 * nx + ny - i - 1). split; [|apply in_seq; unfold N; lia]. f_equal; [|f_equal]; pth; f_equal; lia.
    + exists (N - j - 1). split; [|apply in_seq; unfold N; lia]. f_equal; [|f_equal]; pth; f_equal; lia.
Qed.
Lemma es_form e : In e es <-> exists i j, i < nx /\ j < ny /\
  (e = [V i j; V (S i) j] \/ e = [V (S i) j; V (S i) (S j)] \/ e = [V (S i) (S j); V i (S j)] \/ e = [V i (S j); V i j]).
Proof. rewrite es_in. split; intros (i & j & Hi & Hj & H); exists i, j; apply redges_in in H || rewrite redges_in; auto. Qed.
Lemma boundary_iff e : In e (boundary_of es) <-> In e loop.
Proof.
  unfold boundary_of. rewrite filter_In, Nat.eqb_eq. split.
  - intros [H U]. destruct (es_ends e H) as (a & b & -> & Nab). rewrite es_uses in U by auto.
    destruct (in_dec edge_dec [b; a] es) as [I|I]; [discriminate|]. apply loop_in.
    apply es_form in H as (i & j & Hi & Hj & H). rewrite es_form in I.
    destruct H as [E|[E|[E|E]]]; injection E as -> ->.
    + destruct j as [|j]; [left; eauto|]. exfalso. apply I. exists i, j. repeat split; auto; lia.
    + destruct (Nat.eq_dec (S i) nx) as [<-|?]; [right; left; eauto|]. exfalso. apply I. exists (S i), j. repeat split; auto; lia.
    + destruct (Nat.eq_dec (S j) ny) as [<-|?]; [right; right; left; eauto|]. exfalso. apply I. exists i, (S j). repeat split; auto; lia.
    + destruct i as [|i]; [right; right; right; eauto|]. exfalso. apply I. exists i, j. repeat split; auto; lia.
  - intros H. assert (X : In e es /\ exists a b, e = [a; b] /\ ~ In [b; a] es).
    { apply loop_in in H. destruct H as [(i & Hi & ->)|[(j & Hj & ->)|[(i & Hi & ->)|(j & Hj & ->)]]].
      - split; [apply es_form; exists i, 0; auto|]. eexists _, _. split; [reflexivity|].
        intros H. apply es_form in H as (i' & j' & Hi' & Hj' & H). destruct H as [E|[E|[E|E]]]; vinj; lia.
      - split; [apply es_form; exists (nx - 1), j; replace (S (nx - 1)) with nx by lia; repeat split; auto; lia|]. eexists _, _. split; [reflexivity|].
        intros H. apply es_form in H as (i' & j' & Hi' & Hj' & H). destruct H as [E|[E|[E|E]]]; vinj; lia.
      - split; [apply es_form; exists i, (ny - 1); replace (S (ny - 1)) with ny by lia; repeat split; auto; lia|]. eexists _, _. split; [reflexivity|].
        intros H. apply es_form in H as (i' & j' & Hi' & Hj' & H). destruct H as [E|[E|[E|E]]]; vinj; lia.
      - split; [apply es_form; exists 0, j; repeat split; auto|]. eexists _, _. split; [reflexivity|].
        intros H. apply es_form in H as (i' & j' & Hi' & Hj' & H). destruct H as [E|[E|[E|E]]]; vinj; lia. }
    destruct X as (X & a & b & -> & Y). split; auto. destruct (es_ends _ X) as (a' & b' & E & Nab). injection E as <- <-.
    rewrite es_uses by auto. now destruct (in_dec edge_dec [b; a] es).
Qed.
Lemma grid_watertight : watertight es.
Proof.
  split.
  - intros e He. destruct (es_ends e He) as (a & b & -> & Nab). rewrite es_uses by auto. destruct (in_dec _ _ _); lia.
  - exists loop. split; [|exact loop_closed]. apply NoDup_Permutation; [|exact loop_nodup|exact boundary_iff].
    unfold boundary_of. apply NoDup_filter, es_nodup.
Qed.
End Grid.

(** * The mesh *)
Local Open Scope R_scope.
Lemma slot_exists d n x : 0 <= x < INR n * d -> exists i, (i < n)%nat /\ INR i * d <= x < INR (S i) * d.
Proof.
  induction n as [|n IH]; intros H.
  - cbn in H. lra.
  - destruct (Rlt_le_dec x (INR n * d)) as [L|L].
    + destruct IH as (i & Hi & Hx); [lra|]. exists i. split; [lia|auto].
    + exists n. split; [lia|]. lra.
Qed.
Lemma slot_unique d i j x : 0 < d -> INR i * d <= x < INR (S i) * d -> INR j * d <= x < INR (S j) * d -> i = j.
Proof.
  intros D [A1 A2] [B1 B2].
  assert (X : INR i < INR (S j)) by nra. assert (Y : INR j < INR (S i)) by nra. apply INR_lt in X, Y. lia.
Qed.
Lemma step_le d i n : 0 <= d -> (i <= n)%nat -> INR i * d <= INR n * d.
Proof. intros. apply Rmult_le_compat_r; auto. apply le_INR. auto. Qed.
Lemma step_lt d i : 0 < d -> INR i * d < INR (S i) * d.
Proof. intros. rewrite S_INR. nra. Qed.
Lemma step_ge d i : 0 <= d -> 0 <= INR i * d.
Proof. intros. apply Rmult_le_pos; auto. apply pos_INR. Qed.
Lemma step_eq0 d i : 0 < d -> (INR i * d = 0 <-> i = 0%nat).
Proof.
  intros D. split; intros E; [|subst; cbn; ring]. destruct i; auto. exfalso. assert (0 < INR (S i)) by (apply lt_0_INR; lia). nra.
Qed.
Lemma step_eqn d i n : 0 < d -> (INR i * d = INR n * d <-> i = n).
Proof.
  intros D. split; intros E; [|subst; auto]. apply INR_eq. apply Rmult_eq_reg_r with d; lra.
Qed.
Section Mesh.
Variables (nx ny : nat) (dx dy : R).
Hypothesis Hx : (0 < nx)%nat.
Hypothesis Hy : (0 < ny)%nat.
Hypothesis Dx : 0 < dx.
Hypothesis Dy : 0 < dy.
Definition gmesh : mesh R := mkMesh false false (rvs nx ny dx dy) (rfs nx ny) [] [].
Lemma rface_rect i j : (i < nx)%nat -> (j < ny)%nat ->
  is_rect gmesh (rface nx i j) (INR i * dx) (INR j * dy) (INR (S i) * dx) (INR (S j) * dy).
Proof. intros Hi Hj. split; [apply grid_corners; auto|]. split; apply step_lt; auto. Qed.
Lemma grid_tiles : tiles gmesh (INR nx * dx) (INR ny * dy).
Proof.
  split.
  - intros c Hc. apply rfs_in in Hc as (i & j & Hi & Hj & ->); auto.
    exists (INR i * dx), (INR j * dy), (INR (S i) * dx), (INR (S j) * dy). split; [apply rface_rect; auto|].
    assert (0 <= dx) by lra. assert (0 <= dy) by lra.
    split; [apply step_ge; auto|]. split; [apply step_le; auto|]. split; [apply step_ge; auto|apply step_le; auto].
  - intros x y Px Py. destruct (slot_exists dx nx x Px) as (i & Hi & Ix). destruct (slot_exists dy ny y Py) as (j & Hj & Jy).
    exists (j * nx + i)%nat, (rface nx i j), (INR i * dx), (INR j * dy), (INR (S i) * dx), (INR (S j) * dy).
    split; [apply rfs_nth; auto|]. split; [apply rface_rect; auto|]. split; [auto|]. split; [auto|].
    intros k' c' x0 y0 x1 y1 E (C & _) X Y. cbn [fv gmesh] in E. apply rfs_index in E as (i' & j' & Hi' & Hj' & -> & ->); auto.
    cbn [mv gmesh] in C. rewrite grid_corners in C by auto. injection C as <- <- <- _ _ <- _ _.
    rewrite (slot_unique dx i' i x Dx X Ix), (slot_unique dy j' j y Dy Y Jy). reflexivity.
Qed.
Lemma corner_V i j : (i <= nx)%nat -> (j <= ny)%nat -> nth_error (mv gmesh) (Z.to_nat (V nx i j)) = Some (INR i * dx, INR j * dy).
Proof. intros. unfold V. rewrite Nat2Z.id. apply rvs_nth; auto. Qed.
Lemma border_iff i j i' j' : (i <= nx)%nat -> (j <= ny)%nat -> (i' <= nx)%nat -> (j' <= ny)%nat ->
  on_border gmesh (INR nx * dx) (INR ny * dy) [V nx i j; V nx i' j'] <->
  (i = 0 /\ i' = 0 \/ i = nx /\ i' = nx \/ j = 0 /\ j' = 0 \/ j = ny /\ j' = ny)%nat.
Proof.
  intros Hi Hj Hi' Hj'. unfold on_border, corners. cbn [map]. rewrite !corner_V by auto. split.
  - intros (p & q & E & H). injection E as <- <-. cbn [fst snd] in H. rewrite !step_eq0, !step_eqn in H by auto. exact H.
  - intros H. eexists _, _. split; [reflexivity|]. cbn [fst snd]. rewrite !step_eq0, !step_eqn by auto. exact H.
Qed.
Lemma grid_conforming e : In e (all_edges Quad (fv gmesh)) ->
  (In (reverse_edge e) (all_edges Quad (fv gmesh)) <-> ~ on_border gmesh (INR nx * dx) (INR ny * dy) e).
Proof.
  cbn [fv gmesh]. fold (es nx ny). intros H. rewrite !es_form in * by auto. destruct H as (i & j & Hi & Hj & H).
  assert (VI := V_inj nx ny Hx Hy).
  destruct H as [->|[->|[->| ->]]]; cbn [reverse_edge]; rewrite border_iff by lia; split; intros H.
  all: try (destruct H as (i' & j' & Hi' & Hj' & H); destruct H as [E|[E|[E|E]]]; injection E as E1 E2;
    (apply VI in E1; [|lia|lia]); (apply VI in E2; [|lia|lia]); lia).
  - exists i, (j - 1)%nat. replace (S (j - 1)) with j by lia. repeat split; auto; lia.
  - exists (S i), j. repeat split; auto; lia.
  - exists i, (S j). repeat split; auto; lia.
  - exists (i - 1)%nat, j. replace (S (i - 1)) with i by lia. repeat split; auto; lia.
Qed.
End Mesh.

(** * addRectangularPinMesh *)
Lemma corners_inj (p q : list (R * R)) l : map Some p = l -> map Some q = l -> p = q.
Proof.
  intros <-. revert p. induction q as [|x q IH]; intros [|y p] E; try discriminate; auto. cbn in E. injection E as <- E. f_equal. auto.
Qed.
Lemma rect_isCCW eps x0 y0 x1 y1 : 0 <= eps -> x0 < x1 -> y0 < y1 ->
  face_isCCW eps [(x0, y0); (x1, y0); (x1, y1); (x0, y1)] = true.
Proof.
  intros He X Y. unfold face_isCCW, quad_isCCW, areApproxCCW. rewrite andb_true_iff, !Seg_Proofs.oleb_R, !Seg_Proofs.cross2_R.
  unfold psub. cbn. nra.
Qed.
Lemma validate_grid stdsort eps nx ny dx dy : sort_contract stdsort -> 0 <= eps -> (0 < nx)%nat -> (0 < ny)%nat -> 0 < dx -> 0 < dy ->
  validate stdsort (face_isCCW eps) (fun m => Ret m) (4 * length (rfs nx ny)) Quad (gmesh nx ny dx dy) = Ret (gmesh nx ny dx dy).
Proof.
  intros Hs He Hx Hy Dx Dy. unfold validate.
  assert (M : mesh_ok Quad (gmesh nx ny dx dy)) by (apply grid_mesh_ok; auto).
  assert (E : checkCCWFaces (face_isCCW eps) Quad (gmesh nx ny dx dy) = Ret (gmesh nx ny dx dy)).
  { unfold checkCCWFaces. assert (G : forall n i, (i + n <= length (fv (gmesh nx ny dx dy)))%nat ->
      for_ n i (fun i m => let* p := getFace m i in if negb (face_isCCW eps p) then flipFace Quad m i else Ret m)
        (gmesh nx ny dx dy) = Ret (gmesh nx ny dx dy)); [|apply G; lia].
    induction n as [|n IH]; intros i Hi; auto. cbn [for_].
    destruct (nth_error (rfs nx ny) i) as [c|] eqn:Ec; [|apply nth_error_None in Ec; cbn [fv gmesh] in Hi; lia].
    assert (Ec' := Ec). apply rfs_index in Ec' as (a & b & Ha & Hb & _ & ->); auto.
    unfold getFace. cbn [fv mv gmesh]. unfold rd. rewrite Ec. cbn [bind].
    assert (P : mapo (rdz (rvs nx ny dx dy)) (rface nx a b) = Ret
      [(INR a * dx, INR b * dy); (INR (S a) * dx, INR b * dy); (INR (S a) * dx, INR (S b) * dy); (INR a * dx, INR (S b) * dy)]).
    { unfold rface. cbn [mapo].
      assert (Q : forall i j, (i <= nx)%nat -> (j <= ny)%nat -> rdz (rvs nx ny dx dy) (V nx i j) = Ret (INR i * dx, INR j * dy)).
      { intros. apply rdz_nth; [unfold V; lia|]. apply (corner_V nx ny dx dy); auto. }
      rewrite !Q by lia. reflexivity. }
    rewrite P. cbn [bind]. rewrite rect_isCCW by (auto; apply step_lt; auto). cbn [negb bind]. apply IH. lia. }
  rewrite E. cbn [bind].
  assert (C : checkManifoldWatertight stdsort (4 * length (rfs nx ny)) Quad (gmesh nx ny dx dy) = Ret tt).
  { apply (check_iff stdsort Hs R).
    - intros c Hc. apply (M c Hc).
    - cbn [fv gmesh]. unfold all_edges. rewrite (concat_length_eq _ 4); [rewrite map_length; lia|].
      intros l Hl. apply in_map_iff in Hl as (c & <- & Hc). apply rfs_in in Hc as (a & b & _ & _ & ->); auto.
    - apply grid_watertight; auto. }
  rewrite C. reflexivity.
Qed.
Lemma div_pos a n : 0 < a -> (0 < n)%nat -> 0 < a / INR n.
Proof. intros. apply Rdiv_lt_0_compat; auto. apply lt_0_INR. auto. Qed.
Lemma mul_div a n : (0 < n)%nat -> INR n * (a / INR n) = a.
Proof. intros. field. apply not_0_INR. lia. Qed.
Theorem add_ok stdsort eps exit quads w h nx ny : sort_contract stdsort -> 0 <= eps -> 0 < w -> 0 < h ->
  (0 < nx)%Z -> (0 < ny)%Z -> ((nx + 1) * (ny + 1) <= intMax)%Z ->
  addRectangularPinMesh stdsort eps exit quads w h nx ny =
  Ret (quads ++ [gmesh (Z.to_nat nx) (Z.to_nat ny) (w / INR (Z.to_nat nx)) (h / INR (Z.to_nat ny))], Z.of_nat (length quads)).
Proof.
  intros Hs He Hw Hh Hx Hy Hm. unfold addRectangularPinMesh.
  rewrite (proj2 (Rltb_true 0 w) Hw), (proj2 (Rltb_true 0 h) Hh). cbn [negb andb].
  destruct (Z.leb_spec nx 0); [lia|]. destruct (Z.leb_spec ny 0); [lia|]. cbn [orb].
  rewrite i32_ok by (unfold in_i32, intMin; nia). cbn [bind].
  rewrite vertices_ok, faces_ok by lia. cbn [bind].
  fold (gmesh (Z.to_nat nx) (Z.to_nat ny) (w / INR (Z.to_nat nx)) (h / INR (Z.to_nat ny))).
  rewrite validate_grid; auto; try lia; try (apply div_pos; auto; lia).
Qed.
Lemma rejected exit stdsort eps quads w h nx ny : w <= 0 \/ h <= 0 \/ (nx <= 0)%Z \/ (ny <= 0)%Z ->
  addRectangularPinMesh stdsort eps exit quads w h nx ny = if exit then Fail else Ret (quads ++ [empty_mesh], -1)%Z.
Proof.
  intros H. unfold addRectangularPinMesh, error.
  destruct (Rltb 0 w) eqn:Ew; [|destruct exit; reflexivity]. destruct (Rltb 0 h) eqn:Eh; [|destruct exit; reflexivity].
  apply Rltb_true in Ew, Eh. cbn [negb andb]. assert (X : ((nx <=? 0) || (ny <=? 0))%Z = true).
  { apply orb_true_iff. rewrite !Z.leb_le. destruct H as [H|[H|H]]; [lra|lra|auto]. }
  rewrite X. destruct exit; reflexivity.
Qed.
Lemma overflow stdsort eps exit quads w h nx ny : 0 < w -> 0 < h ->
  (0 < nx)%Z -> (0 < ny)%Z -> (intMax < (nx + 1) * (ny + 1))%Z ->
  addRectangularPinMesh stdsort eps exit quads w h nx ny = Ub.
Proof.
  intros Hw Hh Hx Hy Hm. unfold addRectangularPinMesh.
  rewrite (proj2 (Rltb_true 0 w) Hw), (proj2 (Rltb_true 0 h) Hh). cbn [negb andb].
  destruct (Z.leb_spec nx 0); [lia|]. destruct (Z.leb_spec ny 0); [lia|]. cbn [orb].
  rewrite i32_bad by (unfold in_i32; lia). reflexivity.
Qed.
Theorem grid_ok stdsort eps exit quads w h nx ny : sort_contract stdsort -> 0 <= eps -> 0 < w -> 0 < h ->
  (0 < nx)%nat -> (0 < ny)%nat -> (Z.of_nat ((nx + 1) * (ny + 1)) <= intMax)%Z ->
  exists m, addRectangularPinMesh stdsort eps exit quads w h (Z.of_nat nx) (Z.of_nat ny) = Ret (quads ++ [m], Z.of_nat (length quads)) /\
    length (mv m) = ((nx + 1) * (ny + 1))%nat /\ length (fv m) = (nx * ny)%nat /\ mesh_ok Quad m /\
    (forall i j, (i <= nx)%nat -> (j <= ny)%nat ->
       nth_error (mv m) (j * (nx + 1) + i) = Some (INR i * w / INR nx, INR j * h / INR ny)) /\
    (forall i j, (i < nx)%nat -> (j < ny)%nat -> exists c, nth_error (fv m) (j * nx + i) = Some c /\
       is_rect m c (INR i * w / INR nx) (INR j * h / INR ny) (INR (i + 1) * w / INR nx) (INR (j + 1) * h / INR ny)) /\
    tiles m w h /\
    (forall c p q r s, In c (fv m) -> corners (mv m) c = [Some p; Some q; Some r; Some s] ->
       quad_area Rarith p q r s = w * h / (INR nx * INR ny)) /\
    let es := all_edges Quad (fv m) in
    NoDup es /\ watertight es /\ (forall e, In e es -> (In (reverse_edge e) es <-> ~ on_border m w h e)).
Proof.
  intros Hs He Hw Hh Hx Hy Hm.
  assert (E := add_ok stdsort eps exit quads w h (Z.of_nat nx) (Z.of_nat ny) Hs He Hw Hh ltac:(lia) ltac:(lia) ltac:(nia)).
  rewrite !Nat2Z.id in E. set (dx := w / INR nx) in *. set (dy := h / INR ny) in *.
  assert (Dx : 0 < dx) by now apply div_pos. assert (Dy : 0 < dy) by now apply div_pos.
  assert (Nx : INR nx <> 0) by (apply not_0_INR; lia). assert (Ny : INR ny <> 0) by (apply not_0_INR; lia).
  assert (Wx : INR nx * dx = w) by now apply mul_div. assert (Wy : INR ny * dy = h) by now apply mul_div.
  assert (Sx : forall i, INR i * w / INR nx = INR i * dx) by (intros; unfold dx; field; auto).
  assert (Sy : forall i, INR i * h / INR ny = INR i * dy) by (intros; unfold dy; field; auto).
  exists (gmesh nx ny dx dy). split; [exact E|]. split; [apply rvs_length; auto|]. split; [apply rfs_length; auto|].
  split; [apply grid_mesh_ok; auto|].
  split; [intros i j Hi Hj; rewrite Sx, Sy; apply rvs_nth; auto|].
  split. { intros i j Hi Hj. exists (rface nx i j). split; [apply rfs_nth; auto|]. rewrite !Sx, !Sy, !Nat.add_1_r. now apply rface_rect. }
  split. { rewrite <- Wx, <- Wy. apply grid_tiles; auto. }
  split. { intros c p q r s Hc C. apply rfs_in in Hc as (i & j & Hi & Hj & ->); auto. cbn [mv gmesh] in C.
    rewrite grid_corners in C by auto. rewrite !S_INR in C. injection C as <- <- <- <-. unfold quad_area. rewrite cross2_R. unfold psub, Box_Model.o2. cbn [fst snd oadd osub odiv o1 Rarith].
    unfold dx, dy. field. auto. }
  split; [apply (es_nodup nx ny); auto|]. split; [apply (grid_watertight nx ny); auto|].
  intros e Hin. rewrite <- Wx at 1. rewrite <- Wy at 1. apply grid_conforming; auto.
Qed.
