(** The mean chord lengths of the faces and the distance of the rays. *)
From Coq Require Import String.
From Coquelicot Require Import Coquelicot.
From Coq Require Import List Arith ZArith Lia Bool Reals Lra Permutation Sorted.
From Verif Require Import Base Loops Arith StringView_Model TextIo_Model Box_Model Box_Proofs Elem_Model Sort_Spec Seg_Spec Poly_Model Poly_Spec Poly_Proofs QSeg_Model QSeg_Spec QPoly_Model QPoly_Spec QPoly_Proofs Stats_Model Stats_Spec
  Stats_Proofs Soup_Model Soup_Spec Soup_Proofs XSec_Model XSec_Spec PinCyl_Model Grid_Model Grid_Spec Fvm_Model Fvm_Spec Mpact_Model Mpact_Spec
  Export_Model Export_Spec Export_Cell_Proofs Export_Loop_Proofs Export_Proofs CApi_More_Proofs ModelIo_Write_Proofs Outputs_Model Outputs_Spec Outputs_Volume_Proofs.
Import ListNotations.
Local Open Scope list_scope.
Local Open Scope R_scope.

(** ** The mean chord length of a face *)
Lemma chord_linear k p : quadratic k = false -> length p = nverts k ->
  value_of (chord k p) = PI * rsum (map (fun e => tarea (0, 0) (fst e) (snd e)) (edges p)) / rsum (map (fun e => dist2 (fst e) (snd e)) (edges p)).
Proof.
  intros Hk L. assert (N : p <> []) by (intros ->; destruct k; discriminate). unfold chord. rewrite Hk. rewrite lin_area_ok.
  destruct (area_ok p N) as (A & EA & HA). rewrite EA, perimeter_ok by auto. cbn [bind value_of]. now rewrite (HA (0, 0)).
Qed.
Lemma chord_curved k vs ms Is : quadratic k = true -> length vs = length ms -> length (vs ++ ms) = nverts k ->
  (forall a b c, In (a, b, c) (qedges vs ms) -> mid_half a b c \/ (orient a b c <> 0 /\ isStraight Rarith (eps * eps) a b c = false)) ->
  integrals green (qedges vs ms) Is -> exists Ls, integrals arclength (qedges vs ms) Ls /\ value_of (chord k (vs ++ ms)) = PI * rsum Is / rsum Ls.
Proof.
  intros Hk E L H HI. assert (N : vs <> []) by (intros ->; destruct ms; [destruct k; discriminate|discriminate]).
  assert (0 < eps) by (unfold eps; lra).
  destruct (q_perimeter_arc (eps * eps) vs ms ltac:(nra) N E H) as (P & Ls & EP & HL & ->). exists Ls. split; [exact HL|].
  destruct (q_area_ok vs ms N E) as (A & Js & EA & HJ & -> & _). unfold chord. rewrite Hk. unfold q_meanChordLength. rewrite EA. cbn [bind].
  rewrite EP. cbn [bind value_of]. cbn [odiv omul Rarith]. now rewrite (green_unique _ _ _ HI HJ).
Qed.

(** ** All the faces *)
Lemma skipn_twice {A} : forall n k (l : list A), skipn k (skipn n l) = skipn (n + k) l.
Proof. induction n as [|n IH]; intros k l; [reflexivity|]. destruct l as [|a l]; [now rewrite !skipn_nil|]. cbn [skipn Nat.add]. apply IH. Qed.
Section Chords.
Variable exit : bool.
Variable m : model.
Hypothesis Hm : measurable m.
Lemma each_ok {S : Type} (f : Z -> S -> outcome S) s : each_cell m f s = foreach (all_cells m) f s.
Proof.
  destruct Hm as (Hv & _). unfold each_cell, all_cells, all_rtms, all_lattices. rewrite !foreach_flat. apply foreach_ext. intros a s1 Ha.
  destruct (get_ok (assemblies m) a ([], []) (proj1 (Forall_forall _ _) (core_ids m Hv) a Ha)) as (E & Hi). rewrite E. cbn [bind]. apply foreach_ext. intros l s2 Hl.
  destruct (get_ok (lattices m) l ([], []) (proj1 (Forall_forall _ _) (assembly_ids m Hv _ Hi) l Hl)) as (E' & Hi'). rewrite E'. cbn [bind]. apply foreach_ext. intros r s3 Hr.
  destruct (get_ok (rtms m) r ([], []) (proj1 (Forall_forall _ _) (lattice_ids m Hv _ Hi') r Hr)) as (E2 & Hi2). now rewrite E2.
Qed.
Lemma all_exist c : In c (all_cells m) -> exists_in (cells m) c.
Proof.
  destruct Hm as (Hv & _). unfold all_cells, all_rtms, all_lattices. intros H. apply in_flat_map in H. destruct H as (r & Hr & H). apply in_flat_map in Hr. destruct Hr as (l & Hl & Hr).
  apply in_flat_map in Hl. destruct Hl as (a & Ha & Hl).
  destruct (get_ok (assemblies m) a ([], []) (proj1 (Forall_forall _ _) (core_ids m Hv) a Ha)) as (_ & Hi).
  destruct (get_ok (lattices m) l ([], []) (proj1 (Forall_forall _ _) (assembly_ids m Hv _ Hi) l Hl)) as (_ & Hi').
  destruct (get_ok (rtms m) r ([], []) (proj1 (Forall_forall _ _) (lattice_ids m Hv _ Hi') r Hr)) as (_ & Hi2).
  exact (proj1 (Forall_forall _ _) (rtm_ids m Hv _ Hi2) c H).
Qed.
Definition nmats (cs : list Z) : nat := list_sum (map (fun c => length (material_ids (the_cell m c))) cs).
Lemma count_ok cs : forall n, (forall c, In c cs -> exists_in (cells m) c) -> (0 <= n)%Z -> (n + Z.of_nat (nmats cs) <= intMax)%Z ->
  foreach cs (fun c n => let* cc := rdz (cells m) c in i32 (n + size (material_ids cc))) n = Ret (n + Z.of_nat (nmats cs))%Z.
Proof.
  induction cs as [|c cs IH]; intros n He H0 H1; cbn [foreach].
  - unfold nmats. cbn [map list_sum fold_right]. f_equal. lia.
  - unfold nmats in *. cbn [map] in *. change (list_sum (?a :: ?l)) with (a + list_sum l)%nat in *. destruct (get_ok (cells m) c no_cell (He c (or_introl eq_refl))) as (E & _). rewrite E. cbn [bind].
    unfold the_cell in *. unfold i32, size. rewrite (proj2 (Z.leb_le _ _)) by (unfold intMin; lia). rewrite (proj2 (Z.leb_le _ _)) by lia. cbn [andb bind].
    rewrite IH; [f_equal; lia|intros; apply He; now right|lia|lia].
Qed.
Lemma write_run {A} (g : nat -> A) (n : nat) : forall pre z, (n <= length z)%nat ->
  foreach (seq 0 n) (fun i res => wr res (length pre + i)%nat (g i)) (pre ++ z) = Ret (pre ++ map g (seq 0 n) ++ skipn n z).
Proof.
  induction n as [|n IH]; intros pre z Hn; [reflexivity|].
  rewrite seq_S, foreach_app, IH by lia. cbn [bind foreach Nat.add]. unfold wr. rewrite (proj2 (Nat.ltb_lt _ _)).
  2:{ rewrite !app_length, map_length, seq_length, skipn_length. lia. }
  cbn [bind]. f_equal. destruct (skipn n z) as [|b r] eqn:Es. { apply (f_equal (@length A)) in Es. rewrite skipn_length in Es. cbn in Es. lia. }
  assert (Er : skipn (S n) z = r). { replace (S n) with (n + 1)%nat by lia. rewrite <- skipn_twice, Es. reflexivity. }
  rewrite Er, map_app. cbn [map]. 
  assert (U : forall (l : list A) x rest v, upd (l ++ x :: rest) (length l) v = l ++ v :: rest).
  { induction l as [|y l IHl]; intros; cbn; [reflexivity|]. now rewrite IHl. }
  rewrite !app_assoc. replace (length pre + n)%nat with (length (pre ++ map g (seq 0 n))) by (rewrite app_length, map_length, seq_length; lia).
  rewrite U, <- (app_assoc _ [g n] r). reflexivity.
Qed.
Lemma cell_length c : exists_in (cells m) c -> (length (cell_chords m c) <= length (material_ids (the_cell m c)))%nat /\
  (has_mesh m c -> length (cell_chords m c) = length (material_ids (the_cell m c))).
Proof.
  intros Hc. unfold cell_chords, has_mesh. destruct (cell_mesh m (the_cell m c)) as [[k x]|] eqn:E; [|split; [cbn; lia|now intros []]].
  destruct (get_ok (cells m) c no_cell Hc) as (_ & Hin). destruct Hm as (_ & _ & _ & Hme). pose proof (proj1 (Forall_forall _ _) Hme _ Hin) as Hcc.
  destruct Hcc as (k' & x' & Ex & _ & _ & L). { intros N. unfold cell_mesh, the_cell in E. now rewrite N in E. }
  unfold the_cell in *. rewrite E in Ex. injection Ex as <- <-. rewrite map_length, L. split; auto.
Qed.
Lemma fill_cell c pre z : exists_in (cells m) c -> exit = false \/ has_mesh m c -> (length (cell_chords m c) <= length z)%nat ->
  (let* cc := rdz (cells m) c in
   with_mesh exit m cc (fun k x st =>
        let* res := for_ (length (fv x)) 0 (fun i res =>
          let* p := face_of x i in let* l := chord k p in wr res (snd st + i) l) (fst st) in
        Ret (res, snd st + length (fv x))%nat) (pre ++ z, length pre))
  = Ret (pre ++ cell_chords m c ++ skipn (length (cell_chords m c)) z, length (pre ++ cell_chords m c)).
Proof.
  intros Hc He Hl. destruct (get_ok (cells m) c no_cell Hc) as (E & Hi). rewrite E. cbn [bind]. unfold cell_chords, has_mesh, the_cell in *.
  set (cc := get (cells m) c no_cell) in *. destruct Hm as (_ & _ & _ & Hme). pose proof (proj1 (Forall_forall _ _) Hme cc Hi) as Hcc.
  unfold with_mesh. destruct (meshes_like m (mtype cc)) as [[k ms]|] eqn:El.
  - destruct (Hcc ltac:(rewrite El; discriminate)) as (k' & x & Ex & Hx & _ & L). pose proof Ex as Ex'. unfold cell_mesh in Ex'. rewrite El in Ex'.
    destruct (Z.ltb_spec (mesh_id cc) 0) as [?|Hp]; [discriminate|]. destruct (nth_error ms (Z.to_nat (mesh_id cc))) as [y|] eqn:Ey; [|discriminate].
    injection Ex' as <- <-. rewrite Ex in Hl |- *.
    assert (kind_of (mtype cc) = Some k /\ meshes_of m (mtype cc) = Some ms) as (-> & ->) by (destruct (mtype cc); cbn in El |- *; try discriminate; injection El as <- <-; auto).
    rewrite (rdz_nth ms _ y) by auto. cbn [bind fst snd]. rewrite for_foreach.
    rewrite (foreach_ext _ (fun i res => wr res (length pre + i)%nat (value_of (chord k (map (vertex y) (nth i (fv y) [])))))).
    2:{ intros i s Hs. apply in_seq in Hs. assert (Hn : nth_error (fv y) i = Some (nth i (fv y) [])) by (apply nth_error_nth'; lia).
        unfold face_of. rewrite (proj2 (rd_Ret _ _ _) Hn). cbn [bind]. assert (In (nth i (fv y) []) (fv y)) as Hin by (eapply nth_error_In; eauto).
        rewrite (conn_verts k y (material_ids cc) Hx L _ Hin). cbn [bind]. rewrite chord_ret by (rewrite map_length; exact (proj1 (Hx _ Hin))). reflexivity. }
    rewrite map_length in Hl |- *. rewrite write_run by lia. cbn [bind]. rewrite app_length, map_length.
    assert (Em : map (fun i => value_of (chord k (map (vertex y) (nth i (fv y) [])))) (seq 0 (length (fv y))) = map (fun f => value_of (chord k (map (vertex y) f))) (fv y)).
    { rewrite <- (map_map (fun i => nth i (fv y) []) (fun f => value_of (chord k (map (vertex y) f)))). f_equal.
      assert (G : forall (l : list (list Z)), map (fun i => nth i l []) (seq 0 (length l)) = l).
      { induction l as [|a l IHl]; [reflexivity|]. cbn [length seq map nth]. f_equal. rewrite <- seq_shift, map_map. exact IHl. } apply G. }
    now rewrite Em.
  - assert (kind_of (mtype cc) = None) as -> by (destruct (mtype cc); cbn in El |- *; try discriminate; auto).
    assert (cell_mesh m cc = None) as En by (unfold cell_mesh; now rewrite El). rewrite En. cbn [length skipn app]. rewrite app_nil_r.
    destruct He as [->|He]; [reflexivity|]. now elim He.
Qed.
Lemma fill_all cs : forall pre z, (forall c, In c cs -> exists_in (cells m) c) -> (forall c, In c cs -> exit = false \/ has_mesh m c) ->
  (length (flat_map (cell_chords m) cs) <= length z)%nat ->
  foreach cs (fun c st => let* cc := rdz (cells m) c in
   with_mesh exit m cc (fun k x st =>
        let* res := for_ (length (fv x)) 0 (fun i res =>
          let* p := face_of x i in let* l := chord k p in wr res (snd st + i) l) (fst st) in
        Ret (res, snd st + length (fv x))%nat) st) (pre ++ z, length pre)
  = Ret (pre ++ flat_map (cell_chords m) cs ++ skipn (length (flat_map (cell_chords m) cs)) z, length (pre ++ flat_map (cell_chords m) cs)).
Proof.
  induction cs as [|c cs IH]; intros pre z He Ht Hl.
  - cbn [foreach flat_map app length skipn]. now rewrite app_nil_r.
  - cbn [foreach flat_map] in *. rewrite app_length in Hl. rewrite fill_cell; [|apply He; now left|apply Ht; now left|lia]. cbn [bind].
    rewrite app_assoc, IH; [|intros; apply He; now right|intros; apply Ht; now right|rewrite skipn_length; lia].
    rewrite <- !app_assoc, skipn_twice, !app_length. reflexivity.
Qed.
Lemma chords_length cs : (forall c, In c cs -> exists_in (cells m) c) -> (length (flat_map (cell_chords m) cs) <= nmats cs)%nat /\
  ((forall c, In c cs -> has_mesh m c) -> length (flat_map (cell_chords m) cs) = nmats cs).
Proof.
  induction cs as [|c cs IH]; intros He; [split; [cbn; lia|reflexivity]|].
  destruct (IH ltac:(intros; apply He; now right)) as (H1 & H2). destruct (cell_length c ltac:(apply He; now left)) as (H3 & H4).
  unfold nmats in *. cbn [flat_map map]. change (list_sum (?a :: ?l)) with (a + list_sum l)%nat. rewrite app_length. split; [lia|].
  intros H. rewrite H2, H4; [reflexivity|apply H; now left|intros; apply H; now right].
Qed.
Lemma skipn_repeat {A} (a : A) n k : skipn k (repeat a n) = repeat a (n - k).
Proof. revert n. induction k as [|k IH]; intros [|n]; cbn; auto. Qed.
Lemma lengths_ok : tolerated exit m -> (Z.of_nat (nmats (all_cells m)) <= intMax)%Z ->
  getMeanChordLengths exit m = Ret (core_chords m ++ repeat 0 (nmats (all_cells m) - length (core_chords m))).
Proof.
  intros Ht Hn. unfold getMeanChordLengths. rewrite !each_ok. rewrite count_ok; [|apply all_exist|lia|lia]. cbn [bind]. rewrite each_ok.
  destruct (chords_length (all_cells m) all_exist) as (HL & _).
  rewrite Z.add_0_l, Nat2Z.id. change (repeat 0 (nmats (all_cells m)), O) with ([] ++ repeat 0 (nmats (all_cells m)), @length R []).
  rewrite fill_all; [|apply all_exist| |rewrite repeat_length; exact HL].
  2:{ intros c Hc. destruct Ht as [H|H]; [now left|right]. exact (proj1 (Forall_forall _ _) H c Hc). }
  cbn [bind fst app]. now rewrite skipn_repeat.
Qed.
Lemma lengths_all : Forall (has_mesh m) (all_cells m) -> (Z.of_nat (nmats (all_cells m)) <= intMax)%Z -> getMeanChordLengths exit m = Ret (core_chords m).
Proof.
  intros Ht Hn. rewrite lengths_ok by (auto; now right). destruct (chords_length (all_cells m) all_exist) as (_ & E). rewrite Forall_forall in Ht.
  unfold core_chords. rewrite E by auto. rewrite Nat.sub_diag. cbn. now rewrite app_nil_r.
Qed.
Lemma lengths_count : Forall (has_mesh m) (all_cells m) -> length (core_chords m) = nmats (all_cells m).
Proof. intros H. rewrite Forall_forall in H. now apply chords_length; [apply all_exist|]. Qed.
End Chords.

(** ** The distance of the rays *)
Section Rays.
Variable stdsort : forall A : Type, (A -> A -> bool) -> list A -> list A.
Hypothesis Hsort : sort_contract stdsort.
Variable tenth : nat -> nat.
Hypothesis Htenth : tenths tenth.
Lemma filter_perm {A} (f : A -> bool) l l' : Permutation l l' -> length (filter f l) = length (filter f l').
Proof. induction 1 as [| a l l' P IH | a b l | ]; cbn [filter]; [reflexivity|destruct (f a); cbn; lia|destruct (f a), (f b); reflexivity|lia]. Qed.
Lemma filter_none {A} (f : A -> bool) l : (forall a, In a l -> f a = false) -> filter f l = [].
Proof. induction l as [|a l IH]; intros H; [reflexivity|]. cbn. rewrite H by now left. apply IH. intros; apply H; now right. Qed.
Lemma filter_all {A} (f : A -> bool) l : (forall a, In a l -> f a = true) -> filter f l = l.
Proof. induction l as [|a l IH]; intros H; [reflexivity|]. cbn. rewrite H by now left. f_equal. apply IH. intros; apply H; now right. Qed.
Lemma filter_length {A} (f : A -> bool) l : (length (filter f l) <= length l)%nat.
Proof. induction l as [|a l IH]; cbn; [lia|]. destruct (f a); cbn; lia. Qed.
Lemma ray_from l : l <> [] -> exists c, rd (stdsort R Rltb l) (tenth (length (stdsort R Rltb l))) = Ret c /\ ray_of l (c / 4).
Proof.
  intros N. destruct (Hsort R Rltb l (Rltb_swo l)) as (P & So). set (s := stdsort R Rltb l) in *. assert (L : length s = length l) by (symmetry; now apply Permutation_length).
  assert (Hl : (0 < length l)%nat) by (destruct l; [congruence|cbn; lia]). rewrite L. pose proof (Htenth (length l)) as (T1 & T2).
  destruct (nth_error s (tenth (length l))) as [c|] eqn:Ec; [|apply nth_error_None in Ec; lia].
  exists c. split; [now apply rd_Ret|]. unfold ray_of. replace (4 * (c / 4)) with c by lra. split.
  { eapply Permutation_in; [symmetry; exact P|]. eapply nth_error_In; eauto. }
  destruct (nth_error_split _ _ Ec) as (l1 & l2 & Es & L1). unfold number_of. rewrite !(filter_perm _ _ _ P), Es, !filter_app, !app_length. cbn [filter].
  assert (Hs : forall a, In a l1 -> a <= c).
  { intros a Ha. apply In_nth_error in Ha. destruct Ha as (i & Ei). assert (Hi : (i < length l1)%nat) by (apply nth_error_Some; congruence).
    assert (Ei' : nth_error s i = Some a) by (rewrite Es, nth_error_app1; auto). pose proof (So i (tenth (length l)) a c ltac:(lia) Ei' Ec) as X.
    apply Rltb_false in X. lra. }
  assert (Hs2 : forall a, In a l2 -> c <= a).
  { intros a Ha. apply In_nth_error in Ha. destruct Ha as (i & Ei).
    assert (Ei' : nth_error s (length l1 + S i) = Some a) by (rewrite Es, nth_error_app2 by lia; replace (length l1 + S i - length l1)%nat with (S i) by lia; exact Ei).
    pose proof (So (tenth (length l)) (length l1 + S i)%nat c a ltac:(lia) Ec Ei') as X. apply Rltb_false in X. lra. }
  split.
  - rewrite (filter_none _ l2). 2:{ intros a Ha. destruct (Rlt_dec a c); [|reflexivity]. apply Hs2 in Ha. lra. }
    destruct (Rlt_dec c c); [lra|]. pose proof (filter_length (fun d => if Rlt_dec d c then true else false) l1). cbn [length]. lia.
  - rewrite (filter_all _ l1). 2:{ intros a Ha. destruct (Rle_dec a c); [reflexivity|]. apply Hs in Ha. lra. }
    destruct (Rle_dec c c); [|lra]. cbn [length]. lia.
Qed.
Lemma ray_ok exit m l : getMeanChordLengths exit m = Ret l -> l <> [] -> exists r, ray_spacing stdsort exit tenth m = Ret r /\ ray_of l r.
Proof.
  intros E N. unfold ray_spacing. rewrite E. cbn [bind]. destruct (ray_from l N) as (c & Ec & Hc). exists (c / 4). rewrite Ec. cbn [bind]. auto.
Qed.
Lemma ray_empty exit m : getMeanChordLengths exit m = Ret [] -> ray_spacing stdsort exit tenth m = Ub.
Proof.
  intros E. unfold ray_spacing. rewrite E. cbn [bind]. destruct (Hsort R Rltb [] (Rltb_swo [])) as (P & _). apply Permutation_nil in P. rewrite P. cbn [length].
  unfold rd. destruct (tenth 0); reflexivity.
Qed.
End Rays.
