(** The numbers in the text files of the extraction programs. *)
From Coq Require Import String.
From Coquelicot Require Import Coquelicot.
From Coq Require Import List Arith ZArith Lia Bool Reals Lra.
From Verif Require Import Base Loops Arith StringView_Model TextIo_Model Elem_Model Soup_Model Soup_Spec Soup_Proofs Ascii_Model Seg_Spec Poly_Model Poly_Spec Poly_Proofs QSeg_Model QSeg_Spec QSeg_Proofs QSeg_Len_Proofs QPoly_Model QPoly_Spec QPoly_Proofs
  XSec_Model PinCyl_Model Grid_Model Grid_Spec Fvm_Model Fvm_Spec Fvm_Proofs Mpact_Model Mpact_Spec Mpact_Layout_Proofs
  Export_Model Export_Spec Export_Sets_Proofs Export_Cell_Proofs Export_Loop_Proofs Export_Proofs ModelIo_Write_Proofs Outputs_Model Outputs_Spec Outputs_Chord_Proofs Outputs_Proofs Source_Model Extract_Model Extract_Spec.
Import ListNotations.
Local Open Scope list_scope.
Local Open Scope R_scope.

(** ** Printing *)
Lemma print_ok (show : R -> list Z) l : forall t, foreach l (fun x t => Ret (t ++ show x ++ NL)) t = Ret (t ++ glue (map show l)).
Proof.
  induction l as [|x l IH]; intros t; cbn [foreach map].
  - unfold glue. cbn. now rewrite app_nil_r.
  - cbn [bind]. rewrite IH, glue_cons, <- !app_assoc. reflexivity.
Qed.
Lemma print_lists show l : (forall x, one_line (show x)) -> exists t, print show l = Ret t /\ lists show l t.
Proof.
  intros H. unfold print. rewrite print_ok. eexists. split; [reflexivity|]. unfold lists. cbn [app].
  rewrite <- (app_nil_r (glue _)). apply lines_all; [|intros []]. apply Forall_forall. intros s Hs. apply in_map_iff in Hs. destruct Hs as (x & <- & _). apply H.
Qed.
Lemma print_groups_ok (show : R -> list Z) g : forall t, foreach g (fun l t => foreach l (fun x t => Ret (t ++ show x ++ NL)) t) t = Ret (t ++ glue (map show (concat g))).
Proof.
  induction g as [|l g IH]; intros t; cbn [foreach concat map].
  - unfold glue. cbn. now rewrite app_nil_r.
  - rewrite print_ok. cbn [bind]. rewrite IH, map_app, glue_app, app_assoc. reflexivity.
Qed.
Lemma print_groups_lists show g : (forall x, one_line (show x)) -> exists t, print_groups show g = Ret t /\ lists show (concat g) t.
Proof.
  intros H. destruct (print_lists show (concat g) H) as (t & E & L). exists t. split; [|exact L]. unfold print_groups. rewrite print_groups_ok.
  unfold print in E. now rewrite print_ok in E.
Qed.

(** ** Vectors *)
Lemma nth_run {A} (d : A) l : map (fun i => nth i l d) (seq 0 (length l)) = l.
Proof. induction l as [|a l IH]; [reflexivity|]. cbn [length seq map nth]. f_equal. rewrite <- seq_shift, map_map. exact IH. Qed.
Lemma copy_ok src pre z : (length src <= length z)%nat -> copy_to src (length pre) (pre ++ z) = Ret (pre ++ src ++ skipn (length src) z).
Proof.
  intros H. unfold copy_to. rewrite for_foreach. rewrite (foreach_ext _ (fun i dst => wr dst (length pre + i)%nat (nth i src 0))).
  - rewrite write_run by exact H. now rewrite nth_run.
  - intros i s Hi. apply in_seq in Hi. rewrite (proj2 (rd_Ret src i (nth i src 0))) by (apply nth_error_nth'; lia). reflexivity.
Qed.
(** the runs of [w] entries of a vector one after the other *)
Lemma fill_runs (g : nat -> nat -> R) w n : forall z, (w * n <= length z)%nat ->
  for_ n 0 (fun i l => for_ w 0 (fun j l => wr l (i * w + j) (g i j)) l) z
  = Ret (flat_map (fun i => map (g i) (seq 0 w)) (seq 0 n) ++ skipn (w * n) z).
Proof.
  intros z. rewrite for_foreach. induction n as [|n IH]; intros Hz.
  - cbn [seq foreach flat_map app]. now rewrite Nat.mul_0_r.
  - rewrite seq_S, foreach_app, IH by nia. cbn [bind foreach Nat.add]. rewrite for_foreach.
    set (pre := flat_map (fun i => map (g i) (seq 0 w)) (seq 0 n)).
    assert (Lp : length pre = (n * w)%nat).
    { unfold pre. clear. induction (seq 0 n) as [|a s IH] eqn:E in n |- *; destruct n; cbn in E; try discriminate; [reflexivity|].
      injection E as <- E. cbn [flat_map]. rewrite app_length, map_length, seq_length.
      assert (G : forall s', length (flat_map (fun i => map (g i) (seq 0 w)) s') = (length s' * w)%nat).
      { induction s' as [|b s' IHs]; [reflexivity|]. cbn [flat_map length]. rewrite app_length, map_length, seq_length, IHs. lia. }
      rewrite G. rewrite <- E, seq_length. lia. }
    rewrite (foreach_ext _ (fun j l => wr l (length pre + j)%nat (g n j))) by (intros; now rewrite Lp).
    rewrite write_run by (rewrite skipn_length; nia). cbn [bind]. rewrite flat_map_app. cbn [flat_map]. rewrite app_nil_r, <- app_assoc, skipn_twice.
    fold pre. do 4 f_equal. nia.
Qed.

(** ** Cells *)
Section Core.
Variable m : model.
Hypothesis Hm : measurable m.
Definition chords_in (cc : cell) : list R :=
  match cell_mesh m cc with Some (k, x) => map (fun f => value_of (chord k (map (vertex x) f))) (fv x) | None => [] end.
Definition edge_val (e : list (R * R)) : R := value_of (edge_length e).
Definition edges_in (cc : cell) : list R :=
  match cell_mesh m cc with Some (k, x) => flat_map (fun f => map edge_val (edges_of k (map (vertex x) f))) (fv x) | None => [] end.
Lemma with_mesh_ok {T : Type} cc (f : kind -> mesh R -> T -> outcome T) s : In cc (cells m) -> cell_mesh m cc <> None ->
  exists k x, cell_mesh m cc = Some (k, x) /\ mesh_ok k x /\ length (material_ids cc) = length (fv x) /\ with_mesh true m cc f s = f k x s.
Proof.
  intros Hi Hc. destruct Hm as (_ & _ & _ & Hme). pose proof (proj1 (Forall_forall _ _) Hme cc Hi) as Hcc.
  destruct (meshes_like m (mtype cc)) as [[k ms]|] eqn:El; [|unfold cell_mesh in Hc; now rewrite El in Hc].
  destruct (Hcc ltac:(rewrite El; discriminate)) as (k' & x & Ex & Hx & _ & L). pose proof Ex as Ex'. unfold cell_mesh in Ex'. rewrite El in Ex'.
  destruct (Z.ltb_spec (mesh_id cc) 0) as [?|Hp]; [discriminate|]. destruct (nth_error ms (Z.to_nat (mesh_id cc))) as [y|] eqn:Ey; [|discriminate].
  injection Ex' as <- <-. exists k, y. repeat (split; [assumption|]). unfold with_mesh.
  assert (kind_of (mtype cc) = Some k /\ meshes_of m (mtype cc) = Some ms) as (-> & ->) by (destruct (mtype cc); cbn in El |- *; try discriminate; injection El as <- <-; auto).
  rewrite (rdz_nth ms _ y) by auto. reflexivity.
Qed.
Lemma cell_mcls_ok cc : In cc (cells m) -> cell_mesh m cc <> None -> cell_mcls m cc = Ret (chords_in cc).
Proof.
  intros Hi Hc. unfold cell_mcls, chords_in. match goal with |- with_mesh _ _ _ ?f ?s = _ => destruct (with_mesh_ok cc f s Hi Hc) as (k & x & Ex & Hx & L & ->) end.
  rewrite Ex, for_foreach, L. rewrite (foreach_ext _ (fun i res => wr res (length (@nil R) + i)%nat (value_of (chord k (map (vertex x) (nth i (fv x) [])))))).
  - change (repeat 0 (length (fv x))) with ([] ++ repeat 0 (length (fv x))). rewrite write_run by (rewrite repeat_length; lia).
    rewrite skipn_all2 by (rewrite repeat_length; lia). rewrite app_nil_r. cbn [app].
    rewrite <- (map_map (fun i => nth i (fv x) []) (fun f => value_of (chord k (map (vertex x) f)))), nth_run. reflexivity.
  - intros i s Hs. apply in_seq in Hs. assert (Hn : nth_error (fv x) i = Some (nth i (fv x) [])) by (apply nth_error_nth'; lia).
    unfold face_of. rewrite (proj2 (rd_Ret _ _ _) Hn). cbn [bind]. assert (In (nth i (fv x) []) (fv x)) as Hin by (eapply nth_error_In; eauto).
    rewrite (conn_verts k x (material_ids cc) Hx L _ Hin). cbn [bind]. rewrite chord_ret by (rewrite map_length; exact (proj1 (Hx _ Hin))). reflexivity.
Qed.
Lemma edge_length_ret k (p : list (R * R)) e : length p = nverts k -> In e (edges_of k p) -> edge_length e = Ret (edge_val e).
Proof.
  intros L H. unfold edge_val. assert (exists d, edge_length e = Ret d) as (d & E); [|now rewrite E].
  destruct k; cbn in L; list_len p L; cbn in H; repeat (destruct H as [<-|H]; [eexists; reflexivity|]); destruct H.
Qed.
Lemma edge_at_in {A} k (c : list A) j (d : list A) : length c = nverts k -> (j < nedges k)%nat -> edge_at k c j = Ret (nth j (edges_of k c) d).
Proof. intros L H. rewrite edge_at_ok by exact L. apply rd_Ret. apply nth_error_nth'. now rewrite edges_of_length. Qed.
Lemma edges_incl {A} k (c : list A) e : length c = nverts k -> In e (edges_of k c) -> incl e c.
Proof. intros L H. destruct k; cbn in L; list_len c L; cbn in H; repeat (destruct H as [<-|H]; [intros v Hv; cbn in *; tauto|]); destruct H. Qed.
Lemma cell_edges_ok cc : In cc (cells m) -> cell_mesh m cc <> None -> cell_edge_lens m cc = Ret (edges_in cc).
Proof.
  intros Hi Hc. unfold cell_edge_lens, edges_in. match goal with |- with_mesh _ _ _ ?f ?s = _ => destruct (with_mesh_ok cc f s Hi Hc) as (k & x & Ex & Hx & L & ->) end.
  rewrite Ex, L.
  assert (E : for_ (length (fv x)) 0 (fun i l => for_ (nedges k) 0 (fun j l =>
        let* e := getEdge k x i j in let* d := edge_length e in wr l (i * nedges k + j) d) l) (repeat 0 (nedges k * length (fv x)))
    = for_ (length (fv x)) 0 (fun i l => for_ (nedges k) 0 (fun j l =>
        wr l (i * nedges k + j) (edge_val (nth j (edges_of k (map (vertex x) (nth i (fv x) []))) []))) l) (repeat 0 (nedges k * length (fv x)))).
  { rewrite !for_foreach. apply foreach_ext. intros i s Hs. apply in_seq in Hs. rewrite !for_foreach. apply foreach_ext. intros j s' Hj. apply in_seq in Hj.
    assert (Hn : nth_error (fv x) i = Some (nth i (fv x) [])) by (apply nth_error_nth'; lia). set (f := nth i (fv x) []) in *.
    assert (Hf : In f (fv x)) by (eapply nth_error_In; eauto). pose proof (proj1 (Hx f Hf)) as Lf.
    unfold getEdge. rewrite (proj2 (rd_Ret _ _ _) Hn). cbn [bind]. rewrite (edge_at_in k f j []) by (auto; lia). cbn [bind].
    assert (He : In (nth j (edges_of k f) []) (edges_of k f)) by (apply nth_In; rewrite edges_of_length by exact Lf; lia).
    rewrite (mapo_ok _ (vertex x)).
    2:{ intros v Hv. apply (edges_incl k f _ Lf He) in Hv. pose proof (proj2 (Hx f Hf) v Hv) as B. unfold vertex. apply rdz_nth; [lia|]. apply nth_error_nth'. lia. }
    cbn [bind]. assert (Em : nth j (edges_of k (map (vertex x) f)) [] = map (vertex x) (nth j (edges_of k f) [])).
    { rewrite edges_of_map by exact Lf. rewrite (nth_indep _ [] (map (vertex x) [])) by (rewrite map_length, edges_of_length by exact Lf; lia). apply map_nth. }
    rewrite <- Em. rewrite (edge_length_ret k (map (vertex x) f)); [reflexivity|now rewrite map_length|]. apply nth_In. rewrite edges_of_length by (now rewrite map_length). lia. }
  rewrite E, (fill_runs (fun i j => edge_val (nth j (edges_of k (map (vertex x) (nth i (fv x) []))) []))) by (rewrite repeat_length; lia).
  rewrite skipn_all2 by (rewrite repeat_length; lia). rewrite app_nil_r. f_equal.
  transitivity (flat_map (fun f => map edge_val (edges_of k (map (vertex x) f))) (map (fun i => nth i (fv x) []) (seq 0 (length (fv x))))); [|now rewrite nth_run].
  rewrite flat_map_concat_map, flat_map_concat_map, map_map. f_equal. apply map_ext_in. intros i Hs. apply in_seq in Hs.
  assert (Hf : In (nth i (fv x) []) (fv x)) by (apply nth_In; lia). pose proof (proj1 (Hx _ Hf)) as Lf.
  rewrite <- (map_map (fun j => nth j (edges_of k (map (vertex x) (nth i (fv x) []))) []) edge_val). f_equal.
  rewrite <- (edges_of_length k (map (vertex x) (nth i (fv x) []))) by (now rewrite map_length). apply nth_run.
Qed.

(** ** The table of the cells *)
Hypothesis Hall : Forall (fun c => cell_mesh m c <> None) (cells m).
Lemma table_ok (f : cell -> outcome (list R)) g : (forall c, In c (cells m) -> cell_mesh m c <> None -> f c = Ret (g c)) -> mapo f (cells m) = Ret (map g (cells m)).
Proof. intros H. apply mapo_ok. intros c Hc. apply H; [exact Hc|]. exact (proj1 (Forall_forall _ _) Hall c Hc). Qed.
Lemma table_at (g : cell -> list R) c : exists_in (cells m) c -> rdz (map g (cells m)) c = Ret (g (the_cell m c)).
Proof.
  intros Hc. unfold the_cell, get. destruct Hc as (H0 & H1). apply rdz_nth; [lia|]. rewrite nth_error_map.
  rewrite (nth_error_nth' (cells m) no_cell) by lia. reflexivity.
Qed.
Lemma copy_all (g : cell -> list R) cs : forall pre z, (forall c, In c cs -> exists_in (cells m) c) -> (length (flat_map (fun c => g (the_cell m c)) cs) <= length z)%nat ->
  foreach cs (fun c st => let* l := rdz (map g (cells m)) c in let* g := copy_to l (snd st) (fst st) in Ret (g, snd st + length l)%nat) (pre ++ z, length pre)
  = Ret (pre ++ flat_map (fun c => g (the_cell m c)) cs ++ skipn (length (flat_map (fun c => g (the_cell m c)) cs)) z, length (pre ++ flat_map (fun c => g (the_cell m c)) cs)).
Proof.
  induction cs as [|c cs IH]; intros pre z He Hl.
  - cbn [foreach flat_map app length skipn]. now rewrite app_nil_r.
  - cbn [foreach flat_map] in *. rewrite app_length in Hl. rewrite table_at by (apply He; now left). cbn [bind fst snd]. rewrite copy_ok by lia. cbn [bind].
    rewrite <- app_length, app_assoc, IH; [|intros; apply He; now right|rewrite skipn_length; lia].
    rewrite <- !app_assoc, skipn_twice, !app_length. reflexivity.
Qed.
Lemma append_all (g : cell -> list R) cs : forall pre, (forall c, In c cs -> exists_in (cells m) c) ->
  foreach cs (fun c l => let* x := rdz (map g (cells m)) c in Ret (l ++ x)) pre = Ret (pre ++ flat_map (fun c => g (the_cell m c)) cs).
Proof.
  induction cs as [|c cs IH]; intros pre He; cbn [foreach flat_map]; [now rewrite app_nil_r|].
  rewrite table_at by (apply He; now left). cbn [bind]. rewrite IH by (intros; apply He; now right). now rewrite app_assoc.
Qed.

(** ** The numbers of the core *)
Lemma cell_has c : exists_in (cells m) c -> cell_mesh m (the_cell m c) <> None /\ In (the_cell m c) (cells m).
Proof. intros Hc. destruct (get_ok (cells m) c no_cell Hc) as (_ & Hi). split; [|exact Hi]. exact (proj1 (Forall_forall _ _) Hall _ Hi). Qed.
Lemma all_have : Forall (has_mesh m) (all_cells m).
Proof. apply Forall_forall. intros c Hc. apply cell_has. now apply all_exist. Qed.
Lemma faces_count : length (core_faces m) = nmats m (all_cells m).
Proof.
  rewrite <- (lengths_count m Hm all_have). unfold core_faces, core_chords. induction (all_cells m) as [|c cs IH]; [reflexivity|]. cbn [flat_map]. rewrite !app_length, IH. f_equal.
  unfold faces_in, cell_chords. destruct (cell_mesh m (the_cell m c)) as [[k x]|]; [|reflexivity]. now rewrite !map_length.
Qed.
Lemma fine_count : length (all_fine m) = nmats m (all_cells m).
Proof.
  unfold all_fine, nmats, the_cell, no_cell. induction (all_cells m) as [|c cs IH]; [reflexivity|]. cbn [flat_map map]. change (list_sum (?a :: ?l)) with (a + list_sum l)%nat. rewrite app_length, IH. reflexivity.
Qed.
Lemma fine_number n : (1 <= n)%Z -> countable n m -> numFineCellsTotal m = Ret (Z.of_nat (length (core_faces m))).
Proof.
  intros Hn (Hc & Hb). destruct Hm as (Hv & _ & (_ & F1 & F2 & F3) & _).
  assert (vectors_fit m) as HF. { repeat split; auto. intros a Ha. exact (proj1 (Forall_forall _ _) Hc a Ha). }
  pose proof (fine_total m Hv HF) as E. unfold counts_to in E. rewrite E, fine_count, <- faces_count. rewrite (proj2 (Z.leb_le _ _)) by nia. reflexivity.
Qed.
Lemma mcls_ok : countable 1 m -> global_mcls m = Ret (core_chords m).
Proof.
  intros Hc. unfold global_mcls. rewrite (fine_number 1) by (auto; lia). cbn [bind]. rewrite (table_ok _ chords_in).
  2:{ intros; now apply cell_mcls_ok. }
  cbn [bind]. rewrite (each_ok m Hm), Nat2Z.id. change (repeat 0 (length (core_faces m)), O) with ([] ++ repeat 0 (length (core_faces m)), @length R []).
  assert (E : flat_map (fun c => chords_in (the_cell m c)) (all_cells m) = core_chords m) by reflexivity.
  rewrite copy_all; [|apply all_exist; exact Hm|rewrite E, repeat_length, (lengths_count m Hm all_have), faces_count; lia].
  rewrite E. cbn [bind fst app]. rewrite skipn_all2 by (rewrite repeat_length, (lengths_count m Hm all_have), faces_count; lia). now rewrite app_nil_r.
Qed.
Lemma edge_lens_ok : countable 4 m -> global_edge_lens m = Ret (flat_map (fun c => edges_in (the_cell m c)) (all_cells m)).
Proof.
  intros Hc. unfold global_edge_lens. rewrite (fine_number 4) by (auto; lia). cbn [bind]. destruct Hc as (_ & Hb).
  unfold i32. rewrite (proj2 (Z.leb_le _ _)) by (unfold intMin; lia). rewrite (proj2 (Z.leb_le _ _)) by lia. cbn [andb bind].
  rewrite (table_ok _ edges_in) by (intros; now apply cell_edges_ok). cbn [bind]. rewrite (each_ok m Hm), append_all by (apply all_exist; exact Hm). reflexivity.
Qed.

(** ** What they are *)
Lemma chord_crossed k p : length p = nverts k -> crossed (k, p) (value_of (chord k p)).
Proof.
  intros L. unfold crossed. destruct (quadratic k) eqn:Hk; [|now apply chord_linear].
  intros vs ms -> E H. assert (N : vs <> []) by (intros ->; destruct ms; [destruct k; discriminate|discriminate]).
  destruct (q_area_ok vs ms N E) as (A & Is & EA & HI & _). destruct (chord_curved k vs ms Is Hk E L H HI) as (Ls & HL & Ev). exists Is, Ls. auto.
Qed.
Lemma edge_measured k p e : length p = nverts k -> In e (edges_of k p) -> measured e (edge_val e).
Proof.
  intros L H. assert (He : 0 < eps * eps) by (unfold eps; lra).
  assert (G2 : forall a b, measured [a; b] (edge_val [a; b])) by (intros; apply dist_R).
  assert (G3 : forall a b c, measured [a; b; c] (edge_val [a; b; c])).
  { intros a b c S. change (arclength (curve2 a b c) (qs_length Rarith ln (eps * eps) a b c)). destruct S as [(Hn & q & Hq & E)|(Ho & NS)].
    - destruct (straight_length_ok (eps * eps) a b c q He Hn Hq E) as (_ & E1 & E2). now rewrite E1.
    - now apply length_ok. }
  destruct k; cbn in L; list_len p L; cbn in H; repeat (destruct H as [<-|H]; [auto|]); destruct H.
Qed.
Lemma Forall2_flat {A B C} (P : B -> C -> Prop) (f : A -> list B) (g : A -> list C) l : (forall a, In a l -> Forall2 P (f a) (g a)) -> Forall2 P (flat_map f l) (flat_map g l).
Proof. induction l as [|a l IH]; intros H; [constructor|]. cbn [flat_map]. apply Forall2_app; [apply H; now left|apply IH; intros; apply H; now right]. Qed.
Lemma Forall2_maps {A B C} (P : B -> C -> Prop) (f : A -> B) (g : A -> C) l : (forall a, In a l -> P (f a) (g a)) -> Forall2 P (map f l) (map g l).
Proof. induction l as [|a l IH]; intros H; constructor; [apply H; now left|apply IH; intros; apply H; now right]. Qed.
Lemma mesh_of c k x : exists_in (cells m) c -> cell_mesh m (the_cell m c) = Some (k, x) -> mesh_ok k x.
Proof.
  intros Hc E. destruct (cell_has c Hc) as (Hn & Hi). destruct (with_mesh_ok (the_cell m c) (fun _ _ (s : unit) => Ret s) tt Hi Hn) as (k' & x' & E' & Hx & _).
  rewrite E in E'. injection E' as <- <-. exact Hx.
Qed.
Lemma chords_crossed : Forall2 crossed (core_faces m) (core_chords m).
Proof.
  apply Forall2_flat. intros c Hc. apply (all_exist m Hm) in Hc. unfold faces_in, cell_chords. destruct (cell_mesh m (the_cell m c)) as [[k x]|] eqn:E; [|constructor].
  pose proof (mesh_of c k x Hc E) as Hx. apply Forall2_maps. intros f Hf. apply chord_crossed. rewrite map_length. apply (Hx f Hf).
Qed.
Lemma flat_map_twice {A B C} (f : A -> list B) (g : B -> list C) l : flat_map g (flat_map f l) = flat_map (fun a => flat_map g (f a)) l.
Proof. induction l as [|a l IH]; [reflexivity|]. cbn [flat_map]. now rewrite flat_map_app, IH. Qed.
Lemma edges_measured : Forall2 measured (core_edges m) (flat_map (fun c => edges_in (the_cell m c)) (all_cells m)).
Proof.
  unfold core_edges, core_faces. rewrite flat_map_twice. apply Forall2_flat. intros c Hc. apply (all_exist m Hm) in Hc. unfold faces_in, edges_in.
  destruct (cell_mesh m (the_cell m c)) as [[k x]|] eqn:E; [|constructor]. pose proof (mesh_of c k x Hc E) as Hx.
  rewrite flat_map_concat_map, map_map, <- flat_map_concat_map. apply Forall2_flat. intros f Hf. cbn [fst snd].
  rewrite <- (map_id (edges_of k (map (vertex x) f))) at 1. apply Forall2_maps. intros e He. apply (edge_measured k (map (vertex x) f)); [|exact He]. rewrite map_length. apply (Hx f Hf).
Qed.
Theorem mcls_text show : (forall x, one_line (show x)) -> countable 1 m ->
  exists l t, extract_mcls show m = Ret t /\ lists show l t /\ Forall2 crossed (core_faces m) l.
Proof.
  intros Hs Hc. destruct (print_lists show (core_chords m) Hs) as (t & E & L). exists (core_chords m), t. split; [|split; [exact L|exact chords_crossed]].
  unfold extract_mcls. now rewrite mcls_ok.
Qed.
Theorem edge_lens_text show : (forall x, one_line (show x)) -> countable 4 m ->
  exists l t, extract_edge_lens show m = Ret t /\ lists show l t /\ Forall2 measured (core_edges m) l.
Proof.
  intros Hs Hc. destruct (print_lists show (flat_map (fun c => edges_in (the_cell m c)) (all_cells m)) Hs) as (t & E & L). do 2 eexists. split; [|split; [exact L|exact edges_measured]].
  unfold extract_edge_lens. now rewrite edge_lens_ok.
Qed.
End Core.

(** ** Cells without a mesh *)
Section Meshless.
Variable m : model.
Hypothesis Hm : measurable m.
Lemma mapo_fail {A B} (f : A -> outcome B) l : (forall a, In a l -> (exists b, f a = Ret b) \/ f a = Fail) -> (exists a, In a l /\ f a = Fail) -> mapo f l = Fail.
Proof.
  induction l as [|a l IH]; intros H (x & Hx & Ex); [destruct Hx|]. cbn [mapo]. destruct (H a (or_introl eq_refl)) as [(b & E)|E]; rewrite E; [|reflexivity].
  cbn [bind]. destruct Hx as [->|Hx]; [congruence|]. rewrite IH; [reflexivity|intros; apply H; now right|eauto].
Qed.
Lemma no_mesh cc : In cc (cells m) -> cell_mesh m cc = None -> kind_of (mtype cc) = None.
Proof.
  intros Hi E. destruct Hm as (_ & _ & _ & Hme). pose proof (proj1 (Forall_forall _ _) Hme cc Hi) as Hcc. destruct (meshes_like m (mtype cc)) as [p|] eqn:El.
  - destruct (Hcc ltac:(congruence)) as (k & x & Ex & _). congruence.
  - destruct (mtype cc); cbn in El |- *; try discriminate; reflexivity.
Qed.
Lemma mcls_none cc : In cc (cells m) -> cell_mesh m cc = None -> cell_mcls m cc = Fail.
Proof. intros Hi E. unfold cell_mcls, with_mesh. now rewrite (no_mesh cc Hi E). Qed.
Lemma edges_none cc : In cc (cells m) -> cell_mesh m cc = None -> cell_edge_lens m cc = Fail.
Proof. intros Hi E. unfold cell_edge_lens, with_mesh. now rewrite (no_mesh cc Hi E). Qed.
Theorem meshless show n : numFineCellsTotal m = Ret n -> (0 <= 4 * n <= intMax)%Z -> (exists cc, In cc (cells m) /\ cell_mesh m cc = None) ->
  extract_mcls show m = Fail /\ extract_edge_lens show m = Fail.
Proof.
  intros En Hn (cc & Hi & E). split.
  - unfold extract_mcls, global_mcls. rewrite En. cbn [bind]. rewrite mapo_fail; [reflexivity| |exists cc; split; [exact Hi|now apply mcls_none]].
    intros c Hc. destruct (cell_mesh m c) as [p|] eqn:Ec; [left; eexists; apply cell_mcls_ok; auto; congruence|right; now apply mcls_none].
  - unfold extract_edge_lens, global_edge_lens. rewrite En. cbn [bind]. unfold i32. rewrite (proj2 (Z.leb_le _ _)) by (unfold intMin; lia).
    rewrite (proj2 (Z.leb_le _ _)) by lia. cbn [andb bind]. rewrite mapo_fail; [reflexivity| |exists cc; split; [exact Hi|now apply edges_none]].
    intros c Hc. destruct (cell_mesh m c) as [p|] eqn:Ec; [left; eexists; apply cell_edges_ok; auto; congruence|right; now apply edges_none].
Qed.
End Meshless.

(** ** CMFD data *)
Section Groups.
Variable s : fsr.
Variable a : asoup (R * R * R) R.
Hypothesis Hs : stores s a.
Hypothesis Hc : content_ok a.
Notation XS := "Homogenized_Total_XS_Group_"%string.
Notation RATIO := "Homogenized_Scattering_Ratio_Group_"%string.
Notation RADIUS := "1D_odCMFD_Spectral_Radius_Group_"%string.
Lemma take_there prefix g v st gs has : group_set a prefix g v -> exists ids, take s prefix (Z.of_nat g) st gs has = Ret ((ids, v), gs ++ [v], true) /\ ids <> [].
Proof.
  intros (Hv & ids & Hin). exists ids. destruct Hc as (_ & Hok). pose proof (proj1 (Forall_forall _ _) Hok _ Hin) as (Hi & _). cbn [es_ids] in Hi. split; [|exact Hi].
  unfold take. rewrite ascii5 by lia. cbn [bind]. unfold fetch. pose proof (getElsetByName_ok s a _ (snd st) Hs Hc Hin) as E. cbn [es_name es_ids es_data] in E.
  unfold group_name in E. rewrite E. cbn [bind fst snd]. destruct v; [congruence|]. destruct ids; [congruence|]. reflexivity.
Qed.
Lemma take_none prefix g st gs has : no_group a prefix g -> take s prefix (Z.of_nat g) st gs has = Ret (st, (match fst st with [] => gs | _ => gs ++ [snd st] end), (match fst st with [] => has | _ => true end)).
Proof.
  intros Hn. unfold take. rewrite ascii5 by lia. cbn [bind]. unfold fetch. unfold no_group, group_name in Hn. rewrite (getElsetByName_none s a _ (snd st) Hs Hn). cbn [bind].
  destruct st as [[|i ids] d]; reflexivity.
Qed.
Lemma next_i g : (Z.of_nat g < 100000)%Z -> i32 (Z.of_nat g + 1) = Ret (Z.of_nat (S g)).
Proof. intros H. unfold i32, intMin, intMax. rewrite !(proj2 (Z.leb_le _ _)) by lia. cbn [andb]. f_equal. lia. Qed.
Lemma loop_end fuel g acc : (Z.of_nat g < 100000)%Z -> no_group a XS g -> no_group a RATIO g -> no_group a RADIUS g -> groups_from (S fuel) s (Z.of_nat g) acc = Ret acc.
Proof.
  intros Hg N1 N2 N3. destruct acc as [[x r] q]. cbn [groups_from]. rewrite take_none by exact N1. cbn [bind fst snd]. rewrite take_none by exact N2. cbn [bind fst snd].
  rewrite take_none by exact N3. cbn [bind fst snd]. now rewrite next_i.
Qed.
Lemma loop_ok xs : forall rs qs g fuel x r q, (length xs < fuel)%nat -> (Z.of_nat (g + length xs) < 100000)%Z -> length rs = length xs -> length qs = length xs ->
  (forall i v, nth_error xs i = Some v -> group_set a XS (g + i) v) -> (forall i v, nth_error rs i = Some v -> group_set a RATIO (g + i) v) ->
  (forall i v, nth_error qs i = Some v -> group_set a RADIUS (g + i) v) ->
  no_group a XS (g + length xs) -> no_group a RATIO (g + length xs) -> no_group a RADIUS (g + length xs) ->
  groups_from fuel s (Z.of_nat g) (x, r, q) = Ret (x ++ xs, r ++ rs, q ++ qs).
Proof.
  induction xs as [|v1 xs IH]; intros rs qs g fuel x r q Hf Hb L1 L2 H1 H2 H3 N1 N2 N3; (destruct fuel as [|fuel]; [cbn in Hf; lia|]).
  - destruct rs; [|discriminate]. destruct qs; [|discriminate]. cbn [length] in *. rewrite Nat.add_0_r in *. rewrite loop_end by auto. now rewrite !app_nil_r.
  - destruct rs as [|v2 rs]; [discriminate|]. destruct qs as [|v3 qs]; [discriminate|]. cbn [length] in *.
    pose proof (H1 0%nat v1 eq_refl) as G1. pose proof (H2 0%nat v2 eq_refl) as G2. pose proof (H3 0%nat v3 eq_refl) as G3. rewrite Nat.add_0_r in G1, G2, G3.
    cbn [groups_from]. destruct (take_there XS g v1 ([], []) x false G1) as (i1 & -> & _). cbn [bind].
    destruct (take_there RATIO g v2 (i1, v1) r true G2) as (i2 & -> & _). cbn [bind]. destruct (take_there RADIUS g v3 (i2, v2) q true G3) as (i3 & -> & _). cbn [bind].
    rewrite next_i by lia. cbn [bind]. rewrite (IH rs qs (S g) fuel); try lia.
    + now rewrite <- !app_assoc.
    + intros i v E. replace (S g + i)%nat with (g + S i)%nat by lia. now apply H1.
    + intros i v E. replace (S g + i)%nat with (g + S i)%nat by lia. now apply H2.
    + intros i v E. replace (S g + i)%nat with (g + S i)%nat by lia. now apply H3.
    + replace (S g + length xs)%nat with (g + S (length xs))%nat by lia. exact N1.
    + replace (S g + length xs)%nat with (g + S (length xs))%nat by lia. exact N2.
    + replace (S g + length xs)%nat with (g + S (length xs))%nat by lia. exact N3.
Qed.
Theorem cmfd_text fuel show xs rs qs : (forall x, one_line (show x)) -> (length xs < fuel)%nat -> (Z.of_nat (length xs) < 100000)%Z -> length rs = length xs -> length qs = length xs ->
  group_sets a XS xs -> group_sets a RATIO rs -> group_sets a RADIUS qs -> no_group a XS (length xs) -> no_group a RATIO (length xs) -> no_group a RADIUS (length xs) ->
  exists t1 t2 t3, extract_cmfd fuel show s = Ret (t1, t2, t3) /\ lists show (concat xs) t1 /\ lists show (concat rs) t2 /\ lists show (concat qs) t3.
Proof.
  intros Hsh Hf Hb L1 L2 H1 H2 H3 N1 N2 N3. unfold extract_cmfd. change 0%Z with (Z.of_nat 0). rewrite (loop_ok xs rs qs 0 fuel [] [] []) by auto. cbn [bind app].
  destruct (print_groups_lists show xs Hsh) as (t1 & -> & T1). destruct (print_groups_lists show rs Hsh) as (t2 & -> & T2). destruct (print_groups_lists show qs Hsh) as (t3 & -> & T3).
  cbn [bind]. exists t1, t2, t3. auto.
Qed.
(** without the ratios and the radii *)
Lemma stale_loop xs : forall g fuel x r q, (length xs < fuel)%nat -> (Z.of_nat (g + length xs) < 100000)%Z ->
  (forall i v, nth_error xs i = Some v -> group_set a XS (g + i) v) -> (forall i, no_group a RATIO i) -> (forall i, no_group a RADIUS i) -> no_group a XS (g + length xs) ->
  groups_from fuel s (Z.of_nat g) (x, r, q) = Ret (x ++ xs, r ++ xs, q ++ xs).
Proof.
  induction xs as [|v1 xs IH]; intros g fuel x r q Hf Hb H1 N2 N3 N1; (destruct fuel as [|fuel]; [cbn in Hf; lia|]).
  - cbn [length] in *. rewrite Nat.add_0_r in *. rewrite loop_end by auto. now rewrite !app_nil_r.
  - cbn [length] in *. pose proof (H1 0%nat v1 eq_refl) as G1. rewrite Nat.add_0_r in G1. cbn [groups_from].
    destruct (take_there XS g v1 ([], []) x false G1) as (i1 & -> & Hi). cbn [bind]. rewrite take_none by auto. cbn [bind fst snd]. rewrite take_none by auto. cbn [bind fst snd].
    destruct i1 as [|i i1]; [congruence|]. rewrite next_i by lia. cbn [bind]. rewrite (IH (S g) fuel); try lia; auto.
    + now rewrite <- !app_assoc.
    + intros j v E. replace (S g + j)%nat with (g + S j)%nat by lia. now apply H1.
    + replace (S g + length xs)%nat with (g + S (length xs))%nat by lia. exact N1.
Qed.
Theorem stale_text fuel show xs : (forall x, one_line (show x)) -> (length xs < fuel)%nat -> (Z.of_nat (length xs) < 100000)%Z ->
  group_sets a XS xs -> (forall g, no_group a RATIO g) -> (forall g, no_group a RADIUS g) -> no_group a XS (length xs) ->
  exists t, extract_cmfd fuel show s = Ret (t, t, t) /\ lists show (concat xs) t.
Proof.
  intros Hsh Hf Hb H1 N2 N3 N1. unfold extract_cmfd. change 0%Z with (Z.of_nat 0). rewrite (stale_loop xs 0 fuel [] [] []) by auto. cbn [bind app].
  destruct (print_groups_lists show xs Hsh) as (t1 & -> & T1). cbn [bind]. exists t1. auto.
Qed.
(** all the numbers of five digits *)
Lemma digits5_mod z : (0 <= z)%Z -> digits5 z = digits5 (z mod 100000).
Proof.
  intros Hz. rewrite (Z.div_mod z 100000) at 1 by lia. pose proof (Z.div_pos z 100000 Hz ltac:(lia)) as Hq. pose proof (Z.mod_pos_bound z 100000 ltac:(lia)).
  set (q := (z / 100000)%Z) in *. set (r := (z mod 100000)%Z) in *. clearbody q r. rewrite <- (Z2Nat.id q Hq). induction (Z.to_nat q) as [|n IH]; [f_equal; lia|].
  rewrite <- IH. rewrite <- (digits5_wrap (100000 * Z.of_nat n + r)). f_equal. lia.
Qed.
Theorem endless show fuel : (forall g, (g < Z.to_nat 100000)%nat -> exists v, group_set a XS g v) -> extract_cmfd fuel show s = Ub \/ extract_cmfd fuel show s = OutOfFuel.
Proof.
  intros H. unfold extract_cmfd.
  assert (T : forall g st gs has prefix, exists st' gs' has', take s prefix (Z.of_nat g) st gs has = Ret (st', gs', has') /\ (has = true -> has' = true)).
  { intros g st gs has prefix. unfold take. rewrite ascii5 by lia. cbn [bind]. unfold fetch.
    destruct (in_dec (list_eq_dec Z.eq_dec) (lit prefix ++ digits5 (Z.of_nat g)) (map es_name (a_elsets a))) as [Hin|Hn].
    - apply in_map_iff in Hin. destruct Hin as (e & En & He). pose proof (getElsetByName_ok s a e (snd st) Hs Hc He) as E. rewrite En in E. rewrite E. cbn [bind fst snd].
      destruct (es_ids e); do 3 eexists; (split; [reflexivity|auto]).
    - rewrite (getElsetByName_none s a _ (snd st) Hs Hn). cbn [bind]. destruct (fst st); do 3 eexists; (split; [reflexivity|auto]). }
  assert (L : forall fuel g acc, groups_from fuel s (Z.of_nat g) acc = Ub \/ groups_from fuel s (Z.of_nat g) acc = OutOfFuel).
  { clear fuel. induction fuel as [|fuel IH]; intros g [[x r] q]; [now right|]. cbn [groups_from].
    assert (exists ids v, take s XS (Z.of_nat g) ([], []) x false = Ret ((ids, v), x ++ [v], true)) as (ids & v & ->).
    { set (h := Z.to_nat (Z.of_nat g mod 100000)). pose proof (Z.mod_pos_bound (Z.of_nat g) 100000 ltac:(lia)).
      destruct (H h ltac:(unfold h; lia)) as (v & Hv). destruct (take_there XS h v ([], []) x false Hv) as (ids & E & _). exists ids, v. rewrite <- E. unfold take.
      rewrite !ascii5 by lia. rewrite (digits5_mod (Z.of_nat g)) by lia. unfold h. now rewrite Z2Nat.id by lia. }
    cbn [bind]. destruct (T g (ids, v) r true RATIO) as (st2 & gs2 & h2 & -> & T2). cbn [bind]. rewrite (T2 eq_refl).
    destruct (T g st2 q true RADIUS) as (st3 & gs3 & h3 & -> & T3). cbn [bind]. rewrite (T3 eq_refl).
    unfold i32. destruct (_ && _)%bool; [|now left]. cbn [bind]. replace (Z.of_nat g + 1)%Z with (Z.of_nat (S g)) by lia. apply IH. }
  destruct (L fuel 0%nat ([], [], [])) as [E|E]; change 0%Z with (Z.of_nat 0); rewrite E; auto.
Qed.
End Groups.
