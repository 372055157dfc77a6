(** Writing a model: what is in the document and in the HDF5 file. *)
From Coq Require Import String.
From Coq Require Import List Arith ZArith Lia Bool Reals Lra Permutation.
From Verif Require Grid_Proofs.
From Verif Require Import Base Loops Arith Box_Model StringView_Model Logger_Model TextIo_Model TextIo_Spec Elem_Model
  Soup_Model Soup_Spec Soup_Proofs XSec_Model PinCyl_Model Grid_Model Grid_Spec Fvm_Model Fvm_Spec Xdmf_Model Xdmf_Spec Xdmf_Proofs Mpact_Model Mpact_Spec Mpact_Proofs Mpact_Accept_Proofs
  Export_Model Export_Spec Export_Sets_Proofs Export_Cell_Proofs Export_Loop_Proofs Export_Level_Proofs Export_Proofs Export_Final_Proofs Import_Model Import_Spec Import_Sets_Proofs ModelIo_Model ModelIo_Spec
  ModelIo_View_Spec ModelIo_Text_Proofs ModelIo_Grid_Proofs ModelIo_Cell_Proofs ModelIo_Data_Proofs.
Import ListNotations.
Local Open Scope list_scope.

(** ** Loops over lists *)
Lemma for_foreach {S : Type} (f : nat -> S -> outcome S) n : forall i s, for_ n i f s = foreach (seq i n) f s.
Proof. induction n as [|n IH]; intros i s; cbn; [reflexivity|]. destruct (f i s); cbn; auto. Qed.
Lemma foreach_app {A S : Type} (f : A -> S -> outcome S) l l' : forall s, foreach (l ++ l') f s = let* s := foreach l f s in foreach l' f s.
Proof. induction l as [|a l IH]; intros s; cbn; [reflexivity|]. destruct (f a s); cbn; auto. Qed.
Lemma foreach_map {A B S : Type} (h : A -> B) (f : B -> S -> outcome S) l : forall s, foreach (map h l) f s = foreach l (fun a => f (h a)) s.
Proof. induction l as [|a l IH]; intros s; cbn; [reflexivity|]. destruct (f (h a) s); cbn; auto. Qed.
Lemma foreach_flat {A B S : Type} (h : A -> list B) (f : B -> S -> outcome S) l : forall s, foreach (flat_map h l) f s = foreach l (fun a => foreach (h a) f) s.
Proof. induction l as [|a l IH]; intros s; cbn; [reflexivity|]. rewrite foreach_app. destruct (foreach (h a) f s); cbn; auto. Qed.
Lemma foreach_ext {A S : Type} (f g : A -> S -> outcome S) l : (forall a s, In a l -> f a s = g a s) -> forall s, foreach l f s = foreach l g s.
Proof.
  induction l as [|a l IH]; intros H s; cbn; [reflexivity|]. rewrite (H a s) by now left. destruct (g a s); cbn; auto. apply IH. intros; apply H. now right.
Qed.
Lemma for2_foreach {S : Type} nx ny (f : Z -> Z -> S -> outcome S) s :
  for2 nx ny f s = foreach (cells2 (Z.to_nat nx) (Z.to_nat ny)) (fun p => f (Z.of_nat (fst p)) (Z.of_nat (snd p))) s.
Proof.
  unfold for2, cells2. rewrite for_foreach, foreach_flat. apply foreach_ext. intros j s' _. now rewrite for_foreach, foreach_map.
Qed.
Lemma F2_map_r {A B C} (P : A -> C -> Prop) (h : B -> C) l r : Forall2 (fun a b => P a (h b)) l r -> Forall2 P l (map h r).
Proof. induction 1; cbn; constructor; auto. Qed.

(** ** Names of groups *)
Definition prefix_of (lv : nat) : string := match lv with O => "Assembly_"%string | 1%nat => "Lattice_"%string | 2%nat => "RTM_"%string | _ => "Coarse_Cell_"%string end.
Lemma prefix_in lv : In (prefix_of lv) prefixes.
Proof. destruct lv as [|[|[|lv]]]; cbn [prefix_of prefixes In]; auto. Qed.
Lemma prefix_inj lv lv' : (lv < 4)%nat -> (lv' < 4)%nat -> prefix_of lv = prefix_of lv' -> lv = lv'.
Proof. intros H H' E. destruct lv as [|[|[|[|lv]]]], lv' as [|[|[|[|lv']]]]; try lia; try reflexivity; discriminate E. Qed.
Definition slashes (l : list Z) : nat := count_occ Z.eq_dec l SLASH.
Lemma slashes_app a b : slashes (a ++ b) = (slashes a + slashes b)%nat.
Proof. apply count_occ_app. Qed.
Lemma slashes_none l : ~ In SLASH l <-> slashes l = 0%nat.
Proof. apply count_occ_not_In. Qed.
Lemma slashes_one : slashes [SLASH] = 1%nat.
Proof. reflexivity. Qed.
Lemma named_slash lv l : ~ In SLASH (named (prefix_of lv) l).
Proof.
  unfold named. intros H. apply in_app_or in H. destruct H as [H|H].
  - revert H. apply no_slash. destruct lv as [|[|[|lv]]]; reflexivity.
  - apply in_app_or in H. pose proof (group_chars (fst l)) as C1. pose proof (group_chars (Z.of_nat (snd l))) as C2. rewrite Forall_forall in C1, C2. unfold SLASH in *.
    destruct H as [H|H]; [apply C1 in H; lia|]. apply in_app_or in H. destruct H as [H|H]; [|apply C2 in H; lia]. revert H. apply no_slash. reflexivity.
Qed.
Lemma named_link lv l : link_name (named (prefix_of lv) l) = true.
Proof.
  unfold link_name. rewrite !andb_true_iff, !negb_true_iff. split; [split|].
  - apply name_eqb_neq. destruct lv as [|[|[|lv]]]; discriminate.
  - apply name_eqb_neq. destruct lv as [|[|[|lv]]]; discriminate.
  - destruct (existsb (Z.eqb SLASH) (named (prefix_of lv) l)) eqn:E; auto. apply existsb_exists in E. destruct E as (c & Hc & E). apply Z.eqb_eq in E. subst c.
    now apply named_slash in Hc.
Qed.
Lemma last_part a b a' b' : ~ In SLASH b -> ~ In SLASH b' -> a ++ [SLASH] ++ b = a' ++ [SLASH] ++ b' -> a = a' /\ b = b'.
Proof.
  intros Hb Hb' E. revert a' E. induction a as [|c a IH]; intros [|c' a'] E; cbn [app] in E.
  - injection E as <-. auto.
  - injection E as _ E. subst b. exfalso. apply Hb. apply in_or_app. right. now left.
  - injection E as _ E. subst b'. exfalso. apply Hb'. apply in_or_app. right. now left.
  - injection E as -> E. destruct (IH a' E) as (-> & ->). auto.
Qed.

(** ** What has been written *)
Definition cnt (w : wstate) (lv : nat) : list Z :=
  match lv with O => f_asy (w_c w) | 1 => f_lat (w_c w) | 2 => f_rtm (w_c w) | _ => f_cell (w_c w) end%nat.
Definition set_cnt (lv : nat) (v : list Z) (c : counters) : counters :=
  match lv with O => set_asy v c | 1 => set_lat v c | 2 => set_rtm v c | _ => set_cell v c end%nat.
Definition at_cnt (w : wstate) (lv : nat) (id : Z) : Z := nth (Z.to_nat id) (cnt w lv) (-1)%Z.
(** objects of all levels that are passed *)
Notation uses := (list (nat * Z)).
Definition at_level (lv : nat) (U : uses) : list Z := map snd (filter (fun p => fst p =? lv)%nat U).
Lemma at_level_app lv U V : at_level lv (U ++ V) = at_level lv U ++ at_level lv V.
Proof. unfold at_level. now rewrite filter_app, map_app. Qed.
Definition times (U : uses) (lv : nat) (id : Z) : Z := Z.of_nat (count_occ Z.eq_dec (at_level lv U) id).
Lemma times_app U V lv id : times (U ++ V) lv id = (times U lv id + times V lv id)%Z.
Proof. unfold times. rewrite at_level_app, count_occ_app. lia. Qed.
Lemma times_pos U lv id : (0 <= times U lv id)%Z.
Proof. unfold times. lia. Qed.
Definition fits (w : wstate) (U : uses) : Prop := forall lv id, (lv < 4)%nat -> (0 <= id)%Z -> (at_cnt w lv id + 1 + times U lv id <= 100000)%Z.
Definition counted (w : wstate) (U : uses) (w' : wstate) : Prop := forall lv id, (lv < 4)%nat -> (0 <= id)%Z -> at_cnt w' lv id = (at_cnt w lv id + times U lv id)%Z.
Lemma fits_next w U V w' : fits w (U ++ V) -> counted w U w' -> fits w' V.
Proof. intros F C lv id Hl Hi. specialize (F lv id Hl Hi). rewrite (C lv id Hl Hi). rewrite times_app in F. lia. Qed.
Lemma fits_first w U V : fits w (U ++ V) -> fits w U.
Proof. intros F lv id Hl Hi. specialize (F lv id Hl Hi). rewrite times_app in F. pose proof (times_pos V lv id). lia. Qed.
Lemma counted_app w U w' V w'' : counted w U w' -> counted w' V w'' -> counted w (U ++ V) w''.
Proof. intros C D lv id Hl Hi. rewrite (D lv id Hl Hi), (C lv id Hl Hi), times_app. lia. Qed.

Section Write.
Variables (checks : bool) (fsize : Z).
Hypothesis Hsize : fsize = 4%Z \/ fsize = 8%Z.
Variable selfcheck : mesh R -> outcome (mesh R).
Variable m : model.
Hypothesis Hst : can_be_written selfcheck m.
Variable file : list Z.
Variable soups : list (soup (R * R * R) R).
(** what is known of the data of a cell *)
Variable data : cell -> kind -> mesh R -> asoup (R * R * R) R -> Prop.
Hypothesis Hsoups : forall id c, at_ (cells m) id c -> exists s k x a,
  rdz soups id = Ret s /\ cell_mesh m c = Some (k, x) /\ stores s a /\ cell_content k x (material_ids c) a /\ data c k x a.

Definition size_of (lv : nat) : nat :=
  match lv with O => length (assemblies m) | 1 => length (lattices m) | 2 => length (rtms m) | _ => length (cells m) end%nat.
(** a label that has been used *)
Definition used (w : wstate) (lv : nat) (id : Z) (n : nat) : Prop :=
  (lv < 4)%nat /\ (0 <= id < 100000)%Z /\ (Z.of_nat n < 100000)%Z /\ (Z.of_nat n <= at_cnt w lv id)%Z.
Record winv (w : wstate) : Prop := {
  i_len : forall lv, length (cnt w lv) = size_of lv;
  i_low : forall lv, Forall (fun z => (-1 <= z)%Z) (cnt w lv);
  i_groups : Forall (fun p => (exists leaf, ~ In SLASH leaf /\ p = [SLASH] ++ leaf) \/
     exists pre lv id n, p = pre ++ [SLASH] ++ named (prefix_of lv) (id, n) /\ used w lv id n) (w_groups w);
  i_file : Forall (fun e => slashes (fst e) = 6%nat /\ exists pre id n leaf,
     fst e = (pre ++ [SLASH] ++ named (prefix_of 3) (id, n)) ++ [SLASH] ++ leaf /\ ~ In SLASH leaf /\ used w 3 id n) (w_file w) }.

Lemma sizes lv : (lv < 4)%nat -> (Z.of_nat (size_of lv) <= 100000)%Z.
Proof.
  intros H. destruct Hst. destruct lv as [|[|[|[|lv]]]]; cbn [size_of]; [apply s_few_assemblies|apply s_few_lattices|apply s_few_rtms|apply s_few_cells|lia].
Qed.
Lemma times1 lv id lv' id' : times [(lv, id)] lv' id' = if ((lv =? lv')%nat && (id =? id')%Z)%bool then 1%Z else 0%Z.
Proof.
  unfold times, at_level. cbn [filter fst]. destruct (lv =? lv')%nat; cbn [map snd count_occ andb]; [|reflexivity].
  destruct (Z.eq_dec id id') as [->|N]; [now rewrite Z.eqb_refl|]. destruct (Z.eqb_spec id id'); [contradiction|reflexivity].
Qed.
Lemma cnt_set lv v c gs f lv' : (lv < 4)%nat -> (lv' < 4)%nat -> cnt (mkW (set_cnt lv v c) gs f) lv' = if (lv =? lv')%nat then v else cnt (mkW c gs f) lv'.
Proof. intros H H'. destruct lv as [|[|[|[|lv]]]], lv' as [|[|[|[|lv']]]]; try lia; reflexivity. Qed.

(** an object is entered: its copy is counted, its name is new *)
Lemma enter w lv id U g : winv w -> (lv < 4)%nat -> (0 <= id < Z.of_nat (size_of lv))%Z -> fits w ((lv, id) :: U) -> (1 <= slashes g)%nat ->
  exists cs n gs, visit (cnt w lv) id = Ret (cs, Z.of_nat n) /\ Export_Model.label (prefix_of lv) id (Z.of_nat n) = Ret (named (prefix_of lv) (id, n)) /\
    createGroup (w_groups w) g (named (prefix_of lv) (id, n)) = Ret gs /\
    (forall nm, lv = 3%nat -> slashes g = 4%nat -> at_path (w_file w) (g ++ [SLASH] ++ named (prefix_of lv) (id, n)) nm = None) /\
    let w' := mkW (set_cnt lv cs (w_c w)) gs (w_file w) in winv w' /\ used w' lv id n /\ counted w [(lv, id)] w' /\ fits w' U.
Proof.
  intros [Il Iw Ig If] Hlv Hid F Hg. pose proof (sizes lv Hlv) as Sz.
  assert (Nt : nth_error (cnt w lv) (Z.to_nat id) = Some (at_cnt w lv id)) by (apply nth_error_nth'; rewrite Il; lia).
  assert (Lo : (-1 <= at_cnt w lv id)%Z) by (specialize (Iw lv); rewrite Forall_forall in Iw; apply Iw; eapply nth_error_In; eauto).
  set (n := Z.to_nat (at_cnt w lv id + 1)). set (cs := upd (cnt w lv) (Z.to_nat id) (at_cnt w lv id + 1)%Z).
  assert (En : Z.of_nat n = (at_cnt w lv id + 1)%Z) by (unfold n; lia).
  assert (Bn : (Z.of_nat n < 100000)%Z).
  { specialize (F lv id Hlv ltac:(lia)). change ((lv, id) :: U) with ([(lv, id)] ++ U) in F. rewrite times_app, times1, Nat.eqb_refl, Z.eqb_refl in F. cbn [andb] in F.
    pose proof (times_pos U lv id). lia. }
  exists cs, n. eexists. split; [|split; [|split; [|split]]].
  - unfold visit. rewrite (rdz_nth (cnt w lv) id _ ltac:(lia) Nt). cbn [bind]. unfold wrz. destruct (Z.ltb_spec id 0); [lia|].
    unfold wr. destruct (Nat.ltb_spec (Z.to_nat id) (length (cnt w lv))) as [|X]; [|rewrite Il in X; lia]. cbn [bind]. rewrite En. reflexivity.
  - apply label_ok. lia.
  - unfold createGroup. rewrite named_link. destruct (existsb _ (w_groups w)) eqn:E; [exfalso|reflexivity].
    apply existsb_exists in E. destruct E as (p & Hp & E). apply name_eqb_iff in E. rewrite Forall_forall in Ig. destruct (Ig p Hp) as [(leaf & Hl & ->)|(pre & lv' & id' & n' & -> & U')].
    + change ([SLASH] ++ leaf) with ([] ++ [SLASH] ++ leaf) in E. apply last_part in E; [|apply named_slash|exact Hl]. destruct E as (-> & _). cbn in Hg. lia.
    + apply last_part in E; [|apply named_slash|apply named_slash]. destruct E as (_ & E). destruct U' as (U1 & U2 & U3 & U4).
      pose proof (named_prefix _ _ _ _ (prefix_in lv) (prefix_in lv') E) as Ep. apply prefix_inj in Ep; auto. subst lv'.
      apply named_inj in E; cbn [fst snd]; try lia. injection E as <- <-. lia.
  - intros nm -> G4. destruct (at_path (w_file w) (g ++ [SLASH] ++ named (prefix_of 3) (id, n)) nm) as [d|] eqn:E; [exfalso|reflexivity].
    assert (X : exists e, In e (w_file w) /\ fst e = (g ++ [SLASH] ++ named (prefix_of 3) (id, n)) ++ [SLASH] ++ nm).
    { unfold at_path in E. revert E. clear. induction (w_file w) as [|(q, d') l IH]; intros E; cbn [find_path] in E; [discriminate|].
      destruct (name_eqb q _) eqn:B; [apply name_eqb_iff in B; subst q; eexists; split; [now left|reflexivity]|]. destruct (IH E) as (e & He & Ee). exists e. split; [now right|auto]. }
    destruct X as (e & He & Ee). rewrite Forall_forall in If. destruct (If e He) as (S6 & pre & id' & n' & leaf & Ep & Hleaf & U').
    assert (Hnm : ~ In SLASH nm).
    { apply slashes_none. rewrite Ee, !slashes_app, slashes_one, G4 in S6. rewrite (proj1 (slashes_none _) (named_slash 3 _)) in S6. lia. }
    rewrite Ep in Ee. apply last_part in Ee; auto. destruct Ee as (Ee & _). apply last_part in Ee; [|apply named_slash|apply named_slash]. destruct Ee as (_ & Ee).
    destruct U' as (U1 & U2 & U3 & U4). apply named_inj in Ee; cbn [fst snd]; try lia. injection Ee as -> ->. lia.
  - set (w' := mkW (set_cnt lv cs (w_c w)) _ (w_file w)).
    assert (At : forall lv' id', (lv' < 4)%nat -> (0 <= id')%Z -> at_cnt w' lv' id' = (at_cnt w lv' id' + times [(lv, id)] lv' id')%Z).
    { intros lv' id' Hl' Hi'. unfold at_cnt, w'. rewrite cnt_set by auto. rewrite times1. destruct (Nat.eqb_spec lv lv') as [<-|N]; cbn [andb].
      - unfold cs. destruct (Z.eqb_spec id id') as [<-|N].
        + apply nth_error_nth. apply nth_error_upd_eq. rewrite Il. lia.
        + rewrite Z.add_0_r. change (cnt {| w_c := w_c w; w_groups := _; w_file := _ |} lv) with (cnt w lv).
          destruct (nth_error (cnt w lv) (Z.to_nat id')) as [z|] eqn:E.
          * rewrite (nth_error_nth _ _ _ E). apply nth_error_nth. rewrite nth_error_upd_neq; auto. lia.
          * apply nth_error_None in E. rewrite !nth_overflow; auto. now rewrite upd_length.
      - rewrite Z.add_0_r. destruct lv' as [|[|[|[|]]]]; reflexivity. }
    assert (Mono : forall lv' id' n', used w lv' id' n' -> used w' lv' id' n').
    { intros lv' id' n' (U1 & U2 & U3 & U4). repeat (split; [assumption|]). rewrite At by lia. pose proof (times_pos [(lv, id)] lv' id'). lia. }
    assert (Un : used w' lv id n).
    { split; [auto|]. split; [lia|]. split; [auto|]. rewrite At by lia. rewrite times1, Nat.eqb_refl, Z.eqb_refl. cbn [andb]. lia. }
    split; [split|split; [exact Un|split]].
    + intros lv'. destruct (le_lt_dec 4 lv') as [G|G].
      * transitivity (length (cnt w' 3)); [destruct lv' as [|[|[|[|]]]]; try lia; reflexivity|]. transitivity (size_of 3); [|destruct lv' as [|[|[|[|]]]]; try lia; reflexivity].
        unfold w'. rewrite cnt_set by lia. destruct (Nat.eqb_spec lv 3) as [->|]; [unfold cs; now rewrite upd_length|]. exact (Il 3%nat).
      * unfold w'. rewrite cnt_set by lia. destruct (Nat.eqb_spec lv lv') as [->|]; [unfold cs; now rewrite upd_length|].
        rewrite <- (Il lv'). destruct lv' as [|[|[|[|]]]]; reflexivity.
    + assert (Fu : Forall (fun z => (-1 <= z)%Z) cs).
      { apply Forall_forall. intros z Hz. apply In_nth_error in Hz. destruct Hz as (j & Hj). unfold cs in Hj. destruct (Nat.eq_dec j (Z.to_nat id)) as [->|N].
        - rewrite nth_error_upd_eq in Hj by (rewrite Il; lia). injection Hj as <-. lia.
        - rewrite nth_error_upd_neq in Hj by auto. specialize (Iw lv). rewrite Forall_forall in Iw. apply Iw. eapply nth_error_In; eauto. }
      intros lv'. destruct (le_lt_dec 4 lv') as [G|G].
      * replace (cnt w' lv') with (cnt w' 3) by (destruct lv' as [|[|[|[|]]]]; try lia; reflexivity). unfold w'. rewrite cnt_set by lia. destruct (Nat.eqb_spec lv 3) as [->|]; [exact Fu|exact (Iw 3%nat)].
      * unfold w'. rewrite cnt_set by lia. destruct (Nat.eqb_spec lv lv') as [->|]; [exact Fu|]. specialize (Iw lv'). destruct lv' as [|[|[|[|]]]]; exact Iw.
    + cbn [w' w_groups]. apply Forall_app. split.
      * eapply Forall_impl; [|exact Ig]. intros p [X|(pre & lv' & id' & n' & E & U')]; [now left|right]. exists pre, lv', id', n'. auto.
      * constructor; [|constructor]. right. exists g, lv, id, n. auto.
    + cbn [w' w_file]. eapply Forall_impl; [|exact If]. intros e (S6 & pre & id' & n' & leaf & E & L & U'). split; auto. exists pre, id', n', leaf. auto.
    + exact At.
    + change ((lv, id) :: U) with ([(lv, id)] ++ U) in F. exact (fits_next _ _ _ _ F At).
Qed.

(** ** The nodes of the document *)
Definition cell_node (f : h5) (id : Z) (x : xml) : Prop := exists n c k y a o,
  tag x = txt "Grid" /\ attribute x "Name" = named "Coarse_Cell_" (id, n) /\ at_ (cells m) id c /\ cell_mesh m c = Some (k, y) /\
  cell_content k y (material_ids c) a /\
  forall more, exists u, readXDMFUniformGrid checks fsize x (f ++ more) file empty_soup = Ret u /\
    stores u (mkA (placed eps o (a_verts a)) (a_elems a) (a_elsets a)).
Definition rtm_node (f : h5) (id : Z) (x : xml) : Prop := exists n r nx ny nodes,
  at_ (rtms m) id r /\ num_cells (fst r) = Ret (nx, ny) /\ x = tree (named "RTM_" (id, n)) (nx_by_ny nx ny :: nodes) /\
  Forall2 (cell_node f) (snd r) nodes.
Definition lat_node (z : list R) (f : h5) (b : Z * nat) (x : xml) : Prop := exists n l ax ay nodes lo hi low mid high,
  at_ (lattices m) (fst b) l /\ fst l = [ax; ay] /\ nth_error z (snd b) = Some lo /\ nth_error z (S (snd b)) = Some hi /\
  low <> [] /\ Forall num_char low /\ Forall num_char mid /\ real_text low lo /\ real_text high hi /\
  x = tree (named "Lattice_" (fst b, n)) (info "Z" (z_text low mid high) :: nx_by_ny (nc ax) (nc ay) :: nodes) /\
  Forall2 (rtm_node f) (snd l) nodes.
Definition asy_node (f : h5) (id : Z) (x : xml) : Prop := exists n a z nodes,
  at_ (assemblies m) id a /\ fst a = [z] /\ x = tree (named "Assembly_" (id, n)) (nx_by_ny (Z.of_nat (length (snd a))) 1 :: nodes) /\
  Forall2 (lat_node z f) (combine (snd a) (seq 0 (length (snd a)))) nodes.

(** it stays true when the file grows *)
Definition stable {B} (Q : h5 -> B -> xml -> Prop) : Prop := forall f more b x, Q f b x -> Q (f ++ more) b x.
Lemma F2_stable {B} (Q : h5 -> B -> xml -> Prop) : stable Q -> forall f more l r, Forall2 (Q f) l r -> Forall2 (Q (f ++ more)) l r.
Proof. intros H f more l r. induction 1; constructor; auto. Qed.
Lemma cell_stable : stable cell_node.
Proof.
  intros f more id x (n & c & k & y & a & o & H1 & H2 & H3 & H4 & H5 & H). exists n, c, k, y, a, o. repeat (split; [assumption|]).
  intros more'. rewrite <- app_assoc. apply H.
Qed.
Lemma rtm_stable : stable rtm_node.
Proof.
  intros f more id x (n & r & nx & ny & nodes & H1 & H2 & H3 & H). exists n, r, nx, ny, nodes. repeat (split; [assumption|]). exact (F2_stable _ cell_stable _ _ _ _ H).
Qed.
Lemma lat_stable z : stable (lat_node z).
Proof.
  intros f more id x (n & l & ax & ay & nodes & lo & hi & low & mid & high & H1 & H2 & H3 & H4 & H5 & H6 & H7 & H8 & H9 & H10 & H).
  exists n, l, ax, ay, nodes, lo, hi, low, mid, high. repeat (split; [assumption|]). exact (F2_stable _ rtm_stable _ _ _ _ H).
Qed.
Lemma asy_stable : stable asy_node.
Proof.
  intros f more id x (n & r & z & nodes & H1 & H2 & H3 & H). exists n, r, z, nodes. repeat (split; [assumption|]). exact (F2_stable _ (lat_stable z) _ _ _ _ H).
Qed.

(** the grid of a copy of a cell *)
Definition leaf (f : h5) (p : place) (e : list (list Z) * xml) : Prop :=
  fst e = path_names (path p) /\ exists c k y a, at_ (cells m) (here p) c /\ cell_mesh m c = Some (k, y) /\ cell_content k y (material_ids c) a /\ data c k y a /\
  forall more, exists u, readXDMFUniformGrid checks fsize (snd e) (f ++ more) file empty_soup = Ret u /\
    stores u (mkA (placed eps (offset p) (a_verts a)) (a_elems a) (a_elsets a)).
Lemma leaves_stable f more l r : Forall2 (leaf f) l r -> Forall2 (leaf (f ++ more)) l r.
Proof.
  induction 1 as [|p e l r (H0 & c & k & y & a & H1 & H2 & H3 & H4 & H) _ IH]; constructor; auto. split; auto. exists c, k, y, a. repeat (split; [assumption|]).
  intros more'. rewrite <- app_assoc. apply H.
Qed.
Definition named_in (ab : list (list Z)) (x : xml) : list (list Z) * xml := (attribute x "Name" :: ab, x).
Lemma under_tree ab n l xs all : all = l ++ xs -> Forall (fun y => tag y = txt "Information") l -> Forall (fun y => tag y = txt "Grid") xs ->
  under (ab, tree n all) = map (named_in ab) xs.
Proof.
  intros -> Hl Hx. unfold under, sub_grids. cbn [snd fst tree kids]. change (lit "Grid") with (txt "Grid"). rewrite filter_app.
  replace (filter (fun y => name_eqb (tag y) (txt "Grid")) l) with (@nil xml) by (symmetry; induction Hl as [|y l E _ IH]; [reflexivity|]; cbn [filter]; rewrite E; exact IH).
  replace (filter (fun y => name_eqb (tag y) (txt "Grid")) xs) with xs; [reflexivity|]. induction Hx as [|y l' E _ IH]; [reflexivity|]. cbn [filter]. rewrite E. change (name_eqb (txt "Grid") (txt "Grid")) with true. cbn match. now rewrite <- IH.
Qed.

(** a step of a traversal that passes the objects [U] and adds one node; [pp], [o] and [ab] are the labels, the offset and the names around it,
    and [lvs] the grids of the cells in a grid *)
Definition does (adv : trace -> list place -> trace) (cs : trace -> list place -> list place) (lvl : trace -> list place)
  (lvs : list (list Z) * xml -> list (list (list Z) * xml)) (pp : list (Z * nat)) (o : pt3) (ab : list (list Z)) (kid : Z * pt3) (f : wstate * list xml -> outcome (wstate * list xml)) (U : uses) (Q : h5 -> xml -> Prop) : Prop :=
  forall w nodes t, winv w -> fits w U -> matches m (w_c w) t -> exists w' x, f (w, nodes) = Ret (w', nodes ++ [x]) /\ winv w' /\ counted w U w' /\
    (exists more, w_file w' = w_file w ++ more) /\ Q (w_file w') x /\ tag x = txt "Grid" /\
    matches m (w_c w') (adv t [Export_Level_Proofs.put lvl pp o t kid]) /\
    Forall2 (leaf (w_file w')) (cs t [Export_Level_Proofs.put lvl pp o t kid]) (lvs (named_in ab x)).
Lemma counted_nil w : counted w [] w.
Proof. intros lv id _ _. unfold times, at_level. cbn. lia. Qed.
Lemma all_does {A B} adv cs lvl lvs pp o ab (Q : h5 -> B -> xml -> Prop) (U : B -> uses) (kid : B -> Z * pt3) (g : A -> wstate * list xml -> outcome (wstate * list xml)) items bs :
  good_level adv cs lvl -> stable Q ->
  Forall2 (fun a b => does adv cs lvl lvs pp o ab (kid b) (g a) (U b) (fun f => Q f b)) items bs ->
  forall w nodes t, winv w -> fits w (flat_map U bs) -> matches m (w_c w) t ->
  exists w' xs, foreach items g (w, nodes) = Ret (w', nodes ++ xs) /\ winv w' /\ counted w (flat_map U bs) w' /\
    (exists more, w_file w' = w_file w ++ more) /\ Forall2 (Q (w_file w')) bs xs /\ Forall (fun x => tag x = txt "Grid") xs /\
    matches m (w_c w') (adv t (puts lvl pp o t (map kid bs))) /\
    Forall2 (leaf (w_file w')) (cs t (puts lvl pp o t (map kid bs))) (flat_map lvs (map (named_in ab) xs)).
Proof.
  intros G HQ. induction 1 as [|a b items bs D _ IH]; intros w nodes t Iw F Mt.
  - exists w, []. cbn [foreach]. rewrite app_nil_r. split; auto. split; auto. split; [apply counted_nil|]. split; [exists []; now rewrite app_nil_r|]. split; [constructor|]. split; [constructor|].
    unfold puts. cbn [map number flat_map]. rewrite (adv_nil _ _ _ G), (cs_nil _ _ _ G). split; [auto|constructor].
  - cbn [flat_map foreach] in *. destruct (D w nodes t Iw (fits_first _ _ _ F) Mt) as (w1 & x & E1 & I1 & C1 & (m1 & F1) & Q1 & T1 & M1 & L1). rewrite E1. cbn [bind].
    destruct (IH w1 (nodes ++ [x]) _ I1 (fits_next _ _ _ _ F C1) M1) as (w2 & xs & E2 & I2 & C2 & (m2 & F2) & Q2 & T2 & M2 & L2). exists w2, (x :: xs). rewrite E2.
    split; [now rewrite <- app_assoc|]. split; auto. split; [eapply counted_app; eauto|]. split; [exists (m1 ++ m2); now rewrite F2, F1, app_assoc|].
    split; [constructor; auto; rewrite F2; now apply HQ|]. split; [now constructor|].
    cbn [map flat_map]. rewrite (puts_cons adv cs lvl G). change (?p :: ?l) with ([p] ++ l). rewrite (adv_app _ _ _ G), (cs_app _ _ _ G). split; [exact M2|].
    apply Forall2_app; [|exact L2]. rewrite F2. now apply leaves_stable.
Qed.

(** ** Cells *)
Definition uses_cell (id : Z) : uses := [(3%nat, id)].
Definition uses_rtm (id : Z) : uses := (2%nat, id) :: flat_map uses_cell (snd (get (rtms m) id ([], []))).
Definition uses_lat (id : Z) : uses := (1%nat, id) :: flat_map uses_rtm (snd (get (lattices m) id ([], []))).
Definition uses_asy (id : Z) : uses := (0%nat, id) :: flat_map uses_lat (snd (get (assemblies m) id ([], []))).

Lemma cell_does rtm la ll lr group asy_ll lat_z rtm_ll ij kid : child_at (rect_getChild Z rtm) (rect_getBox (fst rtm)) ij kid -> exists_in (cells m) (fst kid) ->
  slashes group = 4%nat ->
  does adv_cell cells_cell t_cell (fun e => [e]) [lr; ll; la] (fst rtm_ll + fst asy_ll, snd rtm_ll + snd asy_ll, lat_z)%R
    [named "RTM_" lr; named "Lattice_" ll; named "Assembly_" la] kid
    (write_cell fsize file soups rtm group asy_ll lat_z rtm_ll (Z.of_nat (fst ij)) (Z.of_nat (snd ij))) (uses_cell (fst kid)) (fun f => cell_node f (fst kid)).
Proof.
  intros (Ec & b & x0 & y0 & Eb & Eco & Ek) Hid Hs w nodes t Iw F Mt. set (p := Export_Level_Proofs.put _ _ _ _ _). assert (Hp : here p = fst kid) by reflexivity.
  destruct (visit_ok (cells m) (f_cell (w_c w)) (t_cell t) p (m_cell _ _ _ Mt) Hid) as (f' & Ev2 & Cf). rewrite Hp in Ev2. set (id := fst kid) in *.
  destruct (enter w 3 id [] group Iw ltac:(lia) Hid F ltac:(lia)) as (cs & n & gs & Ev & El & Eg & Fr & I1 & U1 & C1 & _).
  assert (X : f' = cs /\ n = count_occ Z.eq_dec (map here (t_cell t)) id) by (change (cnt w 3) with (f_cell (w_c w)) in Ev; rewrite Ev2 in Ev; injection Ev as -> Y; apply Nat2Z.inj in Y; auto).
  destruct X as (-> & Hn).
  unfold write_cell. rewrite Ec. cbn [bind]. rewrite (Ev : visit (f_cell (w_c w)) id = _). cbn [bind fst snd]. rewrite (El : Export_Model.label "Coarse_Cell_" id _ = _). cbn [bind].
  rewrite Eb. cbn [bind]. rewrite Eco. cbn [bind].
  destruct (exists_at _ _ Hid) as (c & Hc). destruct (Hsoups id c Hc) as (s & k & y & a & Es & Hy & Sa & Ca & Da). rewrite Es. cbn [bind]. rewrite Eg. cbn [bind fst snd].
  set (o := (x0 + fst rtm_ll + fst asy_ll, y0 + snd rtm_ll + snd asy_ll, lat_z)%R).
  assert (Eo : offset p = o) by (cbn [p Export_Level_Proofs.put offset]; rewrite Ek; cbn [plus3]; unfold o; f_equal; [f_equal|]; ring).
  destruct (grid_ok checks fsize eps Hsize (named (prefix_of 3) (id, n)) (w_file w) file group s a o Sa (proj1 Ca) (proj1 (proj2 Ca)) (fun nm => Fr nm eq_refl Hs))
    as (x & f' & Ew & (new & -> & Hnew) & Tx & Nx & Rd).
  rewrite Ew. cbn [bind fst snd]. change (set_cell cs (w_c w)) with (set_cnt 3 cs (w_c w)).
  eexists _, x. split; [reflexivity|]. destruct I1 as [J1 J2 J3 J4]. split; [split; try assumption|split; [exact C1|split; [exists new; reflexivity|split; [|split; [exact Tx|split]]]]].
  - cbn [w_file]. apply Forall_app. split; [exact J4|]. eapply Forall_impl; [|exact Hnew]. intros e (leaf & Hl & ->). split.
    + rewrite !slashes_app, slashes_one, Hs, (proj1 (slashes_none _) (named_slash 3 _)), (proj1 (slashes_none _) Hl). reflexivity.
    + exists group, id, n, leaf. auto.
  - cbn [w_file]. exists n, c, k, y, a, o. repeat (split; [assumption|]). exact Rd.
  - destruct Mt as [M1 M2 M3 M4]. split; auto.
  - cbn [cells_cell w_file]. constructor; [|constructor]. split.
    + cbn [named_in fst]. rewrite Nx. rewrite Hn. reflexivity.
    + exists c, k, y, a. split; [exact Hc|]. repeat (split; [assumption|]). rewrite Eo. exact Rd.
Qed.

(** ** RTMs *)
Lemma flat_fst {A B C} (f : A -> list C) (l : list (A * B)) : flat_map (fun p => f (fst p)) l = flat_map f (map fst l).
Proof. induction l as [|x l IH]; [reflexivity|]. cbn [map flat_map]. now rewrite IH. Qed.
Lemma flat_flat {A B C} (f : A -> list B) (g : B -> list C) l : flat_map g (flat_map f l) = flat_map (fun a => flat_map g (f a)) l.
Proof. induction l as [|a l IH]; [reflexivity|]. cbn [flat_map]. now rewrite flat_map_app, IH. Qed.
Lemma flat_one {A} (l : list A) : flat_map (fun e => [e]) l = l.
Proof. induction l as [|x l IH]; [reflexivity|]. cbn [flat_map app]. now rewrite IH. Qed.
Lemma F2_fst {A B C} (P : A -> C -> Prop) (l : list (A * B)) r : Forall2 (fun p c => P (fst p) c) l r -> Forall2 P (map fst l) r.
Proof. induction 1; constructor; auto. Qed.
Lemma get_at {A} (l : list A) id x d : at_ l id x -> get l id d = x.
Proof. intros (_ & H). unfold get. now apply nth_error_nth. Qed.
Lemma at_rd {A} (l : list A) id x : at_ l id x -> rdz l id = Ret x.
Proof. intros (H & E). now apply rdz_nth. Qed.
Lemma at_in {A} (l : list A) id x : at_ l id x -> In x l.
Proof. intros (_ & E). eapply nth_error_In; eauto. Qed.
Lemma rtm_does lat la ll group asy_ll lat_z ij kid : child_at (regular_getChild Z lat) (getBox (fst lat)) ij kid -> exists_in (rtms m) (fst kid) ->
  slashes group = 3%nat ->
  does (adv_rtm m) (cells_rtm m) t_rtm under [ll; la] (fst asy_ll, snd asy_ll, lat_z)%R [named "Lattice_" ll; named "Assembly_" la] kid
    (write_rtm fsize m file soups lat group asy_ll lat_z (Z.of_nat (fst ij)) (Z.of_nat (snd ij))) (uses_rtm (fst kid)) (fun f => rtm_node f (fst kid)).
Proof.
  intros (Ec & b & x0 & y0 & Eb & Eco & Ek) Hid Hs w nodes t Iw F Mt. set (p := Export_Level_Proofs.put _ _ _ _ _). assert (Hp : here p = fst kid) by reflexivity.
  destruct (visit_ok (rtms m) (f_rtm (w_c w)) (t_rtm t) p (m_rtm _ _ _ Mt) Hid) as (f' & Ev2 & Cf). rewrite Hp in Ev2. set (id := fst kid) in *. unfold uses_rtm in F.
  destruct (enter w 2 id _ group Iw ltac:(lia) Hid F ltac:(lia)) as (cs & n & gs & Ev & El & Eg & _ & I1 & U1 & C1 & F1).
  change (prefix_of 2) with "RTM_"%string in Eg.
  assert (X : f' = cs /\ n = count_occ Z.eq_dec (map here (t_rtm t)) id) by (change (cnt w 2) with (f_rtm (w_c w)) in Ev; rewrite Ev2 in Ev; injection Ev as -> Y; apply Nat2Z.inj in Y; auto).
  destruct X as (-> & Hn).
  unfold write_rtm. rewrite Ec. cbn [bind]. rewrite (Ev : visit (f_rtm (w_c w)) id = _). cbn [bind fst snd]. rewrite (El : Export_Model.label "RTM_" id _ = Ret (named "RTM_" (id, n))). cbn [bind].
  rewrite Eg. cbn [bind]. rewrite Eb. cbn [bind]. rewrite Eco. cbn [bind].
  destruct (exists_at _ _ Hid) as (r & Hr). rewrite (at_rd _ _ _ Hr). cbn [bind]. rewrite (get_at _ _ _ _ Hr) in F1. pose proof (at_in _ _ _ Hr) as Ir.
  destruct (rtm_children _ _ (s_consistent _ _ Hst) eq_refl r Ir) as (lx & ly & Er & L1 & L2 & _ & _ & Lr).
  destruct (s_rtms _ _ Hst r Ir) as (ids & W & H & HL & El'). pose proof HL as (Hl & HW & HH & _ & _ & Hmax & _).
  assert (Hmx : (Z.of_nat (length (snd r)) <= intMax)%Z).
  { rewrite Lr. rewrite El' in Er. cbn [fst] in Er. injection Er as <- <-. rewrite !Grid_Proofs.sums_length. cbn [Nat.sub]. rewrite !Nat.sub_0_r, Nat2Z.inj_mul. exact Hmax. }
  assert (Hne : snd r <> []) by (destruct (snd r); [cbn in Lr; nia|discriminate]).
  destruct (Nat.eqb_spec (length (snd r)) 0) as [X|_]; [destruct (snd r); [congruence|discriminate X]|].
  destruct (rect_kids r ltac:(exists lx, ly; repeat split; auto; lia) Hmx Hne) as (lx' & ly' & Er' & En & D & Em).
  rewrite En. cbn [bind fst snd]. rewrite for2_foreach, !Nat2Z.id.
  change (set_rtm cs (w_c w)) with (set_cnt 2 cs (w_c w)). set (w1 := mkW (set_cnt 2 cs (w_c w)) gs (w_file w)) in *.
  set (t1 := mkT (t_asy t) (t_lat t) (t_rtm t ++ [p]) (t_cell t)). assert (Mt1 : matches m (w_c w1) t1) by (destruct Mt; split; auto).
  pose proof (rtm_ids _ (s_ids _ _ Hst) r Ir) as Hch. rewrite Forall_forall in Hch.
  set (kids := combine (snd r) (corners2 lx' ly')) in *.
  assert (Ekids : rtm_kids m id = kids) by (unfold rtm_kids; rewrite (get_at _ _ _ _ Hr); now rewrite Er').
  assert (DD : Forall2 (fun ij kd => does adv_cell cells_cell t_cell (fun e => [e]) [(id, n); ll; la] (fst (x0, y0) + fst asy_ll, snd (x0, y0) + snd asy_ll, lat_z)%R
     [named "RTM_" (id, n); named "Lattice_" ll; named "Assembly_" la] kd
     (write_cell fsize file soups r (group ++ [SLASH] ++ named "RTM_" (id, n)) asy_ll lat_z (x0, y0) (Z.of_nat (fst ij)) (Z.of_nat (snd ij))) (uses_cell (fst kd))
     (fun f => cell_node f (fst kd))) (cells2 (length lx' - 1) (length ly' - 1)) kids).
  { assert (Hin : forall k, In k kids -> exists_in (cells m) (fst k)) by (intros k Hk; apply Hch; rewrite <- Em; now apply in_map).
    assert (S4 : slashes (group ++ [SLASH] ++ named "RTM_" (id, n)) = 4%nat).
    { rewrite !slashes_app, slashes_one, Hs. rewrite (proj1 (slashes_none _) (named_slash 2 _)). reflexivity. }
    clear - D Hin Hsoups Hsize Hst S4. induction D as [|i k idx q Hik _ IH]; constructor.
    - apply cell_does; auto. apply Hin. now left.
    - apply IH. intros y Hy. apply Hin. now right. }
  assert (Ef : flat_map (fun kd => uses_cell (fst kd)) kids = flat_map uses_cell (snd r)) by (rewrite <- Em; apply flat_fst).
  rewrite <- Ef in F1.
  destruct (all_does _ _ _ _ _ _ _ (fun f kd => cell_node f (fst kd)) (fun kd => uses_cell (fst kd)) (fun kd => kd) _ _ _ good_cells (fun f more kd x => cell_stable f more (fst kd) x) DD w1 [] t1 I1 F1 Mt1)
    as (w2 & xs & E2 & I2 & C2 & (more & F2) & Q2 & T2 & M2 & V2). rewrite map_id in M2, V2. apply F2_fst in Q2. rewrite Em in Q2. rewrite Ef in C2. change ([] ++ xs) with xs in E2. rewrite E2. cbn [bind fst snd].
  eexists w2, _. split; [reflexivity|]. split; [exact I2|]. split; [|split; [exists more; exact F2|]].
  - unfold uses_rtm. rewrite (get_at _ _ _ _ Hr). exact (counted_app _ [(2%nat, id)] _ _ _ C1 C2).
  - assert (EC : puts t_cell [(id, n); ll; la] (fst (x0, y0) + fst asy_ll, snd (x0, y0) + snd asy_ll, lat_z)%R t1 kids = cells_rtm m t [p]).
    { unfold puts, cells_rtm, expand_from. cbn [t1 t_cell below flat_map]. rewrite app_nil_r. rewrite Hp, Ekids. f_equal. apply map_ext. intros q. subst n.
      replace (fst (x0, y0) + fst asy_ll, snd (x0, y0) + snd asy_ll, lat_z)%R with (offset p); [reflexivity|].
      cbn [p Export_Level_Proofs.put offset]. rewrite Ek. cbn [plus3 fst snd]. f_equal; [f_equal|]; ring. }
    rewrite EC in M2, V2. split; [exists n, r, (Z.of_nat (length lx' - 1)), (Z.of_nat (length ly' - 1)), xs; auto|]. split; [reflexivity|]. split; [exact M2|].
    unfold named_in. change (attribute (tree ?a ?b) "Name") with a. rewrite (under_tree _ _ [nx_by_ny _ _] xs (nx_by_ny _ _ :: xs) eq_refl ltac:(repeat constructor) T2). now rewrite flat_one in V2.
Qed.

(** ** Lattices *)
Lemma lat_does a z la group asy_ll iz kid : In a (assemblies m) -> fst a = [z] -> rect_getChild Z a [Z.of_nat iz] = Ret (fst kid) ->
  (exists lo hi, nth_error z iz = Some lo /\ nth_error z (S iz) = Some hi /\ snd kid = (0, 0, (lo + hi) / 2)%R) ->
  (iz < length (snd a))%nat -> exists_in (lattices m) (fst kid) -> slashes group = 2%nat ->
  does (adv_lat m) (cells_lat m) t_lat (fun e => flat_map under (under e)) [la] (fst asy_ll, snd asy_ll, 0)%R [named "Assembly_" la] kid
    (write_lattice fsize m file soups a group asy_ll iz) (uses_lat (fst kid)) (fun f => lat_node z f (fst kid, iz)).
Proof.
  intros Ha Ez Ec Erel Hiz Hid Hs w nodes t Iw F Mt. set (p := Export_Level_Proofs.put _ _ _ _ _). assert (Hp : here p = fst kid) by reflexivity.
  destruct (visit_ok (lattices m) (f_lat (w_c w)) (t_lat t) p (m_lat _ _ _ Mt) Hid) as (f' & Ev2 & Cf). rewrite Hp in Ev2. set (id := fst kid) in *. unfold uses_lat in F.
  destruct (assembly_shape _ _ (s_consistent _ _ Hst) a Ha) as (z' & bot & top & Ez' & _ & Lz & _). rewrite Ez in Ez'. injection Ez' as <-.
  destruct (s_assemblies _ _ Hst a z Ha Ez) as (Inc & Six & _).
  destruct (nth_error z iz) as [lo|] eqn:Elo; [|apply nth_error_None in Elo; lia].
  destruct (nth_error z (S iz)) as [hi|] eqn:Ehi; [|apply nth_error_None in Ehi; lia].
  assert (Ek : snd kid = (0, 0, (lo + hi) / 2)%R) by (destruct Erel as (lo' & hi' & E1 & E2 & E3); injection E1 as <-; injection E2 as <-; exact E3). clear Erel.
  rewrite Forall_forall in Six. pose proof (Six lo (nth_error_In _ _ Elo)) as Slo. pose proof (Six hi (nth_error_In _ _ Ehi)) as Shi.
  destruct (print_exact lo Slo) as (tlo & Plo & Nlo & Clo & Rlo). destruct (print_exact hi Shi) as (thi & Phi & Nhi & Chi & Rhi).
  destruct (print_some ((lo + hi) / 2)) as (tmid & Pmid & _ & Cmid).
  { pose proof (six_bound lo Slo). pose proof (six_bound hi Shi). revert H H0. unfold Rabs. repeat destruct Rcase_abs; intros; lra. }
  destruct (enter w 1 id _ group Iw ltac:(lia) Hid F ltac:(lia)) as (cs & n & gs & Ev & El & Eg & _ & I1 & U1 & C1 & F1).
  change (prefix_of 1) with "Lattice_"%string in Eg.
  assert (X : f' = cs /\ n = count_occ Z.eq_dec (map here (t_lat t)) id) by (change (cnt w 1) with (f_lat (w_c w)) in Ev; rewrite Ev2 in Ev; injection Ev as -> Y; apply Nat2Z.inj in Y; auto).
  destruct X as (-> & Hn).
  unfold write_lattice. rewrite Ec. cbn [bind]. rewrite (Ev : visit (f_lat (w_c w)) id = _). cbn [bind fst snd]. rewrite (El : Export_Model.label "Lattice_" id _ = Ret (named "Lattice_" (id, n))). cbn [bind].
  rewrite Eg. cbn [bind]. rewrite Ez. cbn [rd nth_error bind].
  rewrite (proj2 (rd_Ret _ _ _) Elo), (proj2 (rd_Ret _ _ _) Ehi). cbn [bind]. rewrite Plo, Pmid, Phi. cbn [bind].
  destruct (exists_at _ _ Hid) as (l & Hl). rewrite (at_rd _ _ _ Hl). cbn [bind]. rewrite (get_at _ _ _ _ Hl) in F1. pose proof (at_in _ _ _ Hl) as Il.
  destruct (s_lattices _ _ Hst l Il) as (Hne & Hmx).
  destruct (Nat.eqb_spec (length (snd l)) 0) as [X|_]; [destruct (snd l); [congruence|discriminate X]|].
  destruct (lattice_shape _ _ (s_consistent _ _ Hst) l Il) as (r0 & w0 & h0 & nx & ny & _ & _ & Eg' & Hnx & Hny & Ll).
  destruct (regular_kids l w0 h0 nx ny Eg' Hnx ltac:(lia) Ll Hmx Hne) as (D & Em).
  assert (R0 : rd (fst l) 0 = Ret (mkAxis 0 w0 nx)) by now rewrite Eg'.
  assert (R1 : rd (fst l) 1 = Ret (mkAxis 0 h0 ny)) by now rewrite Eg'.
  rewrite R0. cbn [bind]. rewrite R1. cbn [bind nc]. rewrite for2_foreach.
  change (set_lat cs (w_c w)) with (set_cnt 1 cs (w_c w)). set (w1 := mkW (set_cnt 1 cs (w_c w)) gs (w_file w)) in *.
  set (t1 := mkT (t_asy t) (t_lat t ++ [p]) (t_rtm t) (t_cell t)). assert (Mt1 : matches m (w_c w1) t1) by (destruct Mt; split; auto).
  pose proof (lattice_ids _ (s_ids _ _ Hst) l Il) as Hch. rewrite Forall_forall in Hch.
  set (kids := combine (snd l) (regular_corners w0 h0 nx ny)) in *.
  assert (Ekids : lat_kids m id = kids) by (unfold lat_kids; rewrite (get_at _ _ _ _ Hl); now rewrite Eg').
  assert (DD : Forall2 (fun ij kd => does (adv_rtm m) (cells_rtm m) t_rtm under [(id, n); la] (fst asy_ll, snd asy_ll, (lo + hi) / 2)%R [named "Lattice_" (id, n); named "Assembly_" la] kd
     (write_rtm fsize m file soups l (group ++ [SLASH] ++ named "Lattice_" (id, n)) asy_ll ((lo + hi) / 2)%R (Z.of_nat (fst ij)) (Z.of_nat (snd ij))) (uses_rtm (fst kd))
     (fun f => rtm_node f (fst kd))) (cells2 (Z.to_nat nx) (Z.to_nat ny)) kids).
  { assert (Hin : forall k, In k kids -> exists_in (rtms m) (fst k)) by (intros k Hk; apply Hch; rewrite <- Em; now apply in_map).
    assert (S3 : slashes (group ++ [SLASH] ++ named "Lattice_" (id, n)) = 3%nat).
    { rewrite !slashes_app, slashes_one, Hs. rewrite (proj1 (slashes_none _) (named_slash 1 _)). reflexivity. }
    clear - D Hin Hsoups Hsize Hst S3. induction D as [|i k idx q Hik _ IH]; constructor.
    - apply rtm_does; auto. apply Hin. now left.
    - apply IH. intros y Hy. apply Hin. now right. }
  assert (Ef : flat_map (fun kd => uses_rtm (fst kd)) kids = flat_map uses_rtm (snd l)) by (rewrite <- Em; apply flat_fst).
  rewrite <- Ef in F1.
  destruct (all_does _ _ _ _ _ _ _ (fun f kd => rtm_node f (fst kd)) (fun kd => uses_rtm (fst kd)) (fun kd => kd) _ _ _ (good_rtms m) (fun f more kd x => rtm_stable f more (fst kd) x) DD w1 [] t1 I1 F1 Mt1)
    as (w2 & xs & E2 & I2 & C2 & (more & F2) & Q2 & T2 & M2 & V2). rewrite map_id in M2, V2. apply F2_fst in Q2. rewrite Em in Q2. rewrite Ef in C2. change ([] ++ xs) with xs in E2. rewrite E2. cbn [bind fst snd].
  eexists w2, _. split; [reflexivity|]. split; [exact I2|]. split; [|split; [exists more; exact F2|]].
  - unfold uses_lat. rewrite (get_at _ _ _ _ Hl). exact (counted_app _ [(1%nat, id)] _ _ _ C1 C2).
  - assert (EC : puts t_rtm [(id, n); la] (fst asy_ll, snd asy_ll, (lo + hi) / 2)%R t1 kids = rtms_lat m t [p]).
    { unfold puts, rtms_lat, expand_from. cbn [t1 t_rtm below flat_map]. rewrite app_nil_r. rewrite Hp, Ekids. f_equal. apply map_ext. intros q. subst n.
      replace (fst asy_ll, snd asy_ll, (lo + hi) / 2)%R with (offset p); [reflexivity|].
      cbn [p Export_Level_Proofs.put offset]. rewrite Ek. cbn [plus3 fst snd]. f_equal; [f_equal|]; ring. }
    rewrite EC in M2, V2.
    split; [exists n, l, (mkAxis 0 w0 nx), (mkAxis 0 h0 ny), xs, lo, hi, tlo, tmid, thi; cbn [fst snd nc]; repeat (split; [assumption|]); split; [reflexivity|exact Q2]|].
    split; [reflexivity|]. split; [exact M2|].
    unfold named_in. change (attribute (tree ?a ?b) "Name") with a. rewrite (under_tree _ _ [info _ _; nx_by_ny _ _] xs (info _ _ :: nx_by_ny _ _ :: xs) eq_refl ltac:(repeat constructor) T2). exact V2.
Qed.

(** ** Assemblies *)
Lemma asy_does group ij kid : child_at (rect_getChild Z (core m)) (rect_getBox (fst (core m))) ij kid -> exists_in (assemblies m) (fst kid) ->
  slashes group = 1%nat ->
  does (adv_asy m) (cells_asy m) t_asy (fun e => flat_map under (flat_map under (under e))) [] (0, 0, 0)%R [] kid
    (write_assembly fsize m file soups group (Z.of_nat (fst ij)) (Z.of_nat (snd ij))) (uses_asy (fst kid)) (fun f => asy_node f (fst kid)).
Proof.
  intros (Ec & b & x0 & y0 & Eb & Eco & Ek) Hid Hs w nodes t Iw F Mt. set (p := Export_Level_Proofs.put _ _ _ _ _). assert (Hp : here p = fst kid) by reflexivity.
  destruct (visit_ok (assemblies m) (f_asy (w_c w)) (t_asy t) p (m_asy _ _ _ Mt) Hid) as (f' & Ev2 & Cf). rewrite Hp in Ev2. set (id := fst kid) in *. unfold uses_asy in F.
  destruct (enter w 0 id _ group Iw ltac:(lia) Hid F ltac:(lia)) as (cs & n & gs & Ev & El & Eg & _ & I1 & U1 & C1 & F1).
  change (prefix_of 0) with "Assembly_"%string in Eg.
  assert (X : f' = cs /\ n = count_occ Z.eq_dec (map here (t_asy t)) id) by (change (cnt w 0) with (f_asy (w_c w)) in Ev; rewrite Ev2 in Ev; injection Ev as -> Y; apply Nat2Z.inj in Y; auto).
  destruct X as (-> & Hn).
  unfold write_assembly. rewrite Ec. cbn [bind]. rewrite (Ev : visit (f_asy (w_c w)) id = _). cbn [bind fst snd]. rewrite (El : Export_Model.label "Assembly_" id _ = Ret (named "Assembly_" (id, n))). cbn [bind].
  rewrite Eg. cbn [bind]. rewrite Eb. cbn [bind]. rewrite Eco. cbn [bind].
  destruct (exists_at _ _ Hid) as (a & Ha). rewrite (at_rd _ _ _ Ha). cbn [bind]. rewrite (get_at _ _ _ _ Ha) in F1. pose proof (at_in _ _ _ Ha) as Ia.
  destruct (assembly_shape _ _ (s_consistent _ _ Hst) a Ia) as (z & bot & top & Ez & Hne & Lz & _).
  destruct (s_assemblies _ _ Hst a z Ia Ez) as (_ & _ & Hmx & _).
  destruct (Nat.eqb_spec (length (snd a)) 0) as [X|_]; [destruct (snd a); [congruence|discriminate X]|].
  assert (Rn : rd (numCells (fst a)) 0 = Ret (Z.of_nat (length (snd a)))).
  { rewrite Ez. unfold numCells. cbn [map rd nth_error]. f_equal. rewrite Lz. lia. }
  rewrite Rn. cbn [bind]. rewrite for_foreach, Nat2Z.id.
  change (set_asy cs (w_c w)) with (set_cnt 0 cs (w_c w)). set (w1 := mkW (set_cnt 0 cs (w_c w)) gs (w_file w)) in *.
  set (t1 := mkT (t_asy t ++ [p]) (t_lat t) (t_rtm t) (t_cell t)). assert (Mt1 : matches m (w_c w1) t1) by (destruct Mt; split; auto).
  pose proof (assembly_ids _ (s_ids _ _ Hst) a Ia) as Hch. rewrite Forall_forall in Hch.
  destruct (column_kids a z Ez Lz Hmx) as (D & Em).
  assert (S2 : slashes (group ++ [SLASH] ++ named "Assembly_" (id, n)) = 2%nat).
  { rewrite !slashes_app, slashes_one, Hs. rewrite (proj1 (slashes_none _) (named_slash 0 _)). reflexivity. }
  set (kids := combine (snd a) (midplanes z)) in *.
  assert (Ekids : asy_kids m id = kids) by (unfold asy_kids; rewrite (get_at _ _ _ _ Ha); now rewrite Ez).
  assert (Lk : length kids = length (snd a)) by (rewrite <- Em; now rewrite map_length).
  set (bs := combine kids (seq 0 (length (snd a)))).
  assert (Mb : map fst bs = kids) by (apply map_fst_combine; now rewrite seq_length).
  assert (DD : Forall2 (fun iz b => does (adv_lat m) (cells_lat m) t_lat (fun e => flat_map under (under e)) [(id, n)] (fst (x0, y0), snd (x0, y0), 0)%R [named "Assembly_" (id, n)] (fst b)
     (write_lattice fsize m file soups a (group ++ [SLASH] ++ named "Assembly_" (id, n)) (x0, y0) iz) (uses_lat (fst (fst b)))
     (fun f => lat_node z f (fst (fst b), snd b))) (seq 0 (length (snd a))) bs).
  { apply F2_of_nth; [unfold bs; rewrite combine_length, !seq_length; lia|]. intros k iz (kd, j) Hk Hb.
    assert (Hlt : (k < length (snd a))%nat) by (rewrite <- (seq_length (length (snd a)) 0); apply nth_error_Some; congruence).
    rewrite seq_nth_error in Hk by auto. injection Hk as <-. cbn [Nat.add] in *.
    destruct (F2_nth _ _ _ D k k ltac:(now apply seq_nth_error)) as ((l2, rel) & Hkid & Hg).
    unfold bs in Hb. rewrite (nth_combine _ _ _ (l2, rel) k Hkid (seq_nth_error _ 0 _ Hlt)) in Hb. injection Hb as <- <-.
    destruct (Hg l2 rel eq_refl) as (Hc & Hr). apply (lat_does a z (id, n) _ (x0, y0) k (l2, rel)); auto. cbn [fst]. apply Hch. rewrite <- Em. apply (in_map fst kids (l2, rel)). eapply nth_error_In; eauto. }
  assert (Ef : flat_map (fun b : (Z * pt3) * nat => uses_lat (fst (fst b))) bs = flat_map uses_lat (snd a)).
  { rewrite (flat_fst (fun kd : Z * pt3 => uses_lat (fst kd)) bs), Mb, (flat_fst uses_lat kids). now rewrite Em. }
  rewrite <- Ef in F1.
  destruct (all_does _ _ _ _ _ _ _ (fun f b => lat_node z f (fst (fst b), snd b)) (fun b => uses_lat (fst (fst b))) (@fst (Z * pt3) nat) _ _ _ (good_lats m)
    (fun f more b x => lat_stable z f more (fst (fst b), snd b) x) DD w1 [] t1 I1 F1 Mt1)
    as (w2 & xs & E2 & I2 & C2 & (more & F2) & Q2 & T2 & M2 & V2). rewrite Mb in M2, V2. rewrite Ef in C2. change ([] ++ xs) with xs in E2. rewrite E2. cbn [bind fst snd].
  assert (Q3 : Forall2 (lat_node z (w_file w2)) (combine (snd a) (seq 0 (length (snd a)))) xs).
  { replace (combine (snd a) (seq 0 (length (snd a)))) with (map (fun b : (Z * pt3) * nat => (fst (fst b), snd b)) bs).
    - clear - Q2. induction Q2; constructor; auto.
    - rewrite <- Em at 1. unfold bs. clear. generalize (seq 0 (length (snd a))). induction kids as [|q l IH]; intros [|j s]; cbn; auto. now rewrite IH. }
  eexists w2, _. split; [reflexivity|]. split; [exact I2|]. split; [|split; [exists more; exact F2|]].
  - unfold uses_asy. rewrite (get_at _ _ _ _ Ha). exact (counted_app _ [(0%nat, id)] _ _ _ C1 C2).
  - assert (EC : puts t_lat [(id, n)] (fst (x0, y0), snd (x0, y0), 0)%R t1 kids = lats_asy m t [p]).
    { unfold puts, lats_asy, expand_from. cbn [t1 t_lat below flat_map]. rewrite app_nil_r. rewrite Hp, Ekids. f_equal. apply map_ext. intros q. subst n.
      replace (fst (x0, y0), snd (x0, y0), 0)%R with (offset p); [reflexivity|].
      cbn [p Export_Level_Proofs.put offset]. rewrite Ek. cbn [plus3 fst snd]. f_equal; [f_equal|]; ring. }
    rewrite EC in M2, V2. split; [exists n, a, z, xs; auto|]. split; [reflexivity|]. split; [exact M2|].
    unfold named_in. change (attribute (tree ?a ?b) "Name") with a. rewrite (under_tree _ _ [nx_by_ny _ _] xs (nx_by_ny _ _ :: xs) eq_refl ltac:(repeat constructor) T2).
    rewrite flat_flat. exact V2.
Qed.
End Write.

(** ** The whole document *)
Section Levels.
Variable m : model.
Notation cells_of r := (snd (get (rtms m) r ([], []))).
Notation rtms_of l := (snd (get (lattices m) l ([], []))).
Notation lats_of a := (snd (get (assemblies m) a ([], []))).
Lemma level_cells lv l : at_level lv (flat_map uses_cell l) = if (lv =? 3)%nat then l else [].
Proof. induction l as [|c l IH]; [now destruct (lv =? 3)%nat|]. cbn [flat_map]. rewrite at_level_app, IH. unfold uses_cell, at_level. cbn [filter fst]. rewrite Nat.eqb_sym. now destruct (lv =? 3)%nat. Qed.
Lemma level_rtms lv l : at_level lv (flat_map (uses_rtm m) l) =
  if (lv =? 2)%nat then l else if (lv =? 3)%nat then flat_map (fun r => cells_of r) l else [].
Proof.
  induction l as [|c l IH]; [now destruct (lv =? 3)%nat, (lv =? 2)%nat|]. cbn [flat_map]. rewrite at_level_app, IH. unfold uses_rtm. change (?a :: ?b) with ([a] ++ b). rewrite at_level_app, level_cells.
  unfold at_level. cbn [filter fst]. destruct (Nat.eqb_spec lv 2) as [->|]; [reflexivity|]. destruct (Nat.eqb_spec 2 lv); [congruence|]. now destruct (lv =? 3)%nat.
Qed.
Lemma level_lats lv l : at_level lv (flat_map (uses_lat m) l) =
  if (lv =? 1)%nat then l else if (lv =? 2)%nat then flat_map (fun r => rtms_of r) l else
  if (lv =? 3)%nat then flat_map (fun r => cells_of r) (flat_map (fun r => rtms_of r) l) else [].
Proof.
  induction l as [|c l IH]; [now destruct (lv =? 3)%nat, (lv =? 2)%nat, (lv =? 1)%nat|]. cbn [flat_map]. rewrite at_level_app, IH. unfold uses_lat. change (?a :: ?b) with ([a] ++ b). rewrite at_level_app, level_rtms.
  unfold at_level. cbn [filter fst]. destruct (Nat.eqb_spec lv 1) as [->|]; [reflexivity|]. destruct (Nat.eqb_spec 1 lv); [congruence|]. destruct (lv =? 2)%nat; [reflexivity|]. destruct (lv =? 3)%nat; [|reflexivity].
  cbn [map app]. now rewrite flat_map_app.
Qed.
Lemma level_asys lv l : at_level lv (flat_map (uses_asy m) l) =
  if (lv =? 0)%nat then l else if (lv =? 1)%nat then flat_map (fun r => lats_of r) l else
  if (lv =? 2)%nat then flat_map (fun r => rtms_of r) (flat_map (fun r => lats_of r) l) else
  if (lv =? 3)%nat then flat_map (fun r => cells_of r) (flat_map (fun r => rtms_of r) (flat_map (fun r => lats_of r) l)) else [].
Proof.
  induction l as [|c l IH]; [now destruct (lv =? 3)%nat, (lv =? 2)%nat, (lv =? 1)%nat, (lv =? 0)%nat|]. cbn [flat_map]. rewrite at_level_app, IH. unfold uses_asy. change (?a :: ?b) with ([a] ++ b). rewrite at_level_app, level_lats.
  unfold at_level. cbn [filter fst]. destruct (Nat.eqb_spec lv 0) as [->|]; [reflexivity|]. destruct (Nat.eqb_spec 0 lv); [congruence|]. destruct (lv =? 1)%nat; [reflexivity|].
  destruct (lv =? 2)%nat; [cbn [map app]; now rewrite flat_map_app|]. destruct (lv =? 3)%nat; [|reflexivity].
  cbn [map app]. now rewrite !flat_map_app.
Qed.
End Levels.

Definition document (base : list Z) (m : model) (nx ny : Z) (nodes : list xml) : xml :=
  Node [] [] [Node (txt "Xdmf") [(txt "Version", txt "3.0")]
           [Node (txt "Domain") [] [info "Materials" (join_names (materials m)); tree base (nx_by_ny nx ny :: nodes)] []] []] [].
Lemma mapo_all {A B} (f : A -> outcome B) (P : A -> B -> Prop) l : (forall a, In a l -> exists b, f a = Ret b /\ P a b) -> exists r, mapo f l = Ret r /\ Forall2 P l r.
Proof.
  induction l as [|a l IH]; intros H; [exists []; split; [reflexivity|constructor]|]. destruct (H a) as (b & E & Pb); [now left|]. destruct IH as (r & Er & Pr); [intros; apply H; now right|].
  exists (b :: r). cbn [mapo]. rewrite E. cbn [bind]. rewrite Er. split; [reflexivity|now constructor].
Qed.
Definition cell_data (knudsen xsdata : bool) (xsecs : list xsec) (c : cell) (k : kind) (x : mesh R) (a : asoup (R * R * R) R) : Prop :=
  names_sorted (a_elsets a) /\ Permutation (map (whole_set (length (fv x))) (written_sets knudsen xsdata xsecs k x (material_ids c))) (a_elsets a).
Lemma write_core_all stdsort checks fsize knudsen xsdata selfcheck m xsecs file base : sort_contract stdsort -> fsize = 4%Z \/ fsize = 8%Z ->
  can_be_written selfcheck m -> xsecs_storable m knudsen xsdata xsecs -> ~ In SLASH base -> base <> [] -> base <> txt "." ->
  exists nx ny nodes f, write_core stdsort fsize knudsen xsdata m xsecs file base = Ret (document base m nx ny nodes, f) /\
    num_cells (fst (core m)) = Ret (nx, ny) /\ Forall2 (asy_node checks fsize m file f) (snd (core m)) nodes /\
    Forall2 (leaf checks fsize m file (cell_data knudsen xsdata xsecs) f) (placed_cells m) (cell_grids (tree base (nx_by_ny nx ny :: nodes))).
Proof.
  intros Hsort Hsize Hst Hx Nb Nb1 Nb2. unfold write_core.
  destruct (s_core _ _ Hst) as (exts & _ & ids & W & H & HL & El'). pose proof HL as (Hl & HW & HH & _ & _ & Hmax & Hrows).
  assert (Hne : snd (core m) <> []).
  { rewrite El'. cbn [snd]. destruct ids as [|r0 ids]; [destruct H; [congruence|discriminate]|]. intros X. apply (f_equal (@length _)) in X. cbn [rev] in X. rewrite concat_app, app_length in X. cbn [concat] in X.
    rewrite app_nil_r in X. destruct (lattice_rect _ _ _ _ HL) as (_ & Hr). rewrite Forall_forall in Hr. specialize (Hr r0 (or_introl eq_refl)). destruct W; [congruence|]. cbn [length] in *. lia. }
  destruct (Nat.eqb_spec (length (snd (core m))) 0) as [X|_]; [destruct (snd (core m)); [congruence|discriminate X]|].
  set (avg := if knudsen || xsdata then map means xsecs else []).
  assert (Ha : (if knudsen || xsdata then mapo averages xsecs else Ret []) = Ret avg).
  { unfold avg. destruct (knudsen || xsdata) eqn:Ek; [|reflexivity]. exact (averages_means m xsecs (proj1 Hx Ek)). }
  assert (La : knudsen || xsdata = true -> length avg = length (materials m)).
  { intros Ek. unfold avg. rewrite Ek, map_length. apply (proj1 Hx Ek). }
  rewrite Ha. cbn [bind].
  destruct (mapo_all (cell_soup stdsort knudsen xsdata m xsecs avg)
    (fun c s => exists k x a, cell_mesh m c = Some (k, x) /\ stores s a /\ cell_content k x (material_ids c) a /\ cell_data knudsen xsdata xsecs c k x a) (cells m)) as (soups & Es & Fs).
  { intros c Hc. pose proof (s_cells _ _ Hst) as Sc. rewrite Forall_forall in Sc. destruct (Sc c Hc) as (k & x & Cm & Mo & Fv & _ & _ & Lm & _ & B1 & B2).
    assert (Hid : Forall (exists_in (materials m)) (material_ids c)).
    { destruct (cell_ids _ (s_ids _ _ Hst) c Hc) as (_ & _ & [X|(y & _ & _ & Y)]); [|exact Y]. unfold cell_mesh in Cm. rewrite meshes_like_eq in Cm. rewrite X in Cm. cbn in Cm.
      destruct (kind_of (mtype c)); [|discriminate]. destruct (meshes_of m (mtype c)); discriminate. }
    assert (Hmn : material_ids c <> []) by (intros X; rewrite X in Lm; destruct (fv x); [congruence|discriminate Lm]).
    pose proof (extra_value m knudsen xsdata xsecs k x (material_ids c) Mo Lm Hid Hmn Hx) as Ev.
    destruct (extra_ok m knudsen xsdata xsecs avg k x (material_ids c) Mo Fv Lm Hid Hx La) as (extra & Ee & Ge).
    unfold avg in Ee. assert (Eq : extra = tl (written_sets knudsen xsdata xsecs k x (material_ids c))) by congruence. clear Ev. rename Eq into Ev.
    destruct (cell_soup_ok stdsort knudsen xsdata m xsecs avg c k x extra Hsort Cm Mo Fv Lm B1 B2 Ee Ge) as (s & a & E & Sa & Ca & Na & Pa). exists s. split; auto. exists k, x, a.
    rewrite Ev in Pa. repeat (split; [assumption|]). exact Pa. }
  rewrite Es. cbn [bind].
  assert (Hsoups : forall id c, at_ (cells m) id c -> exists s k x a, rdz soups id = Ret s /\ cell_mesh m c = Some (k, x) /\ stores s a /\ cell_content k x (material_ids c) a /\ cell_data knudsen xsdata xsecs c k x a).
  { intros id c (Hi & Hc). destruct (F2_nth _ _ _ Fs _ _ Hc) as (s & Hs & k & x & a & Hk). exists s, k, x, a. split; [now apply rdz_nth|exact Hk]. }
  assert (Eg : createGroup [] [] base = Ret [[SLASH] ++ base]).
  { unfold createGroup, link_name. rewrite (name_eqb_neq base [] Nb1), (name_eqb_neq base (txt ".") Nb2). cbn [negb andb existsb app].
    destruct (existsb (Z.eqb SLASH) base) eqn:E; [|reflexivity]. apply existsb_exists in E. destruct E as (q & Hq & E). apply Z.eqb_eq in E. subst q. contradiction. }
  rewrite Eg. cbn [bind].
  destruct (core_children _ _ (s_consistent _ _ Hst) eq_refl Hne) as (lx & ly & Er & L1 & L2 & _ & _ & Lr).
  assert (Hmx : (Z.of_nat (length (snd (core m))) <= intMax)%Z).
  { rewrite Lr. rewrite El' in Er. cbn [fst] in Er. injection Er as <- <-. rewrite !Grid_Proofs.sums_length. cbn [Nat.sub]. rewrite !Nat.sub_0_r, Nat2Z.inj_mul. exact Hmax. }
  destruct (rect_kids (core m) ltac:(exists lx, ly; repeat split; auto; lia) Hmx Hne) as (lx' & ly' & Er' & En & D & Em).
  rewrite En. cbn [bind fst snd]. rewrite for2_foreach, !Nat2Z.id.
  set (w0 := mkW _ _ []).
  assert (At0 : forall lv id, at_cnt w0 lv id = (-1)%Z).
  { intros lv id. unfold at_cnt, w0. destruct lv as [|[|[|lv]]]; cbn [cnt w_c f_asy f_lat f_rtm f_cell]; apply nth_repeat. }
  assert (I0 : winv m w0).
  { split.
    - intros lv. destruct lv as [|[|[|lv]]]; cbn [cnt w0 w_c f_asy f_lat f_rtm f_cell size_of]; apply repeat_length.
    - intros lv. apply Forall_forall. intros z Hz. destruct lv as [|[|[|lv]]]; cbn [cnt w0 w_c f_asy f_lat f_rtm f_cell] in Hz; apply repeat_spec in Hz; lia.
    - constructor; [left; exists base; auto|constructor].
    - constructor. }
  pose proof (core_ids _ (s_ids _ _ Hst)) as Hch. rewrite Forall_forall in Hch.
  set (kids := combine (snd (core m)) (corners2 lx' ly')) in *.
  assert (Ekids : core_kids m = kids) by (unfold core_kids; now rewrite Er').
  assert (DD : Forall2 (fun ij kd => does checks fsize m file (cell_data knudsen xsdata xsecs) (adv_asy m) (cells_asy m) t_asy (fun e => flat_map under (flat_map under (under e))) [] (0, 0, 0)%R [] kd
     (write_assembly fsize m file soups ([SLASH] ++ base) (Z.of_nat (fst ij)) (Z.of_nat (snd ij))) (uses_asy m (fst kd))
     (fun f => asy_node checks fsize m file f (fst kd))) (cells2 (length lx' - 1) (length ly' - 1)) kids).
  { assert (Hin : forall k, In k kids -> exists_in (assemblies m) (fst k)) by (intros k Hk; apply Hch; rewrite <- Em; now apply in_map).
    assert (S1 : slashes ([SLASH] ++ base) = 1%nat).
    { rewrite slashes_app, slashes_one. rewrite (proj1 (slashes_none _) Nb). reflexivity. }
    clear - D Hin Hsoups Hsize Hst S1. induction D as [|i k idx q Hik _ IH]; constructor.
    - eapply asy_does; eauto. apply Hin. now left.
    - apply IH. intros y Hy. apply Hin. now right. }
  assert (F0 : fits w0 (flat_map (uses_asy m) (snd (core m)))).
  { intros lv id Hlv Hid. rewrite At0. unfold times. rewrite level_asys. destruct Hst. destruct lv as [|[|[|[|lv]]]]; [| | | |lia]; cbn [Nat.eqb].
    - destruct s_few_assemblies as (_ & F). specialize (F id). lia.
    - destruct s_few_lattices as (_ & F). specialize (F id). unfold all_lattices in F. lia.
    - destruct s_few_rtms as (_ & F). specialize (F id). unfold all_rtms, all_lattices in F. lia.
    - destruct s_few_cells as (_ & F). specialize (F id). unfold all_cells, all_rtms, all_lattices in F. lia. }
  assert (Ef : flat_map (fun kd => uses_asy m (fst kd)) kids = flat_map (uses_asy m) (snd (core m))) by (rewrite <- Em; apply flat_fst).
  rewrite <- Ef in F0.
  destruct (all_does checks fsize m file (cell_data knudsen xsdata xsecs) _ _ _ _ _ _ _ (fun f kd => asy_node checks fsize m file f (fst kd)) (fun kd => uses_asy m (fst kd)) (fun kd => kd) _ _ _ (good_asys m)
    (fun f more kd x => asy_stable checks fsize m file f more (fst kd) x) DD w0 [] (mkT [] [] [] []) I0 F0 (start_ok m))
    as (w2 & xs & E2 & _ & _ & _ & Q2 & T2 & _ & V2). rewrite map_id in V2. apply F2_fst in Q2. rewrite Em in Q2. change ([] ++ xs) with xs in E2. rewrite E2. cbn [bind fst snd].
  exists (Z.of_nat (length lx' - 1)), (Z.of_nat (length ly' - 1)), xs, (w_file w2). split; [reflexivity|]. split; [reflexivity|]. split; [exact Q2|].
  assert (Ep : puts t_asy [] (0, 0, 0)%R (mkT [] [] [] []) kids = placed_assemblies m).
  { unfold puts, placed_assemblies, expand, below. rewrite <- Ekids. cbn [t_asy map flat_map here path offset]. now rewrite app_nil_r. }
  rewrite Ep in V2. unfold cell_grids. rewrite (under_tree _ _ [nx_by_ny _ _] xs (nx_by_ny _ _ :: xs) eq_refl ltac:(repeat constructor) T2).
  rewrite !flat_flat. rewrite (flat_map_ext _ (fun e => flat_map under (flat_map under (under e)))) by (intros e; now rewrite flat_flat). exact V2.
Qed.
Lemma write_core_ok stdsort checks fsize knudsen xsdata selfcheck m xsecs file base : sort_contract stdsort -> fsize = 4%Z \/ fsize = 8%Z ->
  can_be_written selfcheck m -> xsecs_storable m knudsen xsdata xsecs -> ~ In SLASH base -> base <> [] -> base <> txt "." ->
  exists nx ny nodes f, write_core stdsort fsize knudsen xsdata m xsecs file base = Ret (document base m nx ny nodes, f) /\
    num_cells (fst (core m)) = Ret (nx, ny) /\ Forall2 (asy_node checks fsize m file f) (snd (core m)) nodes.
Proof.
  intros H1 H2 H3 H4 H5 H6 H7. destruct (write_core_all stdsort checks fsize knudsen xsdata selfcheck m xsecs file base H1 H2 H3 H4 H5 H6 H7) as (nx & ny & nodes & f & E1 & E2 & E3 & _).
  exists nx, ny, nodes, f. auto.
Qed.
