(** Proofs for the places of coarse cells. *)
From Coq Require Import List Arith ZArith Lia Lra Bool Reals.
From Verif Require Import Base Loops Grid_Model Grid_Spec Grid_Proofs Mpact_Model Mpact_Spec Coarse_Model Coarse_Spec.
Import ListNotations.
Local Open Scope R_scope.

(** * Loops that collect *)
Section ForRel.
Context {S X : Type} (P : S -> Prop) (Rel : list X -> S -> S -> Prop).
Hypothesis rel_nil : forall s, P s -> Rel [] s s.
Hypothesis rel_app : forall a b s s1 s2, Rel a s s1 -> Rel b s1 s2 -> Rel (a ++ b) s s2.
Hypothesis rel_P : forall a s s1, Rel a s s1 -> P s1.

Lemma for_rel f L : forall n k s, P s ->
  (forall i s, (k <= i < k + n)%nat -> P s -> exists s', f i s = Ret s' /\ Rel (L i) s s') ->
  exists s', for_ n k f s = Ret s' /\ Rel (flat_map L (seq k n)) s s'.
Proof.
  induction n as [|n IH]; intros k s Hs Hf.
  - exists s. split; auto.
  - destruct (Hf k s) as (s1 & E & H1); [lia|auto|]. cbn [for_ seq flat_map]. rewrite E. cbn [bind].
    destruct (IH (Datatypes.S k) s1) as (s2 & E2 & H2); eauto.
    intros i s' Hi. apply Hf. lia.
Qed.
Lemma for2_rel f L nx ny s : P s ->
  (forall i j s, (i < nx)%nat -> (j < ny)%nat -> P s -> exists s', f i j s = Ret s' /\ Rel (L i j) s s') ->
  exists s', for_ ny 0 (fun j => for_ nx 0 (fun i => f i j)) s = Ret s' /\ Rel (sweep nx ny L) s s'.
Proof.
  intros Hs Hf. unfold sweep. apply (for_rel _ (fun j => flat_map (fun i => L i j) (seq 0 nx))); auto.
  intros j s1 Hj H1. apply (for_rel _ (fun i => L i j)); auto. intros i s2 Hi H2. apply Hf; auto; lia.
Qed.
End ForRel.

(** * Children *)
Lemma flat_i32 n i j N : (i < n)%nat -> (Z.of_nat (j * n + i) < Z.of_nat N)%Z -> (Z.of_nat N <= intMax)%Z ->
  (let* a := i32 (Z.of_nat j * Z.of_nat n) in i32 (Z.of_nat i + a)) = Ret (Z.of_nat (j * n + i)).
Proof.
  intros Hi H1 H2. rewrite i32_ok by (unfold in_i32, intMin, intMax in *; nia). cbn [bind].
  rewrite i32_ok by (unfold in_i32, intMin, intMax in *; nia). f_equal. lia.
Qed.
Lemma idx_lt nx ny i j : (i < nx)%nat -> (j < ny)%nat -> (j * nx + i < nx * ny)%nat.
Proof. intros. nia. Qed.

Lemma rect_child lx ly ch i j : (2 <= length lx)%nat -> (2 <= length ly)%nat ->
  length ch = ((length lx - 1) * (length ly - 1))%nat -> (Z.of_nat (length ch) <= intMax)%Z ->
  (i < intervals lx)%nat -> (j < intervals ly)%nat ->
  rect_getChild Z ([lx; ly], ch) [Z.of_nat i; Z.of_nat j] = Ret (kid ch (intervals lx) i j) /\
  In (kid ch (intervals lx) i j) ch.
Proof.
  unfold intervals. intros L1 L2 Hl Hm Hi Hj. pose proof (idx_lt _ _ _ _ Hi Hj) as Hk. rewrite <- Hl in Hk.
  unfold rect_getChild, rect_getFlatIndex. cbn [fst snd combine forallb].
  rewrite (proj2 (Z.ltb_lt _ _)) by lia. rewrite (proj2 (Z.ltb_lt _ _)) by lia. cbn [andb].
  unfold numCells. cbn [map flatIndex]. replace (Z.of_nat (length lx) - 1)%Z with (Z.of_nat (length lx - 1)) by lia.
  clear Hl. remember (length lx - 1)%nat as n.
  rewrite (flat_i32 n i j (length ch) Hi ltac:(lia) Hm). cbn [bind].
  unfold kid, rdz. rewrite (proj2 (Z.ltb_ge _ _)) by lia. rewrite Nat2Z.id.
  split; [|apply nth_In; lia]. apply rd_Ret. apply nth_error_nth'. lia.
Qed.
Lemma regular_child ax ay ch i j : (0 <= nc ax)%Z -> (0 <= nc ay)%Z ->
  Z.of_nat (length ch) = (nc ax * nc ay)%Z -> (Z.of_nat (length ch) <= intMax)%Z ->
  (i < Z.to_nat (nc ax))%nat -> (j < Z.to_nat (nc ay))%nat ->
  regular_getChild Z ([ax; ay], ch) [Z.of_nat i; Z.of_nat j] = Ret (kid ch (Z.to_nat (nc ax)) i j) /\
  In (kid ch (Z.to_nat (nc ax)) i j) ch.
Proof.
  intros L1 L2 Hl Hm Hi Hj. pose proof (idx_lt _ _ _ _ Hi Hj) as Hk.
  assert (Hk' : (j * Z.to_nat (nc ax) + i < length ch)%nat) by nia.
  unfold regular_getChild, getFlatIndex. cbn [fst snd combine forallb].
  rewrite (proj2 (Z.ltb_lt _ _)) by lia. rewrite (proj2 (Z.ltb_lt _ _)) by lia. cbn [andb].
  cbn [map flatIndex]. replace (nc ax) with (Z.of_nat (Z.to_nat (nc ax))) at 1 by lia.
  rewrite (flat_i32 (Z.to_nat (nc ax)) i j (length ch) Hi ltac:(lia) Hm). cbn [bind].
  unfold kid, rdz. rewrite (proj2 (Z.ltb_ge _ _)) by lia. rewrite Nat2Z.id.
  split; [|apply nth_In; lia]. apply rd_Ret. apply nth_error_nth'. lia.
Qed.
Lemma rdz_id {A} (l : list A) id d : (0 <= id < Z.of_nat (length l))%Z -> rdz l id = Ret (at_id l id d).
Proof.
  intros H. unfold rdz. rewrite (proj2 (Z.ltb_ge _ _)) by lia. apply rd_Ret. apply nth_error_nth'. lia.
Qed.
Lemma wrz_id {A} (l : list A) id a : (0 <= id < Z.of_nat (length l))%Z -> wrz l id a = Ret (upd l (Z.to_nat id) a).
Proof.
  intros H. unfold wrz. rewrite (proj2 (Z.ltb_ge _ _)) by lia. apply wr_ok. lia.
Qed.
Lemma rect_box lx ly i j : (i < intervals lx)%nat -> (j < intervals ly)%nat ->
  rect_getBox [lx; ly] [Z.of_nat i; Z.of_nat j] = Ret [(dv lx i, dv lx (S i)); (dv ly j, dv ly (S j))].
Proof.
  unfold intervals. intros Hi Hj. rewrite rect_getBox_ok.
  2:{ constructor; [|constructor; [|constructor]]; lia. }
  cbn [gbox map rtoax combine fst snd]. unfold dv.
  replace (Z.to_nat (Z.of_nat j + 1)) with (S j) by lia. replace (Z.to_nat (Z.of_nat i + 1)) with (S i) by lia.
  now rewrite !Nat2Z.id.
Qed.

(** * Places *)
Definition put (cc : list (option place)) (x : Z * place) : list (option place) :=
  match at_id cc (fst x) None with
  | Some _ => cc
  | None => upd cc (Z.to_nat (fst x)) (Some (snd x))
  end.
Definition put_all (l : list (Z * place)) (cc : list (option place)) : list (option place) := fold_left put l cc.
Lemma put_all_app a b cc : put_all (a ++ b) cc = put_all b (put_all a cc).
Proof. apply fold_left_app. Qed.
Lemma put_length cc x : length (put cc x) = length cc.
Proof. unfold put. destruct (at_id cc (fst x) None); auto. apply upd_length. Qed.
Lemma put_all_length l : forall cc, length (put_all l cc) = length cc.
Proof. induction l as [|x l IH]; intros cc; cbn; auto. now rewrite IH, put_length. Qed.

Definition filled (cc : list (option place)) (c : Z) : Prop := exists p, at_id cc c None = Some p.
Lemma nth_upd {A} (l : list A) i j a d : nth i (upd l j a) d = if (i =? j)%nat && (j <? length l)%nat then a else nth i l d.
Proof.
  destruct (Nat.eqb_spec i j) as [->|N]; cbn [andb].
  - destruct (Nat.ltb_spec j (length l)).
    + apply nth_error_nth. apply nth_error_upd_eq. auto.
    + rewrite !nth_overflow; auto. now rewrite upd_length.
  - pose proof (nth_error_upd_neq l i j a) as E.
    destruct (nth_error l i) as [b|] eqn:Eb.
    + rewrite (nth_error_nth _ _ _ Eb). apply nth_error_nth. rewrite nth_error_upd_neq; auto.
    + apply nth_error_None in Eb. rewrite !nth_overflow; auto. now rewrite upd_length.
Qed.
Lemma put_filled cc x c : filled cc c -> filled (put cc x) c.
Proof.
  intros (p & H). unfold put. destruct (at_id cc (fst x) None) eqn:E; [exists p; auto|].
  unfold filled, at_id in *. rewrite nth_upd. destruct (_ && _); eauto.
Qed.
Lemma put_all_filled l : forall cc c, filled cc c -> filled (put_all l cc) c.
Proof. induction l as [|x l IH]; intros cc c H; cbn; auto. apply IH, put_filled. auto. Qed.
Lemma put_fills cc x : (0 <= fst x < Z.of_nat (length cc))%Z -> filled (put cc x) (fst x).
Proof.
  intros H. unfold put. destruct (at_id cc (fst x) None) eqn:E; [eexists; eauto|].
  unfold filled, at_id. rewrite nth_upd, Nat.eqb_refl. rewrite (proj2 (Nat.ltb_lt _ _)) by lia. cbn. eauto.
Qed.
Lemma put_all_fills l : forall cc c, In c (map fst l) ->
  Forall (fun c => 0 <= c < Z.of_nat (length cc))%Z (map fst l) -> filled (put_all l cc) c.
Proof.
  induction l as [|x l IH]; intros cc c Hc F; [destruct Hc|]. cbn [map] in *. inversion F as [|? ? F1 F2]; subst.
  cbn [put_all fold_left]. change (filled (put_all l (put cc x)) c). destruct Hc as [<-|Hc].
  - apply put_all_filled. now apply put_fills.
  - apply IH; auto. now rewrite put_length.
Qed.
Lemma put_all_noop l : forall cc, (forall c, In c (map fst l) -> filled cc c) -> put_all l cc = cc.
Proof.
  induction l as [|x l IH]; intros cc H; cbn; auto. replace (put cc x) with cc.
  - apply IH. intros c Hc. apply H. now right.
  - unfold put. destruct (H (fst x)) as (p & ->); auto. now left.
Qed.
Lemma put_all_first l : forall cc c, (0 <= c < Z.of_nat (length cc))%Z -> Forall (fun x => 0 <= fst x)%Z l ->
  at_id (put_all l cc) c None = match at_id cc c None with Some p => Some p | None => first_of c l end.
Proof.
  induction l as [|x l IH]; intros cc c Hc F; cbn [put_all fold_left].
  - destruct (at_id cc c None); auto.
  - inversion F as [|? ? F1 F2]; subst. change (fold_left put l (put cc x)) with (put_all l (put cc x)).
    rewrite IH by (rewrite ?put_length; auto). unfold first_of. cbn [find].
    destruct (Z.eqb_spec (fst x) c) as [<-|N].
    + unfold put. destruct (at_id cc (fst x) None) eqn:E; [now rewrite E|].
      unfold at_id. rewrite nth_upd, Nat.eqb_refl. rewrite (proj2 (Nat.ltb_lt _ _)) by lia. reflexivity.
    + unfold put. destruct (at_id cc (fst x) None) eqn:E; auto.
      unfold at_id at 1. rewrite nth_upd. destruct (Nat.eqb_spec (Z.to_nat c) (Z.to_nat (fst x))); [lia|]. reflexivity.
Qed.

(** * The loops *)
(** everything but the cells stays *)
Definition rel_c (l : list (Z * place)) (s s' : found) : Prop :=
  f_asy s' = f_asy s /\ f_lat s' = f_lat s /\ f_rtm s' = f_rtm s /\ f_cc s' = put_all l (f_cc s).

Section Visit.
Variable m : model.
Hypothesis HV : ids_valid m.
Hypothesis HC : consistent true m.
Hypothesis HF : countable m.
Hypothesis HL : forall l, In l (lattices m) -> snd l <> [].
Hypothesis HK : snd (core m) <> [].

Definition cc_ok (s : found) : Prop := length (f_cc s) = length (cells m).
Lemma exists_rdz {A} (l : list A) id d : exists_in l id -> (0 <= id < Z.of_nat (length l))%Z /\ In (at_id l id d) l.
Proof. intros H. unfold exists_in in H. split; [lia|]. apply nth_In. lia. Qed.

Definition cells_of_rtm (r : Z) : list Z := map fst (in_rtm (at_id (rtms m) r no_grid) 0 0 0 0).
Definition cells_of_lat (l : Z) : list Z := map fst (in_lattice m (at_id (lattices m) l ([], [])) 0 0 0 0).
Definition cells_of_asy (a : Z) : list Z := map fst (in_assembly m (at_id (assemblies m) a no_grid) 0 0).
Lemma map_flat_map {A B C} (g : B -> C) (f : A -> list B) l : map g (flat_map f l) = flat_map (fun x => map g (f x)) l.
Proof. induction l as [|x l IH]; cbn; auto. now rewrite map_app, IH. Qed.
Lemma flat_map_ext' {A B} (f g : A -> list B) l : (forall x, f x = g x) -> flat_map f l = flat_map g l.
Proof. intros H. induction l as [|x l IH]; cbn; auto. now rewrite H, IH. Qed.
Lemma map_sweep {A B} (g : A -> B) nx ny f : map g (sweep nx ny f) = sweep nx ny (fun i j => map g (f i j)).
Proof. unfold sweep. rewrite map_flat_map. apply flat_map_ext'. intros j. apply map_flat_map. Qed.
Lemma sweep_ext {A} nx ny (f g : nat -> nat -> list A) : (forall i j, f i j = g i j) -> sweep nx ny f = sweep nx ny g.
Proof. intros H. unfold sweep. apply flat_map_ext'. intros j. apply flat_map_ext'. auto. Qed.
Lemma in_rtm_ids g x y z dz x' y' z' dz' : map fst (in_rtm g x y z dz) = map fst (in_rtm g x' y' z' dz').
Proof. unfold in_rtm. rewrite !map_sweep. reflexivity. Qed.
Lemma in_lattice_ids g x y z dz x' y' z' dz' : map fst (in_lattice m g x y z dz) = map fst (in_lattice m g x' y' z' dz').
Proof. unfold in_lattice. rewrite !map_sweep. apply sweep_ext. intros i j. apply in_rtm_ids. Qed.
Lemma in_assembly_ids g x y x' y' : map fst (in_assembly m g x y) = map fst (in_assembly m g x' y').
Proof. unfold in_assembly. rewrite !map_flat_map. apply flat_map_ext'. intros k. apply in_lattice_ids. Qed.

Definition inv_r (s : found) : Prop := forall r, at_id (f_rtm s) r false = true -> (0 <= r)%Z -> forall c, In c (cells_of_rtm r) -> filled (f_cc s) c.
Definition inv_l (s : found) : Prop := forall r, at_id (f_lat s) r false = true -> (0 <= r)%Z -> forall c, In c (cells_of_lat r) -> filled (f_cc s) c.
Definition inv_a (s : found) : Prop := forall r, at_id (f_asy s) r false = true -> (0 <= r)%Z -> forall c, In c (cells_of_asy r) -> filled (f_cc s) c.

Lemma at_upd {A} (l : list A) i j a d : (0 <= i)%Z -> (0 <= j < Z.of_nat (length l))%Z ->
  at_id (upd l (Z.to_nat j) a) i d = if (i =? j)%Z then a else at_id l i d.
Proof.
  intros Hi Hj. unfold at_id. rewrite nth_upd. rewrite (proj2 (Nat.ltb_lt _ _)) by lia.
  destruct (Z.eqb_spec i j); destruct (Nat.eqb_spec (Z.to_nat i) (Z.to_nat j)); try lia; reflexivity.
Qed.

(** ** Ids *)
Lemma sweep_In {A} nx ny (f : nat -> nat -> list A) x : In x (sweep nx ny f) <->
  exists i j, (i < nx)%nat /\ (j < ny)%nat /\ In x (f i j).
Proof.
  unfold sweep. rewrite in_flat_map. split.
  - intros (j & Hj & H). apply in_flat_map in H as (i & Hi & H). apply in_seq in Hj, Hi. exists i, j. repeat split; auto; lia.
  - intros (i & j & Hi & Hj & H). exists j. split; [apply in_seq; lia|]. apply in_flat_map. exists i. split; auto. apply in_seq. lia.
Qed.
Lemma rtm_facts r : In r (rtms m) -> exists U V, fst r = [U; V] /\ (2 <= length U)%nat /\ (2 <= length V)%nat /\ snd r <> [] /\
  forall i j, (i < intervals U)%nat -> (j < intervals V)%nat ->
    rect_getChild Z r [Z.of_nat i; Z.of_nat j] = Ret (kid (snd r) (intervals U) i j) /\ exists_in (cells m) (kid (snd r) (intervals U) i j).
Proof.
  intros Hr. destruct (rtm_children _ _ HC eq_refl r Hr) as (U & V & E & L1 & L2 & _ & _ & L). exists U, V.
  split; [auto|]. split; [auto|]. split; [auto|]. split.
  - intros E0. rewrite E0 in L. cbn in L. nia.
  - destruct r as (g & ch). cbn [fst snd] in *. subst g.
    destruct HF as (_ & _ & HF3). pose proof (HF3 _ Hr) as HF4. cbn [snd] in HF4.
    intros i j Hi Hj. destruct (rect_child U V ch i j) as (E1 & H1); auto. split; auto.
    pose proof (rtm_ids _ HV _ Hr) as F. rewrite Forall_forall in F. apply F. auto.
Qed.
Lemma lat_facts l : In l (lattices m) -> exists w h nx ny, fst l = lattice_grid w h nx ny /\ (0 <= nx)%Z /\ (0 <= ny)%Z /\ 
  forall i j, (i < Z.to_nat nx)%nat -> (j < Z.to_nat ny)%nat ->
    regular_getChild Z l [Z.of_nat i; Z.of_nat j] = Ret (kid (snd l) (Z.to_nat nx) i j) /\ exists_in (rtms m) (kid (snd l) (Z.to_nat nx) i j).
Proof.
  intros Hl. destruct (lattice_shape _ _ HC l Hl) as (r0 & w & h & nx & ny & _ & _ & E & N1 & N2 & L).
  exists w, h, nx, ny. split; [auto|]. split; [auto|]. split; [lia|]. intros i j Hi Hj.
  destruct l as (g & ch); cbn [fst snd] in *; subst g.
  destruct HF as (_ & HF3 & _); pose proof (HF3 _ Hl) as HF4; cbn [snd] in HF4.
  destruct (regular_child (mkAxis 0 w nx) (mkAxis 0 h ny) ch i j) as (E1 & H1); cbn [nc] in *; auto; try lia.
  split; [auto|].
  pose proof (lattice_ids _ HV _ Hl) as F. rewrite Forall_forall in F. apply F. auto.
Qed.

(** ** The cells of an RTM *)
Lemma cell_ok r ll rl z dz i j s U V : In r (rtms m) -> fst r = [U; V] -> (i < intervals U)%nat -> (j < intervals V)%nat -> cc_ok s ->
  exists s', visit_cell r ll rl z dz i j s = Ret s' /\
    rel_c [(kid (snd r) (intervals U) i j,
            mkPlace (fst ll + fst rl + dv U i) (snd ll + snd rl + dv V j) z (dv U (S i) - dv U i) (dv V (S j) - dv V j) dz)] s s'.
Proof.
  intros Hr E Hi Hj Hs. destruct (rtm_facts r Hr) as (U' & V' & E' & L1 & L2 & _ & H).
  rewrite E in E'. inversion E'. subst U' V'. destruct (H i j Hi Hj) as (E1 & X1).
  unfold visit_cell. rewrite E1. cbn [bind].
  unfold exists_in in X1. assert (X2 : (0 <= kid (snd r) (intervals U) i j < Z.of_nat (length (f_cc s)))%Z) by (unfold cc_ok in Hs; lia).
  rewrite (rdz_id _ _ None X2). cbn [bind]. unfold rel_c. cbn [put_all fold_left]. unfold put. cbn [fst snd].
  destruct (at_id (f_cc s) (kid (snd r) (intervals U) i j) None) eqn:Ef.
  - exists s. auto.
  - rewrite E, (rect_box U V i j Hi Hj). cbn [bind rd nth_error]. rewrite (wrz_id _ _ _ X2). cbn [bind].
    eexists. split; [reflexivity|]. auto.
Qed.

Lemma rel_c_app a b s s1 s2 : rel_c a s s1 -> rel_c b s1 s2 -> rel_c (a ++ b) s s2.
Proof. intros (A1 & A2 & A3 & A4) (B1 & B2 & B3 & B4). unfold rel_c. rewrite put_all_app. repeat split; congruence. Qed.

(** ** RTMs *)
Definition ok_r (s : found) : Prop := cc_ok s /\ length (f_rtm s) = length (rtms m) /\ inv_r s.
Definition rel_r (l : list (Z * place)) (s s' : found) : Prop :=
  f_asy s' = f_asy s /\ f_lat s' = f_lat s /\ ok_r s' /\ f_cc s' = put_all l (f_cc s).
Lemma rel_r_app a b s s1 s2 : rel_r a s s1 -> rel_r b s1 s2 -> rel_r (a ++ b) s s2.
Proof. intros (A1 & A2 & A3 & A4) (B1 & B2 & B3 & B4). unfold rel_r. rewrite put_all_app. repeat split; try congruence; apply B3. Qed.

Lemma in_rtm_exists r x y z dz c : In r (rtms m) -> In c (map fst (in_rtm r x y z dz)) -> exists_in (cells m) c.
Proof.
  intros Hr H. destruct (rtm_facts r Hr) as (U & V & E & _ & _ & _ & K). unfold in_rtm in H. rewrite E in H. cbn [nth] in H.
  rewrite map_sweep in H. apply sweep_In in H as (i & j & Hi & Hj & [<-|[]]). cbn [fst]. apply K; auto.
Qed.
Lemma fills_all l cc : length cc = length (cells m) -> (forall c, In c (map fst l) -> exists_in (cells m) c) ->
  forall c, In c (map fst l) -> filled (put_all l cc) c.
Proof.
  intros L H c Hc. apply put_all_fills; auto. apply Forall_forall. intros c' Hc'. specialize (H _ Hc'). unfold exists_in in H. lia.
Qed.

Lemma rtm_ok l ll z dz i j s w h nx ny : In l (lattices m) -> fst l = lattice_grid w h nx ny ->
  (i < Z.to_nat nx)%nat -> (j < Z.to_nat ny)%nat -> ok_r s ->
  exists s', visit_rtm m l ll z dz i j s = Ret s' /\
    rel_r (in_rtm (at_id (rtms m) (kid (snd l) (Z.to_nat nx) i j) no_grid) (fst ll + (0 + w * INR i)) (snd ll + (0 + h * INR j)) z dz) s s'.
Proof.
  intros Hl E Hi Hj (Hs & Hn & Hv). destruct (lat_facts l Hl) as (w' & h' & nx' & ny' & E' & N1 & N2 & H).
  rewrite E in E'. inversion E'. subst w' h' nx' ny'. destruct (H i j Hi Hj) as (E1 & X1).
  unfold visit_rtm. rewrite E1. cbn [bind]. set (id := kid (snd l) (Z.to_nat nx) i j) in *.
  destruct (exists_rdz (rtms m) id no_grid X1) as (X2 & X3).
  rewrite (rdz_id (f_rtm s) id false) by lia. cbn [bind].
  destruct (at_id (f_rtm s) id false) eqn:Ef.
  - exists s. split; auto. split; auto. split; auto. split; [split; auto|]. symmetry. apply put_all_noop.
    intros c Hc. apply (Hv id); auto; [lia|]. unfold cells_of_rtm. erewrite in_rtm_ids. exact Hc.
  - rewrite wrz_id by lia. cbn [bind]. rewrite E. unfold lattice_grid.
    rewrite getBox_ok.
    2:{ constructor; [|constructor; [|constructor]]; cbn; lia. }
    set (r := at_id (rtms m) id no_grid) in *. cbn [gbox map toax combine fst snd]. cbn [bind rd nth_error fst snd].
    rewrite (rdz_id (rtms m) id no_grid) by lia. cbn [bind]. fold r.
    destruct (rtm_facts r X3) as (U & V & Eg & L1 & L2 & Nn & K).
    destruct (snd r) eqn:Er; [congruence|]. rewrite <- Er in *. clear Er.
    rewrite Eg. unfold ncells. cbn [rd nth_error bind].
    match goal with |- exists s', for_ _ _ _ ?s0 = _ /\ _ => set (s1 := s0) end.
    match goal with |- context [visit_cell r ll ?q z dz] => set (rl := q) end.
    destruct (for2_rel cc_ok (fun l s s' => cc_ok s' /\ rel_c l s s') 
      (fun s H => conj H (conj eq_refl (conj eq_refl (conj eq_refl eq_refl))))
      (fun a b s s1 s2 A B => conj (proj1 B) (rel_c_app a b s s1 s2 (proj2 A) (proj2 B)))
      (fun a s s1 A => proj1 A)
      (fun i j => visit_cell r ll rl z dz i j)
      (fun i j => [(kid (snd r) (intervals U) i j,
            mkPlace (fst ll + fst rl + dv U i) (snd ll + snd rl + dv V j) z (dv U (S i) - dv U i) (dv V (S j) - dv V j) dz)])
      (intervals U) (intervals V) s1) as (s2 & E2 & C2 & A1 & A2 & A3 & A4); [exact Hs| |].
    { intros i' j' s' Hi' Hj' Hs'. destruct (cell_ok r ll rl z dz i' j' s' U V) as (s3 & E3 & R3); auto.
      exists s3. split; auto. split; auto. destruct R3 as (_ & _ & _ & R3). unfold cc_ok in *. rewrite R3, put_all_length. auto. }
    exists s2. split; [exact E2|]. cbn [s1 f_asy f_lat f_rtm f_cc] in *.
    assert (A5 : f_cc s2 = put_all (in_rtm r (fst ll + (0 + w * INR i)) (snd ll + (0 + h * INR j)) z dz) (f_cc s)).
    { rewrite A4. unfold in_rtm. rewrite Eg. cbn [nth]. f_equal. apply sweep_ext. intros i' j'. do 3 f_equal;
      unfold rl; cbn [fst snd mn sp]; rewrite ?INR_IZR_INZ; reflexivity. }
    repeat split; auto.
    + rewrite A3, upd_length. auto.
    + intros r' Hr' Hp c Hc. rewrite A3, at_upd in Hr' by lia. destruct (Z.eqb_spec r' id) as [Eq|Nq].
      * rewrite A5. rewrite Eq in Hc. unfold cells_of_rtm in Hc. fold r in Hc.
        rewrite (in_rtm_ids r 0 0 0 0 (fst ll + (0 + w * INR i)) (snd ll + (0 + h * INR j)) z dz) in Hc.
        apply fills_all; auto. intros c' Hc'. eapply in_rtm_exists; eauto.
      * rewrite A5. apply put_all_filled. eapply Hv; eauto.
Qed.

(** ** Lattices *)
Lemma in_lattice_exists l x y z dz c : In l (lattices m) -> In c (map fst (in_lattice m l x y z dz)) -> exists_in (cells m) c.
Proof.
  intros Hl H. destruct (lat_facts l Hl) as (w & h & nx & ny & E & N1 & N2 & K). unfold in_lattice in H. rewrite E in H. cbn [nth lattice_grid nc] in H.
  rewrite map_sweep in H. apply sweep_In in H as (i & j & Hi & Hj & H). destruct (K i j Hi Hj) as (_ & X).
  destruct (exists_rdz (rtms m) _ no_grid X) as (_ & Hr). eapply in_rtm_exists; eauto.
Qed.
Definition ok_l (s : found) : Prop := ok_r s /\ length (f_lat s) = length (lattices m) /\ inv_l s.
Definition rel_l (l : list (Z * place)) (s s' : found) : Prop :=
  f_asy s' = f_asy s /\ ok_l s' /\ f_cc s' = put_all l (f_cc s).
Lemma rel_l_app a b s s1 s2 : rel_l a s s1 -> rel_l b s1 s2 -> rel_l (a ++ b) s s2.
Proof. intros (A1 & A3 & A4) (B1 & B3 & B4). split; [congruence|]. split; [apply B3|]. rewrite put_all_app. congruence. Qed.
Lemma asy_facts a : In a (assemblies m) -> exists zs, fst a = [zs] /\ snd a <> [] /\ intervals zs = length (snd a) /\
  forall k, (k < intervals zs)%nat -> rect_getChild Z a [Z.of_nat k] = Ret (nth k (snd a) 0%Z) /\
    exists_in (lattices m) (nth k (snd a) 0%Z) /\ nth_error zs k = Some (dv zs k) /\ nth_error zs (S k) = Some (dv zs (S k)).
Proof.
  intros Ha. destruct (assembly_shape _ _ HC a Ha) as (zs & bot & top & E & Nn & L & _). exists zs.
  unfold intervals. split; [auto|]. split; [auto|]. split; [lia|]. intros k Hk.
  destruct a as (g & ch). cbn [fst snd] in *. subst g. split.
  - unfold rect_getChild, rect_getFlatIndex. cbn [fst snd combine forallb].
    rewrite (proj2 (Z.ltb_lt _ _)) by lia. cbn [andb numCells map flatIndex bind].
    rewrite (rdz_id ch _ 0%Z) by lia. unfold at_id. now rewrite Nat2Z.id.
  - split.
    + pose proof (assembly_ids _ HV _ Ha) as F. rewrite Forall_forall in F. apply F. apply nth_In. cbn [snd]. lia.
    + unfold dv. split; apply nth_error_nth'; lia.
Qed.

Lemma lat_ok a ll k s zs : In a (assemblies m) -> fst a = [zs] -> (k < intervals zs)%nat -> ok_l s ->
  exists s', visit_lattice m a ll k s = Ret s' /\
    rel_l (in_lattice m (at_id (lattices m) (nth k (snd a) 0%Z) ([], [])) (fst ll) (snd ll)
      ((dv zs k + dv zs (S k)) / 2) ((dv zs (S k) - dv zs k) / 2)) s s'.
Proof.
  intros Ha E Hk (Hs & Hn & Hv). destruct (asy_facts a Ha) as (zs' & E' & _ & _ & H).
  rewrite E in E'. inversion E'. subst zs'. destruct (H k Hk) as (E1 & X1 & Z1 & Z2).
  unfold visit_lattice. rewrite E1. cbn [bind]. set (id := nth k (snd a) 0%Z) in *.
  destruct (exists_rdz (lattices m) id ([], []) X1) as (X2 & X3).
  rewrite (rdz_id (f_lat s) id false) by lia. cbn [bind].
  set (z := (dv zs k + dv zs (S k)) / 2). set (dz := (dv zs (S k) - dv zs k) / 2).
  destruct (at_id (f_lat s) id false) eqn:Ef.
  - exists s. split; auto. split; auto. split; [split; auto|]. symmetry. apply put_all_noop.
    intros c Hc. apply (Hv id); auto; [lia|]. unfold cells_of_lat. erewrite in_lattice_ids. exact Hc.
  - rewrite wrz_id by lia. cbn [bind]. rewrite E. cbn [rd nth_error bind].
    rewrite (proj2 (rd_Ret _ _ _) Z1). cbn [bind]. replace (k + 1)%nat with (S k) by lia.
    rewrite (proj2 (rd_Ret _ _ _) Z2). cbn [bind]. fold z dz.
    rewrite (rdz_id (lattices m) id ([], [])) by lia. cbn [bind].
    set (l := at_id (lattices m) id ([], [])) in *. pose proof (HL l X3) as Nn.
    destruct (lat_facts l X3) as (w & h & nx & ny & Eg & N1 & N2 & K).
    destruct (snd l) eqn:Er; [congruence|]. rewrite <- Er in *. clear Er.
    rewrite Eg. unfold lattice_grid at 1 2. cbn [rd nth_error bind nc].
    match goal with |- exists s', for_ _ _ _ ?s0 = _ /\ _ => set (s1 := s0) end.
    destruct (for2_rel ok_r rel_r
      (fun s H => conj eq_refl (conj eq_refl (conj H eq_refl)))
      rel_r_app
      (fun a s s1 A => proj1 (proj2 (proj2 A)))
      (fun i j => visit_rtm m l ll z dz i j)
      (fun i j => in_rtm (at_id (rtms m) (kid (snd l) (Z.to_nat nx) i j) no_grid) (fst ll + (0 + w * INR i)) (snd ll + (0 + h * INR j)) z dz)
      (Z.to_nat nx) (Z.to_nat ny) s1) as (s2 & E2 & A1 & A2 & A3 & A4); [exact Hs| |].
    { intros i' j' s' Hi' Hj' Hs'. apply (rtm_ok l ll z dz i' j' s' w h nx ny); auto. }
    exists s2. split; [exact E2|]. cbn [s1 f_asy f_lat f_rtm f_cc] in *.
    assert (A5 : f_cc s2 = put_all (in_lattice m l (fst ll) (snd ll) z dz) (f_cc s)).
    { rewrite A4. unfold in_lattice. rewrite Eg. reflexivity. }
    split; [auto|]. split; [|auto]. split; [auto|]. split.
    + rewrite A2, upd_length. auto.
    + intros r' Hr' Hp c Hc. rewrite A2, at_upd in Hr' by lia. destruct (Z.eqb_spec r' id) as [Eq|Nq].
      * rewrite A5. rewrite Eq in Hc. unfold cells_of_lat in Hc. fold l in Hc.
        rewrite (in_lattice_ids l 0 0 0 0 (fst ll) (snd ll) z dz) in Hc.
        apply fills_all; auto; [apply Hs|]. intros c' Hc'. eapply in_lattice_exists; eauto.
      * rewrite A5. apply put_all_filled. eapply Hv; eauto.
Qed.

(** ** Assemblies *)
Lemma in_assembly_exists a x y c : In a (assemblies m) -> In c (map fst (in_assembly m a x y)) -> exists_in (cells m) c.
Proof.
  intros Ha H. destruct (asy_facts a Ha) as (zs & E & _ & _ & K). unfold in_assembly in H. rewrite E in H. cbn [nth] in H.
  rewrite map_flat_map in H. apply in_flat_map in H as (k & Hk & H). apply in_seq in Hk. destruct (K k) as (_ & X & _); [lia|].
  destruct (exists_rdz (lattices m) _ ([], []) X) as (_ & Hl). eapply in_lattice_exists; eauto.
Qed.
Definition ok_a (s : found) : Prop := ok_l s /\ length (f_asy s) = length (assemblies m) /\ inv_a s.
Definition rel_a (l : list (Z * place)) (s s' : found) : Prop := ok_a s' /\ f_cc s' = put_all l (f_cc s).
Lemma rel_a_app a b s s1 s2 : rel_a a s s1 -> rel_a b s1 s2 -> rel_a (a ++ b) s s2.
Proof. intros (A3 & A4) (B3 & B4). split; [apply B3|]. rewrite put_all_app. congruence. Qed.
Lemma core_facts : exists X Y, fst (core m) = [X; Y] /\
  forall i j, (i < intervals X)%nat -> (j < intervals Y)%nat ->
    rect_getChild Z (core m) [Z.of_nat i; Z.of_nat j] = Ret (kid (snd (core m)) (intervals X) i j) /\
    exists_in (assemblies m) (kid (snd (core m)) (intervals X) i j).
Proof.
  destruct (core_children _ _ HC eq_refl HK) as (U & V & E & L1 & L2 & _ & _ & L). exists U, V.
  split; [auto|]. pose proof (core_ids _ HV) as F. destruct HF as (HF4 & _).
  destruct (core m) as (g & ch). cbn [fst snd] in *. subst g.
  intros i j Hi Hj. destruct (rect_child U V ch i j) as (E1 & H1); auto. split; auto.
  rewrite Forall_forall in F. apply F. auto.
Qed.
Lemma asy_ok i j s X Y : fst (core m) = [X; Y] -> (i < intervals X)%nat -> (j < intervals Y)%nat -> ok_a s ->
  exists s', visit_assembly m i j s = Ret s' /\
    rel_a (in_assembly m (at_id (assemblies m) (kid (snd (core m)) (intervals X) i j) no_grid) (dv X i) (dv Y j)) s s'.
Proof.
  intros E Hi Hj (Hs & Hn & Hv). destruct core_facts as (X' & Y' & E' & H).
  rewrite E in E'. inversion E'. subst X' Y'. destruct (H i j Hi Hj) as (E1 & X1).
  unfold visit_assembly. rewrite E1. cbn [bind]. set (id := kid (snd (core m)) (intervals X) i j) in *.
  destruct (exists_rdz (assemblies m) id no_grid X1) as (X2 & X3).
  rewrite (rdz_id (f_asy s) id false) by lia. cbn [bind].
  destruct (at_id (f_asy s) id false) eqn:Ef.
  - exists s. split; auto. split; [split; auto|]. symmetry. apply put_all_noop.
    intros c Hc. apply (Hv id); auto; [lia|]. unfold cells_of_asy. erewrite in_assembly_ids. exact Hc.
  - rewrite wrz_id by lia. cbn [bind]. rewrite E, (rect_box X Y i j Hi Hj). cbn [rd nth_error bind fst snd].
    rewrite (rdz_id (assemblies m) id no_grid) by lia. cbn [bind].
    set (a := at_id (assemblies m) id no_grid) in *.
    destruct (asy_facts a X3) as (zs & Eg & Nn & _ & K).
    destruct (snd a) eqn:Er; [congruence|]. rewrite <- Er in *. clear Er.
    rewrite Eg. unfold ncells. cbn [rd nth_error bind].
    match goal with |- exists s', for_ _ _ _ ?s0 = _ /\ _ => set (s1 := s0) end.
    destruct (for_rel ok_l rel_l
      (fun s H => conj eq_refl (conj H eq_refl))
      rel_l_app
      (fun a s s1 A => proj1 (proj2 A))
      (visit_lattice m a (dv X i, dv Y j))
      (fun k => in_lattice m (at_id (lattices m) (nth k (snd a) 0%Z) ([], [])) (dv X i) (dv Y j)
          ((dv zs k + dv zs (S k)) / 2) ((dv zs (S k) - dv zs k) / 2))
      (intervals zs) 0%nat s1) as (s2 & E2 & A1 & A2 & A4); [exact Hs| |].
    { intros k s' Hk' Hs'. apply (lat_ok a (dv X i, dv Y j) k s' zs); auto. lia. }
    exists s2. split; [exact E2|]. cbn [s1 f_asy f_lat f_rtm f_cc] in *.
    assert (A5 : f_cc s2 = put_all (in_assembly m a (dv X i) (dv Y j)) (f_cc s)).
    { rewrite A4. unfold in_assembly. rewrite Eg. reflexivity. }
    split; [|auto]. split; [auto|]. split.
    + rewrite A1, upd_length. auto.
    + intros r' Hr' Hp c Hc. rewrite A1, at_upd in Hr' by lia. destruct (Z.eqb_spec r' id) as [Eq|Nq].
      * rewrite A5. rewrite Eq in Hc. unfold cells_of_asy in Hc. fold a in Hc.
        rewrite (in_assembly_ids a 0 0 (dv X i) (dv Y j)) in Hc.
        apply fills_all; auto; [apply Hs|]. intros c' Hc'. eapply in_assembly_exists; eauto.
      * rewrite A5. apply put_all_filled. eapply Hv; eauto.
Qed.

(** ** The core *)
Lemma in_core_exists c : In c (map fst (in_core m)) -> exists_in (cells m) c.
Proof.
  intros H. destruct core_facts as (X & Y & E & K). unfold in_core in H. rewrite E in H. cbn [nth] in H.
  rewrite map_sweep in H. apply sweep_In in H as (i & j & Hi & Hj & H). destruct (K i j Hi Hj) as (_ & Q).
  destruct (exists_rdz (assemblies m) _ no_grid Q) as (_ & Ha). eapply in_assembly_exists; eauto.
Qed.
Lemma at_repeat {A} (x d : A) n i : at_id (repeat x n) i d = x \/ at_id (repeat x n) i d = d.
Proof. unfold at_id. generalize (Z.to_nat i). induction n as [|n IH]; intros [|k]; cbn; auto. Qed.
Theorem find_ok : find_cells m = Ret (map (fun c => first_of (Z.of_nat c) (in_core m)) (seq 0 (length (cells m)))).
Proof.
  destruct core_facts as (X & Y & E & K). unfold find_cells.
  destruct (snd (core m)) eqn:Er; [congruence|]. rewrite <- Er in *. clear Er.
  rewrite E. unfold ncells. cbn [rd nth_error bind].
  match goal with |- (let* s := for_ _ _ _ ?s0 in _) = _ => set (s1 := s0) end.
  assert (NF : forall n r, at_id (repeat false n) r false = true -> False).
  { intros n r H. destruct (at_repeat false false n r) as [Q|Q]; congruence. }
  destruct (for2_rel ok_a rel_a
      (fun s H => conj H eq_refl)
      rel_a_app
      (fun a s s1 A => proj1 A)
      (fun i j => visit_assembly m i j)
      (fun i j => in_assembly m (at_id (assemblies m) (kid (snd (core m)) (intervals X) i j) no_grid) (dv X i) (dv Y j))
      (intervals X) (intervals Y) s1) as (s2 & E2 & A1 & A4).
  { unfold s1, ok_a, ok_l, ok_r, cc_ok, inv_a, inv_l, inv_r. cbn [f_asy f_lat f_rtm f_cc]. rewrite !repeat_length.
    repeat split; auto; intros r Q; exfalso; eapply NF; eauto. }
  { intros i j s Hi Hj Hs. apply asy_ok with (Y := Y); auto. }
  unfold intervals in E2 at 1 2. rewrite E2. cbn [bind]. f_equal.
  assert (A5 : f_cc s2 = put_all (in_core m) (repeat None (length (cells m)))).
  { rewrite A4. unfold in_core. rewrite E. reflexivity. }
  rewrite A5. apply (nth_ext _ _ None None).
  - now rewrite put_all_length, repeat_length, map_length, seq_length.
  - intros n Hn. rewrite put_all_length, repeat_length in Hn.
    pose proof (put_all_first (in_core m) (repeat None (length (cells m))) (Z.of_nat n)) as Q.
    rewrite repeat_length in Q. unfold at_id in Q. rewrite Nat2Z.id in Q. rewrite Q.
    + rewrite nth_repeat.
      rewrite (nth_indep _ None (first_of (Z.of_nat 0) (in_core m))) by (rewrite map_length, seq_length; auto).
      rewrite (map_nth (fun c => first_of (Z.of_nat c) (in_core m))), seq_nth by auto. reflexivity.
    + lia.
    + apply Forall_forall. intros x Hx. assert (Q2 : exists_in (cells m) (fst x)) by (apply in_core_exists, in_map; auto).
      unfold exists_in in Q2. lia.
Qed.
End Visit.

Lemma first_of_in c l p : first_of c l = Some p -> In (c, p) l.
Proof.
  unfold first_of. destruct (find _ l) as [[c' p']|] eqn:E; [|discriminate]. cbn. intros [= ->].
  apply find_some in E as (H & Q). cbn in Q. apply Z.eqb_eq in Q. now subst c'.
Qed.
Lemma first_of_some c l p : In (c, p) l -> exists p', first_of c l = Some p'.
Proof.
  intros H. unfold first_of. destruct (find _ l) as [[c' p']|] eqn:E; [cbn; eauto|].
  pose proof (find_none _ _ E _ H) as Q. cbn in Q. rewrite Z.eqb_refl in Q. discriminate.
Qed.
Theorem find_occurs m : ids_valid m -> consistent true m -> countable m ->
  (forall l, In l (lattices m) -> snd l <> []) -> snd (core m) <> [] ->
  exists ps, find_cells m = Ret ps /\ length ps = length (cells m) /\
    (forall c p, nth_error ps c = Some (Some p) -> In (Z.of_nat c, p) (in_core m)) /\
    (forall c p, In (Z.of_nat c, p) (in_core m) -> exists p', nth_error ps c = Some (Some p')).
Proof.
  intros HV HC HF HL HK. eexists. split; [apply find_ok; auto|]. split; [now rewrite map_length, seq_length|].
  assert (Q : forall c, (c < length (cells m))%nat ->
    nth_error (map (fun c => first_of (Z.of_nat c) (in_core m)) (seq 0 (length (cells m)))) c = Some (first_of (Z.of_nat c) (in_core m))).
  { intros c Hc. apply (map_nth_error (fun c => first_of (Z.of_nat c) (in_core m))). rewrite (nth_error_nth' _ 0%nat) by (rewrite seq_length; auto).
    now rewrite seq_nth by auto. }
  split.
  - intros c p H. assert (Hc : (c < length (cells m))%nat).
    { assert (X : nth_error (map (fun c => first_of (Z.of_nat c) (in_core m)) (seq 0 (length (cells m)))) c <> None) by congruence.
      apply nth_error_Some in X. now rewrite map_length, seq_length in X. }
    rewrite Q in H by auto. inversion H. apply first_of_in. auto.
  - intros c p H. assert (Hc : exists_in (cells m) (Z.of_nat c)).
    { apply in_core_exists; auto. apply (in_map fst) in H. exact H. }
    unfold exists_in in Hc. rewrite Q by lia. destruct (first_of_some _ _ _ H) as (p' & ->). eauto.
Qed.
Theorem no_core m : snd (core m) = [] -> find_cells m = Fail.
Proof. intros E. unfold find_cells. now rewrite E. Qed.
