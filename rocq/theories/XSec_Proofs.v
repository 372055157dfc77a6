(** Proofs about cross section data. *)
From Coq Require Import List Arith ZArith Bool Reals Lra Lia Permutation.
From Verif Require Import Base Loops Arith Matrix_Model Matrix_Spec Matrix_Proofs
  Stats_Model Stats_Spec Stats_Proofs XSec_Model XSec_Spec.
Import ListNotations.
Local Open Scope R_scope.

(** ** Sums and comparisons *)
Lemma Rltb_spec x y : reflect (x < y) (Rltb x y).
Proof. unfold Rltb. destruct (Rlt_dec x y); now constructor. Qed.
Lemma Rleb_spec x y : reflect (x <= y) (Rleb x y).
Proof. unfold Rleb. destruct (Rltb_spec y x); constructor; lra. Qed.
Arguments total : simpl never.
Lemma total_nil : total [] = 0. Proof. reflexivity. Qed.
Lemma total_cons x l : total (x :: l) = x + total l. Proof. reflexivity. Qed.
Lemma total_perm l m : Permutation l m -> total l = total m.
Proof. induction 1; rewrite ?total_cons; lra. Qed.
Lemma total_map_plus {A} (f g : A -> R) l : total (map (fun x => f x + g x) l) = total (map f l) + total (map g l).
Proof. induction l; cbn [map]; rewrite ?total_nil, ?total_cons; lra. Qed.
Lemma total_map_scal {A} c (f : A -> R) l : total (map (fun x => c * f x) l) = c * total (map f l).
Proof. induction l; cbn [map]; rewrite ?total_nil, ?total_cons; [lra|]. rewrite IHl. lra. Qed.
Lemma total_map_ext {A} (f g : A -> R) l : (forall x, In x l -> f x = g x) -> total (map f l) = total (map g l).
Proof. intros H. f_equal. now apply map_ext_in. Qed.
Lemma total_map_zero {A} (l : list A) : total (map (fun _ => 0) l) = 0.
Proof. induction l; cbn [map]; rewrite ?total_nil, ?total_cons; lra. Qed.
Lemma total_swap {A B} (f : A -> B -> R) l m :
  total (map (fun x => total (map (f x) m)) l) = total (map (fun y => total (map (fun x => f x y) l)) m).
Proof.
  induction l as [|a l IH]; cbn [map].
  - rewrite total_nil. symmetry. apply total_map_zero.
  - rewrite total_cons, IH, <- total_map_plus. apply total_map_ext. intros. now rewrite total_cons.
Qed.
Lemma total_map_le {A} (f g : A -> R) l : (forall x, In x l -> f x <= g x) -> total (map f l) <= total (map g l).
Proof.
  induction l as [|a l IH]; intros H; cbn [map]; rewrite ?total_nil, ?total_cons; [lra|].
  pose proof (H a (or_introl eq_refl)). assert (total (map f l) <= total (map g l)) by (apply IH; intros; apply H; now right). lra.
Qed.

(** ** Vectors and columns *)
Lemma rd_nth (l : list R) g : (g < length l)%nat -> rd l g = Ret (nth g l 0).
Proof. intros H. apply (proj2 (rd_Ret l g _)). now apply nth_error_nth'. Qed.
Lemma nth_upd' (l : list R) k x q : (k < length l)%nat -> nth q (upd l k x) 0 = if (q =? k)%nat then x else nth q l 0.
Proof.
  intros H. rewrite nth_upd. apply Nat.ltb_lt in H. rewrite H, andb_true_r. reflexivity.
Qed.

Definition sq_mat (ng : nat) (m : @matrix R) : Prop := rows m = ng /\ cols m = ng /\ wf m.

Lemma col_loop ng g m F k : (g < ng)%nat -> sq_mat ng m ->
  (forall i m0, (i < ng)%nat -> sq_mat ng m0 -> ent Rarith m0 i g = ent Rarith m i g -> F i m0 = set m0 i g (k i)) ->
  exists m', for_ ng 0 F m = Ret m' /\
    is_mat Rarith m' ng ng (fun i j => if (j =? g)%nat then k i else ent Rarith m i j).
Proof.
  intros Hg Hm HF.
  destruct (for_inv (fun n m' => is_mat Rarith m' ng ng
      (fun i j => if ((j =? g) && (i <? n))%nat then k i else ent Rarith m i j)) F ng 0 m) as (m' & E & H).
  - destruct Hm as (<- & Hc & Hw). eapply is_mat_ext.
    + rewrite <- Hc at 2. now apply is_mat_self.
    + intros i j _ _. cbn. now rewrite andb_false_r.
  - intros j m0 Hj H0. rewrite HF.
    + destruct (set_is Rarith m0 ng ng _ j g (k j) H0) as (m1 & E1 & H1); auto; [lia|].
      exists m1. split; auto. eapply is_mat_ext; [exact H1|]. intros i' j' Hi' Hj'. cbn beta.
      destruct (Nat.eqb_spec j' g); [|now rewrite andb_false_r]. rewrite andb_true_r. cbn [andb].
      destruct (Nat.eqb_spec i' j) as [->|Hne].
      * destruct (Nat.ltb_spec j (S j)); [auto|lia].
      * destruct (Nat.ltb_spec i' j), (Nat.ltb_spec i' (S j)); auto; lia.
    + lia.
    + destruct H0 as (H1 & H2 & H3 & _). repeat split; auto; apply H1.
    + destruct H0 as (_ & _ & _ & H4). rewrite H4 by lia. rewrite Nat.eqb_refl.
      now rewrite Nat.ltb_irrefl.
  - exists m'. split; auto. eapply is_mat_ext; [exact H|]. intros i j Hi Hj. cbn beta. rewrite Nat.add_0_l.
    destruct (Nat.eqb_spec j g); cbn [andb]; auto. destruct (Nat.ltb_spec i ng); auto. lia.
Qed.

(** the new values of group g *)
Record column := mkCol { ca : R; cf : R; cnuf : R; ctr : R; cs : R; css : nat -> R }.
Definition col_value (c : column) (r : reaction) : R :=
  match r with
  | Absorption => ca c | Fission => cf c | NuFission => cnuf c | Transport => ctr c | Scattering => cs c
  | ScatterTo i => css c i
  end.

Lemma put_column ng x g c m' b1 b2 : shape ng x -> (g < ng)%nat ->
  is_mat Rarith m' ng ng (fun i j => if (j =? g)%nat then css c i else ent Rarith (xss x) i j) ->
  let x' := mkX b1 b2 (numGroups x) (upd (xa x) g (ca c)) (upd (xf x) g (cf c)) (upd (xnuf x) g (cnuf c))
     (upd (xtr x) g (ctr c)) (upd (xs x) g (cs c)) m' in
  shape ng x' /\ forall r g', known ng r -> (g' < ng)%nat ->
    value x' r g' = if (g' =? g)%nat then col_value c r else value x r g'.
Proof.
  intros (H1 & H2 & H3 & H4 & H5 & H6 & H7 & H8 & H9) Hg (Hw & Hr & Hc & He) x'. split.
  - unfold shape, x'. cbn. rewrite !upd_length. repeat split; auto; apply Hw.
  - intros [| | | | |i] g' Hk Hg'; cbn [value x' xa xf xnuf xtr xs xss col_value];
      try (apply nth_upd'; congruence).
    rewrite He; auto.
Qed.

(** A loop over the groups whose body replaces the values of group g by [h r g (old value)].  The
    fissile flag is set when [e g (old fission)] holds for a group. *)
Definition body_ok ng (h : reaction -> nat -> R -> R) (e : nat -> R -> bool) (B : nat -> xsec -> outcome xsec) : Prop :=
  forall g x, (g < ng)%nat -> shape ng x -> exists x', B g x = Ret x' /\ shape ng x' /\
    isMacro x' = isMacro x /\ isFissile x' = (isFissile x || e g (value x Fission g))%bool /\
    forall r g', known ng r -> (g' < ng)%nat ->
      value x' r g' = if (g' =? g)%nat then h r g (value x r g) else value x r g'.

Lemma group_loop ng h e B x : body_ok ng h e B -> shape ng x -> exists x', for_ ng 0 B x = Ret x' /\ shape ng x' /\
  isMacro x' = isMacro x /\
  isFissile x' = (isFissile x || existsb (fun g => e g (value x Fission g)) (seq 0 ng))%bool /\
  forall r g, known ng r -> (g < ng)%nat -> value x' r g = h r g (value x r g).
Proof.
  intros HB Hx.
  destruct (for_inv (fun n x' => shape ng x' /\ isMacro x' = isMacro x /\
      isFissile x' = (isFissile x || existsb (fun g => e g (value x Fission g)) (seq 0 n))%bool /\
      forall r g, known ng r -> (g < ng)%nat -> value x' r g = if (g <? n)%nat then h r g (value x r g) else value x r g)
      B ng 0 x) as (x' & E & H1 & H2 & H3 & H4).
  - split; auto. split; auto. split; [cbn; now rewrite orb_false_r|]. intros. reflexivity.
  - intros j x0 Hj (H1 & H2 & H3 & H4).
    destruct (HB j x0) as (x1 & E1 & G1 & G2 & G3 & G4); [lia|auto|].
    exists x1. split; auto. split; auto. split; [congruence|]. split.
    + rewrite G3, H3, seq_S, existsb_app. cbn [existsb]. rewrite orb_false_r, Nat.add_0_l, orb_assoc.
      do 2 f_equal. rewrite H4 by (cbn; auto; lia). rewrite Nat.ltb_irrefl. reflexivity.
    + intros r g Hr Hg. rewrite G4 by auto. destruct (Nat.eqb_spec g j) as [->|Hne].
      * rewrite H4 by auto. rewrite Nat.ltb_irrefl. destruct (Nat.ltb_spec j (S j)); [auto|lia].
      * rewrite H4 by auto. destruct (Nat.ltb_spec g j), (Nat.ltb_spec g (S j)); auto; lia.
  - exists x'. rewrite Nat.add_0_l in *. do 4 (split; auto). intros r g Hr Hg. rewrite H4 by auto.
    destruct (Nat.ltb_spec g ng); [auto|lia].
Qed.

Lemma shape_ss ng x : shape ng x -> sq_mat ng (xss x).
Proof. intros (H1 & H2 & H3 & H4 & H5 & H6 & H7 & H8 & H9). repeat split; auto; apply H9. Qed.
Lemma get_sq ng m i j : sq_mat ng m -> (i < ng)%nat -> (j < ng)%nat -> get m i j = Ret (ent Rarith m i j).
Proof. intros (<- & H & Hw) Hi Hj. apply get_ok; auto. lia. Qed.
Ltac lengths x H := let H1 := fresh in let H2 := fresh in let H3 := fresh in let H4 := fresh in
  let H5 := fresh in let H6 := fresh in let H7 := fresh in
  destruct (H : shape _ x) as (H1 & H2 & H3 & H4 & H5 & H6 & H7).

Lemma XSec_ok ng : (Z.of_nat ng * Z.of_nat ng <= intMax)%Z -> exists x, XSec ng = Ret x /\ shape ng x /\
  isMacro x = false /\ isFissile x = false /\ forall r g, known ng r -> (g < ng)%nat -> value x r g = 0.
Proof.
  intros H. unfold XSec. destruct (make_ok Rarith ng ng 0 H) as (m & E & Hw & Hr & Hc & He). rewrite E. cbn [bind].
  eexists. split; [reflexivity|]. split.
  - unfold shape. cbn. rewrite !repeat_length. repeat split; auto; apply Hw.
  - split; auto. split; auto. intros [| | | | |i] g Hk Hg; cbn [value xa xf xnuf xtr xs xss]; try apply nth_repeat.
    now rewrite He.
Qed.

Lemma shape_size ng x : shape ng x -> (Z.of_nat ng * Z.of_nat ng <= intMax)%Z.
Proof. intros (H1 & H2 & H3 & H4 & H5 & H6 & H7 & H8 & _ & H9). congruence. Qed.

(** two data sets with the same shape, flags and values are the same *)
Lemma xsec_ext ng x y : shape ng x -> shape ng y -> isMacro x = isMacro y -> isFissile x = isFissile y ->
  (forall r g, known ng r -> (g < ng)%nat -> value x r g = value y r g) -> x = y.
Proof.
  intros Hx Hy E1 E2 H. destruct x as [m1 f1 n1 a1 b1 c1 d1 s1 q1], y as [m2 f2 n2 a2 b2 c2 d2 s2 q2].
  destruct Hx as (X1 & X2 & X3 & X4 & X5 & X6 & X7 & X8 & X9), Hy as (Y1 & Y2 & Y3 & Y4 & Y5 & Y6 & Y7 & Y8 & Y9).
  cbn in *.
  assert (L : forall u v : list R, length u = ng -> length v = ng -> (forall g, (g < ng)%nat -> nth g u 0 = nth g v 0) -> u = v).
  { intros u v Hu Hv Huv. apply (nth_ext u v 0 0); [congruence|]. intros g Hg. apply Huv. lia. }
  assert (Q : q1 = q2).
  { apply (is_mat_unique Rarith q1 q2 ng ng (ent Rarith q1)).
    - repeat split; auto; apply X9.
    - repeat split; auto; try apply Y9. intros i j Hi Hj. symmetry. apply (H (ScatterTo i) j Hi Hj). }
  subst q2. f_equal; try congruence.
  - apply L; auto. intros g Hg. exact (H Absorption g I Hg).
  - apply L; auto. intros g Hg. exact (H Fission g I Hg).
  - apply L; auto. intros g Hg. exact (H NuFission g I Hg).
  - apply L; auto. intros g Hg. exact (H Transport g I Hg).
  - apply L; auto. intros g Hg. exact (H Scattering g I Hg).
Qed.

(** ** Validation *)
Lemma warn_loop_ok n v bad w : (n <= length v)%nat ->
  warn_loop n v bad w = Ret (w + list_sum (map bad (firstn n v)))%nat.
Proof.
  intros Hn. unfold warn_loop.
  destruct (for_inv (fun k w' => w' = (w + list_sum (map bad (firstn k v)))%nat)
     (fun i w => let* x := rd v i in Ret (w + bad x)%nat) n 0 w) as (w' & E & H).
  - cbn. lia.
  - intros j w0 Hj ->. rewrite rd_nth by lia. cbn [bind]. eexists. split; [reflexivity|].
    assert (E : firstn (S j) v = firstn j v ++ [nth j v 0]).
    { assert (Hl : (j < length v)%nat) by lia. clear - Hl. revert v Hl.
      induction j as [|j IH]; intros [|a v] Hl; cbn in *; try lia; auto. f_equal. apply IH; lia. }
    rewrite E, map_app, list_sum_app. cbn. lia.
  - rewrite E, H. reflexivity.
Qed.
Lemma error_loop_ok n v bad : (n <= length v)%nat ->
  error_loop n v bad = if existsb bad (firstn n v) then Fail else Ret tt.
Proof.
  unfold error_loop. intros Hn.
  assert (G : forall n i, (i + n <= length v)%nat ->
    for_ n i (fun i _ => let* x := rd v i in if bad x then Fail else Ret tt) tt =
    if existsb bad (firstn n (skipn i v)) then Fail else Ret tt).
  { clear n Hn. induction n as [|n IH]; intros i Hi; cbn [for_]; auto.
    rewrite rd_nth by lia. cbn [bind].
    assert (E : skipn i v = nth i v 0 :: skipn (S i) v).
    { assert (Hl : (i < length v)%nat) by lia. clear - Hl. revert v Hl. induction i as [|i IH]; intros [|a v] Hl; cbn in *; try lia; auto.
      apply IH; lia. }
    rewrite E. cbn [firstn existsb]. destruct (bad (nth i v 0)); cbn [bind orb]; auto. apply IH. lia. }
  rewrite G by lia. reflexivity.
Qed.

Lemma list_sum_zero {A} (f : A -> nat) l : (forall x, In x l -> f x = O) -> list_sum (map f l) = O.
Proof. induction l as [|a l IH]; intros H; auto. change (f a + list_sum (map f l) = 0)%nat. rewrite (H a), IH; cbn; auto. intros x Hx. apply H. now right. Qed.

Lemma shape_validate ng x k : shape ng x -> ng <> O ->
  validate x = k -> (if isMacro x then exists w, k = Ret w else
    k = if existsb (fun v => Rltb 0 v && negb (isFissile x)) (xf x ++ xnuf x) then Fail else Ret O).
Proof.
  intros (H1 & H2 & H3 & H4 & H5 & H6 & H7 & H8 & H9) Hn <-. unfold validate. cbv zeta.
  rewrite H1, H2, H3, H4, H5, H6, H7, H8, !Nat.eqb_refl. cbn [negb orb].
  rewrite (proj2 (Nat.eqb_neq ng 0)) by auto.
  destruct H9 as [D1 D2]. rewrite H7, H8 in *.
  destruct (isMacro x).
  - rewrite i32_ok by (unfold in_i32, intMin; lia). cbn [bind].
    repeat (rewrite warn_loop_ok by lia; cbn [bind]). eauto.
  - rewrite !error_loop_ok by lia. rewrite !firstn_all2 by lia. rewrite existsb_app.
    destruct (existsb _ (xf x)); cbn [bind orb]; auto. destruct (existsb _ (xnuf x)); cbn [bind]; auto.
Qed.

Lemma physical_validate ng x : shape ng x -> ng <> O -> physical ng x -> validate x = Ret O.
Proof.
  intros Hs Hn [Hp Hf]. pose proof Hs as (H1 & H2 & H3 & H4 & H5 & H6 & H7 & H8 & H9). unfold validate. cbv zeta.
  rewrite H1, H2, H3, H4, H5, H6, H7, H8, !Nat.eqb_refl. cbn [negb orb].
  rewrite (proj2 (Nat.eqb_neq ng 0)) by auto.
  destruct H9 as [D1 D2]. rewrite H7, H8 in *.
  assert (NN : forall l, length l = ng -> (forall g, (g < ng)%nat -> 0 <= nth g l 0) -> forall v, In v l -> 0 <= v).
  { intros l Hl Hv v Hi. apply (In_nth _ _ 0) in Hi. destruct Hi as (g & Hg & <-). apply Hv. lia. }
  pose proof (NN _ H2 (fun g Hg => Hp Absorption g I Hg)) as Na.
  pose proof (NN _ H3 (fun g Hg => Hp Fission g I Hg)) as Nf.
  pose proof (NN _ H4 (fun g Hg => Hp NuFission g I Hg)) as Nn.
  pose proof (NN _ H5 (fun g Hg => Hp Transport g I Hg)) as Nt.
  pose proof (NN _ H6 (fun g Hg => Hp Scattering g I Hg)) as Ns.
  assert (Nd : forall v, In v (data (xss x)) -> 0 <= v).
  { intros v Hi. apply (In_nth _ _ 0) in Hi. destruct Hi as (k & Hk & <-). rewrite D1 in Hk.
    destruct (index_surj ng ng k Hk) as (i & j & Hi & Hj & ->).
    pose proof (Hp (ScatterTo i) j Hi Hj) as P. cbn in P. unfold ent in P. rewrite H7 in P. exact P. }
  assert (NL : forall v, 0 <= v -> Rltb v 0 = false) by (intros v Hv; destruct (Rltb_spec v 0); auto; lra).
  assert (FF : forall l, l = xf x \/ l = xnuf x -> forall v, In v l -> Rltb 0 v && negb (isFissile x) = false).
  { intros l Hl v Hi. destruct (isFissile x); cbn; [apply andb_false_r|]. rewrite andb_true_r.
    apply (In_nth _ _ 0) in Hi. destruct Hi as (g & Hg & <-).
    assert (Hg' : (g < ng)%nat) by (destruct Hl; subst; lia).
    destruct (Hf eq_refl g Hg') as [F1 F2]. cbn in F1, F2. destruct (Rltb_spec 0 (nth g l 0)); auto. destruct Hl; subst l; lra. }
  destruct (isMacro x).
  - rewrite i32_ok by (unfold in_i32, intMin; lia). cbn [bind].
    repeat (rewrite warn_loop_ok by lia; cbn [bind]). f_equal.
    rewrite !firstn_all2 by lia.
    rewrite !list_sum_zero; auto; intros v Hi; rewrite ?NL by auto; try rewrite (FF (xf x)) by auto; try rewrite (FF (xnuf x)) by auto; auto.
  - rewrite !error_loop_ok by lia. rewrite !firstn_all2 by lia.
    assert (EX : forall l, l = xf x \/ l = xnuf x -> existsb (fun v => Rltb 0 v && negb (isFissile x)) l = false).
    { intros l Hl. destruct (existsb _ l) eqn:E; auto. apply existsb_exists in E. destruct E as (v & Hv & E).
      rewrite (FF l Hl v Hv) in E. discriminate. }
    rewrite !EX by auto. reflexivity.
Qed.

(** ** One group average *)
Lemma nth_total l ng : length l = ng -> total l = total (map (fun g => nth g l 0) (seq 0 ng)).
Proof.
  intros <-. f_equal. induction l as [|a l IH]; cbn; auto. f_equal. rewrite IH at 1. rewrite <- seq_shift, map_map. reflexivity.
Qed.
Lemma total_flat (f : nat -> R) r c : total (map f (seq 0 (r * c))) =
  total (map (fun j => total (map (fun i => f (j * r + i)%nat) (seq 0 r))) (seq 0 c)).
Proof.
  rewrite Nat.mul_comm. induction c as [|c IH]; [reflexivity|].
  rewrite seq_S, map_app, total_app. cbn [map Nat.add]. rewrite total_cons, total_nil, <- IH.
  replace (S c * r)%nat with (c * r + r)%nat by lia. rewrite seq_app, map_app, total_app, Nat.add_0_l. 
  replace (seq (c * r) r) with (map (fun i => (c * r + i)%nat) (seq 0 r)).
  - rewrite map_map. lra.
  - assert (G : forall n a b, map (fun i => (a + i)%nat) (seq b n) = seq (a + b) n).
    { clear. induction n as [|n IH]; intros a b; cbn; auto. f_equal. rewrite IH. f_equal. lia. }
    rewrite G. f_equal. lia.
Qed.

Lemma collapse_ok ng x : shape ng x -> ng <> O ->
  (isMacro x = false -> isFissile x = false ->
     total (xf x) <= 0 /\ total (xnuf x) <= 0) ->
  exists y, collapseTo1GroupAvg x = Ret y /\ shape 1 y /\ isMacro y = isMacro x /\ isFissile y = isFissile x /\
  (forall r, match r with ScatterTo _ => False | _ => True end -> value y r 0 = mean_of ng (value x r)) /\
  value y (ScatterTo 0) 0 = mean_of ng (fun g => total (map (fun g' => value x (ScatterTo g') g) (seq 0 ng))).
Proof.
  intros Hs Hn Hv. pose proof Hs as (H1 & H2 & H3 & H4 & H5 & H6 & H7 & H8 & H9 & _). unfold collapseTo1GroupAvg.
  unfold XSec, make. change (i32 (Z.of_nat 1 * Z.of_nat 1)) with (@Ret Z 1%Z). cbn [bind repeat Z.to_nat Pos.to_nat Pos.iter_op Nat.add].
  change (Z.to_nat 1) with 1%nat. cbn [repeat xa xf xnuf xtr xs xss numGroups].
  assert (NE : forall l : list R, length l = ng -> l <> []) by (intros [|? ?] Hl; cbn in *; congruence).
  rewrite H7, H8 in H9.
  assert (ND : data (xss x) <> []) by (intros E; rewrite E in H9; cbn in H9; destruct ng; cbn in *; lia).
  rewrite !mean_average by auto. cbn [bind data rows cols].
  change (repeat 0 (Pos.to_nat 1)) with [0]. 
  assert (W : forall v : R, wr [0] 0 v = Ret [v]) by reflexivity. repeat (rewrite W; cbn [bind]). clear W.
  rewrite H1.
  set (y := mkX _ _ _ _ _ _ _ _ _).
  assert (Sy : shape 1 y). { unfold shape, y. cbn. do 8 (split; auto). unfold wf. cbn. split; auto. unfold intMax. lia. }
  assert (NP : 0 < INR ng) by (apply lt_0_INR; lia).
  assert (AV : forall l, length l = ng -> average l = mean_of ng (fun g => nth g l 0)).
  { intros l Hl. unfold average, mean_of. rewrite (nth_total l ng Hl), Hl. reflexivity. }
  assert (V : exists w, validate y = Ret w).
  { pose proof (shape_validate 1 y _ Sy ltac:(lia) eq_refl) as V. destruct (isMacro y) eqn:Em; auto.
    cbn in Em. rewrite V. exists O. cbn [y xf xnuf app existsb isFissile]. destruct (isFissile x) eqn:Ef.
    - rewrite !andb_false_r. reflexivity.
    - destruct (Hv Em eq_refl) as [V1 V2].
      assert (Q : forall l, length l = ng -> total l <= 0 -> Rltb 0 (average l) = false).
      { intros l Hl Ht. unfold average. rewrite Hl. destruct (Rltb_spec 0 (total l / INR ng)); auto. exfalso.
        assert (total l / INR ng * INR ng = total l) by (field; lra). nra. }
      rewrite !Q by auto. reflexivity. }
  destruct V as (w & ->). cbn [bind]. exists y. split; auto. split; auto. split; auto. split; auto. split.
  - intros [| | | | |i] Hr; try easy; cbn [value y xa xf xnuf xtr xs nth]; rewrite AV by auto; reflexivity.
  - cbn [value y xss]. unfold ent. cbn [rows data Nat.mul Nat.add nth]. unfold mean_of, average. rewrite H9.
    rewrite (nth_total (data (xss x)) (ng * ng)) by lia. rewrite total_flat.
    unfold ent. rewrite H7. rewrite mult_INR.
    match goal with |- _ * (?A / _) = ?B / _ => change B with A; set (q := A) end.
    match goal with |- ?A = ?B => change (A = B :> R) end. field. lra.
Qed.

Lemma collapse_consistent ng x y : shape ng x -> ng <> O -> consistent ng x ->
  collapseTo1GroupAvg x = Ret y -> shape 1 y -> 
  value y Scattering 0 = mean_of ng (value x Scattering) ->
  value y (ScatterTo 0) 0 = mean_of ng (fun g => total (map (fun g' => value x (ScatterTo g') g) (seq 0 ng))) ->
  consistent 1 y.
Proof.
  intros Hs Hn Hc E Sy V1 V2 g Hg. assert (g = O) by lia. subst g. rewrite V1. cbn [seq map]. rewrite total_cons, total_nil, V2.
  unfold mean_of. rewrite Rplus_0_r. f_equal. apply total_map_ext. intros g Hi. apply in_seq in Hi. apply Hc. lia.
Qed.
Lemma mean_of_bounds ng f lo hi : ng <> O -> (forall g, (g < ng)%nat -> lo <= f g <= hi) -> lo <= mean_of ng f <= hi.
Proof.
  intros Hn H. unfold mean_of. replace (INR ng) with (INR (length (map f (seq 0 ng)))) by now rewrite map_length, seq_length.
  apply (average_bounds (map f (seq 0 ng))).
  - destruct ng; cbn; congruence.
  - intros v Hv. apply in_map_iff in Hv. destruct Hv as (g & <- & Hi). apply in_seq in Hi. apply H. lia.
Qed.
