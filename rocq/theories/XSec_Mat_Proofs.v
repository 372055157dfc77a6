(** Proofs about macroscopic data and homogenisation. *)
From Coq Require Import List Arith ZArith Bool Reals Lra Lia Permutation.
From Verif Require Import Base Loops Arith Matrix_Model Matrix_Spec Matrix_Proofs
  Stats_Model Stats_Spec Stats_Proofs XSec_Model XSec_Spec XSec_Proofs XSec_Use_Proofs.
Import ListNotations.
Local Open Scope R_scope.

(** ** validateProperties *)
Lemma zaid_loop_ok zs : for_ (length zs) 0 (fun i _ => let* z := rd zs i in if (z <=? 0)%Z then Fail else Ret tt) tt =
  if existsb (fun z => (z <=? 0)%Z) zs then Fail else Ret tt.
Proof.
  assert (G : forall suf pre, zs = pre ++ suf ->
    for_ (length suf) (length pre) (fun i _ => let* z := rd zs i in if (z <=? 0)%Z then Fail else Ret tt) tt =
    if existsb (fun z => (z <=? 0)%Z) suf then Fail else Ret tt).
  { induction suf as [|a suf IH]; intros pre E; auto. cbn [length for_ existsb].
    rewrite (proj2 (rd_Ret zs (length pre) a)) by (subst; now rewrite nth_error_app2, Nat.sub_diag by lia).
    cbn [bind]. destruct (a <=? 0)%Z; cbn [bind orb]; auto.
    specialize (IH (pre ++ [a])). rewrite app_length in IH. cbn in IH. rewrite Nat.add_1_r in IH.
    apply IH. subst. now rewrite <- app_assoc. }
  apply (G zs []). reflexivity.
Qed.
Lemma existsb_Forall {A} (f : A -> bool) P l : (forall x, f x = false <-> P x) -> existsb f l = false <-> Forall P l.
Proof.
  intros H. induction l as [|a l IH]; cbn; [split; auto|]. rewrite orb_false_iff, IH, H. split.
  - intros []; now constructor.
  - inversion 1; auto.
Qed.
Lemma validateProperties_iff m :
  (validateProperties m = Ret tt <-> valid_material m) /\ (validateProperties m = Ret tt \/ validateProperties m = Fail).
Proof.
  unfold validateProperties, valid_material. rewrite error_loop_ok, firstn_all, zaid_loop_ok by auto.
  destruct (Nat.eqb_spec (name_len m) 0); [split; [split; [discriminate|intuition]|auto]|].
  destruct (Rleb_spec (temperature m) 0); [split; [split; [discriminate|intuition; lra]|auto]|].
  destruct (Rleb_spec (density m) 0); [split; [split; [discriminate|intuition; lra]|auto]|].
  destruct (Nat.eqb_spec (length (num_density m)) 0) as [E0|E0].
  { split; [split; [discriminate|]|auto]. intros (_ & _ & _ & H & H' & _). exfalso. rewrite E0 in H'. now destruct (zaids m). }
  destruct (Nat.eqb_spec (length (zaids m)) 0) as [E1|E1].
  { split; [split; [discriminate|]|auto]. intros (_ & _ & _ & H & H' & _). exfalso. now destruct (zaids m). }
  destruct (Nat.eqb_spec (length (num_density m)) (length (zaids m))) as [E2|E2]; cbn [negb].
  2:{ split; [split; [discriminate|]|auto]. intros (_ & _ & _ & H & H' & _). congruence. }
  destruct (existsb (fun n => Rltb n 0) (num_density m)) eqn:E3; cbn [bind].
  { split; [split; [discriminate|]|auto]. intros (_ & _ & _ & _ & _ & H & _).
    assert (existsb (fun n => Rltb n 0) (num_density m) = false); [|congruence].
    apply (existsb_Forall _ (Rle 0)); auto. intros x. destruct (Rltb_spec x 0); split; intros; try easy; lra. }
  destruct (existsb (fun z => (z <=? 0)%Z) (zaids m)) eqn:E4.
  { split; [split; [discriminate|]|auto]. intros (_ & _ & _ & _ & _ & _ & H).
    assert (existsb (fun z => (z <=? 0)%Z) (zaids m) = false); [|congruence].
    apply (existsb_Forall _ (fun z => (0 < z)%Z)); auto. intros x. apply Z.leb_gt. }
  split; auto. split; auto. intros _. repeat split; auto; try lra.
  - now destruct (zaids m).
  - apply (existsb_Forall (fun n => Rltb n 0) (Rle 0)); auto. intros x. destruct (Rltb_spec x 0); split; intros; try easy; lra.
  - apply (existsb_Forall (fun z => (z <=? 0)%Z) (fun z => (0 < z)%Z)); auto. intros x. apply Z.leb_gt.
Qed.

(** ** Adding a multiple of one data set to another *)
Lemma madd_ok c v w g : (g < length v)%nat -> (g < length w)%nat -> madd c v w g = Ret (upd v g (nth g v 0 + nth g w 0 * c)).
Proof. intros. unfold madd. rewrite !rd_nth by auto. cbn [bind]. now rewrite wr_ok. Qed.
Lemma wadd_ok c v w g : (g < length v)%nat -> (g < length w)%nat -> wadd c v w g = Ret (upd v g (nth g v 0 + c * nth g w 0)).
Proof. intros. unfold wadd. rewrite !rd_nth by auto. cbn [bind]. now rewrite wr_ok. Qed.
Lemma smul_ok c v g : (g < length v)%nat -> smul c v g = Ret (upd v g (nth g v 0 * c)).
Proof. intros. unfold smul. rewrite !rd_nth by auto. cbn [bind]. now rewrite wr_ok. Qed.

Lemma madd_body ng c n : shape ng n ->
  body_ok ng (fun r g v => v + value n r g * c) no_flag
  (fun ig x =>
      let* va := madd c (xa x) (xa n) ig in
      let* vf := madd c (xf x) (xf n) ig in
      let* vnuf := madd c (xnuf x) (xnuf n) ig in
      let* vtr := madd c (xtr x) (xtr n) ig in
      let* vs := madd c (xs x) (xs n) ig in
      let* mt := for_ ng 0 (fun jg mt =>
        let* y := get (xss n) jg ig in
        let* z := get mt jg ig in
        set mt jg ig (z + y * c)) (xss x) in
      Ret (mkX (isMacro x) (isFissile x) (numGroups x) va vf vnuf vtr vs mt)).
Proof.
  intros S0 g x Hg Sx.
  pose proof S0 as (A1 & A2 & A3 & A4 & A5 & A6 & _). pose proof Sx as (C1 & C2 & C3 & C4 & C5 & C6 & _).
  rewrite !madd_ok by congruence. cbn [bind].
  destruct (col_loop ng g (xss x) (fun jg mt =>
        let* y := get (xss n) jg g in
        let* z := get mt jg g in
        set mt jg g (z + y * c))
    (fun i => value x (ScatterTo i) g + value n (ScatterTo i) g * c) Hg (shape_ss _ _ Sx)) as (m' & E & Hm).
  { intros i m0 Hi Hm0 He. rewrite !(get_sq ng) by (auto using shape_ss). cbn [bind]. rewrite He. reflexivity. }
  rewrite E. cbn [bind]. eexists. split; [reflexivity|].
  set (cc := mkCol (value x Absorption g + value n Absorption g * c) (value x Fission g + value n Fission g * c)
    (value x NuFission g + value n NuFission g * c) (value x Transport g + value n Transport g * c)
    (value x Scattering g + value n Scattering g * c) (fun i => value x (ScatterTo i) g + value n (ScatterTo i) g * c)).
  destruct (put_column ng x g cc m' (isMacro x) (isFissile x) Sx Hg Hm) as [P1 P2].
  split; [exact P1|]. split; [reflexivity|]. split; [cbn; now rewrite orb_false_r|].
  intros r g' Hr Hg'. refine (eq_trans (P2 r g' Hr Hg') _). destruct (g' =? g)%nat; auto. now destruct r.
Qed.

Lemma wadd_body ng c n : shape ng n ->
  body_ok ng (fun r g v => v + c * value n r g) no_flag
  (fun ig x =>
      let* va := wadd c (xa x) (xa n) ig in
      let* vf := wadd c (xf x) (xf n) ig in
      let* vnuf := wadd c (xnuf x) (xnuf n) ig in
      let* vtr := wadd c (xtr x) (xtr n) ig in
      let* vs := wadd c (xs x) (xs n) ig in
      let* mt := for_ ng 0 (fun jg mt =>
        let* y := get (xss n) jg ig in
        let* z := get mt jg ig in
        set mt jg ig (z + c * y)) (xss x) in
      Ret (mkX (isMacro x) (isFissile x) (numGroups x) va vf vnuf vtr vs mt)).
Proof.
  intros S0 g x Hg Sx.
  pose proof S0 as (A1 & A2 & A3 & A4 & A5 & A6 & _). pose proof Sx as (C1 & C2 & C3 & C4 & C5 & C6 & _).
  rewrite !wadd_ok by congruence. cbn [bind].
  destruct (col_loop ng g (xss x) (fun jg mt =>
        let* y := get (xss n) jg g in
        let* z := get mt jg g in
        set mt jg g (z + c * y))
    (fun i => value x (ScatterTo i) g + c * value n (ScatterTo i) g) Hg (shape_ss _ _ Sx)) as (m' & E & Hm).
  { intros i m0 Hi Hm0 He. rewrite !(get_sq ng) by (auto using shape_ss). cbn [bind]. rewrite He. reflexivity. }
  rewrite E. cbn [bind]. eexists. split; [reflexivity|].
  set (cc := mkCol (value x Absorption g + c * value n Absorption g) (value x Fission g + c * value n Fission g)
    (value x NuFission g + c * value n NuFission g) (value x Transport g + c * value n Transport g)
    (value x Scattering g + c * value n Scattering g) (fun i => value x (ScatterTo i) g + c * value n (ScatterTo i) g)).
  destruct (put_column ng x g cc m' (isMacro x) (isFissile x) Sx Hg Hm) as [P1 P2].
  split; [exact P1|]. split; [reflexivity|]. split; [cbn; now rewrite orb_false_r|].
  intros r g' Hr Hg'. refine (eq_trans (P2 r g' Hr Hg') _). destruct (g' =? g)%nat; auto. now destruct r.
Qed.

Lemma smul_body ng inv :
  body_ok ng (fun r g v => v * inv) (fun _ f => Rltb 0 (f * inv))
  (fun ig x =>
    let* va := smul inv (xa x) ig in
    let* vf := smul inv (xf x) ig in
    let* f := rd vf ig in
    let fis := if Rltb 0 f then true else isFissile x in
    let* vnuf := smul inv (xnuf x) ig in
    let* vtr := smul inv (xtr x) ig in
    let* vs := smul inv (xs x) ig in
    let* mt := for_ ng 0 (fun jg mt =>
      let* z := get mt jg ig in
      set mt jg ig (z * inv)) (xss x) in
    Ret (mkX (isMacro x) fis (numGroups x) va vf vnuf vtr vs mt)).
Proof.
  intros g x Hg Sx.
  pose proof Sx as (C1 & C2 & C3 & C4 & C5 & C6 & _).
  rewrite !smul_ok by congruence. cbn [bind].
  rewrite rd_nth by (rewrite upd_length; congruence). cbn [bind]. rewrite nth_upd', Nat.eqb_refl by congruence.
  destruct (col_loop ng g (xss x) (fun jg mt =>
      let* z := get mt jg g in
      set mt jg g (z * inv))
    (fun i => value x (ScatterTo i) g * inv) Hg (shape_ss _ _ Sx)) as (m' & E & Hm).
  { intros i m0 Hi Hm0 He. rewrite !(get_sq ng) by (auto using shape_ss). cbn [bind]. rewrite He. reflexivity. }
  cbv zeta. rewrite E. cbn [bind]. eexists. split; [reflexivity|].
  set (cc := mkCol (value x Absorption g * inv) (value x Fission g * inv)
    (value x NuFission g * inv) (value x Transport g * inv)
    (value x Scattering g * inv) (fun i => value x (ScatterTo i) g * inv)).
  destruct (put_column ng x g cc m' (isMacro x) (if Rltb 0 (nth g (xf x) 0 * inv) then true else isFissile x) Sx Hg Hm) as [P1 P2].
  split; [exact P1|]. split; [reflexivity|]. split.
  - cbn. destruct (Rltb 0 (nth g (xf x) 0 * inv)); [now rewrite orb_true_r|now rewrite orb_false_r].
  - intros r g' Hr Hg'. refine (eq_trans (P2 r g' Hr Hg') _). destruct (g' =? g)%nat; auto. now destruct r.
Qed.

Lemma firstn_nth_S {A} (l : list A) j x : nth_error l j = Some x -> firstn (S j) l = firstn j l ++ [x].
Proof.
  revert j; induction l as [|a l IH]; intros [|j] H; cbn in *; try discriminate; [congruence|].
  f_equal. now apply IH.
Qed.
Lemma Forall2_at {A B} (P : A -> B -> Prop) l m : Forall2 P l m -> forall j y, nth_error m j = Some y ->
  exists x, nth_error l j = Some x /\ P x y.
Proof.
  induction 1 as [|a b l m H H' IH]; intros [|j] y E; cbn in *; try discriminate.
  - inversion E; subst. eauto.
  - eauto.
Qed.
Lemma Forall2_len {A B} (P : A -> B -> Prop) l m : Forall2 P l m -> length l = length m.
Proof. induction 1; cbn; auto. Qed.

(** ** populateXSec *)
Lemma populate_ok lib m ns : let ng := groups lib in
  valid_material m -> constituents lib m ns -> Forall (fun n => shape ng (snd n)) ns -> ng <> O ->
  exists m', populateXSec m lib = Ret m' /\
    num_density m' = num_density m /\ zaids m' = zaids m /\ temperature m' = temperature m /\
    density m' = density m /\ name_len m' = name_len m /\
    shape ng (mxsec m') /\ isMacro (mxsec m') = true /\
    isFissile (mxsec m') = existsb (fun n => isFissile (snd n)) ns /\
    (forall r g, known ng r -> (g < ng)%nat -> value (mxsec m') r g = macro_value ns r g).
Proof.
  intros ng Hv [Hn Hc] Hs Hng. unfold populateXSec. fold ng. cbv zeta.
  pose proof (Forall2_len _ _ _ Hc) as Hl.
  assert (Hne : ns <> []). { intros ->. destruct Hv as (_ & _ & _ & Z & _). now destruct (zaids m). }
  assert (Hsz : (Z.of_nat ng * Z.of_nat ng <= intMax)%Z).
  { destruct ns as [|n ns]; [congruence|]. inversion Hs; subst. eapply shape_size; eauto. }
  destruct (XSec_ok ng Hsz) as (z & Ez & Sz & Mz & Fz & Vz). rewrite Ez. cbn [bind].
  rewrite (proj2 (proj1 (validateProperties_iff m)) Hv). cbn [bind].
  match goal with |- context [for_ (length (zaids m)) 0 ?F ?s0] =>
    destruct (for_inv (fun k x => shape ng x /\ isMacro x = true /\
      isFissile x = existsb (fun n => isFissile (snd n)) (firstn k ns) /\
      forall r g, known ng r -> (g < ng)%nat -> value x r g = macro_value (firstn k ns) r g) F (length (zaids m)) 0%nat s0)
      as (x & Ex & Sx & Mx & Fx & Vx) end.
  - split; [exact Sz|]. split; [reflexivity|]. split; [exact Fz|]. intros r g Hr Hg. exact (Vz r g Hr Hg).
  - intros j x Hj (Sx & Mx & Fx & Vx).
    destruct (nth_error ns j) as [[c n]|] eqn:En; [|apply nth_error_None in En; lia].
    destruct (Forall2_at _ _ _ Hc j _ En) as (zz & Ezz & nuc & E1 & E2). cbn [snd] in E2.
    rewrite (proj2 (rd_Ret _ _ zz) Ezz). cbn [bind]. rewrite E1. cbn [bind]. rewrite E2. cbn [bind].
    assert (Ec : nth_error (num_density m) j = Some c) by (rewrite <- Hn; apply (map_nth_error fst _ _ En)).
    rewrite (proj2 (rd_Ret _ _ c) Ec). cbn [bind].
    assert (Sn : shape ng n) by (rewrite Forall_forall in Hs; apply (Hs (c, n)); eapply nth_error_In; eauto).
    set (y := if isFissile n then set_fissile true x else x).
    assert (Sy : shape ng y) by (unfold y; destruct (isFissile n); exact Sx).
    assert (My : isMacro y = true) by (unfold y; destruct (isFissile n); exact Mx).
    assert (Fy : isFissile y = (isFissile x || isFissile n)%bool).
    { unfold y; destruct (isFissile n); cbn; [now rewrite orb_true_r|now rewrite orb_false_r]. }
    assert (Vy : forall r g, value y r g = value x r g) by (unfold y; destruct (isFissile n); intros [| | | | |] ?; reflexivity).
    destruct (group_loop ng _ _ _ y (madd_body ng c n Sn) Sy) as (x' & Ex' & Sx' & Mx' & Fx' & Vx').
    exists x'. split; [exact Ex'|]. split; auto. split; [congruence|].
    rewrite (firstn_nth_S ns j (c, n) En). split.
    + rewrite Fx', Fy, Fx, existsb_app. cbn [existsb snd]. rewrite (no_flag_any (fun g0 => no_flag g0 (value y Fission g0))) by auto. now rewrite !orb_false_r.
    + intros r g Hr Hg. rewrite Vx', Vy, Vx by auto. unfold macro_value. rewrite map_app, total_app.
      cbn [map fst snd]. rewrite total_cons, total_nil. ring.
  - rewrite Ex. cbn [bind]. rewrite Nat.add_0_l, Hl, firstn_all in Fx, Vx.
    pose proof (shape_validate ng x _ Sx Hng eq_refl) as V. rewrite Mx in V. destruct V as (w & ->). cbn [bind].
    eexists. split; [reflexivity|]. cbn. repeat (split; auto).
Qed.

Lemma macro_perm ns ns' r g : Permutation ns ns' -> macro_value ns r g = macro_value ns' r g.
Proof. intros H. unfold macro_value. now apply total_perm, Permutation_map. Qed.
Lemma existsb_perm {A} (f : A -> bool) l m : Permutation l m -> existsb f l = existsb f m.
Proof. induction 1; cbn; try congruence. now rewrite !orb_assoc, (orb_comm (f y)). Qed.

Lemma populate_perm lib m1 m2 ns1 ns2 : let ng := groups lib in ng <> O ->
  valid_material m1 -> constituents lib m1 ns1 -> Forall (fun n => shape ng (snd n)) ns1 ->
  valid_material m2 -> constituents lib m2 ns2 -> Permutation ns1 ns2 ->
  exists m1' m2', populateXSec m1 lib = Ret m1' /\ populateXSec m2 lib = Ret m2' /\ mxsec m1' = mxsec m2'.
Proof.
  intros ng Hng V1 C1 S1 V2 C2 P.
  assert (S2 : Forall (fun n => shape ng (snd n)) ns2) by (eapply Permutation_Forall; eauto).
  destruct (populate_ok lib m1 ns1 V1 C1 S1 Hng) as (m1' & E1 & _ & _ & _ & _ & _ & A1 & B1 & F1 & X1).
  destruct (populate_ok lib m2 ns2 V2 C2 S2 Hng) as (m2' & E2 & _ & _ & _ & _ & _ & A2 & B2 & F2 & X2).
  exists m1', m2'. split; auto. split; auto. apply (xsec_ext ng); auto; try congruence.
  - rewrite F1, F2. now apply existsb_perm.
  - intros r g Hr Hg. rewrite X1, X2 by auto. now apply macro_perm.
Qed.

Lemma macro_scale k ns r g : macro_value (map (fun n => (k * fst n, snd n)) ns) r g = k * macro_value ns r g.
Proof. unfold macro_value. rewrite map_map, <- total_map_scal. apply total_map_ext. intros. cbn. ring. Qed.
Lemma macro_app a b r g : macro_value (a ++ b) r g = macro_value a r g + macro_value b r g.
Proof. unfold macro_value. now rewrite map_app, total_app. Qed.

Lemma macro_consistent ng x ns : (forall r g, known ng r -> (g < ng)%nat -> value x r g = macro_value ns r g) ->
  Forall (fun n => consistent ng (snd n)) ns -> consistent ng x.
Proof.
  intros Hx Hc g Hg. rewrite Hx by (cbn; auto).
  transitivity (total (map (fun g' => macro_value ns (ScatterTo g') g) (seq 0 ng))).
  - unfold macro_value. rewrite (total_swap (fun g' n => fst n * value (snd n) (ScatterTo g') g)).
    apply total_map_ext. intros n Hn. rewrite total_map_scal. f_equal. rewrite Forall_forall in Hc. now apply Hc.
  - apply total_map_ext. intros g' Hi. apply in_seq in Hi. rewrite Hx by (cbn; auto; lia). reflexivity.
Qed.
Lemma macro_physical ng x ns : (forall r g, known ng r -> (g < ng)%nat -> value x r g = macro_value ns r g) ->
  isFissile x = existsb (fun n => isFissile (snd n)) ns ->
  Forall (fun n => 0 <= fst n /\ physical ng (snd n)) ns -> physical ng x.
Proof.
  intros Hx Hf Hp. rewrite Forall_forall in Hp. split.
  - intros r g Hr Hg. rewrite Hx by auto. apply total_nonneg. intros v Hv. apply in_map_iff in Hv.
    destruct Hv as (n & <- & Hn). destruct (Hp n Hn) as [P1 [P2 _]]. apply Rmult_le_pos; auto.
  - intros Fx g Hg. rewrite Fx in Hf. symmetry in Hf.
    assert (Q : forall n, In n ns -> isFissile (snd n) = false).
    { intros n Hn. destruct (isFissile (snd n)) eqn:E; auto. rewrite <- Hf. symmetry. apply existsb_exists. eauto. }
    rewrite !Hx by (cbn; auto). unfold macro_value.
    split; rewrite <- (total_map_zero ns); apply total_map_le; intros n Hn; destruct (Hp n Hn) as [P1 [_ P2]];
      destruct (P2 (Q n Hn) g Hg); nra.
Qed.
Lemma populate_physical lib m ns : let ng := groups lib in ng <> O ->
  valid_material m -> constituents lib m ns -> Forall (fun n => shape ng (snd n)) ns ->
  Forall (fun n => physical ng (snd n)) ns ->
  exists m', populateXSec m lib = Ret m' /\ physical ng (mxsec m') /\ validate (mxsec m') = Ret O.
Proof.
  intros ng Hng V C S P. destruct (populate_ok lib m ns V C S Hng) as (m' & E & _ & _ & _ & _ & _ & A & B & F & X).
  exists m'. split; auto. assert (Q : physical ng (mxsec m')).
  { apply (macro_physical ng _ ns); auto. destruct V as (_ & _ & _ & _ & _ & Hd & _). destruct C as [Hn _].
    rewrite Forall_forall in *. intros n Hi. split; [apply Hd; rewrite <- Hn; now apply in_map|now apply P]. }
  split; auto. now apply (physical_validate ng).
Qed.

(** ** Homogenisation *)
Lemma rdz_in {A} (l : list A) z : (0 <= z < Z.of_nat (length l))%Z -> exists x, rdz l z = Ret x /\ nth_error l (Z.to_nat z) = Some x.
Proof.
  intros H. destruct (nth_error l (Z.to_nat z)) as [x|] eqn:E; [|apply nth_error_None in E; lia].
  exists x. split; auto. apply rdz_nth; auto. lia.
Qed.

(** area of the faces made of material k *)
Definition mat_area (faces : list (R * Z)) (k : nat) : R :=
  total (map (fun f => if (Z.to_nat (snd f) =? k)%nat then fst f else 0) faces).

Lemma areas_loop faces nm : (forall f, In f faces -> (0 <= snd f < Z.of_nat nm)%Z) -> exists areas,
  for_ (length (map fst faces)) 0 (fun i areas =>
    let* a := rd (map fst faces) i in
    let* id := rd (map snd faces) i in
    let* b := rdz areas id in
    wr areas (Z.to_nat id) (b + a)) (repeat 0 nm) = Ret areas /\
  areas = map (mat_area faces) (seq 0 nm).
Proof.
  intros H. rewrite map_length.
  match goal with |- context [for_ _ 0 ?F ?s0] =>
    destruct (for_inv (fun n areas => areas = map (mat_area (firstn n faces)) (seq 0 nm)) F (length faces) 0%nat s0) as (ar & E & Ha) end.
  - cbn [firstn]. clear. generalize O as i. induction nm as [|nm IH]; intros i; cbn; auto. f_equal. apply IH.
  - intros j ar Hj ->.
    destruct (nth_error faces j) as [[a id]|] eqn:Ef; [|apply nth_error_None in Ef; lia].
    rewrite (proj2 (rd_Ret _ _ a) (map_nth_error fst _ _ Ef)). rewrite (proj2 (rd_Ret _ _ id) (map_nth_error snd _ _ Ef)). cbn [bind].
    pose proof (H _ (nth_error_In _ _ Ef)) as Hid. cbn [snd] in Hid.
    destruct (rdz_in (map (mat_area (firstn j faces)) (seq 0 nm)) id) as (b & Eb & Nb); [now rewrite map_length, seq_length|].
    rewrite Eb. cbn [bind]. rewrite wr_ok by (rewrite map_length, seq_length; lia). eexists. split; [reflexivity|].
    assert (Hb : b = mat_area (firstn j faces) (Z.to_nat id)).
    { assert (Hk : nth_error (seq 0 nm) (Z.to_nat id) = Some (Z.to_nat id)).
      { rewrite (nth_error_nth' _ O) by (rewrite seq_length; lia). now rewrite seq_nth by lia. }
      apply (map_nth_error (mat_area (firstn j faces))) in Hk. congruence. }
    apply (nth_ext _ _ 0 0); [now rewrite upd_length, !map_length|].
    intros k Hk. rewrite upd_length, map_length, seq_length in Hk.
    rewrite nth_upd' by (rewrite map_length, seq_length; lia).
    assert (NM : forall g, nth k (map g (seq 0 nm)) 0 = g k).
    { intros g. rewrite (nth_indep _ 0 (g O)) by (now rewrite map_length, seq_length). rewrite map_nth, seq_nth; auto. }
    rewrite !NM. rewrite (firstn_nth_S faces j _ Ef). unfold mat_area at 2. rewrite map_app, total_app. cbn [map fst snd].
    rewrite total_cons, total_nil. fold (mat_area (firstn j faces) k).
    rewrite (Nat.eqb_sym (Z.to_nat id) k). destruct (Nat.eqb_spec k (Z.to_nat id)) as [->|].
    + rewrite Hb. ring.
    + ring.
  - exists ar. split; auto. rewrite Ha, Nat.add_0_l, firstn_all. reflexivity.
Qed.

Lemma total_delta (f : nat -> R) n k : (k < n)%nat -> total (map (fun i => if (k =? i)%nat then f i else 0) (seq 0 n)) = f k.
Proof.
  induction n as [|n IH]; intros H; [lia|]. rewrite seq_S, map_app, total_app. cbn [map Nat.add]. rewrite total_cons, total_nil.
  destruct (Nat.eqb_spec k n) as [->|N].
  - rewrite (total_map_ext _ (fun _ => 0)), total_map_zero; [lra|]. intros i Hi. apply in_seq in Hi.
    destruct (Nat.eqb_spec n i); auto. lia.
  - rewrite IH by lia. lra.
Qed.
Lemma mat_area_sum faces nm (h : nat -> R) : (forall f, In f faces -> (0 <= snd f < Z.of_nat nm)%Z) ->
  total (map (fun k => mat_area faces k * h k) (seq 0 nm)) = total (map (fun f => fst f * h (Z.to_nat (snd f))) faces).
Proof.
  intros H. transitivity (total (map (fun k => total (map (fun f => if (Z.to_nat (snd f) =? k)%nat then fst f * h k else 0) faces)) (seq 0 nm))).
  - apply total_map_ext. intros k _. unfold mat_area. rewrite Rmult_comm, <- total_map_scal. apply total_map_ext.
    intros f _. destruct (_ =? k)%nat; ring.
  - rewrite (total_swap (fun k f => if (Z.to_nat (snd f) =? k)%nat then fst f * h k else 0)).
    apply total_map_ext. intros f Hf. specialize (H f Hf).
    rewrite (total_delta (fun k => fst f * h k)) by lia. reflexivity.
Qed.

Lemma homogenize_ok faces materials m0 : let ng := numGroups m0 in
  nth_error materials 0 = Some m0 -> ng <> O -> (Z.of_nat ng * Z.of_nat ng <= intMax)%Z ->
  (forall f, In f faces -> (0 <= snd f < Z.of_nat (length materials))%Z /\ 0 <= fst f /\
     forall x, nth_error materials (Z.to_nat (snd f)) = Some x -> shape ng x) ->
  0 < total (map fst faces) ->
  exists x, homogenize (map fst faces) (map snd faces) materials = Ret x /\ shape ng x /\ isMacro x = true /\
    (isFissile x = true <-> exists g, (g < ng)%nat /\ 0 < value x Fission g) /\
    (forall r g, known ng r -> (g < ng)%nat ->
       value x r g * total (map fst faces) = total (map (fun f => fst f * face_value materials f r g) faces)).
Proof.
  intros ng E0 Hng Hsz Hf Ht. unfold homogenize. rewrite (proj2 (rd_Ret _ _ m0) E0). cbn [bind]. cbv zeta. fold ng.
  destruct (areas_loop faces (length materials)) as (areas & Ea & Ha); [intros f Hi; now apply Hf|].
  rewrite Ea. cbn [bind]. destruct (XSec_ok ng Hsz) as (z & Ez & Sz & Mz & Fz & Vz). rewrite Ez. cbn [bind].
  set (mv := fun k r g => match nth_error materials k with Some x => value x r g | None => 0 end).
  (* a material without faces has no area *)
  assert (NZ : forall k, mat_area faces k <> 0 -> forall x, nth_error materials k = Some x -> shape ng x).
  { intros k Hk x Hx. assert (G : exists f, In f faces /\ Z.to_nat (snd f) = k).
    { clear - Hk. induction faces as [|f fs IH]; [now destruct Hk|].
      destruct (Nat.eq_dec (Z.to_nat (snd f)) k) as [E|E]; [exists f; split; auto; now left|].
      destruct IH as (f' & I & E'); [|exists f'; split; auto; now right].
      intros Z. apply Hk. unfold mat_area in *. cbn [map]. rewrite total_cons, Z. apply Nat.eqb_neq in E. rewrite E. lra. }
    destruct G as (f & I & <-). apply (proj2 (proj2 (Hf f I))). auto. }
  match goal with |- context [for_ (length materials) 0 ?F ?s0] =>
    destruct (for_inv (fun k x => shape ng x /\ isFissile x = false /\
      forall r g, known ng r -> (g < ng)%nat -> value x r g = total (map (fun k => mat_area faces k * mv k r g) (seq 0 k)))
      F (length materials) 0%nat s0) as (x & Ex & Sx & Fx & Vx) end.
  - split; auto.
  - intros k x Hk (Sx & Fx & Vx).
    assert (Ek : nth_error areas k = Some (mat_area faces k)).
    { subst areas. apply map_nth_error. rewrite (nth_error_nth' _ O) by (rewrite seq_length; lia). now rewrite seq_nth by lia. }
    rewrite (proj2 (rd_Ret _ _ _) Ek). cbn [bind].
    assert (Hstep : forall r g, total (map (fun k => mat_area faces k * mv k r g) (seq 0 (S k))) =
      total (map (fun k => mat_area faces k * mv k r g) (seq 0 k)) + mat_area faces k * mv k r g).
    { intros r g. rewrite seq_S, map_app, total_app. cbn [map Nat.add]. rewrite total_cons, total_nil. ring. }
    unfold Reqb. destruct (Req_EM_T (mat_area faces k) 0) as [Z|Z].
    + exists x. split; auto. split; auto. split; auto. intros r g Hr Hg. rewrite Hstep, Vx by auto. rewrite Z. ring.
    + destruct (nth_error materials k) as [n|] eqn:En; [|apply nth_error_None in En; lia].
      rewrite (proj2 (rd_Ret _ _ n) En). cbn [bind].
      destruct (group_loop ng _ _ _ x (wadd_body ng (mat_area faces k) n (NZ k Z n En)) Sx) as (x' & Ex' & Sx' & Mx' & Fx' & Vx').
      exists x'. split; [exact Ex'|]. split; auto. split.
      * rewrite Fx', Fx. unfold no_flag. now rewrite no_flag_any by auto.
      * intros r g Hr Hg. rewrite Hstep, Vx', Vx by auto. unfold mv at 3. rewrite En. reflexivity.
  - rewrite Ex. cbn [bind]. rewrite Nat.add_0_l in Vx.
    assert (NE : areas <> []).
    { subst areas. destruct materials; cbn; [discriminate|congruence]. }
    rewrite (sum_total areas NE). cbn [bind].
    assert (TA : total areas = total (map fst faces)).
    { subst areas. pose proof (mat_area_sum faces (length materials) (fun _ => 1)) as Q.
      rewrite (total_map_ext _ (mat_area faces)) in Q by (intros; ring). rewrite Q by (intros f Hi; now apply Hf).
      apply total_map_ext. intros; ring. }
    rewrite TA. set (A := total (map fst faces)) in *.
    destruct (group_loop ng _ _ _ x (smul_body ng (1 / A)) Sx) as (y & Ey & Sy & My & Fy & Vy).
    cbv zeta in Ey. rewrite Ey. cbn [bind]. set (y' := set_macro true y). assert (Sy' : shape ng y') by exact Sy.
    pose proof (shape_validate ng y' _ Sy' Hng eq_refl) as V. change (isMacro y') with true in V. destruct V as (w & ->). cbn [bind].
    exists y'. split; auto. split; auto. split; auto.
    assert (Vy' : forall r g, value y' r g = value y r g) by (intros r g; now destruct r).
    split.
    + change (isFissile y') with (isFissile y). rewrite Fy, Fx. cbn [orb]. rewrite existsb_exists. split.
      * intros (g & Hi & Hp). apply in_seq in Hi. exists g. split; [lia|]. rewrite Vy', Vy by (cbn; auto; lia).
        now destruct (Rltb_spec 0 (value x Fission g * (1 / A))).
      * intros (g & Hg & Hp). exists g. split; [apply in_seq; lia|]. rewrite Vy', Vy in Hp by (cbn; auto).
        destruct (Rltb_spec 0 (value x Fission g * (1 / A))); auto.
    + intros r g Hr Hg. rewrite Vy', Vy by auto. unfold Rdiv. rewrite Rmult_1_l, Rmult_assoc, Rinv_l, Rmult_1_r by lra.
      rewrite Vx by auto. rewrite (mat_area_sum faces (length materials) (fun k => mv k r g)) by (intros f Hi; now apply Hf).
      reflexivity.
Qed.

Lemma weighted_bounds {A} (w v : A -> R) l lo hi : (forall f, In f l -> 0 <= w f /\ (0 < w f -> lo <= v f <= hi)) ->
  lo * total (map w l) <= total (map (fun f => w f * v f) l) <= hi * total (map w l).
Proof.
  intros H. rewrite <- !total_map_scal. split; apply total_map_le; intros f Hi; destruct (H f Hi) as [H1 H2];
  destruct (Rle_lt_or_eq_dec 0 (w f) H1) as [P|P]; try (specialize (H2 P); nra); rewrite <- P; lra.
Qed.
Lemma homogenize_bounds faces materials x A r g lo hi : 0 < A -> A = total (map fst faces) ->
  value x r g * A = total (map (fun f => fst f * face_value materials f r g) faces) ->
  (forall f, In f faces -> 0 <= fst f /\ (0 < fst f -> lo <= face_value materials f r g <= hi)) ->
  lo <= value x r g <= hi.
Proof.
  intros HA EA E H. pose proof (weighted_bounds fst (fun f => face_value materials f r g) faces lo hi H) as W.
  cbv beta in W.
  rewrite <- E, <- EA in W. split; nra.
Qed.
Lemma homogenize_consistent ng faces materials x A : 0 < A ->
  (forall r g, known ng r -> (g < ng)%nat -> value x r g * A = total (map (fun f => fst f * face_value materials f r g) faces)) ->
  (forall f y, In f faces -> nth_error materials (Z.to_nat (snd f)) = Some y -> consistent ng y) ->
  consistent ng x.
Proof.
  intros HA E H g Hg. apply (Rmult_eq_reg_r A); [|lra]. rewrite E by (cbn; auto).
  transitivity (total (map (fun g' => total (map (fun f => fst f * face_value materials f (ScatterTo g') g) faces)) (seq 0 ng))).
  - rewrite (total_swap (fun g' f => fst f * face_value materials f (ScatterTo g') g)). apply total_map_ext. intros f Hf.
    rewrite total_map_scal. f_equal. unfold face_value. destruct (nth_error materials (Z.to_nat (snd f))) as [y|] eqn:Ey.
    + now apply (H f y).
    + now rewrite total_map_zero.
  - rewrite (Rmult_comm _ A), <- total_map_scal. apply total_map_ext. intros g' Hi. apply in_seq in Hi.
    rewrite Rmult_comm, E by (cbn; auto; lia). reflexivity.
Qed.

(** ** Linearity in the densities *)
Lemma map_fst_ext {A B} (l l' : list (A * B)) : map fst l = map fst l' -> map snd l = map snd l' -> l = l'.
Proof.
  revert l'; induction l as [|[a b] l IH]; intros [|[a' b'] l'] H H'; cbn in *; try discriminate; auto.
  inversion H; inversion H'; subst. f_equal. auto.
Qed.
Lemma constituents_data lib m1 m2 ns1 ns2 : zaids m1 = zaids m2 -> temperature m1 = temperature m2 ->
  constituents lib m1 ns1 -> constituents lib m2 ns2 -> map snd ns1 = map snd ns2.
Proof.
  intros Hz Ht [_ H1] [_ H2]. rewrite Hz, Ht in H1. clear Hz Ht. revert ns2 H2.
  induction H1 as [|z n1 zs ns1 (u & A & B) H1 IH]; intros ns2 H2; inversion H2 as [|z' n2 zs' ns2' (u' & A' & B')]; subst; auto.
  cbn. f_equal; auto. congruence.
Qed.
Lemma macro_combine a b : forall ns1 ns2 ns3 r g, map snd ns1 = map snd ns2 -> map snd ns1 = map snd ns3 ->
  map fst ns3 = map (fun p => a * fst p + b * snd p) (combine (map fst ns1) (map fst ns2)) ->
  macro_value ns3 r g = a * macro_value ns1 r g + b * macro_value ns2 r g.
Proof.
  unfold macro_value.
  induction ns1 as [|[c n] ns1 IH]; intros [|[c2 n2] ns2] [|[c3 n3] ns3] r g H1 H2 H3; cbn [map fst snd combine] in *; try discriminate.
  - rewrite !total_nil. ring.
  - inversion H1; inversion H2; inversion H3; subst. rewrite !total_cons, (IH ns2 ns3) by auto. ring.
Qed.
Lemma populate_linear lib a b m1 m2 m3 ns1 ns2 ns3 : let ng := groups lib in ng <> O ->
  zaids m2 = zaids m1 -> zaids m3 = zaids m1 -> temperature m2 = temperature m1 -> temperature m3 = temperature m1 ->
  valid_material m1 -> valid_material m2 -> valid_material m3 ->
  constituents lib m1 ns1 -> constituents lib m2 ns2 -> constituents lib m3 ns3 -> Forall (fun n => shape ng (snd n)) ns1 ->
  num_density m3 = map (fun p => a * fst p + b * snd p) (combine (num_density m1) (num_density m2)) ->
  exists r1 r2 r3, populateXSec m1 lib = Ret r1 /\ populateXSec m2 lib = Ret r2 /\ populateXSec m3 lib = Ret r3 /\
    forall r g, known ng r -> (g < ng)%nat ->
      value (mxsec r3) r g = a * value (mxsec r1) r g + b * value (mxsec r2) r g.
Proof.
  intros ng Hng Z2 Z3 T2 T3 V1 V2 V3 C1 C2 C3 S1 Hd.
  pose proof (constituents_data lib m1 m2 ns1 ns2 (eq_sym Z2) (eq_sym T2) C1 C2) as D2.
  pose proof (constituents_data lib m1 m3 ns1 ns3 (eq_sym Z3) (eq_sym T3) C1 C3) as D3.
  assert (SS : forall ns : list (R * xsec), map snd ns1 = map snd ns -> Forall (fun n => shape ng (snd n)) ns).
  { intros ns E. rewrite Forall_forall in *. intros n Hn. apply (in_map snd) in Hn. rewrite <- E in Hn.
    apply in_map_iff in Hn. destruct Hn as (n1 & <- & Hi). auto. }
  destruct (populate_ok lib m1 ns1 V1 C1 S1 Hng) as (r1 & E1 & _ & _ & _ & _ & _ & _ & _ & _ & X1).
  destruct (populate_ok lib m2 ns2 V2 C2 (SS ns2 D2) Hng) as (r2 & E2 & _ & _ & _ & _ & _ & _ & _ & _ & X2).
  destruct (populate_ok lib m3 ns3 V3 C3 (SS ns3 D3) Hng) as (r3 & E3 & _ & _ & _ & _ & _ & _ & _ & _ & X3).
  exists r1, r2, r3. do 3 (split; auto). intros r g Hr Hg. fold ng in X1, X2, X3. rewrite X1, X2, X3 by auto.
  apply macro_combine; auto. destruct C1 as [N1 _], C2 as [N2 _], C3 as [N3 _]. now rewrite N1, N2, N3.
Qed.

Lemma populate_rejects lib m : (Z.of_nat (groups lib) * Z.of_nat (groups lib) <= intMax)%Z ->
  ~ valid_material m -> populateXSec m lib = Fail.
Proof.
  intros Hs Hv. unfold populateXSec. destruct (XSec_ok _ Hs) as (z & Ez & _). rewrite Ez. cbn [bind].
  destruct (validateProperties_iff m) as [I [E|E]]; [now apply I in E|]. rewrite E. reflexivity.
Qed.
Lemma find_missing l z : (forall n, In n l -> zaid n <> z) -> find_nuclide l z = Fail.
Proof.
  induction l as [|n l IH]; intros H; cbn; auto. rewrite (proj2 (Z.eqb_neq (zaid n) z)) by (apply H; now left).
  apply IH. intros m Hm. apply H. now right.
Qed.
Lemma for_Ret {S} (f : nat -> S -> outcome S) : forall n i s t, for_ n i f s = Ret t ->
  forall j, (i <= j < i + n)%nat -> exists s1 s2, f j s1 = Ret s2.
Proof.
  induction n as [|n IH]; intros i s t E j Hj; [lia|]. cbn in E. destruct (f i s) as [s'| | |] eqn:Ef; try discriminate.
  destruct (Nat.eq_dec j i) as [->|N]; eauto. eapply IH; [exact E|lia].
Qed.
Lemma populate_Ret lib m m' : populateXSec m lib = Ret m' -> valid_material m /\
  forall z, In z (zaids m) -> exists n, In n (nuclides lib) /\ zaid n = z.
Proof.
  unfold populateXSec. cbv zeta. destruct (XSec (groups lib)) as [x| | |]; try discriminate. cbn [bind].
  destruct (validateProperties m) as [[]| | |] eqn:Ev; try discriminate. cbn [bind]. intros E. split.
  - now apply validateProperties_iff.
  - intros z Hz. apply In_nth_error in Hz. destruct Hz as (j & Hj).
    destruct (for_ _ _ _ _) as [x'| | |] eqn:Ef in E; try discriminate. clear E.
    destruct (for_Ret _ _ _ _ _ Ef j) as (s1 & s2 & Es).
    { pose proof (nth_error_lt _ _ _ Hj). lia. }
    rewrite (proj2 (rd_Ret _ _ z) Hj) in Es. cbn [bind] in Es.
    destruct (Exists_dec (fun n => zaid n = z) (nuclides lib) (fun n => Z.eq_dec (zaid n) z)) as [X|X].
    + apply Exists_exists in X. destruct X as (n & A & B). eauto.
    + unfold getNuclide in Es. rewrite find_missing in Es; [discriminate|]. intros n Hn Ez. apply X, Exists_exists. eauto.
Qed.
Lemma populate_consistent lib m ns : let ng := groups lib in ng <> O ->
  valid_material m -> constituents lib m ns -> Forall (fun n => shape ng (snd n)) ns ->
  Forall (fun n => consistent ng (snd n)) ns ->
  exists m', populateXSec m lib = Ret m' /\ consistent ng (mxsec m').
Proof.
  intros ng Hng V C S P. destruct (populate_ok lib m ns V C S Hng) as (m' & E & _ & _ & _ & _ & _ & A & B & F & X).
  exists m'. split; auto. eapply macro_consistent; eauto.
Qed.

(** ** Homogenisation, in one piece *)
Lemma homogenize_full ng faces materials : cell_ok ng faces materials ->
  exists x, homogenize (map fst faces) (map snd faces) materials = Ret x /\ shape ng x /\ isMacro x = true /\
    (isFissile x = true <-> exists g, (g < ng)%nat /\ 0 < value x Fission g) /\
    (forall r g, known ng r -> (g < ng)%nat ->
       value x r g * total (map fst faces) = total (map (fun f => fst f * face_value materials f r g) faces)).
Proof.
  intros (Hf & Ht & Hs & Hn).
  destruct materials as [|m0 ms].
  { exfalso. destruct faces as [|f fs]; [unfold total in Ht; cbn in Ht; lra|]. destruct (Hf f (or_introl eq_refl)) as [H _]. cbn in H. lia. }
  pose proof (Forall_inv Hs) as S0. assert (E : numGroups m0 = ng) by apply S0.
  rewrite <- E. apply homogenize_ok; auto; rewrite E; auto; [eapply shape_size; eauto|].
  intros f Hi. destruct (Hf f Hi) as [H1 H2]. split; auto. split; auto. intros x Hx.
  rewrite Forall_forall in Hs. apply Hs. eapply nth_error_In; eauto.
Qed.
Lemma face_in materials f r g : (0 <= snd f < Z.of_nat (length materials))%Z ->
  exists y, nth_error materials (Z.to_nat (snd f)) = Some y /\ face_value materials f r g = value y r g.
Proof.
  intros H. unfold face_value. destruct (nth_error materials (Z.to_nat (snd f))) as [y|] eqn:E; eauto.
  apply nth_error_None in E. lia.
Qed.
Lemma homogenize_range ng faces materials r g lo hi : cell_ok ng faces materials -> known ng r -> (g < ng)%nat ->
  (forall f y, In f faces -> 0 < fst f -> nth_error materials (Z.to_nat (snd f)) = Some y -> lo <= value y r g <= hi) ->
  exists x, homogenize (map fst faces) (map snd faces) materials = Ret x /\ lo <= value x r g <= hi.
Proof.
  intros Hc Hr Hg H. destruct (homogenize_full ng faces materials Hc) as (x & E & _ & _ & _ & V). exists x. split; auto.
  destruct Hc as (Hf & Ht & _). eapply homogenize_bounds; eauto. intros f Hi. destruct (Hf f Hi) as [H1 H2]. split; auto.
  intros P. destruct (face_in materials f r g H1) as (y & Ey & ->). eauto.
Qed.
Lemma homogenize_uniform ng faces materials k y : cell_ok ng faces materials -> (forall f, In f faces -> snd f = k) ->
  nth_error materials (Z.to_nat k) = Some y ->
  exists x, homogenize (map fst faces) (map snd faces) materials = Ret x /\
    forall r g, known ng r -> (g < ng)%nat -> value x r g = value y r g.
Proof.
  intros Hc Hk Ey. destruct (homogenize_full ng faces materials Hc) as (x & E & _ & _ & _ & V). exists x. split; auto.
  destruct Hc as (Hf & Ht & _). intros r g Hr Hg.
  assert (value y r g <= value x r g <= value y r g); [|lra].
  eapply homogenize_bounds; eauto. intros f Hi. destruct (Hf f Hi) as [H1 H2]. split; auto. intros _.
  unfold face_value. rewrite (Hk f Hi), Ey. lra.
Qed.
Lemma homogenize_cons ng faces materials : cell_ok ng faces materials ->
  (forall f y, In f faces -> nth_error materials (Z.to_nat (snd f)) = Some y -> consistent ng y) ->
  exists x, homogenize (map fst faces) (map snd faces) materials = Ret x /\ consistent ng x.
Proof.
  intros Hc H. destruct (homogenize_full ng faces materials Hc) as (x & E & _ & _ & _ & V). exists x. split; auto.
  destruct Hc as (Hf & Ht & _). eapply homogenize_consistent; eauto.
Qed.
Lemma homogenize_perm ng faces faces' materials : cell_ok ng faces materials -> Permutation faces faces' ->
  homogenize (map fst faces) (map snd faces) materials = homogenize (map fst faces') (map snd faces') materials.
Proof.
  intros Hc P. assert (Hc' : cell_ok ng faces' materials).
  { destruct Hc as (A & B & C). split; [|split; auto].
    - intros f Hi. apply A. eapply Permutation_in; [apply Permutation_sym|]; eauto.
    - erewrite total_perm; [exact B|]. now apply Permutation_map, Permutation_sym. }
  destruct (homogenize_full ng faces materials Hc) as (x & E & S & M & F & V).
  destruct (homogenize_full ng faces' materials Hc') as (x' & E' & S' & M' & F' & V').
  rewrite E, E'. f_equal.
  assert (VV : forall r g, known ng r -> (g < ng)%nat -> value x r g = value x' r g).
  { intros r g Hr Hg. apply (Rmult_eq_reg_r (total (map fst faces))); [|destruct Hc as (_ & B & _); lra].
    rewrite V by auto. erewrite (total_perm (map fst faces)); [|apply Permutation_map; exact P]. rewrite V' by auto.
    now apply total_perm, Permutation_map. }
  apply (xsec_ext ng); auto; [congruence|].
  assert (G : isFissile x = true <-> isFissile x' = true).
  { rewrite F, F'. split; intros (g & Hg & Hp); exists g; split; auto; [rewrite <- VV|rewrite VV]; cbn; auto. }
  destruct (isFissile x), (isFissile x'); intuition congruence.
Qed.

(** ** Collapsing *)
Lemma validate_total ng x w : shape ng x -> ng <> O -> validate x = Ret w -> isMacro x = false -> isFissile x = false ->
  total (xf x) <= 0 /\ total (xnuf x) <= 0.
Proof.
  intros S Hn V M F. pose proof (shape_validate ng x _ S Hn eq_refl) as Q. rewrite M, V in Q.
  destruct (existsb _ _) eqn:E in Q; [discriminate|]. rewrite existsb_app in E. apply orb_false_iff in E.
  assert (G : forall l, existsb (fun v => Rltb 0 v && negb (isFissile x)) l = false -> total l <= 0).
  { rewrite F. induction l as [|a l IH]; intros H; [rewrite total_nil; lra|]. cbn in H. apply orb_false_iff in H. destruct H as [H1 H2].
    rewrite andb_true_r in H1. rewrite total_cons. specialize (IH H2). destruct (Rltb_spec 0 a); [discriminate|lra]. }
  destruct E; auto.
Qed.
Lemma collapse_full ng x w : shape ng x -> ng <> O -> validate x = Ret w ->
  exists y, collapseTo1GroupAvg x = Ret y /\ shape 1 y /\ isMacro y = isMacro x /\ isFissile y = isFissile x /\
  (forall r, match r with ScatterTo _ => False | _ => True end -> value y r 0 = mean_of ng (value x r)) /\
  value y (ScatterTo 0) 0 = mean_of ng (fun g => total (map (fun g' => value x (ScatterTo g') g) (seq 0 ng))) /\
  (consistent ng x -> consistent 1 y).
Proof.
  intros S Hn V. destruct (collapse_ok ng x S Hn) as (y & E & Sy & M & F & V1 & V2).
  - intros A B. eapply validate_total; eauto.
  - exists y. do 6 (split; auto). intros C. apply (collapse_consistent ng x y); auto.
Qed.
Lemma collapse_range ng x w y r lo hi : shape ng x -> ng <> O -> validate x = Ret w ->
  collapseTo1GroupAvg x = Ret y -> match r with ScatterTo _ => False | _ => True end ->
  (forall g, (g < ng)%nat -> lo <= value x r g <= hi) -> lo <= value y r 0 <= hi.
Proof.
  intros S Hn V E Hr H. destruct (collapse_full ng x w S Hn V) as (y' & E' & _ & _ & _ & V1 & _).
  assert (y = y') by congruence. subst y'. rewrite V1 by auto. now apply mean_of_bounds.
Qed.
