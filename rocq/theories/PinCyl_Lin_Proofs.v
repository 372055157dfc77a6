(** The mesh of linear quadrilaterals. *)
From Coq Require Import List Arith ZArith Bool Reals Lra Lia Psatz.
From Verif Require Import Base Loops Arith Fill Box_Proofs Vec_Model Seg_Model Seg_Proofs Poly_Model Poly_Spec Poly_Proofs Fvm_Model Fvm_Spec Manifold_Model Manifold_Spec Manifold_Proofs
  Soup_Spec PinRect_Model PinRect_Spec PinCyl_Model PinCyl_Spec PinCyl_Trig_Proofs PinCyl_Rings_Proofs PinCyl_Edges_Proofs.
Import ListNotations.
Local Open Scope R_scope.

(** * Loops *)
(** each entry is computed from the one before *)
Lemma scan_loop {A} (f : nat -> A) (F : nat -> list A -> outcome (list A)) n d :
  (0 < n)%nat ->
  (forall i l, (1 <= i < n)%nat -> length l = n -> nth_error l (i - 1) = Some (f (i - 1)%nat) -> F i l = wr l i (f i)) ->
  for_ (n - 1) 1 F (upd (repeat d n) 0 (f 0%nat)) = Ret (map f (seq 0 n)).
Proof.
  intros Hn HF.
  destruct (for_inv (fun j l => length l = n /\ forall i, (i < j)%nat -> nth_error l i = Some (f i)) F (n - 1) 1 (upd (repeat d n) 0 (f 0%nat)))
    as (l & E & L & G).
  - split; [now rewrite upd_length, repeat_length|]. intros i Hi. replace i with 0%nat by lia. apply nth_error_upd_eq. now rewrite repeat_length.
  - intros i l Hi [L G]. rewrite HF by (auto; try lia; apply G; lia). exists (upd l i (f i)). split; [apply wr_ok; lia|].
    split; [now rewrite upd_length|]. intros j Hj. destruct (Nat.eq_dec j i) as [->|N]; [apply nth_error_upd_eq; lia|].
    rewrite nth_error_upd_neq by auto. apply G. lia.
  - rewrite E. f_equal. apply nth_error_ext. intros i. destruct (lt_dec i n) as [Hi|Hi].
    + rewrite nth_error_map_seq by auto. apply G. lia.
    + rewrite !(proj2 (nth_error_None _ _)); auto; [rewrite map_length, seq_length|]; lia.
Qed.
Lemma map_loop {A} (g : A -> A) (l : list A) : for_ (length l) 0 (fun i s => let* v := rd s i in wr s i (g v)) l = Ret (map g l).
Proof.
  destruct (for_inv (fun j s => length s = length l /\ (forall i, (i < j)%nat -> nth_error s i = option_map g (nth_error l i)) /\
     forall i, (j <= i)%nat -> nth_error s i = nth_error l i) (fun i s => let* v := rd s i in wr s i (g v)) (length l) 0 l) as (s & E & L & G & _).
  - split; [auto|]. split; [intros; lia|auto].
  - intros i s Hi (L & G & G'). destruct (nth_error l i) as [v|] eqn:Ev; [|apply nth_error_None in Ev; lia].
    unfold rd. rewrite G', Ev by lia. cbn [bind]. exists (upd s i (g v)). split; [apply wr_ok; lia|]. split; [now rewrite upd_length|]. split.
    + intros j Hj. destruct (Nat.eq_dec j i) as [->|N]; [rewrite nth_error_upd_eq, Ev by lia; reflexivity|]. rewrite nth_error_upd_neq by auto. apply G. lia.
    + intros j Hj. rewrite nth_error_upd_neq by lia. apply G'. lia.
  - rewrite E. f_equal. apply nth_error_ext. intros i. rewrite nth_error_map. destruct (lt_dec i (length l)) as [Hi|Hi]; [apply G; lia|].
    rewrite !(proj2 (nth_error_None _ _)); auto; lia.
Qed.
Lemma shift_ok eps pitch vs : shift_points eps pitch vs = Ret (map (fun v => (snap eps (fst v + pitch / 2), snap eps (snd v + pitch / 2))) vs).
Proof. apply (map_loop (fun v => (snap eps (fst v + pitch / 2), snap eps (snd v + pitch / 2)))). Qed.
Lemma repeat_app' {A} (x : A) n k : repeat x (n + k) = repeat x n ++ repeat x k.
Proof. apply repeat_app. Qed.

(** * Validation *)
Lemma mapo_corners {A} (v : list A) c p : (forall i, In i c -> (0 <= i)%Z) -> map Some p = corners v c -> mapo (rdz v) c = Ret p.
Proof.
  revert p. induction c as [|i c IH]; intros [|x p] H E; try discriminate; auto. cbn in E. injection E as E1 E2.
  cbn [mapo]. rewrite (rdz_nth v i x); [|apply H; now left|now symmetry]. cbn [bind]. rewrite (IH p); auto. intros j Hj. apply H. now right.
Qed.
Lemma checkCCW_id {F} (isCCW : list (F * F) -> bool) k (m : mesh F) : mesh_ok k m ->
  (forall c, In c (fv m) -> exists p, map Some p = corners (mv m) c /\ isCCW p = true) -> checkCCWFaces isCCW k m = Ret m.
Proof.
  intros M H. unfold checkCCWFaces.
  assert (G : forall n i, (i + n <= length (fv m))%nat ->
      for_ n i (fun i m => let* p := getFace m i in if negb (isCCW p) then flipFace k m i else Ret m) m = Ret m); [|apply G; lia].
  induction n as [|n IH]; intros i Hi; auto. cbn [for_].
  destruct (nth_error (fv m) i) as [c|] eqn:Ec; [|apply nth_error_None in Ec; lia].
  assert (I := nth_error_In _ _ Ec). destruct (H c I) as (p & Ep & Hp).
  unfold getFace. unfold rd. rewrite Ec. cbn [bind]. rewrite (mapo_corners _ _ p); auto; [|intros j Hj; apply (M c I); auto].
  cbn [bind]. rewrite Hp. cbn [negb bind]. apply IH. lia.
Qed.
Lemma validate_id {F} stdsort (isCCW : list (F * F) -> bool) selfcheck k (m : mesh F) : sort_contract stdsort -> mesh_ok k m ->
  nedges k = 4%nat -> (forall c, In c (fv m) -> exists p, map Some p = corners (mv m) c /\ isCCW p = true) ->
  watertight (all_edges k (fv m)) ->
  validate stdsort isCCW selfcheck (4 * length (fv m)) k m = if quadratic k then selfcheck m else Ret m.
Proof.
  intros Hs M Hk H W. unfold validate. rewrite checkCCW_id by auto. cbn [bind].
  rewrite (proj2 (proj1 (check_iff stdsort Hs F (4 * length (fv m)) k m (fun c Hc => proj1 (M c Hc))
    ltac:(unfold all_edges; rewrite (concat_length_eq _ 4); [rewrite map_length; lia|];
      intros l Hl; apply in_map_iff in Hl as (c & <- & Hc); rewrite Fvm_Proofs.edges_of_length by (apply (M c Hc)); auto)))) by auto.
  reflexivity.
Qed.

(** * Areas *)
Lemma polygon_area4 (a b c d : R * R) : polygon_area [a; b; c; d] = ((fst c - fst a) * (snd d - snd b) - (snd c - snd a) * (fst d - fst b)) / 2.
Proof. unfold polygon_area. cbn [edges tl firstn app combine map fst snd]. rewrite !rsum_cons, rsum_nil. cbn [fst snd]. field. Qed.
Lemma total_area_map m0 {A} (g : A -> list Z) (a : A -> R) l : (forall x, In x l -> face_area m0 (g x) (a x)) ->
  total_area m0 (map g l) (rsum (map a l)).
Proof.
  intros H. exists (map a l). split; [|auto]. induction l as [|x l IH]; cbn; constructor; [apply H; now left|]. apply IH. intros y Hy. apply H. now right.
Qed.
Lemma rsum_concat ll : rsum (concat ll) = rsum (map rsum ll).
Proof. induction ll as [|l ll IH]; auto. cbn [concat map]. now rewrite rsum_app, rsum_cons, IH. Qed.

(** * The mesh *)
Section Lin.
Variables (eps pitch : R) (radii : list R) (ns : list nat) (K : nat).
Hypothesis HK : (0 < K)%nat.
Hypothesis Hpin : pin_ok radii ns.
Notation h := (pitch / 2).
Notation na := (8 * K)%nat.
Notation n2 := (4 * K)%nat.
Notation dl := (dl K).
Notation C := (C K).
Notation Sn := (Sn K).
Notation M := (M K).
Notation nr := (nr ns).
Notation cum := (cum radii ns).
Notation asl := (asl radii ns).
Hypothesis Hpitch : 0 < pitch.
Hypothesis Heps : 0 < eps.
Hypothesis Heps1 : eps <= sin dl.
Hypothesis Heps2 : eps <= h * sin dl.
Definition eqr (i : nat) : R := sqrt (cum i * (dl / sin dl)).
Hypothesis Hfit : eqr (nr - 1) + eps <= h.

Let Hlen : length ns = length radii. Proof. apply Hpin. Qed.
Let Hne : radii <> []. Proof. apply Hpin. Qed.
Let Hns : forall n, In n ns -> (0 < n)%nat. Proof. apply Hpin. Qed.
Let Hinc : forall k, (k < length radii)%nat -> rad radii k < rad radii (S k). Proof. apply Hpin. Qed.
Let Nr : (0 < nr)%nat. Proof. apply (nr_pos radii ns); auto. Qed.
Let Cpos i : (i < nr)%nat -> 0 < cum i. Proof. apply (cum_pos radii ns); auto. Qed.
Let Sp : 0 < sin dl. Proof. apply sin_dl_pos. auto. Qed.
Let Dp : 0 < dl. Proof. apply dl_pos. auto. Qed.
Lemma dl_na : INR na * dl = 2 * PI.
Proof. unfold PinCyl_Trig_Proofs.dl. rewrite !mult_INR. cbn [INR]. assert (INR K <> 0) by (apply not_0_INR; lia). field. auto. Qed.
Lemma theta_dl : 2 * PI / INR na = dl.
Proof. rewrite <- dl_na. field. apply not_0_INR. lia. Qed.
Lemma kdl_pos : 0 < dl / sin dl.
Proof. now apply Rdiv_lt_0_compat. Qed.
Lemma eqr_sq i : (i < nr)%nat -> eqr i * eqr i = cum i * (dl / sin dl).
Proof. intros H. unfold eqr. apply sqrt_sqrt. apply Rlt_le, Rmult_lt_0_compat; [now apply Cpos|apply kdl_pos]. Qed.
Lemma eqr_pos i : (i < nr)%nat -> 0 < eqr i.
Proof. intros H. apply sqrt_lt_R0. apply Rmult_lt_0_compat; [now apply Cpos|apply kdl_pos]. Qed.
Lemma eqr_le i : (i < nr)%nat -> eqr i + eps <= h.
Proof.
  intros H. eapply Rle_trans; [|exact Hfit]. apply Rplus_le_compat_r. apply sqrt_le_1_alt. apply Rmult_le_compat_r; [apply Rlt_le, kdl_pos|].
  apply cum_mono; auto. lia.
Qed.
Lemma eq_radii1_ok x : eq_radii1 na (asl ++ [x]) nr = Ret (map eqr (seq 0 nr)).
Proof.
  assert (La := asl_length radii ns Hlen).
  unfold eq_radii1. rewrite theta_dl. rewrite (rd_nth _ 0 0) by (rewrite app_length, La; cbn; lia). cbn [bind].
  rewrite wr_ok by (rewrite repeat_length; auto). cbn [bind].
  assert (Nn : INR na <> 0) by (apply not_0_INR; lia). assert (Pp := PI_RGT_0).
  assert (S1 : forall y, 2 * y / (sin dl * INR na) = y / PI * (dl / sin dl)).
  { intros y. replace (INR na) with (2 * PI / dl) by (rewrite <- dl_na; field; lra). field. lra. }
  replace (sqrt (2 * nth 0 (asl ++ [x]) 0 / (sin dl * INR na))) with (eqr 0).
  - apply scan_loop; auto. intros i l Hi Ll E. rewrite (rd_nth _ i 0) by (rewrite app_length, La; cbn; lia). cbn [bind].
    unfold rd. rewrite E. cbn [bind]. f_equal. unfold eqr at 3. f_equal. rewrite S1, eqr_sq by lia.
    rewrite app_nth1 by lia. replace i with (S (i - 1)) at 3 by lia. rewrite cum_S by (auto; lia). replace (S (i - 1)) with i by lia. ring.
  - unfold eqr. f_equal. rewrite S1, app_nth1 by lia. f_equal. unfold PinCyl_Rings_Proofs.cum.
    rewrite (firstn_S_nth radii ns Hlen asl 0) by lia. cbn [firstn app]. rewrite rsum_cons, rsum_nil. f_equal. ring.
Qed.

(** distance from the centre *)
Definition rho (r a : nat) : R := if (r <? nr)%nat then eqr r else h / M a.
Definition raw (v : vx) : R * R :=
  match v with
  | Ctr => (0, 0)
  | Tr i => (eqr 0 / 2 * C (2 * i + 1), eqr 0 / 2 * Sn (2 * i + 1))
  | Qv r a => (rho r a * C a, rho r a * Sn a)
  end.
Definition pos (v : vx) : R * R := (fst (raw v) + h, snd (raw v) + h).
Definition vlist : list vx := [Ctr] ++ map Tr (seq 0 n2) ++ concat (map (fun r => map (Qv r) (seq 0 na)) (seq 0 (nr + 1))).
Definition id (v : vx) : nat :=
  match v with Ctr => 0 | Tr i => 1 + i | Qv r a => 1 + n2 + r * na + a end.
Lemma na_half : (na / 2 = n2)%nat.
Proof. replace na with (n2 * 2)%nat by lia. apply Nat.div_mul. lia. Qed.
Lemma vertices1_ok : vertices1 eps pitch na nr (map eqr (seq 0 nr)) = Ret (map raw vlist).
Proof.
  unfold vertices1. rewrite theta_dl, na_half.
  rewrite wr_ok by (rewrite repeat_length; lia). cbn [bind].
  unfold rd at 1. rewrite nth_error_map_seq by auto. cbn [bind].
  replace (upd (repeat (0, 0) (1 + (nr + 1) * na + n2)) 0 (0, 0)) with ([(0, 0)] ++ repeat (0, 0) n2 ++ (repeat (0, 0) (nr * na) ++ repeat (0, 0) na)).
  2:{ rewrite <- !repeat_app. replace (n2 + (nr * na + na))%nat with ((nr + 1) * na + n2)%nat by lia. reflexivity. }
  rewrite (fill_range _ (fun i => raw (Tr i))).
  2:{ intros i s Hi Hs. cbn [length]. replace (1 + (i - 0))%nat with (1 + i)%nat by lia. f_equal. cbn [raw]. unfold PinCyl_Trig_Proofs.C, PinCyl_Trig_Proofs.Sn.
      replace (dl * (2 * INR i + 1)) with (INR (2 * i + 1) * dl); [auto|]. rewrite plus_INR, mult_INR. cbn [INR]. ring. }
  2:{ apply repeat_length. }
  cbn [bind]. rewrite app_assoc.
  rewrite (fill_blocks _ (fun r => map (fun a => raw (Qv r a)) (seq 0 na)) na).
  2:{ intros r s1 o s2 Hr Ls Lo. rewrite (fill_range _ (fun a => raw (Qv r a))); auto. intros a s Ha Lss.
      unfold rd. rewrite nth_error_map_seq by lia. cbn [bind]. rewrite Ls, !app_length, map_length, seq_length. cbn [length].
      f_equal; [lia|]. cbn [raw]. unfold rho. destruct (Nat.ltb_spec r nr); [|lia].
      rewrite !(Rmult_comm dl). fold (C a) (Sn a). rewrite snap_C, snap_S by auto. auto. }
  2:{ intros. now rewrite map_length, seq_length. }
  2:{ apply repeat_length. }
  cbn [bind]. rewrite app_assoc. rewrite <- (app_nil_r (repeat (0, 0) na)).
  rewrite (fill_range _ (fun a => raw (Qv nr a))).
  2:{ intros a s Ha Lss. rewrite !app_length, map_length, seq_length.
      rewrite (concat_length_eq _ na) by (intros l Hl; apply in_map_iff in Hl as (r & <- & _); now rewrite map_length, seq_length).
      rewrite map_length, seq_length. cbn [length]. f_equal; [lia|]. cbn [raw]. unfold rho. rewrite Nat.ltb_irrefl.
      rewrite !(Rmult_comm dl). fold (C a) (Sn a). rewrite snap_C, snap_S by auto. rewrite bound_r_M by (auto; apply CS).
      fold (M a). assert (Mp := M_pos K a). replace (pitch / (2 * M a)) with (pitch / 2 / M a) by (field; lra). auto. }
  2:{ apply repeat_length. }
  f_equal. unfold vlist. rewrite seq_app, !map_app, concat_app, map_app. cbn [Nat.add seq map concat raw app]. f_equal.
  rewrite !map_map, <- !app_assoc, !app_nil_r. f_equal. rewrite concat_map, !map_map. f_equal. f_equal. apply map_ext. intros r. now rewrite map_map.
Qed.
Lemma vlist_length : length vlist = (1 + (nr + 1) * na + n2)%nat.
Proof.
  unfold vlist. rewrite !app_length, map_length, seq_length.
  rewrite (concat_length_eq _ na) by (intros l Hl; apply in_map_iff in Hl as (r & <- & _); now rewrite map_length, seq_length).
  rewrite map_length, seq_length. cbn [length]. lia.
Qed.
Notation vok := (vok n2 nr).
Lemma vlist_id v : vok v -> nth_error vlist (id v) = Some v.
Proof.
  unfold vlist. destruct v as [|i|r a]; cbn [PinCyl_Edges_Proofs.vok id]; intros H; auto.
  - cbn [Nat.add app nth_error]. rewrite nth_error_app1 by (rewrite map_length, seq_length; lia). now apply nth_error_map_seq.
  - replace (1 + n2 + r * na + a)%nat with (S (n2 + (r * na + a))) by lia. cbn [app nth_error].
    rewrite nth_error_app2; rewrite map_length, seq_length; [|lia]. replace (n2 + (r * na + a) - n2)%nat with (r * na + a)%nat by lia.
    rewrite (nth_error_concat _ na) with (l := map (Qv r) (seq 0 na)); try lia.
    + apply nth_error_map_seq. lia.
    + intros l Hl. apply in_map_iff in Hl as (q & <- & _). now rewrite map_length, seq_length.
    + apply (nth_error_map_seq (fun r => map (Qv r) (seq 0 na))). lia.
Qed.
Lemma vlist_vok v : In v vlist -> vok v.
Proof.
  unfold vlist. rewrite !in_app_iff, in_concat. intros [[<-|[]]|[H|(l & Hl & H)]].
  - exact I.
  - apply in_map_iff in H as (i & <- & H). apply in_seq in H. cbn. lia.
  - apply in_map_iff in Hl as (r & <- & Hr). apply in_map_iff in H as (a & <- & Ha). apply in_seq in Hr, Ha. cbn [PinCyl_Edges_Proofs.vok]. lia.
Qed.
Lemma C_abs a : Rabs (C a) <= 1.
Proof. apply Rabs_le. apply COS_bound. Qed.
Lemma S_abs a : Rabs (Sn a) <= 1.
Proof. apply Rabs_le. apply SIN_bound. Qed.
Lemma in_reach r x : 0 < r -> r + eps <= h -> Rabs x <= 1 -> eps <= r * x + h <= pitch - eps.
Proof. intros Hr Hr' Hx. assert (- 1 <= x <= 1) by (revert Hx; unfold Rabs; destruct (Rcase_abs x); lra). nra. Qed.
(** vertices not on the border are at least [eps] away from it *)
Definition inner (v : vx) : Prop := match v with Qv r _ => (r < nr)%nat | _ => True end.
Lemma pos_inner v : vok v -> inner v -> eps <= fst (pos v) <= pitch - eps /\ eps <= snd (pos v) <= pitch - eps.
Proof.
  assert (E0 := eqr_le 0 Nr). assert (P0 := eqr_pos 0 Nr).
  destruct v as [|i|r a]; cbn [PinCyl_Edges_Proofs.vok inner]; intros H I; unfold pos; cbn [raw fst snd].
  - lra.
  - split; apply in_reach; try lra; [apply C_abs|apply S_abs].
  - unfold rho. destruct (Nat.ltb_spec r nr); [|lia]. split; (apply in_reach; [now apply eqr_pos|now apply eqr_le|]); [apply C_abs|apply S_abs].
Qed.
Lemma snap_pos v : vok v -> (snap eps (fst (raw v) + h), snap eps (snd (raw v) + h)) = pos v.
Proof.
  intros H. assert (D : inner v \/ ~ inner v) by (destruct v as [|i|r a]; cbn; [auto|auto|lia]). destruct D as [I|I].
  - destruct (pos_inner v H I) as [X Y]. unfold pos in *. cbn [fst snd] in X, Y.
    assert (Rabs (fst (raw v) + h) = fst (raw v) + h) by (apply Rabs_right; lra).
    assert (Rabs (snd (raw v) + h) = snd (raw v) + h) by (apply Rabs_right; lra). rewrite !snap_id; auto; right; lra.
  - destruct v as [|i|r a]; try (exfalso; exact (I Logic.I)). cbn [inner] in I. unfold pos. cbn [raw fst snd]. unfold rho. destruct (Nat.ltb_spec r nr); [lia|].
    assert (X := B_snap_x K HK eps h a ltac:(lra) Heps2). assert (Y := B_snap_y K HK eps h a ltac:(lra) Heps2). unfold Bx, By in X, Y. now rewrite X, Y.
Qed.
Definition pts : list (R * R) := map pos vlist.
Lemma shifted : shift_points eps pitch (map raw vlist) = Ret pts.
Proof. rewrite shift_ok. f_equal. rewrite map_map. apply map_ext_in. intros v Hv. apply snap_pos. now apply vlist_vok. Qed.
Lemma pts_id v : vok v -> nth_error pts (id v) = Some (pos v).
Proof. intros H. unfold pts. now rewrite nth_error_map, vlist_id. Qed.
Notation nxt := (nxt n2).
Definition zid (v : vx) : Z := Z.of_nat (id v).
Definition fverts (f : fc) : list vx :=
  match f with
  | F0 i => [Ctr; Qv 0 (2 * i); Qv 0 (2 * i + 1); Tr i]
  | F1 i => [Ctr; Tr i; Qv 0 (2 * i + 1); Qv 0 (nxt (2 * i + 1))]
  | FR r a => [Qv (r - 1) a; Qv r a; Qv r (nxt a); Qv (r - 1) (nxt a)]
  end.
Definition fconn (f : fc) : list Z := map zid (fverts f).
Notation flist := (flist n2 nr).
Notation fok := (fok n2 nr).
Lemma faces1_ok : faces1 na nr = Ret (map fconn flist).
Proof.
  unfold faces1. rewrite na_half.
  replace (repeat [0; 0; 0; 0]%Z (na * (nr + 1))) with ([] ++ repeat [0; 0; 0; 0]%Z na ++ repeat [0; 0; 0; 0]%Z (nr * na)).
  2:{ cbn [app]. rewrite <- repeat_app. f_equal. lia. }
  rewrite (fill_blocks _ (fun i => [fconn (F0 i); fconn (F1 i)]) 2).
  2:{ intros i s1 o s2 Hi Ls Lo. destruct o as [|o1 [|o2 [|]]]; try discriminate. cbn [length Nat.add] in Ls.
      replace (2 * i)%nat with (length s1) by lia. cbn [app]. rewrite wr_ok by (rewrite app_length; cbn; lia). cbn [bind]. rewrite upd_mid.
      match goal with |- wr (s1 ++ ?x :: _) _ _ = _ => replace (s1 ++ x :: o2 :: s2) with ((s1 ++ [x]) ++ o2 :: s2) by now rewrite <- app_assoc end.
      rewrite wr_ok by (rewrite !app_length; cbn; lia).
      match goal with |- context [upd ((s1 ++ [?x]) ++ _) _ _] => replace (length s1 + 1)%nat with (length (s1 ++ [x])) by (rewrite app_length; reflexivity) end.
      rewrite upd_mid, <- app_assoc. cbn [app]. apply f_equal. apply f_equal. assert (i < n2)%nat by lia.
      apply f_equal2; [|apply f_equal2; [|auto]].
      + cbn [fconn fverts map]. unfold zid. cbn [id]. repeat (apply f_equal2; [apply f_equal; lia|]). auto.
      + cbn [fconn fverts map]. unfold zid, PinCyl_Edges_Proofs.nxt. cbn [id].
        destruct (Nat.eqb_spec (1 + n2 + i * 2 + 2) (1 + n2 + na)), (Nat.eqb_spec (S (2 * i + 1)) (2 * n2)); try lia; repeat (apply f_equal2; [apply f_equal; lia|]); auto. }
  2:{ reflexivity. }
  2:{ rewrite repeat_length. lia. }
  cbn [bind app]. rewrite <- (app_nil_r (repeat [0; 0; 0; 0]%Z (nr * na))).
  assert (L1 : length (concat (map (fun i => [fconn (F0 i); fconn (F1 i)]) (seq 0 n2))) = na).
  { rewrite (concat_length_eq _ 2) by (intros l Hl; now apply in_map_iff in Hl as (q & <- & _)). rewrite map_length, seq_length. lia. }
  rewrite (fill_blocks _ (fun r => map (fun a => fconn (FR r a)) (seq 0 na)) na).
  2:{ intros r s1 o s2 Hr Ls Lo. rewrite (fill_range _ (fun a => fconn (FR r a))); auto. intros a s Ha Lss.
      rewrite L1 in Ls. f_equal; [nia|]. cbn [fconn fverts map]. unfold zid, PinCyl_Edges_Proofs.nxt. cbn [id].
      replace (r * na)%nat with ((r - 1) * na + na)%nat by nia. generalize ((r - 1) * na)%nat as rn. intros rn.
      destruct (Nat.eqb_spec (a + 1) na), (Nat.eqb_spec (S a) (2 * n2)); try lia; repeat (apply f_equal2; [apply f_equal; lia|]); auto. }
  2:{ intros. now rewrite map_length, seq_length. }
  2:{ apply repeat_length. }
  f_equal. unfold PinCyl_Edges_Proofs.flist. rewrite map_app, app_nil_r, !concat_map, !map_map. f_equal. f_equal.
  replace (2 * n2)%nat with na by lia. apply map_ext. intros r. now rewrite map_map.
Qed.

Definition msh : mesh R := mkMesh false false pts (map fconn flist) [] [].
Lemma fverts_ok f v : fok f -> In v (fverts f) -> vok v.
Proof.
  destruct f as [i|i|r a]; cbn [PinCyl_Edges_Proofs.fok fverts In]; intros H [<-|[<-|[<-|[<-|[]]]]]; cbn [PinCyl_Edges_Proofs.vok]; try exact I; try lia;
    (split; [lia|]); try lia; apply nxt_lt; lia.
Qed.
Lemma fconn_corners f : fok f -> corners pts (fconn f) = map Some (map pos (fverts f)).
Proof.
  intros H. unfold fconn, corners. rewrite !map_map. apply map_ext_in. intros v Hv. unfold zid. rewrite Nat2Z.id. apply pts_id. now apply (fverts_ok f).
Qed.
Lemma id_lt v : vok v -> (id v < length pts)%nat.
Proof. intros H. apply nth_error_Some. rewrite pts_id by auto. discriminate. Qed.
Lemma msh_ok : mesh_ok Quad msh.
Proof.
  intros c Hc. cbn in Hc. apply in_map_iff in Hc as (f & <- & Hf). apply flist_in in Hf; [|lia]. split; [now destruct f|].
  intros z Hz. unfold fconn in Hz. apply in_map_iff in Hz as (v & <- & Hv). assert (X := id_lt v (fverts_ok f v Hf Hv)). unfold zid. cbn [mv msh]. lia.
Qed.
Lemma id_inj u v : vok u -> vok v -> zid u = zid v -> u = v.
Proof.
  intros Hu Hv E. unfold zid in E. apply Nat2Z.inj in E. apply vlist_id in Hu, Hv. rewrite E in Hu. congruence.
Qed.
Notation ies := (ies n2 nr zid (fun _ => [])).
Lemma msh_edges : all_edges Quad (fv msh) = ies.
Proof.
  unfold all_edges. cbn [fv msh]. unfold PinCyl_Edges_Proofs.ies, vedges. rewrite concat_map, !map_map. f_equal. apply map_ext. intros f.
  now destruct f.
Qed.
Lemma msh_nodup : NoDup ies.
Proof. apply ies_nodup; [lia|]. exact id_inj. Qed.
Lemma msh_watertight : watertight ies.
Proof. apply ies_watertight; [lia|exact id_inj|reflexivity]. Qed.

Lemma C_nxt a : (a < na)%nat -> C (nxt a) = C (S a).
Proof. intros H. unfold PinCyl_Edges_Proofs.nxt. destruct (Nat.eqb_spec (S a) (2 * n2)) as [E|E]; auto. rewrite E. symmetry. replace (2 * n2)%nat with (0 + na)%nat by lia. now apply C_period. Qed.
Lemma S_nxt a : (a < na)%nat -> Sn (nxt a) = Sn (S a).
Proof. intros H. unfold PinCyl_Edges_Proofs.nxt. destruct (Nat.eqb_spec (S a) (2 * n2)) as [E|E]; auto. rewrite E. symmetry. replace (2 * n2)%nat with (0 + na)%nat by lia. now apply S_period. Qed.
Lemma M_nxt a : (a < na)%nat -> M (nxt a) = M (S a).
Proof. intros H. unfold PinCyl_Trig_Proofs.M. now rewrite C_nxt, S_nxt. Qed.
Lemma turn a : C a * Sn (S a) - Sn a * C (S a) = sin dl.
Proof. unfold PinCyl_Trig_Proofs.C, PinCyl_Trig_Proofs.Sn. rewrite (Rmult_comm (sin (INR a * dl))), (Rmult_comm (cos (INR a * dl))), <- sin_minus. f_equal. rewrite S_INR. ring. Qed.
(** the four corners of a face, in polar coordinates *)
Definition polar (a : nat) (r : R) : R * R := (r * C a + h, r * Sn a + h).
Lemma polar_area a r0 r1 r2 r3 : polygon_area [polar a r0; polar a r1; polar (S a) r2; polar (S a) r3] = (r1 * r2 - r0 * r3) * sin dl / 2.
Proof. rewrite polygon_area4, <- (turn a). unfold polar. cbn [fst snd]. field. Qed.
Lemma polar_area' a r0 r1 r2 r3 : polygon_area [polar a r0; polar a r1; polar a r2; polar (S a) r3] = (r2 - r0) * r3 * sin dl / 2.
Proof. rewrite polygon_area4, <- (turn a). unfold polar. cbn [fst snd]. field. Qed.
Lemma oriented a b c : 0 <= eps -> 0 <= (fst b - fst a) * (snd c - snd a) - (snd b - snd a) * (fst c - fst a) -> areApproxCCW Rarith eps a b c = true.
Proof. intros He H. unfold areApproxCCW. rewrite oleb_R, cross2_R. unfold psub. cbn. lra. Qed.
Lemma polar_ccw a r0 r1 r2 r3 : 0 <= r0 -> r0 <= r1 -> 0 <= r3 -> r3 <= r2 -> face_isCCW eps [polar a r0; polar a r1; polar (S a) r2; polar (S a) r3] = true.
Proof.
  intros H0 H1 H3 H2. unfold face_isCCW, quad_isCCW. apply andb_true_iff. split; apply oriented; try lra; unfold polar; cbn [fst snd].
  - replace (_ - _) with ((r1 - r0) * r2 * (C a * Sn (S a) - Sn a * C (S a))) by ring. rewrite turn. apply Rmult_le_pos; [|lra]. apply Rmult_le_pos; lra.
  - replace (_ - _) with (r0 * (r2 - r3) * (C a * Sn (S a) - Sn a * C (S a))) by ring. rewrite turn. apply Rmult_le_pos; [|lra]. apply Rmult_le_pos; lra.
Qed.
Lemma polar_ccw' a r1 r2 r3 : 0 <= r2 -> 0 <= r3 -> face_isCCW eps [polar a 0; polar a r1; polar a r2; polar (S a) r3] = true.
Proof.
  intros H2 H3. unfold face_isCCW, quad_isCCW. apply andb_true_iff. split; apply oriented; try lra; unfold polar; cbn [fst snd].
  - right. ring.
  - replace (_ - _) with (r2 * r3 * (C a * Sn (S a) - Sn a * C (S a))) by ring. rewrite turn. apply Rmult_le_pos; [|lra]. apply Rmult_le_pos; lra.
Qed.
Lemma polar_C a : pos Ctr = polar a 0.
Proof. unfold pos, polar. cbn. f_equal; ring. Qed.
Lemma polar_T i : pos (Tr i) = polar (2 * i + 1) (eqr 0 / 2).
Proof. reflexivity. Qed.
Lemma polar_Q r a : pos (Qv r a) = polar a (rho r a).
Proof. reflexivity. Qed.
Lemma rho_nxt r a : (a < na)%nat -> rho r (nxt a) = rho r (S a).
Proof. intros H. unfold rho. now rewrite M_nxt. Qed.
Lemma polar_Qn r a : (a < na)%nat -> pos (Qv r (nxt a)) = polar (S a) (rho r (S a)).
Proof. intros H. rewrite polar_Q. unfold polar. now rewrite rho_nxt, C_nxt, S_nxt. Qed.
Lemma rho_pos r a : (r <= nr)%nat -> 0 < rho r a.
Proof. intros H. unfold rho. destruct (Nat.ltb_spec r nr); [now apply eqr_pos|]. apply Rdiv_lt_0_compat; [lra|apply M_pos]. Qed.
Lemma M_le1 a : M a <= 1.
Proof. unfold PinCyl_Trig_Proofs.M. apply Rmax_lub; [apply C_abs|apply S_abs]. Qed.
Lemma rho_border a : h <= h / M a.
Proof.
  assert (Mp := M_pos K a). assert (Ml := M_le1 a). apply Rmult_le_reg_r with (M a); auto. replace (h / M a * M a) with h by (field; lra). nra.
Qed.
Lemma rho_incr r a b : (1 <= r <= nr)%nat -> rho (r - 1) a < rho r b.
Proof.
  intros H. unfold rho at 1. destruct (Nat.ltb_spec (r - 1) nr); [|lia]. unfold rho. destruct (Nat.ltb_spec r nr).
  - unfold eqr. apply sqrt_lt_1_alt. assert (X := kdl_pos). assert (Y := Cpos (r - 1) ltac:(lia)). split; [apply Rlt_le; now apply Rmult_lt_0_compat|].
    apply Rmult_lt_compat_r; auto. replace r with (S (r - 1)) at 2 by lia. rewrite cum_S by (auto; lia).
    assert (Z := asl_nth_pos radii ns Hlen Hns Hinc r ltac:(lia)). replace (S (r - 1)) with r by lia.
    assert (0 < nth r asl 0 / PI) by (apply Rdiv_lt_0_compat; [auto|apply PI_RGT_0]). lra.
  - apply Rlt_le_trans with h; [|apply rho_border]. assert (E := eqr_le (r - 1) ltac:(lia)). lra.
Qed.
Lemma face_ccw f : fok f -> face_isCCW eps (map pos (fverts f)) = true.
Proof.
  assert (E0 := eqr_pos 0 Nr). assert (R0 : forall a, rho 0 a = eqr 0) by (intros; unfold rho; destruct (Nat.ltb_spec 0 nr); [auto|lia]).
  destruct f as [i|i|r a]; cbn [PinCyl_Edges_Proofs.fok fverts map]; intros H.
  - rewrite (polar_C (2 * i)), polar_T, !polar_Q. replace (2 * i + 1)%nat with (S (2 * i)) by lia. rewrite !R0. apply polar_ccw; lra.
  - rewrite (polar_C (2 * i + 1)), polar_T, polar_Qn, polar_Q by lia. rewrite !R0. apply polar_ccw'; lra.
  - rewrite !polar_Qn, !polar_Q by lia. apply polar_ccw; apply Rlt_le; try (apply rho_pos; lia); apply rho_incr; lia.
Qed.
Definition farea (f : fc) : R :=
  match f with
  | F0 _ => eqr 0 * eqr 0 * sin dl / 2
  | F1 _ => eqr 0 * eqr 0 * sin dl / 2
  | FR r a => (rho r a * rho r (S a) - rho (r - 1) a * rho (r - 1) (S a)) * sin dl / 2
  end.
Lemma farea_ok f : fok f -> face_area msh (fconn f) (farea f).
Proof.
  intros H. exists (map pos (fverts f)). split; [symmetry; now apply fconn_corners|].
  assert (R0 : forall a, rho 0 a = eqr 0) by (intros; unfold rho; destruct (Nat.ltb_spec 0 nr); [auto|lia]).
  destruct f as [i|i|r a]; cbn [PinCyl_Edges_Proofs.fok fverts map farea] in *.
  - rewrite (polar_C (2 * i)), polar_T, !polar_Q. replace (2 * i + 1)%nat with (S (2 * i)) by lia. rewrite !R0, polar_area. field.
  - rewrite (polar_C (2 * i + 1)), polar_T, polar_Qn, polar_Q by lia. rewrite !R0, polar_area'. field.
  - rewrite !polar_Qn, !polar_Q by lia. apply polar_area.
Qed.
Lemma farea_pos f : fok f -> 0 < farea f.
Proof.
  assert (E0 := eqr_pos 0 Nr). destruct f as [i|i|r a]; cbn [PinCyl_Edges_Proofs.fok farea]; intros H.
  - assert (0 < eqr 0 * eqr 0) by now apply Rmult_lt_0_compat. nra.
  - assert (0 < eqr 0 * eqr 0) by now apply Rmult_lt_0_compat. nra.
  - assert (X := rho_pos (r - 1) a ltac:(lia)). assert (X' := rho_pos (r - 1) (S a) ltac:(lia)).
    assert (Y := rho_incr r a a ltac:(lia)). assert (Y' := rho_incr r (S a) (S a) ltac:(lia)).
    assert (0 < rho r a * rho r (S a) - rho (r - 1) a * rho (r - 1) (S a)) by nra. nra.
Qed.
Lemma dl_half x : x / PI * dl / 2 = x / INR na.
Proof. rewrite <- theta_dl. field. split; [apply not_0_INR; lia|apply PI_neq0]. Qed.
Lemma area_first : eqr 0 * eqr 0 * sin dl / 2 = nth 0 asl 0 / INR na.
Proof.
  rewrite eqr_sq by auto. rewrite <- dl_half. unfold PinCyl_Rings_Proofs.cum. assert (La := asl_length radii ns Hlen). rewrite (firstn_S_nth radii ns Hlen asl 0) by lia.
  cbn [firstn app]. rewrite rsum_cons, rsum_nil. field. split; first [apply PI_neq0|lra].
Qed.
Lemma area_ring r a : (1 <= r < nr)%nat -> farea (FR r a) = nth r asl 0 / INR na.
Proof.
  intros H. cbn [farea]. unfold rho. destruct (Nat.ltb_spec r nr); [|lia]. destruct (Nat.ltb_spec (r - 1) nr); [|lia].
  rewrite !eqr_sq by lia. rewrite <- dl_half. replace r with (S (r - 1)) at 1 by lia. rewrite cum_S by (auto; lia). replace (S (r - 1)) with r by lia.
  field. split; first [apply PI_neq0|lra].
Qed.
Lemma area_outer : rsum (map (fun a => farea (FR nr a)) (seq 0 na)) = pitch * pitch - PI * (rad radii (length radii) * rad radii (length radii)).
Proof.
  rewrite (Poly_Proofs.rsum_map_ext _ (fun a => h * h / 2 * wedge K a + - (cum (nr - 1) * dl / 2))).
  - rewrite Poly_Proofs.rsum_map_plus, Poly_Proofs.rsum_map_scal, rsum_const, wedge_total by auto.
    rewrite cum_last by auto. change (m radii) with (length radii).
    replace (INR na * - (rad radii (length radii) * rad radii (length radii) * dl / 2)) with (- (INR na * dl) * (rad radii (length radii) * rad radii (length radii)) / 2) by field.
    rewrite dl_na. field.
  - intros a. cbn [farea]. unfold rho. rewrite Nat.ltb_irrefl. destruct (Nat.ltb_spec (nr - 1) nr); [|lia]. rewrite eqr_sq by lia.
    unfold wedge. assert (X := M_pos K a). assert (Y := M_pos K (S a)). field. lra.
Qed.
(** * Rings of faces *)
Definition ringf (r a : nat) : fc :=
  if (r =? 0)%nat then (if Nat.even a then F0 (Nat.div2 a) else F1 (Nat.div2 a)) else FR r a.
Lemma tri_ring n : forall s, concat (map (fun i => [F0 i; F1 i]) (seq s n)) = map (ringf 0) (seq (2 * s) (2 * n)).
Proof.
  induction n as [|n IH]; intros s; auto. cbn [seq map concat app]. rewrite IH. replace (2 * S n)%nat with (S (S (2 * n))) by lia.
  cbn [seq map]. replace (S (S (2 * s))) with (2 * S s)%nat by lia. unfold ringf at 2 3. cbn [Nat.eqb].
  replace (Nat.even (2 * s)) with true by (symmetry; apply Nat.even_spec; now exists s).
  replace (Nat.even (S (2 * s))) with false by (symmetry; rewrite Nat.even_succ; apply not_true_is_false; intros X; apply Nat.odd_spec in X as (k & X); lia).
  now rewrite Nat.div2_double, Nat.div2_succ_double.
Qed.
Lemma flist_rings : flist = concat (map (fun r => map (ringf r) (seq 0 na)) (seq 0 (1 + nr))).
Proof.
  unfold PinCyl_Edges_Proofs.flist. rewrite tri_ring. cbn [Nat.add seq map concat]. replace (2 * n2)%nat with na by lia. f_equal. f_equal.
  apply map_ext_in. intros r Hr. apply in_seq in Hr. apply map_ext. intros a. unfold ringf. destruct (Nat.eqb_spec r 0); [lia|auto].
Qed.
Lemma flist_nth r a : (r <= nr)%nat -> (a < na)%nat -> nth_error flist (r * na + a) = Some (ringf r a).
Proof.
  intros Hr Ha. rewrite flist_rings. rewrite (nth_error_concat _ na) with (l := map (ringf r) (seq 0 na)); auto.
  - now apply nth_error_map_seq.
  - intros l Hl. apply in_map_iff in Hl as (q & <- & _). now rewrite map_length, seq_length.
  - apply (nth_error_map_seq (fun r => map (ringf r) (seq 0 na))). lia.
Qed.
Lemma flist_length : length flist = (na * (nr + 1))%nat.
Proof.
  rewrite flist_rings, (concat_length_eq _ na); [rewrite map_length, seq_length; lia|].
  intros l Hl. apply in_map_iff in Hl as (q & <- & _). now rewrite map_length, seq_length.
Qed.
Lemma flist_outer : skipn (nr * na) flist = map (FR nr) (seq 0 na).
Proof.
  rewrite flist_rings. replace (seq 0 (1 + nr)) with (seq 0 nr ++ [nr]) by (rewrite <- (seq_app nr 1); f_equal; lia).
  rewrite map_app, concat_app, skipn_app, skipn_all2, (concat_length_eq _ na), map_length, seq_length.
  - rewrite Nat.sub_diag. cbn [map concat app skipn]. rewrite app_nil_r. apply map_ext. intros a. unfold ringf. destruct (Nat.eqb_spec nr 0); [lia|auto].
  - intros l Hl. apply in_map_iff in Hl as (q & <- & _). now rewrite map_length, seq_length.
  - rewrite (concat_length_eq _ na); [now rewrite map_length, seq_length|].
    intros l Hl. apply in_map_iff in Hl as (q & <- & _). now rewrite map_length, seq_length.
Qed.
Lemma ringf_ok r a : (r <= nr)%nat -> (a < na)%nat -> fok (ringf r a).
Proof. intros Hr Ha. apply flist_in; [lia|]. eapply nth_error_In. now apply flist_nth. Qed.
Lemma ringf_area r a : (r < nr)%nat -> farea (ringf r a) = nth r asl 0 / INR na.
Proof.
  intros H. unfold ringf. destruct (Nat.eqb_spec r 0) as [->|N].
  - destruct (Nat.even a); cbn [farea]; apply area_first.
  - apply area_ring. lia.
Qed.
Lemma asl_total : rsum asl = PI * (rad radii (length radii) * rad radii (length radii)).
Proof.
  assert (X := cum_last radii ns Hlen Hne Hns Hinc). unfold PinCyl_Rings_Proofs.cum in X. replace (S (nr - 1)) with nr in X by lia.
  rewrite <- (asl_length radii ns Hlen), firstn_all in X. change (m radii) with (length radii) in X. rewrite <- X. field. apply PI_neq0.
Qed.
Lemma area_total : rsum (map farea flist) = pitch * pitch.
Proof.
  rewrite flist_rings. replace (seq 0 (1 + nr)) with (seq 0 nr ++ [nr]) by (rewrite <- (seq_app nr 1); f_equal; lia).
  rewrite map_app, concat_app, map_app, rsum_app. cbn [map concat]. rewrite app_nil_r, map_map.
  rewrite (rsum_seq_ext (fun a => farea (ringf nr a)) (fun a => farea (FR nr a)) na 0 0).
  2:{ intros i _. unfold ringf. destruct (Nat.eqb_spec nr 0); [lia|auto]. }
  rewrite area_outer, concat_map, rsum_concat, !map_map.
  rewrite (rsum_seq_ext _ (fun r => nth r asl 0) nr 0 0).
  2:{ intros r Hr. cbn [Nat.add]. rewrite map_map. rewrite (rsum_seq_ext _ (fun _ => nth r asl 0 / INR na) na 0 0) by (intros; now apply ringf_area).
      rewrite rsum_const. field. apply not_0_INR. lia. }
  rewrite <- (asl_length radii ns Hlen). replace (map (fun r => nth r asl 0) (seq 0 (length asl))) with asl; [rewrite asl_total; ring|].
  apply nth_error_ext. intros i. destruct (lt_dec i (length asl)) as [Hi|Hi].
  - rewrite nth_error_map_seq by auto. now apply nth_error_nth'.
  - rewrite !(proj2 (nth_error_None _ _)); auto; [rewrite map_length, seq_length|]; lia.
Qed.
(** * The border *)
Lemma pos_square v : vok v -> 0 <= fst (pos v) <= pitch /\ 0 <= snd (pos v) <= pitch.
Proof.
  intros H. assert (D : inner v \/ ~ inner v) by (destruct v as [|i|r a]; cbn; [auto|auto|lia]). destruct D as [I|I].
  - destruct (pos_inner v H I). lra.
  - destruct v as [|i|r a]; try (exfalso; exact (I Logic.I)). cbn [inner] in I. unfold pos. cbn [raw fst snd]. unfold rho. destruct (Nat.ltb_spec r nr); [lia|].
    assert (X := Bx_abs K h a ltac:(lra)). assert (Y := By_abs K h a ltac:(lra)). unfold Bx, By in X, Y.
    revert X Y. unfold Rabs. do 2 destruct Rcase_abs; lra.
Qed.
Lemma outer_side a : (a < na)%nat -> exists u v, side u v /\ u * Bx K h a + v * By K h a = h /\ u * Bx K h (S a) + v * By K h (S a) = h.
Proof.
  intros Ha. destruct (octant_side K HK (a / K)) as (u & v & S & G). exists u, v. assert (D := Nat.div_mod a K ltac:(lia)). assert (L := Nat.mod_upper_bound a K ltac:(lia)).
  split; [auto|]. split; apply G; nia.
Qed.
Lemma border_iff u v : In (u, v) (vedges n2 nr) -> (on_border msh pitch pitch [zid u; zid v] <-> exists a, (a < 2 * n2)%nat /\ (u, v) = (Qv nr a, Qv nr (nxt a))).
Proof.
  intros H. destruct (vedges_ok n2 nr ltac:(lia) u v H) as (Hu & Hv & N).
  assert (Q : corners (mv msh) [zid u; zid v] = [Some (pos u); Some (pos v)]).
  { cbn [corners map mv msh]. unfold zid. now rewrite !Nat2Z.id, !pts_id. }
  unfold on_border. rewrite Q. split.
  - intros (p & q & E & B). injection E as <- <-.
    assert (Iu : ~ inner u). { intros I. destruct (pos_inner u Hu I). lra. }
    assert (Iv : ~ inner v). { intros I. destruct (pos_inner v Hv I). lra. }
    destruct u as [|i|r a]; try (exfalso; exact (Iu Logic.I)). destruct v as [|j|s b]; try (exfalso; exact (Iv Logic.I)).
    cbn [inner PinCyl_Edges_Proofs.vok] in *. replace r with nr in * by lia. replace s with nr in * by lia. exists a. split; [lia|]. f_equal.
    apply vedges_in in H as (f & Hf & H); [|lia]. destruct f as [i|i|q c]; cbn [PinCyl_Edges_Proofs.fok fedges In] in *;
      destruct H as [H|[H|[H|[H|[]]]]]; try discriminate; injection H; intros; subst; try lia; auto.
  - intros (a & Ha & E). injection E as -> ->. exists (pos (Qv nr a)), (pos (Qv nr (nxt a))). split; [auto|].
    rewrite polar_Q, polar_Qn by lia. unfold polar, rho. rewrite Nat.ltb_irrefl. cbn [fst snd].
    destruct (outer_side a ltac:(lia)) as (x & y & S & E1 & E2). unfold Bx, By in E1, E2.
    destruct S as [[-> ->]|[[-> ->]|[[-> ->]|[-> ->]]]]; [right; left|right; right; right|left|right; right; left]; split; lra.
Qed.
Lemma msh_border e : In e ies -> (In (reverse_edge e) ies <-> ~ on_border msh pitch pitch e).
Proof.
  intros H. apply in_map_iff in H as ((u & v) & <- & H). rewrite ies_rev; auto; [|lia|exact id_inj]. unfold ide. cbn [fst snd].
  now rewrite border_iff.
Qed.
Lemma vertices_square v : In v (mv msh) -> 0 <= fst v <= pitch /\ 0 <= snd v <= pitch.
Proof. intros H. cbn [mv msh] in H. unfold pts in H. apply in_map_iff in H as (x & <- & Hx). apply pos_square. now apply vlist_vok. Qed.
(** a vertex of ring r of faces is at distance [eqr r] of the centre *)
Lemma existsb_false {A} (f : A -> bool) l : (forall x, In x l -> f x = false) -> existsb f l = false.
Proof. induction l as [|x l IH]; intros H; auto. cbn. rewrite H, IH; auto; [intros; apply H; now right|now left]. Qed.
Lemma rad_le k : (k <= length radii)%nat -> rad radii k <= rad radii (length radii).
Proof.
  intros H. remember (length radii - k)%nat as d eqn:Ed. revert k H Ed. induction d as [|d IH]; intros k H Ed; [replace k with (length radii) by lia; lra|].
  assert (X := Hinc k ltac:(lia)). assert (Y := IH (S k) ltac:(lia) ltac:(lia)). lra.
Qed.
Lemma last_le : rad radii (length radii) <= eqr (nr - 1).
Proof.
  apply Rsqr_incr_0_var; [|apply Rlt_le, eqr_pos; lia]. unfold Rsqr. rewrite eqr_sq by lia. rewrite cum_last by auto. change (m radii) with (length radii).
  assert (X : 1 <= dl / sin dl).
  { apply Rmult_le_reg_r with (sin dl); auto. replace (dl / sin dl * sin dl) with dl by (field; lra). assert (Y := sin_lt_x dl Dp). assert (Z := dl_le K HK). assert (P := PI_RGT_0). lra. }
  assert (0 <= rad radii (length radii) * rad radii (length radii)) by apply Rle_0_sqr. nra.
Qed.
Lemma radii_fit r : In r radii -> r <= rad radii (length radii).
Proof. intros H. apply (In_nth _ _ 0) in H as (k & Hk & <-). apply (rad_le (S k)). lia. Qed.
Hypothesis Hmax : (Z.of_nat (1 + (nr + 1) * na + n2) <= intMax)%Z.
Hypothesis Hpow : Z.land (Z.of_nat na) (Z.of_nat na - 1) = 0%Z.
Lemma add_linear stdsort selfcheck exit quads quad8s : sort_contract stdsort ->
  addCylindricalPinMesh stdsort selfcheck eps exit quads quad8s pitch radii ns (Z.of_nat na) 1 = Ret (quads ++ [msh], quad8s, Z.of_nat (length quads)).
Proof.
  intros Hs. unfold addCylindricalPinMesh. cbn [Z.eqb Pos.eqb orb negb].
  destruct (Z.ltb_spec (Z.of_nat na) 8); [lia|]. rewrite Hpow. cbn [Z.eqb negb]. rewrite Hlen, Nat.eqb_refl. cbn [negb].
  rewrite existsb_false by (intros r Hr; apply Rltb_false; apply radii_fit in Hr; assert (X := last_le); lra).
  rewrite (rings_ok pitch radii ns Hlen Hne Hns Hinc). cbn [bind]. rewrite fold_add, Nat2Z.id. change (0 + list_sum ns)%nat with nr.
  rewrite eq_radii1_ok. cbn [bind].
  rewrite existsb_false by (intros r Hr; apply Rltb_false; apply in_map_iff in Hr as (i & <- & Hi); apply in_seq in Hi; assert (X := eqr_le i ltac:(lia)); lra).
  rewrite na_half. rewrite i32_ok by (unfold in_i32, intMin; lia). cbn [bind].
  rewrite vertices1_ok. cbn [bind]. rewrite faces1_ok. cbn [bind]. rewrite shifted. cbn [bind].
  fold msh. change (map fconn flist) with (fv msh). rewrite (validate_id stdsort (face_isCCW eps) selfcheck Quad msh Hs msh_ok eq_refl); [reflexivity| |].
  - intros c Hc. cbn in Hc. apply in_map_iff in Hc as (f & <- & Hf). apply flist_in in Hf; [|lia]. exists (map pos (fverts f)).
    split; [symmetry; now apply fconn_corners|now apply face_ccw].
  - rewrite msh_edges. apply msh_watertight.
Qed.
End Lin.
