(** The data of a nuclide. *)
From Coq Require Import String Ascii.
From Coq Require Import List Arith ZArith Bool Reals Lia Lra.
From Verif Require Import Base Loops Arith Matrix_Model Matrix_Spec Matrix_Proofs StringView_Model StringView_Spec StringView_Proofs Elem_Model Soup_Model Soup_Spec TextIo_Model TextIo_Spec TextIo_Proofs
  Abaqus_Spec Vtk_Model Vtk_Spec Vtk_Proofs Stats_Spec XSec_Model XSec_Spec XSec_Proofs XSec_Use_Proofs Library_Model Library_Spec Library_Text_Proofs.
Import ListNotations.
Local Open Scope list_scope.
Local Open Scope nat_scope.

(** the group whose line has the value *)
Definition line_of (r : reaction) (g : nat) : nat := match r with ScatterTo g' => g' | _ => g end.
(** the lines of the first [k] groups have been read *)
Definition filled (ng k : nat) (x0 x : xsec) : Prop :=
  shape ng x0 /\ isMacro x0 = false /\ (isFissile x0 = true <-> exists g, g < k /\ (0 < value x Fission g)%R) /\
  forall r g, known ng r -> g < ng -> value x0 r g = if line_of r g <? k then value x r g else 0%R.

Lemma Rltb_true a b : Rltb a b = true <-> (a < b)%R.
Proof. unfold Rltb. destruct (Rlt_dec a b); split; auto; discriminate. Qed.
Lemma nth_next (l : list R) (f : nat -> R) k ng v : length l = ng -> k < ng -> (forall g, g < ng -> nth g l 0%R = if g <? k then f g else 0%R) -> v = f k ->
  exists l', wr l k v = Ret l' /\ length l' = ng /\ forall g, g < ng -> nth g l' 0%R = if g <? S k then f g else 0%R.
Proof.
  intros L K H ->. exists (upd l k (f k)). split; [apply wr_ok; lia|]. split; [now rewrite upd_length|]. intros g Hg. rewrite nth_upd.
  rewrite (proj2 (Nat.ltb_lt k (length l))) by lia. rewrite andb_true_r. destruct (Nat.eqb_spec g k) as [->|N]; [destruct (Nat.ltb_spec k (S k)); auto; lia|].
  rewrite H by auto. destruct (Nat.ltb_spec g k), (Nat.ltb_spec g (S k)); auto; lia.
Qed.
Lemma nth_zero (l : list R) (f : nat -> R) k ng : (forall g, g < ng -> nth g l 0%R = if g <? k then f g else 0%R) -> f k = 0%R ->
  forall g, g < ng -> nth g l 0%R = if g <? S k then f g else 0%R.
Proof.
  intros H Z g Hg. rewrite H by auto. destruct (Nat.ltb_spec g k), (Nat.ltb_spec g (S k)); auto; try lia. assert (g = k) as -> by lia. auto.
Qed.

Section Checks.
Variable checks : bool.
Notation assert_true := (assert_true checks).
Lemma scattering_ok r : stops r -> forall vs lo cnt ig ng f h v m, Forall2 (fun j t => real_text t (f (j - 1))) (seq lo cnt) vs -> wview r vs v -> 1 <= lo -> lo + cnt - 1 <= ng -> ig < ng ->
  (Z.of_nat ng <= intMax)%Z -> is_mat Rarith m ng ng h ->
  exists m' v', scattering ig (Z.of_nat lo - 1) cnt v m = Ret (m', v') /\ wview r [] v' /\
    is_mat Rarith m' ng ng (fun i j => if (i =? ig) && ((lo <=? j + 1) && (j + 1 <? lo + cnt)) then f j else h i j).
Proof.
  intros Hr vs lo cnt ig ng f h v m F W L1 L2 Hi Hng Hm. unfold scattering.
  assert (G : forall cnt k vs v m h, Forall2 (fun j t => real_text t (f (j - 1))) (seq (lo + k) cnt) vs -> wview r vs v -> lo + k + cnt - 1 <= ng -> is_mat Rarith m ng ng h ->
    exists m' v', for_ cnt k (fun icol st => let* t := real_token (snd st) in let* col := i32 (Z.of_nat lo - 1 + Z.of_nat icol) in
      let* m := (if (col <? 0)%Z then Ub else set (fst st) ig (Z.to_nat col) (fst t)) in Ret (m, snd t)) (m, v) = Ret (m', v') /\ wview r [] v' /\
      is_mat Rarith m' ng ng (fun i j => if (i =? ig) && ((lo + k <=? j + 1) && (j + 1 <? lo + k + cnt)) then f j else h i j)).
  { clear cnt vs v m h F W L2 Hm. induction cnt as [|cnt IH]; intros k vs v m h F W L2 Hm.
    - inversion F; subst. exists m, v. split; [reflexivity|]. split; [exact W|]. eapply is_mat_ext; [exact Hm|]. intros i j Hi' Hj. cbn beta.
      destruct (Nat.leb_spec (lo + k) (j + 1)), (Nat.ltb_spec (j + 1) (lo + k + 0)); cbn [andb]; rewrite ?andb_false_r; auto; lia.
    - cbn [seq] in F. inversion F as [|? t ? ts Ht F']; subst. destruct (real_token_ok r t ts v _ Hr W Ht) as (v1 & E & W1). cbn [for_ bind snd fst]. rewrite E. cbn [bind snd fst].
      rewrite i32_ok by (unfold in_i32, intMin; unfold intMax in *; lia). cbn [bind].
      destruct (Z.ltb_spec (Z.of_nat lo - 1 + Z.of_nat k) 0); [lia|]. replace (Z.to_nat (Z.of_nat lo - 1 + Z.of_nat k)) with (lo + k - 1) by lia.
      destruct (set_is Rarith m ng ng h ig (lo + k - 1) (f (lo + k - 1)) Hm Hi) as (m1 & E1 & Hm1); [lia|]. rewrite E1. cbn [bind].
      replace (S (lo + k)) with (lo + S k) in F' by lia. destruct (fun Hl => IH (S k) ts v1 m1 _ F' W1 Hl Hm1) as (m' & v' & E' & W' & Hm'); [lia|].
      exists m', v'. split; [exact E'|]. split; [exact W'|]. eapply is_mat_ext; [exact Hm'|]. intros i j Hi' Hj. cbn beta.
      destruct (Nat.eqb_spec i ig), (Nat.leb_spec (lo + S k) (j + 1)), (Nat.ltb_spec (j + 1) (lo + S k + cnt)), (Nat.leb_spec (lo + k) (j + 1)),
        (Nat.ltb_spec (j + 1) (lo + k + S cnt)), (Nat.eqb_spec j (lo + k - 1)); cbn [andb]; auto; try lia; f_equal; lia. }
  destruct (G cnt 0 vs v m h) as (m' & v' & E & W' & Hm'); rewrite ?Nat.add_0_r; auto.
  exists m', v'. split; [exact E|]. split; [exact W'|]. rewrite ?Nat.add_0_r in Hm'. exact Hm'.
Qed.

Lemma data_line_ok ng x0 x ig it l r fis : filled ng ig x0 x -> ig < ng -> row_text ng x ig it l -> stops r ->
  exists v x1, data_line checks ig it (V l r) fis x0 = Ret (v, Rltb 0 (value x Fission ig) || fis, x1) /\ filled ng (S ig) x1 x.
Proof.
  intros (Sh & Mi & Fi & Va) Hi Row Hr. pose proof Sh as (S1 & S2 & S3 & S4 & S5 & S6 & S7 & S8 & S9).
  assert (Hng : (Z.of_nat ng <= intMax)%Z) by (pose proof (shape_size _ _ Sh); nia).
  assert (V1 : forall g, g < ng -> nth g (xa x0) 0%R = if g <? ig then value x Absorption g else 0%R) by (intros g; exact (Va Absorption g Logic.I)).
  assert (V2 : forall g, g < ng -> nth g (xf x0) 0%R = if g <? ig then value x Fission g else 0%R) by (intros g; exact (Va Fission g Logic.I)).
  assert (V3 : forall g, g < ng -> nth g (xnuf x0) 0%R = if g <? ig then value x NuFission g else 0%R) by (intros g; exact (Va NuFission g Logic.I)).
  assert (V4 : forall g, g < ng -> nth g (xtr x0) 0%R = if g <? ig then value x Transport g else 0%R) by (intros g; exact (Va Transport g Logic.I)).
  assert (V5 : forall g, g < ng -> nth g (xs x0) 0%R = if g <? ig then value x Scattering g else 0%R) by (intros g; exact (Va Scattering g Logic.I)).
  assert (V6 : is_mat Rarith (xss x0) ng ng (fun i j => if i <? ig then value x (ScatterTo i) j else 0%R)).
  { split; [exact S9|]. split; [exact S7|]. split; [exact S8|]. intros i j Hi' Hj. exact (Va (ScatterTo i) j Hi' Hj). }
  unfold data_line. destruct Row as [tg tt ta W Hg Ht Ha Hf Hn Htr Hs Hss|tg tt ta tf tnu ttr ts tlo thi vs lo hi W Hg Ht Ha Hf Hn Htr Hs Hlo Hhi L1 L2 Hvs Hz].
  - destruct (strip_words _ _ _ r W) as (l' & -> & W' & _). cbn [bind].
    destruct (index_token_ok checks r tg _ _ _ Hr (wv_text _ _ _ W') Hg) as (v1 & -> & W1). cbn [bind].
    destruct (index_token_ok checks r tt _ _ _ Hr W1 Ht) as (v2 & -> & W2). cbn [bind].
    destruct (real_token_ok r ta _ _ _ Hr W2 Ha) as (v3 & -> & W3). cbn [bind fst snd].
    destruct (nth_next _ _ _ _ _ S2 Hi V1 eq_refl) as (la & -> & La & Na). cbn [bind].
    destruct (wview_end r v3 W3) as (v4 & ->). cbn [bind fst snd]. change (vsize null_sv =? 0) with true. cbv iota.
    eexists v4, _. split.
    { rewrite Hf. replace (Rltb 0 0) with false; [reflexivity|]. symmetry. unfold Rltb. destruct (Rlt_dec 0 0); auto. lra. }
    split; [repeat split; auto; apply S9|]. split; [exact Mi|]. split.
    + cbn [isFissile]. rewrite Fi. split; intros (g & G1 & G2); exists g; (split; [|exact G2]); [lia|]. destruct (Nat.eq_dec g ig) as [->|]; [rewrite Hf in G2; lra|lia].
    + intros rr g Hk Hg0. destruct rr as [| | | | |g']; cbn [value line_of xa xf xnuf xtr xs xss].
      * apply Na, Hg0.
      * apply (nth_zero _ _ _ _ V2 Hf g Hg0).
      * apply (nth_zero _ _ _ _ V3 Hn g Hg0).
      * apply (nth_zero _ _ _ _ V4 Htr g Hg0).
      * apply (nth_zero _ _ _ _ V5 Hs g Hg0).
      * cbn in Hk. destruct V6 as (_ & _ & _ & V6). change (ent Rarith (xss x0) g' g = if g' <? S ig then value x (ScatterTo g') g else 0%R). rewrite V6 by auto.
        destruct (Nat.ltb_spec g' ig), (Nat.ltb_spec g' (S ig)); auto; try lia. assert (g' = ig) as -> by lia. symmetry. auto.
  - destruct (strip_words _ _ _ r W) as (l' & -> & W' & _). cbn [bind].
    destruct (index_token_ok checks r tg _ _ _ Hr (wv_text _ _ _ W') Hg) as (v1 & -> & W1). cbn [bind].
    destruct (index_token_ok checks r tt _ _ _ Hr W1 Ht) as (v2 & -> & W2). cbn [bind].
    destruct (real_token_ok r ta _ _ _ Hr W2 Ha) as (v3 & -> & W3). cbn [bind fst snd].
    destruct (nth_next _ _ _ _ _ S2 Hi V1 eq_refl) as (la & -> & La & Na). cbn [bind].
    destruct (wview_next r tf _ v3 Hr W3) as (q & v4 & -> & Hq & W4 & (Ntf & _)). cbn [bind fst snd].
    replace (vsize (V tf q) =? 0) with false by (destruct tf; [contradiction|reflexivity]). cbv iota. cbn [V tail]. rewrite (strtod_real _ _ _ Hf Hq). cbn [bind].
    destruct (nth_next _ _ _ _ _ S3 Hi V2 eq_refl) as (lf & -> & Lf & Nf). cbn [bind].
    destruct (real_token_ok r tnu _ _ _ Hr W4 Hn) as (v5 & -> & W5). cbn [bind fst snd]. destruct (nth_next _ _ _ _ _ S4 Hi V3 eq_refl) as (ln & -> & Ln & Nn). cbn [bind].
    destruct (real_token_ok r ttr _ _ _ Hr W5 Htr) as (v6 & -> & W6). cbn [bind fst snd]. destruct (nth_next _ _ _ _ _ S5 Hi V4 eq_refl) as (lt & -> & Lt & Nt). cbn [bind].
    destruct (real_token_ok r ts _ _ _ Hr W6 Hs) as (v7 & -> & W7). cbn [bind fst snd]. destruct (nth_next _ _ _ _ _ S6 Hi V5 eq_refl) as (ls & -> & Ls & Ns). cbn [bind].
    destruct (int_token_ok r tlo _ _ _ Hr W7 Hlo) as (v8 & -> & W8). cbn [bind fst snd]. rewrite assert_true by (apply Z.leb_le; lia). cbn [bind].
    rewrite i32_ok by (unfold in_i32, intMin; unfold intMax in *; lia). cbn [bind].
    destruct (int_token_ok r thi _ _ _ Hr W8 Hhi) as (v9 & -> & W9). cbn [bind fst snd]. rewrite assert_true by (apply Z.leb_le; lia). cbn [bind].
    rewrite i32_ok by (unfold in_i32, intMin; unfold intMax in *; lia). cbn [bind]. replace (Z.to_nat (Z.of_nat hi - Z.of_nat lo + 1)) with (hi - lo + 1) by lia.
    destruct (scattering_ok r Hr vs lo (hi - lo + 1) ig ng (fun j => value x (ScatterTo ig) j) (fun i j => if i <? ig then value x (ScatterTo i) j else 0%R) v9 (xss x0) Hvs W9) as (m' & v' & -> & Wv & Hm'); [lia|lia|exact Hi|exact Hng|exact V6|].
    cbn [bind fst snd]. eexists v', _. split; [reflexivity|]. destruct Hm' as (M1 & M2 & M3 & M4). split; [repeat split; auto; apply M1|]. split; [exact Mi|]. split.
    + cbn [isFissile]. rewrite orb_true_iff, Rltb_true, Fi. split.
      * intros [G|(g & G1 & G2)]; [exists ig; split; [lia|exact G]|exists g; split; [lia|exact G2]].
      * intros (g & G1 & G2). destruct (Nat.eq_dec g ig) as [->|]; [now left|right; exists g; split; [lia|exact G2]].
    + intros rr g Hk Hg0. destruct rr as [| | | | |g']; cbn [value line_of xa xf xnuf xtr xs xss];
        [exact (Na g Hg0)|exact (Nf g Hg0)|exact (Nn g Hg0)|exact (Nt g Hg0)|exact (Ns g Hg0)|].
      cbn in Hk. change (ent Rarith m' g' g = if g' <? S ig then value x (ScatterTo g') g else 0%R). rewrite M4 by auto.
      destruct (Nat.eqb_spec g' ig) as [->|]; cbn [andb].
      * destruct (Nat.ltb_spec ig (S ig)); [|lia]. destruct (Nat.leb_spec lo (g + 1)), (Nat.ltb_spec (g + 1) (lo + (hi - lo + 1))); cbn [andb]; auto;
          (destruct (Nat.ltb_spec ig ig); [lia|]); symmetry; apply Hz; auto; lia.
      * destruct (Nat.ltb_spec g' ig), (Nat.ltb_spec g' (S ig)); auto; lia.
Qed.
End Checks.
