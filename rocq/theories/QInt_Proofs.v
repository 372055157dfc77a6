(** Buffers and duplicates: proofs for every arithmetic. *)
From Coq Require Import List Arith ZArith Bool Lia.
From Verif Require Import Base Loops Arith Vec_Model Box_Model Seg_Model Poly_Model QSeg_Model QPoly_Model Soup_Model Fvm_Model
  QInt_Model.
Import ListNotations.

Lemma rd_at {A} (l1 l2 : list A) x n : n = length l1 -> rd (l1 ++ x :: l2) n = Ret x.
Proof. intros ->. apply rd_Ret, nth_error_mid. Qed.
Lemma wr_at {A} (l1 l2 : list A) x y n : n = length l1 -> wr (l1 ++ x :: l2) n y = Ret (l1 ++ y :: l2).
Proof. intros ->. rewrite wr_ok by len. now rewrite upd_mid. Qed.

Lemma rd_is {A} (l l1 l2 : list A) x n : l = l1 ++ x :: l2 -> n = length l1 -> rd l n = Ret x.
Proof. intros -> ->. apply rd_Ret, nth_error_mid. Qed.
Ltac lists := rewrite <- ?app_assoc; cbn [app]; rewrite <- ?app_assoc; cbn [app]; rewrite <- ?app_assoc; reflexivity.

Section Gen.
Context {T : Type} (o : arith T) (eps : T).
Notation pt := (T * T)%type.
Notation qseg := (T * T * (T * T) * (T * T))%type.
Notation approx := (approx o eps).
Notation intersect := (intersect o eps).
Notation intersects := (intersects o eps).
Notation leaf := (leaf o eps).

(** the lists left by the two loops *)
Definition rotl (t : list pt) : list pt := match rev t with [] => [] | z :: r => z :: rev r end.
Lemma rotl_len t : length (rotl t) = length t.
Proof. unfold rotl. rewrite <- (rev_length t). destruct (rev t); cbn; auto. now rewrite rev_length. Qed.
Lemma rotl_snoc t z : rotl (t ++ [z]) = z :: t.
Proof. unfold rotl. rewrite rev_app_distr. cbn. now rewrite rev_involutive. Qed.
Lemma rotl_in t x : In x (rotl t) <-> In x t.
Proof.
  destruct t as [|y t'] using rev_ind; [reflexivity|]. rewrite rotl_snoc. rewrite in_app_iff. cbn. tauto.
Qed.
Fixpoint strip (fuel : nat) (h : pt) (l : list pt) : list pt :=
  match fuel with
  | O => []
  | S f =>
      match l with
      | [] => []
      | x :: t => if approx h x then strip f h (rotl t) else x :: strip f h t
      end
  end.
Fixpoint dd (fuel : nat) (l : list pt) : list pt :=
  match fuel with
  | O => []
  | S f => match l with [] => [] | h :: t => h :: dd f (strip (length t) h t) end
  end.
Lemma strip_le f h l : length (strip f h l) <= length l.
Proof.
  revert l. induction f as [|f IH]; intros l; cbn; [lia|]. destruct l as [|x t]; cbn; [lia|].
  destruct (approx h x); cbn; [specialize (IH (rotl t)); rewrite rotl_len in IH; lia|specialize (IH t); lia].
Qed.
Lemma strip_incl f h l : incl (strip f h l) l.
Proof.
  revert l. induction f as [|f IH]; intros l; cbn; [intros x []|]. destruct l as [|x t]; [intros y []|].
  destruct (approx h x).
  - intros y Hy. apply IH in Hy. apply (proj1 (rotl_in _ _)) in Hy. now right.
  - intros y [->|Hy]; [now left|right; now apply IH].
Qed.
Lemma strip_far f h l : length l <= f -> forall x, In x (strip f h l) -> approx h x = false.
Proof.
  revert l. induction f as [|f IH]; intros l Hl x; cbn; [intros []|]. destruct l as [|y t]; [intros []|].
  cbn in Hl. destruct (approx h y) eqn:E.
  - apply IH. rewrite rotl_len. lia.
  - intros [->|Hx]; [exact E|]. eapply IH; eauto. lia.
Qed.
Lemma strip_keep f h l : length l <= f -> forall x, In x l -> In x (strip f h l) \/ approx h x = true.
Proof.
  revert l. induction f as [|f IH]; intros l Hl x Hx; [destruct l; [destruct Hx|cbn in Hl; lia]|].
  destruct l as [|y t]; [destruct Hx|]. cbn in Hl |- *. destruct (approx h y) eqn:E.
  - destruct Hx as [->|Hx]; [now right|]. apply IH; [rewrite rotl_len; lia|now apply rotl_in].
  - destruct Hx as [->|Hx]; [left; now left|]. destruct (IH t ltac:(lia) x Hx) as [H|H]; [left; now right|now right].
Qed.
Lemma dd_le f l : length (dd f l) <= length l.
Proof.
  revert l. induction f as [|f IH]; intros l; cbn; [lia|]. destruct l as [|h t]; cbn; [lia|].
  specialize (IH (strip (length t) h t)). pose proof (strip_le (length t) h t). lia.
Qed.
Lemma dd_incl f l : incl (dd f l) l.
Proof.
  revert l. induction f as [|f IH]; intros l; cbn; [intros x []|]. destruct l as [|h t]; [intros x []|].
  intros x [->|Hx]; [now left|]. right. apply IH in Hx. now apply strip_incl in Hx.
Qed.
Lemma dd_far f l : length l <= f -> ForallOrdPairs (fun x y => approx x y = false) (dd f l).
Proof.
  revert l. induction f as [|f IH]; intros l Hl; cbn; [constructor|]. destruct l as [|h t]; [constructor|]. cbn in Hl.
  pose proof (strip_le (length t) h t). constructor.
  - apply Forall_forall. intros x Hx. apply dd_incl in Hx. exact (strip_far _ h t (le_n _) x Hx).
  - apply IH. lia.
Qed.
Lemma dd_keep f l : length l <= f -> forall x, In x l -> exists y, In y (dd f l) /\ (y = x \/ approx y x = true).
Proof.
  revert l. induction f as [|f IH]; intros l Hl x Hx; [destruct l; [destruct Hx|cbn in Hl; lia]|].
  destruct l as [|h t]; [destruct Hx|]. cbn in Hl |- *. pose proof (strip_le (length t) h t).
  destruct Hx as [->|Hx]; [exists x; auto|].
  destruct (strip_keep (length t) h t (le_n _) x Hx) as [H1|H1]; [|exists h; auto].
  destruct (IH (strip (length t) h t) ltac:(lia) x H1) as (y & Hy & E). exists y. auto.
Qed.
Lemma dd_nil f l : length l <= f -> dd f l = [] -> l = [].
Proof. intros Hl E. destruct l as [|x l]; auto. destruct f; [cbn in Hl; lia|discriminate]. Qed.

(** the loops of the code *)
Lemma inner_ok fuel : forall C, length C < fuel -> forall f pre A h B post, length C <= f ->
  exists junk,
  dd_inner o eps fuel (pre ++ (A ++ h :: B) ++ C ++ post) (length pre) (length A) (length A + 1 + length B)
    (length A + 1 + length B + length C)
  = Ret (pre ++ (A ++ h :: B) ++ strip f h C ++ junk ++ post, length A + 1 + length B + length (strip f h C)) /\
  length junk + length (strip f h C) = length C.
Proof.
  induction fuel as [|fuel IH]; intros C Hf f pre A h B post HC; [lia|].
  destruct C as [|x t].
  - assert (E : strip f h [] = []) by (destruct f; auto). rewrite E. cbn [dd_inner length app].
    destruct (Nat.ltb_spec (length A + 1 + length B) (length A + 1 + length B + 0)) as [H|_]; [lia|].
    exists []. cbn. rewrite !Nat.add_0_r. auto.
  - cbn [length] in Hf, HC. destruct f as [|f]; [lia|]. cbn [dd_inner].
    destruct (Nat.ltb_spec (length A + 1 + length B) (length A + 1 + length B + length (x :: t))) as [_|H]; [|cbn in H; lia].
    rewrite (rd_is _ (pre ++ A) (B ++ (x :: t) ++ post) h) by (lists || (rewrite app_length; lia)). cbn [bind].
    rewrite (rd_is _ (pre ++ A ++ h :: B) (t ++ post) x) by (lists || (rewrite !app_length; cbn; lia)). cbn [bind]. cbn [strip].
    destruct (approx h x) eqn:E.
    + destruct t as [|z t' _] using rev_ind.
      * replace (pre ++ (A ++ h :: B) ++ [x] ++ post) with ((pre ++ A ++ h :: B) ++ x :: post)
          by lists.
        rewrite rd_at by (rewrite !app_length; cbn; lia). cbn [bind].
        rewrite wr_at by (rewrite !app_length; cbn; lia). cbn [bind].
        replace (length A + 1 + length B + length [x] - 1) with (length A + 1 + length B + length (@nil pt)) by (cbn; lia).
        destruct (IH [] ltac:(cbn; lia) f pre A h B (x :: post) ltac:(cbn; lia)) as (junk & E1 & E2).
        change (rotl []) with (@nil pt).
        replace ((pre ++ A ++ h :: B) ++ x :: post) with (pre ++ (A ++ h :: B) ++ [] ++ x :: post)
          by lists.
        rewrite E1. exists (junk ++ [x]). rewrite <- !app_assoc. cbn in E2 |- *. split; [reflexivity|]. rewrite app_length. cbn. lia.
      * rewrite rotl_snoc.
        replace (pre ++ (A ++ h :: B) ++ (x :: t' ++ [z]) ++ post) with ((pre ++ (A ++ h :: B) ++ x :: t') ++ z :: post)
          by lists.
        rewrite rd_at by (rewrite ?app_length; cbn; rewrite ?app_length; cbn; lia). cbn [bind].
        replace ((pre ++ (A ++ h :: B) ++ x :: t') ++ z :: post) with ((pre ++ A ++ h :: B) ++ x :: (t' ++ z :: post))
          by lists.
        rewrite wr_at by (rewrite !app_length; cbn; lia). cbn [bind].
        replace (length A + 1 + length B + length (x :: t' ++ [z]) - 1) with (length A + 1 + length B + length (z :: t'))
          by (cbn; rewrite app_length; cbn; lia).
        rewrite app_length in Hf, HC. cbn in Hf, HC.
        destruct (IH (z :: t') ltac:(cbn; lia) f pre A h B (z :: post) ltac:(cbn; lia)) as (junk & E1 & E2).
        replace ((pre ++ A ++ h :: B) ++ z :: (t' ++ z :: post)) with (pre ++ (A ++ h :: B) ++ (z :: t') ++ z :: post)
          by lists.
        rewrite E1. exists (junk ++ [z]). rewrite <- !app_assoc. cbn in E2 |- *. split; [reflexivity|].
        rewrite !app_length in *. cbn in *. lia.
    + replace (length A + 1 + length B + 1) with (length A + 1 + length (B ++ [x])) by (rewrite app_length; cbn; lia).
      replace (length A + 1 + length B + length (x :: t)) with (length A + 1 + length (B ++ [x]) + length t)
        by (rewrite app_length; cbn; lia).
      replace (pre ++ (A ++ h :: B) ++ (x :: t) ++ post) with (pre ++ (A ++ h :: (B ++ [x])) ++ t ++ post)
        by lists.
      destruct (IH t ltac:(lia) f pre A h (B ++ [x]) post ltac:(lia)) as (junk & E1 & E2).
      rewrite E1. exists junk. split; [|cbn; lia]. f_equal. f_equal.
      * rewrite <- !app_assoc. cbn. rewrite <- !app_assoc. reflexivity.
      * rewrite app_length. cbn. lia.
Qed.
Lemma outer_ok fuel : forall C, length C < fuel -> forall f pre A post, length C <= f ->
  exists junk,
  dd_outer o eps fuel (pre ++ A ++ C ++ post) (length pre) (length A) (length A + length C)
  = Ret (pre ++ A ++ dd f C ++ junk ++ post, length A + length (dd f C)) /\
  length junk + length (dd f C) = length C.
Proof.
  induction fuel as [|fuel IH]; intros C Hf f pre A post HC; [lia|].
  destruct C as [|h t].
  - assert (E : dd f [] = []) by (destruct f; auto). rewrite E. cbn [dd_outer length].
    destruct (Nat.ltb_spec (length A) (length A + 0)) as [H|_]; [lia|]. exists []. cbn. now rewrite !Nat.add_0_r.
  - cbn [length] in Hf, HC. destruct f as [|f]; [lia|]. cbn [dd_outer dd].
    destruct (Nat.ltb_spec (length A) (length A + length (h :: t))) as [_|H]; [|cbn in H; lia].
    destruct (inner_ok (S (length A + length (h :: t))) t ltac:(cbn; lia) (length t) pre A h [] post (le_n _)) as (junk & E1 & E2).
    replace (length A + 1 + length (@nil pt) + length t) with (length A + length (h :: t)) in E1 by (cbn; lia).
    replace (length A + 1 + length (@nil pt)) with (length A + 1) in E1 by (cbn; lia).
    replace (pre ++ A ++ (h :: t) ++ post) with (pre ++ (A ++ [h]) ++ t ++ post) by lists.
    rewrite E1. cbn [bind fst snd].
    replace (length A + 1) with (length (A ++ [h])) by (rewrite app_length; cbn; lia).
    destruct (IH (strip (length t) h t) ltac:(pose proof (strip_le (length t) h t); lia) f pre (A ++ [h]) (junk ++ post)
      ltac:(pose proof (strip_le (length t) h t); lia)) as (junk' & E3 & E4).
    rewrite E3. exists (junk' ++ junk). split.
    + f_equal. f_equal; [rewrite <- !app_assoc; reflexivity|rewrite app_length; cbn; lia].
    + rewrite app_length. cbn. lia.
Qed.
Definition dedup (l : list pt) : list pt := dd (length l) l.
Lemma dedup_ok pre l post : exists junk,
  dd_outer o eps (S (length l)) (pre ++ l ++ post) (length pre) 0 (length l)
  = Ret (pre ++ dedup l ++ junk ++ post, length (dedup l)) /\ length junk + length (dedup l) = length l.
Proof. exact (outer_ok (S (length l)) l ltac:(lia) (length l) pre [] post (le_n _)). Qed.

(** the points reported *)
Fixpoint hits (k : nat) (q1 q2 : qseg) : list pt :=
  if negb (boxes_meet o q1 q2) then []
  else
    match k with
    | O => match leaf q1 q2 with Some p => [p] | None => [] end
    | S k' =>
        dedup (hits k' (left_half o q1) (left_half o q2) ++ hits k' (left_half o q1) (right_half o q2) ++
               hits k' (right_half o q1) (left_half o q2) ++ hits k' (right_half o q1) (right_half o q2))
    end.
Lemma hits_le k q1 q2 : length (hits k q1 q2) <= 4 ^ k.
Proof.
  revert q1 q2. induction k as [|k IH]; intros q1 q2; cbn [hits].
  - destruct (negb _); cbn; [lia|]. destruct (leaf q1 q2); cbn; lia.
  - destruct (negb _); cbn [length]; [lia|]. unfold dedup. etransitivity; [apply dd_le|]. rewrite !app_length, Nat.pow_succ_r'.
    pose proof (IH (left_half o q1) (left_half o q2)). pose proof (IH (left_half o q1) (right_half o q2)).
    pose proof (IH (right_half o q1) (left_half o q2)). pose proof (IH (right_half o q1) (right_half o q2)). lia.
Qed.
Lemma hits_far k q1 q2 : ForallOrdPairs (fun x y => approx x y = false) (hits k q1 q2).
Proof.
  destruct k as [|k]; cbn [hits]; destruct (negb _); try constructor.
  - destruct (leaf q1 q2); repeat constructor.
  - apply dd_far. auto.
Qed.
Lemma intersects_hits k q1 q2 : intersects k q1 q2 = match hits k q1 q2 with [] => false | _ => true end.
Proof.
  revert q1 q2. induction k as [|k IH]; intros q1 q2; cbn [hits QInt_Model.intersects].
  - destruct (negb _); auto. destruct (leaf q1 q2); auto.
  - destruct (negb _); auto. rewrite !IH. unfold dedup.
    set (h1 := hits k (left_half o q1) (left_half o q2)). set (h2 := hits k (left_half o q1) (right_half o q2)).
    set (h3 := hits k (right_half o q1) (left_half o q2)). set (h4 := hits k (right_half o q1) (right_half o q2)).
    destruct (dd (length (h1 ++ h2 ++ h3 ++ h4)) (h1 ++ h2 ++ h3 ++ h4)) eqn:E.
    + apply dd_nil in E; [|auto]. destruct h1; [|discriminate]. destruct h2; [|discriminate]. destruct h3; [|discriminate].
      destruct h4; [auto|discriminate].
    + destruct h1; cbn; [|auto]. destruct h2; cbn; [|auto]. destruct h3; cbn; [|auto]. destruct h4; cbn; [|auto]. discriminate.
Qed.

(** slots used below the first one *)
Fixpoint cap (dbg : bool) (k : nat) : nat :=
  if dbg then match k with O => 1 | S k' => match k' with O => 4 | _ => 6 + cap dbg k' end end else 4 ^ k.
Lemma cap_false k : cap false k = 4 ^ k.
Proof. now destruct k. Qed.
Definition hit_bound (dbg : bool) (k : nat) : nat := if dbg then match k with O => 1 | _ => 2 end else 4 ^ k.
Lemma cap_S dbg k : cap dbg k <= cap dbg (S k) /\ 3 * hit_bound dbg k + cap dbg k <= cap dbg (S k).
Proof.
  destruct dbg; [|rewrite !cap_false; unfold hit_bound; rewrite Nat.pow_succ_r'; lia].
  destruct k as [|k]; cbn [cap hit_bound]; lia.
Qed.

Lemma hb_cap dbg k : hit_bound dbg k <= cap dbg k.
Proof. destruct dbg; [|rewrite cap_false; auto]. destruct k as [|[|k]]; cbn [hit_bound cap]; lia. Qed.

(** the pieces of a successful call *)
Lemma let_pair {A B C} (m : outcome (A * B)) (f : A -> B -> outcome C) c :
  (let* (x, y) := m in f x y) = Ret c -> exists x y, m = Ret (x, y) /\ f x y = Ret c.
Proof. destruct m as [[x y]| | |]; cbn; try discriminate. eauto. Qed.
Lemma skipn_app_ge {A} n (l1 l2 : list A) : length l1 <= n -> skipn n (l1 ++ l2) = skipn (n - length l1) l2.
Proof. intros H. rewrite skipn_app, skipn_all2 by lia. reflexivity. Qed.
Lemma skipn_add {A} a b (l : list A) : skipn b (skipn a l) = skipn (a + b) l.
Proof. revert l. induction a as [|a IH]; intros l; cbn; auto. destruct l; [destruct b; auto|apply IH]. Qed.
Lemma skipn_le {A} n m (l l' : list A) : n <= m -> skipn n l = skipn n l' -> skipn m l = skipn m l'.
Proof.
  intros H E. replace m with (n + (m - n)) by lia. rewrite <- !skipn_add. now rewrite E.
Qed.
Lemma int_ret dbg k : forall q1 q2 pre l buf n, intersect dbg k q1 q2 (pre ++ l) (length pre) = Ret (buf, n) ->
  exists l', buf = pre ++ hits k q1 q2 ++ l' /\ n = length (hits k q1 q2) /\ length (hits k q1 q2 ++ l') = length l /\
    skipn (cap dbg k) (hits k q1 q2 ++ l') = skipn (cap dbg k) l /\ n <= hit_bound dbg k.
Proof.
  induction k as [|k IH]; intros q1 q2 pre l buf n E; cbn [QInt_Model.intersect] in E; cbn [hits]; destruct (negb _) eqn:Ebox.
  - injection E as <- <-. exists l. cbn. repeat split; lia.
  - assert (Hc : cap dbg 0 = 1 /\ hit_bound dbg 0 = 1) by (destruct dbg; auto). destruct Hc as [-> ->].
    destruct (leaf q1 q2) as [p|]; [|injection E as <- <-; exists l; cbn; repeat split; lia].
    destruct l as [|x l].
    { unfold wr in E. rewrite app_nil_r, Nat.ltb_irrefl in E. discriminate. }
    rewrite wr_at in E by reflexivity. injection E as <- <-. exists l. cbn. auto.
  - injection E as <- <-. exists l. cbn. repeat split; lia.
  - destruct (cap_S dbg k) as [Hc1 Hc2].
    apply let_pair in E as (b1 & n1 & E1 & E). apply IH in E1 as (l1 & -> & -> & L1 & K1 & B1).
    apply let_pair in E as (b2 & n2 & E2 & E). rewrite app_assoc, <- app_length in E2.
    apply IH in E2 as (l2 & -> & -> & L2 & K2 & B2).
    apply let_pair in E as (b3 & n3 & E3 & E). rewrite <- app_assoc, (app_assoc (hits k _ (left_half o q2))), app_assoc in E3.
    rewrite <- !app_length in E3.
    apply IH in E3 as (l3 & -> & -> & L3 & K3 & B3).
    apply let_pair in E as (b4 & n4 & E4 & E).
    rewrite <- (Nat.add_assoc (length (hits k _ (left_half o q2)))), <- !app_length in E4. rewrite <- !app_assoc in E4.
    rewrite (app_assoc (hits k (left_half o q1) (right_half o q2))), (app_assoc (hits k (left_half o q1) (left_half o q2))), app_assoc in E4.
    apply IH in E4 as (l4 & -> & -> & L4 & K4 & B4).
    set (h1 := hits k (left_half o q1) (left_half o q2)) in *. set (h2 := hits k (left_half o q1) (right_half o q2)) in *.
    set (h3 := hits k (right_half o q1) (left_half o q2)) in *. set (h4 := hits k (right_half o q1) (right_half o q2)) in *.
    apply let_pair in E as (b5 & n5 & E5 & E).
    destruct (dedup_ok pre (h1 ++ h2 ++ h3 ++ h4) l4) as (junk & E6 & E7).
    replace (length h1 + length h2 + length h3 + length h4) with (length (h1 ++ h2 ++ h3 ++ h4)) in E5
      by (rewrite !app_length; lia).
    replace ((pre ++ h1 ++ h2 ++ h3) ++ h4 ++ l4) with (pre ++ (h1 ++ h2 ++ h3 ++ h4) ++ l4) in E5
      by lists.
    rewrite E6 in E5. injection E5 as <- <-.
    destruct (dbg && negb (length (dedup (h1 ++ h2 ++ h3 ++ h4)) <=? 2))%bool eqn:Ed; [discriminate|]. injection E as <- <-.
    assert (Hlen : length (dedup (h1 ++ h2 ++ h3 ++ h4)) <= hit_bound dbg (S k)).
    { destruct dbg; cbn [hit_bound andb] in *.
      - destruct (Nat.leb_spec (length (dedup (h1 ++ h2 ++ h3 ++ h4))) 2); [auto|discriminate].
      - unfold dedup. etransitivity; [apply dd_le|]. rewrite !app_length, Nat.pow_succ_r'. lia. }
    exists (junk ++ l4). rewrite !app_length in *.
    split; [reflexivity|split; [reflexivity|split; [lia|split; [|exact Hlen]]]].
    assert (G : skipn (cap dbg (S k)) (h1 ++ h2 ++ h3 ++ h4 ++ l4) = skipn (cap dbg (S k)) l).
    { rewrite (skipn_le (cap dbg k) _ l (h1 ++ l1)) by (lia || (symmetry; assumption) || assumption).
      rewrite !(skipn_app_ge (cap dbg (S k))) by lia.
      rewrite (skipn_le (cap dbg k) _ l1 (h2 ++ l2)) by (lia || (symmetry; assumption) || assumption).
      rewrite !(skipn_app_ge (cap dbg (S k) - length h1)) by lia.
      rewrite (skipn_le (cap dbg k) _ l2 (h3 ++ l3)) by (lia || (symmetry; assumption) || assumption).
      rewrite !(skipn_app_ge (cap dbg (S k) - length h1 - length h2)) by lia.
      symmetry. apply (skipn_le (cap dbg k)); [lia|auto]. }
    rewrite <- G. rewrite (app_assoc (dedup _)).
    replace (h1 ++ h2 ++ h3 ++ h4 ++ l4) with ((h1 ++ h2 ++ h3 ++ h4) ++ l4) by lists.
    assert (length h4 <= cap dbg k).
    { pose proof (hb_cap dbg k). lia. }
    rewrite !skipn_app_ge by (rewrite !app_length; lia). f_equal. rewrite !app_length. lia.
Qed.
(** enough room *)
Definition returns {A} (dbg : bool) (m : outcome A) : Prop := (exists r, m = Ret r) \/ dbg = true /\ m = Fail.
Lemma returns_pair {A B C} dbg (m : outcome (A * B)) (f : A -> B -> outcome C) :
  returns dbg m -> (forall x y, m = Ret (x, y) -> returns dbg (f x y)) -> returns dbg (let* (x, y) := m in f x y).
Proof. intros [[[x y] ->]|[-> ->]] Hf; cbn; [now apply Hf|right; auto]. Qed.
Lemma int_room dbg k : forall q1 q2 pre l, cap dbg k <= length l -> returns dbg (intersect dbg k q1 q2 (pre ++ l) (length pre)).
Proof.
  induction k as [|k IH]; intros q1 q2 pre l Hl; cbn [QInt_Model.intersect]; destruct (negb _).
  - left. eauto.
  - assert (Hc : cap dbg 0 = 1) by (destruct dbg; auto). destruct (leaf q1 q2) as [p|]; [|left; eauto].
    destruct l as [|x l]; [cbn [length] in Hl; lia|]. rewrite wr_at by reflexivity. left. cbn. eauto.
  - left. eauto.
  - destruct (cap_S dbg k) as [Hc1 Hc2].
    apply returns_pair; [apply IH; lia|]. intros b1 n1 E1. apply int_ret in E1 as (l1 & -> & -> & L1 & K1 & B1).
    rewrite !app_length in L1.
    rewrite (app_assoc pre), <- app_length. apply returns_pair; [apply IH; lia|]. intros b2 n2 E2.
    apply int_ret in E2 as (l2 & -> & -> & L2 & K2 & B2). rewrite !app_length in L2.
    rewrite <- (app_assoc pre), (app_assoc (hits k _ (left_half o q2))), (app_assoc pre).
    rewrite <- !app_length. apply returns_pair; [apply IH; lia|]. intros b3 n3 E3.
    apply int_ret in E3 as (l3 & -> & -> & L3 & K3 & B3). rewrite !app_length in L3.
    match goal with |- returns _ (let* (_, _) := intersect _ _ _ _ ?B ?n in _) =>
      replace B with ((pre ++ hits k (left_half o q1) (left_half o q2) ++ hits k (left_half o q1) (right_half o q2) ++
                       hits k (right_half o q1) (left_half o q2)) ++ l3) by lists;
      replace n with (length (pre ++ hits k (left_half o q1) (left_half o q2) ++ hits k (left_half o q1) (right_half o q2) ++
                       hits k (right_half o q1) (left_half o q2))) by (rewrite !app_length; lia) end.
    apply returns_pair; [apply IH; lia|]. intros b4 n4 E4. apply int_ret in E4 as (l4 & -> & -> & L4 & K4 & B4).
    set (h1 := hits k (left_half o q1) (left_half o q2)) in *. set (h2 := hits k (left_half o q1) (right_half o q2)) in *.
    set (h3 := hits k (right_half o q1) (left_half o q2)) in *. set (h4 := hits k (right_half o q1) (right_half o q2)) in *.
    destruct (dedup_ok pre (h1 ++ h2 ++ h3 ++ h4) l4) as (junk & E6 & E7).
    replace (length (h1 ++ h2) + length h3 + length h4) with (length (h1 ++ h2 ++ h3 ++ h4)) by (rewrite !app_length; lia).
    replace ((pre ++ h1 ++ h2 ++ h3) ++ h4 ++ l4) with (pre ++ (h1 ++ h2 ++ h3 ++ h4) ++ l4) by lists.
    rewrite E6. cbn [bind]. destruct dbg; cbn [andb]; [|left; eauto].
    destruct (negb _); [right; auto|left; eauto].
Qed.
End Gen.
