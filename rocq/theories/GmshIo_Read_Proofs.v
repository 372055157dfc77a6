(** Proofs about the lines of eight of info files: what is written is read. *)
From Coq Require Import String.
From Coq Require Import List Arith ZArith Bool Lia.
From Verif Require Import Base Loops StringView_Model TextIo_Model Logger_Model ModelIo_Model Groups_Model GmshIo_Model GmshIo_Text_Proofs.
Import ListNotations.
Open Scope Z_scope.

Definition slice {A} (l : list A) (off n : nat) : list A := firstn n (skipn off l).
Lemma slice_length {A} (l : list A) off n : (off + n <= length l)%nat -> length (slice l off n) = n.
Proof. intros H. unfold slice. rewrite firstn_length, skipn_length. lia. Qed.
Lemma slice_nth {A} (l : list A) off n k : (k < n)%nat -> nth_error (slice l off n) k = nth_error l (off + k).
Proof.
  unfold slice. revert l. induction off as [|off IH]; intros l H.
  - cbn [skipn Nat.add]. revert l k H. induction n as [|n IHn]; intros l k H; [lia|]. destruct l; [now destruct k|]. destruct k; [reflexivity|]. cbn [firstn nth_error]. apply IHn. lia.
  - destruct l; [cbn; destruct n, k; reflexivity|]. cbn [skipn Nat.add nth_error]. now apply IH.
Qed.
Lemma slice_map {A B} (f : A -> B) l off n : slice (map f l) off n = map f (slice l off n).
Proof. unfold slice. now rewrite skipn_map, firstn_map. Qed.
Lemma slice_S {A} (l : list A) off n x : nth_error l (off + n) = Some x -> slice l off (S n) = slice l off n ++ [x].
Proof.
  intros H. unfold slice. apply firstn_S. revert l H. induction off as [|off IH]; intros l H; [exact H|]. destruct l; [cbn in H; discriminate|]. cbn [skipn]. now apply IH.
Qed.
Lemma slice_in {A} (l : list A) off n x : In x (slice l off n) -> In x l.
Proof. intros H. unfold slice in H. rewrite <- (firstn_skipn off l). apply in_or_app. right. rewrite <- (firstn_skipn n (skipn off l)). apply in_or_app. now left. Qed.

Section Write.
Context {A : Type}.
Variable show : A -> outcome (list Z).
Variable f : A -> list Z.
Lemma mapo_slice (l : list A) off n : (off + n <= length l)%nat -> (forall x, In x l -> show x = Ret (f x)) ->
  mapo (fun j => let* x := rd l (off + j) in let* t := show x in Ret (t ++ [BLANK])) (seq 0 n) = Ret (map (fun x => f x ++ [BLANK]) (slice l off n)).
Proof.
  intros H Hs. assert (G : forall n s, (off + s + n <= length l)%nat ->
    mapo (fun j => let* x := rd l (off + j) in let* t := show x in Ret (t ++ [BLANK])) (seq s n) = Ret (map (fun x => f x ++ [BLANK]) (slice l (off + s) n))).
  { clear n H. induction n as [|n IH]; intros s H; [reflexivity|]. cbn [seq mapo].
    destruct (nth_error l (off + s)) as [x|] eqn:E; [|apply nth_error_None in E; lia]. unfold rd at 1. rewrite E. cbn [bind].
    rewrite Hs by (eapply nth_error_In; eauto). cbn [bind]. rewrite IH by lia. cbn [bind]. f_equal.
    assert (X : slice l (off + s) (S n) = x :: slice l (off + S s) n).
    { unfold slice. replace (off + S s)%nat with (S (off + s)) by lia. clear -E. revert l E. generalize (off + s)%nat as o.
      induction o as [|o IH]; intros l E; (destruct l; [discriminate|]); [injection E as ->; reflexivity|]. apply IH. exact E. }
    now rewrite X. }
  rewrite (G n 0%nat) by lia. now rewrite Nat.add_0_r.
Qed.
Definition row (l : list A) (off n : nat) : list Z := concat (map (fun x => f x ++ [BLANK]) (slice l off n)).
Definition rows (l : list A) : list Z :=
  let full := (length l / 8)%nat in let rem := (length l mod 8)%nat in
  concat (map (fun i => row l (8 * i) 8 ++ [NEWLINE]) (seq 0 full)) ++
  match rem with
  | O => []
  | S r => row l (8 * full) r ++ match nth_error l (8 * full + r) with Some x => f x | None => [] end ++ [NEWLINE]
  end.
Lemma write_eight_ok l : (forall x, In x l -> show x = Ret (f x)) -> write_eight show l = Ret (rows l).
Proof.
  intros H. unfold write_eight, rows. pose proof (Nat.div_mod (length l) 8 ltac:(lia)) as D. pose proof (Nat.mod_upper_bound (length l) 8 ltac:(lia)) as M.
  set (full := (length l / 8)%nat) in *. set (rem := (length l mod 8)%nat) in *.
  rewrite (mapo_ok _ (fun i => row l (8 * i) 8 ++ [NEWLINE])).
  2:{ intros i Hi. apply in_seq in Hi. rewrite mapo_slice; [reflexivity|lia|exact H]. }
  cbn [bind]. replace (full * 8)%nat with (8 * full)%nat by lia. rewrite mapo_slice; [|destruct rem; lia|exact H]. cbn [bind].
  destruct rem as [|r]; [reflexivity|]. destruct (Nat.ltb_spec 0 (S r)); [|lia].
  destruct (nth_error l (8 * full + r)) as [x|] eqn:E; [|apply nth_error_None in E; lia].
  replace (8 * full + S r - 1)%nat with (8 * full + r)%nat by lia. unfold rd. rewrite E. cbn [bind]. rewrite H by (eapply nth_error_In; eauto). cbn [bind].
  replace (S r - 1)%nat with r by lia. unfold row. now rewrite !app_nil_r || reflexivity.
Qed.
End Write.

(** ** A line of numbers *)
Lemma word_at ws k w tail : nth_error ws k = Some w -> word w ->
  exists te, find_from (blanks ws ++ tail) BLANK (length (blanks (firstn k ws))) = Some te /\
    cut (blanks ws ++ tail) (length (blanks (firstn k ws))) (Some te) = Ret w /\ plus (Some te) 1 = length (blanks (firstn (S k) ws)).
Proof.
  intros H W. assert (E : blanks ws ++ tail = blanks (firstn k ws) ++ w ++ BLANK :: (blanks (skipn (S k) ws) ++ tail)).
  { rewrite <- (firstn_skipn (S k) ws) at 1. rewrite (firstn_S _ _ _ H), !blanks_app, blanks_one, <- !app_assoc. reflexivity. }
  rewrite E. destruct (next_word (firstn k ws) w (blanks (skipn (S k) ws) ++ tail) W) as (F & C). eexists. split; [exact F|]. split; [exact C|].
  cbn [plus]. rewrite (firstn_S _ _ _ H). apply blanks_len.
Qed.
Lemma words_of l : Forall word (map decimal l).
Proof. apply Forall_map, Forall_forall. intros. apply decimal_is_word. Qed.
Lemma number_at l k z tail : nth_error l k = Some z -> small z ->
  let line := blanks (map decimal l) ++ tail in
  let ts := length (blanks (map decimal (firstn k l))) in
  exists te, find_from line BLANK ts = Some te /\ (let* t := cut line ts (Some te) in stoi t) = Ret z /\
    plus (Some te) 1 = length (blanks (map decimal (firstn (S k) l))).
Proof.
  intros H S0 line ts. pose proof (map_nth_error decimal _ _ H) as Hw. destruct (word_at _ k _ tail Hw (decimal_is_word z)) as (te & F & C & P).
  rewrite !firstn_map in *. exists te. split; [exact F|]. split; [|exact P]. subst line ts. rewrite C. cbn [bind]. now apply stoi_decimal'.
Qed.

(** ** Lines of tags *)
Lemma read_tag_line_ok L j tags line R : Forall small L -> (8 * j + 8 <= length L)%nat -> filled tags L (8 * j) ->
  exists tags' line', read_tag_line j (tags, (line, mkStream (row decimal L (8 * j) 8 ++ NEWLINE :: R) false)) = Ret (tags', (line', mkStream R false)) /\
    filled tags' L (8 * j + 8).
Proof.
  intros Hs Hj Hf. unfold read_tag_line. set (ch := slice L (8 * j) 8). assert (LC : length ch = 8%nat) by now apply slice_length.
  assert (RE : row decimal L (8 * j) 8 = blanks (map decimal ch)) by (unfold row, blanks; now rewrite map_map). rewrite RE.
  rewrite getline_ok by apply blanks_line, words_of. set (ln := blanks (map decimal ch)).
  match goal with |- context [for_ 7 0 ?h _] => set (f7 := h) end.
  destruct (for_inv (fun k st => let '(tags, (ts, te)) := st in filled tags L (8 * j + k) /\ ts = length (blanks (map decimal (firstn k ch))) /\
    te = find_from ln BLANK ts) f7 7 0 (tags, (O, find_from ln BLANK 0))) as ((tags1 & ts & te) & E & F1 & T1 & _).
  - split; [now rewrite Nat.add_0_r|]. split; reflexivity.
  - intros k (tg & ts & te) Hk (F & -> & ->). destruct (nth_error ch k) as [z|] eqn:N; [|apply nth_error_None in N; lia].
    assert (Nl : nth_error L (8 * j + k) = Some z) by (rewrite <- N; symmetry; apply slice_nth; lia).
    assert (Sz : small z) by (rewrite Forall_forall in Hs; apply Hs; eapply nth_error_In; eauto).
    destruct (number_at ch k z [] N Sz) as (te & Fi & St & P). rewrite app_nil_r in *. fold ln in Fi, St.
    destruct (fill_step _ _ _ _ F Nl) as (tg' & W & F'). unfold f7. rewrite Fi.
    destruct (cut ln (length (blanks (map decimal (firstn k ch)))) (Some te)) as [t| | |]; try discriminate. cbn [bind] in St |- *. rewrite St. cbn [bind]. rewrite W. cbn [bind].
    eexists. split; [reflexivity|]. cbv beta iota. split; [now rewrite Nat.add_succ_r|]. split; [exact P|]. reflexivity.
  - rewrite E. cbn [bind]. subst ts. cbn [Nat.add] in F1. destruct (nth_error ch 7) as [z|] eqn:N; [|apply nth_error_None in N; lia].
    assert (Nl : nth_error L (8 * j + 7) = Some z) by (rewrite <- N; symmetry; apply slice_nth; lia).
    assert (Sz : small z) by (rewrite Forall_forall in Hs; apply Hs; eapply nth_error_In; eauto).
    assert (LE : ln = blanks (map decimal (firstn 7 ch)) ++ (decimal z ++ [BLANK])).
    { unfold ln. rewrite <- blanks_one, <- blanks_app. f_equal. change [decimal z] with (map decimal [z]). rewrite <- map_app. f_equal.
      rewrite <- (firstn_S _ _ _ N). symmetry. apply firstn_all2. lia. }
    change (0 + 7)%nat with 7%nat. assert (SE : substr ln (length (blanks (map decimal (firstn 7 ch)))) None = Ret (decimal z ++ [BLANK])) by (rewrite LE; apply substr_rest).
    rewrite SE. cbn [bind]. rewrite stoi_decimal; [|exact Sz|reflexivity]. cbn [bind].
    destruct (fill_step _ _ _ _ F1 Nl) as (tg' & W & F'). rewrite W. cbn [bind]. eexists _, _. split; [reflexivity|]. now replace (8 * j + 8)%nat with (S (8 * j + 7)) by lia.
Qed.
Lemma read_last_tags_ok L full r tags line R z : Forall small L -> (8 * full + r < length L)%nat -> filled tags L (8 * full) -> nth_error L (8 * full + r) = Some z ->
  exists tags' line', read_last_tags full (S r) (tags, (line, mkStream (row decimal L (8 * full) r ++ decimal z ++ NEWLINE :: R) false)) = Ret (tags', (line', mkStream R false)) /\
    filled tags' L (8 * full + S r).
Proof.
  intros Hs Hj Hf Hz. unfold read_last_tags. change (S r =? 0)%nat with false. cbn iota. set (ch := slice L (8 * full) r). assert (LC : length ch = r) by (apply slice_length; lia).
  assert (RE : row decimal L (8 * full) r = blanks (map decimal ch)) by (unfold row, blanks; now rewrite map_map). rewrite RE.
  rewrite app_assoc. rewrite getline_ok.
  2:{ intros X. apply in_app_or in X. destruct X as [X|X]; [now apply blanks_line in X; [|apply words_of]|]. now apply decimal_is_word in X. }
  set (ln := @app char (blanks (map decimal ch)) (decimal z)). match goal with |- context [for_ _ 0 ?h _] => set (fr := h) end. replace (S r - 1)%nat with r by lia.
  destruct (for_inv (fun k st => let '(tags, ts) := st in filled tags L (8 * full + k) /\ ts = length (blanks (map decimal (firstn k ch)))) fr r 0 (tags, O)) as ((tags1 & ts) & E & F1 & T1).
  - split; [now rewrite Nat.add_0_r|]. reflexivity.
  - intros k (tg & ts) Hk (F & ->). destruct (nth_error ch k) as [y|] eqn:N; [|apply nth_error_None in N; lia].
    assert (Nl : nth_error L (8 * full + k) = Some y) by (rewrite <- N; symmetry; apply slice_nth; lia).
    assert (Sz : small y) by (rewrite Forall_forall in Hs; apply Hs; eapply nth_error_In; eauto).
    destruct (number_at ch k y (decimal z) N Sz) as (te & Fi & St & P). change (find_from ln BLANK (length (blanks (map decimal (firstn k ch)))) = Some te) in Fi.
    change ((let* t := cut ln (length (blanks (map decimal (firstn k ch)))) (Some te) in stoi t) = Ret y) in St.
    destruct (fill_step _ _ _ _ F Nl) as (tg' & W & F'). unfold fr. rewrite Fi.
    destruct (cut ln (length (blanks (map decimal (firstn k ch)))) (Some te)) as [t| | |]; try discriminate. cbn [bind] in St |- *. rewrite St. cbn [bind].
    replace (full * 8)%nat with (8 * full)%nat by lia. rewrite W. cbn [bind].
    eexists. split; [reflexivity|]. cbv beta iota. split; [now rewrite Nat.add_succ_r|]. exact P.
  - rewrite E. cbn [bind]. subst ts. cbn [Nat.add] in F1 |- *.
    assert (Sz : small z) by (rewrite Forall_forall in Hs; apply Hs; eapply nth_error_In; eauto).
    rewrite (firstn_all2 ch) by lia. assert (SE : substr ln (length (blanks (map decimal ch))) None = Ret (decimal z)) by apply substr_rest. rewrite SE. cbn [bind]. rewrite stoi_decimal' by exact Sz. cbn [bind].
    destruct (fill_step _ _ _ _ F1 Hz) as (tg' & W & F'). replace (full * 8 + S r - 1)%nat with (8 * full + r)%nat by lia. rewrite W. cbn [bind]. eexists _, _. split; [reflexivity|].
    now rewrite Nat.add_succ_r.
Qed.
Lemma seq_step i n : (i < n)%nat -> seq i (n - i) = i :: seq (S i) (n - S i).
Proof. intros H. replace (n - i)%nat with (S (n - S i)) by lia. reflexivity. Qed.
Lemma read_tags_ok L tags line R : Forall small L -> length tags = length L ->
  exists line', (let* st := for_ (length L / 8) 0 read_tag_line (tags, (line, mkStream (rows decimal L ++ R) false)) in
    read_last_tags (length L / 8) (length L mod 8) st) = Ret (L, (line', mkStream R false)).
Proof.
  intros Hs Hl. unfold rows. pose proof (Nat.div_mod (length L) 8 ltac:(lia)) as D. pose proof (Nat.mod_upper_bound (length L) 8 ltac:(lia)) as M.
  set (full := (length L / 8)%nat) in *. set (rem := (length L mod 8)%nat) in *. set (lastp := match rem with O => [] | S _ => _ end).
  destruct (for_inv (fun j st => let '(tags, (line, s)) := st in filled tags L (8 * j) /\
     s = mkStream ((concat (map (fun i => row decimal L (8 * i) 8 ++ [NEWLINE]) (seq j (full - j))) ++ lastp) ++ R) false) read_tag_line full 0
     (tags, (line, mkStream ((concat (map (fun i => row decimal L (8 * i) 8 ++ [NEWLINE]) (seq 0 full)) ++ lastp) ++ R) false))) as ((tags1 & line1 & s1) & E & F1 & S1).
  - split; [split; [exact Hl|reflexivity]|]. now rewrite Nat.sub_0_r.
  - intros j (tg & ln & s) Hj (F & ->). rewrite seq_step by lia. cbn [map concat]. rewrite <- !app_assoc. cbn [app].
    destruct (read_tag_line_ok L j tg ln (concat (map (fun i => row decimal L (8 * i) 8 ++ [NEWLINE]) (seq (S j) (full - S j))) ++ lastp ++ R) Hs ltac:(lia) F) as (tg' & ln' & E & F').
    eexists. split; [exact E|]. cbv beta iota. split; [now replace (8 * S j)%nat with (8 * j + 8)%nat by lia|]. reflexivity.
  - rewrite E. cbn [bind]. subst s1. cbn [Nat.add] in *. rewrite Nat.sub_diag. cbn [seq map concat app]. unfold lastp. clear lastp E. destruct rem as [|r] eqn:Er.
    + unfold read_last_tags. cbn. exists line1. f_equal. f_equal. apply (fill_end _ _ _ F1). lia.
    + destruct (nth_error L (8 * full + r)) as [z|] eqn:Ez; [|apply nth_error_None in Ez; lia].
      destruct (read_last_tags_ok L full r tags1 line1 R z Hs ltac:(lia) F1 Ez) as (tg' & ln' & E & F'). rewrite <- !app_assoc. cbn [app]. exists ln'. etransitivity; [exact E|]. f_equal. f_equal.
      apply (fill_end _ _ _ F'). lia.
Qed.

(** ** Lines of pairs *)
Definition flat (ps : list dimtag) : list Z := flat_map (fun p => [fst p; snd p]) ps.
Definition pair_text (p : dimtag) : list Z := decimal (fst p) ++ [BLANK] ++ decimal (snd p).
Lemma pair_row L off n : row pair_text L off n = blanks (map decimal (flat (slice L off n))).
Proof.
  unfold row. induction (slice L off n) as [|p ps IH]; [reflexivity|]. cbn [map concat flat flat_map app]. change (flat_map _ ps) with (flat ps).
  rewrite IH, !blanks_cons. unfold pair_text. rewrite <- !app_assoc. reflexivity.
Qed.
Lemma flat_nth ps : forall k p, nth_error ps k = Some p -> nth_error (flat ps) (2 * k) = Some (fst p) /\ nth_error (flat ps) (S (2 * k)) = Some (snd p).
Proof.
  induction ps as [|q ps IH]; intros k p H; [now destruct k|]. destruct k as [|k]; [injection H as ->; split; reflexivity|]. cbn [nth_error] in H.
  replace (2 * S k)%nat with (S (S (2 * k))) by lia. cbn [flat flat_map app nth_error]. now apply IH.
Qed.
Lemma flat_length ps : length (flat ps) = (2 * length ps)%nat.
Proof. induction ps as [|q ps IH]; [reflexivity|]. cbn [flat flat_map app length]. change (flat_map _ ps) with (flat ps). rewrite IH. lia. Qed.
Definition small_pair (p : dimtag) : Prop := small (fst p) /\ small (snd p).
Lemma bind_cut {B} (m : outcome (list Z)) z (k : Z -> outcome B) : (let* t := m in stoi t) = Ret z -> (let* t := m in let* v := stoi t in k v) = k z.
Proof. destruct m; try discriminate. cbn [bind]. intros ->. reflexivity. Qed.

Lemma read_pair_ok ns k d v tail : nth_error ns k = Some d -> nth_error ns (S k) = Some v -> small d -> small v ->
  read_pair (blanks (map decimal ns) ++ tail) (length (blanks (map decimal (firstn k ns)))) = Ret ((d, v), length (blanks (map decimal (firstn (S (S k)) ns)))).
Proof.
  intros H1 H2 S1 S2. unfold read_pair. destruct (number_at ns k d tail H1 S1) as (te & Fi & St & P). cbv zeta. rewrite Fi. rewrite (bind_cut _ _ _ St). rewrite P.
  destruct (number_at ns (S k) v tail H2 S2) as (te2 & Fi2 & St2 & P2). rewrite Fi2. rewrite (bind_cut _ _ _ St2). now rewrite P2.
Qed.
Lemma read_last_pair_ok ns d v tl : small d -> small v -> ends tl ->
  read_last_pair (blanks (map decimal (ns ++ [d])) ++ decimal v ++ tl) (length (blanks (map decimal ns))) = Ret (d, v).
Proof.
  intros S1 S2 He. unfold read_last_pair. assert (N : nth_error (ns ++ [d]) (length ns) = Some d) by (rewrite nth_error_app2, Nat.sub_diag by lia; reflexivity).
  destruct (number_at (ns ++ [d]) (length ns) d (decimal v ++ tl) N S1) as (te & Fi & St & P). cbv zeta in *. rewrite firstn_app_len in *. rewrite Fi. rewrite (bind_cut _ _ _ St). rewrite P.
  rewrite (firstn_all2 (ns ++ [d])) by (rewrite app_length; cbn; lia). rewrite substr_rest. cbn [bind]. rewrite stoi_decimal by auto. reflexivity.
Qed.
Lemma read_pair_line_ok L from r ds line R x tl : Forall small_pair L -> nth_error L (from + r) = Some x -> filled ds L from -> tl = [] \/ tl = [BLANK] ->
  exists ds' line', read_pair_line from (S r) (ds, (line, mkStream (row pair_text L from r ++ pair_text x ++ tl ++ NEWLINE :: R) false)) = Ret (ds', (line', mkStream R false)) /\
    filled ds' L (from + S r).
Proof.
  intros Hs Hx Hf Ht. unfold read_pair_line. assert (Hn : (from + r < length L)%nat) by (apply nth_error_Some; congruence).
  set (ch := slice L from r). assert (LC : length ch = r) by (apply slice_length; lia).
  assert (Sx : small_pair x) by (rewrite Forall_forall in Hs; apply Hs; eapply nth_error_In; eauto). destruct Sx as (Sd & Sv).
  set (ns := flat ch ++ [fst x]). set (ln := blanks (map decimal ns) ++ decimal (snd x) ++ tl).
  assert (LE : row pair_text L from r ++ pair_text x ++ tl ++ NEWLINE :: R = ln ++ NEWLINE :: R).
  { rewrite pair_row. fold ch. unfold ln, ns, pair_text. rewrite map_app, blanks_app. cbn [map]. rewrite blanks_one, <- !app_assoc. reflexivity. }
  rewrite LE. rewrite getline_ok.
  2:{ intros X. unfold ln in X. apply in_app_or in X. destruct X as [X|X]; [now apply blanks_line in X; [|apply words_of]|]. apply in_app_or in X. destruct X as [X|X]; [now apply decimal_is_word in X|].
      destruct Ht as [->| ->]; [destruct X|]. destruct X as [X|[]]. discriminate. }
  match goal with |- context [for_ _ 0 ?h _] => set (fr := h) end. replace (S r - 1)%nat with r by lia.
  assert (FR : forall k, (k <= length ch)%nat -> firstn (2 * k) ns = flat (firstn k ch)).
  { intros k Hk. unfold ns. rewrite firstn_app, flat_length. replace (2 * k - 2 * length ch)%nat with O by lia. cbn [firstn]. rewrite app_nil_r.
    clear -Hk. revert k Hk. induction ch as [|q ch IH]; intros [|k] Hk; cbn [length] in Hk; try lia; try reflexivity. replace (2 * S k)%nat with (S (S (2 * k))) by lia.
    cbn [flat flat_map app firstn]. f_equal. f_equal. apply IH. lia. }
  destruct (for_inv (fun k st => let '(ds, ts) := st in filled ds L (from + k) /\ ts = length (blanks (map decimal (firstn (2 * k) ns)))) fr r 0 (ds, O)) as ((ds1 & ts) & E & F1 & T1).
  - split; [now rewrite Nat.add_0_r|]. reflexivity.
  - intros k (tg & ts) Hk (F & ->). destruct (nth_error ch k) as [y|] eqn:N; [|apply nth_error_None in N; lia].
    assert (Nl : nth_error L (from + k) = Some y) by (rewrite <- N; symmetry; apply slice_nth; lia).
    assert (Sy : small_pair y) by (rewrite Forall_forall in Hs; apply Hs; eapply nth_error_In; eauto). destruct Sy as (S1 & S2).
    destruct (flat_nth ch k y N) as (N1 & N2).
    assert (M1 : nth_error ns (2 * k) = Some (fst y)) by (unfold ns; rewrite nth_error_app1; [exact N1|rewrite flat_length; lia]).
    assert (M2 : nth_error ns (S (2 * k)) = Some (snd y)) by (unfold ns; rewrite nth_error_app1; [exact N2|rewrite flat_length; lia]).
    pose proof (read_pair_ok ns (2 * k) (fst y) (snd y) (decimal (snd x) ++ tl) M1 M2 S1 S2) as RP. change (blanks (map decimal ns) ++ decimal (snd x) ++ tl) with ln in RP.
    unfold fr. rewrite RP. cbn [bind fst snd]. rewrite <- surjective_pairing.
    destruct (fill_step _ _ _ _ F Nl) as (tg' & W & F'). rewrite W. cbn [bind].
    eexists. split; [reflexivity|]. cbv beta iota. split; [now rewrite Nat.add_succ_r|]. now replace (2 * S k)%nat with (S (S (2 * k))) by lia.
  - rewrite E. cbn [bind]. subst ts. change (0 + r)%nat with r in *. rewrite FR by lia. rewrite (firstn_all2 ch) by lia.
    assert (En : ends tl) by (destruct Ht as [->| ->]; exact Logic.I || reflexivity).
    pose proof (read_last_pair_ok (flat ch) (fst x) (snd x) tl Sd Sv En) as RP. fold ns in RP. change (blanks (map decimal ns) ++ decimal (snd x) ++ tl) with ln in RP.
    rewrite RP. cbn [bind]. rewrite <- surjective_pairing. destruct (fill_step _ _ _ _ F1 Hx) as (tg' & W & F'). replace (from + S r - 1)%nat with (from + r)%nat by lia. rewrite W. cbn [bind].
    eexists _, _. split; [reflexivity|]. now rewrite Nat.add_succ_r.
Qed.
Lemma read_pairs_ok L ds line R : Forall small_pair L -> length ds = length L ->
  exists line', (let* st := for_ (length L / 8) 0 (fun j st => read_pair_line (8 * j) 8 st) (ds, (line, mkStream (rows pair_text L ++ R) false)) in
    if (length L mod 8 =? 0)%nat then Ret st else read_pair_line (length L / 8 * 8) (length L mod 8) st) = Ret (L, (line', mkStream R false)).
Proof.
  intros Hs Hl. unfold rows. pose proof (Nat.div_mod (length L) 8 ltac:(lia)) as D. pose proof (Nat.mod_upper_bound (length L) 8 ltac:(lia)) as M.
  set (full := (length L / 8)%nat) in *. set (rem := (length L mod 8)%nat) in *. set (lastp := match rem with O => [] | S _ => _ end).
  destruct (for_inv (fun j st => let '(ds, (line, s)) := st in filled ds L (8 * j) /\
     s = mkStream ((concat (map (fun i => row pair_text L (8 * i) 8 ++ [NEWLINE]) (seq j (full - j))) ++ lastp) ++ R) false) (fun j st => read_pair_line (8 * j) 8 st) full 0
     (ds, (line, mkStream ((concat (map (fun i => row pair_text L (8 * i) 8 ++ [NEWLINE]) (seq 0 full)) ++ lastp) ++ R) false))) as ((ds1 & line1 & s1) & E & F1 & S1).
  - split; [split; [exact Hl|reflexivity]|]. now rewrite Nat.sub_0_r.
  - intros j (tg & ln & s) Hj (F & ->). rewrite seq_step by lia. cbn [map concat].
    destruct (nth_error L (8 * j + 7)) as [x|] eqn:Ex; [|apply nth_error_None in Ex; lia].
    assert (R8 : row pair_text L (8 * j) 8 = row pair_text L (8 * j) 7 ++ pair_text x ++ [BLANK]).
    { unfold row. rewrite (slice_S L (8 * j) 7 x Ex), map_app, concat_app. cbn [map concat]. now rewrite app_nil_r. }
    rewrite R8, <- !app_assoc.
    destruct (read_pair_line_ok L (8 * j) 7 tg ln (concat (map (fun i => row pair_text L (8 * i) 8 ++ [NEWLINE]) (seq (S j) (full - S j))) ++ lastp ++ R) x [BLANK] Hs Ex F (or_intror eq_refl)) as (tg' & ln' & E & F').
    eexists. split; [exact E|]. cbv beta iota. split; [now replace (8 * S j)%nat with (8 * j + 8)%nat by lia|]. reflexivity.
  - rewrite E. cbn [bind]. subst s1. cbn [Nat.add] in *. rewrite Nat.sub_diag. cbn [seq map concat app]. unfold lastp. clear lastp E. destruct rem as [|r] eqn:Er.
    + cbn. exists line1. f_equal. f_equal. apply (fill_end _ _ _ F1). lia.
    + change (S r =? 0)%nat with false. cbn iota. destruct (nth_error L (8 * full + r)) as [z|] eqn:Ez; [|apply nth_error_None in Ez; lia].
      replace (full * 8)%nat with (8 * full)%nat by lia.
      destruct (read_pair_line_ok L (8 * full) r ds1 line1 R z [] Hs Ez F1 (or_introl eq_refl)) as (tg' & ln' & E & F'). rewrite <- !app_assoc. exists ln'. etransitivity; [exact E|]. f_equal. f_equal.
      apply (fill_end _ _ _ F'). lia.
Qed.
