(** Loops over the children of an object, as runs over a list of children. *)
From Coq Require Import String.
From Coq Require Import List Arith ZArith Lia Bool Reals Permutation Sorting.Sorted.
From Verif Require Import Base Loops Arith Grid_Model Grid_Spec Grid_Proofs Mpact_Model Mpact_Spec
  Export_Model Export_Spec.
Import ListNotations.
Local Open Scope list_scope.

Fixpoint runs {K S : Type} (f : K -> S -> outcome (S * bool)) (l : list K) (s : S) : outcome (S * bool) :=
  match l with
  | [] => Ret (s, true)
  | k :: l' => let* r := f k s in if snd r then runs f l' (fst r) else Ret (fst r, false)
  end.
Lemma loop_runs {S} f n : forall i (s : S), loop n i f s = runs f (seq i n) s.
Proof. induction n as [|n IH]; intros i s; [reflexivity|]. cbn. destruct (f i s) as [[s' []]| | |]; cbn; auto. Qed.
Lemma runs_app {K S} (f : K -> S -> outcome (S * bool)) l1 l2 : forall s,
  runs f (l1 ++ l2) s = let* r := runs f l1 s in if snd r then runs f l2 (fst r) else Ret (fst r, false).
Proof. induction l1 as [|k l IH]; intros s; [reflexivity|]. cbn. destruct (f k s) as [[s' []]| | |]; cbn; auto. Qed.
Lemma runs_map {K L S} (f : K -> S -> outcome (S * bool)) (g : L -> K) l : forall s, runs f (map g l) s = runs (fun x => f (g x)) l s.
Proof. induction l as [|k l IH]; intros s; [reflexivity|]. cbn. destruct (f (g k) s) as [[s' []]| | |]; cbn; auto. Qed.
Lemma runs_ext {K S} (f g : K -> S -> outcome (S * bool)) l : (forall k s, In k l -> f k s = g k s) -> forall s, runs f l s = runs g l s.
Proof.
  induction l as [|k l IH]; intros H s; [reflexivity|]. cbn. rewrite (H k s) by now left.
  destruct (g k s) as [[s' []]| | |]; cbn; auto. apply IH. intros. apply H. now right.
Qed.
Lemma runs_flat {K L S} (f : K -> S -> outcome (S * bool)) (g : L -> list K) l : forall s,
  runs f (flat_map g l) s = runs (fun x => runs f (g x)) l s.
Proof.
  induction l as [|k l IH]; intros s; [reflexivity|]. cbn [flat_map runs]. rewrite runs_app. destruct (runs f (g k) s) as [[s' []]| | |]; cbn; auto.
Qed.
Definition cells2 (nx ny : nat) : list (nat * nat) := flat_map (fun j => map (fun i => (i, j)) (seq 0 nx)) (seq 0 ny).
Lemma loop2_runs {S} f nx ny (s : S) :
  loop2 nx ny f s = runs (fun p => f (Z.of_nat (fst p)) (Z.of_nat (snd p))) (cells2 (Z.to_nat nx) (Z.to_nat ny)) s.
Proof.
  unfold loop2, cells2. rewrite loop_runs, runs_flat. apply runs_ext. intros j s' _. now rewrite loop_runs, runs_map.
Qed.

(** ** Row by row *)
Lemma rows_nth {A B C} (g : A -> B -> C) X : X <> [] -> forall Y k,
  nth_error (flat_map (fun y => map (fun x => g x y) X) Y) k =
  match nth_error Y (k / length X), nth_error X (k mod length X) with Some y, Some x => Some (g x y) | _, _ => None end.
Proof.
  intros HX. assert (L : length X <> 0%nat) by (destruct X; [congruence|discriminate]). set (n := length X) in *.
  induction Y as [|y Y IH]; intros k; cbn [flat_map].
  - destruct k, (_ / n)%nat; reflexivity.
  - destruct (Nat.lt_ge_cases k n) as [H|H].
    + rewrite nth_error_app1 by (rewrite map_length; auto). rewrite Nat.div_small, Nat.mod_small by auto. cbn [nth_error].
      destruct (nth_error X k) eqn:E; [exact (map_nth_error (fun x => g x y) k X E)|]. apply nth_error_None. apply nth_error_None in E. now rewrite map_length.
    + rewrite nth_error_app2 by (rewrite map_length; auto). rewrite map_length. fold n. rewrite IH.
      replace (k / n)%nat with (S ((k - n) / n))%nat.
      2:{ replace (k / n)%nat with ((k - n + 1 * n) / n)%nat by (f_equal; lia). rewrite Nat.div_add by auto. lia. }
      replace (k mod n)%nat with ((k - n) mod n)%nat; [reflexivity|].
      replace (k mod n)%nat with ((k - n + 1 * n) mod n)%nat by (f_equal; lia). now rewrite Nat.mod_add by auto.
Qed.
Lemma rows_len {A B C} (g : A -> B -> C) X Y : length (flat_map (fun y => map (fun x => g x y) X) Y) = (length X * length Y)%nat.
Proof. induction Y as [|y Y IH]; cbn; [lia|]. rewrite app_length, map_length, IH. lia. Qed.
Lemma seq_nth_error n : forall s k, (k < n)%nat -> nth_error (seq s n) k = Some (s + k)%nat.
Proof. induction n as [|n IH]; intros s [|k] H; cbn; try lia; [now rewrite Nat.add_0_r|]. rewrite IH by lia. f_equal. lia. Qed.
Lemma removelast_len {A} (l : list A) : length (removelast l) = (length l - 1)%nat.
Proof.
  induction l as [|a [|b l] IH]; [reflexivity|reflexivity|]. change (S (length (removelast (b :: l))) = (length (a :: b :: l) - 1)%nat).
  rewrite IH. cbn [length]. lia.
Qed.
Lemma removelast_nth {A} (l : list A) : forall k, (k < length l - 1)%nat -> nth_error (removelast l) k = nth_error l k.
Proof.
  induction l as [|a [|b l] IH]; intros k H; cbn in H; try lia.
  change (removelast (a :: b :: l)) with (a :: removelast (b :: l)). destruct k as [|k]; [reflexivity|]. cbn [nth_error]. apply IH. cbn. lia.
Qed.
Lemma nth_combine {A B} : forall (l : list A) (r : list B) k a b, nth_error l k = Some a -> nth_error r k = Some b -> nth_error (combine l r) k = Some (a, b).
Proof. induction l as [|x l IH]; intros [|y r] [|k] a b H1 H2; try discriminate; cbn in *; [congruence|auto]. Qed.
Lemma F2_of_nth {A B} (P : A -> B -> Prop) : forall l r, length l = length r ->
  (forall k a b, nth_error l k = Some a -> nth_error r k = Some b -> P a b) -> Forall2 P l r.
Proof.
  induction l as [|a l IH]; intros [|b r] L H; try discriminate; constructor.
  - now apply (H 0%nat).
  - apply IH; [now injection L|]. intros k x y Hx Hy. exact (H (S k) x y Hx Hy).
Qed.
Lemma cells2_nth nx ny k : (0 < nx)%nat -> (k < nx * ny)%nat -> nth_error (cells2 nx ny) k = Some (k mod nx, k / nx)%nat.
Proof.
  intros Hx Hk. unfold cells2. rewrite rows_nth by (destruct nx; [lia|discriminate]). rewrite seq_length.
  rewrite seq_nth_error by (apply Nat.div_lt_upper_bound; lia). rewrite seq_nth_error by (apply Nat.mod_upper_bound; lia). reflexivity.
Qed.

(** ** Children *)
Definition child_at (child : list Z -> outcome Z) (bx : list Z -> outcome (list (R * R))) (ij : nat * nat) (kid : Z * (R * R * R)) : Prop :=
  let idx := [Z.of_nat (fst ij); Z.of_nat (snd ij)] in
  child idx = Ret (fst kid) /\ exists b x y, bx idx = Ret b /\ corner b = Ret (x, y) /\ snd kid = (x, y, 0%R).

Lemma flat2 nx ny i j : (0 <= i < nx)%Z -> (0 <= j < ny)%Z -> (nx * ny <= intMax)%Z -> flatIndex [nx; ny] [i; j] = Ret (i + nx * j)%Z.
Proof.
  intros Hi Hj Hm. rewrite flat_horner.
  - cbn. f_equal. lia.
  - repeat constructor; lia.
  - cbn. lia.
  - discriminate.
  - repeat constructor; cbn; lia.
Qed.
Lemma rect_kids r : rect_shaped r -> (Z.of_nat (length (snd r)) <= intMax)%Z -> snd r <> [] ->
  exists lx ly, fst r = [lx; ly] /\ num_cells (fst r) = Ret (Z.of_nat (length lx - 1), Z.of_nat (length ly - 1)) /\
  Forall2 (child_at (rect_getChild Z r) (rect_getBox (fst r))) (cells2 (length lx - 1) (length ly - 1)) (combine (snd r) (corners2 lx ly)) /\
  map fst (combine (snd r) (corners2 lx ly)) = snd r.
Proof.
  intros (lx & ly & E & Hlx & Hly & L) Hm Hne. exists lx, ly. split; auto. destruct r as [g ch]. cbn [fst snd] in *. subst g.
  set (nx := (length lx - 1)%nat) in *. set (ny := (length ly - 1)%nat) in *.
  assert (Hn : (0 < nx /\ 0 < ny)%nat) by (destruct ch; [congruence|cbn in L; nia]).
  assert (Lc : length (corners2 lx ly) = length ch).
  { unfold corners2. rewrite (rows_len (fun x y => (x, y, 0%R))), !removelast_len. fold nx ny. lia. }
  split; [|split].
  - unfold num_cells. cbn. do 3 f_equal; subst nx ny; lia.
  - apply F2_of_nth.
    + unfold cells2. rewrite (rows_len (fun i j => (i, j))), !seq_length, combine_length, Lc. lia.
    + intros k [i j] kid Hij Hkid.
      assert (Hk : (k < nx * ny)%nat).
      { assert (k < length (cells2 nx ny))%nat by (apply nth_error_Some; congruence). unfold cells2 in *.
        rewrite (rows_len (fun i j => (i, j))), !seq_length in *. auto. }
      rewrite cells2_nth in Hij by lia. injection Hij as <- <-.
      assert (Hi : (k mod nx < nx)%nat) by (apply Nat.mod_upper_bound; lia).
      assert (Hj : (k / nx < ny)%nat) by (apply Nat.div_lt_upper_bound; lia).
      assert (Ek : (k = k mod nx + nx * (k / nx))%nat) by (rewrite (Nat.div_mod_eq k nx) at 1; lia).
      destruct (nth_error lx (k mod nx)) as [x|] eqn:Ex; [|apply nth_error_None in Ex; lia].
      destruct (nth_error lx (S (k mod nx))) as [x'|] eqn:Ex'; [|apply nth_error_None in Ex'; lia].
      destruct (nth_error ly (k / nx)) as [y|] eqn:Ey; [|apply nth_error_None in Ey; lia].
      destruct (nth_error ly (S (k / nx))) as [y'|] eqn:Ey'; [|apply nth_error_None in Ey'; lia].
      destruct (nth_error ch k) as [id|] eqn:Eid; [|apply nth_error_None in Eid; lia].
      rewrite (nth_combine _ _ _ id (x, y, 0%R) Eid) in Hkid.
      2:{ unfold corners2. rewrite (rows_nth (fun x y => (x, y, 0%R))) by (intros X; apply (f_equal (@length R)) in X; rewrite removelast_len in X; cbn in X; lia).
          rewrite removelast_len. fold nx. rewrite !removelast_nth by (fold nx ny; lia). now rewrite Ex, Ey. }
      injection Hkid as <-. unfold child_at. cbn [fst snd]. split.
      * unfold rect_getChild, rect_getFlatIndex. cbn [combine forallb fst snd numCells map].
        rewrite (proj2 (Z.ltb_lt (Z.of_nat (k mod nx)) _)) by lia. rewrite (proj2 (Z.ltb_lt (Z.of_nat (k / nx)) _)) by lia. cbn [andb].
        rewrite flat2 by nia. cbn [bind]. apply rdz_nth; [lia|]. rewrite <- Eid. f_equal. lia.
      * exists [(x, x'); (y, y')], x, y. unfold rect_getBox. cbn [combine forallb fst snd].
        rewrite (proj2 (Z.ltb_lt (Z.of_nat (k mod nx) + 1) _)) by lia. rewrite (proj2 (Z.ltb_lt (Z.of_nat (k / nx) + 1) _)) by lia. cbn [andb map2o].
        rewrite (rdz_nth lx (Z.of_nat (k mod nx)) x) by (try lia; now rewrite Nat2Z.id). cbn [bind].
        rewrite (rdz_nth lx (Z.of_nat (k mod nx) + 1) x') by (try lia; replace (Z.to_nat _) with (S (k mod nx)) by lia; auto). cbn [bind].
        rewrite (rdz_nth ly (Z.of_nat (k / nx)) y) by (try lia; now rewrite Nat2Z.id). cbn [bind].
        rewrite (rdz_nth ly (Z.of_nat (k / nx) + 1) y') by (try lia; replace (Z.to_nat _) with (S (k / nx)) by lia; auto). cbn [bind].
        repeat split; reflexivity.
  - clear -Lc. revert Lc. generalize (corners2 lx ly). induction ch as [|c ch IH]; intros [|q l] H; try discriminate; cbn; [auto|]. f_equal. apply IH. now injection H.
Qed.
Lemma regular_kids (l : list axis * list Z) w h nx ny : fst l = lattice_grid w h nx ny -> (0 <= nx)%Z -> (0 <= ny)%Z ->
  Z.of_nat (length (snd l)) = (nx * ny)%Z -> (Z.of_nat (length (snd l)) <= intMax)%Z -> snd l <> [] ->
  let kids := combine (snd l) (regular_corners w h nx ny) in
  Forall2 (child_at (regular_getChild Z l) (getBox (fst l))) (cells2 (Z.to_nat nx) (Z.to_nat ny)) kids /\ map fst kids = snd l.
Proof.
  intros E Hnx Hny L Hm Hne kids. destruct l as [g ch]. cbn [fst snd] in *. subst g.
  set (nx' := Z.to_nat nx) in *. set (ny' := Z.to_nat ny) in *.
  assert (L' : length ch = (nx' * ny')%nat) by (apply Nat2Z.inj; rewrite Nat2Z.inj_mul; lia).
  assert (Hn : (0 < nx' /\ 0 < ny')%nat) by (destruct ch; [congruence|cbn in L'; nia]).
  assert (Lc : length (regular_corners w h nx ny) = length ch).
  { unfold regular_corners. rewrite (rows_len (fun i j => (w * INR i, h * INR j, 0)%R)), !seq_length. fold nx' ny'. lia. }
  split.
  - apply F2_of_nth.
    + unfold cells2, kids. rewrite (rows_len (fun i j => (i, j))), !seq_length, combine_length, Lc. lia.
    + intros k [i j] kid Hij Hkid.
      assert (Hk : (k < nx' * ny')%nat).
      { assert (k < length (cells2 nx' ny'))%nat by (apply nth_error_Some; congruence). unfold cells2 in *.
        rewrite (rows_len (fun i j => (i, j))), !seq_length in *. auto. }
      rewrite cells2_nth in Hij by lia. injection Hij as <- <-.
      assert (Hi : (k mod nx' < nx')%nat) by (apply Nat.mod_upper_bound; lia).
      assert (Hj : (k / nx' < ny')%nat) by (apply Nat.div_lt_upper_bound; lia).
      assert (Ek : (k = k mod nx' + nx' * (k / nx'))%nat) by (rewrite (Nat.div_mod_eq k nx') at 1; lia).
      destruct (nth_error ch k) as [id|] eqn:Eid; [|apply nth_error_None in Eid; lia].
      unfold kids in Hkid. rewrite (nth_combine _ _ _ id (w * INR (k mod nx'), h * INR (k / nx'), 0)%R Eid) in Hkid.
      2:{ unfold regular_corners. fold nx' ny'.
          rewrite (rows_nth (fun i j => (w * INR i, h * INR j, 0)%R)) by (intros X; apply (f_equal (@length nat)) in X; rewrite seq_length in X; cbn in X; lia).
          rewrite seq_length, !seq_nth_error by lia. reflexivity. }
      injection Hkid as <-. unfold child_at. cbn [fst snd]. split.
      * unfold regular_getChild, getFlatIndex, lattice_grid. cbn [combine forallb fst snd map nc].
        rewrite (proj2 (Z.ltb_lt (Z.of_nat (k mod nx')) _)) by lia. rewrite (proj2 (Z.ltb_lt (Z.of_nat (k / nx')) _)) by lia. cbn [andb].
        rewrite flat2 by nia. cbn [bind]. apply rdz_nth; [nia|]. rewrite <- Eid. f_equal. nia.
      * unfold getBox, lattice_grid. cbn [combine forallb fst snd nc].
        rewrite (proj2 (Z.ltb_lt (Z.of_nat (k mod nx')) _)) by lia. rewrite (proj2 (Z.ltb_lt (Z.of_nat (k / nx')) _)) by lia. cbn [andb map2o bind mn sp].
        eexists _, _, _. split; [reflexivity|]. cbn. split; [reflexivity|]. rewrite <- !INR_IZR_INZ. f_equal. f_equal; ring.
  - subst kids. clear -Lc. revert Lc. generalize (regular_corners w h nx ny). induction ch as [|c ch IH]; intros [|q l] H; try discriminate; cbn; [auto|]. f_equal. apply IH. now injection H.
Qed.
