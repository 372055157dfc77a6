(** C79: reading a cross section library in MPACT's format. *)
From Coq Require Import String Ascii.
From Coq Require Import List Arith ZArith Bool Reals Lia Lra.
From Verif Require Import Base Loops Arith Matrix_Model Matrix_Spec StringView_Model StringView_Spec Elem_Model Soup_Model Soup_Spec TextIo_Model TextIo_Spec TextIo_Proofs
  Abaqus_Spec Vtk_Model Vtk_Spec Vtk_Proofs Stats_Spec XSec_Model XSec_Spec Library_Model Library_Spec Library_Text_Proofs Library_Proofs.
Import ListNotations.
Local Open Scope list_scope.
Local Open Scope nat_scope.

(** Reading a library gives the bounds of its groups, its fission spectrum, and its nuclides in their order with every value at its group and
    temperature, whatever the numbers look like, however they are spaced and spread over lines, whatever other sections there are, with or without
    assertions.  If more nuclides are announced than there are, the rest are empty. *)
Theorem C79_reads checks junk L count text : sound_library L -> library_text L count text -> length (nucs L) <= count ->
  readMPACTLibrary checks junk text = Ret (mkXsLib (bounds L) (chi L) (nucs L ++ repeat no_nuclide (count - length (nucs L)))).
Proof. intros Hs T Hc. rewrite (library_any checks L count text junk Hs T). now rewrite (proj2 (Nat.leb_le _ _) Hc). Qed.
Print Assumptions C79_reads.
(** If fewer are announced than there are, the next one is written behind the end of the vector. *)
Theorem C79_extra_refuted checks junk L count text : sound_library L -> library_text L count text -> count < length (nucs L) ->
  readMPACTLibrary checks junk text = Ub.
Proof. intros Hs T Hc. rewrite (library_any checks L count text junk Hs T). now rewrite (proj2 (Nat.leb_gt _ _) Hc). Qed.
Print Assumptions C79_extra_refuted.
(** If the line at the end is another one, the last line of the file is read as one more nuclide, behind the end of the vector. *)
Theorem C79_endless_refuted junk L text : sound_library L -> endless_text L (length (nucs L)) text -> readMPACTLibrary false junk text = Ub.
Proof. exact (endless_ub L text junk). Qed.
Print Assumptions C79_endless_refuted.
(** Whatever the file contains: a library that is returned has as many entries in its spectrum as it has groups, and every nuclide is either
    empty or has a positive id and mass and microscopic cross sections for all groups at increasing positive temperatures.  With assertions the
    bounds of the groups decrease. *)
Theorem C79_any checks junk text L : readMPACTLibrary checks junk text = Ret L ->
  length (chi L) = length (bounds L) /\ Forall (passed checks (length (bounds L))) (nucs L) /\
  (checks = true -> Forall (Rle 0) (bounds L) /\ decreasing (bounds L) /\ Forall (Rle 0) (chi L)).
Proof. exact (any_library checks junk text L). Qed.
Print Assumptions C79_any.
(** Two blanks at the end of a line of group bounds: the number that is on the next line is looked for at the place of the last blank, and the
    bounds 9 8 7 6 come out as 9 8 0 7. *)
Definition first_line : list char := lit "9 8  ".
Definition second_line : list char := lit "7 6".
Theorem C79_blanks_refuted : exists junk s z xs,
  next_line (mkRd junk (mkStream (joined [first_line; second_line]) false false)) = (mkSv (first_line ++ [0%Z]) 5, s) /\
  words [lit "9"; lit "8"] first_line /\ words [lit "7"; lit "6"] second_line /\
  group_values false bound_ok 4 (mkSv (first_line ++ [0%Z]) 5) s = Ret (xs, z) /\ xs = [9; 8; 0; 7]%R.
Proof.
  exists []. eexists _, _, _. split; [reflexivity|]. split; [|split]; [| |split; [vm_compute; reflexivity|]].
  - refine (ws_cons 0 (lit "9") _ _ _ _); [|refine (ws_cons 0 (lit "8") _ _ _ _); [|exact (ws_none 1)]]; (split; [discriminate|intros X; cbn in X; repeat (destruct X as [X|X]; [discriminate X|]); exact X]).
  - refine (ws_cons 0 (lit "7") _ _ _ _); [|refine (ws_last 0 _ _)]; (split; [discriminate|intros X; cbn in X; repeat (destruct X as [X|X]; [discriminate X|]); exact X]).
  - repeat f_equal; lra.
Qed.
Print Assumptions C79_blanks_refuted.

(** ** A library of two groups with one nuclide at two temperatures *)
Lemma digit_dec c d : (0 <= d <= 9)%Z -> c = (48 + d)%Z -> dec [c] d.
Proof. intros H ->. now constructor. Qed.
Ltac dg := apply digit_dec; [lia|reflexivity].
Ltac wd := split; [discriminate|intros X; cbn in X; repeat (destruct X as [X|X]; [discriminate X|]); exact X].
Ltac wds := repeat (first [refine (ws_last 0 _ _); wd | refine (ws_cons 0 [_] _ _ _ _); [wd|] | refine (ws_cons 1 [_] _ _ _ _); [wd|]]).
Ltac it := cbn [length snd Z.of_nat Pos.of_succ_nat Pos.succ]; split; [apply num_pos; dg|unfold int32; lia].
Ltac rt := apply (num_real [_]); apply num_pos; dg.
Definition ex_x1 : xsec := mkX false true 2 [1; 4]%R [2; 0]%R [5; 0]%R [3; 0]%R [6; 0]%R (mkM 2 2 [7; 0; 8; 0]%R).
Definition ex_x2 : xsec := mkX false true 2 [2; 5]%R [3; 0]%R [6; 0]%R [4; 0]%R [7; 0]%R (mkM 2 2 [0; 0; 9; 0]%R).
Definition ex_lib : xslib := mkXsLib [9; 1]%R [1; 0]%R [mkNuc 8 9 true [3; 6]%R [ex_x1; ex_x2]].
Definition ex_lines (count : string) : list (list char) := map lit ["%VER:"; " 4.0"; "%DIM:"]%string ++ [lit "2 0 0 0 " ++ lit count ++ lit " 0 0 0 0 0"] ++
  map lit ["%GRP:"; " 9"; "1"; "%CHI:"; "1 0"; "%DIR:"; "1 8 9"; "%NUC 1 8 9 0 0 0 0 2"; " TP1+"; "3 6"; " XSD+"; "1 1 1 2 5 3 6 1 2 7 8"; "1 2 2 3 6 4 7 2 2 9"; "2 1 4"; "2 2 5"; "RES+ 1"]%string.
Lemma ex_shape (a b c d e : list R) (m : list R) : length a = 2 -> length b = 2 -> length c = 2 -> length d = 2 -> length e = 2 -> length m = 4 -> shape 2 (mkX false true 2 a b c d e (mkM 2 2 m)).
Proof. intros. unfold shape, wf, intMax. cbn. repeat split; auto; lia. Qed.
Example C79_sound : sound_library ex_lib.
Proof.
  constructor; cbn [bounds chi nucs ex_lib length].
  - split; [unfold intMax; lia|discriminate].
  - split; [repeat constructor; lra|]. intros [|[|i]] x y Hx Hy; cbn in Hx, Hy; try discriminate; try (destruct i; discriminate). injection Hx as <-. injection Hy as <-. lra.
  - split; [reflexivity|repeat constructor; lra].
  - constructor; [|constructor]. constructor; cbn [zaid mass tables temps fissile]; [lia|lra| |repeat constructor| | |].
    + split; [discriminate|]. split; [reflexivity|]. split; [repeat constructor; cbn [temps]; lra|]. split; [|repeat constructor; apply ex_shape; reflexivity].
      intros [|[|i]] [|[|j]] x y H Hx Hy; cbn in Hx, Hy; try lia; try discriminate; try (injection Hx as <-; injection Hy as <-; lra); try (destruct i; discriminate); try (destruct j; discriminate).
    + repeat constructor; intros _; exists 0; (split; [lia|change (0 < 2)%R || change (0 < 3)%R; lra]).
    + repeat constructor; discriminate.
    + split; [|reflexivity]. intros _. now constructor.
Qed.
Definition ex_count (count : string) : nat := match count with "1"%string => 1 | "2"%string => 2 | _ => 0 end.
Example C79_lines count : In count ["0"; "1"; "2"]%string -> library_lines ex_lib (ex_count count) (ex_lines count).
Proof.
  intros Hc. unfold ex_lines. set (ds := lit "2 0 0 0 " ++ lit count ++ lit " 0 0 0 0 0"). cbn [map app].
  refine (lib ex_lib _ _ (lit " 4.0") _ ds [lit "2"; lit "0"; lit "0"; lit "0"; lit count; lit "0"; lit "0"; lit "0"; lit "0"; lit "0"] [2; 0; 0; 0; Z.of_nat (ex_count count); 0; 0; 0; 0; 0]%Z _
    (map lit [" 9"; "1"]%string) _ (map lit ["1 0"]%string) _ (map lit ["1 8 9"]%string)
    [map lit ["%NUC 1 8 9 0 0 0 0 2"; " TP1+"; "3 6"; " XSD+"; "1 1 1 2 5 3 6 1 2 7 8"; "1 2 2 3 6 4 7 2 2 9"; "2 1 4"; "2 2 5"; "RES+ 1"]%string] _ _
    _ _ _ _ _ _ _ _ _ _ _ _ _ _ _ _ _ _ _); try reflexivity; try (now eexists).
  - now exists 1, (lit ".0").
  - destruct Hc as [<-|[<-|[<-|[]]]]; unfold ds; cbn [lit app]; wds.
  - destruct Hc as [<-|[<-|[<-|[]]]]; [change (ex_count "0") with 0|change (ex_count "1") with 1|change (ex_count "2") with 2]; repeat (apply Forall2_cons; [it|]); constructor.
  - destruct Hc as [<-|[<-|[<-|[]]]]; repeat constructor; discriminate.
  - cbn [bounds ex_lib map]. exists [[lit "9"]; [lit "1"]]. split; [|split].
    + constructor; [split; [refine (ws_last 1 _ _); wd|discriminate]|]. constructor; [split; [refine (ws_last 0 _ _); wd|discriminate]|constructor].
    + constructor; [|constructor]. intros [|a [|b [|c q]]] X; discriminate X.
    + repeat (constructor; [rt|]). constructor.
  - exists [[lit "1"; lit "0"]]. split; [|split].
    + constructor; [split; [wds|discriminate]|constructor].
    + constructor.
    + repeat (constructor; [rt|]). constructor.
  - repeat constructor. intros (r & X). discriminate X.
  - discriminate.
  - cbn [nucs ex_lib length seq combine]. constructor; [|constructor]. cbn [fst snd].
    refine (nuc 2 0 _ (lit "%NUC 1 8 9 0 0 0 0 2") (lit "%NUC") (lit "1") (lit "8") (lit "9") (lit "0") (lit "0") (lit "0") (lit "0") (lit "2") [] (lit " TP1+") (lit "3 6") [lit "3"; lit "6"] (lit " XSD+")
      [[lit "1 1 1 2 5 3 6 1 2 7 8"; lit "1 2 2 3 6 4 7 2 2 9"]; [lit "2 1 4"; lit "2 2 5"]] [lit "RES+ 1"] _ _ _ _ _ _ _ _ _ _ _ _); cbn [zaid mass temps tables length seq combine].
    + now exists 0, (lit " 1 8 9 0 0 0 0 2").
    + refine (ws_cons 0 (lit "%NUC") _ _ _ _); [wd|wds].
    + it.
    + it.
    + rt.
    + it.
    + now exists 1, [].
    + wds.
    + repeat (constructor; [rt|]). constructor.
    + now exists 1, [].
    + constructor; [|constructor; [|constructor]]; (constructor; [|constructor; [|constructor]]); cbn [fst snd].
      * refine (row_all 2 _ 0 0 _ [_] [_] [_] [_] [_] [_] [_] [_] [_] [[_]; [_]] 1 2 _ _ _ _ _ _ _ _ _ _ _ _ _ _); [wds|it|it|rt|rt|rt|rt|rt|it|it|lia|lia| |].
        { constructor; [|constructor; [|constructor]]; [change (real_text (lit "7") 7)|change (real_text (lit "8") 8)]; rt. }
        { intros j Hj [X|X]; lia. }
      * refine (row_all 2 _ 0 1 _ [_] [_] [_] [_] [_] [_] [_] [_] [_] [[_]] 2 2 _ _ _ _ _ _ _ _ _ _ _ _ _ _); [wds|it|it|rt|rt|rt|rt|rt|it|it|lia|lia| |].
        { constructor; [|constructor]; change (real_text (lit "9") 9); rt. }
        { intros j Hj [X|X]; [|lia]. assert (j = 0) as -> by lia. reflexivity. }
      * refine (row_absorption 2 _ 1 0 _ [_] [_] [_] _ _ _ _ _ _ _ _ _); [wds|it|it|rt|reflexivity|reflexivity|reflexivity|reflexivity|]. intros [|[|j]] Hj; [reflexivity|reflexivity|lia].
      * refine (row_absorption 2 _ 1 1 _ [_] [_] [_] _ _ _ _ _ _ _ _ _); [wds|it|it|rt|reflexivity|reflexivity|reflexivity|reflexivity|]. intros [|[|j]] Hj; [reflexivity|reflexivity|lia].
    + constructor; [|constructor]. split; intros (k & r & X); (destruct k; discriminate X).
Qed.
Lemma lines_ok ls : forallb (fun l => (length l <? max_line_length) && negb (existsb (fun c => (c =? NEWLINE)%Z || (c =? 0)%Z) l)) ls = true -> Forall line_ok ls.
Proof.
  intros H. rewrite forallb_forall in H. apply Forall_forall. intros l Hl. specialize (H l Hl). apply andb_true_iff in H. destruct H as (H1 & H2).
  apply Nat.ltb_lt in H1. apply negb_true_iff in H2. split; [exact H1|].
  split; intros X; assert (existsb (fun c => (c =? NEWLINE)%Z || (c =? 0)%Z) l = true) by (apply existsb_exists; eexists; split; [exact X|reflexivity]); congruence.
Qed.
Example C79_text count : In count ["0"; "1"; "2"]%string -> library_text ex_lib (ex_count count) (joined (ex_lines count) ++ lit " %END").
Proof.
  intros Hc. refine (complete _ _ _ (ex_lines count) (lit " %END") [] (C79_lines count Hc) _ _ (or_introl eq_refl)); [now exists 1, []|].
  apply lines_ok. destruct Hc as [<-|[<-|[<-|[]]]]; reflexivity.
Qed.
Example C79_example : readMPACTLibrary true [] (joined (ex_lines "1") ++ lit " %END") = Ret ex_lib /\
  readMPACTLibrary true [] (joined (ex_lines "0") ++ lit " %END") = Ub /\ readMPACTLibrary false [] (joined (ex_lines "1" ++ [lit "%EOF"])) = Ub.
Proof.
  split; [|split].
  - exact (C79_reads true [] ex_lib 1 _ C79_sound (C79_text "1" (or_intror (or_introl eq_refl))) (le_n 1)).
  - exact (C79_extra_refuted true [] ex_lib 0 _ C79_sound (C79_text "0" (or_introl eq_refl)) (le_n 1)).
  - apply (C79_endless_refuted [] ex_lib _ C79_sound). exists (ex_lines "1"), (lit "%EOF"). split; [exact (C79_lines "1" (or_intror (or_introl eq_refl)))|].
    split; [intros (k & r & X); destruct k; discriminate X|]. split; [intros (k & r & X); destruct k; discriminate X|]. split; [|reflexivity]. apply lines_ok. reflexivity.
Qed.
