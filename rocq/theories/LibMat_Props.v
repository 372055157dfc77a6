(** C93: macroscopic cross sections of materials from a library file. *)
From Coq Require Import String Ascii.
From Coq Require Import List Arith ZArith Bool Reals Lia Lra.
From Verif Require Import Base Loops Arith Matrix_Model Matrix_Spec StringView_Model StringView_Spec Elem_Model Soup_Model Soup_Spec TextIo_Model TextIo_Spec TextIo_Proofs
  Abaqus_Spec Vtk_Model Vtk_Spec Vtk_Proofs Stats_Spec XSec_Model XSec_Spec Density_Model Density_Spec Density_Proofs Library_Model Library_Spec Library_Text_Proofs Library_Proofs
  Library_Props LibMat_Model LibMat_Spec LibMat_Proofs.
Import ListNotations.
Local Open Scope list_scope.
Local Open Scope nat_scope.

(** From a library file and any list of sensible orders: every material comes out, in order, with the name, temperature and density asked for, the
    number densities that its weights or its enrichment mean, and for every reaction and group the sum over its nuclides of number density times the
    cross section that the file gives at its temperature.  It is fissile only if one of its nuclides is. *)
Theorem C93_materials checks junk L count text os : sound_library L -> library_text L count text -> length (nucs L) <= count ->
  Forall (sensible L) os -> exists ms, make_materials checks junk text os = Ret ms /\ Forall2 (delivered L) os ms.
Proof. exact (materials_ok checks junk L count text os). Qed.
Print Assumptions C93_materials.
(** Whatever was ordered: materials that come out have only nuclides of the file, and exactly those that were weighed. *)
Theorem C93_only checks junk L count text os ms : sound_library L -> library_text L count text -> make_materials checks junk text os = Ret ms ->
  Forall2 (fun o m => (forall z, In z (zaids m) -> exists n, In n (nucs L) /\ zaid n = z) /\ (forall l, o_recipe o = Weights l -> zaids m = map fst l)) os ms.
Proof. exact (materials_any checks junk L count text os ms). Qed.
Print Assumptions C93_only.

(** The file, the composition and the temperature determine the cross sections: at most one number is the sum that C93_materials speaks of, if the
    temperatures of every table increase strictly. *)
Theorem C93_determined L T cs r g v v' : (forall n, In n (nucs L) -> strictly_ascending (temps n)) ->
  mixture L T cs r g v -> mixture L T cs r g v' -> v = v'.
Proof. exact (mixture_fun L T cs r g v v'). Qed.
Print Assumptions C93_determined.

(** * Example: oxygen between the two temperatures of its table *)
Definition ox_lib : xslib := mkXsLib [9; 1]%R [1; 0]%R [mkNuc 8016 9 true [3; 6]%R [ex_x1; ex_x2]].
Definition ox_lines (count : string) : list (list char) := map lit ["%VER:"; " 4.0"; "%DIM:"]%string ++ [lit "2 0 0 0 " ++ lit count ++ lit " 0 0 0 0 0"] ++
  map lit ["%GRP:"; " 9"; "1"; "%CHI:"; "1 0"; "%DIR:"; "1 8 9"; "%NUC 1 8016 9 0 0 0 0 2"; " TP1+"; "3 6"; " XSD+"; "1 1 1 2 5 3 6 1 2 7 8"; "1 2 2 3 6 4 7 2 2 9"; "2 1 4"; "2 2 5"; "RES+ 1"]%string.
Lemma oxygen_id : dec (lit "8016") 8016.
Proof.
  exact (dec_more _ _ 6 (dec_more _ _ 1 (dec_more _ _ 0 (dec_one 8 ltac:(lia)) ltac:(lia)) ltac:(lia)) ltac:(lia)).
Qed.
Example C93_sound : sound_library ox_lib.
Proof.
  constructor; cbn [bounds chi nucs ox_lib length].
  - split; [unfold intMax; lia|discriminate].
  - split; [repeat constructor; lra|]. intros [|[|i]] x y Hx Hy; cbn in Hx, Hy; try discriminate; try (destruct i; discriminate). injection Hx as <-. injection Hy as <-. lra.
  - split; [reflexivity|repeat constructor; lra].
  - constructor; [|constructor]. constructor; cbn [zaid mass tables temps fissile]; [lia|lra| |repeat constructor| | |].
    + split; [discriminate|]. split; [reflexivity|]. split; [repeat constructor; cbn [temps]; lra|]. split; [|repeat constructor; apply ex_shape; reflexivity].
      intros [|[|i]] [|[|j]] x y H Hx Hy; cbn in Hx, Hy; try lia; try discriminate; try (injection Hx as <-; injection Hy as <-; lra); try (destruct i; discriminate); try (destruct j; discriminate).
    + repeat constructor; intros _; exists 0; (split; [lia|change (0 < 2)%R || change (0 < 3)%R; lra]).
    + repeat constructor; discriminate.
    + split; [|reflexivity]. intros _. now constructor.
Qed.
Example C93_lines count : In count ["0"; "1"; "2"]%string -> library_lines ox_lib (ex_count count) (ox_lines count).
Proof.
  intros Hc. unfold ox_lines. set (ds := lit "2 0 0 0 " ++ lit count ++ lit " 0 0 0 0 0"). cbn [map app].
  refine (lib ox_lib _ _ (lit " 4.0") _ ds [lit "2"; lit "0"; lit "0"; lit "0"; lit count; lit "0"; lit "0"; lit "0"; lit "0"; lit "0"] [2; 0; 0; 0; Z.of_nat (ex_count count); 0; 0; 0; 0; 0]%Z _
    (map lit [" 9"; "1"]%string) _ (map lit ["1 0"]%string) _ (map lit ["1 8 9"]%string)
    [map lit ["%NUC 1 8016 9 0 0 0 0 2"; " TP1+"; "3 6"; " XSD+"; "1 1 1 2 5 3 6 1 2 7 8"; "1 2 2 3 6 4 7 2 2 9"; "2 1 4"; "2 2 5"; "RES+ 1"]%string] _ _
    _ _ _ _ _ _ _ _ _ _ _ _ _ _ _ _ _ _ _); try reflexivity; try (now eexists).
  - now exists 1, (lit ".0").
  - destruct Hc as [<-|[<-|[<-|[]]]]; unfold ds; cbn [lit app]; wds.
  - destruct Hc as [<-|[<-|[<-|[]]]]; [change (ex_count "0") with 0|change (ex_count "1") with 1|change (ex_count "2") with 2]; repeat (apply Forall2_cons; [it|]); constructor.
  - destruct Hc as [<-|[<-|[<-|[]]]]; repeat constructor; discriminate.
  - cbn [bounds ox_lib map]. exists [[lit "9"]; [lit "1"]]. split; [|split].
    + constructor; [split; [refine (ws_last 1 _ _); wd|discriminate]|]. constructor; [split; [refine (ws_last 0 _ _); wd|discriminate]|constructor].
    + constructor; [|constructor]. intros [|a [|b [|c q]]] X; discriminate X.
    + repeat (constructor; [rt|]). constructor.
  - exists [[lit "1"; lit "0"]]. split; [|split].
    + constructor; [split; [wds|discriminate]|constructor].
    + constructor.
    + repeat (constructor; [rt|]). constructor.
  - repeat constructor. intros (r & X). discriminate X.
  - discriminate.
  - cbn [nucs ox_lib length seq combine]. constructor; [|constructor]. cbn [fst snd].
    refine (nuc 2 0 _ (lit "%NUC 1 8016 9 0 0 0 0 2") (lit "%NUC") (lit "1") (lit "8016") (lit "9") (lit "0") (lit "0") (lit "0") (lit "0") (lit "2") [] (lit " TP1+") (lit "3 6") [lit "3"; lit "6"] (lit " XSD+")
      [[lit "1 1 1 2 5 3 6 1 2 7 8"; lit "1 2 2 3 6 4 7 2 2 9"]; [lit "2 1 4"; lit "2 2 5"]] [lit "RES+ 1"] _ _ _ _ _ _ _ _ _ _ _ _); cbn [zaid mass temps tables length seq combine].
    + now exists 0, (lit " 1 8016 9 0 0 0 0 2").
    + refine (ws_cons 0 (lit "%NUC") _ _ _ _); [wd|]. refine (ws_cons 0 [_] _ _ _ _); [wd|]. refine (ws_cons 0 (lit "8016") _ _ _ _); [wd|wds].
    + it.
    + split; [apply num_pos; apply oxygen_id|unfold int32; lia].
    + rt.
    + it.
    + now exists 1, [].
    + wds.
    + repeat (constructor; [rt|]). constructor.
    + now exists 1, [].
    + constructor; [|constructor; [|constructor]]; (constructor; [|constructor; [|constructor]]); cbn [fst snd].
      * refine (row_all 2 _ 0 0 _ [_] [_] [_] [_] [_] [_] [_] [_] [_] [[_]; [_]] 1 2 _ _ _ _ _ _ _ _ _ _ _ _ _ _); [wds|it|it|rt|rt|rt|rt|rt|it|it|lia|lia| |].
        { constructor; [|constructor; [|constructor]]; [change (real_text (lit "7") 7)|change (real_text (lit "8") 8)]; rt. }
        { intros j Hj [X|X]; lia. }
      * refine (row_all 2 _ 0 1 _ [_] [_] [_] [_] [_] [_] [_] [_] [_] [[_]] 2 2 _ _ _ _ _ _ _ _ _ _ _ _ _ _); [wds|it|it|rt|rt|rt|rt|rt|it|it|lia|lia| |].
        { constructor; [|constructor]; change (real_text (lit "9") 9); rt. }
        { intros j Hj [X|X]; [|lia]. assert (j = 0) as -> by lia. reflexivity. }
      * refine (row_absorption 2 _ 1 0 _ [_] [_] [_] _ _ _ _ _ _ _ _ _); [wds|it|it|rt|reflexivity|reflexivity|reflexivity|reflexivity|]. intros [|[|j]] Hj; [reflexivity|reflexivity|lia].
      * refine (row_absorption 2 _ 1 1 _ [_] [_] [_] _ _ _ _ _ _ _ _ _); [wds|it|it|rt|reflexivity|reflexivity|reflexivity|reflexivity|]. intros [|[|j]] Hj; [reflexivity|reflexivity|lia].
    + constructor; [|constructor]. split; intros (k & r & X); (destruct k; discriminate X).
Qed.
Example C93_text : library_text ox_lib 1 (joined (ox_lines "1") ++ lit " %END").
Proof.
  refine (complete _ _ _ (ox_lines "1") (lit " %END") [] (C93_lines "1" (or_intror (or_introl eq_refl))) _ _ (or_introl eq_refl)); [now exists 1, []|].
  apply lines_ok. reflexivity.
Qed.
Definition oxygen : order := mkOrder 3 4%R 2%R (Weights [(8016%Z, 1%R)]).
Example C93_sensible : sensible ox_lib oxygen.
Proof.
  unfold sensible, oxygen. cbn [o_name o_temperature o_density o_recipe]. split; [discriminate|]. split; [lra|]. split; [lra|]. split.
  - split; [discriminate|]. split; [repeat constructor; intros []|]. constructor; [|constructor]. cbn [fst snd]. split; [|lra].
    eexists. unfold has_mass, ZAID_ATOMIC_MASS. apply in_map_iff. exists (8016, 1599490)%Z. split; [reflexivity|]. cbn. tauto.
  - intros z [<-|[]]. eexists. split; [now left|reflexivity].
Qed.
(** absorption in the first group at temperature 4, between 1 at 3 and 2 at 6 *)
Example C93_example : exists m N, make_materials true [] (joined (ox_lines "1") ++ lit " %END") [oxygen] = Ret [m] /\ content m = [(8016%Z, N)] /\
  (N * (1599490 / 100000) = 2 * avogadro)%R /\ value (mxsec m) Absorption 0 = (N * (1 + (sqrt 4 - sqrt 3) / (sqrt 6 - sqrt 3)))%R.
Proof.
  destruct (C93_materials true [] ox_lib 1 _ [oxygen] C93_sound C93_text (le_n 1)) as (ms & E & F); [constructor; [exact C93_sensible|constructor]|].
  inversion F as [|? m ? r D F']. subst. inversion F'. subst. destruct D as (_ & _ & _ & _ & P & _ & _ & _ & V).
  inversion P as [l cs Q El Ec|]. inversion Q as [|? c ? cs' (Ez & M & HM & HN) Q' E1 E2]. inversion Q'. subst cs'. destruct c as [z N]. cbn [fst snd] in *. subst z.
  destruct (V Absorption 0) as (sg & G & Ev); [exact Logic.I|cbn; lia|]. rewrite <- E2 in G, Ev.
  inversion G as [|? s ? sg' (n & Hn & Hm) G']. inversion G'. subst. cbn [fst] in Hn.
  assert (n = mkNuc 8016 9 true [3; 6]%R [ex_x1; ex_x2]) as ->.
  { destruct Hn as (b & a & Eb & _). destruct b as [|? [|? b]]; cbn in Eb; [now injection Eb|discriminate Eb|discriminate Eb]. }
  exists m, N. split; [exact E|]. split; [now symmetry|]. split.
  { replace (1599490 / 100000)%R with M; [rewrite HN; cbn [oxygen o_density]; lra|]. eapply has_mass_fun; [exact HM|]. apply in_map_iff. exists (8016, 1599490)%Z. split; [reflexivity|]. cbn. tauto. }
  rewrite Ev. cbn [combine map fst snd].
  assert (s = (1 + (sqrt 4 - sqrt 3) / (sqrt 6 - sqrt 3))%R) as ->; [|unfold total; cbn [fold_right]; lra].
  clear - Hm. inversion Hm as [t0 x0 A B C|tn xn A B C|i t0 t1 x0 x1 (A & B & C & X & Y)]; cbn in *.
  - injection A as <-. lra.
  - injection A as <-. lra.
  - destruct i as [|[|i]]; cbn in *; try discriminate; try (destruct i; discriminate). injection A as <-. injection B as <-. injection X as <-. injection Y as <-.
    unfold root_line. cbn. replace (2 - 1)%R with 1%R by lra. lra.
Qed.
Example C93_ascending n : In n (nucs ox_lib) -> strictly_ascending (temps n).
Proof.
  intros [<-|[]]. cbn [temps]. intros [|[|i]] [|[|j]] x y H Hx Hy; cbn in Hx, Hy; try lia; try discriminate; try (injection Hx as <-; injection Hy as <-; lra); try (destruct i; discriminate); try (destruct j; discriminate).
Qed.
