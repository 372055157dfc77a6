(** What a cross section library in MPACT's format contains. *)
From Coq Require Import String Ascii.
From Coq Require Import List Arith ZArith Reals.
From Verif Require Import Base Loops Arith Matrix_Model Matrix_Spec StringView_Model StringView_Spec Elem_Model Soup_Model Soup_Spec TextIo_Model TextIo_Spec Abaqus_Spec Vtk_Spec
  Stats_Spec XSec_Model XSec_Spec Library_Model.
Import ListNotations.
Local Open Scope list_scope.
Local Open Scope nat_scope.

(** a keyword after any number of blanks *)
Definition indented (kw : string) (l : list char) : Prop := exists k r, l = blanks k ++ lit kw ++ r.
(** at most one blank at the end *)
Definition tidy (l : list char) : Prop := forall q, l <> q ++ [SPACE; SPACE].
(** numbers on one or more lines, none of which is blank *)
Definition values_text (ls : list (list char)) (xs : list R) : Prop :=
  exists tss, Forall2 (fun l ts => words ts l /\ ts <> []) ls tss /\ Forall tidy (removelast ls) /\ Forall2 real_text (concat tss) xs.

(** the line of group [g] at temperature [t], both counted from 1: absorption, or fission, nu-fission, transport and scattering as well and the
    part [lo] to [hi] of the row of the scattering matrix, counted from 1; what is not there is zero *)
Inductive row_text (ng : nat) (x : xsec) (g t : nat) (l : list char) : Prop :=
| row_absorption tg tt ta : words [tg; tt; ta] l -> int_text tg (Z.of_nat g + 1) -> int_text tt (Z.of_nat t + 1) ->
    real_text ta (value x Absorption g) -> value x Fission g = 0%R -> value x NuFission g = 0%R -> value x Transport g = 0%R -> value x Scattering g = 0%R ->
    (forall j, j < ng -> value x (ScatterTo g) j = 0%R) -> row_text ng x g t l
| row_all tg tt ta tf tnu ttr ts tlo thi vs lo hi : words (tg :: tt :: ta :: tf :: tnu :: ttr :: ts :: tlo :: thi :: vs) l ->
    int_text tg (Z.of_nat g + 1) -> int_text tt (Z.of_nat t + 1) ->
    real_text ta (value x Absorption g) -> real_text tf (value x Fission g) -> real_text tnu (value x NuFission g) -> real_text ttr (value x Transport g) ->
    real_text ts (value x Scattering g) -> int_text tlo (Z.of_nat lo) -> int_text thi (Z.of_nat hi) -> 1 <= lo <= hi -> hi <= ng ->
    Forall2 (fun j v => real_text v (value x (ScatterTo g) (j - 1))) (seq lo (hi - lo + 1)) vs ->
    (forall j, j < ng -> j + 1 < lo \/ hi < j + 1 -> value x (ScatterTo g) j = 0%R) -> row_text ng x g t l.

(** a nuclide with data for [ng] groups *)
Record sound (ng : nat) (n : nuclide) : Prop := {
  s_zaid : (0 < zaid n)%Z;
  s_mass : (0 < mass n)%R;
  s_table : table ng n;
  s_micro : Forall (fun x => isMacro x = false) (tables n);
  s_fissile : Forall (fun x => isFissile x = true <-> exists g, g < ng /\ (0 < value x Fission g)%R) (tables n);
  s_nu : Forall (fun x => isFissile x = false -> forall g, g < ng -> (value x NuFission g <= 0)%R) (tables n);
  s_any : fissile n = true <-> Exists (fun x => isFissile x = true) (tables n) }.
(** the lines of the [i]-th nuclide: its head, the temperatures, the data by group and then by temperature, and whatever follows *)
Inductive nuclide_text (ng i : nat) (n : nuclide) : list (list char) -> Prop :=
| nuc h w ti tz tm a b c d tn more tp tl tts xsd rows rest :
    indented "%NUC" h -> words (w :: ti :: tz :: tm :: a :: b :: c :: d :: tn :: more) h -> int_text ti (Z.of_nat i + 1) -> int_text tz (zaid n) -> real_text tm (mass n) ->
    int_text tn (Z.of_nat (length (temps n))) -> indented "TP1+" tp -> words tts tl -> Forall2 real_text tts (temps n) -> indented "XSD+" xsd ->
    Forall2 (fun g ls => Forall2 (fun tx l => row_text ng (snd tx) g (fst tx) l) (combine (seq 0 (length (tables n))) (tables n)) ls) (seq 0 ng) rows ->
    Forall (fun l => ~ indented "%NUC" l /\ ~ indented "%END" l) rest ->
    nuclide_text ng i n (h :: tp :: tl :: xsd :: concat rows ++ rest).

Definition decreasing (l : list R) : Prop := forall i x y, nth_error l i = Some x -> nth_error l (S i) = Some y -> (y < x)%R.
(** a library: bounds of the groups, fission spectrum, nuclides *)
Record sound_library (L : xslib) : Prop := {
  l_groups : (Z.of_nat (length (bounds L)) * Z.of_nat (length (bounds L)) <= intMax)%Z /\ bounds L <> [];
  l_bounds : Forall (Rle 0) (bounds L) /\ decreasing (bounds L);
  l_chi : length (chi L) = length (bounds L) /\ Forall (Rle 0) (chi L);
  l_nuclides : Forall (sound (length (bounds L))) (nucs L) }.
(** the lines up to the last nuclide; [count] is the number of nuclides that is announced *)
Inductive library_lines (L : xslib) (count : nat) : list (list char) -> Prop :=
| lib ver v4 dim ds tds dvs grp gl chil cl dir dl nls first nl :
    begins "%VER:" ver -> (exists k r, v4 = blanks k ++ 52%Z :: r) -> begins "%DIM:" dim ->
    words tds ds -> Forall2 int_text tds dvs -> length dvs = 10 -> Forall (Z.le 0) dvs ->
    nth 0 dvs 0%Z = Z.of_nat (length (bounds L)) -> nth 4 dvs 0%Z = Z.of_nat count ->
    begins "%GRP:" grp -> values_text gl (bounds L) -> begins "%CHI:" chil -> values_text cl (chi L) ->
    begins "%DIR:" dir -> Forall (fun l => ~ begins "%NUC" l) dl -> (Z.of_nat (length dl) <= 10000)%Z ->
    concat nls = first :: nl -> begins "%NUC" first ->
    Forall2 (fun q ls => nuclide_text (length (bounds L)) (fst q) (snd q) ls) (combine (seq 0 (length (nucs L))) (nucs L)) nls ->
    library_lines L count ([ver; v4; dim; ds; grp] ++ gl ++ [chil] ++ cl ++ [dir] ++ dl ++ concat nls).
(** a file: these lines, and one that says so at the end, after which there can be anything *)
Inductive library_text (L : xslib) (count : nat) (text : list char) : Prop :=
| complete ls e post : library_lines L count ls -> indented "%END" e -> Forall line_ok (ls ++ [e]) ->
    (text = joined ls ++ e \/ text = joined ls ++ e ++ NEWLINE :: post) -> library_text L count text.
(** the same without an end: the last line is another one *)
Definition endless_text (L : xslib) (count : nat) (text : list char) : Prop :=
  exists ls x, library_lines L count ls /\ ~ indented "%NUC" x /\ ~ indented "%END" x /\ Forall line_ok (ls ++ [x]) /\ text = joined (ls ++ [x]).
(** an empty nuclide, or one with data for [ng] groups; without assertions it can be without any data *)
Definition passed (checks : bool) (ng : nat) (n : nuclide) : Prop := n = no_nuclide \/
  ((0 < zaid n)%Z /\ (0 < mass n)%R /\ Forall (fun x => isMacro x = false) (tables n) /\ (table ng n \/ checks = false /\ temps n = [] /\ tables n = [])).
