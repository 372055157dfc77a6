(** Model of the program post-process/extract_powers.cpp, which lists the powers and centroids of the regions of an FSR
    output in a text file, over exact real numbers.

    The program starts with the soup that was read from the file (Xdmf_Model).  [show] is how fprintf prints a Float with
    "%.16f"; files can be opened, written and closed.  LOG_ERROR ends the program and is [Fail]. *)
From Coq Require Import String.
From Coq Require Import Reals.
From Coq Require Import List Arith ZArith Bool.
From Verif Require Import Base Loops Arith Elem_Model Soup_Model TextIo_Model Fvm_Model Powers_Model Mpact_Model Outputs_Model Source_Model.
Import ListNotations.
Local Open Scope list_scope.
Local Open Scope R_scope.

(** powers.cpp:248-282 and 77-92: from the soup to the faces and their powers.  The mesh is made without validation.
    The points of all the faces are read here, by the code only those of the faces with power; [getPowersN] repeats the
    check of the power data. *)
Definition soup_powers (stdsort : list nat -> list nat) (s : fsr) : outcome (list (R * pt)) :=
  let* k := face_kind s in
  let* d := fetch s (lit "power") ([], []) in
  let* _ := checkPowerData (length (etypes s)) (fst d) (snd d) in
  let* fvm := face_mesh k s in
  let* faces := mapo (mapo (rdz (mv fvm))) (fv fvm) in
  getPowersN stdsort (elem_type k) faces (snd d) (fst d).

(** extract_powers.cpp:33: fprintf(file, "%.16f, %.16f, %.16f\n", ...) *)
Definition power_line (show : R -> text) (pc : R * pt) : text :=
  show (fst pc) ++ lit ", " ++ show (fst (snd pc)) ++ lit ", " ++ show (snd (snd pc)) ++ NL.
(** extract_powers.cpp:31-38: the state is power_sum and the file *)
Definition print_powers (show : R -> text) (l : list (R * pt)) (st : R * text) : outcome (R * text) :=
  foreach l (fun pc st => Ret (fst st + fst pc, snd st ++ power_line show pc)) st.
(** extract_powers.cpp:18-49: the text of power_centroid.txt and how the program ends after it has closed the file *)
Definition extract_powers (stdsort : list nat -> list nat) (show : R -> text) (s : fsr) : outcome (text * outcome Z) :=
  let* power_centroid := soup_powers stdsort s in
  let* st := print_powers show power_centroid (0, lit "Power, x, y" ++ NL) in
  Ret (snd st, if Rltb (1 / 1000) (Rabs (fst st - 1)) then Fail else Ret 0%Z).
