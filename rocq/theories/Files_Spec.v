(** What is promised of the files of a soup. *)
From Coq Require Import String.
From Coq Require Import Reals.
From Coq Require Import List Arith ZArith.
From Verif Require Import Base Elem_Model Soup_Model Soup_Spec Xdmf_Model Xdmf_Spec Source_Spec.
Import ListNotations.
Local Open Scope list_scope.

(** the name of a file ends with [e], case counts *)
Definition named (e : string) (n : list Z) : Prop := exists stem, n = stem ++ chars e.
(** names the program that extracts sources gives to its element sets; with the names of the data sets that hold their values, none of
    them is in use *)
Definition source_names : list string := ["scattering_source"; "fission_source"; "total_source"]%string.
Definition unused (a : content) : Prop := forall n, In n source_names ->
  ~ In (chars n) (map es_name (a_elsets a)) /\ ~ In (chars n ++ chars "_data") (map es_name (a_elsets a)).
