(** Model of what a program such as models/nuscale/nuscale_2d.cpp does to get its materials: it reads a cross section library from a file, builds
    each material from its density, temperature and composition, and asks for its cross sections.  Reading is that of Library_Model, compositions are
    those of Density_Model, cross sections those of XSec_Model. *)
From Coq Require Import List Arith ZArith Reals.
From Verif Require Import Base Loops Arith Matrix_Model StringView_Model XSec_Model Density_Model Library_Model.
Import ListNotations.
Local Open Scope R_scope.

(** cross_section_library.hpp:82-86: numGroups() is the number of bounds; what populateXSec uses of a library *)
Definition library_of (L : xslib) : library := mkLib (length (bounds L)) (nucs L).

(** cross_section.hpp:40: XSec() *)
Definition no_xsec : xsec := mkX false false 0 [] [] [] [] [] (mkM 0 0 []).

(** how a composition is given: nuclides by weight (nuscale_2d.cpp:128 and on: addNuclideWt) or fuel by enrichment and weight fraction of gadolinia
    (nuscale_2d.cpp:99, 110, 119: setUO2) *)
Inductive recipe := Weights (l : list (Z * R)) | Fuel (enrichment gad : R).
(** length of the name, temperature, density, composition *)
Record order := mkOrder { o_name : nat; o_temperature : R; o_density : R; o_recipe : recipe }.

(** nuscale_2d.cpp:122-129: the calls of addNuclideWt one after the other *)
Fixpoint weigh (m : material) (l : list (Z * R)) : outcome material :=
  match l with
  | [] => Ret m
  | (z, w) :: l' => let* m := addNuclideWt m z w in weigh m l'
  end.

(** nuscale_2d.cpp:93-99: Material(), setName, setDensity, setTemperature and the composition; the assertions of the setters are left out, as
    populateXSec checks the same and more *)
Definition build (o : order) : outcome material :=
  let m := mkMat (o_name o) (o_temperature o) (o_density o) [] [] no_xsec in
  match o_recipe o with
  | Weights l => weigh m l
  | Fuel e g => setUO2 m e g
  end.

(** nuscale_2d.cpp:93-101 *)
Definition make_material (lib : library) (o : order) : outcome material :=
  let* m := build o in populateXSec m lib.

(** nuscale_2d.cpp:66-225; cross_section_library.cpp:451-455: XSLibrary(filename).  [text] is the content of the file. *)
Definition make_materials (checks : bool) (junk : list char) (text : list char) (os : list order) : outcome (list material) :=
  let* L := readMPACTLibrary checks junk text in
  mapo (make_material (library_of L)) os.
