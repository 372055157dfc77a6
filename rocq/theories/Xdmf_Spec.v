(** What a soup read back from an XDMF file contains. *)
From Coq Require Import String Ascii.
From Coq Require Import List Arith ZArith Bool Reals.
From Verif Require Import Base Loops StringView_Model Elem_Model Soup_Model Soup_Spec Xdmf_Model.
Import ListNotations.
Local Open Scope list_scope.
Local Open Scope nat_scope.

Notation point := (R * R * R)%type.
(** the vertices that are read: z coordinates are written unless all of them are negligible *)
Inductive kept (eps : R) (vs : list point) : list point -> Prop :=
| kept_3d v : In v vs -> (eps < Rabs (snd v))%R -> kept eps vs vs
| kept_2d : (forall v, In v vs -> (Rabs (snd v) <= eps)%R) -> kept eps vs (map (fun v => (fst v, 0%R)) vs).

(** every element has as many vertices as its type says, and its type has a code *)
Definition elem_ok (e : vtk * list Z) : Prop := fst e <> V_Invalid /\ Z.of_nat (length (snd e)) = verticesPerElem (fst e).
(** a soup whose elements are all of one type has faces for elements *)
Definition face (t : vtk) : Prop := t = V_Triangle \/ t = V_Quad \/ t = V_QuadraticTriangle \/ t = V_QuadraticQuad.
Definition homogeneous (t : vtk) (es : list (vtk * list Z)) : Prop := es <> [] /\ forall e, In e es -> fst e = t.
(** names that can be names of data sets, besides "Geometry" and "Topology" *)
Definition name_ok (n : list Z) : Prop :=
  n <> [] /\ n <> txt "." /\ ~ In SLASH n /\ n <> txt "Geometry" /\ n <> txt "Topology".
Definition data_name (n : list Z) : list Z := n ++ txt "_data".
Record writable (a : @asoup point R) : Prop := {
  w_elems : Forall elem_ok (a_elems a);
  w_faces : forall t, homogeneous t (a_elems a) -> face t;
  w_names : Forall (fun e => name_ok (es_name e)) (a_elsets a);
  w_data_names : forall e e', In e (a_elsets a) -> In e' (a_elsets a) -> es_data e <> [] -> es_name e' <> data_name (es_name e);
  (** 32 bit sizes *)
  w_verts_size : (3 * Z.of_nat (length (a_verts a)) <= intMax)%Z;
  w_elems_size : (Z.of_nat (length (a_elems a)) + Z.of_nat (length (concat (map snd (a_elems a)))) <= intMax)%Z;
  w_elsets_size : Forall (fun e => (Z.of_nat (length (es_ids e)) <= intMax)%Z) (a_elsets a)
}.
(** the path of the XML file, directory/base.xdmf or base.xdmf, and that of the HDF5 file next to it *)
Definition xdmf_path (p h : list Z) : Prop := exists dir base, p = dir ++ base ++ txt ".xdmf" /\ h = dir ++ base ++ txt ".h5" /\
  ~ In SLASH base /\ base <> [] /\ base <> txt "." /\ (dir = [] \/ exists d, d <> [] /\ dir = d ++ [SLASH]).
(** nothing but the two files has changed *)
Definition only_written (p h : list Z) (d d' : disk) : Prop :=
  (forall q, q <> p -> xmlfiles d' q = xmlfiles d q) /\ (forall q, q <> h -> h5files d' q = h5files d q).
