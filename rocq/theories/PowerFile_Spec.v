(** What the file of powers and centroids lists. *)
From Coq Require Import String.
From Coq Require Import Reals.
From Coq Require Import List Arith ZArith.
From Verif Require Import Base Elem_Model Soup_Model Soup_Spec Fvm_Model Stats_Spec Powers_Model Powers_Spec Outputs_Spec Source_Spec.
Import ListNotations.
Local Open Scope list_scope.
Local Open Scope R_scope.

(** the points of the faces of an output *)
Definition faces_are (a : content) (faces : list (list (R * R))) : Prop :=
  Forall2 (fun e f => Forall2 (fun v p => (0 <= v)%Z /\ exists z, nth_error (a_verts a) (Z.to_nat v) = Some (p, z)) (snd e) f)
    (a_elems a) faces.
(** the output has the power densities [power], with the ids [ids] *)
Definition power_set (a : content) (ids : list Z) (power : list R) : Prop := In (mkElset (chars "power") ids power) (a_elsets a).
(** a table of powers: a line with the titles of the columns, then a line with power, x and y of each region *)
Definition table (show : R -> list Z) (vs : list (R * (R * R))) (t : list Z) : Prop :=
  lines t = chars "Power, x, y" :: map (fun v => show (fst v) ++ chars ", " ++ show (fst (snd v)) ++ chars ", " ++ show (snd (snd v))) vs ++ [[]].
(** the power of all the faces: their power density times their area, counted only if it is positive *)
Definition full_power (k : kind) (faces : list (list (R * R))) (power : list R) (P : R) : Prop :=
  exists areas, Forall2 (fun f w => face_area (elem_type k) f = Ret w) faces areas /\
    P = fold_right Rplus 0 (map (fun x => Rmax 0 (fst x) * snd x) (combine power areas)).
