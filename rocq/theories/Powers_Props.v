(** C59: power regions *)
From Coq Require Import List Arith ZArith Reals Bool.
From Verif Require Import Base Loops Arith Elem_Model Stats_Spec Powers_Model Powers_Spec Powers_Proofs.
Import ListNotations.
Local Open Scope R_scope.

(** For every mesh of one element type and every accepted power distribution, if touching faces share a
    vertex exactly or are wider than 1e-3, getPowers returns one value per region: every face with power is
    in exactly one region, two faces are in the same region exactly when a chain of touching faces with
    power links them, and the value is the region's power and centroid.  In particular the merge loop ends. *)
Theorem C59_regions : forall stdsort k faces power ids, sorts stdsort -> mesh_of k faces -> accepted faces power ids ->
  resolved faces power -> exists regions vs, getPowers stdsort [k] faces ids power = Ret vs /\
  Forall2 (region_value faces power k) regions vs /\ partition power regions /\
  (forall a b, together regions a b <-> linked faces power a b).
Proof. exact regions_iff. Qed.
Print Assumptions C59_regions.
(** Without that condition, faces of one region are still linked by a chain; faces that touch are in the
    same region if they share a vertex exactly or both are wider than 1e-3. *)
Theorem C59_sound : forall stdsort k faces power ids, sorts stdsort -> mesh_of k faces -> accepted faces power ids ->
  exists regions vs, getPowers stdsort [k] faces ids power = Ret vs /\
  Forall2 (region_value faces power k) regions vs /\ partition power regions /\
  (forall a b, together regions a b -> linked faces power a b) /\
  (forall a b f g, powered power a -> powered power b -> nth_error faces a = Some f -> nth_error faces b = Some g ->
    touch f g -> (exists p, In p f /\ In p g) \/ (wide f /\ wide g) -> together regions a b).
Proof. exact regions_ok. Qed.
Print Assumptions C59_sound.
(** The powers returned sum to the power times area of all faces with power. *)
Theorem C59_total : forall stdsort k faces power ids, sorts stdsort -> mesh_of k faces -> accepted faces power ids ->
  forall areas, Forall2 (fun f a => face_area k f = Ret a) faces areas -> exists vs,
  getPowers stdsort [k] faces ids power = Ret vs /\
  total (map fst vs) = total (map (fun pa => if Rltb 0 (fst pa) then fst pa * snd pa else 0) (combine power areas)).
Proof. exact total_ok. Qed.
Print Assumptions C59_total.
Example C59_example : mesh_of V_Triangle ex_faces /\ accepted ex_faces ex_power [0; 1; 2; 3]%Z /\ resolved ex_faces ex_power /\
  linked ex_faces ex_power 0 1 /\ ~ linked ex_faces ex_power 0 2.
Proof. exact ex_ok. Qed.
(** Anything else ends the program: power data that does not cover the mesh, is unsorted or has no
    positive entry; more than one element type; unsupported element types. *)
Theorem C59_rejected : forall stdsort k faces power ids, mesh_of k faces -> ~ accepted faces power ids ->
  getPowers stdsort [k] faces ids power = Fail.
Proof. exact rejected. Qed.
Print Assumptions C59_rejected.
Theorem C59_rejected_types : forall stdsort types faces power ids,
  length types <> 1%nat \/ (exists k, types = [k] /\ vertices k = None) -> getPowers stdsort types faces ids power = Fail.
Proof. exact rejected_types. Qed.
Print Assumptions C59_rejected_types.
(** Two touching triangles much smaller than the tolerance are reported as two regions. *)
Theorem C59_tiny_refuted : linked tiny [1; 1] 0 1 /\
  forall stdsort, exists u v, getPowers stdsort [V_Triangle] tiny [0; 1]%Z [1; 1] = Ret [u; v].
Proof. exact (conj tiny_linked tiny_result). Qed.
Print Assumptions C59_tiny_refuted.
