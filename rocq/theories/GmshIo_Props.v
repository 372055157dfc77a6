(** C85: the info file of a gmsh model. *)
From Coq Require Import String Ascii.
From Coq Require Import List Arith ZArith Lia Bool Sorted.
From Verif Require Import Base Loops StringView_Model TextIo_Model ModelIo_Model.
From Verif Require Import Groups_Model Groups_Spec GmshIo_Model GmshIo_Spec GmshIo_Proofs GmshIo_Total_Proofs.
Import ListNotations.
Open Scope Z_scope.

(** ** Writing a model with its info file and opening it again gives back the groups, in order, with
    dimension, name and entities, and the colours of surfaces and volumes. *)
Theorem C85_round_trip checks exit_on_error g g0 : writable checks g -> reopened g g0 ->
  exists t g', write_info checks g = Ret t /\ open_info checks exit_on_error t g0 = Ret g' /\ restored g g0 g'.
Proof. intros W R. exact (round_trip checks exit_on_error g W g0 R). Qed.
Print Assumptions C85_round_trip.

(** The new numbers of the entities of a dimension are 1, 2, ... in the order of their tags, each used once. *)
Theorem C85_numbers ge d : ascending_pairs (ents ge) ->
  let n := Z.of_nat (length (filter (fun x => fst x =? d) (ents ge))) in
  (forall t u, In (d, t) (ents ge) -> In (d, u) (ents ge) -> (number_of ge d t < number_of ge d u <-> t < u)) /\
  (forall k, 1 <= k <= n <-> exists t, In (d, t) (ents ge) /\ number_of ge d t = k).
Proof.
  intros O n. split.
  - intros t u Ht Hu. split; intros L; [|now apply number_mono]. destruct (Z.lt_ge_cases t u) as [|G]; [auto|].
    destruct (Z.eq_dec t u) as [->|N]; [lia|]. assert (number_of ge d u < number_of ge d t) by (apply number_mono; [lia|auto]). lia.
  - intros k. split; [now apply numbers_onto|]. intros (t & Ht & <-). split; [now apply number_bounds|].
    unfold n, number_of. apply inj_le. induction (ents ge) as [|x l IH]; [reflexivity|]. cbn [filter].
    assert (LE : (length (filter (fun x => (fst x =? d)%Z && (snd x <=? t)%Z) l) <= length (filter (fun x => (fst x =? d)%Z) l))%nat).
    { clear. induction l as [|y l IH]; [reflexivity|]. cbn [filter]. destruct (fst y =? d)%Z, (snd y <=? t)%Z; cbn [andb length]; lia. }
    destruct (fst x =? d)%Z, (snd x <=? t)%Z; cbn [andb length]; lia.
Qed.
Print Assumptions C85_numbers.

(** ** Any text at all: reading ends with an error or a result, and only adds groups and colours. *)
Theorem C85_any_text checks exit_on_error t g :
  open_info checks exit_on_error t g = Fail \/
  exists g', open_info checks exit_on_error t g = Ret g' /\
    ents (geo g') = ents (geo g) /\ down (geo g') = down (geo g) /\
    (forall x, In x (groups g) -> In x (groups g')) /\ (well_formed g -> well_formed g').
Proof. exact (safe_open checks exit_on_error t g). Qed.
Print Assumptions C85_any_text.

(** A text that does not begin as an info file is an error; if errors do not end the program, no groups are added. *)
Theorem C85_foreign checks exit_on_error t g : (forall r, t <> lit "PHYSICAL_GROUPS" ++ r) ->
  open_info checks exit_on_error t g = Fail \/
  exit_on_error = false /\ exists g', open_info checks exit_on_error t g = Ret g' /\ groups g' = groups g.
Proof. exact (foreign_text checks exit_on_error t g). Qed.
Print Assumptions C85_foreign.

(** Any model with dimensions from 0 to 3 is written or refused. *)
Theorem C85_write_total checks g : (forall d, In d (ents (geo g)) -> 0 <= fst d <= 3) -> (forall x, In x (groups g) -> 0 <= g_dim x <= 3) ->
  write_info checks g = Fail \/ exists t, write_info checks g = Ret t.
Proof. intros He Hg. destruct (safe_write checks g He Hg) as [E|(t & E & _)]; eauto. Qed.
Print Assumptions C85_write_total.

(** ** The name of the info file: the ending of the name is replaced; 46 is the dot. *)
Theorem C85_info_name base ending : ~ In 46 ending -> info_name (base ++ [46] ++ ending) = Ret (base ++ lit ".info").
Proof. exact (info_dot base ending). Qed.
Print Assumptions C85_info_name.
Theorem C85_info_name_plain name : ~ In 46 name -> info_name name = Ret (name ++ lit ".info").
Proof. exact (info_plain name). Qed.
Print Assumptions C85_info_name_plain.
(** Files without an ending in a directory with a dot share one info file. *)
Theorem C85_info_name_refuted : exists a b, a <> b /\ ~ In 46 (skipn 2 a) /\ info_name a = info_name b.
Proof. exists (lit "./pin"), (lit "./lattice"). split; [discriminate|]. split; [|reflexivity]. cbn. intuition discriminate. Qed.
Print Assumptions C85_info_name_refuted.

(** ** Examples *)
(** ten surfaces with gaps in their tags, two lines and a point; a group of ten, a group of one line; two colours *)
Definition ex_ents : list dimtag := (0, 4) :: (1, 2) :: (1, 7) :: map (pair 2) [3; 4; 5; 8; 9; 10; 20; 21; 30; 31].
Definition ex_paint (d : dimtag) : colour := if fst d =? 2 then if snd d <? 9 then 4278190335 else if snd d <? 30 then 16711935 else 65280 else 65280.
Definition ex_geo : geometry := mkGeo ex_ents (fun _ => []) ex_paint.
Definition ex : gm := mkGm [mkG 1 5 "left side" [7]; mkG 2 2 "Material_UO2" [3; 4; 5; 8; 9; 10; 20; 21; 30; 31]; mkG 2 6 "Pin_0" [4; 31]] ex_geo.
Definition ex0 : gm := mkGm [] (mkGeo ((0, 1) :: (1, 1) :: (1, 2) :: map (fun k => (2, Z.of_nat k)) (seq 1 10)) (fun _ => []) (fun _ => 65280)).
Ltac decide_all := repeat match goal with |- StronglySorted _ _ => constructor | |- Forall _ _ => constructor end.
Example C85_ex_writable : writable true ex.
Proof.
  split.
  - unfold ascending_pairs, before. cbn. decide_all; cbn; lia.
  - intros d H. cbn in H. repeat (destruct H as [<-|H]; [cbn; lia|]). destruct H.
  - split; [unfold ascending_pairs, before; cbn; decide_all; cbn; lia|]. intros x H. cbn in H.
    repeat (destruct H as [<-|H]; [cbn; split; [lia|split; [discriminate|unfold ascending; decide_all; lia]]|]). destruct H.
  - intros x e H. cbn in H. repeat (destruct H as [<-|H]; [cbn; intuition (subst; auto 30)|]). destruct H.
  - intros _ x H. cbn in H. repeat (destruct H as [<-|H]; [cbn; lia|]). destruct H.
  - intros x H. cbn in H. repeat (destruct H as [<-|H]; [split; intros Q; cbn in Q; repeat (destruct Q as [Q|Q]; [discriminate Q|]); destruct Q|]). destruct H.
  - intros d. cbn. unfold ex_paint. destruct (fst d =? 2); [|lia]. destruct (snd d <? 9); [lia|]. destruct (snd d <? 30); lia.
  - cbn. lia.
  - cbn. lia.
Qed.
Example C85_ex_reopened : reopened ex ex0.
Proof. split; [reflexivity|]. split; reflexivity. Qed.
Definition lines (l : list string) : list Z := concat (map (fun s => lit s ++ [NEWLINE]) l).
Example C85_ex_text : write_info true ex = Ret (lines ["PHYSICAL_GROUPS 3"; "PHYSICAL_GROUP ""left side"" 1 1"; "2";
  "PHYSICAL_GROUP ""Material_UO2"" 2 10"; "1 2 3 4 5 6 7 8 "; "9 10"; "PHYSICAL_GROUP ""Pin_0"" 2 2"; "2 10";
  "ENTITY_COLORS 2"; "ENTITY_COLOR 255 0 0 255 4"; "2 1 2 2 2 3 2 4"; "ENTITY_COLOR 0 255 0 255 4"; "2 5 2 6 2 7 2 8"]%string).
Proof. vm_compute. reflexivity. Qed.
Example C85_ex_restored : exists t g', write_info true ex = Ret t /\ open_info true true t ex0 = Ret g' /\ restored ex ex0 g'.
Proof. exact (C85_round_trip true true ex ex0 C85_ex_writable C85_ex_reopened). Qed.
Example C85_ex_name : info_name (lit "dir.d/c5g7.brep") = Ret (lit "dir.d/c5g7.info").
Proof. reflexivity. Qed.

(** ** What does not survive *)
(** The tags of the groups. *)
Theorem C85_group_tags_refuted : exists g g0 t g', writable true g /\ reopened g g0 /\ write_info true g = Ret t /\ open_info true true t g0 = Ret g' /\
  map g_tag (groups g') <> map g_tag (groups g).
Proof.
  exists ex, ex0. do 2 eexists. split; [exact C85_ex_writable|]. split; [exact C85_ex_reopened|]. split; [exact C85_ex_text|]. split; [vm_compute; reflexivity|]. discriminate.
Qed.
Print Assumptions C85_group_tags_refuted.
(** A name with a quotation mark: the file is written but cannot be read. *)
Definition one (d : Z) (name : string) : gm := mkGm [mkG d 1 name [1]] (mkGeo [(d, 1)] (fun _ => []) (fun _ => 65280)).
Definition one0 (d : Z) : gm := mkGm [] (mkGeo [(d, 1)] (fun _ => []) (fun _ => 65280)).
Theorem C85_quote_refuted : exists g g0 t, (forall d, In d (ents (geo g)) -> 0 <= fst d <= 3) /\ well_formed g /\ reopened g g0 /\
  write_info true g = Ret t /\ open_info true true t g0 = Fail.
Proof.
  exists (one 2 "5"" pipe"), (one0 2). eexists. split; [intros d [<-|[]]; cbn; lia|]. split.
  { split; [repeat constructor|]. intros x [<-|[]]. cbn. split; [lia|]. split; [discriminate|repeat constructor]. }
  split; [split; [reflexivity|split; reflexivity]|]. split; [vm_compute; reflexivity|vm_compute; reflexivity].
Qed.
Print Assumptions C85_quote_refuted.
(** A group of points: written with assertions enabled, but refused when read. *)
Theorem C85_points_refuted : exists g g0 t, (forall d, In d (ents (geo g)) -> 0 <= fst d <= 3) /\ well_formed g /\ reopened g g0 /\
  write_info true g = Ret t /\ open_info true true t g0 = Fail.
Proof.
  exists (one 0 "corner"), (one0 0). eexists. split; [intros d [<-|[]]; cbn; lia|]. split.
  { split; [repeat constructor|]. intros x [<-|[]]. cbn. split; [lia|]. split; [discriminate|repeat constructor]. }
  split; [split; [reflexivity|split; reflexivity]|]. split; [vm_compute; reflexivity|vm_compute; reflexivity].
Qed.
Print Assumptions C85_points_refuted.
(** The colour of a line. *)
Theorem C85_line_colours_refuted : exists g g0 t g', writable true g /\ reopened g g0 /\ write_info true g = Ret t /\ open_info true true t g0 = Ret g' /\
  paint (geo g') (1, 1) <> paint (geo g) (1, 1).
Proof.
  exists (mkGm [] (mkGeo [(1, 1)] (fun _ => []) (fun _ => 4278190335))), (one0 1). do 2 eexists. split.
  { split; cbn; try discriminate; try tauto.
    - repeat constructor.
    - intros d [<-|[]]. cbn. lia.
    - split; [constructor|intros x []].
    - intros d. lia. }
  split; [split; [reflexivity|split; reflexivity]|]. split; [vm_compute; reflexivity|]. split; [vm_compute; reflexivity|]. cbn. discriminate.
Qed.
Print Assumptions C85_line_colours_refuted.
(** A file that lists fewer tags than it announces is accepted: the line is read again from its start. *)
Theorem C85_short_line_refuted : exists g', open_info true true (lines ["PHYSICAL_GROUPS 1"; "PHYSICAL_GROUP ""A"" 2 4"; "8 9"; "ENTITY_COLORS 0"]%string) (one0 2) = Ret g' /\
  groups g' = [mkG 2 1 "A" [8; 9]].
Proof. eexists. split; [vm_compute; reflexivity|reflexivity]. Qed.
Print Assumptions C85_short_line_refuted.
(** A minus sign in a list of tags is kept: the group then has a tag no entity has. *)
Theorem C85_negative_refuted : exists t g', open_info true true t (one0 2) = Ret g' /\ groups g' = [mkG 2 1 "A" [-8; 1]].
Proof.
  exists (lines ["PHYSICAL_GROUPS 1"; "PHYSICAL_GROUP ""A"" 2 2"; "-8 1"; "ENTITY_COLORS 0"]%string).
  eexists. split; [vm_compute; reflexivity|reflexivity].
Qed.
Print Assumptions C85_negative_refuted.
Example C85_ex_foreign : forall r, lit "PHYSICAL GROUPS 0" <> lit "PHYSICAL_GROUPS" ++ r.
Proof. intros r E. cbn in E. discriminate E. Qed.
