(** Pin cells; calls with nothing to read; what the checks miss. *)
From Coq Require Import String.
From Coq Require Import List Arith ZArith Bool Reals Lra Lia.
From Verif Require Import Base Loops Fill Arith Box_Proofs Poly_Spec Fvm_Model Soup_Spec Soup_Final_Proofs PinRect_Model PinCyl_Model PinCyl_Spec PinCyl_Props Grid_Model Grid_Spec Grid_Proofs Mpact_Model Mpact_Spec Mpact_Proofs Mpact_Steps_Proofs Mpact_Accept_Proofs.
Import ListNotations.
Local Open Scope list_scope.
Local Open Scope R_scope.

(** * Materials by name *)
Lemma find_name_spec s : forall ms k i, find_name ms s k = Some i <-> exists n, first_named ms s n /\ i = (k + Z.of_nat n)%Z.
Proof.
  induction ms as [|x ms IH]; intros k i; cbn [find_name].
  - split; [discriminate|]. intros (n & ((y & Hy & _) & _) & _). destruct n; discriminate.
  - destruct (String.eqb_spec (name x) s) as [E|E].
    + split.
      * intros [= <-]. exists 0%nat. split; [|lia]. split; [exists x; auto|]. intros j y Hj. lia.
      * intros (n & (_ & Hn) & ->). destruct n as [|n]; [f_equal; lia|]. exfalso. apply (Hn 0%nat x); auto. lia.
    + rewrite IH. split; intros (n & ((y & Hy & Ny) & Hn) & ->).
      * exists (S n). split; [|lia]. split; [exists y; auto|]. intros [|j] z Hj Hz; cbn in Hz; [congruence|]. apply (Hn j); auto. lia.
      * destruct n as [|n]; [cbn in Hy; congruence|]. exists n. split; [|lia]. split; [exists y; auto|]. intros j z Hj Hz. apply (Hn (S j) z); auto. lia.
Qed.
Lemma find_names_ok ms : forall xs ns, Forall2 (fun x n => first_named ms (name x) n) xs ns -> find_names ms xs = Some (map Z.of_nat ns).
Proof.
  induction 1 as [|x n xs ns Hx _ IH]; cbn; auto. rewrite IH.
  rewrite (proj2 (find_name_spec (name x) ms 0 (Z.of_nat n))); auto. exists n. auto.
Qed.
Lemma find_names_None ms : forall xs, (exists x, In x xs /\ forall n, ~ first_named ms (name x) n) -> find_names ms xs = None.
Proof.
  induction xs as [|x xs IH]; intros (y & Hy & Hn); [destruct Hy|]. cbn. destruct (find_name ms (name x) 0) as [i|] eqn:E; auto.
  destruct Hy as [->|Hy].
  - apply find_name_spec in E as (n & Hf & _). exfalso. eapply Hn; eauto.
  - rewrite IH; eauto.
Qed.

(** * Which face gets which material *)
Definition rings_mats (idx : list Z) (rings : list nat) (na : nat) := concat (map (fun p => repeat (to_int8 (fst p)) (snd p * na)) (combine idx rings)).
Lemma rings_length : forall rings idx na, (length rings <= length idx)%nat -> length (rings_mats idx rings na) = (list_sum rings * na)%nat.
Proof.
  unfold rings_mats. induction rings as [|n rings IH]; intros [|i idx] na H; cbn [combine map concat length] in *; try lia; auto.
  rewrite app_length, repeat_length. cbn [fst snd]. rewrite IH by lia. change (list_sum (n :: rings)) with (n + list_sum rings)%nat. lia.
Qed.
Lemma rings_nth : forall rings idx na k s j i, nth_error idx k = Some i -> (k < length rings)%nat -> (length rings <= length idx)%nat ->
  (s < nth k rings 0)%nat -> (j < na)%nat ->
  nth_error (rings_mats idx rings na) ((first_ring rings k + s) * na + j) = Some (to_int8 i).
Proof.
  unfold rings_mats, first_ring. induction rings as [|n rings IH]; intros [|i0 idx] na k s j i Hk Hl Hi Hs Hj; cbn [length] in *; try lia.
  cbn [combine map concat fst snd]. destruct k as [|k].
  - cbn [firstn list_sum fold_right nth] in *. cbn in Hk. injection Hk as <-. rewrite nth_error_app1 by (rewrite repeat_length; cbn; nia).
    apply nth_error_repeat. cbn. nia.
  - cbn [firstn nth nth_error] in *. change (list_sum (n :: firstn k rings)) with (n + list_sum (firstn k rings))%nat.
    rewrite nth_error_app2 by (rewrite repeat_length; nia). rewrite repeat_length.
    replace ((n + list_sum (firstn k rings) + s) * na + j - n * na)%nat with ((list_sum (firstn k rings) + s) * na + j)%nat by nia.
    apply IH; auto; lia.
Qed.
Lemma pin_materials_eq idx rings na : pin_materials idx rings na = rings_mats idx rings na ++ repeat (to_int8 (last idx 0%Z)) na.
Proof. reflexivity. Qed.
Lemma to_int8_small z : (0 <= z < 128)%Z -> to_int8 z = z.
Proof. intros H. unfold to_int8. rewrite Z.mod_small by lia. lia. Qed.
Lemma fold_sum l : forall s, fold_left Nat.add l s = (s + list_sum l)%nat.
Proof. induction l as [|x l IH]; intros s; cbn [fold_left]; [cbn; lia|]. rewrite IH. change (list_sum (x :: l)) with (x + list_sum l)%nat. lia. Qed.
Lemma rings_In rings idx na x : In x (rings_mats idx rings na) -> exists i, In i idx /\ x = to_int8 i.
Proof.
  unfold rings_mats. intros H. apply in_concat in H as (l & Hl & Hx). apply in_map_iff in Hl as ([i n] & <- & Hin).
  apply repeat_spec in Hx. apply in_combine_l in Hin. eauto.
Qed.
Lemma last_In {A} (l : list A) d : l <> [] -> In (last l d) l.
Proof. intros H. destruct (exists_last H) as (k & a & ->). rewrite last_last. apply in_or_app. right. now left. Qed.

Section Pin.
Variable stdsort : forall A : Type, (A -> A -> bool) -> list A -> list A.
Variable selfcheck : mesh R -> outcome (mesh R).
Variable exit_on_error : bool.
Notation pinCell := (addCylindricalPinCell stdsort selfcheck exit_on_error).

Definition after_pin m msh := set_meshes (tris m) (quads m ++ [msh]) (tri6s m) (quad8s m) m.
(** the cell, before asking what the materials are *)
Lemma pin_cell_gen m pitch radii num_rings e mats ns :
  let na := (2 ^ e)%nat in let theta := 2 * PI / INR na in
  sort_contract stdsort -> pin_ok radii num_rings -> (3 <= e)%nat -> 0 < pitch ->
  eps <= sin theta -> eps <= pitch / 2 * sin theta ->
  circle radii (length radii) * sqrt (theta / sin theta) + eps <= pitch / 2 ->
  (Z.of_nat (1 + (list_sum num_rings + 1) * na + na / 2) <= intMax)%Z ->
  Forall2 (fun x n => first_named (materials m) (name x) n) mats ns -> length mats = S (length num_rings) ->
  Forall (fun n => exists_in (materials m) (to_int8 (Z.of_nat n))) ns ->
  exists msh, pin_mesh Quad msh pitch radii num_rings na /\
    pinCell m pitch radii mats num_rings (Z.of_nat na) 1 =
    Ret (push_cell (mkCell (pitch, pitch) MT_Quad (Z.of_nat (length (quads m))) (pin_materials (map Z.of_nat ns) num_rings na)) (after_pin m msh),
         Z.of_nat (length (cells m))).
Proof.
  intros na theta Hs Hp He Hpi Hq1 Hq2 Hfit Hmax HF Hl Hex.
  destruct (C58_linear stdsort selfcheck eps exit_on_error (quads m) (quad8s m) pitch radii num_rings e Hs Hp He Hpi eps_pos Hq1 Hq2 Hfit Hmax) as (msh & E & HM).
  fold na in E, HM. exists msh. split; auto. unfold addCylindricalPinCell, addCylPin. rewrite E. cbn [bind fst snd].
  rewrite (proj2 (Nat.eqb_eq _ _)) by lia. cbn [negb]. rewrite (find_names_ok _ _ _ HF). change ((1 =? 1)%Z) with true. cbv iota.
  rewrite (proj2 (Z.ltb_ge _ _)) by lia. rewrite fold_sum. cbn [Nat.add].
  assert (Hna : (0 < na)%nat) by (unfold na; apply Nat.neq_0_lt_0; apply Nat.pow_nonzero; lia).
  rewrite i32_ok by (unfold in_i32, intMin; nia). cbn [bind]. rewrite Nat2Z.id.
  assert (Lidx : length (map Z.of_nat ns) = S (length num_rings)) by (rewrite map_length, <- (Forall2_length _ _ _ HF); auto).
  set (mids := pin_materials (map Z.of_nat ns) num_rings na).
  destruct (addCoarseCell_ok exit_on_error (after_pin m msh) (pitch, pitch) MT_Quad (Z.of_nat (length (quads m))) mids) as [Ok _].
  unfold after_pin in *. rewrite Ok; [reflexivity|]. split; [auto|]. split; [auto|]. right. exists msh. split; [|split].
  - cbn. split; [lia|]. rewrite Nat2Z.id, nth_error_app2 by lia. now rewrite Nat.sub_diag.
  - destruct HM as (_ & Lf & _). rewrite Lf. unfold mids. rewrite pin_materials_eq, app_length, repeat_length, rings_length by lia. nia.
  - cbn [materials set_meshes]. apply Forall_forall. intros x Hx. unfold mids in Hx. rewrite pin_materials_eq in Hx.
    assert (Hi : exists i, In i (map Z.of_nat ns) /\ x = to_int8 i).
    { apply in_app_iff in Hx as [Hx|Hx]; [eapply rings_In; eauto|]. apply repeat_spec in Hx. exists (last (map Z.of_nat ns) 0%Z). split; auto.
      apply last_In. intros Hz. rewrite Hz in Lidx. discriminate. }
    destruct Hi as (i & Hi & ->). apply in_map_iff in Hi as (n & <- & Hn). rewrite Forall_forall in Hex. auto.
Qed.
(** a pin cell: the material of every face *)
Theorem pin_cell m pitch radii num_rings e mats ns :
  let na := (2 ^ e)%nat in let theta := 2 * PI / INR na in
  sort_contract stdsort -> pin_ok radii num_rings -> (3 <= e)%nat -> 0 < pitch ->
  eps <= sin theta -> eps <= pitch / 2 * sin theta ->
  circle radii (length radii) * sqrt (theta / sin theta) + eps <= pitch / 2 ->
  (Z.of_nat (1 + (list_sum num_rings + 1) * na + na / 2) <= intMax)%Z ->
  Forall2 (fun x n => first_named (materials m) (name x) n) mats ns -> length mats = S (length num_rings) ->
  Forall (fun n => n < 128)%nat ns ->
  exists msh mids, pin_mesh Quad msh pitch radii num_rings na /\
    pinCell m pitch radii mats num_rings (Z.of_nat na) 1 =
    Ret (push_cell (mkCell (pitch, pitch) MT_Quad (Z.of_nat (length (quads m))) mids)
           (set_meshes (tris m) (quads m ++ [msh]) (tri6s m) (quad8s m) m), Z.of_nat (length (cells m))) /\
    length mids = length (fv msh) /\
    (forall k s j n, (k < length radii)%nat -> (s < nth k num_rings 0)%nat -> (j < na)%nat -> nth_error ns k = Some n ->
       nth_error mids ((first_ring num_rings k + s) * na + j) = Some (Z.of_nat n)) /\
    (forall f n, (list_sum num_rings * na <= f < length (fv msh))%nat -> nth_error ns (length radii) = Some n ->
       nth_error mids f = Some (Z.of_nat n)).
Proof.
  intros na theta Hs Hp He Hpi Hq1 Hq2 Hfit Hmax HF Hl H128.
  destruct (pin_cell_gen m pitch radii num_rings e mats ns) as (msh & HM & E); auto.
  { apply Forall_forall. intros n Hn. rewrite Forall_forall in H128. pose proof (H128 n Hn). rewrite to_int8_small by lia.
    apply In_nth_error in Hn as (k & Hk). destruct (nth_error mats k) as [x|] eqn:Ex.
    - destruct (Forall2_nth _ _ _ _ _ _ HF Ex Hk) as [(y & Hy & _) _]. split; [lia|]. assert (n < length (materials m))%nat by (apply nth_error_Some; congruence). lia.
    - apply nth_error_None in Ex. assert (k < length ns)%nat by (apply nth_error_Some; congruence). rewrite <- (Forall2_length _ _ _ HF) in *. lia. }
  fold na in HM, E. exists msh, (pin_materials (map Z.of_nat ns) num_rings na). split; auto. split; [exact E|].
  assert (Lns : length ns = S (length num_rings)) by (rewrite <- (Forall2_length _ _ _ HF); auto).
  assert (Lidx : length (map Z.of_nat ns) = S (length num_rings)) by (rewrite map_length; auto).
  assert (Lf : length (fv msh) = (na * (list_sum num_rings + 1))%nat) by apply HM.
  destruct Hp as (P1 & P2 & _). rewrite Forall_forall in H128.
  rewrite pin_materials_eq. split; [|split].
  - rewrite app_length, repeat_length, rings_length by lia. nia.
  - intros k s j n Hk Hsk Hj Hn. rewrite nth_error_app1.
    + rewrite (rings_nth num_rings (map Z.of_nat ns) na k s j (Z.of_nat n)); auto; try lia.
      * f_equal. apply to_int8_small. pose proof (H128 n (nth_error_In _ _ Hn)). lia.
      * rewrite nth_error_map, Hn. reflexivity.
    + assert (G : nth_error (rings_mats (map Z.of_nat ns) num_rings na) ((first_ring num_rings k + s) * na + j) <> None).
      { rewrite (rings_nth num_rings (map Z.of_nat ns) na k s j (Z.of_nat n)); auto; try lia; try discriminate. rewrite nth_error_map, Hn. reflexivity. }
      now apply nth_error_Some.
  - intros f n Hf Hn. rewrite nth_error_app2 by (rewrite rings_length by lia; lia). rewrite rings_length by lia.
    rewrite nth_error_repeat by nia. f_equal.
    assert (El : last (map Z.of_nat ns) 0%Z = Z.of_nat n).
    { assert (Hlast : nth_error ns (length ns - 1) = Some n) by (rewrite <- Hn; f_equal; lia).
      destruct (exists_last (l := ns)) as (k & a & ->); [intros ->; discriminate|]. rewrite map_app. cbn [map]. rewrite last_last.
      rewrite app_length in Hlast. cbn in Hlast. rewrite nth_error_app2 in Hlast by lia. replace (length k + 1 - 1 - length k)%nat with 0%nat in Hlast by lia.
      cbn in Hlast. congruence. }
    rewrite El. apply to_int8_small. pose proof (H128 n (nth_error_In _ _ Hn)). lia.
Qed.
End Pin.

(** * The pin of the examples *)
Lemma the_pin : let theta := 2 * PI / INR (2 ^ 3) in pin_ok [1 / 2; 7 / 10] [2; 1]%nat /\ eps <= sin theta /\ eps <= 2 / 2 * sin theta /\
  circle [1 / 2; 7 / 10] 2 * sqrt (theta / sin theta) + eps <= 2 / 2.
Proof.
  intros theta. assert (T : theta = PI / 4) by (unfold theta; change (2 ^ 3)%nat with 8%nat; cbn [INR]; field). rewrite T.
  assert (B := sin_bounds). assert (P := PI_4). assert (Pp := PI_RGT_0). unfold eps. split; [exact ex_pin|]. split; [lra|]. split; [lra|].
  cbn [circle nth length]. assert (X : PI / 4 / sin (PI / 4) <= 144 / 100).
  { apply Rmult_le_reg_r with (sin (PI / 4)); [lra|]. replace (PI / 4 / sin (PI / 4) * sin (PI / 4)) with (PI / 4) by (field; lra). lra. }
  assert (sqrt (PI / 4 / sin (PI / 4)) <= 12 / 10).
  { rewrite <- (sqrt_square (12 / 10)) by lra. apply sqrt_le_1_alt. lra. }
  lra.
Qed.

Section Refuted.
Variable at_origin : mesh R -> bool.
Variables checks : bool.
Notation run := (run isort_poly (fun m => Ret m) at_origin checks).
Notation step := (step isort_poly (fun m => Ret m) at_origin checks).

(** 257 materials: the last one is taken for the first one *)
Definition names257 : list material := repeat (mkMaterial "a" true) 256 ++ [mkMaterial "b" true].
Lemma run_materials exit_on_error : forall xs m, run exit_on_error m (map (fun x => AddMaterial x false) xs) =
  Ret (mkModel (core m) (assemblies m) (lattices m) (rtms m) (cells m) (materials m ++ xs) (tris m) (quads m) (tri6s m) (quad8s m)).
Proof.
  induction xs as [|x xs IH]; intros m; cbn [map Mpact_Model.run].
  - rewrite app_nil_r. destruct m. reflexivity.
  - cbn [Mpact_Model.step addMaterial andb bind fst]. unfold addMaterial. cbn [andb bind fst]. rewrite IH. unfold push_material.
    cbn [core assemblies lattices rtms cells materials tris quads tri6s quad8s]. rewrite <- app_assoc. reflexivity.
Qed.
Theorem wrap exit_on_error : exists ops m b m' cell, run exit_on_error empty_model ops = Ret m /\ nth_error (materials m) 256 = Some b /\
  (forall i x, nth_error (materials m) i = Some x -> name x = name b -> i = 256%nat) /\
  step exit_on_error m (AddCylindricalPinCell 2 [1 / 2; 7 / 10] [b; b; b] [2; 1]%nat 8 1) = Ret (m', 0%Z) /\
  cells m' = [cell] /\ material_ids cell <> [] /\ forall i, In i (material_ids cell) -> i = 0%Z.
Proof.
  exists (map (fun x => AddMaterial x false) names257). eexists. exists (mkMaterial "b" true).
  rewrite run_materials. cbn [core assemblies lattices rtms cells materials tris quads tri6s quad8s empty_model app].
  set (m := mkModel _ _ _ _ _ _ _ _ _ _).
  assert (Hb : first_named (materials m) "b" 256).
  { split; [exists (mkMaterial "b" true); split; reflexivity|]. intros j y Hj Hy. cbn [materials m] in Hy. unfold names257 in Hy.
    rewrite nth_error_app1 in Hy by (rewrite repeat_length; lia). rewrite nth_error_repeat in Hy by auto. injection Hy as <-. discriminate. }
  destruct the_pin as (P1 & P2 & P3 & P4).
  destruct (pin_cell_gen isort_poly (fun m => Ret m) exit_on_error m 2 [1 / 2; 7 / 10] [2; 1]%nat 3 (repeat (mkMaterial "b" true) 3) [256; 256; 256]%nat)
    as (msh & HM & E); auto; try lra.
  { exact isort_poly_contract. }
  { cbn. unfold intMax. lia. }
  { repeat (apply Forall2_cons; [exact Hb|]). constructor. }
  { repeat (apply Forall_cons; [split; [vm_compute; discriminate|vm_compute; reflexivity]|]). constructor. }
  eexists _, _. split; [reflexivity|]. split; [reflexivity|]. split.
  { intros i x Hi Hx. destruct (lt_dec i 256) as [L|L]; [exfalso; exact (proj2 Hb i x L Hi Hx)|].
    assert (Hlt : (i < length (materials m))%nat) by (apply nth_error_Some; unfold m at 1; rewrite Hi; discriminate). change (length (materials m)) with 257%nat in Hlt. lia. }
  split; [exact E|]. split; [reflexivity|]. split; [discriminate|].
  change (pin_materials (map Z.of_nat [256; 256; 256]%nat) [2; 1]%nat (2 ^ 3)) with (repeat 0%Z 32). intros i Hi. cbn [material_ids] in Hi. eapply repeat_spec; eauto.
Qed.
(** a refused pin cell leaves its mesh behind *)
Theorem pin_left : exists m', step false empty_model (AddCylindricalPinCell 2 [1 / 2; 7 / 10] [] [2; 1]%nat 8 1) = Ret (m', (-1)%Z) /\ m' <> empty_model.
Proof.
  destruct the_pin as (P1 & P2 & P3 & P4).
  destruct (C58_linear isort_poly (fun m => Ret m) eps false [] [] 2 [1 / 2; 7 / 10] [2; 1]%nat 3 isort_poly_contract P1 ltac:(lia) ltac:(lra) eps_pos P2 P3 P4)
    as (msh & E & _); [cbn; unfold intMax; lia|]. change (Z.of_nat (2 ^ 3)) with 8%Z in E.
  cbn [Mpact_Model.step]. unfold addCylindricalPinCell, addCylPin. cbn [quads quad8s empty_model]. rewrite E. cbn [bind fst snd length Nat.add Nat.eqb negb PinRect_Model.error].
  eexists. split; [reflexivity|]. intros H. apply (f_equal quads) in H. discriminate.
Qed.
(** a refused pin mesh becomes a cell without mesh *)
Theorem pin_without_mesh : exists m m', run false empty_model [AddMaterial (mkMaterial "a" true) false] = Ret m /\
  addCylPin isort_poly (fun m => Ret m) false m 2 [1 / 2; 7 / 10] [2; 1]%nat 12 1 = Ret (m, (-1)%Z) /\
  step false m (AddCylindricalPinCell 2 [1 / 2; 7 / 10] (repeat (mkMaterial "a" true) 3) [2; 1]%nat 12 1) = Ret (m', 0%Z) /\
  exists c, cells m' = [c] /\ mesh_id c = (-1)%Z.
Proof.
  assert (E : forall q q8, addCylindricalPinMesh isort_poly (fun m => Ret m) eps false q q8 2 [1 / 2; 7 / 10] [2; 1]%nat 12 1 = Ret (q, q8, (-1)%Z)).
  { intros q q8. apply C58_rejected. right. left. intros (e & He & E). assert (D : (e = 3 \/ 4 <= e)%Z) by lia. destruct D as [->|D]; [discriminate|].
    assert (X := Z.pow_le_mono_r 2 4 e ltac:(lia) D). lia. }
  eexists. eexists. split; [reflexivity|]. split; [unfold addCylPin; rewrite E; reflexivity|]. split.
  - cbn [Mpact_Model.step]. unfold addCylindricalPinCell, addCylPin. rewrite E. cbn [bind fst snd].
    cbn [length repeat Nat.add Nat.eqb negb]. cbn [find_names materials push_material empty_model app find_name name String.eqb Ascii.eqb Bool.eqb].
    change (12 <? 0)%Z with false. cbv iota. rewrite i32_ok by (vm_compute; split; congruence). cbn [bind].
    unfold addCoarseCell. cbn [fst snd]. rewrite (proj2 (Rltb_true 0 2)) by lra. cbn [negb orb]. unfold cell_checks. change (-1 =? -1)%Z with true. cbv iota. cbn [bind]. reflexivity.
  - eexists. split; reflexivity.
Qed.
End Refuted.
