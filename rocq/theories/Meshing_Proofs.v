From Coq Require Import String ZArith List Bool Lia.
From Verif Require Import Base Meshing_Model Meshing_Spec.
Import ListNotations.
Local Open Scope Z_scope.

Section Proofs.
Context {F : Type}.
Implicit Types g : gmsh F.

(** what earlier calls leave: [q] says whether one of them made quadrangles *)
Definition left_by (q : bool) (o : options) : Prop :=
  o "Mesh.ElementOrder"%string = 1 /\
  (if q then o "Mesh.RecombineAll"%string = 1 /\ o "Mesh.RecombinationAlgorithm"%string = 2
   else o "Mesh.RecombineAll"%string = 0 /\ o "Mesh.SubdivisionAlgorithm"%string = 0).

Lemma mesh_app l l' : mesh_of (l ++ l') = fold_left step l' (mesh_of l).
Proof. apply fold_left_app. Qed.

Lemma generate_ok exit t n g q m : left_by q (opts g) -> wanted t n = Some m ->
  exists g', generateMesh exit t n g = Ret g' /\ left_by (q || quads t) (opts g') /\ entities g' = entities g /\ sizes g' = sizes g /\
    mesh_of (actions g') = Some (with_shape (if q || quads t then Quadrangles else Triangles) m).
Proof.
  intros (H1 & H2) Hw. destruct g as [o e s a]. unfold left_by. cbn [opts] in *. vm_compute in H1, H2.
  destruct t; try discriminate Hw; injection Hw as <-; cbn [generateMesh setNumber generate setOrder opts entities sizes actions]; (eexists; split; [reflexivity|]);
    cbn [setNumber generate setOrder opts entities sizes actions];
    (split; [destruct q; vm_compute; auto|]); (split; [reflexivity|]); (split; [reflexivity|]);
    unfold mesh_of; rewrite ?fold_left_app; destruct q, H2 as (H2 & H3); vm_compute; rewrite ?H1, ?H2, ?H3; try reflexivity;
    match goal with |- context [match ?x with Z0 => _ | Zpos _ => _ | Zneg _ => _ end] => destruct x as [|[]|] end; reflexivity.
Qed.

Lemma generate_invalid (exit : bool) t n g : wanted t n = None ->
  if exit then generateMesh exit t n g = Fail
  else exists g', generateMesh exit t n g = Ret g' /\ actions g' = actions g /\ entities g' = entities g /\ sizes g' = sizes g /\
    (forall q, left_by q (opts g) -> left_by q (opts g')).
Proof.
  intros Hw. destruct exit, t; try discriminate Hw; try reflexivity;
    (eexists; split; [reflexivity|]; cbn [actions entities sizes opts setNumber]; repeat (split; [reflexivity|]); intros q H; exact H).
Qed.

Lemma calls_ok l : forall g q, left_by q (opts g) ->
  exists g', calls false l g = Ret g' /\ left_by (q || existsb (fun c => quads (fst c)) l) (opts g') /\ entities g' = entities g /\ sizes g' = sizes g.
Proof.
  induction l as [|[t n] l IH]; intros g q Hg.
  - exists g. cbn. rewrite orb_false_r. auto.
  - cbn [calls existsb fst]. destruct (wanted t n) as [m|] eqn:Ew.
    + destruct (generate_ok false t n g q m Hg Ew) as (g1 & -> & H1 & H2 & H3 & _). cbn [bind].
      destruct (IH g1 _ H1) as (g2 & E & H4 & H5 & H6). exists g2. rewrite orb_assoc. split; [exact E|]. split; [exact H4|]. split; congruence.
    + destruct (generate_invalid false t n g Ew) as (g1 & -> & _ & H2 & H3 & H1). cbn [bind].
      assert (quads t = false) as -> by (destruct t; try discriminate Ew; reflexivity). cbn [orb].
      destruct (IH g1 q (H1 q Hg)) as (g2 & E & H4 & H5 & H6). exists g2. split; [exact E|]. split; [exact H4|]. split; congruence.
Qed.

Lemma history_ok l t n m g : opts g = default -> wanted t n = Some m ->
  exists g1 g2, calls false l g = Ret g1 /\ generateMesh false t n g1 = Ret g2 /\
    mesh_of (actions g2) = Some (with_shape (if existsb (fun c => quads (fst c)) (l ++ [(t, n)]) then Quadrangles else Triangles) m).
Proof.
  intros Ho Hw. assert (H0 : left_by false (opts g)) by (rewrite Ho; repeat split).
  destruct (calls_ok l g false H0) as (g1 & E1 & H1 & _). cbn [orb] in H1.
  destruct (generate_ok false t n g1 _ m H1 Hw) as (g2 & E2 & _ & _ & _ & H2).
  exists g1, g2. split; [exact E1|]. split; [exact E2|]. rewrite H2. rewrite existsb_app. cbn [existsb fst]. now rewrite orb_false_r.
Qed.

Lemma fold_sizes (l : list (Z * Z)) (size : F) s x :
  fold_left (fun s d => fun x => if (fst d =? 0) && (fst x =? fst d) && (snd x =? snd d) then Some size else s x) l s x =
  if existsb (fun d => (fst d =? 0) && (fst x =? fst d) && (snd x =? snd d)) l then Some size else s x.
Proof.
  revert s. induction l as [|d l IH]; intros s; [reflexivity|]. cbn [fold_left existsb]. rewrite IH.
  destruct ((fst d =? 0) && (fst x =? fst d) && (snd x =? snd d)); cbn [orb]; [|reflexivity]. now destruct (existsb _ l).
Qed.
Lemma size_ok size g : let g' := setGlobalMeshSize size g in
  opts g' = opts g /\ entities g' = entities g /\ actions g' = actions g /\
  forall d, sizes g' d = if existsb (fun e => (fst d =? fst e) && (snd d =? snd e)) (entities g) && (fst d =? 0) then Some size else sizes g d.
Proof.
  cbv zeta. repeat (split; [reflexivity|]). intros d. unfold setGlobalMeshSize, setSize, getEntities. cbn [sizes]. rewrite fold_sizes.
  match goal with |- (if ?a then _ else _) = (if ?b then _ else _) => assert (a = b) as -> end; [|reflexivity].
  induction (entities g) as [|e l IH]; [reflexivity|]. cbn [filter existsb].
  destruct (Z.eqb_spec (fst e) 0) as [E|E].
  - cbn [existsb]. rewrite IH, E. cbn [Z.eqb andb]. destruct (fst d =? 0), (snd d =? snd e), (existsb _ l); reflexivity.
  - rewrite IH. destruct (Z.eqb_spec (fst d) (fst e)) as [E2|E2]; cbn [andb orb]; [|reflexivity].
    destruct (Z.eqb_spec (fst d) 0); [congruence|]. now rewrite !andb_false_r.
Qed.
Lemma size_spec size g d : (In d (entities g) -> fst d = 0 -> sizes (setGlobalMeshSize size g) d = Some size) /\
  (~ In d (entities g) \/ fst d <> 0 -> sizes (setGlobalMeshSize size g) d = sizes g d).
Proof.
  destruct (size_ok size g) as (_ & _ & _ & H). rewrite H. clear H. split.
  - intros Hi Hd. assert (existsb (fun e => (fst d =? fst e) && (snd d =? snd e)) (entities g) = true) as ->.
    { apply existsb_exists. exists d. rewrite !Z.eqb_refl. auto. }
    rewrite Hd. reflexivity.
  - intros Hn. destruct (existsb _ (entities g)) eqn:E; cbn [andb]; [|reflexivity].
    apply existsb_exists in E as (e & He & Hb). apply andb_prop in Hb as (B1 & B2). apply Z.eqb_eq in B1, B2.
    assert (d = e) as -> by (destruct d, e; cbn in *; congruence). destruct Hn as [Hn|Hn]; [contradiction|].
    destruct (Z.eqb_spec (fst e) 0); [contradiction|reflexivity].
Qed.
End Proofs.
