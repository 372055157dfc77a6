(** What the info file of a gmsh model promises. *)
From Coq Require Import String Ascii.
From Coq Require Import List ZArith Bool.
From Verif Require Import Base Groups_Model Groups_Spec.
Import ListNotations.
Open Scope Z_scope.

(** The file of the geometry numbers the entities of each dimension 1, 2, ... in the order of their tags:
    an entity gets the number of entities of its dimension with a tag up to its own. *)
Definition number_of (ge : geometry) (d t : Z) : Z :=
  Z.of_nat (length (filter (fun x => (fst x =? d) && (snd x <=? t)) (ents ge))).
(** blue, fully transparent: the colour of what was never painted *)
Definition unpainted : colour := 255 * 256.

Definition lacks (c : ascii) (s : string) : Prop := ~ In c (list_ascii_of_string s).
(** A model as gmsh keeps it, with names and sizes the format has room for; with assertions it may have no
    groups of points. *)
Record writable (checks : bool) (g : gm) : Prop := {
  w_ordered : ascending_pairs (ents (geo g));
  w_dims : forall d, In d (ents (geo g)) -> 0 <= fst d <= 3;
  w_groups : well_formed g;
  w_exist : forall x e, In x (groups g) -> In e (g_ents x) -> In (g_dim x, e) (ents (geo g));
  w_points : checks = true -> forall x, In x (groups g) -> 0 < g_dim x;
  w_names : forall x, In x (groups g) -> lacks """"%char (g_name x) /\ lacks "010"%char (g_name x);
  w_colours : forall d, 0 <= paint (geo g) d < 4294967296;
  w_size : Z.of_nat (length (ents (geo g))) <= 2147483647;
  w_many : Z.of_nat (length (groups g)) <= 2147483647 }.

(** [g0] is what gmsh reads back of the geometry: the same entities renumbered, no groups, no colours. *)
Definition reopened (g g0 : gm) : Prop :=
  ents (geo g0) = map (fun d => (fst d, number_of (geo g) (fst d) (snd d))) (ents (geo g)) /\
  groups g0 = [] /\ forall d, paint (geo g0) d = unpainted.

(** [g'] has the geometry of [g0] with the groups of [g], in the same order, of the same entities under
    their new numbers, and the colours of the surfaces and volumes of [g]. The groups of each dimension
    get the tags 1, 2, ... *)
Record restored (g g0 g' : gm) : Prop := {
  r_ents : ents (geo g') = ents (geo g0);
  r_down : down (geo g') = down (geo g0);
  r_count : length (groups g') = length (groups g);
  r_groups : forall i x, nth_error (groups g) i = Some x ->
    nth_error (groups g') i =
      Some (mkG (g_dim x)
                (1 + Z.of_nat (length (filter (fun y => g_dim y =? g_dim x) (firstn i (groups g)))))
                (g_name x)
                (map (number_of (geo g) (g_dim x)) (g_ents x)));
  r_painted : forall d t, In (d, t) (ents (geo g)) -> 2 <= d ->
    paint (geo g') (d, number_of (geo g) d t) = paint (geo g) (d, t);
  r_plain : forall d, fst d < 2 -> paint (geo g') d = unpainted }.
