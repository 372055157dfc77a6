(** Model of FaceVertexMesh::validate (src/mesh/face_vertex_mesh.cpp:246-525).

    An EdgeConn is a Vec<P + 1, Int>, here a list of two or three ids, so that reading elements 0
    and 1 is always defined.  LOG_ERROR ends the process by default (settings.hpp:29): [Fail].  The
    LOG_WARN of checkCCWFaces is not modelled.  checkSelfIntersections (428-504), in QInt_Model, is a parameter. *)
From Coq Require Import List Arith ZArith Bool.
From Verif Require Import Base Loops Soup_Model Fvm_Model.
Import ListNotations.

(** e[0], e[1] *)
Definition e0 (e : list Z) : Z := nth 0 e 0%Z.
Definition e1 (e : list Z) : Z := nth 1 e 0%Z.
(** um2::swap(edge[0], edge[1]) *)
Definition swap01 (e : list Z) : list Z := match e with a :: b :: r => b :: a :: r | _ => e end.
(** operator< of Vec (vec.hpp:905-919) and Pair (pair.hpp:61-66) *)
Fixpoint vec_ltb (l r : list Z) : bool :=
  match l, r with
  | a :: l', b :: r' => if (a <? b)%Z then true else if (b <? a)%Z then false else vec_ltb l' r'
  | _, _ => false
  end.
Definition epair_ltb (x y : list Z * Z) : bool :=
  if vec_ltb (fst x) (fst y) then true
  else if vec_ltb (fst y) (fst x) then false else (snd x <? snd y)%Z.

(** ** checkCCWFaces (250-266) *)
Section CCW.
Context {F : Type}.
Variable isCCW : list (F * F) -> bool.
Definition checkCCWFaces (k : kind) (m : mesh F) : outcome (mesh F) :=
  for_ (length (fv m)) 0 (fun i m =>
    let* p := getFace m i in
    if negb (isCCW p) then flipFace k m i else Ret m) m.
End CCW.

(** ** checkManifoldWatertight (268-426) *)
(** lower id first, and the orientation (299-309) *)
Definition canon (e : list Z) : list Z * Z :=
  if (e1 e <? e0 e)%Z then (swap01 e, (-1)%Z) else (e, 1%Z).
(** step 1 *)
Definition edge_conns {F} (k : kind) (m : mesh F) : outcome (list (list Z * Z)) :=
  let* ll := mapo (fun iface =>
    mapo (fun iedge => let* e := getEdgeConn k m iface iedge in Ret (canon e)) (seq 0 (nedges k)))
    (seq 0 (length (fv m))) in
  Ret (concat ll).
(** step 3: the edge in the orientation of its first occurrence, and (reversed, ordered) counts *)
Definition new_edge (x : list Z * Z) : list Z * (nat * nat) :=
  if (snd x =? 1)%Z then (fst x, (0, 1)) else (swap01 (fst x), (1, 0)).
Definition count_one (o : Z) (c : nat * nat) : nat * nat :=
  if (o =? 1)%Z then (fst c, snd c + 1) else (fst c + 1, snd c).
(** the loop 339-365; [u] holds unique_edges and edge_counts *)
Fixpoint count_edges (prev : list Z * Z) (l : list (list Z * Z)) (u : list (list Z * (nat * nat)))
  : outcome (list (list Z * (nat * nat))) :=
  match l with
  | [] => Ret u
  | x :: l' =>
      if vec_eqb Z.eqb (fst prev) (fst x) then
        let* b := rd u (length u - 1) in
        let* u := wr u (length u - 1) (fst b, count_one (snd x) (snd b)) in
        count_edges x l' u
      else count_edges x l' (u ++ [new_edge x])
  end.
(** step 4, the loop 377-397 *)
Fixpoint boundary (u : list (list Z * (nat * nat))) (bs : list (list Z)) : outcome (list (list Z)) :=
  match u with
  | [] => Ret bs
  | (e, (n, p)) :: u' =>
      if 2 <? n + p then Fail
      else if n + p =? 1 then
        if existsb (fun b => (e0 e =? e0 b)%Z || (e1 e =? e1 b)%Z) bs then Fail
        else boundary u' (bs ++ [e])
      else boundary u' bs
  end.
(** the loop 404-425; OutOfFuel if it has not ended after [fuel] turns *)
Fixpoint walk (fuel : nat) (bs : list (list Z)) (start_idx : Z) (edge : list Z) (ctr : nat) : outcome nat :=
  match fuel with
  | O => OutOfFuel
  | S fuel' =>
      match find (fun b => (e1 edge =? e0 b)%Z) bs with
      | None => Fail
      | Some b => if (e0 b =? start_idx)%Z then Ret (ctr + 1) else walk fuel' bs start_idx b (ctr + 1)
      end
  end.
Definition check_loop (fuel : nat) (bs : list (list Z)) : outcome unit :=
  let* b0 := rd bs 0 in
  let* ctr := walk fuel bs (e0 b0) b0 0 in
  if negb (ctr =? length bs) then Fail else Ret tt.

Section Check.
(** std::sort *)
Variable stdsort : forall A : Type, (A -> A -> bool) -> list A -> list A.
Definition checkManifoldWatertight {F} (fuel : nat) (k : kind) (m : mesh F) : outcome unit :=
  let* es := edge_conns k m in
  let s := stdsort _ epair_ltb es in
  let* x := rd s 0 in
  let* u := count_edges x (tl s) [new_edge x] in
  let* bs := boundary u [] in
  check_loop fuel bs.

(** validate (512-525); [selfcheck] is checkSelfIntersections for quadratic meshes and nothing for
    linear ones *)
Definition validate {F} (isCCW : list (F * F) -> bool) (selfcheck : mesh F -> outcome (mesh F))
  (fuel : nat) (k : kind) (m : mesh F) : outcome (mesh F) :=
  let* m := checkCCWFaces isCCW k m in
  let* _ := checkManifoldWatertight fuel k m in
  if quadratic k then selfcheck m else Ret m.
End Check.
