(** Connected regions of faces with power. *)
From Coq Require Import List Arith ZArith Reals Permutation Sorted.
From Verif Require Import Base Arith Elem_Model Stats_Spec Powers_Model.
Import ListNotations.
Local Open Scope R_scope.

(** the contract of std::sort *)
Definition sorts (stdsort : list nat -> list nat) : Prop :=
  forall l, Permutation (stdsort l) l /\ Sorted le (stdsort l).
(** number of vertices of a face of the element types the code supports *)
Definition vertices (k : vtk) : option nat :=
  match k with
  | V_Triangle => Some 3%nat | V_Quad => Some 4%nat | V_QuadraticTriangle => Some 6%nat | V_QuadraticQuad => Some 8%nat
  | _ => None
  end.
Definition mesh_of (k : vtk) (faces : list face) : Prop :=
  exists n, vertices k = Some n /\ forall f, In f faces -> length f = n.

(** distance below 1e-5 *)
Definition near (p q : pt) : Prop :=
  sqrt ((fst p - fst q) * (fst p - fst q) + (snd p - snd q) * (snd p - snd q)) < 1 / 100000.
(** two faces touch: a vertex of one is near a vertex of the other *)
Definition touch (f g : face) : Prop := exists p q, In p f /\ In q g /\ near p q.
Section Mesh.
Variable faces : list face.
Variable power : list R.
Definition adjacent (i j : nat) : Prop :=
  exists f g, nth_error faces i = Some f /\ nth_error faces j = Some g /\ touch f g.
Definition powered (i : nat) : Prop := exists p, nth_error power i = Some p /\ 0 < p.
(** a chain of touching faces with power *)
Inductive linked (i : nat) : nat -> Prop :=
| linked_self : powered i -> linked i i
| linked_step j l : linked i j -> powered l -> adjacent j l -> linked i l.
(** the face spans at least 1e-3 in both directions *)
Definition wide (f : face) : Prop :=
  (exists p q, In p f /\ In q f /\ 1 / 1000 <= fst p - fst q) /\
  (exists p q, In p f /\ In q f /\ 1 / 1000 <= snd p - snd q).
(** touching faces share a vertex, or are larger than the tolerance *)
Definition resolved : Prop := forall i j f g, powered i -> powered j ->
  nth_error faces i = Some f -> nth_error faces j = Some g -> touch f g ->
  (exists p, In p f /\ In p g) \/ (wide f /\ wide g).
(** the regions partition the faces with power *)
Definition partition (regions : list (list nat)) : Prop :=
  NoDup (concat regions) /\ (forall i, In i (concat regions) <-> powered i) /\ ~ In [] regions /\
  Forall (Sorted lt) regions.
Definition together (regions : list (list nat)) (a b : nat) : Prop :=
  exists r, In r regions /\ In a r /\ In b r.
(** area, centroid and power density of face [i] *)
Definition data_of (k : vtk) (i : nat) (t : R * pt * R) : Prop :=
  exists f, nth_error faces i = Some f /\ face_area k f = Ret (fst (fst t)) /\ face_centroid k f = Ret (snd (fst t)) /\
    nth_error power i = Some (snd t).
(** the power of a region and its centroid *)
Definition region_value (k : vtk) (r : list nat) (v : R * pt) : Prop :=
  exists ts, Forall2 (data_of k) r ts /\
    let a t := fst (fst t) in
    let A := total (map a ts) in
    fst v = total (map (fun t => snd t * a t) ts) /\
    (A <> 0 -> A * fst (snd v) = total (map (fun t => a t * fst (snd (fst t))) ts) /\
               A * snd (snd v) = total (map (fun t => a t * snd (snd (fst t))) ts)).
(** what getPowers accepts *)
Definition accepted (ids : list Z) : Prop :=
  length ids = length power /\ length ids = length faces /\ (exists i, powered i) /\ Sorted Z.le ids.
End Mesh.
