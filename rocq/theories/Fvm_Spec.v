(** What a face-vertex mesh is, and what its edges, incidences and intersections are. *)
From Coq Require Import List Arith ZArith Bool Sorting.Permutation.
From Verif Require Import Base Sort_Spec Soup_Spec Fvm_Model.
Import ListNotations.

(** every face has the right number of vertices, and every id refers to a vertex *)
Definition face_ok (k : kind) (nv : nat) (c : list Z) : Prop :=
  length c = nverts k /\ forall v, In v c -> (0 <= v < Z.of_nat nv)%Z.
Definition mesh_ok {F} (k : kind) (m : mesh F) : Prop :=
  forall c, In c (fv m) -> face_ok k (length (mv m)) c.

(** the vertices of a face as coordinates *)
Definition corners {A} (v : list A) (c : list Z) : list (option A) :=
  map (fun i => nth_error v (Z.to_nat i)) c.

(** ** Edges *)
(** the edges of a face in order: both end points, then the mid-edge vertex if there is one *)
Definition edges_of {A} (k : kind) (c : list A) : list (list A) :=
  match k, c with
  | Tri, [v0; v1; v2] => [[v0; v1]; [v1; v2]; [v2; v0]]
  | Quad, [v0; v1; v2; v3] => [[v0; v1]; [v1; v2]; [v2; v3]; [v3; v0]]
  | Tri6, [v0; v1; v2; e01; e12; e20] => [[v0; v1; e01]; [v1; v2; e12]; [v2; v0; e20]]
  | Quad8, [v0; v1; v2; v3; e01; e12; e23; e30] =>
      [[v0; v1; e01]; [v1; v2; e12]; [v2; v3; e23]; [v3; v0; e30]]
  | _, _ => []
  end.
(** the same edge in the other direction *)
Definition reverse_edge {A} (e : list A) : list A :=
  match e with a :: b :: r => b :: a :: r | _ => e end.
(** [c'] has the edges of [c], each in the other direction and with its mid-edge vertex *)
Definition reversed {A} (k : kind) (c c' : list A) : Prop :=
  Permutation (edges_of k c') (map reverse_edge (edges_of k c)).

(** ** Vertex-face incidence *)
(** face numbers, each as often as [v] occurs in the face, in ascending order *)
Fixpoint incident (v : Z) (i : nat) (fs : list (list Z)) : list nat :=
  match fs with
  | [] => []
  | c :: fs' => repeat i (count_occ Z.eq_dec c v) ++ incident v (S i) fs'
  end.
(** [offs] and [f] are the compressed lists of incident faces of the [nv] vertices *)
Definition is_incidence (nv : nat) (fs : list (list Z)) (offs f : list nat) : Prop :=
  length offs = nv + 1 /\ nth_error offs 0 = Some 0 /\
  nth_error offs nv = Some (length f) /\ length f = length (concat fs) /\
  forall v, v < nv -> exists a b, nth_error offs v = Some a /\ nth_error offs (v + 1) = Some b /\
    a <= b /\ firstn (b - a) (skipn a f) = incident (Z.of_nat v) 0 fs.

(** ** Rays *)
Section Rays.
  Context {F : Type}.
  Variable edge_hits : list (F * F) -> list F * nat.
  (** an edge reports a prefix of what it writes, and writes at most one value more *)
  Definition hits_ok : Prop := forall e, snd (edge_hits e) <= length (fst (edge_hits e)) <= snd (edge_hits e) + 1.
  Definition edge_reports (e : list (F * F)) : list F := firstn (snd (edge_hits e)) (fst (edge_hits e)).
  (** the reported intersections of a face, edge by edge *)
  Definition face_reports (k : kind) (poly : list (F * F)) : list F :=
    concat (map edge_reports (edges_of k poly)).
  (** (face number, its intersections), for the faces that have any *)
  Definition hit_faces (k : kind) (polys : list (list (F * F))) : list (nat * list F) :=
    filter (fun p => negb (length (snd p) =? 0))
      (combine (seq 0 (length polys)) (map (face_reports k) polys)).
End Rays.

(** "less" for Morton codes *)
Definition code_lt {A} (code : A -> outcome Z) (a b : A) : bool :=
  match code a, code b with Ret x, Ret y => (x <? y)%Z | _, _ => false end.
(** the same points, and the same faces as tuples of points, in some order *)
Definition same_geometry {F} (m m' : mesh F) : Prop :=
  Permutation (mv m) (mv m') /\
  Permutation (map (corners (mv m)) (fv m)) (map (corners (mv m')) (fv m')).
(** the faces of a mesh as polygons *)
Definition polygons {F} (m : mesh F) (ps : list (list (F * F))) : Prop :=
  map (map Some) ps = map (corners (mv m)) (fv m).

(** ** Histories *)
(** the modifiers of a mesh *)
Inductive fvm_op {F : Type} :=
| OpAddVertex (p : F * F) | OpAddFace (c : list Z) | OpFlip (i : nat) | OpPopulateVF
| OpSortVertices | OpSortFaces | OpSort.
Arguments fvm_op : clear implicits.
Definition run_op {F} stdsort vcode fcode (k : kind) (m : mesh F) (o : fvm_op F) : outcome (mesh F) :=
  match o with
  | OpAddVertex p => Ret (addVertex2 m p)
  | OpAddFace c => Ret (addFace m c)
  | OpFlip i => flipFace k m i
  | OpPopulateVF => populateVF m
  | OpSortVertices => mortonSortVertices stdsort vcode m
  | OpSortFaces => mortonSortFaces stdsort fcode m
  | OpSort => mortonSort stdsort vcode fcode m
  end.
Fixpoint run_ops {F} stdsort vcode fcode (k : kind) (m : mesh F) (os : list (fvm_op F)) : outcome (mesh F) :=
  match os with
  | [] => Ret m
  | o :: os' => let* m := run_op stdsort vcode fcode k m o in run_ops stdsort vcode fcode k m os'
  end.
