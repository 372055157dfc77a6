(** What a polytope soup contains, without offset arrays. *)
From Coq Require Import List Arith ZArith Bool Sorting.Sorted.
From Verif Require Import Base Loops Elem_Model StringView_Spec Sort_Spec Soup_Model.
Import ListNotations.

Section Spec.
Context {P F : Type}.
(** an element set: name, element ids, data (empty, or one value per id) *)
Record elset := mkElset { es_name : list Z; es_ids : list Z; es_data : list F }.
Record asoup := mkA { a_verts : list P; a_elems : list (vtk * list Z); a_elsets : list elset }.
Definition a_empty : asoup := mkA [] [] [].

(** an elset is accepted if its name is new, it has ids, and its data fit *)
Definition acceptable (a : asoup) (e : elset) : Prop :=
  ~ In (es_name e) (map es_name (a_elsets a)) /\ es_ids e <> [] /\
  (es_data e = [] \/ length (es_data e) = length (es_ids e)).
Inductive astep (padd : P -> P -> P) (a : asoup) : op P F -> asoup -> Prop :=
| astep_vertex p : astep padd a (AddVertex p) (mkA (a_verts a ++ [p]) (a_elems a) (a_elsets a))
| astep_element t c : astep padd a (AddElement t c) (mkA (a_verts a) (a_elems a ++ [(t, c)]) (a_elsets a))
| astep_elset n ids d : acceptable a (mkElset n ids d) ->
    astep padd a (AddElset n ids d) (mkA (a_verts a) (a_elems a) (a_elsets a ++ [mkElset n ids d]))
| astep_rejected n ids d : ~ acceptable a (mkElset n ids d) -> astep padd a (AddElset n ids d) a
| astep_translate v : astep padd a (Translate v) (mkA (map (fun p => padd p v) (a_verts a)) (a_elems a) (a_elsets a))
| astep_reserve : astep padd a Reserve a.
Inductive asteps (padd : P -> P -> P) : asoup -> list (op P F) -> asoup -> Prop :=
| asteps_nil a : asteps padd a [] a
| asteps_cons a o a1 os a2 : astep padd a o a1 -> asteps padd a1 os a2 -> asteps padd a (o :: os) a2.

(** the compressed arrays of a list of lists: no offsets if there are none, otherwise 0 and the
    running totals of the lengths *)
Fixpoint sums (from : nat) (l : list nat) : list nat :=
  match l with [] => [from] | n :: l' => from :: sums (from + n) l' end.
Definition offsets_of (l : list nat) : list nat := match l with [] => [] | _ => sums 0 l end.
(** the soup [s] stores the content [a] *)
Definition stores (s : soup P F) (a : asoup) : Prop :=
  verts s = a_verts a /\
  etypes s = map fst (a_elems a) /\
  eoffs s = offsets_of (map (fun e => length (snd e)) (a_elems a)) /\
  econn s = concat (map snd (a_elems a)) /\
  snames s = map es_name (a_elsets a) /\
  soffs s = offsets_of (map (fun e => length (es_ids e)) (a_elsets a)) /\
  sids s = concat (map es_ids (a_elsets a)) /\
  sdata s = map es_data (a_elsets a).

Definition elset_ok (e : elset) : Prop :=
  es_ids e <> [] /\ (es_data e = [] \/ length (es_data e) = length (es_ids e)).
(** well formed content: named sets with distinct names, each accepted *)
Definition content_ok (a : asoup) : Prop :=
  NoDup (map es_name (a_elsets a)) /\ Forall elset_ok (a_elsets a).
(** additionally every id refers to an existing vertex or element *)
Definition ids_ok (a : asoup) : Prop :=
  (forall t c v, In (t, c) (a_elems a) -> In v c -> (0 <= v < Z.of_nat (length (a_verts a)))%Z) /\
  (forall e i, In e (a_elsets a) -> In i (es_ids e) -> (0 <= i < Z.of_nat (length (a_elems a)))%Z).

(** the order of names in which sortElsets and += leave the elsets *)
Definition names_sorted (l : list elset) : Prop := StronglySorted lexlt (map es_name l).
(** [e'] is [e] with its ids in ascending order and the data moved along *)
Definition same_sorted (e e' : elset) : Prop :=
  es_name e' = es_name e /\ StronglySorted Z.le (es_ids e') /\
  exists p, is_perm (length (es_ids e)) p /\ reads_through (es_ids e) p (es_ids e') /\
    ((es_data e = [] /\ es_data e' = []) \/ (reads_through (es_data e) p (es_data e'))).

(** ** Merging *)
Definition shift_ids (k : nat) (ids : list Z) : list Z := map (fun i => i + Z.of_nat k)%Z ids.
(** elements whose vertex ids grow by [k] *)
Definition shift_elems (k : nat) (l : list (vtk * list Z)) := map (fun e => (fst e, shift_ids k (snd e))) l.
(** the elsets of [l] merged with those of [m], whose element ids grow by [k] *)
Inductive merged (k : nat) (l m : list elset) : elset -> Prop :=
| merged_both e1 e2 : In e1 l -> In e2 m -> es_name e1 = es_name e2 ->
    merged k l m (mkElset (es_name e1) (es_ids e1 ++ shift_ids k (es_ids e2)) (es_data e1 ++ es_data e2))
| merged_first e1 : In e1 l -> ~ In (es_name e1) (map es_name m) -> merged k l m e1
| merged_second e2 : In e2 m -> ~ In (es_name e2) (map es_name l) ->
    merged k l m (mkElset (es_name e2) (shift_ids k (es_ids e2)) (es_data e2)).
(** elsets of the same name both have data or both have none *)
Definition data_agree (l m : list elset) : Prop :=
  forall e1 e2, In e1 l -> In e2 m -> es_name e1 = es_name e2 -> (es_data e1 = [] <-> es_data e2 = []).
(** every elset lists its ids in strictly ascending order *)
Definition ascending (l : list elset) : Prop := Forall (fun e => StronglySorted Z.lt (es_ids e)) l.

(** ** Subsets *)
(** [e'] is [e] restricted to the elements [ids], which are renumbered by their position in [ids]:
    [kept] are the positions in [e] of the elements that stay *)
Definition restricted (ids : list Z) (e e' : elset) : Prop :=
  es_name e' = es_name e /\
  exists kept, StronglySorted lt kept /\
    (forall j x, nth_error (es_ids e) j = Some x -> (In j kept <-> In x ids)) /\
    Forall2 (fun j k => (0 <= k)%Z /\ exists x, nth_error (es_ids e) j = Some x /\ nth_error ids (Z.to_nat k) = Some x)
      kept (es_ids e') /\
    ((es_data e = [] /\ es_data e' = []) \/
     (es_data e <> [] /\ Forall2 (fun j d => nth_error (es_data e) j = Some d) kept (es_data e'))).
(** the elsets of [l] other than [n] that share an element with [ids] *)
Definition touching (n : list Z) (ids : list Z) (l : list elset) : list elset :=
  filter (fun e => (if list_eq_dec Z.eq_dec (es_name e) n then false else true) &&
                   existsb (fun i => existsb (Z.eqb i) ids) (es_ids e)) l.
(** [c] is the subset of [a] made of the elements [ids] (of the elset [n]) *)
Definition subset_of (a : asoup) (n : list Z) (ids : list Z) (c : asoup) : Prop :=
  exists used : list Z,
    StronglySorted Z.lt used /\
    (forall v, In v used <-> exists i t conn, In i ids /\ nth_error (a_elems a) (Z.to_nat i) = Some (t, conn) /\ In v conn) /\
    Forall2 (fun v p => nth_error (a_verts a) (Z.to_nat v) = Some p) used (a_verts c) /\
    Forall2 (fun i el => exists t conn conn', nth_error (a_elems a) (Z.to_nat i) = Some (t, conn) /\ el = (t, conn') /\
               Forall2 (fun v k => (0 <= k)%Z /\ nth_error used (Z.to_nat k) = Some v) conn conn') ids (a_elems c) /\
    Forall2 (restricted ids) (touching n ids (a_elsets a)) (a_elsets c).

(** ** Comparison *)
Section Compare.
Variables (vclose : P -> P -> bool) (dclose : F -> F -> bool).
Definition close_verts (a b : asoup) : Prop := Forall2 (fun p q => vclose p q = true) (a_verts a) (a_verts b).
Definition close_data (d e : list F) : Prop := Forall2 (fun x y => dclose x y = true) d e.
(** the two contents agree up to the tolerances *)
Definition agree (a b : asoup) : Prop :=
  close_verts a b /\ a_elems a = a_elems b /\
  Forall2 (fun e f => es_name e = es_name f /\ es_ids e = es_ids f /\ close_data (es_data e) (es_data f))
    (a_elsets a) (a_elsets b).
(** what the code [z] says about the first difference; the things compared before it agree *)
Definition before1 (a b : asoup) : Prop := True.
Definition before2 (a b : asoup) : Prop := length (a_verts a) = length (a_verts b).
Definition before3 (a b : asoup) : Prop := close_verts a b.
Definition before4 (a b : asoup) : Prop := before3 a b /\ map fst (a_elems a) = map fst (a_elems b).
Definition before5 (a b : asoup) : Prop :=
  before4 a b /\ map (fun e => length (snd e)) (a_elems a) = map (fun e => length (snd e)) (a_elems b).
Definition before6 (a b : asoup) : Prop := before3 a b /\ a_elems a = a_elems b.
Definition before7 (a b : asoup) : Prop := before6 a b /\ map es_name (a_elsets a) = map es_name (a_elsets b).
Definition before8 (a b : asoup) : Prop :=
  before7 a b /\ map (fun e => length (es_ids e)) (a_elsets a) = map (fun e => length (es_ids e)) (a_elsets b).
Definition before10 (a b : asoup) : Prop := before7 a b /\ map es_ids (a_elsets a) = map es_ids (a_elsets b).
Definition data_before (i : nat) (a b : asoup) : Prop :=
  Forall2 close_data (firstn i (map es_data (a_elsets a))) (firstn i (map es_data (a_elsets b))).
Definition first_difference (a b : asoup) (z : Z) : Prop :=
  match z with
  | 0%Z => agree a b
  | 1%Z => before1 a b /\ length (a_verts a) <> length (a_verts b)
  | 2%Z => before2 a b /\ ~ close_verts a b
  | 3%Z => before3 a b /\ map fst (a_elems a) <> map fst (a_elems b)
  | 4%Z => before4 a b /\ map (fun e => length (snd e)) (a_elems a) <> map (fun e => length (snd e)) (a_elems b)
  | 5%Z => before5 a b /\ map snd (a_elems a) <> map snd (a_elems b)
  | 6%Z => before6 a b /\ map es_name (a_elsets a) <> map es_name (a_elsets b)
  | 7%Z => before7 a b /\ map (fun e => length (es_ids e)) (a_elsets a) <> map (fun e => length (es_ids e)) (a_elsets b)
  | 8%Z => before8 a b /\ map es_ids (a_elsets a) <> map es_ids (a_elsets b)
  | 10%Z => before10 a b /\ exists i e f, nth_error (a_elsets a) i = Some e /\ nth_error (a_elsets b) i = Some f /\
              data_before i a b /\ length (es_data e) <> length (es_data f)
  | 11%Z => before10 a b /\ exists i e f, nth_error (a_elsets a) i = Some e /\ nth_error (a_elsets b) i = Some f /\
              data_before i a b /\ length (es_data e) = length (es_data f) /\ ~ close_data (es_data e) (es_data f)
  | _ => False
  end.
End Compare.
End Spec.
Arguments elset F : clear implicits.
Arguments asoup P F : clear implicits.

(** the contract of std::sort *)
Definition sort_contract (stdsort : forall A : Type, (A -> A -> bool) -> list A -> list A) : Prop :=
  forall A cmp (l : list A), strict_weak_order_on cmp (fun x => In x l) -> sorts cmp l (stdsort A cmp l).
