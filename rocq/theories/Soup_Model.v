(** Model of PolytopeSoup: include/um2/mesh/polytope_soup.hpp and src/mesh/polytope_soup.cpp
    (the file readers and writers are in other files).

    Points and data values are of arbitrary types [P] and [F]; names are the texts of Strings.
    Offsets and sizes are [nat]: that they stay below 2^31 is not modelled (see Vector_Model for the
    overflow of a Vector's size).  Element and vertex ids are [Z], as the caller may pass any Int.
    The copies and resizes of whole ranges are modelled by list operations that check the range.
    The ASSERTs have no effect in a release build. *)
From Coq Require Import List Arith ZArith Bool.
From Verif Require Import Base Loops Sort_Model StringView_Model Elem_Model.
Import ListNotations.

Notation name := (list Z) (only parsing).
(** String's operator== and operator< (StringView_Model) *)
Definition name_eqb (a b : name) : bool := match str_eq a b with Ret r => r | _ => false end.
Definition name_ltb (a b : name) : bool := match str_lt a b with Ret r => r | _ => false end.

(** [l[a], l[b]): um2::copy(l + a, l + b, ...) or the equivalent loop; outside of the array it is
    undefined behaviour *)
Definition range {A} (l : list A) (a b : nat) : outcome (list A) :=
  if (a <=? b) && (b <=? length l) then Ret (firstn (b - a) (skipn a l)) else Ub.
(** um2::copy(src.begin(), src.end(), l + at) *)
Definition blit {A} (l : list A) (at_ : nat) (src : list A) : outcome (list A) :=
  if at_ + length src <=? length l
  then Ret (firstn at_ l ++ src ++ skipn (at_ + length src) l) else Ub.
(** Vector::resize: kept elements, then unspecified ones (here [d]) *)
Definition resized {A} (l : list A) (n : nat) (d : A) : list A :=
  firstn n l ++ repeat d (n - length l).

Section Soup.
Context {P F : Type}.

(** polytope_soup.hpp:30-41 *)
Record soup := mkSoup {
  verts : list P;
  etypes : list vtk;
  eoffs : list nat;
  econn : list Z;
  snames : list name;
  soffs : list nat;
  sids : list Z;
  sdata : list (list F)
}.
Definition empty_soup : soup := mkSoup [] [] [] [] [] [] [] [].

(** polytope_soup.hpp:249-254 *)
Definition getVertex (s : soup) (i : nat) : outcome P := rd (verts s) i.

(** polytope_soup.cpp:52-64 *)
Definition getElement (s : soup) (i : nat) : outcome (vtk * list Z) :=
  let* t := rd (etypes s) i in
  let* istart := rd (eoffs s) i in
  let* iend := rd (eoffs s) (S i) in
  let* conn := range (econn s) istart iend in
  Ret (t, conn).

(** polytope_soup.cpp:66-80; [data] is the caller's vector, left alone when the elset has no data *)
Definition getElset (s : soup) (i : nat) (data : list F) : outcome (name * list Z * list F) :=
  let* n := rd (snames s) i in
  let* istart := rd (soffs s) i in
  let* iend := rd (soffs s) (S i) in
  let* ids := range (sids s) istart iend in
  let* d := rd (sdata s) i in
  Ret (n, ids, match d with [] => data | _ => d end).

(** the loop over the names in polytope_soup.cpp:85-98, 141-146, 449-455: first index of a name *)
Fixpoint find_name (l : list name) (n : name) (i : nat) : option nat :=
  match l with
  | [] => None
  | x :: l' => if name_eqb x n then Some i else find_name l' n (S i)
  end.
(** polytope_soup.cpp:82-100: [None] is the warning that there is no such elset (outputs unchanged) *)
Definition getElsetByName (s : soup) (n : name) (data : list F) : outcome (option (list Z * list F)) :=
  match find_name (snames s) n 0 with
  | None => Ret None
  | Some i => let* r := getElset s i data in Ret (Some (snd (fst r), snd r))
  end.

(** polytope_soup.cpp:106-118 *)
Definition addVertex (s : soup) (p : P) : soup * Z :=
  let v := verts s ++ [p] in
  (mkSoup v (etypes s) (eoffs s) (econn s) (snames s) (soffs s) (sids s) (sdata s),
   (Z.of_nat (length v) - 1)%Z).

(** the offset vector gets a leading 0 when it is empty, then back() + n *)
Definition push_offset (offs : list nat) (n : nat) : outcome (list nat) :=
  let offs := match offs with [] => [0] | _ => offs end in
  let* b := rd offs (length offs - 1) in
  Ret (offs ++ [b + n]).

(** polytope_soup.cpp:120-133 *)
Definition addElement (s : soup) (t : vtk) (conn : list Z) : outcome (soup * Z) :=
  let types := etypes s ++ [t] in
  let* offs := push_offset (eoffs s) (length conn) in
  Ret (mkSoup (verts s) types offs (econn s ++ conn) (snames s) (soffs s) (sids s) (sdata s),
       (Z.of_nat (length types) - 1)%Z).

(** polytope_soup.cpp:135-177; the second component is the value returned, the third tells whether
    an error was logged (with exit_on_error the process ends there) *)
Definition addElset (s : soup) (n : name) (ids : list Z) (data : list F) : soup * Z * bool :=
  match find_name (snames s) n 0 with
  | Some _ => (s, (-1)%Z, true)
  | None =>
      let num_ids := length ids in
      if num_ids =? 0 then (s, (-1)%Z, true)
      else if negb (length data =? 0) && negb (length data =? num_ids) then (s, (-1)%Z, true)
      else
        let names := snames s ++ [n] in
        let offs := match soffs s with [] => [0] | o => o end in
        let old_num_ids := length (sids s) in
        let new_num_ids := old_num_ids + num_ids in
        (mkSoup (verts s) (etypes s) (eoffs s) (econn s) names (offs ++ [new_num_ids])
           (sids s ++ ids) (sdata s ++ [data]),
         (Z.of_nat (length names) - 1)%Z, false)
  end.

(** polytope_soup.hpp:292-298; [padd] is Point3F's operator+= *)
Definition translate (padd : P -> P -> P) (v : P) (s : soup) : soup :=
  mkSoup (map (fun p => padd p v) (verts s)) (etypes s) (eoffs s) (econn s) (snames s) (soffs s)
    (sids s) (sdata s).

(** std::sort, see Sort_Model: any function that meets its contract (Soup_Spec.sort_contract) *)
Variable stdsort : forall A : Type, (A -> A -> bool) -> list A -> list A.

(** pair.hpp:61-66, operator< of Pair<String, Int> *)
Definition pair_ltb (a b : name * nat) : bool :=
  name_ltb (fst a) (fst b) || (negb (name_ltb (fst b) (fst a)) && (snd a <? snd b)).

(** The loop state of sortElsets: _elset_names, elset_offsets, elset_ids, elset_data, the
    (partly moved-from) _elset_data, offset *)
Record sstate := mkSt {
  st_names : list name; st_offs : list nat; st_ids : list Z; st_data : list (list F);
  st_old : list (list F); st_offset : nat }.
(** polytope_soup.cpp:220-247 *)
Definition sort_step (s : soup) (pairs : list (name * nat)) (i : nat) (st : sstate) : outcome sstate :=
  let* ni := rd pairs i in
  let '(n, iold) := ni in
  let* names := wr (st_names st) i n in
  let* a := rd (soffs s) iold in
  let* b := rd (soffs s) (S iold) in
  let len := b - a in
  let* offs := wr (st_offs st) (S i) (st_offset st + len) in
  let* src := range (sids s) a b in
  let* start := rd offs i in
  let* ids := blit (st_ids st) start src in
  let* stop := rd offs (S i) in
  let* seg := range ids start stop in
  let* perm := sortPermutation (stdsort nat) Z.ltb seg (repeat 0 len) in
  let* seg := applyPermutation seg perm in
  let* ids := blit ids start seg in
  let* d := rd (st_old st) iold in
  let* old := wr (st_old st) iold [] in
  let* d := match d with [] => Ret d | _ => applyPermutation d perm end in
  let* data := wr (st_data st) i d in
  Ret (mkSt names offs ids data old (st_offset st + len)).
(** polytope_soup.cpp:203-254 *)
Definition sortElsets (s : soup) : outcome soup :=
  let num_elsets := length (snames s) in
  let* pairs := mapo (fun i => let* n := rd (snames s) i in Ret (n, i)) (seq 0 num_elsets) in
  let pairs := stdsort _ pair_ltb pairs in
  let* offs := wr (repeat 0 (length (soffs s))) 0 0 in
  let* st := for_ num_elsets 0 (sort_step s pairs)
     (mkSt (snames s) offs (repeat 0%Z (length (sids s))) (repeat [] (length (sdata s))) (sdata s) 0) in
  Ret (mkSoup (verts s) (etypes s) (eoffs s) (econn s) (st_names st) (st_offs st) (st_ids st) (st_data st)).

(** polytope_soup.cpp:291-306: does a name occur in this soup's names? *)
Fixpoint name_exists (l : list name) (n : name) : bool :=
  match l with
  | [] => false
  | x :: l' => if name_eqb n x then true else name_exists l' n
  end.
Definition merged_names (this other : list name) : list name :=
  stdsort _ name_ltb
    (fold_left (fun acc n => if name_exists this n then acc else acc ++ [n]) other this).

(** one of the two loops of polytope_soup.cpp:322-350 for the name [n]: state = (num_elements, ids, data);
    [shift] is added to the ids; [assign] tells whether the data replace the previous (this soup) or are
    appended (other soup) *)
Definition collect (s : soup) (shift : Z) (assign : bool) (n : name) (j : nat)
  (st : nat * list Z * list F) : outcome (nat * list Z * list F) :=
  let '(num, ids, data) := st in
  let* nj := rd (snames s) j in
  if name_eqb nj n then
    let* a := rd (soffs s) j in
    let* b := rd (soffs s) (S j) in
    let* new := range (sids s) a b in
    let* d := rd (sdata s) j in
    let data := match d with [] => data | _ => if assign then d else data ++ d end in
    Ret (num + (b - a), ids ++ map (fun id => id + shift)%Z new, data)
  else Ret st.
(** polytope_soup.cpp:316-356 *)
Definition merge_elset (this other : soup) (shift : Z) (names : list name) (i : nat)
  (st : list nat * list Z * list (list F)) : outcome (list nat * list Z * list (list F)) :=
  let '(offs, ids, data) := st in
  let* n := rd names i in
  let* r := for_ (length (snames this)) 0 (collect this 0 true n) (0, ids, []) in
  let* r := for_ (length (snames other)) 0 (collect other shift false n) r in
  let '(num, ids, d) := r in
  let* o := rd offs i in
  let* offs := wr offs (S i) (o + num) in
  Ret (offs, ids, data ++ [d]).

(** polytope_soup.cpp:256-366; [other] is another object than [this] *)
Definition append_soup (this other : soup) : outcome soup :=
  let n1 := length (etypes this) in
  let n2 := length (etypes other) in
  let v := verts this ++ verts other in
  let t := etypes this ++ etypes other in
  let last_offset := match eoffs this with [] => 0 | o => last o 0 end in
  let* offs := for_ (n2 + 1) 0 (fun i offs =>
      let* o := rd (eoffs other) i in wr offs (n1 + i) (o + last_offset))
    (resized (eoffs this) (n1 + n2 + 1) 0) in
  let conn := econn this ++ map (fun id => id + Z.of_nat (length (verts this)))%Z (econn other) in
  match snames other with
  | [] => Ret (mkSoup v t offs conn (snames this) (soffs this) (sids this) (sdata this))
  | _ =>
      let names := merged_names (snames this) (snames other) in
      let* soffs0 := wr (repeat 0 (length names + 1)) 0 0 in
      let* r := for_ (length names) 0 (merge_elset this other (Z.of_nat n1) names) (soffs0, [], []) in
      let '(so, ids, data) := r in
      Ret (mkSoup v t offs conn names so ids data)
  end.

(** polytope_soup.cpp:260-271 when [other] is the object itself: the numbers of vertices and of elements are
    read before the resizes, and the iterators of [other] after them.  [d] and [e] are what the resizes leave
    in the new places.  The rest of the call is not modelled: it is reached only by a soup without vertices. *)
Definition append_self_start (d : P) (e : vtk) (this : soup) : outcome (list P * list vtk) :=
  let this_num_verts := length (verts this) in
  let other_num_verts := length (verts this) in
  let v := resized (verts this) (this_num_verts + other_num_verts) d in
  let* v := blit v this_num_verts v in
  let this_num_elems := length (etypes this) in
  let other_num_elems := length (etypes this) in
  let t := resized (etypes this) (this_num_elems + other_num_elems) e in
  let* t := blit t this_num_elems t in
  Ret (v, t).

(** ** compare (polytope_soup.cpp:372-435) *)
(** Vector's operator== (C03), for element comparison [eqb] *)
Fixpoint vec_eqb {A} (eqb : A -> A -> bool) (l m : list A) : bool :=
  match l, m with
  | [], [] => true
  | a :: l', b :: m' => if eqb a b then vec_eqb eqb l' m' else false
  | _, _ => false
  end.
Fixpoint all2 {A} (close : A -> A -> bool) (l m : list A) : outcome bool :=
  match l, m with
  | [], _ => Ret true
  | a :: l', b :: m' => if close a b then all2 close l' m' else Ret false
  | _ :: _, [] => Ub
  end.
(** polytope_soup.cpp:420-433 *)
Fixpoint compare_data (dclose : F -> F -> bool) (l m : list (list F)) : outcome Z :=
  match l, m with
  | [], _ => Ret 0%Z
  | a :: l', b :: m' =>
      if negb (length a =? length b) then Ret 10%Z
      else let* ok := all2 dclose a b in
           if ok then compare_data dclose l' m' else Ret 11%Z
  | _ :: _, [] => Ub
  end.
(** [vclose] is Point3F::isApprox, [dclose] is "not abs(x - y) > epsDistance" *)
Definition compare (vclose : P -> P -> bool) (dclose : F -> F -> bool) (s t : soup) : outcome Z :=
  if negb (length (verts s) =? length (verts t)) then Ret 1%Z
  else
    let* ok := all2 vclose (verts s) (verts t) in
    if negb ok then Ret 2%Z
    else if negb (vec_eqb vtk_eqb (etypes s) (etypes t)) then Ret 3%Z
    else if negb (vec_eqb Nat.eqb (eoffs s) (eoffs t)) then Ret 4%Z
    else if negb (vec_eqb Z.eqb (econn s) (econn t)) then Ret 5%Z
    else if negb (vec_eqb name_eqb (snames s) (snames t)) then Ret 6%Z
    else if negb (vec_eqb Nat.eqb (soffs s) (soffs t)) then Ret 7%Z
    else if negb (vec_eqb Z.eqb (sids s) (sids t)) then Ret 8%Z
    else if negb (length (sdata s) =? length (sdata t)) then Ret 9%Z
    else compare_data dclose (sdata s) (sdata t).

(** ** getSubset (polytope_soup.cpp:441-613) *)
(** um2::is_sorted *)
Fixpoint is_sorted (l : list Z) : bool :=
  match l with
  | a :: ((b :: _) as l') => if (b <? a)%Z then false else is_sorted l'
  | _ => true
  end.
(** std::unique on a copy: the range [begin, last) *)
Fixpoint unique (l : list Z) : list Z :=
  match l with
  | a :: ((b :: _) as l') => if (a =? b)%Z then unique l' else a :: unique l'
  | _ => l
  end.
(** std::lower_bound, as the index of the first element that is not less (for a sorted range) *)
Fixpoint lower_bound (l : list Z) (v : Z) : nat :=
  match l with
  | [] => 0
  | a :: l' => if (a <? v)%Z then S (lower_bound l' v) else 0
  end.
(** std::set_intersection *)
Fixpoint set_intersection (l : list Z) : list Z -> list Z :=
  match l with
  | [] => fun _ => []
  | a :: l' =>
      fix inner (m : list Z) : list Z :=
        match m with
        | [] => []
        | b :: m' =>
            if (a <? b)%Z then set_intersection l' m
            else if (b <? a)%Z then inner m'
            else a :: set_intersection l' m'
        end
  end.
(** connectivity of element [e]: polytope_soup.cpp:501-512 and 539-545 *)
Definition elem_conn (s : soup) (e : Z) : outcome (list Z) :=
  let* a := rdz (eoffs s) e in
  let* b := rdz (eoffs s) (e + 1) in
  range (econn s) a b.
(** polytope_soup.cpp:535-556 *)
Definition subset_element (s : soup) (uverts : list Z) (e : Z) (sub : soup) : outcome soup :=
  let* t := rdz (etypes s) e in
  let* c := elem_conn s e in
  let conn := map (fun v => Z.of_nat (lower_bound uverts v)) c in
  let* r := addElement sub t conn in
  Ret (fst r).
(** polytope_soup.cpp:570-611; the bool tells whether addElset logged an error *)
Definition subset_elset (s : soup) (elset_index : nat) (element_ids : list Z) (i : nat)
  (st : soup * bool) : outcome (soup * bool) :=
  let '(sub, err) := st in
  if i =? elset_index then Ret st else
  let* a := rd (soffs s) i in
  let* b := rd (soffs s) (S i) in
  let* ids_i := range (sids s) a b in
  let inter := set_intersection element_ids ids_i in
  match inter with
  | [] => Ret st
  | _ =>
      let* n := rd (snames s) i in
      let ids := map (fun e => Z.of_nat (lower_bound element_ids e)) inter in
      let* d := rd (sdata s) i in
      match d with
      | [] => let '(sub, _, e) := addElset sub n ids [] in Ret (sub, err || e)
      | _ =>
          let* data := mapo (fun e => rd d (lower_bound ids_i e)) inter in
          let '(sub, _, e) := addElset sub n ids data in Ret (sub, err || e)
      end
  end.
(** polytope_soup.cpp:441-613; the bool tells whether an error was logged.  The reservations
    (483-500, 524-533) are not modelled. *)
Definition getSubset (s : soup) (n : name) (sub : soup) : outcome (soup * bool) :=
  match find_name (snames s) n 0 with
  | None => Ret (sub, true)
  | Some k =>
      let* a := rd (soffs s) k in
      let* b := rd (soffs s) (S k) in
      let* element_ids := range (sids s) a b in
      if negb (is_sorted element_ids) then Ret (sub, true) else
      let* conns := mapo (elem_conn s) element_ids in
      let vertex_ids := stdsort _ Z.ltb (concat conns) in
      let uverts := unique vertex_ids in
      let* sub := for_ (length uverts) 0 (fun i sub =>
         let* v := rd uverts i in
         let* p := rdz (verts s) v in
         Ret (fst (addVertex sub p))) sub in
      let* sub := for_ (length element_ids) 0 (fun i sub =>
         let* e := rd element_ids i in subset_element s uverts e sub) sub in
      for_ (length (snames s)) 0 (subset_elset s k element_ids) (sub, false)
  end.
End Soup.
Arguments soup P F : clear implicits.

(** ** Building histories *)
Inductive op {P F : Type} :=
| AddVertex (p : P)
| AddElement (t : vtk) (conn : list Z)
| AddElset (n : list Z) (ids : list Z) (data : list F)
| Translate (v : P)
| Reserve.                (** reserveMoreElements, reserveMoreVertices (polytope_soup.cpp:179-201) *)
Arguments op P F : clear implicits.
Definition step {P F} (padd : P -> P -> P) (s : soup P F) (o : op P F) : outcome (soup P F) :=
  match o with
  | AddVertex p => Ret (fst (addVertex s p))
  | AddElement t conn => let* r := addElement s t conn in Ret (fst r)
  | AddElset n ids data => Ret (fst (fst (addElset s n ids data)))
  | Translate v => Ret (translate padd v s)
  | Reserve => Ret s
  end.
Fixpoint run {P F} (padd : P -> P -> P) (s : soup P F) (os : list (op P F)) : outcome (soup P F) :=
  match os with
  | [] => Ret s
  | o :: os' => let* s' := step padd s o in run padd s' os'
  end.
