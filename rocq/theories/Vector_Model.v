(** Model of include/um2/stdlib/vector.hpp (um2::Vector<T>) over an explicit heap.

    - An element type is given by its values [A], its default value [dflt]
      (construct_at(p) value-initialises, memory/construct_at), whether it is
      trivially movable/destructible ([triv], so that swapBuffers uses memcpy) and
      the value [moved a] a move leaves behind in the source ([moved a = a] is
      required of trivial types in the theorems).
    - A heap block is a list of cells; a cell is raw storage or holds a live object.
      Constructing over a live object, destroying or reading raw storage,
      touching a freed block or an index outside of the block is [Ub]; freeing a
      block that still holds live objects (a leak of objects) is [Ub] too.
    - A Vector is its three pointers: _begin (a block or null), and _end, _end_cap
      as distances from _begin.
    - ::operator new is assumed to succeed; memcpy/memmove with a null pointer and
      length 0 is taken to be harmless. *)
From Coq Require Import List Arith ZArith Bool.
From Verif Require Import Base.
Import ListNotations.

Inductive cell (A : Type) := Raw | Live (a : A).
Arguments Raw {A}.
Arguments Live {A} a.

Definition heap (A : Type) := list (option (list (cell A))).

Record vec := mkVec { begin : option nat; size : nat; cap : nat }.
(** vector.hpp: default constructor, the three pointers are null *)
Definition null_vec : vec := mkVec None 0 0.

(** INT32_MAX (cmake/config.hpp.in:152-157) *)
Definition intMax : Z := 2147483647.
(** Int arithmetic: a result above INT32_MAX is signed overflow *)
Definition chk (n : nat) : outcome nat :=
  if (Z.of_nat n <=? intMax)%Z then Ret n else Ub.

Section Vector.
  Context {A : Type}.
  Variable dflt : A.
  Variable triv : bool.
  Variable moved : A -> A.

  (** ** Memory *)
  Definition blk (h : heap A) (p : option nat) : outcome (nat * list (cell A)) :=
    match p with
    | None => Ub
    | Some b => let* s := rd h b in
                match s with Some c => Ret (b, c) | None => Ub end
    end.
  Definition load (h : heap A) (p : option nat) (i : nat) : outcome A :=
    let* bc := blk h p in
    let '(_, c) := bc in
    let* x := rd c i in
    match x with Live a => Ret a | Raw => Ub end.
  (** memory/construct_at.hpp: placement new on raw storage *)
  Definition construct (h : heap A) (p : option nat) (i : nat) (a : A) : outcome (heap A) :=
    let* bc := blk h p in
    let '(b, c) := bc in
    let* x := rd c i in
    match x with
    | Raw => let* c' := wr c i (Live a) in wr h b (Some c')
    | Live _ => Ub
    end.
  (** assignment to a live object *)
  Definition store (h : heap A) (p : option nat) (i : nat) (a : A) : outcome (heap A) :=
    let* bc := blk h p in
    let '(b, c) := bc in
    let* x := rd c i in
    match x with
    | Live _ => let* c' := wr c i (Live a) in wr h b (Some c')
    | Raw => Ub
    end.
  (** destroy_at *)
  Definition destroy (h : heap A) (p : option nat) (i : nat) : outcome (heap A) :=
    let* bc := blk h p in
    let '(b, c) := bc in
    let* x := rd c i in
    match x with
    | Live _ => let* c' := wr c i Raw in wr h b (Some c')
    | Raw => Ub
    end.
  Definition is_raw (x : cell A) : bool := match x with Raw => true | Live _ => false end.
  (** ::operator delete *)
  Definition free (h : heap A) (p : option nat) : outcome (heap A) :=
    let* bc := blk h p in
    let '(b, c) := bc in
    if forallb is_raw c then wr h b None else Ub.

  (** ** Private members *)

  (** vector.hpp:276-288; the ASSERTs are compiled out in release builds *)
  Definition allocate (h : heap A) (n : nat) : heap A * vec :=
    (h ++ [Some (repeat Raw n)], mkVec (Some (length h)) 0 n).

  (** vector.hpp:290-309 (n copies of one value; the default value for the first
      overload) *)
  Fixpoint constructAtEnd (n : nat) (h : heap A) (v : vec) (a : A) : outcome (heap A * vec) :=
    match n with
    | O => Ret (h, v)
    | S n' =>
        let* h' := construct h (begin v) (size v) a in
        constructAtEnd n' h' (mkVec (begin v) (S (size v)) (cap v)) a
    end.

  (** Where a range of values is read from: values outside of the heap (an
      initializer list, a C array) or the elements [i, i+n) of a block. *)
  Inductive range := Ext (l : list A) | Blk (p : option nat) (i n : nat).
  Definition range_len (r : range) : nat :=
    match r with Ext l => length l | Blk _ _ n => n end.
  (** *first *)
  Definition range_head (h : heap A) (r : range) : outcome A :=
    match r with
    | Ext l => rd l 0
    | Blk p i _ => load h p i
    end.
  (** ++first *)
  Definition range_tail (r : range) : range :=
    match r with
    | Ext l => Ext (tl l)
    | Blk p i n => Blk p (S i) (n - 1)
    end.
  Definition range_take (k : nat) (r : range) : range :=   (* [first, first + k) *)
    match r with
    | Ext l => Ext (firstn k l)
    | Blk p i n => Blk p i (min k n)
    end.
  Fixpoint range_skip (k : nat) (r : range) : range :=   (* [first + k, last) *)
    match k with O => r | S k' => range_skip k' (range_tail r) end.

  (** vector.hpp:311-328; [n] is the number of elements left in the range *)
  Fixpoint constructAtEndRange (n : nat) (h : heap A) (v : vec) (r : range)
    : outcome (heap A * vec) :=
    match n with
    | O => Ret (h, v)
    | S n' =>
        let* a := range_head h r in
        let* h' := construct h (begin v) (size v) a in
        constructAtEndRange n' h' (mkVec (begin v) (S (size v)) (cap v)) (range_tail r)
    end.

  (** vector.hpp:345-355: [n] objects are destroyed from the end *)
  Fixpoint destruct_loop (n : nat) (h : heap A) (p : option nat) (soon : nat)
    : outcome (heap A) :=
    match n with
    | O => Ret h
    | S n' => let* h' := destroy h p (soon - 1) in destruct_loop n' h' p (soon - 1)
    end.
  (** [new_size] is new_last - _begin; if it is behind _end the loop runs away *)
  Definition destructAtEnd (h : heap A) (v : vec) (new_size : nat) : outcome (heap A * vec) :=
    if size v <? new_size then Ub
    else
      let* h' := destruct_loop (size v - new_size) h (begin v) (size v) in
      Ret (h', mkVec (begin v) new_size (cap v)).

  (** vector.hpp:756-761 *)
  Definition clear (h : heap A) (v : vec) : outcome (heap A * vec) := destructAtEnd h v 0.

  (** vector.hpp:331-343 *)
  Definition deallocate (h : heap A) (v : vec) : outcome (heap A * vec) :=
    match begin v with
    | None => Ret (h, v)
    | Some _ =>
        let* hv := clear h v in
        let '(h', v') := hv in
        let* h'' := free h' (begin v') in
        Ret (h'', null_vec)
    end.

  (** vector.hpp:587-594: destructor *)
  Definition destructor (h : heap A) (v : vec) : outcome (heap A) :=
    match begin v with
    | None => Ret h
    | Some _ =>
        let* hv := clear h v in
        let '(h', v') := hv in
        free h' (begin v')
    end.

  (** vector.hpp:385-392: max(2 * capacity(), new_size) *)
  Definition recommend (v : vec) (new_size : nat) : outcome nat :=
    let* c2 := chk (2 * cap v) in
    Ret (if c2 <? new_size then new_size else c2).

  (** vector.hpp:411-418: the objects [i, i+n) of [p] are moved to the same places
      in [q]; memcpy leaves the source as it was *)
  Fixpoint move_loop (n : nat) (h : heap A) (p q : option nat) (i : nat) : outcome (heap A) :=
    match n with
    | O => Ret h
    | S n' =>
        let* a := load h p i in
        let* h1 := construct h q i a in
        let* h2 := if triv then Ret h1 else store h1 p i (moved a) in
        move_loop n' h2 p q (S i)
    end.

  (** vector.hpp:394-428. Returns this and v. *)
  Definition swapBuffers (h : heap A) (this v : vec) : outcome (heap A * vec * vec) :=
    let* h' := move_loop (size this) h (begin this) (begin v) 0 in
    (* swap the pointers, then _end = _begin + (v._end - v._begin) *)
    let this' := mkVec (begin v) (size this) (cap v) in
    let v' := this in
    Ret (h', this', v').

  (** The common prefix of the slow paths: Vector<T> temp; temp.allocate(n);
      swapBuffers(temp).  Returns the heap, *this and temp. *)
  Definition grow (h : heap A) (v : vec) (n : nat) : outcome (heap A * vec * vec) :=
    let '(h1, temp) := allocate h n in
    swapBuffers h1 v temp.

  (** Where the pushed value lives: elsewhere, or it is element [i] of block [p]
      (a reference into a vector, possibly this one). *)
  Inductive source := SVal (a : A) | SRef (p : option nat) (i : nat).
  Definition read_src (h : heap A) (s : source) : outcome A :=
    match s with SVal a => Ret a | SRef p i => load h p i end.

  (** vector.hpp:357-383 (emplaceBackSlowPath and pushBackSlowPath are the same text):
      the value is constructed after the buffers were swapped; temp, which owns the
      old buffer, is destroyed on return. *)
  Definition pushBackSlowPath (h : heap A) (v : vec) (s : source) : outcome (heap A * vec) :=
    let* n1 := chk (size v + 1) in
    let* n := recommend v n1 in
    let* r := grow h v n in
    let '(h1, this, temp) := r in
    let* a := read_src h1 s in
    let* h2 := construct h1 (begin this) (size this) a in
    let this' := mkVec (begin this) (S (size this)) (cap this) in
    let* h3 := destructor h2 temp in
    Ret (h3, this').

  (** vector.hpp:763-775, 801-812 (push_back, emplace_back) *)
  Definition push_back (h : heap A) (v : vec) (s : source) : outcome (heap A * vec) :=
    if size v <? cap v then
      let* a := read_src h s in
      let* h' := construct h (begin v) (size v) a in
      Ret (h', mkVec (begin v) (S (size v)) (cap v))
    else pushBackSlowPath h v s.

  (** vector.hpp:430-441 *)
  Definition append (h : heap A) (v : vec) (n : nat) : outcome (heap A * vec) :=
    if cap v - size v <? n then
      let* sz := chk (size v + n) in
      let* c := recommend v sz in
      let* r := grow h v c in
      let '(h1, this, temp) := r in
      let* h2 := destructor h1 temp in
      constructAtEnd n h2 this dflt
    else constructAtEnd n h v dflt.

  (** ** Constructors (vector.hpp:447-518); the object starts with null pointers *)
  Definition ctor_n (h : heap A) (n : nat) : outcome (heap A * vec) :=
    let '(h1, v) := allocate h n in constructAtEnd n h1 v dflt.
  Definition ctor_fill (h : heap A) (n : nat) (a : A) : outcome (heap A * vec) :=
    let '(h1, v) := allocate h n in constructAtEnd n h1 v a.

  (** um2::copy (algorithm/copy.hpp): [n] elements of [r] assigned to
      [p][i], [p][i+1], ... *)
  Fixpoint copy_loop (n : nat) (h : heap A) (r : range) (p : option nat) (i : nat)
    : outcome (heap A) :=
    match n with
    | O => Ret h
    | S n' =>
        let* a := range_head h r in
        let* h' := store h p i a in
        copy_loop n' h' (range_tail r) p (S i)
    end.
  (** vector.hpp:469-480, 493-518: copy constructor, constructor from a pointer
      range, from an initializer list (the empty list is allowed here) *)
  Definition ctor_range (h : heap A) (r : range) : outcome (heap A * vec) :=
    let n := range_len r in
    if n =? 0 then Ret (h, null_vec)
    else
      let '(h1, v) := allocate h n in
      let* hv := constructAtEnd n h1 v dflt in
      let '(h2, v2) := hv in
      let* h3 := copy_loop n h2 r (begin v2) 0 in
      Ret (h3, v2).

  (** vector.hpp:555-581 *)
  Definition assign (h : heap A) (v : vec) (r : range) : outcome (heap A * vec) :=
    let new_size := range_len r in
    if new_size <=? cap v then
      if size v <? new_size then
        let* h1 := copy_loop (size v) h (range_take (size v) r) (begin v) 0 in
        constructAtEndRange (new_size - size v) h1 v (range_skip (size v) r)
      else
        let* h1 := copy_loop new_size h r (begin v) 0 in
        destructAtEnd h1 v new_size
    else
      let* hv := deallocate h v in
      let '(h1, v1) := hv in
      let* c := recommend v1 new_size in
      let '(h2, v2) := allocate h1 c in
      constructAtEndRange new_size h2 v2 r.

  (** vector.hpp:736-745 *)
  Definition reserve (h : heap A) (v : vec) (n : nat) : outcome (heap A * vec) :=
    if cap v <? n then
      let* r := grow h v n in
      let '(h1, this, temp) := r in
      let* h2 := destructor h1 temp in
      Ret (h2, this)
    else Ret (h, v).

  (** vector.hpp:792-799; _end - 1 before _begin is Ub *)
  Definition pop_back (h : heap A) (v : vec) : outcome (heap A * vec) :=
    match size v with
    | O => Ub
    | S n => destructAtEnd h v n
    end.

  (** vector.hpp:815-827 *)
  Definition resize (h : heap A) (v : vec) (n : nat) : outcome (heap A * vec) :=
    let cs := size v in
    if cs <? n then append h v (n - cs)
    else if n <? cs then destructAtEnd h v n
    else Ret (h, v).

  (** vector.hpp:601-617: element read and write through operator[] *)
  Definition get (h : heap A) (v : vec) (i : nat) : outcome A := load h (begin v) i.
  Definition set (h : heap A) (v : vec) (i : nat) (a : A) : outcome (heap A) :=
    store h (begin v) i a.

  (** ** A program: vector variables in one heap *)
  Record world := mkWorld { mem : heap A; vars : list (option vec) }.

  Inductive op :=
  | New                                   (* Vector<T> x; *)
  | NewN (n : nat)                        (* Vector<T> x(n); *)
  | NewFill (n : nat) (a : A)             (* Vector<T> x(n, a); *)
  | NewList (l : list A)                  (* Vector<T> x = {...}, Vector(first, last) *)
  | NewCopy (y : nat)                     (* Vector<T> x(y); *)
  | NewMove (y : nat)                     (* Vector<T> x(move(y)); *)
  | Assign (x y : nat)                    (* x = y; *)
  | MoveAssign (x y : nat)                (* x = move(y); *)
  | AssignList (x : nat) (l : list A)     (* x = {...}; x.assign(first, last) *)
  | PushBack (x : nat) (a : A)            (* x.push_back(a); x.emplace_back(a) *)
  | PushElem (x y i : nat)                (* x.push_back(y[i]);  x = y allowed *)
  | PopBack (x : nat)
  | Resize (x n : nat)
  | Reserve (x n : nat)
  | Clear (x : nat)
  | Write (x i : nat) (a : A)             (* x[i] = a; *)
  | Delete (x : nat).                     (* end of x's lifetime *)

  Definition var (w : world) (x : nat) : outcome vec :=
    let* o := rd (vars w) x in match o with Some v => Ret v | None => Ub end.

  Definition add_var (w : world) (r : outcome (heap A * vec)) : outcome world :=
    let* hv := r in
    let '(h, v) := hv in Ret (mkWorld h (vars w ++ [Some v])).
  Definition set_var (w : world) (x : nat) (r : outcome (heap A * vec)) : outcome world :=
    let* hv := r in
    let '(h, v) := hv in
    let* vs := wr (vars w) x (Some v) in Ret (mkWorld h vs).

  Definition step (w : world) (o : op) : outcome world :=
    match o with
    | New => add_var w (Ret (mem w, null_vec))
    | NewN n => add_var w (ctor_n (mem w) n)
    | NewFill n a => add_var w (ctor_fill (mem w) n a)
    | NewList l => add_var w (ctor_range (mem w) (Ext l))
    | NewCopy y =>
        let* vy := var w y in
        add_var w (ctor_range (mem w) (Blk (begin vy) 0 (size vy)))
    | NewMove y =>                                        (* vector.hpp:482-491 *)
        let* vy := var w y in
        let* vs := wr (vars w) y (Some null_vec) in
        add_var (mkWorld (mem w) vs) (Ret (mem w, vy))
    | Assign x y =>                                       (* vector.hpp:520-528 *)
        let* vx := var w x in
        let* vy := var w y in
        if x =? y then Ret w
        else set_var w x (assign (mem w) vx (Blk (begin vy) 0 (size vy)))
    | MoveAssign x y =>                                   (* vector.hpp:530-545 *)
        let* vx := var w x in
        let* vy := var w y in
        if x =? y then Ret w
        else
          let* hv := deallocate (mem w) vx in
          let '(h, _) := hv in
          let* vs := wr (vars w) x (Some vy) in
          let* vs' := wr vs y (Some null_vec) in
          Ret (mkWorld h vs')
    | AssignList x l =>
        let* vx := var w x in set_var w x (assign (mem w) vx (Ext l))
    | PushBack x a =>
        let* vx := var w x in set_var w x (push_back (mem w) vx (SVal a))
    | PushElem x y i =>
        let* vx := var w x in
        let* vy := var w y in
        set_var w x (push_back (mem w) vx (SRef (begin vy) i))
    | PopBack x => let* vx := var w x in set_var w x (pop_back (mem w) vx)
    | Resize x n => let* vx := var w x in set_var w x (resize (mem w) vx n)
    | Reserve x n => let* vx := var w x in set_var w x (reserve (mem w) vx n)
    | Clear x => let* vx := var w x in set_var w x (clear (mem w) vx)
    | Write x i a =>
        let* vx := var w x in
        let* h := set (mem w) vx i a in Ret (mkWorld h (vars w))
    | Delete x =>
        let* vx := var w x in
        let* h := destructor (mem w) vx in
        let* vs := wr (vars w) x None in Ret (mkWorld h vs)
    end.

  Definition empty_world : world := mkWorld [] [].

  Fixpoint run (w : world) (os : list op) : outcome world :=
    match os with
    | [] => Ret w
    | o :: os' => let* w' := step w o in run w' os'
    end.

  (** ** Relational operators (vector.hpp:833-873, algorithm/equal.hpp,
      algorithm/lexicographical_compare.hpp) on the elements *)
  Variable eqb ltb : A -> A -> bool.

  (** equal(first1, last1, first2): reads as many elements of the second range *)
  Fixpoint equal_loop (l r : list A) : outcome bool :=
    match l with
    | [] => Ret true
    | a :: l' =>
        match r with
        | [] => Ub
        | b :: r' => if negb (eqb a b) then Ret false else equal_loop l' r'
        end
    end.
  Definition vec_eq (l r : list A) : outcome bool :=
    if length l =? length r then equal_loop l r else Ret false.
  Fixpoint lexicographical_compare (l r : list A) : bool :=
    match r with
    | [] => false
    | b :: r' =>
        match l with
        | [] => true
        | a :: l' =>
            if ltb a b then true
            else if ltb b a then false
            else lexicographical_compare l' r'
        end
    end.
  Definition vec_lt := lexicographical_compare.
  Definition vec_ne (l r : list A) : outcome bool := let* b := vec_eq l r in Ret (negb b).
  Definition vec_gt (l r : list A) : bool := vec_lt r l.
  Definition vec_le (l r : list A) : bool := negb (vec_lt r l).
  Definition vec_ge (l r : list A) : bool := negb (vec_lt l r).
End Vector.
