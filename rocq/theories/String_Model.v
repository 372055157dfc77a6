(** Model of include/um2/stdlib/string.hpp (um2::String) over an explicit heap, and of
    the StringView operations of include/um2/stdlib/string_view.hpp.

    - A char is its value as an integer (Z); char is signed on the supported platforms,
      operator< on char compares those values.
    - A byte of storage is [None] while it has never been written.  Reading such a
      byte, an index outside of a buffer or a freed block is [Ub].
    - The union of the short and long representations is a sum type: the short form
      holds the 23 bytes of data inside the object, the long form points to a block.
      (Writing the long members overwrites the short data and conversely.)
    - ::operator new is assumed to succeed. *)
From Coq Require Import List Arith ZArith Bool.
From Verif Require Import Base.
Import ListNotations.

Definition char := Z.
(** '\0' *)
Definition NUL : char := 0%Z.

Definition block := list (option char).
Definition heap := list (option block).

(** string.hpp:42 *)
Definition min_cap : nat := 23.

(** string.hpp:44-73; [n] is the size without the terminator; [cap] includes it *)
Inductive str :=
| Short (d : block) (n : nat)
| Long (b : nat) (n cap : nat).

(** string.hpp:603-611: the zero-initialised Rep *)
Definition empty_str : str := Short (repeat (Some NUL) min_cap) 0.

(** INT32_MAX (cmake/config.hpp.in:152-157) *)
Definition intMax : Z := 2147483647.
(** static_cast<Int> of a size: a value that does not fit is treated as an error *)
Definition toInt (n : nat) : outcome nat :=
  if (Z.of_nat n <=? intMax)%Z then Ret n else Ub.

(** ** Memory *)
Definition blk (h : heap) (b : nat) : outcome block :=
  let* s := rd h b in match s with Some c => Ret c | None => Ub end.
(** n chars from position i on *)
Fixpoint rdn (c : block) (i n : nat) : outcome (list char) :=
  match n with
  | O => Ret []
  | S n' =>
      let* x := rd c i in
      match x with
      | Some a => let* l := rdn c (S i) n' in Ret (a :: l)
      | None => Ub
      end
  end.
Fixpoint wrn (c : block) (i : nat) (l : list char) : outcome block :=
  match l with
  | [] => Ret c
  | a :: l' => let* c' := wr c i (Some a) in wrn c' (S i) l'
  end.
Definition free (h : heap) (b : nat) : outcome heap :=
  let* _ := blk h b in wr h b None.

(** Where a range of chars is read from: memory no String owns (or the object of
    another short String), this object's own short buffer, or a heap block. *)
Inductive src := Ext (l : list char) | Self (i n : nat) | Blk (b i n : nat).

Definition read (h : heap) (this : str) (s : src) : outcome (list char) :=
  match s with
  | Ext l => Ret l
  | Self i n => match this with Short d _ => rdn d i n | Long _ _ _ => Ub end
  | Blk b i n => let* c := blk h b in rdn c i n
  end.

(** The ranges [i, i+n) and [j, j+n) share a position *)
Definition touch (i j n : nat) : bool := (i <? j + n) && (j <? i + n) && (0 <? n).

(** Does the source overlap [off, off+n) of the current buffer?  um2::copy is memcpy
    (algorithm/copy.hpp), for which that is undefined behaviour. *)
Definition overlap (this : str) (off : nat) (s : src) : bool :=
  match this, s with
  | Short _ _, Self i n => touch i off n
  | Long b _ _, Blk b' i n => (b =? b') && touch i off n
  | _, _ => false
  end.

(** Write chars into the current buffer (getPointer() + off). *)
Definition put (h : heap) (this : str) (off : nat) (l : list char) : outcome (heap * str) :=
  match this with
  | Short d n => let* d' := wrn d off l in Ret (h, Short d' n)
  | Long b n cap =>
      let* c := blk h b in
      let* c' := wrn c off l in
      let* h' := wr h b (Some c') in
      Ret (h', this)
  end.
Definition copyTo (h : heap) (this : str) (off : nat) (s : src) : outcome (heap * str) :=
  if overlap this off s then Ub
  else let* l := read h this s in put h this off l.

(** ** Private members *)

(** string.hpp:482-486 *)
Definition fitsInShort (n : nat) : bool := n <? min_cap.

(** string.hpp:544-552 (setLongSize, setShortSize; the masks keep every size that fits) *)
Definition setSize (this : str) (n : nat) : str :=
  match this with Short d _ => Short d n | Long b _ cap => Long b n cap end.

(** string.hpp:839-844 *)
Definition size (this : str) : nat :=
  match this with Short _ n => n | Long _ n _ => n end.
(** string.hpp:846-850 *)
Definition capacity (this : str) : outcome nat :=
  match this with
  | Short _ _ => Ret (min_cap - 1)
  | Long _ _ cap => let* c := toInt cap in Ret (c - 1)
  end.

(** string.hpp:488-509; the object's bytes are unwritten *)
Definition init (h : heap) (s : src) (n : nat) : outcome (heap * str) :=
  let* _ := toInt (S n) in                               (* ASSERT_ASSUME(size < INT32_MAX) *)
  let '(h1, this) :=
    if fitsInShort n then (h, Short (repeat None min_cap) n)
    else (h ++ [Some (repeat None (n + 1))], Long (length h) n (n + 1)) in
  let* ht := if n =? 0 then Ret (h1, this) else copyTo h1 this 0 s in
  let '(h2, t2) := ht in
  put h2 t2 n [NUL].

(** string.hpp:374-391 *)
Definition assignShort (h : heap) (this : str) (s : src) (n : nat) : outcome (heap * str) :=
  let this1 := setSize this n in
  let* ht := copyTo h this1 0 s in
  let '(h2, t2) := ht in
  put h2 t2 n [NUL].

(** string.hpp:393-417 *)
Definition assignLong (h : heap) (this : str) (s : src) (n : nat) : outcome (heap * str) :=
  let* c := capacity this in
  if c <? n then
    let* l := read h this s in
    let h1 := h ++ [Some (repeat None (n + 1))] in
    let* ht := put h1 (Long (length h) n (n + 1)) 0 l in
    let '(h2, _) := ht in
    let* h3 := match this with Long b _ _ => free h2 b | Short _ _ => Ret h2 end in
    put h3 (Long (length h) n (n + 1)) n [NUL]
  else
    match this with
    | Short _ _ => Ub                                    (* getLongPointer() of a short string *)
    | Long _ _ _ =>
        let* ht := copyTo h this 0 s in
        let '(h2, t2) := ht in
        put h2 (setSize t2 n) n [NUL]
    end.

(** string.hpp:728-733 *)
Definition assign (h : heap) (this : str) (s : src) (n : nat) : outcome (heap * str) :=
  if fitsInShort n then assignShort h this s n else assignLong h this s n.

(** The current buffer as a source *)
Definition own_src (this : str) (i n : nat) : src :=
  match this with Short _ _ => Self i n | Long b _ _ => Blk b i n end.

(** string.hpp:554-595 *)
Definition growByAndReplace (h : heap) (this : str) (old_cap delta_cap old_sz n_copy n_del n_add : nat)
    (s : src) : outcome (heap * str) :=
  let cap := Nat.max (old_cap + delta_cap) (2 * old_cap) in
  let p := length h in
  let new := Long p old_sz (cap + 1) in
  let h0 := h ++ [Some (repeat None (cap + 1))] in
  let* l1 := read h0 this (own_src this 0 n_copy) in
  let* ht1 := put h0 new 0 l1 in
  let '(h1, _) := ht1 in
  let* l2 := read h1 this s in
  let* ht2 := put h1 new n_copy l2 in
  let '(h2, _) := ht2 in
  let sec := old_sz - n_del - n_copy in
  let* l3 := read h2 this (own_src this (n_copy + n_del) sec) in
  let* ht3 := put h2 new (n_copy + n_add) l3 in
  let '(h3, _) := ht3 in
  let* h4 :=
    if old_cap + 1 =? min_cap then Ret h3
    else match this with Long b _ _ => free h3 b | Short _ _ => Ub end in
  let sz := n_copy + n_add + sec in
  put h4 (Long p sz (cap + 1)) sz [NUL].

(** string.hpp:852-874; [n] is the number of chars in [s] *)
Definition append (h : heap) (this : str) (s : src) (n : nat) : outcome (heap * str) :=
  let* cap := capacity this in
  let* sz := toInt (size this) in
  let* n := toInt n in
  if n <=? cap - sz then
    let* ht := copyTo h this sz s in
    let '(h1, t1) := ht in
    put h1 (setSize t1 (sz + n)) (sz + n) [NUL]
  else
    growByAndReplace h this cap (n - (cap - sz)) sz sz 0 n s.

(** string.hpp:738-743 *)
Definition destructor (h : heap) (this : str) : outcome heap :=
  match this with Short _ _ => Ret h | Long b _ _ => free h b end.

(** operator[], data()[i] *)
Definition get (h : heap) (this : str) (i : nat) : outcome char :=
  let* l := read h this (own_src this i 1) in rd l 0.

(** ** A program: String variables in one heap *)
Record world := mkWorld { mem : heap; vars : list (option str) }.

Inductive op :=
| New                                    (* String x; *)
| NewText (l : list char)                (* String x("..."), String x(StringView) *)
| NewFmt (l : list char)                 (* String x(number), l is what printf prints *)
| NewCopy (y : nat)                      (* String x(y); *)
| NewMove (y : nat)                      (* String x(move(y)); *)
| NewSub (y pos count : nat)             (* String x(y, pos, count), y.substr(pos, count) *)
| NewConcat (y z : nat)                  (* String x = y + z; *)
| Assign (x y : nat)                     (* x = y; *)
| MoveAssign (x y : nat)                 (* x = move(y); *)
| AssignText (x : nat) (l : list char)   (* x.assign(sv), sv not inside a String *)
| AssignSub (x y pos n : nat)            (* x.assign(StringView(y).substr(pos, n)) *)
| AppendText (x : nat) (l : list char)   (* x += "..."; *)
| Append (x y : nat)                     (* x += y;  x = y allowed *)
| Write (x i : nat) (a : char)           (* x[i] = a; *)
| Delete (x : nat).                      (* end of x's lifetime *)

Definition var (w : world) (x : nat) : outcome str :=
  let* o := rd (vars w) x in match o with Some v => Ret v | None => Ub end.

(** data() + i of variable y (n chars), seen from an operation on variable x *)
Definition var_src (w : world) (x y : nat) (vy : str) (i n : nat) : outcome src :=
  match vy with
  | Short d _ => if x =? y then Ret (Self i n) else let* l := rdn d i n in Ret (Ext l)
  | Long b _ _ => Ret (Blk b i n)
  end.

Definition add_var (w : world) (r : outcome (heap * str)) : outcome world :=
  let* hv := r in
  let '(h, v) := hv in Ret (mkWorld h (vars w ++ [Some v])).
Definition set_var (w : world) (x : nat) (r : outcome (heap * str)) : outcome world :=
  let* hv := r in
  let '(h, v) := hv in
  let* vs := wr (vars w) x (Some v) in Ret (mkWorld h vs).

(** string.hpp:613-621: copy construction *)
Definition copy_ctor (h : heap) (vy : str) : outcome (heap * str) :=
  match vy with
  | Short _ _ => Ret (h, vy)
  | Long b n _ => init h (Blk b 0 n) n
  end.

(** string.hpp:651-692: snprintf into buf[32] keeps at most 31 chars and the
    terminator; init is given the full length *)
Definition from_fmt (h : heap) (l : list char) : outcome (heap * str) :=
  let buf := map Some (firstn 31 l ++ [NUL]) ++ repeat None (31 - length l) in
  let* s := rdn buf 0 (length l) in
  init h (Ext s) (length l).

Definition step (w : world) (o : op) : outcome world :=
  match o with
  | New => add_var w (Ret (mem w, empty_str))
  | NewText l => add_var w (init (mem w) (Ext l) (length l))
  | NewFmt l => add_var w (from_fmt (mem w) l)
  | NewCopy y => let* vy := var w y in add_var w (copy_ctor (mem w) vy)
  | NewMove y =>                                          (* string.hpp:623-632 *)
      let* vy := var w y in
      let* vs := wr (vars w) y (Some empty_str) in
      add_var (mkWorld (mem w) vs) (Ret (mem w, vy))
  | NewSub y pos count =>                                 (* string.hpp:642-651, 956-960 *)
      let* vy := var w y in
      if size vy <? pos then Ub                           (* the length would be negative *)
      else
        let n := Nat.min count (size vy - pos) in
        let* s := var_src w (length (vars w)) y vy pos n in
        add_var w (init (mem w) s n)
  | NewConcat y z =>                                      (* string.hpp:356-362 *)
      let* vy := var w y in
      let* vz := var w z in
      let* hv := copy_ctor (mem w) vy in
      let '(h, v) := hv in
      let* s := var_src w (length (vars w)) z vz 0 (size vz) in
      add_var w (append h v s (size vz))
  | Assign x y =>                                         (* string.hpp:697-704 *)
      let* vx := var w x in
      let* vy := var w y in
      if x =? y then Ret w
      else
        let* s := var_src w x y vy 0 (size vy) in
        set_var w x (assign (mem w) vx s (size vy))
  | MoveAssign x y =>                                     (* string.hpp:706-719 *)
      let* vx := var w x in
      let* vy := var w y in
      if x =? y then Ret w
      else
        let* h := destructor (mem w) vx in
        let* vs := wr (vars w) x (Some vy) in
        let* vs' := wr vs y (Some empty_str) in
        Ret (mkWorld h vs')
  | AssignText x l =>
      let* vx := var w x in set_var w x (assign (mem w) vx (Ext l) (length l))
  | AssignSub x y pos n =>
      let* vx := var w x in
      let* vy := var w y in
      let* s := var_src w x y vy pos n in
      set_var w x (assign (mem w) vx s n)
  | AppendText x l =>                                     (* string.hpp:876-880 *)
      let* vx := var w x in set_var w x (append (mem w) vx (Ext l) (length l))
  | Append x y =>                                         (* string.hpp:882-886 *)
      let* vx := var w x in
      let* vy := var w y in
      let* s := var_src w x y vy 0 (size vy) in
      set_var w x (append (mem w) vx s (size vy))
  | Write x i a =>
      let* vx := var w x in set_var w x (put (mem w) vx i [a])
  | Delete x =>
      let* vx := var w x in
      let* h := destructor (mem w) vx in
      let* vs := wr (vars w) x None in Ret (mkWorld h vs)
  end.

Definition empty_world : world := mkWorld [] [].

Fixpoint run (w : world) (os : list op) : outcome world :=
  match os with
  | [] => Ret w
  | o :: os' => let* w' := step w o in run w' os'
  end.
