(** Model of include/um2/stdlib/string_view.hpp (um2::StringView), of the comparison and
    search members of include/um2/stdlib/string.hpp and of
    include/um2/common/string_to_lattice.hpp.

    A view is a pointer and a size.  The pointer is represented by the chars of the
    underlying buffer from there on ([tail], which for a view into a String goes on to
    its terminator), so that a read behind the view is visible, and a read behind the
    buffer is [Ub].  npos is [None].  Sizes are below 2^64. *)
From Coq Require Import List Arith ZArith Bool.
From Verif Require Import Base.
Import ListNotations.

Definition char := Z.

Record sv := mkSv { tail : list char; vsize : nat }.

(** string_view.hpp:188-193: default constructed view *)
Definition null_sv : sv := mkSv [] 0.

(** data()[i] *)
Definition at_ (v : sv) (i : nat) : outcome char := rd (tail v) i.

(** string_view.hpp:320-326; a pointer past the buffer's end is Ub *)
Definition remove_prefix (v : sv) (n : nat) : outcome sv :=
  if length (tail v) <? n then Ub
  else if vsize v <? n then Ub                           (* _size would wrap around *)
  else Ret (mkSv (skipn n (tail v)) (vsize v - n)).

(** string_view.hpp:374-380 *)
Definition substr (v : sv) (pos count : nat) : outcome sv :=
  if length (tail v) <? pos then Ub else Ret (mkSv (skipn pos (tail v)) count).

(** cstring/memcmp.hpp:8-27 (the result is -1, 0 or 1; chars are signed) *)
Fixpoint memcmp (l r : list char) (n : nat) : outcome Z :=
  match n with
  | O => Ret 0%Z
  | S n' =>
      let* a := rd l 0 in
      let* b := rd r 0 in
      if (a <? b)%Z then Ret (-1)%Z
      else if (b <? a)%Z then Ret 1%Z
      else memcmp (tl l) (tl r) n'
  end.

(** string_view.hpp:331-343 *)
Definition compare (v w : sv) : outcome Z :=
  let* r := memcmp (tail v) (tail w) (Nat.min (vsize v) (vsize w)) in
  Ret (if (r =? 0)%Z then
         if vsize v =? vsize w then r
         else if vsize v <? vsize w then (-1)%Z else 1%Z
       else r).

(** string_view.hpp:345-349 *)
Definition compare_sub (v : sv) (pos count : nat) (w : sv) : outcome Z :=
  let* s := substr v pos count in compare s w.

(** string_view.hpp:351-361 *)
Definition ends_with (v w : sv) : outcome bool :=
  if vsize w <=? vsize v then
    let* r := compare_sub v (vsize v - vsize w) (vsize w) w in Ret (r =? 0)%Z
  else Ret false.
(** string_view.hpp:363-373 *)
Definition starts_with (v w : sv) : outcome bool :=
  if vsize w <=? vsize v then
    let* r := compare_sub v 0 (vsize w) w in Ret (r =? 0)%Z
  else Ret false.

(** string_view.hpp:137-180: the operators of StringView *)
Definition sv_eq (v w : sv) : outcome bool :=
  if negb (vsize v =? vsize w) then Ret false
  else let* r := compare v w in Ret (r =? 0)%Z.
Definition sv_ne (v w : sv) : outcome bool :=
  if negb (vsize v =? vsize w) then Ret true
  else let* r := compare v w in Ret (negb (r =? 0)%Z).
Definition sv_lt (v w : sv) : outcome bool := let* r := compare v w in Ret (r <? 0)%Z.
Definition sv_le (v w : sv) : outcome bool := let* r := compare v w in Ret (r <=? 0)%Z.
Definition sv_gt (v w : sv) : outcome bool := let* r := compare v w in Ret (0 <? r)%Z.
Definition sv_ge (v w : sv) : outcome bool := let* r := compare v w in Ret (0 <=? r)%Z.

(** A String (its chars [l]) as a view: string.hpp:723-726 and the self_sv of
    892-954; what follows is the terminator *)
Definition view (l : list char) : sv := mkSv (l ++ [0%Z]) (length l).

(** string.hpp:317-354: the operators of String, which go through compare *)
Definition str_eq (a b : list char) : outcome bool := let* r := compare (view a) (view b) in Ret (r =? 0)%Z.
Definition str_ne (a b : list char) : outcome bool := let* r := compare (view a) (view b) in Ret (negb (r =? 0)%Z).
Definition str_lt (a b : list char) : outcome bool := let* r := compare (view a) (view b) in Ret (r <? 0)%Z.
Definition str_le (a b : list char) : outcome bool := let* r := compare (view a) (view b) in Ret (r <=? 0)%Z.
Definition str_gt (a b : list char) : outcome bool := let* r := compare (view a) (view b) in Ret (0 <? r)%Z.
Definition str_ge (a b : list char) : outcome bool := let* r := compare (view a) (view b) in Ret (0 <=? r)%Z.

(** string.hpp:909-945: starts_with(char), ends_with(char) *)
Definition starts_with_char (a : list char) (c : char) : outcome bool :=
  if length a =? 0 then Ret false else let* x := at_ (view a) 0 in Ret (x =? c)%Z.
Definition ends_with_char (a : list char) (c : char) : outcome bool :=
  if length a =? 0 then Ret false else let* x := at_ (view a) (length a - 1) in Ret (x =? c)%Z.

(** ** Searches *)

(** The loop of string_view.hpp:383-391 / 394-402: positions i, i+1, ..., [n] of them *)
Fixpoint find_loop (p : char -> bool) (v : sv) (i n : nat) : outcome (option nat) :=
  match n with
  | O => Ret None
  | S n' =>
      let* a := at_ v i in
      if p a then Ret (Some i) else find_loop p v (S i) n'
  end.
(** string_view.hpp:382-391 *)
Definition find_first_of (v : sv) (c : char) (pos : nat) : outcome (option nat) :=
  find_loop (fun a => (a =? c)%Z) v pos (vsize v - pos).
(** string_view.hpp:393-402 *)
Definition find_first_not_of (v : sv) (c : char) (pos : nat) : outcome (option nat) :=
  find_loop (fun a => negb (a =? c)%Z) v pos (vsize v - pos).

(** string_view.hpp:404-419; [p] is the distance of the pointer from begin() *)
Fixpoint find_back (v : sv) (c : char) (p : nat) : outcome (option nat) :=
  match p with
  | O => Ret None
  | S p' =>
      let* a := at_ v p' in
      if (a =? c)%Z then Ret (Some p') else find_back v c p'
  end.
Definition find_last_of (v : sv) (c : char) (pos : nat) : outcome (option nat) :=
  find_back v c (if pos <? vsize v then S pos else vsize v).
(** string.hpp:947-954 (the position is converted to Int on the way out) *)
Definition str_find_last_of (a : list char) (c : char) (pos : nat) : outcome (option nat) :=
  find_last_of (view a) c pos.

(** string_view.hpp:421-440; [fuel] bounds the loop by the number of remaining chars *)
Fixpoint search_loop (fuel : nat) (v w : sv) (pos : nat) : outcome (option nat) :=
  if vsize w <=? vsize v then
    let* r := memcmp (tail v) (tail w) (vsize w) in
    if (r =? 0)%Z then Ret (Some pos)
    else
      match fuel with
      | O => OutOfFuel
      | S f => let* v' := remove_prefix v 1 in search_loop f v' w (S pos)
      end
  else Ret None.
Definition find_first_of_sv (v w : sv) (pos : nat) : outcome (option nat) :=
  if vsize v <? pos then Ret None
  else
    let* s := substr v pos (vsize v - pos) in
    search_loop (vsize v) s w pos.

Definition SPACE : char := 32%Z.
Definition NEWLINE : char := 10%Z.

(** string_view.hpp:459-469 *)
Definition removeLeadingSpaces (v : sv) : outcome sv :=
  let* n := find_first_not_of v SPACE 0 in
  match n with
  | Some n => remove_prefix v n
  | None => Ret null_sv
  end.

(** string_view.hpp:471-502: the token and the view after the call *)
Definition getTokenAndShrink (v : sv) (delim : char) : outcome (sv * sv) :=
  let* n := find_first_not_of v delim 0 in
  match n with
  | None => Ret (null_sv, v)
  | Some n =>
      let* m := find_first_of v delim n in
      match m with
      | None =>
          let* r := substr v n (vsize v - n) in Ret (r, null_sv)
      | Some m =>
          let* r := substr v n (m - n) in
          let* v' := remove_prefix v (m + 1) in
          Ret (r, v')
      end
  end.

(** Repeated calls until an empty token comes back (the idiom of every caller). *)
Fixpoint tokens (fuel : nat) (v : sv) (delim : char) : outcome (list (list char)) :=
  let* tv := getTokenAndShrink v delim in
  let '(t, v') := tv in
  if vsize t =? 0 then Ret []
  else
    match fuel with
    | O => OutOfFuel
    | S f => let* ts := tokens f v' delim in Ret (firstn (vsize t) (tail t) :: ts)
    end.

(** ** Numbers *)

(** isspace in the C locale *)
Definition isspace (c : char) : bool := ((c =? 32) || ((9 <=? c) && (c <=? 13)))%Z.
Definition isdigit (c : char) : bool := ((48 <=? c) && (c <=? 57))%Z.
Fixpoint skip_space (l : list char) : list char :=
  match l with
  | c :: l' => if isspace c then skip_space l' else l
  | [] => []
  end.
(** digits as far as they go; running off the buffer (no terminator) is Ub *)
Fixpoint digits (l : list char) (acc : Z) : outcome Z :=
  match l with
  | [] => Ub
  | c :: l' => if isdigit c then digits l' (10 * acc + (c - 48))%Z else Ret acc
  end.
Definition INT64_MAX : Z := 9223372036854775807.
Definition clamp64 (z : Z) : Z := Z.max (- INT64_MAX - 1) (Z.min INT64_MAX z).
(** std::strtol(str, end, 10) *)
Definition strtol (l : list char) : outcome Z :=
  match skip_space l with
  | [] => Ub
  | c :: l' =>
      if (c =? 45)%Z then let* z := digits l' 0 in Ret (clamp64 (- z))
      else if (c =? 43)%Z then let* z := digits l' 0 in Ret (clamp64 z)
      else let* z := digits (c :: l') 0 in Ret (clamp64 z)
  end.
(** static_cast<int32_t> *)
Definition to_int32 (z : Z) : Z := ((z + 2147483648) mod 4294967296 - 2147483648)%Z.
(** common/strto.hpp:36-41 *)
Definition strto_int32 (l : list char) : outcome Z := let* z := strtol l in Ret (to_int32 z).

(** ** common/string_to_lattice.hpp:14-57, T = int32_t *)

(** lines 32-42; [token] has been cut off and stripped *)
Fixpoint row_loop (fuel : nat) (line token : sv) (delim : char) : outcome (list Z) :=
  if vsize token =? 0 then Ret []
  else
    match fuel with
    | O => OutOfFuel
    | S f =>
        let* x := strto_int32 (tail token) in
        let* tv := getTokenAndShrink line delim in
        let '(t, line') := tv in
        let* t' := removeLeadingSpaces t in
        let* xs := row_loop f line' t' delim in
        Ret (x :: xs)
    end.
Definition row (line : sv) (delim : char) : outcome (list Z) :=
  let* tv := getTokenAndShrink line delim in
  let '(t, line') := tv in
  let* t' := removeLeadingSpaces t in
  row_loop (S (vsize line)) line' t' delim.

(** lines 28-49 *)
Fixpoint lines_loop (fuel : nat) (v line : sv) (delim : char) : outcome (list (list Z)) :=
  if vsize line =? 0 then Ret []
  else
    match fuel with
    | O => OutOfFuel
    | S f =>
        let* r := row line delim in
        let* lv := getTokenAndShrink v NEWLINE in
        let '(l, v') := lv in
        let* l' := removeLeadingSpaces l in
        let* rs := lines_loop f v' l' delim in
        Ret (r :: rs)
    end.
Definition stringToLattice (s : list char) (delim : char) : outcome (list (list Z)) :=
  let* v := removeLeadingSpaces (view s) in
  let* lv := getTokenAndShrink v NEWLINE in
  let '(l, v') := lv in
  let* l' := removeLeadingSpaces l in
  lines_loop (S (length s)) v' l' delim.
