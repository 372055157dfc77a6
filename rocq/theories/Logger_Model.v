(** Model of the logger (include/um2/common/logger.hpp, src/common/logger.cpp).

    Simplifications: the elapsed time is a whole number of nanoseconds (the resolution of system_clock) and its conversion to
    seconds is exact; what snprintf prints for a floating point number is a parameter of the message; the result of fprintf is
    not looked at. In addColor, the pointer of a message without color is moved before the start of the buffer and back
    (logger.cpp:300-303); only where it ends up is modelled. *)
From Coq Require Import String Ascii.
From Coq Require Import List Arith ZArith Bool.
From Verif Require Import Base Loops StringView_Model Soup_Model.
Import ListNotations.
Local Open Scope list_scope.
Local Open Scope Z_scope.

(** settings.hpp:24-40 *)
Record settings := mkSettings { level : Z; timestamped : bool; colorized : bool; exit_on_error : bool }.
(** logger.hpp:52 *)
Definition buffer_size : nat := 256.
(** an argument of a message: a string of one of the three types, a char, an integer of one of the five types, a floating
    point number (what "%f" prints for it), a bool *)
Inductive arg := AStr (s : list char) | AChar (c : char) | AInt (z : Z) | AFloat (s : list char) | ABool (b : bool).

(** "%d", "%u", "%ld", "%lu": at most 20 digits *)
Fixpoint udec (fuel : nat) (n : Z) : list char :=
  match fuel with
  | O => []
  | S f => if n <? 10 then [48 + n] else udec f (n / 10) ++ [48 + n mod 10]
  end.
Definition decimal (z : Z) : list char := if z <? 0 then 45 :: udec 20 (- z) else udec 20 z.

Section Logger.
(** are assertions enabled? *)
Variable checks : bool.
Definition assert {A} (b : bool) (k : outcome A) : outcome A := if checks && negb b then Fail else k.
(** the buffer and the position of buffer_pos in it *)
Notation state := (list char * nat)%type.

(** logger.cpp:67-74 *)
Definition appendStringViewToBuffer (st : state) (s : list char) : outcome state :=
  let '(buf, pos) := st in
  assert (pos + length s <? buffer_size)%nat (let* buf := blit buf pos s in Ret (buf, pos + length s)%nat).
(** logger.cpp:101-172: snprintf writes as much as fits and a null; a position beyond the end of the buffer is
    undefined behaviour *)
Definition appendFormatted (st : state) (s : list char) : outcome state :=
  let '(buf, pos) := st in
  let room := (buffer_size - pos)%nat in
  let* buf := (match room with O => Ret buf | S k => blit buf pos (firstn k s ++ [0]) end) in
  assert (pos + length s <? buffer_size)%nat (if (buffer_size <? pos + length s)%nat then Ub else Ret (buf, pos + length s)%nat).
(** logger.cpp:78-213 *)
Definition toBuffer (st : state) (a : arg) : outcome state :=
  let '(buf, pos) := st in
  match a with
  | AStr s => appendStringViewToBuffer st s
  | AChar c => let* buf := wr buf pos c in assert (S pos <? buffer_size)%nat (Ret (buf, S pos))
  | AInt z => appendFormatted st (decimal z)
  | AFloat s => appendFormatted st s
  | ABool b =>
      let s := if b then [116; 114; 117; 101] else [102; 97; 108; 115; 101] in
      let* buf := blit buf pos s in
      assert (pos + length s <? buffer_size)%nat (Ret (buf, pos + length s)%nat)
  end.

(** logger.cpp:221-273; [ns] is Clock::now() - start_time. The conversions to Int truncate *)
Definition two (n : Z) : list char := if n <? 10 then [48; n + 48] else [Z.quot n 10 + 48; Z.rem n 10 + 48].
Definition three (n : Z) : list char :=
  if n <? 10 then [48; 48; n + 48]
  else if n <? 100 then [48; Z.quot n 10 + 48; Z.rem n 10 + 48]
  else [Z.quot n 100 + 48; Z.quot (Z.rem n 100) 10 + 48; Z.rem (Z.rem n 100) 10 + 48].
Definition addTimestamp (s : settings) (ns : Z) (st : state) : outcome state :=
  if timestamped s then
    let '(buf, pos) := st in
    let* t := i32 (Z.quot ns 1000000000) in
    let hours := Z.quot t 3600 in
    let minutes := Z.rem (Z.quot t 60) 60 in
    let seconds := Z.rem t 60 in
    let* ms := i32 (Z.quot ns 1000000) in
    let milliseconds := Z.rem ms 1000 in
    let* buf := blit buf pos ([91] ++ two hours ++ [58] ++ two minutes ++ [58] ++ two seconds ++ [46] ++ three milliseconds ++ [93; 32]) in
    Ret (buf, pos + 15)%nat
  else Ret st.
(** logger.cpp:276-306 *)
Definition addColor (s : settings) (msg_level : Z) (st : state) : outcome state :=
  if colorized s then
    let '(buf, pos) := st in
    let* buf := blit buf pos [27; 91; 49; 59; 51] in
    let* buf := wr buf (pos + 6) 109 in
    match msg_level with
    | 1 => let* buf := wr buf (pos + 5) 49 in Ret (buf, pos + 7)%nat
    | 2 => let* buf := wr buf (pos + 5) 51 in Ret (buf, pos + 7)%nat
    | 4 => let* buf := wr buf (pos + 5) 53 in Ret (buf, pos + 7)%nat
    | _ => Ret (buf, pos)
    end
  else Ret st.
(** logger.cpp:309-358 *)
Definition addLevel (msg_level : Z) (st : state) : outcome state :=
  let '(buf, pos) := st in
  let name := match msg_level with
              | 1 => [69; 82; 82; 79; 82]
              | 2 => [87; 65; 82; 78]
              | 3 => [73; 78; 70; 79]
              | 4 => [68; 69; 66; 85; 71]
              | _ => [85; 78; 75; 78; 79; 87; 78]
              end in
  let* buf := blit buf pos name in
  let pos := (pos + length name)%nat in
  let* buf := blit buf pos [32; 45; 32] in
  Ret (buf, pos + 3)%nat.
(** logger.cpp:361-369 *)
Definition setPreamble (s : settings) (ns msg_level : Z) (buf : list char) : outcome state :=
  let* st := addColor s msg_level (buf, 0%nat) in
  let* st := addTimestamp s ns st in
  addLevel msg_level st.
(** logger.cpp:372-387 *)
Definition setPostamble (s : settings) (st : state) : outcome (list char) :=
  let '(buf, pos) := st in
  let* st := (if colorized s then let* buf := blit buf pos [27; 91; 48; 109] in Ret (buf, pos + 4)%nat else Ret st) in
  let '(buf, pos) := st in
  assert (pos <? buffer_size)%nat (wr buf pos 0).

(** the characters before the first null *)
Fixpoint cstr (l : list char) : outcome (list char) :=
  match l with
  | [] => Ub
  | c :: l' => if c =? 0 then Ret [] else let* r := cstr l' in Ret (c :: r)
  end.
Inductive stream := Stdout | Stderr.
(** what a call does: it prints a line (without the line feed here) and then ends the program or not *)
Record effect := mkEffect { to : stream; line : list char; exits : bool }.
(** the arguments, one after the other *)
Fixpoint toBuffers (st : state) (args : list arg) : outcome state :=
  match args with [] => Ret st | a :: args' => let* st := toBuffer st a in toBuffers st args' end.
(** logger.hpp:107-140 *)
Definition printMessage (s : settings) (ns msg_level : Z) (args : list arg) (buf : list char) : outcome (list char * option effect) :=
  if msg_level <=? level s then
    let* st := setPreamble s ns msg_level buf in
    let* st := toBuffers st args in
    let* buf := setPostamble s st in
    let* l := cstr buf in
    if msg_level =? 1 then Ret (buf, Some (mkEffect Stderr l (exit_on_error s)))
    else Ret (buf, Some (mkEffect Stdout l false))
  else Ret (buf, None).
(** logger.hpp:65-69 *)
Definition getLastMessage (buf : list char) : outcome (list char) := cstr buf.
End Logger.
(** logger.hpp:142-170 *)
Definition error checks s ns := printMessage checks s ns 1.
Definition warn checks s ns := printMessage checks s ns 2.
Definition info checks s ns := printMessage checks s ns 3.
Definition debug checks s ns := printMessage checks s ns 4.
