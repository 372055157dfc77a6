(** What a message looks like. *)
From Coq Require Import String Ascii.
From Coq Require Import List Arith ZArith Bool.
From Verif Require Import Base StringView_Model StringView_Spec Logger_Model.
Import ListNotations.
Local Open Scope list_scope.
Local Open Scope Z_scope.

(** the codes of the characters of a string *)
Definition codes (s : string) : list char := map (fun c => Z.of_N (N_of_ascii c)) (list_ascii_of_string s).
Definition ESC : char := 27.

Inductive msg_kind := Error | Warn | Info | Debug.
Definition number (k : msg_kind) : Z := match k with Error => 1 | Warn => 2 | Info => 3 | Debug => 4 end.
Definition title (k : msg_kind) : string := match k with Error => "ERROR" | Warn => "WARN" | Info => "INFO" | Debug => "DEBUG" end.
(** red, yellow, none, magenta *)
Definition color (k : msg_kind) : list char :=
  match k with Error => ESC :: codes "[1;31m" | Warn => ESC :: codes "[1;33m" | Info => [] | Debug => ESC :: codes "[1;35m" end.
Definition reset : list char := ESC :: codes "[0m".

(** [HH:MM:SS.mmm] and a blank, for a time of [ms] milliseconds *)
Definition stamp (ms : Z) (l : list char) : Prop :=
  exists h m s f H M S F, l = codes "[" ++ h ++ codes ":" ++ m ++ codes ":" ++ s ++ codes "." ++ f ++ codes "] " /\
    length h = 2%nat /\ length m = 2%nat /\ length s = 2%nat /\ length f = 3%nat /\
    dec h H /\ dec m M /\ dec s S /\ dec f F /\ M < 60 /\ S < 60 /\ ms = ((H * 60 + M) * 60 + S) * 1000 + F.

(** the text of an argument *)
Definition shown (a : arg) (t : list char) : Prop :=
  match a with
  | AStr s => t = s
  | AChar c => t = [c]
  | AInt z => num t z /\ (forall c r, t <> 48 :: c :: r) /\ (forall r, t <> 45 :: 48 :: r)
  | AFloat s => t = s
  | ABool b => t = codes (if b then "true" else "false")
  end.
Definition in_64 (z : Z) : Prop := - 2 ^ 63 <= z < 2 ^ 64.
Definition printable (a : arg) : Prop :=
  match a with AStr s | AFloat s => ~ In 0 s | AChar c => c <> 0 | AInt z => in_64 z | ABool _ => True end.
(** the line of a message whose arguments have the texts [ts] *)
Definition message (s : settings) (k : msg_kind) (st : list char) (ts : list (list char)) : list char :=
  (if colorized s then color k else []) ++ st ++ codes (title k) ++ codes " - " ++ concat ts ++ (if colorized s then reset else []).
(** the time stamp, if there is one *)
Definition stamped (s : settings) (ns : Z) (l : list char) : Prop :=
  if timestamped s then stamp (ns / 1000000) l else l = [].
