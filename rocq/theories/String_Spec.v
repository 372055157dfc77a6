(** What the users of String rely on: variables holding plain sequences of chars. *)
From Coq Require Import List Arith ZArith.
From Verif Require Import Base String_Model.
Import ListNotations.

Definition aworld := list (option (list char)).

Definition avar (w : aworld) (x : nat) : option (list char) :=
  match nth_error w x with Some (Some l) => Some l | _ => None end.

(** The chars [pos, pos + n) of a sequence. *)
Definition slice (l : list char) (pos n : nat) : list char := firstn n (skipn pos l).

(** [astep w o] is the new state, [None] if a precondition is violated (unknown
    variable, position out of range, a number whose text does not fit in the 31 chars
    of the conversion buffer, assignment of an overlapping part of itself). *)
Definition astep (w : aworld) (o : op) : option aworld :=
  let on x (f : list char -> option (list char)) :=
    match avar w x with
    | Some l => match f l with Some l' => Some (upd w x (Some l')) | None => None end
    | None => None
    end in
  let add (f : option (list char)) :=
    match f with Some l => Some (w ++ [Some l]) | None => None end in
  match o with
  | New => add (Some [])
  | NewText l => add (Some l)
  | NewFmt l => add (if length l <=? 31 then Some l else None)
  | NewCopy y => add (avar w y)
  | NewMove y =>
      match avar w y with Some l => Some (upd w y (Some []) ++ [Some l]) | None => None end
  | NewSub y pos count =>
      match avar w y with
      | Some l => add (if pos <=? length l then Some (slice l pos count) else None)
      | None => None
      end
  | NewConcat y z =>
      match avar w y, avar w z with
      | Some l1, Some l2 => add (Some (l1 ++ l2))
      | _, _ => None
      end
  | Assign x y =>
      match avar w y with Some l => on x (fun _ => Some l) | None => None end
  | MoveAssign x y =>
      match avar w x, avar w y with
      | Some _, Some l =>
          Some (if x =? y then w else upd (upd w x (Some l)) y (Some []))
      | _, _ => None
      end
  | AssignText x l => on x (fun _ => Some l)
  | AssignSub x y pos n =>
      match avar w y with
      | Some l =>
          if (pos + n <=? length l) && (negb (x =? y) || (n <=? pos) || (n =? 0))
          then on x (fun _ => Some (slice l pos n)) else None
      | None => None
      end
  | AppendText x l' => on x (fun l => Some (l ++ l'))
  | Append x y =>
      match avar w y with Some l' => on x (fun l => Some (l ++ l')) | None => None end
  | Write x i a => on x (fun l => if i <? length l then Some (upd l i a) else None)
  | Delete x => match avar w x with Some _ => Some (upd w x None) | None => None end
  end%bool.

Fixpoint arun (w : aworld) (os : list op) : option aworld :=
  match os with
  | [] => Some w
  | o :: os' => match astep w o with Some w' => arun w' os' | None => None end
  end.

(** No string is longer than B after any operation. *)
Definition small (B : nat) (w : aworld) : Prop :=
  forall x l, avar w x = Some l -> length l <= B.
Fixpoint small_run (B : nat) (w : aworld) (os : list op) : Prop :=
  match os with
  | [] => True
  | o :: os' =>
      match astep w o with
      | Some w' => small B w' /\ small_run B w' os'
      | None => True
      end
  end.

(** What a program can observe of variable [x]: size(), data()[i] for every position
    and the terminator behind the last char; size() <= capacity(). *)
Definition shows (w : world) (x : nat) (l : list char) : Prop :=
  exists v c, nth_error (vars w) x = Some (Some v) /\
    size v = length l /\ capacity v = Ret c /\ length l <= c /\
    (forall i a, nth_error l i = Some a -> get (mem w) v i = Ret a) /\
    get (mem w) v (length l) = Ret NUL.

(** Blocks of the heap that are still allocated. *)
Definition allocated (w : world) (b : nat) : Prop :=
  exists c, nth_error (mem w) b = Some (Some c).

(** The block a String owns. *)
Definition owns (v : str) (b : nat) : Prop := exists n cap, v = Long b n cap.
