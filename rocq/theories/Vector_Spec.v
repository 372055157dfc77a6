(** What the users of Vector rely on: variables holding plain sequences. *)
From Coq Require Import List Arith ZArith.
From Verif Require Import Base Vector_Model.
Import ListNotations.

Section Spec.
  Context {A : Type}.
  Variable dflt : A.

  (** The abstract state: every variable ever declared, [None] once destroyed. *)
  Definition aworld := list (option (list A)).

  Definition avar (w : aworld) (x : nat) : option (list A) :=
    match nth_error w x with Some (Some l) => Some l | _ => None end.

  (** [astep w o] is the new state, [None] if a precondition is violated
      (unknown variable, index out of range, pop_back of an empty vector). *)
  Definition astep (w : aworld) (o : @op A) : option aworld :=
    let on x (f : list A -> option (list A)) :=
      match avar w x with
      | Some l => match f l with Some l' => Some (upd w x (Some l')) | None => None end
      | None => None
      end in
    match o with
    | New => Some (w ++ [Some []])
    | NewN n => Some (w ++ [Some (repeat dflt n)])
    | NewFill n a => Some (w ++ [Some (repeat a n)])
    | NewList l => Some (w ++ [Some l])
    | NewCopy y => match avar w y with Some l => Some (w ++ [Some l]) | None => None end
    | NewMove y =>
        match avar w y with
        | Some l => Some (upd w y (Some []) ++ [Some l])
        | None => None
        end
    | Assign x y =>
        match avar w x, avar w y with
        | Some _, Some l => Some (upd w x (Some l))
        | _, _ => None
        end
    | MoveAssign x y =>
        match avar w x, avar w y with
        | Some _, Some l =>
            Some (if x =? y then w else upd (upd w x (Some l)) y (Some []))
        | _, _ => None
        end
    | AssignList x l => on x (fun _ => Some l)
    | PushBack x a => on x (fun l => Some (l ++ [a]))
    | PushElem x y i =>
        match avar w y with
        | Some ly => match nth_error ly i with
                     | Some a => on x (fun l => Some (l ++ [a]))
                     | None => None
                     end
        | None => None
        end
    | PopBack x => on x (fun l => match l with [] => None | _ => Some (removelast l) end)
    | Resize x n => on x (fun l => Some (firstn n l ++ repeat dflt (n - length l)))
    | Reserve x n => on x (fun l => Some l)
    | Clear x => on x (fun _ => Some [])
    | Write x i a => on x (fun l => if i <? length l then Some (upd l i a) else None)
    | Delete x => match avar w x with Some _ => Some (upd w x None) | None => None end
    end.

  Fixpoint arun (w : aworld) (os : list op) : option aworld :=
    match os with
    | [] => Some w
    | o :: os' => match astep w o with Some w' => arun w' os' | None => None end
    end.

  (** The sizes an operation asks for: the size of every vector in the new state,
      and the argument of reserve. *)
  Definition small (B : nat) (w : aworld) (o : @op A) : Prop :=
    (forall x l, avar w x = Some l -> length l <= B) /\
    match o with Reserve _ n => n <= B | _ => True end.
  Fixpoint small_run (B : nat) (w : aworld) (os : list op) : Prop :=
    match os with
    | [] => True
    | o :: os' =>
        match astep w o with
        | Some w' => small B w' o /\ small_run B w' os'
        | None => True
        end
    end.

  (** What a program can observe of variable [x]: size(), empty(), operator[], and
      size() <= capacity(). *)
  Definition shows (w : @world A) (x : nat) (l : list A) : Prop :=
    exists v, nth_error (vars w) x = Some (Some v) /\
      size v = length l /\ size v <= cap v /\
      forall i a, nth_error l i = Some a -> get (mem w) v i = Ret a.

  (** Blocks of the heap that are still allocated. *)
  Definition allocated (w : @world A) (b : nat) : Prop :=
    exists c, nth_error (mem w) b = Some (Some c).
End Spec.

(** Strict total order given by a boolean comparison. *)
Definition strict_total {A} (ltb : A -> A -> bool) : Prop :=
  (forall a, ltb a a = false) /\
  (forall a b c, ltb a b = true -> ltb b c = true -> ltb a c = true) /\
  (forall a b, ltb a b = true \/ a = b \/ ltb b a = true).

(** Lexicographic order: at the first difference, or a proper prefix. *)
Inductive lex {A} (lt : A -> A -> Prop) : list A -> list A -> Prop :=
| lex_nil b r : lex lt [] (b :: r)
| lex_lt a b l r : lt a b -> lex lt (a :: l) (b :: r)
| lex_eq a l r : lex lt l r -> lex lt (a :: l) (a :: r).

(** Programs in which no vector is given its own element by push_back. *)
Definition no_self_push {A} (os : list (@op A)) : Prop :=
  forall x i, ~ In (PushElem x x i) os.
