(** Lines of a text file, and numbers in it. *)
From Coq Require Import List Arith ZArith Reals.
From Verif Require Import Base StringView_Model StringView_Spec TextIo_Model.
Import ListNotations.

(** a line: at most 1023 characters, none of them a newline or a null *)
Definition line_ok (l : list char) : Prop := (length l < max_line_length)%nat /\ ~ In NEWLINE l /\ ~ In 0%Z l.
(** the text of a file with the given lines; the newline after the last line may be missing *)
Inductive file_text : list (list char) -> list char -> Prop :=
| ft_lines ls : Forall line_ok ls -> file_text ls (concat (map (fun l => l ++ [NEWLINE]) ls))
| ft_last ls l : Forall line_ok ls -> line_ok l -> l <> [] -> file_text (ls ++ [l]) (concat (map (fun l => l ++ [NEWLINE]) ls) ++ l).

(** ** Decimal numbers *)
(** digits with or without a point *)
Inductive mantissa : list char -> R -> Prop :=
| m_int l i : dec l i -> mantissa l (IZR i)
| m_point l i : dec l i -> mantissa (l ++ [DOT]) (IZR i)
| m_frac l i m f : dec l i -> dec m f -> mantissa (l ++ [DOT] ++ m) (IZR i + IZR f / 10 ^ length m)%R
| m_lead m f : dec m f -> mantissa ([DOT] ++ m) (IZR f / 10 ^ length m)%R.
Inductive signed : list char -> Z -> Prop :=
| sg_none l i : dec l i -> signed l i
| sg_plus l i : dec l i -> signed (43%Z :: l) i
| sg_minus l i : dec l i -> signed (45%Z :: l) (- i).
(** e or E and a power of ten *)
Inductive exp_text : list char -> Z -> Prop :=
| ex_none : exp_text [] 0
| ex_some c l e : c = 101%Z \/ c = 69%Z -> signed l e -> exp_text (c :: l) e.
Inductive real_text : list char -> R -> Prop :=
| rt_none l m t e : mantissa l m -> exp_text t e -> real_text (l ++ t) (m * powerRZ 10 e)
| rt_plus l m t e : mantissa l m -> exp_text t e -> real_text (43%Z :: l ++ t) (m * powerRZ 10 e)
| rt_minus l m t e : mantissa l m -> exp_text t e -> real_text (45%Z :: l ++ t) (- (m * powerRZ 10 e)).
(** numbers with blanks around them *)
Definition blanks (k : nat) : list char := repeat SPACE k.
Definition real_tok (t : list char) (x : R) : Prop := exists a l b, t = blanks a ++ l ++ blanks b /\ real_text l x.
Definition int_tok (t : list char) (z : Z) : Prop := exists a l b, t = blanks a ++ l ++ blanks b /\ num l z /\ int32 z.
