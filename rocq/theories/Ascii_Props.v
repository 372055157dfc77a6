(** C60: numbered names. *)
From Coq Require Import List ZArith Lia.
From Verif Require Import Base Loops StringView_Model StringView_Spec Ascii_Model Ascii_Spec Ascii_Proofs.
Import ListNotations.
Open Scope Z_scope.

(** C60: getASCIINumber gives the five decimal digits of every number the field can hold. *)
Theorem C60_get : forall num, 0 <= num < 100000 -> exists s, getASCIINumber num = Ret s /\ digits 5 s num.
Proof. exact get_digits. Qed.
Print Assumptions C60_get.
Example C60_get_ex : getASCIINumber 20407 = Ret [50; 48; 52; 48; 55].
Proof. reflexivity. Qed.

(** Numbers that fit give different names, also after a common prefix. *)
Theorem C60_distinct : forall (pre : list char) m n s t, 0 <= m < 100000 -> 0 <= n < 100000 ->
  getASCIINumber m = Ret s -> getASCIINumber n = Ret t -> pre ++ s = pre ++ t -> m = n.
Proof.
  intros pre m n s t Hm Hn Es Et E. apply app_inv_head in E. subst t.
  destruct (get_digits m Hm) as (s1 & E1 & _ & D1). destruct (get_digits n Hn) as (s2 & E2 & _ & D2).
  rewrite Es in E1. rewrite Et in E2. injection E1 as <-. injection E2 as <-. exact (dec_val s m D1 n D2).
Qed.
Print Assumptions C60_distinct.

(** incrementASCIINumber adds one to the counter at the end of a name and leaves the rest, whatever the
    number of digits and wherever the carry goes, as long as the counter has room. *)
Theorem C60_increment : forall pre l z, dec l z -> z + 1 < 10 ^ Z.of_nat (length l) ->
  exists l', incrementASCIINumber (pre ++ l) = Ret (pre ++ l') /\ digits (length l) l' (z + 1).
Proof. exact increment_dec. Qed.
Print Assumptions C60_increment.
Example C60_increment_ex : incrementASCIINumber [67; 95; 48; 49; 57; 57; 57] = Ret [67; 95; 48; 50; 48; 48; 48].
Proof. reflexivity. Qed.

(** The n-th increment of the all-zero counter is the name that getASCIINumber(n) produces: writer and
    reader of numbered element sets agree. *)
Theorem C60_history : forall (pre : list char) n, Z.of_nat n < 100000 ->
  exists s, getASCIINumber (Z.of_nat n) = Ret s /\
    increments n (pre ++ [48; 48; 48; 48; 48]) = Ret (pre ++ s) /\ digits 5 s (Z.of_nat n).
Proof. exact increments_get. Qed.
Print Assumptions C60_history.
Example C60_history_ex : increments 110 [67; 95; 48; 48; 48; 48; 48] = Ret [67; 95; 48; 48; 49; 49; 48].
Proof. vm_compute. reflexivity. Qed.

(** Beyond the field: the counter spills into the character before it ("_99999" becomes "`00000"), with no
    such character the write is out of bounds, and getASCIINumber repeats its names. *)
Theorem C60_spill : forall pre c n, c <> 57 ->
  incrementASCIINumber (pre ++ c :: repeat 57 n) = Ret (pre ++ to_char (c + 1) :: repeat 48 n).
Proof. exact increment_nines. Qed.
Print Assumptions C60_spill.
Theorem C60_overflow_refuted :
  incrementASCIINumber [95; 57; 57; 57; 57; 57] = Ret [96; 48; 48; 48; 48; 48] /\
  incrementASCIINumber [57; 57; 57; 57; 57] = Ub /\
  forall num, 0 <= num -> getASCIINumber (num + 100000) = getASCIINumber num.
Proof. exact (conj eq_refl (conj eq_refl get_wraps)). Qed.
Print Assumptions C60_overflow_refuted.
