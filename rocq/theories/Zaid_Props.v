(** Property theorems C49. *)
From Coq Require Import List Arith ZArith Bool String Lia.
From Verif Require Import Base Loops StringView_Model StringView_Spec Zaid_Model Zaid_Spec Zaid_Proofs.
Import ListNotations.
Local Open Scope Z_scope.
Local Open Scope list_scope.

(** The table of the specification has exactly one symbol for each of the numbers 1 to 118, and
    different elements have different symbols. *)
Theorem C49_table : (forall z, 1 <= z <= 118 -> exists sym, element z sym) /\
  (forall z sym, element z sym -> 1 <= z <= 118) /\
  (forall z sym sym', element z sym -> element z sym' -> sym = sym') /\
  (forall z sym z' sym', element z sym -> element z' sym' -> codes sym = codes sym' -> z = z' /\ sym = sym').
Proof. exact (conj element_exists (conj element_number (conj element_unique element_inj))). Qed.
Print Assumptions C49_table.

(** C49. The symbol of element Z, followed by the digits of A, gives 1000 Z + A.  Chars that are
    not digits may stand between them (as in "U-235"), and anything that does not go on with a
    digit may follow (as in "Am242m"). *)
Theorem C49_zaid : forall z sym sep ds a rest, element z sym ->
  Forall (fun c => ~ digit c) sep -> not_next letter sep -> dec ds a -> not_next digit rest ->
  1000 * z + a <= intMax ->
  toZAID (codes sym ++ sep ++ ds ++ rest) = Ret (1000 * z + a).
Proof. exact zaid_ok. Qed.
Print Assumptions C49_zaid.
Example C49_zaid_meets : element 92 "U" /\ dec (codes "235") 235 /\
  toZAID (codes "U235") = Ret 92235 /\ toZAID (codes "U-235") = Ret 92235 /\
  toZAID (codes "Am242m") = Ret 95242 /\ toZAID (codes "Og294") = Ret 118294.
Proof.
  split; [unfold element; cbn; auto 200|]. split; [|repeat split].
  change 235 with (10 * (10 * 2 + 3) + 5).
  change (codes "235") with (([48 + 2] ++ [48 + 3]) ++ [48 + 5]). repeat constructor; lia.
Qed.

(** A symbol without mass number is accepted, as mass number 0. *)
Theorem C49_no_mass : forall z sym rest, element z sym -> not_next letter rest ->
  Forall (fun c => ~ digit c) rest -> toZAID (codes sym ++ rest) = Ret (1000 * z).
Proof. exact zaid_no_mass. Qed.
Print Assumptions C49_no_mass.
Example C49_no_mass_meets : toZAID (codes "C") = Ret 6000.
Proof. reflexivity. Qed.

(** Text that does not begin with the symbol of an element, ended by something that is not a
    letter, is rejected. *)
Theorem C49_unknown : forall s,
  (forall z sym r, element z sym -> s = codes sym ++ r -> exists c r', r = c :: r' /\ letter c) ->
  toZAID s = Fail.
Proof. exact zaid_unknown. Qed.
Print Assumptions C49_unknown.
Example C49_unknown_meets : toZAID (codes "Xx12") = Fail /\ toZAID (codes "Ux1") = Fail /\
  toZAID (codes "u235") = Fail /\ toZAID (codes "1H") = Fail /\ toZAID [] = Fail.
Proof. repeat split. Qed.

(** Different nuclides have different ZAIDs, as long as the mass numbers are below 1000. *)
Theorem C49_distinct : forall z sym ds a z' sym' ds' a', element z sym -> element z' sym' ->
  dec ds a -> dec ds' a' -> a < 1000 -> a' < 1000 ->
  toZAID (codes sym ++ ds) = toZAID (codes sym' ++ ds') -> sym = sym' /\ a = a'.
Proof. exact zaid_distinct. Qed.
Print Assumptions C49_distinct.
(** Above that they collide: the bound is necessary. *)
Theorem C49_distinct_refuted : exists s s', s <> s' /\ exists z sym a ds z' sym' a' ds',
  element z sym /\ element z' sym' /\ dec ds a /\ dec ds' a' /\ z <> z' /\
  s = codes sym ++ ds /\ s' = codes sym' ++ ds' /\ toZAID s = toZAID s'.
Proof. exact big_mass_collide. Qed.
Print Assumptions C49_distinct_refuted.
