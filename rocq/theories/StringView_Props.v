(** Property theorems C05 - C08. *)
From Coq Require Import List Arith ZArith Lia Bool.
From Verif Require Import Base StringView_Model StringView_Spec StringView_Proofs.
Import ListNotations.

(** C05. compare on two views (neither needs to be NUL-terminated) never reads behind
    them; its sign tells the lexicographic order. *)
Theorem C05_compare : forall v w, valid v -> valid w -> exists z, compare v w = Ret z /\
  ((z < 0)%Z <-> lexlt (text v) (text w)) /\ (z = 0%Z <-> text v = text w) /\
  ((z > 0)%Z <-> lexlt (text w) (text v)).
Proof. exact compare_ok. Qed.
Print Assumptions C05_compare.

(** The six operators of StringView agree with that order. *)
Theorem C05_operators : forall v w, valid v -> valid w ->
  (exists b, sv_eq v w = Ret b /\ (b = true <-> text v = text w)) /\
  (exists b, sv_ne v w = Ret b /\ (b = true <-> text v <> text w)) /\
  (exists b, sv_lt v w = Ret b /\ (b = true <-> lexlt (text v) (text w))) /\
  (exists b, sv_gt v w = Ret b /\ (b = true <-> lexlt (text w) (text v))) /\
  (exists b, sv_le v w = Ret b /\ (b = true <-> lexlt (text v) (text w) \/ text v = text w)) /\
  (exists b, sv_ge v w = Ret b /\ (b = true <-> lexlt (text w) (text v) \/ text v = text w)).
Proof. exact operators_ok. Qed.
Print Assumptions C05_operators.

(** So do the operators of String. *)
Theorem C05_string_operators : forall a b,
  (exists r, str_eq a b = Ret r /\ (r = true <-> a = b)) /\
  (exists r, str_ne a b = Ret r /\ (r = true <-> a <> b)) /\
  (exists r, str_lt a b = Ret r /\ (r = true <-> lexlt a b)) /\
  (exists r, str_gt a b = Ret r /\ (r = true <-> lexlt b a)) /\
  (exists r, str_le a b = Ret r /\ (r = true <-> lexlt a b \/ a = b)) /\
  (exists r, str_ge a b = Ret r /\ (r = true <-> lexlt b a \/ a = b)).
Proof. exact str_operators_ok. Qed.
Print Assumptions C05_string_operators.

(** That order is a strict total order in which a proper prefix is smaller. *)
Theorem C05_total_order :
  (forall l, ~ lexlt l l) /\ (forall l m r, lexlt l m -> lexlt m r -> lexlt l r) /\
  (forall l r, lexlt l r \/ l = r \/ lexlt r l) /\ (forall l a r, lexlt l (l ++ a :: r)).
Proof.
  exact (conj lexlt_irrefl (conj lexlt_trans (conj lexlt_total lexlt_prefix))).
Qed.
Print Assumptions C05_total_order.

Theorem C05_starts_with : forall v w, valid v -> valid w ->
  exists b, starts_with v w = Ret b /\ (b = true <-> exists r, text v = text w ++ r).
Proof. exact starts_with_ok. Qed.
Print Assumptions C05_starts_with.

Theorem C05_ends_with : forall v w, valid v -> valid w ->
  exists b, ends_with v w = Ret b /\ (b = true <-> exists r, text v = r ++ text w).
Proof. exact ends_with_ok. Qed.
Print Assumptions C05_ends_with.

Theorem C05_starts_ends_char : forall a c,
  (exists b, starts_with_char a c = Ret b /\ (b = true <-> exists r, a = c :: r)) /\
  (exists b, ends_with_char a c = Ret b /\ (b = true <-> exists r, a = r ++ [c])).
Proof. exact char_ends_ok. Qed.
Print Assumptions C05_starts_ends_char.

(** "abc" inside "abcd" against "abcd", "abd" and "bc": not terminated, a proper prefix. *)
Example C05_example :
  let v := mkSv [97; 98; 99; 100]%Z 3 in
  valid v /\ valid (mkSv [97; 98; 99; 100]%Z 4) /\
  compare v (mkSv [97; 98; 99; 100]%Z 4) = Ret (-1)%Z /\
  compare v (mkSv [97; 98; 100]%Z 3) = Ret (-1)%Z /\
  compare v (mkSv [97; 98]%Z 2) = Ret 1%Z /\
  ends_with v (mkSv [98; 99]%Z 2) = Ret true /\ starts_with v (mkSv [98; 99]%Z 2) = Ret false.
Proof. unfold valid. cbn. repeat split; auto. Qed.

(** C06. The searches: the least position >= pos (greatest <= pos), npos iff none. *)
Theorem C06_find_first_of : forall v c pos, valid v ->
  exists r, find_first_of v c pos = Ret r /\
    least_from (fun i => nth_error (text v) i = Some c) pos r.
Proof. exact find_first_of_ok. Qed.
Print Assumptions C06_find_first_of.

Theorem C06_find_first_not_of : forall v c pos, valid v ->
  exists r, find_first_not_of v c pos = Ret r /\
    least_from (fun i => exists a, nth_error (text v) i = Some a /\ a <> c) pos r.
Proof. exact find_first_not_of_ok. Qed.
Print Assumptions C06_find_first_not_of.

Theorem C06_find_last_of : forall v c pos, valid v ->
  exists r, find_last_of v c pos = Ret r /\
    greatest_upto (fun i => nth_error (text v) i = Some c) pos r.
Proof. exact find_last_of_ok. Qed.
Print Assumptions C06_find_last_of.

Theorem C06_string_find_last_of : forall a c pos,
  exists r, str_find_last_of a c pos = Ret r /\
    greatest_upto (fun i => nth_error a i = Some c) pos r.
Proof.
  exact str_find_last_of_ok.
Qed.
Print Assumptions C06_string_find_last_of.

Theorem C06_find_first_of_substring : forall v w pos, valid v -> valid w ->
  exists r, find_first_of_sv v w pos = Ret r /\
    least_from (occurs (text w) (text v)) pos r.
Proof. exact find_first_of_sv_ok. Qed.
Print Assumptions C06_find_first_of_substring.

Theorem C06_substr : forall v pos count, valid v -> pos + count <= vsize v ->
  exists s, substr v pos count = Ret s /\ valid s /\
    text s = firstn count (skipn pos (text v)).
Proof. exact substr_ok. Qed.
Print Assumptions C06_substr.

Theorem C06_removeLeadingSpaces : forall v, valid v ->
  exists v' k, removeLeadingSpaces v = Ret v' /\ valid v' /\
    text v = repeat SPACE k ++ text v' /\ (forall r, text v' <> SPACE :: r).
Proof. exact removeLeadingSpaces_ok. Qed.
Print Assumptions C06_removeLeadingSpaces.

Example C06_example :
  let v := mkSv [32; 97; 98; 97; 98; 99; 97]%Z 6 in
  valid v /\ find_first_of v 97%Z 2 = Ret (Some 3) /\ find_last_of v 97%Z 100 = Ret (Some 3) /\
  find_first_not_of v 97%Z 1 = Ret (Some 2) /\ find_first_of v 100%Z 0 = Ret None /\
  find_first_of_sv v (mkSv [97; 98; 99]%Z 3) 0 = Ret (Some 3) /\
  find_first_of_sv v (mkSv [99; 97]%Z 2) 0 = Ret None.
Proof. unfold valid. cbn. repeat split; auto. Qed.

(** C07. One call: either only delimiters remain, the token is empty and the view stays;
    or the token is the first maximal delimiter-free run, the view goes on behind the
    delimiter that ends it, and is strictly shorter. *)
Theorem C07_token : forall v d, valid v ->
  exists t v', getTokenAndShrink v d = Ret (t, v') /\ valid t /\ valid v' /\
    ((text t = [] /\ v' = v /\ exists k, text v = repeat d k) \/
     (exists k rest, text v = repeat d k ++ text t ++ rest /\ text t <> [] /\ ~ In d (text t) /\
        ((rest = [] /\ text v' = []) \/ rest = d :: text v') /\ vsize v' < vsize v)).
Proof. exact token_ok. Qed.
Print Assumptions C07_token.

(** Calling until an empty token comes back ends after at most size() tokens and yields
    the maximal delimiter-free runs of the text, in order. *)
Theorem C07_tokens : forall d fuel v, valid v -> vsize v <= fuel ->
  exists ts, tokens fuel v d = Ret ts /\ runs d (text v) ts.
Proof. exact tokens_ok. Qed.
Print Assumptions C07_tokens.

(** A text has one list of maximal runs, so the specification leaves no choice. *)
Theorem C07_runs_unique : forall d l ts, runs d l ts -> forall ts', runs d l ts' -> ts = ts'.
Proof. exact runs_fun. Qed.
Print Assumptions C07_runs_unique.

Example C07_example :
  let v := mkSv [44; 97; 98; 44; 44; 99; 44; 120]%Z 7 in
  valid v /\ tokens 7 v 44%Z = Ret [[97; 98]; [99]]%Z.
Proof. unfold valid. cbn. split; auto. Qed.

(** C08. Every printed table is read back: any number of rows and columns, int32 values
    (also negative, with leading zeros), any blanks before, between and after, repeated
    delimiters and newlines, any delimiter that is not part of a number. *)
Theorem C08_round_trip : forall d, ok_delim d -> forall a l zss, lines_text d l zss ->
  stringToLattice (repeat SPACE a ++ l) d = Ret zss.
Proof. exact lattice_ok. Qed.
Print Assumptions C08_round_trip.

(** "  1  -2\n 30 4\n\n" *)
Example C08_example :
  ok_delim SPACE /\ ok_delim 44%Z /\
  lines_text SPACE [32; 49; 32; 32; 45; 50; 10; 32; 51; 48; 32; 52; 10; 10]%Z [[1; -2]; [30; 4]]%Z.
Proof.
  split; [repeat split; discriminate|]. split; [repeat split; discriminate|].
  assert (D : forall z, (0 <= z <= 9)%Z -> dec [48 + z]%Z z) by (intros; now constructor).
  apply (lines_line SPACE 0 [32; 49; 32; 32; 45; 50]%Z [1; -2]%Z
           [10; 32; 51; 48; 32; 52; 10; 10]%Z [[30; 4]]%Z); [|discriminate|right; eauto|].
  - apply (line_num SPACE 1 0 [49]%Z 1%Z 0 [32; 32; 45; 50]%Z [(-2)%Z]);
      [constructor; apply (D 1%Z); lia|unfold int32; lia|right; eauto|].
    apply (line_num SPACE 2 0 [45; 50]%Z (-2)%Z 0 [] []);
      [apply (num_neg [50%Z] 2%Z); apply (D 2%Z); lia|unfold int32; lia|left; auto|].
    apply (line_end SPACE 0).
  - apply (lines_line SPACE 1 [32; 51; 48; 32; 52]%Z [30; 4]%Z [10; 10]%Z []); [|discriminate|right; eauto|].
    + apply (line_num SPACE 1 0 [51; 48]%Z 30%Z 0 [32; 52]%Z [4%Z]);
        [constructor; apply (dec_more [51%Z] 3%Z 0%Z); [apply (D 3%Z)|]; lia|unfold int32; lia|right; eauto|].
      apply (line_num SPACE 1 0 [52]%Z 4%Z 0 [] []);
        [constructor; apply (D 4%Z); lia|unfold int32; lia|left; auto|].
      apply (line_end SPACE 0).
    + apply (lines_end SPACE 2 0).
Qed.

(** The second half of C08 is false: a line holding one blank ends the table early
    ("1 2\n \n3 4" gives one row), a blank field ends its row early ("1, ,3" gives one
    number), and text that is not a number reads as 0 ("1 x 3"). *)
Theorem C08_malformed_refuted :
  stringToLattice [49; 32; 50; 10; 32; 10; 51; 32; 52]%Z SPACE = Ret [[1; 2]]%Z /\
  stringToLattice [49; 44; 32; 44; 51]%Z 44%Z = Ret [[1]]%Z /\
  stringToLattice [49; 32; 120; 32; 51]%Z SPACE = Ret [[1; 0; 3]]%Z.
Proof. exact lattice_malformed. Qed.
Print Assumptions C08_malformed_refuted.
