(** Real polynomials and their roots. *)
From Coq Require Import Reals.
Local Open Scope R_scope.

Definition quadratic (a b c x : R) : R := a * x ^ 2 + b * x + c.
Definition cubic (a b c d x : R) : R := a * x ^ 3 + b * x ^ 2 + c * x + d.
(** the value documented for roots that are not real *)
Definition no_root : R := 1e16.
