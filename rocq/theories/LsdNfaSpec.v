(** Specification of the number of false alarms. *)
From Coq Require Import Reals.
Local Open Scope R_scope.

(** The probability of at least [k] hits in [n] trials, each a hit with probability [p]. *)
Fixpoint at_least (k n : nat) (p : R) : R :=
  match k, n with
  | O, _ => 1
  | S _, O => 0
  | S k', S n' => p * at_least k' n' p + (1 - p) * at_least k n' p
  end.
(** The significance of [k] aligned pixels among [n], in decades, when 10^tests rectangles are tested. *)
Definition decades (r : R) : R := ln r / ln 10.
Definition significance (tests : R) (n k : nat) (p : R) : R := - decades (at_least k n p) - tests.
(** The factor by which the probability is wrong if n + 1 is taken for the logarithm of n!. *)
Definition factor (n : nat) : R := exp (INR n + 1) / INR (fact n).
