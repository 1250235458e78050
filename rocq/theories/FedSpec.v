(** Specification: prime numbers as in the standard library, permutations of lists. *)
From Coq Require Import ZArith Znumtheory.
From stdpp Require Import list.
Local Open Scope Z_scope.

(** p is the smallest prime not below m. *)
Definition smallest_prime_from (m p : Z) : Prop :=
  prime p /\ m <= p /\ forall q, m <= q < p -> ~ prime q.
