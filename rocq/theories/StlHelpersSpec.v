(** Specification of the container helpers. *)
From Coq Require Import ZArith QArith.
From stdpp Require Import list sorting.

(** The elements whose index is not listed, in order. *)
Definition without {A} (idx : list nat) (data : list A) : list A :=
  (filter (fun p : nat * A => p.1 ∉ idx) (zip (seq 0 (length data)) data)).*2.

Open Scope Z_scope.
(** Median of a multiset: with [s] its sorted list. *)
Definition is_median (l : list Z) (v : Q) : Prop :=
  exists s, s ≡ₚ l /\ StronglySorted Z.le s /\
  exists a b, s !! ((length l - 1) / 2)%nat = Some a /\ s !! (length l / 2)%nat = Some b /\
  (v == (inject_Z a + inject_Z b) / 2)%Q.

Definition sumQ (l : list Q) : Q := foldr Qplus 0%Q l.
