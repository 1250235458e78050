(** Specification: a list split by a mask. *)
From Coq Require Import ZArith.
From stdpp Require Import list.

(** The elements whose mask entry is [b], in order. *)
Fixpoint masked {A} (b : bool) (mask : list bool) (l : list A) : list A :=
  match mask, l with
  | c :: mask', a :: l' => if Bool.eqb c b then a :: masked b mask' l' else masked b mask' l'
  | _, _ => []
  end.
(** [n] different integers occur in the list. *)
Definition at_least_distinct (n : nat) (l : list Z) : Prop := exists s, NoDup s /\ length s = n /\ forall i, i ∈ s -> i ∈ l.
