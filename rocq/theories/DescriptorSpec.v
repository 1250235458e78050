(** Specification of descriptors: as strings of bits. *)
From Coq Require Import NArith Bool.
From stdpp Require Import list.
Open Scope N_scope.

Definition is_bytes (l : list N) : Prop := Forall (fun x => x < 256) l.
(** Bits of a byte, least significant first. *)
Definition byte_bits (x : N) : list bool := (fun i => N.testbit x (N.of_nat i)) <$> seq 0 8.
Definition bits (l : list N) : list bool := concat (byte_bits <$> l).
(** Number of positions at which two bit strings differ. *)
Fixpoint diff (a b : list bool) : nat :=
  match a, b with
  | x :: a', y :: b' => ((if xorb x y then 1 else 0) + diff a' b')%nat
  | _, _ => 0%nat
  end.
Definition diff_bits (a b : list N) : nat := diff (bits a) (bits b).

(** Bit [i] of a descriptor. *)
Definition bit_at (i : nat) (d : list N) : bool := default false (bits d !! i).
(** How many of the descriptors have bit [i] set. *)
Definition num_set (i : nat) (ds : list (list N)) : nat :=
  foldr (fun d n => ((if bit_at i d then 1 else 0) + n)%nat) 0%nat ds.
(** Accumulated distance. *)
Definition total_distance (d : list N) (ds : list (list N)) : nat :=
  foldr (fun x n => (diff_bits d x + n)%nat) 0%nat ds.
