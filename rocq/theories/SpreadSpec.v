(** What the spread of a set of descriptors means. *)
From Coq Require Import NArith ZArith.
From stdpp Require Import list.
From Verif Require Import DescriptorSpec.

(** The sum of the distances of all ordered pairs. *)
Definition all_pairs (ds : list (list N)) : nat := foldr (fun a n => (total_distance a ds + n)%nat) 0%nat ds.
Definition all_equal (ds : list (list N)) : Prop := forall a b, a ∈ ds -> b ∈ ds -> a = b.
(** The square of the Euclidean distance of two descriptors as vectors of bytes. *)
Fixpoint squared_distance (a b : list N) : Z :=
  match a, b with
  | x :: a, y :: b => ((Z.of_N x - Z.of_N y) ^ 2 + squared_distance a b)%Z
  | _, _ => 0%Z
  end.
(** Position of the pair i < j of n objects in the order (0,1), (0,2), ..., (1,2), ... *)
Fixpoint pairs_before (n i : nat) : nat := match i with O => O | S i => pairs_before n i + (n - S i) end.
Definition pair_position (n i j : nat) : nat := pairs_before n i + (j - S i).
