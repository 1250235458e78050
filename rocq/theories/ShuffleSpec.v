(** Vocabulary for C148. *)
From Coq Require Import ZArith List.
Import ListNotations.
Open Scope Z_scope.

(** A register of 16 bytes. *)
Definition register (l : list Z) : Prop := length l = 16%nat /\ forall v, In v l -> 0 <= v < 256.
(** Number of bits of a byte. *)
Definition bits (v : Z) : Z := Z.of_nat (length (filter (Z.testbit v) [0; 1; 2; 3; 4; 5; 6; 7])).
(** The numbers of bits of the sixteen nibbles. *)
Definition nibble_counts : list Z := [0; 1; 1; 2; 1; 2; 2; 3; 1; 2; 2; 3; 2; 3; 3; 4].
