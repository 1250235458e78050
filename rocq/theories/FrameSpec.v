(** Specification vocabulary for visual frames. *)
From Coq Require Import ZArith.
From stdpp Require Import list.
Local Open Scope nat_scope.

(** The elements of [l] whose track id (in [ids]) is not negative, in order. *)
Definition keep {A} (ids : list Z) (l : list A) : list A :=
  (filter (fun p : Z * A => (0 <= p.1)%Z) (zip ids l)).*2.
(** Number of columns before block [b]. *)
Definition before {A} (bs : list (list A)) (b : nat) : nat := length (concat (take b bs)).
