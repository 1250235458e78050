(** Vocabulary for C116. *)
From Coq Require Import Reals List Arith.
From Verif Require Import ImageEqModel.
Local Open Scope R_scope.

(** The value of a channel of a pixel: the channels of a pixel are adjacent. *)
Definition pixel (A : image) (r c ch : nat) : value := scalar A r (c * channels A + ch).
(** The same size and type. *)
Definition same_shape (A B : image) : Prop := rows A = rows B /\ cols A = cols B /\ channels A = channels B /\ kind A = kind B.
(** All channels of all pixels are related. *)
Definition all_pixels (R : value -> value -> Prop) (A B : image) : Prop :=
  forall r c ch, (r < rows A)%nat -> (c < cols A)%nat -> (ch < channels A)%nat -> R (pixel A r c ch) (pixel B r c ch).
(** Both are numbers, and they are the same. *)
Definition same (a b : value) : Prop := exists x, a = Number x /\ b = Number x.
(** Both are numbers that differ at most by the tolerance, which is what the comment of the function says. *)
Definition near (tolerance : R) (a b : value) : Prop := exists x y, a = Number x /\ b = Number y /\ Rabs (x - y) <= tolerance.
(** Both are numbers, and their difference is at most the tolerance times each of them. *)
Definition relative (tolerance : R) (a b : value) : Prop :=
  exists x y, a = Number x /\ b = Number y /\ Rabs (x - y) <= tolerance * Rabs x /\ Rabs (x - y) <= tolerance * Rabs y.
Definition whole_numbers (k : depth) : Prop := k <> F32 /\ k <> F64.
