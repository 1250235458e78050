(** Specification of an image with one straight edge. *)
From Coq Require Import ZArith Reals.
Local Open Scope R_scope.

(** The columns up to c have the value a, the others the value b; rows are stored one after the other. *)
Definition step_edge (w h c : Z) (a b : R) (data : Z -> R) : Prop := forall x y, (0 <= x < w)%Z -> (0 <= y < h)%Z -> data (x + y * w)%Z = if (x <=? c)%Z then a else b.
