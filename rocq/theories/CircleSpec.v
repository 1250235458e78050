(** Vocabulary for C51. *)
From Coq Require Import Reals List.
Local Open Scope R_scope.

(** The point lies on the circle. *)
Definition on_circle (cx cy r : R) (p : R * R) : Prop := (fst p - cx) * (fst p - cx) + (snd p - cy) * (snd p - cy) = r * r.
(** All points lie on one straight line. *)
Definition collinear (l : list (R * R)) : Prop := exists a b c, (a <> 0 \/ b <> 0) /\ forall p, In p l -> a * fst p + b * snd p = c.
