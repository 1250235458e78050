(** Specification: bounds that are attained. *)
From Coq Require Import QArith.
From stdpp Require Import list.
Local Open Scope Q_scope.

Definition is_min (m : Q) (l : list Q) : Prop := m ∈ l /\ forall x, x ∈ l -> m <= x.
Definition is_max (m : Q) (l : list Q) : Prop := m ∈ l /\ forall x, x ∈ l -> x <= m.
(** d is the squared diagonal of the bounding box of the points. *)
Definition box_diagonal_sq (ks : list (Q * Q)) (d : Q) : Prop := exists u0 u1 v0 v1,
  is_min u0 (ks.*1) /\ is_max u1 (ks.*1) /\ is_min v0 (ks.*2) /\ is_max v1 (ks.*2) /\
  d == (u1 - u0) * (u1 - u0) + (v1 - v0) * (v1 - v0).
(** Smallest positive normal and largest finite double. *)
Definition tiny : Q := Qpower 2 (-1022).
Definition huge : Q := Qpower 2 1024 - Qpower 2 971.
