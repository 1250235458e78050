(** Specification of rectangles and their pixels. *)
From Coq Require Import ZArith Reals.
Local Open Scope R_scope.

(** A rectangle around the segment from (xa, ya) to (xb, yb) with the unit direction (dx, dy). *)
Definition covers (xa ya xb yb width dx dy : R) (x y : R) : Prop :=
  exists t s, 0 <= t <= 1 /\ Rabs s <= width / 2 /\ x = xa + t * (xb - xa) - s * dy /\ y = ya + t * (yb - ya) + s * dx.
