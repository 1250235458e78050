(** Specification of keypoints. *)
From Coq Require Import ZArith Reals List.
Local Open Scope Z_scope.

(** No value within one level, row and column is greater. *)
Definition local_maximum (v : Z -> Z -> Z -> Z) (l y x : Z) : Prop :=
  forall dl dy dx, Z.abs dl <= 1 -> Z.abs dy <= 1 -> Z.abs dx <= 1 -> v (l + dl) (y + dy) (x + dx) <= v l y x.
Definition squared_distance (x y x' y' : Z) : Z := (x - x') * (x - x') + (y - y') * (y - y').
(** A quadratic function of x, y and level, and its gradient. *)
Local Open Scope R_scope.
Definition quadratic (c gx gy gs hxx hyy hss hxy hxs hys x y s : R) : R :=
  c + gx * x + gy * y + gs * s + hxx / 2 * (x * x) + hyy / 2 * (y * y) + hss / 2 * (s * s) + hxy * (x * y) + hxs * (x * s) + hys * (y * s).
Definition stationary (gx gy gs hxx hyy hss hxy hxs hys x y s : R) : Prop :=
  gx + hxx * x + hxy * y + hxs * s = 0 /\ gy + hxy * x + hyy * y + hys * s = 0 /\ gs + hxs * x + hys * y + hss * s = 0.
