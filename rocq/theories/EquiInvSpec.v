(** Specification of the inverse of the equidistant distortion: the distorted distance from the centre as a function of the undistorted one. *)
From Coq Require Import Reals.
Local Open Scope R_scope.

(** The distorted distance of a point at the angle [th] from the axis. *)
Definition bent (k1 k2 k3 k4 th : R) : R := th + k1 * th ^ 3 + k2 * th ^ 5 + k3 * th ^ 7 + k4 * th ^ 9.
(** Its first and second derivative. *)
Definition bent' (k1 k2 k3 k4 th : R) : R := 1 + 3 * k1 * th ^ 2 + 5 * k2 * th ^ 4 + 7 * k3 * th ^ 6 + 9 * k4 * th ^ 8.
Definition bent'' (k1 k2 k3 k4 th : R) : R := 6 * k1 * th + 20 * k2 * th ^ 3 + 42 * k3 * th ^ 5 + 72 * k4 * th ^ 7.
(** As a function of the undistorted distance, and the derivative (see eix_slope). *)
Definition outward (k1 k2 k3 k4 s : R) : R := bent k1 k2 k3 k4 (atan s).
Definition slope (k1 k2 k3 k4 s : R) : R := bent' k1 k2 k3 k4 (atan s) / (1 + s * s).
(** Up to the distance [r] the lens compresses more and more, but does not fold. *)
Definition flattening (k1 k2 k3 k4 r : R) : Prop := forall s t, 0 <= s -> s <= t -> t <= r -> 0 < slope k1 k2 k3 k4 t <= slope k1 k2 k3 k4 s.
Definition scaled (m : R) (p : R * R) : R * R := (m * fst p, m * snd p).
