(** Specification of the filters of line segments and of the intersection of lines. *)
From Coq Require Import ZArith Reals List.
Import ListNotations.
Local Open Scope R_scope.

Definition segment : Type := (Z * Z * Z * Z)%type.

(** [out] are the elements with the property in the same order, [n] is the number of the others. *)
Inductive chosen {A} (P : A -> Prop) : list A -> list A -> nat -> Prop :=
| chosen_nil : chosen P [] [] 0
| chosen_keep v l out n : P v -> chosen P l out n -> chosen P (v :: l) (v :: out) n
| chosen_drop v l out n : ~ P v -> chosen P l out n -> chosen P (v :: l) out (S n).

(** The distance of the ends. *)
Definition has_length (s : segment) (d : R) : Prop :=
  let '(xa, ya, xb, yb) := s in 0 <= d /\ d * d = (IZR xb - IZR xa) ^ 2 + (IZR yb - IZR ya) ^ 2.
Definition within_limits (min max : option R) (s : segment) : Prop :=
  exists d, has_length s d /\ (forall m, min = Some m -> m <= d) /\ (forall m, max = Some m -> d < m).

(** The line through the segment goes in the direction of the angle, in degrees; a point goes in direction 0. *)
Definition has_angle (s : segment) (a : R) : Prop :=
  let '(xa, ya, xb, yb) := s in
  0 <= a < 180 /\
  ((xa = xb /\ ya = yb /\ a = 0) \/
   exists t, t <> 0 /\ IZR xb - IZR xa = t * cos (a * (PI / 180)) /\ IZR yb - IZR ya = t * sin (a * (PI / 180))).
Definition angle_between (min max : R) (s : segment) : Prop := exists a, has_angle s a /\ min <= a <= max.

Definition reversed (s : segment) : segment := let '(xa, ya, xb, yb) := s in (xb, yb, xa, ya).

(** The points of the line through the segment. *)
Definition on_line (s : segment) (x y : R) : Prop :=
  let '(xa, ya, xb, yb) := s in exists t, x = IZR xa + t * (IZR xb - IZR xa) /\ y = IZR ya + t * (IZR yb - IZR ya).
Definition is_line (s : segment) : Prop := let '(xa, ya, xb, yb) := s in (xa, ya) <> (xb, yb).
Definition meet_at (s u : segment) (x y : R) : Prop :=
  on_line s x y /\ on_line u x y /\ forall x' y', on_line s x' y' -> on_line u x' y' -> x' = x /\ y' = y.
(** The number without its fraction. *)
Definition cut_to (z : Z) (r : R) : Prop := Rabs (IZR z) <= Rabs r < Rabs (IZR z) + 1 /\ 0 <= IZR z * r.
