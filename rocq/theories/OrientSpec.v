(** Specification of directions and of sums over a range of directions. *)
From Coq Require Import Reals List.
Import ListNotations.
Local Open Scope R_scope.

(** The direction of a vector that is not zero. *)
Definition direction (x y t : R) : Prop := 0 <= t < 2 * PI /\ exists r, 0 < r /\ x = r * cos t /\ y = r * sin t.
(** Directions less than 60 degrees after a, without and with a itself. *)
Definition after (a t : R) : Prop := a < t < a + PI / 3 \/ a < t + 2 * PI < a + PI / 3.
Definition from (a t : R) : Prop := a <= t < a + PI / 3 \/ a <= t + 2 * PI < a + PI / 3.
(** The sum of the vectors whose direction is in a range. *)
Inductive sum_over (range : R -> Prop) : list (R * R) -> R -> R -> Prop :=
| sum_nil : sum_over range [] 0 0
| sum_in x y l X Y t : direction x y t -> range t -> sum_over range l X Y -> sum_over range ((x, y) :: l) (x + X) (y + Y)
| sum_out x y l X Y t : direction x y t -> ~ range t -> sum_over range l X Y -> sum_over range ((x, y) :: l) X Y
| sum_zero l X Y : sum_over range l X Y -> sum_over range ((0, 0) :: l) X Y.
Definition squared (X Y : R) : R := X * X + Y * Y.
