(** What smoothing means. *)
From Coq Require Import Reals ZArith Arith.
Local Open Scope R_scope.

Definition pixel (rows cols y x : Z) : Prop := (0 <= y < rows)%Z /\ (0 <= x < cols)%Z.
(** At least [ry] rows and [rx] columns from the border. *)
Definition inside (rows cols ry rx y x : Z) : Prop := (ry <= y < rows - ry)%Z /\ (rx <= x < cols - rx)%Z.
Definition between (lo hi : R) (rows cols : Z) (a : Z -> Z -> R) : Prop := forall y x, pixel rows cols y x -> lo <= a y x <= hi.
Definition affine (c cx cy : R) : Z -> Z -> R := fun y x => c + cx * IZR x + cy * IZR y.
(** One bright pixel. *)
Definition impulse (v u : Z) : Z -> Z -> R := fun y x => if ((y =? v) && (x =? u))%Z%bool then 1 else 0.
(** The smallest odd number that is at least r. *)
Definition smallest_odd (r : R) (n : nat) : Prop := Nat.Odd n /\ r <= INR n /\ forall m, Nat.Odd m -> r <= INR m -> (n <= m)%nat.
