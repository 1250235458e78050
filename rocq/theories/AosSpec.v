(** Specification of the implicit step of nonlinear diffusion. *)
From Coq Require Import Reals Bool Arith.
Local Open Scope R_scope.

(** What flows into position i of a line of n pixels; [g i] is the conductivity between i and i + 1. *)
Definition line_inflow (n : nat) (g u : nat -> R) (i : nat) : R :=
  (if (i + 1 <? n)%nat then g i * (u (i + 1)%nat - u i) else 0) - (if (0 <? i)%nat then g (i - 1)%nat * (u i - u (i - 1)%nat) else 0).
(** Inflow from above and below, and from left and right, with the mean conductivity of the two pixels. *)
Definition vertical (rows : nat) (U c : nat -> nat -> R) (y x : nat) : R := line_inflow rows (fun i => (c i x + c (i + 1)%nat x) / 2) (fun i => U i x) y.
Definition horizontal (cols : nat) (U c : nat -> nat -> R) (y x : nat) : R := line_inflow cols (fun j => (c y j + c y (j + 1)%nat) / 2) (fun j => U y j) x.
(** [U] and [V] diffuse for twice the time along one direction only, implicitly: the flow is that of the result. *)
Definition implicit_rows (n : nat) (L c U : nat -> nat -> R) (t : R) : Prop := forall y x, (y < n)%nat -> (x < n)%nat -> U y x - 2 * t * vertical n U c y x = L y x.
Definition implicit_cols (n : nat) (L c V : nat -> nat -> R) (t : R) : Prop := forall y x, (y < n)%nat -> (x < n)%nat -> V y x - 2 * t * horizontal n V c y x = L y x.
