(** Specification of derivatives along a coordinate. *)
From Coq Require Import Reals List.
Import ListNotations.
Local Open Scope R_scope.

(** The point x moved by t along coordinate j. *)
Definition moved (x : list R) (j : nat) (t : R) : list R := map (fun k => if Nat.eqb k j then nth k x 0 + t else nth k x 0) (seq 0 (length x)).
(** [d k] is the k-th derivative of f along coordinate j (component i), up to the n-th, for points nearer than a. *)
Definition derivatives (f : list R -> nat -> R) (x : list R) (i j n : nat) (a : R) (d : nat -> R -> R) : Prop :=
  (forall t, - a <= t <= a -> d 0%nat t = f (moved x j t) i) /\
  (forall k t, (k < n)%nat -> - a <= t <= a -> derivable_pt_lim (d k) t (d (S k) t)).
(** The n-th derivative is bounded by M there. *)
Definition bounded (d : nat -> R -> R) (n : nat) (a M : R) : Prop := forall t, - a <= t <= a -> Rabs (d n t) <= M.
(** Distance between the points at which a function is evaluated: relative to the coordinate, the square root of the argument, but not less than that of the machine precision. *)
Definition distance (epsfcn xj : R) : R := sqrt (Rmax epsfcn (/ 2 ^ 52)) * (if Req_EM_T xj 0 then 1 else Rabs xj).
