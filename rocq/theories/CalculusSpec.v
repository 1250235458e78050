(** Specification of Jacobians: partial derivatives that describe the change along every differentiable curve.

    "J is the derivative of f at p" means: for every curve through p that is differentiable there, the composition
    with f is differentiable and its derivative is J times the velocity. For functions of several real
    variables this is the usual (total) differentiability; it is stronger than the existence of partial derivatives. *)
From Coq Require Import Reals.
From Coquelicot Require Import Coquelicot.
Local Open Scope R_scope.

Definition jac1 (f : R -> R) (x a : R) : Prop :=
  forall (X : R -> R) (t dX : R), is_derive X t dX -> X t = x -> is_derive (fun s => f (X s)) t (a * dX).
Definition jac2 (f : R -> R -> R) (x y a b : R) : Prop :=
  forall (X Y : R -> R) (t dX dY : R), is_derive X t dX -> is_derive Y t dY -> X t = x -> Y t = y ->
  is_derive (fun s => f (X s) (Y s)) t (a * dX + b * dY).
Definition jac3 (f : R -> R -> R -> R) (x y z a b c : R) : Prop :=
  forall (X Y Z : R -> R) (t dX dY dZ : R), is_derive X t dX -> is_derive Y t dY -> is_derive Z t dZ ->
  X t = x -> Y t = y -> Z t = z -> is_derive (fun s => f (X s) (Y s) (Z s)) t (a * dX + b * dY + c * dZ).
Definition jac4 (f : R -> R -> R -> R -> R) (x y z w a b c d : R) : Prop :=
  forall (X Y Z W : R -> R) (t dX dY dZ dW : R), is_derive X t dX -> is_derive Y t dY -> is_derive Z t dZ -> is_derive W t dW ->
  X t = x -> Y t = y -> Z t = z -> W t = w ->
  is_derive (fun s => f (X s) (Y s) (Z s) (W s)) t (a * dX + b * dY + c * dZ + d * dW).
Definition jac5 (f : R -> R -> R -> R -> R -> R) (x y z w v a b c d e : R) : Prop :=
  forall (X Y Z W V : R -> R) (t dX dY dZ dW dV : R), is_derive X t dX -> is_derive Y t dY -> is_derive Z t dZ ->
  is_derive W t dW -> is_derive V t dV -> X t = x -> Y t = y -> Z t = z -> W t = w -> V t = v ->
  is_derive (fun s => f (X s) (Y s) (Z s) (W s) (V s)) t (a * dX + b * dY + c * dZ + d * dW + e * dV).
