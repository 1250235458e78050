(** Specification of Jacobians of maps of the plane. *)
From Coq Require Import Reals.
From Coquelicot Require Import Coquelicot.
From Verif Require Import CalculusSpec.
Local Open Scope R_scope.

(** J (rows) is the derivative of f at p. *)
Definition is_jacobian (f : R * R -> R * R) (p : R * R) (J : (R * R) * (R * R)) : Prop :=
  jac2 (fun x y => fst (f (x, y))) (fst p) (snd p) (fst (fst J)) (snd (fst J)) /\
  jac2 (fun x y => snd (f (x, y))) (fst p) (snd p) (fst (snd J)) (snd (snd J)).
(** The rows are the derivative of f (of four parameters) at k1 .. k4. *)
Definition is_jacobian4 (f : R -> R -> R -> R -> R * R) (k1 k2 k3 k4 : R) (J : (R * R * R * R) * (R * R * R * R)) : Prop :=
  let '((a, b, c, d), (a', b', c', d')) := J in
  jac4 (fun k1 k2 k3 k4 => fst (f k1 k2 k3 k4)) k1 k2 k3 k4 a b c d /\
  jac4 (fun k1 k2 k3 k4 => snd (f k1 k2 k3 k4)) k1 k2 k3 k4 a' b' c' d'.
(** The squared Euclidean distance. *)
Definition dist2 (p q : R * R) : R := (fst p - fst q) * (fst p - fst q) + (snd p - snd q) * (snd p - snd q).
(** The distance from the centre. *)
Definition radius (p : R * R) : R := sqrt (fst p * fst p + snd p * snd p).
