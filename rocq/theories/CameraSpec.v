(** Specification of projections. *)
From Coq Require Import Reals ZArith.
From Coquelicot Require Import Coquelicot.
From Verif Require Import CalculusSpec.
Local Open Scope R_scope.

(** The two rows are the derivative of f : R^3 -> R^2 at p. *)
Definition is_jacobian3 (f : R * R * R -> R * R) (p : R * R * R) (J : (R * R * R) * (R * R * R)) : Prop :=
  let '(x, y, z) := p in let '((a, b, c), (a', b', c')) := J in
  jac3 (fun x y z => fst (f (x, y, z))) x y z a b c /\ jac3 (fun x y z => snd (f (x, y, z))) x y z a' b' c'.
(** The two rows are the derivative of f : R^4 -> R^2 at p. *)
Definition is_jacobian_h (f : R * R * R * R -> R * R) (p : R * R * R * R) (J : (R * R * R * R) * (R * R * R * R)) : Prop :=
  let '(x, y, z, w) := p in let '((a, b, c, d), (a', b', c', d')) := J in
  jac4 (fun x y z w => fst (f (x, y, z, w))) x y z w a b c d /\ jac4 (fun x y z w => snd (f (x, y, z, w))) x y z w a' b' c' d'.
(** The two rows are the derivative of f (of five parameters). *)
Definition is_jacobian5 (f : R -> R -> R -> R -> R -> R * R) (k1 k2 k3 k4 k5 : R) (J : (R * R * R * R * R) * (R * R * R * R * R)) : Prop :=
  let '((a, b, c, d, e), (a', b', c', d', e')) := J in
  jac5 (fun k1 k2 k3 k4 k5 => fst (f k1 k2 k3 k4 k5)) k1 k2 k3 k4 k5 a b c d e /\
  jac5 (fun k1 k2 k3 k4 k5 => snd (f k1 k2 k3 k4 k5)) k1 k2 k3 k4 k5 a' b' c' d' e'.
(** The multiple of a vector. *)
Definition scale (s : R) (p : R * R * R) : R * R * R := let '(x, y, z) := p in (s * x, s * y, s * z).
Definition scale4 (s : R) (p : R * R * R * R) : R * R * R * R := let '(x, y, z, w) := p in (s * x, s * y, s * z, s * w).
(** The half-open rectangle of the image. *)
Definition in_image (w h : Z) (kp : R * R) : Prop := 0 <= fst kp < IZR w /\ 0 <= snd kp < IZR h.
(** The squared length. *)
Definition sqnorm (p : R * R * R) : R := let '(x, y, z) := p in x * x + y * y + z * z.
