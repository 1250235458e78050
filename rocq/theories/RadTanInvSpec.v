(** Specification of the inverse of the radial-tangential distortion: plane vectors and how strongly the distortion bends. *)
From Coq Require Import Reals.
From Verif Require Import DistortionSpec.
Local Open Scope R_scope.

Definition diff (a b : R * R) : R * R := (fst a - fst b, snd a - snd b).
(** The distance of two points. *)
Definition distance (a b : R * R) : R := radius (diff a b).
(** Bounds the derivative of "distorted minus undistorted" up to the distance [r] from the centre (see rix_bend). *)
Definition bend (k1 k2 p1 p2 r : R) : R := 3 * Rabs k1 * r ^ 2 + 5 * Rabs k2 * r ^ 4 + 6 * sqrt (p1 * p1 + p2 * p2) * r.
(** A matrix, given by its rows, applied to a vector. *)
Definition apply2 (F : (R * R) * (R * R)) (v : R * R) : R * R := (fst (fst F) * fst v + snd (fst F) * snd v, fst (snd F) * fst v + snd (snd F) * snd v).
