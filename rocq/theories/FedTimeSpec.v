(** Specification of a cycle of fast explicit diffusion. *)
From Coq Require Import Reals List.
Import ListNotations.
Local Open Scope R_scope.

Definition sum_of (l : list R) : R := fold_right Rplus 0 l.
(** The factor by which a cycle with the given steps multiplies a component of the image that decays with rate [lambda]. *)
Definition gain (steps : list R) (lambda : R) : R := fold_right Rmult 1 (map (fun t => 1 - t * lambda) steps).
