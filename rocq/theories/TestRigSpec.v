(** Specification of camera rigs: where a camera is and where it looks, in the frame of the body. *)
From Coq Require Import Reals.
From Verif Require Import TestRigModel.
Local Open Scope R_scope.

(** A rotation: the rows are unit vectors at right angles, and the third is the cross product of the others. *)
Definition rotation (m : mat) : Prop := let '(a, b, c) := m in dot a a = 1 /\ dot b b = 1 /\ dot a b = 0 /\
  c = (let '(a1, a2, a3) := a in let '(b1, b2, b3) := b in (a2 * b3 - a3 * b2, a3 * b1 - a1 * b3, a1 * b2 - a2 * b1)).
(** The centre of the camera: the point that is its origin. *)
Definition centre (T : transformation) (p : vec) : Prop := transform T p = (0, 0, 0).
(** The direction in which the camera looks, and the direction in which its rows increase. *)
Definition looks (T : transformation) (d : vec) : Prop := forall p s, centre T p -> transform T (plus p (let '(a, b, c) := d in (s * a, s * b, s * c))) = (0, 0, s).
Definition downwards (T : transformation) (d : vec) : Prop := forall p s, centre T p -> transform T (plus p (let '(a, b, c) := d in (s * a, s * b, s * c))) = (0, s, 0).
