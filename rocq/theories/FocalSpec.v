(** Specification of views of a plane by a pinhole camera. *)
From Coq Require Import Reals.
Local Open Scope R_scope.

Record view := View { r11 : R; r21 : R; r31 : R; r12 : R; r22 : R; r32 : R; t1 : R; t2 : R; t3 : R }.
(** The axes of the plane are orthogonal unit vectors. *)
Definition rigid (v : view) : Prop :=
  r11 v ^ 2 + r21 v ^ 2 + r31 v ^ 2 = 1 /\ r12 v ^ 2 + r22 v ^ 2 + r32 v ^ 2 = 1 /\ r11 v * r12 v + r21 v * r22 v + r31 v * r32 v = 0.
(** The normal of the plane in the frame of the camera. *)
Definition normal (v : view) : R * R * R := (r21 v * r32 v - r31 v * r22 v, r31 v * r12 v - r11 v * r32 v, r11 v * r22 v - r21 v * r12 v).
Definition tilted (v : view) : Prop := let '(nx, ny, nz) := normal v in nx <> 0 /\ ny <> 0 /\ nz <> 0.
(** The point (x, y) of the plane is seen at (u / s, w / s). *)
Definition seen (fu fv cu cv : R) (v : view) (x y u w s : R) : Prop :=
  let X := r11 v * x + r12 v * y + t1 v in
  let Y := r21 v * x + r22 v * y + t2 v in
  let Z := r31 v * x + r32 v * y + t3 v in
  u = fu * X + cu * Z /\ w = fv * Y + cv * Z /\ s = Z.
(** The matrix maps every point of the plane to its image, up to a factor common to all points. *)
Definition maps_to_image (fu fv cu cv : R) (v : view) (H : nat -> nat -> R) : Prop :=
  exists k, k <> 0 /\ forall x y, exists u w s, seen fu fv cu cv v x y u w s /\
    H 0%nat 0%nat * x + H 0%nat 1%nat * y + H 0%nat 2%nat = k * u /\
    H 1%nat 0%nat * x + H 1%nat 1%nat * y + H 1%nat 2%nat = k * w /\
    H 2%nat 0%nat * x + H 2%nat 1%nat * y + H 2%nat 2%nat = k * s.
