(** What RANSAC on point pairs promises, independent of the implementation. *)
From Coq Require Import Reals List Permutation Arith Sorted.
From Verif Require Import TriangulationModel.
Import ListNotations.
Local Open Scope R_scope.

Definition squared (v : vec3) : R := dot3 v v.
(** A pair agrees with a transformation if the error is at most the threshold times the length of the second point. *)
Definition agrees (threshold : R) (T : transformation) (p1 p2 : vec3) : Prop := sqrt (squared (sub3 (transform T p1) p2)) <= threshold * sqrt (squared p2).
(** The list of the indices of all agreeing pairs, in increasing order. *)
Definition agreeing (threshold : R) (T : transformation) (ps1 ps2 : list vec3) (ins : list nat) : Prop :=
  StronglySorted lt ins /\
  forall i, In i ins <-> exists p1 p2, nth_error ps1 i = Some p1 /\ nth_error ps2 i = Some p2 /\ agrees threshold T p1 p2.
(** The pixel and the axis of an ideal camera with equal focal lengths: one minus the cosine of the angle between the ray of a pixel at offset
    (dx, dy) from the principal point and the optical axis. *)
Definition axis_error (f dx dy : R) : R := 1 - 1 / sqrt ((dx / f) * (dx / f) + (dy / f) * (dy / f) + 1).
