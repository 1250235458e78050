(** Specification of the segments found by the line segment detector. *)
From Coq Require Import ZArith Reals List.
Import ListNotations.
From Verif Require Import LsdRegionSpec LsdRectSpec.
Local Open Scope R_scope.

(** No pixel supports two segments, or one segment twice. *)
Definition disjoint_supports (supports : list (list (Z * Z))) : Prop := NoDup (concat supports).
(** The pixels of a support are in the image and have a direction. *)
Definition directed (w h : Z) (ang : Z * Z -> option R) (l : list (Z * Z)) : Prop := forall p, In p l -> in_image w h p /\ ang p <> None.
(** A segment from (xa, ya) to (xb, yb) of the width wid along the best line through its pixels. *)
Definition fitted (grad : Z * Z -> R) (l : list (Z * Z)) (xa ya xb yb wid : R) : Prop :=
  exists cx cy dx dy b, centroid grad l cx cy /\ best_axis grad l cx cy dx dy /\ spans l cx cy dx dy xa ya xb yb /\ breadth l cx cy dx dy b /\ wid = Rmax 1 b.
(** A rectangle of the given length and width is filled to the given share by n pixels. *)
Definition filled_to (share xa ya xb yb wid : R) (n : nat) : Prop := share * (sqrt ((xb - xa) ^ 2 + (yb - ya) ^ 2) * wid) <= INR n.

(** The standard deviation of some numbers. *)
Definition sum (l : list R) : R := fold_right Rplus 0 l.
Definition mean (l : list R) : R := sum l / INR (length l).
Definition deviation (l : list R) : R := sqrt (mean (map (fun v => (v - mean l) ^ 2) l)).
(** The integer coordinate n of the original image means the coordinate v of the scaled image: pixel centres are at halves, and n is at most one pixel nearer to zero. *)
Definition means_coordinate (scale : R) (n : Z) (v : R) : Prop := exists c, scale * c = v + / 2 /\ Rabs (IZR n) <= Rabs c /\ Rabs (c - IZR n) < 1.
