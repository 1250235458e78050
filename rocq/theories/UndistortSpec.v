(** Specification of undistortion: the sampled image, rectangles and positions in fixed point. *)
From Coq Require Import Reals ZArith List.
From Flocq Require Import Core.
From Verif Require Import DistortionModel CameraModel UndistortModel.
Local Open Scope R_scope.

(** [a] is the largest (smallest) of the numbers with property [P]. *)
Definition is_max (P : R -> Prop) (a : R) : Prop := P a /\ forall x, P x -> x <= a.
Definition is_min (P : R -> Prop) (a : R) : Prop := P a /\ forall x, P x -> a <= x.
(** The pixel [m] of an output image of [n] columns that sees the normalised coordinate [x]. *)
Definition in_view (f c : R) (n : Z) (x : R) : Prop := 0 <= f * x + c <= IZR n - 1.
(** The position meant by an entry of a fixed-point map, as read by cv::remap: the index selects a fraction of 1/32 pixel in each direction. *)
Definition fixed_position (e : Z * Z * Z) : R * R :=
  let '(a, b, k) := e in (IZR a + IZR (k mod 32) / 32, IZR b + IZR (k / 32) / 32).

(** The grid of 9 x 9 keypoints from one corner of the image to the other, in whole pixels. *)
Definition grid_point (s : image_size) (x y : nat) : R * R := (IZR (Zfloor (INR x * IZR (width s) / 8)), IZR (Zfloor (INR y * IZR (height s) / 8))).
(** The first (second) coordinates of the grid points in the columns (rows) [P], after normalisation. *)
Definition xs_of (norm : R * R -> R * R) (s : image_size) (P : nat -> Prop) (a : R) : Prop := exists x y, (x <= 8 /\ y <= 8)%nat /\ P x /\ a = fst (norm (grid_point s x y)).
Definition ys_of (norm : R * R -> R * R) (s : image_size) (P : nat -> Prop) (a : R) : Prop := exists x y, (x <= 8 /\ y <= 8)%nat /\ P y /\ a = snd (norm (grid_point s x y)).
(** The greatest single-precision number. *)
Definition greatest : R := 340282346638528859811704183484516925440.
(** All normalised grid points are representable as floats. *)
Definition moderate (norm : R * R -> R * R) (s : image_size) : Prop :=
  forall x y, (x <= 8 /\ y <= 8)%nat -> Rabs (fst (norm (grid_point s x y))) <= greatest /\ Rabs (snd (norm (grid_point s x y))) <= greatest.
