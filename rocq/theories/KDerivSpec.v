(** Vocabulary for C117: images, their partial derivatives, and operations on images. *)
From Coq Require Import Reals ZArith.
From Verif Require Import KDerivModel.
Local Open Scope R_scope.

(** A polynomial of degree two in column and row. *)
Definition quadratic (c cx cy cxx cxy cyy : R) : image :=
  fun y x => c + cx * IZR x + cy * IZR y + cxx * (IZR x * IZR x) + cxy * (IZR x * IZR y) + cyy * (IZR y * IZR y).
(** The pixel is at least [m] pixels from the border pixels. *)
Definition inside (rows cols m y x : Z) : Prop := (m <= y < rows - m)%Z /\ (m <= x < cols - m)%Z.
(** Both images agree inside of the image. *)
Definition agree (rows cols : Z) (a b : image) : Prop := forall y x, inside rows cols 0 y x -> a y x = b y x.
Definition transposed (a : image) : image := fun y x => a x y.
Definition mirrored (cols : Z) (a : image) : image := fun y x => a y (cols - 1 - x)%Z.
(** Another brightness and contrast. *)
Definition adjusted (k b : R) (a : image) : image := fun y x => k * a y x + b.
