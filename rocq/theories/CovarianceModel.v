(** Model of the rotation of covariances of transformations.

    Source: aslam_cv_common/src/covariance-helpers.cc ("ch") 6-17.

    Doubles are real numbers. A 6 x 6 matrix is a function of row and column (indices from 6 on are not used). The rotation matrix is the one of PredictModel.rotate, written out as
    coefficients; the translation is not used by the code. *)
From Coq Require Import Reals Arith.
From Verif Require Import PredictModel.
Local Open Scope R_scope.

Definition matrix : Type := nat -> nat -> R.
(** The sum of [f 0] to [f (n - 1)]. *)
Fixpoint sum (n : nat) (f : nat -> R) : R := match n with O => 0 | S m => sum m f + f m end.
Definition product (a b : matrix) : matrix := fun i j => sum 6 (fun k => a i k * b k j).
Definition transpose (a : matrix) : matrix := fun i j => a j i.
Definition identity : matrix := fun i j => if (i =? j)%nat then 1 else 0.
(** getRotationMatrix() of the quaternion: its columns are the images of the axes. *)
Definition coordinate (i : nat) (v : R * R * R) : R := let '(x, y, z) := v in match i with O => x | 1%nat => y | _ => z end.
Definition axis (j : nat) : R * R * R := match j with O => (1, 0, 0) | 1%nat => (0, 1, 0) | _ => (0, 0, 1) end.
Definition rotation_matrix (q : quaternion) : matrix := fun i j => coordinate i (rotate q (axis j)).
(** block<3, 3>(r, r) = b. *)
Definition set_block (r : nat) (b a : matrix) : matrix :=
  fun i j => if ((r <=? i) && (i <? r + 3) && (r <=? j) && (j <? r + 3))%nat%bool then b (i - r)%nat (j - r)%nat else a i j.
(** covariance_transformation_B_A, ch 10-13. *)
Definition covariance_transformation (q : quaternion) : matrix := set_block 3 (rotation_matrix q) (set_block 0 (rotation_matrix q) identity).
(** rotateCovariance, ch 6-16. *)
Definition rotate_covariance (q : quaternion) (a : matrix) : matrix := product (product (covariance_transformation q) a) (transpose (covariance_transformation q)).
