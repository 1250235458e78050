(** Model of the comparison of images.

    Source: aslam_cv_common/include/aslam/common/opencv-predicates.h ("op").

    Simplifications: the scalars of an image are real numbers (whole ones for integral images) or not finite; the texts of the
    failures are not modelled, only success or failure; float rounding in the comparison is not modelled. *)
From Coq Require Import Reals List Bool Arith.
Import ListNotations.
Local Open Scope R_scope.

(** The depths of cv::Mat. *)
Inductive depth := U8 | S8 | U16 | S16 | S32 | F32 | F64.
Definition depth_dec (a b : depth) : {a = b} + {a <> b}. Proof. decide equality. Defined.
(** A scalar of the data. *)
Inductive value := Number (x : R) | NotFinite.
(** cv::Mat: [scalar r i] is the i-th scalar of row r; the channels of a pixel are adjacent, a row has cols * channels scalars. *)
Record image := { rows : nat; cols : nat; channels : nat; kind : depth; scalar : nat -> nat -> value }.

(** Eigen::internal::isApprox for one scalar, used in op 67: whole numbers are compared for equality, the tolerance is not
    used; floating point numbers are compared relative to the smaller absolute value. *)
Definition is_approx (k : depth) (tolerance a b : R) : bool :=
  match k with
  | F32 | F64 => if Rle_dec (Rabs (a - b)) (Rmin (Rabs a) (Rabs b) * tolerance) then true else false
  | _ => if Req_EM_T a b then true else false
  end.

(** TestTolerance, op 21-36. *)
Definition default_tolerance (k : depth) : R := match k with F32 => / 10 ^ 8 | F64 => / 10 ^ 15 | _ => 0 end.

(** op 65-67. *)
Definition value_ok (k : depth) (tolerance : R) (a b : value) : bool :=
  match a, b with Number x, Number y => is_approx k tolerance x y | _, _ => false end.

(** ImagesEqualTyped, op 39-102. [&A.at<Scalar>(r, c)] is the address of scalar number c of the row (not of pixel c),
    so [(&A.at<Scalar>(r, c))[ch]] is scalar number c + ch. *)
Definition equal_typed (A B : image) (tolerance : R) : bool :=
  Nat.eqb (rows A) (rows B) && Nat.eqb (cols A) (cols B) && Nat.eqb (channels A) (channels B) &&
  (let tolerance := if Rlt_dec tolerance 0 then default_tolerance (kind A) else tolerance in
   forallb (fun r => forallb (fun c => forallb (fun ch =>
     value_ok (kind A) tolerance (scalar A r (c + ch)) (scalar B r (c + ch)))
     (seq 0 (channels A))) (seq 0 (cols A))) (seq 0 (rows A))).

(** ImagesEqual, op 108-138: the type is the depth with the number of channels. *)
Definition images_equal (A B : image) (tolerance : R) : bool :=
  if depth_dec (kind A) (kind B) then
    if Nat.eqb (channels A) (channels B) then
      match kind A with
      | U8 | S8 | U16 | S16 | S32 | F32 => equal_typed A B tolerance
      | F64 => false
      end
    else false
  else false.

(** ImagesEqual with two arguments, op 144-147. *)
Definition images_equal_default (A B : image) : bool := images_equal A B (-1).
