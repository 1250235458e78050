(** Model of the Gaussian smoothing of the KAZE detector.

    Source: aslam_cv_detector/src/kaze/nldiffusion_functions.cpp ("nf") 31-49.

    Images are functions from row and column to real numbers (float in the code, without rounding), with the rows
    0 .. rows - 1 and the columns 0 .. cols - 1. The number sigma is a real number. cv::GaussianBlur is modelled for
    sigma > 0 and odd sizes: it correlates rows and columns with the sampled and normalized Gaussian of
    cv::getGaussianKernel, and repeats the border pixels. Sizes are taken without the conversion to int (nf 48). *)
From Coq Require Import Reals ZArith List.
Import ListNotations.
Local Open Scope R_scope.

Definition image := Z -> Z -> R.
(** [Undefined]: a negative number is converted to size_t. *)
Inductive outcome (A : Type) := Fine (a : A) | Undefined.
Arguments Fine {A}. Arguments Undefined {A}.
Definition bind {A B} (o : outcome A) (f : A -> outcome B) : outcome B := match o with Fine a => f a | Undefined => Undefined end.

(** ceil of a double. *)
Definition ceiling (r : R) : Z := (- Int_part (- r))%Z.
(** The size for a sigma, nf 36: converted from double to size_t. *)
Definition automatic (sigma : R) : outcome nat :=
  let v := ceiling (2 * (1 + (sigma - 8 / 10) / (3 / 10))) in
  if (v <? 0)%Z then Undefined else Fine (Z.to_nat v).
(** nf 41-42, 44-45. *)
Definition make_odd (n : nat) : nat := if (n mod 2 =? 0)%nat then (n + 1)%nat else n.
(** The sizes, nf 34-45. *)
Definition sizes (ksize_x ksize_y : nat) (sigma : R) : outcome (nat * nat) :=
  bind (if Rlt_dec (INR ksize_x) sigma then bind (automatic sigma) (fun n => Fine (n, n))
        else if Rlt_dec (INR ksize_y) sigma then bind (automatic sigma) (fun n => Fine (n, n))
        else if ((ksize_x =? 0) || (ksize_y =? 0))%nat%bool then bind (automatic sigma) (fun n => Fine (n, n))
        else Fine (ksize_x, ksize_y))
    (fun '(x, y) => Fine (make_odd x, make_odd y)).

(** cv::getGaussianKernel(n, sigma) for sigma > 0. *)
Definition bell (n : nat) (sigma : R) (t : nat) : R := exp (- (1 / (2 * sigma * sigma)) * ((INR t - (INR n - 1) / 2) * (INR t - (INR n - 1) / 2))).
Definition total (l : list R) : R := fold_right Rplus 0 l.
Definition gaussian_kernel (n : nat) (sigma : R) : list R :=
  map (fun t => bell n sigma t / total (map (bell n sigma) (seq 0 n))) (seq 0 n).
(** cv::borderInterpolate for BORDER_REPLICATE. *)
Definition clamp (len p : Z) : Z := if (p <? 0)%Z then 0%Z else if (len <=? p)%Z then (len - 1)%Z else p.
(** Correlation of a sequence with a kernel at its middle. *)
Definition correlate (k : list R) (f : Z -> R) : R :=
  total (map (fun t => nth t k 0 * f (Z.of_nat t - Z.of_nat (length k / 2))%Z) (seq 0 (length k))).
(** cv::GaussianBlur. *)
Definition blur (rows cols : Z) (src : image) (nx ny : nat) (sigma : R) : image :=
  fun y x => correlate (gaussian_kernel ny sigma) (fun j => correlate (gaussian_kernel nx sigma) (fun i => src (clamp rows (y + j)) (clamp cols (x + i)))).

(** gaussian_2D_convolution, nf 31-49. *)
Definition gaussian_2D_convolution (rows cols : Z) (src : image) (ksize_x ksize_y : nat) (sigma : R) : outcome image :=
  bind (sizes ksize_x ksize_y sigma) (fun '(nx, ny) => Fine (blur rows cols src nx ny sigma)).
