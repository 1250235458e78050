(** Model of the derivatives and of the detector response of KAZE.

    Sources: aslam_cv_detector/src/kaze/nldiffusion_functions.cpp ("nf") 204-254, aslam_cv_detector/src/kaze/KAZE.cpp ("kz") 196-253.

    Images are functions from row and column to real numbers (float in the code, without rounding), defined for the rows
    0 .. rows - 1 and the columns 0 .. cols - 1. cv::sepFilter2D correlates with both kernels, their centre is the anchor,
    and uses the border BORDER_REFLECT_101; cv::getDerivKernels with aperture 0 (CV_SCHARR is -1, "ksize <= 0") gives the
    normalized Scharr kernels for the orders (1, 0) and (0, 1) and throws otherwise. *)
From Coq Require Import Reals ZArith List.
Import ListNotations.
Local Open Scope R_scope.

Definition image := Z -> Z -> R.
Inductive outcome (A : Type) :=
  | Fine (a : A)
  | Throw       (** cv::Exception *)
  | Overflow    (** write beyond the end of kerI *)
  | Infinite.   (** the kernel has the factor 1 / 0 *)
Arguments Fine {A}. Arguments Throw {A}. Arguments Overflow {A}. Arguments Infinite {A}.

(** cv::borderInterpolate for BORDER_REFLECT_101: the index is reflected at 0 and at len - 1 until it is inside. *)
Definition reflect (len p : Z) : Z :=
  if (len =? 1)%Z then 0%Z
  else let m := (p mod (2 * (len - 1)))%Z in if (m <? len)%Z then m else (2 * (len - 1) - m)%Z.

(** Correlation of a sequence with a kernel at the anchor. *)
Definition correlate (k : list R) (f : Z -> R) : R :=
  fold_right Rplus 0 (map (fun t => nth t k 0 * f (Z.of_nat t - Z.of_nat (length k / 2))%Z) (seq 0 (length k))).
(** cv::sepFilter2D. *)
Definition sep_filter (rows cols : Z) (src : image) (kx ky : list R) : image :=
  fun y x => correlate ky (fun j => correlate kx (fun i => src (reflect rows (y + j)) (reflect cols (x + i)))).

(** kerI for one order, nf 229-248; the entries 0, ksize / 2 and ksize - 1 are different. *)
Definition kernel (scale order : nat) : list R :=
  let ksize := (2 * scale + 1)%nat in
  let w := 10 / 3 in
  let norm := 1 / (2 * INR scale * (w + 2)) in
  map (fun t =>
    match order with
    | 0%nat => if Nat.eqb t (ksize - 1) then norm else if Nat.eqb t (ksize / 2) then w * norm else if Nat.eqb t 0 then norm else 0
    | 1%nat => if Nat.eqb t (ksize - 1) then 1 else if Nat.eqb t (ksize / 2) then 0 else if Nat.eqb t 0 then -1 else 0
    | _ => 0
    end) (seq 0 ksize).
(** getScharrKernels of OpenCV for one order, normalized: {3, 10, 3} / 32 and {-1, 0, 1}. *)
Definition scharr (order : nat) : list R := match order with 0%nat => [3 / 32; 10 / 32; 3 / 32] | _ => [-1; 0; 1] end.
(** compute_derivative_kernels, nf 214-254. For scale 0, ksize = 3 + 2 * (scale - 1) is 1 (size_t wraps) and norm is 1 / 0;
    kerI has 1000 entries. *)
Definition derivative_kernels (dx dy scale : nat) : outcome (list R * list R) :=
  match scale with
  | 0%nat => Infinite
  | 1%nat => if Nat.eqb (dx + dy) 1 then Fine (scharr dx, scharr dy) else Throw
  | _ => if Nat.ltb 1000 (2 * scale + 1) then Overflow else Fine (kernel scale dx, kernel scale dy)
  end.
(** compute_scharr_derivatives, nf 204-211. *)
Definition scharr_derivative (rows cols : Z) (src : image) (dx dy scale : nat) : outcome image :=
  match derivative_kernels dx dy scale with
  | Fine (kx, ky) => Fine (sep_filter rows cols src kx ky)
  | Throw => Throw
  | Overflow => Overflow
  | Infinite => Infinite
  end.

Definition bind {A B} (o : outcome A) (f : A -> outcome B) : outcome B :=
  match o with Fine a => f a | Throw => Throw | Overflow => Overflow | Infinite => Infinite end.
Definition scale_image (k : R) (a : image) : image := fun y x => k * a y x.
(** The derivatives of one level of the evolution. *)
Record derivatives := { Lx : image; Ly : image; Lxx : image; Lyy : image; Lxy : image }.
(** Compute_Multiscale_Derivatives for one level, kz 211-222. *)
Definition multiscale_derivatives (rows cols : Z) (Lsmooth : image) (sigma_size : nat) : outcome derivatives :=
  bind (scharr_derivative rows cols Lsmooth 1 0 sigma_size) (fun lx =>
  bind (scharr_derivative rows cols Lsmooth 0 1 sigma_size) (fun ly =>
  bind (scharr_derivative rows cols lx 1 0 sigma_size) (fun lxx =>
  bind (scharr_derivative rows cols ly 0 1 sigma_size) (fun lyy =>
  bind (scharr_derivative rows cols lx 0 1 sigma_size) (fun lxy =>
  let s := INR sigma_size in
  Fine {| Lx := scale_image s lx; Ly := scale_image s ly; Lxx := scale_image (s * s) lxx; Lyy := scale_image (s * s) lyy;
          Lxy := scale_image (s * s) lxy |}))))).
(** Compute_Detector_Response for one level, kz 240-251. *)
Definition response (d : derivatives) : image := fun y x => Lxx d y x * Lyy d y x - Lxy d y x * Lxy d y x.
