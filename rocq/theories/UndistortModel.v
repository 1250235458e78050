(** Model of the undistortion of images: the new camera matrix and the undistortion maps.

    Source: aslam_cv_common/include/aslam/common/undistort-helpers.h ("uh") 28-216, aslam_cv_pipeline/include/aslam/pipeline/undistorter-mapped-inl.h ("umi") 37-93,
            aslam_cv_pipeline/src/undistorter-mapped.cc ("um") 11-46; constants of OpenCV: INTER_BITS = 5, INTER_TAB_SIZE = 32, saturate_cast<int>(double) = cvRound.

    Doubles and floats are real numbers (no rounding), except for the final conversion to fixed point. The multiplication of a sample number and an image size is done
    in uint32_t, the model is for sizes below 2^29. The width of a rectangle must not be zero: the divisions by zero of uh 133-142 give [x / 0] of the real
    numbers of Coq, theorems exclude it. A camera is the pair of functions of PredictModel.v. *)
From Coq Require Import Reals ZArith List Bool SpecFloat.
From Flocq Require Import Core.
From Verif Require Import DistortionModel CameraModel PredictModel.
Import ListNotations.
Local Open Scope R_scope.

(** ** Rectangles, uh 28-107 *)
(** The keypoint of sample x, y of the 9 x 9 grid; integer division, uh 38-39. *)
Definition sample (s : image_size) (x y : nat) : vec2 := (IZR (Z.of_nat x * width s / 8), IZR (Z.of_nat y * height s / 8)).
(** Normalised keypoint without projection effects, uh 77-80; fu, fv, cu, cv of the camera matrix. *)
Definition normalise (D : distortion) (c : pinhole) (kp : vec2) : vec2 :=
  undistort D (1 / p_fu c * (fst kp - p_cu c), 1 / p_fv c * (snd kp - p_cv c)).
(** With projection effects, uh 68-73. *)
Definition normalise_to_pinhole (cam : camera) (kp : vec2) : vec2 :=
  let '(x, y, z) := fst (back_project3 cam kp) in (x / z, y / z).
(** FLT_MAX. *)
Definition flt_max : R := (2 - / 2 ^ 23) * 2 ^ 127.
Record bounds := Bounds { i_x0 : R; i_x1 : R; i_y0 : R; i_y1 : R; o_x0 : R; o_x1 : R; o_y0 : R; o_y1 : R }.
(** uh 86-87. *)
Definition no_bounds : bounds := Bounds (- flt_max) flt_max (- flt_max) flt_max flt_max (- flt_max) flt_max (- flt_max).
(** The body of the loop, uh 93-102. *)
Definition bounds_step (b : bounds) (q : nat * nat * vec2) : bounds :=
  let '(x, y, (px, py)) := q in
  {| o_x0 := Rmin (o_x0 b) px; o_x1 := Rmax (o_x1 b) px; o_y0 := Rmin (o_y0 b) py; o_y1 := Rmax (o_y1 b) py;
     i_x0 := if (x =? 0)%nat then Rmax (i_x0 b) px else i_x0 b;
     i_x1 := if (x =? 8)%nat then Rmin (i_x1 b) px else i_x1 b;
     i_y0 := if (y =? 0)%nat then Rmax (i_y0 b) py else i_y0 b;
     i_y1 := if (y =? 8)%nat then Rmin (i_y1 b) py else i_y1 b |}.
Definition samples (norm : vec2 -> vec2) (s : image_size) : list (nat * nat * vec2) :=
  flat_map (fun y => map (fun x => (x, y, norm (sample s x y))) (seq 0 9)) (seq 0 9).
Record rectangle := Rectangle { r_x : R; r_y : R; r_width : R; r_height : R }.
(** getUndistortRectangles: inner and outer. *)
Definition undistort_rectangles (norm : vec2 -> vec2) (s : image_size) : rectangle * rectangle :=
  let b := fold_left bounds_step (samples norm s) no_bounds in
  (Rectangle (i_x0 b) (i_y0 b) (i_x1 b - i_x0 b) (i_y1 b - i_y0 b), Rectangle (o_x0 b) (o_y0 b) (o_x1 b - o_x0 b) (o_y1 b - o_y0 b)).

(** ** getOptimalNewCameraMatrix, uh 119-155 *)
(** static_cast<int> of a positive number, uh 126-127. *)
Definition output_size (scale : R) (s : image_size) : image_size := {| width := Zfloor (scale * IZR (width s)); height := Zfloor (scale * IZR (height s)) |}.
Definition optimal_matrix (norm : vec2 -> vec2) (s : image_size) (alpha scale : R) : option pinhole :=
  if Rle_dec 0 alpha then if Rle_dec alpha 1 then if Rlt_dec 0 scale then
    let out := output_size scale s in
    let '(inner, outer) := undistort_rectangles norm s in
    let fx0 := (IZR (width out) - 1) / r_width inner in
    let fy0 := (IZR (height out) - 1) / r_height inner in
    let cx0 := - fx0 * r_x inner in
    let cy0 := - fy0 * r_y inner in
    let fx1 := (IZR (width out) - 1) / r_width outer in
    let fy1 := (IZR (height out) - 1) / r_height outer in
    let cx1 := - fx1 * r_x outer in
    let cy1 := - fy1 * r_y outer in
    Some {| p_fu := fx0 * (1 - alpha) + fx1 * alpha; p_fv := fy0 * (1 - alpha) + fy1 * alpha;
            p_cu := cx0 * (1 - alpha) + cx1 * alpha; p_cv := cy0 * (1 - alpha) + cy1 * alpha |}
  else None else None else None.

(** ** buildUndistortMap, uh 165-216 *)
(** The position in the input image of pixel j, i of the output image, uh 192-202; None if it is not finite. The flags and states of the cameras are not looked at. *)
Definition map_position (input output : camera) (j i : nat) : option vec2 :=
  let '(x, y, z) := fst (back_project3 output (INR j, INR i)) in
  if Req_EM_T z 0 then None else fst (project3 input (x / z, y / z, z / z)).
(** Conversion of double to int on x86-64: the nearest integer (ties to even), or INT_MIN if that is out of range. *)
Definition cv_round (x : R) : Z := let r := ZnearestE x in if ((- 2 ^ 31 <=? r) && (r <? 2 ^ 31))%Z then r else (- 2 ^ 31)%Z.
Definition to_short (z : Z) : Z := ((z + 2 ^ 15) mod 2 ^ 16 - 2 ^ 15)%Z.
Definition to_ushort (z : Z) : Z := (z mod 2 ^ 16)%Z.
(** CV_16SC2: two shorts and the index of the interpolation table, uh 205-210. *)
Definition fixed_entry (p : vec2) : Z * Z * Z :=
  let iu := cv_round (fst p * 32) in
  let iv := cv_round (snd p * 32) in
  (to_short (Z.shiftr iu 5), to_short (Z.shiftr iv 5), to_ushort (Z.land iv 31 * 32 + Z.land iu 31)%Z).
Definition undistort_map (input output : camera) (s : image_size) : list (list (option (Z * Z * Z))) :=
  map (fun i => map (fun j => option_map fixed_entry (map_position input output j i)) (seq 0 (Z.to_nat (width s)))) (seq 0 (Z.to_nat (height s))).

(** ** Sizes in floating point *)
(** static_cast<int>. *)
Definition truncate (f : spec_float) : Z :=
  match f with S754_finite neg m e => let v := if (0 <=? e)%Z then (Z.pos m * 2 ^ e)%Z else (Z.pos m / 2 ^ (- e))%Z in if neg then (- v)%Z else v | _ => 0%Z end.
(** The output width for which the matrix is computed, uh 126: the factor is a double, exactly the float of the caller. *)
Definition matrix_width (scale : spec_float) (w : Z) : Z := truncate (SFmul 53 1024 scale (binary_normalize 53 1024 w 0 false)).
(** The output width of the camera, umi 55 and um 32: the multiplication is done in float. *)
Definition camera_width (scale : spec_float) (w : Z) : Z := truncate (SFmul 24 128 scale (binary_normalize 24 128 w 0 false)).

(** ** The factories; the two widths are taken to be equal *)
(** Distortion::NullDistortion for the output cameras. *)
Definition no_lens : distortion := {| distort := fun q => q; distort_jacobian := fun _ => ((1, 0), (0, 1)); undistort := fun q => q |}.
(** createMappedUndistorter for a pinhole camera, umi 37-93: output camera and map. *)
Definition pinhole_undistorter (D : distortion) (c : pinhole) (s : image_size) (alpha scale : R) : option (pinhole * list (list (option (Z * Z * Z)))) :=
  match optimal_matrix (normalise D c) s alpha scale with
  | None => None
  | Some k => let out := output_size scale s in
              Some (k, undistort_map (pinhole_camera D c s) (pinhole_camera no_lens k out) out)
  end.
(** createMappedUndistorterToPinhole, um 11-46. *)
Definition unified_undistorter_to_pinhole (D : distortion) (c : unified) (s : image_size) (alpha scale : R) : option (pinhole * list (list (option (Z * Z * Z)))) :=
  match optimal_matrix (normalise_to_pinhole (unified_camera D c s)) s alpha scale with
  | None => None
  | Some k => let out := output_size scale s in
              Some (k, undistort_map (unified_camera D c s) (pinhole_camera no_lens k out) out)
  end.
